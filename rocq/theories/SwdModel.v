(** Model of the swing values of a classifier computed from the differences directly: the array programs of cyext_acv.pyx 2252-2630 and
    cyext_acv_nopa.pyx 3225-3604 (the same text with sequential loops), and the methods [swing_sv_clf] and [swing_sv_clf_nopa]
    (acv_tree.py 563-577).  No proofs here.
    Simplification, for the whole file: exact arithmetic, counters that do not overflow. *)
From Verif Require Import Base TreeModel ShapModel NopaModel AcvModel SdpModel FlatModel ArrModel SwingModel EntryModel SbufModel SwgModel.
Local Open Scope nat_scope.

(** ** The difference of the thresholded probabilities *)
Section Diff.
(** The arguments of cyext_acv.pyx 2252-2256: the tables, [m] columns and the rows of [X], the background, the classes, the level;
    [reads] tells whether the background and the boxes have [m] columns. *)
Variables (T : tabs) (m : nat) (X data : list pt) (fX y_pred : list nat) (thr : Q) (reads : bool).
(** [S] as far as it is filled, the columns [va_id[va]] of the player, the order in which the threads treat the leaves and observations
    of a tree (2298), the tests on [n], [n_u], [n_d] in 2458-2460, where nothing has been assigned to them *)
Variables (Sv : list nat) (va : group) (order : nat -> list (nat * nat)) (stray : bool * bool * bool).
(** cyext_acv.pyx 2370-2378: the additions for one row; the second record has [p_s_m] for [p_s] *)
Definition count_row (same : bool) (lm lm_s : nat) (c : six) : six :=
  if same then mkSix (p_ c + lm) (p_u c + lm) (p_d c) (p_s c + lm_s) (p_su c + lm_s) (p_sd c)
  else mkSix (p_ c + lm) (p_u c) (p_d c + lm) (p_s c + lm_s) (p_su c) (p_sd c + lm_s).
(** cyext_acv.pyx 2333-2378: one background row *)
Definition diff_row (p : rect) (f : nat) (c : six * six) (z : pt) (y : nat) : option (six * six) :=
  match in_cl m p (seq 0 m) z, in_cl m p Sv z with
  | Some a_it, Some b_it =>
      let lm := if a_it =? m then 1 else 0 in
      if b_it =? length Sv
      then match out_ho m va p z with
           | Some nv_bool => Some (count_row (f =? y) lm 1 (fst c), count_row (f =? y) lm (if nv_bool =? 0 then 1 else 0) (snd c))
           | None => None end
      else Some (count_row (f =? y) lm 0 (fst c), count_row (f =? y) lm 0 (snd c))
  | _, _ => None
  end.
(** cyext_acv.pyx 2299-2397: one leaf, one row [x] of class [f]; the cell has [mean_forest], [p_n] and [mean_forest_m], [p_n_m];
    [csm] is 1 wherever the additions are reached; [values] is not read when the denominators are 0 *)
Definition diff_body (b k : nat) (xf : pt * nat) (cell : cell6 * cell6) : option (cell6 * cell6) :=
  let '(x, f) := xf in
  match out_cl m Sv (t_part T b k) x with
  | Some o_all =>
      if 0 <? o_all then Some cell
      else match out_ho m va (t_part T b k) x with
           | Some nv_bool =>
               if 0 <? nv_bool then Some cell
               else match rows_loop (diff_row (t_part T b k) f) data y_pred (six0, six0), value_at T b k f with
                    | Some c, Some v => Some (add_cell true v (fst c) (fst cell), add_cell true v (snd c) (snd cell))
                    | Some c, None => if (p_s (fst c) =? 0) && (p_su (fst c) =? 0) && (p_sd (fst c) =? 0) then Some cell else None
                    | None, _ => None end
           | None => None end
  | None => None
  end.
(** [ss += q] with a NaN (cyext_acv.pyx 2423) *)
Definition oadd (a q : option Q) : option Q := match a, q with Some a, Some q => Some (a + q)%Q | _, _ => None end.
(** cyext_acv.pyx 2406-2425, 2448-2460: one of [ss_a_m], [ss_u_m], [ss_d_m]; [guard b] is the test after [if]; [0 / 0] is a NaN (the means
    vanish with [n_m]) *)
Definition diff_ss (guard : nat -> bool) (upto : nat -> nat) (buf : nat -> nat -> nat -> cell6) (f g : cell6 -> Q) (i : nat) : option Q :=
  fold_left (fun ss b => let n := box_n T buf g i b in
               fold_left (fun ss k => oadd ss (if guard b then cdiv (f (buf b k i)) n else Some 0%Q)) (seq 0 (upto b)) ss)
            (seq 0 (t_trees T)) (Some 0%Q).
(** cyext_acv.pyx 2400-2503: [sdp[i]] *)
Definition diff_out (buf : nat -> nat -> nat -> cell6 * cell6) (i : nat) : Q :=
  let one b k i := fst (buf b k i) in
  let two b k i := snd (buf b k i) in
  let ratio upto := let ss_a := box_ss T upto one c_a n_a i in let ss_u := box_ss T upto one c_u n_u i in
                    let ss_d := box_ss T upto one c_d n_d i in qdiv0 (ss_a - ss_d) (ss_u - ss_d) in
  if negb (length Sv =? 0) && negb (length Sv + length va =? m)
  then let ne g b := negb (qeqb (box_n T one g i b) 0) in
       d_compare thr (ratio (t_nb T))
         (d_ratio (diff_ss (ne n_a) (t_nb T) two c_a n_a i) (diff_ss (ne n_u) (t_nb T) two c_u n_u i) (diff_ss (ne n_d) (t_nb T) two c_d n_d i))
  else if length Sv =? 0
  then let '(sn, su, sd) := stray in
       d_compare thr 0
         (d_ratio (diff_ss (fun _ => sn) (fun _ => t_max T) two c_a n_a i) (diff_ss (fun _ => su) (fun _ => t_max T) two c_u n_u i)
                  (diff_ss (fun _ => sd) (fun _ => t_max T) two c_d n_d i))
  else d_compare thr (ratio (fun _ => t_max T)) (Some 1%Q).
(** cyext_acv.pyx 2252-2505 ([compute_sdp_swing_diff]) *)
Definition diff_call : option (nat -> Q) :=
  if reads then match own_trees T order (get_f X fX) diff_body (cell0, cell0) with
                | Some buf => Some (diff_out buf)
                | None => None end
  else None.
End Diff.

(** ** The routine *)
Section Routine.
(** As for [swing_prog]; [diff va c S g] is the call of cyext_acv.pyx 2609-2611 in pass [c] for the player [va] with columns [g]. *)
Variables (m D N : nat) (C : list group) (diff : nat -> nat -> list nat -> group -> option (nat -> Q)) (adding : nat -> nat -> list nat) (junk : groups_buf).
(** cyext_acv.pyx 2614-2628: all observations *)
Definition direct_rows (np_ : nat) (w : Q) (v : nat -> Q) (cols : group) (order : list nat) (out : nat -> nat -> swing) : option (nat -> nat -> swing) :=
  ofold (fun out i => if i <? N then swing_add m np_ w (v i) i cols out else None) order out.
(** cyext_acv.pyx 2598-2628: one counter for the player [va] of [np_] *)
Definition direct_counter (np_ va : nat) (ids : groups_buf) (st : wstate) (c : nat) : option wstate :=
  match fill 0 c (map (read_group (w_sm st)) (seq 0 (np_ - 1))) (w_S st) 0 0 with
  | None => None
  | Some (S1, S_size, va_size) =>
      match diff va c (map (fun s => nth s S1 0) (seq 0 S_size)) (read_group ids va) with
      | Some v => match direct_rows np_ (1 / binomialC (np_ - 1) va_size)%Q v (read_group ids va) (adding va c) (w_out st) with
                  | Some out => Some (mkW S1 (w_sm st) out)
                  | None => None end
      | None => None
      end
  end.
(** cyext_acv.pyx 2586-2628: one player; the others are written to [sm_buf] first *)
Definition direct_player (players : list group) (ids : groups_buf) (st : wstate) (va : nat) : option wstate :=
  match write_groups D (drop_nth va players) (w_sm st) with
  | Some sm => ofold (direct_counter (length players) va ids) (seq 0 (2 ^ (length players - 1))) (mkW (w_S st) sm (w_out st))
  | None => None
  end.
(** cyext_acv.pyx 2512-2630 ([swing_sv_clf_direct]); [C[0]] does not exist for [C = []] (2549) *)
Definition direct_prog : option (nat -> nat -> swing) :=
  match C with
  | [] => None
  | _ =>
      let players := va_id_arr C m in
      match write_groups D players junk with
      | Some ids =>
          option_map (fun st i c => over_players (length players) (w_out st i c))
            (ofold (direct_player players ids) (seq 0 (length players))
               (mkW (repeat 0 m) (fun _ _ => 0, fun _ => 0) (fun _ _ => swing0)))
      | None => None
      end
  end.
End Routine.

(** ** The methods *)
Section Method.
(** the object, [self.model.predict_proba] (acv_tree.py 564), the orders of the threads in the passes, what np.empty leaves, the tests on
    variables without value: read for an empty [S], in one pass for each player (the columns tell the player) *)
Variables (h : shap_acv) (proba : mat -> outcome (list (list Q))) (order : nat -> nat -> nat -> list (nat * nat))
  (adding : nat -> nat -> list nat) (junk : groups_buf) (stray : group -> bool * bool * bool).
(** acv_tree.py 563-569 ([swing_sv_clf]): always [values]; arguments not checked, [X] is converted, [data] is not *)
Definition acv_direct (X data : marg) (C : list group) (thr : Q) : outcome (list (list swing)) :=
  xm <- seen X ;; fX <- classes proba xm ;; zm <- seen data ;; y <- classes proba zm ;;
  x <- buffer2 (as_float X) ;; z <- buffer2 data ;;
  result (length (rows x)) (cols x)
    (direct_prog (cols x) (cols z) (length (rows x)) C
       (fun va c Sv g => diff_call (o_tabs (h_acv h)) (cols x) (points x) (points z) fX y thr (wide_enough (h_acv h) (cols x) z) Sv g (order va c) (stray g))
       adding junk).
End Method.
(** acv_tree.py 571-577 ([swing_sv_clf_nopa]): all loops in order (cyext_acv_nopa.pyx 3268-3270, 3587) *)
Definition acv_direct_nopa (h : shap_acv) (proba : mat -> outcome (list (list Q))) (junk : groups_buf) (stray : group -> bool * bool * bool)
  (X data : marg) (C : list group) (thr : Q) : outcome (list (list swing)) :=
  xm <- seen X ;;
  acv_direct h proba (fun _ _ => in_order (o_tabs (h_acv h)) (points xm)) (fun _ _ => seq 0 (length (rows xm))) junk stray X data C thr.

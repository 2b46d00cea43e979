(** Model of the swing values of a classifier as the array program of cyext_acv.pyx 2026-2244, all observations at once, with its shared
    work buffers and the threads over the observations, and of the method [swing_sv_clf_slow] that calls it (acv_tree.py 585-591).
    No proofs here.
    Simplification, for the whole file: exact arithmetic, counters that do not overflow. *)
From Verif Require Import Base TreeModel ShapModel NopaModel SdpModel FlatModel ArrModel SwingModel EntryModel SbufModel.
Local Open Scope nat_scope.

(** [a[i] = v] (cyext_acv.pyx 2186, 2203) *)
Definition set1 {V} (a : nat -> V) (i : nat) (v : V) : nat -> V := fun i' => if i' =? i then v else a i'.

(** ** The thresholded probability *)
Section Prob.
(** The arguments of cyext_acv.pyx 2026-2030: the tables, [m] columns and the rows of [X], the background, the classes, the level;
    [reads] tells whether the background and the boxes have [m] columns; the threads treat the observations in the order [rowing S b k] for the columns [S], tree [b]
    and leaf [k] (2061). *)
Variables (T : tabs) (m : nat) (X data : list pt) (fX y_pred : list nat) (thr : Q) (reads : bool) (rowing : list nat -> nat -> nat -> list nat).
(** cyext_acv.pyx 2061-2102: one leaf, one observation; [mean_forest] has one cell of three numbers for an observation, which all
    leaves of all trees add to.  The three of [p_n] in [cell6] are not used. *)
Definition swing_pass (Sv : list nat) (b k : nat) (mf : nat -> cell6) (i : nat) : option (nat -> cell6) :=
  match get_f X fX i with
  | Some xf => match sdp_body T m data Sv y_pred false (box_row m Sv) b k xf (mf i) with
               | Some c => Some (set1 mf i c)
               | None => None end
  | None => None
  end.
(** cyext_acv.pyx 2060-2102: one leaf; [partition_leaves_trees] has [max_leaves] of them *)
Definition swing_leaf (Sv : list nat) (b : nat) (mf : nat -> cell6) (k : nat) : option (nat -> cell6) :=
  if k <? t_max T then ofold (swing_pass Sv b k) (rowing Sv b k) mf else None.
(** cyext_acv.pyx 2059-2102: all trees *)
Definition swing_forest (Sv : list nat) : option (nat -> cell6) :=
  ofold (fun mf b => ofold (swing_leaf Sv b) (seq 0 (t_nb T b)) mf) (seq 0 (t_trees T)) (fun _ => cell0).
(** cyext_acv.pyx 2104-2111: [sdp[i]] *)
Definition swing_level (c : cell6) : Q := if qleb thr (qdiv0 (c_a c - c_d c) (c_u c - c_d c)) then 1%Q else 0%Q.
(** cyext_acv.pyx 2026-2113 ([compute_sdp_swing]) *)
Definition swing_call (Sv : list nat) : option (nat -> Q) :=
  if length Sv =? m then Some (fun _ => 1%Q) else if length Sv =? 0 then Some (fun _ => 0%Q)
  else if reads then match swing_forest Sv with Some mf => Some (fun i => swing_level (mf i)) | None => None end
  else None.
End Prob.

(** ** The routine *)

(** A buffer for lists of columns with the lengths: [sm_buf] and [sm_size], or [va_id_a] and [len_va_id] (cyext_acv.pyx 2152-2156,
    2180-2181). *)
Notation groups_buf := ((nat -> nat -> nat) * (nat -> nat))%type.
(** cyext_acv.pyx 2187-2188, 2204-2205: [for j in range(len): a[i, j] = g[j]]; [D] cells in both directions *)
Definition write_row (D i : nat) (g : group) (a : nat -> nat -> nat) : option (nat -> nat -> nat) :=
  ofold (fun a jv => if (i <? D) && (fst jv <? D) then Some (set2 a i (fst jv) (snd jv)) else None) (indexed g) a.
(** cyext_acv.pyx 2185-2188, 2202-2205: all lists *)
Definition write_groups (D : nat) (gs : list group) (s : groups_buf) : option groups_buf :=
  ofold (fun s ig => let '(i, g) := ig in
           if i <? D then match write_row D i g (fst s) with
                          | Some a => Some (a, set1 (snd s) i (length g))
                          | None => None end
           else None) (indexed gs) s.
(** the columns read back from row [i] (cyext_acv.pyx 2212-2213, 2217-2218, 2233) *)
Definition read_group (s : groups_buf) (i : nat) : group := map (fst s i) (seq 0 (snd s i)).

Section Routine.
(** The columns of [X], of [data] (cyext_acv.pyx 2134, 2153), the number of rows, [C], the call of 2221-2227, the order in which the
    threads treat the observations for a player and a counter (2229); the first contents of [va_id_a] and [len_va_id], which are
    allocated with np.empty (2180-2181). *)
Variables (m D N : nat) (C : list group) (call : list nat -> option (nat -> Q)) (adding : nat -> nat -> list nat) (junk : groups_buf).
(** [S], [sm_buf] with [sm_size], and the three arrays of results side by side (cyext_acv.pyx 2136-2156) *)
Record wstate := mkW { w_S : list nat; w_sm : groups_buf; w_out : nat -> nat -> swing }.
(** cyext_acv.pyx 2233-2242: the additions for one observation; [np_] players *)
Definition swing_add (np_ : nat) (w d : Q) (i : nat) (cols : group) (out : nat -> nat -> swing) : option (nat -> nat -> swing) :=
  ofold (fun out c => if c <? m then Some (set2 out i c (bump np_ w d (out i c))) else None) cols out.
(** cyext_acv.pyx 2229-2242: all observations *)
Definition swing_rows (np_ : nat) (w : Q) (vp vm : nat -> Q) (cols : group) (order : list nat) (out : nat -> nat -> swing)
  : option (nat -> nat -> swing) :=
  ofold (fun out i => if i <? N then swing_add np_ w (vp i - vm i)%Q i cols out else None) order out.
(** cyext_acv.pyx 2207-2242: one counter for the player [va] of [np_]; [ids] is [va_id_a] *)
Definition swing_counter (np_ va : nat) (ids : groups_buf) (st : wstate) (c : nat) : option wstate :=
  match fill 0 c (map (read_group (w_sm st)) (seq 0 (np_ - 1))) (w_S st) 0 0 with
  | None => None
  | Some (S1, S_size, va_size) =>
      match ofold put_group (read_group ids va) (S1, S_size) with
      | None => None
      | Some (S2, n) =>
          let read k := map (fun s => nth s S2 0) (seq 0 k) in
          match call (read n), call (read S_size) with
          | Some vp, Some vm =>
              match swing_rows np_ (1 / binomialC (np_ - 1) va_size)%Q vp vm (read_group ids va) (adding va c) (w_out st) with
              | Some out => Some (mkW S2 (w_sm st) out)
              | None => None end
          | _, _ => None
          end
      end
  end.
(** cyext_acv.pyx 2198-2242: one player; the others are written to [sm_buf] first *)
Definition swing_player (players : list group) (ids : groups_buf) (st : wstate) (va : nat) : option wstate :=
  match write_groups D (drop_nth va players) (w_sm st) with
  | Some sm => ofold (swing_counter (length players) va ids) (seq 0 (2 ^ (length players - 1))) (mkW (w_S st) sm (w_out st))
  | None => None
  end.
(** cyext_acv.pyx 2244: [phi / m], the other arrays as they are *)
Definition over_players (np_ : nat) (s : swing) : swing :=
  mkSwing (sw_phi s / Qn np_) (sw_pos s) (sw_neg s) (n_pos s) (n_neg s) (n_null s).
(** cyext_acv.pyx 2121-2244 ([swing_sv_clf]); [C[0]] does not exist for [C = []] (2158) *)
Definition swing_prog : option (nat -> nat -> swing) :=
  match C with
  | [] => None
  | _ =>
      let players := va_id_arr C m in
      match write_groups D players junk with
      | Some ids =>
          option_map (fun st i c => over_players (length players) (w_out st i c))
            (ofold (swing_player players ids) (seq 0 (length players))
               (mkW (repeat 0 m) (fun _ _ => 0, fun _ => 0) (fun _ _ => swing0)))
      | None => None
      end
  end.
End Routine.

(** ** The method *)
Section Method.
(** the object, [self.model.predict_proba] (acv_tree.py 586), the orders of the threads, what np.empty leaves *)
Variables (h : shap_acv) (proba : mat -> outcome (list (list Q))) (rowing : list nat -> nat -> nat -> list nat)
  (adding : nat -> nat -> list nat) (junk : groups_buf).
(** acv_tree.py 585-591 ([swing_sv_clf_slow]): always [values]; arguments not checked, [X] is converted, [data] is not *)
Definition acv_swings (X data : marg) (C : list group) (thr : Q) : outcome (list (list swing)) :=
  xm <- seen X ;; fX <- classes proba xm ;; zm <- seen data ;; y <- classes proba zm ;;
  x <- buffer2 (as_float X) ;; z <- buffer2 data ;;
  result (length (rows x)) (cols x)
    (swing_prog (cols x) (cols z) (length (rows x)) C
       (swing_call (o_tabs (h_acv h)) (cols x) (points x) (points z) fX y thr (wide_enough (h_acv h) (cols x) z) rowing) adding junk).
End Method.

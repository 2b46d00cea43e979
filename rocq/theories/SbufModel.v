(** Model of the compiled Shapley routines as the array programs they are
    (cyext_acv.pyx 1272-1485 and cyext_acv_nopa.pyx 1503-1700): all rows and outputs at once,
    leaves from the padded tables, work buffers with one cell per leaf and counter, leaves
    treated in any order, accesses outside an array kept apart; and of the methods that call them
    (acv_tree.py 16-37, 342-351), from the trees of the ensemble.  No proofs here.
    Simplification, for the whole file: exact arithmetic, counters that do not overflow. *)
From Verif Require Import Base TreeModel ShapModel NopaModel FlatModel SkModel ArrModel EntryModel.

Section Programs.
(** The arguments of cyext_acv.pyx 1272-1280: the tables, [node_idx_trees], [data] with [D] columns,
    [scaling], [X] with [m] columns, [C]. *)
Variables (T : tabs) (nid : nat -> nat -> list nat) (D : nat) (data : list pt) (scaling m : nat) (X : list pt) (C : list group).

(** [values] of one row, column and output: [phi], or one slot of [phi_b] (cyext_acv.pyx 1290, 1293) *)
Notation block := (nat -> nat -> nat -> Q).
(** [phi[i, c, j] += q] (cyext_acv.pyx 1476) *)
Definition add3 (a : block) (i c j : nat) (q : Q) : block :=
  fun i' c' j' => if (i' =? i) && (c' =? c) && (j' =? j) then (a i' c' j' + q)%Q else a i' c' j'.
(** the columns read in [X], in [data] and in the boxes exist (cyext_acv.pyx 1426, 1435, 1448, 1455; the boxes have [D]
    columns, base_tree.py 608-609) *)
Definition cols_exist (l : list nat) : bool := forallb (fun s => (s <? D) && (s <? m)) l.
(** cyext_acv.pyx 1474-1476: one row, all columns of the player, all outputs *)
Definition add_row (b k : nat) (va : group) (i : nat) (w : Q) (a : block) : option block :=
  ofold (fun a c => ofold (fun a j => match value_at T b k j with
                                      | Some v => Some (add3 a i c j (w * v))
                                      | None => None end) (seq 0 (t_out T)) a) va a.
(** cyext_acv.pyx 1441-1472: what one row gets, before the leaf value; [F] is the coalition read back from [S] *)
Definition row_weight (p : rect) (va : group) (F : list nat) (set_size va_size lm : nat) (x : pt) : Q :=
  let cs := sat p F x in
  let csi := cs && not_out p va x in
  ((coef_0 m va_size + coef m set_size va_size)
   * (prob_si csi lm (count_si data p F va) - prob_s (length data) F cs lm (count_s data p F)))%Q.
(** cyext_acv.pyx 1421-1476: the rows, for one leaf, player and counter.  [va]'s columns are read for the rows that
    are in the box over [F], all of them for the first counter.  Simplification: also looked at for the others. *)
Definition add_rows (b k : nat) (va : group) (F : list nat) (set_size va_size lm : nat) (a : block) : option block :=
  if cols_exist F && cols_exist va then
    ofold (fun a ix => add_row b k va (fst ix) (row_weight (t_part T b k) va F set_size va_size lm (snd ix)) a)
          (indexed X) a
  else None.
(** cyext_acv.pyx 1371-1398 ([node_id[leaf_numb]]) *)
Definition leaf_players (vars : list nat) : list group :=
  if has_coal C then snd (fold_left (leaf_step (remove_va_arr C m)) vars (C, []))
  else fold_left (fun acc v => acc ++ [[v]]) vars [].
(** cyext_acv.pyx 1401-1407: the player is at the leaf; the others *)
Definition others_at (va : group) (gs : list group) : option (list group) :=
  if find_pos (fun g => if group_eq_dec g va then true else false) gs <? length gs then Some (drop_value va gs) else None.

(** ** The parallel routine *)

(** The arrays [S] (player, counter, leaf) and [phi_b] (leaf, counter), cyext_acv.pyx 1293, 1296; [lm_s] and [lm_si]
    are set to 0 before they are used (1421-1422). *)
Record work := mkWork { w_S : nat -> nat -> nat -> list nat; w_phi : nat -> nat -> block }.
(** [a[v, c, k] = l] (cyext_acv.pyx 1417) *)
Definition set3 {V} (a : nat -> nat -> nat -> V) (v c k : nat) (l : V) : nat -> nat -> nat -> V :=
  fun v' c' k' => if (v' =? v) && (c' =? c) && (k' =? k) then l else a v' c' k'.
(** cyext_acv.pyx 1411-1476: one counter; the arrays have [2**scaling] cells in that direction (1293, 1296, 1349) *)
Definition counter_pass (b k lm v : nat) (va : group) (gs : list group) (st : work) (c : nat) : option work :=
  if c <? 2 ^ scaling then
    match fill 0 c gs (w_S st v c k) 0 0 with
    | None => None
    | Some (S', S_size, va_size) =>
        match add_rows b k va (map (fun s => nth s S' 0) (seq 0 S_size)) (length gs) va_size lm (w_phi st k c) with
        | Some a => Some (mkWork (set3 (w_S st) v c k S') (set2 (w_phi st) k c a))
        | None => None end
    end
  else None.
(** cyext_acv.pyx 1400-1476: one player; [node_id_va] and [S] have [m] cells in that direction (1296, 1315) *)
Definition player_pass (b k lm : nat) (gs0 : list group) (st : work) (v_va : nat * group) : option work :=
  let '(v, va) := v_va in
  if v <? m then
    match others_at va gs0 with
    | Some gs => ofold (counter_pass b k lm v va gs) (seq 0 (2 ^ length gs)) st
    | None => Some st end
  else None.
(** cyext_acv.pyx 1361-1476: one pass of the parallel loop.  Passes for different leaves touch different cells and
    have their scalars to themselves, so whole passes in some order stand for any interleaving (C11). *)
Definition leaf_pass (b : nat) (st : work) (k : nat) : option work :=
  if k <? t_max T then
    ofold (player_pass b k (count_leaf D data (t_part T b k)) (leaf_players (nid b k))) (indexed (va_id_arr C m)) st
  else None.
(** cyext_acv.pyx 1478-1483 *)
Definition reduce (st : work) (phi : block) : block := fun i c j =>
  fold_left (fun acc k => fold_left (fun acc cc => (acc + w_phi st k cc i c j)%Q) (seq 0 (2 ^ scaling)) acc)
            (seq 0 (t_max T)) (phi i c j).
(** For every tree, the order in which the leaves are treated by the threads of [prange] (cyext_acv.pyx 1360). *)
Variable order : nat -> list nat.
(** cyext_acv.pyx 1353-1483: one tree *)
Definition tree_pass (s : work * block) (b : nat) : option (work * block) :=
  match ofold (leaf_pass b) (order b) (mkWork (w_S (fst s)) (fun _ _ _ _ _ => 0%Q)) with
  | Some st => Some (st, reduce st (snd s))
  | None => None
  end.
(** cyext_acv.pyx 1272-1485 ([shap_values_leaves_pa]); [C[0]] does not exist for [C = []] (1323). *)
Definition shap_prog : option block :=
  match C with
  | [] => None
  | _ => match ofold tree_pass (seq 0 (t_trees T)) (mkWork (fun _ _ _ => repeat 0 m) (fun _ _ _ _ _ => 0%Q), fun _ _ _ => 0%Q) with
         | Some (_, phi) => Some (fun i c j => (phi i c j / Qn m)%Q)
         | None => None end
  end.

(** ** The sequential routine *)

(** cyext_acv_nopa.pyx 1633-1698: one counter; the state is [S] and [phi] *)
Definition counter_seq (b k lm : nat) (va : group) (gs : list group) (st : list nat * block) (c : nat) : option (list nat * block) :=
  match fill 0 c gs (fst st) 0 0 with
  | None => None
  | Some (S', S_size, va_size) =>
      match add_rows b k va (map (fun s => nth s S' 0) (seq 0 S_size)) (length gs) va_size lm (snd st) with
      | Some a => Some (S', a)
      | None => None end
  end.
(** cyext_acv_nopa.pyx 1622-1698: one player *)
Definition player_seq (b k lm : nat) (gs0 : list group) (st : list nat * block) (v_va : nat * group) : option (list nat * block) :=
  let '(v, va) := v_va in
  if v <? m then
    match others_at va gs0 with
    | Some gs => ofold (counter_seq b k lm va gs) (seq 0 (2 ^ length gs)) st
    | None => Some st end
  else None.
(** cyext_acv_nopa.pyx 1582-1698: one leaf; the vectors indexed by the leaf have [max_leaves] cells (1536-1545) *)
Definition leaf_seq (b : nat) (st : list nat * block) (k : nat) : option (list nat * block) :=
  if k <? t_max T then
    ofold (player_seq b k (count_leaf D data (t_part T b k)) (leaf_players (nid b k))) (indexed (va_id_arr C m)) st
  else None.
(** cyext_acv_nopa.pyx 1503-1700 ([shap_values_leaves_nopa]) *)
Definition shap_seq_prog : option block :=
  match C with
  | [] => None
  | _ => match ofold (fun st b => ofold (leaf_seq b) (seq 0 (t_nb T b)) st) (seq 0 (t_trees T)) (repeat 0 m, fun _ _ _ => 0%Q) with
         | Some (_, phi) => Some (fun i c j => (phi i c j / Qn m)%Q)
         | None => None end
  end.
End Programs.

(** ** The object and its methods *)

(** base_tree.py 589-595: the split features above a leaf, [list(set(node_id[1:]))]; [listed] is [list(set(...))] *)
Definition node_set (listed : list nat -> list nat) (m : mtree) (i : nat) : list nat :=
  match get_partition (length (m_cl m)) (skeleton m) i whole [] with Some (_, l) => listed l | None => [] end.
(** base_tree.py 586, 596, 624: [self.max_var] *)
Definition ensemble_max (listed : list nat -> list nat) (ts : list mtree) : option nat :=
  max_var (map (fun m => map (fun i => length (node_set listed m i)) (leaf_list m)) ts).
(** What the methods read of the object: besides the tables, [self.data], [node_idx_trees] and [max_var]
    (acv_tree.py 32-36). *)
Record shap_acv := mkShap { h_acv : acv; h_data : mat; h_nid : nat -> nat -> list nat; h_max : nat }.
(** base_tree.py 30, 513-634: the background is checked first *)
Definition construct_shap (listed : list nat -> list nat) (sig : Q -> Q) (ts : list mtree) (stacked : nat) (boosted : bool)
  (data : marg) : option shap_acv :=
  match check_array data with
  | Returned (M_array _ c r) =>
      match construct sig ts stacked boosted c, ensemble_max listed ts with
      | Some a, Some mv => Some (mkShap a (mkMat c r) (fun b k => let m := nth b ts no_tree in node_set listed m (nth k (leaf_list m) 0)) mv)
      | _, _ => None
      end
  | _ => None
  end.
(** base_tree.py 20-634 for a scikit-learn model ([load_model] of SkModel.v, lines 88-300) *)
Definition construct_shap_sk (listed : list nat -> list nat) (apl : Z -> Q) (sig : Q -> Q) (mo : skmodel) (data : marg) : option shap_acv :=
  match load_model apl mo with
  | Some l => construct_shap listed sig (l_trees l) (l_stacked l) (match mo with BoostClf _ _ _ => true | _ => false end) data
  | None => None
  end.
(** the array returned: rows, columns, outputs (cyext_acv.pyx 1290, 1485) *)
Definition cube (n m k : nat) (o : option (nat -> nat -> nat -> Q)) : outcome (list (list (list Q))) :=
  match o with
  | Some r => Returned (map (fun i => map (fun c => map (r i c) (seq 0 k)) (seq 0 m)) (seq 0 n))
  | None => Stray
  end.
(** acv_tree.py 16-37 ([ACVTree.shap_values], no cache) *)
Definition acv_shap (h : shap_acv) (order : nat -> list nat) (X : marg) (C : list group) : outcome (list (list (list Q))) :=
  X1 <- check_array X ;; x <- buffer2 X1 ;;
  cube (length (rows x)) (cols x) (t_out (o_tabs (h_acv h)))
    (shap_prog (o_tabs (h_acv h)) (h_nid h) (cols (h_data h)) (points (h_data h)) (h_max h) (cols x) (points x) C order).
(** acv_tree.py 342-351 ([shap_values_nopa]) *)
Definition acv_shap_nopa (h : shap_acv) (X : marg) (C : list group) : outcome (list (list (list Q))) :=
  X1 <- check_array X ;; x <- buffer2 (as_float X1) ;;
  cube (length (rows x)) (cols x) (t_out (o_tabs (h_acv h)))
    (shap_seq_prog (o_tabs (h_acv h)) (h_nid h) (cols (h_data h)) (points (h_data h)) (cols x) (points x) C).

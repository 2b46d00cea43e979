(** Model of the cached Shapley routines as the array programs they are (cyext_acv_cache.pyx 59-404,
    cyext_acv_nopa.pyx 2482-2827): the counts that the constructor stores, the values computed from them, accesses outside an
    array kept apart; and of the methods that call them (acv_tree.py 16-37, 377-401, 672-691, base_tree.py 636-640), from
    the trees of the ensemble.  No proofs here.
    Simplification, for the whole file: exact arithmetic, counters that do not overflow; the counts, stored as floats, are
    whole numbers here. *)
From Verif Require Import Base TreeModel ShapModel NopaModel FlatModel SkModel ArrModel EntryModel SbufModel.

(** The arrays [lm] (tree, leaf), [lm_s] and [lm_si] (tree, player, leaf, counter), with the number of players that
    the last two have room for (cyext_acv_cache.pyx 81-82, 129-131). *)
Record counts := mkCounts { c_players : nat; c_lm : nat -> nat -> nat; c_s : nat -> nat -> nat -> nat -> nat; c_si : nat -> nat -> nat -> nat -> nat }.
(** [a[b, v, k, c] += n] (cyext_acv_cache.pyx 203, 212) *)
Definition bump4 (a : nat -> nat -> nat -> nat -> nat) (b v k c n : nat) : nat -> nat -> nat -> nat -> nat :=
  fun b' v' k' c' => if (b' =? b) && (v' =? v) && (k' =? k) && (c' =? c) then a b' v' k' c' + n else a b' v' k' c'.

(** ** Storing the counts *)
Section Store.
(** The arguments of cyext_acv_cache.pyx 59-67: the tables, [node_idx_trees], [data] with [D] columns, [scaling], [C];
    and for every tree the order in which the leaves are treated. *)
Variables (T : tabs) (nid : nat -> nat -> list nat) (D : nat) (data : list pt) (scaling : nat) (C : list group) (order : nat -> list nat).

(** The array [S] (player, counter, leaf), cyext_acv_cache.pyx 75-76, and the counts. *)
Record store := mkStore { r_S : nat -> nat -> nat -> list nat; r_counts : counts }.
(** cyext_acv_cache.pyx 186-212: one counter; the arrays have [2**scaling] cells in that direction (76, 130-131).  The counts
    are added to what the cells hold; the rows of the background are counted as in ShapModel.v. *)
Definition store_counter (b k v : nat) (va : group) (gs : list group) (st : store) (c : nat) : option store :=
  if c <? 2 ^ scaling then
    match fill 0 c gs (r_S st v c k) 0 0 with
    | None => None
    | Some (S', S_size, _) =>
        let F := map (fun s => nth s S' 0) (seq 0 S_size) in
        if cols_exist D D F && cols_exist D D va then
          let h := r_counts st in
          Some (mkStore (set3 (r_S st) v c k S')
                  (mkCounts (c_players h) (c_lm h) (bump4 (c_s h) b v k c (count_s data (t_part T b k) F))
                            (bump4 (c_si h) b v k c (count_si data (t_part T b k) F va))))
        else None
    end
  else None.
(** cyext_acv_cache.pyx 175-212: one player; [node_id_va] and [S] have [D] cells in that direction (76, 96) *)
Definition store_player (b k : nat) (gs0 : list group) (st : store) (v_va : nat * group) : option store :=
  let '(v, va) := v_va in
  if v <? D then
    match others_at va gs0 with
    | Some gs => ofold (store_counter b k v va gs) (seq 0 (2 ^ length gs)) st
    | None => Some st end
  else None.
(** cyext_acv_cache.pyx 135-212: one leaf, one pass of the parallel loop; [lm[b, leaf_numb]] is set *)
Definition store_leaf (b : nat) (st : store) (k : nat) : option store :=
  if k <? t_max T then
    let h := r_counts st in
    ofold (store_player b k (leaf_players D C (nid b k))) (indexed (va_id_arr C D))
      (mkStore (r_S st) (mkCounts (c_players h) (set2 (c_lm h) b k (count_leaf D data (t_part T b k))) (c_s h) (c_si h)))
  else None.
(** cyext_acv_cache.pyx 59-214 ([leaves_cache]); [C[0]] does not exist for [C = []] (104) *)
Definition leaves_store : option counts :=
  match C with
  | [] => None
  | _ => option_map r_counts
           (ofold (fun st b => ofold (store_leaf b) (order b) st) (seq 0 (t_trees T))
              (mkStore (fun _ _ _ => repeat 0 D)
                 (mkCounts (length (va_id_arr C D)) (fun _ _ => 0) (fun _ _ _ _ => 0) (fun _ _ _ _ => 0))))
  end.
End Store.

(** ** The values *)
Section Values.
(** The arguments of cyext_acv_cache.pyx 221-232, as for the uncached routine, and the counts; [n] is [data.shape[0]]. *)
Variables (T : tabs) (nid : nat -> nat -> list nat) (D n : nat) (h : counts) (scaling m : nat) (X : list pt) (C : list group)
  (order : nat -> list nat).
(** one slot of [phi_b], or [phi] (cyext_acv_cache.pyx 241-245) *)
Notation block := (nat -> nat -> nat -> Q).

(** cyext_acv_cache.pyx 363-391: what one row gets, before the leaf value; [ls] and [lsi] are the counts read *)
Definition cached_weight (p : rect) (va : group) (F : list nat) (set_size va_size lm ls lsi : nat) (x : pt) : Q :=
  let cs := sat p F x in
  let csi := cs && not_out p va x in
  ((coef_0 m va_size + coef m set_size va_size) * (prob_si csi lm lsi - prob_s n F cs lm ls))%Q.
(** cyext_acv_cache.pyx 361-395: the rows, for one leaf, player and counter.  [va]'s columns are read for the rows that are
    in the box over [F], all of them for the first counter.  Simplification: also looked at for the others. *)
Definition cached_rows (b k : nat) (va : group) (F : list nat) (set_size va_size lm ls lsi : nat) (a : block) : option block :=
  if cols_exist D m F && cols_exist D m va then
    ofold (fun a ix => add_row T b k va (fst ix) (cached_weight (t_part T b k) va F set_size va_size lm ls lsi (snd ix)) a)
          (indexed X) a
  else None.
(** cyext_acv_cache.pyx 351-395: one counter; [lm_si[b, va, leaf_numb, counter]] is read for every row (391), and [X] has
    rows (acv_tree.py 382), so the player must have a cell there *)
Definition cached_counter (b k v : nat) (va : group) (gs : list group) (st : work) (c : nat) : option work :=
  if (c <? 2 ^ scaling) && (v <? c_players h) then
    match fill 0 c gs (w_S st v c k) 0 0 with
    | None => None
    | Some (S', S_size, va_size) =>
        match cached_rows b k va (map (fun s => nth s S' 0) (seq 0 S_size)) (length gs) va_size
                (c_lm h b k) (c_s h b v k c) (c_si h b v k c) (w_phi st k c) with
        | Some a => Some (mkWork (set3 (w_S st) v c k S') (set2 (w_phi st) k c a))
        | None => None end
    end
  else None.
(** cyext_acv_cache.pyx 340-395: one player; [node_id_va] and [S] have [m] cells in that direction (248, 266) *)
Definition cached_player (b k : nat) (gs0 : list group) (st : work) (v_va : nat * group) : option work :=
  let '(v, va) := v_va in
  if v <? m then
    match others_at va gs0 with
    | Some gs => ofold (cached_counter b k v va gs) (seq 0 (2 ^ length gs)) st
    | None => Some st end
  else None.
(** cyext_acv_cache.pyx 308-395: one leaf, one pass of the parallel loop *)
Definition cached_leaf (b : nat) (st : work) (k : nat) : option work :=
  if k <? t_max T then ofold (cached_player b k (leaf_players m C (nid b k))) (indexed (va_id_arr C m)) st else None.
(** cyext_acv_cache.pyx 300-402: one tree *)
Definition cached_tree (s : work * block) (b : nat) : option (work * block) :=
  match ofold (cached_leaf b) (order b) (mkWork (w_S (fst s)) (fun _ _ _ _ _ => 0%Q)) with
  | Some st => Some (st, reduce T scaling st (snd s))
  | None => None
  end.
(** cyext_acv_cache.pyx 221-404 ([shap_values_leaves_cache]) *)
Definition cached_prog : option block :=
  match C with
  | [] => None
  | _ => match ofold cached_tree (seq 0 (t_trees T)) (mkWork (fun _ _ _ => repeat 0 m) (fun _ _ _ _ _ => 0%Q), fun _ _ _ => 0%Q) with
         | Some (_, phi) => Some (fun i c j => (phi i c j / Qn m)%Q)
         | None => None end
  end.
End Values.

(** ** The object and its methods *)

(** The object of SbufModel.v with [self.lm], [self.lm_s] and [self.lm_si], which exist if [cache] was set
    (base_tree.py 30, 37, 636-640). *)
Record kept := mkKept { k_shap : shap_acv; k_counts : option counts }.
(** cyext_acv_nopa.pyx 2482-2638, 2644-2827: the sequential routines are the same programs (also with a slot for every leaf
    and counter), leaves from the first to the last *)
Definition in_turn (h : shap_acv) (b : nat) : list nat := seq 0 (t_nb (o_tabs (h_acv h)) b).
(** base_tree.py 636-640: the last step of the constructor; [order] is that of the threads, if [multi_threads] *)
Definition with_cache (cache multi_threads : bool) (order : nat -> list nat) (C : list group) (h : shap_acv) : outcome kept :=
  if cache then
    match leaves_store (o_tabs (h_acv h)) (h_nid h) (cols (h_data h)) (points (h_data h)) (h_max h) C
            (if multi_threads then order else in_turn h) with
    | Some c => Returned (mkKept h (Some c))
    | None => Stray
    end
  else Returned (mkKept h None).
(** acv_tree.py 377-388 ([ACVTree.shap_values_cache]) and 390-401 ([shap_values_cache_nopa], leaves in turn) *)
Definition kept_cache (o : kept) (order : nat -> list nat) (X : marg) (C : list group) : outcome (list (list (list Q))) :=
  X1 <- check_array X ;;
  match k_counts o with
  | None => Raised EAttribute
  | Some c =>
      let h := k_shap o in
      x <- buffer2 (as_float X1) ;;
      cube (length (rows x)) (cols x) (t_out (o_tabs (h_acv h)))
        (cached_prog (o_tabs (h_acv h)) (h_nid h) (cols (h_data h)) (length (points (h_data h))) c (h_max h) (cols x) (points x) C order)
  end.
(** acv_tree.py 390-401 ([ACVTree.shap_values_cache_nopa]) *)
Definition kept_cache_nopa (o : kept) (X : marg) (C : list group) : outcome (list (list (list Q))) :=
  kept_cache o (in_turn (k_shap o)) X C.
(** acv_tree.py 16-37 ([ACVTree.shap_values]): without the counts, the routine of SbufModel.v *)
Definition kept_shap (o : kept) (order : nat -> list nat) (X : marg) (C : list group) : outcome (list (list (list Q))) :=
  match k_counts o with
  | None => acv_shap (k_shap o) order X C
  | Some _ => X1 <- check_array X ;; kept_cache o order X1 C
  end.

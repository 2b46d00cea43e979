(** Model of the normalized Shapley routines as the array programs they are (cyext_acv.pyx 1492-1749,
    cyext_acv_cache.pyx 410-635 and 640-796, cyext_acv_nopa.pyx 2833-3222): all rows and outputs at once, leaves from the padded
    tables, work buffers with one cell per leaf and counter, leaves treated in any order, accesses outside an array kept apart;
    and of the methods that call them (acv_tree.py 647-692, base_tree.py 636-648), from the trees of the ensemble.
    No proofs here.
    Simplification, for the whole file: exact arithmetic, counters that do not overflow; the counts, stored as floats, are whole
    numbers here. *)
From Verif Require Import Base TreeModel ShapModel NopaModel NormModel FlatModel SkModel ArrModel EntryModel SbufModel CbufModel.
Local Open Scope nat_scope.

(** ** What the two routines share *)
Section Routine.
(** The arguments of cyext_acv.pyx 1492-1500 and cyext_acv_cache.pyx 410-422: the tables, [node_idx_trees], [D] columns of [data],
    [scaling], [X] with [m] columns, [C]; the order in which the leaves of a tree are treated (cyext_acv.pyx 1580). *)
Variables (T : tabs) (nid : nat -> nat -> list nat) (D scaling m : nat) (X : list pt) (C : list group) (order : nat -> list nat).
(** [cells b v]: the count arrays have cells for the leaves of tree [b] and the player at place [v]; [weight b k v c va F set_size
    va_size x]: what a row gets, before the leaf value, for the leaf [k] of tree [b], that player and counter [c]
    (cyext_acv.pyx 1674-1733). *)
Variables (cells : nat -> nat -> bool) (weight : nat -> nat -> nat -> nat -> group -> list nat -> nat -> nat -> pt -> Q).
(** one slot of [phi_b], or [phi] (cyext_acv.pyx 1509-1513) *)
Notation block := (nat -> nat -> nat -> Q).

(** cyext_acv.pyx 1672-1737, cyext_acv_cache.pyx 550-626: the rows, for one leaf, player and counter.  [va]'s columns are read for
    the rows that are in a box over [F], all of them for the first counter.  Simplification: also looked at for the others. *)
Definition norm_rows (b k v c : nat) (va : group) (F : list nat) (set_size va_size : nat) (a : block) : option block :=
  if cols_exist D m F && cols_exist D m va then
    ofold (fun a ix => add_row T b k va (fst ix) (weight b k v c va F set_size va_size (snd ix)) a) (indexed X) a
  else None.
(** cyext_acv.pyx 1632-1737, cyext_acv_cache.pyx 540-626: one counter; the arrays have [2**scaling] cells in that direction
    (cyext_acv.pyx 1513, 1516, 1566-1570) *)
Definition norm_counter (b k v : nat) (va : group) (gs : list group) (st : work) (c : nat) : option work :=
  if (c <? 2 ^ scaling) && cells b v then
    match fill 0 c gs (w_S st v c k) 0 0 with
    | None => None
    | Some (S', S_size, va_size) =>
        match norm_rows b k v c va (map (fun s => nth s S' 0) (seq 0 S_size)) (length gs) va_size (w_phi st k c) with
        | Some a => Some (mkWork (set3 (w_S st) v c k S') (set2 (w_phi st) k c a))
        | None => None end
    end
  else None.
(** cyext_acv.pyx 1621-1737, cyext_acv_cache.pyx 529-626: one player; [node_id_va] and [S] have [m] cells in that direction
    (cyext_acv.pyx 1516, 1535) *)
Definition norm_player (b k : nat) (gs0 : list group) (st : work) (v_va : nat * group) : option work :=
  let '(v, va) := v_va in
  if v <? m then
    match others_at va gs0 with
    | Some gs => ofold (norm_counter b k v va gs) (seq 0 (2 ^ length gs)) st
    | None => Some st end
  else None.
(** cyext_acv.pyx 1581-1737, cyext_acv_cache.pyx 497-626: one leaf, one pass of the parallel loop *)
Definition norm_leaf (b : nat) (st : work) (k : nat) : option work :=
  if k <? t_max T then ofold (norm_player b k (leaf_players m C (nid b k))) (indexed (va_id_arr C m)) st else None.
(** cyext_acv.pyx 1572-1746, cyext_acv_cache.pyx 488-633: one tree *)
Definition norm_tree (s : work * block) (b : nat) : option (work * block) :=
  match ofold (norm_leaf b) (order b) (mkWork (w_S (fst s)) (fun _ _ _ _ _ => 0%Q)) with
  | Some st => Some (st, reduce T scaling st (snd s))
  | None => None
  end.
(** cyext_acv.pyx 1492-1749, cyext_acv_cache.pyx 410-635; [C[0]] does not exist for [C = []] (cyext_acv.pyx 1543) *)
Definition norm_routine : option block :=
  match C with
  | [] => None
  | _ => match ofold norm_tree (seq 0 (t_trees T)) (mkWork (fun _ _ _ => repeat 0 m) (fun _ _ _ _ _ => 0%Q), fun _ _ _ => 0%Q) with
         | Some (_, phi) => Some (fun i c j => (phi i c j / Qn m)%Q)
         | None => None end
  end.
End Routine.

(** ** The routine that counts *)
Section Direct.
(** cyext_acv.pyx 1492-1500; [data] has [D] columns *)
Variables (T : tabs) (nid : nat -> nat -> list nat) (D : nat) (data : list pt) (scaling m : nat) (X : list pt) (C : list group) (order : nat -> list nat).
(** cyext_acv.pyx 1643-1662, 1687-1697, 1709-1719 ([cs], [lm_n], [lm_s] for leaf [k] of tree [b]).  The arrays are written before
    they are read, in cells of their own for every player, leaf and counter: values here. *)
Definition tab_entry_s (b : nat) (F : list nat) (x : pt) (k : nat) : entry :=
  (sat (t_part T b k) F x, (count_leaf D data (t_part T b k), count_s data (t_part T b k) F)).
(** cyext_acv.pyx 1664-1671, 1697-1704, 1719-1727 ([csi], [lm_n], [lm_si]) *)
Definition tab_entry_si (b : nat) (F : list nat) (va : group) (x : pt) (k : nat) : entry :=
  (sat (t_part T b k) F x && not_out (t_part T b k) va x, (count_leaf D data (t_part T b k), count_si data (t_part T b k) F va)).
(** cyext_acv.pyx 1674-1733, with [lm] of 1583-1590: [(coef_0 + coef) * (p_si - p_s)], from the entry of the leaf itself and those
    of the leaves of the tree; [n] is [data.shape[0]] *)
Definition norm_weight_with (n m : nat) (own_s own_si : entry) (es esi : list entry) (F : list nat) (set_size va_size : nat) : Q :=
  let p_s := if length F =? 0 then (Qn (fst (snd own_s)) / Qn n)%Q
             else prob_norm (fst own_s) (fst (snd own_s)) (snd (snd own_s)) (norm_sum es) in
  let p_si := prob_norm (fst own_si) (fst (snd own_si)) (snd (snd own_si)) (norm_sum esi) in
  ((coef_0 m va_size + coef m set_size va_size) * (p_si - p_s))%Q.
(** cyext_acv.pyx 1674-1733 for one row *)
Definition norm_weight (b k v c : nat) (va : group) (F : list nat) (set_size va_size : nat) (x : pt) : Q :=
  norm_weight_with (length data) m (tab_entry_s b F x k) (tab_entry_si b F va x k)
    (map (tab_entry_s b F x) (seq 0 (t_nb T b))) (map (tab_entry_si b F va x) (seq 0 (t_nb T b))) F set_size va_size.
(** cyext_acv.pyx 1566-1570: the count arrays have a cell for every player of [va_id], [max_leaves] in each leaf direction *)
Definition direct_cells (b v : nat) : bool := t_nb T b <=? t_max T.
(** cyext_acv.pyx 1492-1749 ([shap_values_leaves_normalized]) *)
Definition norm_prog : option (nat -> nat -> nat -> Q) := norm_routine T nid D scaling m X C order direct_cells norm_weight.
End Direct.

(** ** Storing the counts *)

(** The arrays [lm_n], [lm_s], [lm_si] (tree, player, leaf, other leaf, counter), with the number of players that they have room for
    (cyext_acv_cache.pyx 716-718). *)
Record ncounts := mkNCounts { nc_players : nat; nc_n : nat -> nat -> nat -> nat -> nat -> nat;
                              nc_s : nat -> nat -> nat -> nat -> nat -> nat; nc_si : nat -> nat -> nat -> nat -> nat -> nat }.
(** cyext_acv_cache.pyx 758-793: [a[b, v, k, leaf_n, c] += f leaf_n] for [leaf_n] from 0 to [nb - 1] *)
Definition bump5 (a : nat -> nat -> nat -> nat -> nat -> nat) (b v k nb c : nat) (f : nat -> nat) : nat -> nat -> nat -> nat -> nat -> nat :=
  fun b' v' k1 k2 c' => if (b' =? b) && (v' =? v) && (k1 =? k) && (k2 <? nb) && (c' =? c) then a b' v' k1 k2 c' + f k2 else a b' v' k1 k2 c'.
Section Store.
(** The arguments of cyext_acv_cache.pyx 640-648, and the order of the leaves. *)
Variables (T : tabs) (nid : nat -> nat -> list nat) (D : nat) (data : list pt) (scaling : nat) (C : list group) (order : nat -> list nat).
(** The array [S] (cyext_acv_cache.pyx 656-657) and the counts. *)
Record nstore := mkNStore { ns_S : nat -> nat -> nat -> list nat; ns_counts : ncounts }.
(** cyext_acv_cache.pyx 747-793: one counter *)
Definition nstore_counter (b k v : nat) (va : group) (gs : list group) (st : nstore) (c : nat) : option nstore :=
  if (c <? 2 ^ scaling) && (t_nb T b <=? t_max T) then
    match fill 0 c gs (ns_S st v c k) 0 0 with
    | None => None
    | Some (S', S_size, _) =>
        let F := map (fun s => nth s S' 0) (seq 0 S_size) in
        if cols_exist D D F && cols_exist D D va then
          let h := ns_counts st in
          Some (mkNStore (set3 (ns_S st) v c k S')
                  (mkNCounts (nc_players h)
                     (bump5 (nc_n h) b v k (t_nb T b) c (fun k' => count_leaf D data (t_part T b k')))
                     (bump5 (nc_s h) b v k (t_nb T b) c (fun k' => count_s data (t_part T b k') F))
                     (bump5 (nc_si h) b v k (t_nb T b) c (fun k' => count_si data (t_part T b k') F va))))
        else None
    end
  else None.
(** cyext_acv_cache.pyx 735-793: one player; [node_id_va] and [S] have [D] cells in that direction (657, 677) *)
Definition nstore_player (b k : nat) (gs0 : list group) (st : nstore) (v_va : nat * group) : option nstore :=
  let '(v, va) := v_va in
  if v <? D then
    match others_at va gs0 with
    | Some gs => ofold (nstore_counter b k v va gs) (seq 0 (2 ^ length gs)) st
    | None => Some st end
  else None.
(** cyext_acv_cache.pyx 722-793: one leaf, one pass of the parallel loop *)
Definition nstore_leaf (b : nat) (st : nstore) (k : nat) : option nstore :=
  if k <? t_max T then ofold (nstore_player b k (leaf_players D C (nid b k))) (indexed (va_id_arr C D)) st else None.
(** cyext_acv_cache.pyx 640-796 ([leaves_cache_normalized]) *)
Definition norm_store : option ncounts :=
  match C with
  | [] => None
  | _ => option_map ns_counts
           (ofold (fun st b => ofold (nstore_leaf b) (order b) st) (seq 0 (t_trees T))
              (mkNStore (fun _ _ _ => repeat 0 D)
                 (mkNCounts (length (va_id_arr C D)) (fun _ _ _ _ _ => 0) (fun _ _ _ _ _ => 0) (fun _ _ _ _ _ => 0))))
  end.
End Store.

(** ** The routine that reads stored counts *)
Section Cached.
(** cyext_acv_cache.pyx 410-422; [n] is [data.shape[0]] *)
Variables (T : tabs) (nid : nat -> nat -> list nat) (D n : nat) (h : ncounts) (scaling m : nat) (X : list pt) (C : list group) (order : nat -> list nat).
(** cyext_acv_cache.pyx 567-594, 599-619 ([cs_n] and the stored counts) for leaf [k'] of tree [b]; the tests on the observation are
    those of 573 and 603 *)
Definition kept_entry_s (b k v c : nat) (F : list nat) (x : pt) (k' : nat) : entry :=
  (sat_lo (t_part T b k') F x, (nc_n h b v k k' c, nc_s h b v k k' c)).
(** cyext_acv_cache.pyx 578-591, 608-620 ([csi_n]) *)
Definition kept_entry_si (b k v c : nat) (F : list nat) (va : group) (x : pt) (k' : nat) : entry :=
  (sat_lo (t_part T b k') F x && not_out_lo (t_part T b k') va x, (nc_n h b v k k' c, nc_si h b v k k' c)).
(** cyext_acv_cache.pyx 552-622 for one row *)
Definition kept_weight (b k v c : nat) (va : group) (F : list nat) (set_size va_size : nat) (x : pt) : Q :=
  norm_weight_with n m (kept_entry_s b k v c F x k) (kept_entry_si b k v c F va x k)
    (map (kept_entry_s b k v c F x) (seq 0 (t_nb T b))) (map (kept_entry_si b k v c F va x) (seq 0 (t_nb T b))) F set_size va_size.
(** cyext_acv_cache.pyx 565, 589: the stored arrays are read for every row, so the player must have a cell there, if there is a row *)
Definition kept_cells (b v : nat) : bool :=
  (t_nb T b <=? t_max T) && ((v <? nc_players h) || (length X =? 0)).
(** cyext_acv_cache.pyx 410-635 ([shap_values_leaves_normalized_cache]) *)
Definition norm_kept_prog : option (nat -> nat -> nat -> Q) := norm_routine T nid D scaling m X C order kept_cells kept_weight.
End Cached.

(** ** The object and its methods *)

(** The object of CbufModel.v, [self.cache_normalized], and [self.lm_n], [self.lm_s_n] and [self.lm_si_n], if they exist
    (base_tree.py 30, 38, 642-648). *)
Record nkept := mkNKept { n_kept : kept; n_flag : bool; n_counts : option ncounts }.
(** base_tree.py 636-648: the last step of the constructor; [order] is that of the threads, if [multi_threads]; in turn the routine
    of cyext_acv_nopa.pyx 3065-3222, the same program *)
Definition with_norm_cache (cache cache_normalized multi_threads : bool) (order : nat -> list nat) (C : list group) (h : shap_acv) : outcome nkept :=
  o <- with_cache cache multi_threads order C h ;;
  if cache && cache_normalized then
    match norm_store (o_tabs (h_acv h)) (h_nid h) (cols (h_data h)) (points (h_data h)) (h_max h) C
            (if multi_threads then order else in_turn h) with
    | Some c => Returned (mkNKept o cache_normalized (Some c))
    | None => Stray
    end
  else Returned (mkNKept o cache_normalized None).
(** acv_tree.py 647-653 ([shap_values_normalized_cache]); the argument [X] is converted before the attributes are read.  The
    conversion of a table succeeds; that of anything else fails in the call. *)
Definition kept_norm_cache (o : nkept) (order : nat -> list nat) (X : marg) (C : list group) : outcome (list (list (list Q))) :=
  match n_counts o with
  | None => Raised EAttribute
  | Some c =>
      let h := k_shap (n_kept o) in
      x <- buffer2 (as_float X) ;;
      cube (length (rows x)) (cols x) (t_out (o_tabs (h_acv h)))
        (norm_kept_prog (o_tabs (h_acv h)) (h_nid h) (cols (h_data h)) (length (points (h_data h))) c (h_max h) (cols x) (points x) C order)
  end.
(** acv_tree.py 655-662 ([shap_values_normalized_cache_nopa]): the same program (cyext_acv_nopa.pyx 2833-3059), leaves in turn *)
Definition kept_norm_cache_nopa (o : nkept) (X : marg) (C : list group) : outcome (list (list (list Q))) :=
  kept_norm_cache o (in_turn (k_shap (n_kept o))) X C.
(** acv_tree.py 664-669 ([ACVTree.shap_values_normalized], without [cache_normalized]); [X] is not checked *)
Definition acv_norm (h : shap_acv) (order : nat -> list nat) (X : marg) (C : list group) : outcome (list (list (list Q))) :=
  x <- buffer2 (as_float X) ;;
  cube (length (rows x)) (cols x) (t_out (o_tabs (h_acv h)))
    (norm_prog (o_tabs (h_acv h)) (h_nid h) (cols (h_data h)) (points (h_data h)) (h_max h) (cols x) (points x) C order).
(** acv_tree.py 664-670 ([ACVTree.shap_values_normalized]) *)
Definition kept_norm (o : nkept) (order : nat -> list nat) (X : marg) (C : list group) : outcome (list (list (list Q))) :=
  if n_flag o then kept_norm_cache o order X C else acv_norm (k_shap (n_kept o)) order X C.

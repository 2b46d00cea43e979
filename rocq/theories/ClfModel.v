(** Model of the estimates made inside the searches of explanations of tree-based
    classifiers: global_sdp_clf (cyext_acv.pyx 2872-3068), global_sdp_clf_ptrees
    (3075-3254), global_sdp_clf_approx (3787-3990) and global_sdp_clf_nopa
    (cyext_acv_nopa.pyx 1299-1502), with the work arrays they reuse from one set of
    columns to the next.  No proofs here.  Exact arithmetic. *)
From Verif Require Import Base TreeModel ShapModel AcvModel SdpModel SearchModel.
From Coq Require Import NArith.

(** cyext_acv.pyx 2874, 3013: a leaf with one value per class ([values[b, leaf, .]]). *)
Record cleaf := mkCleaf { c_rect : rect; c_vars : list nat; c_val : nat -> Q }.
(** cyext_acv.pyx 3013: the column [fX[R_buf[i]]] of the values of a leaf. *)
Definition class_leaf (c : nat) (lf : cleaf) : leaf := mkLeaf (c_rect lf) (c_vars lf) (c_val lf c).
(** cyext_acv.pyx 424, 3013: the forest read through the column [c] of its values. *)
Definition class_forest (c : nat) (F : list (list cleaf)) : list (list leaf) := map (map (class_leaf c)) F.

(** cyext_acv.pyx 2891, 2940-2942: the work arrays, indexed by tree, leaf, row of [X] and
    column; 0, 1, 2 stand for mean_forest_b[.., 0], [.., 1], [.., 2] and 3, 4, 5 for
    p_n, p_u_n, p_d_n. *)
Definition cells := nat -> nat -> nat -> nat -> Q.
(** cyext_acv.pyx 2963-2967: an assignment. *)
Definition set_cell (b l k j : nat) (q : Q) (ce : cells) : cells :=
  fun b' l' k' j' => if (b' =? b) && (l' =? l) && (k' =? k) && (j' =? j) then q else ce b' l' k' j'.
(** cyext_acv.pyx 3013-3019: [+=]. *)
Definition add_cell (b l k j : nat) (q : Q) (ce : cells) : cells := set_cell b l k j (ce b l k j + q)%Q ce.
(** cyext_acv.pyx 2891, 2940-2942: [np.zeros]. *)
Definition cells0 : cells := fun _ _ _ _ => 0%Q.

(** cyext_acv.pyx 2959-2967: the cells of the rows [R] still searched are reset. *)
Definition clear_cells (F : list (list cleaf)) (R : list nat) (ce : cells) : cells :=
  fold_left (fun ce (bt : nat * list cleaf) =>
    fold_left (fun ce l =>
      fold_left (fun ce k =>
        fold_left (fun ce j => set_cell (fst bt) l k j 0%Q ce) (seq 0 6) ce) R ce)
      (seq 0 (length (snd bt))) ce) (indexed F) ce.

(** cyext_acv.pyx 2981-3011: the rows counted in [p], [p_s] (column 0), [p_u], [p_su] (1),
    [p_d], [p_sd] (2). *)
Definition part (j : nat) (rs : list frow) : list frow :=
  match j with 0 => rs | 1 => up_rows rs | _ => down_rows rs end.
(** cyext_acv.pyx 3013-3019: what is added to column [j] of the cell of a leaf. *)
Definition leaf_term (m : nat) (S : list nat) (rs : list frow) (c : nat) (lf : cleaf) (j : nat) : Q :=
  let r := part (j mod 3) rs in
  gdiv (Qn (cnt (sat_cl (c_rect lf) (seq 0 m)) r) * (if j <? 3 then c_val lf c else 1))
       (cnt (sat_cl (c_rect lf) S) r).

Section Search.
Variable v : variant.
(** whether the estimates are divided by the weights of the tree: 3027-3038 in
    cyext_acv.pyx, not in global_sdp_clf_ptrees (3219-3224). *)
Variable norm : bool.
(** number of columns, X.shape[1], cyext_acv.pyx 2879 *)
Variable d : nat.
(** requested level [pi_level], cyext_acv.pyx 3056 *)
Variable pi : Q.
(** forest, cyext_acv.pyx 2874 *)
Variable F : list (list cleaf).
(** background rows and their classes [y_pred], cyext_acv.pyx 2873 *)
Variable rows : list (pt * nat).
(** observations and their classes, cyext_acv.pyx 2872 *)
Variable X : nat -> pt.
(** [fX], cyext_acv.pyx 2872 *)
Variable fX : nat -> nat.
(** order in which the pairs (tree, leaf) are treated for a set of columns: the threads
    of prange share the leaves (2969-2971) or the trees (3166-3168). *)
Variable sched : list nat -> list (nat * nat).

(** cyext_acv.pyx 2972-3019: one leaf, all rows still searched. *)
Definition fill_leaf (S R : list nat) (b l : nat) (lf : cleaf) (ce : cells) : cells :=
  fold_left (fun ce k =>
    if not_out_cl (c_rect lf) S (X k)
    then fold_left (fun ce j => add_cell b l k j (leaf_term d S (clf_rows (fX k) rows) (fX k) lf j) ce) (seq 0 6) ce
    else ce) R ce.
(** cyext_acv.pyx 2969-3019: all leaves of all trees. *)
Definition fill_cells (S R : list nat) (ce : cells) : cells :=
  fold_left (fun ce (bl : nat * nat) =>
    match nth_error F (fst bl) with
    | Some ls => match nth_error ls (snd bl) with
                 | Some lf => fill_leaf S R (fst bl) (snd bl) lf ce
                 | None => ce
                 end
    | None => ce
    end) (sched S) ce.

(** cyext_acv.pyx 3021-3038 ([ss_a], [ss_u], [ss_d] for [j] = 0, 1, 2) and 3219-3224. *)
Definition ss_of (ce : cells) (k j : nat) : Q :=
  sumf (fun bt : nat * list cleaf =>
    let n := sumf (fun l => ce (fst bt) l k (3 + j)) (seq 0 (length (snd bt))) in
    sumf (fun l => if norm then qdiv0 (ce (fst bt) l k j) n else ce (fst bt) l k j)
         (seq 0 (length (snd bt)))) (indexed F).
(** cyext_acv.pyx 3040 ([ss]). *)
Definition est_of (ce : cells) (k : nat) : Q :=
  qdiv0 (ss_of ce k 0 - ss_of ce k 2) (ss_of ce k 1 - ss_of ce k 2).

(** cyext_acv.pyx 2950-3053: one candidate set, all rows still searched. *)
Definition clf_set (R : list nat) (rc : (nat -> row) * cells) (S : list nat) : (nat -> row) * cells :=
  let ce := fill_cells S R (clear_cells F R (snd rc)) in
  (fold_left (fun rw k => upd rw k (update_row v d pi S (est_of ce k) (rw k))) R (fst rc), ce).

(** cyext_acv.pyx 2949-3063: all candidate sets of one size; the rows that reach the level
    are counted and removed as in [one_level]. *)
Definition clf_level (sets : list (list nat)) (sc : sstate * cells) : sstate * cells :=
  let st := fst sc in
  let R := s_R st in
  let rc := fold_left (clf_set R) sets (s_rows st, snd sc) in
  let done := filter (fun k => qleb pi (r_sdp (fst rc k))) R in
  let rows' := if v_clean v
               then fold_left (fun rw k => upd rw k (mkRow (r_sdp (rw k)) (r_len (rw k))
                                 (clear_star (r_len (rw k)) d (r_star (rw k))))) done (fst rc)
               else fst rc in
  (mkState rows'
     (fold_left (fun R' k => pop_back (std_remove k R')) done R)
     (fold_left (fun g k => count_row (rows' k) g) done (s_glob st)), snd rc).

(** cyext_acv.pyx 2948-3066: loop over the sizes; None for a read beyond the enumeration. *)
Fixpoint clf_loop (stop : bool) (pw : list (list (list nat))) (idx : list nat)
  (sc : sstate * cells) : option (sstate * cells) :=
  match idx with
  | [] => Some sc
  | s_0 :: r =>
      match nth_error pw s_0 with
      | None => None
      | Some sets =>
          let sc' := clf_level sets sc in
          if ((length (s_R (fst sc')) =? 0) || v_half v (last_size sets) d) && stop
          then Some sc' else clf_loop stop pw r sc'
      end
  end.
(** cyext_acv.pyx 2872-3068 (global_sdp_clf) and 3787-3990 (global_sdp_clf_approx): sizes
    from [minimal] on, [N] observations. *)
Definition clf_search (limit : N) (stop : bool) (N : nat) (va : list group) (minimal : nat)
  : option (sstate * cells) :=
  let pw := power limit va minimal in
  clf_loop stop pw (seq 0 (length pw)) (state0 d N, cells0).
(** cyext_acv.pyx 3075-3254 (global_sdp_clf_ptrees) and cyext_acv_nopa.pyx 1299-1502
    (global_sdp_clf_nopa): all sizes enumerated, loop over [range(minimal, m + 1)]. *)
Definition clf_search_all (limit : N) (stop : bool) (N : nat) (va : list group) (minimal : nat)
  : option (sstate * cells) :=
  clf_loop stop (power limit va 0) (seq minimal (S (length va) - minimal)) (state0 d N, cells0).
End Search.

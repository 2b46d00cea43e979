(** Model of the methods of [ACVTree] for same-decision probabilities of regression models
    (acv_tree.py 545-562, 592-599, 609-616, 703-719), from the trees of the ensemble and its
    offset to the arrays returned.  The object predicts itself ([predict], base_tree.py
    710-776, on the padded arrays of FlatModel.v); the compiled routines are those of
    SdpModel.v, RegModel.v and SearchModel.v.  No proofs here.
    Simplification, for the whole file: exact arithmetic, counters that do not overflow,
    [minimal] is not negative, no missing values; the tree limit of the model is not set. *)
From Verif Require Import Base TreeModel ShapModel FlatModel ArrModel EntryModel SdpModel RegModel SearchModel ImpModel.

(** What the methods read of the object: the tables, and what [predict] reads: trees, number of
    stacked models, offset (base_tree.py 513-573, 650-654). *)
Record reg_acv := mkReg { r_acv : acv; r_trees : list mtree; r_stacked : nat; r_offset : offset }.
(** base_tree.py 513-654: the constructor, with the assertion of line 654 *)
Definition construct_reg (sig : Q -> Q) (ts : list mtree) (stacked : nat) (boosted : bool) (b : offset) (d : nat) : option reg_acv :=
  match construct sig ts stacked boosted d with
  | Some a => if length (offsets (o_out a) b) =? o_out a then Some (mkReg a ts stacked b) else None
  | None => None
  end.

(** What [predict] returns (base_tree.py 764-776): a number, a vector or a table. *)
Inductive preds := P_number (q : Q) | P_vector (l : list Q) | P_table (r : list (list Q)).

Section Methods.
(** the object *)
Variable o : reg_acv.

(** base_tree.py 757-763: the block filled by the compiled routine, row by row.  Simplification: the walk through
    a tree is followed for as many steps as the greatest tree has nodes. *)
Definition predict_rows (c : nat) (rs : list (list Q)) : outcome (list (list Q)) :=
  match ensemble_predict (r_trees o) (r_stacked o) (r_offset o) (-1)%Z (max_nodes (r_trees o)) (length rs) c
          (fun i s => nth s (nth i rs []) 0%Q) (fun _ _ => false) with
  | Some out => let k := o_out (r_acv o) in
      Returned (map (fun i => map (fun j => get out (Z.of_nat (i * k + j))) (seq 0 k)) (seq 0 (length rs)))
  | None => Stray
  end.
(** base_tree.py 710-776 ([predict]): frames are replaced by their values (731-734); a list has no [shape] (736) *)
Definition predict (X : marg) : outcome preds :=
  match X with
  | M_list _ _ => Raised EAttribute
  | M_frame c r | M_array _ c r =>
      t <- predict_rows c r ;;
      Returned (if o_out (r_acv o) =? 1 then P_vector (concat t) else P_table t)
  | M_vector _ l =>
      t <- predict_rows (length l) [l] ;;
      Returned (if o_out (r_acv o) =? 1 then P_number (nth 0 (concat t) 0%Q) else P_table t)
  end.
(** The conversion to [double[:]] (cyext_acv.pyx 679-680): ValueError for another number of dimensions. *)
Definition buffer_y (p : preds) : outcome (list Q) :=
  match p with P_vector l => Returned l | P_number _ | P_table _ => Raised EValue end.

(** The leaves that the routines read in the tables: column 0 of the first [leaves_nb[b]] leaves of tree [b]
    (cyext_acv.pyx 706-716).  The features above a leaf are not read. *)
Definition reg_leaves (T : tabs) : list (list leaf) :=
  map (fun b => map (fun k => mkLeaf (t_part T b k) [] (t_val T b (t_leaf T b k) 0)) (seq 0 (t_nb T b))) (seq 0 (t_trees T)).
(** One call with the columns [S]: observations with predictions, background with predictions
    (cyext_acv.pyx 464-467, 679-682) *)
Notation prog := (nat -> list (list leaf) -> list (pt * Q) -> list nat -> list (pt * Q) -> list Q).
(** acv_tree.py 545-552, 554-562: predictions, then the conversions of the arguments from left to right, then
    the routine.  [X[i, S[s]]], [data[j, S[s]]] and the boxes are read for the columns [S] and for those below
    [m = X.shape[1]] (cyext_acv.pyx 717-745).  Simplification: a column that does not exist counts as an access outside also when
    there is no row or leaf to read. *)
Definition reg_call (run : prog) (X : marg) (S : sarg) (data : marg) : outcome (list Q) :=
  pX <- predict X ;; pY <- predict data ;;
  x <- buffer2 (as_float X) ;; fX <- buffer_y pX ;; y <- buffer_y pY ;; s <- buffer1 S ;; z <- buffer2 data ;;
  if wide_enough (r_acv o) (cols x) z && forallb (fun c => c <? cols x) s
  then Returned (run (cols x) (reg_leaves (o_tabs (r_acv o))) (combine (points z) y) s (combine (points x) fX))
  else Stray.
(** acv_tree.py 554-562 ([compute_sdp_reg_cat]).  The threads write the cells of their own observation only
    (cyext_acv.pyx 703-840); SdpModel.v has one observation. *)
Definition acv_reg_cat (tX : Q) : marg -> sarg -> marg -> outcome (list Q) :=
  reg_call (fun m F rws S obs => map (fun xf => compute_sdp_reg_cat m rws (snd xf) tX S F (fst xf)) obs).
(** acv_tree.py 712-719 ([compute_sdp_reg_cat_nopa]): cyext_acv_nopa.pyx 673-839 is the same text with [range]
    for [prange] *)
Definition acv_reg_cat_nopa (tX : Q) : marg -> sarg -> marg -> outcome (list Q) := acv_reg_cat tX.
(** acv_tree.py 545-552 ([compute_sdp_reg]), cyext_acv.pyx 464-672 *)
Definition acv_reg (tX : Q) : marg -> sarg -> marg -> outcome (list Q) :=
  reg_call (fun m F rws S obs => compute_sdp_reg m rws tX S F obs).

(** cyext_acv.pyx 846-962 ([global_sdp_reg_cat]) behind acv_tree.py 592-599 ([importance_sdp_reg_cat]); [C[0]]
    does not exist for [C = []] (891), and a set needs room in [S] and [s_star] (921, 926). *)
Definition acv_reg_explain (X : marg) (tX : Q) (data : marg) (C : list group) (pi : Q) (minimal : nat) (stop : bool) : outcome answer :=
  pX <- predict X ;; pY <- predict data ;;
  x <- buffer2 (as_float X) ;; fX <- buffer_y pX ;; y <- buffer_y pY ;; z <- buffer2 data ;;
  match C with
  | [] => Stray
  | _ =>
      let va := tree_groups C (cols x) in
      let obs := combine (points x) fX in
      if wide_enough (r_acv o) (cols x) z && forallb (fun s => s <? cols x) (concat va) && (length (concat va) <=? cols x) then
        match search v_tree (cols x) pi
                (fun k S => let xf := nth k obs (fun _ => 0%Q, 0%Q) in
                   compute_sdp_reg_cat (cols x) (combine (points z) y) (snd xf) tX S (reg_leaves (o_tabs (r_acv o))) (fst xf))
                cut15 stop (length (rows x)) va minimal with
        | Some st => Returned (collect (cols x) (length (rows x)) st)
        | None => Stray
        end
      else Stray
  end.
(** acv_tree.py 609-616 ([importance_sdp_reg_cat_nopa]), cyext_acv_nopa.pyx 840-961: no argument [stop], the early stop is always on *)
Definition acv_reg_explain_nopa (X : marg) (tX : Q) (data : marg) (C : list group) (pi : Q) (minimal : nat) : outcome answer :=
  acv_reg_explain X tX data C pi minimal true.
End Methods.

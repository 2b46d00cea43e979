(** Model of the array encoding of decision trees, of prediction, of the
    re-weighting routine, of the depth computation and of the leaf rectangles. *)
From Verif Require Import Base.

(** One tree as parallel arrays.
    base_tree.py 545-567 ([children_left], [children_right],
    [children_default], [features], [thresholds], [values] of one tree) and
    cext_acv/acv_tree.h 15-27 ([struct TreeEnsemble]).
    Simplification: a single output column of [values]; the padding that makes
    all trees of an ensemble the same length is dropped. *)
Record tree := mkTree {
  cl : list Z;      (* children_left,  negative at a leaf *)
  cr : list Z;      (* children_right, negative at a leaf *)
  cd : list Z;      (* children_default *)
  ft : list Z;      (* features, negative at a leaf *)
  th : list Q;      (* thresholds *)
  vl : list Q       (* values *)
}.

(** number of nodes: base_tree.py 635 ([num_nodes]). *)
Definition nn (t : tree) : nat := length (cl t).

(** array reads; the default is only returned outside the arrays, which the
    well-formedness predicate excludes.  (array subscripts in
    cext_acv/acv_tree.h 197-217) *)
Definition clz (t : tree) (i : nat) : Z := nth i (cl t) (-1)%Z.
(** children_right[pos], cext_acv/acv_tree.h 210-216. *)
Definition crz (t : tree) (i : nat) : Z := nth i (cr t) (-1)%Z.
(** children_default[pos], cext_acv/acv_tree.h 210-211. *)
Definition cdz (t : tree) (i : nat) : Z := nth i (cd t) (-1)%Z.
(** features[pos], cext_acv/acv_tree.h 208-216. *)
Definition ftn (t : tree) (i : nat) : nat := Z.to_nat (nth i (ft t) (-1)%Z).
(** thresholds[pos], cext_acv/acv_tree.h 212. *)
Definition thq (t : tree) (i : nat) : Q := nth i (th t) 0%Q.
(** values + pos * num_outputs, cext_acv/acv_tree.h 206; one column. *)
Definition vlq (t : tree) (i : nat) : Q := nth i (vl t) 0%Q.

(** cext_acv/acv_tree.h 57-59 ([is_leaf]). *)
Definition is_leaf (t : tree) (i : nat) : bool := (clz t i <? 0)%Z.

(** Child taken by an observation, cext_acv/acv_tree.h 210-216: the default
    child if the value is missing, left if [x <= threshold], else right. *)
Definition next_node (t : tree) (x : pt) (miss : nat -> bool) (i : nat) : nat :=
  if miss (ftn t i) then Z.to_nat (cdz t i)
  else if qleb (x (ftn t i)) (thq t i) then Z.to_nat (clz t i)
  else Z.to_nat (crz t i).

(** cext_acv/acv_tree.h 197-218 ([tree_predict], the [while (true)] loop);
    returns the index of the leaf reached, [None] when the fuel is exhausted. *)
Fixpoint walk (fuel : nat) (t : tree) (x : pt) (miss : nat -> bool) (i : nat) : option nat :=
  match fuel with
  | O => None
  | S f => if is_leaf t i then Some i
           else walk f t x miss (next_node t x miss i)
  end.

(** base_tree.py 744 ([X_missing = np.isnan(X)]): no value is missing. *)
Definition no_missing : nat -> bool := fun _ => false.

(** cext_acv/acv_tree.h 197-218: leaf reached from the root (node 0). *)
Definition predict_leaf (t : tree) (x : pt) (miss : nat -> bool) : option nat :=
  walk (nn t) t x miss 0.

(** cext_acv/acv_tree.h 206 ([trees.values + pos * num_outputs]). *)
Definition predict_value (t : tree) (x : pt) (miss : nat -> bool) : option Q :=
  match predict_leaf t x miss with Some l => Some (vlq t l) | None => None end.

(** cext_acv/acv_tree.h 247-283 ([dense_tree_predict], one row, one output):
    offset, then the first [limit] trees; [None] if some tree is not traversed. *)
Fixpoint add_trees (ts : list tree) (x : pt) (miss : nat -> bool) (acc : Q) : option Q :=
  match ts with
  | [] => Some acc
  | t :: r => match predict_value t x miss with
              | Some v => add_trees r x miss (acc + v)
              | None => None
              end
  end.
(** cext_acv/acv_tree.h 247-283 with the zero-initialised output row of
    base_tree.py 758 and the loop bound [tree_limit]. *)
Definition dense_tree_predict (ts : list tree) (limit : nat) (offset : Q) (x : pt)
  (miss : nat -> bool) : option Q :=
  add_trees (firstn limit ts) x miss (0 + offset).

(** base_tree.py 748-749 ([BaseTree.predict]): a negative or too large
    [tree_limit] means all trees. *)
Definition effective_limit (limit : Z) (ntrees : nat) : nat :=
  if ((limit <? 0) || (Z.of_nat ntrees <? limit))%Z then ntrees else Z.to_nat limit.
(** base_tree.py 710-763 ([BaseTree.predict]), numeric part. *)
Definition base_predict (ts : list tree) (limit : Z) (offset : Q) (x : pt)
  (miss : nat -> bool) : option Q :=
  dense_tree_predict ts (effective_limit limit (length ts)) offset x miss.

(** cext_acv/acv_tree.h 285-322 ([single_tree_predict], one row): the offset
    plus the leaf value of tree [j]; [None] also models an out-of-range [j]. *)
Definition single_tree_predict (ts : list tree) (j : nat) (offset : Q) (x : pt)
  (miss : nat -> bool) : option Q :=
  match nth_error ts j with
  | Some t => match predict_value t x miss with
              | Some v => Some (0 + offset + v)%Q | None => None end
  | None => None
  end.

(** cext_acv/acv_tree.h 324-346 ([tree_update_weights]): +1 on every node met;
    weights as a function of the node index. *)
Fixpoint update_walk (fuel : nat) (t : tree) (x : pt) (miss : nat -> bool)
  (i : nat) (w : nat -> Q) : nat -> Q :=
  match fuel with
  | O => w
  | S f => let w' := upd w i (w i + 1)%Q in
           if is_leaf t i then w'
           else update_walk f t x miss (next_node t x miss i) w'
  end.

(** cext_acv/acv_tree.h 348-363 ([dense_tree_update_weights]) for one tree. *)
Fixpoint update_weights (t : tree) (rows : list (pt * (nat -> bool))) (w : nat -> Q) : nat -> Q :=
  match rows with
  | [] => w
  | (x, miss) :: r => update_weights t r (update_walk (nn t) t x miss 0 w)
  end.

(** cext_acv/acv_tree.h 142-171 ([compute_expectations]): depth below node [i].
    The averaging of node values is commented out in the source. *)
Fixpoint depth_below (fuel : nat) (t : tree) (i : nat) : nat :=
  match fuel with
  | O => 0
  | S f => if (0 <=? crz t i)%Z
           then S (Nat.max (depth_below f t (Z.to_nat (clz t i)))
                           (depth_below f t (Z.to_nat (crz t i))))
           else 0
  end.
(** base_tree.py 1105-1108 ([self.max_depth] of a tree). *)
Definition tree_depth (t : tree) : nat := depth_below (nn t) t 0.

(** np.where(children == leaf_id)[0]: utils.py 566-567. *)
Definition where_eq (l : list Z) (v : nat) : list nat :=
  filter (fun i => (nth i l (-1) =? Z.of_nat v)%Z) (seq 0 (length l)).

(** utils.py 577-578 and 584-585: intersect an interval with [(lo, hi)] by
    np.max of the lower bounds and np.min of the upper bounds. *)
Definition narrow (p : rect) (f : nat) (lo hi : ext) : rect :=
  upd p f (ext_max (fst (p f)) lo, ext_min (snd (p f)) hi).

(** utils.py 565-587 ([get_partition]): walk from a leaf to the root through the
    parent arrays, narrowing the rectangle and recording the split features. *)
Fixpoint get_partition (fuel : nat) (t : tree) (i : nat) (part : rect) (nid : list nat)
  : option (rect * list nat) :=
  match fuel with
  | O => None
  | S f =>
    match where_eq (cr t) i, where_eq (cl t) i with
    | [], [] => Some (part, nid)
    | r :: _, _ =>
        get_partition f t r (narrow part (ftn t r) (Fin (thq t r)) PInf) (nid ++ [ftn t r])
    | [], l :: _ =>
        get_partition f t l (narrow part (ftn t l) NInf (Fin (thq t l))) (nid ++ [ftn t l])
    end
  end.

(** base_tree.py 590: every interval starts as (-inf, inf). *)
Definition whole : rect := fun _ => (NInf, PInf).

(** base_tree.py 579-580 ([leaf_idx]). *)
Definition leaf_idx (t : tree) : list nat := filter (is_leaf t) (seq 0 (nn t)).

(** What the explainers know of a leaf: base_tree.py 588-596
    ([partition_leaves], [node_idx]) and values[leaf_idx]. *)
Record leaf := mkLeaf { l_rect : rect; l_vars : list nat; l_val : Q }.

(** base_tree.py 588-596.  [list(set(node_id))] is modelled by [nodup]; the
    theorems about leaves do not depend on the order of [l_vars]. *)
Definition leaf_of (t : tree) (i : nat) : option leaf :=
  match get_partition (nn t) t i whole [] with
  | Some (p, nid) => Some (mkLeaf p (nodup Nat.eq_dec nid) (vlq t i))
  | None => None
  end.

(** base_tree.py 588-605: all leaves of a tree. *)
Fixpoint leaves_from (t : tree) (is_ : list nat) : option (list leaf) :=
  match is_ with
  | [] => Some []
  | i :: r => match leaf_of t i, leaves_from t r with
              | Some l, Some ls => Some (l :: ls)
              | _, _ => None
              end
  end.
(** base_tree.py 588-605. *)
Definition tree_leaves (t : tree) : option (list leaf) := leaves_from t (leaf_idx t).

(** Half-open membership used by the Shapley routines, cyext_acv.pyx 1366
    ([data <= hi and data > lo] for every column). *)
Definition in_itv (i : ext * ext) (x : Q) : bool := ext_ltb_q (fst i) x && q_leb_ext x (snd i).
(** cyext_acv.pyx 1363-1368: all [d] columns. *)
Definition in_rect (d : nat) (p : rect) (x : pt) : bool :=
  forallb (fun s => in_itv (p s) (x s)) (seq 0 d).

(** base_tree.py 586, 596 and 624: [max_var] is reset for every tree, so only
    the list of the last tree survives and its maximum is kept. *)
Definition last_list (ls : list (list nat)) : list nat := last ls [].
(** base_tree.py 624 ([self.max_var = np.max(...)]). *)
Definition max_var (vars_sizes : list (list nat)) : option nat :=
  match last_list vars_sizes with
  | [] => None                              (* np.max of an empty list raises *)
  | a :: r => Some (fold_left Nat.max r a)
  end.

(** Well-formed array encoding of a binary tree over [d] features: what the
    loaders produce.  Not a function of the source: it is the input domain of
    the theorems, as a boolean so that it can be evaluated.  Node condition for
    the arrays of base_tree.py 545-567 / cext_acv/acv_tree.h 15-27. *)
Definition wf_node (t : tree) (d : nat) (i : nat) : bool :=
  let n := nn t in
  if (clz t i <? 0)%Z then (crz t i <? 0)%Z
  else (Z.of_nat i <? clz t i)%Z && (clz t i <? Z.of_nat n)%Z
       && (Z.of_nat i <? crz t i)%Z && (crz t i <? Z.of_nat n)%Z
       && negb (clz t i =? crz t i)%Z
       && (0 <=? nth i (ft t) (-1))%Z && (nth i (ft t) (-1) <? Z.of_nat d)%Z
       && ((cdz t i =? clz t i)%Z || (cdz t i =? crz t i)%Z).
(** Input domain for the arrays of base_tree.py 545-567: equal lengths, good
    nodes, exactly one parent for every node but the root. *)
Definition wf_tree (t : tree) (d : nat) : bool :=
  let n := nn t in
  (0 <? n) && (length (cr t) =? n) && (length (cd t) =? n) && (length (ft t) =? n)
  && (length (th t) =? n) && (length (vl t) =? n)
  && forallb (wf_node t d) (seq 0 n)
  && forallb (fun j => length (where_eq (cl t) j) + length (where_eq (cr t) j) =? 1)
             (seq 1 (n - 1)).

(** base_tree.py 596: number of recorded variables of each leaf of a tree. *)
Definition leaf_sizes (t : tree) : list nat :=
  match tree_leaves t with Some ls => map (fun l => length (l_vars l)) ls | None => [] end.
(** base_tree.py 565-624: [self.max_var] after the loop over the trees. *)
Definition ensemble_max_var (ts : list tree) : option nat := max_var (map leaf_sizes ts).

(** Model of the constructors of single trees from the dumps of other libraries:
    base_tree.py 898-1038 (pyspark, LightGBM, XGBoost JSON) and 1381-1463 (CatBoost).
    The XGBoost binary format is in XgbModel.v.  No proofs here. *)
From Verif Require Import Base TreeModel.

(** ** Arrays *)

(** The seven arrays of a tree under construction, base_tree.py 955-961; the cells
    are functions of the index, the common length is apart.  One output column. *)
Record arrays := mkArrays {
  a_cl : nat -> Z; a_cr : nat -> Z; a_cd : nat -> Z; a_ft : nat -> Z;
  a_th : nat -> Q; a_vl : nat -> Q; a_w : nat -> Q
}.
(** assignment of one cell of every array, base_tree.py 985-995. *)
Definition put (a : arrays) (i : nat) (l r dflt f : Z) (t v w : Q) : arrays :=
  mkArrays (upd (a_cl a) i l) (upd (a_cr a) i r) (upd (a_cd a) i dflt) (upd (a_ft a) i f)
           (upd (a_th a) i t) (upd (a_vl a) i v) (upd (a_w a) i w).
(** The finished tree with [values * scaling], base_tree.py 999-1001; [n] nodes. *)
Definition finish (n : nat) (scaling : Q) (a : arrays) : tree :=
  mkTree (map (a_cl a) (seq 0 n)) (map (a_cr a) (seq 0 n)) (map (a_cd a) (seq 0 n)) (map (a_ft a) (seq 0 n))
         (map (a_th a) (seq 0 n)) (map (fun i => a_vl a i * scaling)%Q (seq 0 n)).

(** ** LightGBM *)

(** tree['tree_structure'] of a dump, base_tree.py 953, 965-998: a vertex with
    [split_index], [split_feature], [threshold], [default_left], [internal_value],
    [internal_count], or a leaf with [leaf_index], [leaf_value], [leaf_count].
    Simplification: numerical splits, indices are natural numbers. *)
Inductive lgb : Type :=
| LLeaf (leaf_index : nat) (value count : Q)
| LNode (split_index : nat) (feature : nat) (threshold : Q) (default_left : bool) (value count : Q) (left right : lgb).
(** cell of a child, base_tree.py 968-976; [np] is [num_parents]. *)
Definition lgb_id (np : nat) (v : lgb) : nat :=
  match v with LLeaf i _ _ => i + np | LNode i _ _ _ _ _ _ _ => i end.
(** base_tree.py 963-998: the queue; None is an IndexError or the end of the fuel. *)
Fixpoint lgb_loop (fuel np : nat) (a : arrays) (visited : list nat) (queue : list lgb) : option arrays :=
  match fuel with
  | O => None
  | S f =>
      match queue with
      | [] => Some a
      | LNode i ft th dl v c l r :: q =>
          if memb i visited then lgb_loop f np a visited q
          else if i <? 2 * np + 1 then
            let zl := Z.of_nat (lgb_id np l) in
            let zr := Z.of_nat (lgb_id np r) in
            lgb_loop f np (put a i zl zr (if dl then zl else zr) (Z.of_nat ft) th v c) (visited ++ [i]) (q ++ [l; r])
          else None
      | LLeaf i v c :: q =>
          if i + np <? 2 * np + 1 then lgb_loop f np (put a (i + np) (-1) (-1) (-1) (-1) (-1) v c) visited q
          else None
      end
  end.
(** number of vertices: the loop of base_tree.py 964 runs at most once for each. *)
Fixpoint lgb_size (v : lgb) : nat :=
  match v with LLeaf _ _ _ => 1 | LNode _ _ _ _ _ _ l r => S (lgb_size l + lgb_size r) end.
(** base_tree.py 952-1001; [junk] is the content of the arrays made by [np.empty]. *)
Definition load_lgb (num_leaves : nat) (junk : arrays) (scaling : Q) (v : lgb) : option (tree * (nat -> Q)) :=
  let np := num_leaves - 1 in
  match lgb_loop (S (lgb_size v)) np junk [] [v] with
  | None => None
  | Some a => Some (finish (2 * np + 1) scaling a, a_w a)
  end.

(** ** XGBoost JSON *)

(** A node of the JSON dump, base_tree.py 1024-1036.  The children are listed in any
    order and named by [yes], [no], [missing]. *)
Inductive xjs : Type :=
| XLeaf (nodeid : nat) (value cover : Q)
| XNode (nodeid : nat) (split : nat) (condition : Q) (yes no missing : nat) (cover : Q) (left right : xjs).
(** base_tree.py 1007-1011 ([max_id]). *)
Fixpoint xjs_max (v : xjs) : nat :=
  match v with XLeaf i _ _ => i | XNode i _ _ _ _ _ _ l r => Nat.max i (Nat.max (xjs_max l) (xjs_max r)) end.
(** base_tree.py 1022-1036 ([extract_data]); the value of a node with children and
    the children of a leaf keep their initial cells. *)
Fixpoint xjs_extract (v : xjs) (scaling : Q) (a : arrays) : arrays :=
  match v with
  | XLeaf i x c =>
      mkArrays (a_cl a) (a_cr a) (a_cd a) (a_ft a) (a_th a) (upd (a_vl a) i (x * scaling)%Q) (upd (a_w a) i c)
  | XNode i s t y n m c l r =>
      xjs_extract r scaling (xjs_extract l scaling
        (mkArrays (upd (a_cl a) i (Z.of_nat y)) (upd (a_cr a) i (Z.of_nat n)) (upd (a_cd a) i (Z.of_nat m))
                  (upd (a_ft a) i (Z.of_nat s)) (upd (a_th a) i t) (a_vl a) (upd (a_w a) i c)))
  end.
(** base_tree.py 1003-1038; [junk] is the content of [np.empty] (weights). *)
Definition load_xjs (junk : nat -> Q) (scaling : Q) (v : xjs) : tree * (nat -> Q) :=
  let a := xjs_extract v scaling
    (mkArrays (fun _ => (-1)%Z) (fun _ => (-1)%Z) (fun _ => (-1)%Z) (fun _ => (-1)%Z) (fun _ => 0%Q) (fun _ => 0%Q) junk) in
  (finish (xjs_max v + 1) 1 a, a_w a).

(** ** pyspark *)

(** A node of the Java object, base_tree.py 919-943: prediction (or one statistic),
    count, and for an inner node a continuous split.  One output column. *)
Inductive spk : Type :=
| SLeaf (value count : Q)
| SNode (feature : nat) (threshold : Q) (value count : Q) (left right : spk).
(** base_tree.py 901-907 ([getNumNodes]). *)
Fixpoint spk_num (v : spk) (size : nat) : nat :=
  match v with
  | SLeaf _ _ => size + 1
  | SNode _ _ _ _ l r => spk_num r (spk_num l (size + 1))
  end.
(** base_tree.py 918-943 ([buildTree]); the argument is the index of the node itself
    ([index + 1] of the source).  Returns the last index used. *)
Fixpoint spk_build (index : nat) (v : spk) (a : arrays) : arrays * nat :=
  match v with
  | SLeaf x c =>
      (mkArrays (a_cl a) (a_cr a) (a_cd a) (a_ft a) (a_th a) (upd (a_vl a) index x) (upd (a_w a) index c), index)
  | SNode f t x c l r =>
      let a1 := mkArrays (upd (a_cl a) index (Z.of_nat (index + 1))) (a_cr a) (a_cd a) (upd (a_ft a) index (Z.of_nat f))
                  (upd (a_th a) index t) (upd (a_vl a) index x) (upd (a_w a) index c) in
      let (a2, idx) := spk_build (index + 1) l a1 in
      let a3 := mkArrays (a_cl a2) (upd (a_cr a2) index (Z.of_nat (idx + 1))) (a_cd a2) (a_ft a2) (a_th a2) (a_vl a2) (a_w a2) in
      spk_build (idx + 1) r a3
  end.
(** base_tree.py 909-950: arrays full of -2; the default children are the left ones. *)
Definition load_spk (scaling : Q) (v : spk) : tree * (nat -> Q) :=
  let init := mkArrays (fun _ => (-2)%Z) (fun _ => (-2)%Z) (fun _ => (-2)%Z) (fun _ => (-2)%Z) (fun _ => (-2)%Q) (fun _ => (-2)%Q) (fun _ => (-2)%Q) in
  let a := fst (spk_build 0 v init) in
  (finish (spk_num v 0) scaling (mkArrays (a_cl a) (a_cr a) (a_cl a) (a_ft a) (a_th a) (a_vl a) (a_w a)), a_w a).

(** ** CatBoost *)

(** One element of [splits], base_tree.py 1427-1437: kind, index read and border read. *)
Inductive cbsplit : Type :=
| FloatFeature (float_feature_index : nat) (border : Q)
| OneHotFeature (cat_feature_index : nat) (value : Q)
| OnlineCtr (ctr_target_border_idx : nat) (border : Q).
(** base_tree.py 1428-1437 ([split_feature_index]). *)
Definition cb_feature (s : cbsplit) : nat :=
  match s with FloatFeature i _ => i | OneHotFeature i _ => i | OnlineCtr i _ => i end.
(** base_tree.py 1428-1437 ([borders]). *)
Definition cb_border (s : cbsplit) : Q :=
  match s with FloatFeature _ b => b | OneHotFeature _ b => b | OnlineCtr _ b => b end.
(** base_tree.py 1440-1441, 1445-1446: the element of level [counter], repeated
    [2 ** counter] times. *)
Fixpoint unravel {A} (counter : nat) (l : list A) : list A :=
  match l with [] => [] | a :: r => repeat a (2 ^ counter) ++ unravel (S counter) r end.
(** base_tree.py 1407-1409: [for index in range(len - 2, 0, -1)], the sum of the two
    children; [l] is leaf_weights_unraveled. *)
Fixpoint cb_weights (index : nat) (l : nat -> Q) : nat -> Q :=
  match index with
  | O => l
  | S k => cb_weights k (upd l index (Qplus (l (2 * index + 1)) (l (2 * index + 2))))
  end.
(** base_tree.py 1403-1409 ([leaf_weights_unraveled]). *)
Definition cb_weight (leaf_weights : list Q) : nat -> Q :=
  let n := length leaf_weights in
  let init := fun i => nth i (repeat 0%Q (n - 1) ++ leaf_weights) 0%Q in
  cb_weights (n - 2) (upd init 0 (sumf (fun w => w) leaf_weights)).
(** base_tree.py 1394-1457 for one tree; [values * scaling] with scaling 1. *)
Definition load_cb (splits : list cbsplit) (leaf_values leaf_weights : list Q) : tree * (nat -> Q) :=
  let n := length leaf_values in
  (mkTree (map (fun i => Z.of_nat (i * 2 + 1)) (seq 0 (n - 1)) ++ repeat (-1)%Z n)
          (map (fun i => Z.of_nat (i * 2)) (seq 1 (n - 1)) ++ repeat (-1)%Z n)
          (map (fun i => Z.of_nat (i * 2 + 1)) (seq 0 (n - 1)) ++ repeat (-1)%Z n)
          (unravel 0 (rev (map (fun s => Z.of_nat (cb_feature s)) splits)) ++ repeat 0%Z n)
          (unravel 0 (rev (map cb_border splits)) ++ repeat 0%Q n)
          (map (fun v => v * 1)%Q (repeat 0%Q (n - 1) ++ leaf_values)),
   cb_weight leaf_weights).

(** Vocabulary for the statements about loaded scikit-learn models. *)
From Verif Require Import Base TreeModel TreeSpec FlatModel FlatSpec SkModel.
Local Open Scope nat_scope.

(** the splits of a tree, without outputs; a missing value goes left *)
Definition splits (e : sk) : tree :=
  mkTree (sk_cl e) (sk_cr e) (sk_cl e) (sk_ft e) (sk_th e) (repeat 0%Q (length (sk_cl e))).
(** a well-formed tree over [d] features with [w] cells for every node *)
Definition sk_ok (d w : nat) (e : sk) : Prop :=
  wf_tree (splits e) d = true /\ length (sk_value e) = length (sk_cl e) /\
  forall r, In r (sk_value e) -> length (concat r) = w.
(** the leaf in which the decision path of [z] ends *)
Definition lands (t : tree) (z : pt) (miss : nat -> bool) (l : nat) : Prop :=
  visits t z miss l /\ leaf_node t l = true.
(** the leaves of several trees *)
Definition all_land (es : list sk) (z : pt) (miss : nat -> bool) (ls : list nat) : Prop :=
  Forall2 (fun e l => lands (splits e) z miss l) es ls.
(** cell [k] of node [l] *)
Definition cell (k : nat) (e : sk) (l : nat) : Q := nth k (concat (nth l (sk_value e) [])) 0%Q.
(** sum of the cells of a node *)
Definition total (e : sk) (l : nat) : Q := sumf (fun a => a) (concat (nth l (sk_value e) [])).
(** share of cell [k] among the cells of a node *)
Definition share (k : nat) (e : sk) (l : nat) : Q := (cell k e l / total e l)%Q.
(** class counts: no negative cell, some cell positive in every node *)
Definition counts (e : sk) : Prop :=
  forall r, In r (sk_value e) -> (forall a, In a (concat r) -> (0 <= a)%Q) /\ (0 < sumf (fun a => a) (concat r))%Q.
(** [f] summed over trees and leaves *)
Definition over (f : sk -> nat -> Q) (es : list sk) (ls : list nat) : Q :=
  sumf (fun p => f (fst p) (snd p)) (combine es ls).
(** sizes small enough for the compiled routine *)
Definition sk_small (es : list sk) (w d fuel : nat) : Prop :=
  (forall e, In e es -> length (sk_cl e) <= fuel) /\
  (Z.of_nat (length es) * Z.of_nat fuel * Z.of_nat w <= 2 ^ 32)%Z /\ (Z.of_nat d <= 2 ^ 32)%Z.

(** the splits of a predictor of histogram boosting: leaves have no children, a missing value goes to the declared side *)
Definition h_splits (p : list hnode) : tree :=
  mkTree (map (fun n => if h_leaf n then -1 else h_left n)%Z p) (map (fun n => if h_leaf n then -1 else h_right n)%Z p)
         (map (fun n => if h_leaf n then -1 else if h_missing_left n then h_left n else h_right n)%Z p)
         (map h_feature p) (map h_threshold p) (map h_value p).

(** isolation trees are grown on some of the features: [z] seen through the features [tf] *)
Definition through {A} (tf : list Z) (z : nat -> A) : nat -> A := fun s => z (Z.to_nat (nth s tf 0%Z)).
(** numbers of samples that add up *)
Definition samples (e : sk) : Prop :=
  length (sk_ns e) = length (sk_cl e) /\ (forall i, i < length (sk_cl e) -> (0 < nth i (sk_ns e) 0)%Z) /\
  forall i, i < length (sk_cl e) -> leaf_node (splits e) i = false ->
    nth i (sk_ns e) 0%Z = (nth (Z.to_nat (nth i (sk_cl e) (-1))) (sk_ns e) 0 + nth (Z.to_nat (nth i (sk_cr e) (-1))) (sk_ns e) 0)%Z.
(** leaves are marked by -1 for both children and -2 for the feature *)
Definition marked (e : sk) : Prop :=
  forall i, i < length (sk_cl e) -> leaf_node (splits e) i = true ->
    nth i (sk_cl e) 0%Z = (-1)%Z /\ nth i (sk_cr e) 0%Z = (-1)%Z /\ nth i (sk_ft e) 0%Z = (-2)%Z.
(** path length of [z]: edges down to its leaf, plus the correction for the number of samples of the leaf *)
Definition path_length (apl : Z -> Q) (e : sk) (z : pt) (miss : nat -> bool) (v : Q) : Prop :=
  exists l k, lands (splits e) z miss l /\ down_path (splits e) k 0 l /\ (v == Qn k + apl (nth l (sk_ns e) 0%Z))%Q.
(** the share of a cell for a classifier, the cell for a regressor *)
Definition value_at (nz : bool) (k : nat) (e : sk) (l : nat) : Q := if nz then share k e l else cell k e l.
(** a forest or a single tree, on the trees [es] *)
Definition is_forest (reg : bool) (m : skmodel) (es : list sk) : Prop :=
  if reg then m = ForestReg es \/ exists e, es = [e] /\ m = TreeReg e
  else m = ForestClf es \/ exists e, es = [e] /\ m = TreeClf e.
(** an isolation tree over the features [tf] of [d] columns *)
Definition iso_ok (d : nat) (p : sk * list Z) : Prop :=
  sk_ok (length (snd p)) 1 (fst p) /\ marked (fst p) /\
  (forall i, i < length (sk_cl (fst p)) -> (0 < nth i (sk_ns (fst p)) 0)%Z) /\
  2 <= length (snd p) /\ forall f, In f (snd p) -> (0 <= f < Z.of_nat d)%Z.

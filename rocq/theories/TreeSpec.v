(** Independent vocabulary for the statements about trees: membership in a
    half-open box, decision paths, split features above a node, path lengths.
    Nothing here mirrors code. *)
From Verif Require Import Base TreeModel.

(** lower bound < v *)
Definition above_lo (e : ext) (v : Q) : Prop :=
  match e with NInf => True | Fin a => (a < v)%Q | PInf => False end.
(** v <= upper bound *)
Definition below_hi (e : ext) (v : Q) : Prop :=
  match e with NInf => False | Fin a => (v <= a)%Q | PInf => True end.
(** the half-open box of [d] intervals contains [x] *)
Definition Inside (d : nat) (p : rect) (x : pt) : Prop :=
  forall s, s < d -> above_lo (fst (p s)) (x s) /\ below_hi (snd (p s)) (x s).

Section Tree.
Variable t : tree.

(** a node without left child *)
Definition leaf_node (i : nat) : bool := (clz t i <? 0)%Z.

(** one decision: a missing value goes to the default child, a value at most the
    threshold to the left child, a larger one to the right child *)
Inductive decides (x : pt) (miss : nat -> bool) (i : nat) : nat -> Prop :=
| dec_default : miss (ftn t i) = true -> decides x miss i (Z.to_nat (cdz t i))
| dec_left : miss (ftn t i) = false -> (x (ftn t i) <= thq t i)%Q ->
             decides x miss i (Z.to_nat (clz t i))
| dec_right : miss (ftn t i) = false -> (thq t i < x (ftn t i))%Q ->
              decides x miss i (Z.to_nat (crz t i)).

(** nodes met by an observation going down from the root *)
Inductive visits (x : pt) (miss : nat -> bool) : nat -> Prop :=
| vis_root : visits x miss 0
| vis_step i j : visits x miss i -> leaf_node i = false -> decides x miss i j ->
                 visits x miss j.

(** [above f j]: feature [f] is split on at some proper ancestor of node [j] *)
Inductive above : nat -> nat -> Prop :=
| ab_left i j f : i < nn t -> leaf_node i = false -> clz t i = Z.of_nat j ->
    f = ftn t i -> above f j
| ab_right i j f : i < nn t -> leaf_node i = false -> crz t i = Z.of_nat j ->
    f = ftn t i -> above f j
| ab_up_left i j f : i < nn t -> leaf_node i = false -> clz t i = Z.of_nat j ->
    above f i -> above f j
| ab_up_right i j f : i < nn t -> leaf_node i = false -> crz t i = Z.of_nat j ->
    above f i -> above f j.

(** a downward path of [k] edges from [i] to [j] *)
Inductive down_path : nat -> nat -> nat -> Prop :=
| dp_nil i : i < nn t -> down_path 0 i i
| dp_left k i j : i < nn t -> leaf_node i = false ->
    down_path k (Z.to_nat (clz t i)) j -> down_path (S k) i j
| dp_right k i j : i < nn t -> leaf_node i = false ->
    down_path k (Z.to_nat (crz t i)) j -> down_path (S k) i j.
End Tree.

(** [v] is the value of the leaf in which the decision path of [x] ends *)
Definition leaf_value (t : tree) (x : pt) (miss : nat -> bool) (v : Q) : Prop :=
  exists l, visits t x miss l /\ leaf_node t l = true /\ v = vlq t l.

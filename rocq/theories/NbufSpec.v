(** Vocabulary for the statements about the normalized Shapley values of an [ACVTree], from its trees. *)
From Verif Require Import Base TreeModel TreeSpec FlatModel FlatSpec EntryModel EntrySpec SbufSpec.

(** any two leaves of a tree are below splits on columns of the same players *)
Definition even_trees (ts : list mtree) (P : list (list nat)) : Prop :=
  forall t i i' g, In t ts -> is_leaf_of t i -> is_leaf_of t i' -> In g P ->
    (exists s, In s g /\ above (as_tree t 0) s i) -> exists s, In s g /\ above (as_tree t 0) s i'.

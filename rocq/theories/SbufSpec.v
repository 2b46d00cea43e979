(** Vocabulary for the statements about the Shapley values of an [ACVTree], from its trees. *)
From Verif Require Import Base TreeModel TreeSpec ShapSpec FlatModel FlatSpec EntryModel EntrySpec.

(** a list of the elements of a set, in whatever order: every element once *)
Definition lists_set (listed : list nat -> list nat) : Prop :=
  forall l, NoDup (listed l) /\ forall s, In s (listed l) <-> In s l.
(** the leaves of a tree *)
Definition is_leaf_of (m : mtree) (i : nat) : Prop := i < length (m_cl m) /\ leaf_node (as_tree m 0) i = true.
Definition leaf_count (m : mtree) : nat := length (filter (leaf_node (as_tree m 0)) (seq 0 (length (m_cl m)))).
(** [l] are the features that the path to node [i] splits on *)
Definition features_above (m : mtree) (i : nat) (l : list nat) : Prop :=
  NoDup l /\ forall s, In s l <-> above (as_tree m 0) s i.
(** [ps] are the players who have such a feature *)
Definition players_above (P : list (list nat)) (m : mtree) (i : nat) (ps : list (list nat)) : Prop :=
  NoDup ps /\ forall g, In g ps <-> In g P /\ exists s, In s g /\ above (as_tree m 0) s i.
(** at no leaf of any tree are there more players than one plus the number of features above some leaf of the last tree *)
Definition room (ts : list mtree) (P : list (list nat)) : Prop :=
  forall m i ps, In m ts -> is_leaf_of m i -> players_above P m i ps ->
    exists i' l, is_leaf_of (last ts no_tree) i' /\ features_above (last ts no_tree) i' l /\ length ps <= S (length l).
(** at some leaf there are more *)
Definition no_room (ts : list mtree) (P : list (list nat)) : Prop :=
  exists m i ps, In m ts /\ is_leaf_of m i /\ players_above P m i ps /\
    forall i' l, is_leaf_of (last ts no_tree) i' -> features_above (last ts no_tree) i' l -> S (length l) < length ps.
(** for every tree, its leaves in some order, by their positions *)
Definition leaf_orders (ts : list mtree) (order : nat -> list nat) : Prop :=
  forall b m, nth_error ts b = Some m -> Permutation (order b) (seq 0 (leaf_count m)).
(** the method returns [m] rows of [k] entries for every observation; [phi c j] is entry [j] of row [c] *)
Definition cube_entries (o : outcome (list (list (list Q)))) (xs : list (list Q)) (m k : nat) (P : list Q -> (nat -> nat -> Q) -> Prop) : Prop :=
  exists res, o = Returned res /\ length res = length xs /\
  forall i x, nth_error xs i = Some x -> exists table, nth_error res i = Some table /\ length table = m /\
    (forall r, In r table -> length r = k) /\ P x (fun c j => nth j (nth c table []) 0%Q).
(** the two methods return the same array *)
Definition same_cube (o o' : outcome (list (list (list Q)))) : Prop :=
  exists res res', o = Returned res /\ o' = Returned res' /\ Forall2 (Forall2 (Forall2 Qeq)) res res'.
(** a well-formed ensemble over [d] columns with [k] outputs, a background with the rows [zs], observations [xs] with at
    least as many columns, disjoint coalitions of columns, and the players *)
Definition explained (ts : list mtree) (stacked d w k : nat) (data : marg) (zs : list (list Q)) (X : marg) (xs : list (list Q)) (m : nat)
  (C P : list (list nat)) : Prop :=
  ensemble_ok ts stacked d w k /\ is_table data d zs /\ is_table X m xs /\ xs <> [] /\ d <= m /\
  coalitions_ok C d /\ C <> [] /\ is_players C m P.
(** no leaf of the ensemble is below a split on a column of [g] *)
Definition unused (ts : list mtree) (g : list nat) : Prop :=
  forall t i s, In t ts -> is_leaf_of t i -> In s g -> ~ above (as_tree t 0) s i.

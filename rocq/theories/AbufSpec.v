(** Vocabulary for the statements about the active Shapley values of an [ACVTree], from its trees. *)
From Verif Require Import Base TreeModel TreeSpec ShapSpec AcvSpec FlatModel FlatSpec SkModel SkSpec EntryModel EntrySpec SbufSpec.

(** the method returns [m] rows of [k] entries for every observation; [phi c j] is entry [j] of row [c], None the non-number *)
Definition ncube_entries (o : outcome (list (list (list (option Q))))) (xs : list (list Q)) (m k : nat)
  (P : list Q -> (nat -> nat -> option Q) -> Prop) : Prop :=
  exists res, o = Returned res /\ length res = length xs /\
  forall i x, nth_error xs i = Some x -> exists table, nth_error res i = Some table /\ length table = m /\
    (forall r, In r table -> length r = k) /\ P x (fun c j => nth j (nth c table []) None).
(** a well-formed ensemble over [d] columns with [k] outputs, a background with the rows [zs], observations [xs] with at
    least as many columns, disjoint coalitions of columns, active columns [A] and null columns [N] of which no player has one;
    every column split on above a leaf is active or null *)
Definition activated (ts : list mtree) (stacked d w k : nat) (data : marg) (zs : list (list Q)) (X : marg) (xs : list (list Q)) (m : nat)
  (C : list (list nat)) (A N : list nat) (P : list (list nat)) : Prop :=
  ensemble_ok ts stacked d w k /\ is_table data d zs /\ is_table X m xs /\ xs <> [] /\ d <= m /\
  coalitions_ok C d /\ C <> [] /\ is_players_of C A P /\
  NoDup A /\ (forall s, In s A -> s < m) /\ NoDup N /\ (forall s, In s N -> s < d) /\
  (forall g s, In g P -> In s g -> ~ In s N) /\
  (forall t i s, In t ts -> is_leaf_of t i -> above (as_tree t 0) s i -> In s A \/ In s N).
(** [z] is within the bounds [p] on the columns [N] *)
Definition within (N : list nat) (p : rect) (z : pt) : Prop :=
  forall s, In s N -> above_lo (fst (p s)) (z s) /\ below_hi (snd (p s)) (z s).
(** the leaves that depend on player [g] hold a background row, and the bounds of the other leaves on the null columns do *)
Definition countable (d : nat) (N : list nat) (data : list pt) (forest : list (list leaf)) (g : list nat) : Prop :=
  forall ls lf, In ls forest -> In lf ls ->
    ((exists s, In s g /\ In s (l_vars lf)) -> exists z, In z data /\ Inside d (l_rect lf) z) /\
    ((forall s, In s g -> ~ In s (l_vars lf)) -> exists z, In z data /\ within N (l_rect lf) z).
(** every leaf holds a background row *)
Definition filled (ts : list mtree) (zs : list (list Q)) : Prop :=
  forall t i, In t ts -> is_leaf_of t i -> exists z, In z zs /\ lands (as_tree t 0) (point z) no_missing i.
(** the two methods return the same array: the same numbers, and non-numbers in the same places *)
Definition same_number (a b : option Q) : Prop :=
  match a, b with Some p, Some q => (p == q)%Q | None, None => True | _, _ => False end.

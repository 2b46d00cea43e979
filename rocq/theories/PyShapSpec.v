(** Specification helpers for the pure Python Shapley routines. *)
From Verif Require Import Base TreeModel GameSpec ShapSpec AcvSpec.

(** every coalition has at least two columns *)
Definition wide_coalitions (C : list (list nat)) : Prop := forall c, In c C -> 1 < length c.
(** every leaf contains a background row *)
Definition leaves_held (m : nat) (data : list pt) (forest : list (list leaf)) : Prop :=
  forall ls lf, In ls forest -> In lf ls -> rows_in data (l_rect lf) (seq 0 m) <> 0.
(** every tree has a leaf *)
Definition trees_nonempty (forest : list (list leaf)) : Prop := forall ls, In ls forest -> ls <> [].
(** a coalition lies inside the active variables or avoids them *)
Definition not_split (C : list (list nat)) (S : list nat) : Prop :=
  forall c, In c C -> incl c S \/ (forall k, In k c -> ~ In k S).
(** [x] is on no lower bound of a leaf *)
Definition off_lower_bounds (forest : list (list leaf)) (x : pt) : Prop :=
  forall ls lf s a, In ls forest -> In lf ls -> fst (l_rect lf s) = Fin a -> ~ (x s == a)%Q.

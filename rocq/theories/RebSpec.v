(** Vocabulary for the rebuilt trees. *)
From Verif Require Import Base TreeModel TreeSpec RebModel.
Local Open Scope nat_scope.

(** [o] is the mean of the numbers, nothing when there are none *)
Definition mean_is (o : option Q) (l : list Q) : Prop :=
  match o with
  | None => l = []
  | Some m => l <> [] /\ (m * Qn (length l) == sumf (fun v => v) l)%Q
  end.
(** [l] lists the rows that pass the node [j] *)
Definition rows_at (t : tree) (rows : list obs) (j : nat) (l : list obs) : Prop :=
  exists e : obs -> bool, (forall r, e r = true <-> visits t (fst r) no_missing j) /\ l = filter e rows.
(** [v] is strictly above the lower bound and at most the upper bound on the columns [Sv] *)
Definition inside_on (Sv : list nat) (p : rect) (x : pt) : Prop :=
  forall s, In s Sv -> above_lo (fst (p s)) (x s) /\ below_hi (snd (p s)) (x s).
(** [x] is on no lower bound of the box in the columns [Sv] *)
Definition off_lower (Sv : list nat) (p : rect) (x : pt) : Prop :=
  forall s a, In s Sv -> fst (p s) = Fin a -> ~ (x s == a)%Q.

(** Specification of the index arrays of the adaptive routine. *)
From Verif Require Import Base.

(** a row of an index array of [d] entries listing [l], then filled with -1 *)
Definition listed (d : nat) (l : list nat) : list Z :=
  map Z.of_nat l ++ repeat (-1)%Z (d - length l).
(** [l] is a set of columns below [d] *)
Definition columns_ok (d : nat) (l : list nat) : Prop := NoDup l /\ forall c, In c l -> c < d.
(** [n] lists the columns below [d] that are not in [s] *)
Definition complement_of (d : nat) (s n : list nat) : Prop :=
  NoDup n /\ forall c, In c n <-> c < d /\ ~ In c s.

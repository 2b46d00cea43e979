(** Vocabulary for the rules cut level by level: the closed cell of an observation in the first levels of a tree, and
    "more than [m] rows". *)
From Verif Require Import Base TreeModel RfModel RfSpec.
Local Open Scope nat_scope.

(** [z] is on the side of [x], or on its border, at every split on [Sv] met in the first [depth] levels *)
Definition closed_cell (R : row) (Sv : list nat) (depth : nat) (x z : pt) : Prop :=
  forall k n f, k < depth -> met R Sv x k n -> splits_on R Sv n f ->
    ((x f <= r_thr R n)%Q -> (z f <= r_thr R n)%Q) /\ ((r_thr R n < x f)%Q -> (r_thr R n <= z f)%Q).
(** the values on [Sv] are at most 1e10 *)
Definition moderate (Sv : list nat) (z : pt) : Prop := forall f, In f Sv -> (- (10000000000 # 1) <= z f /\ z f <= 10000000000 # 1)%Q.
(** bounds included *)
Definition in_closed (Sv : list nat) (p : rule) (z : pt) : Prop :=
  forall f, In f Sv -> (fst (p f) <= z f)%Q /\ (z f <= snd (p f))%Q.
(** more than [m] of the first [N] rows have a property *)
Definition more_than (m N : nat) (P : nat -> Prop) : Prop :=
  exists l, NoDup l /\ (forall i, In i l -> i < N /\ P i) /\ m < length l.
(** the rows of the closed cell *)
Definition cell_rows (R : row) (Sv : list nat) (depth : nat) (x : pt) (data : nat -> pt) (i : nat) : Prop :=
  moderate Sv (data i) /\ closed_cell R Sv depth x (data i).

(** Specification vocabulary for rules: rectangles as sets of points. *)
From Verif Require Import Base.

(** [x] satisfies the rule on the first [d] variables. *)
Definition inside (d : nat) (r : nat -> Q * Q) (x : pt) : Prop :=
  forall k, k < d -> (fst (r k) <= x k <= snd (r k))%Q.
(** [a] is a subset of [b]. *)
Definition subrule (d : nat) (a b : nat -> Q * Q) : Prop := forall x, inside d a x -> inside d b x.
(** The bounds of [b] are at least as wide as those of [a]. *)
Definition wider (d : nat) (b a : nat -> Q * Q) : Prop :=
  forall k, k < d -> (fst (b k) <= fst (a k))%Q /\ (snd (a k) <= snd (b k))%Q.
(** Same bounds. *)
Definition same_rule (d : nat) (a b : nat -> Q * Q) : Prop :=
  forall k, k < d -> (fst (a k) == fst (b k))%Q /\ (snd (a k) == snd (b k))%Q.
(** Lower bounds do not exceed upper bounds on the variables [Sv]. *)
Definition proper (Sv : list nat) (r : nat -> Q * Q) : Prop :=
  forall k, In k Sv -> (fst (r k) <= snd (r k))%Q.
(** The rectangles share a facet of variable [k]. *)
Definition touch (a b : nat -> Q * Q) (k : nat) : Prop :=
  (fst (a k) == snd (b k))%Q \/ (snd (a k) == fst (b k))%Q.

(** Share of the elements of [l] with property [p]. *)
Definition share {A} (p : A -> bool) (l : list A) : Q := (Qn (length (filter p l)) / Qn (length l))%Q.
(** Mean squared distance of the values [y] over [l] to a constant. *)
Definition mse {A} (y : A -> Q) (l : list A) (c : Q) : Q :=
  (sumf (fun i => (y i - c) * (y i - c)) l / Qn (length l))%Q.
(** [i] is one of the samples inside the rule on the variables [Sv]. *)
Definition covered (Sv : list nat) (r : nat -> Q * Q) (x : pt) : Prop :=
  forall s, In s Sv -> (fst (r s) <= x s <= snd (r s))%Q.
(** [l] lists the samples inside the rule on the variables [Sv]. *)
Definition lists_covered (N : nat) (data : nat -> pt) (Sv : list nat) (r : nat -> Q * Q) (l : list nat) : Prop :=
  NoDup l /\ forall i, In i l <-> i < N /\ covered Sv r (data i).
(** [a] is the share of the samples inside the rule that have the target. *)
Definition accuracy (d N : nat) (data : nat -> pt) (ind : nat -> bool) (r : nat -> Q * Q) (a : Q) : Prop :=
  exists l, l <> [] /\ NoDup l /\ (forall i, In i l <-> i < N /\ inside d r (data i)) /\ (a == share ind l)%Q.
(** The bounds differ by at most [e]. *)
Definition near (e : Q) (a b : nat -> Q * Q) : Prop :=
  forall k, (Qabs (fst (a k) - fst (b k)) <= e)%Q /\ (Qabs (snd (a k) - snd (b k)) <= e)%Q.

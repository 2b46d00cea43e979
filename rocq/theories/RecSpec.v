(** What is said about the merging and the enclosing of rectangles, independently of the programs. *)
From Verif Require Import Base.
Local Open Scope nat_scope.

(** Sides of a rectangle given by its rows. *)
Definition lower (r : list (Q * Q)) (k : nat) : Q := fst (nth k r (0, 0)%Q).
(** Upper side. *)
Definition upper (r : list (Q * Q)) (k : nat) : Q := snd (nth k r (0, 0)%Q).
(** A point of the rectangle, open below and closed above. *)
Definition within (r : list (Q * Q)) (x : nat -> Q) : Prop := forall k, k < length r -> (lower r k < x k)%Q /\ (x k <= upper r k)%Q.
(** A point of one of the rectangles. *)
Definition union (l : list (list (Q * Q))) (x : nat -> Q) : Prop := exists r, In r l /\ within r x.
(** [d] rows, none of them flat. *)
Definition proper (d : nat) (r : list (Q * Q)) : Prop := length r = d /\ forall k, k < d -> (lower r k < upper r k)%Q.
(** All sides of [a] lie between those of [b]. *)
Definition part_of (a b : list (Q * Q)) : Prop := forall k, k < length a -> (lower b k <= lower a k)%Q /\ (upper a k <= upper b k)%Q.
(** A number seen on axis [k]. *)
Definition on_axis (l : list (list (Q * Q))) (k : nat) (u : Q) : Prop := exists r, In r l /\ (u = lower r k \/ u = upper r k).
(** Equal up to the tolerances of numpy. *)
Definition near (u v : Q) : Prop := (Qabs (u - v) <= (1 # 100000000) + (1 # 100000) * Qabs v)%Q.
(** Different numbers of an axis differ by more than these tolerances. *)
Definition apart (d : nat) (l : list (list (Q * Q))) : Prop :=
  forall k u v, k < d -> on_axis l k u -> on_axis l k v -> near u v -> (u == v)%Q.
(** [b] has a side in common with [a] on one axis and is at least as wide as [a] on all the others. *)
Definition touching (d : nat) (a b : list (Q * Q)) : Prop :=
  exists k, k < d /\ ((lower a k == upper b k)%Q \/ (upper a k == lower b k)%Q) /\
    forall l, l < d -> l <> k -> (lower b l <= lower a l)%Q /\ (upper a l <= upper b l)%Q.
(** [r] is reached from [p] by rectangles of the list, each touching the one before. *)
Inductive reached (d : nat) (p : list (Q * Q)) (l : list (list (Q * Q))) : list (Q * Q) -> Prop :=
| reached_first : forall r, In r l -> touching d p r -> reached d p l r
| reached_next : forall q r, reached d p l q -> In r l -> touching d q r -> reached d p l r.
(** Bounds of the smallest rectangle around [p] and what is reached from it. *)
Definition encloses (d : nat) (p : list (Q * Q)) (l : list (list (Q * Q))) (box : list (Q * Q)) : Prop :=
  length box = d /\ forall k, k < d ->
    (forall r, r = p \/ reached d p l r -> (lower box k <= lower r k)%Q /\ (upper r k <= upper box k)%Q) /\
    (exists r, (r = p \/ reached d p l r) /\ (lower box k == lower r k)%Q) /\
    (exists r, (r = p \/ reached d p l r) /\ (upper box k == upper r k)%Q).
(** A corner of a rectangle: on every axis one of the two sides. *)
Definition corner (d : nat) (r : list (Q * Q)) (c : list Q) : Prop :=
  length c = d /\ forall k, k < d -> nth k c 0%Q = lower r k \/ nth k c 0%Q = upper r k.

(** Specification vocabulary for the annealing searches. *)
From Verif Require Import Base RulesSpec.

(** [a] contains [r], and each of its bounds is a bound of [r] or of one of the
    other rules; nothing changes beyond the [d] variables. *)
Definition grown (d : nat) (r : nat -> Q * Q) (others : list (nat -> Q * Q)) (a : nat -> Q * Q) : Prop :=
  wider d a r /\ (forall k, d <= k -> a k = r k) /\
  forall k, k < d -> (fst (a k) = fst (r k) \/ exists q, In q others /\ fst (a k) = fst (q k)) /\
                     (snd (a k) = snd (r k) \/ exists q, In q others /\ snd (a k) = snd (q k)).
(** Some training sample has a value of variable [k] inside the rule. *)
Definition available (N : nat) (data : nat -> pt) (cond : nat -> Q * Q) (k : nat) : Prop :=
  exists i, i < N /\ (fst (cond k) <= data i k <= snd (cond k))%Q.
(** [v] is the value of variable [k] of a training sample, and inside the rule. *)
Definition from_training (N : nat) (data : nat -> pt) (cond : nat -> Q * Q) (k : nat) (v : Q) : Prop :=
  exists i, i < N /\ v = data i k /\ (fst (cond k) <= data i k <= snd (cond k))%Q.
(** A bound that is infinite (the code uses [big]) or within the range of the data. *)
Definition in_range (big mn mx v : Q) : Prop := (v <= - big)%Q \/ (big <= v)%Q \/ (mn <= v <= mx)%Q.

(** Independent notions used by the statements about counterfactual sessions. *)
From Verif Require Import Base RulesSpec AnnealSpec.

(** [c] is a counterfactual of the largest probability among [cs] *)
Definition most_probable (cs : list ((nat -> Q * Q) * Q)) (c : nat -> Q * Q) : Prop :=
  exists p, In (c, p) cs /\ forall c' p', In (c', p') cs -> (p' <= p)%Q.
(** [z] differs from [x] on the columns of [Sv] only, and has there values of training
    samples inside the rule, or the lower bound of a rule that holds none *)
Definition moved (N : nat) (data : nat -> pt) (Sv : list nat) (c : nat -> Q * Q) (x z : pt) : Prop :=
  (forall k, ~ In k Sv -> z k = x k) /\
  forall k, In k Sv -> from_training N data c k (z k) \/ (z k = fst (c k) /\ ~ available N data c k).
(** observations that have a counterfactual *)
Definition with_rules (n : nat) (cs : nat -> list ((nat -> Q * Q) * Q)) : list nat :=
  filter (fun i => match cs i with [] => false | _ => true end) (seq 0 n).
(** a point satisfies a rule whose lower bounds are open *)
Definition inside_open (d : nat) (r : nat -> Q * Q) (x : pt) : Prop :=
  forall k, k < d -> (fst (r k) < x k <= snd (r k))%Q.

(** Vocabulary for the Shapley values computed by enumeration. *)
From Verif Require Import Base.
Local Open Scope nat_scope.

(** the declared groups: none at all ([[[]]]), or several variables in each *)
Definition sized (C : list (list nat)) : Prop := C <> [] /\ (concat C = [] \/ forall c, In c C -> 2 <= length c).
(** the value function returns a number for every set of variables, the same one for every way to list it *)
Definition set_function (d : nat) (v : list nat -> option Q) : Prop := forall S S', NoDup S -> (forall k, In k S -> k < d) ->
  Permutation S S' -> exists q q', v S = Some q /\ v S' = Some q' /\ (q == q')%Q.
(** a number, when there is one *)
Definition the (o : option Q) : Q := match o with Some q => q | None => 0%Q end.
(** the variables are not correlated *)
Definition uncorrelated (d : nat) (cov : nat -> nat -> Q) : Prop := forall i j, i < d -> j < d -> i <> j -> (cov i j == 0)%Q.

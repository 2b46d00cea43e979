(** Vocabulary for the samples drawn after the counterfactual sessions.  Nothing here mirrors code. *)
From Verif Require Import Base RfModel RfSpec AgnSpec CrSpec CrsSpec.
Local Open Scope nat_scope.

(** the indices below [n] that have a counterfactual rule *)
Definition answered (n : nat) (outs : list (list (rule * Q * (nat -> Q)))) : list nat :=
  filter (fun i => match nth i outs [] with [] => false | _ => true end) (seq 0 n).
(** a rule of the list with the largest probability *)
Definition likeliest (out : list (rule * Q * (nat -> Q))) (c : rule) : Prop :=
  exists p v, In (c, p, v) out /\ forall c' p' v', In (c', p', v') out -> (p' <= p)%Q.
(** the sides of the leaves can be trusted: no stray read, full leaves, training values below the code's infinity *)
Definition trusted (d : nat) (stray : row) (classifier : bool) (yt down up : Q) (Ts : list rtree) (D : list pt) (Y : list Q) : Prop :=
  safe stray (seq 0 d) Ts /\ full_leaves 5 classifier yt down up Ts D Y /\ forall j, j < length D -> moderate (seq 0 d) (nth j D (fun _ => 0%Q)).
(** how many of the observations are in a rule, bounds included *)
Definition within (d : nat) (r : nat -> Q * Q) (tests : list pt) : nat :=
  length (filter (fun x => forallb (fun k => Qle_bool (fst (r k)) (x k) && Qle_bool (x k) (snd (r k))) (seq 0 d)) tests).

(** Vocabulary for the statements about the pure Python same-decision probabilities.
    Nothing here mirrors code. *)
From Verif Require Import Base TreeModel TreeSpec.

(** [z] has the values of [x] on the columns [S] *)
Definition same_on (S : list nat) (x z : pt) : Prop := forall s, In s S -> (x s == z s)%Q.
(** [z] is in the closed sides [s] of the box, [s] in [S] *)
Definition within (p : rect) (S : list nat) (z : pt) : Prop :=
  forall s, In s S ->
    match fst (p s) with NInf => True | Fin a => (a <= z s)%Q | PInf => False end /\ below_hi (snd (p s)) (z s).
(** [z] sits on no threshold of the tree *)
Definition off_thresholds (t : tree) (z : pt) : Prop :=
  forall i, i < nn t -> leaf_node t i = false -> ~ (z (ftn t i) == thq t i)%Q.
(** share of the rows [A] among which [B] holds *)
Definition share (A B : pt -> bool) (data : list pt) : Q :=
  (Qn (length (filter (fun z => A z && B z) data)) / Qn (length (filter A data)))%Q.
(** [b] decides [P] *)
Definition decided (b : bool) (P : Prop) : Prop := b = true <-> P.
(** [k] is the first class of highest score in [l] *)
Definition first_best (l : list Q) (k : nat) : Prop :=
  k < length l /\ (forall j, j < length l -> (nth j l 0 <= nth k l 0)%Q) /\
  (forall j, j < k -> (nth j l 0 < nth k l 0)%Q).

Section Paths.
Variables (t : tree) (x : pt) (S : list nat).
(** node [j] can be met below [i] by following [x] at the splits on [S] and either side elsewhere *)
Inductive may_meet : nat -> nat -> Prop :=
| mm_here i : may_meet i i
| mm_left i j : leaf_node t i = false -> (In (ftn t i) S -> (x (ftn t i) <= thq t i)%Q) ->
    may_meet (Z.to_nat (clz t i)) j -> may_meet i j
| mm_right i j : leaf_node t i = false -> (In (ftn t i) S -> (thq t i < x (ftn t i))%Q) ->
    may_meet (Z.to_nat (crz t i)) j -> may_meet i j.
End Paths.

(** Independent vocabulary for the projected forest: which nodes an observation
    meets when splits outside the conditioning set are followed both ways, which
    observations share its cell, membership in a rule or in a box.  Nothing here
    mirrors code. *)
From Verif Require Import Base TreeModel TreeSpec RfModel.

(** two observations have the same values on [Sv] *)
Definition agree_on (Sv : list nat) (a b : pt) : Prop := forall f, In f Sv -> (a f == b f)%Q.

(** node [n] splits on the variable [f] of [Sv] *)
Definition splits_on (R : row) (Sv : list nat) (n : Z) (f : nat) : Prop :=
  r_feat R n = Z.of_nat f /\ In f Sv.

(** [met R Sv x k n]: node [n] lies [k] levels below the root on a way that
    follows [x] at the splits on [Sv] and is free at the other ones *)
Inductive met (R : row) (Sv : list nat) (x : pt) : nat -> Z -> Prop :=
| met_root : met R Sv x 0 0%Z
| met_left k n f : met R Sv x k n -> splits_on R Sv n f -> (x f <= r_thr R n)%Q ->
    met R Sv x (S k) (r_left R n)
| met_right k n f : met R Sv x k n -> splits_on R Sv n f -> (r_thr R n < x f)%Q ->
    met R Sv x (S k) (r_right R n)
| met_free_left k n : met R Sv x k n -> (forall f, ~ splits_on R Sv n f) ->
    met R Sv x (S k) (r_left R n)
| met_free_right k n : met R Sv x k n -> (forall f, ~ splits_on R Sv n f) ->
    met R Sv x (S k) (r_right R n).

(** [z] is on the side of [x] at every split on [Sv] that [x] meets in the first
    [depth] levels *)
Definition same_cell (R : row) (Sv : list nat) (depth : nat) (x z : pt) : Prop :=
  forall k n f, k < depth -> met R Sv x k n -> splits_on R Sv n f ->
    ((x f <= r_thr R n)%Q <-> (z f <= r_thr R n)%Q).

(** nodes of the tree [t] reached when the splits outside [Sv] are followed both
    ways *)
Inductive reached (t : tree) (Sv : list nat) (z : pt) : nat -> Prop :=
| rch_root : reached t Sv z 0
| rch_left i : reached t Sv z i -> leaf_node t i = false ->
    (In (ftn t i) Sv -> (z (ftn t i) <= thq t i)%Q) -> reached t Sv z (Z.to_nat (clz t i))
| rch_right i : reached t Sv z i -> leaf_node t i = false ->
    (In (ftn t i) Sv -> (thq t i < z (ftn t i))%Q) -> reached t Sv z (Z.to_nat (crz t i)).

(** the projected tree does not separate [x] and [z]: they reach the same leaves *)
Definition same_leaves (t : tree) (Sv : list nat) (x z : pt) : Prop :=
  forall l, l < nn t -> leaf_node t l = true -> (reached t Sv x l <-> reached t Sv z l).

(** leaves as scikit-learn and ranger write them: no children (-1), a negative
    feature *)
Definition plain_leaves (t : tree) : Prop :=
  forall l, l < nn t -> leaf_node t l = true ->
    clz t l = (-1)%Z /\ crz t l = (-1)%Z /\ (nth l (ft t) (-1) < 0)%Z.

(** what happens to lie just before the arrays is not taken for a split on [Sv]
    and has no children *)
Definition harmless (stray : row) (Sv : list nat) : Prop :=
  (forall f, ~ splits_on stray Sv (-1) f) /\ r_left stray (-1) = (-1)%Z /\ r_right stray (-1) = (-1)%Z.

(** [z] satisfies the rule on the variables of [Sv]: lower bound excluded, upper
    bound included *)
Definition in_rule (Sv : list nat) (p : rule) (z : pt) : Prop :=
  forall f, In f Sv -> (fst (p f) < z f)%Q /\ (z f <= snd (p f))%Q.

(** [z] lies in the closed box on the variables outside [Sv] *)
Definition in_box (Sv : list nat) (box : rule) (z : pt) : Prop :=
  forall f, ~ In f Sv -> (fst (box f) <= z f)%Q /\ (z f <= snd (box f))%Q.

(** total of a family of weights *)
Definition total (N : nat) (w : nat -> Q) : Q := sumf w (seq 0 N).
(** frequency of an event among the first [N] samples *)
Definition frequency (N : nat) (e : nat -> bool) : Q :=
  (Qn (length (filter e (seq 0 N))) / Qn N)%Q.

(** training sample [i] gets the decision of the observation: its class, or a
    target inside the interval *)
Definition same_decision (classifier : bool) (yx t0 t1 : Q) (y : nat -> Q) (i : nat) : Prop :=
  if classifier then (yx == y i)%Q else (t0 <= y i)%Q /\ (y i <= t1)%Q.

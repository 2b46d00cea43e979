(** Specification for the searches of explanations of tree-based classifiers. *)
From Verif Require Import Base TreeModel SdpModel GameSpec SearchModel SearchSpec ClfModel.

(** every set of columns has an order that treats each leaf of each tree once *)
Definition treats_all (F : list (list cleaf)) (sched : list nat -> list (nat * nat)) : Prop :=
  forall S, NoDup (sched S) /\
    forall b l, In (b, l) (sched S) <-> exists ls, nth_error F b = Some ls /\ l < length ls.

(** the probability compute_sdp_clf returns for observation [k] and the columns [S] *)
Definition documented (d : nat) (F : list (list cleaf)) (rows : list (pt * nat)) (X : nat -> pt) (fX : nat -> nat)
  (k : nat) (S : list nat) : Q :=
  compute_sdp_clf d rows (fX k) S
    (map (map (fun lf => mkLeaf (c_rect lf) (c_vars lf) (c_val lf (fX k)))) F) (X k).

(** the row [r] shows a choice of at least [lo] groups that reaches the level [pi] for [f],
    no smaller choice does, and no choice of the same size is better *)
Definition shows_minimal (va : list (list nat)) (lo : nat) (pi : Q) (f : list nat -> Q) (r : row) : Prop :=
  exists T, In T (subs va) /\ lo <= length T /\
    reported r = map Z.of_nat (concat T) /\ r_len r = length (concat T) /\ (r_sdp r == f (concat T))%Q /\
    (forall T', In T' (subs va) -> lo <= length T' < length T -> (f (concat T') < pi)%Q) /\
    (forall T', In T' (subs va) -> length T' = length T -> (f (concat T') <= r_sdp r)%Q).

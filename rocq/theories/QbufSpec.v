(** Independent vocabulary for the quantile methods (C142-C144).  Nothing here mirrors code. *)
From Verif Require Import Base TreeModel RfModel QuantModel QuantSpec.
Local Open Scope nat_scope.

(** [v] is the smallest of the values [y 0 .. y (N-1)] *)
Definition smallest (N : nat) (y : nat -> Q) (v : Q) : Prop := (exists i, i < N /\ v = y i) /\ forall j, j < N -> (v <= y j)%Q.

(** a percentage *)
Definition percentage (q : Q) : Prop := (0 <= q <= 100)%Q.

(** every tree keeps some sample *)
Definition all_keep (T : nat) (sel : nat -> list nat) : Prop := 0 < T /\ forall b, b < T -> sel b <> [].

(** the share of the trees that keep some sample *)
Definition keeping (T : nat) (sel : nat -> list nat) : Q :=
  (Qn (length (filter (fun b => negb (length (sel b) =? 0)) (seq 0 T))) / Qn T)%Q.

(** the samples, one after the other, as [nth] of a list of targets *)
Definition target (Y : list Q) (i : nat) : Q := nth i Y 0%Q.

(** share of the samples of a list with a property (0 for no sample) *)
Definition share_in (e : nat -> bool) (l : list nat) : Q := (Qn (length (filter e l)) / Qn (length l))%Q.
(** average over the trees of that share *)
Definition averaged (T : nat) (sel : nat -> list nat) (e : nat -> bool) : Q :=
  (sumf (fun b => share_in e (sel b)) (seq 0 T) / Qn T)%Q.
(** average over the trees of the mean target of the samples kept *)
Definition mean_of_means (T : nat) (sel : nat -> list nat) (y : nat -> Q) : Q :=
  (sumf (fun b => sumf y (sel b) / Qn (length (sel b))) (seq 0 T) / Qn T)%Q.

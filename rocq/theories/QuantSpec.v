(** Independent vocabulary for the weighted percentile and the estimators built
    on it.  Nothing here mirrors code ([percentile_of]
    only names the two routines). *)
From Coq Require Import Sorted Permutation.
From Verif Require Import Base TreeModel TreeSpec RfModel RfSpec QuantModel.

(** a function that returns, for any values, their indices in an order of
    increasing values (ties in any order) *)
Definition sorting (argsort : list Q -> list nat) : Prop :=
  forall v, Permutation (argsort v) (seq 0 (length v)) /\
    StronglySorted (fun i j => (nth i v 0 <= nth j v 0)%Q) (argsort v).

(** samples with weight *)
Definition weighted (l : list (Q * Q)) (p : Q * Q) : Prop := In p l /\ (0 < snd p)%Q.

(** no negative weight *)
Definition fair (l : list (Q * Q)) : Prop := forall p, In p l -> (0 <= snd p)%Q.

(** no value twice among the samples with weight *)
Definition distinct_values (l : list (Q * Q)) : Prop :=
  ForallOrdPairs (fun a b => (0 < snd a)%Q -> (0 < snd b)%Q -> ~ (fst a == fst b)%Q) l.

(** total weight of the samples of a list with a property *)
Definition mass (e : Q * Q -> bool) (l : list (Q * Q)) : Q := sumf (fun p => if e p then snd p else 0%Q) l.

(** percentage of the weight before a sample, half its own weight included *)
Definition rank (l : list (Q * Q)) (p : Q * Q) : Q :=
  (100 * (mass (fun r => qltb (fst r) (fst p)) l + snd p / 2) / mass (fun _ => true) l)%Q.

(** the same samples with all weights multiplied by [c] *)
Definition scaled (c : Q) (l : list (Q * Q)) : list (Q * Q) := map (fun p => (fst p, (c * snd p)%Q)) l.

(** either of the two ways the percentile is computed *)
Definition percentile_of (argsort : list Q -> list nat) (f : list (Q * Q) -> Q -> option Q) : Prop :=
  f = weighted_percentile argsort \/ f = weighted_percentile_unsorted argsort.

(** sample [i] is selected by some of the first [T] selections *)
Definition chosen (T : nat) (sel : nat -> list nat) (i : nat) : Prop := exists b, b < T /\ In i (sel b).

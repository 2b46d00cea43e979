(** Specification for C101, independent of the tables. *)
From Coq Require Import List Arith Reals.
Import ListNotations.

(** total of a list of numbers *)
Fixpoint total (l : list R) : R := match l with [] => 0%R | v :: l => (v + total l)%R end.

(** the decision of a binary boosted classifier: class 1 exactly when the offset plus the
    raw values of the leaves reached is positive *)
Definition model_says_1 (offset : R) (vs : list R) : Prop := (0 < offset + total vs)%R.

(** leaf choice: one node of every tree *)
Definition one_per_tree (ts : list (list R)) (ls : list nat) : Prop :=
  length ls = length ts /\ forall b, b < length ts -> nth b ls 0 < length (nth b ts []).

(** the raw values of the chosen nodes *)
Definition reached (ts : list (list R)) (ls : list nat) : list R :=
  map (fun b => nth (nth b ls 0) (nth b ts []) 0%R) (seq 0 (length ts)).

(** what a lookup yields in total for a class, None when one entry is missing *)
Fixpoint total_lookup (look : nat -> nat -> nat -> option R) (c : nat) (bs : list nat) (ls : nat -> nat) : option R :=
  match bs with
  | [] => Some 0%R
  | b :: bs => match look b (ls b) c, total_lookup look c bs ls with
               | Some v, Some t => Some (v + t)%R
               | _, _ => None
               end
  end.

(** Specification of the game explained by the Shapley routines. *)
From Verif Require Import Base TreeModel TreeSpec GameSpec.

Definition gdec := list_eq_dec Nat.eq_dec.

(** the box restricted to the columns [F] contains [x] *)
Definition sat_on (p : rect) (F : list nat) (x : pt) : bool :=
  forallb (fun s => in_itv (p s) (x s)) F.
(** number of background rows in the box restricted to [F] *)
Definition rows_in (data : list pt) (p : rect) (F : list nat) : nat :=
  length (filter (sat_on p F) data).
(** plug-in conditional probability of the leaf given the columns [F] of [x]:
    rows in the leaf over rows in its projection on [F] (0 when there is none),
    if [x] is itself in the projection *)
Definition cond_prob (m : nat) (data : list pt) (p : rect) (F : list nat) (x : pt) : Q :=
  if sat_on p F x then
    match rows_in data p F with
    | O => 0%Q
    | S _ as n => (Qn (rows_in data p (seq 0 m)) / Qn n)%Q
    end
  else 0%Q.
(** worth of a set of players: sum over trees and leaves of the leaf value
    times the conditional probability of the leaf *)
Definition worth (m : nat) (data : list pt) (forest : list (list leaf)) (x : pt)
  (T : list (list nat)) : Q :=
  sumf (fun ls => sumf (fun lf => l_val lf * cond_prob m data (l_rect lf) (concat T) x)%Q ls) forest.

(** declared coalitions: disjoint lists of columns below [m]; [[[]]] means none *)
Definition coalitions_ok (C : list (list nat)) (m : nat) : Prop :=
  NoDup (concat C) /\ (forall i, In i (concat C) -> i < m) /\
  (match C with (_ :: _) :: _ => True | _ => concat C = [] end).
(** the players: the declared non-empty groups and the remaining single columns *)
Definition is_players (C : list (list nat)) (m : nat) (P : list (list nat)) : Prop :=
  NoDup P /\
  forall g, In g P <-> (In g C /\ g <> []) \/
                       (exists i, i < m /\ ~ In i (concat C) /\ g = [i]).

(** what C02 guarantees of the leaves extracted from a tree over [m] columns *)
Definition leaf_ok (m : nat) (lf : leaf) : Prop :=
  NoDup (l_vars lf) /\ (forall s, In s (l_vars lf) -> s < m) /\
  (forall s, ~ In s (l_vars lf) -> l_rect lf s = (NInf, PInf)).
Definition forest_ok (m : nat) (forest : list (list leaf)) : Prop :=
  forall ls lf, In ls forest -> In lf ls -> leaf_ok m lf.

(** binomial coefficient by Pascal's rule *)
Fixpoint choose (n k : nat) : nat :=
  match n, k with
  | _, O => 1
  | O, S _ => 0
  | S n', S k' => choose n' k' + choose n' k
  end.

(** Textbook cooperative games: subsets, orders of arrival, Shapley values.
    Independent specification; nothing here mirrors code. *)
From Verif Require Import Base.

Section Game.
Context {A : Type}.
Variable eqd : forall a b : A, {a = b} + {a <> b}.

(** all sub-lists (subsets) of a list of players *)
Fixpoint subs (l : list A) : list (list A) :=
  match l with
  | [] => [[]]
  | a :: r => subs r ++ map (cons a) (subs r)
  end.

(** probability, in a uniformly random order of [n] players, that the [s]
    members of a given set (and only they) arrive before a given other player *)
Definition weight (n s : nat) : Q := Qn (fact s * fact (n - s - 1)) / Qn (fact n).

(** Shapley value of player [i] in the game [v], subset form *)
Definition shapley (players : list A) (v : list A -> Q) (i : A) : Q :=
  sumf (fun T => weight (length players) (length T) * (v (i :: T) - v T))%Q
       (subs (remove eqd i players)).

(** all orders of arrival of [n] players *)
Fixpoint orders (n : nat) (l : list A) : list (list A) :=
  match n with
  | O => [[]]
  | S n' => flat_map (fun a => map (cons a) (orders n' (remove eqd a l))) l
  end.
(** players arriving before [i] *)
Fixpoint before (i : A) (o : list A) : list A :=
  match o with
  | [] => []
  | a :: r => if eqd a i then [] else a :: before i r
  end.
(** average marginal contribution over all orders of arrival *)
Definition shapley_orders (players : list A) (v : list A -> Q) (i : A) : Q :=
  sumf (fun o => v (i :: before i o) - v (before i o))%Q (orders (length players) players)
  / Qn (length (orders (length players) players)).

(** a game: the worth does not depend on the order in which a set is listed *)
Definition is_game (v : list A -> Q) : Prop :=
  forall T U, Permutation T U -> (v T == v U)%Q.
End Game.

(** What the swing decomposition should return: textbook notions only. *)
From Verif Require Import Base GameSpec ShapSpec.

Section Swings.
(** a set function on columns, a list of players (lists of columns), a player *)
Variable v : list nat -> Q.
Variable P : list (list nat).
Variable g : list nat.
(** the game played by the players *)
Definition on_players (T : list (list nat)) : Q := v (concat T).
(** coalitions of the other players *)
Definition rivals : list (list (list nat)) := subs (remove gdec g P).
(** marginal contribution of [g] to [T] *)
Definition gain (T : list (list nat)) : Q := (on_players (g :: T) - on_players T)%Q.
(** coalitions that [g] improves, worsens, leaves unchanged *)
Definition improved : list (list (list nat)) := filter (fun T => qltb (on_players T) (on_players (g :: T))) rivals.
Definition worsened : list (list (list nat)) := filter (fun T => qltb (on_players (g :: T)) (on_players T)) rivals.
Definition unchanged : list (list (list nat)) := filter (fun T => qeqb (on_players (g :: T)) (on_players T)) rivals.
(** part of the Shapley value due to a family of coalitions *)
Definition part (Ts : list (list (list nat))) : Q :=
  sumf (fun T => weight (length P) (length T) * gain T)%Q Ts.
End Swings.

(** the six numbers reported for a player [g]: the Shapley value, its part due to
    the coalitions that [g] improves and to those it worsens, and how many
    coalitions are improved, worsened and left unchanged *)
Definition decomposition (v : list nat -> Q) (P : list (list nat)) (g : list nat)
  (phi pos neg : Q) (n_pos n_neg n_null : nat) : Prop :=
  (phi == shapley gdec P (on_players v) g)%Q /\
  (pos == part v P g (improved v P g))%Q /\ (neg == part v P g (worsened v P g))%Q /\
  n_pos = length (improved v P g) /\ n_neg = length (worsened v P g) /\
  n_null = length (unchanged v P g).

(** Specification of the normalized leaf probabilities and of the games they
    define.  Nothing here mirrors code. *)
From Verif Require Import Base TreeModel TreeSpec GameSpec ShapSpec.

(** probability of the leaf [lf] among the leaves [ls] of its tree, given the
    columns [F] of [x]: the plug-in probability divided by the total over the
    tree (0 when the total is 0) *)
Definition norm_prob (m : nat) (data : list pt) (ls : list leaf) (lf : leaf) (F : list nat) (x : pt) : Q :=
  (cond_prob m data (l_rect lf) F x
   / sumf (fun lf' => cond_prob m data (l_rect lf') F x) ls)%Q.
(** the normalized conditional expectation as a game *)
Definition worth_norm (m : nat) (data : list pt) (forest : list (list leaf)) (x : pt)
  (T : list (list nat)) : Q :=
  sumf (fun ls => sumf (fun lf => l_val lf * norm_prob m data ls lf (concat T) x)%Q ls) forest.
(** players with a column among the variables of the leaf *)
Definition meets (lf : leaf) (g : list nat) : bool := existsb (fun s => memb s (l_vars lf)) g.
(** the same expectation when, for every leaf, only the players met by that leaf
    are conditioned on *)
Definition worth_local (m : nat) (data : list pt) (forest : list (list leaf)) (x : pt)
  (T : list (list nat)) : Q :=
  sumf (fun ls => sumf (fun lf =>
    l_val lf * norm_prob m data ls lf (concat (filter (meets lf) T)) x)%Q ls) forest.
(** every leaf holds a background row *)
Definition all_held (m : nat) (data : list pt) (forest : list (list leaf)) : Prop :=
  forall ls lf, In ls forest -> In lf ls -> exists z, In z data /\ Inside m (l_rect lf) z.
(** all leaves of a tree meet the same players *)
Definition same_players (P : list (list nat)) (forest : list (list leaf)) : Prop :=
  forall ls lf lf' g, In ls forest -> In lf ls -> In lf' ls -> In g P -> meets lf g = meets lf' g.
(** the observation is on no bound of a leaf *)
Definition off_bounds (forest : list (list leaf)) (x : pt) : Prop :=
  forall ls lf s b, In ls forest -> In lf ls ->
    (fst (l_rect lf s) = Fin b \/ snd (l_rect lf s) = Fin b) -> ~ (x s == b)%Q.

(** What the local importances and the clusters should be: textbook notions only. *)
From Verif Require Import Base GameSpec.

(** share of the explanations that contain the variable *)
Definition share_with (j : nat) (coals : list (list nat)) : Q :=
  (Qn (length (filter (fun c => memb j c) coals)) / Qn (length coals))%Q.

Section Clusters.
(** probability of a set of variables at a given radius *)
Variable P : Q -> list nat -> Q.
(** [S] is, among the non-empty subsets of [rest] reaching the level, one of the smallest
    size, and of the largest probability within that size *)
Definition best_sufficient (thr level : Q) (rest S : list nat) : Prop :=
  In S (subs rest) /\ S <> [] /\ (level <= P thr S)%Q /\
  forall T, In T (subs rest) -> T <> [] -> (level <= P thr T)%Q ->
    length S <= length T /\ (length T = length S -> (P thr T <= P thr S)%Q).
(** [next] gives the radius and level of the following round *)
Variable next : Q * Q -> Q * Q.
(** successive clusters taken out of [rest] *)
Inductive clusters : Q -> Q -> list nat -> list (list nat) -> Prop :=
| clusters_end thr level : clusters thr level [] []
| clusters_rest thr level rest whole : rest <> [] ->
    (forall T, In T (subs rest) -> T <> [] -> (P thr T < level)%Q) ->
    Permutation whole rest -> clusters thr level rest [whole]
| clusters_best thr level rest S rest' more :
    best_sufficient thr level rest S -> Permutation rest (S ++ rest') ->
    clusters (fst (next (thr, level))) (snd (next (thr, level))) rest' more ->
    clusters thr level rest (S :: more).
End Clusters.

(** Independent notions used by the statements about the divergent-set sessions. *)
From Verif Require Import Base GameSpec SearchSpec.

(** [S] is the answer expected from a search, among the columns [space] of [d], for a set
    that reaches the level [pi] under [f]: a minimal one, the best of its size; all
    columns when no smaller set will do; failing that, the best of the sets tried (with
    the early stop, those of at most half of the columns at least) *)
Definition settled (d : nat) (space : list nat) (pi : Q) (stop : bool) (f : list nat -> Q) (S : list nat) : Prop :=
  In S (subs space) /\ S <> [] /\
  ((length S = d /\ forall S', In S' (subs space) -> S' <> [] -> length S' < d -> (f S' < pi)%Q) \/
   ((pi <= f S)%Q /\
    (forall S', In S' (subs space) -> S' <> [] -> length S' < length S -> (f S' < pi)%Q) /\
    (forall S', In S' (subs space) -> length S' = length S -> (f S' <= f S)%Q)) \/
   ((f S < pi)%Q /\
    forall S', In S' (subs space) -> S' <> [] -> (stop = true -> length S' <= Nat.max 1 (d / 2)) ->
      (f S' <= f S)%Q)).

(** Specification: the restricted game of the active variables, and
    interleavings of concurrent programs. *)
From Verif Require Import Base TreeModel GameSpec ShapSpec.

(** players made of the active variables [S]: declared groups containing an
    active variable, and the remaining active single columns *)
Definition is_players_of (C : list (list nat)) (S : list nat) (P : list (list nat)) : Prop :=
  NoDup P /\
  forall g, In g P <-> (In g C /\ exists i, In i S /\ In i g) \/
                       (exists i, In i S /\ ~ In i (concat C) /\ g = [i]).
(** every column on which some leaf depends is active or null *)
Definition active_null_cover (S N : list nat) (forest : list (list leaf)) : Prop :=
  NoDup S /\ (forall i, In i S -> ~ In i N) /\
  forall ls lf s, In ls forest -> In lf ls -> In s (l_vars lf) -> In s S \/ In s N.
(** restricted game: nobody is worth the plug-in mean; a non-empty set is worth
    the plug-in conditional expectation given it and all null variables *)
Definition worth_acv (m : nat) (N : list nat) (data : list pt) (forest : list (list leaf)) (x : pt)
  (T : list (list nat)) : Q :=
  match T with
  | [] => worth m data forest x []
  | _ => worth m data forest x (T ++ [N])
  end.

(** [interleaving ps l]: [l] is an execution order of the programs [ps] (program
    [k] is the [k]-th list) that respects the order inside each program *)
Inductive interleaving {A} : (nat -> list A) -> list (nat * A) -> Prop :=
  | il_done ps : (forall k, ps k = []) -> interleaving ps []
  | il_step ps k a r l : ps k = a :: r ->
      interleaving (fun k' => if k' =? k then r else ps k') l ->
      interleaving ps ((k, a) :: l).

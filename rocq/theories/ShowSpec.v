(** Vocabulary for what the class [CR] prints: a reader of the lines, and what the conditions say about a point.  Nothing here mirrors code. *)
From Coq Require Import String.
From Verif Require Import Base ShowModel.
Local Open Scope nat_scope.
Local Open Scope list_scope.

(** ** The reader: headings, and what is below them until the next heading *)
Definition heading (a : line) : bool := match a with Columns _ | Rule_of _ | Counter _ _ => true | _ => false end.
Fixpoint cut (ls : list line) : list line * list (line * list line) :=
  match ls with
  | [] => ([], [])
  | a :: r => let c := cut r in if heading a then ([], (a, fst c) :: snd c) else (a :: fst c, snd c)
  end.
(** a rule that was read: of which observation, which counterfactual (none: the sufficient rule), conditions, outputs, probabilities *)
Record reading := mkRead { q_obs : nat; q_rule : option nat; q_conds : list (string * Q * Q); q_outs : list (bool * option Q); q_probs : list (bool * Q) }.
Definition conds (ls : list line) := flat_map (fun a => match a with Cond c lo hi => [(c, lo, hi)] | _ => [] end) ls.
Definition outputs (ls : list line) := flat_map (fun a => match a with Output s v => [(s, v)] | _ => [] end) ls.
Definition probabilities (ls : list line) := flat_map (fun a => match a with Probability s p => [(s, p)] | _ => [] end) ls.
Definition read (s : line * list line) : list reading :=
  match fst s with
  | Counter i l => [mkRead i (Some l) (conds (snd s)) (outputs (snd s)) (probabilities (snd s))]
  | Rule_of i => [mkRead i None (conds (snd s)) (outputs (snd s)) (probabilities (snd s))]
  | _ => []
  end.
(** all rules that are read *)
Definition sheet (ls : list line) : list reading := flat_map read (snd (cut ls)).
(** all observations that are read *)
Definition points (ls : list line) : list (nat * list Q) := flat_map (fun a => match a with Point i x => [(i, x)] | _ => [] end) ls.

(** ** The conditions *)
(** [z] satisfies conditions on the columns called [names] *)
Definition obeys (names : list string) (cs : list (string * Q * Q)) (z : pt) : Prop :=
  forall c lo hi k, In (c, lo, hi) cs -> nth_error names k = Some c -> (lo <= z k <= hi)%Q.
(** in the closed box *)
Definition in_box (d : nat) (b : nat -> Q * Q) (z : pt) : Prop := forall k, k < d -> (fst (b k) <= z k <= snd (b k))%Q.
(** no coordinate beyond 1e10 *)
Definition common (d : nat) (z : pt) : Prop := forall k, k < d -> (- (10000000000 # 1) <= z k <= 10000000000 # 1)%Q.
(** the conditions tell which points are in the box [b] *)
Definition describes (d : nat) (names : list string) (cs : list (string * Q * Q)) (b : nat -> Q * Q) : Prop :=
  forall z, common d z -> (obeys names cs z <-> in_box d b z).
(** the mean of the targets of the rows with a weight; [None] when there are none *)
Definition mean_target (Y : list Q) (w : nat -> Q) (v : option Q) : Prop :=
  match v with
  | Some m => exists ids, NoDup ids /\ (forall j, In j ids <-> j < length Y /\ ~ (w j == 0)%Q) /\ ids <> [] /\ (m * Qn (length ids) == sumf (fun j => nth j Y 0%Q) ids)%Q
  | None => forall j, j < length Y -> (w j == 0)%Q
  end.

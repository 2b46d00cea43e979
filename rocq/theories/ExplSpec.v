(** Independent notions used by the statements about the explainer objects. *)
From Verif Require Import Base ExplModel.

Section Histories.
Variables F R : Type.
(** the forest and the number of columns of the last fit of a history *)
Fixpoint last_fit (h : list (op F R)) : option (F * nat) :=
  match h with
  | [] => None
  | o :: r => match last_fit r, o with
              | Some x, _ => Some x
              | None, Fit f d => Some (f, d)
              | None, _ => None
              end
  end.
(** the last fitted global rules of a history *)
Fixpoint last_rules (h : list (op F R)) : option R :=
  match h with
  | [] => None
  | o :: r => match last_rules r, o with
              | Some x, _ => Some x
              | None, FitRules x => Some x
              | None, _ => None
              end
  end.
(** no explanation has been asked for once a forest was available *)
Definition never_explained (h : list (op F R)) : Prop :=
  forall h1 h2, h = h1 ++ Explain :: h2 -> last_fit h1 = None.
(** the first explanation asked for after a fit comes after [h1] and before [h2] *)
Definition first_explained (h h1 h2 : list (op F R)) : Prop :=
  h = h1 ++ Explain :: h2 /\ last_fit h1 <> None /\ never_explained h1.
End Histories.
Arguments last_fit {F R}. Arguments last_rules {F R}.
Arguments never_explained {F R}. Arguments first_explained {F R}.

(** [order] lists the columns below [d] by decreasing importance *)
Definition decreasing {A} (le : A -> A -> Prop) (imp : nat -> A) (order : list nat) : Prop :=
  forall i j a b, i < j -> nth_error order i = Some a -> nth_error order j = Some b -> le (imp b) (imp a).
(** what [np.argsort] of the opposite importances returns, ties in any order *)
Definition ranked (imp : nat -> Q) (d : nat) (order : list nat) : Prop :=
  Permutation order (seq 0 d) /\ decreasing Qle imp order.
(** the keys of [value_counts]: the distinct values by decreasing count, ties in any order *)
Definition counted (l : list nat) (order : list nat) : Prop :=
  NoDup order /\ (forall v, In v order <-> In v l) /\ decreasing le (count_occ Nat.eq_dec l) order.
(** disjoint coalitions of columns below [d]; [[[]]] stands for none *)
Definition coal_ok (C : list (list nat)) (d : nat) : Prop :=
  NoDup (concat C) /\ (forall x, In x (concat C) -> x < d) /\ (C = [[]] \/ ~ In [] C).

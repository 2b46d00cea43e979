(** Specification for conditional expectations and same-decision probabilities. *)
From Verif Require Import Base TreeModel TreeSpec.

(** membership in the closed box over [m] columns *)
Definition inside_closed (m : nat) (p : rect) (z : pt) : bool :=
  forallb (fun s => ext_leb_q (fst (p s)) (z s) && q_leb_ext (z s) (snd (p s))) (seq 0 m).
(** no coordinate of [z] equals a lower bound of a leaf *)
Definition off_boundary (forest : list (list leaf)) (z : pt) : Prop :=
  forall ls lf s q, In ls forest -> In lf ls -> fst (l_rect lf s) = Fin q -> ~ (z s == q)%Q.
(** sum, over the trees, of the values of the closed leaves containing [z] *)
Definition closed_value (m : nat) (forest : list (list leaf)) (z : pt) : Q :=
  sumf (fun ls => sumf (fun lf => if inside_closed m (l_rect lf) z then l_val lf else 0%Q) ls) forest.
(** arithmetic mean, 0 for the empty list *)
Definition mean {A} (f : A -> Q) (l : list A) : Q :=
  match l with [] => 0%Q | _ => (sumf f l / Qn (length l))%Q end.
(** the row has the values of [x] on the columns [S] *)
Definition same_on (S : list nat) (x z : pt) : bool := forallb (fun s => qeqb (z s) (x s)) S.
(** contribution of one tree, closed leaves *)
Definition closed_tree (m : nat) (ls : list leaf) (z : pt) : Q :=
  sumf (fun lf => if inside_closed m (l_rect lf) z then l_val lf else 0%Q) ls.

(** Vocabulary for the statements about ensembles with several outputs. *)
From Verif Require Import Base TreeModel TreeSpec FlatModel.

(** output [k] of a tree, as a tree with one output *)
Definition as_tree (m : mtree) (k : nat) : tree :=
  mkTree (m_cl m) (m_cr m) (m_cd m) (m_ft m) (m_th m) (map (fun r => nth k r 0%Q) (m_vl m)).
(** a well-formed tree over [d] features whose nodes all have [w] outputs *)
Definition well_formed (d w : nat) (m : mtree) : Prop :=
  wf_tree (as_tree m 0) d = true /\ forall r, In r (m_vl m) -> length r = w.
(** the outputs [r] of the leaf in which the decision path of [z] ends *)
Definition gives (m : mtree) (z : pt) (miss : nat -> bool) (r : list Q) : Prop :=
  exists l, visits (as_tree m 0) z miss l /\ leaf_node (as_tree m 0) l = true /\ r = nth l (m_vl m) [].
(** [rs] are the outputs of the trees [ts], one by one *)
Definition all_give (ts : list mtree) (z : pt) (miss : nat -> bool) (rs : list (list Q)) : Prop :=
  Forall2 (fun m r => gives m z miss r) ts rs.
(** entry [k] of the vector of offsets *)
Definition offset_of (b : offset) (k : nat) : Q :=
  match b with Scalar q => q | Vector l => nth k l 0%Q end.
Definition offset_fits (b : offset) (k : nat) : Prop :=
  match b with Scalar _ => True | Vector l => length l = k end.
(** the indexes of all cells fit in 32 bits *)
Definition fits (ts : list mtree) (k d : nat) : Prop :=
  exists n, (forall m, In m ts -> length (m_vl m) <= n) /\
            (Z.of_nat (length ts) * Z.of_nat n * Z.of_nat k <= 2 ^ 32)%Z /\ (Z.of_nat d <= 2 ^ 32)%Z.
(** sum of the outputs [k] of the trees [j] of class [k], one tree per class in turn *)
Definition class_sum (K k : nat) (rs : list (list Q)) : Q :=
  sumf (fun j => if j mod K =? k then nth 0 (nth j rs []) 0 else 0)%Q (seq 0 (length rs)).
(** number of trees kept by a limit among [T] *)
Definition limit_keeps (limit : Z) (T L : nat) : Prop :=
  (0 <= limit <= Z.of_nat T)%Z /\ limit = Z.of_nat L \/ ~ (0 <= limit <= Z.of_nat T)%Z /\ L = T.

(** Specification for the leaf-based same-decision probability of a regression tree. *)
From Verif Require Import Base TreeModel TreeSpec SdpSpec.

(** the point is inside the closed projection of the box on the columns [S] *)
Definition inside_on (S : list nat) (p : rect) (z : pt) : bool :=
  forallb (fun s => ext_leb_q (fst (p s)) (z s) && q_leb_ext (z s) (snd (p s))) S.
(** share of the rows of the projection on [S] that are in the box itself *)
Definition share (m : nat) (S : list nat) (rows : list pt) (p : rect) : Q :=
  mean (fun z => Qb (inside_closed m p z)) (filter (inside_on S p) rows).
(** weight of a leaf given the values of [x] on [S] *)
Definition weight (m : nat) (S : list nat) (x : pt) (rows : list pt) (lf : leaf) : Q :=
  if inside_on S (l_rect lf) x then share m S rows (l_rect lf) else 0%Q.
(** total weight of the leaves of a tree *)
Definition total_weight (m : nat) (S : list nat) (x : pt) (rows : list pt) (ls : list leaf) : Q :=
  sumf (weight m S x rows) ls.
(** weighted mean, over the leaves, of the squared distance of the value to [c] *)
Definition deviation (m : nat) (S : list nat) (x : pt) (rows : list pt) (c : Q) (ls : list leaf) : Q :=
  (sumf (fun lf => weight m S x rows lf * ((l_val lf - c) * (l_val lf - c))) ls / total_weight m S x rows ls)%Q.
(** the predictions within the tolerance *)
Definition near (fX tX : Q) (r : pt * Q) : bool := qleb ((fX - snd r) * (fX - snd r)) tX.

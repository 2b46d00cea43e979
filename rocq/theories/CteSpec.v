(** Vocabulary for the statements about the conditional expectations of one tree.  Nothing here mirrors code. *)
From Verif Require Import Base TreeModel TreeSpec PartSpec.

(** the feature of a node is -2 exactly at the leaves, as in sklearn *)
Definition sk_tree (t : tree) : Prop := forall i, i < nn t -> ((nth i (ft t) 0 = -2)%Z <-> leaf_node t i = true).
(** the weights of a fitted tree: positive, and what a node has goes to its children *)
Definition fitted (t : tree) (w : nat -> Q) : Prop := forall i, i < nn t ->
  (0 < w i)%Q /\ (leaf_node t i = false -> (w i == w (Z.to_nat (clz t i)) + w (Z.to_nat (crz t i)))%Q).
(** the weight of a node is the number of rows that visit it *)
Definition counts (t : tree) (w : nat -> Q) (rows : list pt) : Prop := forall i, i < nn t ->
  forall b : pt -> bool, (forall z, In z rows -> decided (b z) (visits t z no_missing i)) -> (w i == Qn (length (filter b rows)))%Q.
(** [q] is the mean of a quantity of the predictions over some rows, at least one *)
Definition mean_over (t : tree) (h : Q -> Q) (rows : list pt) (q : Q) : Prop := rows <> [] /\
  exists val : pt -> Q, (forall z, In z rows -> leaf_value t z no_missing (val z)) /\ (q * Qn (length rows) == sumf (fun z => h (val z)) rows)%Q.
(** mean of the predictions *)
Definition mean_pred (t : tree) (rows : list pt) (q : Q) : Prop := mean_over t (fun v => v) rows q.
(** the values of [x] on [S], those of [z] elsewhere *)
Definition splice (S : list nat) (x z : pt) : pt := fun k => if in_dec Nat.eq_dec k S then x k else z k.
(** all the split features are in [S] *)
Definition splits_in (t : tree) (S : list nat) : Prop := forall i, i < nn t -> leaf_node t i = false -> In (ftn t i) S.
(** the tree never splits on [j] *)
Definition unused (t : tree) (j : nat) : Prop := forall i, i < nn t -> leaf_node t i = false -> ftn t i <> j.
(** all the leaves that can be met given [x] on [S] have a value between [lo] and [hi] *)
Definition met_between (t : tree) (x : pt) (S : list nat) (h : Q -> Q) (lo hi : Q) : Prop :=
  forall l, may_meet t x S 0 l -> leaf_node t l = true -> (lo <= h (vlq t l) <= hi)%Q.
(** [A] tells the rows of [data] that have the values of [x] on [S] *)
Definition agreeing (S : list nat) (x : pt) (data : list pt) (A : pt -> bool) : Prop :=
  forall z, In z data -> decided (A z) (same_on S x z).
(** [A] tells the rows of [data] that fall in a leaf that can be met given [x] on [S] *)
Definition falling (t : tree) (S : list nat) (x : pt) (data : list pt) (A : pt -> bool) : Prop :=
  forall z, In z data -> decided (A z) (exists l, may_meet t x S 0 l /\ leaf_node t l = true /\ visits t z no_missing l).
(** at every node met that splits on an other feature, the share of the weight that goes left is the share of the rows of [A] that go left *)
Definition blind (t : tree) (w : nat -> Q) (S : list nat) (rows : list pt) : Prop := forall i, i < nn t -> leaf_node t i = false -> ~ In (ftn t i) S ->
  forall b c : pt -> bool, (forall z, In z rows -> decided (b z) (visits t z no_missing i)) ->
    (forall z, In z rows -> decided (c z) (visits t z no_missing (Z.to_nat (clz t i)))) ->
    (Qn (length (filter c rows)) * w i == Qn (length (filter b rows)) * w (Z.to_nat (clz t i)))%Q.
(** equal bounds *)
Definition ext_eq (a b : ext) : Prop :=
  match a, b with NInf, NInf => True | PInf, PInf => True | Fin p, Fin q => (p == q)%Q | _, _ => False end.

(** ** Laws *)
(** a mean under a law: linear, monotone, one on the constant one *)
Definition mean_law (E : (pt -> Q) -> Q) : Prop :=
  (forall f g, (forall z, (f z == g z)%Q) -> (E f == E g)%Q) /\ (forall f g, (E (fun z => f z + g z) == E f + E g)%Q) /\
  (forall c f, (E (fun z => c * f z) == c * E f)%Q) /\ (forall f g, (forall z, (f z <= g z)%Q) -> (E f <= E g)%Q) /\ (E (fun _ => 1) == 1)%Q.
(** the box of bounds [lo], [hi] of the columns [O] holds [z] *)
Definition in_box (O : list nat) (lo hi : list ext) (z : pt) : Prop := forall k, k < length O ->
  above_lo (nth k lo NInf) (z (nth k O 0)) /\ below_hi (nth k hi PInf) (z (nth k O 0)).
(** what R returns for the columns [O] given [S] is the probability of the box under [E] *)
Definition gives_boxes (pcmvnorm : list nat -> list nat -> list Q -> list ext -> list ext -> option Q) (O S : list nat) (x : pt)
  (E : (pt -> Q) -> Q) : Prop := forall lo hi (b : pt -> bool), length lo = length O -> length hi = length O -> (forall z, decided (b z) (in_box O lo hi z)) ->
  exists q, pcmvnorm O S (map x S) lo hi = Some q /\ (q == E (fun z => Qb (b z)))%Q.
(** the columns below [d] that are not in [S], in order *)
Definition complement (d : nat) (S : list nat) : list nat := filter (fun k => if in_dec Nat.eq_dec k S then false else true) (seq 0 d).

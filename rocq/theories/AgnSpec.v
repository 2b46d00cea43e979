(** Vocabulary for forests of skranger: binary trees with splits, their arrays, which observations a tree keeps together when
    only some columns are known, shares among them.  Nothing here mirrors code. *)
From Verif Require Import Base RfModel RfSpec SkModel ApiModel.
Local Open Scope nat_scope.

(** a binary tree with splits [column <= threshold] to the left *)
Inductive rtree := Leaf | Fork (c : nat) (t : Q) (l r : rtree).
Fixpoint height (T : rtree) : nat := match T with Leaf => 0 | Fork _ _ l r => S (Nat.max (height l) (height r)) end.
(** the height of a forest *)
Definition tallest (Ts : list rtree) : nat := fold_right Nat.max 0 (map height Ts).
(** no leaf above level [k] *)
Fixpoint bushy (k : nat) (T : rtree) : Prop :=
  match k, T with 0, _ => True | S k', Fork _ _ l r => bushy k' l /\ bushy k' r | S _, Leaf => False end.
Fixpoint columns (T : rtree) : list nat := match T with Leaf => [] | Fork c _ l r => c :: columns l ++ columns r end.

(** the arrays of skranger: a leaf has no children and the mark -2, a split has two, and its column, which may be written -2
    when it is column 0 *)
Inductive written (e : sk) : nat -> rtree -> Prop :=
| wr_leaf n : n < length (sk_cl e) -> nth n (sk_cl e) 0%Z = (-1)%Z -> nth n (sk_cr e) 0%Z = (-1)%Z ->
    nth n (sk_ft e) 0%Z = (-2)%Z -> written e n Leaf
| wr_fork n c t i j l r : n < length (sk_cl e) -> nth n (sk_cl e) 0%Z = Z.of_nat i -> nth n (sk_cr e) 0%Z = Z.of_nat j ->
    n < i -> n < j -> i <> j -> nth n (sk_th e) 0%Q = t ->
    nth n (sk_ft e) 0%Z = Z.of_nat c \/ (c = 0 /\ nth n (sk_ft e) 0%Z = (-2)%Z) ->
    written e i l -> written e j r -> written e n (Fork c t l r).
(** the arrays of [e] hold the tree [T] over [d] columns, with [w] outputs, and nothing else *)
Definition holds (d w : nat) (e : sk) (T : rtree) : Prop :=
  written e 0 T /\
  (let n := length (sk_cl e) in length (sk_cr e) = n /\ length (sk_ft e) = n /\ length (sk_th e) = n /\ length (sk_value e) = n) /\
  (forall v, In v (sk_value e) -> length (concat v) = w) /\
  (forall i, i < length (sk_cl e) -> exists T', written e i T' /\ forall c, In c (columns T') -> c < d) /\
  (forall j, 0 < j < length (sk_cl e) ->
     count_occ Z.eq_dec (sk_cl e) (Z.of_nat j) + count_occ Z.eq_dec (sk_cr e) (Z.of_nat j) = 1).

(** the tree does not separate [z] from [x] when only the columns [Sv] are looked at: at a split on another column both ways
    are followed *)
Fixpoint together (Sv : list nat) (T : rtree) (x z : pt) : bool :=
  match T with
  | Leaf => true
  | Fork c t l r =>
      if in_dec Nat.eq_dec c Sv then
        if Qlt_le_dec t (x c) then (if Qlt_le_dec t (z c) then together Sv r x z else false)
        else (if Qlt_le_dec t (z c) then false else together Sv l x z)
      else together Sv l x z && together Sv r x z
  end.
(** the rows of a table kept together with [x] *)
Definition mates (Sv : list nat) (T : rtree) (x : pt) (D : list pt) : list nat :=
  filter (fun j => together Sv T x (nth j D (fun _ => 0%Q))) (seq 0 (length D)).
(** the leaf of an observation, by the ways taken *)
Fixpoint way (T : rtree) (x : pt) : list bool :=
  match T with
  | Leaf => []
  | Fork c t l r => if Qlt_le_dec t (x c) then true :: way r x else false :: way l x
  end.

(** means over a list of rows and over the trees *)
Definition mean_over {A} (f : A -> Q) (l : list A) : Q := (sumf f l / Qn (length l))%Q.

(** the target [v] agrees with the decision: the same class, or inside the interval *)
Definition agrees (classifier : bool) (yx lo hi v : Q) : bool :=
  if classifier then Qeq_bool yx v else Qle_bool lo v && Qle_bool v hi.
(** what the routines average *)
Definition measured (r : routine) (classifier : bool) (yx t0 t1 down up v : Q) : Q :=
  match r with
  | sdp_rf | sdp_rule => if agrees classifier yx t0 t1 v then 1 else 0
  | ddp_rf | ddp_rule | ddp_weights => if agrees classifier yx t0 t1 v then 0 else 1
  | cdp_rf | cdp_rule | cdp_weights => if agrees classifier yx down up v then 1 else 0
  | _ => v
  end.
(** the methods without boxes *)
Definition plain_routine (r : routine) : Prop :=
  In r [sdp_rf; ddp_rf; cdp_rf; exp_rf; sdp_rule; ddp_rule; cdp_rule; ddp_weights; cdp_weights].

(** what lies before the arrays of the first tree does no harm: nothing there looks like a split on a known column, or the
    walk in the first tree never gets past a leaf *)
Definition safe (stray : row) (Sv : list nat) (Ts : list rtree) : Prop :=
  harmless stray Sv \/ bushy (tallest Ts - 1) (nth 0 Ts Leaf).
(** within the bounds that a rule starts with *)
Definition moderate (Sv : list nat) (z : pt) : Prop := forall f, In f Sv -> (- big < z f <= big)%Q.
(** every tree keeps at least [m] rows together with every observation *)
Definition enough (m : nat) (X : list pt) (l : list (list nat)) (D : list pt) (Ts : list rtree) : Prop :=
  forall i T, i < length X -> In T Ts -> m <= length (mates (nth i l []) T (nth i X (fun _ => 0%Q)) D).

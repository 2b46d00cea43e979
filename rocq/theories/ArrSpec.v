(** Specification for the array programs: what it takes for the tables to fit
    together, the possible orders of the parallel loop, and the leaves the tables
    describe. *)
From Verif Require Import Base TreeModel ShapModel SdpModel SdpSpec ArrModel.

(** every leaf number has a slot and every leaf a node *)
Definition tabs_ok (T : tabs) : Prop :=
  forall b, b < t_trees T -> t_nb T b <= t_max T /\
    forall k, k < t_nb T b -> t_leaf T b k < t_nodes T.
(** every pair (leaf, row) of every tree is treated exactly once, in any order *)
Definition any_order (T : tabs) (N : nat) (sched : nat -> list (nat * nat)) : Prop :=
  forall b, b < t_trees T -> Permutation (sched b) (list_prod (seq 0 (t_nb T b)) (seq 0 N)).
(** leaf [k] of tree [b] with the value of output column [j]; [vars] is not read by
    these routines *)
Definition leaf_at (T : tabs) (vars : nat -> nat -> list nat) (j b k : nat) : leaf :=
  mkLeaf (t_part T b k) (vars b k) (t_val T b (t_leaf T b k) j).
(** the leaves of every tree *)
Definition forest_at (T : tabs) (vars : nat -> nat -> list nat) (j : nat) : list (list leaf) :=
  map (fun b => map (leaf_at T vars j b) (seq 0 (t_nb T b))) (seq 0 (t_trees T)).

(** number of background rows in a closed box over the columns [cols] *)
Definition rows_closed (data : list pt) (p : rect) (cols : list nat) : nat :=
  length (filter (fun z => forallb (fun s => ext_leb_q (fst (p s)) (z s) && q_leb_ext (z s) (snd (p s))) cols) data).
(** number of background rows in a half-open box over the columns [cols] *)
Definition rows_half (data : list pt) (p : rect) (cols : list nat) : nat :=
  length (filter (fun z => forallb (fun s => ext_ltb_q (fst (p s)) (z s) && q_leb_ext (z s) (snd (p s))) cols) data).
(** the observation is in the closed box over the columns [cols] *)
Definition meets (p : rect) (cols : list nat) (x : pt) : Prop :=
  forall s, In s cols -> ext_leb_q (fst (p s)) (x s) = true /\ q_leb_ext (x s) (snd (p s)) = true.
(** a number, equal to [q] *)
Definition is_num (d : dbl) (q : Q) : Prop := exists r, d = Dnum r /\ (r == q)%Q.

(** the observation meets the leaf, and no background row does on the columns [cols]: the
    quotient of the two counts has no value *)
Definition no_share (data : list pt) (cols : list nat) (x : pt) (p : rect) : bool :=
  forallb (fun s => ext_leb_q (fst (p s)) (x s) && q_leb_ext (x s) (snd (p s))) cols
  && (rows_half data p cols =? 0).
(** normalised expectation of one tree: nothing if a leaf met by the observation has no
    share, else the average of the leaf values weighted with the shares *)
Definition tree_norm (m : nat) (data : list pt) (cols : list nat) (x : pt) (ls : list leaf) : Q :=
  let share lf := if forallb (fun s => ext_leb_q (fst (l_rect lf s)) (x s) && q_leb_ext (x s) (snd (l_rect lf s))) cols
                  then (Qn (rows_closed data (l_rect lf) (seq 0 m)) / Qn (rows_half data (l_rect lf) cols))%Q
                  else 0%Q in
  if existsb (fun lf => no_share data cols x (l_rect lf)) ls then 0%Q
  else (sumf (fun lf => share lf * l_val lf) ls / sumf share ls)%Q.

(** expectation with the counts written out: leaves met by the observation on [cols], value
    times rows in the leaf over rows agreeing on [cols] *)
Definition plain_sum (m : nat) (data : list pt) (cols : list nat) (x : pt) (forest : list (list leaf)) : Q :=
  sumf (fun ls => sumf (fun lf =>
    if forallb (fun s => ext_leb_q (fst (l_rect lf s)) (x s) && q_leb_ext (x s) (snd (l_rect lf s))) cols
    then if rows_half data (l_rect lf) cols =? 0 then 0
         else Qn (rows_closed data (l_rect lf) (seq 0 m)) * l_val lf / Qn (rows_half data (l_rect lf) cols)
    else 0)%Q ls) forest.
(** both not a number, or the same number *)
Definition same_dbl (a b : dbl) : Prop := (a = Dnan /\ b = Dnan) \/ exists q, is_num a q /\ is_num b q.
(** the same columns, in any order and any number of times *)
Definition same_cols (l l' : list nat) : Prop := forall s, In s l <-> In s l'.

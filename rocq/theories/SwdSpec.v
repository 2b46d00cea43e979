(** Vocabulary for the statements about the swing values computed from the differences. *)
From Verif Require Import Base TreeModel TreeSpec GameSpec ShapSpec FlatModel SkModel SkSpec SdpSpec SwingSpec EntrySpec SbufSpec ImpSpec.
Local Open Scope nat_scope.

(** the leaves and observations in some order, in every loop over them; the observations in some order where the results are added *)
Definition pass_orders (ts : list mtree) (N : nat) (order : nat -> nat -> nat -> list (nat * nat)) (adding : nat -> nat -> list nat) : Prop :=
  (forall va c, all_pairs ts N (order va c)) /\ (forall va c, Permutation (adding va c) (seq 0 N)).
(** what a player [g] gets if it changes the worth of a set of columns [S] by [D S]: the mean change with the weights of the Shapley value
    over the sets of other players, the parts from gains and from losses, the numbers of gains, of losses and of sets left unchanged *)
Definition swing_parts (D : list nat -> Q) (P : list (list nat)) (g : list nat) (phi pos neg : Q) (n_pos n_neg n_null : nat) : Prop :=
  let due Ts := sumf (fun T : list (list nat) => weight (length P) (length T) * D (concat T))%Q Ts in
  let those b := filter (fun T => b (D (concat T))) (rivals P g) in
  (phi == due (rivals P g))%Q /\ (pos == due (those (fun q => qltb 0 q)))%Q /\ (neg == due (those (fun q => qltb q 0)))%Q /\
  n_pos = length (those (fun q => qltb 0 q)) /\ n_neg = length (those (fun q => qltb q 0)) /\ n_null = length (those (fun q => qeqb q 0)).
(** mean value of the leaves of a tree that agree with [x] on the columns [K], weighted by the share of the rows of the box over [S] that
    are in the leaf; 0 without rows (as [q / 0 = 0]) *)
Definition kept_mean (d : nat) (rows : list pt) (x : pt) (K S : list nat) (ls : list leaf) : Q :=
  let kept := filter (fun lf => sat_on (l_rect lf) K x) ls in
  let share lf := (Qn (rows_in rows (l_rect lf) (seq 0 d)) / Qn (rows_in rows (l_rect lf) S))%Q in
  (sumf (fun lf => share lf * l_val lf) kept / sumf share kept)%Q.
(** share explained by the rows of class [f]; 0 if those of the other classes give the same mean (as [q / 0 = 0]) *)
Definition explained (d : nat) (rows : list (pt * nat)) (f : nat) (forest : list (list leaf)) (x : pt) (K S : list nat) : Q :=
  let E rs := sumf (kept_mean d (map fst rs) x K S) forest in
  let e := E (filter (fun r => negb (snd r =? f)) rows) in
  ((E rows - e) / (E (filter (fun r => snd r =? f) rows) - e))%Q.
(** how the player [g] changes the worth of [S]: whether the level is reached with [S] and [g], against [S]; in both the leaves that agree
    with [x] on [S] and [g]; all columns explain everything; the worth of the empty set is 0 and [g] alone has whatever worth *)
Definition level_change (d : nat) (rows : list (pt * nat)) (f : nat) (thr : Q) (forest : list (list leaf)) (x : pt) (g : list nat)
  (D : list nat -> Q) : Prop :=
  let reached q := Qb (qleb thr q) in
  (forall S, 0 < length S -> (forall s, In s (S ++ g) -> s < d) ->
     (D S == reached (if length (S ++ g) =? d then 1 else explained d rows f forest x (S ++ g) (S ++ g)) - reached (explained d rows f forest x (S ++ g) S))%Q) /\
  (D [] = 0 \/ D [] = 1 \/ D [] = -1)%Q /\ (0 < thr -> ~ D [] = -1)%Q.

(** Vocabulary for the statements about the swing values of an [ACVTree], from its trees. *)
From Verif Require Import Base TreeModel TreeSpec GameSpec ShapSpec SdpSpec ArrSpec SwingModel SwingSpec EntryModel EntrySpec.

(** the observations in some order, in every loop over them *)
Definition row_orders (N : nat) (rowing : list nat -> nat -> nat -> list nat) (adding : nat -> nat -> list nat) : Prop :=
  (forall S b k, Permutation (rowing S b k) (seq 0 N)) /\ (forall va c, Permutation (adding va c) (seq 0 N)).
(** the method returns a row of [d] results for every observation; [P x f r] holds of the observation [x], its class [f] and the
    results [r] of the columns *)
Definition swing_entries (o : outcome (list (list swing))) (xs : list (list Q)) (fX : list nat) (d : nat)
  (P : list Q -> nat -> (nat -> swing) -> Prop) : Prop :=
  exists res, o = Returned res /\ length res = length xs /\
  forall i x f, nth_error xs i = Some x -> nth_error fX i = Some f ->
    exists row r, nth_error res i = Some row /\ length row = d /\ (forall c, c < d -> nth_error row c = Some (r c)) /\ P x f r.
(** mean of the leaf values given that a row agrees with [x] on the columns [S], leaf by leaf: share of the rows of the closed box over
    [S] that are in the closed box of the leaf; a box without rows counts 0 *)
Definition closed_mean (d : nat) (rows : list pt) (forest : list (list leaf)) (x : pt) (S : list nat) : Q :=
  sumf (fun ls => sumf (fun lf =>
    if forallb (fun s => ext_leb_q (fst (l_rect lf s)) (x s) && q_leb_ext (x s) (snd (l_rect lf s))) S
    then if rows_closed rows (l_rect lf) S =? 0 then 0
         else Qn (rows_closed rows (l_rect lf) (seq 0 d)) * l_val lf / Qn (rows_closed rows (l_rect lf) S)
    else 0)%Q ls) forest.
(** the game: nothing without columns, 1 with all of them, otherwise whether the share of the mean [E] explained by the rows of class
    [f] reaches the level [thr]; a share without value counts 0 *)
Definition level_game (d : nat) (E : list pt -> list nat -> Q) (rows : list (pt * nat)) (f : nat) (thr : Q) (v : list nat -> Q) : Prop :=
  (forall S, length S = d -> v S = 1%Q) /\ (0 < d -> v [] = 0%Q) /\
  forall S, 0 < length S -> length S <> d ->
    let a := E (map fst rows) S in
    let u := E (map fst (filter (fun r => snd r =? f) rows)) S in
    let e := E (map fst (filter (fun r => negb (snd r =? f)) rows)) S in
    (v S = 0 \/ v S = 1)%Q /\ (~ (u == e) -> (v S = 1 <-> thr <= (a - e) / (u - e)))%Q /\ (u == e -> (v S = 1 <-> thr <= 0))%Q.

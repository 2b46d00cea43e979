(** Proofs about the weighted percentile and the estimators that undo a too
    small step. *)
From Coq Require Import Sorted Permutation.
From Verif Require Import Base TreeModel TreeSpec TreeProofs RfModel RfSpec SearchProofs RfProofs RfTreeProofs
  QuantModel QuantSpec.

(** * Cumulated weights *)
Definition idQ (q : Q) : Q := q.
Definition pre (w : list Q) (k : nat) : Q := sumf idQ (firstn k w).

Lemma cumsum_length acc w : length (cumsum acc w) = length w.
Proof. revert acc. induction w as [|a w IH]; intro acc; cbn; [reflexivity|now rewrite IH]. Qed.

Lemma nth_cumsum w : forall acc k, k < length w -> (nth k (cumsum acc w) 0 == acc + pre w (S k))%Q.
Proof.
  induction w as [|a w IH]; intros acc k Hk; cbn [length] in Hk; [lia|].
  destruct k as [|k]; cbn [cumsum nth].
  - unfold pre. cbn. unfold idQ. lra.
  - rewrite IH by lia. unfold pre. cbn [firstn sumf]. unfold idQ at 2. lra.
Qed.

Lemma pre_all w : (pre w (length w) == sumf idQ w)%Q.
Proof. unfold pre. now rewrite firstn_all. Qed.

Lemma pre_S w k : k < length w -> (pre w (S k) == pre w k + nth k w 0)%Q.
Proof.
  revert k. induction w as [|a w IH]; intros k Hk; cbn [length] in Hk; [lia|].
  destruct k as [|k].
  - unfold pre. cbn. unfold idQ. lra.
  - specialize (IH k ltac:(lia)). unfold pre in *.
    change (firstn (S (S k)) (a :: w)) with (a :: firstn (S k) w).
    change (firstn (S k) (a :: w)) with (a :: firstn k w).
    change (nth (S k) (a :: w) 0%Q) with (nth k w 0%Q). cbn [sumf] in *. lra.
Qed.

Lemma last_nth_Q (l : list Q) : last l 0%Q = nth (length l - 1) l 0%Q.
Proof.
  induction l as [|a l IH]; [reflexivity|]. destruct l as [|b l]; [reflexivity|].
  change (last (a :: b :: l) 0%Q) with (last (b :: l) 0%Q). rewrite IH. cbn [length].
  replace (S (S (length l)) - 1) with (S (S (length l) - 1)) by lia. reflexivity.
Qed.

Lemma total_cumsum w : w <> [] -> (last (cumsum 0 w) 0 == sumf idQ w)%Q.
Proof.
  intro H. rewrite last_nth_Q, cumsum_length. assert (0 < length w) by (destruct w; [congruence|cbn; lia]).
  rewrite nth_cumsum by lia. replace (S (length w - 1)) with (length w) by lia. rewrite pre_all. lra.
Qed.

Lemma partial_sum_length w : length (partial_sum w) = length w.
Proof. unfold partial_sum. rewrite map_length, combine_length, cumsum_length. lia. Qed.

Lemma nth_partial_sum w k : k < length w ->
  (nth k (partial_sum w) 0 == 100 / sumf idQ w * (pre w k + nth k w 0 / 2))%Q.
Proof.
  intro Hk. unfold partial_sum.
  assert (Hw : w <> []) by (intros ->; cbn in Hk; lia).
  set (g := fun p : Q * Q => (100 / last (cumsum 0 w) 0 * (fst p - snd p / 2))%Q).
  rewrite (nth_indep _ 0%Q (g (0%Q, 0%Q))) by (rewrite map_length, combine_length, cumsum_length; lia).
  rewrite (map_nth g), combine_nth by apply cumsum_length. unfold g. cbn [fst snd].
  rewrite (nth_cumsum w 0 k Hk), (total_cumsum w Hw), (pre_S w k Hk).
  apply Qmult_comp; [reflexivity|]. field.
Qed.

(** * Search *)
Lemma ss_le l q : searchsorted l q <= length l.
Proof. induction l as [|a l IH]; cbn; [lia|]. destruct (qltb a q); lia. Qed.
Lemma ss_below l q k : k < searchsorted l q -> (nth k l 0 < q)%Q.
Proof.
  revert k. induction l as [|a l IH]; intros k; cbn; [lia|]. destruct (qltb a q) eqn:E; [|lia].
  apply qltb_true in E. destruct k; [auto|]. intro H. apply IH. lia.
Qed.
Lemma ss_above l q : searchsorted l q < length l -> (q <= nth (searchsorted l q) l 0)%Q.
Proof.
  induction l as [|a l IH]; cbn; [lia|]. destruct (qltb a q) eqn:E.
  - intro H. apply IH. lia.
  - intros _. now apply qltb_false in E.
Qed.
Lemma ss_mono l q q' : (q <= q')%Q -> searchsorted l q <= searchsorted l q'.
Proof.
  intro H. induction l as [|a l IH]; cbn; [lia|]. destruct (qltb a q) eqn:E; [|lia].
  apply qltb_true in E. assert (qltb a q' = true) as -> by (apply qltb_true; lra). lia.
Qed.

Lemma half_mult q : (q / 2 == (1 # 2) * q)%Q.
Proof. field. Qed.

Lemma sorted_nth (r : list (Q * Q)) : StronglySorted (fun a b => (fst a <= fst b)%Q) r ->
  forall j k, j <= k -> k < length r -> (nth j (map fst r) 0 <= nth k (map fst r) 0)%Q.
Proof.
  induction 1 as [|a r _ IH Hf]; intros j k Hjk Hk; cbn [length] in Hk; [lia|].
  destruct j as [|j], k as [|k]; cbn [map nth]; try lia; try lra.
  - rewrite Forall_forall in Hf.
    assert (Hin : In (nth k r (0%Q, 0%Q)) r) by (apply nth_In; lia). apply Hf in Hin.
    change 0%Q with (fst (0%Q, 0%Q)). now rewrite map_nth.
  - apply IH; lia.
Qed.

(** * The percentile of sorted samples *)
Section Sorted.
Variable l : list (Q * Q).
Hypothesis Hne : l <> [].
Hypothesis Hpos : forall p, In p l -> (0 < snd p)%Q.
Hypothesis Hsort : StronglySorted (fun a b => (fst a <= fst b)%Q) l.

Definition V (k : nat) : Q := nth k (map fst l) 0%Q.
Definition W (k : nat) : Q := nth k (map snd l) 0%Q.
Definition P (k : nat) : Q := nth k (partial_sum (map snd l)) 0%Q.
Definition tot : Q := sumf idQ (map snd l).
Notation n := (length l).

Lemma n_pos : 0 < n.
Proof using Hne. clear Hpos Hsort. destruct l; [congruence|cbn; lia]. Qed.

Lemma V_nth k : k < n -> V k = fst (nth k l (0%Q, 0%Q)).
Proof. intro H. unfold V. change 0%Q with (fst (0%Q, 0%Q)) at 1. apply map_nth. Qed.
Lemma W_nth k : k < n -> W k = snd (nth k l (0%Q, 0%Q)).
Proof. intro H. unfold W. change 0%Q with (snd (0%Q, 0%Q)) at 1. apply map_nth. Qed.
Lemma W_pos k : k < n -> (0 < W k)%Q.
Proof. intro H. rewrite W_nth by exact H. apply Hpos. now apply nth_In. Qed.

Lemma tot_pos : (0 < tot)%Q.
Proof.
  unfold tot. rewrite <- pre_all, map_length. pose proof n_pos.
  replace n with (S (n - 1)) by lia. rewrite pre_S by (rewrite map_length; lia).
  pose proof (W_pos (n - 1) ltac:(lia)) as H1. unfold W in H1.
  assert (0 <= pre (map snd l) (n - 1))%Q; [|lra].
  unfold pre. apply sumf_nonneg. intros q Hq. unfold idQ.
  assert (Hin : In q (map snd l)).
  { rewrite <- (firstn_skipn (n - 1)). apply in_or_app. now left. }
  apply in_map_iff in Hin. destruct Hin as [p [<- Hp]]. apply Hpos in Hp. lra.
Qed.

Lemma P_eq k : k < n -> (P k == 100 / tot * (pre (map snd l) k + W k / 2))%Q.
Proof. intro H. apply nth_partial_sum. now rewrite map_length. Qed.

Lemma c_pos : (0 < 100 / tot)%Q.
Proof. pose proof tot_pos. apply Qlt_shift_div_l; [assumption|lra]. Qed.

Lemma P_step k : S k < n -> (P k < P (S k))%Q.
Proof.
  intro H. rewrite !P_eq by lia. rewrite pre_S by (rewrite map_length; lia). fold (W k).
  pose proof (W_pos k ltac:(lia)). pose proof (W_pos (S k) ltac:(lia)). pose proof c_pos.
  apply Qmult_lt_l; [assumption|]. rewrite !half_mult. lra.
Qed.
Lemma P_lt j k : j < k -> k < n -> (P j < P k)%Q.
Proof.
  intros Hjk Hk. induction Hjk as [|k Hjk IH].
  - now apply P_step.
  - apply Qlt_trans with (P k); [apply IH; lia|now apply P_step].
Qed.

Lemma V_le j k : j <= k -> k < n -> (V j <= V k)%Q.
Proof. exact (sorted_nth l Hsort j k). Qed.

Notation ss q := (searchsorted (partial_sum (map snd l)) q).
Lemma ss_n q : ss q <= n.
Proof. pose proof (ss_le (partial_sum (map snd l)) q) as H. now rewrite partial_sum_length, map_length in H. Qed.
Lemma ss_lt q k : k < ss q -> (P k < q)%Q.
Proof. apply ss_below. Qed.
Lemma ss_ge q : ss q < n -> (q <= P (ss q))%Q.
Proof. intro H. apply ss_above. now rewrite partial_sum_length, map_length. Qed.
Lemma ss_unique q k : k <= n -> (forall j, k = S j -> (P j < q)%Q) -> (k < n -> (q <= P k)%Q) -> ss q = k.
Proof.
  intros Hk H1 H2. destruct (Nat.lt_trichotomy (ss q) k) as [H|[H|H]]; [|exact H|].
  - exfalso. pose proof (ss_ge q ltac:(lia)) as Hq. destruct k as [|k]; [lia|]. specialize (H1 k eq_refl).
    destruct (Nat.eq_dec (ss q) k) as [E|E]; [rewrite E in Hq; lra|].
    pose proof (P_lt (ss q) k ltac:(lia) ltac:(lia)). lra.
  - exfalso. pose proof (ss_lt q k H). pose proof (ss_n q). specialize (H2 ltac:(lia)). lra.
Qed.

(** value of the percentile *)
Definition between (k : nat) (q : Q) : Q :=
  (V k + (q - P k) / (P (k + 1) - P k) * (V (k + 1) - V k))%Q.
Definition value (q : Q) : Q :=
  if ss q =? n then V (n - 1) else if ss q =? 0 then V 0 else between (ss q - 1) q.

Lemma percentile_value q : percentile_sorted l q = Some (value q).
Proof using Hne.
  unfold percentile_sorted. clear Hpos Hsort. destruct l as [|a r] eqn:E; [congruence|]. rewrite <- E. unfold value, between, V, P.
  destruct (_ =? _); [reflexivity|]. destruct (_ =? _); reflexivity.
Qed.

Lemma between_bounds k q : k + 1 < n -> (P k <= q)%Q -> (q <= P (k + 1))%Q ->
  (V k <= between k q)%Q /\ (between k q <= V (k + 1))%Q.
Proof.
  intros Hk H1 H2. pose proof (P_lt k (k + 1) ltac:(lia) Hk) as Hp.
  pose proof (V_le k (k + 1) ltac:(lia) Hk) as Hv. unfold between.
  set (f := ((q - P k) / (P (k + 1) - P k))%Q).
  assert (F0 : (0 <= f)%Q) by (apply Qle_shift_div_l; lra).
  assert (F1 : (f <= 1)%Q) by (apply Qle_shift_div_r; lra).
  split; nra.
Qed.

Lemma value_range q k : value q = value q -> ss q = k ->
  (match k with O => V O | S j => V j end <= value q)%Q /\
  (value q <= if (k =? n)%nat then V (n - 1) else V k)%Q.
Proof.
  intros _ E. unfold value. rewrite E. pose proof n_pos. pose proof (ss_n q). rewrite E in *.
  destruct (Nat.eqb_spec k n) as [->|Ne].
  - destruct l as [|a r]; [congruence|]. cbn [length]. replace (S (length r) - 1) with (length r) by lia. split; lra.
  - destruct k as [|k]; cbn [Nat.eqb]; [split; lra|]. replace (S k - 1) with k by lia.
    pose proof (ss_lt q k ltac:(lia)). pose proof (ss_ge q ltac:(lia)) as H2. rewrite E in H2.
    replace (S k) with (k + 1) in * by lia. apply between_bounds; [lia|lra|lra].
Qed.

Lemma value_bounds q : (V O <= value q)%Q /\ (value q <= V (n - 1))%Q.
Proof.
  destruct (value_range q _ eq_refl eq_refl) as [H1 H2]. pose proof n_pos. pose proof (ss_n q).
  split.
  - destruct (ss q) as [|j]; [exact H1|]. pose proof (V_le 0 j ltac:(lia) ltac:(lia)). lra.
  - destruct (Nat.eqb_spec (ss q) n) as [E|E]; [exact H2|].
    pose proof (V_le (ss q) (n - 1) ltac:(lia) ltac:(lia)). lra.
Qed.

Lemma value_mono q q' : (q <= q')%Q -> (value q <= value q')%Q.
Proof.
  intro H. pose proof (ss_mono (partial_sum (map snd l)) q q' H) as Hs.
  destruct (Nat.eq_dec (ss q) (ss q')) as [E|E].
  - pose proof n_pos. pose proof (ss_n q'). unfold value. rewrite <- E.
    destruct (Nat.eqb_spec (ss q) n); [lra|]. destruct (Nat.eqb_spec (ss q) 0); [lra|].
    unfold between. set (k := ss q - 1). pose proof (P_lt k (k + 1) ltac:(lia) ltac:(lia)) as Hp.
    pose proof (V_le k (k + 1) ltac:(lia) ltac:(lia)) as Hv.
    assert (F : ((q - P k) / (P (k + 1) - P k) <= (q' - P k) / (P (k + 1) - P k))%Q).
    { apply Qmult_le_compat_r; [lra|]. apply Qinv_le_0_compat. lra. }
    set (f := ((q - P k) / _)%Q) in *. set (g := ((q' - P k) / _)%Q) in *. nra.
  - destruct (value_range q _ eq_refl eq_refl) as [_ H1]. destruct (value_range q' _ eq_refl eq_refl) as [H2 _].
    pose proof (ss_n q'). destruct (Nat.eqb_spec (ss q) n); [lia|].
    destruct (ss q') as [|j] eqn:Ej; [lia|].
    pose proof (V_le (ss q) j ltac:(lia) ltac:(lia)). lra.
Qed.

(** exact values *)
Lemma value_low q : (q <= P O)%Q -> value q = V 0.
Proof.
  intro H. pose proof n_pos. assert (E : ss q = 0) by (apply ss_unique; [lia|discriminate|auto]).
  unfold value. rewrite E. cbn [Nat.eqb]. destruct n; [lia|reflexivity].
Qed.
Lemma value_between k q : k + 1 < n -> (P k <= q)%Q -> (q <= P (k + 1))%Q -> (value q == between k q)%Q.
Proof.
  intros Hk H1 H2. pose proof (P_lt k (k + 1) ltac:(lia) Hk) as Hp.
  destruct (Qlt_le_dec (P k) q) as [C|C].
  - assert (E : ss q = k + 1).
    { apply ss_unique; [lia| |auto]. intros j Hj. replace j with k by lia. exact C. }
    unfold value. rewrite E. destruct (Nat.eqb_spec (k + 1) n); [lia|]. destruct (Nat.eqb_spec (k + 1) 0); [lia|].
    replace (k + 1 - 1) with k by lia. reflexivity.
  - assert (Eq : (q == P k)%Q) by lra.
    assert (B : (between k q == V k)%Q) by (unfold between; rewrite Eq; field; lra).
    rewrite B. destruct k as [|k].
    + rewrite value_low by lra. reflexivity.
    + pose proof (P_lt k (S k) ltac:(lia) ltac:(lia)).
      assert (E : ss q = S k).
      { apply ss_unique; [lia| |intros; lra]. intros j Hj. replace j with k by lia. lra. }
      unfold value. rewrite E. destruct (Nat.eqb_spec (S k) n); [lia|]. cbn [Nat.eqb].
      replace (S k - 1) with k by lia. unfold between. replace (k + 1) with (S k) by lia. rewrite Eq. field. lra.
Qed.
Lemma value_high q : (P (n - 1) <= q)%Q -> (value q == V (n - 1))%Q.
Proof.
  intro H. pose proof n_pos. destruct (Qlt_le_dec (P (n - 1)) q) as [C|C].
  - assert (E : ss q = n) by (apply ss_unique; [lia| |lia]; intros j Hj; replace j with (n - 1) by lia; exact C).
    unfold value. rewrite E, Nat.eqb_refl. reflexivity.
  - destruct (Nat.eq_dec n 1) as [E1|E1].
    + rewrite E1 in *. cbn in *. rewrite value_low by lra. reflexivity.
    + rewrite (value_between (n - 2) q); [|lia| |].
      * unfold between. replace (n - 2 + 1) with (n - 1) by lia.
        pose proof (P_lt (n - 2) (n - 1) ltac:(lia) ltac:(lia)). assert (q == P (n - 1))%Q as -> by lra. field. lra.
      * pose proof (P_lt (n - 2) (n - 1) ltac:(lia) ltac:(lia)). lra.
      * replace (n - 2 + 1) with (n - 1) by lia. lra.
Qed.
End Sorted.

(** * Sorting *)
Notation vle := (fun a b : Q * Q => (fst a <= fst b)%Q).

Lemma map_nth_seq {A} (l : list A) d : map (fun i => nth i l d) (seq 0 (length l)) = l.
Proof.
  induction l as [|a l IH]; [reflexivity|]. cbn [length seq map nth]. f_equal.
  rewrite <- seq_shift, map_map. exact IH.
Qed.

Lemma nth_fst i (l : list (Q * Q)) : nth i (map fst l) 0%Q = fst (nth i l (0%Q, 0%Q)).
Proof. change 0%Q with (fst (0%Q, 0%Q)) at 1. apply map_nth. Qed.

Lemma StronglySorted_map {A B} (f : A -> B) (RA : A -> A -> Prop) (RB : B -> B -> Prop) l :
  (forall a b, RA a b -> RB (f a) (f b)) -> StronglySorted RA l -> StronglySorted RB (map f l).
Proof.
  intros H. induction 1 as [|a l _ IH Hf]; cbn; constructor; [exact IH|].
  rewrite Forall_forall in *. intros b Hb. apply in_map_iff in Hb. destruct Hb as [c [<- Hc]]. auto.
Qed.
Lemma StronglySorted_filter {A} (RA : A -> A -> Prop) p l :
  StronglySorted RA l -> StronglySorted RA (filter p l).
Proof.
  induction 1 as [|a l _ IH Hf]; cbn; [constructor|]. destruct (p a); [|exact IH].
  constructor; [exact IH|]. rewrite Forall_forall in *. intros b Hb. apply filter_In in Hb. now apply Hf.
Qed.

Lemma reorder_sorted argsort l : sorting argsort ->
  Permutation l (reorder argsort l) /\ StronglySorted vle (reorder argsort l).
Proof.
  intro H. destruct (H (map fst l)) as [H1 H2]. rewrite map_length in H1. unfold reorder. split.
  - rewrite <- (map_nth_seq l (0%Q, 0%Q)) at 1. apply Permutation_map. now symmetry.
  - revert H2. apply StronglySorted_map. intros i j. now rewrite !nth_fst.
Qed.

Lemma filter_perm {A} (p : A -> bool) l l' : Permutation l l' -> Permutation (filter p l) (filter p l').
Proof.
  induction 1 as [|a l l' _ IH|a b l|l l' l'' _ IH1 _ IH2]; cbn.
  - constructor.
  - destruct (p a); [now constructor|exact IH].
  - destruct (p a), (p b); try apply Permutation_refl. apply perm_swap.
  - etransitivity; eassumption.
Qed.

(** the sorted samples with weight *)
Lemma percentile_on argsort f l : percentile_of argsort f -> sorting argsort ->
  exists s, Permutation (nonzero l) s /\ StronglySorted vle s /\
    forall q, f l q = if qltb 100 q || qltb q 0 then None else percentile_sorted s q.
Proof.
  intros [-> | ->] H.
  - destruct (reorder_sorted argsort l H) as [H1 H2]. exists (nonzero (reorder argsort l)).
    split; [now apply filter_perm|]. split; [now apply StronglySorted_filter|reflexivity].
  - destruct (reorder_sorted argsort (nonzero l) H) as [H1 H2]. exists (reorder argsort (nonzero l)).
    split; [assumption|]. split; [assumption|reflexivity].
Qed.

Lemma in_nonzero l p : fair l -> In p (nonzero l) <-> weighted l p.
Proof.
  intro H. unfold nonzero, weighted. rewrite filter_In, negb_true_iff. split.
  - intros [H1 H2]. split; [exact H1|]. specialize (H p H1). destruct (qeqb_spec (snd p) 0) as [E|E]; [discriminate|lra].
  - intros [H1 H2]. split; [exact H1|]. destruct (qeqb_spec (snd p) 0) as [E|E]; [lra|reflexivity].
Qed.

Lemma perm_in {A} (l l' : list A) a : Permutation l l' -> In a l <-> In a l'.
Proof. intro H. split; apply Permutation_in; [exact H|now symmetry]. Qed.

Section Percentile.
Variable argsort : list Q -> list nat.
Hypothesis Hargsort : sorting argsort.
Variable f : list (Q * Q) -> Q -> option Q.
Hypothesis Hf : percentile_of argsort f.
Variable l : list (Q * Q).
Hypothesis Hfair : fair l.

Lemma f_some q r : f l q = Some r -> (0 <= q <= 100)%Q /\
  exists s, s <> [] /\ (forall p, In p s <-> weighted l p) /\ (forall p, In p s -> (0 < snd p)%Q) /\
    Permutation (nonzero l) s /\ StronglySorted vle s /\ r = value s q /\
    forall q', (0 <= q' <= 100)%Q -> f l q' = Some (value s q').
Proof.
  destruct (percentile_on argsort f l Hf Hargsort) as [s [H1 [H2 H3]]]. intro H. rewrite H3 in H.
  destruct (qltb 100 q) eqn:E1; [discriminate|]. destruct (qltb q 0) eqn:E2; [discriminate|].
  apply qltb_false in E1, E2. cbn [orb] in H. split; [lra|]. exists s.
  assert (Hne : s <> []) by (intros ->; discriminate).
  assert (Hin : forall p, In p s <-> weighted l p).
  { intro p. rewrite <- (perm_in _ _ p H1). now apply in_nonzero. }
  assert (Hp : forall p, In p s -> (0 < snd p)%Q) by (intros p Hp; apply Hin in Hp; apply Hp).
  rewrite percentile_value in H by assumption. repeat (split; [assumption|]). split; [congruence|].
  intros q' Hq. rewrite H3. assert (qltb 100 q' = false) as -> by (apply qltb_false; lra).
  assert (qltb q' 0 = false) as -> by (apply qltb_false; lra). cbn [orb]. now apply percentile_value.
Qed.

Lemma percentile_defined q : (exists r, f l q = Some r) <-> (0 <= q <= 100)%Q /\ exists p, weighted l p.
Proof.
  split.
  - intros [r H]. apply f_some in H. destruct H as [Hq [s [Hne [Hin _]]]]. split; [exact Hq|].
    destruct s as [|p s]; [congruence|]. exists p. apply Hin. now left.
  - intros [Hq [p Hp]]. destruct (percentile_on argsort f l Hf Hargsort) as [s [H1 [H2 H3]]].
    rewrite H3. assert (qltb 100 q = false) as -> by (apply qltb_false; lra).
    assert (qltb q 0 = false) as -> by (apply qltb_false; lra). cbn [orb].
    apply in_nonzero in Hp; [|exact Hfair]. apply (perm_in _ _ p H1) in Hp.
    exists (value s q). apply percentile_value. intros ->. destruct Hp.
Qed.

Lemma percentile_between q r : f l q = Some r ->
  exists a b, weighted l a /\ weighted l b /\ (fst a <= r <= fst b)%Q.
Proof.
  intro H. apply f_some in H. destruct H as [_ [s [Hne [Hin [Hp [_ [Hs [-> _]]]]]]]].
  pose proof (value_bounds s Hne Hp Hs q) as [B1 B2]. pose proof (n_pos s Hne).
  rewrite V_nth in B1 by lia. rewrite V_nth in B2 by lia. exists (nth 0 s (0%Q, 0%Q)), (nth (length s - 1) s (0%Q, 0%Q)).
  split; [apply Hin, nth_In; lia|]. split; [apply Hin, nth_In; lia|]. split; assumption.
Qed.

Lemma percentile_mono q q' r r' : (q <= q')%Q -> f l q = Some r -> f l q' = Some r' -> (r <= r')%Q.
Proof.
  intros Hq H H'. apply f_some in H. destruct H as [_ [s [Hne [Hin [Hp [_ [Hs [-> Hv]]]]]]]].
  assert (E : r' = value s q').
  { pose proof (f_some q' r' H') as [Hq' _]. specialize (Hv q' Hq'). congruence. }
  subst r'. now apply value_mono.
Qed.

(** ** distinct values *)
Hypothesis Hd : distinct_values l.

Lemma distinct_filter p0 (r : list (Q * Q)) : distinct_values r -> distinct_values (filter p0 r).
Proof.
  induction 1 as [|a r Ha _ IH]; cbn; [constructor|]. destruct (p0 a); [|exact IH].
  constructor; [|exact IH]. rewrite Forall_forall in *. intros b Hb. apply filter_In in Hb. now apply Ha.
Qed.
Lemma distinct_perm r r' : Permutation r r' -> distinct_values r -> distinct_values r'.
Proof.
  induction 1 as [|a r r' Hr IH|a b r|r r' r'' _ IH1 _ IH2]; intro D.
  - exact D.
  - inversion D as [|? ? Da Dr]; subst. constructor; [|exact (IH Dr)]. rewrite Forall_forall in *.
    intros c Hc. apply Da. now apply (perm_in _ _ c Hr).
  - inversion D as [|? ? Da Dr]; subst. inversion Dr as [|? ? Db Drr]; subst.
    inversion Da as [|? ? Dab Dar]; subst. constructor; [|constructor; assumption].
    constructor; [|exact Db]. intros H1 H2 E. apply Dab; auto. now symmetry.
  - auto.
Qed.
Lemma distinct_strict (s : list (Q * Q)) : distinct_values s -> (forall p, In p s -> (0 < snd p)%Q) ->
  StronglySorted vle s -> StronglySorted (fun a b => (fst a < fst b)%Q) s.
Proof.
  intros D Hp H. induction H as [|a s _ IH Hf']; [constructor|]. inversion D as [|? ? Da Ds]; subst.
  constructor; [apply IH; [exact Ds|intros; apply Hp; now right]|]. rewrite Forall_forall in *.
  intros b Hb. specialize (Hf' b Hb). cbn in Hf'. assert (~ (fst a == fst b)%Q).
  { apply Da; [exact Hb|apply Hp; now left|apply Hp; now right]. }
  lra.
Qed.
End Percentile.

Lemma mass_app e (a b : list (Q * Q)) : (mass e (a ++ b) == mass e a + mass e b)%Q.
Proof. apply sumf_app. Qed.
Lemma mass_perm e (a b : list (Q * Q)) : Permutation a b -> (mass e a == mass e b)%Q.
Proof. apply sumf_perm. Qed.
Lemma mass_nonzero e (l : list (Q * Q)) : (mass e (nonzero l) == mass e l)%Q.
Proof.
  unfold mass, nonzero. induction l as [|p l IH]; cbn [filter sumf]; [reflexivity|].
  destruct (qeqb_spec (snd p) 0) as [E|E]; cbn [negb sumf]; rewrite IH; [|reflexivity].
  destruct (e p); lra.
Qed.

Lemma mass_strict (s : list (Q * Q)) : StronglySorted (fun a b => (fst a < fst b)%Q) s ->
  forall k, k < length s ->
  (mass (fun r => qltb (fst r) (fst (nth k s (0%Q, 0%Q)))) s == pre (map snd s) k)%Q.
Proof.
  induction 1 as [|a s Hs IH Hf]; intros k Hk; cbn [length] in Hk; [lia|]. rewrite Forall_forall in Hf.
  destruct k as [|k].
  - cbn [nth]. unfold pre. cbn [firstn sumf]. unfold mass. apply sumf_zero.
    intros p Hp. destruct (qltb (fst p) (fst a)) eqn:E; [|reflexivity]. exfalso. apply qltb_true in E.
    destruct Hp as [->|Hp]; [lra|]. apply Hf in Hp. lra.
  - cbn [nth]. unfold mass in *. cbn [sumf]. rewrite IH by lia.
    assert (Hin : In (nth k s (0%Q, 0%Q)) s) by (apply nth_In; lia). apply Hf in Hin.
    assert (qltb (fst a) (fst (nth k s (0%Q, 0%Q))) = true) as -> by now apply qltb_true.
    unfold pre. cbn [map]. change (firstn (S k) (snd a :: map snd s)) with (snd a :: firstn k (map snd s)).
    cbn [sumf]. reflexivity.
Qed.

Lemma mass_tot (s : list (Q * Q)) : (mass (fun _ => true) s == tot s)%Q.
Proof.
  unfold mass, tot. induction s as [|a s IH]; cbn; [reflexivity|]. unfold idQ at 1. now rewrite IH.
Qed.

Lemma rank_P (s : list (Q * Q)) l k : s <> [] -> (forall p, In p s -> (0 < snd p)%Q) ->
  Permutation (nonzero l) s -> StronglySorted (fun a b => (fst a < fst b)%Q) s -> k < length s ->
  (rank l (nth k s (0%Q, 0%Q)) == P s k)%Q.
Proof.
  intros Hne Hp Hl Hs Hk. unfold rank.
  rewrite <- (mass_nonzero _ l), <- (mass_nonzero (fun _ => true) l), !(mass_perm _ _ _ Hl).
  rewrite mass_strict by assumption. rewrite mass_tot, P_eq by assumption. rewrite W_nth by assumption.
  pose proof (tot_pos s Hne Hp). field. lra.
Qed.

Lemma strict_le (s : list (Q * Q)) : StronglySorted (fun a b => (fst a < fst b)%Q) s -> StronglySorted vle s.
Proof.
  induction 1 as [|a s _ IH Hf]; constructor; [exact IH|]. rewrite Forall_forall in *. intros b Hb.
  apply Hf in Hb. lra.
Qed.
Lemma strict_nth (s : list (Q * Q)) : StronglySorted (fun a b => (fst a < fst b)%Q) s ->
  forall j k, j < k -> k < length s -> (fst (nth j s (0%Q, 0%Q)) < fst (nth k s (0%Q, 0%Q)))%Q.
Proof.
  induction 1 as [|a s _ IH Hf]; intros j k Hjk Hk; cbn [length] in Hk; [lia|]. rewrite Forall_forall in Hf.
  destruct k as [|k]; [lia|]. destruct j as [|j]; cbn [nth].
  - apply Hf, nth_In. lia.
  - apply IH; lia.
Qed.

Section Exact.
Variable argsort : list Q -> list nat.
Hypothesis Hargsort : sorting argsort.
Variable f : list (Q * Q) -> Q -> option Q.
Hypothesis Hf : percentile_of argsort f.
Variable l : list (Q * Q).
Hypothesis Hfair : fair l.
Hypothesis Hd : distinct_values l.

Lemma strict_samples s : Permutation (nonzero l) s -> (forall p, In p s -> (0 < snd p)%Q) ->
  StronglySorted vle s -> StronglySorted (fun a b => (fst a < fst b)%Q) s.
Proof.
  intros Hl Hp Hs. apply distinct_strict; auto. apply (distinct_perm _ _ Hl). now apply distinct_filter.
Qed.

Lemma percentile_low q r a : f l q = Some r -> weighted l a ->
  (forall b, weighted l b -> (fst a <= fst b)%Q) -> (q <= rank l a)%Q -> (r == fst a)%Q.
Proof.
  intros H Ha Hmin Hq. apply (f_some argsort Hargsort f Hf l Hfair) in H. destruct H as [_ [s [Hne [Hin [Hp [Hl [Hs [-> _]]]]]]]].
  pose proof (strict_samples s Hl Hp Hs) as Hst. pose proof (n_pos s Hne) as Hn.
  apply Hin in Ha. destruct (In_nth s a (0%Q, 0%Q) Ha) as [k [Hk E]].
  assert (k = 0).
  { destruct k as [|k]; [reflexivity|]. pose proof (strict_nth s Hst 0 (S k) ltac:(lia) Hk) as C.
    specialize (Hmin (nth 0 s (0%Q, 0%Q)) (proj1 (Hin _) (nth_In s _ Hn))). rewrite E in C. lra. }
  subst k. rewrite <- E in Hq. rewrite (rank_P s l 0 Hne Hp Hl Hst Hk) in Hq.
  rewrite value_low by assumption. rewrite V_nth, E by assumption. reflexivity.
Qed.
Lemma percentile_high q r a : f l q = Some r -> weighted l a ->
  (forall b, weighted l b -> (fst b <= fst a)%Q) -> (rank l a <= q)%Q -> (r == fst a)%Q.
Proof.
  intros H Ha Hmax Hq. apply (f_some argsort Hargsort f Hf l Hfair) in H. destruct H as [_ [s [Hne [Hin [Hp [Hl [Hs [-> _]]]]]]]].
  pose proof (strict_samples s Hl Hp Hs) as Hst. pose proof (n_pos s Hne) as Hn.
  apply Hin in Ha. destruct (In_nth s a (0%Q, 0%Q) Ha) as [k [Hk E]].
  assert (k = length s - 1).
  { destruct (Nat.eq_dec k (length s - 1)) as [E'|Ne]; [exact E'|].
    pose proof (strict_nth s Hst k (length s - 1) ltac:(lia) ltac:(lia)) as C.
    assert (Hlast : In (nth (length s - 1) s (0%Q, 0%Q)) s) by (apply nth_In; lia).
    specialize (Hmax _ (proj1 (Hin _) Hlast)). rewrite E in C. lra. }
  subst k. rewrite <- E in Hq. rewrite (rank_P s l _ Hne Hp Hl Hst Hk) in Hq.
  rewrite (value_high s Hne Hp) by assumption. rewrite V_nth, E by assumption. reflexivity.
Qed.
Lemma percentile_mid q r a b : f l q = Some r -> weighted l a -> weighted l b -> (fst a < fst b)%Q ->
  (forall c, weighted l c -> ~ ((fst a < fst c)%Q /\ (fst c < fst b)%Q)) ->
  (rank l a <= q <= rank l b)%Q ->
  (r == fst a + (q - rank l a) / (rank l b - rank l a) * (fst b - fst a))%Q.
Proof.
  intros H Ha Hb Hab Hno Hq. apply (f_some argsort Hargsort f Hf l Hfair) in H. destruct H as [_ [s [Hne [Hin [Hp [Hl [Hs [-> _]]]]]]]].
  pose proof (strict_samples s Hl Hp Hs) as Hst.
  apply Hin in Ha. destruct (In_nth s a (0%Q, 0%Q) Ha) as [k [Hk Ek]].
  apply Hin in Hb. destruct (In_nth s b (0%Q, 0%Q) Hb) as [j [Hj Ej]].
  assert (j = k + 1).
  { destruct (Nat.lt_trichotomy j (k + 1)) as [C|[C|C]]; [|exact C|]; exfalso.
    - destruct (Nat.eq_dec j k) as [->|Ne]; [rewrite Ek in Ej; subst; lra|].
      pose proof (strict_nth s Hst j k ltac:(lia) Hk) as D. rewrite Ek, Ej in D. lra.
    - apply (Hno (nth (k + 1) s (0%Q, 0%Q))); [apply Hin, nth_In; lia|].
      pose proof (strict_nth s Hst k (k + 1) ltac:(lia) ltac:(lia)) as D1.
      pose proof (strict_nth s Hst (k + 1) j ltac:(lia) ltac:(lia)) as D2. rewrite Ek in D1. rewrite Ej in D2. split; assumption. }
  subst j.
  pose proof (rank_P s l k Hne Hp Hl Hst Hk) as Ra. pose proof (rank_P s l (k + 1) Hne Hp Hl Hst Hj) as Rb.
  rewrite Ek in Ra. rewrite Ej in Rb.
  assert (Ev : (value s q == between s k q)%Q) by (apply (value_between s Hne Hp); [lia|lra|lra]).
  rewrite Ev. unfold between.
  rewrite !V_nth, Ek, Ej by assumption. rewrite Ra, Rb. reflexivity.
Qed.
End Exact.

(** two sorted versions of samples with distinct values are equal *)
Lemma sorted_unique s : StronglySorted vle s -> distinct_values s -> (forall p, In p s -> (0 < snd p)%Q) ->
  forall s', Permutation s s' -> StronglySorted vle s' -> s = s'.
Proof.
  induction 1 as [|a s Hs IH Ha]; intros D Hp s' Hperm Hs'.
  - apply Permutation_nil in Hperm. now subst.
  - destruct s' as [|b s']; [now apply Permutation_sym, Permutation_nil in Hperm|].
    inversion D as [|? ? Da Ds]; subst. inversion Hs' as [|? ? Hs'' Hb]; subst.
    rewrite Forall_forall in *.
    assert (E : a = b).
    { assert (Ia : In a (b :: s')) by (apply (perm_in _ _ a Hperm); now left).
      assert (Ib : In b (a :: s)) by (apply (perm_in _ _ b Hperm); now left).
      destruct Ia as [E|Ia]; [now symmetry|]. destruct Ib as [E|Ib]; [exact E|].
      exfalso. apply (Da b Ib); [apply Hp; now left|apply Hp; now right|].
      specialize (Ha b Ib). specialize (Hb a Ia). cbn in *. lra. }
    subst b. f_equal. apply IH; auto.
    + intros p H. apply Hp. now right.
    + now apply Permutation_cons_inv in Hperm.
Qed.

Lemma order_irrelevant a1 a2 f1 f2 l1 l2 q : sorting a1 -> sorting a2 -> percentile_of a1 f1 -> percentile_of a2 f2 ->
  fair l1 -> distinct_values l1 -> Permutation l1 l2 -> f1 l1 q = f2 l2 q.
Proof.
  intros H1 H2 F1 F2 Hl Hd Hp.
  destruct (percentile_on a1 f1 l1 F1 H1) as [s1 [P1 [S1 E1]]].
  destruct (percentile_on a2 f2 l2 F2 H2) as [s2 [P2 [S2 E2]]].
  rewrite E1, E2. assert (s1 = s2) as ->; [|reflexivity].
  apply (sorted_unique s1 S1).
  - apply (distinct_perm _ _ P1). now apply distinct_filter.
  - intros p Hi. apply (perm_in _ _ p P1) in Hi. apply in_nonzero in Hi; [|exact Hl]. apply Hi.
  - rewrite <- P1, <- P2. now apply filter_perm.
  - exact S2.
Qed.

(** scaling the weights *)
Lemma map_fst_scaled c l : map fst (scaled c l) = map fst l.
Proof. unfold scaled. rewrite map_map. reflexivity. Qed.
Lemma nonzero_scaled c l : ~ (c == 0)%Q -> nonzero (scaled c l) = scaled c (nonzero l).
Proof.
  intro Hc. unfold nonzero, scaled. induction l as [|p l IH]; [reflexivity|]. cbn [map filter snd].
  assert (E : qeqb (c * snd p) 0 = qeqb (snd p) 0).
  { destruct (qeqb_spec (snd p) 0) as [E|E]; destruct (qeqb_spec (c * snd p) 0) as [E'|E']; auto; exfalso.
    - apply E'. rewrite E. lra.
    - apply Qmult_integral in E'. tauto. }
  rewrite E. destruct (qeqb (snd p) 0); cbn; now rewrite IH.
Qed.
Lemma reorder_scaled argsort c l : sorting argsort -> reorder argsort (scaled c l) = scaled c (reorder argsort l).
Proof.
  intro H. unfold reorder. rewrite map_fst_scaled. unfold scaled at 2. rewrite map_map. apply map_ext_in.
  intros i Hi. apply (perm_in _ _ i (proj1 (H (map fst l)))) in Hi. apply in_seq in Hi. rewrite map_length in Hi.
  unfold scaled. rewrite (nth_indep _ (0%Q, 0%Q) ((fun p : Q * Q => (fst p, (c * snd p)%Q)) (0%Q, 0%Q))) by (rewrite map_length; lia).
  now rewrite (map_nth (fun p : Q * Q => (fst p, (c * snd p)%Q))).
Qed.

Lemma tot_scaled c s : (tot (scaled c s) == c * tot s)%Q.
Proof.
  unfold tot, scaled. rewrite map_map. induction s as [|p s IH]; cbn; [lra|]. rewrite IH. unfold idQ. lra.
Qed.
Lemma pre_scaled c s k : (pre (map snd (scaled c s)) k == c * pre (map snd s) k)%Q.
Proof.
  unfold scaled. rewrite map_map. revert k. induction s as [|p s IH]; intro k; [unfold pre; destruct k; cbn; lra|].
  destruct k as [|k]; [unfold pre; cbn; lra|]. specialize (IH k). unfold pre in *.
  change (firstn (S k) (map snd (p :: s))) with (snd p :: firstn k (map snd s)).
  change (firstn (S k) (map (fun x : Q * Q => snd (fst x, (c * snd x)%Q)) (p :: s)))
    with ((c * snd p)%Q :: firstn k (map (fun x : Q * Q => snd (fst x, (c * snd x)%Q)) s)).
  cbn [sumf]. rewrite IH. unfold idQ. lra.
Qed.
Lemma P_scaled c s k : (0 < c)%Q -> s <> [] -> (forall p, In p s -> (0 < snd p)%Q) -> k < length s ->
  (P (scaled c s) k == P s k)%Q.
Proof.
  intros Hc Hne Hp Hk. rewrite !P_eq by (unfold scaled; rewrite ?map_length; assumption).
  rewrite tot_scaled, pre_scaled. rewrite !W_nth by (unfold scaled; rewrite ?map_length; assumption).
  unfold scaled. rewrite (nth_indep _ (0%Q, 0%Q) ((fun p : Q * Q => (fst p, (c * snd p)%Q)) (0%Q, 0%Q))) by (rewrite map_length; lia).
  rewrite (map_nth (fun p : Q * Q => (fst p, (c * snd p)%Q))). cbn [snd].
  pose proof (tot_pos s Hne Hp). field. lra.
Qed.
Lemma value_scaled c s q : (0 < c)%Q -> s <> [] -> (forall p, In p s -> (0 < snd p)%Q) ->
  (value (scaled c s) q == value s q)%Q.
Proof.
  intros Hc Hne Hp.
  assert (Hlen : length (scaled c s) = length s) by (unfold scaled; apply map_length).
  assert (HV : forall k, V (scaled c s) k = V s k) by (intro k; unfold V; now rewrite map_fst_scaled).
  assert (E : searchsorted (partial_sum (map snd (scaled c s))) q = searchsorted (partial_sum (map snd s)) q).
  { assert (Hp' : forall p, In p (scaled c s) -> (0 < snd p)%Q).
    { intros p H. apply in_map_iff in H. destruct H as [r [<- Hr]]. cbn. apply Hp in Hr. nra. }
    assert (Hne' : scaled c s <> []) by (intro E; apply Hne; destruct s; [reflexivity|discriminate]).
    pose proof (ss_n s q).
    apply (ss_unique (scaled c s) Hne' Hp'); [lia| |].
    - intros j Hj. rewrite P_scaled by (assumption || lia). apply ss_lt. lia.
    - intro Hlt. rewrite P_scaled by (assumption || lia). apply ss_ge. lia. }
  unfold value. rewrite E, Hlen, !HV. pose proof (ss_n s q).
  destruct (Nat.eqb_spec (searchsorted (partial_sum (map snd s)) q) (length s)); [reflexivity|].
  destruct (Nat.eqb_spec (searchsorted (partial_sum (map snd s)) q) 0); [reflexivity|].
  unfold between. rewrite !HV, !P_scaled by (assumption || lia). reflexivity.
Qed.

Lemma percentile_scaled argsort f l c q r : sorting argsort -> percentile_of argsort f -> fair l -> (0 < c)%Q ->
  f l q = Some r -> exists r', f (scaled c l) q = Some r' /\ (r' == r)%Q.
Proof.
  intros Ha Hf Hl Hc H.
  assert (E : exists s, s <> [] /\ (forall p, In p s -> (0 < snd p)%Q) /\ percentile_sorted s q = Some r /\
     f (scaled c l) q = percentile_sorted (scaled c s) q).
  { assert (Hpos : forall p, In p (nonzero l) -> (0 < snd p)%Q) by (intros p Hp; apply in_nonzero in Hp; [apply Hp|exact Hl]).
    destruct Hf as [-> | ->]; unfold weighted_percentile, weighted_percentile_unsorted in *;
      destruct (qltb 100 q || qltb q 0); try discriminate.
    - exists (nonzero (reorder argsort l)). split; [intro E; rewrite E in H; discriminate|]. split; [|split; [exact H|]].
      + intros p Hp. apply Hpos. apply (perm_in _ _ p (filter_perm _ _ _ (proj1 (reorder_sorted argsort l Ha)))). exact Hp.
      + rewrite reorder_scaled by assumption. rewrite nonzero_scaled by lra. reflexivity.
    - exists (reorder argsort (nonzero l)). split; [intro E; rewrite E in H; discriminate|]. split; [|split; [exact H|]].
      + intros p Hp. apply Hpos. apply (perm_in _ _ p (proj1 (reorder_sorted argsort (nonzero l) Ha))). exact Hp.
      + rewrite nonzero_scaled by lra. rewrite reorder_scaled by assumption. reflexivity. }
  destruct E as [s [Hne [Hp [E1 E2]]]]. rewrite percentile_value in E1 by assumption.
  rewrite E2, percentile_value by (intro E; apply Hne; destruct s; [reflexivity|discriminate]).
  eexists. split; [reflexivity|]. injection E1 as <-. now apply value_scaled.
Qed.

(** * Two sorting functions *)
Fixpoint ins_by (v : list Q) (i : nat) (l : list nat) : list nat :=
  match l with
  | [] => [i]
  | j :: r => if qleb (nth i v 0%Q) (nth j v 0%Q) then i :: l else j :: ins_by v i r
  end.
Definition sort_by (v : list Q) (l : list nat) : list nat := fold_right (ins_by v) [] l.
Definition argsort_up (v : list Q) : list nat := sort_by v (seq 0 (length v)).
Definition argsort_down (v : list Q) : list nat := sort_by v (rev (seq 0 (length v))).

Lemma ins_by_perm v i l : Permutation (ins_by v i l) (i :: l).
Proof.
  induction l as [|j l IH]; cbn; [reflexivity|]. destruct (qleb _ _); [reflexivity|].
  rewrite IH. apply perm_swap.
Qed.
Lemma sort_by_perm v l : Permutation (sort_by v l) l.
Proof. induction l as [|i l IH]; cbn; [reflexivity|]. rewrite ins_by_perm. now constructor. Qed.
Lemma ins_by_sorted v i l : StronglySorted (fun i j => (nth i v 0 <= nth j v 0)%Q) l ->
  StronglySorted (fun i j => (nth i v 0 <= nth j v 0)%Q) (ins_by v i l).
Proof.
  induction 1 as [|j l Hs IH Hf]; cbn; [constructor; constructor|]. destruct (qleb_spec (nth i v 0%Q) (nth j v 0%Q)) as [H|H].
  - constructor; [constructor; assumption|]. constructor; [exact H|]. rewrite Forall_forall in *. intros k Hk.
    specialize (Hf k Hk). cbn in Hf. lra.
  - constructor; [exact IH|]. rewrite Forall_forall in *. intros k Hk.
    apply (perm_in _ _ k (ins_by_perm v i l)) in Hk. destruct Hk as [<-|Hk]; [lra|auto].
Qed.
Lemma sort_by_sorted v l : StronglySorted (fun i j => (nth i v 0 <= nth j v 0)%Q) (sort_by v l).
Proof. induction l as [|i l IH]; cbn; [constructor|now apply ins_by_sorted]. Qed.
Lemma sorting_up : sorting argsort_up.
Proof. intro v. split; [apply sort_by_perm|apply sort_by_sorted]. Qed.
Lemma sorting_down : sorting argsort_down.
Proof.
  intro v. split; [|apply sort_by_sorted]. unfold argsort_down. rewrite sort_by_perm. symmetry. apply Permutation_rev.
Qed.

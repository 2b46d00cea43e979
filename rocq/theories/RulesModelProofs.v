(** Proofs about metrics of rules, prediction with rules, counterfactual rules. *)
From Verif Require Import Base RfModel RulesModel RulesSpec SearchProofs RulesProofs.
From Coq Require Import Qround.

(** ** Membership and means *)
Lemma in_rule_spec Sv r x : in_rule Sv r x = true <-> covered Sv r x.
Proof.
  unfold in_rule, covered. rewrite forallb_forall. split; intros H s Hs; specialize (H s Hs).
  - apply andb_prop in H. destruct H as [H1 H2]. apply qleb_true in H1. apply qleb_true in H2. unfold lo, hi in *. auto.
  - apply andb_true_intro. split; apply qleb_true; unfold lo, hi; tauto.
Qed.
Lemma covered_inside d r x : covered (seq 0 d) r x <-> inside d r x.
Proof. unfold covered, inside. split; intros H k Hk; apply H; [apply in_seq; lia|apply in_seq in Hk; lia]. Qed.
Lemma lists_perm N data Sv r l : lists_covered N data Sv r l ->
  Permutation l (filter (fun i => in_rule Sv r (data i)) (seq 0 N)).
Proof.
  intros [Hn Hl]. apply NoDup_Permutation; [exact Hn|apply NoDup_filter, seq_NoDup|].
  intro i. rewrite Hl, filter_In, in_seq, in_rule_spec. split; intros [H1 H2]; (split; [lia|exact H2]).
Qed.
Lemma filter_perm {A} (p : A -> bool) l l' : Permutation l l' -> Permutation (filter p l) (filter p l').
Proof.
  induction 1; cbn; auto.
  - destruct (p x); auto.
  - destruct (p x), (p y); auto. apply perm_swap.
  - etransitivity; eauto.
Qed.
Lemma share_perm {A} (p : A -> bool) l l' : Permutation l l' -> (share p l == share p l')%Q.
Proof.
  intro H. unfold share. rewrite (Permutation_length H), (Permutation_length (filter_perm p _ _ H)). reflexivity.
Qed.
Lemma mse_perm {A} (y : A -> Q) l l' c : Permutation l l' -> (mse y l c == mse y l' c)%Q.
Proof. intro H. unfold mse. rewrite (Permutation_length H), (sumf_perm _ _ _ H). reflexivity. Qed.
Lemma share_bounds {A} (p : A -> bool) l : (0 <= share p l <= 1)%Q.
Proof.
  unfold share. destruct l as [|a r]; [cbn; split; discriminate|].
  assert (P : (0 < Qn (length (a :: r)))%Q) by (apply Qn_pos; cbn; lia).
  split; [apply Qdiv_nonneg; [apply Qn_nonneg|exact P]|].
  apply Qdiv_le_1; [apply Qn_nonneg| |exact P]. apply Qn_le. apply filter_length_le.
Qed.
Lemma mean_some l : l <> [] -> mean l = Some (sumf (fun a => a) l / Qn (length l))%Q.
Proof. destruct l; [congruence|reflexivity]. Qed.
Lemma mean_none l : mean l = None <-> l = [].
Proof. destruct l; cbn; split; congruence. Qed.
Lemma mean_map {A} (f : A -> Q) l : l <> [] ->
  exists q, mean (map f l) = Some q /\ (q == sumf f l / Qn (length l))%Q.
Proof.
  intro H. rewrite mean_some by (destruct l; cbn; congruence). eexists. split; [reflexivity|].
  rewrite map_length, sumf_map. reflexivity.
Qed.
Lemma sumf_Qb {A} (p : A -> bool) l : (sumf (fun a => Qb (p a)) l == Qn (length (filter p l)))%Q.
Proof.
  induction l as [|a r IH]; cbn; [reflexivity|]. rewrite IH. destruct (p a); cbn [Qb length].
  - rewrite Qn_S. reflexivity.
  - lra.
Qed.
Lemma mean_share {A} (p : A -> bool) l : l <> [] ->
  exists q, mean (map (fun a => Qb (p a)) l) = Some q /\ (q == share p l)%Q.
Proof.
  intro H. destruct (mean_map (fun a => Qb (p a)) l H) as [q [E Hq]]. exists q. split; [exact E|].
  rewrite Hq. unfold share. rewrite sumf_Qb. reflexivity.
Qed.

(** ** Metrics *)
Section Metrics.
Variables (data : nat -> pt) (y : nat -> Q) (N : nat) (Sv : list nat) (r : rule) (l : list nat).
Hypothesis Hl : lists_covered N data Sv r l.
Let ins := filter (fun i => in_rule Sv r (data i)) (seq 0 N).
Let P : Permutation l ins.
Proof using Hl. now apply lists_perm. Qed.
Lemma ins_nil : l = [] <-> ins = [].
Proof using Hl P.
  split; intro E.
  - rewrite E in P. now apply Permutation_nil.
  - pose proof (Permutation_sym P) as H. rewrite E in H. now apply Permutation_nil in H.
Qed.
Lemma metrics_cov c : Sv <> [] -> (m_cov (rule_metrics c data y N Sv r) == Qn (length l) / Qn N)%Q.
Proof using Hl P.
  intro Hs. assert (E : m_cov (rule_metrics c data y N Sv r) = (Qn (length ins) / Qn N)%Q).
  { unfold rule_metrics. fold ins. destruct Sv; [congruence|]. destruct c; reflexivity. }
  rewrite E, (Permutation_length P). reflexivity.
Qed.
Lemma cov_bounds : l <> [] \/ 0 < N -> (0 <= Qn (length l) / Qn N <= 1)%Q.
Proof using Hl P.
  intro H. assert (L : length l <= N).
  { rewrite (Permutation_length P). unfold ins. etransitivity; [apply filter_length_le|]. now rewrite seq_length. }
  assert (N0 : 0 < N). { destruct H as [H|H]; [|exact H]. destruct l; [congruence|cbn in L; lia]. }
  assert (Z : (0 < Qn N)%Q) by now apply Qn_pos.
  split; [apply Qdiv_nonneg; [apply Qn_nonneg|exact Z]|].
  apply Qdiv_le_1; [apply Qn_nonneg|now apply Qn_le|exact Z].
Qed.
Lemma metrics_clf : l <> [] -> exists o a, m_out (rule_metrics true data y N Sv r) = Some o /\
  m_acc (rule_metrics true data y N Sv r) = Some a /\ (o = 0%Q \/ o = 1%Q) /\
  (o = 1%Q <-> (1 # 2 < sumf y l / Qn (length l))%Q) /\
  (a == share (fun i => qeqb (y i) o) l)%Q.
Proof using Hl P.
  intro Hne. assert (Hni : ins <> []) by (intro E; apply Hne; now apply ins_nil).
  unfold rule_metrics. fold ins. cbn [m_out m_acc].
  destruct (mean_map y ins Hni) as [m [E Hm]]. rewrite E.
  exists (Qb (qltb (1 # 2) m)). rewrite map_map.
  destruct (mean_share (fun i => qeqb (y i) (Qb (qltb (1 # 2) m))) ins Hni) as [a [E' Ha]]. rewrite E'.
  exists a. split; [reflexivity|]. split; [reflexivity|]. split; [destruct (qltb (1 # 2) m); auto|]. split.
  - rewrite (sumf_perm _ _ _ P), (Permutation_length P), <- Hm.
    destruct (qltb_spec (1 # 2) m); cbn; split; auto; try discriminate. intro; exfalso; lra.
  - now rewrite (share_perm _ _ _ P).
Qed.
Lemma metrics_reg : l <> [] -> exists o a v, m_out (rule_metrics false data y N Sv r) = Some o /\
  m_acc (rule_metrics false data y N Sv r) = Some a /\ m_var (rule_metrics false data y N Sv r) = Some v /\
  (o == sumf y l / Qn (length l))%Q /\ (a == mse y l o)%Q /\ (v == a)%Q.
Proof using Hl P.
  intro Hne. assert (Hni : ins <> []) by (intro E; apply Hne; now apply ins_nil).
  unfold rule_metrics. fold ins. cbn [m_out m_acc m_var].
  destruct (mean_map y ins Hni) as [m [E Hm]]. unfold variance. rewrite E, !map_map.
  destruct (mean_map (fun i => (y i - m) * (y i - m))%Q ins Hni) as [a [E' Ha]]. rewrite E'.
  exists m, a, a. do 3 (split; [reflexivity|]). split; [|split; [|reflexivity]].
  - now rewrite (sumf_perm _ _ _ P), (Permutation_length P).
  - now rewrite (mse_perm _ _ _ _ P).
Qed.
Lemma metrics_var c : l <> [] -> exists v m, m_var (rule_metrics c data y N Sv r) = Some v /\
  (m == sumf y l / Qn (length l))%Q /\ (v == mse y l m)%Q.
Proof using Hl P.
  intro Hne. assert (Hni : ins <> []) by (intro E; apply Hne; now apply ins_nil).
  assert (V : m_var (rule_metrics c data y N Sv r) = variance (map y ins)) by (destruct c; reflexivity).
  rewrite V. unfold variance. destruct (mean_map y ins Hni) as [m [E Hm]]. rewrite E, map_map.
  destruct (mean_map (fun i => (y i - m) * (y i - m))%Q ins Hni) as [a [E' Ha]]. rewrite E'.
  exists a, m. split; [reflexivity|]. split.
  - now rewrite (sumf_perm _ _ _ P), (Permutation_length P).
  - now rewrite (mse_perm _ _ _ _ P).
Qed.
Lemma metrics_nan c : l = [] -> m_acc (rule_metrics c data y N Sv r) = None /\ m_var (rule_metrics c data y N Sv r) = None.
Proof using Hl P.
  intro E. apply ins_nil in E. unfold rule_metrics. fold ins. rewrite E. destruct c; cbn; auto.
Qed.
End Metrics.

Lemma mse_split {A} (y : A -> Q) l c m : l <> [] -> (m == sumf y l / Qn (length l))%Q ->
  (mse y l c == mse y l m + (m - c) * (m - c))%Q.
Proof.
  intros Hne Hm. assert (P : (0 < Qn (length l))%Q) by (apply Qn_pos; destruct l; [congruence|cbn; lia]).
  assert (S1 : forall k, (sumf (fun i => (y i - k) * (y i - k)) l ==
     sumf (fun i => y i * y i) l - 2 * k * sumf y l + k * k * Qn (length l))%Q).
  { intro k. clear. induction l as [|a r IH]; cbn [sumf length].
    - unfold Qn. cbn. ring.
    - rewrite IH, Qn_S. ring. }
  assert (Hs : (sumf y l == m * Qn (length l))%Q) by (rewrite Hm; field; lra).
  unfold mse. rewrite (S1 c), (S1 m), Hs. field. lra.
Qed.
Lemma mean_best {A} (y : A -> Q) l c m : l <> [] -> (m == sumf y l / Qn (length l))%Q -> (mse y l m <= mse y l c)%Q.
Proof.
  intros Hne Hm. rewrite (mse_split y l c m Hne Hm).
  assert (H : (0 <= (m - c) * (m - c))%Q).
  { destruct (Qlt_le_dec (m - c) 0); [|apply Qmult_le_0_compat; lra].
    setoid_replace ((m - c) * (m - c))%Q with ((- (m - c)) * (- (m - c)))%Q by ring. apply Qmult_le_0_compat; lra. }
  lra.
Qed.
Lemma mse_nonneg {A} (y : A -> Q) l c : (0 <= mse y l c)%Q.
Proof.
  unfold mse. destruct l as [|a r]; [cbn; discriminate|]. apply Qdiv_nonneg.
  - apply sumf_nonneg. intros i _. destruct (Qlt_le_dec (y i - c) 0); [|apply Qmult_le_0_compat; lra].
    setoid_replace ((y i - c) * (y i - c))%Q with ((- (y i - c)) * (- (y i - c)))%Q by ring. apply Qmult_le_0_compat; lra.
  - apply Qn_pos. cbn; lia.
Qed.
(** for 0/1 labels a class is the majority iff the mean exceeds a half *)
Lemma majority {A} (y : A -> Q) l o v : l <> [] -> (forall i, In i l -> (y i == 0)%Q \/ (y i == 1)%Q) ->
  (o = 0%Q \/ o = 1%Q) -> (o = 1%Q <-> (1 # 2 < sumf y l / Qn (length l))%Q) ->
  (share (fun i => qeqb (y i) v) l <= share (fun i => qeqb (y i) o) l)%Q.
Proof.
  intros Hne H01 Ho Hm. assert (P : (0 < Qn (length l))%Q) by (apply Qn_pos; destruct l; [congruence|cbn; lia]).
  assert (C1 : (sumf y l == Qn (length (filter (fun i => qeqb (y i) 1) l)))%Q).
  { rewrite <- sumf_Qb. apply sumf_ext. intros i Hi. destruct (qeqb_spec (y i) 1); cbn; [exact q|].
    destruct (H01 i Hi); [assumption|contradiction]. }
  assert (C0 : (Qn (length (filter (fun i => qeqb (y i) 0) l)) == Qn (length l) - sumf y l)%Q).
  { rewrite <- sumf_Qb. transitivity (sumf (fun i => 1 - y i)%Q l).
    - apply sumf_ext. intros i Hi. destruct (qeqb_spec (y i) 0); cbn; [lra|]. destruct (H01 i Hi); [contradiction|lra].
    - rewrite sumf_minus, sumf_const. ring. }
  assert (Hhalf : (1 # 2 < sumf y l / Qn (length l))%Q <-> (Qn (length l) < 2 * sumf y l)%Q).
  { split; intro H.
    - apply (Qmult_lt_r _ _ (Qn (length l)) P) in H. setoid_replace (sumf y l / Qn (length l) * Qn (length l))%Q with (sumf y l) in H by (field; lra). lra.
    - apply (Qmult_lt_r _ _ (Qn (length l)) P). setoid_replace (sumf y l / Qn (length l) * Qn (length l))%Q with (sumf y l) by (field; lra). lra. }
  rewrite Hhalf in Hm.
  assert (G : (Qn (length (filter (fun i => qeqb (y i) v) l)) <= Qn (length (filter (fun i => qeqb (y i) o) l)))%Q).
  { destruct (qeqb_spec v 0) as [V|V].
    - rewrite (filter_ext (fun i => qeqb (y i) v) (fun i => qeqb (y i) 0)) by (intro; now rewrite V).
      destruct Ho as [->| ->]; [lra|]. destruct Hm as [Hm _]. specialize (Hm eq_refl). rewrite C0, <- C1. lra.
    - destruct (qeqb_spec v 1) as [V1|V1].
      + rewrite (filter_ext (fun i => qeqb (y i) v) (fun i => qeqb (y i) 1)) by (intro; now rewrite V1).
        destruct Ho as [->| ->]; [|lra]. destruct (Qlt_le_dec (Qn (length l)) (2 * sumf y l)) as [H|H].
        * apply Hm in H. discriminate.
        * rewrite C0, <- C1. lra.
      + assert (E : filter (fun i => qeqb (y i) v) l = []).
        { destruct (filter (fun i => qeqb (y i) v) l) as [|i r] eqn:E; [reflexivity|]. exfalso.
          assert (I : In i (i :: r)) by now left. rewrite <- E in I. apply filter_In in I. destruct I as [I1 I2].
          destruct (qeqb_spec (y i) v) as [K|K]; [|discriminate]. destruct (H01 i I1); [apply V|apply V1]; rewrite <- K; assumption. }
        rewrite E. apply Qn_nonneg. }
  unfold share. unfold Qdiv. apply Qmult_le_compat_r; [exact G|]. apply Qlt_le_weak, Qinv_lt_0_compat, P.
Qed.

(** ** Predicting with rules *)
Section Extreme.
Variables (better : Q -> Q -> bool) (le : Q -> Q -> Prop).
Hypothesis Hb : forall b m, if better b m then le m b else le b m.
Hypothesis le_refl : forall a, le a a.
Hypothesis le_trans : forall a b c, le a b -> le b c -> le a c.
Lemma extreme_none l : extreme better None l = None.
Proof using. unfold extreme. induction l; cbn; auto. Qed.
Lemma extreme_spec l : forall a m, extreme better a l = Some m ->
  (forall o, In o (a :: l) -> exists b, o = Some b /\ le b m) /\ In (Some m) (a :: l).
Proof using Hb le_refl le_trans.
  induction l as [|c r IH]; intros a m H.
  - cbn in H. subst a. split; [|now left]. intros o [<-|[]]. eauto.
  - cbn in H. destruct a as [a|]; [|change (extreme better None r = Some m) in H; rewrite extreme_none in H; discriminate].
    destruct c as [c|]; [|change (extreme better None r = Some m) in H; rewrite extreme_none in H; discriminate].
    change (extreme better (Some (if better c a then c else a)) r = Some m) in H. apply IH in H. destruct H as [H1 H2].
    destruct (H1 (Some (if better c a then c else a)) ltac:(now left)) as [b [E Hm]]. injection E as <-.
    pose proof (Hb c a) as K. split.
    + intros o [<-|[<-|Ho]].
      * exists a. split; [reflexivity|]. destruct (better c a); [eapply le_trans; eauto|exact Hm].
      * exists c. split; [reflexivity|]. destruct (better c a); [exact Hm|eapply le_trans; eauto].
      * apply H1. now right.
    + destruct H2 as [H2|H2]; [|now right; right]. destruct (better c a); rewrite <- H2; [right; now left|now left].
Qed.
Lemma extreme_defined l : forall a, (forall o, In o (a :: l) -> o <> None) -> extreme better a l <> None.
Proof using.
  induction l as [|c r IH]; intros a H; [apply H; now left|]. cbn.
  destruct a as [a|]; [|exfalso; apply (H None); [now left|reflexivity]].
  destruct c as [c|]; [|exfalso; apply (H None); [right; now left|reflexivity]].
  apply (IH (Some (if better c a then c else a))). intros o [<-|Ho]; [discriminate|]. apply H. right. now right.
Qed.
Lemma extreme_nan l a : In None (a :: l) -> extreme better a l = None.
Proof using.
  revert a. induction l as [|c r IH]; intros a H.
  - destruct H as [->|[]]. reflexivity.
  - cbn. destruct a as [a|]; [|apply extreme_none]. destruct c as [c|]; [|apply extreme_none].
    apply (IH (Some (if better c a then c else a))). destruct H as [H|[H|H]]; try discriminate. now right.
Qed.
End Extreme.
Lemma first_equal_spec m (l : list nat) (acc : nat -> option Q) d : In (Some m) (map acc l) ->
  exists i a, first_equal m (map (fun i => (i, acc i)) l) d = i /\ In i l /\ acc i = Some a /\ (a == m)%Q.
Proof.
  induction l as [|j r IH]; cbn; [tauto|]. intro H. destruct (acc j) as [a|] eqn:E.
  - destruct (qeqb_spec a m) as [Q|Q]; [exists j, a; auto|].
    destruct H as [H|H]; [injection H as ->; exfalso; apply Q; reflexivity|].
    destruct (IH H) as [i [b [H1 [H2 [H3 H4]]]]]. eauto 10.
  - destruct H as [H|H]; [discriminate|]. destruct (IH H) as [i [b [H1 [H2 [H3 H4]]]]]. eauto 10.
Qed.

Section Predict.
Variables (better enough : Q -> Q -> bool) (le : Q -> Q -> Prop).
Hypothesis Hb : forall b m, if better b m then le m b else le b m.
Hypothesis He : forall m lv, enough m lv = true <-> le lv m.
Hypothesis le_refl : forall a b, (a == b)%Q -> le a b.
Hypothesis le_trans : forall a b c, le a b -> le b c -> le a c.
Variables (n : nat) (rules : nat -> rule) (cov : nat -> Q) (acc : nat -> option Q) (Ss : nat -> list nat)
          (min_cov level : Q) (x : pt).
Let has i := i < n /\ covered (Ss i) (rules i) x.
Let y_in := filter (fun i => in_rule (Ss i) (rules i) x) (seq 0 n).
Lemma y_in_spec i : In i y_in <-> has i.
Proof using. unfold y_in, has. rewrite filter_In, in_seq, in_rule_spec. split; intros [H1 H2]; (split; [lia|exact H2]). Qed.
Lemma cov_in_spec o : In o (map acc (filter (fun i => qleb min_cov (cov i)) y_in)) <->
  exists i, has i /\ (min_cov <= cov i)%Q /\ acc i = o.
Proof using.
  rewrite in_map_iff. split.
  - intros [i [<- H]]. apply filter_In in H. destruct H as [H1 H2]. apply y_in_spec in H1. apply qleb_true in H2. eauto.
  - intros [i [H1 [H2 <-]]]. exists i. split; [reflexivity|]. apply filter_In. split; [now apply y_in_spec|now apply qleb_true].
Qed.
Let go := rules_model better enough n rules cov acc Ss min_cov level x.
Lemma predict_raises : go = Raises <->
  (exists i, has i) /\ forall i, has i -> ~ (min_cov <= cov i)%Q.
Proof using.
  unfold go, rules_model. fold y_in. destruct y_in as [|i0 r] eqn:E.
  - split; [discriminate|]. intros [[i H] _]. apply y_in_spec in H. rewrite E in H. destruct H.
  - rewrite <- E. destruct (map acc _) as [|a l] eqn:F.
    + split; [|reflexivity]. intros _. split.
      * exists i0. apply y_in_spec. rewrite E. now left.
      * intros i Hi Hc. assert (K : In (acc i) (map acc (filter (fun i => qleb min_cov (cov i)) y_in))).
        { apply cov_in_spec. eauto. } rewrite F in K. destruct K.
    + split; [destruct (extreme better a l); [destruct (enough q level)|]; discriminate|].
      intros [_ H]. assert (K : In a (map acc (filter (fun i => qleb min_cov (cov i)) y_in))) by (rewrite F; now left).
      apply cov_in_spec in K. destruct K as [i [K1 [K2 _]]]. exfalso. now apply (H i).
Qed.
Lemma predict_answers i : go = Answers i ->
  has i /\ exists a, acc i = Some a /\ le level a /\
    (forall j, has j -> (min_cov <= cov j)%Q -> exists b, acc j = Some b /\ le b a) /\
    exists j b, has j /\ (min_cov <= cov j)%Q /\ acc j = Some b /\ (b == a)%Q.
Proof using Hb He le_refl le_trans.
  unfold go, rules_model. fold y_in. destruct y_in as [|i0 r] eqn:E; [discriminate|]. rewrite <- E.
  destruct (map acc _) as [|a l] eqn:F; [discriminate|].
  destruct (extreme better a l) as [m|] eqn:X; [|discriminate].
  destruct (enough m level) eqn:G; [|discriminate]. intro H. injection H as <-.
  apply He in G. destruct (extreme_spec better le Hb (fun a => le_refl a a (Qeq_refl a)) le_trans l a m X) as [X1 X2].
  assert (M : In (Some m) (map acc y_in)).
  { rewrite <- F in X2. apply in_map_iff in X2. destruct X2 as [j [J1 J2]]. apply filter_In in J2.
    rewrite <- J1. now apply in_map. }
  destruct (first_equal_spec m y_in acc i0 M) as [i [b [H1 [H2 [H3 H4]]]]]. rewrite H1.
  split; [now apply y_in_spec|]. exists b. split; [exact H3|].
  assert (Lb : le m b) by (apply le_refl; now rewrite H4).
  split; [eapply le_trans; eauto|]. split.
  - intros j Hj Hc. destruct (X1 (acc j)) as [q [Q1 Q2]]; [rewrite <- F; apply cov_in_spec; eauto|].
    exists q. split; [exact Q1|eapply le_trans; eauto].
  - rewrite <- F in X2. apply cov_in_spec in X2. destruct X2 as [j [J1 [J2 J3]]].
    exists j, m. split; [exact J1|]. split; [exact J2|]. split; [exact J3|now rewrite H4].
Qed.
Lemma predict_abstains : (forall i, has i -> acc i <> None) ->
  (go = Abstains <-> (forall i, ~ has i) \/
     (exists i, has i /\ (min_cov <= cov i)%Q) /\
     forall i a, has i -> (min_cov <= cov i)%Q -> acc i = Some a -> ~ le level a).
Proof using Hb He le_refl le_trans.
  intro Hacc. unfold go, rules_model. fold y_in. destruct y_in as [|i0 r] eqn:E.
  - split; [|reflexivity]. intros _. left. intros i H. apply y_in_spec in H. rewrite E in H. destruct H.
  - rewrite <- E. assert (H0 : has i0) by (apply y_in_spec; rewrite E; now left).
    destruct (map acc _) as [|a l] eqn:F.
    + split; [discriminate|]. intros [H|[[i [H1 H2]] _]]; [exfalso; now apply (H i0)|].
      assert (K : In (acc i) (map acc (filter (fun i => qleb min_cov (cov i)) y_in))) by (apply cov_in_spec; eauto).
      rewrite F in K. destruct K.
    + assert (D : extreme better a l <> None).
      { apply extreme_defined. intros o Ho. rewrite <- F in Ho. apply cov_in_spec in Ho.
        destruct Ho as [i [I1 [I2 <-]]]. auto. }
      destruct (extreme better a l) as [m|] eqn:X; [|congruence].
      destruct (extreme_spec better le Hb (fun a => le_refl a a (Qeq_refl a)) le_trans l a m X) as [X1 X2].
      rewrite <- F in X2. apply cov_in_spec in X2. destruct X2 as [j [J1 [J2 J3]]].
      destruct (enough m level) eqn:G.
      * split; [discriminate|]. apply He in G. intros [H|[_ H]]; [exfalso; now apply (H i0)|]. exfalso. now apply (H j m).
      * split; [|reflexivity]. intros _. right. split; [eauto|]. intros i b I1 I2 I3 L.
        destruct (X1 (acc i)) as [q [Q1 Q2]]; [rewrite <- F; apply cov_in_spec; eauto|].
        rewrite I3 in Q1. injection Q1 as <-. assert (T : enough m level = true) by (apply He; eapply le_trans; eauto). congruence.
Qed.
Lemma predict_nan i : has i -> (min_cov <= cov i)%Q -> acc i = None -> go = Abstains.
Proof using.
  intros Hi Hc Ha. unfold go, rules_model. fold y_in. destruct y_in as [|i0 r] eqn:E; [reflexivity|]. rewrite <- E.
  assert (K : In None (map acc (filter (fun i => qleb min_cov (cov i)) y_in))) by (apply cov_in_spec; eauto).
  destruct (map acc _) as [|a l]; [destruct K|]. now rewrite extreme_nan.
Qed.
End Predict.
Lemma max_ok b m : if (fun b m => qltb m b) b m then (m <= b)%Q else (b <= m)%Q.
Proof. cbn. destruct (qltb_spec m b); lra. Qed.
Lemma min_ok b m : if (fun b m => qltb b m) b m then (b <= m)%Q else (m <= b)%Q.
Proof. cbn. destruct (qltb_spec b m); lra. Qed.

(** ** Frequencies and distinct rules *)
Lemma flat_in d (a b : rule) p : In p (combine (flat d a) (flat d b)) ->
  exists k, k < d /\ (p = (lo a k, lo b k) \/ p = (hi a k, hi b k)).
Proof.
  unfold flat. assert (G : forall i n, In p (combine (flat_map (fun k => [lo a k; hi a k]) (seq i n))
      (flat_map (fun k => [lo b k; hi b k]) (seq i n))) -> exists k, i <= k < i + n /\ (p = (lo a k, lo b k) \/ p = (hi a k, hi b k))).
  { intros i n. revert i. induction n as [|n IH]; intro i; cbn; [tauto|]. intros [<-|[<-|H]].
    - exists i. split; [lia|auto].
    - exists i. split; [lia|auto].
    - destruct (IH _ H) as [k [H1 H2]]. exists k. split; [lia|auto]. }
  intro H. destruct (G _ _ H) as [k [H1 H2]]. exists k. split; [lia|exact H2].
Qed.
Lemma flat_in_conv d (a b : rule) k : k < d ->
  In (lo a k, lo b k) (combine (flat d a) (flat d b)) /\ In (hi a k, hi b k) (combine (flat d a) (flat d b)).
Proof.
  unfold flat. assert (G : forall i n, i <= k < i + n ->
      In (lo a k, lo b k) (combine (flat_map (fun k => [lo a k; hi a k]) (seq i n)) (flat_map (fun k => [lo b k; hi b k]) (seq i n))) /\
      In (hi a k, hi b k) (combine (flat_map (fun k => [lo a k; hi a k]) (seq i n)) (flat_map (fun k => [lo b k; hi b k]) (seq i n)))).
  { intros i n. revert i. induction n as [|n IH]; intros i H; [lia|]. cbn. destruct (Nat.eq_dec i k) as [->|N]; [tauto|].
    destruct (IH (S i) ltac:(lia)) as [H1 H2]. tauto. }
  intro H. apply G. lia.
Qed.
Lemma allclose_spec d a b : allclose d a b = true <-> forall k, k < d ->
  (Qabs (fst (a k) - fst (b k)) <= (1 # 100000000) + (1 # 100000) * Qabs (fst (b k)))%Q /\
  (Qabs (snd (a k) - snd (b k)) <= (1 # 100000000) + (1 # 100000) * Qabs (snd (b k)))%Q.
Proof.
  unfold allclose. rewrite forallb_forall. split.
  - intros H k Hk. destruct (flat_in_conv d a b k Hk) as [H1 H2]. apply H in H1. apply H in H2.
    cbn in H1, H2. apply qleb_true in H1. apply qleb_true in H2. auto.
  - intros H p Hp. apply flat_in in Hp. destruct Hp as [k [Hk [->| ->]]]; cbn; apply qleb_true; apply (H k Hk).
Qed.
Lemma same_close d a b : same_rule d a b -> allclose d a b = true.
Proof.
  intro H. apply allclose_spec. intros k Hk. destruct (H k Hk) as [H1 H2]. rewrite H1, H2.
  assert (Z : forall q, (Qabs (q - q) <= (1 # 100000000) + (1 # 100000) * Qabs q)%Q).
  { intro q. setoid_replace (q - q)%Q with 0%Q by ring. pose proof (Qabs_nonneg q). change (Qabs 0) with 0%Q. lra. }
  split; apply Z.
Qed.
Lemma frequency_bounds d n rules i : i < n -> (1 / Qn n <= rules_frequency d n rules i <= 1)%Q.
Proof.
  intro Hi. unfold rules_frequency. set (l := filter _ _).
  assert (P : (0 < Qn n)%Q) by (apply Qn_pos; lia).
  assert (L : 1 <= length l).
  { assert (I : In i l) by (apply filter_In; split; [apply in_seq; lia|apply same_close, same_rule_refl]).
    destruct l; [destruct I|cbn; lia]. }
  assert (U : length l <= n) by (unfold l; etransitivity; [apply filter_length_le|now rewrite seq_length]).
  split.
  - unfold Qdiv. apply Qmult_le_compat_r; [|apply Qlt_le_weak, Qinv_lt_0_compat, P].
    change 1%Q with (Qn 1). now apply Qn_le.
  - apply Qdiv_le_1; [apply Qn_nonneg|now apply Qn_le|exact P].
Qed.
Lemma frequency_exact d n rules i l : i < n ->
  (forall j, j < n -> allclose d (rules j) (rules i) = true -> same_rule d (rules j) (rules i)) ->
  NoDup l -> (forall j, In j l <-> j < n /\ same_rule d (rules j) (rules i)) ->
  (rules_frequency d n rules i == Qn (length l) / Qn n)%Q.
Proof.
  intros Hi Hs Hn Hl. unfold rules_frequency. rewrite (Permutation_length (l' := l)); [reflexivity|].
  apply NoDup_Permutation; [apply NoDup_filter, seq_NoDup|exact Hn|].
  intro j. rewrite filter_In, in_seq, Hl. split; intros [H1 H2]; (split; [lia|]); [apply Hs; [lia|exact H2]|now apply same_close].
Qed.
Lemma find_least (p : nat -> bool) n : forall i, (forall j, i <= j < i + n -> p j = false) \/
  exists j, i <= j < i + n /\ find p (seq i n) = Some j /\ p j = true /\ forall k, i <= k < j -> p k = false.
Proof.
  induction n as [|n IH]; intro i; [left; intros; lia|]. cbn. destruct (p i) eqn:E.
  - right. exists i. repeat split; auto; lia.
  - destruct (IH (S i)) as [H|[j [H1 [H2 [H3 H4]]]]].
    + left. intros j Hj. destruct (Nat.eq_dec j i) as [->|N]; [exact E|apply H; lia].
    + right. exists j. repeat split; auto; try lia. intros k Hk. destruct (Nat.eq_dec k i) as [->|N]; [exact E|apply H4; lia].
Qed.
Lemma unique_rules_spec {B} d n rules (outputs : nat -> B) u o : In (u, o) (unique_rules d n rules outputs) ->
  exists j, j < n /\ o = Some (outputs j) /\ allclose d u (rules j) = true /\
    (forall k, k < j -> allclose d u (rules k) = false) /\ exists i, i < n /\ u = rules i.
Proof.
  unfold unique_rules. intro H. apply in_map_iff in H. destruct H as [v [E H]]. injection E as -> <-.
  apply unique_in in H. apply in_map_iff in H. destruct H as [i [<- Hi]]. apply in_seq in Hi.
  destruct (find_least (fun j => allclose d (rules i) (rules j)) n 0) as [H|[j [H1 [H2 [H3 H4]]]]].
  - specialize (H i ltac:(lia)). rewrite (same_close d _ _ (same_rule_refl d _)) in H. discriminate.
  - exists j. rewrite H2. repeat split; auto; try lia; [intros k Hk; apply H4; lia|]. exists i. split; [lia|reflexivity].
Qed.
Lemma unique_rules_all {B} d n rules (outputs : nat -> B) i : i < n ->
  exists u o, In (u, o) (unique_rules d n rules outputs) /\ same_rule d (rules i) u.
Proof.
  intro Hi. destruct (unique_rule d (map rules (seq 0 n)) (rules i)) as [u [H1 H2]].
  { apply in_map, in_seq. lia. }
  eexists u, _. split; [|exact H2]. unfold unique_rules. apply in_map_iff. exists u. split; [reflexivity|exact H1].
Qed.

(** ** Counterfactual rules *)
Lemma fold_upd_spec (f : nat -> Q * Q) S c k :
  fold_left (fun c s => upd c s (f s)) S c k = if memb k S then f k else c k.
Proof.
  revert c. induction S as [|s r IH]; intro c; cbn [fold_left memb]; [reflexivity|].
  rewrite IH. destruct (memb k r) eqn:E.
  - assert (T : memb k (s :: r) = true) by (apply memb_true; right; now apply memb_true). now rewrite T.
  - destruct (Nat.eq_dec k s) as [->|N].
    + rewrite upd_same. assert (T : memb s (s :: r) = true) by (apply memb_true; now left). now rewrite T.
    + rewrite upd_other by exact N. assert (T : memb k (s :: r) = false).
      { apply memb_false. intros [H|H]; [congruence|]. apply memb_true in H. congruence. }
      now rewrite T.
Qed.
Lemma cond_local_spec S_star S_bar x leaf k :
  (In k S_star -> cond_local S_star S_bar x leaf k = leaf k) /\
  (~ In k S_star -> In k S_bar -> cond_local S_star S_bar x leaf k = (x k, x k)) /\
  (~ In k S_star -> ~ In k S_bar -> cond_local S_star S_bar x leaf k = ((- (10000000000 # 1))%Q, 10000000000 # 1)).
Proof.
  unfold cond_local. rewrite (fold_upd_spec leaf), (fold_upd_spec (fun s => (x s, x s))).
  repeat split; intros.
  - assert (T : memb k S_star = true) by now apply memb_true. now rewrite T.
  - assert (T : memb k S_star = false) by now apply memb_false. assert (U : memb k S_bar = true) by now apply memb_true.
    now rewrite T, U.
  - assert (T : memb k S_star = false) by now apply memb_false. assert (U : memb k S_bar = false) by now apply memb_false.
    now rewrite T, U.
Qed.
Lemma cond_regional_spec S_star cond_s leaf k :
  cond_regional S_star cond_s leaf k = if memb k S_star then leaf k else cond_s k.
Proof. unfold cond_regional. apply fold_upd_spec. Qed.
Lemma argmax_from_spec r : forall pre best m, best < length pre -> nth best pre 0%Q = m ->
  (forall j, j < length pre -> (nth j pre 0 <= m)%Q) ->
  let b := argmax_from r (length pre) best m in
  b < length (pre ++ r) /\ forall j, j < length (pre ++ r) -> (nth j (pre ++ r) 0 <= nth b (pre ++ r) 0)%Q.
Proof.
  induction r as [|a r IH]; intros pre best m Hb Hm Hle; cbn [argmax_from].
  - rewrite app_nil_r. split; [exact Hb|]. rewrite Hm. exact Hle.
  - assert (E : pre ++ a :: r = (pre ++ [a]) ++ r) by (rewrite <- app_assoc; reflexivity).
    assert (L : length (pre ++ [a]) = S (length pre)) by (rewrite app_length; cbn; lia).
    rewrite E, <- L. destruct (qltb_spec m a) as [H|H].
    + apply IH; [lia|rewrite app_nth2, Nat.sub_diag by lia; reflexivity|].
      intros j Hj. destruct (Nat.lt_ge_cases j (length pre)) as [J|J].
      * rewrite app_nth1 by exact J. specialize (Hle j J). lra.
      * assert (j = length pre) as -> by lia. rewrite app_nth2, Nat.sub_diag by lia. cbn. lra.
    + apply IH; [lia|rewrite app_nth1 by exact Hb; exact Hm|].
      intros j Hj. destruct (Nat.lt_ge_cases j (length pre)) as [J|J].
      * rewrite app_nth1 by exact J. auto.
      * assert (j = length pre) as -> by lia. rewrite app_nth2, Nat.sub_diag by lia. cbn. lra.
Qed.
Lemma argmax_spec l b : argmax l = Some b -> b < length l /\ forall j, j < length l -> (nth j l 0 <= nth b l 0)%Q.
Proof.
  destruct l as [|a r]; cbn [argmax]; [discriminate|]. intro H. injection H as <-.
  apply (argmax_from_spec r [a] 0 a); [cbn; lia|reflexivity|].
  intros j Hj. cbn in Hj. assert (j = 0) as -> by lia. cbn. lra.
Qed.
Lemma counterfactuals_spec {W} (est : rule -> Q * W) mk leaves pi : 
  (return_counterfactuals est mk leaves pi = None <-> leaves = []) /\
  forall out, return_counterfactuals est mk leaves pi = Some out ->
    (exists leaf, In leaf leaves /\ (pi <= fst (est (mk leaf)))%Q /\
       forall c p w, In (c, p, w) out <-> exists leaf, In leaf leaves /\ (pi <= fst (est (mk leaf)))%Q /\ c = mk leaf /\ (p, w) = est c) \/
    (exists leaf, In leaf leaves /\ (forall l, In l leaves -> (fst (est (mk l)) < pi)%Q /\ (fst (est (mk l)) <= fst (est (mk leaf)))%Q) /\
       out = [(mk leaf, fst (est (mk leaf)), snd (est (mk leaf)))]).
Proof.
  unfold return_counterfactuals. set (f := fun leaf => (mk leaf, fst (est (mk leaf)), snd (est (mk leaf)))).
  destruct (filter _ (map f leaves)) as [|a r] eqn:F.
  - assert (Hno : forall l, In l leaves -> (fst (est (mk l)) < pi)%Q).
    { intros l Hl. destruct (Qlt_le_dec (fst (est (mk l))) pi) as [|H]; [assumption|].
      assert (K : In (f l) (filter (fun p => qleb pi (snd (fst p))) (map f leaves))).
      { apply filter_In. split; [now apply in_map|now apply qleb_true]. }
      rewrite F in K. destruct K. }
    destruct (argmax (map (fun p => snd (fst p)) (map f leaves))) as [b|] eqn:A.
    + apply argmax_spec in A. destruct A as [A1 A2]. rewrite !map_length in A1, A2.
      rewrite map_map in A2. destruct (nth_error leaves b) as [leaf|] eqn:N; [|apply nth_error_None in N; lia].
      split.
      * split; [discriminate|]. intros ->. cbn in A1. lia.
      * intros out H. injection H as <-. right. exists leaf. split; [eapply nth_error_In; eauto|]. split; [|reflexivity].
        intros l Hl. split; [auto|]. apply In_nth_error in Hl. destruct Hl as [j J].
        assert (Jl : j < length leaves) by (apply nth_error_Some; congruence).
        assert (Nt : forall j, j < length leaves -> nth j (map (fun l => snd (fst (f l))) leaves) 0%Q = fst (est (mk (nth j leaves rule0)))).
        { intros i Hi. rewrite (nth_indep _ _ (snd (fst (f rule0)))) by (rewrite map_length; exact Hi).
          now rewrite (map_nth (fun l => snd (fst (f l)))). }
        specialize (A2 j Jl). rewrite !Nt in A2 by assumption.
        rewrite (nth_error_nth _ _ rule0 J), (nth_error_nth _ _ rule0 N) in A2. exact A2.
    + destruct leaves as [|l r]; [|cbn in A; discriminate]. split; [tauto|discriminate].
  - assert (K : In a (filter (fun p => qleb pi (snd (fst p))) (map f leaves))) by (rewrite F; now left).
    apply filter_In in K. destruct K as [K1 K2]. apply in_map_iff in K1. destruct K1 as [leaf [<- K1]]. apply qleb_true in K2.
    split; [split; [discriminate|intros ->; destruct K1]|].
    intros out H. injection H as <-. left. exists leaf. split; [exact K1|]. split; [exact K2|].
    intros c p w. rewrite <- F, filter_In, in_map_iff. split.
    + intros [[l [E Hl]] Hp]. unfold f in E. injection E as <- <- <-. apply qleb_true in Hp. exists l.
      repeat split; auto. now destruct (est (mk l)).
    + intros [l [Hl [Hp [-> E]]]]. split; [|cbn; apply qleb_true; rewrite <- E in Hp; exact Hp].
      exists l. split; [|exact Hl]. unfold f. now rewrite <- E.
Qed.
Lemma return_xy_spec N w ind i : In i (return_xy_cnt N w ind) -> i < N /\ ind i = true.
Proof.
  unfold return_xy_cnt. destruct (filter _ (seq 0 N)) as [|a r] eqn:E.
  - intro H. assert (K : In i (filter ind (seq 0 N))).
    { rewrite <- (firstn_skipn 10 (filter ind (seq 0 N))). apply in_or_app. now left. }
    apply filter_In in K. destruct K as [K1 K2]. apply in_seq in K1. split; [lia|exact K2].
  - intro H. rewrite <- E in H. apply filter_In in H. destruct H as [K1 K2]. apply in_seq in K1. apply andb_prop in K2. split; [lia|tauto].
Qed.
Lemma return_xy_exact N w ind j : j < N -> ~ (w j == 0)%Q -> ind j = true ->
  forall i, In i (return_xy_cnt N w ind) <-> i < N /\ ~ (w i == 0)%Q /\ ind i = true.
Proof.
  intros Hj Hw Hi i. unfold return_xy_cnt. set (p := fun i => negb (qeqb (w i) 0) && ind i).
  assert (Hp : forall i, p i = true <-> ~ (w i == 0)%Q /\ ind i = true).
  { intro k. unfold p. destruct (qeqb_spec (w k) 0); cbn; intuition discriminate. }
  assert (K : forall i, In i (filter p (seq 0 N)) <-> i < N /\ ~ (w i == 0)%Q /\ ind i = true).
  { intro k. rewrite filter_In, in_seq, Hp. intuition lia. }
  destruct (filter p (seq 0 N)) as [|a r] eqn:E; [|apply K].
  assert (F : In j (@nil nat)) by (apply K; auto). destruct F.
Qed.
Lemma return_xy_some N w ind j : j < N -> ind j = true -> return_xy_cnt N w ind <> [].
Proof.
  intros Hj Hi. unfold return_xy_cnt. destruct (filter _ (seq 0 N)) eqn:E; [|discriminate].
  destruct (filter ind (seq 0 N)) as [|a r] eqn:F; [|cbn; discriminate].
  assert (K : In j (filter ind (seq 0 N))) by (apply filter_In; split; [apply in_seq; lia|exact Hi]).
  rewrite F in K. destruct K.
Qed.

(** ** Rounding and compatible leaves *)
Lemma rint_near q : (Qabs (inject_Z (rint q) - q) <= 1 # 2)%Q.
Proof.
  unfold rint. pose proof (Qfloor_le q) as H1. pose proof (Qlt_floor q) as H2. rewrite inject_Z_plus in H2.
  change (inject_Z 1) with 1%Q in H2. apply Qabs_Qle_condition.
  destruct (qltb_spec (q - inject_Z (Qfloor q)) (1 # 2)); [lra|].
  destruct (qltb_spec (1 # 2) (q - inject_Z (Qfloor q))).
  - rewrite inject_Z_plus. change (inject_Z 1) with 1%Q. lra.
  - destruct (Z.even (Qfloor q)); [lra|]. rewrite inject_Z_plus. change (inject_Z 1) with 1%Q. lra.
Qed.
Lemma round2_near q : (Qabs (round2 q - q) <= 1 # 200)%Q.
Proof.
  unfold round2. pose proof (rint_near (q * 100)) as H. apply Qabs_Qle_condition in H. apply Qabs_Qle_condition.
  setoid_replace (inject_Z (rint (q * 100)) / 100)%Q with (inject_Z (rint (q * 100)) * (1 # 100))%Q by (unfold Qdiv; reflexivity). lra.
Qed.
Lemma round_near r : near (1 # 200) (round_rule r) r.
Proof. intro k. unfold round_rule, lo, hi. cbn. split; apply round2_near. Qed.
Lemma leaf_acc_spec d N data ind r : (forall a, leaf_acc d N data ind r = Some a -> accuracy d N data ind r a) /\
  (leaf_acc d N data ind r = None <-> forall i, i < N -> ~ inside d r (data i)).
Proof.
  unfold leaf_acc. set (l := filter _ (seq 0 N)).
  assert (K : forall i, In i l <-> i < N /\ inside d r (data i)).
  { intro i. unfold l. rewrite filter_In, in_seq, in_rule_spec, covered_inside. intuition lia. }
  split.
  - intros a H. exists l. assert (Hn : l <> []) by (intro E; rewrite E in H; discriminate).
    split; [exact Hn|]. split; [apply NoDup_filter, seq_NoDup|]. split; [exact K|].
    destruct (mean_share ind l Hn) as [q [E Hq]]. rewrite E in H. now injection H as <-.
  - rewrite mean_none. split.
    + intros H i Hi Hin. assert (I : In i l) by (apply K; auto). destruct l; [destruct I|discriminate].
    + intro H. destruct l as [|i r']; [reflexivity|]. exfalso. destruct (K i) as [K1 _]. destruct (K1 ltac:(now left)). now apply (H i).
Qed.
Lemma accuracy_unique d N data ind r a b : accuracy d N data ind r a -> accuracy d N data ind r b -> (a == b)%Q.
Proof.
  intros [l [_ [H1 [H2 H3]]]] [l' [_ [K1 [K2 K3]]]]. rewrite H3, K3. apply share_perm.
  apply NoDup_Permutation; auto. intro i. now rewrite H2, K2.
Qed.
Lemma accuracy_bounds d N data ind r a : accuracy d N data ind r a -> (0 <= a <= 1)%Q.
Proof. intros [l [_ [_ [_ E]]]]. rewrite E. apply share_bounds. Qed.
Lemma leaf_acc_complete d N data ind r a : accuracy d N data ind r a -> exists b, leaf_acc d N data ind r = Some b /\ (b == a)%Q.
Proof.
  intro H. destruct (leaf_acc_spec d N data ind r) as [H1 H2]. destruct (leaf_acc d N data ind r) as [b|].
  - exists b. split; [reflexivity|]. eapply accuracy_unique; eauto.
  - destruct H as [l [Hn [_ [Hl _]]]]. destruct l as [|i l]; [congruence|]. destruct (Hl i) as [Hi _]. destruct (Hi ltac:(now left)).
    exfalso. now apply (proj1 H2 eq_refl i).
Qed.
Lemma nan_argmax_from_spec r : forall pre best m, best < length pre -> nth best pre None = Some m ->
  (forall j, j < length pre -> exists a, nth j pre None = Some a /\ (a <= m)%Q) ->
  (forall o, In o r -> o <> None) ->
  let b := nan_argmax_from r (length pre) best m in
  b < length (pre ++ r) /\ exists v, nth b (pre ++ r) None = Some v /\
    forall j, j < length (pre ++ r) -> exists a, nth j (pre ++ r) None = Some a /\ (a <= v)%Q.
Proof.
  induction r as [|a r IH]; intros pre best m Hb Hm Hle Hn; cbn [nan_argmax_from].
  - rewrite app_nil_r. split; [exact Hb|]. exists m. split; [exact Hm|exact Hle].
  - destruct a as [a|]; [|exfalso; apply (Hn None); [now left|reflexivity]].
    assert (E : pre ++ Some a :: r = (pre ++ [Some a]) ++ r) by (rewrite <- app_assoc; reflexivity).
    assert (L : length (pre ++ [Some a]) = S (length pre)) by (rewrite app_length; cbn; lia).
    rewrite E, <- L. assert (Hn' : forall o, In o r -> o <> None) by (intros; apply Hn; now right).
    destruct (qltb_spec m a) as [H|H].
    + apply IH; [lia|rewrite app_nth2, Nat.sub_diag by lia; reflexivity| |exact Hn'].
      intros j Hj. destruct (Nat.lt_ge_cases j (length pre)) as [J|J].
      * rewrite app_nth1 by exact J. destruct (Hle j J) as [q [Q1 Q2]]. exists q. split; [exact Q1|lra].
      * assert (j = length pre) as -> by lia. rewrite app_nth2, Nat.sub_diag by lia. exists a. split; [reflexivity|lra].
    + apply IH; [lia|rewrite app_nth1 by exact Hb; exact Hm| |exact Hn'].
      intros j Hj. destruct (Nat.lt_ge_cases j (length pre)) as [J|J].
      * rewrite app_nth1 by exact J. auto.
      * assert (j = length pre) as -> by lia. rewrite app_nth2, Nat.sub_diag by lia. exists a. split; [reflexivity|lra].
Qed.
Lemma nan_argmax_spec l b : nan_argmax l = Some b -> (forall o, In o l -> o <> None) ->
  b < length l /\ exists v, nth b l None = Some v /\ forall j, j < length l -> exists a, nth j l None = Some a /\ (a <= v)%Q.
Proof.
  destruct l as [|[a|] r]; cbn [nan_argmax]; [discriminate| |].
  - intros H Hn. injection H as <-. apply (nan_argmax_from_spec r [Some a] 0 a); [cbn; lia|reflexivity| |].
    + intros j Hj. cbn in Hj. assert (j = 0) as -> by lia. exists a. split; [reflexivity|lra].
    + intros; apply Hn; now right.
  - intros _ Hn. exfalso. apply (Hn None); [now left|reflexivity].
Qed.
Lemma nan_argmax_lt l b : nan_argmax l = Some b -> b < length l.
Proof.
  assert (G : forall r i best m, best < i -> nan_argmax_from r i best m < i + length r).
  { induction r as [|[a|] r IH]; intros i best m H; cbn; [lia| |lia].
    destruct (qltb m a); [specialize (IH (S i) i a)|specialize (IH (S i) best m)]; lia. }
  destruct l as [|[a|] r]; cbn; [discriminate| |]; intro H; injection H as <-; [|lia].
  specialize (G r 1 0 a). lia.
Qed.
Lemma compatible_none d N data ind level leaves : get_compatible_leaf d N data ind level leaves = None <-> leaves = [].
Proof.
  unfold get_compatible_leaf. set (l0 := unique (rule_cmp d) leaves). split.
  - intro H. destruct leaves as [|a r]; [reflexivity|]. exfalso.
    destruct (unique_rule d (a :: r) a ltac:(now left)) as [b [B1 _]]. fold l0 in B1.
    apply In_nth with (d := rule0) in B1. destruct B1 as [i [I1 _]].
    destruct (remove_in_covers d (length l0) (fun i => nth i l0 rule0) i I1) as [q [Q1 _]].
    destruct (remove_in d (length l0) (fun i => nth i l0 rule0)) as [|c t]; [destruct Q1|]. cbn [map] in H.
    destruct (leaf_acc d N data ind (round_rule c)); cbn in H; discriminate.
  - intros ->. reflexivity.
Qed.
Lemma compatible_spec d N data ind level leaves out :
  get_compatible_leaf d N data ind level leaves = Some out ->
  exists parts, 
    (forall p, In p parts -> exists leaf, In leaf leaves /\ near (1 # 200) p leaf) /\
    (forall leaf, In leaf leaves -> exists p, In p parts /\ forall k, k < d ->
       (fst (p k) <= fst (leaf k) + (1 # 200))%Q /\ (snd (leaf k) - (1 # 200) <= snd (p k))%Q) /\
    ((out <> [] /\ forall r, In r out <-> In r parts /\ exists a, accuracy d N data ind r a /\ (level <= a)%Q) \/
     ((forall r a, In r parts -> accuracy d N data ind r a -> (a < level)%Q) /\
      exists r, out = [r] /\ In r parts /\
        ((forall p, In p parts -> exists i, i < N /\ inside d p (data i)) ->
         exists a, accuracy d N data ind r a /\ forall p b, In p parts -> accuracy d N data ind p b -> (b <= a)%Q))).
Proof.
  unfold get_compatible_leaf. set (l0 := unique (rule_cmp d) leaves).
  set (rem := remove_in d (length l0) (fun i => nth i l0 rule0)). set (parts := map round_rule rem).
  destruct (nan_argmax _) as [b|] eqn:A; [|discriminate]. intro H. injection H as <-. exists parts.
  split; [|split].
  - intros p Hp. unfold parts in Hp. apply in_map_iff in Hp. destruct Hp as [r [<- Hr]].
    apply remove_in_members in Hr. destruct Hr as [i [Hi ->]]. exists (nth i l0 rule0). split; [|apply round_near].
    apply (unique_in (rule_cmp d)). fold l0. now apply nth_In.
  - intros leaf Hl. destruct (unique_rule d leaves leaf Hl) as [u [U1 U2]]. fold l0 in U1.
    apply In_nth with (d := rule0) in U1. destruct U1 as [i [I1 I2]].
    destruct (remove_in_covers d (length l0) (fun i => nth i l0 rule0) i I1) as [q [Q1 Q2]]. cbn beta in Q2. rewrite I2 in Q2.
    exists (round_rule q). split; [now apply in_map|]. intros k Hk. specialize (Q2 k Hk). specialize (U2 k Hk).
    destruct (round_near q k) as [R1 R2]. apply Qabs_Qle_condition in R1. apply Qabs_Qle_condition in R2. lra.
  - set (suf := filter _ parts).
    assert (Hs : forall r, In r suf <-> In r parts /\ exists a, accuracy d N data ind r a /\ (level <= a)%Q).
    { intro r. unfold suf. rewrite filter_In. split; intros [H1 H2]; (split; [exact H1|]).
      - destruct (leaf_acc d N data ind r) as [a|] eqn:E; [|discriminate]. apply qleb_true in H2. exists a. split; [|exact H2].
        now apply (leaf_acc_spec d N data ind r).
      - destruct H2 as [a [Ha La]]. destruct (leaf_acc_complete _ _ _ _ _ _ Ha) as [c [-> Hc]]. apply qleb_true. lra. }
    destruct suf as [|s rest] eqn:E; [right|left; split; [discriminate|exact Hs]].
    pose proof (nan_argmax_lt _ _ A) as Lb. rewrite map_length in Lb.
    split.
    + intros r a Hr Ha. destruct (Qlt_le_dec a level) as [|L]; [assumption|]. exfalso. apply (proj2 (Hs r)). eauto.
    + exists (nth b parts rule0). split; [reflexivity|]. split; [now apply nth_In|]. intro Hin.
      assert (Hd : forall o, In o (map (leaf_acc d N data ind) parts) -> o <> None).
      { intros o Ho. apply in_map_iff in Ho. destruct Ho as [p [<- Hp]]. intro K. destruct (Hin p Hp) as [i [I1 I2]].
        now apply (proj1 (proj2 (leaf_acc_spec d N data ind p)) K i). }
      destruct (nan_argmax_spec _ _ A Hd) as [_ [v [V1 V2]]].
      assert (Nth : forall j, j < length parts -> nth j (map (leaf_acc d N data ind) parts) None = leaf_acc d N data ind (nth j parts rule0)).
      { intros j Hj. rewrite (nth_indep _ _ (leaf_acc d N data ind rule0)) by (rewrite map_length; exact Hj). apply map_nth. }
      rewrite Nth in V1 by exact Lb. exists v. split; [now apply (leaf_acc_spec d N data ind)|].
      intros p c Hp Hc. apply In_nth with (d := rule0) in Hp. destruct Hp as [j [J1 J2]].
      destruct (V2 j) as [a [A1 A2]]; [now rewrite map_length|]. subst p. rewrite (Nth j J1) in A1.
      destruct (leaf_acc_complete _ _ _ _ _ _ Hc) as [c' [C1 C2]].
      assert (Ec : Some a = Some c') by (rewrite <- A1, <- C1; reflexivity). injection Ec as <-. lra.
Qed.

(** ** Statements as used in the properties *)
Lemma metrics_coverage data y N Sv r l c : lists_covered N data Sv r l -> Sv <> [] -> 0 < N ->
  (m_cov (rule_metrics c data y N Sv r) == Qn (length l) / Qn N)%Q /\
  (0 <= m_cov (rule_metrics c data y N Sv r) <= 1)%Q.
Proof.
  intros Hl Hs HN. pose proof (metrics_cov data y N Sv r l Hl c Hs) as E. split; [exact E|]. rewrite E.
  apply (cov_bounds data N Sv r l Hl). now right.
Qed.
Lemma metrics_accuracy data y N Sv r l : lists_covered N data Sv r l ->
  (l <> [] -> exists o a, m_out (rule_metrics true data y N Sv r) = Some o /\
     m_acc (rule_metrics true data y N Sv r) = Some a /\ (o = 0%Q \/ o = 1%Q) /\
     (a == share (fun i => qeqb (y i) o) l)%Q /\ (0 <= a <= 1)%Q) /\
  (l = [] -> m_acc (rule_metrics true data y N Sv r) = None).
Proof.
  intro Hl. split.
  - intro Hn. destruct (metrics_clf data y N Sv r l Hl Hn) as [o [a [H1 [H2 [H3 [_ H5]]]]]]. exists o, a.
    repeat split; auto; rewrite H5; apply share_bounds.
  - intro E. now apply (metrics_nan data y N Sv r l Hl true).
Qed.
Lemma metrics_majority data y N Sv r l : lists_covered N data Sv r l -> l <> [] ->
  (forall i, In i l -> (y i == 0)%Q \/ (y i == 1)%Q) ->
  exists o, m_out (rule_metrics true data y N Sv r) = Some o /\
    forall v, (share (fun i => qeqb (y i) v) l <= share (fun i => qeqb (y i) o) l)%Q.
Proof.
  intros Hl Hn H01. destruct (metrics_clf data y N Sv r l Hl Hn) as [o [a [H1 [H2 [H3 [H4 H5]]]]]]. exists o.
  split; [exact H1|]. intro v. now apply majority.
Qed.
Lemma metrics_regression data y N Sv r l : lists_covered N data Sv r l -> l <> [] ->
  exists o a v, m_out (rule_metrics false data y N Sv r) = Some o /\
    m_acc (rule_metrics false data y N Sv r) = Some a /\ m_var (rule_metrics false data y N Sv r) = Some v /\
    (o == sumf y l / Qn (length l))%Q /\ (a == mse y l o)%Q /\ (v == a)%Q /\ (0 <= a)%Q /\
    forall c, (mse y l o <= mse y l c)%Q.
Proof.
  intros Hl Hn. destruct (metrics_reg data y N Sv r l Hl Hn) as [o [a [v [H1 [H2 [H3 [H4 [H5 H6]]]]]]]].
  exists o, a, v. repeat split; auto.
  - rewrite H5. apply mse_nonneg.
  - intro c. now apply mean_best.
Qed.
Lemma Qle_of_eq a b : (a == b)%Q -> (a <= b)%Q. Proof. lra. Qed.
Lemma Qge_of_eq a b : (a == b)%Q -> (b <= a)%Q. Proof. lra. Qed.
Section Predictors.
Variables (n : nat) (rules : nat -> rule) (cov : nat -> Q) (acc : nat -> option Q) (Ss : nat -> list nat)
          (min_cov level : Q) (x : pt).
Let has i := i < n /\ covered (Ss i) (rules i) x.
Lemma enough_max m lv : (fun m level => qleb level m) m lv = true <-> (lv <= m)%Q. Proof using. apply qleb_true. Qed.
Lemma enough_min m lv : (fun m level => qleb m level) m lv = true <-> (m <= lv)%Q. Proof using. apply qleb_true. Qed.
Lemma clf_answers i : global_rules_model n rules cov acc Ss min_cov level x = Answers i ->
  has i /\ exists a, acc i = Some a /\ (level <= a)%Q /\
    (forall j, has j -> (min_cov <= cov j)%Q -> exists b, acc j = Some b /\ (b <= a)%Q) /\
    exists j b, has j /\ (min_cov <= cov j)%Q /\ acc j = Some b /\ (b == a)%Q.
Proof using.
  exact (predict_answers _ _ Qle max_ok enough_max Qle_of_eq Qle_trans n rules cov acc Ss min_cov level x i).
Qed.
Lemma clf_coverage i :
  (forall j k a b, has j -> has k -> acc j = Some a -> acc k = Some b -> (a == b)%Q -> j = k) ->
  global_rules_model n rules cov acc Ss min_cov level x = Answers i -> (min_cov <= cov i)%Q.
Proof using.
  intros Hd H. apply clf_answers in H. destruct H as [Hi [a [Ha [_ [_ [j [b [Hj [Hc [Hb E]]]]]]]]]].
  now rewrite (Hd i j a b Hi Hj Ha Hb (Qeq_sym _ _ E)).
Qed.
Lemma clf_raises : global_rules_model n rules cov acc Ss min_cov level x = Raises <->
  (exists i, has i) /\ forall i, has i -> ~ (min_cov <= cov i)%Q.
Proof using. exact (predict_raises _ _ n rules cov acc Ss min_cov level x). Qed.
Lemma clf_abstains : (forall i, has i -> acc i <> None) ->
  (global_rules_model n rules cov acc Ss min_cov level x = Abstains <-> (forall i, ~ has i) \/
     (exists i, has i /\ (min_cov <= cov i)%Q) /\
     forall i a, has i -> (min_cov <= cov i)%Q -> acc i = Some a -> ~ (level <= a)%Q).
Proof using.
  exact (predict_abstains _ _ Qle max_ok enough_max Qle_of_eq Qle_trans n rules cov acc Ss min_cov level x).
Qed.
Lemma clf_nan i : has i -> (min_cov <= cov i)%Q -> acc i = None ->
  global_rules_model n rules cov acc Ss min_cov level x = Abstains.
Proof using. exact (predict_nan _ _ n rules cov acc Ss min_cov level x i). Qed.
Lemma reg_predict :
  (forall i, global_rules_model_reg n rules cov acc Ss min_cov level x = Answers i ->
     has i /\ exists a, acc i = Some a /\ (a <= level)%Q /\
       (forall j, has j -> (min_cov <= cov j)%Q -> exists b, acc j = Some b /\ (a <= b)%Q) /\
       exists j b, has j /\ (min_cov <= cov j)%Q /\ acc j = Some b /\ (b == a)%Q) /\
  (global_rules_model_reg n rules cov acc Ss min_cov level x = Raises <->
     (exists i, has i) /\ forall i, has i -> ~ (min_cov <= cov i)%Q) /\
  ((forall i, has i -> acc i <> None) ->
   (global_rules_model_reg n rules cov acc Ss min_cov level x = Abstains <->
    (forall i, ~ has i) \/ (exists i, has i /\ (min_cov <= cov i)%Q) /\
    forall i a, has i -> (min_cov <= cov i)%Q -> acc i = Some a -> ~ (a <= level)%Q)).
Proof using.
  assert (T : forall a b c, (b <= a -> c <= b -> c <= a)%Q) by (intros; lra).
  split; [|split].
  - intro i. exact (predict_answers _ _ (fun a b => b <= a)%Q min_ok enough_min Qge_of_eq T n rules cov acc Ss min_cov level x i).
  - exact (predict_raises _ _ n rules cov acc Ss min_cov level x).
  - exact (predict_abstains _ _ (fun a b => b <= a)%Q min_ok enough_min Qge_of_eq T n rules cov acc Ss min_cov level x).
Qed.
End Predictors.
Lemma compatible_all d N data ind level leaves :
  (get_compatible_leaf d N data ind level leaves = None <-> leaves = []) /\
  forall out, get_compatible_leaf d N data ind level leaves = Some out ->
  exists parts, 
    (forall p, In p parts -> exists leaf, In leaf leaves /\ near (1 # 200) p leaf) /\
    (forall leaf, In leaf leaves -> exists p, In p parts /\ forall k, k < d ->
       (fst (p k) <= fst (leaf k) + (1 # 200))%Q /\ (snd (leaf k) - (1 # 200) <= snd (p k))%Q) /\
    ((out <> [] /\ forall r, In r out <-> In r parts /\ exists a, accuracy d N data ind r a /\ (level <= a)%Q) \/
     ((forall r a, In r parts -> accuracy d N data ind r a -> (a < level)%Q) /\
      exists r, out = [r] /\ In r parts /\
        ((forall p, In p parts -> exists i, i < N /\ inside d p (data i)) ->
         exists a, accuracy d N data ind r a /\ forall p b, In p parts -> accuracy d N data ind p b -> (b <= a)%Q))).
Proof. split; [apply compatible_none|]. intro out. apply compatible_spec. Qed.
Lemma unique_rules_all_spec (B : Type) d n rules (outputs : nat -> B) :
  (forall i, i < n -> exists u o, In (u, o) (unique_rules d n rules outputs) /\ same_rule d (rules i) u) /\
  forall u o, In (u, o) (unique_rules d n rules outputs) ->
  exists j, j < n /\ o = Some (outputs j) /\ allclose d u (rules j) = true /\
    (forall k, k < j -> allclose d u (rules k) = false) /\ exists i, i < n /\ u = rules i.
Proof. split; [intros; now apply unique_rules_all|apply unique_rules_spec]. Qed.

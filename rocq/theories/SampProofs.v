(** Proofs about the sampling methods after the counterfactual sessions. *)
From Coq Require Import Qround.
From Verif Require Import Base QuantSpec RfModel RulesModel RulesSpec RulesProofs RulesModelProofs AnnealSpec SkModel ApiModel ApiSpec AgnSpec AxsModel CrSpec CrProofs CrsModel CrsSpec CrsProofs CrsProofs2 SampModel SampSpec.
From Verif Require CrModel AgnModel AxsProofs.
Local Open Scope nat_scope.

(** ** Rounded leaves keep the order of their bounds *)
Lemma rint_mono a b : (a <= b)%Q -> (rint a <= rint b)%Z.
Proof.
  intro H. pose proof (Qfloor_resp_le _ _ H) as F. unfold rint.
  pose proof (Qfloor_le a) as A1. pose proof (Qlt_floor a) as A2. pose proof (Qfloor_le b) as B1. pose proof (Qlt_floor b) as B2.
  destruct (Z.eq_dec (Qfloor a) (Qfloor b)) as [E|E].
  - rewrite <- E in *. destruct (qltb_spec (a - inject_Z (Qfloor a)) (1 # 2)), (qltb_spec (b - inject_Z (Qfloor a)) (1 # 2)),
      (qltb_spec (1 # 2) (a - inject_Z (Qfloor a))), (qltb_spec (1 # 2) (b - inject_Z (Qfloor a))), (Z.even (Qfloor a)); (lia || (exfalso; lra)).
  - destruct (qltb_spec (a - inject_Z (Qfloor a)) (1 # 2)), (qltb_spec (1 # 2) (a - inject_Z (Qfloor a))), (Z.even (Qfloor a)),
      (qltb_spec (b - inject_Z (Qfloor b)) (1 # 2)), (qltb_spec (1 # 2) (b - inject_Z (Qfloor b))), (Z.even (Qfloor b)); lia.
Qed.
Lemma round2_mono a b : (a <= b)%Q -> (round2 a <= round2 b)%Q.
Proof.
  intro H. unfold round2. assert (K : (inject_Z (rint (a * 100)) <= inject_Z (rint (b * 100)))%Q) by (rewrite <- Zle_Qle; apply rint_mono; lra).
  unfold Qdiv. apply Qmult_le_compat_r; [exact K|discriminate].
Qed.
Lemma compatible_rounded d N data ind acc leaves suf leaf : get_compatible_leaf d N data ind acc leaves = Some suf -> In leaf suf ->
  exists leaf0, In leaf0 leaves /\ leaf = round_rule leaf0.
Proof.
  unfold get_compatible_leaf. set (l0 := unique (rule_cmp d) leaves). set (parts := map round_rule (remove_in d (length l0) (fun i => nth i l0 rule0))).
  assert (P : forall p, In p parts -> exists leaf0, In leaf0 leaves /\ p = round_rule leaf0).
  { intros p Hp. unfold parts in Hp. apply in_map_iff in Hp. destruct Hp as (r & <- & Hr). apply remove_in_members in Hr. destruct Hr as (i & Hi & ->).
    exists (nth i l0 rule0). split; [|reflexivity]. apply (unique_in (rule_cmp d)). fold l0. now apply nth_In. }
  destruct (nan_argmax (map (leaf_acc d N data ind) parts)) as [b|] eqn:A; [|discriminate]. intros H Hin. injection H as <-.
  assert (Hb : b < length parts) by (apply nan_argmax_lt in A; now rewrite map_length in A).
  destruct (filter _ parts) as [|s l] eqn:F.
  - destruct Hin as [<-|[]]. apply P. now apply nth_In.
  - rewrite <- F in Hin. apply filter_In in Hin. apply P, Hin.
Qed.

(** ** The rules of a session have ordered bounds *)
Section Proper.
Variables (d w : nat) (es : list sk) (Ts : list rtree) (stray : RfModel.row) (classifier : bool) (q : pt -> Q * Q) (argsort : list Q -> list nat) (D : list pt) (Y : list Q).
Context {G : Type}.
Variables (rand : G -> Q * G) (randint : nat -> G -> nat * G) (exp : Q -> Q) (lg : nat -> Q).
Hypothesis HT : trained d w es Ts D Y.
Hypothesis Hs : sorting argsort.
Variables (sched_l : nat -> list nat) (sched_c : list nat).
Hypothesis Hl : forall n, 0 < n -> complete (S (length Ts)) n (sched_l n).
Hypothesis Hc : complete (S (length Ts)) 1 sched_c.
Lemma run_proper mk x yt dn up Sb wt acc pi h gs out c p v :
  counterfactual_rules rand randint exp lg d es stray classifier q argsort D Y mk x yt dn up Sb wt acc pi h sched_l sched_c gs = Gives out -> In (c, p, v) out ->
  trusted d stray classifier yt dn up Ts D Y -> exists leaf, c = mk leaf /\ forall k, k < d -> (fst (leaf k) <= snd (leaf k))%Q.
Proof.
  intros H Hin (B1 & B2 & B3). apply (run_obs d w es Ts stray classifier q argsort D Y rand randint exp lg HT _ _ _ _ _ _ _ _ _ _ _ _ _ Hc) in H. destruct H as (L & EL & Eo).
  eapply obs_sound in Eo; [|exact Hin]. destruct Eo as (suf & leaf & _ & S1 & S2 & _ & _ & S5 & _). exists leaf. split; [exact S5|].
  destruct (compatible_rounded _ _ _ _ _ _ _ _ S1 S2) as (leaf0 & K1 & ->).
  destruct (leaves_sound d w es Ts stray classifier q argsort D Y rand randint exp lg HT Hs yt dn up wt pi h sched_l gs Hl L leaf0 EL K1) as (j & (J1 & _) & J2).
  destruct (J2 B1 B2) as [J3 _]. pose proof HT as (_ & _ & _ & A4 & _). rewrite <- A4 in J1. specialize (J3 _ (B3 j J1) (fun T _ => eq_refl)).
  intros k Hk. unfold round_rule. cbn [fst snd]. apply round2_mono. destruct (J3 k Hk). unfold lo, hi. lra.
Qed.
End Proper.
Lemma trusted_ext d stray classifier yt dn up dn' up' Ts D Y : (forall v, agrees classifier yt dn up v = agrees classifier yt dn' up' v) ->
  trusted d stray classifier yt dn up Ts D Y -> trusted d stray classifier yt dn' up' Ts D Y.
Proof. intros E (B1 & B2 & B3). split; [exact B1|]. split; [|exact B3]. intros j T J1 J2. rewrite <- E in J2. now apply B2. Qed.

(** ** What the methods read *)
Lemma stored_in outs i c p : In (c, p) (stored outs i) <-> exists v, In (c, p, v) (nth i outs []).
Proof.
  unfold stored. rewrite in_map_iff. split.
  - intros ([[c' p'] v] & E & H). cbn in E. injection E as <- <-. now exists v.
  - intros (v & H). exists (c, p, v). now split.
Qed.
Lemma stored_most outs i c : most_probable (stored outs i) c <-> likeliest (nth i outs []) c.
Proof.
  split.
  - intros (p & H1 & H2). apply stored_in in H1. destruct H1 as (v & H1). exists p, v. split; [exact H1|]. intros c' p' v' H. apply (H2 c' p'). apply stored_in. now exists v'.
  - intros (p & v & H1 & H2). exists p. split; [apply stored_in; now exists v|]. intros c' p' H. apply stored_in in H. destruct H as (v' & H). exact (H2 c' p' v' H).
Qed.
Lemma with_stored n outs : with_rules n (stored outs) = answered n outs.
Proof. unfold with_rules, answered. apply filter_ext. intro i. unfold stored. destruct (nth i outs []); reflexivity. Qed.

Section Methods.
Context {G : Type}.
Variables (rand : G -> Q * G) (randint : nat -> G -> nat * G) (exp : Q -> Q) (lg : nat -> Q) (temp : Q) (classifier : bool) (predict : pt -> Q)
  (model : option (pt -> Q)) (D : list pt).
Hypothesis Hr : forall n g, 0 < n -> fst (randint n g) < n.
Variables (star : list (list nat)) (outs : list (list (rule * Q * (nat -> Q)))).

Section LocalSamples.
Variables (score : pt -> Q) (X : list pt) (down up : option (list Q)) (batch max_iter : nat) (gs : nat -> G).
Notation n := (length X).
Hypothesis L1 : length star = n.
Hypothesis L2 : length outs = n.
Hypothesis Hdn : fits n down.
Hypothesis Hup : fits n up.
Hypothesis HX : X <> [].
Notation run := (run_sampling_local rand randint exp lg temp classifier predict model D star outs score X down up batch max_iter gs).
Notation plain := (CrModel.sample_local rand randint exp lg temp classifier predict model score (length D) (rows_of D) batch max_iter
         n (rows_of X) (fun i => nth i star []) (stored outs) (fun i => nth i (given n down) 0%Q) (fun i => nth i (given n up) 0%Q) gs).
Lemma given_nth o i : fits n o -> i < n -> nth i (given n o) 0%Q = entry o i.
Proof. intros Hf Hi. rewrite (given_entries n o Hf). now apply entries_nth. Qed.
Lemma given_len o : fits n o -> length (given n o) = n.
Proof. intro Hf. rewrite (given_entries n o Hf). apply entries_length. Qed.
Lemma local_reads : run = drawn_or_raises plain.
Proof.
  unfold run_sampling_local. cbv zeta. destruct (Nat.eqb_spec n 0) as [E|_]; [destruct X; [congruence|discriminate]|].
  rewrite (proj2 (forallb_forall _ _)); [reflexivity|]. intros i Hi. apply in_seq in Hi. unfold bounds_read. rewrite !given_len by assumption. rewrite L1, L2.
  rewrite (proj2 (Nat.ltb_lt i n)) by lia. rewrite orb_true_r. destruct (nth i outs []); reflexivity.
Qed.
Lemma local_samples_total : 0 < batch -> exists o, run = Gives o.
Proof.
  intro Hb. rewrite local_reads. pose proof (local_some rand randint exp lg temp classifier predict Hr model score (length D) (rows_of D) batch max_iter
         n (rows_of X) (fun i => nth i star []) (stored outs) (fun i => nth i (given n down) 0%Q) (fun i => nth i (given n up) 0%Q) gs Hb) as K.
  destruct plain as [o|]; [now exists o|congruence].
Qed.
Lemma local_samples o : run = Gives o ->
  Forall2 (fun i a =>
    (exists c, likeliest (nth i outs []) c /\ moved (length D) (fun j => nth j D (fun _ => 0%Q)) (nth i star []) c (nth i X (fun _ => 0%Q)) (CrModel.d_point a)) /\
    (CrModel.d_score a == score (CrModel.d_point a))%Q /\
    (CrModel.d_err a = true <-> if classifier then ~ (predict (CrModel.d_point a) == predict (nth i X (fun _ => 0%Q)))%Q
                                else (entry down i <= predict (CrModel.d_point a) <= entry up i)%Q)) (answered n outs) (CrModel.o_draws o).
Proof.
  rewrite local_reads. destruct plain as [o'|] eqn:E; [|discriminate]. intro H. injection H as <-.
  apply local_draws in E; [|exact Hr]. rewrite with_stored in E. revert E. apply Forall2_in_l. intros i a Hi ((c & C1 & C2) & S1 & S2).
  assert (Hn : i < n) by (unfold answered in Hi; apply filter_In in Hi; destruct Hi as [Hi _]; apply in_seq in Hi; lia).
  split; [exists c; split; [now apply stored_most|exact C2]|]. split; [exact S1|]. rewrite S2. unfold succeeds. destruct classifier; [reflexivity|].
  now rewrite !given_nth by assumption.
Qed.
Lemma local_sample_figures o : run = Gives o ->
  (CrModel.o_acc o = None <-> answered n outs = []) /\ (forall a, CrModel.o_acc o = Some a -> (a == share CrModel.d_err (CrModel.o_draws o))%Q) /\
  (exists c, CrModel.o_cov o = Some c /\ (c == Qn (length (answered n outs)) / Qn n)%Q).
Proof.
  rewrite local_reads. destruct plain as [o'|] eqn:E; [|discriminate]. intro H. injection H as <-.
  apply local_figures in E; [|exact Hr|destruct X; [congruence|cbn; lia]]. now rewrite with_stored in E.
Qed.
End LocalSamples.

Section RegionalSamples.
Variables (d : nat) (rules : list rule) (iso : option (pt -> Q)) (n : nat) (tests : list pt) (down_up : option (list (list Q))) (max_obs batch max_iter : nat) (gs : nat -> nat -> G).
Hypothesis L1 : length star = n.
Hypothesis L2 : length outs = n.
Hypothesis L3 : length rules = n.
Hypothesis Hdu : intervals_fit n down_up.
Hypothesis Hm : 0 < max_obs.
Notation run := (run_sampling_regional rand randint exp lg temp classifier predict model D d star rules outs iso n tests down_up max_obs batch max_iter gs).
Notation side k := (map (fun r => nth k r 0%Q) (intervals n down_up)).
Notation plain := (CrModel.sample_regional rand randint exp lg temp classifier predict model iso (length D) (rows_of D) batch max_iter d n max_obs tests
         (fun i => nth i rules rule0) (fun i => nth i star []) (stored outs) (fun i => nth i (side 0) 0%Q) (fun i => nth i (side 1) 0%Q) gs).
Lemma intervals_len : length (intervals n down_up) = n.
Proof. unfold intervals, intervals_fit in *. destruct down_up; [tauto|apply repeat_length]. Qed.
Lemma side_nth k i : i < n -> k < 2 -> nth i (side k) 0%Q = bound down_up k i.
Proof.
  intros Hi Hk. rewrite (nth_indep _ _ ((fun r => nth k r 0%Q) [])) by (rewrite map_length, intervals_len; exact Hi). rewrite (map_nth (fun r => nth k r 0%Q)).
  unfold intervals, bound. destruct down_up; [reflexivity|]. rewrite AxsProofs.nth_repeat_lt by exact Hi. destruct k as [|[|k]]; [reflexivity|reflexivity|lia].
Qed.
Lemma regional_reads : run = if forallb (fun i => match nth i outs [] with [] => true | _ => false end) (seq 0 n) then Raises else drawn_or_raises plain.
Proof.
  unfold run_sampling_regional. cbv zeta. fold (intervals n down_up). unfold bounds_read.
  rewrite (proj2 (forallb_forall _ _)); [reflexivity|]. intros i Hi. apply in_seq in Hi. rewrite !map_length, intervals_len, L1, L2, L3.
  rewrite (proj2 (Nat.ltb_lt i n)) by lia. rewrite orb_true_r. destruct (nth i outs []); [reflexivity|]. destruct (CrModel.in_tests _ _ _); reflexivity.
Qed.
Lemma none_answered : forallb (fun i => match nth i outs [] with [] => true | _ => false end) (seq 0 n) = true <-> answered n outs = [].
Proof.
  unfold answered. induction (seq 0 n) as [|i l IH]; cbn; [tauto|]. destruct (nth i outs []); cbn; [exact IH|]. split; discriminate.
Qed.
Lemma regional_samples o a : run = Gives o -> In a (CrModel.o_draws o) ->
  exists i x c score, In i (answered n outs) /\ In x tests /\ inside d (nth i rules rule0) x /\ iso = Some score /\ likeliest (nth i outs []) c /\
    moved (length D) (fun j => nth j D (fun _ => 0%Q)) (nth i star []) c x (CrModel.d_point a) /\ (CrModel.d_score a == score (CrModel.d_point a))%Q /\
    (CrModel.d_err a = true <-> if classifier then ~ (predict (CrModel.d_point a) == predict x)%Q
                                else (bound down_up 0 i <= predict (CrModel.d_point a) <= bound down_up 1 i)%Q).
Proof.
  rewrite regional_reads. destruct (forallb _ _); [discriminate|]. destruct plain as [o'|] eqn:E; [|discriminate]. intros H Ha. injection H as <-.
  eapply regional_draws in E; [|exact Hr|exact Ha]. destruct E as (i & x & c & score & Hi & E1 & E2 & E3 & E4 & E5 & E6 & E7).
  exists i, x, c, score. apply stored_most in E4. split.
  { apply filter_In. split; [apply in_seq; lia|]. destruct E4 as (p & v & K & _). destruct (nth i outs []); [destruct K|reflexivity]. }
  split; [exact E1|]. split; [exact E2|]. split; [exact E3|]. split; [exact E4|]. split; [exact E5|]. split; [exact E6|]. rewrite E7. unfold succeeds.
  destruct classifier; [reflexivity|]. rewrite !side_nth by (exact Hi || lia). reflexivity.
Qed.
Lemma regional_samples_raise : 0 < batch ->
  (run = Raises <-> answered n outs = [] \/ iso = None /\ exists i x, In i (answered n outs) /\ In x tests /\ inside d (nth i rules rule0) x) /\ run <> Strays.
Proof.
  intro Hb. rewrite regional_reads. pose proof none_answered as HN. destruct (forallb _ _) eqn:F.
  - split; [|discriminate]. split; [intros _; left; now apply HN|reflexivity].
  - pose proof (regional_raises rand randint exp lg temp classifier predict Hr model iso (length D) (rows_of D) batch max_iter d n max_obs tests
         (fun i => nth i rules rule0) (fun i => nth i star []) (stored outs) (fun i => nth i (side 0) 0%Q) (fun i => nth i (side 1) 0%Q) gs Hb Hm) as K.
    assert (K' : plain = None <-> iso = None /\ exists i x, In i (answered n outs) /\ In x tests /\ inside d (nth i rules rule0) x).
    { rewrite K. split; intros [E (i & x & R)]; (split; [exact E|]); exists i, x.
      - destruct R as (R1 & R2 & R3). split; [|exact R3]. rewrite <- with_stored. now apply with_rules_in.
      - destruct R as (R1 & R2). rewrite <- with_stored in R1. apply with_rules_in in R1. tauto. }
    destruct plain as [o|]; cbn [drawn_or_raises]; (split; [|discriminate]).
    + split; [discriminate|]. intros [E|E]; [apply HN in E; discriminate|]. apply K' in E. discriminate.
    + split; [|reflexivity]. intros _. right. now apply K'.
Qed.
Lemma within_tests r : length (CrModel.in_tests d r tests) = within d r tests.
Proof.
  unfold CrModel.in_tests, within. f_equal. apply filter_ext. intro x. unfold in_rule. induction (seq 0 d) as [|k l IH]; [reflexivity|]. cbn [forallb]. rewrite IH. f_equal.
  unfold hi, lo, qleb. apply andb_comm.
Qed.
Lemma regional_sample_count o : run = Gives o ->
  length (CrModel.o_draws o) = list_sum (map (fun i => Nat.min max_obs (within d (nth i rules rule0) tests)) (answered n outs)).
Proof.
  rewrite regional_reads. destruct (forallb _ _); [discriminate|]. unfold CrModel.sample_regional. destruct (CrModel.draw_all _ _) as [ds|] eqn:E; [|discriminate].
  cbn [option_map drawn_or_raises]. intro H. injection H as <-. cbn [CrModel.o_draws CrModel.summary].
  apply draw_all_spec, Forall2_len in E. rewrite <- E, regional_tasks_length. unfold CrModel.regional_nb. rewrite nb_fold. cbn [Nat.add]. clear E Hm L2 L3.
  unfold answered. induction (seq 0 n) as [|i l IH]; [reflexivity|]. cbn [map filter]. unfold stored at 1. destruct (nth i outs []) as [|e r]; cbn [map].
  - exact IH.
  - cbn [list_sum fold_right] in *. unfold list_sum in IH. rewrite IH. rewrite firstn_length, within_tests. reflexivity.
Qed.
Lemma regional_sample_figures o : run = Gives o ->
  match CrModel.o_cov o with Some c => (c == 1)%Q /\ CrModel.o_draws o <> [] | None => CrModel.o_draws o = [] end.
Proof.
  rewrite regional_reads. destruct (forallb _ _); [discriminate|]. destruct plain as [o'|] eqn:E; [|discriminate]. intro H. injection H as <-.
  now apply regional_coverage in E.
Qed.
End RegionalSamples.
End Methods.

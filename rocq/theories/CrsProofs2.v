(** Proofs for CrsModel.v: the counterfactual rules. *)
From Verif Require Import Base GameSpec SkModel SearchModel SearchSpec SearchProofs ExplSpec RfModel RfSpec RfProofs ApiModel ApiSpec ApiProofs AgnModel AgnSpec AgnProofs
  AxsModel AxsSpec AxsProofs BoxSpec BoxProofs QuantSpec RulesModel RulesSpec RulesModelProofs AnnealModel AnnealProofs CrSpec CrProofs CrsModel CrsSpec CrsProofs.
From Verif Require ImpModel ImpSpec ImpProofs2 CrModel MaxModel RulesProofs.
Local Open Scope nat_scope.

(** the columns of a tree are columns of the table *)
Lemma written_same e : forall n T, written e n T -> forall T', written e n T' -> T = T'.
Proof.
  induction 1 as [n Hn Hl Hr Hf|n c t i j l r Hn Hl Hr Hi Hj Hij Ht Hf Wl IHl Wr IHr]; intros T' H'.
  - inversion H' as [|? ? ? ? ? ? ? _ Hl' ? ? ?]; subst; [reflexivity|]. exfalso. lia.
  - inversion H' as [? _ Hl'|? c' t' i' j' l' r' _ Hl' Hr' _ _ _ Ht' Hf' Wl' Wr']; subst; [exfalso; lia|].
    assert (i' = i) by lia. assert (j' = j) by lia. subst i' j'. rewrite (IHl _ Wl'), (IHr _ Wr'). f_equal. destruct Hf as [Hf|[-> Hf]], Hf' as [Hf'|[-> Hf']]; lia.
Qed.
Lemma columns_below d w e T : holds d w e T -> forall c, In c (columns T) -> c < d.
Proof.
  intros (H0 & _ & _ & Ha & _). inversion H0; subst; destruct (Ha 0 H) as (T' & W & HT'); rewrite (written_same e _ _ H0 _ W); exact HT'.
Qed.

Lemma all_give_ext {A B} (f g : A -> ending B) l : (forall a, In a l -> f a = g a) -> all_give f l = all_give g l.
Proof. induction l as [|a l IH]; intro H; [reflexivity|]. cbn [all_give]. rewrite (H a (or_introl eq_refl)), IH by (intros; apply H; now right). reflexivity. Qed.
Lemma Forall2_len {A B} (R : A -> B -> Prop) l l' : Forall2 R l l' -> length l = length l'.
Proof. induction 1; cbn; congruence. Qed.

Lemma complement_in d S k : k < d -> ~ In k S -> In k (complement d S).
Proof. intros H H'. unfold complement. apply filter_In. split; [apply in_seq; lia|]. now destruct (in_dec Nat.eq_dec k S). Qed.

Lemma companions_ext g g' T D : (forall c t, g c t = g' c t) -> companions g T D = companions g' T D.
Proof.
  intro H. unfold companions. apply filter_ext. intro j. induction T as [|c t l IHl r IHr]; [reflexivity|]. cbn [follows]. rewrite H. destruct (g' c t) as [[|]|]; rewrite ?IHl, ?IHr; reflexivity.
Qed.

Section Rules.
Variables (d w : nat) (es : list sk) (Ts : list rtree) (stray : RfModel.row) (classifier : bool) (q : pt -> Q * Q) (argsort : list Q -> list nat)
  (D : list pt) (Y : list Q).
Context {G : Type}.
Variables (rand : G -> Q * G) (randint : nat -> G -> nat * G) (exp : Q -> Q) (lg : nat -> Q).
Hypothesis HT : trained d w es Ts D Y.
Hypothesis Hs : sorting argsort.

Lemma aims_agrees yt dn up v : aims classifier yt dn up v = agrees classifier yt dn up v.
Proof.
  unfold aims, agrees, qeqb, qleb. destruct classifier; [|reflexivity].
  destruct (Qeq_bool v yt) eqn:E, (Qeq_bool yt v) eqn:E'; trivial; exfalso.
  - apply Qeq_bool_eq in E. apply Qeq_bool_neq in E'. apply E'. now symmetry.
  - apply Qeq_bool_eq in E'. apply Qeq_bool_neq in E. apply E. now symmetry.
Qed.

Section Estimate.
Variables (x : pt) (yt dn up : Q) (Sb : list nat) (sched_c : list nat).
Hypothesis Hc : complete (S (length Ts)) 1 sched_c.
Notation cond := (conditional d es stray classifier q D Y node_size sched_c x yt dn up Sb).
Lemma estimate_gives c : estimate d es stray classifier q D Y x yt dn up Sb sched_c c = Gives (cond c).
Proof.
  destruct (call_rows d w es Ts stray classifier q D Y node_size HT cdp_cond (mkArgs [x] [yt] [dn] [up] (S_rows [Sb]) [c]) [Sb] T_none sched_c
    (fun i => q (nth i [x] (fun _ => 0%Q)))) as (res & E & R).
  - cbn; tauto.
  - now split.
  - split; [reflexivity|]. split; [reflexivity|]. split; intros _; [split|]; reflexivity.
  - right; left. split; [reflexivity|]. intros; reflexivity.
  - exact Hc.
  - unfold estimate, conditional. rewrite E. cbn [of_call next]. destruct R as (R1 & _ & _ & R4 & _). rewrite R1, (R4 ltac:(cbn; tauto)). reflexivity.
Qed.
Lemma estimate_share c : calm stray Ts -> (forall T, In T Ts -> node_size <= length (companions (cond_guide Sb x c) T D)) ->
  (fst (cond c) == target_share classifier yt dn up Y (cond_guide Sb x c) Ts D)%Q.
Proof.
  intros Hcalm Hp. pose proof HT as (A1 & A2 & A3 & A4).
  destruct (box_rows d w es Ts stray classifier q A1 A2 A3 cdp_cond (mkArgs [x] [yt] [dn] [up] (S_rows [Sb]) [c]) D Y node_size T_none sched_c
    (fun i => q (nth i [x] (fun _ => 0%Q)))) as (res & E & R1 & R2 & _); trivial.
  - split; [cbn; tauto|]. exists [Sb]. split; [reflexivity|]. split; [reflexivity|]. split; intros _; [split|]; reflexivity.
  - now split.
  - right; left. split; [reflexivity|]. intros; reflexivity.
  - intros i T Hi HT'. cbn in Hi. assert (i = 0) by lia. subst i. now apply Hp.
  - unfold conditional. rewrite E. cbn [fst]. exact (R2 0 ltac:(cbn; lia)).
Qed.
End Estimate.

Lemma full_enough yt dn up ids : full_leaves node_size classifier yt dn up Ts D Y ->
  (forall i, In i ids -> i < length D /\ aims classifier yt dn up (vals_of Y i) = true) ->
  enough node_size (map (rows_of D) ids) (repeat (seq 0 d) (length ids)) D Ts.
Proof.
  intros Hf Hi i T Hn HT'. rewrite map_length in Hn. rewrite nth_repeat_lt by exact Hn.
  rewrite (nth_indep _ _ (rows_of D 0)) by now rewrite map_length. rewrite map_nth. set (j := nth i ids 0).
  destruct (Hi j) as [J1 J2]; [now apply nth_In|]. rewrite aims_agrees in J2. pose proof (Hf j T J1 J2 HT') as K.
  destruct HT as (_ & A2 & _). destruct (In_nth Ts T Leaf HT') as (b & Hb & <-). destruct (holds_at d w es Ts A2 b Hb) as (e & _ & He).
  assert (Hcol : forall c, In c (columns (nth b Ts Leaf)) -> In c (seq 0 d)).
  { intros c Hc. apply in_seq. split; [lia|]. cbn. exact (columns_below d w e _ He c Hc). }
  etransitivity; [exact K|]. unfold mates. apply Nat.eq_le_incl. f_equal. apply filter_ext. intro k.
  pose proof (together_way (seq 0 d) (nth b Ts Leaf) (rows_of D j) (nth k D (fun _ => 0%Q)) Hcol) as [W1 W2]. unfold rows_of in *.
  destruct (list_eq_dec _ _ _) as [E|E]; [symmetry; now apply W2|].
  destruct (together _ _ _ _); [|reflexivity]. exfalso. apply E. now apply W1.
Qed.

Lemma mean_ext_in {A} (f g : A -> Q) l : (forall a, In a l -> (f a == g a)%Q) -> (mean_over f l == mean_over g l)%Q.
Proof. intro H. unfold mean_over. now rewrite (sumf_ext f g l H). Qed.
Lemma leaf_share_ext yt a b a' b' j : (forall t, agrees classifier yt a b t = agrees classifier yt a' b' t) ->
  (leaf_share classifier yt a b Ts D Y j == leaf_share classifier yt a' b' Ts D Y j)%Q.
Proof. intro E. unfold leaf_share. apply mean_ext. intro T. apply mean_ext. intro k. now rewrite E. Qed.
Lemma surest_ext level yt a b a' b' wt j : (forall t, agrees classifier yt a b t = agrees classifier yt a' b' t) ->
  surest level classifier yt a b wt Ts D Y j -> surest level classifier yt a' b' wt Ts D Y j.
Proof.
  intros E H k H1 H2 H3 H4. rewrite <- (leaf_share_ext yt a b a' b' j E). apply (H k); [exact H1|now rewrite E|exact H3|]. now rewrite (leaf_share_ext yt a b a' b' k E).
Qed.
Section Leaves.
Variables (yt dn up : Q) (wt : nat -> Q) (pi : Q) (h : annealing) (sched_l : nat -> list nat) (gs : nat -> G).
Hypothesis Hl : forall n, 0 < n -> complete (S (length Ts)) n (sched_l n).
Notation ids := (return_xy_cnt (length D) wt (fun i => aims classifier yt dn up (vals_of Y i))).
Notation n := (length ids).
Notation ya := (if classifier then repeat yt n else map (vals_of Y) ids).
Notation ar := (mkArgs (map (rows_of D) ids) ya (repeat dn n) (repeat up n) (S_rows (repeat (seq 0 d) n)) []).
Notation rt := (if classifier then sdp_rule else cdp_rule).
Notation leaves := (target_leaves rand randint exp lg d es stray classifier q argsort D Y yt dn up wt pi h sched_l gs).

Lemma ids_drawn i : i < n -> drawn classifier yt dn up wt Y (nth i ids 0).
Proof.
  intro Hi. pose proof HT as (_ & _ & _ & A4 & _).
  destruct (return_xy_spec (length D) wt (fun i => aims classifier yt dn up (vals_of Y i)) (nth i ids 0) (nth_In _ 0 Hi)) as [I1 I2].
  unfold drawn. rewrite <- A4. split; [exact I1|]. split; [now rewrite <- aims_agrees|]. intros (k & K1 & K2 & K3).
  rewrite <- aims_agrees in K2. apply (return_xy_exact (length D) wt (fun i => aims classifier yt dn up (vals_of Y i)) k K1 K3 K2). now apply nth_In.
Qed.
Lemma leaves_call : ids <> [] -> table (g_X ar) (g_y ar) /\ documented rt ar (repeat (seq 0 d) n) /\
  own_levels classifier q (g_X ar) T_none (fun i => q (nth i (g_X ar) (fun _ => 0%Q))) /\ complete (S (length Ts)) (length (g_X ar)) (sched_l n).
Proof.
  intro Hne. cbn [g_X g_y]. assert (Hn : 0 < n) by (destruct ids; [congruence|cbn; lia]).
  split; [split; [destruct classifier; now rewrite ?repeat_length, !map_length|intro E; apply Hne; now apply map_eq_nil in E]|].
  split; [split; [reflexivity|]; split; [cbn; now rewrite repeat_length, map_length|]; split|].
  - intros _. cbn. now rewrite !repeat_length, map_length.
  - intro B. exfalso. destruct classifier; cbn in B; decompose [or] B; (discriminate || contradiction).
  - split; [right; left; split; [reflexivity|intros; reflexivity]|]. rewrite map_length. now apply Hl.
Qed.
Lemma leaves_rows : ids <> [] -> exists res ps, explain d es stray classifier q rt ar D Y node_size T_none (sched_l n) = Some (Returned res) /\
  r_rules res = Some ps /\ length ps = n /\ length (r_sdp res) = n.
Proof.
  intro Hne. destruct (leaves_call Hne) as (C1 & C2 & C3 & C4).
  destruct (call_rows d w es Ts stray classifier q D Y node_size HT rt ar _ T_none (sched_l n) _ ltac:(destruct classifier; cbn; tauto) C1 C2 C3 C4) as (res & E & R1 & R2 & _).
  exists res. eexists. split; [exact E|]. split; [apply R2; destruct classifier; cbn; tauto|]. rewrite R1, !map_length, !seq_length. cbn [g_X]. now rewrite map_length.
Qed.
Lemma leaves_some_rows : forall L, leaves = Gives L -> ids <> [].
Proof.
  intros L H E. unfold target_leaves in H. rewrite E in H. unfold explain in H. cbn [g_X g_y map length repeat] in H.
  replace (checked [] (if classifier then [] else [])) with false in H by (destruct classifier; reflexivity). cbn in H. discriminate.
Qed.
Lemma leaves_sound L b : leaves = Gives L -> In b L -> exists j, drawn classifier yt dn up wt Y j /\
  (safe stray (seq 0 d) Ts -> full_leaves node_size classifier yt dn up Ts D Y -> holds_leaves d Ts D j b /\ surest pi classifier yt dn up wt Ts D Y j).
Proof.
  intros H Hb. pose proof (leaves_some_rows L H) as Hne. destruct (leaves_rows Hne) as (res & ps & E & Ep & Lp & Ls).
  unfold target_leaves in H. rewrite E in H. cbn [of_call next] in H. rewrite Ep in H.
  destruct (return_leaf_cnt _ _ _ _ _ _ _ _ _ _ _ _ _ _ _ _ _ _ _ _) as [l|] eqn:El; [|discriminate]. injection H as ->.
  apply leaf_cnt_spec in El.
  - destruct El as (El & _). destruct (El b Hb) as (i & Hi & Hw & Hq). exists (nth i ids 0). split; [now apply ids_drawn|].
    intros Hsafe Hfull. destruct (leaves_call Hne) as (C1 & C2 & C3 & C4). pose proof HT as (A1 & A2 & A3 & A4).
    assert (C5 : forall k, k < length (g_X ar) -> safe stray (nth k (repeat (seq 0 d) n) []) Ts)
      by (cbn [g_X]; intros k Hk; rewrite map_length in Hk; now rewrite nth_repeat_lt).
    assert (C6 : enough node_size (g_X ar) (repeat (seq 0 d) n) D Ts) by (apply (full_enough yt dn up ids Hfull); intros k Hk; now apply return_xy_spec in Hk).
    assert (Hx : forall k, k < n -> nth k (map (rows_of D) ids) (fun _ => 0%Q) = rows_of D (nth k ids 0))
      by (intros k Hk; rewrite (nth_indep _ _ (rows_of D 0)) by (now rewrite map_length); apply map_nth).
    split.
    + intros z Hz Hz'.
      destruct (explain_rules d w es Ts stray classifier q rt ar (repeat (seq 0 d) n) D Y node_size T_none (sched_l n) _ A1 A2 A3
        ltac:(destruct classifier; cbn; tauto) C1 A4 C2 C3 C4 C5 C6) as (res' & ps' & E' & Ep' & _ & R).
      rewrite E in E'. injection E' as <-. rewrite Ep in Ep'. injection Ep' as <-.
      destruct (R i) as [R1 _]; [cbn [g_X]; now rewrite map_length|]. rewrite nth_repeat_lt in R1 by exact Hi. specialize (R1 z Hz). cbn [g_X] in R1.
      rewrite Hx in R1 by exact Hi.
      assert (K : RfSpec.in_rule (seq 0 d) (nth i ps rule0) z).
      { apply R1. intros T HT'. destruct (In_nth Ts T Leaf HT') as (b' & Hb' & <-). destruct (holds_at d w es Ts A2 b' Hb') as (e & _ & He).
        apply together_way; [intros c Hc; apply in_seq; pose proof (columns_below d w e _ He c Hc); lia|]. apply Hz'. now apply nth_In. }
      intros k Hk. destruct (K k) as [K1 K2]; [apply in_seq; lia|]. destruct (Hw k Hk) as [W1 W2]. split; lra.
    + destruct (explain_values d w es Ts stray classifier q rt ar (repeat (seq 0 d) n) D Y node_size T_none (sched_l n) _ A1 A2 A3
        ltac:(destruct classifier; unfold plain_routine; cbn; tauto) C1 A4 C2 C3 C4 C5 C6) as (res' & E' & _ & R).
      rewrite E in E'. injection E' as <-.
      assert (S1 : forall k, k < n -> (nth k (r_sdp res) 0 == leaf_share classifier yt dn up Ts D Y (nth k ids 0%nat))%Q).
      { intros k Hk. rewrite (R k) by (cbn [g_X]; now rewrite map_length). cbn [g_X g_y g_down g_up]. rewrite (nth_repeat_lt (seq 0 d)) by exact Hk. rewrite Hx by exact Hk.
        unfold leaf_share. apply mean_ext_in. intros T HT'.
        destruct (In_nth Ts T Leaf HT') as (b' & Hb' & <-). destruct (holds_at d w es Ts A2 b' Hb') as (e & _ & He).
        assert (Ef : mates (seq 0 d) (nth b' Ts Leaf) (rows_of D (nth k ids 0)) D =
          filter (fun j => if list_eq_dec Bool.bool_dec (way (nth b' Ts Leaf) (nth (nth k ids 0) D (fun _ => 0%Q))) (way (nth b' Ts Leaf) (nth j D (fun _ => 0%Q))) then true else false) (seq 0 (length D))).
        { unfold mates. apply filter_ext. intro j.
          pose proof (together_way (seq 0 d) (nth b' Ts Leaf) (rows_of D (nth k ids 0)) (nth j D (fun _ => 0%Q))
            (fun c Hc => proj2 (in_seq d 0 c) (conj (Nat.le_0_l c) (columns_below d w e _ He c Hc)))) as [W1 W2]. unfold rows_of in *.
          destruct (list_eq_dec _ _ _) as [Ee|Ee]; [now apply W2|]. destruct (together _ _ _ _); [|reflexivity]. exfalso. apply Ee. now apply W1. }
        cbv beta. rewrite Ef. apply mean_ext. intro j. clear - Hk. destruct classifier; cbn [measured]; rewrite !nth_repeat_lt by exact Hk; reflexivity. }
      intros k Hk Ha Hwk Hp. rewrite <- S1 by exact Hi. apply Hq.
      assert (Ik : In k ids). { assert (K1 : k < length D) by (rewrite (proj1 A4); exact Hk). rewrite <- aims_agrees in Ha.
        apply (return_xy_exact (length D) wt (fun i => aims classifier yt dn up (vals_of Y i)) k K1 Hwk Ha k). auto. }
      destruct (In_nth ids k 0 Ik) as (k' & Hk' & <-). exists k'. split; [exact Hk'|]. now rewrite S1.
  - intros i Hi. destruct (Hs (map Qopp (r_sdp res))) as [P _]. apply (Permutation_in _ P) in Hi. rewrite in_seq, map_length in Hi. lia.
Qed.
Lemma leaves_give : (exists j, j < length D /\ agrees classifier yt dn up (nth j Y 0%Q) = true) ->
  (forall n g, 0 < n -> fst (randint n g) < n) -> 0 < h_batch h -> exists L, leaves = Gives L /\ L <> [].
Proof.
  intros (j & J1 & J2) Hr Hb. rewrite <- aims_agrees in J2. pose proof (return_xy_some (length D) wt (fun i => aims classifier yt dn up (vals_of Y i)) j J1 J2) as Hne. pose proof HT as (A1 & A2 & A3 & A4).
  destruct (leaves_rows Hne) as (res & ps & E & Ep & Lp & Ls). unfold target_leaves. rewrite E. cbn [of_call next]. rewrite Ep.
  match goal with |- context [return_leaf_cnt ?a1 ?a2 ?a3 ?a4 ?a5 ?a6 ?a7 ?a8 ?a9 ?b1 ?b2 ?b3 ?b4 ?b5 ?b6 ?b7 ?b8 ?b9 ?c1 ?c2] =>
    destruct (leaf_cnt_some a1 a2 a3 a4 a5 a6 a7 a8 a9 b1 b2 b3 b4 b5 b6 b7 b8 b9 c1 c2 Hr Hb (or_introl A3)) as (L & EL) end.
  rewrite EL. exists L. split; [reflexivity|]. unfold return_leaf_cnt in EL. apply grow_spec in EL; [|auto].
  intros ->. inversion EL as [E0|]. symmetry in E0. unfold start_leaves in E0. destruct (filter _ _) as [|a l].
  - destruct (Hs (map Qopp (r_sdp res))) as [P _]. rewrite map_length, Ls in P. apply Permutation_length in P. rewrite seq_length in P.
    destruct (argsort _) as [|a l]; [|discriminate]. cbn in P. destruct ids; [congruence|discriminate].
  - assert (K : exists b, In b (unique (rule_cmp d) (map (fun i => nth i ps rule0) (a :: l)))).
    { destruct (RulesProofs.unique_rule d (map (fun i => nth i ps rule0) (a :: l)) (nth a ps rule0) ltac:(now left)) as (b & Hb' & _). now exists b. }
    destruct K as (b & K). rewrite E0 in K. destruct K.
Qed.
End Leaves.

(** ** One observation *)
Section One.
Variables (mk : rule -> rule) (x : pt) (yt dn up : Q) (Sb : list nat) (wt : nat -> Q) (acc pi : Q) (h : annealing)
  (sched_l : nat -> list nat) (sched_c : list nat) (gs : nat -> G).
Hypothesis Hl : forall n, 0 < n -> complete (S (length Ts)) n (sched_l n).
Hypothesis Hc : complete (S (length Ts)) 1 sched_c.
Notation cond := (conditional d es stray classifier q D Y node_size sched_c x yt dn up Sb).
Notation est := (fun c => value_of (estimate d es stray classifier q D Y x yt dn up Sb sched_c c)).
Notation run := (counterfactual_rules rand randint exp lg d es stray classifier q argsort D Y mk x yt dn up Sb wt acc pi h sched_l sched_c gs).
Notation leaves := (target_leaves rand randint exp lg d es stray classifier q argsort D Y yt dn up wt pi h sched_l gs).
Notation obs L := (CrModel.observation_rules d (length D) (rows_of D) (fun i => aims classifier yt dn up (vals_of Y i)) acc L est mk pi (fun _ : nat => 0%Q)).
Lemma run_obs out : run = Gives out <-> exists L, leaves = Gives L /\ obs L = Some out.
Proof.
  unfold counterfactual_rules. destruct leaves as [L| |] eqn:EL; cbn [next].
  - assert (K : forall suf, exists bs, all_give (estimate d es stray classifier q D Y x yt dn up Sb sched_c) (map mk suf) = Gives bs).
    { intro suf. apply all_give_some. intros c _. eexists. now apply estimate_gives. }
    destruct (get_compatible_leaf _ _ _ _ _ L) as [suf|] eqn:Es.
    + destruct (K suf) as (bs & ->). cbn [next]. destruct (obs L) as [o|] eqn:Eo.
      * split; [intro E; injection E as <-; now exists L|intros (L' & E' & Eo'); injection E' as <-; congruence].
      * split; [discriminate|intros (L' & E' & Eo'); injection E' as <-; congruence].
    + split; [discriminate|]. intros (L' & E' & Eo'). injection E' as <-. unfold CrModel.observation_rules in Eo'. rewrite Es in Eo'. discriminate.
  - split; [discriminate|intros (L & E & _); discriminate].
  - split; [discriminate|intros (L & E & _); discriminate].
Qed.
Lemma est_cond c : value_of (estimate d es stray classifier q D Y x yt dn up Sb sched_c c) = cond c.
Proof. now rewrite estimate_gives. Qed.
Lemma run_sound out c p v : run = Gives out -> In (c, p, v) out -> exists j leaf leaf0,
  drawn classifier yt dn up wt Y j /\
  (safe stray (seq 0 d) Ts -> full_leaves node_size classifier yt dn up Ts D Y -> holds_leaves d Ts D j leaf0 /\ surest pi classifier yt dn up wt Ts D Y j) /\
  near (1 # 200) leaf leaf0 /\ c = mk leaf /\ (p, v) = cond c /\ ((pi <= p)%Q \/ out = [(c, p, v)]).
Proof.
  intros H Hin. apply run_obs in H. destruct H as (L & EL & Eo). pose proof Eo as Eo'.
  eapply obs_sound in Eo'; [|exact Hin].
  destruct Eo' as (suf & leaf & leaf0 & S1 & S2 & S3 & S4 & S5 & S6 & S7).
  destruct (leaves_sound yt dn up wt pi h sched_l gs Hl L leaf0 EL S3) as (j & J1 & J2). exists j, leaf, leaf0.
  split; [exact J1|]. split; [exact J2|]. split; [exact S4|]. split; [exact S5|]. cbv beta in S6. rewrite est_cond in S6. split; [exact S6|].
  destruct S7 as [S7|S7]; [now left|right].
  unfold CrModel.observation_rules in Eo. rewrite S1 in Eo. destruct (counterfactuals_spec est mk suf pi) as [_ K].
  destruct (return_counterfactuals est mk suf pi) as [l|]; [|discriminate]. injection Eo as <-.
  destruct (K l eq_refl) as [(leaf' & K1 & K2 & _)|(leaf' & K1 & K2 & ->)]; [exfalso; destruct (S7 leaf' K1); lra|].
  destruct (prune_spec d (fun _ : nat => 0%Q) [(mk leaf', fst (est (mk leaf')), snd (est (mk leaf')))]) as (keep & E & Hn & Hk). rewrite E in *.
  assert (Hall : forall j, In j keep -> j = 0) by (intros j' Hj; apply Hk in Hj; cbn in Hj; lia).
  destruct keep as [|a [|b keep]]; [destruct Hin| |].
  - cbn [map] in *. destruct Hin as [->|[]]. reflexivity.
  - exfalso. inversion Hn as [|? ? Hni _]; subst. apply Hni. left. rewrite (Hall a ltac:(now left)), (Hall b ltac:(right; now left)). reflexivity.
Qed.
Lemma run_antichain out i j e f : run = Gives out -> nth_error out i = Some e -> nth_error out j = Some f -> i <> j -> ~ wider d (fst (fst e)) (fst (fst f)).
Proof. intros H. apply run_obs in H. destruct H as (L & _ & Eo). eapply obs_antichain; exact Eo. Qed.
Lemma run_gives : (exists j, j < length D /\ agrees classifier yt dn up (nth j Y 0%Q) = true) ->
  (forall n g, 0 < n -> fst (randint n g) < n) -> 0 < h_batch h -> exists out, run = Gives out.
Proof.
  intros Hj Hr Hb. destruct (leaves_give yt dn up wt pi h sched_l gs Hl Hj Hr Hb) as (L & EL & HL).
  destruct (obs L) as [out|] eqn:Eo; [exists out; apply run_obs; now exists L|]. exfalso. apply HL. eapply obs_defined; exact Eo.
Qed.
Lemma run_stops : ~ (exists j, j < length D /\ agrees classifier yt dn up (nth j Y 0%Q) = true) -> run = AxsModel.Raises.
Proof.
  intro H. assert (E : return_xy_cnt (length D) wt (fun i => aims classifier yt dn up (vals_of Y i)) = []).
  { destruct (return_xy_cnt _ _ _) as [|i l] eqn:E; [reflexivity|]. exfalso. apply H. exists i.
    destruct (return_xy_spec (length D) wt (fun i => aims classifier yt dn up (vals_of Y i)) i) as [I1 I2]; [rewrite E; now left|].
    split; [exact I1|]. rewrite <- aims_agrees. exact I2. }
  unfold counterfactual_rules, target_leaves. rewrite E. unfold explain. cbn [g_X g_y map length repeat].
  replace (checked [] (if classifier then [] else [])) with false by (destruct classifier; reflexivity). reflexivity.
Qed.
End One.

(** ** All observations *)
Lemma given_error n o i : fits n o -> i < n -> nth_error (given n o) i = Some (entry o i).
Proof.
  intros Hf Hi. rewrite (given_entries n o Hf). rewrite (nth_error_nth' _ 0%Q) by (now rewrite entries_length). now rewrite entries_nth.
Qed.
Lemma all_gives {B} (f : nat -> ending B) n bs : all_give f (seq 0 n) = Gives bs -> length bs = n /\ forall i b0, i < n -> f i = Gives (nth i bs b0).
Proof.
  intro H. apply all_give_spec in H. assert (L : length bs = n) by (pose proof (Forall2_len _ _ _ H) as K; rewrite seq_length in K; lia). split; [exact L|].
  intros i b0 Hi. assert (G' : forall l (cs : list B) i b0, Forall2 (fun a b => f a = Gives b) l cs -> i < length l -> f (nth i l 0) = Gives (nth i cs b0)).
  { intros l cs i' b0' HF. revert i'. induction HF as [|a b l' cs' E _ IH]; intros i' Hi'; [cbn in Hi'; lia|]. destruct i' as [|i']; [exact E|]. apply IH. cbn in Hi'. lia. }
  rewrite <- (G' (seq 0 n) bs i b0 H) by now rewrite seq_length. now rewrite seq_nth.
Qed.
Lemma all_raises {B} (f : nat -> ending B) l : (forall a, In a l -> (exists b, f a = Gives b) \/ f a = AxsModel.Raises) -> (exists a, In a l /\ f a = AxsModel.Raises) ->
  all_give f l = AxsModel.Raises.
Proof.
  induction l as [|a l IH]; intros H (c & Hc & E); [destruct Hc|]. cbn [all_give].
  destruct (H a (or_introl eq_refl)) as [(b & Eb)|Eb]; rewrite Eb; cbn [next]; [|reflexivity].
  destruct Hc as [->|Hc]; [congruence|]. rewrite IH; [reflexivity|intros a' Ha'; apply H; now right|now exists c].
Qed.

Section Sessions.
Variables (acc pi : Q) (h : annealing) (sched_l : nat -> list nat) (sched_c : list nat) (gs : nat -> nat -> G) (X : list pt) (y : option (list Q)) (st : divergent).
Notation n := (length X).
Hypothesis Hl : forall n, 0 < n -> complete (S (length Ts)) n (sched_l n).
Hypothesis Hc : complete (S (length Ts)) 1 sched_c.
Hypothesis Hy : fits n y.
Hypothesis L1 : length (v_star st) = n.
Hypothesis L2 : length (v_bar st) = n.
Hypothesis L3 : length (v_w st) = n.

Section LocalRules.
Variables (down up : option (list Q)).
Hypothesis Hdn : fits n down.
Hypothesis Hup : fits n up.
Notation dn i := (if classifier then 0%Q else entry down i).
Notation u i := (if classifier then 0%Q else entry up i).
Notation hh := (if classifier then h else annealing0).
Notation one i := (counterfactual_rules rand randint exp lg d es stray classifier q argsort D Y
  (cond_local (nth i (v_star st) []) (nth i (v_bar st) []) (rows_of X i)) (rows_of X i) (entry y i) (dn i) (u i) (nth i (v_bar st) []) (nth i (v_w st) (fun _ => 0%Q))
  acc (CrModel.local_level classifier acc pi) hh sched_l sched_c (gs i)).
Notation run := (run_local_counterfactual_rules rand randint exp lg d es stray classifier q argsort D Y st X y down up acc pi h sched_l sched_c gs).
Lemma local_ones : run = all_give (fun i => one i) (seq 0 n).
Proof.
  unfold run_local_counterfactual_rules. cbv zeta. apply all_give_ext. intros i Hi. apply in_seq in Hi.
  rewrite (given_error n y i Hy) by lia.
  rewrite (nth_error_nth' (v_star st) []) by lia. rewrite (nth_error_nth' (v_bar st) []) by lia. rewrite (nth_error_nth' (v_w st) (fun _ => 0%Q)) by lia.
  rewrite (given_error n down i Hdn), (given_error n up i Hup) by lia. destruct classifier; reflexivity.
Qed.
Lemma local_rules_gives : (forall i, i < n -> exists j, j < length D /\ agrees classifier (entry y i) (entry down i) (entry up i) (nth j Y 0%Q) = true) ->
  (forall n g, 0 < n -> fst (randint n g) < n) -> 0 < h_batch h -> exists outs, run = Gives outs.
Proof.
  intros Hj Hr Hb. rewrite local_ones. apply all_give_some. intros i Hi. apply in_seq in Hi. apply run_gives; trivial.
  - destruct (Hj i ltac:(lia)) as (j & J1 & J2). exists j. split; [exact J1|]. destruct classifier; exact J2.
  - destruct classifier; [exact Hb|cbn; lia].
Qed.
Lemma local_rules_raises : (exists i, i < n /\ forall j, j < length D -> agrees classifier (entry y i) (entry down i) (entry up i) (nth j Y 0%Q) = false) ->
  (forall n g, 0 < n -> fst (randint n g) < n) -> 0 < h_batch h -> run = AxsModel.Raises.
Proof.
  intros (i & Hi & Hn) Hr Hb. rewrite local_ones. apply all_raises.
  - intros a Ha. destruct (existsb (fun j => agrees classifier (entry y a) (dn a) (u a) (nth j Y 0%Q)) (seq 0 (length D))) eqn:E.
    + left. apply run_gives; trivial; [|destruct classifier; [exact Hb|cbn; lia]].
      apply existsb_exists in E. destruct E as (j & J1 & J2). exists j. split; [apply in_seq in J1; lia|exact J2].
    + right. apply run_stops. intros (j & J1 & J2). apply Bool.not_true_iff_false in E. apply E. apply existsb_exists. exists j. split; [apply in_seq; lia|exact J2].
  - exists i. split; [apply in_seq; lia|]. apply run_stops. intros (j & J1 & J2). specialize (Hn j J1). destruct classifier; unfold agrees in *; congruence.
Qed.
Lemma local_rules_sound outs i c p v : run = Gives outs -> (forall i, i < n -> nth i (v_bar st) [] = complement d (nth i (v_star st) [])) ->
  i < n -> In (c, p, v) (nth i outs []) ->
  let x := nth i X (fun _ => 0%Q) in let Sv := nth i (v_star st) [] in
  let g := cond_guide (complement d Sv) x c in
  exists j leaf leaf0,
  drawn classifier (entry y i) (entry down i) (entry up i) (nth i (v_w st) (fun _ => 0%Q)) Y j /\
  (safe stray (seq 0 d) Ts -> full_leaves node_size classifier (entry y i) (entry down i) (entry up i) Ts D Y -> holds_leaves d Ts D j leaf0 /\
     surest (if classifier then pi else acc) classifier (entry y i) (entry down i) (entry up i) (nth i (v_w st) (fun _ => 0%Q)) Ts D Y j) /\
  near (1 # 200) leaf leaf0 /\
  (forall k, In k Sv -> c k = leaf k) /\ (forall k, ~ In k Sv -> k < d -> c k = (x k, x k)) /\
  (p, v) = conditional d es stray classifier q D Y node_size sched_c x (entry y i) (dn i) (u i) (complement d Sv) c /\
  (calm stray Ts -> (forall T, In T Ts -> node_size <= length (companions g T D)) ->
   (p == target_share classifier (entry y i) (entry down i) (entry up i) Y g Ts D)%Q) /\
  (((if classifier then pi else acc) <= p)%Q \/ nth i outs [] = [(c, p, v)]).
Proof.
  intros H Hbar Hi Hin. cbv zeta. rewrite local_ones in H. apply all_gives in H. destruct H as [Ho H]. specialize (H i [] Hi). cbv beta in H.
  rewrite (Hbar i Hi) in H. set (Sv := nth i (v_star st) []) in *.
  destruct (run_sound _ _ _ _ _ _ _ _ _ _ _ _ _ Hl Hc _ c p v H Hin) as (j & leaf & leaf0 & R1 & R2 & R3 & R4 & R5 & R6). exists j, leaf, leaf0.
  assert (EA : forall t, agrees classifier (entry y i) (dn i) (u i) t = agrees classifier (entry y i) (entry down i) (entry up i) t) by (intro t; destruct classifier; reflexivity).
  split; [|split; [|split; [exact R3|split; [|split; [|split; [exact R5|split]]]]]].
  - unfold drawn in *. destruct R1 as (D1 & D2 & D3). rewrite EA in D2. split; [exact D1|]. split; [exact D2|]. intros (k & K1 & K2 & K3). apply D3. exists k. now rewrite EA.
  - intros B1 B2. destruct R2 as [R2 R2']; [exact B1|intros j' T J1 J2; rewrite EA in J2; now apply B2|]. split; [exact R2|]. eapply surest_ext; [exact EA|exact R2'].
  - intros k Hk. rewrite R4. now apply cond_local_spec.
  - intros k Hk Hd. rewrite R4. apply cond_local_spec; [exact Hk|]. now apply complement_in.
  - intros B1 B2. replace p with (fst (p, v)) by reflexivity. rewrite R5. rewrite estimate_share; trivial.
    unfold target_share. apply mean_ext. intro T. apply mean_ext. intro k. now rewrite EA.
  - exact R6.
Qed.
Lemma local_rules_antichain outs i a b e f : run = Gives outs -> i < n -> nth_error (nth i outs []) a = Some e -> nth_error (nth i outs []) b = Some f -> a <> b ->
  ~ wider d (fst (fst e)) (fst (fst f)).
Proof. intros H Hi. rewrite local_ones in H. apply all_gives in H. destruct H as [_ H]. specialize (H i [] Hi). exact (run_antichain _ _ _ _ _ _ _ _ _ _ _ _ _ Hc _ a b e f H). Qed.
End LocalRules.

Section RegionalRules.
Variables (rules : list rule) (down_up : option (list (list Q))).
Hypothesis Hrl : length rules = n.
Hypothesis Hdu : intervals_fit n down_up.
Notation dn i := (bound down_up 0 i).
Notation u i := (bound down_up 1 i).
Notation dn' i := (if classifier then 0%Q else bound down_up 0 i).
Notation u' i := (if classifier then 0%Q else bound down_up 1 i).
Notation one i := (counterfactual_rules rand randint exp lg d es stray classifier q argsort D Y
  (cond_regional (nth i (v_star st) []) (nth i rules rule0)) (rows_of X i) (entry y i) (dn' i) (u' i) [] (nth i (v_w st) (fun _ => 0%Q))
  acc pi h sched_l sched_c (gs i)).
Notation run := (run_regional_counterfactual_rules rand randint exp lg d es stray classifier q argsort D Y st X rules y down_up acc pi h sched_l sched_c gs).
Lemma bound_error k i : k < 2 -> i < n -> match nth_error (intervals n down_up) i with Some r => nth_error r k | None => None end = Some (bound down_up k i).
Proof.
  clear L1 L2 L3. intros Hk Hi. unfold intervals, intervals_fit, bound in *. destruct down_up as [l|].
  - destruct Hdu as [HL HR]. rewrite (nth_error_nth' l []) by lia. apply nth_error_nth'. assert (2 <= length (nth i l [])) by (apply HR, nth_In; lia). lia.
  - rewrite (nth_error_nth' _ []) by now rewrite repeat_length. rewrite nth_repeat_lt by exact Hi. destruct k as [|[|k]]; [reflexivity|reflexivity|lia].
Qed.
Lemma regional_ones : run = all_give (fun i => one i) (seq 0 n).
Proof.
  clear L2. unfold run_regional_counterfactual_rules. cbv zeta. fold (intervals n down_up). apply all_give_ext. intros i Hi. apply in_seq in Hi.
  rewrite (given_error n y i Hy) by lia.
  rewrite (nth_error_nth' (v_star st) []) by lia. rewrite (nth_error_nth' rules rule0) by lia. rewrite (nth_error_nth' (v_w st) (fun _ => 0%Q)) by lia.
  rewrite (bound_error 0 i), (bound_error 1 i) by lia. destruct classifier; reflexivity.
Qed.
Lemma regional_rules_gives : (forall i, i < n -> exists j, j < length D /\ agrees classifier (entry y i) (dn i) (u i) (nth j Y 0%Q) = true) ->
  (forall n g, 0 < n -> fst (randint n g) < n) -> 0 < h_batch h -> exists outs, run = Gives outs.
Proof.
  clear L2. intros Hj Hr Hb. rewrite regional_ones. apply all_give_some. intros i Hi. apply in_seq in Hi. apply run_gives; trivial.
  destruct (Hj i ltac:(lia)) as (j & J1 & J2). exists j. split; [exact J1|]. destruct classifier; exact J2.
Qed.
Lemma regional_rules_raises : (exists i, i < n /\ forall j, j < length D -> agrees classifier (entry y i) (dn i) (u i) (nth j Y 0%Q) = false) ->
  (forall n g, 0 < n -> fst (randint n g) < n) -> 0 < h_batch h -> run = AxsModel.Raises.
Proof.
  clear L2. intros (i & Hi & Hn) Hr Hb. rewrite regional_ones. apply all_raises.
  - intros a Ha. destruct (existsb (fun j => agrees classifier (entry y a) (dn' a) (u' a) (nth j Y 0%Q)) (seq 0 (length D))) eqn:E.
    + left. apply run_gives; trivial.
      apply existsb_exists in E. destruct E as (j & J1 & J2). exists j. split; [apply in_seq in J1; lia|exact J2].
    + right. apply run_stops. intros (j & J1 & J2). apply Bool.not_true_iff_false in E. apply E. apply existsb_exists. exists j. split; [apply in_seq; lia|exact J2].
  - exists i. split; [apply in_seq; lia|]. apply run_stops. intros (j & J1 & J2). specialize (Hn j J1). destruct classifier; unfold agrees in *; congruence.
Qed.
Lemma regional_rules_sound outs i c p v : run = Gives outs -> i < n -> In (c, p, v) (nth i outs []) ->
  let x := nth i X (fun _ => 0%Q) in let Sv := nth i (v_star st) [] in
  exists j leaf leaf0,
  drawn classifier (entry y i) (dn i) (u i) (nth i (v_w st) (fun _ => 0%Q)) Y j /\
  (safe stray (seq 0 d) Ts -> full_leaves node_size classifier (entry y i) (dn i) (u i) Ts D Y -> holds_leaves d Ts D j leaf0 /\
     surest pi classifier (entry y i) (dn i) (u i) (nth i (v_w st) (fun _ => 0%Q)) Ts D Y j) /\
  near (1 # 200) leaf leaf0 /\
  (forall k, In k Sv -> c k = leaf k) /\ (forall k, ~ In k Sv -> c k = nth i rules rule0 k) /\
  (p, v) = conditional d es stray classifier q D Y node_size sched_c x (entry y i) (dn' i) (u' i) [] c /\
  (calm stray Ts -> (forall T, In T Ts -> node_size <= length (companions (box_guide c) T D)) ->
   (p == target_share classifier (entry y i) (dn i) (u i) Y (box_guide c) Ts D)%Q) /\
  ((pi <= p)%Q \/ nth i outs [] = [(c, p, v)]).
Proof.
  intros H Hi Hin. cbv zeta. rewrite regional_ones in H. apply all_gives in H. destruct H as [Ho H]. specialize (H i [] Hi). cbv beta in H.
  set (Sv := nth i (v_star st) []) in *.
  destruct (run_sound _ _ _ _ _ _ _ _ _ _ _ _ _ Hl Hc _ c p v H Hin) as (j & leaf & leaf0 & R1 & R2 & R3 & R4 & R5 & R6). exists j, leaf, leaf0.
  assert (EA : forall t, agrees classifier (entry y i) (dn' i) (u' i) t = agrees classifier (entry y i) (dn i) (u i) t) by (intro t; destruct classifier; reflexivity).
  split; [|split; [|split; [exact R3|split; [|split; [|split; [exact R5|split]]]]]].
  - unfold drawn in *. destruct R1 as (D1 & D2 & D3). rewrite EA in D2. split; [exact D1|]. split; [exact D2|]. intros (k & K1 & K2 & K3). apply D3. exists k. now rewrite EA.
  - intros B1 B2. destruct R2 as [R2 R2']; [exact B1|intros j' T J1 J2; rewrite EA in J2; now apply B2|]. split; [exact R2|]. eapply surest_ext; [exact EA|exact R2'].
  - intros k Hk. rewrite R4, cond_regional_spec. apply memb_true in Hk. now rewrite Hk.
  - intros k Hk. rewrite R4, cond_regional_spec. apply memb_false in Hk. now rewrite Hk.
  - intros B1 B2. replace p with (fst (p, v)) by reflexivity. rewrite R5. rewrite estimate_share; trivial.
    unfold target_share. apply mean_ext. intro T. rewrite (companions_ext (cond_guide [] (rows_of X i) c) (box_guide c)) by reflexivity. apply mean_ext. intro k. now rewrite EA.
  - exact R6.
Qed.
Lemma regional_rules_antichain outs i a b e f : run = Gives outs -> i < n -> nth_error (nth i outs []) a = Some e -> nth_error (nth i outs []) b = Some f -> a <> b ->
  ~ wider d (fst (fst e)) (fst (fst f)).
Proof. intros H Hi. rewrite regional_ones in H. apply all_gives in H. destruct H as [_ H]. specialize (H i [] Hi). exact (run_antichain _ _ _ _ _ _ _ _ _ _ _ _ _ Hc _ a b e f H). Qed.
End RegionalRules.
End Sessions.
End Rules.

(** ** Probabilities and weights of the divergent sets, from the trees *)
Section Stored.
Variables (d w : nat) (es : list sk) (Ts : list rtree) (stray : RfModel.row) (classifier : bool) (q : pt -> Q * Q) (D : list pt) (Y : list Q).
Hypothesis HT : trained d w es Ts D Y.
Variables (sched_w : list nat) (X : list pt) (y : option (list Q)) (bars : list (list nat)).
Notation n := (length X).
Hypothesis HX : X <> [].
Hypothesis Hw : complete (S (length Ts)) n sched_w.
Hypothesis Lb : length bars = n.
Lemma stored_local down up res ws : explain d es stray classifier q cdp_weights (mkArgs X (entries n y) (entries n down) (entries n up) (S_rows bars) []) D Y node_size T_none sched_w = Some (Returned res) ->
  r_weights res = Some ws ->
  (forall i, i < n -> safe stray (nth i bars []) Ts) -> enough node_size X bars D Ts -> forall i, i < n ->
  (nth i (r_sdp res) 0 == mean_over (fun T => mean_over (fun j => if agrees classifier (entry y i) (entry down i) (entry up i) (nth j Y 0%Q) then 1 else 0)
                                              (mates (nth i bars []) T (nth i X (fun _ => 0)) D)) Ts)%Q /\
  forall j, j < length D -> (nth i ws (fun _ => 0) j ==
    mean_over (fun T => if together (nth i bars []) T (nth i X (fun _ => 0)) (nth j D (fun _ => 0)) then 1 / Qn (length (mates (nth i bars []) T (nth i X (fun _ => 0)) D)) else 0) Ts)%Q.
Proof.
  intros E Ew Hsafe Hen. pose proof HT as (A1 & A2 & A3 & A4). set (a := mkArgs X (entries n y) (entries n down) (entries n up) (S_rows bars) []) in *.
  assert (C1 : table (g_X a) (g_y a)) by (split; [cbn; now rewrite entries_length|exact HX]).
  assert (C2 : documented cdp_weights a bars).
  { split; [reflexivity|]. split; [exact Lb|]. split; [intros _; cbn; now rewrite !entries_length|intro B; exfalso; cbn in B; decompose [or] B; (discriminate || contradiction)]. }
  assert (C3 : own_levels classifier q (g_X a) T_none (fun i => q (nth i X (fun _ => 0%Q)))) by (right; left; split; [reflexivity|intros; reflexivity]).
  destruct (explain_values d w es Ts stray classifier q cdp_weights a bars D Y node_size T_none sched_w _ A1 A2 A3 ltac:(cbn; tauto) C1 A4 C2 C3 Hw Hsafe Hen) as (res1 & E1 & _ & R1).
  destruct (explain_weights d w es Ts stray classifier q cdp_weights a bars D Y node_size T_none sched_w _ A1 A2 A3 ltac:(cbn; tauto) C1 A4 C2 C3 Hw Hsafe Hen) as (res2 & ws2 & E2 & W2 & _ & R2).
  rewrite E in E1, E2. injection E1 as <-. injection E2 as <-. rewrite Ew in W2. injection W2 as <-.
  intros i Hi. split; [|intros j Hj; now apply R2]. rewrite (R1 i Hi). cbn [measured a g_y g_down g_up g_X]. rewrite !entries_nth by exact Hi. reflexivity.
Qed.
Lemma stored_regional rules down_up res ws : length rules = n -> intervals_fit n down_up ->
  explain d es stray classifier q cdp_intv (mkArgs X (entries n y) [] [] (S_rows bars) rules) D Y node_size (T_matrix (intervals n down_up)) sched_w = Some (Returned res) ->
  r_weights res = Some ws -> calm stray Ts -> 
  (forall i T, i < n -> In T Ts -> node_size <= length (companions (intv_guide (nth i bars []) (nth i rules rule0)) T D)) -> forall i, i < n ->
  (nth i (r_sdp res) 0 == mean_over (fun T => mean_over (fun j => if classifier then (if Qeq_bool (entry y i) (nth j Y 0) then 0 else 1)
                                                                  else if agrees false 0 (bound down_up 0 i) (bound down_up 1 i) (nth j Y 0) then 1 else 0)
                                              (companions (intv_guide (nth i bars []) (nth i rules rule0)) T D)) Ts)%Q /\
  forall j, j < length D -> (nth i ws (fun _ => 0) j ==
    mean_over (fun T => if follows (intv_guide (nth i bars []) (nth i rules rule0)) T (nth j D (fun _ => 0)) then 1 / Qn (length (companions (intv_guide (nth i bars []) (nth i rules rule0)) T D)) else 0) Ts)%Q.
Proof.
  intros Hrl Hdu E Ew Hcalm Hpl. pose proof HT as (A1 & A2 & A3 & A4). set (a := mkArgs X (entries n y) [] [] (S_rows bars) rules) in *.
  assert (Ca : complete_args by_cdp_intv classifier a D Y (T_matrix (intervals n down_up))).
  { split; [split; [cbn; now rewrite entries_length|exact HX]|]. split; [exact A4|]. split; [discriminate|]. split; [intros _; exact Hrl|].
    right; right. eexists. split; [reflexivity|]. cbn [g_X a]. unfold intervals, intervals_fit in *. destruct down_up as [l|]; [exact Hdu|].
    rewrite repeat_length. split; [reflexivity|]. intros r Hr. apply repeat_spec in Hr. subst r. cbn. lia. }
  destruct (levels_of_args by_cdp_intv classifier q a D Y _ Ca) as (O & _).
  destruct (box_rows d w es Ts stray classifier q A1 A2 A3 cdp_intv a D Y node_size (T_matrix (intervals n down_up)) sched_w (levels_at q X (T_matrix (intervals n down_up)))) as (res1 & E1 & _ & R1 & R2); trivial.
  - split; [cbn; tauto|]. exists bars. split; [reflexivity|]. split; [exact Lb|]. split; [intro B; exfalso; cbn in B; decompose [or] B; (discriminate || contradiction)|intros _; exact Hrl].
  - split; [cbn; now rewrite entries_length|exact HX].
  - rewrite E in E1. injection E1 as <-. destruct (R2 ltac:(cbn; tauto)) as (ws' & W & _ & R3). rewrite Ew in W. injection W as <-.
    intros i Hi. split; [|intros j Hj; rewrite (R3 i j Hi Hj); reflexivity].
    rewrite (R1 i Hi). cbn [walked a g_S set_at g_cond g_X g_y]. apply mean_ext. intro T. apply mean_ext. intro j. cbn [averaged]. rewrite entries_nth by exact Hi.
    destruct classifier; [reflexivity|]. unfold agrees. unfold levels_at, intervals, bound. destruct down_up as [l|]; cbn [fst snd]; [reflexivity|].
    rewrite nth_repeat_lt by exact Hi. reflexivity.
Qed.
End Stored.

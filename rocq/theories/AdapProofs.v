(** Proofs for the adaptive active-coalition Shapley routine. *)
From Verif Require Import Base TreeModel TreeSpec TreeProofs GameSpec GameProofs ShapModel ShapSpec ShapProofs
  AcvModel AcvSpec AcvProofs SdpProofs SearchModel SearchSpec SearchProofs PyShapSpec AdapModel AdapSpec.

Lemma as_cols_nat d l : (forall c, In c l -> c < d) -> as_cols d (map Z.of_nat l) = Some l.
Proof.
  induction l as [|a l IH]; intro H; [reflexivity|]. cbn [map as_cols].
  rewrite IH by (intros; apply H; now right). unfold as_col.
  assert (a < d) by (apply H; now left).
  destruct (Z.leb_spec 0 (Z.of_nat a)); [|lia]. destruct (Z.ltb_spec (Z.of_nat a) (Z.of_nat d)); [|lia].
  cbn [andb]. now rewrite Nat2Z.id.
Qed.
Lemma as_cols_neg d l : In (-1)%Z l -> as_cols d l = None.
Proof.
  induction l as [|a l IH]; intro H; [contradiction|]. cbn [as_cols]. destruct H as [->|H].
  - reflexivity.
  - rewrite (IH H). now destruct (as_col d a).
Qed.
Lemma firstn_listed d s : firstn (length s) (listed d s) = map Z.of_nat s.
Proof.
  unfold listed. rewrite <- (map_length Z.of_nat s) at 1.
  rewrite firstn_app, Nat.sub_diag, firstn_all. cbn [firstn]. apply app_nil_r.
Qed.
Lemma columns_len d s : columns_ok d s -> length s <= d.
Proof.
  intros [H1 H2]. rewrite <- (seq_length d 0). apply NoDup_incl_length; [trivial|].
  intros c Hc. apply in_seq. specialize (H2 c Hc). lia.
Qed.
Lemma get_null_row d Ss : forall sizes Ns i s k,
  get_null_coalition d Ss sizes = Some Ns -> nth_error Ss i = Some s -> nth_error sizes i = Some k ->
  exists n, nth_error Ns i = Some n /\ null_coalition d s k = Some n.
Proof.
  induction Ss as [|a Ss IH]; intros [|b sizes] Ns i s k H Hs Hk; cbn [get_null_coalition] in H;
    try (destruct i; discriminate).
  destruct (null_coalition d a b) as [n|] eqn:E1; [|discriminate].
  destruct (get_null_coalition d Ss sizes) as [ns|] eqn:E2; [|discriminate]. injection H as <-.
  destruct i as [|i]; cbn [nth_error] in *.
  - injection Hs as ->. injection Hk as ->. now exists n.
  - now apply (IH sizes ns i s k).
Qed.
Lemma null_listed d s : columns_ok d s -> exists n, complement_of d s n /\
  null_coalition d (listed d s) (length s) = Some (repeat (-1)%Z (length s) ++ map Z.of_nat n).
Proof.
  intros [Hn Hb]. destruct (null_coalition_neat d s Hn Hb) as [nul [E HP]].
  assert (Hnul : nul = map Z.of_nat (map Z.to_nat nul)).
  { rewrite map_map, <- (map_id nul) at 1. apply map_ext_in. intros z Hz.
    assert (In z (map Z.of_nat (seq 0 d))) as Hz'.
    { apply (Permutation_in _ HP), in_or_app. now right. }
    apply in_map_iff in Hz'. destruct Hz' as [c [<- _]]. now rewrite Nat2Z.id. }
  set (n := map Z.to_nat nul) in *. rewrite Hnul in HP, E. exists n. split; [|exact E].
  rewrite <- map_app in HP.
  assert (HP' : Permutation (s ++ n) (seq 0 d)).
  { apply (Permutation_map Z.to_nat) in HP. rewrite !map_map in HP.
    rewrite (map_ext _ (fun c => c)) in HP by (intro; apply Nat2Z.id). rewrite map_id in HP.
    rewrite (map_ext _ (fun c => c)) in HP by (intro; apply Nat2Z.id). now rewrite map_id in HP. }
  assert (HN : NoDup (s ++ n)).
  { apply (Permutation_NoDup (Permutation_sym HP')), seq_NoDup. }
  clear -HP' HN. split.
  - induction s as [|a s IH] in HN |- *; [trivial|]. cbn in HN. inversion HN; subst. auto.
  - intro c. assert (In c (s ++ n) <-> c < d) as G.
    { assert (c < d <-> In c (seq 0 d)) as -> by (rewrite in_seq; lia).
      split; apply Permutation_in; [trivial|now symmetry]. }
    rewrite in_app_iff in G. split.
    + intro Hc. split; [tauto|]. intro Hs. clear G HP'.
      induction s as [|a s IH]; [contradiction|]. cbn in HN. inversion HN; subst.
      destruct Hs as [->|Hs]; [|auto]. apply H1. apply in_or_app. now right.
    + tauto.
Qed.
Lemma skipn_null (s : list nat) (l : list Z) : skipn (length s) (repeat (-1)%Z (length s) ++ l) = l.
Proof.
  rewrite skipn_app, repeat_length, Nat.sub_diag. cbn [skipn].
  rewrite <- (repeat_length (-1)%Z (length s)) at 1. now rewrite skipn_all.
Qed.

Section Batch.
Variables (C : list group) (d : nat) (data : list pt) (forest : list (list leaf)).
Variables (X : list pt) (Ss Ns : list (list Z)) (sizes : list nat) (i : nat) (x : pt) (s : list nat).
Hypothesis HX : nth_error X i = Some x.
Hypothesis HS : nth_error Ss i = Some (listed d s).
Hypothesis Hz : nth_error sizes i = Some (length s).
Hypothesis HN : get_null_coalition d Ss sizes = Some Ns.
Hypothesis Hs : columns_ok d s.

Lemma adap_active j : length s < d -> exists n, complement_of d s n /\
  shap_values_acv_adap C d data forest X Ss Ns sizes i j = Some (shap_values_acv C d s n data forest x j).
Proof.
  intro Hl. destruct (get_null_row d Ss sizes Ns i _ _ HN HS Hz) as [nr [E1 E2]].
  destruct (null_listed d s Hs) as [n [Hn E3]]. exists n. split; [trivial|].
  unfold shap_values_acv_adap. rewrite HX, HS, E1, Hz. unfold adap_row.
  destruct (Nat.eqb_spec (length s) d); [lia|]. cbn [negb].
  rewrite E2 in E3. injection E3 as ->. rewrite firstn_listed, skipn_null.
  rewrite as_cols_nat by apply Hs. rewrite as_cols_nat; [trivial|].
  intros c Hc. apply Hn in Hc. tauto.
Qed.
Lemma adap_full j : length s = d ->
  shap_values_acv_adap C d data forest X Ss Ns sizes i j = Some (Some (shap_values_leaves C d data forest x j)).
Proof.
  intro Hl. destruct (get_null_row d Ss sizes Ns i _ _ HN HS Hz) as [nr [E1 E2]].
  unfold shap_values_acv_adap. rewrite HX, HS, E1, Hz. unfold adap_row.
  destruct (Nat.eqb_spec (length s) d); [|lia]. reflexivity.
Qed.
End Batch.

Lemma full_all d s : columns_ok d s -> length s = d -> forall c, In c s <-> c < d.
Proof.
  intros [H1 H2] Hl c. split; [apply H2|]. intro Hc.
  assert (incl (seq 0 d) s) as Hi.
  { apply NoDup_length_incl; [trivial|rewrite seq_length; lia|].
    intros e He. apply in_seq. specialize (H2 e He). lia. }
  apply Hi, in_seq. lia.
Qed.
Lemma players_full C d s P : coalitions_ok C d -> (forall c, In c s <-> c < d) ->
  is_players_of C s P -> is_players C d P.
Proof.
  intros HC Hs [H1 H2]. split; [trivial|]. intro g. rewrite H2. split.
  - intros [[Hg [i [_ Hi]]]|[i [Hi Hr]]]; [left|right].
    + split; [trivial|]. intros ->. contradiction.
    + exists i. rewrite <- Hs. auto.
  - intros [[Hg Hne]|[i [Hi Hr]]]; [left|right].
    + split; [trivial|]. destruct g as [|i g]; [congruence|]. exists i. split; [|now left].
      apply Hs. apply HC. apply in_concat. exists (i :: g). split; [trivial|now left].
    + exists i. rewrite Hs. auto.
Qed.
Lemma worth_acv_null d n n' data forest x T : (forall c, In c n <-> In c n') ->
  (worth_acv d n data forest x T == worth_acv d n' data forest x T)%Q.
Proof.
  intro H. destruct T as [|g T]; [reflexivity|]. unfold worth_acv. apply worth_ext. intro c.
  rewrite !concat_app, !in_app_iff. cbn [concat]. rewrite !app_nil_r. now rewrite H.
Qed.
Lemma worth_acv_nil d n data forest x T : (forall c, ~ In c n) ->
  (worth_acv d n data forest x T == worth d data forest x T)%Q.
Proof.
  intro H. destruct T as [|g T]; [reflexivity|]. unfold worth_acv. apply worth_ext. intro c.
  rewrite !concat_app, !in_app_iff. cbn [concat]. rewrite !app_nil_r. specialize (H c). tauto.
Qed.
Lemma complement_unique d s n n' : complement_of d s n -> complement_of d s n' -> forall c, In c n <-> In c n'.
Proof. intros [_ H] [_ H'] c. now rewrite H, H'. Qed.
Lemma complement_cover d s n forest : columns_ok d s -> complement_of d s n -> forest_ok d forest ->
  active_null_cover s n forest.
Proof.
  intros Hs [Hn1 Hn2] HF. split; [apply Hs|]. split.
  - intros i Hi Hn. apply Hn2 in Hn. tauto.
  - intros ls lf c H1 H2 H3. destruct (HF ls lf H1 H2) as [_ [Hb _]]. specialize (Hb c H3).
    rewrite Hn2. destruct (in_dec Nat.eq_dec c s); tauto.
Qed.

Theorem adap_shapley C d data forest X Ss Ns sizes i x s n P g j q :
  nth_error X i = Some x -> nth_error Ss i = Some (listed d s) -> nth_error sizes i = Some (length s) ->
  get_null_coalition d Ss sizes = Some Ns -> columns_ok d s -> complement_of d s n ->
  coalitions_ok C d -> forest_ok d forest -> data <> [] -> is_players_of C s P -> In g P -> In j g ->
  shap_values_acv_adap C d data forest X Ss Ns sizes i j = Some (Some q) ->
  (q == shapley gdec P (worth_acv d n data forest x) g)%Q.
Proof.
  intros HX HS Hz HN Hs Hn HC HF Hd HP Hg Hj H. destruct (Nat.eq_dec (length s) d) as [E|E].
  - erewrite adap_full in H by eassumption. injection H as <-.
    pose proof (full_all d s Hs E) as Hall.
    rewrite (shap_is_shapley C d P data forest x g j HC (players_full C d s P HC Hall HP) HF Hd Hg Hj).
    apply shapley_ext. intro T. symmetry. apply worth_acv_nil. intros c Hc. apply Hn in Hc. rewrite Hall in Hc. tauto.
  - pose proof (columns_len d s Hs).
    destruct (adap_active C d data forest X Ss Ns sizes i x s HX HS Hz HN Hs j ltac:(lia)) as [n' [Hn' E']].
    rewrite E' in H. injection H as H.
    rewrite (acv_is_shapley C d s n' P data forest x g j q HC HP HF Hd (complement_cover d s n' forest Hs Hn' HF) Hg Hj H).
    apply shapley_ext. intro T. apply worth_acv_null. now apply (complement_unique d s).
Qed.
Theorem adap_efficiency C d data forest X Ss Ns sizes i x s n P (rep : list nat -> nat) (phi : nat -> Q) :
  nth_error X i = Some x -> nth_error Ss i = Some (listed d s) -> nth_error sizes i = Some (length s) ->
  get_null_coalition d Ss sizes = Some Ns -> columns_ok d s -> complement_of d s n ->
  coalitions_ok C d -> forest_ok d forest -> data <> [] -> is_players_of C s P -> P <> [] ->
  (forall g, In g P -> In (rep g) g) ->
  (forall g, In g P -> shap_values_acv_adap C d data forest X Ss Ns sizes i (rep g) = Some (Some (phi (rep g)))) ->
  (sumf (fun g => phi (rep g)) P == worth d data forest x (P ++ [n]) - worth d data forest x [])%Q.
Proof.
  intros HX HS Hz HN Hs Hn HC HF Hd HP Hne Hr Hphi.
  rewrite (sumf_ext _ (shapley gdec P (worth_acv d n data forest x))).
  - rewrite shapley_efficiency by (apply HP || apply worth_acv_is_game). destruct P; [congruence|reflexivity].
  - intros g Hg. eapply adap_shapley; try eassumption; [now apply Hr|now apply Hphi].
Qed.
Theorem adap_null_zero C d data forest X Ss Ns sizes i x s P j q :
  nth_error X i = Some x -> nth_error Ss i = Some (listed d s) -> nth_error sizes i = Some (length s) ->
  get_null_coalition d Ss sizes = Some Ns -> columns_ok d s -> coalitions_ok C d ->
  is_players_of C s P -> j < d -> (forall g, In g P -> ~ In j g) ->
  shap_values_acv_adap C d data forest X Ss Ns sizes i j = Some (Some q) -> (q == 0)%Q.
Proof.
  intros HX HS Hz HN Hs HC HP Hj Hno H. destruct (Nat.eq_dec (length s) d) as [E|E].
  - exfalso. pose proof (full_all d s Hs E) as Hall. pose proof (players_full C d s P HC Hall HP) as HP'.
    destruct (player_exists C d P j HP' Hj) as [g [Hg Hjg]]. now apply (Hno g).
  - pose proof (columns_len d s Hs).
    destruct (adap_active C d data forest X Ss Ns sizes i x s HX HS Hz HN Hs j ltac:(lia)) as [n' [Hn' E']].
    rewrite E' in H. injection H as H. apply (acv_null_zero C d s n' data forest x j q); [|trivial].
    intros g Hg. apply Hno. pose proof (acv_va_ids_players C d s HC (proj1 Hs)) as HV.
    apply HP. now apply HV.
Qed.
Lemma held_inside d data forest : leaves_held d data forest ->
  forall ls lf, In ls forest -> In lf ls -> exists z, In z data /\ Inside d (l_rect lf) z.
Proof.
  intros H ls lf H1 H2. specialize (H ls lf H1 H2). unfold rows_in in H.
  destruct (filter (sat_on (l_rect lf) (seq 0 d)) data) as [|z l] eqn:E; [now cbn in H|].
  assert (Hz : In z (filter (sat_on (l_rect lf) (seq 0 d)) data)) by (rewrite E; now left).
  apply filter_In in Hz. exists z. split; [tauto|]. apply in_rect_Inside. tauto.
Qed.
Theorem adap_defined C d data forest X Ss Ns sizes i x s j :
  nth_error X i = Some x -> nth_error Ss i = Some (listed d s) -> nth_error sizes i = Some (length s) ->
  get_null_coalition d Ss sizes = Some Ns -> columns_ok d s -> s <> [] ->
  coalitions_ok C d -> forest_ok d forest -> data <> [] -> leaves_held d data forest ->
  In j s -> exists q, shap_values_acv_adap C d data forest X Ss Ns sizes i j = Some (Some q).
Proof.
  intros HX HS Hz HN Hs Hne HC HF Hd HL Hj. destruct (Nat.eq_dec (length s) d) as [E|E].
  - erewrite adap_full by eassumption. eauto.
  - pose proof (columns_len d s Hs).
    destruct (adap_active C d data forest X Ss Ns sizes i x s HX HS Hz HN Hs j ltac:(lia)) as [n' [Hn' ->]].
    destruct (acv_defined C d s n' data forest x j [] HC (proj1 Hs) HF (or_introl Hj)
      (held_inside d data forest HL) Hd) as [q ->]. eauto.
Qed.
(** the layout of the docstring *)
Theorem adap_documented C d data forest x s n j : columns_ok d s -> s <> [] -> length s < d -> complement_of d s n ->
  adap_row C d data forest x (listed d s) (listed d n) (length s) j = None.
Proof.
  intros Hs Hne Hl Hn. unfold adap_row. destruct (Nat.eqb_spec (length s) d); [lia|]. cbn [negb].
  assert (Hlen : length n = d - length s).
  { assert (HP : Permutation (s ++ n) (seq 0 d)).
    { apply NoDup_Permutation.
      - destruct Hs as [H1 _], Hn as [H2 H3]. apply NoDup_app_intro; trivial. intros c Hc Hc'. apply H3 in Hc'. tauto.
      - apply seq_NoDup.
      - intro c. rewrite in_app_iff, (proj2 Hn). rewrite in_seq. destruct Hs as [_ Hb].
        destruct (in_dec Nat.eq_dec c s) as [K|K]; [specialize (Hb c K)|]; intuition lia. }
    apply Permutation_length in HP. rewrite app_length, seq_length in HP. lia. }
  rewrite (as_cols_neg d (skipn (length s) (listed d n))).
  - now destruct (as_cols d (firstn (length s) (listed d s))).
  - unfold listed. rewrite skipn_app, map_length, Hlen.
    apply in_or_app. right. replace (d - (d - length s)) with (length s) by lia.
    assert (length s <> 0) by (destruct s; [congruence|cbn; lia]).
    destruct (length s - (d - length s)) as [|k] eqn:Ek.
    + cbn [skipn]. destruct (length s); [lia|now left].
    + assert (HI : forall a b, a < b -> In (-1)%Z (skipn a (repeat (-1)%Z b))).
      { clear. induction a as [|a IH]; intros [|b] H; try lia; [now left|]. cbn. apply IH. lia. }
      apply HI. lia.
Qed.
Theorem acv_all_active C d P data forest x g j q :
  coalitions_ok C d -> is_players C d P -> forest_ok d forest -> data <> [] -> In g P -> In j g ->
  shap_values_acv C d (seq 0 d) [] data forest x j = Some q ->
  (q == shap_values_leaves C d data forest x j)%Q.
Proof.
  intros HC HP HF Hd Hg Hj H.
  rewrite (shap_is_shapley C d P data forest x g j HC HP HF Hd Hg Hj).
  assert (HP' : is_players_of C (seq 0 d) P).
  { destruct HP as [H1 H2]. split; [trivial|]. intro h. rewrite H2. split.
    - intros [[Hh Hne]|[i [Hi Hr]]]; [left|right].
      + split; [trivial|]. destruct h as [|i h]; [congruence|]. exists i. split; [|now left].
        apply in_seq. split; [lia|]. apply HC. apply in_concat. exists (i :: h). split; [trivial|now left].
      + exists i. rewrite in_seq. split; [lia|trivial].
    - intros [[Hh [i [_ Hi]]]|[i [Hi Hr]]]; [left|right].
      + split; [trivial|]. intros ->. contradiction.
      + exists i. apply in_seq in Hi. split; [lia|trivial]. }
  assert (HA : active_null_cover (seq 0 d) [] forest).
  { split; [apply seq_NoDup|]. split; [easy|]. intros ls lf c H1 H2 H3. left.
    destruct (HF ls lf H1 H2) as [_ [Hb _]]. apply in_seq. specialize (Hb c H3). lia. }
  rewrite (acv_is_shapley C d (seq 0 d) [] P data forest x g j q HC HP' HF Hd HA Hg Hj H).
  apply shapley_ext. intro T. apply worth_acv_nil. easy.
Qed.

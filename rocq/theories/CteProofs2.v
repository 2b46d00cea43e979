(** Lemmas about the estimators made from the sections of the leaves. *)
From Verif Require Import Base TreeModel TreeSpec TreeProofs ShapModel SdpModel RulesModel RulesModelProofs PartModel PartSpec PartProofs
  MvnModel GmmModel McModel SwingModel PermModel CteModel CteSpec CteProofs.
Local Open Scope nat_scope.

Section Plugin.
Variables (t : tree) (d : nat).
Hypothesis Hwf : wf_tree t d = true.
Hypothesis Hsk : sk_tree t.
Variables (w : nat -> Q) (x : pt) (Sv : list nat) (ls : list (nat * rect)) (data : list pt).
Hypothesis HSne : Sv <> [].
Hypothesis HSd : length Sv <> d.
Hypothesis Hd : 2 <= d.
Hypothesis HS : forall s, In s Sv -> s < d.
Hypothesis E : compatible t x Sv = Some ls.

Lemma plugin_unfold data' : exp_plugin t w x Sv d data' = option_map (total (vlq t)) (ratios w Sv data' ls).
Proof.
  unfold exp_plugin. destruct Sv as [|s r] eqn:Es; [contradiction|]. rewrite <- Es in *.
  destruct (Nat.eqb_spec (length Sv) d); [contradiction|]. rewrite (subscripts_true d Sv Hd HS), (all_parts_compatible t d Hwf Hsk x Sv), E. reflexivity.
Qed.
Lemma section_filter F p data' : F <> [] -> section data' F p = length (filter (in_sides p F) data').
Proof. destruct F; [contradiction|reflexivity]. Qed.
Lemma ratios_some data' ps : ratios w Sv data' ls = Some ps ->
  (forall lp, In lp ls -> section data' Sv (snd lp) <> 0) /\ ps = map (fun lp => (fst lp, (w (fst lp) / Qn (section data' Sv (snd lp)))%Q)) ls.
Proof.
  unfold ratios. destruct (forallb _ ls) eqn:F; [|discriminate]. intro H. injection H as <-. split; [|reflexivity].
  rewrite forallb_forall in F. intros lp Hl. specialize (F lp Hl). apply negb_true_iff, Nat.eqb_neq in F. exact F.
Qed.
Lemma total_map (h : nat -> Q) data' :
  (total h (map (fun lp => (fst lp, (w (fst lp) / Qn (section data' Sv (snd lp)))%Q)) ls) == sumf (fun lp => w (fst lp) / Qn (section data' Sv (snd lp)) * h (fst lp)) ls)%Q.
Proof. unfold total. rewrite sumf_map. apply sumf_ext. intros lp _. cbn [fst snd]. reflexivity. Qed.
(** doubling the rows halves the result *)
Lemma plugin_twice q : exp_plugin t w x Sv d data = Some q -> exists q', exp_plugin t w x Sv d (data ++ data) = Some q' /\ (q' == q / 2)%Q.
Proof.
  rewrite !plugin_unfold. destruct (ratios w Sv data ls) as [ps|] eqn:R; [|discriminate]. cbn [option_map]. intro H. injection H as <-.
  destruct (ratios_some data ps R) as [Hn ->].
  assert (S2 : forall p, section (data ++ data) Sv p = 2 * section data Sv p).
  { intro p. rewrite !section_filter by exact HSne. rewrite filter_app, app_length. lia. }
  unfold ratios at 1. assert (F : forallb (fun lp => negb (section (data ++ data) Sv (snd lp) =? 0)) ls = true).
  { apply forallb_forall. intros lp Hl. apply negb_true_iff, Nat.eqb_neq. rewrite S2. specialize (Hn lp Hl). lia. }
  rewrite F. cbn [option_map]. eexists. split; [reflexivity|]. rewrite !total_map. unfold Qdiv at 2. rewrite <- sumf_scal_r. apply sumf_ext. intros lp Hl.
  rewrite S2, Qn_mult. specialize (Hn lp Hl). apply Qn_neq0 in Hn. change (Qn 2) with 2%Q. field. exact Hn.
Qed.

Section Common.
Variable A : pt -> bool.
Hypothesis HA : forall l p z, In (l, p) ls -> In z data -> decided (A z) (within p Sv z).
Hypothesis Hoff : forall z, In z data -> off_thresholds t z.
Hypothesis Hne : filter A data <> [].
Lemma HA' l p z : In (l, p) ls -> In z data -> in_sides p Sv z = A z.
Proof. intros Hl Hz. apply eq_true_iff_eq. rewrite in_sides_within. symmetry. now apply (HA l). Qed.
Lemma common_section lp : In lp ls -> section data Sv (snd lp) = length (filter A data).
Proof.
  intro Hl. rewrite section_filter by exact HSne. f_equal. apply filter_ext_in'. intros z Hz. destruct lp as [l p]. now apply (HA' l).
Qed.
Lemma common_leaf z : In z data -> memb (leaf_at t z) (map fst ls) = A z.
Proof.
  intro Hz. apply eq_true_iff_eq. rewrite memb_true. split.
  - intro H. apply in_map_iff in H. destruct H as [[l p] [H1 H2]]. cbn in H1.
    rewrite <- (HA' l p z H2 Hz).
    assert (K : in_sides p Sv z && in_sides p (others d Sv) z = true).
    { apply (row_leaf t d x Sv ls Hwf HS E z l p (Hoff z Hz) H2). rewrite H1. now apply (leaf_at_spec t d). }
    now apply andb_true_iff in K.
  - intro H. destruct (row_section t d x Sv ls Hwf E z (Hoff z Hz)) as [l [p [H1 H2]]].
    { intros l p Hl. now rewrite (HA' l p z Hl Hz). }
    rewrite (leaf_at_spec t d Hwf z) in H2. injection H2 as ->. apply in_map_iff. exists (l, p). auto.
Qed.
Lemma Npos : ~ (Qn (length (filter A data)) == 0)%Q.
Proof. apply Qn_neq0. destruct (filter A data); [contradiction|discriminate]. Qed.
Lemma common_ratios : ratios w Sv data ls = Some (map (fun lp => (fst lp, (w (fst lp) / Qn (section data Sv (snd lp)))%Q)) ls).
Proof.
  unfold ratios. assert (F : forallb (fun lp => negb (section data Sv (snd lp) =? 0)) ls = true).
  { apply forallb_forall. intros lp Hl. apply negb_true_iff, Nat.eqb_neq. rewrite (common_section lp Hl). destruct (filter A data); [contradiction|discriminate]. }
  now rewrite F.
Qed.
Hypothesis Hc : counts t w data.
Lemma common_total (h : Q -> Q) :
  (sumf (fun lp => w (fst lp) / Qn (section data Sv (snd lp)) * h (vlq t (fst lp))) ls * Qn (length (filter A data)) == sumf (fun z => h (val t z)) (filter A data))%Q.
Proof.
  rewrite (sumf_ext _ (fun lp => / Qn (length (filter A data)) * (w (fst lp) * h (vlq t (fst lp))))%Q) by (intros lp Hl; rewrite (common_section lp Hl); unfold Qdiv; ring).
  rewrite sumf_scal. rewrite <- (sumf_map fst (fun l => w l * h (vlq t l))%Q).
  destruct (compat_leaf t d Hwf x Sv ls E) as [ND [L _]].
  destruct (leaves_rows t d Hwf w data (map fst ls) h Hc ND L) as [S1 _]. rewrite S1.
  rewrite (filter_ext_in' (fun z => memb (leaf_at t z) (map fst ls)) A data common_leaf). field. exact Npos.
Qed.
Lemma plugin_common : exists q, exp_plugin t w x Sv d data = Some q /\ mean_pred t (filter A data) q.
Proof.
  rewrite plugin_unfold, common_ratios. cbn [option_map]. eexists. split; [reflexivity|].
  apply (mean_over_val t d Hwf); [exact Hne|]. rewrite total_map. exact (common_total (fun q => q)).
Qed.
End Common.

(** ** Distances *)
Variable fx : Q.
Lemma dist_unfold : dist_weights t w x Sv d data = ratios w Sv data ls.
Proof.
  unfold dist_weights. destruct Sv as [|s r] eqn:Es; [contradiction|]. rewrite <- Es in *.
  rewrite (subscripts_true d Sv Hd HS), (all_parts_compatible t d Hwf Hsk x Sv), E. reflexivity.
Qed.
Lemma all_columns_false : all_columns Sv d = false.
Proof. unfold all_columns. destruct Sv; [contradiction|]. now apply Nat.eqb_neq. Qed.
Lemma normalised_total ps (h : nat -> Q) qs : normalised ps = Some qs -> (total h qs * sumf snd ps == total h ps)%Q /\ (total (fun _ => 1%Q) qs == 1)%Q.
Proof.
  unfold normalised. destruct (qeqb_spec (sumf snd ps) 0) as [C|C]; [discriminate|]. intro H. injection H as <-. unfold total.
  rewrite !sumf_map. split.
  - rewrite (sumf_ext _ (fun lp => / sumf snd ps * (snd lp * h (fst lp)))%Q) by (intros; cbn [fst snd]; unfold Qdiv; ring).
    rewrite sumf_scal. field. exact C.
  - rewrite (sumf_ext _ (fun lp => / sumf snd ps * snd lp)%Q) by (intros; cbn [fst snd]; unfold Qdiv; ring).
    rewrite sumf_scal. field. exact C.
Qed.
Lemma dist_common A : (forall l p z, In (l, p) ls -> In z data -> decided (A z) (within p Sv z)) -> (forall z, In z data -> off_thresholds t z) ->
  filter A data <> [] -> counts t w data ->
  exists q, dist_plugin t w x Sv d data fx = Some q /\ mean_over t (sq fx) (filter A data) q.
Proof.
  intros HA Hoff Hne Hc. unfold dist_plugin. rewrite all_columns_false, dist_unfold, (common_ratios A HA Hne).
  set (ps := map _ ls).
  assert (S1 : (sumf snd ps == 1)%Q).
  { assert (K : (sumf snd ps * Qn (length (filter A data)) == Qn (length (filter A data)))%Q).
    { pose proof (common_total A HA Hoff Hne Hc (fun _ => 1%Q)) as K. 
      assert (K1 : (sumf (fun z : pt => (fun _ => 1%Q) (val t z)) (filter A data) == Qn (length (filter A data)))%Q) by (cbv beta; rewrite sumf_const; ring).
      rewrite K1 in K. rewrite <- K at 2. apply Qmult_comp; [|reflexivity].
      unfold ps. rewrite sumf_map. apply sumf_ext. intros; cbn [snd]; ring. }
    pose proof (Npos A Hne) as N. transitivity (sumf snd ps * Qn (length (filter A data)) / Qn (length (filter A data)))%Q; [field; exact N|]. rewrite K. field. exact N. }
  assert (Hn : exists qs, normalised ps = Some qs) by (unfold normalised; destruct (qeqb_spec (sumf snd ps) 0); [lra|eauto]).
  destruct Hn as [qs Hn]. rewrite Hn. cbn [option_map]. eexists. split; [reflexivity|]. apply (mean_over_val t d Hwf); [exact Hne|].
  destruct (normalised_total ps (fun l => sq fx (vlq t l)) qs Hn) as [T _]. rewrite S1, Qmult_1_r in T. rewrite T. unfold ps. rewrite total_map.
  exact (common_total A HA Hoff Hne Hc (sq fx)).
Qed.
End Plugin.

Section Dist.
Variables (t : tree) (d : nat).
Hypothesis Hwf : wf_tree t d = true.
Hypothesis Hsk : sk_tree t.
Lemma total_ext (h h' : nat -> Q) ps : (forall l, In l (map fst ps) -> (h l == h' l)%Q) -> (total h ps == total h' ps)%Q.
Proof. intro H. unfold total. apply sumf_ext. intros lp Hl. rewrite (H (fst lp)); [reflexivity|]. now apply in_map. Qed.
Lemma dist_two w x Sv data fx : match dist_plugin t w x Sv d data fx, dist_plugin2 t w x Sv d data fx with
  | Some q, Some r => (q == r)%Q | None, None => True | _, _ => False end.
Proof.
  unfold dist_plugin, dist_plugin2. destruct (all_columns Sv d); [destruct (option_map _ _); [reflexivity|exact I]|].
  destruct (dist_weights t w x Sv d data) as [ps|]; [|exact I]. destruct (normalised ps) as [qs|] eqn:N; [|exact I]. cbn [option_map].
  destruct (normalised_total ps (fun _ => 0%Q) qs N) as [_ T].
  rewrite (total_ext (fun l => sq fx (vlq t l)) (fun l => vlq t l * vlq t l + fx * fx - 2 * fx * vlq t l)%Q) by (intros; unfold sq; ring).
  unfold total in *. rewrite (sumf_ext _ (fun lp => snd lp * (vlq t (fst lp) * vlq t (fst lp)) + fx * fx * (snd lp * 1) - 2 * fx * (snd lp * vlq t (fst lp)))%Q) by (intros; ring).
  rewrite sumf_minus, sumf_plus, !sumf_scal, T. ring.
Qed.
Lemma dist_weights_leaves w x Sv data ls ps : compatible t x Sv = Some ls -> dist_weights t w x Sv d data = Some ps ->
  (forall lp, In lp ps -> In (fst lp) (map fst ls)) /\ (fitted t w -> forall lp, In lp ps -> (0 <= snd lp)%Q).
Proof.
  intros E H. destruct (compat_leaf t d Hwf x Sv ls E) as [ND [L Hne]]. unfold dist_weights in H. destruct Sv as [|s r] eqn:Es.
  - destruct (marked_leaves_perm t d Hwf Hsk x [] ls E) as [ms [Em HP]]. rewrite Em in H.
    destruct (qeqb_spec (sumf w ms) 0) as [C|C]; [discriminate|]. injection H as <-. split.
    + intros lp Hl. apply in_map_iff in Hl. destruct Hl as [l [<- Hl]]. cbn. apply (Permutation_in _ HP Hl).
    + intros Hf lp Hl. apply in_map_iff in Hl. destruct Hl as [l [<- Hl]]. cbn.
      assert (Hp : forall l, In l ms -> (0 < w l)%Q) by (intros k Hk; apply (fitted_pos t w Hf); apply L; apply (Permutation_in _ HP Hk)).
      apply Qdiv_nonneg; [apply Qlt_le_weak; now apply Hp|]. apply sumf_pos; [destruct ms; [contradiction|discriminate]|exact Hp].
  - rewrite <- Es in *. destruct (subscripts_ok d Sv); [|discriminate]. rewrite (all_parts_compatible t d Hwf Hsk x Sv), E in H.
    destruct (ratios_some w Sv ls data ps H) as [Hn ->]. split.
    + intros lp Hl. apply in_map_iff in Hl. destruct Hl as [l [<- Hl]]. cbn. now apply in_map.
    + intros Hf lp Hl. apply in_map_iff in Hl. destruct Hl as [l [<- Hl]]. cbn.
      apply Qdiv_nonneg; [apply Qlt_le_weak, (fitted_pos t w Hf), L; now apply in_map|]. apply Qn_pos. specialize (Hn l Hl). lia.
Qed.
Lemma dist_between w x Sv data fx lo hi q : fitted t w -> 0 < d -> length Sv <> d -> met_between t x Sv (sq fx) lo hi -> dist_plugin t w x Sv d data fx = Some q -> (lo <= q <= hi)%Q.
Proof.
  intros Hf Hd0 HSd H. unfold dist_plugin.
  assert (A : all_columns Sv d = false) by (unfold all_columns; destruct Sv; [reflexivity|now apply Nat.eqb_neq]). rewrite A.
  destruct (compatible_total t d Hwf x Sv) as [ls E]. destruct (dist_weights t w x Sv d data) as [ps|] eqn:D; [|discriminate].
  destruct (dist_weights_leaves w x Sv data ls ps E D) as [M P]. specialize (P Hf).
  destruct (normalised ps) as [qs|] eqn:N; [|discriminate]. cbn [option_map]. intro Hq. injection Hq as <-.
  destruct (normalised_total ps (fun l => sq fx (vlq t l)) qs N) as [T _].
  assert (Sp : (0 < sumf snd ps)%Q).
  { assert (K : (0 <= sumf snd ps)%Q) by now apply sumf_nonneg. unfold normalised in N. destruct (qeqb_spec (sumf snd ps) 0) as [C|C]; [discriminate|]. lra. }
  destruct (weighted_between snd (fun lp : nat * Q => sq fx (vlq t (fst lp))) ps lo hi P) as [B1 B2].
  { intros lp Hl. apply H; [|apply (compat_leaf t d Hwf x Sv ls E), M, Hl].
    specialize (M lp Hl). unfold compatible in E. now apply (explore_may t d Hwf x Sv _ _ _ _ (wf_pos t d Hwf) E) in M. }
  unfold total in T at 2. rewrite <- T in B1, B2. split; apply (Qmult_le_r _ _ _ Sp); trivial.
Qed.
Lemma dist_full w x Sv data fx : Sv <> [] -> length Sv = d -> exists v, leaf_value t x no_missing v /\ dist_plugin t w x Sv d data fx = Some (sq fx v).
Proof.
  intros Hne HSd. unfold dist_plugin. assert (A : all_columns Sv d = true) by (unfold all_columns; destruct Sv; [contradiction|now apply Nat.eqb_eq]).
  rewrite A. destruct (predicted_value t d Hwf x) as [v [-> Hv]]. exists v. auto.
Qed.
Lemma dist_empty w x data rows fx : counts t w rows -> rows <> [] -> exists q, dist_plugin t w x [] d data fx = Some q /\ mean_over t (sq fx) rows q.
Proof.
  intros Hc Hn. destruct (compatible_total t d Hwf x []) as [ls E]. destruct (marked_leaves_perm t d Hwf Hsk x [] ls E) as [ms [Em HP]].
  destruct (compat_leaf t d Hwf x [] ls E) as [ND [L _]].
  assert (ND' : NoDup ms) by (eapply Permutation_NoDup; [apply Permutation_sym; exact HP|exact ND]).
  assert (L' : forall l, In l ms -> l < nn t /\ is_leaf t l = true) by (intros l Hl; apply L; eapply Permutation_in; eauto).
  destruct (leaves_rows t d Hwf w rows ms (sq fx) Hc ND' L') as [S1 S2].
  assert (F : filter (fun z => memb (leaf_at t z) ms) rows = rows).
  { apply filter_all. intros z _. apply memb_true. eapply Permutation_in; [apply Permutation_sym; exact HP|]. apply memb_true. now apply (empty_all t d Hwf x). }
  rewrite F in S1, S2. assert (N : ~ (Qn (length rows) == 0)%Q) by (apply Qn_neq0; destruct rows; [contradiction|discriminate]).
  unfold dist_plugin. cbn [all_columns]. unfold dist_weights. rewrite Em. destruct (qeqb_spec (sumf w ms) 0) as [C|C]; [exfalso; apply N; now rewrite <- S2|].
  set (ps := map _ ms). assert (P1 : (sumf snd ps == 1)%Q).
  { unfold ps. rewrite sumf_map. rewrite (sumf_ext _ (fun l => / sumf w ms * w l)%Q) by (intros; cbn [snd]; unfold Qdiv; ring). rewrite sumf_scal. field. exact C. }
  assert (Hq : exists qs, normalised ps = Some qs) by (unfold normalised; destruct (qeqb_spec (sumf snd ps) 0); [lra|eauto]).
  destruct Hq as [qs Hq]. rewrite Hq. cbn [option_map]. eexists. split; [reflexivity|]. apply (mean_over_val t d Hwf); [exact Hn|].
  destruct (normalised_total ps (fun l => sq fx (vlq t l)) qs Hq) as [T _]. rewrite P1, Qmult_1_r in T. rewrite T. unfold total, ps. rewrite sumf_map.
  rewrite (sumf_ext _ (fun l => / sumf w ms * (w l * sq fx (vlq t l)))%Q) by (intros; cbn [fst snd]; unfold Qdiv; ring).
  rewrite sumf_scal, S1, S2. field. exact N.
Qed.
End Dist.

(** Statements about the interventional, exact and sampled estimators, the same-decision probability and the Shapley values. *)
From Verif Require Import Base TreeModel TreeSpec TreeProofs ShapModel SdpModel RulesModel RulesModelProofs PartModel PartSpec PartProofs
  GameSpec GameProofs ShapSpec MvnModel GmmModel GmmSpec McModel McSpec McProofs SwingModel PermModel PermSpec PermProofs CteModel CteSpec CteProofs CteProofs2 CteProofs3.
Local Open Scope nat_scope.

Section S4.
Variables (t : tree) (d : nat).
Hypothesis Hwf : wf_tree t d = true.
Hypothesis Hsk : sk_tree t.

Lemma rest_sub Sv idx : (forall k, In k idx -> k < d) -> forall k, In k (rest Sv idx) -> k < d.
Proof. intros H k Hk. apply (rest_in Sv idx) in Hk. now apply H. Qed.
Lemma intv_unfold w x Sv idx data ls : Sv <> [] -> length Sv <> d -> 2 <= d -> (forall k, In k idx -> k < d) -> compatible t x Sv = Some ls ->
  exp_intv t w x Sv d idx data = shares t Sv idx data ls.
Proof.
  intros Hn Hl Hd Hi E. unfold exp_intv. destruct Sv as [|s r] eqn:Es; [contradiction|]. rewrite <- Es in *.
  destruct (Nat.eqb_spec (length Sv) d); [contradiction|]. rewrite (subscripts_true d (rest Sv idx) Hd (rest_sub Sv idx Hi)), (all_parts_compatible t d Hwf Hsk), E. reflexivity.
Qed.
Lemma intv_mean w x Sv idx data : Sv <> [] -> length Sv <> d -> 2 <= d -> (forall k, In k idx -> k < d) ->
  (forall i, i < nn t -> leaf_node t i = false -> In (ftn t i) Sv \/ In (ftn t i) idx) -> (exists k, In k idx /\ ~ In k Sv) ->
  (forall z, In z data -> off_thresholds t z) -> data <> [] ->
  exists q, exp_intv t w x Sv d idx data = Some q /\ mean_pred t (map (splice Sv x) data) q.
Proof.
  intros Hn Hl Hd Hi Hs Hr Ho Hne. destruct (compatible_total t d Hwf x Sv) as [ls E]. rewrite (intv_unfold w x Sv idx data ls); trivial.
  now apply (shares_mean t d Hwf x Sv ls E idx data).
Qed.
Lemma intv2_mean x Sv idx data : length Sv <> d -> (forall k, In k idx -> k < d) ->
  (forall i, i < nn t -> leaf_node t i = false -> In (ftn t i) Sv \/ In (ftn t i) idx) -> (exists k, In k idx /\ ~ In k Sv) ->
  (forall z, In z data -> off_thresholds t z) -> data <> [] ->
  exists q, exp_intv2 t x Sv d idx data = Some q /\ mean_pred t (map (splice Sv x) data) q.
Proof.
  intros Hl Hi Hs Hr Ho Hne. destruct (compatible_total t d Hwf x Sv) as [ls E]. unfold exp_intv2. destruct (Nat.eqb_spec (length Sv) d); [contradiction|].
  destruct (two_boxes t d Hwf Hsk x Sv ls E) as [ms [ps [-> [Ep [HP _]]]]]. rewrite Ep.
  pose proof (shares_boxes t d Hwf x Sv ls E idx data ms ps HP Ep) as K.
  destruct (shares_mean t d Hwf x Sv ls E idx data Hi Hs Hr Ho Hne) as [q [Eq [Hm [v [V1 V2]]]]]. rewrite Eq in K.
  destruct (shares t Sv idx data ps) as [r|]; [|contradiction]. exists r. split; [reflexivity|]. split; [exact Hm|]. exists v. split; [exact V1|]. now rewrite <- K.
Qed.
Lemma intv_two w x Sv idx data : Sv <> [] -> 2 <= d -> (forall k, In k idx -> k < d) ->
  match exp_intv t w x Sv d idx data, exp_intv2 t x Sv d idx data with Some q, Some r => (q == r)%Q | None, None => True | _, _ => False end.
Proof.
  intros Hn Hd Hi. destruct (Nat.eq_dec (length Sv) d) as [Hl|Hl].
  - unfold exp_intv, exp_intv2. rewrite Hl, Nat.eqb_refl. destruct Sv as [|s r]; [contradiction|].
    destruct (predicted_value t d Hwf x) as [v [-> _]]. reflexivity.
  - destruct (compatible_total t d Hwf x Sv) as [ls E]. rewrite (intv_unfold w x Sv idx data ls); trivial. unfold exp_intv2. destruct (Nat.eqb_spec (length Sv) d); [contradiction|].
    destruct (two_boxes t d Hwf Hsk x Sv ls E) as [ms [ps [-> [Ep [HP _]]]]]. rewrite Ep. exact (shares_boxes t d Hwf x Sv ls E idx data ms ps HP Ep).
Qed.

(** ** Exact *)
Lemma others_complement Sv : PartModel.others d Sv = complement d Sv.
Proof.
  unfold PartModel.others, complement. apply filter_ext_in'. intros k _. destruct (in_dec Nat.eq_dec k Sv) as [H|H]; [now rewrite (proj2 (memb_true k Sv) H)|now rewrite (proj2 (memb_false k Sv) H)].
Qed.
Lemma exact_mean x Sv pcmvnorm Ex v : mean_law Ex -> gives_boxes pcmvnorm (complement d Sv) Sv x Ex -> length Sv <> d -> d <> 1 ->
  (forall z, leaf_value t z no_missing (v z)) ->
  exists q r, exp_exact t x Sv d pcmvnorm = Some q /\ exp_exact_v1 t x Sv d pcmvnorm = Some r /\ (q == Ex (fun z => v (splice Sv x z)))%Q /\ (r == q)%Q.
Proof.
  intros HE HG Hl Hd Hv. rewrite <- others_complement in HG. destruct (compatible_total t d Hwf x Sv) as [ls E].
  destruct (exact_both t d Hwf Hsk x Sv ls E pcmvnorm Ex HE HG Hl Hd) as [q [r [H1 [H2 [H3 H4]]]]]. exists q, r. split; [exact H1|]. split; [exact H2|]. split; [|exact H4].
  rewrite H3. apply HE. intro z. rewrite (leaf_value_unique t d _ _ _ _ Hwf (Hv (splice Sv x z)) (val_spec t d Hwf (splice Sv x z))). reflexivity.
Qed.
Lemma exact_between x Sv pcmvnorm Ex lo hi q : mean_law Ex -> gives_boxes pcmvnorm (complement d Sv) Sv x Ex -> length Sv <> d -> d <> 1 ->
  met_between t x Sv (fun v => v) lo hi -> exp_exact t x Sv d pcmvnorm = Some q -> (lo <= q <= hi)%Q.
Proof.
  intros HE HG Hl Hd H Eq. destruct (exact_mean x Sv pcmvnorm Ex (val t) HE HG Hl Hd (val_spec t d Hwf)) as [q' [r [E1 [_ [E2 _]]]]].
  rewrite Eq in E1. injection E1 as <-. rewrite E2. destruct (compatible_total t d Hwf x Sv) as [ls E].
  assert (B : forall z, (lo <= val t (splice Sv x z) <= hi)%Q).
  { intro z. pose proof (splice_leaf t d Hwf x Sv ls E z) as M. apply (leaf_in t d Hwf x Sv ls (splice Sv x z) E) in M. destruct M as [l [M [L V]]].
    unfold val. apply (vis_spec t d Hwf) in V. rewrite (vis_leaf t d Hwf l _ L) in V. apply Nat.eqb_eq in V. rewrite <- V. now apply H. }
  destruct HE as [X1 [X2 [X3 [X4 X5]]]].
  assert (C : forall c, (Ex (fun _ => c) == c)%Q).
  { intro c. rewrite (X1 (fun _ => c) (fun _ => c * 1)%Q) by (intros; ring). rewrite X3, X5. ring. }
  split; [rewrite <- (C lo)|rewrite <- (C hi)]; apply X4; intro z; apply B.
Qed.

(** ** Sampling the marginal law *)
Lemma walk_reads u v : (forall k, k < d -> (u k == v k)%Q) -> forall f i, i < nn t -> TreeModel.walk f t u no_missing i = TreeModel.walk f t v no_missing i.
Proof.
  intros H. induction f as [|f IH]; intros i Hi; [reflexivity|]. cbn [TreeModel.walk]. destruct (is_leaf t i) eqn:El; [reflexivity|].
  destruct (wf_internal t d Hwf i Hi El) as [A [B [_ [C _]]]].
  assert (E : next_node t u no_missing i = next_node t v no_missing i).
  { unfold next_node, no_missing. assert (Q1 : qleb (u (ftn t i)) (thq t i) = qleb (v (ftn t i)) (thq t i)) by (apply eq_true_iff_eq; rewrite !qleb_true, (H _ C); reflexivity). now rewrite Q1. }
  rewrite E. apply IH. unfold next_node, no_missing. destruct (qleb _ _); lia.
Qed.
Lemma tree_reads : reads d (fun z => predict_value t z no_missing).
Proof.
  intros u v H. unfold predict_value, predict_leaf. rewrite (walk_reads u v H _ _ (wf_pos t d Hwf)). destruct (TreeModel.walk _ _ _ _ _); cbn; [reflexivity|exact I].
Qed.
Lemma val_reads u v : (forall k, k < d -> (u k == v k)%Q) -> val t u = val t v.
Proof. intro H. unfold val, leaf_at, predict_leaf. now rewrite (walk_reads u v H _ _ (wf_pos t d Hwf)). Qed.
Lemma mc_intv_mean x Sv rg : d <= 10 -> NoDup Sv -> (forall k, In k Sv -> k < d) -> length Sv <> d -> (forall row, In row rg -> length row = d) -> rg <> [] ->
  exists q, exp_mc_intv t x Sv d (seq 0 d) rg = Some q /\ mean_pred t (map (fun row => splice Sv x (fun k => nth k row 0%Q)) rg) q.
Proof.
  intros Hd HN HS Hl Hrg Hne. unfold exp_mc_intv. destruct (Nat.eqb_spec (length Sv) d); [contradiction|].
  destruct (filled_spec (seq 0 d) rg Sv x d) as [rows [E [E1 E2]]].
  - apply seq_NoDup.
  - intros row K. rewrite seq_length. now apply Hrg.
  - intro j. rewrite in_seq. split; [lia|]. intros [K|K]; [now apply HS|lia].
  - exact Hd.
  - rewrite E. assert (T : exists q, mean_of (fun z => predict_value t z no_missing) rows = Some q).
    { unfold mean_of. assert (F : exists s, fold_right (fun (r : vec) acc => match predict_value t r no_missing, acc with Some a, Some b => Some (a + b)%Q | _, _ => None end) (Some 0%Q) rows = Some s).
      { clear -Hwf. induction rows as [|r rows IH]; [eexists; reflexivity|]. cbn [fold_right]. rewrite (predict_val t d Hwf). destruct IH as [s ->]. eexists. reflexivity. }
      destruct F as [s F]. cbv beta. rewrite F, E1. destruct rg; [contradiction|]. cbn. eauto. }
    destruct T as [q Eq]. exists q. split; [exact Eq|].
    destruct (McProofs.mean_rows (fun z => predict_value t z no_missing) d rows q rg (fun row => splice Sv x (fun k => nth k row 0%Q)) [] tree_reads Eq E1) as [_ [_ K]].
    + intros i Hi k Hk. destruct (E2 i (fun _ => 0%Q) Hi k Hk) as [A B]. unfold splice. destruct (in_dec Nat.eq_dec k Sv) as [M|M].
      * now rewrite A.
      * rewrite (B M k); [reflexivity|rewrite seq_length; exact Hk|rewrite seq_nth; [reflexivity|exact Hk]].
    + apply (mean_over_val t d Hwf); [destruct rg; [contradiction|discriminate]|]. rewrite map_length, K, sumf_map. apply sumf_ext. intros row _. now rewrite (predict_val t d Hwf).
Qed.

(** ** Same-decision probability *)
Section Sdp.
Variables (w : nat -> Q) (x : pt) (Sv idx : list nat) (data : list pt) (fx tx : Q) (ls : list (nat * rect)).
Hypothesis Hne : Sv <> [].
Hypothesis Hl : length Sv <> d.
Hypothesis Hd : 2 <= d.
Hypothesis HS : forall k, In k Sv -> k < d.
Hypothesis Hidx : forall k, In k idx -> k < d.
Hypothesis Hsplit : forall i, i < nn t -> leaf_node t i = false -> In (ftn t i) Sv \/ In (ftn t i) idx.
Hypothesis E : compatible t x Sv = Some ls.
Lemma rest_others l p z : In (l, p) ls -> in_sides p (rest Sv idx) z = in_sides p (PartModel.others d Sv) z.
Proof.
  intro Hp. apply eq_true_iff_eq. unfold in_sides. rewrite !forallb_forall. split; intros H s Hs.
  - apply (others_in d Sv) in Hs. destruct (in_dec Nat.eq_dec s idx) as [K|K]; [apply H, (rest_in Sv idx); tauto|].
    rewrite (explore_unsplit t d Hwf x Sv s) with (p := whole) (f := nn t) (i := 0) (ls := ls) (l := l); trivial; [|now apply (wf_pos t d)].
    intros i Hi El C. destruct (Hsplit i Hi El) as [K'|K']; rewrite C in K'; tauto.
  - apply (rest_in Sv idx) in Hs. apply H, (others_in d Sv). split; [apply Hidx|]; tauto.
Qed.
Lemma kind_prob_near nm l p : In (l, p) ls -> kind_prob t Sv idx data fx tx nm p = prob d Sv data (near fx tx t) nm p.
Proof.
  intro Hp. unfold kind_prob, prob, leaf_rows, side_rows. f_equal.
  - f_equal. f_equal. apply filter_ext_in'. intros z _. rewrite (rest_others l p z Hp). destruct nm; reflexivity.
  - destruct Sv as [|s r]; [contradiction|]. destruct nm; reflexivity.
Qed.
Lemma kind_mean_near nm : (kind_mean t Sv idx data fx tx ls nm == gmean d Sv ls data (near fx tx t) (fun l => vlq t l * vlq t l - 2 * fx * vlq t l) nm + fx * fx)%Q.
Proof.
  unfold kind_mean, gmean.
  rewrite (sumf_ext (fun lp => prob d Sv data (near fx tx t) nm (snd lp) * (vlq t (fst lp) * vlq t (fst lp) - 2 * fx * vlq t (fst lp)))%Q
    (fun lp => kind_prob t Sv idx data fx tx nm (snd lp) * (vlq t (fst lp) * vlq t (fst lp)) - 2 * fx * (kind_prob t Sv idx data fx tx nm (snd lp) * vlq t (fst lp)))%Q).
  - rewrite sumf_minus, sumf_scal. ring.
  - intros [l p] Hp. cbn [fst snd]. rewrite (kind_prob_near nm l p Hp). ring.
Qed.
Lemma sdp_unfold : sdp_tree t w x Sv d idx data fx tx =
  let m := kind_mean t Sv idx data fx tx ls in if qeqb (m Up - m Down) 0 then None else Some ((m Up - m All) / (m Up - m Down))%Q.
Proof.
  unfold sdp_tree. destruct Sv as [|s r] eqn:Es; [contradiction|]. rewrite <- Es in *. destruct (Nat.eqb_spec (length Sv) d); [contradiction|].
  rewrite (subscripts_true d Sv Hd HS), (subscripts_true d (rest Sv idx) Hd (rest_sub Sv idx Hidx)), (all_parts_compatible t d Hwf Hsk), E. reflexivity.
Qed.
Lemma sdp_library : exists r, cond_sdp_forest fx tx d Sv data x [t] = Some r /\
  match sdp_tree t w x Sv d idx data fx tx, r with
  | Some q, Some s => ((q < 0 -> s == 0) /\ (0 <= q <= 1 -> s == q) /\ (1 < q -> s == 1))%Q
  | None, None => True | _, _ => False end.
Proof.
  rewrite sdp_unfold. destruct (one_result t d x Sv ls data fx tx Hd HS E) as [r [E1 E2]]. exists r. split; [exact E1|].
  set (m := kind_mean t Sv idx data fx tx ls). cbv zeta.
  pose (M := gmean d Sv ls data (near fx tx t) (fun l => vlq t l * vlq t l - 2 * fx * vlq t l)%Q).
  change (match r, clip_ratio (M Up - M All)%Q (M Up - M Down)%Q with Some q, Some q' => (q == q')%Q | None, None => True | _, _ => False end) in E2.
  assert (K : forall nm, (m nm == M nm + fx * fx)%Q) by (intro nm; apply kind_mean_near).
  pose proof (clip_ratio_ext (M Up - M All) (m Up - m All) (M Up - M Down) (m Up - m Down) ltac:(rewrite !K; ring) ltac:(rewrite !K; ring)) as C.
  destruct (clip_ratio (M Up - M All)%Q (M Up - M Down)%Q) as [c|]; unfold clip_ratio in C; destruct (qeqb (m Up - m Down) 0); try contradiction.
  2:{ destruct r; [contradiction|exact I]. }
  - destruct r as [s|]; [|contradiction]. set (q := ((m Up - m All) / (m Up - m Down))%Q) in *.
    rewrite E2. clear E2. destruct (qltb_spec q 0) as [A|A]; [|destruct (qltb_spec 1 q) as [B|B]]; repeat split; intros; rewrite C; lra.
Qed.
Variables (A close : pt -> bool).
Hypothesis HA : forall l p z, In (l, p) ls -> In z data -> decided (A z) (within p Sv z).
Hypothesis HB : forall z, In z data -> exists v, leaf_value t z no_missing v /\ decided (close z) ((v - fx) * (v - fx) <= tx)%Q.
Lemma sdp_common q : sdp_tree t w x Sv d idx data fx tx = Some q -> (exists z, In z data /\ A z = true) /\ (q == share A close data)%Q.
Proof.
  intro Hq. destruct sdp_library as [r [E1 K]]. rewrite Hq in K. destruct r as [s|]; [|contradiction].
  destruct (one_share t d x Sv ls data fx tx A close Hwf Hd HS Hne E HA HB s E1) as [H1 H2]. split; [exact H1|].
  rewrite sdp_unfold in Hq. set (m := kind_mean t Sv idx data fx tx ls) in *. cbv zeta in Hq. destruct (qeqb_spec (m Up - m Down) 0) as [C|C]; [discriminate|]. injection Hq as <-.
  set (M := gmean d Sv ls data (near fx tx t) (fun l => vlq t l * vlq t l - 2 * fx * vlq t l)%Q) in *.
  assert (Km : forall nm, (m nm == M nm + fx * fx)%Q) by (intro nm; apply kind_mean_near).
  assert (N : ~ (M Up - M Down == 0)%Q) by (intro N; apply C; rewrite !Km; rewrite <- N; ring).
  destruct (gmean_parts d Sv ls data A (near fx tx t) Hne (fun l p z Hp Hz => PartProofs.HA' Sv ls data A HA l p z Hp Hz) _ N) as [_ [G _]]. fold M in G.
  rewrite <- (share_ext A A (near fx tx t) close data) by (auto; intros z Hz; exact (Hnear t d data fx tx close Hwf HB z Hz)).
  assert (G' : (m Up - m All == share A (near fx tx t) data * (m Up - m Down))%Q).
  { rewrite !Km. transitivity (M Up - M All)%Q; [ring|]. rewrite G. ring. }
  rewrite G'. field. exact C.
Qed.
End Sdp.
End S4.

(** ** Sampled same-decision probability *)
Lemma mean0_filter (p : Q -> bool) l : (mean0 (filter p l) * Qn (length (filter p l)) == sumf (fun v => Qb (p v) * v) l)%Q.
Proof.
  unfold mean0, gdiv. transitivity (sumf (fun v => v) (filter p l)).
  - destruct (filter p l) as [|a r] eqn:Ef; [cbn; ring|]. rewrite <- Ef. rewrite (proj2 (Nat.eqb_neq (length (filter p l)) 0)) by (rewrite Ef; discriminate).
    field. apply Qn_neq0. rewrite Ef. discriminate.
  - rewrite sumf_filter. apply sumf_ext. intros v _. destruct (p v); cbn [Qb]; ring.
Qed.
Lemma sdp_mc_share t x Sv d fx tx ys (close : Q -> bool) : length Sv <> d -> (0 <= tx)%Q -> ys <> [] -> (forall y, In y ys -> decided (close y) ((y - fx) * (y - fx) <= tx)%Q) ->
  exists q, sdp_mc t x Sv d fx tx ys = Some q /\ (q == Qn (length (filter close ys)) / Qn (length ys))%Q.
Proof.
  intros Hl Ht Hne Hc. unfold sdp_mc. destruct (Nat.eqb_spec (length Sv) d); [contradiction|]. cbv zeta. set (dist := map (sq fx) ys).
  assert (Ly : length dist = length ys) by (unfold dist; apply map_length).
  assert (Lc : length (filter (fun v => qleb v tx) dist) = length (filter close ys)).
  { unfold dist. clear - Hc. induction ys as [|y ys IH]; [reflexivity|]. cbn [map filter].
    assert (E : qleb (sq fx y) tx = close y) by (apply eq_true_iff_eq; rewrite qleb_true; symmetry; apply Hc; now left). rewrite E.
    specialize (IH (fun z Hz => Hc z (or_intror Hz))). destruct (close y); cbn [length]; now rewrite IH. }
  assert (Nn : forall v, In v dist -> (0 <= v)%Q) by (intros v Hv; apply in_map_iff in Hv; destruct Hv as [y [<- _]]; unfold sq; assert (Sq : forall a : Q, (0 <= a * a)%Q) by (intro a; nra); apply Sq).
  assert (Dn : dist <> []) by (unfold dist; destruct ys; [contradiction|discriminate]). clearbody dist.
  destruct (Nat.eqb_spec (length ys) 0) as [C|_]; [destruct ys; [contradiction|discriminate]|]. rewrite <- Lc, <- Ly.
  pose proof (mean0_filter (fun v => negb (qleb v tx)) dist) as U. pose proof (mean0_filter (fun v => qleb v tx) dist) as D.
  pose proof (mean0_filter (fun _ => true) dist) as M. rewrite (CteProofs.filter_all (fun _ => true) dist) in M by reflexivity. cbn [Qb] in M.
  set (up := mean0 (filter (fun v => negb (qleb v tx)) dist)) in *. set (down := mean0 (filter (fun v => qleb v tx) dist)) in *. set (m := mean0 dist) in *.
  set (a := length (filter (fun v => negb (qleb v tx)) dist)) in *. set (b := length (filter (fun v => qleb v tx) dist)) in *.
  assert (Lab : length dist = a + b).
  { subst a b. clear. induction dist as [|v l IH]; [reflexivity|]. cbn [filter length]. destruct (qleb v tx); cbn [negb length]; lia. }
  assert (Sum : (m * Qn (length dist) == up * Qn a + down * Qn b)%Q).
  { rewrite M, U, D, <- sumf_plus. apply sumf_ext. intros v _. destruct (qleb v tx); cbn [negb Qb]; ring. }
  assert (Hup : (tx * Qn a <= up * Qn a)%Q /\ (0 < a -> (tx * Qn a < up * Qn a)%Q)).
  { rewrite U. subst a. clear - Nn. induction dist as [|v l IH]; [cbn [sumf filter length]; change (Qn 0) with 0%Q; split; [lra|lia]|].
    destruct (IH (fun z Hz => Nn z (or_intror Hz))) as [I1 I2]. cbn [filter sumf]. destruct (qleb_spec v tx) as [K|K]; cbn [negb Qb length].
    - split; [lra|]. intro P. specialize (I2 P). lra.
    - rewrite Qn_S. split; [lra|]. intros _. lra. }
  assert (Hdn : (0 <= down * Qn b)%Q /\ (down * Qn b <= tx * Qn b)%Q).
  { rewrite D. subst b. clear - Nn. induction dist as [|v l IH]; [cbn [sumf filter length]; change (Qn 0) with 0%Q; lra|].
    destruct (IH (fun z Hz => Nn z (or_intror Hz))) as [I1 I2]. cbn [filter sumf]. specialize (Nn v (or_introl eq_refl)). destruct (qleb_spec v tx) as [K|K]; cbn [negb Qb length]; [rewrite Qn_S|]; lra. }
  assert (U0 : a = 0 -> (up == 0)%Q) by (intro Ha; subst up a; apply length_zero_iff_nil in Ha; rewrite Ha; reflexivity).
  assert (D0 : b = 0 -> (down == 0)%Q) by (intro Hb; subst down b; apply length_zero_iff_nil in Hb; rewrite Hb; reflexivity).
  clearbody up down m a b. clear U D M Nn Lc Ly Hc. pose proof (Qn_plus a b) as Qs. rewrite Lab in *. rewrite Qs in Sum.
  assert (Pab : 0 < a + b) by (destruct dist; [contradiction|cbn in Lab; lia]). assert (Qab : (0 < Qn a + Qn b)%Q) by (rewrite <- Qn_plus; now apply Qn_pos).
  destruct (Nat.eq_dec a 0) as [Ha|Ha].
  - specialize (U0 Ha). subst a. change (Qn 0) with 0%Q in *. assert (Em : (m == down)%Q) by (apply (Qmult_inj_r _ _ (Qn b)); [lra|]; lra).
    destruct (qeqb_spec (up + m + down) 0) as [C|C]; [exists 1%Q; split; [reflexivity|rewrite Qs; field; lra]|].
    destruct (qeqb_spec (up - down) 0) as [C'|C']; [exfalso; apply C; lra|]. eexists. split; [reflexivity|]. rewrite Qs, U0, Em. field. split; lra.
  - assert (Pa : (0 < Qn a)%Q) by (apply Qn_pos; lia). destruct Hup as [_ Hup]. specialize (Hup ltac:(lia)).
    assert (Lu : (tx < up)%Q) by (apply (Qmult_lt_r _ _ _ Pa); exact Hup).
    destruct (Nat.eq_dec b 0) as [Hb|Hb].
    + specialize (D0 Hb). subst b. change (Qn 0) with 0%Q in *. assert (Em : (m == up)%Q) by (apply (Qmult_inj_r _ _ (Qn a)); [lra|]; lra).
      destruct (qeqb_spec (up + m + down) 0) as [C|C]; [lra|]. destruct (qeqb_spec (up - down) 0) as [C'|C']; [lra|]. eexists. split; [reflexivity|].
      rewrite Qs, Em. field. split; lra.
    + assert (Pb : (0 < Qn b)%Q) by (apply Qn_pos; lia).
      assert (Ld : (0 <= down <= tx)%Q) by (split; apply (Qmult_le_r _ _ _ Pb); lra).
      assert (Em : (m == (up * Qn a + down * Qn b) / (Qn a + Qn b))%Q) by (rewrite <- Sum; field; lra).
      assert (Pm : (0 <= m)%Q) by (rewrite Em; apply Qdiv_nonneg; [nra|exact Qab]).
      destruct (qeqb_spec (up + m + down) 0) as [C|C]; [lra|]. destruct (qeqb_spec (up - down) 0) as [C'|C']; [lra|]. eexists. split; [reflexivity|].
      rewrite Qs, Em. field. split; lra.
Qed.

(** ** Shapley values *)
Section Values.
Variables (t : tree) (d : nat).
Hypothesis Hwf : wf_tree t d = true.
Hypothesis Hsk : sk_tree t.
Variables (w : nat -> Q) (x : pt) (data : list pt) (pcmvnorm : list nat -> list nat -> list Q -> list ext -> list ext -> option Q).
Lemma splits_all : splits_in t (seq 0 d).
Proof. intros i Hi El. apply in_seq. destruct (wf_internal t d Hwf i Hi El) as [_ [_ [_ [K _]]]]. lia. Qed.
Lemma shap_total : fitted t w -> forall Sv, exists q, exp_shap t w x Sv = Some q.
Proof. intros Hf Sv. destruct (exp_shap_g t d Hwf Hsk x Sv w (fitted_pos t w Hf)) as [q [E _]]. eauto. Qed.
Lemma shap_sets Sv Tv : fitted t w -> (forall i, i < nn t -> leaf_node t i = false -> (In (ftn t i) Sv <-> In (ftn t i) Tv)) ->
  (the (exp_shap t w x Sv) == the (exp_shap t w x Tv))%Q.
Proof.
  intros Hf H. destruct (shap_total Hf Sv) as [q Eq], (shap_total Hf Tv) as [r Er]. rewrite Eq, Er. cbn [the].
  apply (shap_same t d Hwf Hsk w x x Sv Tv q r Hf); trivial. intros s _. reflexivity.
Qed.
Lemma shap_set_function : fitted t w -> set_function d (estimate t w d data pcmvnorm Shap x).
Proof.
  intros Hf S S' _ _ HP. cbn [estimate]. destruct (shap_total Hf S) as [q Eq], (shap_total Hf S') as [r Er]. exists q, r. split; [exact Eq|]. split; [exact Er|].
  apply (shap_same t d Hwf Hsk w x x S S' q r Hf); trivial; [intros s _; reflexivity|]. intros i _ _. split; apply Permutation_in; [exact HP|now apply Permutation_sym].
Qed.
Lemma shap_empty rows q : fitted t w -> counts t w rows -> rows <> [] -> exp_shap t w x [] = Some q -> mean_pred t rows q.
Proof.
  intros Hf Hc Hn Eq. destruct (compatible_total t d Hwf x []) as [ls E]. pose proof (wf_pos t d Hwf) as H0.
  destruct (exp_shap_g t d Hwf Hsk x [] w (fitted_pos t w Hf)) as [q' [Eq' Gq]]. rewrite Eq in Eq'. injection Eq' as <-.
  destruct (g_empty t d Hwf x [] w (fitted_pos t w Hf) (fitted_bal t w Hf) (nn t) eq_refl 0 whole ls H0 E) as [G1 G2].
  destruct (compat_leaf t d Hwf x [] ls E) as [ND [L _]]. destruct (leaves_rows t d Hwf w rows (map fst ls) (fun v => v) Hc ND L) as [S1 S2].
  rewrite sumf_map in S1, S2. rewrite (CteProofs.filter_all _ rows) in S1, S2 by (intros z _; now apply (empty_all t d Hwf x z ls)).
  apply (mean_over_val t d Hwf); [exact Hn|]. rewrite Gq, <- S1, <- G1, <- S2, <- G2. ring.
Qed.
Lemma shap_efficiency C P rep rows : fitted t w -> counts t w rows -> rows <> [] -> coalitions_ok C d -> sized C -> is_players C d P -> (forall g, In g P -> In (rep g) g) ->
  exists v m, leaf_value t x no_missing v /\ mean_pred t rows m /\ (sumf (fun g => the (tree_shap t w d data pcmvnorm Shap x C (rep g))) P == v - m)%Q.
Proof.
  intros Hf Hc Hn HC HS HP Hr. unfold tree_shap. 
  destruct (CteProofs.shap_full t d Hwf Hsk w x (seq 0 d) Hf splits_all) as [q [v [E1 [E2 E3]]]]. destruct (shap_total Hf []) as [m Em].
  exists v, m. split; [exact E2|]. split; [now apply (shap_empty rows m)|].
  rewrite (perm_efficiency (estimate t w d data pcmvnorm Shap x) C d HC HS (shap_set_function Hf) P rep HP Hr). cbn [estimate]. rewrite E1, Em. cbn [the]. now rewrite E3.
Qed.
Lemma shap_unused C P g j : fitted t w -> coalitions_ok C d -> sized C -> is_players C d P -> In g P -> In j g -> (forall k, In k g -> unused t k) ->
  exists r, tree_shap t w d data pcmvnorm Shap x C j = Some r /\ (r == 0)%Q.
Proof.
  intros Hf HC HS HP Hg Hj Hu. unfold tree_shap.
  destruct (perm_is_shapley (estimate t w d data pcmvnorm Shap x) C d HC HS (shap_set_function Hf) P j g HP Hg Hj) as [r [E Er]]. exists r. split; [exact E|].
  rewrite Er. apply shapley_null. intro T. cbn [estimate concat]. apply (shap_sets _ _ Hf). intros i Hi El. rewrite in_app_iff. split; [|tauto].
  intros [K|K]; [|exact K]. exfalso. apply (Hu _ K i Hi El). reflexivity.
Qed.

(** *** interventional values *)
Hypothesis Hoff : forall z, In z data -> off_thresholds t z.
Hypothesis Hdata : data <> [].
Lemma intv2_value Sv : NoDup Sv -> (forall k, In k Sv -> k < d) ->
  exists q, exp_intv2 t x Sv d (seq 0 d) data = Some q /\ (q * Qn (length data) == sumf (fun z => val t (splice Sv x z)) data)%Q.
Proof.
  intros HN HS. destruct (Nat.eq_dec (length Sv) d) as [Hl|Hl].
  - unfold exp_intv2. rewrite Hl, Nat.eqb_refl. unfold predicted. rewrite (predict_val t d Hwf). eexists. split; [reflexivity|].
    rewrite (sumf_ext _ (fun _ => val t x)); [rewrite sumf_const; ring|]. intros z _. rewrite (val_reads t d Hwf (splice Sv x z) x); [reflexivity|].
    intros k Hk. unfold splice. destruct (in_dec Nat.eq_dec k Sv) as [K|K]; [reflexivity|]. exfalso. apply K.
    apply (NoDup_length_incl HN (l' := seq 0 d)); [rewrite seq_length; lia| |apply in_seq; lia]. intros i Hi. apply in_seq. specialize (HS i Hi). lia.
  - assert (Hr : exists k, In k (seq 0 d) /\ ~ In k Sv).
    { destruct (forallb (fun k => memb k Sv) (seq 0 d)) eqn:F.
      - exfalso. apply Hl. rewrite forallb_forall in F. apply Nat.le_antisymm.
        + transitivity (length (seq 0 d)); [|now rewrite seq_length]. apply NoDup_incl_length; [exact HN|]. intros k Hk. apply in_seq. specialize (HS k Hk). lia.
        + transitivity (length (seq 0 d)); [now rewrite seq_length|]. apply NoDup_incl_length; [apply seq_NoDup|]. intros k Hk. apply memb_true. now apply F.
      - assert (F' : existsb (fun k => negb (memb k Sv)) (seq 0 d) = true).
        { clear -F. induction (seq 0 d) as [|a l IH]; [discriminate|]. cbn in *. destruct (memb a Sv); [now apply IH|reflexivity]. }
        apply existsb_exists in F'. destruct F' as [k [K1 K2]]. exists k. split; [exact K1|]. apply memb_false. now apply negb_true_iff. }
    destruct (intv2_mean t d Hwf Hsk x Sv (seq 0 d) data Hl) as [q [E [_ [v [V1 V2]]]]]; trivial.
    { intros k Hk. apply in_seq in Hk. lia. }
    { intros i Hi El. right. now apply splits_all. }
    exists q. split; [exact E|]. rewrite map_length in V2. rewrite V2, sumf_map. apply sumf_ext. intros z Hz.
    rewrite (leaf_value_unique t d _ _ _ _ Hwf (V1 (splice Sv x z) (in_map _ _ _ Hz)) (val_spec t d Hwf _)). reflexivity.
Qed.
Lemma Nd : ~ (Qn (length data) == 0)%Q.
Proof. apply Qn_neq0. destruct data; [contradiction|discriminate]. Qed.
Lemma splice_sets Sv Tv z : (forall k, k < d -> (In k Sv <-> In k Tv)) -> val t (splice Sv x z) = val t (splice Tv x z).
Proof.
  intro H. apply (val_reads t d Hwf). intros k Hk. unfold splice. specialize (H k Hk). destruct (in_dec Nat.eq_dec k Sv), (in_dec Nat.eq_dec k Tv); try tauto; reflexivity.
Qed.
Lemma intv2_set_function : set_function d (estimate t w d data pcmvnorm Intv2 x).
Proof.
  intros S S' HN HS HP. cbn [estimate]. destruct (intv2_value S HN HS) as [q [E1 V1]].
  destruct (intv2_value S') as [r [E2 V2]]; [eapply Permutation_NoDup; eauto|intros k Hk; apply HS; apply (Permutation_in _ (Permutation_sym HP) Hk)|].
  exists q, r. split; [exact E1|]. split; [exact E2|]. apply (Qmult_inj_r _ _ (Qn (length data)) Nd). rewrite V1, V2. apply sumf_ext. intros z _.
  rewrite (splice_sets S S' z); [reflexivity|]. intros k _. split; apply Permutation_in; [exact HP|now apply Permutation_sym].
Qed.
Lemma intv2_efficiency C P rep : coalitions_ok C d -> sized C -> is_players C d P -> (forall g, In g P -> In (rep g) g) ->
  exists v m, leaf_value t x no_missing v /\ mean_pred t data m /\ (sumf (fun g => the (tree_shap t w d data pcmvnorm Intv2 x C (rep g))) P == v - m)%Q.
Proof.
  intros HC HS HP Hr. unfold tree_shap. destruct (intv2_value [] ltac:(constructor) ltac:(intros k [])) as [m [Em Vm]].
  destruct (intv2_value (seq 0 d) (seq_NoDup d 0) ltac:(intros k Hk; apply in_seq in Hk; lia)) as [q [Eq Vq]].
  exists (val t x), m. split; [now apply (val_spec t d)|]. split; [apply (mean_over_val t d Hwf); [exact Hdata|]; rewrite Vm; apply sumf_ext; intros z _; reflexivity|].
  rewrite (perm_efficiency (estimate t w d data pcmvnorm Intv2 x) C d HC HS intv2_set_function P rep HP Hr). cbn [estimate]. rewrite Eq, Em. cbn [the].
  assert (K : (q == val t x)%Q).
  { apply (Qmult_inj_r _ _ (Qn (length data)) Nd). rewrite Vq. rewrite (sumf_ext _ (fun _ => val t x)); [rewrite sumf_const; ring|]. intros z _.
    rewrite (val_reads t d Hwf (splice (seq 0 d) x z) x); [reflexivity|]. intros k Hk. unfold splice. destruct (in_dec Nat.eq_dec k (seq 0 d)) as [M|M]; [reflexivity|].
    exfalso. apply M, in_seq. lia. }
  now rewrite K.
Qed.
Lemma intv2_unused C P g j : coalitions_ok C d -> sized C -> is_players C d P -> In g P -> In j g -> (forall k, In k g -> unused t k) ->
  exists r, tree_shap t w d data pcmvnorm Intv2 x C j = Some r /\ (r == 0)%Q.
Proof.
  intros HC HS HP Hg Hj Hu. unfold tree_shap.
  destruct (perm_is_shapley (estimate t w d data pcmvnorm Intv2 x) C d HC HS intv2_set_function P j g HP Hg Hj) as [r [E Er]]. exists r. split; [exact E|].
  rewrite Er. apply shapley_const; [exact (proj1 HP)|exact Hg|]. intros T HT Hi. inversion HT as [|? ? Hn HT']; subst.
  destruct (players_concat C d P (g :: T) HC HP HT) as [A1 A2]; [intros a [<-|Ha]; [exact Hg|now apply Hi]|].
  destruct (players_concat C d P T HC HP HT' Hi) as [B1 B2]. cbn [estimate].
  destruct (intv2_value (concat (g :: T)) A1 A2) as [u [Eu Vu]]. destruct (intv2_value (concat T) B1 B2) as [v [Ev Vv]]. rewrite Eu, Ev. cbn [the].
  assert (K : (u == v)%Q); [|rewrite K; ring]. apply (Qmult_inj_r _ _ (Qn (length data)) Nd). rewrite Vu, Vv. apply sumf_ext. intros z _.
  assert (W : forall f i, i < nn t -> TreeModel.walk f t (splice (concat (g :: T)) x z) no_missing i = TreeModel.walk f t (splice (concat T) x z) no_missing i).
  { induction f as [|f IH]; intros i Hii; [reflexivity|]. cbn [TreeModel.walk]. destruct (is_leaf t i) eqn:El; [reflexivity|].
    destruct (wf_internal t d Hwf i Hii El) as [L1 [L2 _]].
    assert (Ek : splice (concat (g :: T)) x z (ftn t i) = splice (concat T) x z (ftn t i)).
    { unfold splice. cbn [concat]. destruct (in_dec Nat.eq_dec (ftn t i) (g ++ concat T)) as [K|K], (in_dec Nat.eq_dec (ftn t i) (concat T)) as [K'|K']; trivial.
      - apply in_app_iff in K. destruct K as [K|K]; [|contradiction]. exfalso. apply (Hu _ K i Hii El). reflexivity.
      - exfalso. apply K, in_app_iff. now right. }
    assert (En : next_node t (splice (concat (g :: T)) x z) no_missing i = next_node t (splice (concat T) x z) no_missing i) by (unfold next_node, no_missing; now rewrite Ek).
    rewrite En. apply IH. unfold next_node, no_missing. destruct (qleb _ _); lia. }
  unfold val, leaf_at, predict_leaf. rewrite (W _ _ (wf_pos t d Hwf)). reflexivity.
Qed.
End Values.

Lemma full_value t d w data pcmvnorm a x Sv : wf_tree t d = true -> a <> Shap -> Sv <> [] -> length Sv = d ->
  exists v, leaf_value t x no_missing v /\ estimate t w d data pcmvnorm a x Sv = Some v.
Proof.
  intros Hwf Ha Hn Hl. destruct (predicted_value t d Hwf x) as [v [Hv Lv]]. exists v. split; [exact Lv|].
  apply Nat.eqb_eq in Hl. destruct a; [contradiction|..]; cbn [estimate].
  - unfold exp_plugin. destruct Sv; [contradiction|]. now rewrite Hl.
  - unfold exp_intv. destruct Sv; [contradiction|]. now rewrite Hl.
  - unfold exp_intv2. now rewrite Hl.
  - unfold exp_exact. now rewrite Hl.
  - unfold exp_exact_v1. now rewrite Hl.
Qed.

Lemma sdp_ends t d w x Sv idx data fx tx : wf_tree t d = true -> sk_tree t ->
  (forall rows, counts t w rows -> rows <> [] -> exists q, sdp_tree t w x [] d idx data fx tx = Some q /\ mean_pred t rows q) /\
  (Sv <> [] -> length Sv = d -> exists v, leaf_value t x no_missing v /\ sdp_tree t w x Sv d idx data fx tx = Some v).
Proof.
  intros Hwf Hsk. split.
  - intros rows Hc Hn. exact (empty_mean t d Hwf Hsk w x rows Hc Hn).
  - intros Hn Hl. destruct (predicted_value t d Hwf x) as [v [Hv Lv]]. exists v. split; [exact Lv|].
    unfold sdp_tree. apply Nat.eqb_eq in Hl. destruct Sv; [contradiction|]. now rewrite Hl.
Qed.

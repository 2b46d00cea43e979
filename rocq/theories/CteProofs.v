(** Lemmas about the conditional expectations of one tree. *)
From Verif Require Import Base TreeModel TreeSpec TreeProofs ShapModel SdpModel RulesModel RulesModelProofs PartModel PartSpec PartProofs
  MvnModel GmmModel McModel SwingModel PermModel CteModel CteSpec.
Local Open Scope nat_scope.

Section Tree.
Variable t : tree.
Variable d : nat.
Hypothesis Hwf : wf_tree t d = true.
Hypothesis Hsk : sk_tree t.
Variables (x : pt) (Sv : list nat).

Lemma marked_leaf i : i < nn t -> marked t i = is_leaf t i.
Proof.
  intro Hi. unfold marked. apply eq_true_iff_eq. rewrite Z.eqb_eq. apply (Hsk i Hi).
Qed.
Lemma parts_explore f : forall i p, i < nn t -> parts t x Sv f i p = explore t x Sv f i p.
Proof.
  induction f as [|f IH]; intros i p Hi; [reflexivity|]. cbn [parts explore]. rewrite marked_leaf by exact Hi.
  destruct (is_leaf t i) eqn:El; [reflexivity|]. destruct (wf_internal t d Hwf i Hi El) as [A [B _]].
  unfold lchild, rchild, goes_left. rewrite !IH by lia. reflexivity.
Qed.
Lemma all_parts_compatible : all_parts t x Sv = compatible t x Sv.
Proof. apply parts_explore. now apply (wf_pos t d). Qed.

Lemma mark_explore : forall f i p ls, i < nn t -> explore t x Sv f i p = Some ls ->
  forall tab, exists tab', mark t x Sv f i tab = Some tab' /\ forall l, tab' l = tab l || memb l (map fst ls).
Proof.
  apply (explore_ind t d Hwf x Sv (fun f i p ls => forall tab, exists tab', mark t x Sv f i tab = Some tab' /\ forall l, tab' l = tab l || memb l (map fst ls))).
  - intros f i p Hi El tab. exists (upd tab i true). cbn [mark]. rewrite marked_leaf, El by exact Hi. split; [reflexivity|].
    intro l. cbn [map fst memb existsb]. rewrite orb_false_r. unfold upd. destruct (Nat.eqb_spec l i); cbn; [now rewrite orb_true_r|now rewrite orb_false_r].
  - intros f i p a Hi El Hm Hx Hc IH tab. cbn [mark]. rewrite marked_leaf, El by exact Hi.
    rewrite (proj2 (memb_true _ _) Hm). unfold goes_left. rewrite (proj2 (qleb_true _ _) Hx). apply IH.
  - intros f i p a Hi El Hm Hx Hc IH tab. cbn [mark]. rewrite marked_leaf, El by exact Hi.
    rewrite (proj2 (memb_true _ _) Hm). unfold goes_left. rewrite (proj2 (qleb_false _ _) Hx). apply IH.
  - intros f i p a b Hi El Hm Hc Hc' IH IH' tab. cbn [mark]. rewrite marked_leaf, El by exact Hi.
    rewrite (proj2 (memb_false _ _) Hm). destruct (IH tab) as [tab1 [E1 F1]]. unfold lchild. rewrite E1.
    destruct (IH' tab1) as [tab2 [E2 F2]]. exists tab2. split; [exact E2|]. intro l. rewrite F2, F1, map_app. unfold memb. rewrite existsb_app, orb_assoc. reflexivity.
Qed.
Lemma marked_leaves_perm ls : compatible t x Sv = Some ls -> exists ms, marked_leaves t x Sv = Some ms /\ Permutation ms (map fst ls).
Proof.
  intro E. pose proof (wf_pos t d Hwf) as H0. unfold compatible in E.
  destruct (mark_explore _ _ _ _ H0 E (fun _ => false)) as [tab [E1 F]].
  unfold marked_leaves. rewrite E1. cbn [option_map]. eexists. split; [reflexivity|].
  apply NoDup_Permutation; [apply NoDup_filter, seq_NoDup|apply (explore_nodup t d Hwf x Sv _ _ _ _ H0 E)|].
  intro l. rewrite filter_In, in_seq, F. cbn [orb]. rewrite memb_true. split; [tauto|]. intro Hl. split; [|exact Hl].
  apply in_map_iff in Hl. destruct Hl as [[l' q] [<- Hl]]. apply (explore_leaf t d Hwf x Sv _ _ _ _ H0 E) in Hl. cbn. lia.
Qed.

(** ** The recursion with weights *)
Variable w : nat -> Q.
Fixpoint g (f i : nat) : Q :=
  match f with
  | O => 0%Q
  | S k => if is_leaf t i then vlq t i
           else if memb (ftn t i) Sv then (if qleb (x (ftn t i)) (thq t i) then g k (Z.to_nat (clz t i)) else g k (Z.to_nat (crz t i)))
           else (w (Z.to_nat (clz t i)) / w i * g k (Z.to_nat (clz t i)) + w (Z.to_nat (crz t i)) / w i * g k (Z.to_nat (crz t i)))%Q
  end.
Hypothesis Hw : forall i, i < nn t -> (0 < w i)%Q.
Lemma G_total f : forall i q, i < nn t -> nn t - i <= f -> exists r, G t w x Sv f i q = Some r /\ (r == q * g f i)%Q.
Proof.
  induction f as [|f IH]; intros i q Hi Hf; [lia|]. cbn [G g]. rewrite marked_leaf by exact Hi.
  destruct (is_leaf t i) eqn:El; [eexists; split; [reflexivity|reflexivity]|].
  destruct (wf_internal t d Hwf i Hi El) as [A [B _]].
  unfold goes_left, lchild, rchild. destruct (memb (ftn t i) Sv).
  - destruct (qleb _ _); apply IH; lia.
  - pose proof (Hw i Hi) as Wi. destruct (qeqb_spec (w i) 0) as [C|_]; [exfalso; lra|].
    destruct (IH (Z.to_nat (clz t i)) (q * w (Z.to_nat (clz t i)) / w i)%Q ltac:(lia) ltac:(lia)) as [a [-> Ea]].
    destruct (IH (Z.to_nat (crz t i)) (q * w (Z.to_nat (crz t i)) / w i)%Q ltac:(lia) ltac:(lia)) as [b [-> Eb]].
    cbn [add2]. eexists. split; [reflexivity|]. rewrite Ea, Eb. field. lra.
Qed.
Lemma exp_shap_g : exists r, exp_shap t w x Sv = Some r /\ (r == g (nn t) 0)%Q.
Proof.
  destruct (G_total (nn t) 0 1 (wf_pos t d Hwf) ltac:(lia)) as [r [E Er]]. exists r. split; [exact E|]. rewrite Er. ring.
Qed.
Hypothesis Hbal : forall i, i < nn t -> is_leaf t i = false -> (w i == w (Z.to_nat (clz t i)) + w (Z.to_nat (crz t i)))%Q.

Lemma mean_between (a b wl wr wi lo hi : Q) : (0 < wl)%Q -> (0 < wr)%Q -> (wi == wl + wr)%Q -> (lo <= a <= hi)%Q -> (lo <= b <= hi)%Q ->
  (lo <= wl / wi * a + wr / wi * b <= hi)%Q.
Proof.
  intros H1 H2 H3 Ha Hb. assert (Hi : (0 < wi)%Q) by lra.
  assert (L : (0 <= wl / wi)%Q) by (apply Qdiv_nonneg; lra). assert (R : (0 <= wr / wi)%Q) by (apply Qdiv_nonneg; lra).
  assert (E : (wl / wi + wr / wi == 1)%Q) by (rewrite H3; field; lra).
  destruct Ha as [A1 A2], Hb as [B1 B2].
  pose proof (Qmult_le_compat_pos_l _ _ _ L A1). pose proof (Qmult_le_compat_pos_l _ _ _ L A2).
  pose proof (Qmult_le_compat_pos_l _ _ _ R B1). pose proof (Qmult_le_compat_pos_l _ _ _ R B2).
  assert (Elo : (lo == wl / wi * lo + wr / wi * lo)%Q) by (rewrite <- (Qmult_1_l lo) at 1; rewrite <- E; ring).
  assert (Ehi : (hi == wl / wi * hi + wr / wi * hi)%Q) by (rewrite <- (Qmult_1_l hi) at 1; rewrite <- E; ring).
  lra.
Qed.
Lemma g_between lo hi f : forall i, i < nn t -> nn t - i <= f ->
  (forall l, may_meet t x Sv i l -> leaf_node t l = true -> (lo <= vlq t l <= hi)%Q) -> (lo <= g f i <= hi)%Q.
Proof.
  induction f as [|f IH]; intros i Hi Hf H; [lia|]. cbn [g].
  destruct (is_leaf t i) eqn:El; [apply H; [constructor|exact El]|].
  destruct (wf_internal t d Hwf i Hi El) as [A [B _]].
  destruct (memb_spec (ftn t i) Sv) as [Hm|Hm].
  - destruct (qleb_spec (x (ftn t i)) (thq t i)) as [Hx|Hx]; apply IH; try lia; intros l Hl; apply H.
    + now apply mm_left.
    + apply mm_right; trivial. intros _. now apply Qnot_le_lt.
  - apply mean_between; try (apply Hw; lia); [now apply Hbal| |]; (apply IH; [lia|lia|]); intros l Hl; apply H.
    + apply mm_left; trivial. contradiction.
    + apply mm_right; trivial. contradiction.
Qed.
Lemma g_full f z : splits_in t Sv -> same_on Sv x z -> forall i, i < nn t -> nn t - i <= f -> exists l, walk f t z no_missing i = Some l /\ g f i = vlq t l.
Proof.
  intros Hs Hz. induction f as [|f IH]; intros i Hi Hf; [lia|]. cbn [g walk].
  destruct (is_leaf t i) eqn:El; [eauto|].
  destruct (wf_internal t d Hwf i Hi El) as [A [B _]]. specialize (Hs i Hi El).
  rewrite (proj2 (memb_true _ _) Hs).
  destruct (qleb_spec (x (ftn t i)) (thq t i)) as [Hx|Hx]; rewrite (Hz _ Hs) in Hx.
  - rewrite (next_left t z i Hx). apply IH; lia.
  - rewrite (next_right t z i) by now apply Qnot_le_lt. apply IH; lia.
Qed.
Lemma g_empty f : Sv = [] -> forall i p ls, i < nn t -> explore t x Sv f i p = Some ls ->
  (w i * g f i == sumf (fun l => w (fst l) * vlq t (fst l)) ls)%Q /\ (w i == sumf (fun l => w (fst l)) ls)%Q.
Proof.
  intros HS i p ls Hi E. revert f i p ls Hi E.
  apply (explore_ind t d Hwf x Sv (fun f i p ls => (w i * g f i == sumf (fun l => w (fst l) * vlq t (fst l)) ls)%Q /\ (w i == sumf (fun l => w (fst l)) ls)%Q)).
  - intros f i p Hi El. cbn [g sumf fst]. rewrite El. split; ring.
  - intros f i p a Hi El Hm. rewrite HS in Hm. contradiction.
  - intros f i p a Hi El Hm. rewrite HS in Hm. contradiction.
  - intros f i p a b Hi El Hm Hc Hc' [IH1 IH2] [IH1' IH2']. cbn [g]. rewrite El, (proj2 (memb_false _ _) Hm), !sumf_app.
    rewrite <- IH1, <- IH1', <- IH2, <- IH2'. split; [|apply Hbal; trivial]. field. pose proof (Hw i Hi). lra.
Qed.

(** ** Rows that visit a node *)
Definition vis (i : nat) (z : pt) : bool := visitsb t z no_missing i.
Lemma vis_spec i z : vis i z = true <-> visits t z no_missing i.
Proof. apply (visitsb_spec t d Hwf). Qed.
Lemma vis_root' z : vis 0 z = true.
Proof. apply vis_spec. constructor. Qed.
Lemma vis_children i z : i < nn t -> is_leaf t i = false ->
  vis (Z.to_nat (clz t i)) z = vis i z && qleb (z (ftn t i)) (thq t i) /\
  vis (Z.to_nat (crz t i)) z = vis i z && negb (qleb (z (ftn t i)) (thq t i)).
Proof.
  intros Hi El. pose proof (visits_children t d Hwf z no_missing i Hi El) as H. fold (vis i z) in H. fold (vis (Z.to_nat (clz t i)) z) in H. fold (vis (Z.to_nat (crz t i)) z) in H.
  assert (N : vis i z = true -> vis (next_node t z no_missing i) z = true).
  { intro V. apply vis_spec. apply vis_next; [now apply vis_spec|exact El]. }
  destruct (qleb_spec (z (ftn t i)) (thq t i)) as [Hz|Hz].
  - rewrite (next_left t z i Hz) in N. cbn [negb]. rewrite andb_true_r, andb_false_r.
    destruct (vis i z), (vis (Z.to_nat (clz t i)) z), (vis (Z.to_nat (crz t i)) z); cbn [Qb] in H; try (split; reflexivity); try (specialize (N eq_refl); discriminate); exfalso; lra.
  - rewrite (next_right t z i) in N by now apply Qnot_le_lt. cbn [negb]. rewrite andb_true_r, andb_false_r.
    destruct (vis i z), (vis (Z.to_nat (clz t i)) z), (vis (Z.to_nat (crz t i)) z); cbn [Qb] in H; try (split; reflexivity); try (specialize (N eq_refl); discriminate); exfalso; lra.
Qed.
(** the prediction *)
Definition val (z : pt) : Q := vlq t (leaf_at t z).
Lemma val_spec z : leaf_value t z no_missing (val z).
Proof.
  exists (leaf_at t z). pose proof (leaf_at_spec t d Hwf z) as E.
  destruct (predict_leaf_total t d Hwf z no_missing) as [l [E' [L V]]]. rewrite E in E'. injection E' as <-. split; [exact V|]. split; [|reflexivity].
  unfold leaf_idx in L. apply filter_In in L. apply L.
Qed.
Lemma vis_leaf l z : is_leaf t l = true -> vis l z = (l =? leaf_at t z).
Proof.
  intro L. apply eq_true_iff_eq. rewrite Nat.eqb_eq, (vis_spec l z). pose proof (leaf_at_spec t d Hwf z) as E. split.
  - intro V. apply (visited_leaf_predicted t d Hwf z no_missing l V) in L. congruence.
  - intros ->. destruct (predict_leaf_total t d Hwf z no_missing) as [l [E' [_ V]]]. rewrite E in E'. injection E' as <-. exact V.
Qed.
Lemma predict_val z : predict_value t z no_missing = Some (val z).
Proof. unfold predict_value, val. now rewrite leaf_at_spec with (d := d). Qed.
(** sum over leaves of what the rows give *)
Lemma rows_of_leaves ms rows (h : nat -> Q) : NoDup ms -> (forall l, In l ms -> is_leaf t l = true) ->
  (sumf (fun l => Qn (length (filter (vis l) rows)) * h l) ms == sumf (fun z => Qb (memb (leaf_at t z) ms) * h (leaf_at t z)) rows)%Q.
Proof.
  intros ND L. rewrite (sumf_ext _ (fun l => sumf (fun z => Qb (vis l z) * h l) rows)%Q) by (intros l _; rewrite sumf_scal_r, sumf_count; reflexivity).
  rewrite sumf_swap. apply sumf_ext. intros z _. destruct (memb_spec (leaf_at t z) ms) as [Hm|Hm].
  - rewrite (sumf_single _ ms (leaf_at t z) ND Hm).
    + rewrite vis_leaf by now apply L. rewrite Nat.eqb_refl. reflexivity.
    + intros l Hl Hn. rewrite vis_leaf by now apply L. destruct (Nat.eqb_spec l (leaf_at t z)); [contradiction|]. cbn [Qb]. ring.
  - rewrite sumf_zero; [cbn [Qb]; ring|]. intros l Hl. rewrite vis_leaf by now apply L.
    destruct (Nat.eqb_spec l (leaf_at t z)) as [->|]; [contradiction|]. cbn [Qb]. ring.
Qed.
(** ** Conditional means *)
Lemma g_rows rows : (forall z, In z rows -> same_on Sv x z) -> blind t w Sv rows ->
  forall f i, i < nn t -> nn t - i <= f ->
  (Qn (length (filter (vis i) rows)) * g f i == sumf (fun z => Qb (vis i z) * val z) rows)%Q.
Proof.
  intros HA HB. induction f as [|f IH]; intros i Hi Hf; [lia|]. cbn [g].
  destruct (is_leaf t i) eqn:El.
  { rewrite <- (sumf_count (vis i) rows), <- sumf_scal_r. apply sumf_ext. intros z Hz.
    rewrite vis_leaf by exact El. destruct (Nat.eqb_spec i (leaf_at t z)) as [->|]; cbn [Qb]; [unfold val|]; ring. }
  destruct (wf_internal t d Hwf i Hi El) as [A [B _]].
  destruct (memb_spec (ftn t i) Sv) as [Hm|Hm].
  - assert (E : forall z, In z rows -> vis i z = vis (if qleb (x (ftn t i)) (thq t i) then Z.to_nat (clz t i) else Z.to_nat (crz t i)) z).
    { intros z Hz. destruct (vis_children i z Hi El) as [V1 V2].
      destruct (qleb_spec (x (ftn t i)) (thq t i)) as [Hx|Hx]; rewrite (HA z Hz _ Hm) in Hx.
      - rewrite V1. rewrite (proj2 (qleb_true _ _) Hx), andb_true_r. reflexivity.
      - rewrite V2. destruct (qleb_spec (z (ftn t i)) (thq t i)); [contradiction|]. cbn. now rewrite andb_true_r. }
    rewrite (filter_ext_in' _ _ rows E).
    rewrite (sumf_ext (fun z => Qb (vis i z) * val z)%Q (fun z => Qb (vis (if qleb (x (ftn t i)) (thq t i) then Z.to_nat (clz t i) else Z.to_nat (crz t i)) z) * val z)%Q)
      by (intros z Hz; rewrite (E z Hz); reflexivity).
    clear E. destruct (qleb (x (ftn t i)) (thq t i)); apply IH; lia.
  - pose proof (HB i Hi El Hm (vis i) (vis (Z.to_nat (clz t i))) (fun z _ => vis_spec _ z) (fun z _ => vis_spec _ z)) as HL.
    pose proof (IH (Z.to_nat (clz t i)) ltac:(lia) ltac:(lia)) as I1. pose proof (IH (Z.to_nat (crz t i)) ltac:(lia) ltac:(lia)) as I2.
    assert (E : (sumf (fun z => Qb (vis i z) * val z) rows == sumf (fun z => Qb (vis (Z.to_nat (clz t i)) z) * val z) rows + sumf (fun z => Qb (vis (Z.to_nat (crz t i)) z) * val z) rows)%Q).
    { rewrite <- sumf_plus. apply sumf_ext. intros z Hz. destruct (vis_children i z Hi El) as [-> ->]. destruct (vis i z), (qleb _ _); cbn; ring. }
    assert (N : (Qn (length (filter (vis i) rows)) == Qn (length (filter (vis (Z.to_nat (clz t i))) rows)) + Qn (length (filter (vis (Z.to_nat (crz t i))) rows)))%Q).
    { rewrite <- !sumf_count, <- sumf_plus. apply sumf_ext. intros z Hz. destruct (vis_children i z Hi El) as [-> ->]. destruct (vis i z), (qleb _ _); cbn; ring. }
    rewrite E, <- I1, <- I2. pose proof (Hw i Hi) as Wi. pose proof (Hbal i Hi El) as Wb.
    set (gl := g f (Z.to_nat (clz t i))) in *. set (gr := g f (Z.to_nat (crz t i))) in *.
    set (nl := Qn (length (filter (vis (Z.to_nat (clz t i))) rows))) in *. set (nr := Qn (length (filter (vis (Z.to_nat (crz t i))) rows))) in *.
    set (ni := Qn (length (filter (vis i) rows))) in *. set (wl := w (Z.to_nat (clz t i))) in *. set (wr := w (Z.to_nat (crz t i))) in *.
    assert (Er : (nr * w i == ni * wr)%Q).
    { assert (K : (nr == ni - nl)%Q) by lra. assert (K' : (wr == w i - wl)%Q) by lra. rewrite K, K'.
      transitivity (ni * w i - nl * w i)%Q; [ring|]. rewrite HL. ring. }
    transitivity ((ni * wl) / w i * gl + (ni * wr) / w i * gr)%Q; [field; lra|]. rewrite <- HL, <- Er. field. lra.
Qed.
End Tree.

(** ** Statements about the recursion with weights *)
Section Statements.
Variables (t : tree) (d : nat).
Hypothesis Hwf : wf_tree t d = true.
Hypothesis Hsk : sk_tree t.

Lemma fitted_pos w : fitted t w -> forall i, i < nn t -> (0 < w i)%Q.
Proof. intros H i Hi. apply (H i Hi). Qed.
Lemma fitted_bal w : fitted t w -> forall i, i < nn t -> is_leaf t i = false -> (w i == w (Z.to_nat (clz t i)) + w (Z.to_nat (crz t i)))%Q.
Proof. intros H i Hi El. now apply (H i Hi). Qed.
Lemma shap_between w x Sv lo hi : fitted t w -> met_between t x Sv (fun v => v) lo hi -> exists q, exp_shap t w x Sv = Some q /\ (lo <= q <= hi)%Q.
Proof.
  intros Hf H. destruct (exp_shap_g t d Hwf Hsk x Sv w (fitted_pos w Hf)) as [r [E Er]]. exists r. split; [exact E|]. rewrite Er.
  apply (g_between t d Hwf x Sv w (fitted_pos w Hf) (fitted_bal w Hf)); [now apply (wf_pos t d)|lia|exact H].
Qed.
Lemma shap_full w x Sv : fitted t w -> splits_in t Sv -> exists q v, exp_shap t w x Sv = Some q /\ leaf_value t x no_missing v /\ (q == v)%Q.
Proof.
  intros Hf H. destruct (exp_shap_g t d Hwf Hsk x Sv w (fitted_pos w Hf)) as [r [E Er]].
  destruct (g_full t d Hwf x Sv w (nn t) x H (fun s _ => Qeq_refl _) 0 (wf_pos t d Hwf) ltac:(lia)) as [l [W Eg]].
  exists r, (vlq t l). split; [exact E|]. split; [|rewrite Er, Eg; reflexivity]. exists l.
  pose proof (walk_visits t x no_missing _ _ _ (vis_root t x no_missing) W) as V. split; [exact V|]. split; [|reflexivity].
  now apply (visited_leaf_predicted t d Hwf x no_missing l V).
Qed.
Lemma g_local w x y Sv : same_on Sv x y -> forall f i, g t x Sv w f i = g t y Sv w f i.
Proof.
  intros H. induction f as [|f IH]; intro i; [reflexivity|]. cbn [g]. rewrite !IH.
  destruct (is_leaf t i); [reflexivity|]. destruct (memb_spec (ftn t i) Sv) as [Hm|]; [|reflexivity].
  assert (E : qleb (x (ftn t i)) (thq t i) = qleb (y (ftn t i)) (thq t i)) by (apply eq_true_iff_eq; rewrite !qleb_true, (H _ Hm); reflexivity).
  now rewrite E.
Qed.
Lemma g_sets w x Sv Tv : (forall i, i < nn t -> is_leaf t i = false -> (In (ftn t i) Sv <-> In (ftn t i) Tv)) ->
  forall f i, i < nn t -> (g t x Sv w f i == g t x Tv w f i)%Q.
Proof.
  intros H. induction f as [|f IH]; intros i Hi; [reflexivity|]. cbn [g].
  destruct (is_leaf t i) eqn:El; [reflexivity|]. destruct (wf_internal t d Hwf i Hi El) as [A [B _]].
  assert (E : memb (ftn t i) Sv = memb (ftn t i) Tv) by (apply eq_true_iff_eq; rewrite !memb_true; now apply H).
  rewrite E. destruct (memb (ftn t i) Tv); [destruct (qleb _ _); apply IH; lia|].
  rewrite !IH by lia. reflexivity.
Qed.
Lemma shap_same w x y Sv Tv q r : fitted t w -> same_on Sv x y ->
  (forall i, i < nn t -> leaf_node t i = false -> (In (ftn t i) Sv <-> In (ftn t i) Tv)) ->
  exp_shap t w x Sv = Some q -> exp_shap t w y Tv = Some r -> (q == r)%Q.
Proof.
  intros Hf Hxy HS Eq Er.
  destruct (exp_shap_g t d Hwf Hsk x Sv w (fitted_pos w Hf)) as [q' [Eq' Gq]]. destruct (exp_shap_g t d Hwf Hsk y Tv w (fitted_pos w Hf)) as [r' [Er' Gr]].
  rewrite Eq in Eq'. rewrite Er in Er'. injection Eq' as <-. injection Er' as <-. rewrite Gq, Gr, (g_local w x y Sv Hxy).
  apply g_sets; [exact HS|now apply (wf_pos t d)].
Qed.
Lemma mean_over_val h rows q : rows <> [] -> (q * Qn (length rows) == sumf (fun z => h (val t z)) rows)%Q -> mean_over t h rows q.
Proof. intros Hn Hq. split; [exact Hn|]. exists (val t). split; [intros z _; now apply (val_spec t d)|exact Hq]. Qed.
Lemma filter_all {A} (p : A -> bool) l : (forall a, In a l -> p a = true) -> filter p l = l.
Proof. induction l as [|a l IH]; intro H; cbn [filter]; [reflexivity|]. rewrite (H a) by now left. f_equal. apply IH. intros; apply H; now right. Qed.
Lemma shap_blind w x Sv data A : fitted t w -> agreeing Sv x data A -> filter A data <> [] -> blind t w Sv (filter A data) ->
  exists q, exp_shap t w x Sv = Some q /\ mean_pred t (filter A data) q.
Proof.
  intros Hf HA Hn HB. destruct (exp_shap_g t d Hwf Hsk x Sv w (fitted_pos w Hf)) as [r [E Er]]. exists r. split; [exact E|].
  apply mean_over_val; [exact Hn|]. rewrite Er, Qmult_comm.
  assert (HA' : forall z, In z (filter A data) -> same_on Sv x z) by (intros z Hz; apply filter_In in Hz; apply (HA z); apply Hz).
  pose proof (g_rows t d Hwf x Sv w (fitted_pos w Hf) (fitted_bal w Hf) (filter A data) HA' HB (nn t) 0 (wf_pos t d Hwf) ltac:(lia)) as K.
  rewrite (filter_all (vis t 0)) in K by (intros; now apply (vis_root' t d)).
  rewrite K. apply sumf_ext. intros z _. rewrite (vis_root' t d Hwf z). cbn [Qb]. ring.
Qed.
(** ** Means over the leaves *)
Lemma counts_vis w rows l : counts t w rows -> l < nn t -> (w l == Qn (length (filter (vis t l) rows)))%Q.
Proof. intros H Hl. apply (H l Hl). intros z _. apply (vis_spec t d Hwf). Qed.
Lemma leaves_rows w rows ms (h : Q -> Q) : counts t w rows -> NoDup ms -> (forall l, In l ms -> l < nn t /\ is_leaf t l = true) ->
  (sumf (fun l => w l * h (vlq t l)) ms == sumf (fun z => h (val t z)) (filter (fun z => memb (leaf_at t z) ms) rows))%Q /\
  (sumf w ms == Qn (length (filter (fun z => memb (leaf_at t z) ms) rows)))%Q.
Proof.
  intros Hc ND L. split.
  - rewrite (sumf_ext _ (fun l => Qn (length (filter (vis t l) rows)) * h (vlq t l))%Q) by (intros l Hl; rewrite (counts_vis w rows l Hc) by (now apply L); reflexivity).
    rewrite (rows_of_leaves t d Hwf ms rows (fun l => h (vlq t l)) ND) by (intros l Hl; now apply L). rewrite sumf_filter.
    apply sumf_ext. intros z _. unfold val. destruct (memb _ _); cbn [Qb]; ring.
  - rewrite (sumf_ext _ (fun l => Qn (length (filter (vis t l) rows)) * 1)%Q) by (intros l Hl; rewrite (counts_vis w rows l Hc) by (now apply L); ring).
    rewrite (rows_of_leaves t d Hwf ms rows (fun _ => 1%Q) ND) by (intros l Hl; now apply L).
    rewrite <- sumf_count. apply sumf_ext. intros z _. ring.
Qed.
Lemma compat_leaf x Sv ls : compatible t x Sv = Some ls -> NoDup (map fst ls) /\ (forall l, In l (map fst ls) -> l < nn t /\ is_leaf t l = true) /\ ls <> [].
Proof.
  intro E. pose proof (wf_pos t d Hwf) as H0. unfold compatible in E. split; [apply (explore_nodup t d Hwf x Sv _ _ _ _ H0 E)|]. split.
  - intros l Hl. apply in_map_iff in Hl. destruct Hl as [[l' q] [<- Hl]]. apply (explore_leaf t d Hwf x Sv _ _ _ _ H0 E) in Hl. cbn. tauto.
  - apply (explore_section t d Hwf x Sv x _ _ _ _ H0 E).
Qed.
Lemma leaf_in x Sv ls z : compatible t x Sv = Some ls -> (memb (leaf_at t z) (map fst ls) = true <-> exists l, may_meet t x Sv 0 l /\ leaf_node t l = true /\ visits t z no_missing l).
Proof.
  intro E. pose proof (wf_pos t d Hwf) as H0. unfold compatible in E. rewrite memb_true, (explore_may t d Hwf x Sv _ _ _ _ H0 E). split.
  - intros [M L]. exists (leaf_at t z). split; [exact M|]. split; [exact L|]. apply (vis_spec t d Hwf). rewrite (vis_leaf t d Hwf _ z L). apply Nat.eqb_refl.
  - intros [l [M [L V]]]. apply (vis_spec t d Hwf) in V. rewrite (vis_leaf t d Hwf l z L) in V. apply Nat.eqb_eq in V. subst l. auto.
Qed.
Lemma empty_all x z ls : compatible t x [] = Some ls -> memb (leaf_at t z) (map fst ls) = true.
Proof.
  intro E. apply memb_true. pose proof (wf_pos t d Hwf) as H0. destruct (explore_complete t d Hwf x [] z ltac:(intros s []) _ _ _ _ H0 E) as [l [q [Hl W]]].
  unfold leaf_at, predict_leaf. rewrite W. apply in_map_iff. exists (l, q). auto.
Qed.
Lemma sumf_pos {A} (f : A -> Q) l : l <> [] -> (forall a, In a l -> (0 < f a)%Q) -> (0 < sumf f l)%Q.
Proof.
  intros Hn H. destruct l as [|a l]; [contradiction|]. cbn [sumf].
  assert (0 < f a)%Q by (apply H; now left). assert (0 <= sumf f l)%Q by (apply sumf_nonneg; intros; apply Qlt_le_weak, H; now right). lra.
Qed.
Lemma empty_mean w x rows : counts t w rows -> rows <> [] -> exists q, exp_empty t w x [] = Some q /\ mean_pred t rows q.
Proof.
  intros Hc Hn. destruct (compatible_total t d Hwf x []) as [ls E]. destruct (marked_leaves_perm t d Hwf Hsk x [] ls E) as [ms [Em HP]].
  destruct (compat_leaf x [] ls E) as [ND [L _]].
  assert (ND' : NoDup ms) by (eapply Permutation_NoDup; [apply Permutation_sym; exact HP|exact ND]).
  assert (L' : forall l, In l ms -> l < nn t /\ is_leaf t l = true) by (intros l Hl; apply L; eapply Permutation_in; eauto).
  destruct (leaves_rows w rows ms (fun v => v) Hc ND' L') as [S1 S2].
  assert (F : filter (fun z => memb (leaf_at t z) ms) rows = rows).
  { apply filter_all. intros z _. apply memb_true. eapply Permutation_in; [apply Permutation_sym; exact HP|]. apply memb_true. now apply (empty_all x). }
  rewrite F in S1, S2. assert (N : ~ (Qn (length rows) == 0)%Q) by (apply Qn_neq0; destruct rows; [contradiction|discriminate]).
  unfold exp_empty. rewrite Em. unfold weighted. destruct (qeqb_spec (sumf w ms) 0) as [C|C]; [exfalso; apply N; now rewrite <- S2|].
  eexists. split; [reflexivity|]. apply mean_over_val; [exact Hn|]. rewrite <- S1.
  rewrite (sumf_ext _ (fun l => / sumf w ms * (w l * vlq t l))%Q) by (intros; unfold Qdiv; ring).
  rewrite sumf_scal, <- S2. field. exact C.
Qed.
Lemma v1_mean w x Sv rows R : counts t w rows -> falling t Sv x rows R -> filter R rows <> [] ->
  exists q, exp_plugin_v1 t w x Sv = Some q /\ mean_pred t (filter R rows) q.
Proof.
  intros Hc HR Hn. destruct (compatible_total t d Hwf x Sv) as [ls E]. destruct (marked_leaves_perm t d Hwf Hsk x Sv ls E) as [ms [Em HP]].
  destruct (compat_leaf x Sv ls E) as [ND [L _]].
  assert (ND' : NoDup ms) by (eapply Permutation_NoDup; [apply Permutation_sym; exact HP|exact ND]).
  assert (L' : forall l, In l ms -> l < nn t /\ is_leaf t l = true) by (intros l Hl; apply L; eapply Permutation_in; eauto).
  destruct (leaves_rows w rows ms (fun v => v) Hc ND' L') as [S1 S2].
  assert (F : filter (fun z => memb (leaf_at t z) ms) rows = filter R rows).
  { apply filter_ext_in'. intros z Hz. apply eq_true_iff_eq. pose proof (HR z Hz) as D. unfold decided in D. rewrite D. rewrite <- (leaf_in x Sv ls z E). rewrite !memb_true.
    split; intro K; [apply (Permutation_in _ HP K)|apply (Permutation_in _ (Permutation_sym HP) K)]. }
  rewrite F in S1, S2. assert (N : ~ (Qn (length (filter R rows)) == 0)%Q) by (apply Qn_neq0; destruct (filter R rows); [contradiction|discriminate]).
  unfold exp_plugin_v1. rewrite Em. destruct (qeqb_spec (sumf w ms) 0) as [C|C]; [exfalso; apply N; now rewrite <- S2|].
  eexists. split; [reflexivity|]. apply mean_over_val; [exact Hn|]. rewrite <- S1, <- S2. field. exact C.
Qed.
Lemma weighted_between {A} (p v : A -> Q) l lo hi : (forall a, In a l -> (0 <= p a)%Q) -> (forall a, In a l -> (lo <= v a <= hi)%Q) ->
  (lo * sumf p l <= sumf (fun a => p a * v a) l <= hi * sumf p l)%Q.
Proof.
  intros Hp Hv. rewrite <- !sumf_scal. split; apply sumf_le; intros a Ha; specialize (Hp a Ha); destruct (Hv a Ha) as [H1 H2].
  - rewrite (Qmult_comm lo). now apply Qmult_le_compat_pos_l.
  - rewrite (Qmult_comm hi). now apply Qmult_le_compat_pos_l.
Qed.
Lemma v1_between w x Sv lo hi : fitted t w -> met_between t x Sv (fun v => v) lo hi -> exists q, exp_plugin_v1 t w x Sv = Some q /\ (lo <= q <= hi)%Q.
Proof.
  intros Hf H. destruct (compatible_total t d Hwf x Sv) as [ls E]. destruct (marked_leaves_perm t d Hwf Hsk x Sv ls E) as [ms [Em HP]].
  destruct (compat_leaf x Sv ls E) as [ND [L Hne]]. pose proof (wf_pos t d Hwf) as H0.
  assert (L' : forall l, In l ms -> l < nn t /\ is_leaf t l = true) by (intros l Hl; apply L; eapply Permutation_in; eauto).
  assert (Hm : forall l, In l ms -> (lo <= vlq t l <= hi)%Q).
  { intros l Hl. apply H; [|now apply L']. apply (Permutation_in _ HP) in Hl. unfold compatible in E. now apply (explore_may t d Hwf x Sv _ _ _ _ H0 E) in Hl. }
  assert (P : (0 < sumf w ms)%Q).
  { apply sumf_pos; [intros ->; apply Permutation_nil in HP; destruct ls; [contradiction|discriminate]|]. intros l Hl. apply (fitted_pos w Hf). now apply L'. }
  unfold exp_plugin_v1. rewrite Em. destruct (qeqb_spec (sumf w ms) 0) as [C|C]; [lra|]. eexists. split; [reflexivity|].
  destruct (weighted_between w (vlq t) ms lo hi) as [B1 B2]; [intros l Hl; apply Qlt_le_weak, (fitted_pos w Hf); now apply L'|exact Hm|].
  split; [apply Qle_shift_div_l|apply Qle_shift_div_r]; trivial.
Qed.
Lemma predicted_value x : exists v, predicted t x = Some v /\ leaf_value t x no_missing v.
Proof. exists (val t x). split; [now apply (predict_val t d)|now apply (val_spec t d)]. Qed.
End Statements.

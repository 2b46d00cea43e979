(** Proofs about loaded scikit-learn models. *)
From Verif Require Import Base TreeModel TreeSpec TreeProofs FlatModel FlatSpec FlatProofs SkModel SkSpec.
Local Open Scope nat_scope.

Lemma all_some_iff {A} (l : list (option A)) s : all_some l = Some s <-> l = map Some s.
Proof.
  revert s. induction l as [|[a|] l IH]; intro s; cbn [all_some].
  - split; intro H; [injection H as <-; reflexivity|destruct s; [reflexivity|discriminate]].
  - destruct (all_some l) as [s'|].
    + split; intro H.
      * injection H as <-. cbn. f_equal. now apply IH.
      * destruct s as [|b s]; [discriminate|]. cbn in H. injection H as -> H. apply IH in H. injection H as ->. reflexivity.
    + split; intro H; [discriminate|]. destruct s as [|b s]; [discriminate|]. cbn in H. injection H as _ H.
      apply IH in H. discriminate.
  - split; intro H; [discriminate|]. destruct s; discriminate.
Qed.
Lemma all_some_map {A B} (f : A -> option B) g l : (forall a, In a l -> f a = Some (g a)) ->
  all_some (map f l) = Some (map g l).
Proof.
  intro H. apply all_some_iff. rewrite map_map. apply map_ext_in. exact H.
Qed.

(** trees with the same structure *)
Lemma visits_agree t t' z z' miss miss' l :
  (forall i, clz t i = clz t' i /\ crz t i = crz t' i /\ cdz t i = cdz t' i /\ thq t i = thq t' i) ->
  (forall i, visits t z miss i -> leaf_node t i = false ->
     z (ftn t i) = z' (ftn t' i) /\ miss (ftn t i) = miss' (ftn t' i)) ->
  visits t z miss l -> visits t' z' miss' l.
Proof.
  intros Ht Hz H. induction H as [|i j H IH Hl Hd]; [constructor|].
  destruct (Ht i) as (E1 & E2 & E3 & E4). destruct (Hz i H Hl) as [F1 F2].
  apply (vis_step _ _ _ i); [exact IH|unfold leaf_node in *; now rewrite <- E1|].
  destruct Hd as [Hm|Hm Hx|Hm Hx].
  - rewrite E3. constructor. now rewrite <- F2.
  - rewrite E1. apply dec_left; [now rewrite <- F2|now rewrite <- F1, <- E4].
  - rewrite E2. apply dec_right; [now rewrite <- F2|now rewrite <- F1, <- E4].
Qed.

Lemma lands_det t d z miss l l' : wf_tree t d = true -> lands t z miss l -> lands t z miss l' -> l = l'.
Proof.
  intros Hw [H1 H2] [H3 H4]. pose proof (proj1 (visited_leaf_predicted t d Hw z miss l H1) H2) as E1.
  pose proof (proj1 (visited_leaf_predicted t d Hw z miss l' H3) H4) as E2. rewrite E1 in E2. now injection E2.
Qed.

Lemma wf_same_shape c r df f h v v' d : length v = length v' ->
  wf_tree (mkTree c r df f h v) d = wf_tree (mkTree c r df f h v') d.
Proof. intro E. unfold wf_tree. cbn [vl]. rewrite E. reflexivity. Qed.

(** the loaded form of a tree *)
Definition row_of (nz : bool) (s : Q) (r : list (list Q)) : list Q :=
  map (fun a => (if nz then a / sumf (fun b => b) (concat r) else a) * s)%Q (concat r).
Definition loaded_of (nz : bool) (s : Q) (e : sk) : mtree :=
  mkM (sk_cl e) (sk_cr e) (sk_cl e) (sk_ft e) (sk_th e) (map (row_of nz s) (sk_value e)).
Definition sums_ok (nz : bool) (e : sk) : Prop :=
  nz = true -> forall r, In r (sk_value e) -> ~ (sumf (fun b => b) (concat r) == 0)%Q.

Lemma quot_some a b : ~ (b == 0)%Q -> quot a b = Some (a / b)%Q.
Proof. intro H. unfold quot. destruct (qeqb_spec b 0); [contradiction|reflexivity]. Qed.

Lemma load_sk_form nz s e : sums_ok nz e -> load_sk nz s e = Some (loaded_of nz s e).
Proof.
  intro H. unfold load_sk, loaded_of. destruct nz.
  - unfold normalize_rows, reshape. rewrite map_map.
    rewrite (all_some_map _ (fun r => map (fun a => a / sumf (fun b => b) (concat r))%Q (concat r))).
    + f_equal. f_equal. unfold scale_rows. rewrite map_map. apply map_ext. intro r. unfold row_of. now rewrite map_map.
    + intros r Hr. apply all_some_map. intros a _. apply quot_some. now apply H.
  - f_equal. f_equal. unfold scale_rows, reshape. rewrite map_map. apply map_ext. reflexivity.
Qed.

Lemma loaded_wf nz s d w e : sk_ok d w e -> well_formed d w (loaded_of nz s e).
Proof.
  intros (H1 & H2 & H3). split.
  - unfold as_tree, loaded_of. cbn [m_cl m_cr m_cd m_ft m_th m_vl]. rewrite <- H1. apply wf_same_shape.
    rewrite !map_length, repeat_length. exact H2.
  - intros r Hr. unfold loaded_of in Hr. cbn [m_vl] in Hr. apply in_map_iff in Hr as [q [<- Hq]].
    unfold row_of. rewrite map_length. now apply H3.
Qed.

Lemma loaded_gives nz s e z miss r : gives (loaded_of nz s e) z miss r ->
  exists l, lands (splits e) z miss l /\ r = nth l (map (row_of nz s) (sk_value e)) [].
Proof.
  intros (l & Hv & Hl & ->). exists l. split; [|reflexivity]. split; [|exact Hl].
  revert Hv. apply visits_agree; [intro i; repeat split|]. intros i _ _. split; reflexivity.
Qed.

Lemma nth_row_of nz s r k : (nth k (row_of nz s r) 0 == s * (if nz then nth k (concat r) 0 / sumf (fun b => b) (concat r) else nth k (concat r) 0))%Q.
Proof.
  unfold row_of.
  set (f := fun a => ((if nz then a / sumf (fun b => b) (concat r) else a) * s)%Q).
  destruct (Nat.lt_ge_cases k (length (concat r))) as [Hk|Hk].
  - rewrite (nth_indep _ 0%Q (f 0%Q)) by now rewrite map_length. rewrite map_nth. unfold f. destruct nz; ring.
  - rewrite !nth_overflow by (rewrite ?map_length; exact Hk). destruct nz; [unfold Qdiv|]; ring.
Qed.

Lemma lands_lt t d z miss l : wf_tree t d = true -> lands t z miss l -> l < nn t.
Proof. intros H [Hv _]. eapply visits_lt; eassumption. Qed.

Lemma loaded_value nz s e l k : l < length (sk_value e) ->
  (nth k (nth l (map (row_of nz s) (sk_value e)) []) 0 == s * value_at nz k e l)%Q.
Proof.
  intro Hl. rewrite (nth_indep _ [] (row_of nz s [])) by now rewrite map_length.
  rewrite map_nth. eapply Qeq_trans; [apply nth_row_of|]. unfold value_at, share, cell, total. destruct nz; reflexivity.
Qed.

Lemma sum_gives nz s d w es z miss rs k : (forall e, In e es -> sk_ok d w e) ->
  all_give (map (loaded_of nz s) es) z miss rs ->
  exists ls, all_land es z miss ls /\ (sumf (fun r => nth k r 0) rs == s * over (value_at nz k) es ls)%Q.
Proof.
  revert rs. induction es as [|e es IH]; intros rs Hok H; inversion H as [|m r l' rs' Hg Ht]; subst.
  - exists []. split; [constructor|]. unfold over. cbn. ring.
  - destruct (IH rs') as [ls [Hls Es]]; [intros; apply Hok; now right|exact Ht|].
    destruct (loaded_gives nz s e z miss r Hg) as [l [Hl ->]].
    exists (l :: ls). split; [constructor; assumption|]. unfold over in *. cbn [combine sumf fst snd].
    assert (Hlt : l < length (sk_value e)).
    { destruct (Hok e (or_introl eq_refl)) as (H1 & H2 & _). pose proof (lands_lt _ _ _ _ _ H1 Hl) as Hlt.
      unfold nn in Hlt. cbn [splits cl] in Hlt. lia. }
    rewrite Es, (loaded_value nz s e l k Hlt). ring.
Qed.

Lemma all_land_det es d w z miss ls ls' : (forall e, In e es -> sk_ok d w e) ->
  all_land es z miss ls -> all_land es z miss ls' -> ls = ls'.
Proof.
  revert ls ls'. induction es as [|e es IH]; intros ls ls' Hok H H'; inversion H; inversion H'; subst; [reflexivity|].
  f_equal.
  - eapply lands_det; [exact (proj1 (Hok e (or_introl eq_refl)))|eassumption|eassumption].
  - apply IH; try assumption. intros; apply Hok; now right.
Qed.

Lemma lim_all T : limit_keeps (-1) T T.
Proof. right. split; [lia|reflexivity]. Qed.

Lemma sk_fits es nz s w d fuel : 0 < w -> (forall e, In e es -> sk_ok d w e) -> sk_small es w d fuel ->
  fits (map (loaded_of nz s) es) w d /\ (forall m, In m (map (loaded_of nz s) es) -> length (m_vl m) <= fuel).
Proof.
  intros Hw Hok (H1 & H2 & H3).
  assert (Hl : forall m, In m (map (loaded_of nz s) es) -> length (m_vl m) <= fuel).
  { intros m Hm. apply in_map_iff in Hm as [e [<- He]]. unfold loaded_of. cbn [m_vl]. rewrite map_length.
    rewrite (proj1 (proj2 (Hok e He))). now apply H1. }
  split; [|exact Hl]. exists fuel. split; [exact Hl|]. rewrite map_length. split; assumption.
Qed.

Theorem plain_loaded es nz s b w d n M X miss fuel :
  es <> [] -> 0 < w -> (forall e, In e es -> sk_ok d w e) -> d <= M -> offset_fits b w -> sk_small es w d fuel ->
  exists o, ensemble_predict (map (loaded_of nz s) es) 1 b (-1) fuel n M X miss = Some o /\
    len o = (Z.of_nat n * Z.of_nat w)%Z /\
    forall i, i < n -> exists ls, all_land es (X i) (miss i) ls /\ forall k, k < w ->
      (get o (Z.of_nat i * Z.of_nat w + Z.of_nat k)%Z == offset_of b k + s * over (value_at nz k) es ls)%Q.
Proof.
  intros Hne Hw Hok HM Hb Hs. destruct (sk_fits es nz s w d fuel Hw Hok Hs) as [Hf Hl].
  set (ts := map (loaded_of nz s) es) in *.
  destruct (predict_plain ts w d b (-1)%Z (length ts) n M X miss fuel) as (o & Eo & Lo & Ho); try assumption.
  - intro E. unfold ts in E. destruct es; [now apply Hne|discriminate].
  - intros m Hm. apply in_map_iff in Hm as [e [<- He]]. apply loaded_wf. now apply Hok.
  - apply lim_all.
  - exists o. split; [exact Eo|]. split; [exact Lo|]. intros i Hi.
    destruct (Ho i 0 Hi Hw) as (rs & Hrs & _). rewrite firstn_all in Hrs.
    destruct (sum_gives nz s d w es _ _ rs 0 Hok Hrs) as [ls [Hls _]]. exists ls. split; [exact Hls|].
    intros k Hk. destruct (Ho i k Hi Hk) as (rs' & Hrs' & E). rewrite firstn_all in Hrs'.
    destruct (sum_gives nz s d w es _ _ rs' k Hok Hrs') as [ls' [Hls' E']].
    rewrite (all_land_det es d w _ _ ls ls' Hok Hls Hls'). rewrite E, E'. reflexivity.
Qed.

Lemma with_scaling_form nz s b es : (forall e, In e es -> sums_ok nz e) ->
  with_scaling nz s b es = Some (mkL (map (loaded_of nz s) es) (map (fun _ => s) es) 1 b).
Proof.
  intro H. unfold with_scaling. rewrite (all_some_map _ (loaded_of nz s)); [reflexivity|].
  intros e He. apply load_sk_form. now apply H.
Qed.
Lemma average_some n : 0 < n -> average n = Some (1 / Qn n)%Q.
Proof. intro H. apply quot_some. apply Qn_neq0. lia. Qed.
Lemma sums_false e : sums_ok false e.
Proof. intro H. discriminate. Qed.
Lemma sums_counts nz e : counts e -> sums_ok nz e.
Proof. intros H _ r Hr. destruct (H r Hr) as [_ Hp]. lra. Qed.

Lemma load_forest apl reg m es : is_forest reg m es -> es <> [] -> (forall e, In e es -> sums_ok (negb reg) e) ->
  exists s, (s == 1 / Qn (length es))%Q /\
    load_model apl m = Some (mkL (map (loaded_of (negb reg) s) es) (map (fun _ => s) es) 1 (Scalar 0)).
Proof.
  intros Hm Hne Hs. assert (Hl : 0 < length es) by (destruct es; [congruence|cbn; lia]).
  destruct reg; destruct Hm as [->|(e & -> & ->)]; cbn [load_model negb] in *.
  - exists (1 / Qn (length es))%Q. split; [reflexivity|]. rewrite (average_some _ Hl). now apply with_scaling_form.
  - exists 1%Q. split; [reflexivity|]. now apply with_scaling_form.
  - exists (1 / Qn (length es))%Q. split; [reflexivity|]. rewrite (average_some _ Hl). now apply with_scaling_form.
  - exists 1%Q. split; [reflexivity|]. now apply with_scaling_form.
Qed.

Theorem forest_predict apl reg m es w d n M X miss fuel :
  is_forest reg m es -> es <> [] -> 0 < w -> (forall e, In e es -> sk_ok d w e) ->
  (reg = false -> forall e, In e es -> counts e) -> d <= M -> sk_small es w d fuel ->
  exists o, model_predict apl m fuel n M X miss = Some o /\ len o = (Z.of_nat n * Z.of_nat w)%Z /\
    forall i, i < n -> exists ls, all_land es (X i) (miss i) ls /\ forall k, k < w ->
      (get o (Z.of_nat i * Z.of_nat w + Z.of_nat k)%Z == over (value_at (negb reg) k) es ls / Qn (length es))%Q.
Proof.
  intros Hm Hne Hw Hok Hc HM Hs.
  destruct (load_forest apl reg m es Hm Hne) as (s & Es & El).
  { intros e He. destruct reg; [apply sums_false|]. apply sums_counts. now apply Hc. }
  unfold model_predict. rewrite El. cbn [l_trees l_stacked l_offset].
  destruct (plain_loaded es (negb reg) s (Scalar 0) w d n M X miss fuel) as (o & Eo & Lo & Ho); try assumption; [exact I|].
  exists o. split; [exact Eo|]. split; [exact Lo|]. intros i Hi. destruct (Ho i Hi) as (ls & Hls & H).
  exists ls. split; [exact Hls|]. intros k Hk. rewrite (H k Hk). cbn [offset_of]. rewrite Es.
  assert (0 < Qn (length es))%Q by (apply Qn_pos; destruct es; [congruence|cbn; lia]). field. lra.
Qed.

Lemma over_bounds f es ls a b : length es = length ls ->
  (forall e l, In (e, l) (combine es ls) -> (a <= f e l <= b)%Q) ->
  (Qn (length es) * a <= over f es ls <= Qn (length es) * b)%Q.
Proof.
  revert ls. induction es as [|e es IH]; intros [|l ls] Hl Hf; try discriminate.
  - unfold over. cbn [combine sumf length]. rewrite Qn_0. lra.
  - cbn [length] in *. injection Hl as Hl. destruct (IH ls Hl) as [H1 H2]; [intros; apply Hf; now right|].
    pose proof (Hf e l (or_introl eq_refl)) as H0. unfold over in *. cbn [combine sumf fst snd]. rewrite Qn_S. lra.
Qed.
Lemma all_land_length es z miss ls : all_land es z miss ls -> length es = length ls.
Proof. intro H. induction H; cbn; congruence. Qed.
Lemma all_land_in es z miss ls e l : all_land es z miss ls -> In (e, l) (combine es ls) ->
  In e es /\ lands (splits e) z miss l.
Proof.
  intro H. induction H as [|e' l' es ls Hl H IH]; [contradiction|].
  intros [E|Hi]; [injection E as -> ->; split; [now left|assumption]|]. destruct (IH Hi). split; [now right|assumption].
Qed.

Lemma sumf_nth l : (sumf (fun k => nth k l 0) (seq 0 (length l)) == sumf (fun a => a) l)%Q.
Proof.
  induction l as [|a l IH]; [reflexivity|]. cbn [length seq sumf nth]. rewrite <- seq_shift, sumf_map.
  cbn [nth]. rewrite IH. reflexivity.
Qed.

Lemma cells_at d w e z miss l : sk_ok d w e -> lands (splits e) z miss l ->
  In (nth l (sk_value e) []) (sk_value e).
Proof.
  intros (H1 & H2 & H3) Hl. apply nth_In. pose proof (lands_lt _ _ _ _ _ H1 Hl) as H. unfold nn in H. cbn [splits cl] in H.
  lia.
Qed.
Lemma share_bounds d w e z miss l k : sk_ok d w e -> counts e -> lands (splits e) z miss l -> k < w ->
  (0 <= share k e l <= 1)%Q.
Proof.
  intros Hok Hc Hl Hk. pose proof (cells_at d w e z miss l Hok Hl) as Hin. destruct (Hc _ Hin) as [Hp Ht].
  unfold share, cell, total. set (r := concat (nth l (sk_value e) [])) in *.
  assert (Hlen : length r = w) by (apply (proj2 (proj2 Hok)); exact Hin).
  assert (H0 : (0 <= nth k r 0)%Q) by (apply Hp, nth_In; lia).
  assert (H1 : (nth k r 0 <= sumf (fun a => a) r)%Q).
  { clear - Hp. revert k. induction r as [|a r IH]; intro k; cbn [sumf].
    - destruct k; cbn; lra.
    - assert (0 <= a)%Q by (apply Hp; now left).
      assert (Hr : forall b, In b r -> (0 <= b)%Q) by (intros; apply Hp; now right).
      pose proof (sumf_nonneg (fun a => a) r Hr) as Hs.
      destruct k; cbn [nth]; [lra|]. pose proof (IH Hr k). lra. }
  split; [apply Qle_shift_div_l; lra|apply Qle_shift_div_r; lra].
Qed.
Lemma share_sum d w e z miss l : sk_ok d w e -> counts e -> lands (splits e) z miss l ->
  (sumf (fun k => share k e l) (seq 0 w) == 1)%Q.
Proof.
  intros Hok Hc Hl. pose proof (cells_at d w e z miss l Hok Hl) as Hin. destruct (Hc _ Hin) as [Hp Ht].
  unfold share, cell, total. set (r := concat (nth l (sk_value e) [])) in *.
  assert (Hlen : length r = w) by (apply (proj2 (proj2 Hok)); exact Hin).
  transitivity (sumf (fun k => (1 / sumf (fun a => a) r) * nth k r 0) (seq 0 w))%Q.
  - apply sumf_ext. intros k _. field. lra.
  - rewrite sumf_scal, <- Hlen, sumf_nth. field. lra.
Qed.

Theorem forest_probability apl m es w d n M X miss fuel :
  is_forest false m es -> es <> [] -> 0 < w -> (forall e, In e es -> sk_ok d w e) ->
  (forall e, In e es -> counts e) -> d <= M -> sk_small es w d fuel ->
  exists o, model_predict apl m fuel n M X miss = Some o /\
    forall i, i < n ->
      (forall k, k < w -> (0 <= get o (Z.of_nat i * Z.of_nat w + Z.of_nat k)%Z <= 1)%Q) /\
      (sumf (fun k => get o (Z.of_nat i * Z.of_nat w + Z.of_nat k)%Z) (seq 0 w) == 1)%Q.
Proof.
  intros Hm Hne Hw Hok Hc HM Hs.
  destruct (forest_predict apl false m es w d n M X miss fuel) as (o & Eo & _ & Ho); try assumption; [now intros _|].
  exists o. split; [exact Eo|]. intros i Hi. destruct (Ho i Hi) as (ls & Hls & H). cbn [negb] in H.
  pose proof (all_land_length _ _ _ _ Hls) as Hlen.
  assert (HT : (0 < Qn (length es))%Q) by (apply Qn_pos; destruct es; [congruence|cbn; lia]).
  split.
  - intros k Hk. rewrite (H k Hk).
    assert (B : (Qn (length es) * 0 <= over (value_at true k) es ls <= Qn (length es) * 1)%Q).
    { apply over_bounds; [exact Hlen|]. intros e l Hi2. destruct (all_land_in _ _ _ _ _ _ Hls Hi2) as [He Hl].
      unfold value_at. eapply share_bounds; eauto. }
    split; [apply Qle_shift_div_l; lra|apply Qle_shift_div_r; lra].
  - transitivity (sumf (fun k => (1 / Qn (length es)) * over (value_at true k) es ls) (seq 0 w))%Q.
    { apply sumf_ext. intros k Hk. apply in_seq in Hk. rewrite (H k) by lia. field. lra. }
    rewrite sumf_scal. unfold over. rewrite sumf_swap.
    transitivity ((1 / Qn (length es)) * sumf (fun _ : sk * nat => 1) (combine es ls))%Q.
    + apply Qmult_comp; [reflexivity|]. apply sumf_ext. intros [e l] Hi2. cbn [fst snd].
      destruct (all_land_in _ _ _ _ _ _ Hls Hi2) as [He Hl]. unfold value_at. eapply share_sum; eauto.
    + rewrite sumf_const, combine_length, <- Hlen, Nat.min_id. field. lra.
Qed.

(** boosting *)
Lemma column_map {A} (es : list A) : column 0 (map (fun e => [e]) es) = Some es.
Proof. unfold column. rewrite map_map. cbn [nth_error]. apply all_some_iff. reflexivity. Qed.

Theorem boosting_predict apl m b rate es d n M X miss fuel :
  m = BoostReg (Some b) rate (map (fun e => [e]) es) \/ m = BoostClf (Some b) rate (map (fun e => [e]) es) ->
  es <> [] -> (forall e, In e es -> sk_ok d 1 e) -> d <= M -> offset_fits b 1 -> sk_small es 1 d fuel ->
  exists o, model_predict apl m fuel n M X miss = Some o /\ len o = Z.of_nat n /\
    forall i, i < n -> exists ls, all_land es (X i) (miss i) ls /\
      (get o (Z.of_nat i) == offset_of b 0 + rate * over (cell 0) es ls)%Q.
Proof.
  intros Hm Hne Hok HM Hb Hs.
  assert (El : load_model apl m = Some (mkL (map (loaded_of false rate) es) (map (fun _ => rate) es) 1 b)).
  { destruct Hm as [Hm|Hm]; subst m; cbn [load_model].
    - rewrite column_map. apply with_scaling_form. intros; apply sums_false.
    - replace (existsb _ _) with false.
      + rewrite column_map. apply with_scaling_form. intros; apply sums_false.
      + symmetry. clear. induction es as [|e es IH]; [reflexivity|]. cbn [map existsb length Nat.ltb]. exact IH. }
  unfold model_predict. rewrite El. cbn [l_trees l_stacked l_offset].
  destruct (plain_loaded es false rate b 1 d n M X miss fuel) as (o & Eo & Lo & Ho); try assumption; [lia|].
  exists o. split; [exact Eo|]. split; [rewrite Lo; lia|]. intros i Hi. destruct (Ho i Hi) as (ls & Hls & H).
  exists ls. split; [exact Hls|]. specialize (H 0 ltac:(lia)). rewrite Z.mul_1_r, Z.add_0_r in H. exact H.
Qed.

(** any trees whose outputs are known leaf by leaf *)
Section General.
Variables (A : Type) (src : list A) (ts : list mtree) (land : nat -> A -> nat -> Prop) (g : nat -> A -> nat -> Q).
Variables (b : offset) (w d n M fuel : nat) (X : nat -> pt) (miss : nat -> nat -> bool).
Definition fits_source (a : A) (m : mtree) : Prop :=
  well_formed d w m /\ forall i r, i < n -> gives m (X i) (miss i) r ->
    exists l, land i a l /\ forall k, k < w -> (nth k r 0 == g k a l)%Q.
Lemma sum_source i rs k : i < n -> k < w -> Forall2 fits_source src ts -> all_give ts (X i) (miss i) rs ->
  exists ls, Forall2 (land i) src ls /\
    (sumf (fun r => nth k r 0) rs == sumf (fun p => g k (fst p) (snd p)) (combine src ls))%Q.
Proof.
  intros Hi Hk H. revert rs. induction H as [|a m src' ts' Ha H IH]; intros rs Hg.
  - inversion Hg; subst. exists []. split; [constructor|reflexivity].
  - inversion Hg as [|m' r ts'' rs' Hr Hrs]; subst. destruct (IH rs' Hrs) as [ls [Hls E]].
    destruct (proj2 Ha i r Hi Hr) as [l [Hl El]]. exists (l :: ls). split; [constructor; assumption|].
    cbn [sumf combine fst snd]. rewrite E, (El k Hk). reflexivity.
Qed.
Theorem general_source : Forall2 fits_source src ts -> ts <> [] -> 0 < w ->
  (forall a i l l', In a src -> land i a l -> land i a l' -> l = l') ->
  d <= M -> offset_fits b w -> fits ts w d -> (forall m, In m ts -> length (m_vl m) <= fuel) ->
  exists o, ensemble_predict ts 1 b (-1) fuel n M X miss = Some o /\ len o = (Z.of_nat n * Z.of_nat w)%Z /\
    forall i, i < n -> exists ls, Forall2 (land i) src ls /\ forall k, k < w ->
      (get o (Z.of_nat i * Z.of_nat w + Z.of_nat k)%Z
        == offset_of b k + sumf (fun p => g k (fst p) (snd p)) (combine src ls))%Q.
Proof.
  intros H Hne Hw Hdet HM Hb Hf Hl.
  destruct (predict_plain ts w d b (-1)%Z (length ts) n M X miss fuel) as (o & Eo & Lo & Ho); try assumption.
  - intros m Hm. clear - H Hm. induction H as [|a m' s t Ha H IH]; [contradiction|].
    destruct Hm as [->|Hm]; [apply Ha|now apply IH].
  - apply lim_all.
  - exists o. split; [exact Eo|]. split; [exact Lo|]. intros i Hi.
    destruct (Ho i 0 Hi Hw) as (rs & Hrs & _). rewrite firstn_all in Hrs.
    destruct (sum_source i rs 0 Hi Hw H Hrs) as [ls [Hls _]]. exists ls. split; [exact Hls|].
    intros k Hk. destruct (Ho i k Hi Hk) as (rs' & Hrs' & E). rewrite firstn_all in Hrs'.
    destruct (sum_source i rs' k Hi Hk H Hrs') as [ls' [Hls' E']].
    assert (Eq : ls = ls').
    { clear - Hdet Hls Hls'. revert ls' Hls'. induction Hls as [|a l s t Ha H IH]; intros ls' H'; inversion H'; subst; [reflexivity|].
      f_equal; [eapply Hdet; [now left|eassumption|eassumption]|]. apply IH; [|assumption].
      intros a' i' l1 l2 Hin. apply Hdet. now right. }
    subst ls'. rewrite E, E'. reflexivity.
Qed.
End General.

(** histogram boosting *)
Lemma wf_same_structure c r df f f' h v v' d : length v = length v' -> length f = length f' ->
  (forall i, (0 <= nth i c (-1))%Z -> nth i f (-1)%Z = nth i f' (-1)%Z) ->
  wf_tree (mkTree c r df f h v) d = wf_tree (mkTree c r df f' h v') d.
Proof.
  intros E1 E2 Hf. unfold wf_tree. cbn [vl ft]. rewrite E1, E2. f_equal. f_equal. apply forallb_ext_in.
  intros i _. unfold wf_node, clz, crz, cdz. cbn [cl cr cd ft nn].
  destruct (nth i c (-1) <? 0)%Z eqn:E; [reflexivity|]. apply Z.ltb_ge in E. rewrite (Hf i E). reflexivity.
Qed.

Lemma nth_map_in {A B} (f : A -> B) l i da db : i < length l -> nth i (map f l) db = f (nth i l da).
Proof. intro H. rewrite (nth_indep _ db (f da)) by now rewrite map_length. apply map_nth. Qed.

Lemma hist_features p i : (0 <= nth i (map (fun n => if h_leaf n then -1 else h_left n)%Z p) (-1))%Z ->
  nth i (map (fun n => if h_leaf n then -2 else h_feature n)%Z p) (-1)%Z = nth i (map h_feature p) (-1)%Z.
Proof.
  intro H. destruct (Nat.lt_ge_cases i (length p)) as [Hi|Hi].
  - set (dft := mkH 0 0 0 true 0 0 true). rewrite (nth_map_in _ _ _ dft) in H by exact Hi.
    rewrite !(nth_map_in _ _ _ dft) by exact Hi. destruct (h_leaf (nth i p dft)); [lia|reflexivity].
  - rewrite !nth_overflow by (rewrite map_length; exact Hi). reflexivity.
Qed.

Lemma hist_source p d n X miss : wf_tree (h_splits p) d = true ->
  fits_source (list hnode) (fun i p l => lands (h_splits p) (X i) (miss i) l) (fun _ p l => vlq (h_splits p) l)
    1 d n X miss p (load_hist p).
Proof.
  intro Hw. split.
  - split.
    + rewrite <- Hw. unfold as_tree, load_hist, h_splits. cbn [m_cl m_cr m_cd m_ft m_th m_vl].
      apply wf_same_structure; [unfold scale_rows; rewrite !map_length; reflexivity|now rewrite !map_length|].
      intros i Hi. now apply hist_features.
    + intros r Hr. unfold load_hist, scale_rows in Hr. cbn [m_vl] in Hr. apply in_map_iff in Hr as [q [<- Hq]].
      apply in_map_iff in Hq as [h [<- _]]. reflexivity.
  - intros i r Hi (l & Hv & Hl & ->). exists l. assert (Hv' : visits (h_splits p) (X i) (miss i) l).
    { revert Hv. apply visits_agree; [intro j; repeat split|]. intros j _ Hj. unfold leaf_node, clz in Hj.
      cbn [as_tree load_hist m_cl cl] in Hj. apply Z.ltb_ge in Hj. unfold ftn. cbn [as_tree load_hist h_splits m_ft ft].
      rewrite (hist_features p j Hj). split; reflexivity. }
    split; [split; [exact Hv'|exact Hl]|]. intros k Hk. assert (k = 0) as -> by lia.
    pose proof (visits_lt _ _ Hw _ _ _ Hv') as Hlt. unfold nn in Hlt. cbn [h_splits cl] in Hlt. rewrite map_length in Hlt.
    unfold load_hist, scale_rows, vlq, h_splits. cbn [m_vl vl]. rewrite map_map.
    set (dft := mkH 0 0 0 true 0 0 true). rewrite !(nth_map_in _ _ _ dft) by exact Hlt. cbn [map nth]. ring.
Qed.

Theorem hist_predict apl m b ps d n M X miss fuel :
  m = HistReg b (map (fun p => [p]) ps) \/ (exists q, b = Scalar q) /\ m = HistClf b (map (fun p => [p]) ps) ->
  ps <> [] -> (forall p, In p ps -> wf_tree (h_splits p) d = true) -> d <= M -> offset_fits b 1 ->
  (forall p, In p ps -> length p <= fuel) -> (Z.of_nat (length ps) * Z.of_nat fuel <= 2 ^ 32)%Z -> (Z.of_nat d <= 2 ^ 32)%Z ->
  exists o, model_predict apl m fuel n M X miss = Some o /\ len o = Z.of_nat n /\
    forall i, i < n -> exists vs, Forall2 (fun p v => leaf_value (h_splits p) (X i) (miss i) v) ps vs /\
      (get o (Z.of_nat i) == offset_of b 0 + sumf (fun v => v) vs)%Q.
Proof.
  intros Hm Hne Hw HM Hb H1 H2 H3.
  assert (El : load_model apl m = Some (mkL (map load_hist ps) (map (fun _ => 1%Q) ps) 1 b)).
  { destruct Hm as [Hm|[[q Hq] Hm]]; subst m; cbn [load_model].
    - rewrite column_map. reflexivity.
    - subst b. cbn [model_output]. destruct ps as [|p ps]; [congruence|]. cbn [map length].
      assert (E : rounds 1 ([p] :: map (fun p => [p]) ps) = Some (p :: ps)).
      { unfold rounds. apply all_some_iff. cbn [map seq nth_error concat app]. f_equal.
        clear. induction ps as [|a ps IH]; [reflexivity|]. cbn [map seq nth_error concat app]. f_equal. exact IH. }
      rewrite E. reflexivity. }
  unfold model_predict. rewrite El. cbn [l_trees l_stacked l_offset].
  destruct (general_source (list hnode) ps (map load_hist ps) (fun i p l => lands (h_splits p) (X i) (miss i) l)
              (fun _ p l => vlq (h_splits p) l) b 1 d n M fuel X miss) as (o & Eo & Lo & Ho).
  - clear - Hw. induction ps as [|p ps IH]; [constructor|]. cbn [map]. constructor.
    + apply hist_source. apply Hw. now left.
    + apply IH. intros; apply Hw; now right.
  - intro E. destruct ps; [congruence|discriminate].
  - lia.
  - intros p i l l' Hp Hl Hl'. eapply lands_det; [apply Hw; exact Hp|exact Hl|exact Hl'].
  - exact HM.
  - exact Hb.
  - exists fuel. split.
    + intros q Hq. apply in_map_iff in Hq as [p [<- Hp]]. unfold load_hist, scale_rows. cbn [m_vl]. rewrite !map_length. now apply H1.
    + rewrite map_length. lia.
  - intros q Hq. apply in_map_iff in Hq as [p [<- Hp]]. unfold load_hist, scale_rows. cbn [m_vl]. rewrite !map_length. now apply H1.
  - exists o. split; [exact Eo|]. split; [rewrite Lo; lia|]. intros i Hi. destruct (Ho i Hi) as (ls & Hls & H).
    exists (map (fun p => vlq (h_splits (fst p)) (snd p)) (combine ps ls)). split.
    + clear - Hls. induction Hls as [|p l ps ls Hl H IH]; [constructor|]. cbn [combine map]. constructor; [|exact IH].
      exists l. destruct Hl as [Hv Hl]. split; [exact Hv|]. split; [exact Hl|reflexivity].
    + specialize (H 0 ltac:(lia)). rewrite Z.mul_1_r, Z.add_0_r in H. rewrite H, sumf_map. reflexivity.
Qed.

(** prediction by one tree *)
Lemma fits_one m w d fuel : length (m_vl m) <= fuel -> (Z.of_nat fuel * Z.of_nat w <= 2 ^ 32)%Z -> (Z.of_nat d <= 2 ^ 32)%Z ->
  fits [m] w d.
Proof.
  intros H1 H2 H3. exists fuel. split; [intros m' [<-|[]]; exact H1|]. split; [|exact H3].
  change (Z.of_nat (length [m])) with 1%Z. rewrite Z.mul_1_l. exact H2.
Qed.

Theorem single_predict nz s e w d n M X miss fuel : ~ (s == 0)%Q -> 0 < w -> sk_ok d w e -> d <= M ->
  sk_small [e] w d fuel ->
  exists o, tree_predict (loaded_of nz s e) s fuel n M X miss = Some o /\ len o = (Z.of_nat n * Z.of_nat w)%Z /\
    forall i, i < n -> exists l, lands (splits e) (X i) (miss i) l /\ forall k, k < w ->
      (get o (Z.of_nat i * Z.of_nat w + Z.of_nat k)%Z == value_at nz k e l)%Q.
Proof.
  intros Hs Hw Hok HM (S1 & S2 & S3). unfold tree_predict.
  rewrite (all_some_map _ (map (fun a => a / s)%Q)).
  2:{ intros r _. apply all_some_map. intros a _. now apply quot_some. }
  set (m := mkM _ _ _ _ _ _).
  assert (Hlen : length (m_vl m) = length (sk_value e)) by (unfold m; cbn [m_vl loaded_of]; now rewrite !map_length).
  destruct Hok as (O1 & O2 & O3). pose proof (S1 e (or_introl eq_refl)) as S1'.
  destruct (general_source sk [e] [m] (fun i e l => lands (splits e) (X i) (miss i) l) (value_at nz) (Scalar 0) w d n M fuel X miss)
    as (o & Eo & Lo & Ho).
  - constructor; [|constructor]. split.
    + destruct (loaded_wf nz s d w e (conj O1 (conj O2 O3))) as [W1 W2]. split.
      * rewrite <- W1. unfold as_tree, m. cbn [m_cl m_cr m_cd m_ft m_th m_vl loaded_of]. apply wf_same_shape.
        now rewrite !map_length.
      * intros r Hr. unfold m in Hr. cbn [m_vl] in Hr. apply in_map_iff in Hr as [q [<- Hq]]. rewrite map_length. now apply W2.
    + intros i r Hi (l & Hv & Hl & ->). exists l.
      assert (Hv' : visits (splits e) (X i) (miss i) l).
      { revert Hv. apply visits_agree; [intro j; repeat split|]. intros j _ _. split; reflexivity. }
      split; [split; [exact Hv'|exact Hl]|]. intros k Hk.
      pose proof (visits_lt _ _ O1 _ _ _ Hv') as Hlt. unfold nn in Hlt. cbn [splits cl] in Hlt.
      unfold m. cbn [m_vl loaded_of]. rewrite (nth_map_in _ _ _ []) by (rewrite map_length; lia).
      set (r := nth l (map (row_of nz s) (sk_value e)) []).
      pose proof (loaded_value nz s e l k ltac:(lia)) as E. fold r in E.
      destruct (Nat.lt_ge_cases k (length r)) as [Hr|Hr].
      * rewrite (nth_map_in _ _ _ 0%Q) by exact Hr. rewrite E. field. exact Hs.
      * rewrite nth_overflow by (rewrite map_length; exact Hr). rewrite nth_overflow in E by exact Hr.
        assert (E2 : (value_at nz k e l == (/ s) * (s * value_at nz k e l))%Q) by (field; exact Hs).
        rewrite E2, <- E. ring.
  - discriminate.
  - exact Hw.
  - intros a i l l' [<-|[]] Hl Hl'. eapply lands_det; [exact O1|exact Hl|exact Hl'].
  - exact HM.
  - exact I.
  - apply (fits_one m w d fuel); [lia| |exact S3]. change (Z.of_nat (length [e])) with 1%Z in S2. lia.
  - intros m' [<-|[]]. lia.
  - exists o. split; [|split; [exact Lo|]].
    + rewrite <- Eo. reflexivity.
    + intros i Hi. destruct (Ho i Hi) as (ls & Hls & H). inversion Hls as [|a l t ls' Hl Hn]; subst. inversion Hn; subst.
      exists l. split; [exact Hl|]. intros k Hk. rewrite (H k Hk). cbn [offset_of combine sumf fst snd]. ring.
Qed.

(** tree [j] of a loaded model *)
Theorem forest_tree_predict apl reg m es ld j e t s w d n M X miss fuel :
  is_forest reg m es -> es <> [] -> 0 < w -> (forall e, In e es -> sk_ok d w e) ->
  (reg = false -> forall e, In e es -> counts e) -> d <= M -> sk_small es w d fuel ->
  load_model apl m = Some ld -> nth_error es j = Some e -> nth_error (l_trees ld) j = Some t ->
  nth_error (l_scalings ld) j = Some s ->
  exists o, tree_predict t s fuel n M X miss = Some o /\ len o = (Z.of_nat n * Z.of_nat w)%Z /\
    forall i, i < n -> exists l, lands (splits e) (X i) (miss i) l /\ forall k, k < w ->
      (get o (Z.of_nat i * Z.of_nat w + Z.of_nat k)%Z == value_at (negb reg) k e l)%Q.
Proof.
  intros Hm Hne Hw Hok Hc HM Hs Hl He Ht Hsc.
  destruct (load_forest apl reg m es Hm Hne) as (s' & Es & El).
  { intros a Ha. destruct reg; [apply sums_false|]. apply sums_counts. now apply Hc. }
  rewrite El in Hl. injection Hl as <-. cbn [l_trees l_scalings] in *.
  rewrite nth_error_map, He in Ht. rewrite nth_error_map, He in Hsc. cbn in Ht, Hsc. injection Ht as <-. injection Hsc as <-.
  assert (Hin : In e es) by (eapply nth_error_In; exact He).
  assert (HT : (0 < Qn (length es))%Q) by (apply Qn_pos; destruct es; [congruence|cbn; lia]).
  apply single_predict with (d := d); try assumption.
  - intro E. rewrite Es in E. assert (E2 : (Qn (length es) * (1 / Qn (length es)) == 1)%Q) by (field; lra).
    rewrite E in E2. lra.
  - now apply Hok.
  - destruct Hs as (S1 & S2 & S3). split; [intros a [<-|[]]; now apply S1|]. split; [|exact S3].
    change (Z.of_nat (length [e])) with 1%Z. assert (1 <= Z.of_nat (length es))%Z by (destruct es; [congruence|cbn; lia]).
    assert (0 <= Z.of_nat fuel * Z.of_nat w)%Z by nia. nia.
Qed.

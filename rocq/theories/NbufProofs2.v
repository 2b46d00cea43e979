(** Proofs about the normalized Shapley values of an [ACVTree], from its trees. *)
From Verif Require Import Base TreeModel TreeSpec TreeProofs GameSpec GameProofs ShapModel ShapSpec ShapProofs NopaModel NopaProofs NormModel NormSpec NormProofs
  FlatModel FlatSpec FlatProofs SkModel SkSpec SkProofs SdpModel SdpSpec SdpProofs ArrModel ArrSpec ArrProofs ArrProofs2 ArrProofs3 ArrProofs4
  EntryModel EntrySpec EntryProofs EntryProofs2 EntryProofs3 SbufModel SbufSpec SbufProofs SbufProofs2 AbufSpec
  CbufModel CbufProofs CbufProofs2 NbufModel NbufSpec NbufProofs.
Local Open Scope nat_scope.

(** ** Leaves with their variables in any order *)
Lemma local_value C m P data forest x g j : coalitions_ok C m -> is_players C m P -> forest_ok m forest -> data <> [] ->
  (forall ls lf, In ls forest -> In lf ls -> rows_in data (l_rect lf) (seq 0 m) <> 0) ->
  (forall ls, In ls forest -> sumf (fun lf => Qn (rows_in data (l_rect lf) (seq 0 m))) ls == Qn (length data))%Q ->
  In g P -> In j g ->
  (shap_values_leaves_normalized C m data forest x j == shapley gdec P (worth_local m data forest x) g)%Q.
Proof.
  intros HC HP HF Hd Held Htot Hg Hj. rewrite worth_local_shapley. unfold shap_values_leaves_normalized.
  pose proof (va_ids_players C m HC) as HV.
  assert (Hgv : In g (va_ids C m)) by (apply HV; apply HP in Hg; exact Hg).
  unfold Qdiv. rewrite <- sumf_scal_r. apply sumf_ext. intros ls Hls.
  rewrite <- sumf_scal_r. apply sumf_ext. intros lf Hlf.
  rewrite (sumf_single _ (va_ids C m) g); trivial.
  - assert (E : count_occ Nat.eq_dec g j = 1).
    { pose proof (player_NoDup C m P g HC HP Hg) as Hnd. rewrite (NoDup_count_occ' Nat.eq_dec) in Hnd. now apply Hnd. }
    rewrite E. change (Qn 1) with 1%Q. rewrite Qmult_1_l.
    apply (norm_leaf_shapley m data ls x); trivial.
    + intros lf' Hlf'. now apply (Held ls).
    + now apply Htot.
    + now apply (HF ls).
  - apply HV.
  - intros h Hh' Hne. assert (E : count_occ Nat.eq_dec h j = 0).
    { apply count_occ_not_In. intro Hjh. apply Hne. symmetry. eapply (player_unique C m (va_ids C m)); eassumption. }
    rewrite E. rewrite Qn_0. ring.
Qed.
Lemma norm_unused C m P data forest x g j : coalitions_ok C m -> is_players C m P -> forest_ok m forest -> In g P -> In j g ->
  (forall ls lf s, In ls forest -> In lf ls -> In s g -> ~ In s (l_vars lf)) ->
  (shap_values_leaves_normalized C m data forest x j == 0)%Q.
Proof.
  intros HC HP HF Hg Hj Hu. pose proof (va_ids_players C m HC) as HV.
  assert (Hgv : In g (va_ids C m)) by (apply HV; apply HP in Hg; exact Hg).
  unfold shap_values_leaves_normalized.
  rewrite (sumf_ext _ (fun _ => 0%Q)); [rewrite sumf_const; unfold Qdiv; ring|]. intros ls Hls.
  rewrite (sumf_ext _ (fun _ => 0%Q)); [rewrite sumf_const; ring|]. intros lf Hlf.
  rewrite (sumf_ext _ (fun _ => 0%Q)); [rewrite sumf_const; ring|]. intros h Hh.
  destruct (in_dec Nat.eq_dec j h) as [Hjh|Hjh].
  - assert (h = g) by (symmetry; eapply (player_unique C m (va_ids C m)); eassumption). subst h.
    assert (E : others C m lf g = None).
    { unfold others. destruct (leaf_groups_touch C m P lf HC HP (HF ls lf Hls Hlf)) as [_ Hp].
      destruct (in_dec group_eq_dec g (leaf_groups C m (l_vars lf))) as [Hin|Hin]; [|reflexivity].
      exfalso. apply (Permutation_in g Hp) in Hin. apply filter_In in Hin. destruct Hin as [_ Ht]. apply (touches_true lf g) in Ht. destruct Ht as (s & H1 & H2).
      exact (Hu ls lf s Hls Hlf H1 H2). }
    unfold norm_leaf_player. rewrite E. ring.
  - rewrite (proj1 (count_occ_not_In Nat.eq_dec h j) Hjh), Qn_0. ring.
Qed.
Lemma norm_prob_wider d m data ls lf F x : d <= m -> In lf ls -> (forall lf, In lf ls -> ShapSpec.leaf_ok d lf) ->
  (norm_prob m data ls lf F x == norm_prob d data ls lf F x)%Q.
Proof.
  intros Hm Hlf Hok. unfold norm_prob.
  assert (G : forall lf, In lf ls -> cond_prob m data (l_rect lf) F x = cond_prob d data (l_rect lf) F x).
  { intros lf' H. unfold cond_prob. now rewrite (rows_in_wider d m data lf' (Hok lf' H) Hm). }
  rewrite (G lf Hlf). apply Qmult_comp; [reflexivity|]. apply Qinv_comp. apply sumf_ext. intros lf' H. now rewrite G.
Qed.
Lemma local_wider d m data forest x Tm : d <= m -> forest_ok d forest -> (worth_local m data forest x Tm == worth_local d data forest x Tm)%Q.
Proof.
  intros Hm HF. unfold worth_local. apply sumf_ext. intros ls Hls. apply sumf_ext. intros lf Hlf.
  rewrite (norm_prob_wider d m data ls lf _ x Hm Hlf); [reflexivity|]. intros lf' H. now apply (HF ls).
Qed.
Lemma norm_wider d m data forest x Tm : d <= m -> forest_ok d forest -> (worth_norm m data forest x Tm == worth_norm d data forest x Tm)%Q.
Proof.
  intros Hm HF. unfold worth_norm. apply sumf_ext. intros ls Hls. apply sumf_ext. intros lf Hlf.
  rewrite (norm_prob_wider d m data ls lf _ x Hm Hlf); [reflexivity|]. intros lf' H. now apply (HF ls).
Qed.

Section Norm.
Variables (listed : list nat -> list nat) (sig : Q -> Q) (ts : list mtree) (stacked : nat) (boosted : bool) (d w k : nat)
  (data : marg) (zs : list (list Q)) (h : shap_acv) (X : marg) (xs : list (list Q)) (m : nat) (C P : list (list nat)).
Hypothesis HL : lists_set listed.
Hypothesis HE : explained ts stacked d w k data zs X xs m C P.
Hypothesis Hh : construct_shap listed sig ts stacked boosted data = Some h.
Notation T := (o_tabs (h_acv h)).
Notation nid := (h_nid h).
Notation pts := (map point zs).

Lemma nOk : ensemble_ok ts stacked d w k. Proof. apply HE. Qed.
Lemma nData : is_table data d zs. Proof. apply HE. Qed.
Lemma nM : d <= m. Proof. apply HE. Qed.
Lemma nC : coalitions_ok C d. Proof. apply HE. Qed.
Lemma nCne : C <> []. Proof. apply HE. Qed.
Lemma nP : is_players C m P. Proof. apply HE. Qed.
Lemma nCm : coalitions_ok C m. Proof. exact (C_wide d m C nM nC). Qed.
Lemma nNe : pts <> [].
Proof. exact (data_ne listed sig ts stacked boosted d data zs h nData Hh). Qed.
Lemma nWf t : In t ts -> well_formed d w t.
Proof. exact (h_wf ts stacked d w k nOk t). Qed.
Lemma nForest j : forest_leaves (shared (raw_share stacked) ts j) = Some (forest_at T (vars ts) j).
Proof. exact (h_forest listed sig ts stacked boosted d w k data zs h nOk nData Hh j). Qed.
Lemma nVarsOk j : forest_ok d (forest_at T (vars ts) j).
Proof. exact (h_vars_ok listed sig ts stacked boosted d w k data zs h nOk nData Hh j). Qed.
Lemma nForestOk j : forest_ok d (forest_at T nid j).
Proof. exact (h_forest_ok listed sig ts stacked boosted d w k data zs h HL nOk nData Hh j). Qed.
Lemma nNids b n : nid b n = node_set listed (nth b ts no_tree) (nth n (leaf_list (nth b ts no_tree)) 0).
Proof. exact (h_nids listed sig ts stacked boosted d data zs h nData Hh b n). Qed.
Lemma nPlace b n : b < t_trees T -> n < t_nb T b ->
  In (nth b ts no_tree) ts /\ In (nth n (leaf_list (nth b ts no_tree)) 0) (leaf_list (nth b ts no_tree)).
Proof. exact (leaf_at_place listed sig ts stacked boosted d w k data zs h nOk nData Hh b n). Qed.
Lemma nAll j : forallb (fun t => wf_tree t d) (shared (raw_share stacked) ts j) = true.
Proof. exact (shared_all_wf ts d w nWf (raw_share stacked) j). Qed.
Lemma nAllm j : forallb (fun t => wf_tree t m) (shared (raw_share stacked) ts j) = true.
Proof.
  apply forallb_forall. intros t Ht. apply (wf_wider t d m nM). pose proof (nAll j) as Hall. rewrite forallb_forall in Hall. now apply Hall.
Qed.
Lemma nWide forest : forest_ok d forest -> forest_ok m forest.
Proof. exact (forest_ok_wide d m nM forest). Qed.

Lemma acv_norm_call order : acv_norm h order X C =
  cube (length xs) m k (norm_prog T nid d pts (h_max h) m (map point xs) C order).
Proof.
  destruct HE as (Hok & Hdata & HX & _). unfold acv_norm.
  rewrite (h_rows listed sig ts stacked boosted d data zs h Hdata Hh), (h_out listed sig ts stacked boosted d w k data zs h Hok Hdata Hh).
  destruct HX as [->|[->|[dt ->]]]; reflexivity.
Qed.
Notation nv j x c := (shap_values_leaves_normalized C m pts (forest_at T nid j) (point x) c).
Lemma norm_entries order (Q' : list Q -> (nat -> nat -> Q) -> Prop) :
  (forall x f, (forall c j, c < m -> j < k -> (f c j == nv j x c)%Q) -> Q' x f) ->
  room ts P -> leaf_orders ts order -> cube_entries (acv_norm h order X C) xs m k Q'.
Proof.
  intros H Hr Ho. rewrite acv_norm_call.
  destruct (norm_prog_values T nid d pts (h_max h) m (map point xs) C nCm (C_cols d C nC) nM
    (e_tabs listed sig ts stacked boosted d w k data zs h X xs m C P HE Hh) (e_leaf listed sig ts stacked boosted d w k data zs h X xs m C P HL HE Hh)
    order nCne (fit_m listed sig ts stacked boosted d w k data zs h X xs m C P HL HE Hh Hr)
    (e_every listed sig ts stacked boosted d w k data zs h X xs m C P HE Hh order Ho)) as (phi & E & V).
  eapply cube_intro; [exact nM|exact E|]. intros i x f Hx Hf. apply H. intros c j Hc Hj. rewrite (Hf c j Hc Hj).
  apply V; [now apply point_at|now rewrite (e_out listed sig ts stacked boosted d w k data zs h X xs m C P HE Hh)].
Qed.

(** the two orders of the variables *)
Lemma meets_vars j b n g : NormSpec.meets (leaf_at T nid j b n) g = NormSpec.meets (leaf_at T (vars ts) j b n) g.
Proof.
  unfold NormSpec.meets. cbn [leaf_at l_vars]. rewrite nNids. unfold vars.
  destruct (node_set_nids listed HL (nth b ts no_tree) (nth n (leaf_list (nth b ts no_tree)) 0)) as [_ N].
  induction g as [|s g IH]; [reflexivity|]. cbn [existsb]. rewrite IH. f_equal. apply bool_eq_iff. rewrite !memb_true. apply N.
Qed.
Lemma norm_prob_vars q j b n F x : norm_prob q pts (map (leaf_at T nid j b) (seq 0 (t_nb T b))) (leaf_at T nid j b n) F x
  = norm_prob q pts (map (leaf_at T (vars ts) j b) (seq 0 (t_nb T b))) (leaf_at T (vars ts) j b n) F x.
Proof.
  unfold norm_prob. cbn [leaf_at l_rect].
  assert (G : forall l, sumf (fun lf' => cond_prob q pts (l_rect lf') F x) (map (leaf_at T nid j b) l) = sumf (fun lf' => cond_prob q pts (l_rect lf') F x) (map (leaf_at T (vars ts) j b) l)).
  { induction l as [|a l IH]; [reflexivity|]. cbn [map sumf]. rewrite IH. reflexivity. }
  now rewrite G.
Qed.
Lemma local_vars q j x Tm : (worth_local q pts (forest_at T nid j) x Tm == worth_local q pts (forest_at T (vars ts) j) x Tm)%Q.
Proof.
  unfold worth_local, forest_at. rewrite !sumf_map. apply sumf_ext. intros b _. rewrite !sumf_map. apply sumf_ext. intros n _.
  rewrite norm_prob_vars. cbn [leaf_at l_val]. rewrite (filter_ext_in' (NormSpec.meets (leaf_at T nid j b n)) (NormSpec.meets (leaf_at T (vars ts) j b n))); [reflexivity|].
  intros g _. apply meets_vars.
Qed.
(** background rows in the leaves *)
Lemma held_vars j : filled ts zs -> all_held d pts (forest_at T (vars ts) j).
Proof.
  intros Hpop ls lf Hls Hlf. destruct (forest_leaves_in _ _ _ (nForest j) Hls) as (t & Ht & El).
  unfold shared in Ht. apply in_map_iff in Ht. destruct Ht as (b & <- & Hbb). apply in_seq in Hbb.
  set (t := nth b ts no_tree) in *. assert (Hmt : In t ts) by (apply nth_In; lia).
  pose proof (shared_wf (raw_share stacked) j b d w t (nWf t Hmt)) as Hw.
  destruct (leaves_from_nth _ _ _ El) as [_ Hnth]. destruct (In_nth_error _ _ Hlf) as [n Hn]. specialize (Hnth n).
  destruct (nth_error (leaf_idx (shared_tree (raw_share stacked) j b t)) n) as [i'|] eqn:Ei; [|congruence].
  rewrite Hn in Hnth. assert (Hi : In i' (leaf_idx (shared_tree (raw_share stacked) j b t))) by (eapply nth_error_In; exact Ei).
  assert (Hleaf : is_leaf_of t i').
  { apply (leaf_list_in d w t i' (nWf t Hmt)). rewrite (leaf_list_idx (raw_share stacked) j b d w t (nWf t Hmt)). exact Hi. }
  destruct (Hpop t i' Hmt Hleaf) as (z & Hz & Hv & _). exists (point z). split; [apply in_map_iff; exists z; auto|].
  unfold leaf_of in Hnth. unfold leaf_idx in Hi. apply filter_In in Hi. destruct Hi as [Hi Hlfi]. apply in_seq in Hi.
  destruct (get_partition_leaf _ d Hw (point z) i' ltac:(lia)) as (p2 & n2 & E2 & M2).
  rewrite E2 in Hnth. injection Hnth as <-. cbn [l_rect]. apply in_rect_Inside. apply M2.
  clear - Hv. induction Hv as [|i0 j0 Hv IH Hl Hd]; [constructor|]. eapply vis_step; [exact IH|exact Hl|].
  destruct Hd as [Hd|Hd Hd'|Hd Hd']; [exact (dec_default (shared_tree (raw_share stacked) j b t) _ no_missing i0 Hd)
    |exact (dec_left (shared_tree (raw_share stacked) j b t) _ no_missing i0 Hd Hd')
    |exact (dec_right (shared_tree (raw_share stacked) j b t) _ no_missing i0 Hd Hd')].
Qed.
Lemma inside_wider lf z : ShapSpec.leaf_ok d lf -> Inside d (l_rect lf) z -> Inside m (l_rect lf) z.
Proof.
  intros (_ & Hv & Hu) H. pose proof nM as Hm. apply in_rect_Inside in H. apply in_rect_Inside. unfold in_rect in *.
  change (sat_on (l_rect lf) (seq 0 d) z = true) in H. change (sat_on (l_rect lf) (seq 0 m) z = true). rewrite sat_on_true in *.
  intros s Hs. destruct (in_dec Nat.eq_dec s (l_vars lf)) as [Hi|Hi]; [|now rewrite (Hu s Hi)]. apply H. apply in_seq. specialize (Hv s Hi). lia.
Qed.
Lemma held_wide j : filled ts zs -> all_held m pts (forest_at T (vars ts) j).
Proof.
  intros H ls lf Hls Hlf. destruct (held_vars j H ls lf Hls Hlf) as (z & Hz & Hi). exists z. split; [exact Hz|].
  apply inside_wider; [now apply (nVarsOk j ls)|exact Hi].
Qed.
Lemma same_rects j b : map l_rect (map (leaf_at T nid j b) (seq 0 (t_nb T b))) = map l_rect (map (leaf_at T (vars ts) j b) (seq 0 (t_nb T b))).
Proof. rewrite !map_map. reflexivity. Qed.
Lemma nHeld j ls lf : filled ts zs -> In ls (forest_at T nid j) -> In lf ls -> rows_in pts (l_rect lf) (seq 0 m) <> 0.
Proof.
  intros H Hls Hlf. unfold forest_at in Hls. apply in_map_iff in Hls. destruct Hls as (b & <- & Hb). apply in_map_iff in Hlf. destruct Hlf as (n & <- & Hn).
  destruct (held_wide j H (map (leaf_at T (vars ts) j b) (seq 0 (t_nb T b))) (leaf_at T (vars ts) j b n)) as (z & Hz & Hi).
  - apply in_map_iff. eauto.
  - apply in_map_iff. eauto.
  - exact (held_rows m pts (leaf_at T (vars ts) j b n) z Hz Hi).
Qed.
Lemma nTotal j ls : In ls (forest_at T nid j) -> (sumf (fun lf => Qn (rows_in pts (l_rect lf) (seq 0 m))) ls == Qn (length pts))%Q.
Proof.
  intros Hls. unfold forest_at in Hls. apply in_map_iff in Hls. destruct Hls as (b & <- & Hb).
  assert (Hv : In (map (leaf_at T (vars ts) j b) (seq 0 (t_nb T b))) (forest_at T (vars ts) j)) by (apply in_map_iff; eauto).
  destruct (forest_leaves_in _ _ _ (nForest j) Hv) as (t & Ht & El). pose proof (nAllm j) as Hall. rewrite forallb_forall in Hall.
  pose proof (rows_total t m _ pts (Hall t Ht) El) as H. rewrite sumf_map in *. exact H.
Qed.
Lemma norm_value j x g c : filled ts zs -> In g P -> In c g ->
  (nv j x c == shapley gdec P (worth_local m pts (forest_at T (vars ts) j) (point x)) g)%Q.
Proof.
  intros Hf Hg Hc. rewrite (local_value C m P pts (forest_at T nid j) (point x) g c nCm nP (nWide _ (nForestOk j)) nNe); trivial.
  - apply shapley_ext. intro. apply local_vars.
  - intros ls lf. now apply (nHeld j).
  - apply nTotal.
Qed.
Lemma norm_col g c : In g P -> In c g -> c < m.
Proof. exact (player_col d m C nM nC P nP g c). Qed.
Lemma norm_shapley order : filled ts zs -> room ts P -> leaf_orders ts order ->
  cube_entries (acv_norm h order X C) xs m k (fun x f => forall j, j < k ->
    exists forest, forest_leaves (shared (raw_share stacked) ts j) = Some forest /\
    forall g c, In g P -> In c g -> (f c j == shapley gdec P (worth_local d pts forest (point x)) g)%Q).
Proof.
  intro Hfill. apply norm_entries. intros x f Hf j Hj. eexists. split; [exact (nForest j)|]. intros g c Hg Hc.
  rewrite (Hf c j (norm_col g c Hg Hc) Hj), (norm_value j x g c Hfill Hg Hc). apply shapley_ext. intro. apply local_wider; [exact nM|apply nVarsOk].
Qed.
Lemma even_same j : even_trees ts P -> same_players P (forest_at T (vars ts) j).
Proof.
  intros He ls lf lf' g Hls Hlf Hlf' Hg. unfold forest_at in Hls. apply in_map_iff in Hls. destruct Hls as (b & <- & Hb). apply in_seq in Hb.
  apply in_map_iff in Hlf. destruct Hlf as (n & <- & Hn). apply in_map_iff in Hlf'. destruct Hlf' as (n' & <- & Hn'). apply in_seq in Hn. apply in_seq in Hn'.
  assert (G : forall n, n < t_nb T b -> (NormSpec.meets (leaf_at T (vars ts) j b n) g = true <->
     exists s, In s g /\ above (as_tree (nth b ts no_tree) 0) s (nth n (leaf_list (nth b ts no_tree)) 0))).
  { intros q Hq. destruct (nPlace b q ltac:(lia) Hq) as [H1 H2]. rewrite <- meets_vars. rewrite (touches_true (leaf_at T nid j b q) g). cbn [leaf_at l_vars]. rewrite nNids.
    split; intros (s & Hs & Hv); exists s; (split; [exact Hs|]); now apply (node_set_above listed HL d w _ _ (nWf _ H1) H2). }
  destruct (nPlace b n ltac:(lia) ltac:(lia)) as [H1 H2]. destruct (nPlace b n' ltac:(lia) ltac:(lia)) as [_ H3].
  apply (leaf_list_in d w _ _ (nWf _ H1)) in H2. apply (leaf_list_in d w _ _ (nWf _ H1)) in H3.
  apply bool_eq_iff. rewrite !G by lia. split; intro H; [exact (He _ _ _ g H1 H2 H3 Hg H)|exact (He _ _ _ g H1 H3 H2 Hg H)].
Qed.
Lemma norm_even order : filled ts zs -> even_trees ts P -> room ts P -> leaf_orders ts order ->
  cube_entries (acv_norm h order X C) xs m k (fun x f => forall j, j < k ->
    exists forest, forest_leaves (shared (raw_share stacked) ts j) = Some forest /\
    forall g c, In g P -> In c g -> (f c j == shapley gdec P (worth_norm d pts forest (point x)) g)%Q).
Proof.
  intros Hfill He. apply norm_entries. intros x f Hf j Hj. eexists. split; [exact (nForest j)|]. intros g c Hg Hc.
  rewrite (Hf c j (norm_col g c Hg Hc) Hj), (norm_value j x g c Hfill Hg Hc).
  rewrite <- (norm_is_local_shapley C m P pts _ _ (point x) g c nCm nP (nAllm j) (nForest j) nNe (held_wide j Hfill) Hg Hc).
  rewrite (norm_same_players C m P pts _ _ (point x) g c nCm nP (nAllm j) (nForest j) nNe (held_wide j Hfill) (even_same j He) Hg Hc).
  apply shapley_ext. intro. apply norm_wider; [exact nM|apply nVarsOk].
Qed.
Lemma norm_accounts order rep : (forall g, In g P -> In (rep g) g) -> filled ts zs -> room ts P -> leaf_orders ts order ->
  cube_entries (acv_norm h order X C) xs m k (fun x f =>
    forall j v vs, j < k -> adds_up (raw_share stacked) ts j x v -> Forall2 (adds_up (raw_share stacked) ts j) zs vs ->
    (sumf (fun g => f (rep g) j) P == v - mean (fun v => v) vs)%Q).
Proof.
  intros Hrep Hfill. apply norm_entries. intros x f Hf j v vs Hj Hv Hvs.
  rewrite (sumf_ext _ (fun g => shap_values_leaves_normalized C m pts (forest_at T (vars ts) j) (point x) (rep g))).
  2:{ intros g Hg. rewrite (Hf (rep g) j (norm_col g _ Hg (Hrep g Hg)) Hj), (norm_value j x g _ Hfill Hg (Hrep g Hg)).
      symmetry. exact (norm_is_local_shapley C m P pts _ _ (point x) g (rep g) nCm nP (nAllm j) (nForest j) nNe (held_wide j Hfill) Hg (Hrep g Hg)). }
  destruct (adds_up_predict _ ts d w j x v nWf Hv) as (rx & Ex & Evx).
  assert (Hr : exists rs, Forall2 (fun z r => dense_tree_predict (shared (raw_share stacked) ts j) (length (shared (raw_share stacked) ts j)) 0 z no_missing = Some r)
     pts rs /\ (sumf (fun r => r) rs == sumf (fun v => v) vs)%Q /\ length zs = length vs).
  { pose proof nWf as Hwf. clear - Hvs Hwf. induction Hvs as [|z v l vs Hz _ IH]; [exists []; repeat split; constructor|].
    destruct IH as (rs & H1 & H2 & H3). destruct (adds_up_predict _ ts d w j z v Hwf Hz) as (q & Eq & Ev).
    exists (q :: rs). split; [constructor; assumption|]. split; [cbn [sumf]; now rewrite Ev, H2|cbn; congruence]. }
  destruct Hr as (rs & Hr & Es & El).
  rewrite (norm_accounts_for_prediction C m P pts (shared (raw_share stacked) ts j) _ (point x) 0 rx rs rep nCm nP Hrep (nAllm j) (nForest j) nNe (held_wide j Hfill) Ex Hr).
  rewrite Evx, Es, map_length, El. unfold mean. destruct vs; [|reflexivity].
  pose proof nNe as Hz. destruct zs; [exfalso; now apply Hz|discriminate El].
Qed.
Lemma norm_zero order : room ts P -> leaf_orders ts order ->
  cube_entries (acv_norm h order X C) xs m k (fun _ f => forall g c j, In g P -> In c g -> j < k -> unused ts g -> (f c j == 0)%Q).
Proof.
  apply norm_entries. intros x f Hf g c j Hg Hc Hj Hu. rewrite (Hf c j (norm_col g c Hg Hc) Hj).
  apply (norm_unused C m P _ _ _ g c nCm nP (nWide _ (nForestOk j)) Hg Hc).
  intros ls lf s Hls Hlf Hs Hv. unfold forest_at in Hls. apply in_map_iff in Hls. destruct Hls as (b & <- & Hb). apply in_map_iff in Hlf.
  destruct Hlf as (n & <- & Hn). apply in_seq in Hb. apply in_seq in Hn. cbn [leaf_at l_vars] in Hv. rewrite nNids in Hv.
  destruct (nPlace b n ltac:(lia) ltac:(lia)) as [H1 H2]. apply (node_set_above listed HL d w _ _ (nWf _ H1) H2) in Hv.
  exact (Hu _ _ s H1 (proj1 (leaf_list_in d w _ _ (nWf _ H1)) H2) Hs Hv).
Qed.
Lemma norm_stray order : no_room ts P -> leaf_orders ts order -> acv_norm h order X C = Stray.
Proof.
  intros (t & i & ps & Ht & Hi & Hps & Hbig) Ho. rewrite acv_norm_call.
  apply (leaf_list_in d w _ _ (nWf _ Ht)) in Hi.
  destruct (In_nth ts t no_tree Ht) as (b & Hb & Eb). destruct (In_nth _ _ 0 Hi) as (n & Hn & En).
  pose proof (h_mv listed sig ts stacked boosted d data zs h nData Hh) as Hmv.
  destruct (max_attained listed ts _ (proj1 nOk) Hmv) as (i' & Hi' & Emv).
  pose proof (last_in ts no_tree (proj1 nOk)) as Hlast.
  pose proof (Hbig i' _ (proj1 (leaf_list_in d w _ _ (nWf _ Hlast)) Hi') (node_set_above listed HL d w _ _ (nWf _ Hlast) Hi')) as Hlt.
  assert (Hb' : b < t_trees T) by (rewrite (h_trees listed sig ts stacked boosted d w k data zs h nOk nData Hh); exact Hb).
  assert (Hn' : n < t_nb T b) by (rewrite (h_nb listed sig ts stacked boosted d w k data zs h nOk nData Hh), Eb; exact Hn).
  pose proof (groups_at listed sig ts stacked boosted d w k data zs h HL nOk nData Hh m C nM nC P nP b n Hb' Hn') as Hg. rewrite Eb, En in Hg.
  rewrite (norm_prog_stray T nid d pts (h_max h) m (map point xs) C nCm (C_cols d C nC) nM
    (e_leaf listed sig ts stacked boosted d w k data zs h X xs m C P HL HE Hh) order b n); trivial.
  - rewrite (SbufProofs2.players_length _ _ _ _ _ Hg Hps). lia.
  - exact (e_every listed sig ts stacked boosted d w k data zs h X xs m C P HE Hh order Ho).
Qed.
(** one leaf after another or in any order: the same array *)
Lemma norm_orders order order' : room ts P -> leaf_orders ts order -> leaf_orders ts order' -> same_cube (acv_norm h order X C) (acv_norm h order' X C).
Proof.
  intros Hr Ho Ho'. rewrite !acv_norm_call.
  pose proof (fun o Hq => norm_prog_values T nid d pts (h_max h) m (map point xs) C nCm (C_cols d C nC) nM
    (e_tabs listed sig ts stacked boosted d w k data zs h X xs m C P HE Hh) (e_leaf listed sig ts stacked boosted d w k data zs h X xs m C P HL HE Hh)
    o nCne (fit_m listed sig ts stacked boosted d w k data zs h X xs m C P HL HE Hh Hr)
    (e_every listed sig ts stacked boosted d w k data zs h X xs m C P HE Hh o Hq)) as K.
  destruct (K order Ho) as (phi & E & V). destruct (K order' Ho') as (phi' & E' & V').
  rewrite E, E'. eexists. eexists. split; [reflexivity|]. split; [reflexivity|].
  assert (G : forall (A : nat -> Prop) {B} (R : B -> B -> Prop) f f' l, (forall i, In i l -> A i) -> (forall i, A i -> R (f i) (f' i)) -> Forall2 R (map f l) (map f' l)).
  { clear. intros A B R f f' l Hl H. induction l as [|i l IH]; [constructor|]. constructor; [apply H, Hl; now left|apply IH; intros; apply Hl; now right]. }
  apply (G (fun i => i < length xs)); [intros i Hi; apply in_seq in Hi; lia|]. intros i Hi.
  apply (G (fun i => i < m)); [intros c Hc; apply in_seq in Hc; lia|]. intros c Hc.
  apply (G (fun i => i < k)); [intros j Hj; apply in_seq in Hj; lia|]. intros j Hj.
  destruct (nth_error xs i) as [x|] eqn:Ex; [|apply nth_error_None in Ex; lia].
  pose proof (e_out listed sig ts stacked boosted d w k data zs h X xs m C P HE Hh) as Eo.
  rewrite (V i (point x) c j (point_at _ _ _ Ex)), (V' i (point x) c j (point_at _ _ _ Ex)) by (now rewrite Eo). reflexivity.
Qed.
End Norm.

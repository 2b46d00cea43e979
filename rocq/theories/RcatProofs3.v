(** Proofs about the leaf-based regression method of an [ACVTree] built on one tree. *)
From Verif Require Import Base TreeModel TreeSpec TreeProofs GameSpec ShapModel ShapSpec FlatModel FlatSpec FlatProofs SdpModel SdpSpec SdpProofs RegModel RegSpec RegProofs
  SearchModel SearchSpec SearchProofs ExplSpec ArrModel ArrSpec EntryModel EntrySpec EntryProofs EntryProofs2 EntryProofs3
  ImpModel ImpSpec ImpProofs2 ShapProofs RcatModel RcatSpec RcatProofs RcatProofs2.
Local Open Scope nat_scope.

(** all columns, predictions shifted by [c] *)
Lemma full_shifted c m t ls rows tX S obs k x fX w :
  wf_tree t m = true -> tree_leaves t = Some ls -> (forall s, In s S <-> s < m) -> (0 <= tX)%Q ->
  (forall r, In r rows -> off_boundary [ls] (fst r) /\ exists w, predict_value t (fst r) no_missing = Some w /\ (snd r == c + w)%Q) ->
  off_boundary [ls] x -> predict_value t x no_missing = Some w -> (fX == c + w)%Q ->
  (exists r, In r rows /\ predict_leaf t (fst r) no_missing = predict_leaf t x no_missing) ->
  nth_error obs k = Some (x, fX) ->
  exists v, nth_error (compute_sdp_reg m rows tX S [ls] obs) k = Some v /\
    (v == if qeqb (c * c - fX * fX) 0 then 0 else 1)%Q.
Proof.
  intros Hwf Hl HS HtX Hrows Hx Hp Hf [r0 [Hr0 Hsame]] Hk.
  rewrite (batch_one m rows tX S ls obs k _ Hk), value_one. eexists. split; [reflexivity|].
  destruct (one_closed t m ls x Hwf Hl Hx) as [lf0 [k0 [N0 [I0 [P0 U0]]]]].
  assert (Evl : (l_val lf0 == fX - c)%Q) by (rewrite Hf; assert (E : Some (l_val lf0) = Some w) by congruence; injection E as ->; ring).
  assert (Hrow : forall r, In r rows -> inside_closed m (l_rect lf0) (fst r) = true -> near fX tX r = true).
  { intros r Hr Hi. destruct (Hrows r Hr) as (Ho & w' & Pw & Ew).
    destruct (one_closed t m ls (fst r) Hwf Hl Ho) as [lf1 [k1 [N1 [I1 [P1 U1]]]]].
    assert (k0 = k1) by (apply (U1 k0 lf0); trivial). subst k1. assert (lf1 = lf0) by congruence. subst lf1.
    assert (Ewl : (snd r == fX)%Q).
    { rewrite Ew. assert (E : Some (l_val lf0) = Some w') by congruence. injection E as <-. rewrite Evl. ring. }
    unfold near. apply qleb_true. rewrite Ewl. assert (E0 : ((fX - fX) * (fX - fX) == 0)%Q) by ring. rewrite E0. exact HtX. }
  assert (Hi0 : inside_closed m (l_rect lf0) (fst r0) = true).
  { destruct (Hrows r0 Hr0) as [Ho _].
    destruct (tiling t m Hwf) as [ls' [Hls' [_ Htl]]]. assert (ls' = ls) by congruence. subst ls'.
    destruct (Htl x) as [kx [lx [lfx [H1 [H2 [H3 [H4 [H5 H6]]]]]]]].
    destruct (Htl (fst r0)) as [kr [lr [lfr [G1 [G2 [G3 [G4 [G5 G6]]]]]]]].
    assert (lr = lx) by congruence. subst lr.
    assert (kr = kx).
    { apply (proj1 (NoDup_nth_error (leaf_idx t)) (leaf_idx_nodup t)); [|congruence].
      apply nth_error_Some. congruence. }
    subst kr. assert (lfr = lfx) by congruence. subst lfr.
    assert (Hin : forall y, off_boundary [ls] y -> inside_closed m (l_rect lfx) y = in_rect m (l_rect lfx) y).
    { intros y Hy. rewrite <- sat_cl_inside, (sat_cl_off [ls] y ls lfx _ Hy (or_introl eq_refl)); [reflexivity|].
      eapply nth_error_In; exact H3. }
    assert (kx = k0).
    { apply (U0 kx lfx H3). rewrite Hin by exact Hx. now apply in_rect_Inside. }
    subst kx. assert (lfx = lf0) by congruence. subst lfx.
    rewrite Hin by exact Ho. now apply in_rect_Inside. }
  assert (HSl : forall s, In s S -> s < m) by (intros s Hs; now apply HS).
  assert (W : forall ps lf kk, nth_error ls kk = Some lf ->
     (weight m S x ps lf == if kk =? k0 then Qb (existsb (inside_closed m (l_rect lf0)) ps) else 0)%Q).
  { intros ps lf kk Hkk. unfold weight. rewrite (inside_on_full m S _ _ HS).
    destruct (Nat.eqb_spec kk k0) as [->|Hne].
    - assert (lf = lf0) by congruence. subst lf. rewrite I0. unfold share.
      assert (Ef : filter (inside_on S (l_rect lf0)) ps = filter (inside_closed m (l_rect lf0)) ps)
        by (apply filter_ext; intro z; now apply inside_on_full).
      rewrite Ef. destruct (existsb (inside_closed m (l_rect lf0)) ps) eqn:Ex.
      + assert (Hq : filter (inside_closed m (l_rect lf0)) ps <> []).
        { apply existsb_exists in Ex. destruct Ex as [z [Hz Iz]]. intro K.
          assert (In z (filter (inside_closed m (l_rect lf0)) ps)) by (apply filter_In; now split). rewrite K in H. destruct H. }
        assert (Hall : forall z, In z (filter (inside_closed m (l_rect lf0)) ps) -> Qb (inside_closed m (l_rect lf0) z) = 1%Q).
        { intros z Hz. apply filter_In in Hz. destruct Hz as [_ ->]. reflexivity. }
        set (q := filter (inside_closed m (l_rect lf0)) ps) in *. clearbody q.
        assert (Em : mean (fun z => Qb (inside_closed m (l_rect lf0) z)) q =
           (sumf (fun z => Qb (inside_closed m (l_rect lf0) z)) q / Qn (length q))%Q) by (destruct q; [congruence|reflexivity]).
        rewrite Em, (sumf_ext _ (fun _ => 1%Q)) by (intros z Hz; rewrite Hall by exact Hz; reflexivity).
        rewrite sumf_const. cbn [Qb]. field. apply Qn_neq0. destruct q; [congruence|discriminate].
      + assert (Hq : filter (inside_closed m (l_rect lf0)) ps = []).
        { destruct (filter (inside_closed m (l_rect lf0)) ps) as [|z q] eqn:Eq; [reflexivity|].
          assert (Hz : In z (filter (inside_closed m (l_rect lf0)) ps)) by (rewrite Eq; now left).
          apply filter_In in Hz. exfalso. assert (existsb (inside_closed m (l_rect lf0)) ps = true); [|congruence].
          apply existsb_exists. exists z. exact Hz. }
        rewrite Hq. reflexivity.
    - destruct (inside_closed m (l_rect lf) x) eqn:Ei; [|reflexivity].
      exfalso. apply Hne. exact (U0 kk lf Hkk Ei). }
  assert (Sum : forall ps h, (sumf (fun lf => weight m S x ps lf * h lf) ls ==
      Qb (existsb (inside_closed m (l_rect lf0)) ps) * h lf0)%Q).
  { intros ps h. rewrite (nth_error_single (fun lf => weight m S x ps lf * h lf)%Q ls k0 lf0 N0).
    - rewrite (W ps lf0 k0 N0), Nat.eqb_refl. reflexivity.
    - intros k' lf' Hk' Hne. rewrite (W ps lf' k' Hk').
      destruct (Nat.eqb_spec k' k0); [contradiction|]. ring. }
  assert (Tot : forall ps, (total_weight m S x ps ls == Qb (existsb (inside_closed m (l_rect lf0)) ps))%Q).
  { intro ps. unfold total_weight.
    transitivity (sumf (fun lf => weight m S x ps lf * (fun _ => 1%Q) lf) ls)%Q.
    - apply sumf_ext. intros. ring.
    - rewrite (Sum ps (fun _ => 1%Q)). ring. }
  assert (Dev : forall ps, existsb (inside_closed m (l_rect lf0)) ps = true -> (deviation m S x ps fX ls == c * c)%Q).
  { intros ps Ex. unfold deviation. rewrite Tot, (Sum ps (fun lf => (l_val lf - fX) * (l_val lf - fX))%Q), Ex. cbn [Qb].
    rewrite Evl. field. }
  unfold reg_eval. cbn [fst snd].
  assert (Exa : existsb (inside_closed m (l_rect lf0)) (map fst (reg_rows fX tX rows)) = true).
  { rewrite rows_fst. apply existsb_exists. exists (fst r0). split; [now apply in_map|exact Hi0]. }
  assert (Exd : existsb (inside_closed m (l_rect lf0)) (map fst (down_rows (reg_rows fX tX rows))) = true).
  { rewrite rows_down. apply existsb_exists. exists (fst r0). split; [|exact Hi0].
    apply in_map. apply filter_In. split; [exact Hr0|]. now apply Hrow. }
  assert (Exu : existsb (inside_closed m (l_rect lf0)) (map fst (up_rows (reg_rows fX tX rows))) = false).
  { rewrite rows_up. match goal with |- ?b = false => destruct b eqn:Ex; [|reflexivity] end. apply existsb_exists in Ex.
    destruct Ex as [z [Hz Iz]]. apply in_map_iff in Hz. destruct Hz as [r [<- Hr]]. apply filter_In in Hr.
    destruct Hr as [Hr Hn]. rewrite (Hrow r Hr Iz) in Hn. discriminate. }
  rewrite (rb_sum_dev m S x fX (reg_rows fX tX rows) ls _ HSl) by (rewrite Tot, Exa; cbn; discriminate).
  rewrite (rb_sum_dev m S x fX (down_rows (reg_rows fX tX rows)) ls _ HSl) by (rewrite Tot, Exd; cbn; discriminate).
  rewrite (Dev _ Exa), (Dev _ Exd).
  assert (U : (rb_sum m S x fX (up_rows (reg_rows fX tX rows)) [ls] (RegModel.n_u norms0) == 0)%Q).
  { rewrite rb_sum_one. apply sumf_zero. intros lf _. unfold qdiv0.
    destruct (qeqb_spec (sumf (box_norm m S x (up_rows (reg_rows fX tX rows))) ls) 0) as [_|K]; [reflexivity|].
    exfalso. apply K. transitivity (total_weight m S x (map fst (up_rows (reg_rows fX tX rows))) ls).
    - unfold total_weight. apply sumf_ext. intros lf' _. exact (box_norm_weight m S x _ lf' HSl).
    - rewrite Tot, Exu. reflexivity. }
  rewrite U. unfold qdiv0.
  destruct (qeqb_spec (0 - (c * c - fX * fX)) 0) as [E|E], (qeqb_spec (c * c - fX * fX) 0) as [K|K]; try reflexivity.
  - exfalso. apply K. lra.
  - exfalso. apply E. rewrite K. reflexivity.
  - field. intro K'. apply E. lra.
Qed.

Lemma reg_rows_same fX fX' tX : forall pts ys ys', (fX == fX')%Q -> Forall2 Qeq ys ys' ->
  reg_rows fX tX (combine pts ys) = reg_rows fX' tX (combine pts ys').
Proof.
  intros pts ys ys' E H. revert pts. induction H as [|y y' ys ys' Hy _ IH]; intros [|p pts]; try reflexivity. unfold reg_rows in *. cbn [combine map fst snd]. f_equal; [|apply IH].
  f_equal. rewrite !qltb_negb. f_equal. apply qleb_eq. rewrite E, Hy. reflexivity.
Qed.
Lemma rb_sum_same m S x fX fX' rs ls old old' : (fX == fX')%Q -> (rb_sum m S x fX rs [map erase ls] old == rb_sum m S x fX' rs [ls] old')%Q.
Proof.
  intro E. rewrite !rb_sum_one, !sumf_map. apply sumf_ext. intros lf _. apply qdiv0_mor; [|rewrite ?sumf_map; reflexivity].
  change (rb_diag m S x fX rs (erase lf)) with (rb_diag m S x fX rs lf). rewrite !diag_norm, E. reflexivity.
Qed.
Lemma rb_sum_fx m S x fX fX' rs ls old old' : (fX == fX')%Q -> (rb_sum m S x fX rs [ls] old == rb_sum m S x fX' rs [ls] old')%Q.
Proof.
  intro E. rewrite !rb_sum_one. apply sumf_ext. intros lf _. apply qdiv0_mor; [|reflexivity]. rewrite !diag_norm, E. reflexivity.
Qed.
Lemma eval_same m pts ys ys' tX ls S x fX fX' : (fX == fX')%Q -> Forall2 Qeq ys ys' ->
  (fst (reg_eval m (combine pts ys) tX [map erase ls] norms0 S (x, fX)) == fst (reg_eval m (combine pts ys') tX [ls] norms0 S (x, fX')))%Q.
Proof.
  intros E H. unfold reg_eval. cbn [fst snd]. rewrite (reg_rows_same fX fX' tX pts ys ys' E H). apply qdiv0_mor.
  - rewrite (rb_sum_same m S x fX fX' (up_rows _) ls _ (RegModel.n_u norms0) E), (rb_sum_same m S x fX fX' _ ls _ (RegModel.n_a norms0) E). reflexivity.
  - rewrite (rb_sum_same m S x fX fX' (up_rows _) ls _ (RegModel.n_u norms0) E), (rb_sum_same m S x fX fX' (down_rows _) ls _ (RegModel.n_d norms0) E). reflexivity.
Qed.

Lemma eval_like m pts ys ys' tX ls S x fX fX' : (fX == fX')%Q -> Forall2 Qeq ys ys' ->
  (fst (reg_eval m (combine pts ys) tX [ls] norms0 S (x, fX)) == fst (reg_eval m (combine pts ys') tX [ls] norms0 S (x, fX')))%Q.
Proof.
  intros E H. rewrite <- (eval_same m pts ys ys' tX ls S x fX fX' E H). symmetry. apply eval_same; [reflexivity|]. clear. induction ys; constructor; [reflexivity|assumption].
Qed.

Lemma mean_pointwise {A} (g g' : A -> Q) l : (forall x, In x l -> (g x == g' x)%Q) -> (mean g l == mean g' l)%Q.
Proof. intro H. unfold mean. destruct l as [|a l]; [reflexivity|]. rewrite (sumf_ext g g' (a :: l) H). reflexivity. Qed.
Lemma cat_erase_nil m rows fX tX ls x : (compute_sdp_reg_cat m rows fX tX [] [map erase ls] x == compute_sdp_reg_cat m rows fX tX [] [ls] x)%Q.
Proof.
  assert (H : forall rs, (reg_sum m [] x fX rs [map erase ls] == reg_sum m [] x fX rs [ls])%Q).
  { intro rs. rewrite !reg_sum_mean; try (intros ? []); try reflexivity. apply mean_pointwise. intros r _. exact (energy_erase m fX [ls] (fst r)). }
  unfold compute_sdp_reg_cat. cbv zeta. apply qdiv0_mor; rewrite !H; reflexivity.
Qed.

Section One.
Variables (sig : Q -> Q) (t : mtree) (boosted : bool) (b : offset) (d : nat) (o : reg_acv).
Hypothesis HR : regressor sig [t] boosted b d o.
Variables (X : marg) (xs zs : list (list Q)) (c : nat).
Hypothesis HX : has_shape X d xs.
Hypothesis Hc : d <= c.
Notation a := (r_acv o).
Notation data := (M_array F64 c zs).

Lemma t_wf : well_formed d 1 t. Proof. apply (r_wf sig [t] boosted b d o HR). now left. Qed.
Lemma t_leaves : exists ls, tree_leaves (as_tree t 0) = Some ls /\ reg_leaves (o_tabs a) = [map erase ls].
Proof.
  pose proof (a_forest sig [t] 1 boosted d 1 1 a (r_ok sig [t] boosted b d o HR) (proj1 (r_form sig [t] boosted b d o HR)) 0) as Hf.
  rewrite (reg_leaves_erase _ (vars [t])).
  change (match tree_leaves (as_tree t 0) with Some ls => Some [ls] | None => None end = Some (forest_at (o_tabs a) (vars [t]) 0)) in Hf.
  destruct (tree_leaves (as_tree t 0)) as [ls|]; [|discriminate]. exists ls. split; [reflexivity|]. injection Hf as <-. reflexivity.
Qed.
Lemma call_all Sv : (forall s, In s Sv -> s < d) -> exists fX ys, Forall2 (predicts [t] b) xs fX /\ Forall2 (predicts [t] b) zs ys /\
  forall run, reg_call o run X (S_array I64 Sv) data
    = Returned (run d (reg_leaves (o_tabs a)) (combine (map point zs) ys) Sv (combine (map point xs) fX)).
Proof.
  intro HS. destruct (predict_ok sig [t] boosted b d o HR X d xs HX (Nat.le_refl d)) as (fX & E1 & F1).
  destruct (predict_ok sig [t] boosted b d o HR data c zs (or_intror (ex_intro _ F64 eq_refl)) Hc) as (ys & E2 & F2).
  exists fX, ys. split; [exact F1|]. split; [exact F2|]. intro run. unfold reg_call. rewrite E1, E2. cbn [andthen]. rewrite (buffer_X d X xs HX). cbn [andthen buffer_y buffer1 same_dtype].
  cbn [buffer2 same_dtype andthen cols]. unfold wide_enough. cbn [cols]. rewrite (r_cols sig [t] boosted b d o HR), (proj2 (Nat.leb_le _ _) Hc), Nat.leb_refl. cbn [andb].
  replace (forallb (fun c0 => c0 <? d) Sv) with true; [reflexivity|]. symmetry. apply forallb_forall. intros s Hs. apply Nat.ltb_lt. auto.
Qed.
Lemma one_forest ls : tree_leaves (as_tree t 0) = Some ls -> forall y, off_thresholds [t] y -> off_boundary [ls] (point y).
Proof.
  intros Hl y Hy. pose proof (a_forest sig [t] 1 boosted d 1 1 a (r_ok sig [t] boosted b d o HR) (proj1 (r_form sig [t] boosted b d o HR)) 0) as Hfo.
  rewrite (r_built sig [t] boosted b d o HR) in Hfo. cbn [o_tabs built] in Hfo.
  pose proof (off_thresholds_boundary (raw_share 1) [t] d 1 _ _ 0 y (r_wf sig [t] boosted b d o HR) Hfo Hy) as K.
  clear - K Hfo Hl. match type of Hfo with _ = ?r => change (match tree_leaves (as_tree t 0) with Some ls => Some [ls] | None => None end = r) in Hfo end.
  rewrite Hl in Hfo. match type of K with off_boundary ?F _ => assert (EQ : [ls] = F) by exact (f_equal (fun q => match q with Some l => l | None => [] end) Hfo) end. rewrite EQ. exact K.
Qed.
(** no column: the numbers of the other method *)
Lemma reg_nothing tX : (forall z, In z zs -> off_thresholds [t] z) -> exists res res',
  acv_reg o tX X (S_array I64 []) data = Returned res /\ acv_reg_cat o tX X (S_array I64 []) data = Returned res' /\ Forall2 Qeq res res'.
Proof.
  intro Hoff. destruct (call_all [] (fun s H => match H with end)) as (fX & ys & F1 & F2 & E).
  do 2 eexists. split; [apply E|]. split; [apply E|]. destruct t_leaves as (ls & Hl & EF). rewrite EF. unfold compute_sdp_reg. rewrite evals_one, map_map.
  assert (Hr : forall r, In r (combine (map point zs) ys) -> off_boundary [ls] (fst r)).
  { intros r Hr. assert (Hp : In (fst r) (map point zs)) by (destruct r; eapply in_combine_l; exact Hr). apply in_map_iff in Hp.
    destruct Hp as (z & <- & Hz). apply (one_forest ls Hl). auto. }
  assert (Hw : forallb (fun t => wf_tree t d) [as_tree t 0] = true) by (cbn; rewrite (proj1 t_wf); reflexivity).
  assert (Hfl : forest_leaves [as_tree t 0] = Some [ls]) by (cbn [forest_leaves]; rewrite Hl; reflexivity).
  generalize (combine (map point xs) fX). intro obs. induction obs as [|[x fx] obs IH]; [constructor|]. cbn [map fst snd]. constructor; [|exact IH].
  eapply Qeq_trans; [apply (eval_same d (map point zs) ys ys tX ls [] x fx fx); [reflexivity|clear; induction ys; constructor; [reflexivity|assumption]]|].
  rewrite (eval_empty [as_tree t 0] d _ tX ls x fx Hw Hfl Hr). symmetry. apply cat_erase_nil.
Qed.
Section Values.
Variables (Sv : list nat) (tX : Q).
Hypothesis HS : forall s, In s Sv -> s < d.
Lemma reg_each ls : tree_leaves (as_tree t 0) = Some ls -> forall P : list Q -> Q -> Prop,
  (forall x fx ys v, In x xs -> predicts [t] b x fx -> Forall2 (predicts [t] b) zs ys ->
     (v == fst (reg_eval d (combine (map point zs) ys) tX [ls] norms0 Sv (point x, fx)))%Q -> P x v) ->
  one_each (acv_reg o tX X (S_array I64 Sv) data) xs P.
Proof.
  intros Hl P H. destruct t_leaves as (ls' & Hl' & EF). assert (ls' = ls) by congruence. subst ls'.
  destruct (call_form sig [t] boosted b d o HR X xs zs c HX Hc (fun m F rws S obs => compute_sdp_reg m rws tX S F obs) Sv HS) as (fX & ys & F1 & F2 & E).
  eexists. split; [exact E|]. pose proof (F2_length _ _ _ F1) as L. rewrite EF.
  assert (Ec : forall obs, compute_sdp_reg d (combine (map point zs) ys) tX Sv [map erase ls] obs
     = map (fun xf => fst (reg_eval d (combine (map point zs) ys) tX [map erase ls] norms0 Sv xf)) obs).
  { intro obs. unfold compute_sdp_reg. rewrite evals_one, map_map. reflexivity. }
  rewrite Ec. split; [rewrite map_length, combine_length, map_length; lia|].
  intros i x v Hx Hv. destruct (Forall2_at _ _ _ _ _ F1 Hx) as (fx & Hf & Pf).
  rewrite nth_error_map, (nth_error_combine _ _ i (point x) fx (point_at _ _ _ Hx) Hf) in Hv. cbn [option_map] in Hv. injection Hv as <-.
  apply (H x fx ys); [eapply nth_error_In; exact Hx|exact Pf|exact F2|]. apply eval_same; [reflexivity|]. clear. induction ys; constructor; [reflexivity|assumption].
Qed.
Lemma predictions2 ys ys' : Forall2 (predicts [t] b) zs ys -> Forall2 (predicts [t] b) zs ys' -> Forall2 Qeq ys ys'.
Proof.
  clear HX Hc. intro H. revert ys'. induction H as [|z y zs' ys Hy _ IH]; intros ys' H'; inversion H'; subst; constructor; [|auto].
  eapply (predicts_unique sig [t] boosted b d o HR z); eassumption.
Qed.
Variable f : list Q -> Q.
Hypothesis Hf : forall z, In z (xs ++ zs) -> predicts [t] b z (f z).
Notation rowsf := (combine (map point zs) (map f zs)).
Lemma predictions ys : Forall2 (predicts [t] b) zs ys -> Forall2 Qeq ys (map f zs).
Proof.
  intro H. assert (K : forall z, In z zs -> predicts [t] b z (f z)) by (intros; apply Hf, in_or_app; now right). clear Hf HX Hc.
  induction H as [|z y zs' ys Hy _ IH]; constructor; [|apply IH; intros; apply K; now right].
  apply (predicts_unique sig [t] boosted b d o HR z); [exact Hy|apply K; now left].
Qed.
Lemma reg_eachf ls : tree_leaves (as_tree t 0) = Some ls -> forall P : list Q -> Q -> Prop,
  (forall x v, In x xs -> (v == fst (reg_eval d rowsf tX [ls] norms0 Sv (point x, f x)))%Q -> P x v) ->
  one_each (acv_reg o tX X (S_array I64 Sv) data) xs P.
Proof.
  intros Hl P H. apply (reg_each ls Hl). intros x fx ys v Hx Px Pys E. apply (H x v Hx). rewrite E. apply eval_like; [|now apply predictions].
  apply (predicts_unique sig [t] boosted b d o HR x); [exact Px|]. apply Hf, in_or_app. now left.
Qed.
Lemma rowsf_fst : map fst rowsf = map point zs.
Proof. clear. induction zs as [|z l IH]; [reflexivity|]. cbn. now rewrite IH. Qed.
Lemma rowsf_filter (P : pt * Q -> bool) (P' : list Q -> bool) : (forall z, P (point z, f z) = P' z) -> map fst (filter P rowsf) = map point (filter P' zs).
Proof. clear. intro H. induction zs as [|z l IH]; [reflexivity|]. cbn. rewrite H. destruct (P' z); cbn; now rewrite IH. Qed.

(** the value of the leaf-based estimator *)
Lemma reg_value ls : tree_leaves (as_tree t 0) = Some ls -> one_each (acv_reg o tX X (S_array I64 Sv) data) xs (fun x v =>
  let W := total_weight d Sv (point x) in let D := deviation d Sv (point x) in
  let all := map point zs in let far := map point (filter (fun z => negb (close f tX x z)) zs) in let clo := map point (filter (close f tX x) zs) in
  ~ (W all ls == 0)%Q -> ~ (W far ls == 0)%Q -> ~ (W clo ls == 0)%Q -> ~ (D far (f x) ls == D clo (f x) ls)%Q ->
  (v == (D far (f x) ls - D all (f x) ls) / (D far (f x) ls - D clo (f x) ls))%Q).
Proof.
  intro Hl. apply (reg_eachf ls Hl). intros x v _ E. cbv zeta. intros W1 W2 W3 W4.
  destruct (value_dev d rowsf tX Sv ls [(point x, f x)] 0 (point x) (f x) HS eq_refl) as (v' & Hv & Ev).
  - rewrite rowsf_fst. exact W1.
  - rewrite (rowsf_filter _ (fun z => negb (close f tX x z))) by reflexivity. exact W2.
  - rewrite (rowsf_filter _ (close f tX x)) by reflexivity. exact W3.
  - rewrite (rowsf_filter _ (fun z => negb (close f tX x z))), (rowsf_filter _ (close f tX x)) by reflexivity. exact W4.
  - rewrite value_one in Hv. injection Hv as <-. rewrite E, Ev, rowsf_fst, (rowsf_filter _ (fun z => negb (close f tX x z))), (rowsf_filter _ (close f tX x)) by reflexivity. reflexivity.
Qed.
(** all columns *)
Lemma reg_full : (forall s, s < d -> In s Sv) -> (0 <= tX)%Q -> (forall z, In z (xs ++ zs) -> off_thresholds [t] z) ->
  one_each (acv_reg o tX X (S_array I64 Sv) data) xs (fun x v => (exists z, In z zs /\ same_leaf t x z) ->
    (v == if qeqb (offset_of b 0 * offset_of b 0) (f x * f x) then 0 else 1)%Q).
Proof.
  intros Hall HtX Hoff. destruct t_leaves as (ls & Hl & _). apply (reg_eachf ls Hl). intros x v Hx E (z & Hz & Hsame).
  pose proof (a_forest sig [t] 1 boosted d 1 1 a (r_ok sig [t] boosted b d o HR) (proj1 (r_form sig [t] boosted b d o HR)) 0) as Hfo.
  rewrite (r_built sig [t] boosted b d o HR) in Hfo. cbn [o_tabs built] in Hfo.
  assert (Hob : forall y, In y (xs ++ zs) -> off_boundary [ls] (point y)).
  { intros y Hy. pose proof (off_thresholds_boundary (raw_share 1) [t] d 1 _ _ 0 y (r_wf sig [t] boosted b d o HR) Hfo (Hoff y Hy)) as K.
    clear - K Hfo Hl. match type of Hfo with _ = ?r => change (match tree_leaves (as_tree t 0) with Some ls => Some [ls] | None => None end = r) in Hfo end.
    rewrite Hl in Hfo. match type of K with off_boundary ?F _ => assert (EQ : [ls] = F) by exact (f_equal (fun q => match q with Some l => l | None => [] end) Hfo) end. rewrite EQ. exact K. }
  assert (Hpv : forall y, In y (xs ++ zs) -> exists w, predict_value (as_tree t 0) (point y) no_missing = Some w /\ (f y == offset_of b 0 + w)%Q).
  { intros y Hy. destruct (Hf y Hy) as (rs & Hg & Ey). inversion Hg as [|? r ? rs' Hr Hn]; subst. inversion Hn; subst.
    exists (nth 0 r 0%Q). split; [exact (column_value d 1 t 0 _ _ r t_wf Hr)|]. rewrite Ey. cbn [sumf]. ring. }
  assert (Ix : In x (xs ++ zs)) by (apply in_or_app; now left). assert (Iz : In z (xs ++ zs)) by (apply in_or_app; now right).
  destruct (Hpv x Ix) as (w & Pw & Ew).
  destruct (full_shifted (offset_of b 0) d (as_tree t 0) ls rowsf tX Sv [(point x, f x)] 0 (point x) (f x) w) as (v' & Hv & Ev).
  - exact (proj1 t_wf).
  - exact Hl.
  - intro s. split; [apply HS|apply Hall].
  - exact HtX.
  - intros r Hr. assert (Er : exists y, In y zs /\ r = (point y, f y)).
    { clear - Hr. induction zs as [|y l IH]; [destruct Hr|]. cbn in Hr. destruct Hr as [<-|Hr]; [exists y; split; [now left|reflexivity]|].
      destruct (IH Hr) as (y' & Hy' & ->). exists y'. split; [now right|reflexivity]. }
    destruct Er as (y & Hy & ->). cbn [fst snd]. split; [apply Hob, in_or_app; now right|apply Hpv, in_or_app; now right].
  - now apply Hob.
  - exact Pw.
  - exact Ew.
  - exists (point z, f z). split.
    + clear - Hz. induction zs as [|y l IH]; [destruct Hz|]. cbn. destruct Hz as [-> |Hz]; [now left|right; auto].
    + destruct Hsame as (l & (V1 & L1) & V2 & L2). cbn [fst].
      rewrite (proj1 (visited_leaf_predicted (as_tree t 0) d (proj1 t_wf) _ no_missing l V1) L1).
      exact (proj1 (visited_leaf_predicted (as_tree t 0) d (proj1 t_wf) _ no_missing l V2) L2).
  - reflexivity.
  - rewrite value_one in Hv. injection Hv as <-. rewrite E, Ev.
    destruct (qeqb_spec (offset_of b 0 * offset_of b 0 - f x * f x) 0) as [K|K], (qeqb_spec (offset_of b 0 * offset_of b 0) (f x * f x)) as [K'|K']; try reflexivity; exfalso.
    + apply K'. lra.
    + apply K. lra.
Qed.
End Values.
End One.

(** an observation on its own *)
Lemma reg_batch sig t boosted b d o X xs zs c Sv tX : regressor sig [t] boosted b d o -> has_shape X d xs -> d <= c -> (forall s, In s Sv -> s < d) ->
  one_each (acv_reg o tX X (S_array I64 Sv) (M_array F64 c zs)) xs (fun x v =>
    exists v', acv_reg o tX (M_array F64 d [x]) (S_array I64 Sv) (M_array F64 c zs) = Returned [v'] /\ (v == v')%Q).
Proof.
  intros HR HX Hc HS. destruct (t_leaves sig t boosted b d o HR) as (ls & Hl & _).
  apply (reg_each sig t boosted b d o HR X xs zs c HX Hc Sv tX HS ls Hl). intros x fx ys v Hx Px Pys E.
  destruct (reg_each sig t boosted b d o HR (M_array F64 d [x]) [x] zs c (or_intror (ex_intro _ F64 eq_refl)) Hc Sv tX HS ls Hl
    (fun x' v' => x' = x -> (v == v')%Q)) as (res & Er & Lr & Hr).
  - intros x' fx' ys' v' _ Px' Pys' E' ->. rewrite E, E'. apply eval_like; [exact (predicts_unique sig [t] boosted b d o HR x _ _ Px Px')|].
    exact (predictions2 sig t boosted b d o HR zs ys ys' Pys Pys').
  - destruct res as [|v' [|? ?]]; try discriminate Lr. exists v'. split; [exact Er|]. exact (Hr 0 x v' eq_refl eq_refl eq_refl).
Qed.

(** ** Arguments *)
Section Arguments.
Variables (sig : Q -> Q) (ts : list mtree) (boosted : bool) (b : offset) (d : nat) (o : reg_acv).
Hypothesis HR : regressor sig ts boosted b d o.
Notation prog := (nat -> list (list leaf) -> list (pt * Q) -> list nat -> list (pt * Q) -> list Q).
Variable run : prog.
Lemma call_errors X xs c zs dt Sv : has_shape X d xs -> d <= c ->
  (forall r S data, reg_call o run (M_list d r) S data = Raised EAttribute) /\
  (forall S, reg_call o run X S (M_list c zs) = Raised EAttribute) /\
  (forall x S, length x = d -> reg_call o run (M_vector dt x) S (M_array F64 c zs) = Raised EValue) /\
  reg_call o run X (S_list Sv) (M_array F64 c zs) = Raised EType /\
  reg_call o run X (S_array I64 Sv) (M_frame c zs) = Raised EType /\
  (dt <> F64 -> reg_call o run X (S_array I64 Sv) (M_array dt c zs) = Raised EValue).
Proof.
  intros HX Hc.
  destruct (predict_ok sig ts boosted b d o HR X d xs HX (Nat.le_refl d)) as (fX & E1 & _).
  split; [reflexivity|]. split; [intro; unfold reg_call; now rewrite E1|]. split.
  { intros x S Lx. unfold reg_call. destruct (predict_rows_ok sig ts boosted b d o HR (length x) [x]) as (ys & E & _); [lia|].
    destruct (predict_ok sig ts boosted b d o HR (M_array F64 c zs) c zs (or_intror (ex_intro _ F64 eq_refl)) Hc) as (ys' & E2 & _).
    cbn [predict]. rewrite E. cbn [andthen]. rewrite (r_out sig ts boosted b d o HR). cbn [Nat.eqb].
    change (predict o (M_array F64 c zs)) with (predict o (M_array F64 c zs)) in E2.
    cbn [predict] in E2. rewrite (r_out sig ts boosted b d o HR) in E2. cbn [Nat.eqb] in E2. rewrite E2. reflexivity. }
  split.
  { destruct (predict_ok sig ts boosted b d o HR (M_array F64 c zs) c zs (or_intror (ex_intro _ F64 eq_refl)) Hc) as (ys & E2 & _).
    unfold reg_call. rewrite E1, E2. cbn [andthen]. rewrite (buffer_X d X xs HX). reflexivity. }
  split.
  { destruct (predict_ok sig ts boosted b d o HR (M_frame c zs) c zs (or_introl eq_refl) Hc) as (ys & E2 & _).
    unfold reg_call. rewrite E1, E2. cbn [andthen]. rewrite (buffer_X d X xs HX). reflexivity. }
  intro Hd. destruct (predict_ok sig ts boosted b d o HR (M_array dt c zs) c zs (or_intror (ex_intro _ dt eq_refl)) Hc) as (ys & E2 & _).
  unfold reg_call. rewrite E1, E2. cbn [andthen]. rewrite (buffer_X d X xs HX). cbn [andthen buffer_y buffer1 same_dtype buffer2].
  destruct dt; try congruence; reflexivity.
Qed.
Lemma call_stray X c' xs zs c Sv : has_shape X c' xs -> d <= c' -> d <= c -> d < c' \/ c < c' \/ (exists s, In s Sv /\ c' <= s) ->
  reg_call o run X (S_array I64 Sv) (M_array F64 c zs) = Stray.
Proof.
  intros HX Hc' Hc H.
  destruct (predict_ok sig ts boosted b d o HR X c' xs HX Hc') as (fX & E1 & _).
  destruct (predict_ok sig ts boosted b d o HR (M_array F64 c zs) c zs (or_intror (ex_intro _ F64 eq_refl)) Hc) as (ys & E2 & _).
  unfold reg_call. rewrite E1, E2. cbn [andthen]. rewrite (buffer_X c' X xs HX). cbn [andthen buffer_y buffer1 same_dtype buffer2 cols].
  match goal with |- (if ?q then _ else _) = _ => destruct q eqn:Eq; [|reflexivity] end. exfalso.
  apply andb_true_iff in Eq. destruct Eq as [Eq1 Eq2]. unfold wide_enough in Eq1. cbn [cols] in Eq1. rewrite (r_cols sig ts boosted b d o HR) in Eq1.
  apply andb_true_iff in Eq1. destruct Eq1 as [L1 L2]. apply Nat.leb_le in L1, L2. rewrite forallb_forall in Eq2.
  destruct H as [H|[H|(s & Hs & Hl)]]; [lia|lia|]. specialize (Eq2 s Hs). apply Nat.ltb_lt in Eq2. lia.
Qed.
End Arguments.

(** an ensemble with several outputs *)
Lemma several_outputs sig ts boosted b d w o run X S data xs zs c c' :
  ensemble_ok ts 1 d w w -> 2 <= w -> offset_fits b w -> FlatSpec.fits ts w d -> construct_reg sig ts 1 boosted b d = Some o ->
  has_shape X c' xs -> d <= c' -> has_shape data c zs -> d <= c ->
  reg_call o run X S data = Raised EValue.
Proof.
  intros Hok Hw Hb Hfi Ho HX Hc' HD Hc.
  assert (Hc0 : construct sig ts 1 boosted d = Some (r_acv o) /\ r_trees o = ts /\ r_stacked o = 1 /\ r_offset o = b).
  { unfold construct_reg in Ho. destruct (construct sig ts 1 boosted d) as [a'|]; [|discriminate].
    destruct (_ =? _); [|discriminate]. injection Ho as <-. repeat split; reflexivity. }
  destruct Hc0 as (Ea & E1 & E2 & E3).
  assert (Eo : o_out (r_acv o) = w) by (rewrite (EntryProofs2.a_form sig ts 1 boosted d w w (r_acv o) Hok Ea); reflexivity).
  assert (P : forall A cc rs, has_shape A cc rs -> d <= cc -> exists tb, predict o A = Returned (P_table tb)).
  { intros A cc rs HA Hcc. destruct Hok as (Hne & Hwf & _).
    destruct (predict_plain ts w d b (-1)%Z (length ts) (length rs) cc (fun i s => nth s (nth i rs []) 0%Q) (fun _ _ => false) (max_nodes ts))
      as (out & E & _ & H); [exact Hne|lia|exact Hwf|exact Hcc|exact Hb|exact Hfi|exact (max_nodes_ge ts)|right; cbn; lia|].
    assert (Ep : exists tb, predict_rows o cc rs = Returned tb) by (eexists; unfold predict_rows; rewrite E1, E2, E3, E; reflexivity).
    destruct Ep as (tb & Ep). exists tb. assert (En : (o_out (r_acv o) =? 1) = false) by (apply Nat.eqb_neq; lia).
    destruct HA as [-> |(dt & ->)]; cbn [predict]; rewrite Ep; cbn [andthen]; rewrite En; reflexivity. }
  destruct (P X c' xs HX Hc') as (tX' & EX). destruct (P data c zs HD Hc) as (tD & ED).
  unfold reg_call. rewrite EX, ED. cbn [andthen]. rewrite (buffer_X c' X xs HX). reflexivity.
Qed.

(** every ensemble of trees with one output has its object, and every row its prediction *)
Lemma regressor_some sig ts boosted b d : ensemble_ok ts 1 d 1 1 -> offset_fits b 1 -> FlatSpec.fits ts 1 d -> exists o, regressor sig ts boosted b d o.
Proof.
  intros Hok Hb Hfi. assert (E : exists o, construct_reg sig ts 1 boosted b d = Some o).
  { unfold construct_reg. rewrite (construct_form sig ts 1 boosted d 1 1 Hok). cbn [o_out built].
    assert (L : length (offsets 1 b) = 1) by (destruct b; [reflexivity|exact Hb]). rewrite L. cbn [Nat.eqb]. eexists. reflexivity. }
  destruct E as (o & E). exists o. exact (conj Hok (conj Hb (conj Hfi E))).
Qed.
Lemma predicts_some ts b d z : (forall m, In m ts -> well_formed d 1 m) -> predicts ts b z
  (offset_of b 0 + sumf (fun m => match predict_value (as_tree m 0) (point z) no_missing with Some v => v | None => 0 end) ts)%Q.
Proof.
  intro Hwf. destruct (all_give_total ts d 1 (point z) no_missing Hwf) as [rs Hr]. exists rs. split; [exact Hr|].
  assert (E : (sumf (fun m => match predict_value (as_tree m 0) (point z) no_missing with Some v => v | None => 0 end) ts == sumf (fun r => nth 0 r 0) rs)%Q).
  { induction Hr as [|m r ts rs Hm _ IH]; [reflexivity|]. cbn [sumf]. rewrite IH by (intros; apply Hwf; now right).
    rewrite (column_value d 1 m 0 _ _ r (Hwf m (or_introl eq_refl)) Hm). reflexivity. }
  rewrite E. reflexivity.
Qed.

(** the sequential search *)
Lemma explain_reg_nopa sig ts boosted b d o : regressor sig ts boosted b d o ->
  forall X xs zs c, has_shape X d xs -> d <= c -> forall tX C pi minimal,
  coal_ok C d -> C <> [] -> length (tree_groups C d) <= 15 -> (0 < pi)%Q -> (pi <= 1)%Q ->
  exists e, acv_reg_explain_nopa o X tX (M_array F64 c zs) C pi minimal = Returned e /\ shaped e (length xs) d /\ forall k, k < length xs ->
  ((pi <= nth k (e_sdp e) 0)%Q -> exists T, minimal_sufficient d (tree_groups C d) minimal pi (reg_told o tX X (M_array F64 c zs) k) T (nth k (e_sdp e) 0%Q) /\
     reported (row_of e k) = map Z.of_nat (concat T) /\ nth k (e_size e) 0 = length (concat T)) /\
  ((nth k (e_sdp e) 0 < pi)%Q -> forall T, In T (subs (tree_groups C d)) -> minimal <= length T ->
     (forall g, In g C -> g = []) -> length T <= Nat.max minimal (d / 2) -> (reg_told o tX X (M_array F64 c zs) k (concat T) < pi)%Q).
Proof.
  intros HR X xs zs c HX Hc tX C pi minimal HC HC0 H15 Hp Hp1.
  destruct (explain_reg_returns sig ts boosted b d o HR X xs zs c HX Hc C tX pi minimal true HC HC0 H15 Hp Hp1) as (e & He & Hs).
  exists e. split; [exact He|]. split; [exact Hs|]. intros k Hk.
  destruct (explain_reg_rows sig ts boosted b d o HR X xs zs c HX Hc C tX pi minimal true HC HC0 H15 Hp Hp1 e He k Hk) as [H1 H2].
  split; [exact H1|]. intros L T HT Hm Hg Hl. apply (H2 L T HT Hm). intros _. now split.
Qed.

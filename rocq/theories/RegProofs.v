From Verif Require Import Base TreeModel TreeSpec TreeProofs ShapModel ShapSpec ShapProofs AcvModel SdpModel SdpSpec SdpProofs SearchModel
  RegModel RegSpec.

Lemma in_on_sat S p z : sat_cl p S z = inside_on S p z.
Proof. rewrite sat_cl_forallb. apply forallb_ext_in. intros s _. unfold cl_itv. apply andb_comm. Qed.

Lemma sumf_indexed {A} (f : A -> Q) l : (sumf (fun kl => f (snd kl)) (indexed l) == sumf f l)%Q.
Proof. rewrite <- (indexed_snd l) at 2. rewrite sumf_map. reflexivity. Qed.

Lemma cell_one diag pair ls k lb : (cell diag pair [ls] 0%nat k lb k == diag lb)%Q.
Proof. unfold cell, indexed. cbn [length seq combine sumf fst]. rewrite !Nat.eqb_refl. ring. Qed.

Lemma tree_norm_one m S x rows ls : (tree_norm m S x rows [ls] (0%nat, ls) == sumf (box_norm m S x rows) ls)%Q.
Proof.
  unfold tree_norm, cell_norm. cbn [fst snd].
  transitivity (sumf (fun kl => box_norm m S x rows (snd kl)) (indexed ls)); [|apply sumf_indexed].
  apply sumf_ext. intros kl _. apply cell_one.
Qed.

#[global] Instance qdiv0_mor : Proper (Qeq ==> Qeq ==> Qeq) qdiv0.
Proof.
  intros a a' Ha b b' Hb. unfold qdiv0. destruct (qeqb_spec b 0) as [E|E], (qeqb_spec b' 0) as [E'|E'].
  - reflexivity.
  - exfalso. apply E'. rewrite <- Hb. exact E.
  - exfalso. apply E. rewrite Hb. exact E'.
  - rewrite Ha, Hb. reflexivity.
Qed.

(** one tree: no cross term, the old normalisers are not read *)
Lemma rb_sum_one m S x fX rows ls old :
  (rb_sum m S x fX rows [ls] old ==
   sumf (fun lf => qdiv0 (rb_diag m S x fX rows lf) (sumf (box_norm m S x rows) ls)) ls)%Q.
Proof.
  unfold rb_sum. change (indexed [ls]) with [(0, ls)]. cbn [sumf fst]. cbn [Nat.eqb].
  unfold diag_part, cell_mean. cbn [fst snd].
  rewrite !Qplus_0_r.
  transitivity (sumf (fun kl => qdiv0 (rb_diag m S x fX rows (snd kl)) (sumf (box_norm m S x rows) ls)) (indexed ls)).
  - apply sumf_ext. intros kl _. rewrite cell_one, tree_norm_one. reflexivity.
  - apply (sumf_indexed (fun lf => qdiv0 (rb_diag m S x fX rows lf) (sumf (box_norm m S x rows) ls))).
Qed.

Lemma rb_sum_one_old m S x fX rows ls old old' :
  rb_sum m S x fX rows [ls] old = rb_sum m S x fX rows [ls] old'.
Proof. reflexivity. Qed.

Lemma eval_one m rows tX ls old old' S o :
  reg_eval m rows tX [ls] old S o = reg_eval m rows tX [ls] old' S o.
Proof. reflexivity. Qed.

Lemma evals_one m rows tX ls es : forall old,
  reg_evals m rows tX [ls] old es = map (fun e => fst (reg_eval m rows tX [ls] norms0 (fst e) (snd e))) es.
Proof.
  induction es as [|e es IH]; intro old; [reflexivity|]. cbn [reg_evals map]. cbn zeta.
  rewrite (eval_one m rows tX ls old norms0). f_equal. apply IH.
Qed.

Lemma evals_one_single m rows tX ls es k e : nth_error es k = Some e ->
  nth_error (reg_evals m rows tX [ls] norms0 es) k =
  nth_error (compute_sdp_reg m rows tX (fst e) [ls] [snd e]) 0.
Proof.
  intro H. rewrite evals_one. rewrite nth_error_map, H. reflexivity.
Qed.

Lemma batch_one m rows tX S ls obs k o : nth_error obs k = Some o ->
  nth_error (compute_sdp_reg m rows tX S [ls] obs) k = nth_error (compute_sdp_reg m rows tX S [ls] [o]) 0.
Proof.
  intro H. unfold compute_sdp_reg at 1. rewrite (evals_one_single m rows tX ls _ k (S, o)); [reflexivity|].
  rewrite nth_error_map, H. reflexivity.
Qed.

Lemma value_one m rows tX S ls x fX :
  nth_error (compute_sdp_reg m rows tX S [ls] [(x, fX)]) 0 =
  Some (fst (reg_eval m rows tX [ls] norms0 S (x, fX))).
Proof. reflexivity. Qed.

(** ** No column *)
Lemma cnt_all (rows : list frow) p : cnt (sat_cl p []) rows = length rows.
Proof. unfold cnt. induction rows as [|r rows IH]; [reflexivity|]. cbn [filter]. change (sat_cl p [] (fst r)) with true. cbn [length]. f_equal. exact IH. Qed.

Lemma rb_sum_empty ts m x fX (rows : list frow) ls old :
  forallb (fun t => wf_tree t m) ts = true -> forest_leaves ts = Some [ls] ->
  (forall r, In r rows -> off_boundary [ls] (fst r)) ->
  (rb_sum m [] x fX rows [ls] old == reg_sum m [] x fX rows [ls])%Q.
Proof.
  intros Hwf Hf Hoff. rewrite rb_sum_one. unfold reg_sum. change (indexed [ls]) with [(0, ls)].
  cbn [sumf]. unfold reg_trees. cbn [fst snd Nat.eqb]. rewrite !Qplus_0_r.
  assert (N1 : rows <> [] -> (sumf (box_norm m [] x rows) ls == 1)%Q).
  { intro Hne. assert (Hn : ~ (Qn (length rows) == 0)%Q) by (apply Qn_neq0; destruct rows; [congruence|discriminate]).
    transitivity (sumf (fun lf => sumf (fun r : frow => if inside_closed m (l_rect lf) (fst r) then 1 else 0) rows / Qn (length rows)) ls)%Q.
    - apply sumf_ext. intros lf _. unfold box_norm. rewrite not_out_cl_sat. change (sat_cl (l_rect lf) [] x) with true.
      cbn iota. rewrite cnt_all. unfold gdiv. destruct (Nat.eqb_spec (length rows) 0) as [E|E].
      { exfalso. apply Hne. destruct rows; [reflexivity|discriminate]. }
      apply Qmult_comp; [|reflexivity].
      transitivity (Qn (cnt (sat_cl (l_rect lf) (seq 0 m)) rows) * 1)%Q; [ring|].
      rewrite <- cnt_sum. apply sumf_ext. intros r _. rewrite sat_cl_inside. reflexivity.
    - unfold Qdiv. rewrite sumf_scal_r.
      rewrite <- (sumf_swap (fun (r : frow) lf => if inside_closed m (l_rect lf) (fst r) then 1 else 0)%Q).
      transitivity (sumf (fun _ : frow => 1%Q) rows * / Qn (length rows))%Q.
      + apply Qmult_comp; [|reflexivity]. apply sumf_ext. intros r Hr.
        destruct (one_closed_leaf ts m [ls] (fst r) ls Hwf Hf (Hoff r Hr) (or_introl eq_refl)) as [lf0 H0].
        apply (H0 (fun _ => 1%Q)).
      + rewrite sumf_const. field. exact Hn. }
  apply sumf_ext. intros lf _. unfold rb_diag, reg_diag.
  rewrite not_out_cl_sat. change (sat_cl (l_rect lf) [] x) with true. cbn iota zeta. rewrite cnt_all.
  destruct (Nat.eqb_spec (length rows) 0) as [E|E].
  - unfold qdiv0. match goal with |- (if qeqb ?a 0 then _ else _) == _ => destruct (qeqb a 0) end; [reflexivity|].
    unfold Qdiv. ring.
  - rewrite N1 by (intro K; rewrite K in E; apply E; reflexivity). unfold qdiv0.
    change (qeqb 1 0) with false. cbn iota. field. now apply Qn_neq0.
Qed.

Lemma eq_rows_nil x rs : eq_rows [] x rs = rs.
Proof. unfold eq_rows. induction rs as [|r rs IH]; [reflexivity|]. cbn [filter]. change (eq_on [] x (fst r)) with true. cbn iota. f_equal. exact IH. Qed.

Lemma reg_rows_in fX tX rows r : In r (reg_rows fX tX rows) -> exists q, In (fst r, q) rows.
Proof.
  unfold reg_rows. rewrite in_map_iff. intros [[z q] [<- Hi]]. exists q. exact Hi.
Qed.

Lemma eval_empty ts m rows tX ls x fX :
  forallb (fun t => wf_tree t m) ts = true -> forest_leaves ts = Some [ls] ->
  (forall r, In r rows -> off_boundary [ls] (fst r)) ->
  (fst (reg_eval m rows tX [ls] norms0 [] (x, fX)) == compute_sdp_reg_cat m rows fX tX [] [ls] x)%Q.
Proof.
  intros Hwf Hf Hoff. unfold reg_eval, compute_sdp_reg_cat. cbn [fst snd]. rewrite eq_rows_nil.
  assert (H : forall r, In r (reg_rows fX tX rows) -> off_boundary [ls] (fst r)).
  { intros r Hr. destruct (reg_rows_in _ _ _ _ Hr) as [q Hq]. apply (Hoff _ Hq). }
  rewrite !(rb_sum_empty ts m x fX _ ls _ Hwf Hf); [reflexivity| | |]; intros r Hr; apply H.
  - first [exact Hr|now apply up_rows_in in Hr|now apply down_rows_in in Hr].
  - first [exact Hr|now apply up_rows_in in Hr|now apply down_rows_in in Hr].
  - first [exact Hr|now apply up_rows_in in Hr|now apply down_rows_in in Hr].
Qed.

Lemma empty_freq m t ls rows tX obs k x fX :
  wf_tree t m = true -> tree_leaves t = Some ls ->
  (forall r, In r rows -> off_boundary [ls] (fst r) /\ dense_tree_predict [t] 1 0 (fst r) no_missing = Some (snd r)) ->
  nth_error obs k = Some (x, fX) ->
  (exists r, In r rows /\ near fX tX r = true) -> (exists r, In r rows /\ near fX tX r = false) ->
  exists v, nth_error (compute_sdp_reg m rows tX [] [ls] obs) k = Some v /\
    (v == Qn (length (filter (near fX tX) rows)) / Qn (length rows))%Q.
Proof.
  intros Hwf Hl Hrows Hk Hnear Hfar. rewrite (batch_one m rows tX [] ls obs k _ Hk), value_one.
  eexists. split; [reflexivity|].
  assert (Hw : forallb (fun t => wf_tree t m) [t] = true) by (cbn; now rewrite Hwf).
  assert (Hf : forest_leaves [t] = Some [ls]) by (cbn; now rewrite Hl).
  rewrite (eval_empty [t] m rows tX ls x fX Hw Hf) by (intros r Hr; apply (Hrows r Hr)).
  assert (E : filter (fun r : pt * Q => same_on [] x (fst r)) rows = rows).
  { clear. induction rows as [|r rows IH]; [reflexivity|]. cbn [filter]. change (same_on [] x (fst r)) with true. cbn iota. now rewrite IH. }
  assert (K := sdp_reg_cat_exact m [t] [ls] rows fX tX [] x Hw Hf (fun s (H : In s []) => match H with end) Hrows).
  rewrite E in K. exact (K Hnear Hfar).
Qed.

(** ** The general value for one tree *)
Lemma map_fst_filter (h : pt -> bool) (rs : list frow) :
  map fst (filter (fun r => h (fst r)) rs) = filter h (map fst rs).
Proof. induction rs as [|r rs IH]; [reflexivity|]. cbn. destruct (h (fst r)); cbn; now rewrite IH. Qed.

Lemma box_norm_weight m S x rs lf : (forall s, In s S -> s < m) ->
  (box_norm m S x rs lf == weight m S x (map fst rs) lf)%Q.
Proof.
  intro HS. unfold box_norm, weight. rewrite not_out_cl_sat, in_on_sat.
  destruct (inside_on S (l_rect lf) x); [|reflexivity]. unfold share.
  rewrite <- map_fst_filter.
  assert (E : filter (fun r : frow => inside_on S (l_rect lf) (fst r)) rs = filter (fun r => sat_cl (l_rect lf) S (fst r)) rs).
  { apply filter_ext. intro r. now rewrite in_on_sat. }
  rewrite E. unfold cnt. set (ps := filter (fun r => sat_cl (l_rect lf) S (fst r)) rs).
  assert (F : length (filter (fun r => sat_cl (l_rect lf) (seq 0 m) (fst r)) rs) =
              length (filter (fun r => sat_cl (l_rect lf) (seq 0 m) (fst r)) ps)).
  { unfold ps. clear - HS. revert HS. induction rs as [|r rs IH]; intro HS; [reflexivity|]. cbn [filter].
    destruct (sat_cl (l_rect lf) S (fst r)) eqn:A; cbn [filter];
    destruct (sat_cl (l_rect lf) (seq 0 m) (fst r)) eqn:B; cbn [length]; rewrite ?IH by exact HS; trivial.
    exfalso. apply (sat_cl_sub m _ S) in B; [congruence|exact HS]. }
  rewrite F. clearbody ps. unfold gdiv. destruct ps as [|r0 ps0] eqn:Ep; [reflexivity|].
  rewrite <- Ep. assert (Hn : length ps <> 0) by (rewrite Ep; discriminate).
  destruct (Nat.eqb_spec (length ps) 0) as [K|_]; [contradiction|].
  assert (Em : mean (fun z => Qb (inside_closed m (l_rect lf) z)) (map fst ps) =
    (sumf (fun z => Qb (inside_closed m (l_rect lf) z)) (map fst ps) / Qn (length (map fst ps)))%Q) by (rewrite Ep; reflexivity).
  rewrite Em, map_length, sumf_map. apply Qmult_comp; [|reflexivity].
  rewrite <- (sumf_count (fun r : frow => sat_cl (l_rect lf) (seq 0 m) (fst r)) ps).
  apply sumf_ext. intros r _. rewrite sat_cl_inside. reflexivity.
Qed.

Lemma diag_norm m S x fX rs lf :
  (rb_diag m S x fX rs lf == box_norm m S x rs lf * (l_val lf * l_val lf - 2 * fX * l_val lf))%Q.
Proof.
  unfold rb_diag, box_norm, gdiv. destruct (not_out_cl (l_rect lf) S x); [|ring]. cbn zeta.
  destruct (Nat.eqb_spec (cnt (sat_cl (l_rect lf) S) rs) 0) as [E|E]; [ring|]. field. now apply Qn_neq0.
Qed.

Lemma rb_sum_dev m S x fX rs ls old : (forall s, In s S -> s < m) ->
  ~ (total_weight m S x (map fst rs) ls == 0)%Q ->
  (rb_sum m S x fX rs [ls] old == deviation m S x (map fst rs) fX ls - fX * fX)%Q.
Proof.
  intros HS Hn. rewrite rb_sum_one.
  assert (E : (sumf (box_norm m S x rs) ls == total_weight m S x (map fst rs) ls)%Q).
  { unfold total_weight. apply sumf_ext. intros lf _. now apply box_norm_weight. }
  transitivity (sumf (fun lf => weight m S x (map fst rs) lf * (l_val lf * l_val lf - 2 * fX * l_val lf)) ls
                / total_weight m S x (map fst rs) ls)%Q.
  - unfold Qdiv. rewrite <- sumf_scal_r. apply sumf_ext. intros lf _. rewrite E. unfold qdiv0.
    destruct (qeqb_spec (total_weight m S x (map fst rs) ls) 0) as [K|_]; [contradiction|].
    rewrite diag_norm, box_norm_weight by exact HS. reflexivity.
  - unfold deviation.
    assert (K : (sumf (fun lf => weight m S x (map fst rs) lf * ((l_val lf - fX) * (l_val lf - fX))) ls ==
       sumf (fun lf => weight m S x (map fst rs) lf * (l_val lf * l_val lf - 2 * fX * l_val lf)) ls
       + total_weight m S x (map fst rs) ls * (fX * fX))%Q).
    { unfold total_weight. rewrite <- sumf_scal_r, <- sumf_plus. apply sumf_ext. intros lf _. ring. }
    rewrite K. field. exact Hn.
Qed.

Lemma rows_fst fX tX rows : map fst (reg_rows fX tX rows) = map fst rows.
Proof. unfold reg_rows. rewrite map_map. apply map_ext. reflexivity. Qed.
Lemma qltb_negb a b : qltb a b = negb (qleb b a).
Proof. destruct (qltb_spec a b), (qleb_spec b a); trivial; exfalso; lra. Qed.
Lemma rows_up fX tX rows : map fst (up_rows (reg_rows fX tX rows)) = map fst (filter (fun r => negb (near fX tX r)) rows).
Proof.
  induction rows as [|r rows IH]; [reflexivity|]. unfold up_rows, reg_rows in *. cbn [map filter snd].
  unfold near. rewrite qltb_negb. destruct (qleb ((fX - snd r) * (fX - snd r)) tX); cbn [negb map fst]; rewrite IH; reflexivity.
Qed.
Lemma rows_down fX tX rows : map fst (down_rows (reg_rows fX tX rows)) = map fst (filter (near fX tX) rows).
Proof.
  induction rows as [|r rows IH]; [reflexivity|]. unfold down_rows, reg_rows in *. cbn [map filter snd].
  unfold near. rewrite qltb_negb, negb_involutive.
  destruct (qleb ((fX - snd r) * (fX - snd r)) tX); cbn [map fst]; rewrite IH; reflexivity.
Qed.

Lemma value_dev m rows tX S ls obs k x fX : (forall s, In s S -> s < m) -> nth_error obs k = Some (x, fX) ->
  let all := map fst rows in
  let far := map fst (filter (fun r => negb (near fX tX r)) rows) in
  let clo := map fst (filter (near fX tX) rows) in
  ~ (total_weight m S x all ls == 0)%Q -> ~ (total_weight m S x far ls == 0)%Q ->
  ~ (total_weight m S x clo ls == 0)%Q ->
  ~ (deviation m S x far fX ls == deviation m S x clo fX ls)%Q ->
  exists v, nth_error (compute_sdp_reg m rows tX S [ls] obs) k = Some v /\
   (v == (deviation m S x far fX ls - deviation m S x all fX ls)
         / (deviation m S x far fX ls - deviation m S x clo fX ls))%Q.
Proof.
  intros HS Hk all far clo Ha Hu Hd Hne. rewrite (batch_one m rows tX S ls obs k _ Hk), value_one.
  eexists. split; [reflexivity|]. unfold reg_eval. cbn [fst snd].
  rewrite !rb_sum_dev; rewrite ?rows_fst, ?rows_up, ?rows_down; trivial.
  fold all far clo. unfold qdiv0.
  match goal with |- (if qeqb ?q 0 then _ else _) == _ => destruct (qeqb_spec q 0) as [E|E] end.
  - exfalso. apply Hne. lra.
  - field. intro K. apply Hne. lra.
Qed.

(** ** All columns *)
Lemma one_closed t m ls x : wf_tree t m = true -> tree_leaves t = Some ls -> off_boundary [ls] x ->
  exists lf0 k, nth_error ls k = Some lf0 /\ inside_closed m (l_rect lf0) x = true /\
   predict_value t x no_missing = Some (l_val lf0) /\
   (forall k' lf, nth_error ls k' = Some lf -> inside_closed m (l_rect lf) x = true -> k' = k).
Proof.
  intros Hwf Hl Hx. destruct (tiling t m Hwf) as [ls' [Hls' [_ Htl]]]. assert (ls' = ls) by congruence. subst ls'.
  destruct (Htl x) as [k [l [lf [H1 [H2 [H3 [H4 [H5 H6]]]]]]]].
  assert (Hin : forall lf', In lf' ls -> inside_closed m (l_rect lf') x = in_rect m (l_rect lf') x).
  { intros lf' Hi. rewrite <- sat_cl_inside, (sat_cl_off [ls] x ls lf' _ Hx (or_introl eq_refl) Hi). reflexivity. }
  exists lf, k. split; [exact H3|]. split; [|split].
  - rewrite Hin by (eapply nth_error_In; exact H3). now apply in_rect_Inside.
  - unfold predict_value. rewrite H2, H5. reflexivity.
  - intros k' lf' Hk' Hc. rewrite Hin in Hc by (eapply nth_error_In; exact Hk').
    eapply H6; [exact Hk'|]. now apply in_rect_Inside.
Qed.

Lemma inside_on_full m S p z : (forall s, In s S <-> s < m) -> inside_on S p z = inside_closed m p z.
Proof.
  intro HS. unfold inside_on, inside_closed. apply eq_true_iff_eq. rewrite !forallb_forall.
  split; intros H s Hs; apply H; [apply HS; apply in_seq in Hs; lia|apply in_seq; apply HS in Hs; lia].
Qed.

Lemma predict_one t x r : dense_tree_predict [t] 1 0 x no_missing = Some r ->
  exists v, predict_value t x no_missing = Some v /\ (r == v)%Q.
Proof.
  unfold dense_tree_predict. cbn. destruct (predict_value t x no_missing) as [v|]; [|discriminate].
  intro H. injection H as <-. exists v. split; [reflexivity|ring].
Qed.

Lemma full_one m t ls rows tX S obs k x fX :
  wf_tree t m = true -> tree_leaves t = Some ls -> (forall s, In s S <-> s < m) -> (0 <= tX)%Q ->
  (forall r, In r rows -> off_boundary [ls] (fst r) /\ dense_tree_predict [t] 1 0 (fst r) no_missing = Some (snd r)) ->
  off_boundary [ls] x -> dense_tree_predict [t] 1 0 x no_missing = Some fX ->
  (exists r, In r rows /\ predict_leaf t (fst r) no_missing = predict_leaf t x no_missing) ->
  nth_error obs k = Some (x, fX) ->
  exists v, nth_error (compute_sdp_reg m rows tX S [ls] obs) k = Some v /\
    (v == if qeqb fX 0 then 0 else 1)%Q.
Proof.
  intros Hwf Hl HS HtX Hrows Hx Hp [r0 [Hr0 Hsame]] Hk.
  rewrite (batch_one m rows tX S ls obs k _ Hk), value_one. eexists. split; [reflexivity|].
  destruct (one_closed t m ls x Hwf Hl Hx) as [lf0 [k0 [N0 [I0 [P0 U0]]]]].
  destruct (predict_one t x fX Hp) as [v [Pv Ev]].
  assert (Evl : (l_val lf0 == fX)%Q) by (rewrite Ev; assert (E : Some (l_val lf0) = Some v) by congruence; injection E as ->; reflexivity).
  assert (Hrow : forall r, In r rows -> inside_closed m (l_rect lf0) (fst r) = true -> near fX tX r = true).
  { intros r Hr Hi. destruct (Hrows r Hr) as [Ho Hpr].
    destruct (one_closed t m ls (fst r) Hwf Hl Ho) as [lf1 [k1 [N1 [I1 [P1 U1]]]]].
    assert (k0 = k1) by (apply (U1 k0 lf0); trivial). subst k1. assert (lf1 = lf0) by congruence. subst lf1.
    destruct (predict_one t (fst r) (snd r) Hpr) as [w [Pw Ew]].
    assert (Ewl : (snd r == fX)%Q).
    { rewrite Ew, <- Evl. assert (E : Some (l_val lf0) = Some w) by congruence. injection E as ->. reflexivity. }
    unfold near. apply qleb_true. rewrite Ewl. lra. }
  assert (Hi0 : inside_closed m (l_rect lf0) (fst r0) = true).
  { destruct (Hrows r0 Hr0) as [Ho Hpr].
    destruct (tiling t m Hwf) as [ls' [Hls' [_ Htl]]]. assert (ls' = ls) by congruence. subst ls'.
    destruct (Htl x) as [kx [lx [lfx [H1 [H2 [H3 [H4 [H5 H6]]]]]]]].
    destruct (Htl (fst r0)) as [kr [lr [lfr [G1 [G2 [G3 [G4 [G5 G6]]]]]]]].
    assert (lr = lx) by congruence. subst lr.
    assert (kr = kx).
    { apply (proj1 (NoDup_nth_error (leaf_idx t)) (leaf_idx_nodup t)); [|congruence].
      apply nth_error_Some. congruence. }
    subst kr. assert (lfr = lfx) by congruence. subst lfr.
    assert (Hin : forall y, off_boundary [ls] y -> inside_closed m (l_rect lfx) y = in_rect m (l_rect lfx) y).
    { intros y Hy. rewrite <- sat_cl_inside, (sat_cl_off [ls] y ls lfx _ Hy (or_introl eq_refl)); [reflexivity|].
      eapply nth_error_In; exact H3. }
    assert (kx = k0).
    { apply (U0 kx lfx H3). rewrite Hin by exact Hx. now apply in_rect_Inside. }
    subst kx. assert (lfx = lf0) by congruence. subst lfx.
    rewrite Hin by exact Ho. now apply in_rect_Inside. }
  assert (HSl : forall s, In s S -> s < m) by (intros s Hs; now apply HS).
  assert (W : forall ps lf kk, nth_error ls kk = Some lf ->
     (weight m S x ps lf == if kk =? k0 then Qb (existsb (inside_closed m (l_rect lf0)) ps) else 0)%Q).
  { intros ps lf kk Hkk. unfold weight. rewrite (inside_on_full m S _ _ HS).
    destruct (Nat.eqb_spec kk k0) as [->|Hne].
    - assert (lf = lf0) by congruence. subst lf. rewrite I0. unfold share.
      assert (Ef : filter (inside_on S (l_rect lf0)) ps = filter (inside_closed m (l_rect lf0)) ps)
        by (apply filter_ext; intro z; now apply inside_on_full).
      rewrite Ef. destruct (existsb (inside_closed m (l_rect lf0)) ps) eqn:Ex.
      + assert (Hq : filter (inside_closed m (l_rect lf0)) ps <> []).
        { apply existsb_exists in Ex. destruct Ex as [z [Hz Iz]]. intro K.
          assert (In z (filter (inside_closed m (l_rect lf0)) ps)) by (apply filter_In; now split). rewrite K in H. destruct H. }
        assert (Hall : forall z, In z (filter (inside_closed m (l_rect lf0)) ps) -> Qb (inside_closed m (l_rect lf0) z) = 1%Q).
        { intros z Hz. apply filter_In in Hz. destruct Hz as [_ ->]. reflexivity. }
        set (q := filter (inside_closed m (l_rect lf0)) ps) in *. clearbody q.
        assert (Em : mean (fun z => Qb (inside_closed m (l_rect lf0) z)) q =
           (sumf (fun z => Qb (inside_closed m (l_rect lf0) z)) q / Qn (length q))%Q) by (destruct q; [congruence|reflexivity]).
        rewrite Em, (sumf_ext _ (fun _ => 1%Q)) by (intros z Hz; rewrite Hall by exact Hz; reflexivity).
        rewrite sumf_const. cbn [Qb]. field. apply Qn_neq0. destruct q; [congruence|discriminate].
      + assert (Hq : filter (inside_closed m (l_rect lf0)) ps = []).
        { destruct (filter (inside_closed m (l_rect lf0)) ps) as [|z q] eqn:Eq; [reflexivity|].
          assert (Hz : In z (filter (inside_closed m (l_rect lf0)) ps)) by (rewrite Eq; now left).
          apply filter_In in Hz. exfalso. assert (existsb (inside_closed m (l_rect lf0)) ps = true); [|congruence].
          apply existsb_exists. exists z. exact Hz. }
        rewrite Hq. reflexivity.
    - destruct (inside_closed m (l_rect lf) x) eqn:Ei; [|reflexivity].
      exfalso. apply Hne. exact (U0 kk lf Hkk Ei). }
  assert (Sum : forall ps h, (sumf (fun lf => weight m S x ps lf * h lf) ls ==
      Qb (existsb (inside_closed m (l_rect lf0)) ps) * h lf0)%Q).
  { intros ps h. rewrite (nth_error_single (fun lf => weight m S x ps lf * h lf)%Q ls k0 lf0 N0).
    - rewrite (W ps lf0 k0 N0), Nat.eqb_refl. reflexivity.
    - intros k' lf' Hk' Hne. rewrite (W ps lf' k' Hk').
      destruct (Nat.eqb_spec k' k0); [contradiction|]. ring. }
  assert (Tot : forall ps, (total_weight m S x ps ls == Qb (existsb (inside_closed m (l_rect lf0)) ps))%Q).
  { intro ps. unfold total_weight.
    transitivity (sumf (fun lf => weight m S x ps lf * (fun _ => 1%Q) lf) ls)%Q.
    - apply sumf_ext. intros. ring.
    - rewrite (Sum ps (fun _ => 1%Q)). ring. }
  assert (Dev : forall ps, existsb (inside_closed m (l_rect lf0)) ps = true -> (deviation m S x ps fX ls == 0)%Q).
  { intros ps Ex. unfold deviation. rewrite Tot, (Sum ps (fun lf => (l_val lf - fX) * (l_val lf - fX))%Q), Ex. cbn [Qb].
    rewrite Evl. field. }
  unfold reg_eval. cbn [fst snd].
  assert (Exa : existsb (inside_closed m (l_rect lf0)) (map fst (reg_rows fX tX rows)) = true).
  { rewrite rows_fst. apply existsb_exists. exists (fst r0). split; [now apply in_map|exact Hi0]. }
  assert (Exd : existsb (inside_closed m (l_rect lf0)) (map fst (down_rows (reg_rows fX tX rows))) = true).
  { rewrite rows_down. apply existsb_exists. exists (fst r0). split; [|exact Hi0].
    apply in_map. apply filter_In. split; [exact Hr0|]. now apply Hrow. }
  assert (Exu : existsb (inside_closed m (l_rect lf0)) (map fst (up_rows (reg_rows fX tX rows))) = false).
  { rewrite rows_up. match goal with |- ?b = false => destruct b eqn:Ex; [|reflexivity] end. apply existsb_exists in Ex.
    destruct Ex as [z [Hz Iz]]. apply in_map_iff in Hz. destruct Hz as [r [<- Hr]]. apply filter_In in Hr.
    destruct Hr as [Hr Hn]. rewrite (Hrow r Hr Iz) in Hn. discriminate. }
  rewrite (rb_sum_dev m S x fX (reg_rows fX tX rows) ls _ HSl) by (rewrite Tot, Exa; cbn; discriminate).
  rewrite (rb_sum_dev m S x fX (down_rows (reg_rows fX tX rows)) ls _ HSl) by (rewrite Tot, Exd; cbn; discriminate).
  rewrite (Dev _ Exa), (Dev _ Exd).
  assert (U : (rb_sum m S x fX (up_rows (reg_rows fX tX rows)) [ls] (n_u norms0) == 0)%Q).
  { rewrite rb_sum_one. apply sumf_zero. intros lf _. unfold qdiv0.
    destruct (qeqb_spec (sumf (box_norm m S x (up_rows (reg_rows fX tX rows))) ls) 0) as [_|K]; [reflexivity|].
    exfalso. apply K. transitivity (total_weight m S x (map fst (up_rows (reg_rows fX tX rows))) ls).
    - unfold total_weight. apply sumf_ext. intros lf' _. exact (box_norm_weight m S x _ lf' HSl).
    - rewrite Tot, Exu. reflexivity. }
  rewrite U. unfold qdiv0.
  destruct (qeqb_spec (0 - (0 - fX * fX)) 0) as [E|E], (qeqb_spec fX 0) as [F|F]; try reflexivity.
  - exfalso. apply F. destruct (Qmult_integral fX fX) as [K|K]; trivial. lra.
  - exfalso. apply E. rewrite F. reflexivity.
  - field. exact F.
Qed.

(** ** The Python version *)
Lemma py_reg_ends m rows fX tX S forest x :
  (0 <= py_sdp_reg m rows fX tX S forest x <= 1)%Q /\
  (length S = m -> (py_sdp_reg m rows fX tX S forest x == 1)%Q) /\
  (S = [] -> 0 < m -> (py_sdp_reg m rows fX tX S forest x == 0)%Q).
Proof.
  unfold py_sdp_reg. split; [|split].
  - destruct (length S =? m); [lra|]. destruct (length S =? 0); [lra|]. cbn zeta. rewrite py_clip. apply clip_bounds.
  - intros ->. rewrite Nat.eqb_refl. reflexivity.
  - intros -> Hm. cbn [length]. destruct (Nat.eqb_spec 0 m); [lia|]. reflexivity.
Qed.

Lemma py_sum_one m S x fX rs ls old : (forall s, In s S -> s < m) ->
  (total_weight m S x (map fst rs) ls == 1)%Q ->
  (py_reg_sum m S x fX rs [ls] == rb_sum m S x fX rs [ls] old)%Q.
Proof.
  intros HS Hn. rewrite rb_sum_one.
  assert (E : (sumf (box_norm m S x rs) ls == 1)%Q).
  { rewrite <- Hn. unfold total_weight. apply sumf_ext. intros lf _. exact (box_norm_weight m S x rs lf HS). }
  unfold py_reg_sum. change (indexed [ls]) with [(0%nat, ls)]. cbn [sumf fst snd Nat.eqb]. rewrite !Qplus_0_r.
  apply sumf_ext. intros lf _. rewrite E. unfold qdiv0. change (qeqb 1 0) with false. cbn iota. field.
Qed.

Lemma py_reg_agrees m rows fX tX S ls x v :
  0 < length S -> length S < m -> (forall s, In s S -> s < m) ->
  (total_weight m S x (map fst rows) ls == 1)%Q ->
  (total_weight m S x (map fst (filter (fun r => negb (near fX tX r)) rows)) ls == 1)%Q ->
  (total_weight m S x (map fst (filter (near fX tX) rows)) ls == 1)%Q ->
  compute_sdp_reg m rows tX S [ls] [(x, fX)] = [v] -> (0 <= v <= 1)%Q ->
  (py_sdp_reg m rows fX tX S [ls] x == v)%Q.
Proof.
  intros H0 Hm HS Wa Wu Wd Hv Hb. unfold py_sdp_reg.
  destruct (Nat.eqb_spec (length S) m); [lia|]. destruct (Nat.eqb_spec (length S) 0); [lia|]. cbn zeta.
  rewrite py_clip.
  assert (E : (qdiv0 (py_reg_sum m S x fX (up_rows (reg_rows fX tX rows)) [ls] - py_reg_sum m S x fX (reg_rows fX tX rows) [ls])
     (py_reg_sum m S x fX (up_rows (reg_rows fX tX rows)) [ls] - py_reg_sum m S x fX (down_rows (reg_rows fX tX rows)) [ls]) == v)%Q).
  { cbn in Hv. injection Hv as <-.
    rewrite (py_sum_one m S x fX (up_rows (reg_rows fX tX rows)) ls (n_u norms0)) by (rewrite ?rows_up; trivial).
    rewrite (py_sum_one m S x fX (down_rows (reg_rows fX tX rows)) ls (n_d norms0)) by (rewrite ?rows_down; trivial).
    rewrite (py_sum_one m S x fX (reg_rows fX tX rows) ls (n_a norms0)) by (rewrite ?rows_fst; trivial).
    reflexivity. }
  rewrite clip_id; [exact E|]. rewrite E. exact Hb.
Qed.

Lemma search_evals_one d rows tX ls es k S o : nth_error es k = Some (S, o) ->
  nth_error (search_reg_evals [[]] d rows tX [ls] es) k = nth_error (compute_sdp_reg d rows tX S [ls] [o]) 0.
Proof.
  intro H. unfold search_reg_evals.
  assert (E : length (tree_groups [[]] d) = d) by (unfold tree_groups; cbn [has_coal]; rewrite map_length; apply seq_length).
  rewrite E. rewrite (evals_one_single d rows tX ls es k (S, o) H). reflexivity.
Qed.

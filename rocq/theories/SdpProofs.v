(** Proofs about conditional expectations and same-decision probabilities. *)
From Verif Require Import Base TreeModel TreeSpec TreeProofs GameSpec ShapModel ShapSpec ShapProofs
  AcvModel AcvSpec AcvProofs SdpModel SdpSpec.

Add Parametric Morphism : gdiv with signature Qeq ==> eq ==> Qeq as gdiv_mor.
Proof. intros a a' H b. unfold gdiv. destruct (b =? 0); [reflexivity|]. now rewrite H. Qed.

Lemma count_all {A} (f : A -> bool) l : (length (filter f l) =? length l) = forallb f l.
Proof.
  induction l as [|a l IH]; cbn [filter forallb length]; [reflexivity|].
  destruct (f a); cbn [andb length]; [exact IH|].
  apply Nat.eqb_neq. assert (H := filter_length_le f l). lia.
Qed.
Lemma count_none {A} (f : A -> bool) l : (length (filter f l) =? 0) = forallb (fun a => negb (f a)) l.
Proof.
  induction l as [|a l IH]; cbn [filter forallb length]; [reflexivity|].
  destruct (f a); cbn [negb andb length]; [reflexivity|exact IH].
Qed.

Lemma sat_cl_forallb p F x : sat_cl p F x = forallb (fun s => cl_itv (p s) (x s)) F.
Proof. apply count_all. Qed.
Lemma not_out_cl_sat p S x : not_out_cl p S x = sat_cl p S x.
Proof.
  unfold not_out_cl. rewrite count_none, sat_cl_forallb. apply forallb_ext_in. intros s _.
  unfold cl_itv. rewrite negb_orb, !negb_involutive. reflexivity.
Qed.
Lemma eq_on_same S x z : eq_on S x z = same_on S x z.
Proof. apply count_all. Qed.
Lemma sat_cl_inside m p z : sat_cl p (seq 0 m) z = inside_closed m p z.
Proof.
  rewrite sat_cl_forallb. apply forallb_ext_in. intros s _. unfold cl_itv. apply andb_comm.
Qed.

Lemma cl_itv_ext i v w : (v == w)%Q -> cl_itv i v = cl_itv i w.
Proof.
  intro E. destruct i as [lo hi]. unfold cl_itv. cbn [fst snd].
  destruct lo, hi; cbn; rewrite ?E; reflexivity.
Qed.
Lemma same_on_sat_cl p S x z : same_on S x z = true -> sat_cl p S x = sat_cl p S z.
Proof.
  intro H. rewrite !sat_cl_forallb. apply forallb_ext_in. intros s Hs. apply cl_itv_ext.
  unfold same_on in H. rewrite forallb_forall in H. specialize (H s Hs).
  destruct (qeqb_spec (z s) (x s)) as [E|E]; [|discriminate]. now symmetry.
Qed.

(** closed and half-open tests agree off the boundaries *)
Lemma cl_itv_off i v : (forall q, fst i = Fin q -> ~ (v == q)%Q) -> cl_itv i v = in_itv i v.
Proof.
  destruct i as [lo hi]. cbn [fst]. intro H. unfold cl_itv, in_itv. cbn [fst snd].
  rewrite andb_comm. f_equal. destruct lo as [|q|]; cbn; [reflexivity| |reflexivity].
  specialize (H q eq_refl). destruct (qleb_spec q v), (qltb_spec q v); try reflexivity; exfalso; lra.
Qed.
Lemma sat_cl_off forest z ls lf F : off_boundary forest z -> In ls forest -> In lf ls ->
  sat_cl (l_rect lf) F z = sat_on (l_rect lf) F z.
Proof.
  intros H H1 H2. rewrite sat_cl_forallb. unfold sat_on. apply forallb_ext_in. intros s _.
  apply cl_itv_off. intros q E. exact (H ls lf s q H1 H2 E).
Qed.
Lemma in_rect_sat_on m p z : in_rect m p z = sat_on p (seq 0 m) z.
Proof. reflexivity. Qed.

Lemma compute_exp_worth m data S forest x :
  off_boundary forest x -> (forall z, In z data -> off_boundary forest z) ->
  (compute_exp m data S forest x == worth m data forest x [S])%Q.
Proof.
  intros Hx Hd. unfold compute_exp, worth. apply sumf_ext. intros ls Hls. apply sumf_ext. intros lf Hlf.
  unfold exp_leaf, cond_prob. rewrite not_out_cl_sat, (sat_cl_off forest x ls lf S Hx Hls Hlf).
  cbn [concat]. rewrite app_nil_r.
  destruct (sat_on (l_rect lf) S x); [|ring].
  assert (E1 : count_cl m data (l_rect lf) = rows_in data (l_rect lf) (seq 0 m)).
  { unfold count_cl, rows_in. f_equal. apply filter_ext_in'. intros z Hz.
    exact (sat_cl_off forest z ls lf _ (Hd z Hz) Hls Hlf). }
  assert (E2 : count_s data (l_rect lf) S = rows_in data (l_rect lf) S).
  { unfold count_s, rows_in. f_equal. apply filter_ext_in'. intros z Hz. apply sat_sat_on. }
  rewrite E1, E2. unfold gdiv. destruct (rows_in data (l_rect lf) S) as [|k]; cbn [Nat.eqb]; [ring|].
  unfold Qdiv. ring.
Qed.

(** no declared coalition: the players are the single columns *)
Definition singles (m : nat) : list (list nat) := map (fun i => [i]) (seq 0 m).
Lemma concat_singles l : concat (map (fun i : nat => [i]) l) = l.
Proof. induction l as [|a l IH]; cbn; [reflexivity|now rewrite IH]. Qed.
Lemma no_coal_ok m : coalitions_ok [[]] m.
Proof. split; [constructor|split; [intros i []|reflexivity]]. Qed.
Lemma singles_players m : is_players [[]] m (singles m).
Proof.
  assert (H := va_ids_players [[]] m (no_coal_ok m)). exact H.
Qed.

Lemma worth_ext m data forest x T T' : (forall s, In s (concat T) <-> In s (concat T')) ->
  (worth m data forest x T == worth m data forest x T')%Q.
Proof.
  intro H. unfold worth. apply sumf_ext. intros ls _. apply sumf_ext. intros lf _.
  assert (E : forall z, sat_on (l_rect lf) (concat T) z = sat_on (l_rect lf) (concat T') z).
  { intro z. unfold sat_on. apply eq_true_iff_eq. rewrite !forallb_forall.
    split; intros K s Hs; apply K; now apply H. }
  unfold cond_prob, rows_in. rewrite E. rewrite (filter_ext_in' _ (sat_on (l_rect lf) (concat T'))).
  - reflexivity.
  - intros; apply E.
Qed.

Lemma exp_no_variable m data ts forest x off rdata :
  forallb (fun t => wf_tree t m) ts = true -> forest_leaves ts = Some forest -> data <> [] ->
  off_boundary forest x -> (forall z, In z data -> off_boundary forest z) ->
  Forall2 (fun z r => dense_tree_predict ts (length ts) off z no_missing = Some r) data rdata ->
  (compute_exp m data [] forest x == sumf (fun r => r) rdata / Qn (length data) - off)%Q.
Proof.
  intros Hwf Hf Hd Hx Hdat Hr. rewrite compute_exp_worth by assumption.
  rewrite (worth_ext m data forest x [[]] []) by (cbn; tauto).
  rewrite (worth_none m data forest x Hd).
  assert (E : (sumf (fun z => sumf (fun ls => sumf (fun lf => Qb (in_rect m (l_rect lf) z) * l_val lf) ls) forest) data
      == sumf (fun r => r) rdata - Qn (length data) * off)%Q).
  { clear Hdat Hd. induction Hr as [|z r data rdata Hz Hr IH]; cbn [sumf length].
    - rewrite Qn_0. ring.
    - rewrite IH, Qn_S. rewrite (forest_sum ts m forest z off r Hwf Hf Hz). ring. }
  rewrite E. assert (~ (Qn (length data) == 0)%Q).
  { apply Qn_neq0. destruct data; [congruence|discriminate]. }
  field. assumption.
Qed.

Lemma exp_all_variables m data ts forest S x off r :
  forallb (fun t => wf_tree t m) ts = true -> forest_leaves ts = Some forest ->
  off_boundary forest x -> (forall z, In z data -> off_boundary forest z) ->
  (forall s, In s S <-> s < m) ->
  (forall ls lf, In ls forest -> In lf ls -> Inside m (l_rect lf) x ->
     exists z, In z data /\ Inside m (l_rect lf) z) ->
  dense_tree_predict ts (length ts) off x no_missing = Some r ->
  (compute_exp m data S forest x == r - off)%Q.
Proof.
  intros Hwf Hf Hx Hdat HS Hpop Hr. rewrite compute_exp_worth by assumption.
  rewrite (worth_ext m data forest x [S] (singles m)).
  2:{ intro s. unfold singles. rewrite concat_singles. cbn. rewrite app_nil_r, HS, in_seq. lia. }
  rewrite (worth_all [[]] m (singles m) data forest x (no_coal_ok m) (singles_players m)
             (forest_leaves_ok ts m forest Hwf Hf)).
  - exact (forest_sum ts m forest x off r Hwf Hf Hr).
  - intros ls lf H1 H2 H3. destruct (Hpop ls lf H1 H2) as [z [Hz Hzin]].
    + now apply in_rect_Inside.
    + exists z. split; [trivial|]. now apply in_rect_Inside.
Qed.

(** * Categorical expectation: exact conditional mean of the predictions *)
Lemma not_out_sat p S x : not_out p S x = sat_on p S x.
Proof.
  unfold not_out, sat_on. rewrite count_none. apply forallb_ext_in. intros s _.
  unfold in_itv. rewrite negb_orb, !negb_involutive. apply andb_comm.
Qed.
Lemma in_itv_qeq i v w : (v == w)%Q -> in_itv i v = in_itv i w.
Proof.
  intro E. destruct i as [lo hi]. unfold in_itv. cbn [fst snd].
  destruct lo, hi; cbn; rewrite ?E; reflexivity.
Qed.
Lemma same_on_sat_on p S x z : same_on S x z = true -> sat_on p S x = sat_on p S z.
Proof.
  intro H. unfold sat_on. apply forallb_ext_in. intros s Hs. apply in_itv_qeq.
  unfold same_on in H. rewrite forallb_forall in H. specialize (H s Hs).
  destruct (qeqb_spec (z s) (x s)) as [E|E]; [|discriminate]. now symmetry.
Qed.

Lemma in_rect_sat_on_sub m p S z : (forall s, In s S -> s < m) -> in_rect m p z = true -> sat_on p S z = true.
Proof.
  intros HS H. unfold in_rect in H. rewrite forallb_forall in H. apply forallb_forall. intros s Hs.
  apply H. apply in_seq. specialize (HS s Hs). lia.
Qed.

Lemma exp_cat_mean m data S forest x : (forall s, In s S -> s < m) ->
  (compute_exp_cat m data S forest x ==
   mean (fun z => sumf (fun ls => sumf (fun lf => Qb (in_rect m (l_rect lf) z) * l_val lf) ls) forest)
        (filter (same_on S x) data))%Q.
Proof.
  intro HS. unfold compute_exp_cat.
  assert (Ems : filter (eq_on S x) data = filter (same_on S x) data)
    by (apply filter_ext_in'; intros; apply eq_on_same).
  set (ms := filter (same_on S x) data) in *.
  assert (Hms : forall z, In z ms -> same_on S x z = true) by (intros z Hz; now apply filter_In in Hz).
  assert (L : forall ls lf, In ls forest -> In lf ls ->
    (exp_cat_leaf m data S x lf == gdiv (sumf (fun z => Qb (in_rect m (l_rect lf) z) * l_val lf) ms) (length ms))%Q).
  { intros ls lf _ _. unfold exp_cat_leaf. rewrite Ems, not_out_sat.
    assert (Ec : filter (sat (l_rect lf) (seq 0 m)) ms = filter (in_rect m (l_rect lf)) ms).
    { apply filter_ext_in'. intros z _. rewrite sat_sat_on. reflexivity. }
    rewrite Ec.
    rewrite (sumf_scal_r (l_val lf) (fun z => Qb (in_rect m (l_rect lf) z)) ms), sumf_count.
    destruct (sat_on (l_rect lf) S x) eqn:E; [reflexivity|].
    assert (Ez : filter (in_rect m (l_rect lf)) ms = []).
    { destruct (filter (in_rect m (l_rect lf)) ms) as [|z r] eqn:F; [reflexivity|].
      assert (Hz : In z (filter (in_rect m (l_rect lf)) ms)) by (rewrite F; now left).
      apply filter_In in Hz. destruct Hz as [Hz Hin].
      rewrite (same_on_sat_on (l_rect lf) S x z (Hms z Hz)) in E.
      rewrite (in_rect_sat_on_sub m _ S z HS Hin) in E. discriminate. }
    rewrite Ez. cbn [length]. unfold gdiv. destruct (length ms =? 0); [reflexivity|]. rewrite Qn_0. unfold Qdiv. ring. }
  assert (L2 : (sumf (fun ls => sumf (exp_cat_leaf m data S x) ls) forest ==
    sumf (fun ls => sumf (fun lf => gdiv (sumf (fun z => Qb (in_rect m (l_rect lf) z) * l_val lf) ms) (length ms)) ls) forest)%Q).
  { apply sumf_ext. intros ls Hls. apply sumf_ext. intros lf Hlf. exact (L ls lf Hls Hlf). }
  rewrite L2. clear L2 L. unfold mean. destruct ms as [|z0 r0] eqn:Em.
  - apply sumf_zero. intros; apply sumf_zero. intros; reflexivity.
  - rewrite <- Em. assert (Hn : (length ms =? 0) = false) by (rewrite Em; reflexivity).
    unfold gdiv. rewrite Hn. unfold Qdiv.
    rewrite (sumf_swap (fun z ls => sumf (fun lf => Qb (in_rect m (l_rect lf) z) * l_val lf)%Q ls)).
    rewrite <- sumf_scal_r. apply sumf_ext. intros ls _.
    rewrite (sumf_swap (fun z lf => Qb (in_rect m (l_rect lf) z) * l_val lf)%Q).
    rewrite <- sumf_scal_r. apply sumf_ext. intros lf _. reflexivity.
Qed.

Lemma Forall2_filter_sum {A} (R : A -> Q -> Prop) (g : A -> Q) (off : Q) l rs :
  Forall2 R l rs -> (forall a r, R a r -> (g a == r - off)%Q) ->
  (sumf g l == sumf (fun r => r) rs - Qn (length l) * off)%Q.
Proof.
  intros H HR. induction H as [|a r l rs Hz Hr IH]; cbn [sumf length].
  - rewrite Qn_0. ring.
  - rewrite IH, Qn_S, (HR a r Hz). ring.
Qed.

Lemma exp_cat_predictions m data ts forest S x off rs :
  forallb (fun t => wf_tree t m) ts = true -> forest_leaves ts = Some forest ->
  (forall s, In s S -> s < m) ->
  Forall2 (fun z r => dense_tree_predict ts (length ts) off z no_missing = Some r)
          (filter (same_on S x) data) rs ->
  rs <> [] ->
  (compute_exp_cat m data S forest x == sumf (fun r => r) rs / Qn (length rs) - off)%Q.
Proof.
  intros Hwf Hf HS Hr Hne. rewrite exp_cat_mean by exact HS. unfold mean.
  set (ms := filter (same_on S x) data) in *.
  assert (Hl : length ms = length rs) by (clear -Hr; induction Hr; cbn; congruence).
  assert (Hn : ~ (Qn (length rs) == 0)%Q).
  { apply Qn_neq0. destruct rs; [congruence|discriminate]. }
  destruct ms as [|z0 r0] eqn:Em; [destruct rs; [congruence|discriminate]|]. rewrite <- Em in *.
  rewrite (Forall2_filter_sum _ _ off _ _ Hr).
  - rewrite Hl. field. exact Hn.
  - intros z r Hz. exact (forest_sum ts m forest z off r Hwf Hf Hz).
Qed.

(** * Python version *)
Lemma py_exp_all_off m data S forest x : S <> [] ->
  off_boundary forest x -> (forall z, In z data -> off_boundary forest z) ->
  exists v, py_compute_exp m data S forest x = Some v /\ (v == compute_exp m data S forest x)%Q.
Proof.
  intros HS Hx Hd. unfold py_compute_exp. destruct S as [|s0 S0]; [congruence|]. remember (s0 :: S0) as S.
  eexists. split; [reflexivity|]. unfold compute_exp. apply sumf_ext. intros ls Hls.
  apply sumf_ext. intros lf Hlf. unfold py_exp_leaf, exp_leaf. rewrite not_out_cl_sat.
  destruct (sat_cl (l_rect lf) S x); [|reflexivity].
  assert (E : filter (sat_cl (l_rect lf) S) data = filter (sat (l_rect lf) S) data).
  { apply filter_ext_in'. intros z Hz. rewrite sat_sat_on.
    exact (sat_cl_off forest z ls lf S (Hd z Hz) Hls Hlf). }
  rewrite E. reflexivity.
Qed.

(** * Normalised expectation *)
Lemma osum_nonzero {A} (f : A -> option Q) l z : osum f l = Some z ->
  (forall a q, In a l -> f a = Some q -> (0 <= q)%Q) -> ~ (z == 0)%Q -> (0 < z)%Q.
Proof.
  intros H Hp Hz. enough (0 <= z)%Q by lra. clear Hz. revert z H. induction l as [|a l IH]; cbn; intros z H.
  - injection H as <-. lra.
  - destruct (f a) as [u|] eqn:E1; [|discriminate]. destruct (osum f l) as [v|] eqn:E2; [|discriminate].
    injection H as <-. assert (0 <= u)%Q by (eapply Hp; [now left|exact E1]).
    assert (0 <= v)%Q by (apply IH; [intros b q Hb; apply Hp; now right|reflexivity]). lra.
Qed.

Lemma exists_min {A} (f : A -> Q) l : l <> [] -> exists a, In a l /\ forall b, In b l -> (f a <= f b)%Q.
Proof.
  induction l as [|a l IH]; [congruence|intros _]. destruct l as [|a' l'].
  - exists a. split; [now left|]. intros b [<-|[]]. lra.
  - destruct IH as [c [Hc Hm]]; [discriminate|]. destruct (Qlt_le_dec (f a) (f c)) as [H|H].
    + exists a. split; [now left|]. intros b [<-|Hb]; [lra|]. specialize (Hm b Hb). lra.
    + exists c. split; [now right|]. intros b [<-|Hb]; [lra|]. exact (Hm b Hb).
Qed.

Lemma osum_weighted {A} (f : A -> option Q) (g v : A -> Q) l z lo hi :
  osum f l = Some z -> 
  (forall a q, In a l -> f a = Some q -> (0 <= q)%Q /\ (g a == q * v a)%Q) ->
  (forall a, In a l -> (lo <= v a <= hi)%Q) ->
  (lo * z <= sumf g l /\ sumf g l <= hi * z)%Q.
Proof.
  revert z. induction l as [|a l IH]; cbn; intros z H Hg Hv.
  - injection H as <-. split; lra.
  - destruct (f a) as [u|] eqn:E1; [|discriminate]. destruct (osum f l) as [w|] eqn:E2; [|discriminate].
    injection H as <-. destruct (Hg a u (or_introl eq_refl) E1) as [Hu Eg].
    destruct (IH w eq_refl) as [I1 I2].
    + intros b q Hb. apply Hg. now right.
    + intros b Hb. apply Hv. now right.
    + assert (Hb := Hv a (or_introl eq_refl)). rewrite Eg.
      assert (lo * u <= u * v a)%Q by (rewrite (Qmult_comm lo); apply Qmult_le_compat_pos_l; lra).
      assert (u * v a <= hi * u)%Q by (rewrite (Qmult_comm hi); apply Qmult_le_compat_pos_l; lra).
      split; lra.
Qed.

Lemma norm_leaf_nonneg m data S x lf q : norm_leaf m data S x lf = Some q ->
  (0 <= q)%Q /\ (exp_leaf m data S x lf == q * l_val lf)%Q.
Proof.
  unfold norm_leaf, exp_leaf. destruct (not_out_cl (l_rect lf) S x).
  - unfold cdiv, gdiv. destruct (qeqb_spec (Qn (count_s data (l_rect lf) S)) 0) as [E|E]; [discriminate|].
    intro H. injection H as <-.
    destruct (count_s data (l_rect lf) S) as [|k] eqn:Ek.
    + exfalso. apply E. reflexivity.
    + cbn [Nat.eqb]. split.
      * apply Qdiv_nonneg; [apply Qn_nonneg|]. apply Qn_pos. lia.
      * unfold Qdiv. ring.
  - intro H. injection H as <-. split; [lra|ring].
Qed.

Lemma exp_norm_bounds m data S ls x v :
  exp_norm_tree m data S ls x = Some v ->
  (exists lf, In lf ls /\ forallb (fun s => ext_leb_q (fst (l_rect lf s)) (x s) && q_leb_ext (x s) (snd (l_rect lf s))) S = true /\
     exists z, In z data /\ inside_closed m (l_rect lf) z = true) ->
  exists lo hi, In lo ls /\ In hi ls /\ (l_val lo <= v <= l_val hi)%Q.
Proof.
  intros H Hpop. unfold exp_norm_tree in H.
  destruct (osum (norm_leaf m data S x) ls) as [z|] eqn:Ez; [|discriminate]. injection H as <-.
  assert (Hls : ls <> []) by (destruct Hpop as [lf [Hlf _]]; intro; subst; destruct Hlf).
  destruct (exists_min l_val ls Hls) as [lo [Hlo Hmin]].
  destruct (exists_min (fun lf => - l_val lf)%Q ls Hls) as [hi [Hhi Hmax]].
  assert (Hz : (0 < z)%Q).
  { apply (osum_nonzero _ _ _ Ez).
    - intros a q Ha Hq. exact (proj1 (norm_leaf_nonneg m data S x a q Hq)).
    - destruct Hpop as [lf [Hlf [Hx [w [Hw Hin]]]]].
      assert (P : exists q, norm_leaf m data S x lf = Some q /\ (0 < q)%Q).
      { assert (Q0 : exists q, norm_leaf m data S x lf = Some q).
        { clear - Ez Hlf. revert z Ez. induction ls as [|a l IH]; [destruct Hlf|]. cbn. intros z Ez.
          destruct (norm_leaf m data S x a) eqn:E1; [|discriminate].
          destruct (osum (norm_leaf m data S x) l) eqn:E2; [|discriminate].
          destruct Hlf as [<-|Hlf]; [eexists; exact E1|]. exact (IH Hlf _ eq_refl). }
        destruct Q0 as [q Hq]. exists q. split; [exact Hq|]. unfold norm_leaf in Hq.
        assert (Hno : not_out_cl (l_rect lf) S x = true).
        { rewrite not_out_cl_sat, sat_cl_forallb. erewrite forallb_ext_in; [exact Hx|].
          intros s _. cbn. unfold cl_itv. apply andb_comm. }
        rewrite Hno in Hq. unfold cdiv in Hq.
        destruct (qeqb_spec (Qn (count_s data (l_rect lf) S)) 0) as [E|E]; [discriminate|].
        injection Hq as <-. apply Qlt_shift_div_l.
        - assert (0 <= Qn (count_s data (l_rect lf) S))%Q by apply Qn_nonneg. lra.
        - assert (0 < Qn (count_cl m data (l_rect lf)))%Q; [|lra]. apply Qn_pos.
          unfold count_cl. assert (In w (filter (sat_cl (l_rect lf) (seq 0 m)) data)).
          { apply filter_In. split; [trivial|]. now rewrite sat_cl_inside. }
          destruct (filter (sat_cl (l_rect lf) (seq 0 m)) data); [contradiction|cbn; lia]. }
      destruct P as [q [Hq Hqp]]. intro Hz0.
      assert (q <= z)%Q; [|lra].
      clear - Ez Hq Hlf. revert z Ez. induction ls as [|a l IH]; [destruct Hlf|]. cbn. intros z Ez.
      destruct (norm_leaf m data S x a) as [u|] eqn:E1; [|discriminate].
      destruct (osum (norm_leaf m data S x) l) as [w|] eqn:E2; [|discriminate]. injection Ez as <-.
      assert (Hw : (0 <= w)%Q).
      { clear - E2. revert w E2. induction l as [|b l IH]; cbn; intros w E2; [injection E2 as <-; lra|].
        destruct (norm_leaf m data S x b) as [u|] eqn:E; [|discriminate].
        destruct (osum (norm_leaf m data S x) l) as [t|]; [|discriminate]. injection E2 as <-.
        assert (0 <= u)%Q by exact (proj1 (norm_leaf_nonneg m data S x b u E)).
        specialize (IH t eq_refl). lra. }
      assert (Hu := proj1 (norm_leaf_nonneg m data S x a u E1)).
      destruct Hlf as [<-|Hlf]; [assert (u = q) by congruence; subst; lra|].
      specialize (IH Hlf w eq_refl). lra. }
  assert (Hs : (sumf (fun lf => if qeqb z 0 then 0 else exp_leaf m data S x lf / z) ls
               == sumf (exp_leaf m data S x) ls / z)%Q).
  { unfold Qdiv. rewrite <- sumf_scal_r. apply sumf_ext. intros lf _.
    destruct (qeqb_spec z 0) as [E|E]; [exfalso; lra|reflexivity]. }
  exists lo, hi. split; [exact Hlo|]. split; [exact Hhi|]. rewrite Hs.
  destruct (osum_weighted (norm_leaf m data S x) (exp_leaf m data S x) l_val ls z (l_val lo) (l_val hi) Ez) as [B1 B2].
  - intros a q _ Hq. exact (norm_leaf_nonneg m data S x a q Hq).
  - intros a Ha. specialize (Hmin a Ha). specialize (Hmax a Ha). cbn in Hmax. lra.
  - split; [apply Qle_shift_div_l|apply Qle_shift_div_r]; trivial.
Qed.

(** * Same-decision probabilities *)
Lemma clip_bounds q : (0 <= clip q <= 1)%Q.
Proof.
  unfold clip. destruct (qleb_spec q 1), (qleb_spec 0 q), (qltb_spec 1 q); cbn; lra.
Qed.
Lemma clip_id q : (0 <= q <= 1)%Q -> clip q = q.
Proof. intro H. unfold clip. destruct (qleb_spec q 1), (qleb_spec 0 q); cbn; trivial; exfalso; lra. Qed.
Lemma py_clip q : (q * Qb (qleb 0 q) * Qb (qleb q 1) + 1 * Qb (qltb 1 q) + 0 * Qb (qltb q 0) == clip q)%Q.
Proof.
  unfold clip. destruct (qleb_spec q 1), (qleb_spec 0 q), (qltb_spec 1 q), (qltb_spec q 0); cbn [Qb andb]; lra.
Qed.

Lemma mean_scaled {A} (f : A -> Q) l : (Qn (length l) * mean f l == sumf f l)%Q.
Proof.
  destruct l as [|a l]; [cbn; ring|]. unfold mean. field. apply Qn_neq0. discriminate.
Qed.

Definition g_on {A B} (g : A -> Q) (r : A * B) : Q := g (fst r).
Lemma updown_sum (g : frow -> Q) rs : (sumf g rs == sumf g (up_rows rs) + sumf g (down_rows rs))%Q.
Proof. apply (sumf_split snd). Qed.
Lemma updown_len rs : length rs = length (up_rows rs) + length (down_rows rs).
Proof.
  induction rs as [|r rs IH]; [reflexivity|]. unfold up_rows, down_rows in *. cbn [filter].
  destruct (snd r); cbn [length negb]; lia.
Qed.

Lemma ratio_up (g : frow -> Q) rs a u d : rs <> [] ->
  (a == mean g rs)%Q -> (u == mean g (up_rows rs))%Q -> (d == mean g (down_rows rs))%Q ->
  ~ (u == d)%Q -> (qdiv0 (a - d) (u - d) == Qn (length (up_rows rs)) / Qn (length rs))%Q.
Proof.
  intros Hne Ha Hu Hd Hud. unfold qdiv0. destruct (qeqb_spec (u - d) 0) as [E|E]; [exfalso; apply Hud; lra|].
  assert (Hn : ~ (Qn (length rs) == 0)%Q) by (apply Qn_neq0; destruct rs; [congruence|discriminate]).
  assert (K : (Qn (length rs) * a == Qn (length (up_rows rs)) * u + Qn (length (down_rows rs)) * d)%Q).
  { rewrite Ha, Hu, Hd, !mean_scaled. apply updown_sum. }
  assert (L : (Qn (length rs) == Qn (length (up_rows rs)) + Qn (length (down_rows rs)))%Q).
  { rewrite <- Qn_plus. now rewrite <- updown_len. }
  assert (M : ((a - d) * Qn (length rs) == Qn (length (up_rows rs)) * (u - d))%Q).
  { rewrite L in K |- *. lra. }
  apply (Qmult_inj_r _ _ (Qn (length rs)) Hn). transitivity (Qn (length (up_rows rs))); [|field; exact Hn].
  transitivity ((a - d) * Qn (length rs) / (u - d))%Q; [field; exact E|]. rewrite M. field. exact E.
Qed.

Lemma ratio_down (g : frow -> Q) rs a u d : rs <> [] ->
  (a == mean g rs)%Q -> (u == mean g (up_rows rs))%Q -> (d == mean g (down_rows rs))%Q ->
  ~ (u == d)%Q -> (qdiv0 (u - a) (u - d) == Qn (length (down_rows rs)) / Qn (length rs))%Q.
Proof.
  intros Hne Ha Hu Hd Hud.
  assert (R := ratio_up g rs a u d Hne Ha Hu Hd Hud). unfold qdiv0 in *.
  destruct (qeqb_spec (u - d) 0) as [E|E]; [exfalso; apply Hud; lra|].
  assert (Hn : ~ (Qn (length rs) == 0)%Q) by (apply Qn_neq0; destruct rs; [congruence|discriminate]).
  assert (L : (Qn (length rs) == Qn (length (up_rows rs)) + Qn (length (down_rows rs)))%Q).
  { rewrite <- Qn_plus. now rewrite <- updown_len. }
  transitivity (1 - (a - d) / (u - d))%Q; [field; exact E|]. rewrite R.
  transitivity ((Qn (length rs) - Qn (length (up_rows rs))) / Qn (length rs))%Q; [field; exact Hn|].
  rewrite L at 1. unfold Qdiv. ring.
Qed.

Lemma cat_sum_mean m S x rows forest : (forall s, In s S -> s < m) ->
  (forall r, In r rows -> same_on S x (fst r) = true) ->
  (cat_sum m S x rows forest == mean (fun r => closed_value m forest (fst r)) rows)%Q.
Proof.
  intros HS Hr. unfold cat_sum.
  assert (L : (sumf (fun ls => sumf (cat_leaf m S x rows) ls) forest ==
    sumf (fun ls => sumf (fun lf => gdiv (sumf (fun r : frow => if inside_closed m (l_rect lf) (fst r) then l_val lf else 0) rows) (length rows)) ls) forest)%Q).
  { apply sumf_ext. intros ls _. apply sumf_ext. intros lf _. unfold cat_leaf. rewrite not_out_cl_sat.
    assert (Ec : (sumf (fun r : frow => if inside_closed m (l_rect lf) (fst r) then l_val lf else 0) rows
              == Qn (cnt (sat_cl (l_rect lf) (seq 0 m)) rows) * l_val lf)%Q).
    { unfold cnt. rewrite <- (sumf_count (fun r => sat_cl (l_rect lf) (seq 0 m) (fst r)) rows), <- sumf_scal_r.
      apply sumf_ext. intros r _. rewrite sat_cl_inside. destruct (inside_closed m (l_rect lf) (fst r)); cbn [Qb]; ring. }
    rewrite Ec. destruct (sat_cl (l_rect lf) S x) eqn:E; [reflexivity|].
    assert (Z : cnt (sat_cl (l_rect lf) (seq 0 m)) rows = 0).
    { unfold cnt. destruct (filter (fun r => sat_cl (l_rect lf) (seq 0 m) (fst r)) rows) as [|r l] eqn:F; [reflexivity|].
      assert (Hi : In r (filter (fun r => sat_cl (l_rect lf) (seq 0 m) (fst r)) rows)) by (rewrite F; now left).
      apply filter_In in Hi. destruct Hi as [Hi Hin]. cbn in Hin.
      rewrite (same_on_sat_cl (l_rect lf) S x (fst r) (Hr r Hi)) in E.
      rewrite sat_cl_forallb in Hin, E. rewrite forallb_forall in Hin.
      assert (forallb (fun s => cl_itv (l_rect lf s) (fst r s)) S = true); [|congruence].
      apply forallb_forall. intros s Hs. apply Hin. apply in_seq. specialize (HS s Hs). lia. }
    rewrite Z. unfold gdiv. destruct (length rows =? 0); [reflexivity|]. rewrite Qn_0. unfold Qdiv. ring. }
  rewrite L. clear L. unfold mean. destruct rows as [|r0 l0] eqn:Er.
  - apply sumf_zero. intros; apply sumf_zero. intros; reflexivity.
  - rewrite <- Er. assert (Hn : (length rows =? 0) = false) by (rewrite Er; reflexivity).
    unfold gdiv. rewrite Hn. unfold Qdiv, closed_value.
    rewrite (sumf_swap (fun (z : frow) ls => sumf (fun lf => if inside_closed m (l_rect lf) (fst z) then l_val lf else 0)%Q ls)).
    rewrite <- sumf_scal_r. apply sumf_ext. intros ls _.
    rewrite (sumf_swap (fun (z : frow) lf => if inside_closed m (l_rect lf) (fst z) then l_val lf else 0)%Q).
    rewrite <- sumf_scal_r. apply sumf_ext. intros lf _. reflexivity.
Qed.

Lemma eq_rows_same S x rows r : In r (eq_rows S x rows) -> same_on S x (fst r) = true.
Proof. intro H. apply filter_In in H. destruct H as [_ H]. now rewrite eq_on_same in H. Qed.
Lemma up_rows_in rows r : In r (up_rows rows) -> In r rows.
Proof. intro H. now apply filter_In in H. Qed.
Lemma down_rows_in rows r : In r (down_rows rows) -> In r rows.
Proof. intro H. now apply filter_In in H. Qed.

Lemma clip_mor q q' : (q == q')%Q -> (clip q == clip q')%Q.
Proof.
  intro E. unfold clip.
  assert (E1 : qleb q' 1 = qleb q 1) by now rewrite E.
  assert (E2 : qleb 0 q' = qleb 0 q) by now rewrite E.
  assert (E3 : qltb 1 q' = qltb 1 q) by now rewrite E.
  rewrite E1, E2, E3. destruct (qleb q 1 && qleb 0 q); [exact E|]. destruct (qltb 1 q); reflexivity.
Qed.

Lemma frac_bounds a b : a <= b -> 0 < b -> (0 <= Qn a / Qn b <= 1)%Q.
Proof.
  intros H Hb. assert (0 < Qn b)%Q by now apply Qn_pos. split.
  - apply Qdiv_nonneg; [apply Qn_nonneg|trivial].
  - apply Qdiv_le_1; [apply Qn_nonneg|now apply Qn_le|trivial].
Qed.

(** number of rows of [rows] equal to [x] on [S] / with the decision [fX] *)
Lemma clf_cat_counts S x fX (rows : list (pt * nat)) :
  let ms := filter (fun r => same_on S x (fst r)) rows in
  length (eq_rows S x (clf_rows fX rows)) = length ms /\
  (forall g : pt -> Q, (mean (fun r => g (fst r)) (up_rows (eq_rows S x (clf_rows fX rows)))
      == mean (fun r => g (fst r)) (filter (fun r => snd r =? fX) ms))%Q) /\
  (forall g : pt -> Q, (mean (fun r => g (fst r)) (down_rows (eq_rows S x (clf_rows fX rows)))
      == mean (fun r => g (fst r)) (filter (fun r => negb (snd r =? fX)) ms))%Q) /\
  length (up_rows (eq_rows S x (clf_rows fX rows))) = length (filter (fun r => snd r =? fX) ms).
Proof.
  cbn zeta.
  assert (K : eq_rows S x (clf_rows fX rows) =
          map (fun r => (fst r, snd r =? fX)) (filter (fun r => same_on S x (fst r)) rows)).
  { unfold eq_rows, clf_rows. induction rows as [|r rows IH]; [reflexivity|]. cbn [map filter fst].
    rewrite eq_on_same. destruct (same_on S x (fst r)); cbn [map]; rewrite ?IH; [|reflexivity].
    f_equal. f_equal. apply Nat.eqb_sym. }
  rewrite K. set (ms := filter (fun r => same_on S x (fst r)) rows). clearbody ms. clear K.
  assert (U : up_rows (map (fun r => (fst r, snd r =? fX)) ms)
      = map (fun r => (fst r, snd r =? fX)) (filter (fun r => snd r =? fX) ms)).
  { unfold up_rows. induction ms as [|r ms IH]; [reflexivity|]. cbn [map filter snd].
    destruct (snd r =? fX) eqn:E; cbn [map]; rewrite ?E, IH; reflexivity. }
  assert (D : down_rows (map (fun r => (fst r, snd r =? fX)) ms)
      = map (fun r => (fst r, snd r =? fX)) (filter (fun r => negb (snd r =? fX)) ms)).
  { unfold down_rows. clear U. induction ms as [|r ms IH]; [reflexivity|]. cbn [map filter snd].
    destruct (snd r =? fX) eqn:E; cbn [map negb]; rewrite ?E, IH; reflexivity. }
  assert (M : forall (g : pt -> Q) l, (mean (fun r : pt * bool => g (fst r)) (map (fun r : pt * nat => (fst r, snd r =? fX)) l)
     == mean (fun r => g (fst r)) l)%Q).
  { intros g l. destruct l as [|r l]; [reflexivity|]. unfold mean.
    change (map (fun r : pt * nat => (fst r, snd r =? fX)) (r :: l)) with
       ((fst r, snd r =? fX) :: map (fun r : pt * nat => (fst r, snd r =? fX)) l) at 1.
    cbn iota beta. rewrite map_length. rewrite sumf_map. reflexivity. }
  repeat split.
  - now rewrite map_length.
  - intro g. rewrite U. apply M.
  - intro g. rewrite D. apply M.
  - rewrite U, map_length. reflexivity.
Qed.

Lemma sdp_clf_cat_exact m rows fX S forest x :
  (forall s, In s S -> s < m) -> 0 < length S -> length S < m ->
  let ms := filter (fun r => same_on S x (fst r)) rows in
  ms <> [] ->
  ~ (mean (fun r => closed_value m forest (fst r)) (filter (fun r => snd r =? fX) ms) ==
     mean (fun r => closed_value m forest (fst r)) (filter (fun r => negb (snd r =? fX)) ms))%Q ->
  (compute_sdp_clf_cat m rows fX S forest x ==
   Qn (length (filter (fun r => snd r =? fX) ms)) / Qn (length ms))%Q.
Proof.
  intros HS H0 Hm ms Hne Hud. unfold compute_sdp_clf_cat.
  destruct (length S =? m) eqn:E1; [apply Nat.eqb_eq in E1; lia|].
  destruct (length S =? 0) eqn:E2; [apply Nat.eqb_eq in E2; lia|].
  cbn zeta. destruct (clf_cat_counts S x fX rows) as [C1 [C2 [C3 C4]]].
  fold ms in C1, C2, C3, C4. set (rs := eq_rows S x (clf_rows fX rows)) in *.
  assert (Hrs : forall r, In r rs -> same_on S x (fst r) = true) by (intros r; apply eq_rows_same).
  assert (Hn : rs <> []).
  { intro E. rewrite E in C1. cbn in C1. apply Hne. destruct ms; [reflexivity|discriminate]. }
  assert (R := ratio_up (fun r => closed_value m forest (fst r)) rs
                 (cat_sum m S x rs forest) (cat_sum m S x (up_rows rs) forest) (cat_sum m S x (down_rows rs) forest) Hn).
  assert (A1 := cat_sum_mean m S x rs forest HS Hrs).
  assert (A2 := cat_sum_mean m S x (up_rows rs) forest HS (fun r H => Hrs r (up_rows_in rs r H))).
  assert (A3 := cat_sum_mean m S x (down_rows rs) forest HS (fun r H => Hrs r (down_rows_in rs r H))).
  specialize (R A1 A2 A3).
  assert (N : ~ (cat_sum m S x (up_rows rs) forest == cat_sum m S x (down_rows rs) forest)%Q).
  { rewrite A2, A3, (C2 (closed_value m forest)), (C3 (closed_value m forest)). exact Hud. }
  specialize (R N). rewrite (clip_mor _ _ R). rewrite C1, C4. rewrite clip_id; [reflexivity|].
  apply frac_bounds; [apply filter_length_le|]. destruct ms; [congruence|cbn; lia].
Qed.

Lemma sdp_clf_cat_prob m rows fX S forest x :
  (0 <= compute_sdp_clf_cat m rows fX S forest x <= 1)%Q /\
  (length S = m -> (compute_sdp_clf_cat m rows fX S forest x == 1)%Q) /\
  (0 < m -> S = [] -> (compute_sdp_clf_cat m rows fX S forest x == 0)%Q).
Proof.
  unfold compute_sdp_clf_cat. repeat split.
  - destruct (length S =? m); [lra|]. destruct (length S =? 0); [lra|]. apply clip_bounds.
  - destruct (length S =? m); [lra|]. destruct (length S =? 0); [lra|]. apply clip_bounds.
  - intros ->. now rewrite Nat.eqb_refl.
  - intros Hm ->. cbn [length]. destruct (0 =? m) eqn:E; [apply Nat.eqb_eq in E; lia|]. reflexivity.
Qed.

Lemma py_sdp_clf_cat_same m rows fX S forest x :
  (py_sdp_clf_cat m rows fX S forest x == compute_sdp_clf_cat m rows fX S forest x)%Q.
Proof.
  unfold py_sdp_clf_cat, compute_sdp_clf_cat.
  destruct (length S =? m); [reflexivity|]. destruct (length S =? 0); [reflexivity|]. apply py_clip.
Qed.

Lemma py_sdp_clf_prob m rows fX S forest x :
  (0 <= py_sdp_clf m rows fX S forest x <= 1)%Q /\
  (length S = m -> (py_sdp_clf m rows fX S forest x == 1)%Q) /\
  (0 < m -> S = [] -> (py_sdp_clf m rows fX S forest x == 0)%Q).
Proof.
  unfold py_sdp_clf. split.
  - destruct (length S =? m); [lra|]. destruct (length S =? 0); [lra|]. cbn zeta. rewrite py_clip. apply clip_bounds.
  - split.
    + intros ->. now rewrite Nat.eqb_refl.
    + intros Hm ->. cbn [length]. destruct (0 =? m) eqn:E; [apply Nat.eqb_eq in E; lia|]. reflexivity.
Qed.

Lemma sdp_clf_ends m rows fX S forest x :
  (length S = m -> (compute_sdp_clf m rows fX S forest x == 1)%Q) /\
  (0 < m -> S = [] -> (compute_sdp_clf m rows fX S forest x == 0)%Q).
Proof.
  unfold compute_sdp_clf. split.
  - intros ->. now rewrite Nat.eqb_refl.
  - intros Hm ->. cbn [length]. destruct (0 =? m) eqn:E; [apply Nat.eqb_eq in E; lia|]. reflexivity.
Qed.

(** * Regression *)
(** what one row contributes: [closed] products of tree values *)
Definition energy (m : nat) (fX : Q) (forest : list (list leaf)) (z : pt) : Q :=
  (sumf (fun bt => sumf (fun lt =>
     if Nat.eqb (fst bt) (fst lt)
     then sumf (fun lf => if inside_closed m (l_rect lf) z then l_val lf * l_val lf - 2 * fX * l_val lf else 0) (snd bt)
     else closed_tree m (snd bt) z * closed_tree m (snd lt) z) (indexed forest)) (indexed forest))%Q.

Lemma sat_cl_sub m p S z : (forall s, In s S -> s < m) -> sat_cl p (seq 0 m) z = true -> sat_cl p S z = true.
Proof.
  intros HS H. rewrite sat_cl_forallb in *. rewrite forallb_forall in H. apply forallb_forall.
  intros s Hs. apply H. apply in_seq. specialize (HS s Hs). lia.
Qed.
Lemma cnt_sum (inb : pt -> bool) (c : Q) (rows : list frow) :
  (sumf (fun r : frow => if inb (fst r) then c else 0) rows == Qn (cnt inb rows) * c)%Q.
Proof.
  unfold cnt. rewrite <- (sumf_count (fun r => inb (fst r)) rows), <- sumf_scal_r.
  apply sumf_ext. intros r _. destruct (inb (fst r)); cbn [Qb]; ring.
Qed.
Lemma cnt_zero (inb : pt -> bool) (rows : list frow) : (forall r, In r rows -> inb (fst r) = false) -> cnt inb rows = 0.
Proof.
  intro H. unfold cnt. induction rows as [|r rows IH]; [reflexivity|]. cbn [filter].
  rewrite (H r (or_introl eq_refl)). apply IH. intros; apply H; now right.
Qed.

Lemma reg_sum_mean m S x fX rows forest : (forall s, In s S -> s < m) ->
  (forall r, In r rows -> same_on S x (fst r) = true) ->
  (reg_sum m S x fX rows forest == mean (fun r => energy m fX forest (fst r)) rows)%Q.
Proof.
  intros HS Hr.
  assert (Hskip : forall lf, not_out_cl (l_rect lf) S x = false ->
     forall r, In r rows -> sat_cl (l_rect lf) (seq 0 m) (fst r) = false).
  { intros lf E r Hi. destruct (sat_cl (l_rect lf) (seq 0 m) (fst r)) eqn:F; [|reflexivity].
    apply (sat_cl_sub m _ S) in F; [|exact HS].
    rewrite not_out_cl_sat, (same_on_sat_cl _ S x (fst r) (Hr r Hi)) in E. congruence. }
  assert (D : forall lf, (reg_diag m S x fX rows lf ==
     gdiv (sumf (fun r : frow => if inside_closed m (l_rect lf) (fst r) then l_val lf * l_val lf - 2 * fX * l_val lf else 0) rows) (length rows))%Q).
  { intro lf.
    assert (E : (sumf (fun r : frow => if inside_closed m (l_rect lf) (fst r) then l_val lf * l_val lf - 2 * fX * l_val lf else 0) rows
        == Qn (cnt (sat_cl (l_rect lf) (seq 0 m)) rows) * (l_val lf * l_val lf - 2 * fX * l_val lf))%Q).
    { rewrite <- cnt_sum. apply sumf_ext. intros r _. rewrite sat_cl_inside. reflexivity. }
    rewrite E. unfold reg_diag, gdiv. destruct (not_out_cl (l_rect lf) S x) eqn:No.
    - destruct (length rows =? 0); [reflexivity|]. unfold Qdiv. ring.
    - rewrite (cnt_zero _ rows (Hskip lf No)). destruct (length rows =? 0); [reflexivity|]. rewrite Qn_0. unfold Qdiv. ring. }
  assert (P : forall lb ll, (reg_pair m S x rows lb ll ==
     gdiv (sumf (fun r : frow => (if inside_closed m (l_rect lb) (fst r) then l_val lb else 0)
                        * (if inside_closed m (l_rect ll) (fst r) then l_val ll else 0)) rows) (length rows))%Q).
  { intros lb ll.
    set (inb := fun z => sat_cl (l_rect lb) (seq 0 m) z && sat_cl (l_rect ll) (seq 0 m) z).
    assert (E : (sumf (fun r : frow => (if inside_closed m (l_rect lb) (fst r) then l_val lb else 0)
                        * (if inside_closed m (l_rect ll) (fst r) then l_val ll else 0)) rows
        == Qn (cnt inb rows) * (l_val lb * l_val ll))%Q).
    { rewrite <- cnt_sum. apply sumf_ext. intros r _. unfold inb. rewrite !sat_cl_inside.
      destruct (inside_closed m (l_rect lb) (fst r)), (inside_closed m (l_rect ll) (fst r)); cbn [andb]; ring. }
    rewrite E. unfold reg_pair. fold inb.
    destruct (not_out_cl (l_rect lb) S x) eqn:N1; [destruct (not_out_cl (l_rect ll) S x) eqn:N2|]; cbn [andb].
    - unfold gdiv. destruct (length rows =? 0); [reflexivity|]. unfold Qdiv. ring.
    - rewrite (cnt_zero inb rows); [|intros r Hi; unfold inb; rewrite (Hskip ll N2 r Hi); apply andb_false_r].
      unfold gdiv. destruct (length rows =? 0); [reflexivity|]. rewrite Qn_0. unfold Qdiv. ring.
    - rewrite (cnt_zero inb rows); [|intros r Hi; unfold inb; rewrite (Hskip lb N1 r Hi); reflexivity].
      unfold gdiv. destruct (length rows =? 0); [reflexivity|]. rewrite Qn_0. unfold Qdiv. ring. }
  destruct rows as [|r0 l0] eqn:Er.
  { unfold reg_sum. cbn [mean]. apply sumf_zero. intros bt _. apply sumf_zero. intros lt _.
    unfold reg_trees. destruct (fst bt =? fst lt).
    - apply sumf_zero. intros lf _. rewrite D. reflexivity.
    - apply sumf_zero. intros lb _. apply sumf_zero. intros ll _. rewrite P. reflexivity. }
  rewrite <- Er in *. assert (Hn : (length rows =? 0) = false) by (rewrite Er; reflexivity).
  unfold gdiv in D, P. rewrite Hn in D, P.
  assert (Em : mean (fun r => energy m fX forest (fst r)) rows = (sumf (fun r => energy m fX forest (fst r)) rows / Qn (length rows))%Q)
    by (rewrite Er; reflexivity).
  rewrite Em. unfold Qdiv, energy. clear Em.
  rewrite (sumf_swap (fun (z : frow) bt => sumf (fun lt =>
     if Nat.eqb (fst bt) (fst lt)
     then sumf (fun lf => if inside_closed m (l_rect lf) (fst z) then l_val lf * l_val lf - 2 * fX * l_val lf else 0) (snd bt)
     else closed_tree m (snd bt) (fst z) * closed_tree m (snd lt) (fst z)) (indexed forest))%Q).
  rewrite <- sumf_scal_r. unfold reg_sum. apply sumf_ext. intros bt _.
  rewrite (sumf_swap (fun (z : frow) lt =>
     if Nat.eqb (fst bt) (fst lt)
     then sumf (fun lf => if inside_closed m (l_rect lf) (fst z) then l_val lf * l_val lf - 2 * fX * l_val lf else 0) (snd bt)
     else closed_tree m (snd bt) (fst z) * closed_tree m (snd lt) (fst z))%Q).
  rewrite <- sumf_scal_r. apply sumf_ext. intros lt _. unfold reg_trees.
  destruct (fst bt =? fst lt).
  - rewrite (sumf_swap (fun (z : frow) lf => if inside_closed m (l_rect lf) (fst z) then l_val lf * l_val lf - 2 * fX * l_val lf else 0)%Q).
    rewrite <- sumf_scal_r. apply sumf_ext. intros lf _. rewrite D. reflexivity.
  - transitivity (sumf (fun lb => sumf (fun ll => sumf (fun r : frow =>
       (if inside_closed m (l_rect lb) (fst r) then l_val lb else 0) *
       (if inside_closed m (l_rect ll) (fst r) then l_val ll else 0)) rows) (snd lt)) (snd bt) * / Qn (length rows))%Q.
    + rewrite <- sumf_scal_r. apply sumf_ext. intros lb _. rewrite <- sumf_scal_r. apply sumf_ext. intros ll _.
      rewrite P. reflexivity.
    + apply Qmult_comp; [|reflexivity].
      transitivity (sumf (fun r : frow => sumf (fun lb => sumf (fun ll =>
       (if inside_closed m (l_rect lb) (fst r) then l_val lb else 0) *
       (if inside_closed m (l_rect ll) (fst r) then l_val ll else 0)) (snd lt)) (snd bt)) rows)%Q.
      * rewrite (sumf_swap (fun (r : frow) lb => sumf (fun ll =>
          (if inside_closed m (l_rect lb) (fst r) then l_val lb else 0) *
          (if inside_closed m (l_rect ll) (fst r) then l_val ll else 0)) (snd lt))%Q).
        apply sumf_ext. intros lb _.
        rewrite (sumf_swap (fun (r : frow) ll => 
          (if inside_closed m (l_rect lb) (fst r) then l_val lb else 0) *
          (if inside_closed m (l_rect ll) (fst r) then l_val ll else 0))%Q). reflexivity.
      * apply sumf_ext. intros r _. unfold closed_tree. rewrite <- sumf_scal_r. apply sumf_ext. intros lb _.
        rewrite sumf_scal. reflexivity.
Qed.

(** off the boundaries exactly one closed leaf of each tree contains the row *)
Lemma one_closed_leaf ts m forest z ls : forallb (fun t => wf_tree t m) ts = true ->
  forest_leaves ts = Some forest -> off_boundary forest z -> In ls forest ->
  exists lf0, forall h : leaf -> Q,
    (sumf (fun lf => if inside_closed m (l_rect lf) z then h lf else 0) ls == h lf0)%Q.
Proof.
  intros Hwf Hf Hz Hls. destruct (forest_leaves_in ts forest ls Hf Hls) as [t [Ht E]].
  rewrite forallb_forall in Hwf. specialize (Hwf t Ht).
  destruct (tiling t m Hwf) as [ls' [Hls' [_ Htl]]]. assert (ls' = ls) by congruence. subst ls'.
  destruct (Htl z) as [k [l [lf [H1 [H2 [H3 [H4 [H5 H6]]]]]]]].
  assert (Hin : forall lf', In lf' ls -> inside_closed m (l_rect lf') z = in_rect m (l_rect lf') z).
  { intros lf' Hl. rewrite <- sat_cl_inside, (sat_cl_off forest z ls lf' _ Hz Hls Hl). reflexivity. }
  exists lf. intro h.
  rewrite (nth_error_single (fun lf' => if inside_closed m (l_rect lf') z then h lf' else 0%Q) ls k lf H3).
  - rewrite (Hin lf) by (eapply nth_error_In; exact H3). apply in_rect_Inside in H4. rewrite H4. reflexivity.
  - intros k' lf' Hk' Hne. rewrite (Hin lf') by (eapply nth_error_In; exact Hk').
    destruct (in_rect m (l_rect lf') z) eqn:F; [|reflexivity].
    exfalso. apply Hne. eapply H6; [exact Hk'|]. now apply in_rect_Inside.
Qed.

Lemma indexed_fst {A} (l : list A) : map fst (indexed l) = seq 0 (length l).
Proof.
  unfold indexed. generalize 0 at 1 2. induction l as [|a l IH]; intro n; cbn; [reflexivity|now rewrite IH].
Qed.
Lemma indexed_snd {A} (l : list A) : map snd (indexed l) = l.
Proof.
  unfold indexed. generalize 0. induction l as [|a l IH]; intro n; cbn; [reflexivity|now rewrite IH].
Qed.
Lemma sum_replace {A} (l : list (nat * A)) b c (h : nat * A -> Q) : NoDup (map fst l) -> In b l ->
  (sumf (fun a => if Nat.eqb (fst b) (fst a) then c else h a) l == sumf h l + (c - h b))%Q.
Proof.
  induction l as [|a l IH]; cbn [map sumf]; intros Hd Hi; [contradiction|].
  inversion Hd as [|? ? Hn Hd']; subst. destruct Hi as [->|Hi].
  - rewrite Nat.eqb_refl. rewrite (sumf_ext _ h); [ring|]. intros a Ha.
    destruct (Nat.eqb_spec (fst b) (fst a)) as [E|E]; [|reflexivity].
    exfalso. apply Hn. rewrite E. now apply in_map.
  - rewrite (IH Hd' Hi). destruct (Nat.eqb_spec (fst b) (fst a)) as [E|E]; [|ring].
    exfalso. apply Hn. rewrite <- E. now apply in_map.
Qed.

Lemma closed_value_trees m forest z : closed_value m forest z = sumf (fun ls => closed_tree m ls z) forest.
Proof. reflexivity. Qed.

Lemma energy_square ts m forest z fX : forallb (fun t => wf_tree t m) ts = true ->
  forest_leaves ts = Some forest -> off_boundary forest z ->
  (energy m fX forest z ==
   (closed_value m forest z - fX) * (closed_value m forest z - fX) - fX * fX)%Q.
Proof.
  intros Hwf Hf Hz. unfold energy. set (V := fun bt : nat * list leaf => closed_tree m (snd bt) z).
  assert (Hsum : (sumf V (indexed forest) == closed_value m forest z)%Q).
  { rewrite closed_value_trees. rewrite <- (indexed_snd forest) at 2. rewrite sumf_map. reflexivity. }
  transitivity (sumf (fun bt => V bt * closed_value m forest z - 2 * fX * V bt) (indexed forest))%Q.
  - apply sumf_ext. intros bt Hbt.
    rewrite (sum_replace (indexed forest) bt _ (fun lt => closed_tree m (snd bt) z * closed_tree m (snd lt) z)%Q).
    + assert (Hin : In (snd bt) forest) by (rewrite <- (indexed_snd forest); now apply in_map).
      destruct (one_closed_leaf ts m forest z (snd bt) Hwf Hf Hz Hin) as [lf0 H0].
      rewrite (H0 (fun lf => l_val lf * l_val lf - 2 * fX * l_val lf)%Q).
      assert (HV : (V bt == l_val lf0)%Q) by (unfold V, closed_tree; apply (H0 l_val)).
      rewrite (sumf_scal (closed_tree m (snd bt) z) (fun lt => closed_tree m (snd lt) z)).
      fold (V bt). change (sumf (fun lt : nat * list leaf => closed_tree m (snd lt) z) (indexed forest))
        with (sumf V (indexed forest)). rewrite Hsum, HV. ring.
    + rewrite indexed_fst. apply seq_NoDup.
    + exact Hbt.
  - rewrite sumf_minus, sumf_scal_r, sumf_scal, Hsum. ring.
Qed.

Lemma closed_value_prediction ts m forest z off r : forallb (fun t => wf_tree t m) ts = true ->
  forest_leaves ts = Some forest -> off_boundary forest z ->
  dense_tree_predict ts (length ts) off z no_missing = Some r ->
  (closed_value m forest z == r - off)%Q.
Proof.
  intros Hwf Hf Hz Hr. rewrite <- (forest_sum ts m forest z off r Hwf Hf Hr).
  unfold closed_value. apply sumf_ext. intros ls Hls. apply sumf_ext. intros lf Hlf.
  rewrite <- sat_cl_inside, (sat_cl_off forest z ls lf _ Hz Hls Hlf).
  change (sat_on (l_rect lf) (seq 0 m) z) with (in_rect m (l_rect lf) z).
  destruct (in_rect m (l_rect lf) z); cbn [Qb]; ring.
Qed.

(** matching rows of the regression version *)
Lemma reg_cat_counts S x fX tX (rows : list (pt * Q)) :
  let ms := filter (fun r => same_on S x (fst r)) rows in
  let near := fun r : pt * Q => qleb ((fX - snd r) * (fX - snd r)) tX in
  length (eq_rows S x (reg_rows fX tX rows)) = length ms /\
  (forall g : pt -> Q, (mean (fun r => g (fst r)) (up_rows (eq_rows S x (reg_rows fX tX rows)))
      == mean (fun r => g (fst r)) (filter (fun r => negb (near r)) ms))%Q) /\
  (forall g : pt -> Q, (mean (fun r => g (fst r)) (down_rows (eq_rows S x (reg_rows fX tX rows)))
      == mean (fun r => g (fst r)) (filter near ms))%Q) /\
  length (down_rows (eq_rows S x (reg_rows fX tX rows))) = length (filter near ms).
Proof.
  cbn zeta. set (near := fun r : pt * Q => qleb ((fX - snd r) * (fX - snd r)) tX).
  set (tag := fun r : pt * Q => (fst r, negb (near r))).
  assert (K : eq_rows S x (reg_rows fX tX rows) = map tag (filter (fun r => same_on S x (fst r)) rows)).
  { unfold eq_rows, reg_rows. induction rows as [|r rows IH]; [reflexivity|]. cbn [map filter fst].
    rewrite eq_on_same. destruct (same_on S x (fst r)); cbn [map]; rewrite ?IH; reflexivity. }
  rewrite K. set (ms := filter (fun r => same_on S x (fst r)) rows). clearbody ms. clear K.
  assert (U : up_rows (map tag ms) = map tag (filter (fun r => negb (near r)) ms)).
  { unfold up_rows. induction ms as [|r ms IH]; [reflexivity|]. cbn [map filter].
    change (snd (tag r)) with (negb (near r)).
    destruct (negb (near r)) eqn:E; cbn [map]; rewrite IH; reflexivity. }
  assert (D : down_rows (map tag ms) = map tag (filter near ms)).
  { unfold down_rows. clear U. induction ms as [|r ms IH]; [reflexivity|]. cbn [map filter].
    change (snd (tag r)) with (negb (near r)). rewrite negb_involutive.
    destruct (near r) eqn:E; cbn [map]; rewrite IH; reflexivity. }
  assert (M : forall (g : pt -> Q) l, (mean (fun r : pt * bool => g (fst r)) (map tag l) == mean (fun r => g (fst r)) l)%Q).
  { intros g l. destruct l as [|r l]; [reflexivity|]. unfold mean.
    change (map tag (r :: l)) with (tag r :: map tag l) at 1.
    cbn iota beta. rewrite map_length. rewrite sumf_map. reflexivity. }
  repeat split.
  - now rewrite map_length.
  - intro g. rewrite U. apply M.
  - intro g. rewrite D. apply M.
  - rewrite D, map_length. reflexivity.
Qed.

Lemma mean_gt {A} (f : A -> Q) l c : l <> [] -> (forall a, In a l -> (c < f a)%Q) -> (c < mean f l)%Q.
Proof.
  intros Hne H. assert (Hp : (0 < Qn (length l))%Q) by (apply Qn_pos; destruct l; [congruence|cbn; lia]).
  assert (E : mean f l = (sumf f l / Qn (length l))%Q) by (destruct l; [congruence|reflexivity]). rewrite E.
  apply Qlt_shift_div_l; [exact Hp|]. rewrite Qmult_comm, <- sumf_const. clear E Hp.
  destruct l as [|a l]; [congruence|]. cbn [sumf].
  assert (c < f a)%Q by (apply H; now left).
  assert (sumf (fun _ => c) l <= sumf f l)%Q; [|lra].
  apply sumf_le. intros b Hb. apply Qlt_le_weak. apply H. now right.
Qed.
Lemma mean_le {A} (f : A -> Q) l c : l <> [] -> (forall a, In a l -> (f a <= c)%Q) -> (mean f l <= c)%Q.
Proof.
  intros Hne H. assert (Hp : (0 < Qn (length l))%Q) by (apply Qn_pos; destruct l; [congruence|cbn; lia]).
  assert (E : mean f l = (sumf f l / Qn (length l))%Q) by (destruct l; [congruence|reflexivity]). rewrite E.
  apply Qle_shift_div_r; [exact Hp|]. rewrite Qmult_comm, <- sumf_const. now apply sumf_le.
Qed.

Lemma sdp_reg_cat_ratio m rows fX tX S forest x : (forall s, In s S -> s < m) ->
  let ms := filter (fun r => same_on S x (fst r)) rows in
  let near := fun r : pt * Q => qleb ((fX - snd r) * (fX - snd r)) tX in
  let e := fun r : pt * Q => energy m fX forest (fst r) in
  ((compute_sdp_reg_cat m rows fX tX S forest x == 0)%Q \/
   (ms <> [] /\ compute_sdp_reg_cat m rows fX tX S forest x == Qn (length (filter near ms)) / Qn (length ms))%Q) /\
  (ms <> [] -> ~ (mean e (filter (fun r => negb (near r)) ms) == mean e (filter near ms))%Q ->
   (compute_sdp_reg_cat m rows fX tX S forest x == Qn (length (filter near ms)) / Qn (length ms))%Q).
Proof.
  intros HS ms near e. unfold compute_sdp_reg_cat.
  destruct (reg_cat_counts S x fX tX rows) as [C1 [C2 [C3 C4]]].
  fold ms in C1, C2, C3, C4. fold near in C2, C3, C4.
  set (rs := eq_rows S x (reg_rows fX tX rows)) in *.
  assert (Hrs : forall r, In r rs -> same_on S x (fst r) = true) by (intros r; apply eq_rows_same).
  assert (A1 := reg_sum_mean m S x fX rs forest HS Hrs).
  assert (A2 := reg_sum_mean m S x fX (up_rows rs) forest HS (fun r H => Hrs r (up_rows_in rs r H))).
  assert (A3 := reg_sum_mean m S x fX (down_rows rs) forest HS (fun r H => Hrs r (down_rows_in rs r H))).
  cbn zeta. set (a := reg_sum m S x fX rs forest) in *. set (u := reg_sum m S x fX (up_rows rs) forest) in *.
  set (d := reg_sum m S x fX (down_rows rs) forest) in *.
  assert (Hmain : ms <> [] -> ~ (u == d)%Q -> (qdiv0 (u - a) (u - d) == Qn (length (filter near ms)) / Qn (length ms))%Q).
  { intros Hne Hud. assert (Hn : rs <> []).
    { intro E. rewrite E in C1. cbn in C1. apply Hne. destruct ms; [reflexivity|discriminate]. }
    rewrite (ratio_down (fun r => energy m fX forest (fst r)) rs a u d Hn A1 A2 A3 Hud). now rewrite C4, C1. }
  split.
  - destruct (qeqb_spec (u - d) 0) as [E|E].
    + left. unfold qdiv0. destruct (qeqb_spec (u - d) 0); [reflexivity|contradiction].
    + destruct ms as [|r0 l0] eqn:Em.
      * exfalso. apply E. destruct rs as [|r1 l1]; [|discriminate]. cbn in A2, A3. rewrite A2, A3. reflexivity.
      * right. split; [discriminate|]. apply Hmain; [discriminate|]. intro K. apply E. rewrite K. ring.
  - intros Hne Hud. apply Hmain; [exact Hne|].
    rewrite A2, A3, (C2 (energy m fX forest)), (C3 (energy m fX forest)). exact Hud.
Qed.

Lemma sdp_reg_cat_prob m rows fX tX S forest x : (forall s, In s S -> s < m) ->
  (0 <= compute_sdp_reg_cat m rows fX tX S forest x <= 1)%Q.
Proof.
  intro HS. destruct (sdp_reg_cat_ratio m rows fX tX S forest x HS) as [[E|[Hne E]] _]; rewrite E; [lra|].
  apply frac_bounds; [apply filter_length_le|].
  destruct (filter (fun r => same_on S x (fst r)) rows); [congruence|cbn; lia].
Qed.

Lemma sdp_reg_cat_exact m ts forest rows fX tX S x :
  forallb (fun t => wf_tree t m) ts = true -> forest_leaves ts = Some forest ->
  (forall s, In s S -> s < m) ->
  (forall r, In r rows -> off_boundary forest (fst r) /\
     dense_tree_predict ts (length ts) 0 (fst r) no_missing = Some (snd r)) ->
  let ms := filter (fun r => same_on S x (fst r)) rows in
  let near := fun r : pt * Q => qleb ((fX - snd r) * (fX - snd r)) tX in
  (exists r, In r ms /\ near r = true) -> (exists r, In r ms /\ near r = false) ->
  (compute_sdp_reg_cat m rows fX tX S forest x == Qn (length (filter near ms)) / Qn (length ms))%Q.
Proof.
  intros Hwf Hf HS Hrows ms near [r1 [Hr1 N1]] [r2 [Hr2 N2]].
  destruct (sdp_reg_cat_ratio m rows fX tX S forest x HS) as [_ H]. fold ms in H. cbn zeta in H. fold near in H.
  apply H; [intro E; rewrite E in Hr1; destruct Hr1|].
  assert (En : forall r, In r ms -> (energy m fX forest (fst r) == (fX - snd r) * (fX - snd r) - fX * fX)%Q).
  { intros r Hr. apply filter_In in Hr. destruct Hr as [Hr _]. destruct (Hrows r Hr) as [Hoff Hp].
    rewrite (energy_square ts m forest (fst r) fX Hwf Hf Hoff).
    rewrite (closed_value_prediction ts m forest (fst r) 0 (snd r) Hwf Hf Hoff Hp). ring. }
  assert (Hfar : (tX - fX * fX < mean (fun r : pt * Q => energy m fX forest (fst r)) (filter (fun r => negb (near r)) ms))%Q).
  { apply mean_gt.
    - intro E. assert (In r2 (filter (fun r => negb (near r)) ms)) by (apply filter_In; split; [trivial|now rewrite N2]).
      rewrite E in H0. destruct H0.
    - intros r Hr. apply filter_In in Hr. destruct Hr as [Hr Hn]. rewrite (En r Hr).
      apply negb_true_iff in Hn. unfold near in Hn. apply qleb_false in Hn. lra. }
  assert (Hnear : (mean (fun r : pt * Q => energy m fX forest (fst r)) (filter near ms) <= tX - fX * fX)%Q).
  { apply mean_le.
    - intro E. assert (In r1 (filter near ms)) by (apply filter_In; now split).
      rewrite E in H0. destruct H0.
    - intros r Hr. apply filter_In in Hr. destruct Hr as [Hr Hn]. rewrite (En r Hr).
      unfold near in Hn. apply qleb_true in Hn. lra. }
  intro K. apply (Qlt_not_eq _ _ (Qle_lt_trans _ _ _ Hnear Hfar)). symmetry. exact K.
Qed.

Lemma sdp_clf_cat_threshold m ts forest rows fX S x c (pr : pt -> Q) :
  forallb (fun t => wf_tree t m) ts = true -> forest_leaves ts = Some forest ->
  (forall s, In s S -> s < m) -> 0 < length S -> length S < m ->
  (forall r, In r rows -> off_boundary forest (fst r) /\
     dense_tree_predict ts (length ts) 0 (fst r) no_missing = Some (pr (fst r)) /\
     (snd r = fX <-> (c < pr (fst r))%Q)) ->
  let ms := filter (fun r => same_on S x (fst r)) rows in
  (exists r, In r ms /\ snd r = fX) -> (exists r, In r ms /\ snd r <> fX) ->
  (compute_sdp_clf_cat m rows fX S forest x ==
   Qn (length (filter (fun r => snd r =? fX) ms)) / Qn (length ms))%Q.
Proof.
  intros Hwf Hf HS H0 Hm Hrows ms [r1 [Hr1 N1]] [r2 [Hr2 N2]].
  apply sdp_clf_cat_exact; trivial; fold ms.
  - intro E. rewrite E in Hr1. destruct Hr1.
  - assert (Ev : forall r, In r ms -> (closed_value m forest (fst r) == pr (fst r))%Q).
    { intros r Hr. apply filter_In in Hr. destruct Hr as [Hr _]. destruct (Hrows r Hr) as [Hoff [Hp _]].
      rewrite (closed_value_prediction ts m forest (fst r) 0 _ Hwf Hf Hoff Hp). ring. }
    assert (U : (c < mean (fun r => closed_value m forest (fst r)) (filter (fun r => snd r =? fX) ms))%Q).
    { apply mean_gt.
      - intro E. assert (K : In r1 (filter (fun r => snd r =? fX) ms))
          by (apply filter_In; split; [trivial|now apply Nat.eqb_eq]). rewrite E in K. destruct K.
      - intros r Hr. apply filter_In in Hr. destruct Hr as [Hr Hn]. rewrite (Ev r Hr).
        apply Nat.eqb_eq in Hn. apply filter_In in Hr. destruct Hr as [Hr _]. now apply (Hrows r Hr). }
    assert (D : (mean (fun r => closed_value m forest (fst r)) (filter (fun r => negb (snd r =? fX)) ms) <= c)%Q).
    { apply mean_le.
      - intro E. assert (K : In r2 (filter (fun r => negb (snd r =? fX)) ms))
          by (apply filter_In; split; [trivial|apply negb_true_iff; now apply Nat.eqb_neq]). rewrite E in K. destruct K.
      - intros r Hr. apply filter_In in Hr. destruct Hr as [Hr Hn]. rewrite (Ev r Hr).
        apply negb_true_iff, Nat.eqb_neq in Hn. apply filter_In in Hr. destruct Hr as [Hr _].
        destruct (Hrows r Hr) as [_ [_ Hiff]]. apply Qnot_lt_le. intro K. apply Hn. now apply Hiff. }
    intro K. lra.
Qed.

(** boolean check of [off_boundary], used by the examples *)
Definition off_check (m : nat) (forest : list (list leaf)) (z : pt) : bool :=
  forallb (fun ls => forallb (fun lf => forallb (fun s =>
    match fst (l_rect lf s) with Fin q => negb (qeqb (z s) q) | _ => true end) (seq 0 m)) ls) forest.
Lemma off_check_ok m forest z : forest_ok m forest -> off_check m forest z = true -> off_boundary forest z.
Proof.
  intros Hok H ls lf s q Hls Hlf E. unfold off_check in H. rewrite forallb_forall in H. specialize (H ls Hls).
  rewrite forallb_forall in H. specialize (H lf Hlf). rewrite forallb_forall in H.
  destruct (Hok ls lf Hls Hlf) as [_ [Hv Hout]].
  destruct (in_dec Nat.eq_dec s (l_vars lf)) as [Hi|Hi].
  - specialize (H s). rewrite E in H. intro K.
    assert (In s (seq 0 m)) by (apply in_seq; specialize (Hv s Hi); lia).
    specialize (H H0). destruct (qeqb_spec (z s) q); [discriminate|contradiction].
  - rewrite (Hout s Hi) in E. discriminate.
Qed.

Lemma py_exp_empty_raises m data forest x ls :
  In ls forest -> ls <> [] -> py_compute_exp m data [] forest x = None.
Proof.
  intros Hls Hne. unfold py_compute_exp.
  destruct (forallb (fun ls => length ls =? 0) forest) eqn:E; [|reflexivity].
  rewrite forallb_forall in E. specialize (E ls Hls). apply Nat.eqb_eq in E. destruct ls; [congruence|discriminate].
Qed.

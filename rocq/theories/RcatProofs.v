(** Proofs about the regression methods of an [ACVTree], from its trees. *)
From Verif Require Import Base TreeModel TreeSpec GameSpec ShapModel FlatModel FlatSpec FlatProofs SdpModel SdpSpec SdpProofs RegModel
  SearchModel SearchSpec SearchProofs ExplSpec ArrModel ArrSpec EntryModel EntrySpec EntryProofs EntryProofs2 EntryProofs3
  ImpModel ImpSpec ImpProofs2 RcatModel RcatSpec.
Local Open Scope nat_scope.

Lemma point_eta rs i : (fun s : nat => nth s (nth i rs []) 0%Q) = point (nth i rs []).
Proof. reflexivity. Qed.
Lemma concat_single {A B} (f : B -> A) l : concat (map (fun i => [f i]) l) = map f l.
Proof. induction l as [|a l IH]; [reflexivity|]. cbn. now rewrite IH. Qed.
Lemma Forall2_nth {A B} (R : A -> B -> Prop) l l' : length l = length l' ->
  (forall i a b, nth_error l i = Some a -> nth_error l' i = Some b -> R a b) -> Forall2 R l l'.
Proof.
  revert l'. induction l as [|a l IH]; intros [|b l'] E H; try discriminate E; constructor.
  - exact (H 0 a b eq_refl eq_refl).
  - apply IH; [now injection E|]. intros i u v Hu Hv. exact (H (S i) u v Hu Hv).
Qed.
Lemma nth_error_combine {A B} (l : list A) (l' : list B) i a b : nth_error l i = Some a -> nth_error l' i = Some b ->
  nth_error (combine l l') i = Some (a, b).
Proof.
  revert l' i. induction l as [|u l IH]; intros l' [|i] Ha Hb; try discriminate Ha; destruct l' as [|v l']; try discriminate Hb; cbn in *; [congruence|].
  now apply IH.
Qed.

(** ** Energies do not see the features above the leaves *)
Lemma indexed_map {A B} (f : A -> B) l : indexed (map f l) = map (fun p => (fst p, f (snd p))) (indexed l).
Proof.
  unfold indexed. rewrite map_length. generalize 0. induction l as [|a l IH]; intro n; [reflexivity|]. cbn [length seq map combine fst snd].
  now rewrite IH.
Qed.
Definition erase (lf : leaf) : leaf := mkLeaf (l_rect lf) [] (l_val lf).
Lemma energy_erase m fX F z : (energy m fX (map (map erase) F) z == energy m fX F z)%Q.
Proof.
  unfold energy. rewrite indexed_map, sumf_map. apply sumf_ext. intros bt _. rewrite sumf_map. apply sumf_ext. intros lt _. cbn [fst snd].
  destruct (fst bt =? fst lt).
  - rewrite sumf_map. reflexivity.
  - unfold closed_tree. rewrite !sumf_map. reflexivity.
Qed.
Lemma reg_leaves_erase T vs : reg_leaves T = map (map erase) (forest_at T vs 0).
Proof. unfold reg_leaves, forest_at. rewrite map_map. apply map_ext. intro b. rewrite map_map. reflexivity. Qed.

(** equal means beyond and within the tolerance: the value is 0 *)
Lemma sdp_reg_cat_flat m rows fX tX S forest x : (forall s, In s S -> s < m) ->
  let ms := filter (fun r => same_on S x (fst r)) rows in
  let near := fun r : pt * Q => qleb ((fX - snd r) * (fX - snd r)) tX in
  let e := fun r : pt * Q => energy m fX forest (fst r) in
  (mean e (filter (fun r => negb (near r)) ms) == mean e (filter near ms))%Q ->
  (compute_sdp_reg_cat m rows fX tX S forest x == 0)%Q.
Proof.
  intros HS ms near e K. unfold compute_sdp_reg_cat.
  destruct (reg_cat_counts S x fX tX rows) as [C1 [C2 [C3 C4]]].
  fold ms in C1, C2, C3, C4. fold near in C2, C3, C4.
  set (rs := eq_rows S x (reg_rows fX tX rows)) in *.
  assert (Hrs : forall r, In r rs -> same_on S x (fst r) = true) by (intros r; apply eq_rows_same).
  assert (A2 := reg_sum_mean m S x fX (up_rows rs) forest HS (fun r H => Hrs r (up_rows_in rs r H))).
  assert (A3 := reg_sum_mean m S x fX (down_rows rs) forest HS (fun r H => Hrs r (down_rows_in rs r H))).
  cbn zeta. unfold qdiv0. match goal with |- context [if ?b then _ else _] => destruct b eqn:E end; [reflexivity|]. exfalso.
  assert (N : forall u v : Q, (u == v)%Q -> qeqb (u - v) 0 = true).
  { intros u v H. destruct (qeqb_spec (u - v) 0) as [|G]; [reflexivity|]. exfalso. apply G. rewrite H. ring. }
  rewrite N in E; [discriminate|]. rewrite A2, A3, (C2 (energy m fX forest)), (C3 (energy m fX forest)). exact K.
Qed.

Section Object.
Variables (sig : Q -> Q) (ts : list mtree) (boosted : bool) (b : offset) (d : nat) (o : reg_acv).
Hypothesis HR : regressor sig ts boosted b d o.
Notation a := (r_acv o).

Lemma r_ok : ensemble_ok ts 1 d 1 1. Proof. apply HR. Qed.
Lemma r_wf : forall m, In m ts -> well_formed d 1 m. Proof. exact (proj1 (proj2 r_ok)). Qed.
Lemma r_form : construct sig ts 1 boosted d = Some a /\ r_trees o = ts /\ r_stacked o = 1 /\ r_offset o = b.
Proof.
  destruct HR as (_ & _ & _ & E). unfold construct_reg in E. destruct (construct sig ts 1 boosted d) as [a'|]; [|discriminate].
  destruct (_ =? _); [|discriminate]. injection E as <-. repeat split; reflexivity.
Qed.
Lemma r_built : a = built sig ts 1 boosted d 1.
Proof. exact (a_form sig ts 1 boosted d 1 1 a r_ok (proj1 r_form)). Qed.
Lemma r_out : o_out a = 1. Proof. rewrite r_built. reflexivity. Qed.
Lemma r_cols : o_cols a = d. Proof. rewrite r_built. reflexivity. Qed.

(** ** Predictions *)
Lemma predicts_adds z v : predicts ts b z v -> adds_up (raw_share 1) ts 0 z (v - offset_of b 0)%Q.
Proof.
  intros (rs & H & E). exists rs. split; [exact H|]. rewrite E.
  transitivity (sumf (fun r => nth 0 r 0%Q) rs); [lra|]. symmetry. exact (map_nth_sum (fun r => nth 0 r 0%Q) rs).
Qed.
Lemma predicts_unique z v v' : predicts ts b z v -> predicts ts b z v' -> (v == v')%Q.
Proof.
  intros H H'. pose proof (adds_up_unique _ ts d 1 0 z _ _ r_wf (predicts_adds z v H) (predicts_adds z v' H')). lra.
Qed.
Lemma predict_rows_ok c rs : d <= c -> exists ys, predict_rows o c rs = Returned (map (fun y => [y]) ys) /\ Forall2 (predicts ts b) rs ys.
Proof.
  intro Hc. destruct r_form as (_ & E1 & E2 & E3). destruct HR as ((Hne & Hwf & _) & Hb & Hf & _).
  destruct (predict_plain ts 1 d b (-1)%Z (length ts) (length rs) c (fun i s => nth s (nth i rs []) 0%Q) (fun _ _ => false) (max_nodes ts))
    as (out & E & _ & H); [exact Hne|lia|exact Hwf|exact Hc|exact Hb|exact Hf|exact (max_nodes_ge ts)|right; cbn; lia|].
  exists (map (fun i => get out (Z.of_nat i)) (seq 0 (length rs))). split.
  - unfold predict_rows. rewrite E1, E2, E3, E, r_out. f_equal. rewrite map_map. apply map_ext. intro i. cbn [seq map]. now rewrite Nat.mul_1_r, Nat.add_0_r.
  - apply Forall2_nth; [now rewrite map_length, seq_length|]. intros i r y Hr Hy.
    assert (Hi : i < length rs) by (apply nth_error_Some; congruence).
    rewrite nth_error_map, nth_error_seq in Hy. replace (i <? length rs) with true in Hy by (symmetry; now apply Nat.ltb_lt).
    cbn [option_map Nat.add] in Hy. injection Hy as <-. destruct (H i 0 Hi ltac:(lia)) as (rr & Hg & Ev). exists rr. split.
    + rewrite firstn_all in Hg. rewrite point_eta, (nth_error_nth _ _ [] Hr) in Hg. exact Hg.
    + rewrite <- Ev. replace (Z.of_nat i * Z.of_nat 1 + Z.of_nat 0)%Z with (Z.of_nat i) by lia. reflexivity.
Qed.
Lemma predict_ok X c rs : has_shape X c rs -> d <= c -> exists ys, predict o X = Returned (P_vector ys) /\ Forall2 (predicts ts b) rs ys.
Proof.
  intros HX Hc. destruct (predict_rows_ok c rs Hc) as (ys & E & H). exists ys. split; [|exact H].
  destruct HX as [-> |(dt & ->)]; cbn [predict]; rewrite E; cbn [andthen]; rewrite r_out; cbn [Nat.eqb];
    rewrite (concat_single (fun y => y)), map_id; reflexivity.
Qed.

(** ** The calls *)
Variables (X : marg) (xs zs : list (list Q)) (c : nat).
Hypothesis HX : has_shape X d xs.
Hypothesis Hc : d <= c.
Lemma buffer_X : buffer2 (as_float X) = Returned (mkMat d xs).
Proof. destruct HX as [-> |(dt & ->)]; reflexivity. Qed.
Lemma points_xs rs cc : points (mkMat cc rs) = map point rs.
Proof. reflexivity. Qed.
Lemma call_form run Sv : (forall s, In s Sv -> s < d) -> exists fX ys, Forall2 (predicts ts b) xs fX /\ Forall2 (predicts ts b) zs ys /\
  reg_call o run X (S_array I64 Sv) (M_array F64 c zs)
  = Returned (run d (reg_leaves (o_tabs a)) (combine (map point zs) ys) Sv (combine (map point xs) fX)).
Proof.
  intro HS. destruct (predict_ok X d xs HX (Nat.le_refl d)) as (fX & E1 & F1).
  destruct (predict_ok (M_array F64 c zs) c zs (or_intror (ex_intro _ F64 eq_refl)) Hc) as (ys & E2 & F2).
  exists fX, ys. split; [exact F1|]. split; [exact F2|]. unfold reg_call. rewrite E1, E2. cbn [andthen]. rewrite buffer_X. cbn [andthen buffer_y buffer1 same_dtype].
  cbn [buffer2 same_dtype andthen cols]. unfold wide_enough. cbn [cols]. rewrite r_cols, (proj2 (Nat.leb_le _ _) Hc), Nat.leb_refl. cbn [andb].
  replace (forallb (fun c0 => c0 <? d) Sv) with true; [reflexivity|]. symmetry. apply forallb_forall. intros s Hs. apply Nat.ltb_lt. auto.
Qed.

(** ** Values *)
Lemma energy_value fX z v : off_thresholds ts z -> predicts ts b z v ->
  (energy d fX (reg_leaves (o_tabs a)) (point z) == (v - offset_of b 0 - fX) * (v - offset_of b 0 - fX) - fX * fX)%Q.
Proof.
  intros Hz Hv. rewrite (reg_leaves_erase _ (vars ts)), energy_erase.
  pose proof (a_forest sig ts 1 boosted d 1 1 a r_ok (proj1 r_form) 0) as Hf. rewrite r_built in Hf |- *. cbn [o_tabs built] in Hf |- *.
  pose proof (shared_all_wf ts d 1 r_wf (raw_share 1) 0) as Hw.
  rewrite (energy_square _ d _ (point z) fX Hw Hf); [|eapply off_thresholds_boundary; [exact r_wf|exact Hf|exact Hz]].
  rewrite (closed_off (raw_share 1) ts d 1 _ _ 0 z _ r_wf Hf Hz (predicts_adds z v Hv)). reflexivity.
Qed.
Lemma qleb_eq u u' v : (u == u')%Q -> qleb u v = qleb u' v.
Proof. intro E. destruct (qleb_spec u v) as [K|K]; destruct (qleb_spec u' v) as [K'|K']; try reflexivity; exfalso; lra. Qed.
Variables (f : list Q -> Q) (tX : Q).

Lemma rows_filter (P : pt * Q -> bool) (P' : list Q -> bool) rs ys : Forall2 (predicts ts b) rs ys ->
  (forall z y, In z rs -> predicts ts b z y -> P (point z, y) = P' z) ->
  exists ys', filter P (combine (map point rs) ys) = combine (map point (filter P' rs)) ys' /\ Forall2 (predicts ts b) (filter P' rs) ys'.
Proof.
  induction 1 as [|z y rs ys Hzy _ IH]; intro HP; [exists []; split; [reflexivity|constructor]|].
  destruct IH as (ys' & E & F); [intros; apply HP; [now right|assumption]|]. cbn [map combine filter]. rewrite (HP z y (or_introl eq_refl) Hzy).
  destruct (P' z); [exists (y :: ys')|exists ys']; cbn [map combine filter]; rewrite E; split; try reflexivity; [now constructor|exact F].
Qed.
Lemma rows_length rs ys : Forall2 (predicts ts b) rs ys -> length (combine (map point rs) ys) = length rs.
Proof. clear Hc HX. intro H. rewrite combine_length, map_length. assert (L : length rs = length ys) by (clear - H; induction H; cbn; congruence). lia. Qed.
Lemma mean_energy fX rs ys : (forall z, In z rs -> off_thresholds ts z) -> (forall z, In z rs -> predicts ts b z (f z)) -> Forall2 (predicts ts b) rs ys ->
  forall x, (fX == f x)%Q ->
  (mean (fun r : pt * Q => energy d fX (reg_leaves (o_tabs a)) (fst r)) (combine (map point rs) ys) == mean (excess f (offset_of b 0) x) rs)%Q.
Proof.
  intros Hoff Hp H x Ex.
  assert (Es : (sumf (fun r : pt * Q => energy d fX (reg_leaves (o_tabs a)) (fst r)) (combine (map point rs) ys) == sumf (excess f (offset_of b 0) x) rs)%Q).
  { clear - HR Hoff Hp H Ex. induction H as [|z y rs ys Hzy _ IH]; [reflexivity|]. cbn [map combine sumf fst].
    rewrite IH by (intros; first [apply Hoff|apply Hp]; now right).
    rewrite (energy_value fX z (f z)); [|apply Hoff; now left|apply Hp; now left]. unfold excess. rewrite Ex. reflexivity. }
  pose proof (rows_length rs ys H) as El. unfold mean. destruct H as [|z y rs ys Hzy H]; [reflexivity|]. cbn [map combine] in *. cbv iota.
  rewrite El, Es. reflexivity.
Qed.

Section One.
Variables (Sv : list nat) (ys : list Q) (x : list Q) (fx : Q).
Hypothesis HS : forall s, In s Sv -> s < d.
Hypothesis Hp : forall z, In z zs -> predicts ts b z (f z).
Hypothesis Hys : Forall2 (predicts ts b) zs ys.
Hypothesis Hx : (fx == f x)%Q.
Notation value := (compute_sdp_reg_cat d (combine (map point zs) ys) fx tX Sv (reg_leaves (o_tabs a)) (point x)).
Notation ms := (matching Sv x zs).

Lemma matching_in z : In z ms -> In z zs.
Proof. intro H. apply filter_In in H. exact (proj1 H). Qed.
Lemma matched : exists yms, filter (fun r => same_on Sv (point x) (fst r)) (combine (map point zs) ys) = combine (map point ms) yms /\ Forall2 (predicts ts b) ms yms.
Proof. apply (rows_filter _ (fun z => same_on Sv (point x) (point z)) zs ys Hys). reflexivity. Qed.
Lemma near_close z y : In z ms -> predicts ts b z y -> qleb ((fx - y) * (fx - y)) tX = close f tX x z.
Proof.
  intros Hz Hy. unfold close. apply qleb_eq. pose proof (predicts_unique z y (f z) Hy (Hp z (matching_in z Hz))) as E. rewrite E, Hx. reflexivity.
Qed.
Lemma value_cases :
  ((value == 0)%Q \/ (ms <> [] /\ (value == frequency (close f tX x) ms)%Q)) /\
  ((forall z, In z zs -> off_thresholds ts z) -> ms <> [] ->
     ~ (mean (excess f (offset_of b 0) x) (filter (fun z => negb (close f tX x z)) ms) == mean (excess f (offset_of b 0) x) (filter (close f tX x) ms))%Q ->
     (value == frequency (close f tX x) ms)%Q) /\
  ((forall z, In z zs -> off_thresholds ts z) ->
     (mean (excess f (offset_of b 0) x) (filter (fun z => negb (close f tX x z)) ms) == mean (excess f (offset_of b 0) x) (filter (close f tX x) ms))%Q ->
     (value == 0)%Q).
Proof.
  destruct (sdp_reg_cat_ratio d (combine (map point zs) ys) fx tX Sv (reg_leaves (o_tabs a)) (point x) HS) as [C1 C2]. cbv zeta in C1, C2.
  pose proof (sdp_reg_cat_flat d (combine (map point zs) ys) fx tX Sv (reg_leaves (o_tabs a)) (point x) HS) as C3. cbv zeta in C3.
  destruct matched as (yms & Em & Fm). rewrite Em in C1, C2, C3.
  destruct (rows_filter (fun r => qleb ((fx - snd r) * (fx - snd r)) tX) (close f tX x) ms yms Fm near_close) as (yn & En & Fn).
  destruct (rows_filter (fun r => negb (qleb ((fx - snd r) * (fx - snd r)) tX)) (fun z => negb (close f tX x z)) ms yms Fm) as (yf & Ef & Ff).
  { intros z y Hz Hy. cbn [snd]. f_equal. now apply near_close. }
  rewrite En in C1, C2, C3. rewrite Ef in C2, C3. rewrite (rows_length _ _ Fn), (rows_length _ _ Fm) in C1, C2.
  assert (Hne : combine (map point ms) yms <> [] <-> ms <> []).
  { pose proof (rows_length _ _ Fm) as L. split; intros K E; apply K; [rewrite E in L|rewrite E in L]; destruct ms, (combine (map point ms) yms); cbn in *; congruence || (destruct yms; cbn in *; congruence). }
  assert (Mf : (forall z, In z zs -> off_thresholds ts z) ->
    (mean (fun r : pt * Q => energy d fx (reg_leaves (o_tabs a)) (fst r)) (combine (map point (filter (fun z => negb (close f tX x z)) ms)) yf)
     == mean (excess f (offset_of b 0) x) (filter (fun z => negb (close f tX x z)) ms))%Q).
  { intro Hoff. apply mean_energy; [intros z Hz; apply filter_In in Hz; apply Hoff, matching_in, Hz|intros z Hz; apply filter_In in Hz; apply Hp, matching_in, Hz|exact Ff|exact Hx]. }
  assert (Mn : (forall z, In z zs -> off_thresholds ts z) ->
    (mean (fun r : pt * Q => energy d fx (reg_leaves (o_tabs a)) (fst r)) (combine (map point (filter (close f tX x) ms)) yn)
     == mean (excess f (offset_of b 0) x) (filter (close f tX x) ms))%Q).
  { intro Hoff. apply mean_energy; [intros z Hz; apply filter_In in Hz; apply Hoff, matching_in, Hz|intros z Hz; apply filter_In in Hz; apply Hp, matching_in, Hz|exact Fn|exact Hx]. }
  split; [|split].
  - destruct C1 as [C1|[N C1]]; [now left|right]. split; [now apply Hne|exact C1].
  - intros Hoff N D. apply C2; [now apply Hne|]. intro K. apply D. now rewrite <- (Mf Hoff), <- (Mn Hoff).
  - intros Hoff D. apply C3. now rewrite (Mf Hoff), (Mn Hoff).
Qed.
End One.
End Object.

(** Proofs about the regression methods of an [ACVTree]: the values returned and the search. *)
From Verif Require Import Base TreeModel TreeSpec GameSpec ShapModel ShapSpec FlatModel FlatSpec FlatProofs SdpModel SdpSpec SdpProofs RegModel
  SearchModel SearchSpec SearchProofs ExplSpec ArrModel ArrSpec EntryModel EntrySpec EntryProofs EntryProofs2 EntryProofs3
  ImpModel ImpSpec ImpProofs2 RcatModel RcatSpec RcatProofs.
Local Open Scope nat_scope.

Lemma Forall2_at {A B} (R : A -> B -> Prop) l l' i a : Forall2 R l l' -> nth_error l i = Some a -> exists b, nth_error l' i = Some b /\ R a b.
Proof.
  intro H. revert i. induction H as [|u v l l' Huv _ IH]; intros [|i] Ha; try discriminate Ha; cbn in *; [|now apply IH].
  injection Ha as <-. now exists v.
Qed.
Lemma F2_length {A B} (R : A -> B -> Prop) l l' : Forall2 R l l' -> length l = length l'.
Proof. induction 1; cbn; congruence. Qed.

Section Cat.
Variables (sig : Q -> Q) (ts : list mtree) (boosted : bool) (b : offset) (d : nat) (o : reg_acv).
Hypothesis HR : regressor sig ts boosted b d o.
Variables (X : marg) (xs zs : list (list Q)) (c : nat).
Hypothesis HX : has_shape X d xs.
Hypothesis Hc : d <= c.
Notation a := (r_acv o).
Notation F := (reg_leaves (o_tabs a)).

Section Values.
Variables (Sv : list nat) (tX : Q).
Hypothesis HS : forall s, In s Sv -> s < d.
Notation call := (acv_reg_cat o tX X (S_array I64 Sv) (M_array F64 c zs)).
Lemma cat_each (P : list Q -> Q -> Prop) :
  (forall x fx ys, In x xs -> predicts ts b x fx -> Forall2 (predicts ts b) zs ys ->
     P x (compute_sdp_reg_cat d (combine (map point zs) ys) fx tX Sv F (point x))) -> one_each call xs P.
Proof.
  intro H. destruct (call_form sig ts boosted b d o HR X xs zs c HX Hc
    (fun m F rws S obs => map (fun xf => compute_sdp_reg_cat m rws (snd xf) tX S F (fst xf)) obs) Sv HS) as (fX & ys & F1 & F2 & E).
  eexists. split; [exact E|]. pose proof (F2_length _ _ _ F1) as L. split; [rewrite map_length, combine_length, map_length; lia|].
  intros i x v Hx Hv. destruct (Forall2_at _ _ _ _ _ F1 Hx) as (fx & Hf & Pf).
  rewrite nth_error_map, (nth_error_combine _ _ i (point x) fx (point_at _ _ _ Hx) Hf) in Hv. cbn [option_map fst snd] in Hv. injection Hv as <-.
  apply H; [eapply nth_error_In; exact Hx|exact Pf|exact F2].
Qed.
Lemma cat_probability : one_each call xs (fun _ v => (0 <= v <= 1)%Q).
Proof. apply cat_each. intros. now apply sdp_reg_cat_prob. Qed.
Lemma cat_no_match : one_each call xs (fun x v => matching Sv x zs = [] -> (v == 0)%Q).
Proof.
  apply cat_each. intros x fx ys _ Px Hys E. apply sdp_reg_cat_flat; [exact HS|].
  destruct (matched ts b zs Sv ys x Hys) as (yms & -> & Fm). rewrite E in *. inversion Fm; subst. reflexivity.
Qed.
Variable f : list Q -> Q.
Hypothesis Hf : forall z, In z (xs ++ zs) -> predicts ts b z (f z).
Lemma cat_cases : one_each call xs (fun x v =>
  ((v == 0)%Q \/ (matching Sv x zs <> [] /\ (v == frequency (close f tX x) (matching Sv x zs))%Q)) /\
  ((forall z, In z zs -> off_thresholds ts z) -> matching Sv x zs <> [] ->
     ~ (mean (excess f (offset_of b 0) x) (filter (fun z => negb (close f tX x z)) (matching Sv x zs)) == mean (excess f (offset_of b 0) x) (filter (close f tX x) (matching Sv x zs)))%Q ->
     (v == frequency (close f tX x) (matching Sv x zs))%Q) /\
  ((forall z, In z zs -> off_thresholds ts z) ->
     (mean (excess f (offset_of b 0) x) (filter (fun z => negb (close f tX x z)) (matching Sv x zs)) == mean (excess f (offset_of b 0) x) (filter (close f tX x) (matching Sv x zs)))%Q ->
     (v == 0)%Q)).
Proof.
  apply cat_each. intros x fx ys Hx Px Hys. apply (value_cases sig ts boosted b d o HR); auto.
  - intros z Hz. apply Hf. apply in_or_app. now right.
  - apply (predicts_unique sig ts boosted b d o HR x fx (f x)); [exact Px|]. apply Hf. apply in_or_app. now left.
Qed.
Lemma one_each_imp out (P P' : list Q -> Q -> Prop) : (forall x v, In x xs -> P x v -> P' x v) -> one_each out xs P -> one_each out xs P'.
Proof.
  intros H (res & E & L & K). exists res. split; [exact E|]. split; [exact L|]. intros i x v Hx Hv. apply H; [eapply nth_error_In; exact Hx|]. eapply K; eassumption.
Qed.
Lemma filter_none {A} (P : A -> bool) l : (forall x, In x l -> P x = false) -> filter P l = [].
Proof. induction l as [|u l IH]; intro H; [reflexivity|]. cbn. rewrite (H u (or_introl eq_refl)). apply IH. intros; apply H; now right. Qed.
Lemma filter_every {A} (P : A -> bool) l : (forall x, In x l -> P x = true) -> filter P l = l.
Proof. induction l as [|u l IH]; intro H; [reflexivity|]. cbn. rewrite (H u (or_introl eq_refl)). f_equal. apply IH. intros; apply H; now right. Qed.
(** no matching row within the tolerance *)
Lemma cat_none : one_each call xs (fun x v => (forall z, In z (matching Sv x zs) -> close f tX x z = false) -> (v == 0)%Q).
Proof.
  eapply one_each_imp; [|exact cat_cases]. cbv beta. intros x v _ (H & _ & _) Hn. destruct H as [H|[Hne H]]; [exact H|]. rewrite H.
  unfold frequency. rewrite (filter_none _ _ Hn). cbn [length]. unfold Qdiv. change (Qn 0) with 0%Q. ring.
Qed.
(** both kinds of rows, no offset *)
Lemma cat_share : (offset_of b 0 == 0)%Q -> (forall z, In z zs -> off_thresholds ts z) -> one_each call xs (fun x v =>
  (exists z, In z (matching Sv x zs) /\ close f tX x z = true) -> (exists z, In z (matching Sv x zs) /\ close f tX x z = false) ->
  (v == frequency (close f tX x) (matching Sv x zs))%Q).
Proof.
  intros Hb Hoff. eapply one_each_imp; [|exact cat_cases]. cbv beta. intros x v _ (_ & H & _) (z1 & I1 & N1) (z2 & I2 & N2).
  set (ms := matching Sv x zs) in *. apply (H Hoff); [intro E; rewrite E in I1; destruct I1|].
  assert (G1 : (tX - f x * f x < mean (excess f (offset_of b 0) x) (filter (fun z => negb (close f tX x z)) ms))%Q).
  { apply mean_gt.
    - intro E. assert (K : In z2 []) by (rewrite <- E; apply filter_In; rewrite N2; now split). destruct K.
    - intros z Hz. apply filter_In in Hz. destruct Hz as [_ Hz]. unfold close in Hz. unfold excess.
      destruct (qleb_spec ((f x - f z) * (f x - f z)) tX) as [K|K]; [discriminate|]. rewrite Hb. 
      assert (E : ((f z - 0 - f x) * (f z - 0 - f x) == (f x - f z) * (f x - f z))%Q) by ring. rewrite E. lra. }
  assert (G2 : (mean (excess f (offset_of b 0) x) (filter (close f tX x) ms) <= tX - f x * f x)%Q).
  { apply mean_le.
    - intro E. assert (K : In z1 []) by (rewrite <- E; apply filter_In; rewrite N1; now split). destruct K.
    - intros z Hz. apply filter_In in Hz. destruct Hz as [_ Hz]. unfold close in Hz. unfold excess.
      destruct (qleb_spec ((f x - f z) * (f x - f z)) tX) as [K|K]; [|discriminate]. rewrite Hb.
      assert (E : ((f z - 0 - f x) * (f z - 0 - f x) == (f x - f z) * (f x - f z))%Q) by ring. rewrite E. lra. }
  intro K. lra.
Qed.
(** all rows within the tolerance *)
Lemma cat_all : (forall z, In z zs -> off_thresholds ts z) -> one_each call xs (fun x v =>
  matching Sv x zs <> [] -> (forall z, In z (matching Sv x zs) -> close f tX x z = true) ->
  (v == if qeqb (mean (excess f (offset_of b 0) x) (matching Sv x zs)) 0 then 0 else 1)%Q).
Proof.
  intros Hoff. eapply one_each_imp; [|exact cat_cases]. cbv beta. intros x v _ (_ & H1 & H2) Hne Ha.
  specialize (H1 Hoff Hne). specialize (H2 Hoff). rewrite (filter_every _ _ Ha) in H1, H2.
  rewrite (filter_none (fun z => negb (close f tX x z))) in H1, H2 by (intros z Hz; now rewrite (Ha z Hz)). cbn [mean] in H1, H2.
  destruct (qeqb_spec (mean (excess f (offset_of b 0) x) (matching Sv x zs)) 0) as [E|E].
  - apply H2. now rewrite E.
  - rewrite H1 by (intro K; apply E; now rewrite <- K). unfold frequency. rewrite (filter_every _ _ Ha). unfold Qdiv. apply Qmult_inv_r.
    assert (0 < Qn (length (matching Sv x zs)))%Q by (apply Qn_pos; destruct (matching Sv x zs); [congruence|cbn; lia]). lra.
Qed.
End Values.

(** ** The search *)
Variables (C : list (list nat)) (tX pi : Q) (minimal : nat) (stop : bool).
Hypothesis HC : coal_ok C d.
Hypothesis HCne : C <> [].
Hypothesis Hxs : xs <> [].
Notation va := (tree_groups C d).
Notation data := (M_array F64 c zs).
Hypothesis H15 : length va <= 15.
Hypothesis Hpi : (0 < pi)%Q.
Hypothesis Hpi1 : (pi <= 1)%Q.

Lemma va_ok : groups_ok d va.
Proof.
  destruct HC as (H1 & H2 & H3). apply tree_groups_ok; [exact H1|exact H2|]. intros Hh. destruct H3 as [-> |H3]; [discriminate|exact H3].
Qed.
Definition est (fX ys : list Q) (k : nat) (S : list nat) : Q :=
  let xf := nth k (combine (map point xs) fX) (fun _ => 0%Q, 0%Q) in
  compute_sdp_reg_cat d (combine (map point zs) ys) (snd xf) tX S F (fst xf).
Lemma explain_form : exists fX ys st, Forall2 (predicts ts b) xs fX /\ Forall2 (predicts ts b) zs ys /\
  predict o X = Returned (P_vector fX) /\ predict o data = Returned (P_vector ys) /\
  search v_tree d pi (est fX ys) cut15 stop (length xs) va minimal = Some st /\
  acv_reg_explain o X tX data C pi minimal stop = Returned (collect d (length xs) st).
Proof.
  destruct (predict_ok sig ts boosted b d o HR X d xs HX (Nat.le_refl d)) as (fX & E1 & F1).
  destruct (predict_ok sig ts boosted b d o HR data c zs (or_intror (ex_intro _ F64 eq_refl)) Hc) as (ys & E2 & F2).
  destruct (search v_tree d pi (est fX ys) cut15 stop (length xs) va minimal) as [st|] eqn:Es; [|exfalso; exact (search_some _ _ _ _ _ _ _ _ H15 Es)].
  exists fX, ys, st. split; [exact F1|]. split; [exact F2|]. split; [exact E1|]. split; [exact E2|]. split; [exact Es|].
  unfold acv_reg_explain. rewrite E1, E2. cbn [andthen]. rewrite (buffer_X d X xs HX). cbn [andthen buffer_y]. cbn [buffer2 same_dtype andthen].
  rewrite (nonempty_match C) by exact HCne. cbn [cols rows]. unfold wide_enough. cbn [cols].
  rewrite (r_cols sig ts boosted b d o HR), (proj2 (Nat.leb_le _ _) Hc), Nat.leb_refl. cbn [andb].
  destruct va_ok as (G1 & G2 & _).
  replace (forallb (fun s => s <? d) (concat va)) with true by (symmetry; apply forallb_forall; intros s Hs; apply Nat.ltb_lt; auto).
  rewrite (proj2 (Nat.leb_le _ _) (groups_fit d va va_ok)). cbn [andb].
  match goal with |- match ?s with _ => _ end = _ => change s with (search v_tree d pi (est fX ys) cut15 stop (length xs) va minimal) end. now rewrite Es.
Qed.
Lemma told_est fX ys k S : Forall2 (predicts ts b) xs fX -> predict o X = Returned (P_vector fX) -> predict o data = Returned (P_vector ys) ->
  (forall s, In s S -> s < d) -> k < length xs -> reg_told o tX X data k S = est fX ys k S.
Proof.
  intros F1 E1 E2 HS Hk. unfold reg_told, acv_reg_cat, reg_call. rewrite E1, E2. cbn [andthen]. rewrite (buffer_X d X xs HX). cbn [andthen buffer_y buffer1 same_dtype].
  cbn [buffer2 same_dtype andthen cols]. unfold wide_enough. cbn [cols]. rewrite (r_cols sig ts boosted b d o HR), (proj2 (Nat.leb_le _ _) Hc), Nat.leb_refl. cbn [andb].
  replace (forallb (fun c0 => c0 <? d) S) with true by (symmetry; apply forallb_forall; intros s Hs; apply Nat.ltb_lt; auto).
  pose proof (F2_length _ _ _ F1) as L. unfold est. cbv zeta. rewrite !points_xs.
  set (g := fun xf : pt * Q => compute_sdp_reg_cat d (combine (map point zs) ys) (snd xf) tX S F (fst xf)).
  rewrite (nth_indep _ 0%Q (g (fun _ => 0%Q, 0%Q))) by (rewrite map_length, combine_length, map_length; lia).
  change (map (fun xf : pt * Q => compute_sdp_reg_cat d (combine (map point zs) ys) (snd xf) tX S F (fst xf))) with (map g). now rewrite map_nth.
Qed.
Lemma explain_reg_returns : exists e, acv_reg_explain o X tX data C pi minimal stop = Returned e /\ shaped e (length xs) d.
Proof.
  destruct explain_form as (fX & ys & st & F1 & F2 & E1 & E2 & Es & E). eexists. split; [exact E|].
  unfold shaped, collect. cbn [e_importance e_index e_size e_sdp]. rewrite !map_length, !seq_length. repeat split; try reflexivity.
  intros r Hr. apply in_map_iff in Hr. destruct Hr as (k & <- & Hk). apply in_seq in Hk.
  apply search_visits in Es. destruct Es as [n [Q _]].
  destruct (levels_found v_tree d pi _ (length xs) va minimal n st k va_ok Hpi Hpi1 ltac:(lia) Q) as [[S1 _] _]. exact S1.
Qed.
Variable e : answer.
Hypothesis He : acv_reg_explain o X tX data C pi minimal stop = Returned e.
Lemma minimal_ext va' lo pi' g g' T s : (forall T, In T (subs va') -> (g (concat T) == g' (concat T))%Q) ->
  minimal_sufficient d va' lo pi' g T s -> minimal_sufficient d va' lo pi' g' T s.
Proof.
  intros H (H1 & H2 & H3 & H4 & H5 & H6). split; [exact H1|]. split; [exact H2|]. split; [exact H3|]. split; [now rewrite <- (H T H1)|].
  split; intros T' HT'; rewrite <- (H T' HT'); auto.
Qed.
Lemma explain_reg_rows k : k < length xs ->
  ((pi <= nth k (e_sdp e) 0)%Q -> exists T, minimal_sufficient d va minimal pi (reg_told o tX X data k) T (nth k (e_sdp e) 0%Q) /\
     reported (row_of e k) = map Z.of_nat (concat T) /\ nth k (e_size e) 0 = length (concat T)) /\
  ((nth k (e_sdp e) 0 < pi)%Q -> forall T, In T (subs va) -> minimal <= length T ->
     (stop = true -> (forall g, In g C -> g = []) /\ length T <= Nat.max minimal (d / 2)) -> (reg_told o tX X data k (concat T) < pi)%Q).
Proof.
  intro Hk. destruct explain_form as (fX & ys & st & F1 & F2 & E1 & E2 & Es & E). rewrite E in He. injection He as <-.
  assert (Hr : row_of (collect d (length xs) st) k = s_rows st k) by (now apply row_collect).
  assert (R1 : nth k (e_sdp (collect d (length xs) st)) 0%Q = r_sdp (s_rows st k)) by (now rewrite <- Hr).
  assert (R2 : nth k (e_size (collect d (length xs) st)) 0 = r_len (s_rows st k)) by (now rewrite <- Hr).
  assert (Ht : forall T, In T (subs va) -> reg_told o tX X data k (concat T) = est fX ys k (concat T)).
  { intros T HT. apply told_est; auto. intros s Hs. apply (proj1 (proj2 va_ok)). eapply subs_concat_in; eassumption. }
  rewrite R1, R2, Hr. split.
  - intro Hp. destruct (search_found _ _ _ _ _ _ _ _ _ _ _ va_ok Hpi Hpi1 Hk Es Hp) as (T & M & Q1 & Q2).
    exists T. split; [|now split]. eapply minimal_ext; [|exact M]. intros T' HT'. rewrite (Ht T' HT'). reflexivity.
  - intros Hp T HT Hl Hst. rewrite (Ht T HT).
    destruct stop eqn:Est.
    + destruct (Hst eq_refl) as [Hco Hle]. refine (search_not_found_half v_tree d pi (est fX ys) cut15 true (length xs) va minimal st k _ va_ok _ Hpi Hpi1 Hk Es Hp T HT Hl Hle); [right; now left|].
      intros g Hg. assert (Hh : has_coal C = false).
      { destruct C as [|g0 C'] eqn:EC; [reflexivity|]. cbn. rewrite (Hco g0 (or_introl eq_refl)). reflexivity. }
      unfold tree_groups in Hg. rewrite Hh in Hg. apply in_map_iff in Hg. destruct Hg as (i & <- & _). reflexivity.
    + refine (search_not_found v_tree d pi (est fX ys) cut15 false (length xs) va minimal st k va_ok Hpi Hpi1 Hk Es Hp T HT Hl _). discriminate.
Qed.
Lemma explain_reg_importance j : j < d ->
  (nth j (e_importance e) 0 == Qn (length (filter (fun i => explains pi (row_of e i) j) (seq 0 (length xs)))) / Qn (length xs))%Q /\
  (0 <= nth j (e_importance e) 0 <= 1)%Q.
Proof.
  intro Hj. destruct explain_form as (fX & ys & st & F1 & F2 & E1 & E2 & Es & E). rewrite E in He. injection He as <-.
  assert (HN : 0 < length xs) by (destruct xs; [congruence|cbn; lia]).
  assert (Ej : nth j (e_importance (collect d (length xs) st)) 0%Q = importance (length xs) st j) by (cbn [collect e_importance]; now rewrite nth_map_seq).
  rewrite Ej. destruct (search_importance _ _ _ _ _ _ _ _ _ _ j va_ok Hpi Hpi1 HN Es) as [I1 I2]. split; [|exact I2]. rewrite I1.
  rewrite (filter_ext_in (fun k => explains pi (s_rows st k) j) (fun i => explains pi (row_of (collect d (length xs) st) i) j)); [reflexivity|].
  intros i Hi. apply in_seq in Hi. now rewrite row_collect by lia.
Qed.
End Cat.

(** The explanations of [importance_sdp_reg], from the trees to the arrays. *)
From Verif Require Import Base TreeModel TreeSpec GameSpec ShapModel ShapSpec FlatModel FlatSpec FlatProofs SdpModel SdpSpec SdpProofs RegModel RegProofs
  SearchModel SearchSpec SearchProofs ExplSpec ArrModel ArrSpec EntryModel EntrySpec EntryProofs EntryProofs2 EntryProofs3
  ImpModel ImpSpec ImpProofs2 RcatModel RcatSpec RcatProofs RcatProofs2 RcatProofs3 RimpModel RimpSpec RimpProofs.
Local Open Scope nat_scope.

Lemma groups_single d va : groups_ok d va -> length va = d -> forall g, In g va -> length g = 1.
Proof.
  intros G H g Hg. pose proof (groups_fit d va G) as L. destruct G as (_ & _ & G3). subst d.
  revert L G3 g Hg. induction va as [|a va IH]; intros L G3 g Hg; [contradiction|]. cbn [concat length] in L. rewrite app_length in L.
  assert (A : length va <= length (concat va)).
  { clear - G3. induction va as [|b va IH]; [reflexivity|]. cbn [concat length]. rewrite app_length.
    assert (b <> []) by (intros ->; apply G3; right; now left). assert (length va <= length (concat va)) by (apply IH; intro K; apply G3; destruct K as [->|K]; [now left|right; now right]).
    destruct b; [congruence|cbn; lia]. }
  assert (a <> []) by (intros ->; apply G3; now left). assert (1 <= length a) by (destruct a; [congruence|cbn; lia]).
  destruct Hg as [<-|Hg]; [lia|]. apply IH; [lia|intro K; apply G3; now right|exact Hg].
Qed.

Section Imp.
Variable sig : Q -> Q.
Variables (ts : list mtree) (boosted : bool) (b : offset) (d : nat).
Variable o : reg_acv.
Hypothesis HR : regressor sig ts boosted b d o.
Variables (X : marg) (xs zs : list (list Q)) (c : nat).
Hypothesis HX : has_shape X d xs.
Hypothesis Hc : d <= c.
Variables (C : list (list nat)) (tX pi : Q) (minimal : nat) (stop : bool).
Hypothesis HC : coal_ok C d.
Hypothesis HCne : C <> [].
Hypothesis Hxs : xs <> [].
Notation va := (tree_groups C d).
Notation data := (M_array F64 c zs).
Hypothesis H15 : length va <= 15.
Hypothesis Hpi : (0 < pi)%Q.
Hypothesis Hpi1 : (pi <= 1)%Q.
Notation F := (reg_leaves (o_tabs (r_acv o))).

Definition imp_est (fX ys : list Q) (old : norms) (k : nat) (S : list nat) : Q * norms :=
  reg_eval (length va) (combine (map point zs) ys) tX F old S (nth k (combine (map point xs) fX) (fun _ => 0%Q, 0%Q)).
Lemma imp_form : exists fX ys, Forall2 (predicts ts b) xs fX /\ Forall2 (predicts ts b) zs ys /\
  predict o X = Returned (P_vector fX) /\ predict o data = Returned (P_vector ys) /\
  acv_reg_search o X tX data C pi minimal stop =
    match kept_search norms v_tree d pi (imp_est fX ys) norms0 cut15 stop (length xs) va minimal with
    | Some st => Returned (collect d (length xs) st) | None => Stray end.
Proof.
  destruct (predict_ok sig ts boosted b d o HR X d xs HX (Nat.le_refl d)) as (fX & E1 & F1).
  destruct (predict_ok sig ts boosted b d o HR data c zs (or_intror (ex_intro _ F64 eq_refl)) Hc) as (ys & E2 & F2).
  exists fX, ys. split; [exact F1|]. split; [exact F2|]. split; [exact E1|]. split; [exact E2|].
  unfold acv_reg_search. rewrite E1, E2. cbn [andthen]. rewrite (buffer_X d X xs HX). cbn [andthen buffer_y]. cbn [buffer2 same_dtype andthen].
  rewrite (nonempty_match C) by exact HCne. cbn [cols rows]. unfold wide_enough. cbn [cols].
  rewrite (r_cols sig ts boosted b d o HR), (proj2 (Nat.leb_le _ _) Hc), Nat.leb_refl. cbn [andb].
  assert (G2 : forall s, In s (concat va) -> s < d) by (apply (va_ok d C HC HCne H15)).
  assert (EB : forallb (fun s => s <? d) (concat va) = true) by (apply forallb_forall; intros s Hs; apply Nat.ltb_lt; exact (G2 s Hs)). rewrite EB.
  rewrite (proj2 (Nat.leb_le _ _) (groups_fit d va (va_ok d C HC HCne H15))). cbn [andb]. unfold global_sdp_reg. cbv zeta. rewrite !points_xs.
  assert (EL : length (combine (map point xs) fX) = length xs) by (rewrite combine_length, map_length, <- (F2_length _ _ _ F1); apply Nat.min_id). rewrite EL.
  reflexivity.
Qed.
(** the search is one with fixed estimates *)
Lemma imp_plain : exists P st, search v_tree d pi P cut15 stop (length xs) va minimal = Some st /\
  acv_reg_search o X tX data C pi minimal stop = Returned (collect d (length xs) st).
Proof.
  destruct imp_form as (fX & ys & F1 & F2 & E1 & E2 & E).
  destruct (search_trace norms v_tree eq_refl eq_refl d pi (imp_est fX ys) norms0 cut15 stop (length xs) va minimal (va_ok d C HC HCne H15) Hpi) as [P HP].
  exists P. destruct (search v_tree d pi P cut15 stop (length xs) va minimal) as [st|] eqn:Es; [|exfalso; exact (search_some _ _ _ _ _ _ _ _ H15 Es)].
  exists st. split; [reflexivity|]. now rewrite E, HP.
Qed.
Lemma imp_returns : exists e, acv_reg_search o X tX data C pi minimal stop = Returned e /\ shaped e (length xs) d.
Proof.
  destruct imp_plain as (P & st & Es & E). eexists. split; [exact E|].
  unfold shaped, collect. cbn [e_importance e_index e_size e_sdp]. rewrite !map_length, !seq_length. repeat split; try reflexivity.
  intros r Hr. apply in_map_iff in Hr. destruct Hr as (k & <- & Hk). apply in_seq in Hk.
  apply search_visits in Es. destruct Es as [n [Q _]].
  destruct (levels_found v_tree d pi _ (length xs) va minimal n st k (va_ok d C HC HCne H15) Hpi Hpi1 ltac:(lia) Q) as [[S1 _] _]. exact S1.
Qed.
Variable e : answer.
Hypothesis He : acv_reg_search o X tX data C pi minimal stop = Returned e.
Lemma imp_importance j : j < d ->
  (nth j (e_importance e) 0 == Qn (length (filter (fun i => explains pi (row_of e i) j) (seq 0 (length xs)))) / Qn (length xs))%Q /\
  (0 <= nth j (e_importance e) 0 <= 1)%Q.
Proof.
  intro Hj. destruct imp_plain as (P & st & Es & E). rewrite E in He. injection He as <-.
  assert (HN : 0 < length xs) by (destruct xs; [congruence|cbn; lia]).
  assert (Ej : nth j (e_importance (collect d (length xs) st)) 0%Q = importance (length xs) st j) by (cbn [collect e_importance]; now rewrite nth_map_seq).
  rewrite Ej. destruct (search_importance _ _ _ _ _ _ _ _ _ _ j (va_ok d C HC HCne H15) Hpi Hpi1 HN Es) as [I1 I2]. split; [|exact I2]. rewrite I1.
  rewrite (filter_ext_in (fun k => explains pi (s_rows st k) j) (fun i => explains pi (row_of (collect d (length xs) st) i) j)); [reflexivity|].
  intros i Hi. apply in_seq in Hi. now rewrite row_collect by lia.
Qed.
(** whatever the history, a row at the level shows a set of groups of the least size at which some estimate reached the level *)
Lemma imp_shape k : k < length xs -> (pi <= nth k (e_sdp e) 0)%Q ->
  exists T, In T (subs va) /\ minimal <= length T /\ reported (row_of e k) = map Z.of_nat (concat T) /\ nth k (e_size e) 0 = length (concat T).
Proof.
  intros Hk Hp. destruct imp_plain as (P & st & Es & E). rewrite E in He. injection He as <-.
  assert (Hr : row_of (collect d (length xs) st) k = s_rows st k) by (now apply row_collect).
  assert (R1 : nth k (e_sdp (collect d (length xs) st)) 0%Q = r_sdp (s_rows st k)) by (now rewrite <- Hr).
  assert (R2 : nth k (e_size (collect d (length xs) st)) 0 = r_len (s_rows st k)) by (now rewrite <- Hr).
  rewrite R1 in Hp. rewrite R2, Hr.
  destruct (search_found _ _ _ _ _ _ _ _ _ _ _ (va_ok d C HC HCne H15) Hpi Hpi1 Hk Es Hp) as (T & M & Q1 & Q2). destruct M as (M1 & M2 & _). exists T. now repeat split.
Qed.
End Imp.

Section One.
Variable sig : Q -> Q.
Variables (t : mtree) (boosted : bool) (b : offset) (d : nat).
Variable o : reg_acv.
Hypothesis HR : regressor sig [t] boosted b d o.
Variables (X : marg) (xs zs : list (list Q)) (c : nat).
Hypothesis HX : has_shape X d xs.
Hypothesis Hc : d <= c.
Variables (C : list (list nat)) (tX pi : Q) (minimal : nat) (stop : bool).
Hypothesis HC : coal_ok C d.
Hypothesis HCne : C <> [].
Notation va := (tree_groups C d).
Notation data := (M_array F64 c zs).
Hypothesis H15 : length va <= 15.
Hypothesis Hpi : (0 < pi)%Q.
Hypothesis Hpi1 : (pi <= 1)%Q.
Hypothesis Hone : length va = d.
Notation F := (reg_leaves (o_tabs (r_acv o))).

Lemma said_est ls fX ys k S : F = [map erase ls] -> Forall2 (predicts [t] b) xs fX -> predict o X = Returned (P_vector fX) -> predict o data = Returned (P_vector ys) ->
  (forall s, In s S -> s < d) -> k < length xs -> forall old, fst (imp_est d o xs zs C tX fX ys old k S) = reg_said o tX X data k S.
Proof.
  intros HF F1 E1 E2 HS Hk old. unfold reg_said, acv_reg, reg_call. rewrite E1, E2. cbn [andthen]. rewrite (buffer_X d X xs HX). cbn [andthen buffer_y buffer1 same_dtype].
  cbn [buffer2 same_dtype andthen cols]. unfold wide_enough. cbn [cols]. rewrite (r_cols sig [t] boosted b d o HR), (proj2 (Nat.leb_le _ _) Hc), Nat.leb_refl. cbn [andb].
  replace (forallb (fun c0 => c0 <? d) S) with true by (symmetry; apply forallb_forall; intros s Hs; apply Nat.ltb_lt; auto).
  pose proof (F2_length _ _ _ F1) as L. rewrite !points_xs. unfold imp_est. rewrite Hone, HF. unfold compute_sdp_reg. rewrite evals_one.
  rewrite map_map. cbn [fst snd].
  set (g := fun xf : pt * Q => fst (reg_eval d (combine (map point zs) ys) tX [map erase ls] norms0 S xf)).
  rewrite (nth_indep _ 0%Q (g (fun _ => 0%Q, 0%Q))) by (rewrite map_length, combine_length, map_length; lia). rewrite (map_nth g). unfold g.
  now rewrite (eval_one d _ tX (map erase ls) old norms0).
Qed.
Variable e : answer.
Hypothesis He : acv_reg_search o X tX data C pi minimal stop = Returned e.
Lemma one_rows k : k < length xs ->
  ((pi <= nth k (e_sdp e) 0)%Q -> exists T, minimal_sufficient d va minimal pi (reg_said o tX X data k) T (nth k (e_sdp e) 0%Q) /\
     reported (row_of e k) = map Z.of_nat (concat T) /\ nth k (e_size e) 0 = length (concat T)) /\
  ((nth k (e_sdp e) 0 < pi)%Q -> forall T, In T (subs va) -> minimal <= length T ->
     (stop = true -> length T <= Nat.max minimal (d / 2)) -> (reg_said o tX X data k (concat T) < pi)%Q).
Proof.
  intro Hk. destruct (imp_form sig [t] boosted b d o HR X xs zs c HX Hc C tX pi minimal stop HC HCne H15) as (fX & ys & F1 & F2 & E1 & E2 & E).
  destruct (t_leaves sig t boosted b d o HR) as (ls & _ & HF).
  rewrite (search_fixed norms v_tree eq_refl eq_refl d pi (imp_est d o xs zs C tX fX ys) (fun k S => fst (imp_est d o xs zs C tX fX ys norms0 k S))) in E.
  2:{ intros t0 k0 S0. unfold imp_est. rewrite HF. now rewrite (eval_one _ _ tX (map erase ls) t0 norms0). }
  set (P := fun k S => fst (imp_est d o xs zs C tX fX ys norms0 k S)) in *.
  destruct (search v_tree d pi P cut15 stop (length xs) va minimal) as [st|] eqn:Es; [|congruence]. rewrite E in He. injection He as <-.
  assert (Hr : row_of (collect d (length xs) st) k = s_rows st k) by (now apply row_collect).
  assert (R1 : nth k (e_sdp (collect d (length xs) st)) 0%Q = r_sdp (s_rows st k)) by (now rewrite <- Hr).
  assert (R2 : nth k (e_size (collect d (length xs) st)) 0 = r_len (s_rows st k)) by (now rewrite <- Hr).
  pose proof (va_ok d C HC HCne H15) as Va.
  assert (Ht : forall T, In T (subs va) -> P k (concat T) = reg_said o tX X data k (concat T)).
  { intros T HT. unfold P. eapply said_est; eauto. intros s Hs. apply (proj1 (proj2 Va)). eapply subs_concat_in; eassumption. }
  assert (Hs : forall g, In g va -> length g = 1).
  { destruct Va as (G1 & G2 & G3). apply (groups_single d va (conj G1 (conj G2 G3)) Hone). }
  rewrite R1, R2, Hr. split.
  - intro Hp. destruct (search_found _ _ _ _ _ _ _ _ _ _ _ Va Hpi Hpi1 Hk Es Hp) as (T & M & Q1 & Q2).
    exists T. split; [|now split]. eapply minimal_ext; [|exact M]. intros T' HT'. rewrite (Ht T' HT'). reflexivity.
  - intros Hp T HT Hl Hst. rewrite <- (Ht T HT).
    destruct stop eqn:Est.
    + refine (search_not_found_half v_tree d pi P cut15 true (length xs) va minimal st k _ Va Hs Hpi Hpi1 Hk Es Hp T HT Hl (Hst eq_refl)). right; now left.
    + refine (search_not_found v_tree d pi P cut15 false (length xs) va minimal st k Va Hpi Hpi1 Hk Es Hp T HT Hl _). discriminate.
Qed.
End One.

(** the sequential search *)
Lemma one_rows_nopa sig t boosted b d o : regressor sig [t] boosted b d o ->
  forall X xs zs c, has_shape X d xs -> d <= c -> forall C tX pi minimal,
  coal_ok C d -> C <> [] -> length (tree_groups C d) <= 15 -> (0 < pi)%Q -> (pi <= 1)%Q -> length (tree_groups C d) = d ->
  exists e, acv_reg_search_nopa o X tX (M_array F64 c zs) C pi minimal = Returned e /\ shaped e (length xs) d /\ forall k, k < length xs ->
  ((pi <= nth k (e_sdp e) 0)%Q -> exists T, minimal_sufficient d (tree_groups C d) minimal pi (reg_said o tX X (M_array F64 c zs) k) T (nth k (e_sdp e) 0%Q) /\
     reported (row_of e k) = map Z.of_nat (concat T) /\ nth k (e_size e) 0 = length (concat T)) /\
  ((nth k (e_sdp e) 0 < pi)%Q -> forall T, In T (subs (tree_groups C d)) -> minimal <= length T <= Nat.max minimal (d / 2) ->
     (reg_said o tX X (M_array F64 c zs) k (concat T) < pi)%Q).
Proof.
  intros HR X xs zs c HX Hc C tX pi minimal HC HC0 H15 Hp Hp1 H1.
  destruct (imp_returns sig [t] boosted b d o HR X xs zs c HX Hc C tX pi minimal true HC HC0 H15 Hp Hp1) as (e & He & Hs).
  exists e. split; [exact He|]. split; [exact Hs|]. intros k Hk.
  destruct (one_rows sig t boosted b d o HR X xs zs c HX Hc C tX pi minimal true HC HC0 H15 Hp Hp1 H1 e He k Hk) as [A B].
  split; [exact A|]. intros L T HT [Hm Hl]. apply (B L T HT Hm). intros _. exact Hl.
Qed.

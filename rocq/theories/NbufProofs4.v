(** Proofs about the cached normalized Shapley values of an [ACVTree], from its trees. *)
From Verif Require Import Base TreeModel TreeSpec TreeProofs GameSpec GameProofs ShapModel ShapSpec ShapProofs NopaModel NopaProofs NormModel NormSpec NormProofs
  FlatModel FlatSpec SkModel SkSpec ArrModel ArrSpec EntryModel EntrySpec EntryProofs SbufModel SbufSpec SbufProofs SbufProofs2 CbufModel CbufProofs CbufProofs2
  AbufSpec NbufModel NbufSpec NbufProofs NbufProofs2 NbufProofs3.
Local Open Scope nat_scope.

(** ** Every finite bound of a leaf is the threshold of a split on its column *)
Lemma bounds_off share j b ts d w z i p nid : In (nth b ts no_tree) ts -> well_formed d w (nth b ts no_tree) -> off_thresholds ts z ->
  let t := shared_tree share j b (nth b ts no_tree) in forall fuel, get_partition fuel t i whole [] = Some (p, nid) -> i < nn t ->
  forall s q, fst (p s) = Fin q \/ snd (p s) = Fin q -> ~ (point z s == q)%Q.
Proof.
  intros Hin Hwf Hoff t. pose proof (shared_wf share j b d w _ Hwf) as Hw. fold t in Hw.
  assert (G : forall fuel i part nid p nid', get_partition fuel t i part nid = Some (p, nid') -> i < nn t ->
    (forall s q, fst (part s) = Fin q \/ snd (part s) = Fin q -> ~ (point z s == q)%Q) ->
    (forall s q, fst (p s) = Fin q \/ snd (p s) = Fin q -> ~ (point z s == q)%Q)).
  { induction fuel as [|f IH]; intros i0 part nid0 p0 nid' E Hi Hp; [discriminate|].
    cbn [get_partition] in E.
    assert (Hn : forall fe lo hi, (forall q, lo = Fin q -> ~ (point z fe == q)%Q) -> (forall q, hi = Fin q -> ~ (point z fe == q)%Q) ->
      forall s q, fst (narrow part fe lo hi s) = Fin q \/ snd (narrow part fe lo hi s) = Fin q -> ~ (point z s == q)%Q).
    { intros fe lo hi Hlo Hhi s q. unfold narrow, upd. destruct (Nat.eqb_spec s fe) as [->|]; [|apply Hp].
      cbn [fst snd]. specialize (Hp fe). intros [H|H].
      - destruct (fst (part fe)) as [|a|]; destruct lo as [|c|]; cbn [ext_max] in H; try discriminate; auto.
        destruct (qleb a c); injection H as <-; auto.
      - destruct (snd (part fe)) as [|a|]; destruct hi as [|c|]; cbn [ext_min] in H; try discriminate; auto.
        destruct (qleb a c); injection H as <-; auto. }
    assert (Hth : forall r, r < nn t -> (0 <= nth r (cl t) (-1))%Z -> forall q, Fin (nth r (th t) 0%Q) = Fin q -> ~ (point z (Z.to_nat (nth r (ft t) (-1)%Z)) == q)%Q).
    { intros r Hr Hl q Eq. injection Eq as <-. exact (Hoff _ r Hin Hr Hl). }
    assert (Hleaf : forall r, r < nn t -> (0 <= nth r (cr t) (-1))%Z \/ (0 <= nth r (cl t) (-1))%Z -> (0 <= nth r (cl t) (-1))%Z).
    { intros r Hr H. destruct (is_leaf t r) eqn:E'.
      - pose proof (wf_leaf _ d Hw r Hr E'). unfold is_leaf in E'. apply Z.ltb_lt in E'. unfold clz, crz in *. lia.
      - unfold is_leaf in E'. apply Z.ltb_ge in E'. exact E'. }
    destruct (where_eq (cr t) i0) as [|r rr] eqn:Er.
    - destruct (where_eq (cl t) i0) as [|l ll] eqn:El; [injection E as <- <-; exact Hp|].
      assert (Hl : In l (where_eq (cl t) i0)) by (rewrite El; now left).
      apply (in_where_cl _) in Hl. destruct Hl as [Hl Hc].
      eapply IH; [exact E|exact Hl|]. apply Hn; [discriminate|]. apply Hth; [exact Hl|]. apply Hleaf; [exact Hl|]. right. unfold clz, crz in *. lia.
    - assert (Hr : In r (where_eq (cr t) i0)) by (rewrite Er; now left).
      apply (in_where_cr _ d Hw) in Hr. destruct Hr as [Hr Hc].
      eapply IH; [exact E|exact Hr|]. apply Hn; [|discriminate]. apply Hth; [exact Hr|]. apply Hleaf; [exact Hr|]. left. unfold clz, crz in *. lia. }
  intros fuel E Hi. eapply (G fuel i whole [] p nid E Hi). intros s' q' [H|H]; discriminate H.
Qed.

Section Kept.
Variables (listed : list nat -> list nat) (sig : Q -> Q) (ts : list mtree) (stacked : nat) (boosted : bool) (d w k : nat)
  (data : marg) (zs : list (list Q)) (h : shap_acv) (X : marg) (xs : list (list Q)) (m : nat) (C P : list (list nat)).
Hypothesis HL : lists_set listed.
Hypothesis HE : explained ts stacked d w k data zs X xs m C P.
Hypothesis Hh : construct_shap listed sig ts stacked boosted data = Some h.
Notation T := (o_tabs (h_acv h)).
Notation nid := (h_nid h).
Notation pts := (map point zs).

Lemma tables_off : (forall x, In x xs -> off_thresholds ts x) -> off_tables T (map point xs).
Proof.
  intros Hoff x b n s q Hx Hb Hn Hq. apply in_map_iff in Hx. destruct Hx as (x0 & <- & Hx).
  pose proof (nForest listed sig ts stacked boosted d w k data zs h X xs m C P HE Hh 0) as Hf.
  assert (Hls : In (map (leaf_at T (vars ts) 0 b) (seq 0 (t_nb T b))) (forest_at T (vars ts) 0)).
  { unfold forest_at. apply in_map_iff. exists b. split; [reflexivity|]. apply in_seq. lia. }
  assert (Hlf : In (leaf_at T (vars ts) 0 b n) (map (leaf_at T (vars ts) 0 b) (seq 0 (t_nb T b)))).
  { apply in_map_iff. exists n. split; [reflexivity|]. apply in_seq. lia. }
  destruct (forest_leaves_in _ _ _ Hf Hls) as (t & Ht & El). unfold shared in Ht. apply in_map_iff in Ht.
  destruct Ht as (b' & <- & Hb'). apply in_seq in Hb'. assert (Hin : In (nth b' ts no_tree) ts) by (apply nth_In; lia).
  destruct (leaves_from_nth _ _ _ El) as [_ Hnth]. destruct (In_nth_error _ _ Hlf) as [n' Hn']. specialize (Hnth n').
  destruct (nth_error (leaf_idx (shared_tree (raw_share stacked) 0 b' (nth b' ts no_tree))) n') as [i|] eqn:Ei; [|congruence].
  rewrite Hn' in Hnth. apply nth_error_In in Ei.
  unfold leaf_of in Hnth. destruct (get_partition _ _ i whole []) as [[p nid0]|] eqn:Eg; [|discriminate].
  assert (Ep : t_part T b n = p) by (injection Hnth as E _; exact (eq_sym E)). rewrite Ep in Hq.
  eapply (bounds_off (raw_share stacked) 0 b' ts d w x0 i p nid0 Hin); [|now apply Hoff|exact Eg| |exact Hq].
  - exact (nWf ts stacked d w k data zs X xs m C P HE _ Hin).
  - unfold leaf_idx in Ei. apply filter_In in Ei. destruct Ei as [Ei _]. apply in_seq in Ei. lia.
Qed.
(** the counts that the constructor stores *)
Lemma nkept_built multi order0 : room ts P -> leaf_orders ts order0 ->
  exists o c, with_norm_cache true true multi order0 C h = Returned (mkNKept o true (Some c)) /\ k_shap o = h /\ nholds T nid d pts C c.
Proof.
  intros Hr Ho. pose proof HE as (_ & _ & _ & _ & _ & HC & HCne & _).
  destruct (kept_built listed sig ts stacked boosted d w k data zs h X xs m C P HL HE Hh multi order0 Hr Ho) as (c0 & E0 & _).
  destruct (norm_store_holds T nid d pts (h_max h) C (if multi then order0 else in_turn h) HC
    (e_tabs listed sig ts stacked boosted d w k data zs h X xs m C P HE Hh) (e_leaf listed sig ts stacked boosted d w k data zs h X xs m C P HL HE Hh)) as (c & E & K); trivial.
  - destruct multi; [exact (e_every listed sig ts stacked boosted d w k data zs h X xs m C P HE Hh order0 Ho)|exact (e_turn h)].
  - exact (fit_d listed sig ts stacked boosted d w k data zs h X xs m C P HL HE Hh Hr).
  - exists (mkKept h (Some c0)), c. split; [|split; [reflexivity|exact K]]. unfold with_norm_cache. rewrite E0. cbn [andthen andb].
    rewrite (e_rows listed sig ts stacked boosted d w k data zs h X xs m C P HE Hh). rewrite ?points_of. cbn [cols rows]. now rewrite E.
Qed.
Lemma nkept_call order o c : room ts P -> (forall x, In x xs -> off_thresholds ts x) -> leaf_orders ts order -> k_shap o = h -> nholds T nid d pts C c ->
  kept_norm_cache (mkNKept o true (Some c)) order X C = acv_norm h order X C.
Proof.
  intros Hr Hoff Ho Ek K. rewrite (acv_norm_call listed sig ts stacked boosted d w k data zs h X xs m C P HE Hh).
  unfold kept_norm_cache. cbn [n_counts n_kept]. rewrite Ek.
  pose proof HE as (_ & _ & HX & _ & Hm & HC & _).
  rewrite (e_rows listed sig ts stacked boosted d w k data zs h X xs m C P HE Hh), (e_out listed sig ts stacked boosted d w k data zs h X xs m C P HE Hh).
  rewrite ?points_of. cbn [cols rows].
  assert (G : norm_kept_prog T nid d (length pts) c (h_max h) m (map point xs) C order = norm_prog T nid d pts (h_max h) m (map point xs) C order).
  { apply (kept_same_prog T nid d pts c (h_max h) m (map point xs) C order HC Hm
      (e_tabs listed sig ts stacked boosted d w k data zs h X xs m C P HE Hh) (e_leaf listed sig ts stacked boosted d w k data zs h X xs m C P HL HE Hh)
      (e_every listed sig ts stacked boosted d w k data zs h X xs m C P HE Hh order Ho) (fit_m listed sig ts stacked boosted d w k data zs h X xs m C P HL HE Hh Hr) K).
    now apply tables_off. }
  destruct HX as [->|[->|[dt ->]]]; cbn [as_float buffer2 same_dtype andthen]; rewrite ?points_of; cbn [cols rows]; rewrite G; reflexivity.
Qed.
Theorem nkept_same flag multi order0 : room ts P -> leaf_orders ts order0 -> (forall x, In x xs -> off_thresholds ts x) ->
  exists o, with_norm_cache true flag multi order0 C h = Returned o /\ forall order, leaf_orders ts order ->
    kept_norm o order X C = acv_norm h order X C /\
    (flag = true -> kept_norm_cache o order X C = acv_norm h order X C /\ kept_norm_cache_nopa o X C = acv_norm h (in_turn h) X C).
Proof.
  intros Hr Ho Hoff. destruct flag.
  - destruct (nkept_built multi order0 Hr Ho) as (o & c & E & Ek & K). exists (mkNKept o true (Some c)). split; [exact E|]. intros order Hord.
    unfold kept_norm, kept_norm_cache_nopa. cbn [n_flag n_kept]. rewrite Ek.
    rewrite !nkept_call; auto. exact (e_turns listed sig ts stacked boosted d w k data zs h X xs m C P HE Hh).
  - destruct (kept_built listed sig ts stacked boosted d w k data zs h X xs m C P HL HE Hh multi order0 Hr Ho) as (c0 & E0 & _).
    exists (mkNKept (mkKept h (Some c0)) false None). split; [unfold with_norm_cache; rewrite E0; reflexivity|]. intros order _. split; [reflexivity|discriminate].
Qed.
(** without [cache] nothing is stored *)
Theorem nkept_without flag multi order0 order : exists o, with_norm_cache false flag multi order0 C h = Returned o /\
  (flag = false -> kept_norm o order X C = acv_norm h order X C) /\
  (flag = true -> kept_norm o order X C = Raised EAttribute) /\
  kept_norm_cache o order X C = Raised EAttribute /\ kept_norm_cache_nopa o X C = Raised EAttribute.
Proof. exists (mkNKept (mkKept h None) flag None). split; [reflexivity|]. split; [intros ->; reflexivity|]. split; [intros ->; reflexivity|]. split; reflexivity. Qed.
(** with [cache] and not [cache_normalized] the two cached methods have no counts to read *)
Theorem nkept_unstored multi order0 o order : with_norm_cache true false multi order0 C h = Returned o ->
  kept_norm_cache o order X C = Raised EAttribute /\ kept_norm_cache_nopa o X C = Raised EAttribute.
Proof.
  unfold with_norm_cache. destruct (with_cache true multi order0 C h) as [o0| |]; [|discriminate|discriminate]. cbn [andthen andb]. intro E. injection E as <-. split; reflexivity.
Qed.
Theorem nkept_stray flag multi order0 : no_room ts P -> leaf_orders ts order0 -> with_norm_cache true flag multi order0 C h = Stray.
Proof.
  intros Hn Ho. unfold with_norm_cache. rewrite (kept_stray listed sig ts stacked boosted d w k data zs h X xs m C P HL HE Hh multi order0 Hn Ho). reflexivity.
Qed.
Theorem nkept_local multi order0 : filled ts zs -> room ts P -> leaf_orders ts order0 -> (forall x, In x xs -> off_thresholds ts x) ->
  exists o, with_norm_cache true true multi order0 C h = Returned o /\ forall order, leaf_orders ts order ->
    Forall (fun r => cube_entries r xs m k (fun x f => forall j, j < k ->
      exists forest, forest_leaves (shared (raw_share stacked) ts j) = Some forest /\
      forall g c, In g P -> In c g -> (f c j == shapley gdec P (worth_local d pts forest (point x)) g)%Q))
      [kept_norm o order X C; kept_norm_cache o order X C; kept_norm_cache_nopa o X C].
Proof.
  intros Hf Hr Ho Hoff. destruct (nkept_same true multi order0 Hr Ho Hoff) as (o & E & K). exists o. split; [exact E|]. intros order Hord.
  destruct (K order Hord) as [K1 K2]. destruct (K2 eq_refl) as [K3 K4]. rewrite K1, K3, K4.
  pose proof (norm_shapley listed sig ts stacked boosted d w k data zs h X xs m C P HL HE Hh) as G.
  pose proof (e_turns listed sig ts stacked boosted d w k data zs h X xs m C P HE Hh) as Ht. auto.
Qed.
End Kept.

(** ** The default coalitions after other coalitions of the constructor *)
Theorem nkept_default_stray listed sig ts stacked boosted d w k data zs h X xs m P C0 P0 multi order0 o order t i s : lists_set listed ->
  explained ts stacked d w k data zs X xs m [[]] P -> construct_shap listed sig ts stacked boosted data = Some h ->
  coalitions_ok C0 d -> is_players C0 d P0 -> with_norm_cache true true multi order0 C0 h = Returned o -> leaf_orders ts order ->
  In t ts -> is_leaf_of t i -> above (as_tree t 0) s i -> length P0 <= s ->
  kept_norm o order X [[]] = Stray /\ kept_norm_cache o order X [[]] = Stray /\ kept_norm_cache_nopa o X [[]] = Stray.
Proof.
  intros HL HE Hh HC0 HP0 Hw Ho Ht Hi Ha Hle. pose proof HE as (Hok & Hdata & HX & Hxs & Hm & HC & HCne & HP).
  pose proof (e_rows listed sig ts stacked boosted d w k data zs h X xs m [[]] P HE Hh) as Er.
  revert Hw. unfold with_norm_cache. destruct (with_cache true multi order0 C0 h) as [o1| |] eqn:Ew; [|discriminate|discriminate]. cbn [andthen andb].
  assert (Ek : k_shap o1 = h).
  { revert Ew. unfold with_cache. destruct (leaves_store _ _ _ _ _ _ _); [|discriminate]. intro E. injection E as <-. reflexivity. }
  rewrite Er. rewrite ?points_of. cbn [cols rows].
  destruct (norm_store _ _ _ _ _ _ _) as [c|] eqn:Ec; [|discriminate]. intro E. injection E as <-.
  assert (Hc : nc_players c = length P0).
  { revert Ec. unfold norm_store. destruct C0 as [|g0 C1] eqn:EC; [discriminate|]. rewrite <- EC in *.
    destruct (ofold _ (seq 0 _) _) as [st|] eqn:Es; [|discriminate]. intro E. injection E as <-.
    rewrite (nstored_players _ _ d (map point zs) (h_max h) C0 _ HC0 st Es). apply Permutation_length.
    apply NoDup_Permutation; [apply (va_ids_players C0 d HC0)|apply HP0|]. intro g. rewrite (proj2 (va_ids_players C0 d HC0) g), (proj2 HP0 g). reflexivity. }
  assert (G : forall ord, every_leaf (o_tabs (h_acv h)) ord -> kept_norm_cache (mkNKept o1 true (Some c)) ord X [[]] = Stray).
  { intros ord Hord. unfold kept_norm_cache. cbn [n_counts n_kept]. rewrite Ek, Er. rewrite ?points_of. cbn [cols rows].
    apply (leaf_list_in d w _ _ (e_wf ts stacked d w k data zs X xs m [[]] P HE _ Ht)) in Hi.
    destruct (In_nth ts t no_tree Ht) as (b & Hb & Eb). destruct (In_nth _ _ 0 Hi) as (n & Hn & En).
    assert (Hb' : b < t_trees (o_tabs (h_acv h))) by (rewrite (h_trees listed sig ts stacked boosted d w k data zs h Hok Hdata Hh); exact Hb).
    assert (Hn' : n < t_nb (o_tabs (h_acv h)) b) by (rewrite (h_nb listed sig ts stacked boosted d w k data zs h Hok Hdata Hh), Eb; exact Hn).
    pose proof (e_leaf listed sig ts stacked boosted d w k data zs h X xs m [[]] P HL HE Hh b n Hb' Hn') as Hlf.
    assert (Hs : In s (h_nid h b n)).
    { rewrite (h_nids listed sig ts stacked boosted d data zs h Hdata Hh), Eb, En.
      apply (node_set_above listed HL d w _ _ (e_wf ts stacked d w k data zs X xs m [[]] P HE _ Ht) Hi). exact Ha. }
    assert (Hsd : s < d) by (apply Hlf; exact Hs).
    assert (Z : norm_kept_prog (o_tabs (h_acv h)) (h_nid h) d (length (map point zs)) c (h_max h) m (map point xs) [[]] ord = None).
    { apply (kept_prog_stray _ _ d (length (map point zs)) c (h_max h) m (map point xs) [[]] ord HC Hm
        (e_tabs listed sig ts stacked boosted d w k data zs h X xs m [[]] P HE Hh) Hord b n s [s]); trivial.
      - cbn [va_ids has_coal]. rewrite (map_nth_error _ s (seq 0 m) (d := s)); [reflexivity|]. rewrite (nth_error_nth' _ 0) by (rewrite seq_length; lia).
        now rewrite seq_nth by lia.
      - cbn [leaf_groups has_coal]. apply in_map_iff. exists s. auto.
      - now rewrite Hc.
      - destruct xs; [congruence|discriminate]. }
    destruct HX as [->|[->|[dt ->]]]; cbn [as_float buffer2 same_dtype andthen]; rewrite ?points_of; cbn [cols rows]; rewrite Z; reflexivity. }
  pose proof (e_every listed sig ts stacked boosted d w k data zs h X xs m [[]] P HE Hh order Ho) as He.
  split; [now apply G|]. split; [now apply G|]. unfold kept_norm_cache_nopa. cbn [n_kept]. apply G. rewrite Ek. apply e_turn.
Qed.

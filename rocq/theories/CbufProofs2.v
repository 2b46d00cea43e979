(** Proofs about the cached Shapley values of an [ACVTree], from its trees. *)
From Verif Require Import Base TreeModel TreeSpec TreeProofs GameSpec GameProofs ShapModel ShapSpec ShapProofs NopaModel NopaProofs
  FlatModel FlatSpec SkModel SkSpec ArrModel ArrSpec EntryModel EntrySpec SbufModel SbufSpec SbufProofs SbufProofs2 CbufModel CbufProofs.
Local Open Scope nat_scope.

Lemma points_of d zs : points (mkMat d zs) = map point zs.
Proof. reflexivity. Qed.

Section Kept.
Variables (listed : list nat -> list nat) (sig : Q -> Q) (ts : list mtree) (stacked : nat) (boosted : bool) (d w k : nat)
  (data : marg) (zs : list (list Q)) (h : shap_acv) (X : marg) (xs : list (list Q)) (m : nat) (C P : list (list nat)).
Hypothesis HL : lists_set listed.
Hypothesis HE : explained ts stacked d w k data zs X xs m C P.
Hypothesis Hh : construct_shap listed sig ts stacked boosted data = Some h.
Notation T := (o_tabs (h_acv h)).
Notation nid := (h_nid h).

Lemma e_wf t : In t ts -> well_formed d w t.
Proof. apply HE. Qed.
Lemma e_turn : every_leaf T (in_turn h).
Proof. intros b Hb. apply Permutation_refl. Qed.
Lemma e_tabs : tabs_ok T.
Proof. destruct HE as (Hok & Hdata & _). exact (h_tabs listed sig ts stacked boosted d w k data zs h Hok Hdata Hh). Qed.
Lemma e_leaf b n : b < t_trees T -> n < t_nb T b -> ShapSpec.leaf_ok d (leaf_at T nid 0 b n).
Proof. destruct HE as (Hok & Hdata & _). exact (h_leaf_ok listed sig ts stacked boosted d w k data zs h HL Hok Hdata Hh 0 b n). Qed.
Lemma e_rows : h_data h = mkMat d zs.
Proof. destruct HE as (Hok & Hdata & _). exact (h_rows listed sig ts stacked boosted d data zs h Hdata Hh). Qed.
Lemma e_out : t_out T = k.
Proof. destruct HE as (Hok & Hdata & _). exact (h_out listed sig ts stacked boosted d w k data zs h Hok Hdata Hh). Qed.
Lemma e_checked : check_array X = Returned (M_array F64 m xs).
Proof.
  destruct HE as (Hok & Hdata & HX & Hxs & Hm & _). exact (x_checked listed sig ts stacked boosted d data zs h Hdata Hh X xs m HX Hxs Hm).
Qed.
Lemma e_every order : leaf_orders ts order -> every_leaf T order.
Proof. destruct HE as (Hok & Hdata & _). exact (orders_every listed sig ts stacked boosted d w k data zs h Hok Hdata Hh order). Qed.
Lemma e_turns : leaf_orders ts (in_turn h).
Proof.
  destruct HE as (Hok & Hdata & _). intros b t Hb. unfold in_turn. rewrite (h_nb listed sig ts stacked boosted d w k data zs h Hok Hdata Hh).
  rewrite (nth_error_nth _ _ no_tree Hb), (leaf_list_count d w t (e_wf t (nth_error_In _ _ Hb))). apply Permutation_refl.
Qed.
Lemma groups_wide b n : b < t_trees T -> n < t_nb T b -> leaf_groups C m (nid b n) = leaf_groups C d (nid b n).
Proof.
  intros Hb Hn. destruct HE as (_ & _ & _ & _ & Hm & _). apply leaf_groups_more; [|exact Hm]. apply (e_leaf b n Hb Hn).
Qed.
Lemma fit_m : room ts P -> all_fit T nid (h_max h) m C.
Proof.
  destruct HE as (Hok & Hdata & HX & Hxs & Hm & HC & HCne & HP).
  exact (room_fit listed sig ts stacked boosted d w k data zs h HL Hok Hdata Hh m C Hm HC P HP).
Qed.
Lemma fit_d : room ts P -> all_fit T nid (h_max h) d C.
Proof. intros Hr b n Hb Hn. rewrite <- groups_wide by assumption. now apply fit_m. Qed.

(** the counts that the constructor stores *)
Lemma kept_built multi order0 : room ts P -> leaf_orders ts order0 ->
  exists c, with_cache true multi order0 C h = Returned (mkKept h (Some c)) /\ holds T nid d (map point zs) C c.
Proof.
  intros Hr Ho. destruct HE as (_ & _ & _ & _ & _ & HC & HCne & _).
  destruct (leaves_store_holds T nid d (map point zs) (h_max h) C (if multi then order0 else in_turn h) HC e_tabs e_leaf) as (c & E & K); trivial.
  - destruct multi; [now apply e_every|exact e_turn].
  - now apply fit_d.
  - exists c. split; [|exact K]. unfold with_cache. rewrite e_rows. rewrite ?points_of. cbn [cols rows]. now rewrite E.
Qed.
Lemma cached_call order c : room ts P -> every_leaf T order -> holds T nid d (map point zs) C c ->
  kept_cache (mkKept h (Some c)) order X C = cube (length xs) m k (shap_prog T nid d (map point zs) (h_max h) m (map point xs) C order).
Proof.
  intros Hr Ho K. unfold kept_cache. rewrite e_checked. cbn [andthen k_counts k_shap as_float buffer2 same_dtype]. rewrite e_rows, e_out. rewrite ?points_of. cbn [cols rows].
  destruct HE as (_ & _ & _ & _ & Hm & HC & _).
  rewrite (cached_same T nid d (map point zs) c (h_max h) m (map point xs) C order HC Hm e_tabs e_leaf Ho (fit_m Hr) K). reflexivity.
Qed.
Lemma direct_call order : acv_shap h order X C = cube (length xs) m k (shap_prog T nid d (map point zs) (h_max h) m (map point xs) C order).
Proof.
  destruct HE as (Hok & Hdata & HX & Hxs & Hm & _).
  exact (acv_shap_call listed sig ts stacked boosted d w k data zs h Hok Hdata Hh X xs m C HX Hxs Hm order).
Qed.
Lemma kept_dispatch o order : k_counts o <> None -> kept_shap o order X C = kept_cache o order X C.
Proof.
  intro Hn. unfold kept_shap. destruct (k_counts o); [|congruence]. rewrite e_checked. cbn [andthen]. unfold kept_cache at 1.
  assert (E : check_array (M_array F64 m xs) = check_array X).
  { rewrite e_checked. destruct HE as (_ & _ & _ & Hxs & Hm & _). destruct HE as (Hok & Hdata & _).
    destruct (h_facts listed sig ts stacked boosted d data zs h Hdata Hh) as (_ & Hd & _).
    cbn [check_array]. destruct xs; [congruence|]. destruct m; [lia|]. reflexivity. }
  rewrite E. reflexivity.
Qed.
Lemma kept_same cache multi order0 : room ts P -> leaf_orders ts order0 ->
  exists o, with_cache cache multi order0 C h = Returned o /\ forall order, leaf_orders ts order ->
    kept_shap o order X C = acv_shap h order X C /\
    (cache = true -> kept_cache o order X C = acv_shap h order X C /\ kept_cache_nopa o X C = acv_shap h (in_turn h) X C).
Proof.
  intros Hr Ho. destruct cache.
  - destruct (kept_built multi order0 Hr Ho) as (c & E & K). exists (mkKept h (Some c)). split; [exact E|]. intros order Hord.
    rewrite kept_dispatch by discriminate. unfold kept_cache_nopa. cbn [k_shap].
    rewrite !direct_call, !(cached_call _ c Hr) by (try exact e_turn; try exact K; now apply e_every). auto.
  - exists (mkKept h None). split; [reflexivity|]. intros order _. split; [reflexivity|discriminate].
Qed.
Lemma kept_entries (Q' : list Q -> (nat -> nat -> Q) -> Prop) multi order0 :
  (forall order, (room ts P -> leaf_orders ts order -> cube_entries (acv_shap h order X C) xs m k Q') /\ cube_entries (acv_shap_nopa h X C) xs m k Q') ->
  room ts P -> leaf_orders ts order0 -> exists o, with_cache true multi order0 C h = Returned o /\ forall order, leaf_orders ts order ->
    Forall (fun r => cube_entries r xs m k Q') [kept_shap o order X C; kept_cache o order X C; kept_cache_nopa o X C].
Proof.
  intros HQ Hr Ho. destruct (kept_same true multi order0 Hr Ho) as (o & E & K). exists o. split; [exact E|]. intros order Hord.
  destruct (K order Hord) as [K1 K2]. destruct (K2 eq_refl) as [K3 K4]. rewrite K1, K3, K4.
  pose proof (proj1 (HQ order) Hr Hord) as G1. pose proof (proj1 (HQ (in_turn h)) Hr e_turns) as G2. auto.
Qed.
Lemma kept_shapley multi order0 : room ts P -> leaf_orders ts order0 ->
  exists o, with_cache true multi order0 C h = Returned o /\ forall order, leaf_orders ts order ->
    Forall (fun r => cube_entries r xs m k (fun x f => forall j, j < k ->
      exists forest, forest_leaves (shared (raw_share stacked) ts j) = Some forest /\
      forall g c, In g P -> In c g -> (f c j == shapley gdec P (worth d (map point zs) forest (point x)) g)%Q))
      [kept_shap o order X C; kept_cache o order X C; kept_cache_nopa o X C].
Proof. apply kept_entries. intro order. exact (shapley_entries listed sig ts stacked boosted d w k data zs h X xs m C P HL HE Hh order). Qed.
Lemma kept_stray multi order0 : no_room ts P -> leaf_orders ts order0 -> with_cache true multi order0 C h = Stray.
Proof.
  intros (t & i & ps & Ht & Hi & Hps & Hbig) Ho. destruct HE as (Hok & Hdata & HX & Hxs & Hm & HC & HCne & HP).
  apply (leaf_list_in d w _ _ (e_wf _ Ht)) in Hi.
  destruct (In_nth ts t no_tree Ht) as (b & Hb & Eb). destruct (In_nth _ _ 0 Hi) as (n & Hn & En).
  pose proof (h_mv listed sig ts stacked boosted d data zs h Hdata Hh) as Hmv.
  destruct (max_attained listed ts _ (proj1 Hok) Hmv) as (i' & Hi' & Emv).
  pose proof (last_in ts no_tree (proj1 Hok)) as Hlast.
  pose proof (Hbig i' _ (proj1 (leaf_list_in d w _ _ (e_wf _ Hlast)) Hi') (node_set_above listed HL d w _ _ (e_wf _ Hlast) Hi')) as Hlt.
  assert (Hb' : b < t_trees T) by (rewrite (h_trees listed sig ts stacked boosted d w k data zs h Hok Hdata Hh); exact Hb).
  assert (Hn' : n < t_nb T b) by (rewrite (h_nb listed sig ts stacked boosted d w k data zs h Hok Hdata Hh), Eb; exact Hn).
  pose proof (groups_at listed sig ts stacked boosted d w k data zs h HL Hok Hdata Hh m C Hm HC P HP b n Hb' Hn') as Hg. rewrite Eb, En in Hg.
  unfold with_cache. rewrite e_rows. rewrite ?points_of. cbn [cols rows].
  rewrite (leaves_store_stray T nid d (map point zs) (h_max h) C (if multi then order0 else in_turn h) HC e_tabs e_leaf) with (b := b) (k := n); trivial.
  - destruct multi; [now apply e_every|exact e_turn].
  - rewrite <- groups_wide by assumption. rewrite (SbufProofs2.players_length _ _ _ _ _ Hg Hps). lia.
Qed.
End Kept.

(** ** The default coalitions after other coalitions of the constructor *)
Lemma default_stray listed sig ts stacked boosted d w k data zs h X xs m P C0 P0 multi order0 o order t i s : lists_set listed ->
  explained ts stacked d w k data zs X xs m [[]] P -> construct_shap listed sig ts stacked boosted data = Some h ->
  coalitions_ok C0 d -> is_players C0 d P0 -> with_cache true multi order0 C0 h = Returned o -> leaf_orders ts order ->
  In t ts -> is_leaf_of t i -> above (as_tree t 0) s i -> length P0 <= s ->
  kept_shap o order X [[]] = Stray /\ kept_cache o order X [[]] = Stray /\ kept_cache_nopa o X [[]] = Stray.
Proof.
  intros HL HE Hh HC0 HP0 Hw Ho Ht Hi Ha Hle. pose proof HE as (Hok & Hdata & HX & Hxs & Hm & HC & HCne & HP).
  pose proof (e_rows listed sig ts stacked boosted d w k data zs h X xs m [[]] P HE Hh) as Er.
  revert Hw. unfold with_cache. rewrite Er. rewrite ?points_of. cbn [cols rows].
  destruct (leaves_store _ _ _ _ _ _ _) as [c|] eqn:Ec; [|discriminate]. intro E. injection E as <-.
  assert (Hc : c_players c = length P0).
  { revert Ec. unfold leaves_store. destruct C0 as [|g0 C1] eqn:EC; [discriminate|]. rewrite <- EC in *.
    destruct (ofold _ (seq 0 _) _) as [st|] eqn:Es; [|discriminate]. intro E. injection E as <-.
    rewrite (stored_players _ _ d (map point zs) (h_max h) C0 _ HC0 st Es). apply Permutation_length.
    apply NoDup_Permutation; [apply (va_ids_players C0 d HC0)|apply HP0|]. intro g. rewrite (proj2 (va_ids_players C0 d HC0) g), (proj2 HP0 g). reflexivity. }
  assert (G : forall ord, every_leaf (o_tabs (h_acv h)) ord -> kept_cache (mkKept h (Some c)) ord X [[]] = Stray).
  { intros ord Hord. unfold kept_cache. rewrite (e_checked listed sig ts stacked boosted d w k data zs h X xs m [[]] P HE Hh).
    cbn [andthen k_counts k_shap as_float buffer2 same_dtype]. rewrite Er. rewrite ?points_of. cbn [cols rows].
    apply (leaf_list_in d w _ _ (e_wf ts stacked d w k data zs X xs m [[]] P HE _ Ht)) in Hi.
    destruct (In_nth ts t no_tree Ht) as (b & Hb & Eb). destruct (In_nth _ _ 0 Hi) as (n & Hn & En).
    assert (Hb' : b < t_trees (o_tabs (h_acv h))) by (rewrite (h_trees listed sig ts stacked boosted d w k data zs h Hok Hdata Hh); exact Hb).
    assert (Hn' : n < t_nb (o_tabs (h_acv h)) b) by (rewrite (h_nb listed sig ts stacked boosted d w k data zs h Hok Hdata Hh), Eb; exact Hn).
    pose proof (e_leaf listed sig ts stacked boosted d w k data zs h X xs m [[]] P HL HE Hh b n Hb' Hn') as Hlf.
    assert (Hs : In s (h_nid h b n)).
    { rewrite (h_nids listed sig ts stacked boosted d data zs h Hdata Hh), Eb, En.
      apply (node_set_above listed HL d w _ _ (e_wf ts stacked d w k data zs X xs m [[]] P HE _ Ht) Hi). exact Ha. }
    assert (Hsd : s < d) by (apply Hlf; exact Hs).
    rewrite (cached_stray _ _ d (length (map point zs)) c (h_max h) m (map point xs) [[]] ord HC Hm
      (e_tabs listed sig ts stacked boosted d w k data zs h X xs m [[]] P HE Hh) Hord b n s [s]); trivial.
    - cbn [va_ids has_coal]. rewrite (map_nth_error _ s (seq 0 m) (d := s)); [reflexivity|]. rewrite (nth_error_nth' _ 0) by (rewrite seq_length; lia).
      now rewrite seq_nth by lia.
    - cbn [leaf_groups has_coal]. apply in_map_iff. exists s. auto.
    - now rewrite Hc. }
  rewrite (kept_dispatch listed sig ts stacked boosted d w k data zs h X xs m [[]] P HE Hh) by discriminate.
  pose proof (e_every listed sig ts stacked boosted d w k data zs h X xs m [[]] P HE Hh order Ho) as He.
  split; [now apply G|]. split; [now apply G|]. unfold kept_cache_nopa. cbn [k_shap]. apply G. apply e_turn.
Qed.

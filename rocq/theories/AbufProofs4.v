(** Proofs about the active Shapley values of an [ACVTree], from its trees. *)
From Verif Require Import Base TreeModel TreeSpec TreeProofs GameSpec GameProofs ShapModel ShapSpec ShapProofs NopaModel AcvModel AcvSpec AcvProofs
  FlatModel FlatSpec FlatProofs SkModel SkSpec SkProofs
  SdpModel SdpSpec SdpProofs ArrModel ArrSpec ArrProofs ArrProofs2 ArrProofs3 ArrProofs4 EntryModel EntrySpec EntryProofs EntryProofs2 EntryProofs3 SbufModel SbufSpec SbufProofs SbufProofs2
  AbufModel AbufSpec AbufProofs AbufProofs2 AbufProofs3.
Local Open Scope nat_scope.

Section Active.
Variables (listed : list nat -> list nat) (sig : Q -> Q) (ts : list mtree) (stacked : nat) (boosted : bool) (d w k : nat)
  (data : marg) (zs : list (list Q)) (h : shap_acv) (X : marg) (xs : list (list Q)) (m : nat) (C : list (list nat)) (A N : list nat) (P : list (list nat)).
Hypothesis HL : lists_set listed.
Hypothesis HE : activated ts stacked d w k data zs X xs m C A N P.
Hypothesis Hh : construct_shap listed sig ts stacked boosted data = Some h.

Lemma aOk : ensemble_ok ts stacked d w k. Proof. apply HE. Qed.
Lemma aData : is_table data d zs. Proof. apply HE. Qed.
Lemma aX : is_table X m xs. Proof. apply HE. Qed.
Lemma aXs : xs <> []. Proof. apply HE. Qed.
Lemma aM : d <= m. Proof. apply HE. Qed.
Lemma aC : coalitions_ok C d. Proof. apply HE. Qed.
Lemma aCne : C <> []. Proof. apply HE. Qed.
Lemma aP : is_players_of C A P. Proof. apply HE. Qed.
Lemma aA : NoDup A. Proof. apply HE. Qed.
Lemma aAm s : In s A -> s < m. Proof. apply HE. Qed.
Lemma aN : NoDup N. Proof. apply HE. Qed.
Lemma aNd s : In s N -> s < d. Proof. apply HE. Qed.
Lemma aPN g s : In g P -> In s g -> ~ In s N. Proof. apply HE. Qed.
Lemma aCov t i s : In t ts -> is_leaf_of t i -> above (as_tree t 0) s i -> In s A \/ In s N. Proof. apply HE. Qed.
Lemma aPerm : Permutation P (acv_va_ids C A).
Proof. eapply players_of_perm; [exact aP|]. exact (acv_va_ids_players C d A aC aA). Qed.
Lemma aPN' g s : In g (acv_va_ids C A) -> In s g -> ~ In s N.
Proof. intro Hg. apply aPN. eapply Permutation_in; [apply Permutation_sym; exact aPerm|exact Hg]. Qed.

Notation T := (o_tabs (h_acv h)).
Notation nid := (h_nid h).
Notation pts := (map point zs).
Lemma aTabs : tabs_ok T.
Proof. exact (h_tabs listed sig ts stacked boosted d w k data zs h aOk aData Hh). Qed.
Lemma aLeaf j b n : b < t_trees T -> n < t_nb T b -> ShapSpec.leaf_ok d (leaf_at T nid j b n).
Proof. exact (h_leaf_ok listed sig ts stacked boosted d w k data zs h HL aOk aData Hh j b n). Qed.
Lemma aOut : t_out T = k.
Proof. exact (h_out listed sig ts stacked boosted d w k data zs h aOk aData Hh). Qed.
Lemma aRows : h_data h = mkMat d zs.
Proof. exact (h_rows listed sig ts stacked boosted d data zs h aData Hh). Qed.
Lemma aWf t : In t ts -> well_formed d w t.
Proof. exact (h_wf ts stacked d w k aOk t). Qed.
Lemma aPlace b n : b < t_trees T -> n < t_nb T b ->
  In (nth b ts no_tree) ts /\ In (nth n (leaf_list (nth b ts no_tree)) 0) (leaf_list (nth b ts no_tree)).
Proof. exact (leaf_at_place listed sig ts stacked boosted d w k data zs h aOk aData Hh b n). Qed.
Lemma aNids b j : nid b j = node_set listed (nth b ts no_tree) (nth j (leaf_list (nth b ts no_tree)) 0).
Proof. exact (h_nids listed sig ts stacked boosted d data zs h aData Hh b j). Qed.
Lemma aNid b n s : b < t_trees T -> n < t_nb T b -> In s (nid b n) ->
  above (as_tree (nth b ts no_tree) 0) s (nth n (leaf_list (nth b ts no_tree)) 0).
Proof.
  intros Hb Hn Hs. destruct (aPlace b n Hb Hn) as [H1 H2]. rewrite aNids in Hs. now apply (node_set_above listed HL d w _ _ (aWf _ H1) H2) in Hs.
Qed.
Lemma aCover b n s : b < t_trees T -> n < t_nb T b -> In s (nid b n) -> In s A \/ In s N.
Proof.
  intros Hb Hn Hs. destruct (aPlace b n Hb Hn) as [H1 H2]. apply (aCov _ _ s H1 (proj1 (leaf_list_in d w _ _ (aWf _ H1)) H2)). now apply aNid.
Qed.
Lemma aForestOk j : forest_ok d (forest_at T nid j).
Proof. exact (h_forest_ok listed sig ts stacked boosted d w k data zs h HL aOk aData Hh j). Qed.
Lemma aDisj s : In s A -> ~ In s N.
Proof.
  intros Hs. destruct (cover_player C A P aP s Hs) as (g & Hg & Hsg). now apply (aPN g).
Qed.
Lemma aNull j : active_null_cover A N (forest_at T nid j).
Proof.
  split; [exact aA|]. split; [exact aDisj|]. intros ls lf s Hls Hlf Hs. unfold forest_at in Hls. apply in_map_iff in Hls. destruct Hls as (b & <- & Hb).
  apply in_map_iff in Hlf. destruct Hlf as (n & <- & Hn). apply in_seq in Hb. apply in_seq in Hn. apply (aCover b n s); [lia|lia|exact Hs].
Qed.
Lemma aNe : pts <> [].
Proof. exact (data_ne listed sig ts stacked boosted d data zs h aData Hh). Qed.
Lemma aCheck : check_array X = Returned (M_array F64 m xs).
Proof. exact (x_checked listed sig ts stacked boosted d data zs h aData Hh X xs m aX aXs aM). Qed.
Lemma acv_active_call order : acv_active h order X (S_array I64 A) (S_array I64 N) C =
  ncube (length xs) m k (active_prog T nid d pts (h_max h) m (map point xs) C A N order).
Proof. unfold acv_active. rewrite aCheck. cbn [andthen buffer2 buffer1 same_dtype cols rows]. rewrite aRows, aOut. reflexivity. Qed.
Lemma acv_active_nopa_call : acv_active_nopa h X (S_array I64 A) (S_array I64 N) C =
  ncube (length xs) m k (active_seq_prog T nid d pts m (map point xs) C A N).
Proof. unfold acv_active_nopa. rewrite aCheck. cbn [andthen buffer2 buffer1 as_float same_dtype cols rows]. rewrite aRows, aOut. reflexivity. Qed.
Lemma ncube_intro o r (Q' : list Q -> (nat -> nat -> option Q) -> Prop) : o = Some r ->
  (forall i x f, nth_error xs i = Some x -> (forall c j, c < m -> j < k -> f c j = r i c j) -> Q' x f) ->
  ncube_entries (ncube (length xs) m k o) xs m k Q'.
Proof.
  intros -> H. eexists. split; [reflexivity|]. split; [now rewrite map_length, seq_length|]. intros i x Hx.
  pose proof (nth_error_lt _ _ _ Hx) as Hi.
  exists (map (fun c => map (r i c) (seq 0 k)) (seq 0 m)). split.
  { rewrite (map_nth_error _ i (seq 0 (length xs)) (d := i)); [reflexivity|]. rewrite (nth_error_nth' _ 0) by (rewrite seq_length; lia). now rewrite seq_nth by lia. }
  split; [now rewrite map_length, seq_length|]. split.
  { intros row Hr. apply in_map_iff in Hr. destruct Hr as (c & <- & _). now rewrite map_length, seq_length. }
  apply (H i x); [exact Hx|]. intros c j Hc Hj. rewrite (cell_of (fun c => _)) by exact Hc. now rewrite cell_of.
Qed.
Lemma active_above b n : b < t_trees T -> n < t_nb T b ->
  players_above P (nth b ts no_tree) (nth n (leaf_list (nth b ts no_tree)) 0) (acv_leaf_groups C A N (nid b n)).
Proof.
  intros Hb Hn. pose proof (aLeaf 0 b n Hb Hn) as Hok. pose proof (fun s => aCover b n s Hb Hn) as Hcov.
  destruct (acv_groups_touch C d A N P (leaf_at T nid 0 b n) aC aP Hok Hcov aDisj) as [Hnd Hp]. cbv zeta in Hp. cbn [l_vars leaf_at] in *.
  destruct (aPlace b n Hb Hn) as [H1 H2].
  split; [exact Hnd|]. intro g.
  assert (G : In g P -> In g (acv_leaf_groups C A N (nid b n)) <-> exists s, In s g /\ In s (nid b n)).
  { intro Hg. exact (group_touched C d A N P (forest_at T nid 0) aC aP (aNull 0) aPN (leaf_at T nid 0 b n) g Hok Hcov Hg). }
  assert (E : forall s, In s (nid b n) <-> above (as_tree (nth b ts no_tree) 0) s (nth n (leaf_list (nth b ts no_tree)) 0)).
  { intro s. rewrite aNids. apply (node_set_above listed HL d w _ _ (aWf _ H1) H2). }
  split.
  - intro Hg. assert (HgP : In g P) by (apply (Permutation_in _ Hp), filter_In in Hg; apply Hg). split; [exact HgP|].
    apply (G HgP) in Hg. destruct Hg as (s & Hs & Hv). exists s. split; [exact Hs|now apply E].
  - intros [Hg (s & Hs & Hv)]. apply (G Hg). exists s. split; [exact Hs|now apply E].
Qed.
Lemma aTs : ts <> []. Proof. exact (proj1 aOk). Qed.
Lemma aMv : ensemble_max listed ts = Some (h_max h).
Proof. exact (h_mv listed sig ts stacked boosted d data zs h aData Hh). Qed.
Lemma active_fit : room ts P -> all_fit_n T nid (h_max h) C A N.
Proof.
  intros H b n Hb Hn. destruct (aPlace b n Hb Hn) as [H1 H2].
  destruct (H _ _ _ H1 (proj1 (leaf_list_in d w _ _ (aWf _ H1)) H2) (active_above b n Hb Hn)) as (i' & l & Hi & Hl & Hle).
  pose proof (last_in ts no_tree aTs) as Hlast. apply (leaf_list_in d w _ _ (aWf _ Hlast)) in Hi.
  pose proof (max_bounds listed ts _ i' aTs aMv Hi) as Hb'.
  rewrite (features_length _ _ _ _ Hl (node_set_above listed HL d w _ _ (aWf _ Hlast) Hi)) in Hle. lia.
Qed.
Lemma aOrders order : leaf_orders ts order -> every_leaf T order.
Proof. exact (orders_every listed sig ts stacked boosted d w k data zs h aOk aData Hh order). Qed.

Notation av j x c := (shap_values_acv C d A N pts (forest_at T nid j) (point x) c).
Lemma seq_entries (Q' : list Q -> (nat -> nat -> option Q) -> Prop) :
  (forall x f, (forall c j, c < m -> j < k -> oeq (f c j) (av j x c)) -> Q' x f) ->
  ncube_entries (acv_active_nopa h X (S_array I64 A) (S_array I64 N) C) xs m k Q'.
Proof.
  intro H. rewrite acv_active_nopa_call.
  destruct (active_seq_values T nid d pts m (map point xs) C A N aC aM aA aAm aN aNd aPN' aTabs (aLeaf 0) aCover aCne) as (phi & E & V).
  apply (ncube_intro _ phi); [exact E|]. intros i x f Hx Hf. apply H. intros c j Hc Hj. rewrite (Hf c j Hc Hj).
  apply V; [now apply point_at|now rewrite aOut].
Qed.
Lemma par_entries order (Q' : list Q -> (nat -> nat -> option Q) -> Prop) : room ts P -> leaf_orders ts order ->
  (forall x f, (forall c j, c < d -> j < k -> oeq (f c j) (av j x c)) ->
               (forall c j, d <= c -> c < m -> j < k -> oeq (f c j) (cdiv 0 (Qn (length P)))) -> Q' x f) ->
  ncube_entries (acv_active h order X (S_array I64 A) (S_array I64 N) C) xs m k Q'.
Proof.
  intros Hr Ho H. rewrite acv_active_call.
  destruct (active_prog_values T nid d pts (h_max h) m (map point xs) C A N aC aM aA aAm aN aNd aPN' aTabs (aLeaf 0) aCover order aCne (active_fit Hr) (aOrders order Ho)) as (phi & E & V).
  apply (ncube_intro _ phi); [exact E|]. intros i x f Hx Hf.
  assert (G : forall c j, c < m -> j < k -> oeq (f c j) (if c <? d then av j x c else cdiv 0 (Qn (length (acv_va_ids C A))))).
  { intros c j Hc Hj. rewrite (Hf c j Hc Hj). apply V; [now apply point_at|now rewrite aOut]. }
  pose proof aM as Hm. apply H.
  - intros c j Hc Hj. specialize (G c j ltac:(lia) Hj). now rewrite (proj2 (Nat.ltb_lt _ _) Hc) in G.
  - intros c j Hc Hc' Hj. specialize (G c j Hc' Hj). rewrite (proj2 (Nat.ltb_ge _ _) Hc) in G. now rewrite (Permutation_length aPerm).
Qed.
Lemma active_stray order : no_room ts P -> leaf_orders ts order -> acv_active h order X (S_array I64 A) (S_array I64 N) C = Stray.
Proof.
  intros (t & i & ps & Ht & Hi & Hps & Hbig) Ho. rewrite acv_active_call.
  apply (leaf_list_in d w _ _ (aWf _ Ht)) in Hi.
  destruct (In_nth ts t no_tree Ht) as (b & Hb & Eb). destruct (In_nth _ _ 0 Hi) as (n & Hn & En).
  destruct (max_attained listed ts _ aTs aMv) as (i' & Hi' & Emv).
  pose proof (last_in ts no_tree aTs) as Hlast.
  pose proof (Hbig i' _ (proj1 (leaf_list_in d w _ _ (aWf _ Hlast)) Hi') (node_set_above listed HL d w _ _ (aWf _ Hlast) Hi')) as Hlt.
  assert (Hb' : b < t_trees T) by (rewrite (h_trees listed sig ts stacked boosted d w k data zs h aOk aData Hh); exact Hb).
  assert (Hn' : n < t_nb T b) by (rewrite (h_nb listed sig ts stacked boosted d w k data zs h aOk aData Hh), Eb; exact Hn).
  pose proof (active_above b n Hb' Hn') as Hg. rewrite Eb, En in Hg.
  rewrite (active_prog_stray T nid d pts (h_max h) m (map point xs) C A N aC aM aA aAm aPN' aTabs (aLeaf 0) aCover order b n); trivial.
  - rewrite (SbufProofs2.players_length _ _ _ _ _ Hg Hps). lia.
  - now apply aOrders.
Qed.

(** the leaves with the features in either order *)
Lemma leaf_vars j lf : (exists ls, In ls (forest_at T nid j) /\ In lf ls) ->
  exists ls lf', In ls (forest_at T (vars ts) j) /\ In lf' ls /\ l_rect lf' = l_rect lf /\ forall s, In s (l_vars lf') <-> In s (l_vars lf).
Proof.
  intros (ls & Hls & Hlf). unfold forest_at in Hls. apply in_map_iff in Hls. destruct Hls as (b & <- & Hb). apply in_map_iff in Hlf. destruct Hlf as (n & <- & Hn).
  exists (map (leaf_at T (vars ts) j b) (seq 0 (t_nb T b))), (leaf_at T (vars ts) j b n).
  split; [apply in_map_iff; eauto|]. split; [apply in_map_iff; eauto|]. split; [reflexivity|]. intro s. cbn [leaf_at l_vars]. rewrite aNids.
  symmetry. apply (node_set_nids listed HL).
Qed.
Lemma leaf_vars' j lf : (exists ls, In ls (forest_at T (vars ts) j) /\ In lf ls) ->
  exists ls lf', In ls (forest_at T nid j) /\ In lf' ls /\ l_rect lf' = l_rect lf /\ forall s, In s (l_vars lf') <-> In s (l_vars lf).
Proof.
  intros (ls & Hls & Hlf). unfold forest_at in Hls. apply in_map_iff in Hls. destruct Hls as (b & <- & Hb). apply in_map_iff in Hlf. destruct Hlf as (n & <- & Hn).
  exists (map (leaf_at T nid j b) (seq 0 (t_nb T b))), (leaf_at T nid j b n).
  split; [apply in_map_iff; eauto|]. split; [apply in_map_iff; eauto|]. split; [reflexivity|]. intro s. cbn [leaf_at l_vars]. rewrite aNids.
  apply (node_set_nids listed HL).
Qed.
Lemma countable_vars j g : countable d N pts (forest_at T nid j) g <-> countable d N pts (forest_at T (vars ts) j) g.
Proof.
  split; intros H ls lf Hls Hlf.
  - destruct (leaf_vars' j lf (ex_intro _ ls (conj Hls Hlf))) as (ls' & lf' & K1 & K2 & K3 & K4). destruct (H ls' lf' K1 K2) as [G1 G2]. rewrite K3 in *.
    split; [intros (s & Hs & Hv); apply G1; exists s; split; [exact Hs|now apply K4]|]. intro Hn. apply G2. intros s Hs Hv. apply (Hn s Hs). now apply K4.
  - destruct (leaf_vars j lf (ex_intro _ ls (conj Hls Hlf))) as (ls' & lf' & K1 & K2 & K3 & K4). destruct (H ls' lf' K1 K2) as [G1 G2]. rewrite K3 in *.
    split; [intros (s & Hs & Hv); apply G1; exists s; split; [exact Hs|now apply K4]|]. intro Hn. apply G2. intros s Hs Hv. apply (Hn s Hs). now apply K4.
Qed.
Lemma worth_acv_vars j x Tm : (worth_acv d N pts (forest_at T nid j) x Tm == worth_acv d N pts (forest_at T (vars ts) j) x Tm)%Q.
Proof.
  unfold worth_acv. destruct Tm; apply worth_vars.
Qed.
Lemma oeq_some a q : oeq a (Some q) -> exists p, a = Some p /\ (p == q)%Q.
Proof. destruct a as [p|]; [eauto|contradiction]. Qed.
Lemma oeq_none a : oeq a None -> a = None.
Proof. now destruct a. Qed.
Lemma active_value j x f g c : In g P -> In c g -> oeq f (av j x c) ->
  (countable d N pts (forest_at T (vars ts) j) g -> exists q, f = Some q /\ (q == shapley gdec P (worth_acv d N pts (forest_at T (vars ts) j) (point x)) g)%Q) /\
  (~ countable d N pts (forest_at T (vars ts) j) g -> f = None).
Proof.
  intros Hg Hc Hf. rewrite <- countable_vars.
  pose proof (value_number C d A N P pts (forest_at T nid j) (point x) aC aP (aForestOk j) aNe (aNull j) aPN g c Hg Hc) as Hn. split.
  - intro Hq. apply Hn in Hq. destruct Hq as [q Eq]. rewrite Eq in Hf. destruct (oeq_some _ _ Hf) as (p & -> & Ep). exists p. split; [reflexivity|].
    rewrite Ep, (acv_is_shapley C d A N P pts _ (point x) g c q aC aP (aForestOk j) aNe (aNull j) Hg Hc Eq).
    apply shapley_ext. intro. apply worth_acv_vars.
  - intro Hq. destruct (av j x c) as [q|] eqn:E; [|now apply oeq_none]. exfalso. apply Hq, Hn. exists q. reflexivity.
Qed.
Lemma col_m g c : In g P -> In c g -> c < m.
Proof.
  intros Hg Hc. apply aP in Hg. destruct Hg as [[Hg _]|(i & Hi & _ & ->)].
  - pose proof aM. assert (c < d) by (apply aC; apply in_concat; eauto). lia.
  - destruct Hc as [<-|[]]. now apply aAm.
Qed.
Lemma aForest j : forest_leaves (shared (raw_share stacked) ts j) = Some (forest_at T (vars ts) j).
Proof. exact (h_forest listed sig ts stacked boosted d w k data zs h aOk aData Hh j). Qed.
Definition shapley_where (ok : nat -> Prop) (x : list Q) (f : nat -> nat -> option Q) : Prop := forall j, j < k ->
  exists forest, forest_leaves (shared (raw_share stacked) ts j) = Some forest /\
  forall g c, In g P -> In c g -> ok c ->
    (countable d N pts forest g -> exists q, f c j = Some q /\ (q == shapley gdec P (worth_acv d N pts forest (point x)) g)%Q) /\
    (~ countable d N pts forest g -> f c j = None).
Lemma active_sequential : ncube_entries (acv_active_nopa h X (S_array I64 A) (S_array I64 N) C) xs m k (shapley_where (fun _ => True)).
Proof.
  apply seq_entries. intros x f Hf j Hj. eexists. split; [exact (aForest j)|]. intros g c Hg Hc _.
  apply (active_value j x _ g c Hg Hc). apply Hf; [eapply col_m; eassumption|exact Hj].
Qed.
Lemma active_parallel order : room ts P -> leaf_orders ts order ->
  ncube_entries (acv_active h order X (S_array I64 A) (S_array I64 N) C) xs m k (shapley_where (fun c => c < d)).
Proof.
  intros Hr Ho. apply (par_entries order _ Hr Ho). intros x f Hf _ j Hj. eexists. split; [exact (aForest j)|]. intros g c Hg Hc Hd.
  apply (active_value j x _ g c Hg Hc). now apply Hf.
Qed.
(** columns that no player has *)
Lemma no_player_zero j x f c : P <> [] -> (forall g, In g P -> ~ In c g) -> oeq f (av j x c) -> exists q, f = Some q /\ (q == 0)%Q.
Proof.
  intros Hne Hno Hf. rewrite (column_zero C d A N P pts _ (point x) aC aP (aNull j) aPN c Hne Hno) in Hf. now apply oeq_some.
Qed.
Lemma n_zero : P <> [] -> exists q, cdiv 0 (Qn (length P)) = Some q /\ (q == 0)%Q.
Proof.
  intro Hne. destruct (proj2 (cdiv_number 0 (length P))) as [q E]; [destruct P; [congruence|cbn; lia]|]. exists q. split; [exact E|].
  apply cdiv_some in E. destruct E as [_ ->]. unfold Qdiv. ring.
Qed.
Lemma active_nobody order : P <> [] -> let nothing (_ : list Q) (f : nat -> nat -> option Q) := forall c j, c < m -> j < k -> (forall g, In g P -> ~ In c g) ->
    exists q, f c j = Some q /\ (q == 0)%Q in
  (room ts P -> leaf_orders ts order -> ncube_entries (acv_active h order X (S_array I64 A) (S_array I64 N) C) xs m k nothing) /\
  ncube_entries (acv_active_nopa h X (S_array I64 A) (S_array I64 N) C) xs m k nothing.
Proof.
  intros Hne nothing. split.
  - intros Hr Ho. apply (par_entries order _ Hr Ho). intros x f Hf Hf' c j Hc Hj Hno. destruct (Nat.lt_ge_cases c d) as [L|L].
    + apply (no_player_zero j x _ c Hne Hno). now apply Hf.
    + specialize (Hf' c j L Hc Hj). destruct (n_zero Hne) as (q & E & Eq). rewrite E in Hf'. destruct (oeq_some _ _ Hf') as (p & -> & Ep). exists p. split; [reflexivity|]. now rewrite Ep.
  - apply seq_entries. intros x f Hf c j Hc Hj Hno. apply (no_player_zero j x _ c Hne Hno). now apply Hf.
Qed.
(** an active column beyond those of the model *)
Lemma active_beyond order : P <> [] -> room ts P -> leaf_orders ts order ->
  ncube_entries (acv_active h order X (S_array I64 A) (S_array I64 N) C) xs m k (fun _ f => forall c j, d <= c -> c < m -> j < k ->
    exists q, f c j = Some q /\ (q == 0)%Q).
Proof.
  intros Hne Hr Ho. apply (par_entries order _ Hr Ho). intros x f _ Hf' c j Hd Hc Hj.
  specialize (Hf' c j Hd Hc Hj). destruct (n_zero Hne) as (q & E & Eq). rewrite E in Hf'. destruct (oeq_some _ _ Hf') as (p & -> & Ep). exists p. split; [reflexivity|]. now rewrite Ep.
Qed.
Lemma none_at_all order : P = [] -> let nan (_ : list Q) (f : nat -> nat -> option Q) := forall c j, c < m -> j < k -> f c j = None in
  (room ts P -> leaf_orders ts order -> ncube_entries (acv_active h order X (S_array I64 A) (S_array I64 N) C) xs m k nan) /\
  ncube_entries (acv_active_nopa h X (S_array I64 A) (S_array I64 N) C) xs m k nan.
Proof.
  intros E nan. assert (Hn : length (acv_va_ids C A) = 0) by (rewrite <- (Permutation_length aPerm), E; reflexivity).
  assert (Hv : forall j x c, av j x c = None).
  { intros j x c. unfold shap_values_acv. cbv zeta. rewrite Hn. destruct (osum _ _); reflexivity. }
  split.
  - intros Hr Ho. apply (par_entries order _ Hr Ho). intros x f Hf Hf' c j Hc Hj. apply oeq_none. destruct (Nat.lt_ge_cases c d) as [L|L].
    + specialize (Hf c j L Hj). now rewrite Hv in Hf.
    + specialize (Hf' c j L Hc Hj). rewrite E in Hf'. exact Hf'.
  - apply seq_entries. intros x f Hf c j Hc Hj. apply oeq_none. specialize (Hf c j Hc Hj). now rewrite Hv in Hf.
Qed.
(** every leaf holds a background row *)
Lemma filled_leaves j : filled ts zs -> forall ls lf, In ls (forest_at T (vars ts) j) -> In lf ls -> exists z, In z pts /\ Inside d (l_rect lf) z.
Proof.
  intros Hpop ls lf Hls Hlf. destruct (forest_leaves_in _ _ _ (aForest j) Hls) as (t & Ht & El).
  unfold shared in Ht. apply in_map_iff in Ht. destruct Ht as (b & <- & Hbb). apply in_seq in Hbb.
  set (t := nth b ts no_tree) in *. assert (Hmt : In t ts) by (apply nth_In; lia).
  pose proof (shared_wf (raw_share stacked) j b d w t (aWf t Hmt)) as Hw.
  destruct (leaves_from_nth _ _ _ El) as [_ Hnth]. destruct (In_nth_error _ _ Hlf) as [n Hn]. specialize (Hnth n).
  destruct (nth_error (leaf_idx (shared_tree (raw_share stacked) j b t)) n) as [i'|] eqn:Ei; [|congruence].
  rewrite Hn in Hnth. assert (Hi : In i' (leaf_idx (shared_tree (raw_share stacked) j b t))) by (eapply nth_error_In; exact Ei).
  assert (Hleaf : is_leaf_of t i').
  { apply (leaf_list_in d w t i' (aWf t Hmt)). rewrite (leaf_list_idx (raw_share stacked) j b d w t (aWf t Hmt)). exact Hi. }
  destruct (Hpop t i' Hmt Hleaf) as (z & Hz & Hv & _). exists (point z). split; [apply in_map_iff; exists z; auto|].
  unfold leaf_of in Hnth. unfold leaf_idx in Hi. apply filter_In in Hi. destruct Hi as [Hi Hlfi]. apply in_seq in Hi.
  destruct (get_partition_leaf _ d Hw (point z) i' ltac:(lia)) as (p2 & n2 & E2 & M2).
  rewrite E2 in Hnth. injection Hnth as <-. cbn [l_rect]. apply in_rect_Inside. apply M2.
  clear - Hv. induction Hv as [|i0 j0 Hv IH Hl Hd]; [constructor|]. eapply vis_step; [exact IH|exact Hl|].
  destruct Hd as [Hd|Hd Hd'|Hd Hd']; [exact (dec_default (shared_tree (raw_share stacked) j b t) _ no_missing i0 Hd)
    |exact (dec_left (shared_tree (raw_share stacked) j b t) _ no_missing i0 Hd Hd')
    |exact (dec_right (shared_tree (raw_share stacked) j b t) _ no_missing i0 Hd Hd')].
Qed.
Lemma aFilled j : filled ts zs -> forall ls lf, In ls (forest_at T nid j) -> In lf ls -> exists z, In z pts /\ Inside d (l_rect lf) z.
Proof.
  intros H ls lf Hls Hlf. destruct (leaf_vars j lf (ex_intro _ ls (conj Hls Hlf))) as (ls' & lf' & K1 & K2 & K3 & _). rewrite <- K3. now apply (filled_leaves j H ls').
Qed.
Lemma active_accounts rep x f : (forall g, In g P -> In (rep g) g) -> P <> [] -> filled ts zs ->
  (forall g j, In g P -> j < k -> oeq (f (rep g) j) (av j x (rep g))) ->
  forall j v vs, j < k -> adds_up (raw_share stacked) ts j x v -> Forall2 (adds_up (raw_share stacked) ts j) zs vs ->
  exists q, (forall g, In g P -> f (rep g) j = Some (q g)) /\ (sumf q P == v - mean (fun v => v) vs)%Q.
Proof.
  intros Hrep Hne Hfill Hf j v vs Hj Hv Hvs.
  set (q := fun g => match f (rep g) j with Some q => q | None => 0%Q end). exists q.
  assert (Hq : forall g, In g P -> f (rep g) j = Some (q g) /\ exists u, av j x (rep g) = Some u /\ (q g == u)%Q).
  { intros g Hg. destruct (proj2 (value_number C d A N P pts (forest_at T nid j) (point x) aC aP (aForestOk j) aNe (aNull j) aPN g (rep g) Hg (Hrep g Hg))) as [u Eu].
    - apply countable_filled; [exact (aForestOk j)|exact (aFilled j Hfill)].
    - pose proof (Hf g j Hg Hj) as H. rewrite Eu in H. destruct (oeq_some _ _ H) as (p & Ep & Epq). unfold q. rewrite Ep. split; [reflexivity|]. eauto. }
  split; [intros g Hg; now apply Hq|].
  set (u := fun c => match av j x c with Some q => q | None => 0%Q end).
  rewrite (sumf_ext _ (fun g => u (rep g))).
  2:{ intros g Hg. destruct (Hq g Hg) as (_ & y & Ey & Eq). unfold u. rewrite Ey. exact Eq. }
  rewrite (acv_efficiency C d A N P pts (forest_at T nid j) (point x) rep u aC aP (aForestOk j) aNe (aNull j) Hrep).
  2:{ intros g Hg. destruct (Hq g Hg) as (_ & y & Ey & _). unfold u. now rewrite Ey. }
  destruct (adds_up_predict _ ts d w j x v aWf Hv) as (rx & Ex & Evx).
  assert (Hr : exists rs, Forall2 (fun z r => dense_tree_predict (shared (raw_share stacked) ts j) (length (shared (raw_share stacked) ts j)) 0 z no_missing = Some r)
     pts rs /\ (sumf (fun r => r) rs == sumf (fun v => v) vs)%Q /\ length zs = length vs).
  { pose proof aWf as Hwf. clear - Hvs Hwf. induction Hvs as [|z v l vs Hz _ IH]; [exists []; repeat split; constructor|].
    destruct IH as (rs & H1 & H2 & H3). destruct (adds_up_predict _ ts d w j z v Hwf Hz) as (q & Eq & Ev).
    exists (q :: rs). split; [constructor; assumption|]. split; [cbn [sumf]; now rewrite Ev, H2|cbn; congruence]. }
  destruct Hr as (rs & Hr & Es & El).
  pose proof (shared_all_wf ts d w aWf (raw_share stacked) j) as Hall.
  assert (E1 : (worth_acv d N pts (forest_at T nid j) (point x) P == rx)%Q).
  { rewrite worth_acv_vars. unfold worth_acv. destruct P as [|g0 P0] eqn:EP; [congruence|]. rewrite <- EP in *.
    pose proof (h_vars_ok listed sig ts stacked boosted d w k data zs h aOk aData Hh j) as HF.
    rewrite (worth_cover d pts (forest_at T (vars ts) j) (point x) HF).
    - rewrite (forest_sum _ d _ (point x) 0 rx Hall (aForest j) Ex). ring.
    - intros ls lf s Hls Hlf Hs. destruct (leaf_vars' j lf (ex_intro _ ls (conj Hls Hlf))) as (ls' & lf' & K1 & K2 & _ & K4).
      apply K4 in Hs. rewrite concat_app. apply in_or_app. destruct (proj2 (proj2 (aNull j)) ls' lf' s K1 K2 Hs) as [Ha|Ha].
      + left. destruct (cover_player C A P aP s Ha) as (g & Hg & Hsg). apply in_concat. eauto.
      + right. cbn. rewrite app_nil_r. exact Ha.
    - exact (filled_leaves j Hfill). }
  assert (E0 : (worth_acv d N pts (forest_at T nid j) (point x) [] == mean (fun v => v) vs)%Q).
  { rewrite worth_acv_vars. unfold worth_acv. rewrite worth_none by exact aNe.
    assert (E : (sumf (fun z => sumf (fun ls => sumf (fun lf => Qb (in_rect d (l_rect lf) z) * l_val lf) ls) (forest_at T (vars ts) j)) pts == sumf (fun r => r) rs)%Q).
    { pose proof (aForest j) as Hfo. clear - Hall Hfo Hr. induction Hr as [|z r dt rdata Hz H IH]; cbn [sumf]; [reflexivity|].
      rewrite IH, (forest_sum _ d _ z 0 r Hall Hfo Hz). ring. }
    rewrite E, Es, map_length, El. unfold mean. destruct vs; [|reflexivity]. pose proof aNe as Hz. destruct zs; [exfalso; now apply Hz|discriminate El]. }
  rewrite E1, E0, Evx. reflexivity.
Qed.
Lemma active_adds order rep : (forall g, In g P -> In (rep g) g) -> P <> [] -> filled ts zs -> let accounts (x : list Q) (f : nat -> nat -> option Q) :=
    forall j v vs, j < k -> adds_up (raw_share stacked) ts j x v -> Forall2 (adds_up (raw_share stacked) ts j) zs vs ->
    exists q, (forall g, In g P -> f (rep g) j = Some (q g)) /\ (sumf q P == v - mean (fun v => v) vs)%Q in
  ((forall g, In g P -> rep g < d) -> room ts P -> leaf_orders ts order -> ncube_entries (acv_active h order X (S_array I64 A) (S_array I64 N) C) xs m k accounts) /\
  ncube_entries (acv_active_nopa h X (S_array I64 A) (S_array I64 N) C) xs m k accounts.
Proof.
  intros Hrep Hne Hfill accounts. split.
  - intros Hd Hr Ho. apply (par_entries order _ Hr Ho). intros x f Hf _. refine (active_accounts rep x f Hrep Hne Hfill _). intros g j Hg Hj. apply Hf; [now apply Hd|exact Hj].
  - apply seq_entries. intros x f Hf. refine (active_accounts rep x f Hrep Hne Hfill _). intros g j Hg Hj. apply Hf; [apply (col_m g); [exact Hg|now apply Hrep]|exact Hj].
Qed.
(** all numbers: every leaf holds a row *)
Lemma leaves_filled : (forall ls lf, In ls (forest_at T (vars ts) 0) -> In lf ls -> exists z, In z pts /\ Inside d (l_rect lf) z) -> filled ts zs.
Proof.
  intros H t i Ht Hi. pose proof (leaf_list_in d w t i (aWf t Ht)) as Hin. pose proof (proj2 Hin Hi) as Hl.
  destruct (In_nth ts t no_tree Ht) as (b & Hb & Eb).
  pose proof (shared_wf (raw_share stacked) 0 b d w t (aWf t Ht)) as Hw.
  assert (Hs : In (shared_tree (raw_share stacked) 0 b t) (shared (raw_share stacked) ts 0)).
  { unfold shared. apply in_map_iff. exists b. rewrite Eb. split; [reflexivity|apply in_seq; lia]. }
  assert (G : forall l fo, forest_leaves l = Some fo -> forall t0, In t0 l -> exists ls, In ls fo /\ tree_leaves t0 = Some ls).
  { clear. induction l as [|a l IH]; intros fo E t0 Ht0; [contradiction|]. cbn in E. destruct (tree_leaves a) as [ls|] eqn:Ea; [|discriminate].
    destruct (forest_leaves l) as [f|]; [|discriminate]. injection E as <-. destruct Ht0 as [<-|Ht0]; [exists ls; split; [now left|exact Ea]|].
    destruct (IH f eq_refl t0 Ht0) as (ls' & K1 & K2). exists ls'. split; [now right|exact K2]. }
  destruct (G _ _ (aForest 0) _ Hs) as (ls & Hls & El).
  rewrite (leaf_list_idx (raw_share stacked) 0 b d w t (aWf t Ht)) in Hl.
  destruct (In_nth_error _ _ Hl) as [n En]. destruct (leaves_from_nth _ _ _ El) as [_ Hnth]. specialize (Hnth n). rewrite En in Hnth.
  unfold leaf_of in Hnth. pose proof Hl as Hl'. unfold leaf_idx in Hl'. apply filter_In in Hl'. destruct Hl' as [Hi' Hlf]. apply in_seq in Hi'.
  destruct (get_partition_leaf _ d Hw (fun _ => 0%Q) i ltac:(lia)) as (p1 & n1 & E1 & _). rewrite E1 in Hnth. symmetry in Hnth. apply nth_error_In in Hnth.
  destruct (H ls _ Hls Hnth) as (z & Hz & Hzi). cbn [l_rect] in Hzi. apply in_map_iff in Hz. destruct Hz as (z0 & <- & Hz). exists z0. split; [exact Hz|].
  destruct (get_partition_leaf _ d Hw (point z0) i ltac:(lia)) as (p2 & n2 & E2 & M2). rewrite E1 in E2. injection E2 as <- <-.
  apply in_rect_Inside in Hzi. apply M2 in Hzi. split; [|exact Hlf].
  clear - Hzi. induction Hzi as [|i0 j0 Hv IH Hl Hd]; [constructor|]. eapply vis_step; [exact IH|exact Hl|].
  destruct Hd as [Hd|Hd Hd'|Hd Hd']; [exact (dec_default (as_tree t 0) _ no_missing i0 Hd)
    |exact (dec_left (as_tree t 0) _ no_missing i0 Hd Hd')
    |exact (dec_right (as_tree t 0) _ no_missing i0 Hd Hd')].
Qed.
Lemma numbers_filled x f rep : (forall g, In g P -> In (rep g) g) -> P <> [] -> 0 < k ->
  (forall g j, In g P -> j < k -> oeq (f (rep g) j) (av j x (rep g))) ->
  ((forall g j, In g P -> j < k -> exists q, f (rep g) j = Some q) <-> filled ts zs).
Proof.
  intros Hrep Hne Hk Hf.
  assert (V : forall g j, In g P -> j < k -> ((exists q, f (rep g) j = Some q) <-> countable d N pts (forest_at T nid j) g)).
  { intros g j Hg Hj. rewrite <- (value_number C d A N P pts (forest_at T nid j) (point x) aC aP (aForestOk j) aNe (aNull j) aPN g (rep g) Hg (Hrep g Hg)).
    specialize (Hf g j Hg Hj). unfold number. destruct (f (rep g) j) as [p|], (av j x (rep g)) as [u|]; cbn in Hf; try contradiction; split; eauto; intros [y H]; discriminate. }
  split.
  - intro H. apply leaves_filled. intros ls lf Hls Hlf. destruct (leaf_vars' 0 lf (ex_intro _ ls (conj Hls Hlf))) as (ls' & lf' & K1 & K2 & K3 & _). rewrite <- K3.
    apply (filled_countable C d A N P pts (forest_at T nid 0) aP (aForestOk 0) (aNull 0) aPN Hne) with (ls := ls'); trivial.
    intros g Hg. apply (V g 0 Hg Hk). now apply H.
  - intros H g j Hg Hj. apply (V g j Hg Hj). apply countable_filled; [exact (aForestOk j)|exact (aFilled j H)].
Qed.
Lemma active_numbers order rep : (forall g, In g P -> In (rep g) g) -> P <> [] -> 0 < k -> let told (x : list Q) (f : nat -> nat -> option Q) :=
    (forall g j, In g P -> j < k -> exists q, f (rep g) j = Some q) <-> filled ts zs in
  ((forall g, In g P -> rep g < d) -> room ts P -> leaf_orders ts order -> ncube_entries (acv_active h order X (S_array I64 A) (S_array I64 N) C) xs m k told) /\
  ncube_entries (acv_active_nopa h X (S_array I64 A) (S_array I64 N) C) xs m k told.
Proof.
  intros Hrep Hne Hk told. split.
  - intros Hd Hr Ho. apply (par_entries order _ Hr Ho). intros x f Hf _. apply (numbers_filled x f rep Hrep Hne Hk). intros g j Hg Hj. apply Hf; [now apply Hd|exact Hj].
  - apply seq_entries. intros x f Hf. apply (numbers_filled x f rep Hrep Hne Hk). intros g j Hg Hj. apply Hf; [apply (col_m g); [exact Hg|now apply Hrep]|exact Hj].
Qed.
Lemma active_same order : m = d -> room ts P -> leaf_orders ts order ->
  exists res res', acv_active h order X (S_array I64 A) (S_array I64 N) C = Returned res /\ acv_active_nopa h X (S_array I64 A) (S_array I64 N) C = Returned res' /\
    Forall2 (Forall2 (Forall2 same_number)) res res'.
Proof.
  intros Hmd Hr Ho. rewrite acv_active_call, acv_active_nopa_call.
  destruct (active_prog_values T nid d pts (h_max h) m (map point xs) C A N aC aM aA aAm aN aNd aPN' aTabs (aLeaf 0) aCover order aCne (active_fit Hr) (aOrders order Ho)) as (phi & E & V).
  destruct (active_seq_values T nid d pts m (map point xs) C A N aC aM aA aAm aN aNd aPN' aTabs (aLeaf 0) aCover aCne) as (phi' & E' & V').
  rewrite E, E'. eexists. eexists. split; [reflexivity|]. split; [reflexivity|].
  assert (G : forall (B : nat -> Prop) {B'} (R : B' -> B' -> Prop) f f' l, (forall i, In i l -> B i) -> (forall i, B i -> R (f i) (f' i)) -> Forall2 R (map f l) (map f' l)).
  { clear. intros B B' R f f' l Hl H. induction l as [|i l IH]; [constructor|]. constructor; [apply H, Hl; now left|apply IH; intros; apply Hl; now right]. }
  apply (G (fun i => i < length xs)); [intros i Hi; apply in_seq in Hi; lia|]. intros i Hi.
  apply (G (fun i => i < m)); [intros c Hc; apply in_seq in Hc; lia|]. intros c Hc.
  apply (G (fun i => i < k)); [intros j Hj; apply in_seq in Hj; lia|]. intros j Hj.
  destruct (nth_error xs i) as [x|] eqn:Ex; [|apply nth_error_None in Ex; lia].
  specialize (V i (point x) c j (point_at _ _ _ Ex) ltac:(now rewrite aOut)). specialize (V' i (point x) c j (point_at _ _ _ Ex) ltac:(now rewrite aOut)).
  rewrite (proj2 (Nat.ltb_lt c d) ltac:(lia)) in V. change (oeq (phi i c j) (phi' i c j)). rewrite V, V'. reflexivity.
Qed.
End Active.

(** ** Lists *)
Lemma lists_raise h order X m xs A N B C : is_table X m xs -> xs <> [] -> 0 < m ->
  (acv_active h order X (S_list A) N C = Raised EType /\ acv_active_nopa h X (S_list A) N C = Raised EType) /\
  acv_active h order X (S_array I64 A) (S_list B) C = Raised EType /\ acv_active_nopa h X (S_array I64 A) (S_list B) C = Raised EType.
Proof.
  intros HX Hx Hm. assert (E : check_array X = Returned (M_array F64 m xs)).
  { destruct xs; [congruence|]. destruct m; [lia|]. destruct HX as [->|[->|[dt ->]]]; reflexivity. }
  unfold acv_active, acv_active_nopa. rewrite E. auto.
Qed.

(** ** Scikit-learn forests *)
Lemma forest_active listed apl sig reg mo es l d w data zs X xs m C A N P rep : lists_set listed ->
  is_forest reg mo es -> es <> [] -> (forall e, In e es -> sk_ok d w e) -> (reg = false -> forall e, In e es -> SkSpec.counts e) ->
  load_model apl mo = Some l -> activated (l_trees l) 1 d w w data zs X xs m C A N P -> zs <> [] -> 0 < d ->
  (forall g, In g P -> In (rep g) g) -> P <> [] -> filled (l_trees l) zs ->
  exists h, construct_shap_sk listed apl sig mo data = Some h /\ forall order,
  let gives j z q := exists ls, all_land es (point z) no_missing ls /\ (q == over (SkSpec.value_at (negb reg) j) es ls / Qn (length es))%Q in
  let accounts (x : list Q) (f : nat -> nat -> option Q) :=
    forall j v vs, j < w -> gives j x v -> Forall2 (gives j) zs vs ->
    exists q, (forall g, In g P -> f (rep g) j = Some (q g)) /\ (sumf q P == v - mean (fun v => v) vs)%Q in
  ((forall g, In g P -> rep g < d) -> room (l_trees l) P -> leaf_orders (l_trees l) order ->
     ncube_entries (acv_active h order X (S_array I64 A) (S_array I64 N) C) xs m w accounts) /\
  ncube_entries (acv_active_nopa h X (S_array I64 A) (S_array I64 N) C) xs m w accounts.
Proof.
  intros HL Hm Hne Hok Hc Hl HE Hz Hd Hrep HPne Hfill.
  destruct (load_forest apl reg mo es Hm Hne) as (s & Es & El).
  { intros e He. destruct reg; [apply sums_false|]. apply sums_counts. now apply Hc. }
  rewrite El in Hl. injection Hl as <-. change (l_trees _) with (map (loaded_of (negb reg) s) es) in *.
  set (ts := map (loaded_of (negb reg) s) es) in *.
  assert (Hen : ensemble_ok ts 1 d w w) by apply HE.
  destruct (construct_shap_some listed sig ts 1 false d w w data zs HL Hen (proj1 (proj2 HE)) Hz Hd) as [h Eh].
  exists h. split.
  { unfold construct_shap_sk. rewrite El. cbn [l_trees l_stacked].
    assert (Eb : match mo with BoostClf _ _ _ => true | _ => false end = false) by (destruct reg; destruct Hm as [->|(e & _ & ->)]; reflexivity).
    rewrite Eb. exact Eh. }
  intros order gives Q'.
  pose proof (active_adds listed sig ts 1 false d w w data zs h X xs m C A N P HL HE Eh order rep Hrep HPne Hfill) as Hacc. cbv zeta in Hacc.
  assert (Hq : forall j z q, gives j z q -> exists u, adds_up (raw_share 1) ts j z u /\ (u == q)%Q).
  { intros j z q (ls & Hz' & Eq). destruct (adds_up_total (raw_share 1) ts d w j z (proj1 (proj2 Hen))) as (u & Hu). exists u. split; [exact Hu|].
    rewrite (forest_adds_up _ _ d w es j z u ls Hok Hu Hz'), Eq, Es.
    assert (0 < Qn (length es))%Q by (apply Qn_pos; destruct es; [congruence|cbn; lia]). field. lra. }
  assert (Himp : forall o (Q1 Q2 : list Q -> (nat -> nat -> option Q) -> Prop), (forall x f, Q1 x f -> Q2 x f) -> ncube_entries o xs m w Q1 -> ncube_entries o xs m w Q2).
  { intros o Q1 Q2 H12 (res & E & L & H). exists res. split; [exact E|]. split; [exact L|]. intros i x Hx.
    destruct (H i x Hx) as (tb & T1 & T2 & T3 & T4). exists tb. auto. }
  assert (Hstep : forall x f, (forall j v vs, j < w -> adds_up (raw_share 1) ts j x v -> Forall2 (adds_up (raw_share 1) ts j) zs vs ->
     exists q, (forall g, In g P -> f (rep g) j = Some (q g)) /\ (sumf q P == v - mean (fun v => v) vs)%Q) -> Q' x f).
  { intros x f H j v vs Hj Hv Hvs.
    destruct (Hq j x v Hv) as (u & Hu & Eu).
    assert (G : exists us, Forall2 (adds_up (raw_share 1) ts j) zs us /\ Forall2 Qeq us vs).
    { clear - Hvs Hq. induction Hvs as [|z q l vs Hz _ IH]; [exists []; split; constructor|]. destruct IH as (us & H1 & H2).
      destruct (Hq j z q Hz) as (u & Hu & Eu). exists (u :: us). split; constructor; assumption. }
    destruct G as (us & Hus & Eus). destruct (H j u us Hj Hu Hus) as (q & Hq1 & Hq2). exists q. split; [exact Hq1|].
    rewrite Hq2, Eu. apply Qplus_comp; [reflexivity|]. apply Qopp_comp. apply (mean_values Qeq); auto. }
  destruct Hacc as [H1 H2]. split; [intros Hd' Hr Ho; eapply Himp; [exact Hstep|now apply H1]|eapply Himp; [exact Hstep|exact H2]].
Qed.

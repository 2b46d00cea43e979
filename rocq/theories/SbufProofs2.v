(** Proofs about the Shapley values of an [ACVTree], from its trees. *)
From Verif Require Import Base TreeModel TreeSpec TreeProofs GameSpec GameProofs ShapModel ShapSpec ShapProofs NopaModel FlatModel FlatSpec FlatProofs SkModel SkSpec SkProofs
  SdpModel SdpSpec SdpProofs ArrModel ArrSpec ArrProofs ArrProofs2 ArrProofs3 ArrProofs4 EntryModel EntrySpec EntryProofs EntryProofs2 EntryProofs3 SbufModel SbufSpec SbufProofs.
Local Open Scope nat_scope.

(** ** Features and players at a leaf *)
Section Listed.
Variable listed : list nat -> list nat.
Hypothesis HL : lists_set listed.

Lemma node_set_nids m i : NoDup (node_set listed m i) /\ forall s, In s (node_set listed m i) <-> In s (nids m i).
Proof.
  unfold node_set, nids. destruct (get_partition (length (m_cl m)) (skeleton m) i whole []) as [[p l]|].
  - destruct (HL l) as [H1 H2]. split; [exact H1|]. intro s. rewrite H2. symmetry. apply nodup_In.
  - split; [constructor|]. intro s. tauto.
Qed.
Lemma leaf_list_is d w m : well_formed d w m -> leaf_list m = filter (leaf_node (as_tree m 0)) (seq 0 (length (m_cl m))).
Proof.
  intro H. unfold leaf_list. pose proof (wf_len_ft _ _ (proj1 H)) as E. cbn [as_tree ft] in E. rewrite E. reflexivity.
Qed.
Lemma leaf_list_in d w m i : well_formed d w m -> (In i (leaf_list m) <-> is_leaf_of m i).
Proof.
  intro H. rewrite (leaf_list_is d w m H), filter_In, in_seq. unfold is_leaf_of. split; intros [H1 H2]; (split; [lia|exact H2]).
Qed.
Lemma leaf_list_count d w m : well_formed d w m -> length (leaf_list m) = leaf_count m.
Proof. intro H. now rewrite (leaf_list_is d w m H). Qed.
Lemma nids_above d w m i : well_formed d w m -> In i (leaf_list m) ->
  NoDup (nids m i) /\ (forall s, In s (nids m i) <-> above (as_tree m 0) s i) /\ (forall s, In s (nids m i) -> s < d) /\
  (forall s, ~ In s (nids m i) -> box m i s = (NInf, PInf)).
Proof.
  intros H Hi. destruct (partition_total (fun _ _ r => nth 0 r 0%Q) 0 0 d w m i H Hi) as [_ E].
  assert (Hi' : In i (leaf_idx (as_tree m 0))).
  { rewrite (leaf_list_idx (fun _ _ r => nth 0 r 0%Q) 0 0 d w m H) in Hi. exact Hi. }
  destruct (leaf_vars_exact (as_tree m 0) d (proj1 H) i _ Hi' E) as (H1 & H2 & H3 & H4 & _). cbn [l_vars l_rect] in *. auto.
Qed.
Lemma node_set_above d w m i : well_formed d w m -> In i (leaf_list m) -> features_above m i (node_set listed m i).
Proof.
  intros H Hi. destruct (node_set_nids m i) as [H1 H2]. split; [exact H1|]. intro s. rewrite H2. now apply (nids_above d w m i H Hi).
Qed.
Lemma features_length m i l l' : features_above m i l -> features_above m i l' -> length l = length l'.
Proof.
  intros [H1 H2] [H3 H4]. apply Permutation_length. apply NoDup_Permutation; trivial. intro s. now rewrite H2, H4.
Qed.
Lemma players_length P m i l l' : players_above P m i l -> players_above P m i l' -> length l = length l'.
Proof.
  intros [H1 H2] [H3 H4]. apply Permutation_length. apply NoDup_Permutation; trivial. intro s. now rewrite H2, H4.
Qed.
Lemma groups_above d w m i C dx P p v : well_formed d w m -> In i (leaf_list m) -> coalitions_ok C dx -> is_players C dx P -> d <= dx ->
  ShapSpec.leaf_ok dx (mkLeaf p (node_set listed m i) v) -> players_above P m i (leaf_groups C dx (node_set listed m i)).
Proof.
  intros H Hi HC HP Hd Hok. destruct (leaf_groups_touch C dx P _ HC HP Hok) as [H1 H2]. cbn [l_vars] in *.
  split; [exact H1|]. intro g. destruct (node_set_above d w m i H Hi) as [_ H4].
  split.
  - intro Hg. apply (Permutation_in _ H2), filter_In in Hg. destruct Hg as [Hg Ht]. split; [exact Hg|].
    apply touches_true in Ht. destruct Ht as (s & Hs & Hv). exists s. split; [exact Hs|]. now apply H4.
  - intros [Hg (s & Hs & Hv)]. apply (Permutation_in _ (Permutation_sym H2)), filter_In. split; [exact Hg|].
    apply touches_true. exists s. split; [exact Hs|]. cbn [l_vars]. now apply H4.
Qed.

(** ** [max_var] *)
Lemma max_var_attained sizes mv : max_var sizes = Some mv -> In mv (last sizes []).
Proof.
  unfold max_var, last_list. destruct (last sizes []) as [|a r]; [discriminate|]. intro H. injection H as <-.
  assert (G : forall r a, fold_left Nat.max r a = a \/ In (fold_left Nat.max r a) r).
  { clear. induction r as [|b r IH]; intro a; [now left|]. cbn [fold_left]. destruct (IH (Nat.max a b)) as [E|E].
    - rewrite E. destruct (Nat.max_spec a b) as [[_ ->]|[_ ->]]; [right; now left|now left].
    - right. now right. }
  destruct (G r a) as [->|E]; [now left|now right].
Qed.
Lemma last_map {A B} (f : A -> B) l d : last (map f l) (f d) = f (last l d).
Proof. induction l as [|a l IH]; [reflexivity|]. destruct l as [|b l]; [reflexivity|exact IH]. Qed.
Lemma last_in {A} (l : list A) d : l <> [] -> In (last l d) l.
Proof.
  induction l as [|a l IH]; [congruence|]. intros _. destruct l as [|b l]; [now left|]. right. apply IH. discriminate.
Qed.
Lemma sizes_last ts : ts <> [] -> last (map (fun m => map (fun i => length (node_set listed m i)) (leaf_list m)) ts) []
  = map (fun i => length (node_set listed (last ts no_tree) i)) (leaf_list (last ts no_tree)).
Proof.
  intro H. exact (last_map (fun m => map (fun i => length (node_set listed m i)) (leaf_list m)) ts no_tree).
Qed.
Lemma max_attained ts mv : ts <> [] -> ensemble_max listed ts = Some mv ->
  exists i, In i (leaf_list (last ts no_tree)) /\ length (node_set listed (last ts no_tree) i) = mv.
Proof.
  intros Hne H. apply max_var_attained in H. rewrite (sizes_last ts Hne) in H. apply in_map_iff in H. destruct H as (i & E & Hi). eauto.
Qed.
Lemma max_bounds ts mv i : ts <> [] -> ensemble_max listed ts = Some mv -> In i (leaf_list (last ts no_tree)) ->
  length (node_set listed (last ts no_tree) i) <= mv.
Proof.
  intros Hne H Hi. eapply max_var_last_tree; [exact H|]. rewrite (sizes_last ts Hne). apply in_map_iff. eauto.
Qed.
Lemma some_leaf d w m : well_formed d w m -> leaf_list m <> [].
Proof.
  intro H. destruct (predict_leaf_total _ d (proj1 H) (fun _ => 0%Q) no_missing) as (l & _ & Hl & _).
  rewrite (leaf_list_idx (fun _ _ r => nth 0 r 0%Q) 0 0 d w m H). intro E.
  change (leaf_idx (shared_tree (fun _ _ r => nth 0 r 0%Q) 0 0 m)) with (leaf_idx (as_tree m 0)) in E. rewrite E in Hl. contradiction.
Qed.
Lemma max_exists ts d w : ts <> [] -> (forall m, In m ts -> well_formed d w m) -> exists mv, ensemble_max listed ts = Some mv.
Proof.
  intros Hne Hwf. unfold ensemble_max, max_var, last_list. rewrite (sizes_last ts Hne).
  pose proof (some_leaf d w _ (Hwf _ (last_in ts no_tree Hne))) as H.
  destruct (leaf_list (last ts no_tree)) as [|i r]; [congruence|]. eexists. reflexivity.
Qed.
End Listed.

Lemma wf_wider t d d' : d <= d' -> wf_tree t d = true -> wf_tree t d' = true.
Proof.
  intros Hd. unfold wf_tree. rewrite !andb_true_iff. intros [[H1 H2] H3]. repeat split; try tauto.
  rewrite forallb_forall in H2 |- *. intros i Hi. specialize (H2 i Hi). revert H2. unfold wf_node.
  destruct (clz t i <? 0)%Z; [trivial|]. rewrite !andb_true_iff, !Z.ltb_lt. intuition lia.
Qed.

(** ** The object *)
Section Shap.
Variables (listed : list nat -> list nat) (sig : Q -> Q) (ts : list mtree) (stacked : nat) (boosted : bool) (d w k : nat)
  (data : marg) (zs : list (list Q)) (h : shap_acv).
Hypothesis HL : lists_set listed.
Hypothesis Hok : ensemble_ok ts stacked d w k.
Hypothesis Hdata : is_table data d zs.
Hypothesis Hh : construct_shap listed sig ts stacked boosted data = Some h.

Lemma table_checked X m xs : is_table X m xs -> check_array X = if (length xs =? 0) || (m =? 0) then Raised EValue else Returned (M_array F64 m xs).
Proof. intros [->|[->|[dt ->]]]; reflexivity. Qed.
Lemma h_facts : zs <> [] /\ 0 < d /\ exists a mv, construct sig ts stacked boosted d = Some a /\ ensemble_max listed ts = Some mv /\
  h = mkShap a (mkMat d zs) (fun b j => let m := nth b ts no_tree in node_set listed m (nth j (leaf_list m) 0)) mv.
Proof.
  revert Hh. unfold construct_shap. rewrite (table_checked _ _ _ Hdata).
  destruct (length zs =? 0) eqn:E; [discriminate|]. destruct (d =? 0) eqn:E2; [discriminate|]. cbn [orb].
  apply Nat.eqb_neq in E. apply Nat.eqb_neq in E2.
  destruct (construct sig ts stacked boosted d) as [a|] eqn:Ea; [|discriminate].
  destruct (ensemble_max listed ts) as [mv|] eqn:Em; [|discriminate]. intro H. injection H as <-.
  split; [intros ->; now apply E|]. split; [lia|]. exists a, mv. auto.
Qed.
Notation T := (o_tabs (h_acv h)).
Notation nid := (h_nid h).
Lemma h_con : construct sig ts stacked boosted d = Some (h_acv h).
Proof. destruct h_facts as (_ & _ & a & mv & E & _ & ->). exact E. Qed.
Lemma h_mv : ensemble_max listed ts = Some (h_max h).
Proof. destruct h_facts as (_ & _ & a & mv & _ & E & ->). exact E. Qed.
Lemma h_rows : h_data h = mkMat d zs.
Proof. destruct h_facts as (_ & _ & a & mv & _ & _ & ->). reflexivity. Qed.
Lemma h_nids b j : nid b j = node_set listed (nth b ts no_tree) (nth j (leaf_list (nth b ts no_tree)) 0).
Proof. destruct h_facts as (_ & _ & a & mv & _ & _ & ->). reflexivity. Qed.
Lemma h_tabs : tabs_ok T.
Proof. exact (a_tabs sig ts stacked boosted d w k _ Hok h_con). Qed.
Lemma h_out : t_out T = k.
Proof. exact (a_out sig ts stacked boosted d w k _ Hok h_con). Qed.
Lemma h_wf m : In m ts -> well_formed d w m.
Proof. exact (a_wf ts stacked d w k Hok m). Qed.
Lemma h_trees : t_trees T = length ts.
Proof. rewrite (a_form sig ts stacked boosted d w k _ Hok h_con). reflexivity. Qed.
Lemma h_nb b : t_nb T b = length (leaf_list (nth b ts no_tree)).
Proof. rewrite (a_form sig ts stacked boosted d w k _ Hok h_con). reflexivity. Qed.
Lemma h_forest j : forest_leaves (shared (raw_share stacked) ts j) = Some (forest_at T (vars ts) j).
Proof. exact (a_forest sig ts stacked boosted d w k _ Hok h_con j). Qed.
Lemma h_vars_ok j : forest_ok d (forest_at T (vars ts) j).
Proof.
  eapply forest_leaves_ok; [|exact (h_forest j)]. exact (shared_all_wf ts d w h_wf (raw_share stacked) j).
Qed.
Lemma h_leaf_ok j b n : b < t_trees T -> n < t_nb T b -> ShapSpec.leaf_ok d (leaf_at T nid j b n).
Proof.
  intros Hb Hn. pose proof (h_vars_ok j (map (leaf_at T (vars ts) j b) (seq 0 (t_nb T b))) (leaf_at T (vars ts) j b n)) as H.
  assert (K : ShapSpec.leaf_ok d (leaf_at T (vars ts) j b n)).
  { apply H; [apply in_map_iff; exists b; split; [reflexivity|apply in_seq; lia]|apply in_map_iff; exists n; split; [reflexivity|apply in_seq; lia]]. }
  destruct K as (_ & K2 & K3). cbn [leaf_at l_vars l_rect] in K2, K3. unfold vars in K2, K3. 
  unfold ShapSpec.leaf_ok. cbn [leaf_at l_vars l_rect]. rewrite h_nids.
  destruct (node_set_nids listed HL (nth b ts no_tree) (nth n (leaf_list (nth b ts no_tree)) 0)) as [N1 N2].
  split; [exact N1|]. split; [intros s Hs; apply K2; now apply N2|]. intros s Hs. apply K3. intro Hs'. apply Hs. now apply N2.
Qed.
Lemma h_forest_ok j : forest_ok d (forest_at T nid j).
Proof.
  intros ls lf Hls Hlf. unfold forest_at in Hls. apply in_map_iff in Hls. destruct Hls as (b & <- & Hb). apply in_map_iff in Hlf.
  destruct Hlf as (n & <- & Hn). apply in_seq in Hb. apply in_seq in Hn. apply h_leaf_ok; lia.
Qed.
Lemma worth_vars m dt j x Tm : (worth m dt (forest_at T nid j) x Tm == worth m dt (forest_at T (vars ts) j) x Tm)%Q.
Proof.
  unfold worth, forest_at. rewrite !sumf_map. apply sumf_ext. intros b _. rewrite !sumf_map. reflexivity.
Qed.

Variables (X : marg) (xs : list (list Q)) (m : nat) (C : list (list nat)).
Hypothesis HX : is_table X m xs.
Hypothesis Hxs : xs <> [].
Hypothesis Hm : d <= m.
Hypothesis HC : coalitions_ok C d.
Hypothesis HCne : C <> [].

Lemma C_wide : coalitions_ok C m.
Proof. destruct HC as (H1 & H2 & H3). split; [exact H1|]. split; [|exact H3]. intros i Hi. specialize (H2 i Hi). lia. Qed.
Lemma C_cols i : In i (concat C) -> i < d.
Proof. apply HC. Qed.
Lemma forest_ok_wide forest : forest_ok d forest -> forest_ok m forest.
Proof.
  intros H ls lf H1 H2. destruct (H ls lf H1 H2) as (K1 & K2 & K3). split; [exact K1|]. split; [|exact K3]. intros s Hs. specialize (K2 s Hs). lia.
Qed.
Lemma x_checked : check_array X = Returned (M_array F64 m xs).
Proof.
  rewrite (table_checked _ _ _ HX). destruct h_facts as (_ & Hd & _). destruct xs; [congruence|]. cbn [length Nat.eqb orb].
  destruct m; [lia|reflexivity].
Qed.
Lemma acv_shap_call order : acv_shap h order X C =
  cube (length xs) m k (shap_prog T nid d (map point zs) (h_max h) m (map point xs) C order).
Proof. unfold acv_shap. rewrite x_checked. cbn [andthen buffer2 same_dtype cols rows]. rewrite h_rows, h_out. reflexivity. Qed.
Lemma acv_nopa_call : acv_shap_nopa h X C = cube (length xs) m k (shap_seq_prog T nid d (map point zs) m (map point xs) C).
Proof. unfold acv_shap_nopa. rewrite x_checked. cbn [andthen buffer2 as_float same_dtype cols rows]. rewrite h_rows, h_out. reflexivity. Qed.
Lemma orders_every order : leaf_orders ts order -> every_leaf T order.
Proof.
  intros H b Hb. rewrite h_trees in Hb. rewrite h_nb.
  pose proof (nth_error_nth' ts no_tree Hb) as E. rewrite (leaf_list_count d w _ (h_wf _ (nth_error_In _ _ E))). exact (H b _ E).
Qed.
Lemma leaf_at_place b n : b < t_trees T -> n < t_nb T b ->
  In (nth b ts no_tree) ts /\ In (nth n (leaf_list (nth b ts no_tree)) 0) (leaf_list (nth b ts no_tree)).
Proof. intros Hb Hn. rewrite h_trees in Hb. rewrite h_nb in Hn. split; now apply nth_In. Qed.
Variable P : list (list nat).
Hypothesis HP : is_players C m P.
Lemma groups_at b n : b < t_trees T -> n < t_nb T b ->
  players_above P (nth b ts no_tree) (nth n (leaf_list (nth b ts no_tree)) 0) (leaf_groups C m (nid b n)).
Proof.
  intros Hb Hn. destruct (leaf_at_place b n Hb Hn) as [H1 H2]. rewrite h_nids.
  pose proof (h_leaf_ok 0 b n Hb Hn) as K. unfold leaf_at in K. rewrite h_nids in K.
  assert (K' : ShapSpec.leaf_ok m (mkLeaf (t_part T b n) (node_set listed (nth b ts no_tree) (nth n (leaf_list (nth b ts no_tree)) 0)) (t_val T b (t_leaf T b n) 0))).
  { destruct K as (K1 & K2 & K3). split; [exact K1|]. split; [|exact K3]. intros s Hs. specialize (K2 s Hs). lia. }
  exact (groups_above listed HL d w _ _ C m P _ _ (h_wf _ H1) H2 C_wide HP Hm K').
Qed.
Lemma ts_ne : ts <> [].
Proof. exact (proj1 Hok). Qed.
Lemma room_fit : room ts P -> all_fit T nid (h_max h) m C.
Proof.
  intros H b n Hb Hn. destruct (leaf_at_place b n Hb Hn) as [H1 H2].
  destruct (H _ _ _ H1 (proj1 (leaf_list_in d w _ _ (h_wf _ H1)) H2) (groups_at b n Hb Hn)) as (i' & l & Hi & Hl & Hle).
  pose proof (last_in ts no_tree ts_ne) as Hlast. apply (leaf_list_in d w _ _ (h_wf _ Hlast)) in Hi.
  pose proof (max_bounds listed ts _ i' ts_ne h_mv Hi) as Hb'.
  rewrite (features_length _ _ _ _ Hl (node_set_above listed HL d w _ _ (h_wf _ Hlast) Hi)) in Hle. lia.
Qed.

Lemma cube_row (r : nat -> nat -> nat -> Q) i c j : i < length xs -> c < m -> j < k ->
  nth j (nth c (nth i (map (fun i => map (fun c => map (r i c) (seq 0 k)) (seq 0 m)) (seq 0 (length xs))) []) []) 0%Q = r i c j.
Proof. intros H1 H2 H3. rewrite (cell_of (fun i => _)) by exact H1. rewrite (cell_of (fun c => _)) by exact H2. now rewrite cell_of. Qed.
Lemma cube_intro o r (Q' : list Q -> (nat -> nat -> Q) -> Prop) : o = Some r ->
  (forall i x f, nth_error xs i = Some x -> (forall c j, c < m -> j < k -> f c j = r i c j) -> Q' x f) ->
  cube_entries (cube (length xs) m k o) xs m k Q'.
Proof.
  intros -> H. eexists. split; [reflexivity|]. split; [now rewrite map_length, seq_length|]. intros i x Hx.
  pose proof (nth_error_lt _ _ _ Hx) as Hi.
  exists (map (fun c => map (r i c) (seq 0 k)) (seq 0 m)). split.
  { rewrite (map_nth_error _ i (seq 0 (length xs)) (d := i)); [reflexivity|]. rewrite (nth_error_nth' _ 0) by (rewrite seq_length; lia). now rewrite seq_nth by lia. }
  split; [now rewrite map_length, seq_length|]. split.
  { intros row Hr. apply in_map_iff in Hr. destruct Hr as (c & <- & _). now rewrite map_length, seq_length. }
  apply (H i x); [exact Hx|]. intros c j Hc Hj. rewrite (cell_of (fun c => _)) by exact Hc. now rewrite cell_of.
Qed.
Notation sv j x c := (shap_values_leaves C m (map point zs) (forest_at T nid j) (point x) c).
Lemma both_entries order (Q' : list Q -> (nat -> nat -> Q) -> Prop) :
  (forall x f, (forall c j, c < m -> j < k -> (f c j == sv j x c)%Q) -> Q' x f) ->
  (room ts P -> leaf_orders ts order -> cube_entries (acv_shap h order X C) xs m k Q') /\
  cube_entries (acv_shap_nopa h X C) xs m k Q'.
Proof.
  intro H. split.
  - intros Hr Ho. rewrite acv_shap_call.
    destruct (shap_prog_values T nid d (map point zs) (h_max h) m (map point xs) C C_wide C_cols Hm h_tabs (h_leaf_ok 0) order HCne (room_fit Hr) (orders_every order Ho)) as (phi & E & V).
    apply (cube_intro _ phi); [exact E|]. intros i x f Hx Hf. apply H. intros c j Hc Hj. rewrite (Hf c j Hc Hj).
    apply V; [now apply point_at|now rewrite h_out].
  - rewrite acv_nopa_call.
    destruct (shap_seq_values T nid d (map point zs) m (map point xs) C C_wide C_cols Hm h_tabs (h_leaf_ok 0) HCne) as (phi & E & V).
    apply (cube_intro _ phi); [exact E|]. intros i x f Hx Hf. apply H. intros c j Hc Hj. rewrite (Hf c j Hc Hj).
    apply V; [now apply point_at|now rewrite h_out].
Qed.
Lemma data_ne : map point zs <> [].
Proof. destruct h_facts as (H & _). destruct zs; [congruence|discriminate]. Qed.
Lemma value_shapley j x g c : In g P -> In c g ->
  (sv j x c == shapley gdec P (worth d (map point zs) (forest_at T (vars ts) j) (point x)) g)%Q.
Proof.
  intros Hg Hc. rewrite (shap_is_shapley C m P _ _ _ g c C_wide HP (forest_ok_wide _ (h_forest_ok j)) data_ne Hg Hc).
  apply shapley_ext. intro Tm. rewrite worth_vars. unfold worth. apply sumf_ext. intros ls Hls. apply sumf_ext. intros lf Hlf.
  unfold cond_prob. rewrite (rows_in_wider d m (map point zs) lf) by (trivial; eapply h_vars_ok; eassumption). reflexivity.
Qed.
Lemma player_col g c : In g P -> In c g -> c < m.
Proof.
  intros Hg Hc. apply HP in Hg. destruct Hg as [[Hg _]|(i & Hi & _ & ->)].
  - apply C_wide. apply in_concat. eauto.
  - destruct Hc as [<-|[]]. exact Hi.
Qed.
Lemma shapley_of x f : (forall c j, c < m -> j < k -> (f c j == sv j x c)%Q) -> forall j, j < k ->
  exists forest, forest_leaves (shared (raw_share stacked) ts j) = Some forest /\
  forall g c, In g P -> In c g -> (f c j == shapley gdec P (worth d (map point zs) forest (point x)) g)%Q.
Proof.
  intros Hf j Hj. eexists. split; [exact (h_forest j)|]. intros g c Hg Hc. rewrite (Hf c j (player_col g c Hg Hc) Hj).
  now apply value_shapley.
Qed.
Lemma vars_values j x g c : In g P -> In c g ->
  (sv j x c == shap_values_leaves C m (map point zs) (forest_at T (vars ts) j) (point x) c)%Q.
Proof.
  intros Hg Hc. rewrite (shap_is_shapley C m P _ _ _ g c C_wide HP (forest_ok_wide _ (h_forest_ok j)) data_ne Hg Hc).
  rewrite (shap_is_shapley C m P _ _ _ g c C_wide HP (forest_ok_wide _ (h_vars_ok j)) data_ne Hg Hc).
  apply shapley_ext. intro. apply worth_vars.
Qed.

(** the leaf of [x] has background rows *)
Lemma populated j x : (forall t, In t ts -> exists z, In z zs /\ same_leaf t x z) ->
  forall ls lf, In ls (forest_at T (vars ts) j) -> In lf ls -> Inside m (l_rect lf) (point x) ->
    exists z, In z (map point zs) /\ Inside m (l_rect lf) z.
Proof.
  intros Hpop ls lf Hls Hlf Hin. destruct (forest_leaves_in _ _ _ (h_forest j) Hls) as (t & Ht & El).
  unfold shared in Ht. apply in_map_iff in Ht. destruct Ht as (b & <- & Hbb). apply in_seq in Hbb.
  set (t := nth b ts no_tree) in *. assert (Hmt : In t ts) by (apply nth_In; lia).
  pose proof (wf_wider _ d m Hm (shared_wf (raw_share stacked) j b d w t (h_wf t Hmt))) as Hw.
  destruct (Hpop t Hmt) as (z & Hz & l & [Hv1 Hl1] & [Hv2 Hl2]). exists (point z). split; [apply in_map_iff; exists z; auto|].
  destruct (leaves_from_nth _ _ _ El) as [_ Hnth]. destruct (In_nth_error _ _ Hlf) as [n Hn]. specialize (Hnth n).
  destruct (nth_error (leaf_idx (shared_tree (raw_share stacked) j b t)) n) as [i'|] eqn:Ei; [|congruence].
  rewrite Hn in Hnth. assert (Hi : In i' (leaf_idx (shared_tree (raw_share stacked) j b t))) by (eapply nth_error_In; exact Ei).
  unfold leaf_of in Hnth. unfold leaf_idx in Hi. apply filter_In in Hi. destruct Hi as [Hi Hlfi]. apply in_seq in Hi.
  destruct (get_partition_leaf _ m Hw (point x) i' ltac:(lia)) as (p1 & n1 & E1 & M1).
  destruct (get_partition_leaf _ m Hw (point z) i' ltac:(lia)) as (p2 & n2 & E2 & M2).
  rewrite E1 in E2. injection E2 as <- <-. rewrite E1 in Hnth. injection Hnth as <-. cbn [l_rect] in *.
  apply in_rect_Inside. apply M2. apply in_rect_Inside in Hin. apply M1 in Hin.
  assert (Hag : forall y l, TreeSpec.visits (as_tree t 0) y no_missing l -> TreeSpec.visits (shared_tree (raw_share stacked) j b t) y no_missing l).
  { clear. intros y l Hv. induction Hv as [|i0 j0 Hv IH Hl Hd]; [constructor|]. eapply vis_step; [exact IH|exact Hl|].
    destruct Hd as [Hd|Hd Hd'|Hd Hd']; [exact (dec_default (shared_tree (raw_share stacked) j b t) y no_missing i0 Hd)
      |exact (dec_left (shared_tree (raw_share stacked) j b t) y no_missing i0 Hd Hd')
      |exact (dec_right (shared_tree (raw_share stacked) j b t) y no_missing i0 Hd Hd')]. }
  assert (i' = l).
  { apply Hag in Hv1. pose proof (proj1 (visited_leaf_predicted _ m Hw (point x) no_missing i' Hin) Hlfi) as P1.
    pose proof (proj1 (visited_leaf_predicted _ m Hw (point x) no_missing l Hv1) Hl1) as P2. congruence. }
  subst i'. now apply Hag.
Qed.
Lemma accounts_of rep x f : (forall g, In g P -> In (rep g) g) ->
  (forall c j, c < m -> j < k -> (f c j == sv j x c)%Q) ->
  (forall t, In t ts -> exists z, In z zs /\ same_leaf t x z) ->
  forall j v vs, j < k -> adds_up (raw_share stacked) ts j x v -> Forall2 (adds_up (raw_share stacked) ts j) zs vs ->
  (sumf (fun g => f (rep g) j) P == v - mean (fun v => v) vs)%Q.
Proof.
  intros Hrep Hf Hpop j v vs Hj Hv Hvs.
  rewrite (sumf_ext _ (fun g => shap_values_leaves C m (map point zs) (forest_at T (vars ts) j) (point x) (rep g))).
  2:{ intros g Hg. rewrite (Hf (rep g) j (player_col g _ Hg (Hrep g Hg)) Hj). apply (vars_values j x g); [exact Hg|now apply Hrep]. }
  destruct (adds_up_predict _ ts d w j x v h_wf Hv) as (rx & Ex & Evx).
  assert (Hr : exists rs, Forall2 (fun z r => dense_tree_predict (shared (raw_share stacked) ts j) (length (shared (raw_share stacked) ts j)) 0 z no_missing = Some r)
     (map point zs) rs /\ (sumf (fun r => r) rs == sumf (fun v => v) vs)%Q /\ length zs = length vs).
  { clear - Hvs Hok. induction Hvs as [|z v l vs Hz _ IH]; [exists []; repeat split; constructor|].
    destruct IH as (rs & H1 & H2 & H3). destruct (adds_up_predict _ ts d w j z v h_wf Hz) as (q & Eq & Ev).
    exists (q :: rs). split; [constructor; assumption|]. split; [cbn [sumf]; now rewrite Ev, H2|cbn; congruence]. }
  destruct Hr as (rs & Hr & Es & El).
  rewrite (shap_accounts_for_prediction C m P (map point zs) (shared (raw_share stacked) ts j) _ (point x) 0 rx rs rep C_wide HP Hrep).
  - rewrite Evx, Es, map_length, El. unfold mean. destruct vs; [|reflexivity].
    destruct h_facts as (Hz & _). destruct zs; [congruence|discriminate El].
  - apply forallb_forall. intros t Ht. apply (wf_wider t d m Hm).
    pose proof (shared_all_wf ts d w h_wf (raw_share stacked) j) as Hall. rewrite forallb_forall in Hall. now apply Hall.
  - exact (h_forest j).
  - exact data_ne.
  - now apply populated.
  - exact Ex.
  - exact Hr.
Qed.
Lemma unused_zero g x j c : In g P -> In c g -> unused ts g -> (sv j x c == 0)%Q.
Proof.
  intros Hg Hc Hu. apply (unused_feature_zero C m P _ _ _ g c C_wide HP (forest_ok_wide _ (h_forest_ok j)) data_ne Hg Hc).
  intros ls lf s Hls Hlf Hs Hv. unfold forest_at in Hls. apply in_map_iff in Hls. destruct Hls as (b & <- & Hb). apply in_map_iff in Hlf.
  destruct Hlf as (n & <- & Hn). apply in_seq in Hb. apply in_seq in Hn. cbn [leaf_at l_vars] in Hv. rewrite h_nids in Hv.
  destruct (leaf_at_place b n ltac:(lia) ltac:(lia)) as [H1 H2]. apply (node_set_above listed HL d w _ _ (h_wf _ H1) H2) in Hv.
  exact (Hu _ _ s H1 (proj1 (leaf_list_in d w _ _ (h_wf _ H1)) H2) Hs Hv).
Qed.
Lemma stray_call order : no_room ts P -> leaf_orders ts order -> acv_shap h order X C = Stray.
Proof.
  intros (t & i & ps & Ht & Hi & Hps & Hbig) Ho. rewrite acv_shap_call.
  apply (leaf_list_in d w _ _ (h_wf _ Ht)) in Hi.
  destruct (In_nth ts t no_tree Ht) as (b & Hb & Eb). destruct (In_nth _ _ 0 Hi) as (n & Hn & En).
  destruct (max_attained listed ts _ ts_ne h_mv) as (i' & Hi' & Emv).
  pose proof (last_in ts no_tree ts_ne) as Hlast.
  pose proof (Hbig i' _ (proj1 (leaf_list_in d w _ _ (h_wf _ Hlast)) Hi') (node_set_above listed HL d w _ _ (h_wf _ Hlast) Hi')) as Hlt.
  assert (Hb' : b < t_trees T) by (rewrite h_trees; exact Hb).
  assert (Hn' : n < t_nb T b) by (rewrite h_nb, Eb; exact Hn).
  pose proof (groups_at b n Hb' Hn') as Hg. rewrite Eb, En in Hg.
  rewrite (shap_prog_stray T nid d (map point zs) (h_max h) m (map point xs) C C_wide C_cols Hm h_tabs (h_leaf_ok 0) order b n); trivial.
  - rewrite (players_length _ _ _ _ _ Hg Hps). lia.
  - now apply orders_every.
Qed.
Lemma same_values order : room ts P -> leaf_orders ts order -> same_cube (acv_shap h order X C) (acv_shap_nopa h X C).
Proof.
  intros Hr Ho. rewrite acv_shap_call, acv_nopa_call.
  destruct (shap_prog_values T nid d (map point zs) (h_max h) m (map point xs) C C_wide C_cols Hm h_tabs (h_leaf_ok 0) order HCne (room_fit Hr) (orders_every order Ho)) as (phi & E & V).
  destruct (shap_seq_values T nid d (map point zs) m (map point xs) C C_wide C_cols Hm h_tabs (h_leaf_ok 0) HCne) as (phi' & E' & V').
  rewrite E, E'. eexists. eexists. split; [reflexivity|]. split; [reflexivity|].
  assert (G : forall (A : nat -> Prop) {B} (R : B -> B -> Prop) f f' l, (forall i, In i l -> A i) -> (forall i, A i -> R (f i) (f' i)) -> Forall2 R (map f l) (map f' l)).
  { clear. intros A B R f f' l Hl H. induction l as [|i l IH]; [constructor|]. constructor; [apply H, Hl; now left|apply IH; intros; apply Hl; now right]. }
  apply (G (fun i => i < length xs)); [intros i Hi; apply in_seq in Hi; lia|]. intros i Hi.
  apply (G (fun i => i < m)); [intros c Hc; apply in_seq in Hc; lia|]. intros c Hc.
  apply (G (fun i => i < k)); [intros j Hj; apply in_seq in Hj; lia|]. intros j Hj.
  destruct (nth_error xs i) as [x|] eqn:Ex; [|apply nth_error_None in Ex; lia].
  rewrite (V i (point x) c j (point_at _ _ _ Ex)), (V' i (point x) c j (point_at _ _ _ Ex)) by (now rewrite h_out). reflexivity.
Qed.
End Shap.

(** ** Statements *)
Section Statements.
Variables (listed : list nat -> list nat) (sig : Q -> Q) (ts : list mtree) (stacked : nat) (boosted : bool) (d w k : nat)
  (data : marg) (zs : list (list Q)) (h : shap_acv) (X : marg) (xs : list (list Q)) (m : nat) (C P : list (list nat)).
Hypothesis HL : lists_set listed.
Hypothesis HE : explained ts stacked d w k data zs X xs m C P.
Hypothesis Hh : construct_shap listed sig ts stacked boosted data = Some h.

Lemma entries_by order (Q' : list Q -> (nat -> nat -> Q) -> Prop) :
  (forall x f, (forall c j, c < m -> j < k -> (f c j == shap_values_leaves C m (map point zs) (forest_at (o_tabs (h_acv h)) (h_nid h) j) (point x) c)%Q) -> Q' x f) ->
  (room ts P -> leaf_orders ts order -> cube_entries (acv_shap h order X C) xs m k Q') /\
  cube_entries (acv_shap_nopa h X C) xs m k Q'.
Proof.
  destruct HE as (Hok & Hdata & HX & Hxs & Hm & HC & HCne & HP).
  exact (both_entries listed sig ts stacked boosted d w k data zs h HL Hok Hdata Hh X xs m C HX Hxs Hm HC HCne P HP order Q').
Qed.
Lemma shapley_entries order : let Q' (x : list Q) (f : nat -> nat -> Q) := forall j, j < k ->
    exists forest, forest_leaves (shared (raw_share stacked) ts j) = Some forest /\
    forall g c, In g P -> In c g -> (f c j == shapley gdec P (worth d (map point zs) forest (point x)) g)%Q in
  (room ts P -> leaf_orders ts order -> cube_entries (acv_shap h order X C) xs m k Q') /\
  cube_entries (acv_shap_nopa h X C) xs m k Q'.
Proof.
  cbv zeta. apply entries_by. destruct HE as (Hok & Hdata & HX & Hxs & Hm & HC & HCne & HP).
  exact (shapley_of listed sig ts stacked boosted d w k data zs h HL Hok Hdata Hh m C Hm HC P HP).
Qed.
Lemma account_entries order rep : (forall g, In g P -> In (rep g) g) -> let Q' (x : list Q) (f : nat -> nat -> Q) :=
    (forall t, In t ts -> exists z, In z zs /\ same_leaf t x z) ->
    forall j v vs, j < k -> adds_up (raw_share stacked) ts j x v -> Forall2 (adds_up (raw_share stacked) ts j) zs vs ->
    (sumf (fun g => f (rep g) j) P == v - mean (fun v => v) vs)%Q in
  (room ts P -> leaf_orders ts order -> cube_entries (acv_shap h order X C) xs m k Q') /\
  cube_entries (acv_shap_nopa h X C) xs m k Q'.
Proof.
  intro Hrep. cbv zeta. apply entries_by. destruct HE as (Hok & Hdata & HX & Hxs & Hm & HC & HCne & HP). intros x f.
  exact (accounts_of listed sig ts stacked boosted d w k data zs h HL Hok Hdata Hh m C Hm HC P HP rep x f Hrep).
Qed.
Lemma unused_entries order : let Q' (x : list Q) (f : nat -> nat -> Q) :=
    forall g c j, In g P -> In c g -> j < k -> unused ts g -> (f c j == 0)%Q in
  (room ts P -> leaf_orders ts order -> cube_entries (acv_shap h order X C) xs m k Q') /\
  cube_entries (acv_shap_nopa h X C) xs m k Q'.
Proof.
  cbv zeta. apply entries_by. destruct HE as (Hok & Hdata & HX & Hxs & Hm & HC & HCne & HP). intros x f Hf g c j Hg Hc Hj Hu.
  rewrite (Hf c j (player_col d m C Hm HC P HP g c Hg Hc) Hj).
  exact (unused_zero listed sig ts stacked boosted d w k data zs h HL Hok Hdata Hh m C Hm HC P HP g x j c Hg Hc Hu).
Qed.
Lemma stray_entries order : no_room ts P -> leaf_orders ts order -> acv_shap h order X C = Stray.
Proof.
  destruct HE as (Hok & Hdata & HX & Hxs & Hm & HC & HCne & HP).
  exact (stray_call listed sig ts stacked boosted d w k data zs h HL Hok Hdata Hh X xs m C HX Hxs Hm HC P HP order).
Qed.
Lemma same_entries order : room ts P -> leaf_orders ts order -> same_cube (acv_shap h order X C) (acv_shap_nopa h X C).
Proof.
  destruct HE as (Hok & Hdata & HX & Hxs & Hm & HC & HCne & HP).
  exact (same_values listed sig ts stacked boosted d w k data zs h HL Hok Hdata Hh X xs m C HX Hxs Hm HC HCne P HP order).
Qed.
End Statements.

Lemma construct_shap_some listed sig ts stacked boosted d w k data zs : lists_set listed -> ensemble_ok ts stacked d w k ->
  is_table data d zs -> zs <> [] -> 0 < d -> exists h, construct_shap listed sig ts stacked boosted data = Some h.
Proof.
  intros HL Hok Hdata Hz Hd. unfold construct_shap. rewrite (table_checked _ _ _ Hdata).
  destruct zs as [|z zs]; [congruence|]. destruct d as [|d]; [lia|]. cbn [length Nat.eqb orb].
  rewrite (construct_form sig ts stacked boosted (S d) w k Hok).
  destruct (max_exists listed ts (S d) w (proj1 Hok) (proj1 (proj2 Hok))) as [mv ->]. eauto.
Qed.
Lemma construct_shap_empty listed sig ts stacked boosted d data : is_table data d [] -> construct_shap listed sig ts stacked boosted data = None.
Proof. intro H. unfold construct_shap. rewrite (table_checked _ _ _ H). reflexivity. Qed.

(** ** Scikit-learn forests *)
Lemma visits_splits nz s e y l : TreeSpec.visits (splits e) y no_missing l -> TreeSpec.visits (as_tree (loaded_of nz s e) 0) y no_missing l.
Proof.
  intro Hv. induction Hv as [|i0 j0 Hv IH Hl Hd]; [constructor|]. eapply vis_step; [exact IH|exact Hl|].
  destruct Hd as [Hd|Hd Hd'|Hd Hd']; [exact (dec_default (as_tree (loaded_of nz s e) 0) y no_missing i0 Hd)
    |exact (dec_left (as_tree (loaded_of nz s e) 0) y no_missing i0 Hd Hd')
    |exact (dec_right (as_tree (loaded_of nz s e) 0) y no_missing i0 Hd Hd')].
Qed.
Lemma forest_accounts listed apl sig reg mo es l d w data zs X xs m C P rep : lists_set listed ->
  is_forest reg mo es -> es <> [] -> (forall e, In e es -> sk_ok d w e) -> (reg = false -> forall e, In e es -> SkSpec.counts e) ->
  load_model apl mo = Some l -> is_table data d zs -> zs <> [] -> 0 < d -> is_table X m xs -> xs <> [] -> d <= m ->
  coalitions_ok C d -> C <> [] -> is_players C m P -> (forall g, In g P -> In (rep g) g) ->
  exists h, construct_shap_sk listed apl sig mo data = Some h /\ forall order,
  let gives j z q := exists ls, all_land es (point z) no_missing ls /\ (q == over (SkSpec.value_at (negb reg) j) es ls / Qn (length es))%Q in
  let Q' (x : list Q) (f : nat -> nat -> Q) :=
    (forall e, In e es -> exists z n, In z zs /\ lands (splits e) (point x) no_missing n /\ lands (splits e) (point z) no_missing n) ->
    forall j v vs, j < w -> gives j x v -> Forall2 (gives j) zs vs ->
    (sumf (fun g => f (rep g) j) P == v - mean (fun v => v) vs)%Q in
  (room (l_trees l) P -> leaf_orders (l_trees l) order -> cube_entries (acv_shap h order X C) xs m w Q') /\
  cube_entries (acv_shap_nopa h X C) xs m w Q'.
Proof.
  intros HL Hm Hne Hok Hc Hl Hdata Hz Hd HX Hxs Hdm HC HCne HP Hrep.
  destruct (load_forest apl reg mo es Hm Hne) as (s & Es & El).
  { intros e He. destruct reg; [apply sums_false|]. apply sums_counts. now apply Hc. }
  rewrite El in Hl. injection Hl as <-.
  set (ts := map (loaded_of (negb reg) s) es) in *.
  assert (Hen : ensemble_ok ts 1 d w w).
  { split; [intro E; unfold ts in E; destruct es; [now apply Hne|discriminate]|]. split; [|reflexivity].
    intros t Ht. apply in_map_iff in Ht as [e [<- He]]. apply loaded_wf. now apply Hok. }
  destruct (construct_shap_some listed sig ts 1 false d w w data zs HL Hen Hdata Hz Hd) as [h Eh].
  exists h. split.
  { unfold construct_shap_sk. rewrite El. cbn [l_trees l_stacked].
    assert (Eb : match mo with BoostClf _ _ _ => true | _ => false end = false) by (destruct reg; destruct Hm as [->|(e & _ & ->)]; reflexivity).
    rewrite Eb. exact Eh. }
  intros order gives Q'. change (l_trees _) with ts.
  assert (HE : explained ts 1 d w w data zs X xs m C P) by (unfold explained; auto 10).
  pose proof (account_entries listed sig ts 1 false d w w data zs h X xs m C P HL HE Eh order rep Hrep) as Hacc. cbv zeta in Hacc.
  assert (Hq : forall j z q, gives j z q -> exists u, adds_up (raw_share 1) ts j z u /\ (u == q)%Q).
  { intros j z q (ls & Hz' & Eq). destruct (adds_up_total (raw_share 1) ts d w j z (proj1 (proj2 Hen))) as (u & Hu). exists u. split; [exact Hu|].
    rewrite (forest_adds_up _ _ d w es j z u ls Hok Hu Hz'), Eq, Es.
    assert (0 < Qn (length es))%Q by (apply Qn_pos; destruct es; [congruence|cbn; lia]). field. lra. }
  assert (Himp : forall o (Q1 Q2 : list Q -> (nat -> nat -> Q) -> Prop), (forall x f, Q1 x f -> Q2 x f) -> cube_entries o xs m w Q1 -> cube_entries o xs m w Q2).
  { intros o Q1 Q2 H12 (res & E & L & H). exists res. split; [exact E|]. split; [exact L|]. intros i x Hx.
    destruct (H i x Hx) as (tb & T1 & T2 & T3 & T4). exists tb. auto. }
  assert (Hstep : forall x f, ((forall t, In t ts -> exists z, In z zs /\ same_leaf t x z) ->
     forall j v vs, j < w -> adds_up (raw_share 1) ts j x v -> Forall2 (adds_up (raw_share 1) ts j) zs vs ->
     (sumf (fun g => f (rep g) j) P == v - mean (fun v => v) vs)%Q) -> Q' x f).
  { intros x f H Hpop j v vs Hj Hv Hvs.
    destruct (Hq j x v Hv) as (u & Hu & Eu).
    assert (G : exists us, Forall2 (adds_up (raw_share 1) ts j) zs us /\ Forall2 Qeq us vs).
    { clear - Hvs Hq. induction Hvs as [|z q l vs Hz _ IH]; [exists []; split; constructor|]. destruct IH as (us & H1 & H2).
      destruct (Hq j z q Hz) as (u & Hu & Eu). exists (u :: us). split; constructor; assumption. }
    destruct G as (us & Hus & Eus). rewrite (H) with (v := u) (vs := us); trivial.
    - rewrite Eu. apply Qplus_comp; [reflexivity|]. apply Qopp_comp. apply (mean_values Qeq); auto.
    - intros t Ht. apply in_map_iff in Ht as [e [<- He]]. destruct (Hpop e He) as (z & n & Hz' & [V1 L1] & [V2 L2]).
      exists z. split; [exact Hz'|]. exists n. split; (split; [apply visits_splits; assumption|assumption]). }
  destruct Hacc as [H1 H2]. split; [intros Hr Ho; eapply Himp; [exact Hstep|now apply H1]|eapply Himp; [exact Hstep|exact H2]].
Qed.

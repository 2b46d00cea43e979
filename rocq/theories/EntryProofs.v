(** Proofs about the tables of an [ACVTree]. *)
From Verif Require Import Base TreeModel TreeSpec TreeProofs ShapModel ShapProofs FlatModel FlatSpec FlatProofs SkModel SkSpec SkProofs
  SdpModel SdpSpec SdpProofs ArrModel ArrSpec ArrProofs ArrProofs2 ArrProofs3 ArrProofs4 EntryModel EntrySpec.
Local Open Scope nat_scope.

(** ** The trees of one output column *)

Lemma shared_wf share j b d w m : well_formed d w m -> wf_tree (shared_tree share j b m) d = true.
Proof.
  intros [H _]. unfold as_tree in H. unfold shared_tree. erewrite wf_same_shape; [exact H|].
  now rewrite !map_length.
Qed.
Lemma get_partition_values c r df f h v v' fuel : forall i p n,
  get_partition fuel (mkTree c r df f h v) i p n = get_partition fuel (mkTree c r df f h v') i p n.
Proof.
  induction fuel as [|g IH]; intros i p n; [reflexivity|]. cbn [get_partition cr cl].
  unfold ftn, thq. cbn [ft th]. destruct (where_eq r i); [destruct (where_eq c i)|]; [reflexivity|apply IH|apply IH].
Qed.
Lemma wf_len_ft t d : wf_tree t d = true -> length (ft t) = nn t.
Proof. intro H. unfold wf_tree in H. rewrite !andb_true_iff in H. apply Nat.eqb_eq. tauto. Qed.
Lemma leaf_list_idx share j b d w m : well_formed d w m -> leaf_list m = leaf_idx (shared_tree share j b m).
Proof.
  intro H. pose proof (wf_len_ft _ _ (shared_wf share j b d w m H)) as E.
  unfold leaf_list, leaf_idx. cbn [shared_tree ft] in E. rewrite E. reflexivity.
Qed.
Lemma leaf_list_lt d w m i : well_formed d w m -> In i (leaf_list m) -> i < length (m_vl m).
Proof.
  intros H Hi. rewrite (leaf_list_idx (fun _ _ _ => 0%Q) 0 0 d w m H) in Hi. unfold leaf_idx in Hi.
  apply filter_In in Hi. destruct Hi as [Hi _]. apply in_seq in Hi. unfold nn in Hi. cbn [shared_tree cl] in Hi.
  destruct (well_formed_nodes _ _ _ H). lia.
Qed.

Definition box (m : mtree) (i : nat) : rect := match leaf_box m i with Some p => p | None => whole end.
Definition nids (m : mtree) (i : nat) : list nat :=
  match get_partition (length (m_cl m)) (skeleton m) i whole [] with Some (_, nid) => nodup Nat.eq_dec nid | None => [] end.
Lemma partition_total share j b d w m i : well_formed d w m -> In i (leaf_list m) ->
  leaf_box m i = Some (box m i) /\
  leaf_of (shared_tree share j b m) i = Some (mkLeaf (box m i) (nids m i) (share b j (nth i (m_vl m) []))).
Proof.
  intros H Hi. pose proof (shared_wf share j b d w m H) as Hw.
  pose proof (leaf_list_lt d w m i H Hi) as Hlt. destruct (well_formed_nodes _ _ _ H) as [Hlen _].
  destruct (get_partition_leaf _ d Hw (fun _ => 0%Q) i) as [p [nid [E _]]].
  { unfold nn. cbn [shared_tree cl]. lia. }
  unfold nn in E. cbn [shared_tree cl] in E.
  assert (E' : get_partition (length (m_cl m)) (skeleton m) i whole [] = Some (p, nid)).
  { rewrite <- E. apply get_partition_values. }
  unfold box, leaf_box, nids. rewrite E'. cbn [option_map fst]. split; [reflexivity|].
  unfold leaf_of, nn. cbn [shared_tree cl]. unfold shared_tree in E |- *. rewrite E. f_equal. f_equal.
  unfold vlq. cbn [vl].
  rewrite (nth_indep _ 0%Q (share b j [])) by (rewrite map_length; lia). apply map_nth.
Qed.

Lemma leaves_from_map t is_ g : (forall i, In i is_ -> leaf_of t i = Some (g i)) -> leaves_from t is_ = Some (map g is_).
Proof.
  induction is_ as [|i r IH]; intro H; [reflexivity|]. cbn [leaves_from map].
  rewrite (H i (or_introl eq_refl)), IH; [reflexivity|]. intros; apply H; now right.
Qed.
Lemma forest_leaves_map {A} (f : A -> tree) g l : (forall b, In b l -> tree_leaves (f b) = Some (g b)) ->
  forest_leaves (map f l) = Some (map g l).
Proof.
  induction l as [|b r IH]; intro H; [reflexivity|]. cbn [forest_leaves map].
  rewrite (H b (or_introl eq_refl)), IH; [reflexivity|]. intros; apply H; now right.
Qed.
Lemma map_nth_seq {A B} (F : A -> B) l dft : map (fun k => F (nth k l dft)) (seq 0 (length l)) = map F l.
Proof.
  induction l as [|a l IH]; [reflexivity|]. cbn [length seq map nth]. f_equal. rewrite <- seq_shift, map_map. exact IH.
Qed.

(** ** The tables *)
Definition all_boxes (ts : list mtree) : list (list rect) := map (fun m => map (box m) (leaf_list m)) ts.
Definition vars (ts : list mtree) (b k : nat) : list nat :=
  let m := nth b ts no_tree in nids m (nth k (leaf_list m) 0).

Section Tables.
Variables (ts : list mtree) (d w : nat).
Hypothesis Hwf : forall m, In m ts -> well_formed d w m.

Lemma boxes_form : boxes ts = Some (all_boxes ts).
Proof.
  unfold boxes, all_boxes. apply all_some_map. intros m Hm. apply all_some_map. intros i Hi.
  apply (partition_total (fun _ _ _ => 0%Q) 0 0 d w m i); auto.
Qed.
Variables (K : nat) (v : nat -> nat -> nat -> Q) (share : nat -> nat -> list Q -> Q).
Hypothesis Hv : forall b n j, b < length ts -> n < length (m_vl (nth b ts no_tree)) ->
  v b n j = share b j (nth n (m_vl (nth b ts no_tree)) []).
Notation T := (tables ts (all_boxes ts) K v).

Lemma fold_max_in l x : In x l -> x <= fold_right Nat.max 0 l.
Proof. induction l as [|a l IH]; intros []; cbn; [subst; lia|specialize (IH H); lia]. Qed.
Lemma tables_ok : tabs_ok T.
Proof.
  intros b Hb. cbn [t_trees tables] in Hb. cbn [t_nb t_max t_leaf t_nodes tables].
  assert (Hin : In (nth b ts no_tree) ts) by (now apply nth_In). split.
  - apply fold_max_in. apply in_map_iff. exists (nth b ts no_tree). auto.
  - intros k Hk. pose proof (nth_In (leaf_list (nth b ts no_tree)) (max_nodes ts) Hk) as Hi.
    pose proof (leaf_list_lt d w _ _ (Hwf _ Hin) Hi). pose proof (max_nodes_ge ts _ Hin). lia.
Qed.
Lemma tables_forest j : forest_leaves (shared share ts j) = Some (forest_at T (vars ts) j).
Proof.
  unfold shared, forest_at. cbn [t_trees tables]. apply forest_leaves_map. intros b Hb. apply in_seq in Hb.
  set (m := nth b ts no_tree). assert (Hin : In m ts) by (apply nth_In; lia).
  unfold tree_leaves. rewrite <- (leaf_list_idx share j b d w m (Hwf m Hin)).
  rewrite (leaves_from_map _ _ (fun i => mkLeaf (box m i) (nids m i) (share b j (nth i (m_vl m) [])))).
  2:{ intros i Hi. apply (partition_total share j b d w m i); auto. }
  f_equal. cbn [t_nb tables]. fold m. rewrite <- (map_nth_seq _ (leaf_list m) 0). apply map_ext_in. intros k Hk.
  apply in_seq in Hk. unfold leaf_at. cbn [t_part t_leaf t_val tables]. fold m.
  unfold all_boxes. rewrite (nth_indep (map _ ts) [] (map (box no_tree) (leaf_list no_tree))) by (rewrite map_length; lia).
  rewrite (map_nth (fun m => map (box m) (leaf_list m))). fold m.
  rewrite (nth_indep (map (box m) _) padding (box m 0)) by (rewrite map_length; lia). rewrite map_nth.
  rewrite (nth_indep (leaf_list m) (max_nodes ts) 0) by lia.
  rewrite Hv; [|lia|fold m; eapply leaf_list_lt; [apply Hwf; exact Hin|apply nth_In; lia]].
  fold m. reflexivity.
Qed.
Lemma shared_all_wf j : forallb (fun t => wf_tree t d) (shared share ts j) = true.
Proof.
  apply forallb_forall. intros t Ht. unfold shared in Ht. apply in_map_iff in Ht. destruct Ht as [b [<- Hb]].
  apply in_seq in Hb. eapply shared_wf. apply Hwf. apply nth_In. lia.
Qed.
End Tables.

(** ** Predictions of the columns *)
Lemma share_value share j b d w m z miss r : well_formed d w m -> gives m z miss r ->
  predict_value (shared_tree share j b m) z miss = Some (share b j r).
Proof.
  intros H (l & Hv & Hl & ->). pose proof (proj1 H) as Hw. unfold predict_value.
  assert (Ew : forall fuel i, walk fuel (shared_tree share j b m) z miss i = walk fuel (as_tree m 0) z miss i).
  { induction fuel as [|f IH]; intro i; [reflexivity|]. cbn [walk].
    change (is_leaf (shared_tree share j b m) i) with (is_leaf (as_tree m 0) i). destruct (is_leaf (as_tree m 0) i); [reflexivity|].
    change (next_node (shared_tree share j b m) z miss i) with (next_node (as_tree m 0) z miss i). apply IH. }
  assert (Ep : predict_leaf (shared_tree share j b m) z miss = predict_leaf (as_tree m 0) z miss) by (apply Ew).
  rewrite Ep.
  rewrite (proj1 (visited_leaf_predicted (as_tree m 0) d Hw z miss l Hv) Hl). f_equal.
  unfold vlq. cbn [shared_tree vl]. pose proof (visits_lt (as_tree m 0) d Hw z miss l Hv) as Hlt.
  unfold nn in Hlt. cbn [as_tree cl] in Hlt. destruct (well_formed_nodes _ _ _ H) as [Hlen _].
  rewrite (nth_indep _ 0%Q (share b j [])) by (rewrite map_length; lia). apply map_nth.
Qed.
Lemma add_shares share j d w z miss : forall ts rs, (forall m, In m ts -> well_formed d w m) -> all_give ts z miss rs ->
  forall (sh : nat) acc,
  exists v, add_trees (map (fun b => shared_tree share j (sh + b) (nth b ts no_tree)) (seq 0 (length ts))) z miss acc = Some v /\
    (v == acc + sumf (fun b => share (sh + b)%nat j (nth b rs [])) (seq 0 (length rs)))%Q.
Proof.
  intros ts rs Hwf H. induction H as [|m r ts rs Hm _ IH]; intros sh acc; [exists acc; split; [reflexivity|cbn; lra]|].
  cbn [length seq map add_trees nth].
  rewrite (share_value share j (sh + 0) d w m z miss r (Hwf m (or_introl eq_refl)) Hm).
  rewrite <- seq_shift, map_map. cbn [nth].
  destruct (IH ltac:(intros; apply Hwf; now right) (S sh) (acc + share (sh + 0)%nat j r)%Q) as (v & E & Ev).
  exists v. split.
  - rewrite <- E. f_equal. apply map_ext. intro b. f_equal. lia.
  - rewrite Ev. cbn [sumf nth]. rewrite <- seq_shift, sumf_map.
    assert (Es : (sumf (fun b => share (S sh + b)%nat j (nth b rs [])) (seq 0 (length rs))
                 == sumf (fun b => share (sh + S b)%nat j (nth b rs [])) (seq 0 (length rs)))%Q).
    { apply sumf_ext. intros b _. replace (S sh + b) with (sh + S b) by lia. reflexivity. }
    rewrite Es. lra.
Qed.
Lemma all_give_total ts d w z miss : (forall m, In m ts -> well_formed d w m) -> exists rs, all_give ts z miss rs.
Proof.
  induction ts as [|m ts IH]; intro H; [exists []; constructor|].
  destruct IH as [rs Hr]; [intros; apply H; now right|].
  destruct (H m (or_introl eq_refl)) as [Hw _].
  destruct (predict_leaf_total _ _ Hw z miss) as (l & E & Hl & Hv).
  exists (nth l (m_vl m) [] :: rs). constructor; [|exact Hr]. exists l. split; [exact Hv|split; [|reflexivity]].
  unfold leaf_idx in Hl. apply filter_In in Hl. exact (proj2 Hl).
Qed.
Lemma adds_up_total share ts d w j z : (forall m, In m ts -> well_formed d w m) -> exists v, adds_up share ts j z v.
Proof. intro H. destruct (all_give_total ts d w (point z) no_missing H) as [rs Hr]. eexists. exists rs. split; [exact Hr|reflexivity]. Qed.
Lemma adds_up_predict share ts d w j z v : (forall m, In m ts -> well_formed d w m) -> adds_up share ts j z v ->
  exists r, dense_tree_predict (shared share ts j) (length (shared share ts j)) 0 (point z) no_missing = Some r /\ (r == v)%Q.
Proof.
  intros Hwf (rs & Hr & Ev). destruct (add_shares share j d w (point z) no_missing ts rs Hwf Hr 0 (0 + 0)%Q) as (r & E & Er).
  exists r. split.
  - unfold dense_tree_predict. rewrite firstn_all. exact E.
  - rewrite Er, Ev. cbn [Nat.add]. lra.
Qed.
Lemma adds_up_unique share ts d w j z v v' : (forall m, In m ts -> well_formed d w m) ->
  adds_up share ts j z v -> adds_up share ts j z v' -> (v == v')%Q.
Proof.
  intros Hwf H H'. destruct (adds_up_predict share ts d w j z v Hwf H) as (r & E & Er).
  destruct (adds_up_predict share ts d w j z v' Hwf H') as (r' & E' & Er').
  assert (r = r') by congruence. subst r'. now rewrite <- Er, <- Er'.
Qed.

(** ** Thresholds *)
Lemma off_thresholds_boundary share ts d w K v j z : (forall m, In m ts -> well_formed d w m) ->
  forest_leaves (shared share ts j) = Some (forest_at (tables ts (all_boxes ts) K v) (vars ts) j) ->
  off_thresholds ts z -> off_boundary (forest_at (tables ts (all_boxes ts) K v) (vars ts) j) (point z).
Proof.
  intros Hwf Hf Hoff ls lf s q Hls Hlf Hq.
  destruct (forest_leaves_in _ _ _ Hf Hls) as (t & Ht & El). unfold shared in Ht. apply in_map_iff in Ht.
  destruct Ht as (b & <- & Hb). apply in_seq in Hb. set (m := nth b ts no_tree) in *.
  assert (Hin : In m ts) by (apply nth_In; lia). pose proof (shared_wf share j b d w m (Hwf m Hin)) as Hw.
  destruct (leaves_from_nth _ _ _ El) as [_ Hnth]. destruct (In_nth_error _ _ Hlf) as [k Hk]. specialize (Hnth k).
  destruct (nth_error (leaf_idx (shared_tree share j b m)) k) as [i|] eqn:Ei; [|congruence].
  rewrite Hk in Hnth. assert (Hi : In i (leaf_idx (shared_tree share j b m))) by (eapply nth_error_In; exact Ei).
  unfold leaf_of in Hnth. destruct (get_partition _ _ i whole []) as [[p nid]|] eqn:Eg; [|discriminate].
  injection Hnth as <-. cbn [l_rect] in Hq.
  assert (G : forall fuel i part nid p nid', get_partition fuel (shared_tree share j b m) i part nid = Some (p, nid') ->
    i < nn (shared_tree share j b m) ->
    (forall s q, fst (part s) = Fin q -> ~ (point z s == q)%Q) -> (forall s q, fst (p s) = Fin q -> ~ (point z s == q)%Q)).
  { clear - Hw Hoff Hin. induction fuel as [|f IH]; intros i part nid p nid' E Hi Hp; [discriminate|].
    cbn [get_partition] in E.
    assert (Hn : forall fe lo hi, (forall q, lo = Fin q -> ~ (point z fe == q)%Q) ->
      forall s q, fst (narrow part fe lo hi s) = Fin q -> ~ (point z s == q)%Q).
    { intros fe lo hi Hlo s q. unfold narrow, upd. destruct (Nat.eqb_spec s fe) as [->|]; [|apply Hp].
      cbn [fst]. specialize (Hp fe). destruct (fst (part fe)) as [|a|]; destruct lo as [|c|]; cbn [ext_max]; try discriminate; auto.
      destruct (qleb a c); intro E'; injection E' as <-; auto. }
    destruct (where_eq (cr (shared_tree share j b m)) i) as [|r rr] eqn:Er.
    - destruct (where_eq (cl (shared_tree share j b m)) i) as [|l ll] eqn:El; [injection E as <- <-; exact Hp|].
      assert (Hl : In l (where_eq (cl (shared_tree share j b m)) i)) by (rewrite El; now left).
      apply (in_where_cl _) in Hl. destruct Hl as [Hl _].
      eapply IH; [exact E|exact Hl|]. apply Hn. discriminate.
    - assert (Hr : In r (where_eq (cr (shared_tree share j b m)) i)) by (rewrite Er; now left).
      apply (in_where_cr _ d Hw) in Hr. destruct Hr as [Hr Hc].
      eapply IH; [exact E|exact Hr|]. apply Hn. intros q Eq. injection Eq as <-.
      assert (Hlf : is_leaf (shared_tree share j b m) r = false).
      { destruct (is_leaf _ r) eqn:E'; [|reflexivity]. pose proof (wf_leaf _ d Hw r Hr E'). lia. }
      unfold is_leaf in Hlf. apply Z.ltb_ge in Hlf.
      apply (Hoff m r Hin Hr Hlf). }
  eapply (G _ i whole [] p nid Eg); [|intros s' q'; discriminate|exact Hq].
  unfold leaf_idx in Hi. apply filter_In in Hi. destruct Hi as [Hi _]. apply in_seq in Hi. lia.
Qed.

(** Proofs about the conditional expectations of an [ACVTree]. *)
From Verif Require Import Base TreeModel TreeSpec TreeProofs ShapModel ShapProofs FlatModel FlatSpec FlatProofs SkModel SkSpec SkProofs
  SdpModel SdpSpec SdpProofs ArrModel ArrSpec ArrProofs ArrProofs2 ArrProofs3 ArrProofs4 EntryModel EntrySpec EntryProofs.
Local Open Scope nat_scope.

(** ** The object *)
Lemma ensemble_outputs ts stacked d w k : ensemble_ok ts stacked d w k -> num_outputs ts stacked = Some k.
Proof.
  intros (Hne & Hwf & Hk). unfold num_outputs. destruct ts as [|m ts']; [congruence|].
  pose proof (widths_equal (m :: ts') d w Hwf) as Hw. cbn [nth] in Hw. rewrite Hw.
  rewrite (width_wf d w m (Hwf m (or_introl eq_refl))). destruct (1 <? stacked).
  - destruct Hk as (-> & -> & ->). reflexivity.
  - congruence.
Qed.
Lemma columns_fine d w m : well_formed d w m -> columns_exist d m = true.
Proof.
  intro H. destruct H as [Hw _]. unfold columns_exist. apply forallb_forall. intros i Hi. apply in_seq in Hi.
  destruct (nth i (m_cl m) (-1) <? 0)%Z eqn:E; [reflexivity|]. cbn [orb].
  pose proof (wf_node_at _ d Hw i ltac:(unfold nn; cbn [as_tree cl]; lia)) as Hn.
  unfold wf_node in Hn. replace (clz (as_tree m 0) i <? 0)%Z with false in Hn by (symmetry; exact E).
  rewrite !andb_true_iff in Hn. cbn [as_tree ft] in Hn. apply andb_true_intro. tauto.
Qed.
Definition built (sig : Q -> Q) (ts : list mtree) (stacked : nat) (boosted : bool) (d k : nat) : acv :=
  mkAcv d k boosted (tables ts (all_boxes ts) k (raw_value ts stacked)) (tables ts (all_boxes ts) 2 (binary_value sig ts)).
Lemma construct_form sig ts stacked boosted d w k : ensemble_ok ts stacked d w k ->
  construct sig ts stacked boosted d = Some (built sig ts stacked boosted d k).
Proof.
  intro H. unfold construct. rewrite (ensemble_outputs _ _ _ _ _ H). destruct H as (_ & Hwf & _).
  rewrite (boxes_form ts d w Hwf).
  replace (forallb (columns_exist d) ts) with true; [reflexivity|]. symmetry. apply forallb_forall. intros m Hm.
  eapply columns_fine. apply Hwf. exact Hm.
Qed.
Lemma raw_is_share ts stacked b n j : raw_value ts stacked b n j = raw_share stacked b j (nth n (m_vl (nth b ts no_tree)) []).
Proof. reflexivity. Qed.
Lemma binary_is_share sig ts b n j : n < length (m_vl (nth b ts no_tree)) ->
  binary_value sig ts b n j = binary_share sig (length ts) b j (nth n (m_vl (nth b ts no_tree)) []).
Proof.
  intro Hn. unfold binary_value. rewrite (nth_error_nth' _ [] Hn). reflexivity.
Qed.

(** ** Calls *)
Lemma exp_call_returns {V} a (prog : tabs -> nat -> list pt -> list pt -> list nat -> option (nat -> nat -> V)) X d c xs Sv zs r :
  is_table X d xs -> d <= c -> o_cols a = d -> prog (o_tabs a) d (map point xs) (map point zs) Sv = Some r ->
  exp_call a prog X (S_array I64 Sv) (M_array F64 c zs) =
    Returned (map (fun i => map (r i) (seq 0 (t_out (o_tabs a)))) (seq 0 (length xs))).
Proof.
  intros HX Hc Hd E. unfold exp_call.
  assert (EX : buffer2 (as_float X) = Returned (mkMat d xs)) by (destruct HX as [->|[->|[dt ->]]]; reflexivity).
  rewrite EX. cbn [andthen buffer1 buffer2 same_dtype cols rows]. unfold wide_enough. cbn [cols].
  rewrite Hd, Nat.leb_refl, (proj2 (Nat.leb_le _ _) Hc). cbn [andb]. unfold result.
  change (points (mkMat d xs)) with (map point xs). change (points (mkMat c zs)) with (map point zs). rewrite E. reflexivity.
Qed.
Lemma entry_of {V} (r : nat -> nat -> V) n k i : i < n ->
  nth_error (map (fun i => map (r i) (seq 0 k)) (seq 0 n)) i = Some (map (r i) (seq 0 k)).
Proof.
  intro Hi. rewrite (map_nth_error _ i (seq 0 n) (d := i)); [reflexivity|].
  rewrite (nth_error_nth' _ 0) by (rewrite seq_length; lia). now rewrite seq_nth by lia.
Qed.
Lemma cell_of {V} (r : nat -> V) k j dft : j < k -> nth j (map r (seq 0 k)) dft = r j.
Proof.
  intro Hj. rewrite (nth_indep _ dft (r 0)) by (rewrite map_length, seq_length; lia). rewrite map_nth, seq_nth by lia. reflexivity.
Qed.
Lemma entry_table {V} (r : nat -> nat -> V) n k : length (map (fun i => map (r i) (seq 0 k)) (seq 0 n)) = n.
Proof. now rewrite map_length, seq_length. Qed.
Lemma point_at xs i x : nth_error xs i = Some x -> nth_error (map point xs) i = Some (point x).
Proof. intro H. now apply map_nth_error. Qed.
Lemma nth_error_lt {A} (l : list A) i x : nth_error l i = Some x -> i < length l.
Proof. intro H. apply nth_error_Some. congruence. Qed.
Lemma matching_points Sv x zs : filter (same_on Sv (point x)) (map point zs) = map point (matching Sv x zs).
Proof.
  unfold matching. induction zs as [|z zs IH]; [reflexivity|]. cbn [map filter].
  destruct (same_on Sv (point x) (point z)); cbn [map]; now rewrite IH.
Qed.

(** ** Values *)
Lemma leaf_sum_value share ts d w K v j z q : (forall m, In m ts -> well_formed d w m) ->
  forest_leaves (shared share ts j) = Some (forest_at (tables ts (all_boxes ts) K v) (vars ts) j) ->
  adds_up share ts j z q ->
  (sumf (fun ls => sumf (fun lf => Qb (in_rect d (l_rect lf) (point z)) * l_val lf) ls)
     (forest_at (tables ts (all_boxes ts) K v) (vars ts) j) == q)%Q.
Proof.
  intros Hwf Hf Hq. destruct (adds_up_predict share ts d w j z q Hwf Hq) as (r & E & Er).
  rewrite (forest_sum _ d _ (point z) 0 r (shared_all_wf ts d w Hwf share j) Hf E). rewrite Er. lra.
Qed.
Lemma mean_values {A} (R : A -> Q -> Prop) (g : A -> Q) l vs : Forall2 R l vs -> (forall a v, R a v -> (g a == v)%Q) ->
  (mean g l == mean (fun v => v) vs)%Q.
Proof.
  intros H HR. assert (El : length l = length vs) by (induction H; cbn; congruence).
  assert (Es : (sumf g l == sumf (fun v => v) vs)%Q).
  { clear El. induction H as [|a v l vs Ha _ IH]; [reflexivity|]. cbn [sumf]. now rewrite IH, (HR a v Ha). }
  unfold mean. destruct l as [|a l]; destruct vs as [|v vs]; try discriminate El; [reflexivity|]. rewrite El, Es. reflexivity.
Qed.
Lemma mean_map {A B} (f : A -> B) (g : B -> Q) l : (mean g (map f l) == mean (fun a => g (f a)) l)%Q.
Proof. unfold mean. destruct l as [|a l]; [reflexivity|].
  change (map f (a :: l)) with (f a :: map f l). cbv iota. cbn [sumf length]. rewrite sumf_map, map_length. reflexivity. Qed.
Lemma cat_value share ts d w K v j Sv x zs vs : (forall m, In m ts -> well_formed d w m) ->
  forest_leaves (shared share ts j) = Some (forest_at (tables ts (all_boxes ts) K v) (vars ts) j) ->
  (forall s, In s Sv -> s < d) -> Forall2 (adds_up share ts j) (matching Sv x zs) vs ->
  (compute_exp_cat d (map point zs) Sv (forest_at (tables ts (all_boxes ts) K v) (vars ts) j) (point x) == mean (fun v => v) vs)%Q.
Proof.
  intros Hwf Hf HS Hv. rewrite exp_cat_mean by exact HS. rewrite matching_points, mean_map.
  eapply mean_values; [exact Hv|]. intros z q Hq. now apply (leaf_sum_value share ts d w K v j z q).
Qed.

Section Object.
Variables (sig : Q -> Q) (ts : list mtree) (stacked : nat) (boosted : bool) (d w k : nat) (a : acv).
Hypothesis Hok : ensemble_ok ts stacked d w k.
Hypothesis Ha : construct sig ts stacked boosted d = Some a.

Lemma a_form : a = built sig ts stacked boosted d k.
Proof. rewrite (construct_form _ _ _ _ _ _ _ Hok) in Ha. congruence. Qed.
Lemma a_wf : forall m, In m ts -> well_formed d w m.
Proof. exact (proj1 (proj2 Hok)). Qed.
Lemma a_tabs : tabs_ok (o_tabs a).
Proof. rewrite a_form. apply (tables_ok ts d w a_wf). Qed.
Lemma a_forest j : forest_leaves (shared (raw_share stacked) ts j) = Some (forest_at (o_tabs a) (vars ts) j).
Proof. rewrite a_form. apply (tables_forest ts d w a_wf). intros; apply raw_is_share. Qed.
Lemma a_binary_tabs : tabs_ok (o_binary a).
Proof. rewrite a_form. apply (tables_ok ts d w a_wf). Qed.
Lemma a_binary_forest j : forest_leaves (shared (binary_share sig (length ts)) ts j) = Some (forest_at (o_binary a) (vars ts) j).
Proof. rewrite a_form. apply (tables_forest ts d w a_wf). intros; now apply binary_is_share. Qed.
Lemma a_out : t_out (o_tabs a) = k.
Proof. now rewrite a_form. Qed.
Lemma a_cols : o_cols a = d.
Proof. now rewrite a_form. Qed.

Variables (X : marg) (xs zs : list (list Q)) (c : nat) (Sv : list nat) (sched : nat -> list (nat * nat)).
Hypothesis HX : is_table X d xs.
Hypothesis Hc : d <= c.
Hypothesis HS : forall s, In s Sv -> s < d.
Hypothesis Hsched : any_order (o_tabs a) (length xs) sched.

Lemma sched_points : any_order (o_tabs a) (length (map point xs)) sched.
Proof. now rewrite map_length. Qed.

Lemma entries_intro {V} prog (r : nat -> nat -> V) (P : list Q -> nat -> V -> Prop) :
  prog (o_tabs a) d (map point xs) (map point zs) Sv = Some r ->
  (forall i x j, nth_error xs i = Some x -> j < k -> P x j (r i j)) -> entries (exp_call a prog X (S_array I64 Sv) (M_array F64 c zs)) xs k P.
Proof.
  intros E H. eexists. split; [eapply exp_call_returns; [exact HX|exact Hc|exact a_cols|exact E]|].
  split; [apply entry_table|]. intros i x Hx. eexists. split; [apply entry_of; eapply nth_error_lt; exact Hx|].
  split; [rewrite map_length, seq_length; apply a_out|]. intros j v Hj. rewrite a_out in Hj.
  assert (Hlt : j < k) by (apply nth_error_lt in Hj; rewrite map_length, seq_length in Hj; exact Hj).
  rewrite (nth_error_nth' _ v) in Hj by (rewrite map_length, seq_length; exact Hlt). injection Hj as Hj.
  rewrite cell_of in Hj by exact Hlt. subst v. eapply H; eassumption.
Qed.

Lemma exp_cat_entries : entries (acv_exp_cat a sched X (S_array I64 Sv) (M_array F64 c zs)) xs k (fun x j v =>
  forall vs, Forall2 (adds_up (raw_share stacked) ts j) (matching Sv x zs) vs -> (v == mean (fun v => v) vs)%Q).
Proof.
  destruct (exp_cat_prog_ok (o_tabs a) d (map point xs) (map point zs) Sv sched (vars ts) a_tabs sched_points HS) as [r [E H]].
  eapply entries_intro; [exact E|]. intros i x j Hx Hj vs Hv.
  rewrite (H i (point x) j (point_at _ _ _ Hx)) by (rewrite a_out; exact Hj).
  pose proof (a_forest j) as Hf. revert Hf. rewrite a_form. cbn [o_tabs built]. intro Hf.
  eapply cat_value; [exact a_wf|exact Hf|exact HS|exact Hv].
Qed.
Lemma exp_entries : entries (acv_exp a sched X (S_array I64 Sv) (M_array F64 c zs)) xs k (fun x j v =>
  exists forest, forest_leaves (shared (raw_share stacked) ts j) = Some forest /\
    (v == plain_sum d (map point zs) Sv (point x) forest)%Q).
Proof.
  destruct (exp_prog_plain (o_tabs a) d (map point xs) (map point zs) Sv sched (vars ts) a_tabs sched_points HS) as [r [E H]].
  eapply entries_intro; [exact E|]. intros i x j Hx Hj. eexists. split; [apply a_forest|].
  apply H; [now apply point_at|]. rewrite a_out. exact Hj.
Qed.
Lemma norm_entries : entries (acv_exp_normalized a sched X (S_array I64 Sv) (M_array F64 c zs)) xs k (fun x j v =>
  exists forest, forest_leaves (shared (raw_share stacked) ts j) = Some forest /\
    v <> Dinf /\ (v = Dnan <-> exists ls lf, In ls forest /\ In lf ls /\ meets (l_rect lf) Sv (point x) /\
       rows_closed (map point zs) (l_rect lf) (seq 0 d) = 0 /\ rows_half (map point zs) (l_rect lf) Sv = 0) /\
    (v <> Dnan -> is_num v (sumf (tree_norm d (map point zs) Sv (point x)) forest))).
Proof.
  destruct (norm_prog_ok (o_tabs a) d (map point xs) (map point zs) Sv sched (vars ts) a_tabs sched_points HS) as [r [E H]].
  eapply entries_intro; [exact E|]. intros i x j Hx Hj. eexists. split; [apply a_forest|].
  destruct (H i (point x) j (point_at _ _ _ Hx)) as (H1 & H2 & H3); [rewrite a_out; exact Hj|].
  split; [exact H1|]. split; [|exact H3]. rewrite H2. unfold forest_at. split.
  - intros (b & l & Hb & Hl & R). exists (map (leaf_at (o_tabs a) (vars ts) j b) (seq 0 (t_nb (o_tabs a) b))), (leaf_at (o_tabs a) (vars ts) j b l).
    split; [apply in_map_iff; exists b; split; [reflexivity|apply in_seq; lia]|].
    split; [apply in_map_iff; exists l; split; [reflexivity|apply in_seq; lia]|]. exact R.
  - intros (ls & lf & Hls & Hlf & R). apply in_map_iff in Hls. destruct Hls as (b & <- & Hb).
    apply in_map_iff in Hlf. destruct Hlf as (l & <- & Hl). apply in_seq in Hb. apply in_seq in Hl.
    exists b, l. split; [lia|]. split; [lia|]. exact R.
Qed.

(** no column given: the mean output *)
Lemma exp_none_entries : Sv = [] -> zs <> [] -> (forall z, In z zs -> off_thresholds ts z) ->
  entries (acv_exp a sched X (S_array I64 Sv) (M_array F64 c zs)) xs k (fun x j v =>
    forall vs, Forall2 (adds_up (raw_share stacked) ts j) zs vs -> (v == mean (fun v => v) vs)%Q).
Proof.
  intros ES Hz Hoff.
  destruct (exp_prog_plain (o_tabs a) d (map point xs) (map point zs) Sv sched (vars ts) a_tabs sched_points HS) as [r [E H]].
  eapply entries_intro; [exact E|]. intros i x j Hx Hj vs Hv.
  rewrite (H i (point x) j (point_at _ _ _ Hx)) by (rewrite a_out; exact Hj). rewrite ES.
  destruct zs as [|z0 zr] eqn:Ez; [congruence|]. rewrite <- Ez in *.
  change (plain_sum d (map point zs) [] (point x) (forest_at (o_tabs a) (vars ts) j))
    with (plain_sum d (map point zs) [] (point z0) (forest_at (o_tabs a) (vars ts) j)).
  rewrite <- compute_exp_plain.
  assert (Hb : forall z, In z zs -> off_boundary (forest_at (o_tabs a) (vars ts) j) (point z)).
  { intros z Hzi. pose proof (a_forest j) as Hf. revert Hf. rewrite a_form. cbn [o_tabs built]. intro Hf.
    eapply off_thresholds_boundary; [exact a_wf|exact Hf|now apply Hoff]. }
  assert (Hr : exists rs, Forall2 (fun z r => dense_tree_predict (shared (raw_share stacked) ts j) (length (shared (raw_share stacked) ts j)) 0 z no_missing = Some r)
     (map point zs) rs /\ (sumf (fun r => r) rs == sumf (fun v => v) vs)%Q /\ length zs = length vs).
  { clear - Hv Hok. induction Hv as [|z v l vs Hz _ IH]; [exists []; repeat split; constructor|].
    destruct IH as (rs & H1 & H2 & H3). destruct (adds_up_predict _ ts d w j z v a_wf Hz) as (q & Eq & Ev).
    exists (q :: rs). split; [constructor; assumption|]. split; [cbn [sumf]; now rewrite Ev, H2|cbn; congruence]. }
  destruct Hr as (rs & Hr & Es & El).
  rewrite (exp_no_variable d (map point zs) (shared (raw_share stacked) ts j) _ (point z0) 0 rs).
  - rewrite Es, map_length, El. unfold mean. destruct vs; [rewrite Ez in El; discriminate|]. lra.
  - apply (shared_all_wf ts d w a_wf).
  - apply a_forest.
  - rewrite Ez. discriminate.
  - apply Hb. rewrite Ez. now left.
  - intros p Hp. apply in_map_iff in Hp. destruct Hp as (z & <- & Hzi). now apply Hb.
  - exact Hr.
Qed.
(** all columns given: the output of the observation *)
Lemma exp_all_entries : (forall s, s < d -> In s Sv) -> (forall z, In z zs -> off_thresholds ts z) ->
  entries (acv_exp a sched X (S_array I64 Sv) (M_array F64 c zs)) xs k (fun x j v => off_thresholds ts x ->
    (forall m, In m ts -> exists z, In z zs /\ same_leaf m x z) ->
    forall q, adds_up (raw_share stacked) ts j x q -> (v == q)%Q).
Proof.
  intros ES Hoff.
  destruct (exp_prog_plain (o_tabs a) d (map point xs) (map point zs) Sv sched (vars ts) a_tabs sched_points HS) as [r [E H]].
  eapply entries_intro; [exact E|]. intros i x j Hx Hj Hox Hpop q Hq.
  rewrite (H i (point x) j (point_at _ _ _ Hx)) by (rewrite a_out; exact Hj).
  rewrite <- compute_exp_plain.
  assert (Hb : forall z, off_thresholds ts z -> off_boundary (forest_at (o_tabs a) (vars ts) j) (point z)).
  { intros z Hzi. pose proof (a_forest j) as Hf. revert Hf. rewrite a_form. cbn [o_tabs built]. intro Hf.
    eapply off_thresholds_boundary; [exact a_wf|exact Hf|exact Hzi]. }
  destruct (adds_up_predict _ ts d w j x q a_wf Hq) as (p & Ep & Ev).
  rewrite (exp_all_variables d (map point zs) (shared (raw_share stacked) ts j) _ Sv (point x) 0 p).
  - rewrite Ev. lra.
  - apply (shared_all_wf ts d w a_wf).
  - apply a_forest.
  - now apply Hb.
  - intros y Hp. apply in_map_iff in Hp. destruct Hp as (z & <- & Hzi). apply Hb. now apply Hoff.
  - intro s. split; [apply HS|apply ES].
  - intros ls lf Hls Hlf Hin. destruct (forest_leaves_in _ _ _ (a_forest j) Hls) as (t & Ht & El).
    unfold shared in Ht. apply in_map_iff in Ht. destruct Ht as (b & <- & Hbb). apply in_seq in Hbb.
    set (m := nth b ts no_tree) in *. assert (Hm : In m ts) by (apply nth_In; lia).
    pose proof (shared_wf (raw_share stacked) j b d w m (a_wf m Hm)) as Hw.
    destruct (Hpop m Hm) as (z & Hz & l & [Hv1 Hl1] & [Hv2 Hl2]). exists (point z). split; [apply in_map_iff; exists z; auto|].
    destruct (leaves_from_nth _ _ _ El) as [_ Hnth]. destruct (In_nth_error _ _ Hlf) as [n Hn]. specialize (Hnth n).
    destruct (nth_error (leaf_idx (shared_tree (raw_share stacked) j b m)) n) as [i'|] eqn:Ei; [|congruence].
    rewrite Hn in Hnth. assert (Hi : In i' (leaf_idx (shared_tree (raw_share stacked) j b m))) by (eapply nth_error_In; exact Ei).
    unfold leaf_of in Hnth. unfold leaf_idx in Hi. apply filter_In in Hi. destruct Hi as [Hi Hlfi]. apply in_seq in Hi.
    destruct (get_partition_leaf _ d Hw (point x) i' ltac:(lia)) as (p1 & n1 & E1 & M1).
    destruct (get_partition_leaf _ d Hw (point z) i' ltac:(lia)) as (p2 & n2 & E2 & M2).
    rewrite E1 in E2. injection E2 as <- <-. rewrite E1 in Hnth. injection Hnth as <-. cbn [l_rect] in *.
    apply in_rect_Inside. apply M2. apply in_rect_Inside in Hin. apply M1 in Hin.
    assert (Hag : forall y l, TreeSpec.visits (as_tree m 0) y no_missing l -> TreeSpec.visits (shared_tree (raw_share stacked) j b m) y no_missing l).
    { clear. intros y l Hv. induction Hv as [|i0 j0 Hv IH Hl Hd]; [constructor|]. eapply vis_step; [exact IH|exact Hl|].
      destruct Hd as [Hd|Hd Hd'|Hd Hd']; [exact (dec_default (shared_tree (raw_share stacked) j b m) y no_missing i0 Hd)
        |exact (dec_left (shared_tree (raw_share stacked) j b m) y no_missing i0 Hd Hd')
        |exact (dec_right (shared_tree (raw_share stacked) j b m) y no_missing i0 Hd Hd')]. }
    assert (i' = l).
    { apply Hag in Hv1. pose proof (proj1 (visited_leaf_predicted _ d Hw (point x) no_missing i' Hin) Hlfi) as P1.
      pose proof (proj1 (visited_leaf_predicted _ d Hw (point x) no_missing l Hv1) Hl1) as P2. congruence. }
    subst i'. now apply Hag.
  - exact Ep.
Qed.

(** sequential versions *)
Lemma entries_same {V} (R : V -> V -> Prop) prog prog' (r r' : nat -> nat -> V) :
  prog (o_tabs a) d (map point xs) (map point zs) Sv = Some r -> prog' (o_tabs a) d (map point xs) (map point zs) Sv = Some r' ->
  (forall i x j, nth_error xs i = Some x -> j < k -> R (r i j) (r' i j)) ->
  same_table R (exp_call a prog X (S_array I64 Sv) (M_array F64 c zs)) (exp_call a prog' X (S_array I64 Sv) (M_array F64 c zs)).
Proof.
  intros E E' H. eexists. eexists. split; [eapply exp_call_returns; [exact HX|exact Hc|exact a_cols|exact E]|].
  split; [eapply exp_call_returns; [exact HX|exact Hc|exact a_cols|exact E']|]. rewrite a_out.
  assert (G : forall l, (forall i, In i l -> i < length xs) -> Forall2 (Forall2 R)
    (map (fun i => map (r i) (seq 0 k)) l) (map (fun i => map (r' i) (seq 0 k)) l)).
  { induction l as [|i l IH]; intro Hl; [constructor|]. constructor; [|apply IH; intros; apply Hl; now right].
    assert (Hi : i < length xs) by (apply Hl; now left).
    destruct (nth_error xs i) as [x|] eqn:Ex; [|apply nth_error_None in Ex; lia].
    assert (G2 : forall l', (forall j, In j l' -> j < k) -> Forall2 R (map (r i) l') (map (r' i) l')).
    { induction l' as [|j l' IH']; intro Hl'; [constructor|]. constructor; [|apply IH'; intros; apply Hl'; now right].
      apply (H i x j Ex). apply Hl'. now left. }
    apply G2. intros j Hj. apply in_seq in Hj. lia. }
  apply G. intros i Hi. apply in_seq in Hi. lia.
Qed.
Lemma in_order_points : any_order (o_tabs a) (length (map point xs)) (in_order (o_tabs a) (map point xs)).
Proof. apply in_order_any. Qed.
Lemma exp_nopa_same : same_table Qeq (acv_exp a sched X (S_array I64 Sv) (M_array F64 c zs))
  (acv_exp_nopa a X (S_array I64 Sv) (M_array F64 c zs)).
Proof.
  destruct (exp_two (o_tabs a) d (map point xs) (map point xs) (map point zs) Sv Sv sched (in_order (o_tabs a) (map point xs))
     a_tabs sched_points in_order_points HS ltac:(intro; tauto)) as (r & r' & E & E' & H).
  eapply entries_same; [exact E|exact E'|]. intros i x j Hx Hj.
  apply (H i i (point x) j); [now apply point_at|now apply point_at|rewrite a_out; exact Hj].
Qed.
Lemma exp_cat_nopa_same : same_table Qeq (acv_exp_cat a sched X (S_array I64 Sv) (M_array F64 c zs))
  (acv_exp_cat_nopa a X (S_array I64 Sv) (M_array F64 c zs)).
Proof.
  destruct (exp_cat_two (o_tabs a) d (map point xs) (map point xs) (map point zs) Sv Sv sched (in_order (o_tabs a) (map point xs))
     a_tabs sched_points in_order_points HS ltac:(intro; tauto)) as (r & r' & E & E' & H).
  eapply entries_same; [exact E|exact E'|]. intros i x j Hx Hj.
  apply (H i i (point x) j); [now apply point_at|now apply point_at|rewrite a_out; exact Hj].
Qed.
End Object.

(** Proofs about the single-threaded methods of an [ACVTree] for same-decision probabilities. *)
From Verif Require Import Base TreeModel TreeSpec TreeProofs ShapModel ShapProofs NopaModel FlatModel FlatSpec FlatProofs SkModel SkSpec SkProofs
  SdpModel SdpSpec SdpProofs ArrModel ArrSpec ArrProofs ArrProofs2 ArrProofs3 ArrProofs4 EntryModel EntrySpec EntryProofs EntryProofs2 EntryProofs3.
Local Open Scope nat_scope.

Lemma ofold_none {A St} (f : St -> A -> option St) l e : In e l -> (forall st, f st e = None) -> forall st, ofold f l st = None.
Proof.
  intros Hin Hf. induction l as [|e' l IH]; [contradiction|]. intro st. cbn [ofold]. destruct Hin as [->|Hin].
  - now rewrite Hf.
  - destruct (f st e'); [now apply IH|reflexivity].
Qed.

Section Object.
Variables (sig : Q -> Q) (ts : list mtree) (stacked : nat) (boosted : bool) (d w k : nat) (a : acv).
Hypothesis Hok : ensemble_ok ts stacked d w k.
Hypothesis Ha : construct sig ts stacked boosted d = Some a.
Variable proba : mat -> outcome (list (list Q)).
Variables (X D : marg) (S : sarg) (xs zs : list (list Q)) (c : nat) (Sv : list nat) (fX ys : list nat).
Variable n : nat.
Hypothesis Hd : 0 < d.
Hypothesis HX : is_table X d xs.
Hypothesis Hx : xs <> [].
Hypothesis Hc : d <= c.
Hypothesis Hz : zs <> [].
Hypothesis HS : is_columns S Sv.
Hypothesis HSv : forall s, In s Sv -> s < d.
Hypothesis HD : is_table D c zs.
Hypothesis HfX : decides_as proba d xs n fX.
Hypothesis Hys : decides_as proba c zs n ys.

Lemma vectors_same r r' : (forall i x f, nth_error xs i = Some x -> nth_error fX i = Some f -> (r i == r' i)%Q) ->
  same_numbers (vector (length xs) (Some r)) (vector (length xs) (Some r')).
Proof.
  intro H. eexists. eexists. split; [reflexivity|]. split; [reflexivity|].
  assert (G : forall l, (forall i, In i l -> i < length xs) -> Forall2 Qeq (map r l) (map r' l)).
  { induction l as [|i l IH]; intro Hl; [constructor|]. cbn [map]. constructor; [|apply IH; intros; apply Hl; now right].
    pose proof (Hl i (or_introl eq_refl)) as Hi. destruct (nth_error xs i) as [x|] eqn:E1; [|apply nth_error_None in E1; lia].
    destruct (nth_error fX i) as [f|] eqn:E2; [eapply H; eassumption|].
    apply nth_error_None in E2. pose proof (proj1 (proj2 (classes_spec _ _ _ _ _ HfX))). lia. }
  apply G. intros i Hi. apply in_seq in Hi. lia.
Qed.
Lemma call checked T prog : (checked = false -> D = M_array F64 c zs) -> sdp_call a proba checked T prog X S D =
  vector (length xs) (prog T d (map point xs) (map point zs) Sv fX ys).
Proof.
  intro Hch. apply (sdp_call_form a proba checked T prog X S D d xs c zs Sv n fX ys); auto.
  - destruct checked; [split; [exact HD|]; split; [lia|exact Hz]|now apply Hch].
  - exact (o_cols_d sig ts stacked boosted d w k a Hok Ha).
Qed.

Section Raw.
Hypothesis Hraw : boosted && (k =? 1) = false.
Hypothesis Hn : n = k.
Variable sched : nat -> list (nat * nat).
Hypothesis Hsched : any_order (o_tabs a) (length xs) sched.
Lemma raw_table : table_of a = o_tabs a.
Proof. unfold table_of. rewrite (a_form sig ts stacked boosted d w k a Hok Ha). cbn [o_boosted o_out built]. now rewrite Hraw. Qed.
Lemma sides : length (map point zs) <= length ys /\ length (map point xs) <= length fX /\ (forall f, In f fX -> f < t_out (o_tabs a)) /\
  any_order (o_tabs a) (length (map point xs)) sched.
Proof.
  destruct (classes_spec _ _ _ _ _ HfX) as (_ & L1 & B1). destruct (classes_spec _ _ _ _ _ Hys) as (_ & L2 & _).
  rewrite (a_out sig ts stacked boosted d w k a Hok Ha), !map_length, <- Hn. repeat split; try lia; assumption.
Qed.
Lemma sdp_nopa_same : same_numbers (acv_sdp a proba sched X S D) (acv_sdp_nopa a proba X S D).
Proof.
  destruct sides as (L2 & L1 & B & So). unfold acv_sdp, acv_sdp_nopa. rewrite raw_table, !call by discriminate.
  assert (Hs : same_cols Sv Sv) by (intro; tauto).
  destruct (sdp_two (o_tabs a) d (map point xs) (map point xs) (map point zs) Sv Sv sched (in_order (o_tabs a) (map point xs))
    (a_tabs sig ts stacked boosted d w k a Hok Ha) So (in_order_any _ _) HSv Hs fX fX ys) 
    with (upto := fun _ : nat => t_max (o_tabs a)) (upto' := t_nb (o_tabs a)) as (r & r' & -> & -> & H); auto.
  - intros b Hb. apply (a_tabs sig ts stacked boosted d w k a Hok Ha b Hb).
  - apply vectors_same. intros i x f Hxi Hfi. apply (H i i (point x) f); try assumption; now apply point_at.
Qed.
Lemma sdp_cat_nopa_same : D = M_array F64 c zs -> same_numbers (acv_sdp_cat a proba sched X S D) (acv_sdp_cat_nopa a proba X S D).
Proof.
  intro HD'. destruct sides as (L2 & L1 & B & So). unfold acv_sdp_cat, acv_sdp_cat_nopa. rewrite raw_table, !call by (intros; exact HD').
  assert (Hs : same_cols Sv Sv) by (intro; tauto).
  destruct (sdp_cat_two (o_tabs a) d (map point xs) (map point xs) (map point zs) Sv Sv sched (in_order (o_tabs a) (map point xs))
    (a_tabs sig ts stacked boosted d w k a Hok Ha) So (in_order_any _ _) HSv Hs fX fX ys) as (r & r' & -> & -> & H); auto.
  apply vectors_same. intros i x f Hxi Hfi. apply (H i i (point x) f); try assumption; now apply point_at.
Qed.
End Raw.

Section Binary.
Hypothesis Hk : k = 1.
Variables (i0 : nat) (x0 : list Q).
Hypothesis Hx0 : nth_error xs i0 = Some x0.
Hypothesis Hf0 : nth_error fX i0 = Some 1.
Hypothesis Hs0 : 0 < length Sv.
Hypothesis Hs1 : length Sv < d.
Let T := o_tabs a.
Lemma first_tree : exists kk, kk < t_nb T 0 /\ kk < t_max T /\ 0 < t_trees T /\ out_cl d Sv (t_part T 0 kk) (point x0) = Some 0.
Proof.
  pose proof (a_forest sig ts stacked boosted d w k a Hok Ha 0) as Hf. fold T in Hf.
  assert (Hne : 0 < length ts) by (destruct Hok as [H _]; destruct ts; [congruence|cbn; lia]).
  assert (Ht : t_trees T = length ts) by (unfold T; rewrite (a_form sig ts stacked boosted d w k a Hok Ha); reflexivity).
  assert (H0 : In (map (leaf_at T (vars ts) 0 0) (seq 0 (t_nb T 0))) (forest_at T (vars ts) 0)).
  { unfold forest_at. apply (in_map (fun b => map (leaf_at T (vars ts) 0 b) (seq 0 (t_nb T b))) _ 0). apply in_seq. lia. }
  destruct (forest_leaves_in _ _ _ Hf H0) as [t [Htin E]].
  pose proof (shared_all_wf ts d w (proj1 (proj2 Hok)) (raw_share stacked) 0) as Hwf. rewrite forallb_forall in Hwf. specialize (Hwf t Htin).
  destruct (tiling t d Hwf) as [ls' [Hls' [_ Htl]]]. rewrite E in Hls'. injection Hls' as <-.
  destruct (Htl (point x0)) as (kk & l & lf & _ & _ & H3 & H4 & _).
  assert (Hkk : kk < t_nb T 0) by (apply nth_error_lt in H3; rewrite map_length, seq_length in H3; exact H3).
  exists kk. split; [exact Hkk|]. split.
  { destruct (a_tabs sig ts stacked boosted d w k a Hok Ha 0) as [Hm _]; [fold T; lia|]. fold T in Hm. lia. }
  split; [lia|].
  rewrite nth_error_map, (nth_error_nth' _ 0) in H3 by (rewrite seq_length; exact Hkk). rewrite seq_nth in H3 by exact Hkk.
  cbn [option_map Nat.add] in H3. injection H3 as <-. cbn [l_rect leaf_at] in H4.
  destruct (out_cl_not d Sv HSv (t_part T 0 kk) (point x0)) as (o & Eo & Ho). rewrite Eo. f_equal.
  assert (Hm : not_out_cl (t_part T 0 kk) Sv (point x0) = true).
  { rewrite not_out_cl_sat, sat_cl_forallb. apply forallb_forall. intros s Hs. specialize (H4 s (HSv s Hs)).
    unfold cl_itv. destruct (t_part T 0 kk s) as [lo hi]. cbn [fst snd] in *. destruct H4 as [H5 H6].
    apply andb_true_intro. split; [destruct hi as [|q|]|destruct lo as [|q|]]; cbn in *; try reflexivity; try contradiction.
    - destruct (qleb_spec (point x0 s) q); [reflexivity|contradiction].
    - destruct (qleb_spec q (point x0 s)); [reflexivity|lra]. }
  rewrite Hm in Ho. apply Nat.ltb_ge in Ho. lia.
Qed.
Hypothesis Hmatch : exists z, In z zs /\ same_on Sv (point x0) (point z) = true.
Lemma matched_row : exists z y, In (z, y) (combine (map point zs) ys) /\ same_on Sv (point x0) z = true.
Proof.
  destruct Hmatch as (z & Hin & Hs). destruct (In_nth_error _ _ Hin) as [i Hi]. pose proof (nth_error_lt _ _ _ Hi) as Hl.
  destruct (classes_spec _ _ _ _ _ Hys) as (_ & L2 & _). destruct (nth_error ys i) as [y|] eqn:E; [|apply nth_error_None in E; lia].
  exists (point z), y. split; [|exact Hs]. apply (nth_error_In _ i). clear - Hi E.
  revert ys i Hi E. induction zs as [|z' l IH]; intros [|y' ys'] [|i] Hi E; try discriminate.
  - injection Hi as ->. injection E as ->. reflexivity.
  - cbn. now apply IH.
Qed.
Lemma cnt_pos (P : pt -> bool) rows z u : In (z, u) rows -> P z = true -> cnt P rows <> 0.
Proof.
  intros Hin HP. unfold cnt. intro E. apply length_zero_iff_nil in E.
  assert (K : In (z, u) (filter (fun r => P (fst r)) rows)) by (apply filter_In; auto). rewrite E in K. contradiction.
Qed.
Lemma body_none norm row kk cell inA inS rows :
  rows_loop (row (t_part T 0 kk) (point x0) 1) (map point zs) ys six0 = Some (six_of inA inS rows) -> cnt inS rows <> 0 ->
  out_cl d Sv (t_part T 0 kk) (point x0) = Some 0 ->
  sdp_body T d (map point zs) Sv ys norm row 0 kk (point x0, 1) cell = None.
Proof.
  intros E Hp Ho. unfold sdp_body. rewrite Ho. cbn [Nat.ltb Nat.leb]. rewrite E.
  assert (Ev : value_at T 0 kk 1 = None).
  { unfold value_at. unfold T. rewrite (a_out sig ts stacked boosted d w k a Hok Ha), Hk. cbn. now rewrite andb_false_r. }
  rewrite Ev. cbn [p_s six_of]. apply Nat.eqb_neq in Hp. rewrite Hp. reflexivity.
Qed.
Lemma no_visit norm row kk : kk < t_max T ->
  (forall cell, sdp_body T d (map point zs) Sv ys norm row 0 kk (point x0, 1) cell = None) ->
  forall buf, visit T (get_f (map point xs) fX) (sdp_body T d (map point zs) Sv ys norm row 0) buf (kk, i0) = None.
Proof.
  intros Hm Hb buf. unfold visit. apply Nat.ltb_lt in Hm. rewrite Hm. unfold get_f. rewrite (point_at _ _ _ Hx0), Hf0. now rewrite Hb.
Qed.
Lemma in_order_visit kk : kk < t_nb T 0 -> In (kk, i0) (in_order T (map point xs) 0).
Proof.
  intro H. unfold in_order. apply in_prod; apply in_seq; [lia|]. apply nth_error_lt in Hx0. rewrite map_length. lia.
Qed.
Lemma not_trivial : (length Sv =? d) = false /\ (length Sv =? 0) = false.
Proof. split; apply Nat.eqb_neq; lia. Qed.
Lemma yok : length (map point zs) <= length ys.
Proof. destruct (classes_spec _ _ _ _ _ Hys) as (_ & L2 & _). rewrite map_length. lia. Qed.
Lemma sdp_cat_nopa_stray : D = M_array F64 c zs -> acv_sdp_cat_nopa a proba X S D = Stray.
Proof.
  intro HD'. unfold acv_sdp_cat_nopa. rewrite call by (intros; exact HD'). fold T.
  unfold sdp_clf_cat_prog. destruct not_trivial as [-> ->]. destruct first_tree as (kk & K1 & K2 & K3 & K4).
  destruct matched_row as (z & y & Hin & Hs).
  unfold shared_trees. rewrite (ofold_none _ _ 0); [reflexivity|apply in_seq; lia|]. intro st.
  apply (ofold_none _ _ (kk, i0)); [now apply in_order_visit|]. apply no_visit; [exact K2|]. intro cell.
  eapply body_none; [apply (cat_loop d [] (map point zs) Sv [] ys HSv yok (le_n 0))| |exact K4].
  apply (cnt_pos _ _ z (1 =? y)); [|reflexivity]. unfold eq_rows. apply filter_In. split.
  - unfold clf_rows. apply in_map_iff. exists (z, y). auto.
  - cbn [fst]. unfold eq_on. rewrite count_all. exact Hs.
Qed.
Lemma sdp_nopa_stray : acv_sdp_nopa a proba X S D = Stray.
Proof.
  unfold acv_sdp_nopa. rewrite call by discriminate. fold T.
  unfold sdp_clf_prog. destruct not_trivial as [-> ->]. destruct first_tree as (kk & K1 & K2 & K3 & K4).
  destruct matched_row as (z & y & Hin & Hs).
  unfold own_trees. rewrite (ofold_none _ _ 0); [reflexivity|apply in_seq; lia|]. intro st.
  rewrite (ofold_none _ _ (kk, i0)); [reflexivity|now apply in_order_visit|]. apply no_visit; [exact K2|]. intro cell.
  eapply body_none; [apply (box_loop d [] (map point zs) Sv [] ys HSv yok (le_n 0))| |exact K4].
  apply (cnt_pos _ _ z (1 =? y)).
  - unfold clf_rows. apply in_map_iff. exists (z, y). auto.
  - destruct (out_cl_not d Sv HSv (t_part T 0 kk) (point x0)) as (o & Eo & Ho). rewrite K4 in Eo. injection Eo as <-.
    destruct (not_out_cl (t_part T 0 kk) Sv (point x0)) eqn:En; [|discriminate]. rewrite not_out_cl_sat in En. rewrite <- En.
    rewrite !sat_cl_forallb. apply forallb_ext_in. intros s Hin'. unfold same_on in Hs. rewrite forallb_forall in Hs. specialize (Hs s Hin').
    destruct (qeqb_spec (z s) (point x0 s)) as [Eq|]; [|discriminate]. unfold cl_itv.
    f_equal; [destruct (snd (t_part T 0 kk s))|destruct (fst (t_part T 0 kk s))]; cbn; try reflexivity.
    + destruct (qleb_spec (z s) q), (qleb_spec (point x0 s) q); try reflexivity; exfalso; lra.
    + destruct (qleb_spec q (z s)), (qleb_spec q (point x0 s)); try reflexivity; exfalso; lra.
Qed.
End Binary.
End Object.

(** ** Forests of scikit-learn *)
Lemma forest_values nz s d w es j l vs : (forall e, In e es -> sk_ok d w e) -> es <> [] -> (s == 1 / Qn (length es))%Q ->
  Forall2 (fun z q => exists ls, all_land es (point z) no_missing ls /\ (q == over (SkSpec.value_at nz j) es ls / Qn (length es))%Q) l vs ->
  exists us, Forall2 (adds_up (raw_share 1) (map (loaded_of nz s) es) j) l us /\ (mean (fun v => v) us == mean (fun v => v) vs)%Q.
Proof.
  intros Hok Hne Es H.
  assert (Hwf : forall m, In m (map (loaded_of nz s) es) -> well_formed d w m).
  { intros m Hm. apply in_map_iff in Hm as [e [<- He]]. apply loaded_wf. now apply Hok. }
  assert (G : exists us, Forall2 (adds_up (raw_share 1) (map (loaded_of nz s) es) j) l us /\ Forall2 Qeq us vs).
  { induction H as [|z q l vs (ls & Hz & Eq) _ IH]; [exists []; split; constructor|].
    destruct IH as (us & Hu & Hq). destruct (adds_up_total (raw_share 1) _ d w j z Hwf) as (u & Hu').
    exists (u :: us). split; [constructor; assumption|]. constructor; [|exact Hq].
    rewrite (forest_adds_up _ _ d w es j z u ls Hok Hu' Hz), Eq, Es.
    assert (0 < Qn (length es))%Q by (apply Qn_pos; destruct es; [congruence|cbn; lia]). field. lra. }
  destruct G as (us & Hu & Hq). exists us. split; [exact Hu|]. apply (mean_values Qeq); auto.
Qed.
Lemma forest_sdp_numbers apl sig m es d w : is_forest false m es -> es <> [] -> 0 < d ->
  (forall e, In e es -> sk_ok d w e) -> (forall e, In e es -> SkSpec.counts e) ->
  exists a, construct_sk apl sig m d = Some a /\
  forall proba X D S xs zs c Sv fX ys sched, is_table X d xs -> xs <> [] -> d <= c -> zs <> [] -> is_columns S Sv ->
  (forall s, In s Sv -> s < d) -> is_table D c zs -> decides_as proba d xs w fX -> decides_as proba c zs w ys ->
  any_order (o_tabs a) (length xs) sched ->
  numbers (acv_sdp_cat a proba sched X S D) xs fX (fun x f v => (0 <= v <= 1)%Q /\
    (0 < length Sv -> length Sv < d -> (forall z e i, In z zs -> In e es -> i < length (sk_cl e) -> (0 <= nth i (sk_cl e) (-1))%Z ->
        ~ (nth (Z.to_nat (nth i (sk_ft e) (-1)%Z)) z 0 == nth i (sk_th e) 0)%Q) ->
     let ms := filter (fun r => same_on Sv (point x) (point (fst r))) (combine zs ys) in
     let same := filter (fun r => snd r =? f) ms in let other := filter (fun r => negb (snd r =? f)) ms in
     let gives_share z q := exists ls, all_land es (point z) no_missing ls /\ (q == over (SkSpec.share f) es ls / Qn (length es))%Q in
     ms <> [] -> forall us ws, Forall2 gives_share (map fst same) us -> Forall2 gives_share (map fst other) ws ->
     ~ (mean (fun v => v) us == mean (fun v => v) ws)%Q -> (v == Qn (length same) / Qn (length ms))%Q)).
Proof.
  intros Hm Hne Hd Hok Hc. destruct (construct_forest apl sig false m es d w Hm Hne Hok (fun _ => Hc)) as (s & a & Es & Ek & Hen & Ea).
  exists a. split; [exact Ek|]. intros proba X D S xs zs c Sv fX ys sched H1 H2 H3 H4 H5 H6 H7 H8 H9 H10.
  assert (Ht : table_of a = o_tabs a).
  { unfold table_of. rewrite (a_form sig _ 1 false d w w a Hen Ea). reflexivity. }
  rewrite <- Ht in H10.
  destruct (sdp_cat_numbers sig _ 1 false d w w a Hen Ea proba X D S xs zs c Sv fX ys Hd H1 H2 H3 H4 H5 H6 sched H7 H8 H9 H10) as (res & E & Hl & H).
  exists res. split; [exact E|]. split; [exact Hl|]. intros i x f v Hx Hf Hv. destruct (H i x f v Hx Hf Hv) as [B G]. split; [exact B|].
  intros L1 L2 Hoff ms same other gs Hms us ws Hu Hw Hdiff. cbv zeta in G. fold ms same other in G.
  destruct (forest_values true s d w es f _ us Hok Hne Es Hu) as (us' & Hu' & Eu).
  destruct (forest_values true s d w es f _ ws Hok Hne Es Hw) as (ws' & Hw' & Ew).
  apply (G L1 L2) with (us := us') (ws := ws'); [|exact Hms|exact Hu'|exact Hw'|now rewrite Eu, Ew].
  intros z Hz t i' Ht' Hi Hn. apply in_map_iff in Ht' as [e [<- He]]. exact (Hoff z e i' Hz He Hi Hn).
Qed.

(** Proofs about the arguments, the scikit-learn forests and the same-decision probabilities of an [ACVTree]. *)
From Verif Require Import Base TreeModel TreeSpec TreeProofs ShapModel ShapProofs NopaModel FlatModel FlatSpec FlatProofs SkModel SkSpec SkProofs
  SdpModel SdpSpec SdpProofs ArrModel ArrSpec ArrProofs ArrProofs2 ArrProofs3 ArrProofs4 EntryModel EntrySpec EntryProofs EntryProofs2.
Local Open Scope nat_scope.

(** ** Arguments *)
Lemma exp_call_forms {V} a (prog : tabs -> nat -> list pt -> list pt -> list nat -> option (nat -> nat -> V)) X S D res :
  exp_call a prog X S D = Returned res ->
  exists d xs l c zs, is_table X d xs /\ S = S_array I64 l /\ D = M_array F64 c zs /\ d <= c /\ d <= o_cols a.
Proof.
  intro H. unfold exp_call in H.
  destruct (buffer2 (as_float X)) as [x| |] eqn:EX; [|discriminate|discriminate]. cbn [andthen] in H.
  destruct (buffer1 S) as [s| |] eqn:ES; [|discriminate|discriminate]. cbn [andthen] in H.
  destruct (buffer2 D) as [z| |] eqn:ED; [|discriminate|discriminate]. cbn [andthen] in H.
  destruct (wide_enough a (cols x) z) eqn:EW; [|discriminate]. unfold wide_enough in EW. apply andb_prop in EW.
  destruct EW as [W1 W2]. apply Nat.leb_le in W1. apply Nat.leb_le in W2.
  assert (HX : exists d xs, is_table X d xs /\ cols x = d).
  { destruct X as [c r|c r|dt c r|dt l]; cbn in EX; try discriminate; injection EX as <-;
      exists c, r; (split; [|reflexivity]); unfold is_table; eauto. }
  destruct HX as (d & xs & HX & <-).
  destruct S as [l|dt l|dt l]; cbn in ES; try discriminate. destruct dt; cbn in ES; try discriminate.
  destruct D as [c r|c r|dt c r|dt l']; cbn in ED; try discriminate. destruct dt; cbn in ED; try discriminate.
  injection ED as <-. exists (cols x), xs, l, c, r. cbn [cols] in W1. auto.
Qed.
Lemma exp_call_list {V} a (prog : tabs -> nat -> list pt -> list pt -> list nat -> option (nat -> nat -> V)) X d xs l D :
  is_table X d xs -> exp_call a prog X (S_list l) D = Raised EType.
Proof. intros [->|[->|[dt ->]]]; reflexivity. Qed.
Lemma exp_call_frame {V} a (prog : tabs -> nat -> list pt -> list pt -> list nat -> option (nat -> nat -> V)) X d xs l c zs :
  is_table X d xs -> exp_call a prog X (S_array I64 l) (M_frame c zs) = Raised EType.
Proof. intros [->|[->|[dt ->]]]; reflexivity. Qed.

(** ** Scikit-learn forests *)
Lemma all_land_total es d w z miss : (forall e, In e es -> sk_ok d w e) -> exists ls, all_land es z miss ls.
Proof.
  intro H. induction es as [|e es IH]; [exists []; constructor|].
  destruct IH as [ls Hl]; [intros; apply H; now right|].
  destruct (H e (or_introl eq_refl)) as [Hw _]. destruct (predict_leaf_total _ _ Hw z miss) as (l & E & Hin & Hv).
  exists (l :: ls). constructor; [|exact Hl]. split; [exact Hv|]. unfold leaf_idx in Hin. apply filter_In in Hin. exact (proj2 Hin).
Qed.
Lemma map_nth_sum (f : list Q -> Q) rs : (sumf (fun b => f (nth b rs [])) (seq 0 (length rs)) == sumf f rs)%Q.
Proof.
  induction rs as [|r rs IH]; [reflexivity|]. cbn [length seq sumf nth]. rewrite <- seq_shift, sumf_map. cbn [nth]. now rewrite IH.
Qed.
(** output [j] of a forest at [z] *)
Lemma forest_adds_up nz s d w es j z v ls : (forall e, In e es -> sk_ok d w e) ->
  adds_up (raw_share 1) (map (loaded_of nz s) es) j z v -> all_land es (point z) no_missing ls ->
  (v == s * over (SkSpec.value_at nz j) es ls)%Q.
Proof.
  intros Hok (rs & Hr & Ev) Hl. destruct (sum_gives nz s d w es _ _ rs j Hok Hr) as (ls' & Hl' & Es).
  rewrite (all_land_det es d w _ _ ls ls' Hok Hl Hl'). rewrite <- Es, Ev. apply (map_nth_sum (fun r => nth j r 0%Q)).
Qed.
Lemma construct_forest apl sig reg m es d w : is_forest reg m es -> es <> [] ->
  (forall e, In e es -> sk_ok d w e) -> (reg = false -> forall e, In e es -> SkSpec.counts e) ->
  exists s a, (s == 1 / Qn (length es))%Q /\ construct_sk apl sig m d = Some a /\
    ensemble_ok (map (loaded_of (negb reg) s) es) 1 d w w /\ construct sig (map (loaded_of (negb reg) s) es) 1 false d = Some a.
Proof.
  intros Hm Hne Hok Hc. destruct (load_forest apl reg m es Hm Hne) as (s & Es & El).
  { intros e He. destruct reg; [apply sums_false|]. apply sums_counts. now apply Hc. }
  set (ts := map (loaded_of (negb reg) s) es) in *.
  assert (Hen : ensemble_ok ts 1 d w w).
  { split; [intro E; unfold ts in E; destruct es; [now apply Hne|discriminate]|]. split; [|reflexivity].
    intros t Ht. apply in_map_iff in Ht as [e [<- He]]. apply loaded_wf. now apply Hok. }
  exists s, (built sig ts 1 false d w). split; [exact Es|]. split.
  - unfold construct_sk. rewrite El. cbn [l_trees l_stacked].
    assert (Eb : match m with BoostClf _ _ _ => true | _ => false end = false).
    { destruct reg; destruct Hm as [->|(e & _ & ->)]; reflexivity. }
    rewrite Eb. now apply construct_form with (w := w).
  - split; [exact Hen|]. now apply construct_form with (w := w).
Qed.
Lemma forest_cat_entries apl sig reg m es d w : is_forest reg m es -> es <> [] ->
  (forall e, In e es -> sk_ok d w e) -> (reg = false -> forall e, In e es -> SkSpec.counts e) ->
  exists a, construct_sk apl sig m d = Some a /\
  forall X xs c zs Sv sched, is_table X d xs -> d <= c -> (forall s, In s Sv -> s < d) ->
    any_order (o_tabs a) (length xs) sched ->
  entries (acv_exp_cat a sched X (S_array I64 Sv) (M_array F64 c zs)) xs w (fun x j v =>
    forall vs, Forall2 (fun z q => exists ls, all_land es (point z) no_missing ls /\
                                   (q == over (SkSpec.value_at (negb reg) j) es ls / Qn (length es))%Q) (matching Sv x zs) vs ->
      (v == mean (fun v => v) vs)%Q).
Proof.
  intros Hm Hne Hok Hc. destruct (construct_forest apl sig reg m es d w Hm Hne Hok Hc) as (s & a & Es & Ek & Hen & Ea).
  exists a. split; [exact Ek|]. intros X xs c zs Sv sched HX Hcc HS Hs.
  destruct (exp_cat_entries sig _ 1 false d w w a Hen Ea X xs zs c Sv sched HX Hcc HS Hs) as (res & E & Hl & H).
  exists res. split; [exact E|]. split; [exact Hl|]. intros i x Hx. destruct (H i x Hx) as (row & Hr & Hw & Hj).
  exists row. split; [exact Hr|]. split; [exact Hw|]. intros j v Hv vs Hvs.
  assert (Hvs' : exists us, Forall2 (adds_up (raw_share 1) (map (loaded_of (negb reg) s) es) j) (matching Sv x zs) us /\ (mean (fun v => v) us == mean (fun v => v) vs)%Q).
  { assert (G : exists us, Forall2 (adds_up (raw_share 1) (map (loaded_of (negb reg) s) es) j) (matching Sv x zs) us /\ Forall2 Qeq us vs).
    { clear - Hvs Hen Hok Es Hne. induction Hvs as [|z q l vs (ls & Hz & Eq) _ IH]; [exists []; split; constructor|].
      destruct IH as (us & Hu & Hq). destruct (adds_up_total (raw_share 1) _ d w j z (proj1 (proj2 Hen))) as (u & Hu').
      exists (u :: us). split; [constructor; assumption|]. constructor; [|exact Hq].
      rewrite (forest_adds_up _ _ d w es j z u ls Hok Hu' Hz), Eq, Es.
      assert (0 < Qn (length es))%Q by (apply Qn_pos; destruct es; [congruence|cbn; lia]). field. lra. }
    destruct G as (us & Hu & Hq). exists us. split; [exact Hu|]. apply (mean_values Qeq); auto. }
  destruct Hvs' as (us & Hu & Em). rewrite <- Em. now apply (Hj j v Hv us).
Qed.

(** ** The class of a row *)
Lemma argmax_from_spec : forall l i best bv p, p = map (fun j => nth j p 0%Q) (seq 0 i) ++ l ->
  best < i -> (nth best p 0 == bv)%Q ->
  (forall j, j < i -> (nth j p 0 <= nth best p 0)%Q) -> (forall j, j < best -> (nth j p 0 < nth best p 0)%Q) ->
  decided p (argmax_from i best bv l).
Proof.
  induction l as [|v l IH]; intros i best bv p Hp Hb Hv Hm Hf.
  - cbn [argmax_from]. rewrite app_nil_r in Hp. assert (El : length p = i) by (rewrite Hp, map_length, seq_length; reflexivity).
    unfold decided. rewrite El. auto.
  - assert (Hl : length (map (fun j => nth j p 0%Q) (seq 0 i)) = i) by (rewrite map_length, seq_length; reflexivity).
    assert (Ev : nth i p 0%Q = v).
    { rewrite Hp at 1. rewrite app_nth2 by lia. rewrite Hl, Nat.sub_diag. reflexivity. }
    assert (Hp' : p = map (fun j => nth j p 0%Q) (seq 0 (S i)) ++ l).
    { rewrite seq_S, map_app, <- app_assoc. cbn [map Nat.add app]. rewrite Ev. exact Hp. }
    cbn [argmax_from]. destruct (qltb_spec bv v) as [Hlt|Hge]; [apply IH|apply IH]; try assumption; try lia.
    + rewrite Ev. reflexivity.
    + intros j Hj. destruct (Nat.eq_dec j i) as [->|Hne]; [lra|]. pose proof (Hm j ltac:(lia)). rewrite Ev. lra.
    + intros j Hj. pose proof (Hm j Hj). rewrite Ev. lra.
    + intros j Hj. destruct (Nat.eq_dec j i) as [->|Hne]; [rewrite Ev; lra|]. apply Hm. lia.
Qed.
Lemma argmax_row_spec l : l <> [] -> exists c, argmax_row l = Some c /\ decided l c.
Proof.
  destruct l as [|v l]; [congruence|]. intros _. eexists. split; [reflexivity|].
  apply argmax_from_spec; cbn [seq map nth app]; try reflexivity; try lia.
  intros j Hj. replace j with 0 by lia. lra.
Qed.
Lemma decided_unique l c c' : decided l c -> decided l c' -> c = c'.
Proof.
  intros (H1 & H2 & H3) (H1' & H2' & H3'). destruct (Nat.lt_trichotomy c c') as [H|[H|H]]; [|exact H|].
  - pose proof (H3' c H). pose proof (H2 c' H1'). lra.
  - pose proof (H3 c' H). pose proof (H2' c H1). lra.
Qed.
Lemma classes_spec proba c rs n fs : decides_as proba c rs n fs -> classes proba (mkMat c rs) = Returned fs /\ length fs = length rs /\
  forall f, In f fs -> f < n.
Proof.
  intros (p & Ep & Hl & Hn & Hd). unfold classes. rewrite Ep. cbn [andthen].
  assert (E : all_some (map argmax_row p) = Some fs).
  { clear - Hd. induction Hd as [|r f p fs Hr _ IH]; [reflexivity|]. cbn [map all_some].
    destruct (argmax_row_spec r) as (c & -> & Hc); [intro E; subst r; destruct Hr as [Hr _]; cbn in Hr; lia|].
    rewrite IH. now rewrite (decided_unique r f c Hr Hc). }
  rewrite E. split; [reflexivity|]. split.
  - rewrite <- Hl. clear - Hd. induction Hd; cbn; congruence.
  - intros f Hf. clear - Hd Hn Hf. induction Hd as [|r g p fs Hr _ IH]; [contradiction|].
    destruct Hf as [<-|Hf]; [rewrite <- (Hn r (or_introl eq_refl)); apply Hr|]. apply IH; [intros; apply Hn; now right|exact Hf].
Qed.

(** ** Same-decision probabilities *)
Lemma Forall2_imp {A B} (P R : A -> B -> Prop) l l' : (forall a b, P a b -> R a b) -> Forall2 P l l' -> Forall2 R l l'.
Proof. intros H F. induction F; constructor; auto. Qed.
Lemma closed_off share ts d w K v j z q : (forall m, In m ts -> well_formed d w m) ->
  forest_leaves (shared share ts j) = Some (forest_at (tables ts (all_boxes ts) K v) (vars ts) j) ->
  off_thresholds ts z -> adds_up share ts j z q ->
  (closed_value d (forest_at (tables ts (all_boxes ts) K v) (vars ts) j) (point z) == q)%Q.
Proof.
  intros Hwf Hf Hoff Hq. rewrite <- (leaf_sum_value share ts d w K v j z q Hwf Hf Hq). unfold closed_value.
  pose proof (off_thresholds_boundary share ts d w K v j z Hwf Hf Hoff) as Hb.
  apply sumf_ext. intros ls Hls. apply sumf_ext. intros lf Hlf.
  rewrite <- sat_cl_inside, (sat_cl_off _ (point z) ls lf _ Hb Hls Hlf), <- in_rect_sat_on.
  destruct (in_rect d (l_rect lf) (point z)); cbn [Qb]; ring.
Qed.
Lemma column_form S l : is_columns S l -> buffer1 (column_or_1d S) = Returned l.
Proof. intros [[-> H]|[->| ->]]; [|reflexivity|reflexivity]. destruct l; [congruence|reflexivity]. Qed.
Lemma table_checked X d xs : is_table X d xs -> 0 < d -> xs <> [] -> check_array X = Returned (M_array F64 d xs).
Proof.
  intros H Hd Hx. assert (E : (length xs =? 0) || (d =? 0) = false).
  { destruct xs; [congruence|]. cbn [length]. apply orb_false_intro; apply Nat.eqb_neq; lia. }
  destruct H as [->|[->|[dt ->]]]; cbn [check_array]; rewrite E; reflexivity.
Qed.
Lemma sdp_call_form a proba (checked : bool) T prog X S D d xs c zs Sv n fX ys :
  is_table X d xs -> 0 < d -> xs <> [] -> is_columns S Sv ->
  (if checked then is_table D c zs /\ 0 < c /\ zs <> [] else D = M_array F64 c zs) ->
  d <= c -> o_cols a = d -> decides_as proba d xs n fX -> decides_as proba c zs n ys ->
  sdp_call a proba checked T prog X S D = vector (length xs) (prog T d (map point xs) (map point zs) Sv fX ys).
Proof.
  intros HX Hd Hx HS HD Hc Ha HfX Hy. unfold sdp_call. rewrite (table_checked X d xs HX Hd Hx). cbn [andthen].
  assert (ED : (if checked then check_array D else Returned D) = Returned (M_array F64 c zs)).
  { destruct checked; [destruct HD as (H1 & H2 & H3); now apply table_checked|now rewrite HD]. }
  rewrite ED. cbn [andthen seen]. rewrite (proj1 (classes_spec _ _ _ _ _ HfX)). cbn [andthen].
  rewrite (proj1 (classes_spec _ _ _ _ _ Hy)). cbn [andthen as_float buffer2 same_dtype].
  rewrite (column_form _ _ HS). cbn [andthen]. unfold wide_enough. cbn [cols rows].
  rewrite Ha, Nat.leb_refl, (proj2 (Nat.leb_le _ _) Hc). cbn [andb]. rewrite orb_true_r. reflexivity.
Qed.
Lemma sdp_empty_list a proba sched X D d xs zs c n fX ys : is_table X d xs -> 0 < d -> xs <> [] -> is_table D c zs -> 0 < c -> zs <> [] ->
  decides_as proba d xs n fX -> decides_as proba c zs n ys -> acv_sdp a proba sched X (S_list []) D = Raised EValue.
Proof.
  intros HX Hd Hx HD Hc Hz HfX Hy. unfold acv_sdp, sdp_call. rewrite (table_checked X d xs HX Hd Hx), (table_checked D c zs HD Hc Hz).
  cbn [andthen seen]. rewrite (proj1 (classes_spec _ _ _ _ _ HfX)). cbn [andthen].
  rewrite (proj1 (classes_spec _ _ _ _ _ Hy)). reflexivity.
Qed.
Lemma numbers_intro xs fX o r (P : list Q -> nat -> Q -> Prop) : o = vector (length xs) (Some r) ->
  (forall i x f, nth_error xs i = Some x -> nth_error fX i = Some f -> P x f (r i)) -> numbers o xs fX P.
Proof.
  intros -> H. exists (map r (seq 0 (length xs))). split; [reflexivity|]. split; [now rewrite map_length, seq_length|].
  intros i x f v Hx Hf Hv. pose proof (nth_error_lt _ _ _ Hx) as Hi.
  rewrite (nth_error_nth' _ v) in Hv by (rewrite map_length, seq_length; exact Hi). injection Hv as Hv.
  rewrite cell_of in Hv by exact Hi. subst v. eapply H; eassumption.
Qed.

Section Object.
Variables (sig : Q -> Q) (ts : list mtree) (stacked : nat) (boosted : bool) (d w k : nat) (a : acv).
Hypothesis Hok : ensemble_ok ts stacked d w k.
Hypothesis Ha : construct sig ts stacked boosted d = Some a.
Variable proba : mat -> outcome (list (list Q)).
Variables (X D : marg) (S : sarg) (xs zs : list (list Q)) (c : nat) (Sv : list nat) (fX ys : list nat).
Let binary := boosted && (k =? 1).
Hypothesis Hd : 0 < d.
Hypothesis HX : is_table X d xs.
Hypothesis Hx : xs <> [].
Hypothesis Hc : d <= c.
Hypothesis Hz : zs <> [].
Hypothesis HS : is_columns S Sv.
Hypothesis HSv : forall s, In s Sv -> s < d.

Lemma used_table : tabs_ok (table_of a) /\ t_out (table_of a) = (used_classes boosted k) /\
  (forall j, forest_leaves (shared (used_share sig ts stacked boosted k) ts j) = Some (forest_at (table_of a) (vars ts) j)) /\
  exists K v, table_of a = tables ts (all_boxes ts) K v.
Proof.
  pose proof (a_tabs sig ts stacked boosted d w k a Hok Ha) as T1. pose proof (a_binary_tabs sig ts stacked boosted d w k a Hok Ha) as T2.
  pose proof (a_forest sig ts stacked boosted d w k a Hok Ha) as F1. pose proof (a_binary_forest sig ts stacked boosted d w k a Hok Ha) as F2.
  unfold table_of, used_share, used_classes. revert T1 T2 F1 F2. rewrite (a_form sig ts stacked boosted d w k a Hok Ha).
  cbn [o_boosted o_out o_tabs o_binary built]. fold binary. intros T1 T2 F1 F2.
  destruct binary; (split; [assumption|]; split; [reflexivity|]; split; [assumption|]); do 2 eexists; reflexivity.
Qed.
Section Par.
Variable sched : nat -> list (nat * nat).
Hypothesis HD : is_table D c zs.
Hypothesis HfX : decides_as proba d xs (used_classes boosted k) fX.
Hypothesis Hys : decides_as proba c zs (used_classes boosted k) ys.
Hypothesis Hsched : any_order (table_of a) (length xs) sched.

Lemma hyps : any_order (table_of a) (length (map point xs)) sched /\ length (map point zs) <= length ys /\
  length (map point xs) <= length fX /\ forall f, In f fX -> f < t_out (table_of a).
Proof.
  destruct used_table as (_ & -> & _). destruct (classes_spec _ _ _ _ _ HfX) as (_ & L1 & B1).
  destruct (classes_spec _ _ _ _ _ Hys) as (_ & L2 & _). rewrite !map_length. repeat split; try lia; assumption.
Qed.
Lemma o_cols_d : o_cols a = d.
Proof. now rewrite (a_form sig ts stacked boosted d w k a Hok Ha). Qed.

Lemma sdp_cat_numbers : numbers (acv_sdp_cat a proba sched X S D) xs fX (fun x f v => (0 <= v <= 1)%Q /\
  (0 < length Sv -> length Sv < d -> (forall z, In z zs -> off_thresholds ts z) ->
   let ms := filter (fun r => same_on Sv (point x) (point (fst r))) (combine zs ys) in
   let same := filter (fun r => snd r =? f) ms in let other := filter (fun r => negb (snd r =? f)) ms in
   ms <> [] -> forall us ws, Forall2 (adds_up (used_share sig ts stacked boosted k) ts f) (map fst same) us -> Forall2 (adds_up (used_share sig ts stacked boosted k) ts f) (map fst other) ws ->
   ~ (mean (fun v => v) us == mean (fun v => v) ws)%Q -> (v == Qn (length same) / Qn (length ms))%Q)).
Proof.
  destruct used_table as (Tok & _ & Tf & Ku & vu & ET). destruct hyps as (H1 & H2 & H3 & H4).
  destruct (sdp_clf_cat_prog_freq (table_of a) d (map point xs) (map point zs) Sv sched (vars ts) fX ys Tok H1 HSv H2 H3 H4) as [r [E H]].
  eapply numbers_intro.
  - unfold acv_sdp_cat. rewrite (sdp_call_form a proba true _ _ X S D d xs c zs Sv (used_classes boosted k) fX ys); auto.
    + rewrite E. reflexivity.
    + split; [exact HD|]. split; [lia|exact Hz].
    + apply o_cols_d.
  - intros i x f Hxi Hfi. destruct (H i (point x) f (point_at _ _ _ Hxi) Hfi) as [B G]. split; [exact B|].
    intros L1 L2 Hoff ms same other Hms us ws Hu Hw Hne. specialize (G L1 L2).
    cbv zeta in G.
    assert (Em : filter (fun r => same_on Sv (point x) (fst r)) (combine (map point zs) ys) = map (fun r => (point (fst r), snd r)) ms).
    { unfold ms. clear. revert ys. induction zs as [|z l IH]; intros [|y ys']; try reflexivity. cbn [map combine filter fst].
      destruct (same_on Sv (point x) (point z)); cbn [map fst snd]; now rewrite IH. }
    rewrite Em in G.
    assert (Ef : forall (p : nat -> bool), filter (fun r => p (snd r)) (map (fun r : list Q * nat => (point (fst r), snd r)) ms)
        = map (fun r => (point (fst r), snd r)) (filter (fun r => p (snd r)) ms)).
    { intro p. clear. induction ms as [|r l IH]; [reflexivity|]. cbn [map filter snd]. destruct (p (snd r)); cbn [map]; now rewrite IH. }
    rewrite (Ef (fun y => y =? f)), (Ef (fun y => negb (y =? f))) in G. fold same in G. fold other in G.
    rewrite !map_length in G.
    assert (Hin : forall r, In r ms -> In (fst r) zs).
    { intros r0 Hr. unfold ms in Hr. apply filter_In in Hr. destruct Hr as [Hr _]. destruct r0 as [z y]. eapply in_combine_l; exact Hr. }
    assert (Hm : forall l vs, (forall r, In r l -> In r ms) -> Forall2 (adds_up (used_share sig ts stacked boosted k) ts f) (map fst l) vs ->
      (mean (fun r => closed_value d (forest_at (table_of a) (vars ts) f) (fst r)) (map (fun r => (point (fst r), snd r)) l) == mean (fun v => v) vs)%Q).
    { intros l vs Hl Hv. rewrite mean_map. cbn [fst].
      assert (Hv' : Forall2 (fun r v => In r l /\ adds_up (used_share sig ts stacked boosted k) ts f (fst r) v) l vs).
      { clear - Hv. revert vs Hv. induction l as [|r l IH]; intros vs Hv; inversion Hv; subst; constructor.
        - split; [now left|assumption].
        - eapply Forall2_imp; [|apply IH; eassumption]. intros ? ? [? ?]. split; [now right|assumption]. }
      eapply mean_values; [exact Hv'|]. intros r0 q [Hr Hq]. rewrite ET. apply (closed_off (used_share sig ts stacked boosted k) ts d w Ku vu f (fst r0) q).
      - exact (proj1 (proj2 Hok)).
      - rewrite <- ET. apply Tf.
      - apply Hoff. apply Hin. now apply Hl.
      - exact Hq. }
    apply G.
    + intro K. apply Hms. now apply map_eq_nil in K.
    + rewrite (Hm same us), (Hm other ws); [exact Hne| |exact Hw| |exact Hu]; intros r0 Hr; apply filter_In in Hr; apply Hr.
Qed.
Lemma sdp_numbers : numbers (acv_sdp a proba sched X S D) xs fX (fun x f v =>
  exists forest, forest_leaves (shared (used_share sig ts stacked boosted k) ts f) = Some forest /\
    (v == compute_sdp_clf d (combine (map point zs) ys) f Sv forest (point x))%Q).
Proof.
  destruct used_table as (Tok & _ & Tf & Ku & vu & ET). destruct hyps as (H1 & H2 & H3 & H4).
  destruct (sdp_clf_prog_ok (table_of a) d (map point xs) (map point zs) Sv sched (vars ts) fX ys Tok H1 HSv H2 H3 H4
     (fun _ => t_max (table_of a))) as [r [E H]]; [intros b Hb; apply (Tok b Hb)|].
  eapply numbers_intro.
  - unfold acv_sdp. rewrite (sdp_call_form a proba true _ _ X S D d xs c zs Sv (used_classes boosted k) fX ys); auto.
    + rewrite E. reflexivity.
    + split; [exact HD|]. split; [lia|exact Hz].
    + apply o_cols_d.
  - intros i x f Hxi Hfi. eexists. split; [apply Tf|]. apply (H i); [now apply point_at|exact Hfi].
Qed.
End Par.

(** all or none of the columns given *)
Lemma sdp_trivial sched : is_table D c zs ->
  decides_as proba d xs (used_classes boosted k) fX -> decides_as proba c zs (used_classes boosted k) ys ->
  (length Sv = d -> acv_sdp a proba sched X S D = Returned (map (fun _ => 1%Q) xs) /\
                    acv_sdp_cat a proba sched X S D = Returned (map (fun _ => 1%Q) xs)) /\
  (Sv = [] -> acv_sdp a proba sched X S D = Returned (map (fun _ => 0%Q) xs) /\
              acv_sdp_cat a proba sched X S D = Returned (map (fun _ => 0%Q) xs)).
Proof.
  intros HD HfX Hys.
  assert (Ev : forall v : Q, map (fun _ : nat => v) (seq 0 (length xs)) = map (fun _ => v) xs).
  { intro v. rewrite <- (map_nth_seq (fun _ : list Q => v) xs []). reflexivity. }
  unfold acv_sdp, acv_sdp_cat.
  rewrite !(sdp_call_form a proba true _ _ X S D d xs c zs Sv (used_classes boosted k) fX ys); auto;
    try (split; [exact HD|]; split; [lia|exact Hz]); try apply o_cols_d.
  unfold sdp_clf_prog, sdp_clf_cat_prog. split; intro E.
  - rewrite E, Nat.eqb_refl. cbn [vector]. rewrite Ev. auto.
  - rewrite E. cbn [length]. replace (0 =? d) with false by (symmetry; apply Nat.eqb_neq; lia). cbn [Nat.eqb vector]. rewrite Ev. auto.
Qed.
End Object.

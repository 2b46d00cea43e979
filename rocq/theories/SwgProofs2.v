(** Proofs about the swing values of an [ACVTree], from its trees. *)
From Verif Require Import Base TreeModel TreeSpec TreeProofs GameSpec GameProofs ShapModel ShapSpec ShapProofs NopaModel NopaProofs AcvModel SdpModel SdpSpec SdpProofs
  FlatModel FlatSpec SkModel SkSpec ArrModel ArrSpec ArrProofs ArrProofs3 SwingModel SwingSpec SwingProofs ExplSpec EntryModel EntrySpec EntryProofs EntryProofs2 EntryProofs3 SbufModel SbufSpec SbufProofs SbufProofs2
  ImpModel ImpSpec ImpProofs2 SwgModel SwgSpec SwgProofs.
Local Open Scope nat_scope.

Lemma coal_ok_coalitions C d : coal_ok C d -> coalitions_ok C d.
Proof.
  intros (H1 & H2 & H3). split; [exact H1|]. split; [exact H2|]. destruct H3 as [-> |H3]; [reflexivity|].
  destruct C as [|[|c g] C']; [reflexivity| |trivial]. exfalso. apply H3. now left.
Qed.
(** the three means *)
Lemma cnt_closed p S (rs : list frow) : cnt (sat_cl p S) rs = rows_closed (map fst rs) p S.
Proof.
  unfold cnt, rows_closed. induction rs as [|r rs IH]; [reflexivity|]. cbn [map filter].
  replace (sat_cl p S (fst r)) with (forallb (fun s => ext_leb_q (fst (p s)) (fst r s) && q_leb_ext (fst r s) (snd (p s))) S).
  - destruct (forallb _ S); cbn [length]; now rewrite IH.
  - clear. unfold sat_cl. induction S as [|s S IH]; [reflexivity|]. cbn [forallb filter length]. unfold cl_itv at 1. rewrite (andb_comm (q_leb_ext _ _)).
    destruct (ext_leb_q (fst (p s)) (fst r s) && q_leb_ext (fst r s) (snd (p s))) eqn:E; cbn [andb length]; [exact IH|].
    symmetry. apply Nat.eqb_neq. pose proof (filter_length_le (fun s => cl_itv (p s) (fst r s)) S). lia.
Qed.
Lemma not_out_forallb p S x : not_out_cl p S x = forallb (fun s => ext_leb_q (fst (p s)) (x s) && q_leb_ext (x s) (snd (p s))) S.
Proof.
  unfold not_out_cl. induction S as [|s S IH]; [reflexivity|]. cbn [filter forallb].
  destruct (q_leb_ext (x s) (snd (p s))), (ext_leb_q (fst (p s)) (x s)); cbn [negb orb andb length]; (exact IH || reflexivity).
Qed.
Lemma swing_mean_closed m S x rs forest : (swing_mean m S x rs forest == closed_mean m (map fst rs) forest x S)%Q.
Proof.
  unfold swing_mean, closed_mean. apply sumf_ext. intros ls _. apply sumf_ext. intros lf _. unfold box_leaf.
  rewrite not_out_forallb, !cnt_closed. unfold gdiv. reflexivity.
Qed.
(** any mean that is the one of the routine for the rows given, those of the class and the others *)
Lemma level_of E m rows f thr forest x :
  (forall S rs, (rs = clf_rows f rows \/ rs = up_rows (clf_rows f rows) \/ rs = down_rows (clf_rows f rows)) -> 0 < length S -> length S <> m ->
     (swing_mean m S x rs forest == E (map fst rs) S)%Q) ->
  level_game m E rows f thr (compute_sdp_swing m rows f thr forest x).
Proof.
  intro H. destruct (clf_split f rows) as [E1 [E2 E3]]. split; [|split].
  - intros S HS. unfold compute_sdp_swing. now rewrite HS, Nat.eqb_refl.
  - intro Hm. unfold compute_sdp_swing. cbn [length]. destruct m; [lia|reflexivity].
  - intros S H0 Hm. cbn zeta. unfold compute_sdp_swing.
    destruct (Nat.eqb_spec (length S) m) as [e|_]; [contradiction|]. destruct (Nat.eqb_spec (length S) 0) as [e|_]; [lia|].
    assert (M1 := H S _ (or_introl eq_refl) H0 Hm). rewrite E1 in M1.
    assert (M2 := H S _ (or_intror (or_introl eq_refl)) H0 Hm). rewrite E2 in M2.
    assert (M3 := H S _ (or_intror (or_intror eq_refl)) H0 Hm). rewrite E3 in M3.
    set (a := E (map fst rows) S) in *. set (u := E (map fst (filter (fun r => snd r =? f) rows)) S) in *.
    set (d := E (map fst (filter (fun r => negb (snd r =? f)) rows)) S) in *.
    assert (ER : (qdiv0 (swing_mean m S x (clf_rows f rows) forest - swing_mean m S x (down_rows (clf_rows f rows)) forest)
      (swing_mean m S x (up_rows (clf_rows f rows)) forest - swing_mean m S x (down_rows (clf_rows f rows)) forest) == qdiv0 (a - d) (u - d))%Q).
    { apply SwingProofs.qdiv0_comp; rewrite ?M1, ?M2, ?M3; reflexivity. }
    rewrite (SwingProofs.qleb_eq thr thr _ _ (Qeq_refl _) ER). clear ER. unfold qdiv0.
    split; [destruct (qleb thr _); auto|]. split; intro Hud.
    + destruct (qeqb_spec (u - d) 0) as [e|_]; [exfalso; apply Hud; lra|].
      destruct (qleb_spec thr ((a - d) / (u - d))); split; intro; try assumption; try reflexivity; try discriminate; contradiction.
    + destruct (qeqb_spec (u - d) 0) as [_|n]; [|exfalso; apply n; lra].
      destruct (qleb_spec thr 0); split; intro; try assumption; try reflexivity; try discriminate; contradiction.
Qed.

Lemma cell_seq {A} (f : nat -> A) n i : i < n -> nth_error (map f (seq 0 n)) i = Some (f i).
Proof.
  intro H. rewrite nth_error_map. rewrite (nth_error_nth' (seq 0 n) 0) by now rewrite seq_length. now rewrite seq_nth.
Qed.

Section Object.
Variables (listed : list nat -> list nat) (sig : Q -> Q) (ts : list mtree) (stacked : nat) (boosted : bool) (d w k : nat) (h : shap_acv)
  (proba : mat -> outcome (list (list Q))) (X : marg) (xs zs : list (list Q)) (fX ys : list nat) (C : list (list nat)).
Notation data := (M_array F64 d zs).
Hypothesis HE : explainable listed sig ts stacked boosted d w k h proba X data xs zs fX ys C.
Notation a := (h_acv h).
Notation T := (o_tabs (h_acv h)).
Notation rws := (combine (map point zs) ys).
Notation N := (length xs).
Lemma s_con : construct sig ts stacked boosted d = Some a. Proof. exact (e_con _ _ _ _ _ _ _ _ _ _ _ _ _ _ _ _ _ HE). Qed.
Lemma s_ok : ensemble_ok ts stacked d w k. Proof. apply HE. Qed.
Lemma s_C : coalitions_ok C d. Proof. apply coal_ok_coalitions. apply HE. Qed.
Lemma s_pos : 0 < d. Proof. exact (e_pos _ _ _ _ _ _ _ _ _ _ _ _ _ _ _ _ _ HE). Qed.
Lemma seen_table Y rs : is_table Y d rs -> seen Y = Returned (mkMat d rs) /\ buffer2 (as_float Y) = Returned (mkMat d rs).
Proof. intros [->|[->|[dt ->]]]; split; reflexivity. Qed.
(** the call, once the arguments are seen *)
Lemma swings_form rowing adding junk C' thr : acv_swings h proba rowing adding junk X data C' thr =
  result N d (swing_prog d d N C' (swing_call T d (map point xs) (map point zs) fX ys thr true rowing) adding junk).
Proof.
  unfold acv_swings. destruct (seen_table X xs ltac:(apply HE)) as [E1 E2]. rewrite E1. cbn [andthen].
  rewrite (proj1 (classes_spec _ _ _ _ _ (e_fX _ _ _ _ _ _ _ _ _ _ _ _ _ _ _ _ _ HE))). cbn [andthen seen].
  rewrite (proj1 (classes_spec _ _ _ _ _ (e_ys _ _ _ _ _ _ _ _ _ _ _ _ _ _ _ _ _ HE))). cbn [andthen]. rewrite E2. cbn [andthen buffer2 same_dtype cols rows].
  unfold wide_enough. cbn [cols]. rewrite (e_cols _ _ _ _ _ _ _ _ _ _ _ _ _ _ _ _ _ HE), Nat.leb_refl. reflexivity.
Qed.
Hypothesis Hk : forall f, In f fX -> f < k.
Lemma s_classes : length fX = N /\ length ys = length zs /\ forall f, In f fX -> f < t_out T.
Proof.
  destruct (e_classes _ _ _ _ _ _ _ _ _ _ _ _ _ _ _ _ _ HE) as (L1 & L2 & _). split; [exact L1|]. split; [exact L2|].
  rewrite (a_out sig ts stacked boosted d w k a s_ok s_con). exact Hk.
Qed.
Definition game_of (i : nat) (thr : Q) : list nat -> Q :=
  compute_sdp_swing d rws (nth i fX 0) thr (forest_at T (vars ts) (nth i fX 0)) (nth i (map point xs) (fun _ => 0%Q)).
Lemma swings_cells rowing adding junk thr : row_orders N rowing adding ->
  acv_swings h proba rowing adding junk X data C thr =
  Returned (map (fun i => map (fun c => swing_sv (game_of i thr) C d c) (seq 0 d)) (seq 0 N)).
Proof.
  intros [Hr Ha]. rewrite swings_form. destruct s_classes as (L1 & L2 & B).
  destruct (prog_ok d d N C (swing_call T d (map point xs) (map point zs) fX ys thr true rowing) adding junk (fun i => game_of i thr) s_C (le_n d)) as (r & E & P).
  - intros Sv HS. destruct (call_ok T d (map point xs) (map point zs) fX ys thr rowing (vars ts) (a_tabs sig ts stacked boosted d w k a s_ok s_con)) with (Sv := Sv) as (v & Ev & Pv);
      [rewrite map_length; lia|rewrite map_length; lia|exact B|intros; rewrite map_length; apply Hr|exact HS|].
    exists v. split; [exact Ev|]. intros i Hi. apply Pv; apply nth_error_nth'; [rewrite map_length; exact Hi|lia].
  - exact Ha.
  - exact (e_Cne _ _ _ _ _ _ _ _ _ _ _ _ _ _ _ _ _ HE).
  - rewrite E. unfold result. f_equal. apply map_ext_in. intros i Hi. apply in_seq in Hi. apply map_ext. intro c. apply P. lia.
Qed.
Lemma swings_entries rowing adding junk thr (P : list Q -> nat -> (nat -> swing) -> Prop) : row_orders N rowing adding ->
  (forall i x f, nth_error xs i = Some x -> nth_error fX i = Some f -> P x f (swing_sv (game_of i thr) C d)) ->
  swing_entries (acv_swings h proba rowing adding junk X data C thr) xs fX d P.
Proof.
  intros Ho HP. eexists. split; [exact (swings_cells rowing adding junk thr Ho)|]. split; [now rewrite map_length, seq_length|].
  intros i x f Hx Hf. assert (Hi : i < N) by (apply nth_error_Some; congruence).
  eexists. exists (swing_sv (game_of i thr) C d). split; [|split; [|split; [|exact (HP i x f Hx Hf)]]].
  - exact (cell_seq _ N i Hi).
  - now rewrite map_length, seq_length.
  - intros c Hc. exact (cell_seq _ d c Hc).
Qed.
Lemma game_at i x f thr : nth_error xs i = Some x -> nth_error fX i = Some f ->
  game_of i thr = compute_sdp_swing d rws f thr (forest_at T (vars ts) f) (point x).
Proof.
  intros Hx Hf. unfold game_of. rewrite (nth_error_nth _ _ 0 Hf). rewrite (nth_error_nth (map point xs) i (fun _ => 0%Q) (x := point x)); [reflexivity|].
  rewrite nth_error_map, Hx. reflexivity.
Qed.
Lemma off_points f z : off_thresholds ts z -> off_boundary (forest_at T (vars ts) f) (point z).
Proof.
  intro H. pose proof (a_forest sig ts stacked boosted d w k a s_ok s_con f) as HF. rewrite (a_form sig ts stacked boosted d w k a s_ok s_con) in HF |- *.
  exact (off_thresholds_boundary _ ts d w _ _ f z (proj1 (proj2 s_ok)) HF H).
Qed.
(** the six results of every column *)
Theorem swings_values rowing adding junk thr : row_orders N rowing adding ->
  swing_entries (acv_swings h proba rowing adding junk X data C thr) xs fX d (fun x f r =>
    exists forest v, forest_leaves (shared (raw_share stacked) ts f) = Some forest /\
      level_game d (fun rs S => closed_mean d rs forest (point x) S) rws f thr v /\
      (off_thresholds ts x -> (forall z, In z zs -> off_thresholds ts z) -> level_game d (fun rs S => worth d rs forest (point x) [S]) rws f thr v) /\
      forall P g c, is_players C d P -> In g P -> In c g ->
        decomposition v P g (sw_phi (r c)) (sw_pos (r c)) (sw_neg (r c)) (n_pos (r c)) (n_neg (r c)) (n_null (r c))).
Proof.
  intro Ho. apply (swings_entries rowing adding junk thr _ Ho). intros i x f Hx Hf. rewrite (game_at i x f thr Hx Hf).
  exists (forest_at T (vars ts) f), (compute_sdp_swing d rws f thr (forest_at T (vars ts) f) (point x)).
  split; [exact (a_forest sig ts stacked boosted d w k a s_ok s_con f)|]. split; [|split].
  - apply level_of. intros S rs _ _ _. apply swing_mean_closed.
  - intros Hox Hoz. apply level_of. intros S rs Hrs _ _. apply swing_mean_worth; [now apply off_points|].
    assert (K : forall r, In r (clf_rows f rws) -> off_boundary (forest_at T (vars ts) f) (fst r)).
    { intros r Hr. unfold clf_rows in Hr. apply in_map_iff in Hr. destruct Hr as ([p q] & <- & Hr). cbn [fst]. apply in_combine_l in Hr.
      apply in_map_iff in Hr. destruct Hr as (z & <- & Hz). now apply off_points, Hoz. }
    intros r Hr. apply K. destruct Hrs as [->|[->| ->]]; [exact Hr| |]; apply filter_In in Hr; apply Hr.
  - intros P g c HP Hg Hc. exact (swing_sv_ok _ C d P g c (swing_value_game d rws f thr _ _) s_C HP Hg Hc).
Qed.
(** sums *)
Theorem swings_accounts rowing adding junk thr P rep : row_orders N rowing adding -> is_players C d P -> (forall g, In g P -> In (rep g) g) ->
  swing_entries (acv_swings h proba rowing adding junk X data C thr) xs fX d (fun x f r =>
    (sumf (fun g => sw_phi (r (rep g))) P == 1)%Q /\
    forall c, c < d -> (sw_pos (r c) + sw_neg (r c) == sw_phi (r c))%Q /\ (0 <= sw_pos (r c))%Q /\ (sw_neg (r c) <= 0)%Q /\
      n_pos (r c) + n_neg (r c) + n_null (r c) = 2 ^ (length P - 1)).
Proof.
  intros Ho HP Hr. apply (swings_entries rowing adding junk thr _ Ho). intros i x f Hx Hf. rewrite (game_at i x f thr Hx Hf). split.
  - exact (swing_clf_efficiency d rws f thr _ _ C P rep s_pos s_C HP Hr).
  - intros c Hc. destruct (player_exists C d P c HP Hc) as (g & Hg & Hcg).
    exact (sv_with_sums _ C d P g c s_C HP Hg Hcg).
Qed.
Theorem swings_orders rowing adding junk rowing' adding' junk' thr : row_orders N rowing adding -> row_orders N rowing' adding' ->
  acv_swings h proba rowing adding junk X data C thr = acv_swings h proba rowing' adding' junk' X data C thr.
Proof. intros H H'. now rewrite (swings_cells rowing adding junk thr H), (swings_cells rowing' adding' junk' thr H'). Qed.
End Object.
(** arguments *)
Lemma swings_unchecked listed sig ts stacked boosted d w k h proba X data xs zs fX ys C :
  explainable listed sig ts stacked boosted d w k h proba X data xs zs fX ys C -> forall rowing adding junk C' thr,
  ((data = M_frame d zs \/ data = M_list d zs) -> acv_swings h proba rowing adding junk X data C' thr = Raised EType) /\
  (forall dt, data = M_array dt d zs -> dt <> F64 -> acv_swings h proba rowing adding junk X data C' thr = Raised EValue) /\
  (data = M_array F64 d zs -> acv_swings h proba rowing adding junk X data [] thr = Stray).
Proof.
  intros HE rowing adding junk C' thr.
  assert (K : forall C0, acv_swings h proba rowing adding junk X data C0 thr = (z <- buffer2 data ;;
    result (length xs) d (swing_prog d (cols z) (length xs) C0
       (swing_call (o_tabs (h_acv h)) d (map point xs) (points z) fX ys thr (wide_enough (h_acv h) d z) rowing) adding junk))).
  { intro C0. unfold acv_swings.
    assert (ES : forall Y ys0, is_table Y d ys0 -> seen Y = Returned (mkMat d ys0)) by (intros Y ys0 [->|[->|[dt ->]]]; reflexivity).
    rewrite (ES X xs) by apply HE. rewrite (ES data zs) by apply HE. cbn [andthen].
    rewrite (proj1 (classes_spec _ _ _ _ _ (e_fX _ _ _ _ _ _ _ _ _ _ _ _ _ _ _ _ _ HE))). cbn [andthen].
    rewrite (proj1 (classes_spec _ _ _ _ _ (e_ys _ _ _ _ _ _ _ _ _ _ _ _ _ _ _ _ _ HE))). cbn [andthen].
    assert (EB : buffer2 (as_float X) = Returned (mkMat d xs)) by (destruct (e_X _ _ _ _ _ _ _ _ _ _ _ _ _ _ _ _ _ HE) as [->|[->|[dt ->]]]; reflexivity).
    rewrite EB. reflexivity. }
  split; [|split].
  - intro H. rewrite K. destruct H as [->| ->]; reflexivity.
  - intros dt -> Hd. rewrite K. cbn [buffer2]. destruct dt; try reflexivity. congruence.
  - intros ->. rewrite K. reflexivity.
Qed.

(** Proofs about the explanations of an [ACVTree], from its trees: the theorems. *)
From Verif Require Import Base TreeModel TreeSpec TreeProofs GameSpec GameProofs ShapModel ShapSpec ShapProofs FlatModel FlatSpec FlatProofs SkModel SkSpec SkProofs
  SdpModel SdpSpec SdpProofs SearchModel SearchSpec SearchProofs ClfModel ClfSpec ClfProofs ExplModel ExplSpec ExplProofs
  ArrModel ArrSpec ArrProofs ArrProofs2 ArrProofs3 ArrProofs4 EntryModel EntrySpec EntryProofs EntryProofs2 EntryProofs3 EntryProofs4 SbufModel SbufSpec SbufProofs SbufProofs2
  ImpModel ImpSpec ImpProofs ImpProofs2.
From Coq Require Import NArith.
Local Open Scope nat_scope.

Lemma single_concat (va : list (list nat)) : (forall g, In g va -> length g = 1) -> length (concat va) = length va.
Proof.
  induction va as [|g va IH]; intro H; [reflexivity|]. cbn. rewrite app_length, IH by (intros; apply H; now right).
  rewrite (H g) by now left. reflexivity.
Qed.

Section Object.
Variables (listed : list nat -> list nat) (sig : Q -> Q) (ts : list mtree) (stacked : nat) (boosted : bool) (d w k : nat) (h : shap_acv)
  (proba : mat -> outcome (list (list Q))) (X data : marg) (xs zs : list (list Q)) (fX ys : list nat) (C : list (list nat)).
Hypothesis HE : explainable listed sig ts stacked boosted d w k h proba X data xs zs fX ys C.
Notation a := (h_acv h).
Notation F := (leaf_table (table_of (h_acv h))).
Notation rws := (combine (map point zs) ys).
Notation Xp := (fun k => nth k (map point xs) (fun _ => 0%Q)).
Notation fp := (fun k => nth k fX 0).
Notation N := (length xs).
Variable by_count : list nat -> list nat.
Hypothesis Hcount : counted (flat_list h) (by_count (flat_list h)).
Notation va := (tree_space_groups d (by_count (flat_list h)) C).
Notation Explain := (fun sched pi minimal stop => acv_explain h proba sched by_count X data C pi minimal stop).

Lemma explain_returns sched pi minimal stop : all_leaves ts sched -> (0 < pi)%Q -> (pi <= 1)%Q ->
  exists e, Explain sched pi minimal stop = Returned e /\ shaped e N d.
Proof.
  intros Hs H0 H1. destruct (explain_state _ _ _ _ _ _ _ _ _ _ _ _ _ _ _ _ _ HE by_count Hcount sched Hs pi minimal stop) as (st & ce & E & R).
  exists (collect d N st). split; [exact R|]. unfold shaped, collect. cbn [e_importance e_index e_size e_sdp].
  rewrite !map_length, !seq_length. repeat split; trivial. intros r Hr. apply in_map_iff in Hr. destruct Hr as (i & <- & Hi). apply in_seq in Hi.
  destruct (va_ok _ _ _ _ _ _ _ _ _ _ _ _ _ _ _ _ _ HE by_count Hcount) as [G _].
  pose proof (clf_search_refines F d rws Xp fp sched (treats_perm _ _ (sched_treats _ _ _ _ _ _ _ _ _ _ _ _ _ _ _ _ _ HE sched Hs)) true v_tree pi eq_refl
    cut15 stop N va minimal) as Q. rewrite E in Q. cbn in Q. symmetry in Q. apply search_clf_visits in Q. destruct Q as [n [Q _]].
  destruct (levels_found v_tree d pi _ N va minimal n st i G H0 H1 ltac:(lia) Q) as [[S1 _] _]. exact S1.
Qed.

Section Told.
Variable order : nat -> list (nat * nat).
Hypothesis Horder : all_pairs ts N order.
Notation told_ := (told a proba order X data).

Lemma explain_found sched pi minimal stop e i : all_leaves ts sched -> (0 < pi)%Q -> (pi <= 1)%Q -> 1 <= minimal ->
  Explain sched pi minimal stop = Returned e -> i < N -> (pi <= nth i (e_sdp e) 0)%Q ->
  shows_minimal va minimal pi (told_ i) (row_of e i).
Proof.
  intros Hs H0 H1 Hm He Hi Hp. destruct (va_ok _ _ _ _ _ _ _ _ _ _ _ _ _ _ _ _ _ HE by_count Hcount) as [G _].
  destruct (explain_state _ _ _ _ _ _ _ _ _ _ _ _ _ _ _ _ _ HE by_count Hcount sched Hs pi minimal stop) as (st & ce & E & R).
  cbv beta in He. rewrite R in He. injection He as <-. assert (Er := row_collect d N st i Hi). rewrite Er.
  assert (Hp' : (pi <= r_sdp (s_rows st i))%Q) by (rewrite <- Er; exact Hp).
  eapply shows_ext; [|exact (clf_found d pi F rws Xp fp va minimal G Hm sched cut15 stop N st ce i (sched_treats _ _ _ _ _ _ _ _ _ _ _ _ _ _ _ _ _ HE sched Hs) H0 H1 Hi E Hp')].
  intros Tm HT. exact (told_subs _ _ _ _ _ _ _ _ _ _ _ _ _ _ _ _ _ HE order Horder va i G Hi Tm HT).
Qed.
Lemma explain_not_found sched pi minimal stop e i : all_leaves ts sched -> (0 < pi)%Q -> (pi <= 1)%Q -> 1 <= minimal ->
  Explain sched pi minimal stop = Returned e -> i < N -> (nth i (e_sdp e) 0 < pi)%Q ->
  forall Tm, In Tm (subs va) -> minimal <= length Tm ->
  (stop = true -> (forall g, In g C -> g = []) /\ length Tm <= Nat.max minimal (d / 2)) -> (told_ i (concat Tm) < pi)%Q.
Proof.
  intros Hs H0 H1 Hm He Hi Hp Tm HT HTl Hstop. destruct (va_ok _ _ _ _ _ _ _ _ _ _ _ _ _ _ _ _ _ HE by_count Hcount) as [G Gl].
  destruct (explain_state _ _ _ _ _ _ _ _ _ _ _ _ _ _ _ _ _ HE by_count Hcount sched Hs pi minimal stop) as (st & ce & E & R).
  cbv beta in He. rewrite R in He. injection He as <-. assert (Er := row_collect d N st i Hi).
  assert (Hp' : (r_sdp (s_rows st i) < pi)%Q) by (rewrite <- Er; exact Hp).
  rewrite <- (told_subs _ _ _ _ _ _ _ _ _ _ _ _ _ _ _ _ _ HE order Horder va i G Hi Tm HT).
  pose proof (search_clf_documented d pi F rws Xp fp va minimal G Hm sched cut15 stop N (sched_treats _ _ _ _ _ _ _ _ _ _ _ _ _ _ _ _ _ HE sched Hs)) as Q.
  rewrite E in Q. cbn in Q. symmetry in Q.
  refine (search_clf_not_found _ _ _ _ stop _ _ _ _ _ G H0 H1 Hi _ Q Hp' Tm HT HTl _); [lia|].
  intros Ht s Hsl. destruct (Hstop Ht) as [HC HTm].
  assert (Hsing : forall g, In g va -> length g = 1).
  { intros g Hg. destruct (va_searched _ _ _ _ _ _ _ _ _ _ _ _ _ _ _ _ _ HE by_count Hcount) as (_ & _ & _ & A & B).
    assert (Hne : g <> []) by (intros ->; now apply G).
    destruct (le_lt_dec d 10) as [Hd|Hd].
    - apply (proj2 (A Hd)) in Hg. destruct Hg as [[K _]|(s0 & _ & _ & ->)]; [apply HC in K; contradiction|reflexivity].
    - destruct (B Hd) as (sp & _ & Hsp). apply Hsp in Hg. destruct Hg as [[K _]|(s0 & -> & _)]; [apply HC in K; contradiction|reflexivity]. }
  rewrite single_concat.
  - pose proof (subs_length _ _ HT) as HlT. rewrite skipn_length. cbn [v_half v_tree]. unfold half_int. apply Nat.leb_gt. lia.
  - intros g Hg. apply Hsing. rewrite <- (firstn_skipn (length va - s)). apply in_or_app. now right.
Qed.
End Told.

Lemma explain_importance sched pi minimal stop e j : all_leaves ts sched -> (0 < pi)%Q -> (pi <= 1)%Q ->
  Explain sched pi minimal stop = Returned e -> j < d ->
  (nth j (e_importance e) 0 == Qn (length (filter (fun i => explains pi (row_of e i) j) (seq 0 N))) / Qn N)%Q /\
  (0 <= nth j (e_importance e) 0 <= 1)%Q.
Proof.
  intros Hs H0 H1 He Hj. destruct (va_ok _ _ _ _ _ _ _ _ _ _ _ _ _ _ _ _ _ HE by_count Hcount) as [G _].
  destruct (explain_state _ _ _ _ _ _ _ _ _ _ _ _ _ _ _ _ _ HE by_count Hcount sched Hs pi minimal stop) as (st & ce & E & R).
  cbv beta in He. rewrite R in He. injection He as <-.
  pose proof (clf_search_refines F d rws Xp fp sched (treats_perm _ _ (sched_treats _ _ _ _ _ _ _ _ _ _ _ _ _ _ _ _ _ HE sched Hs)) true v_tree pi eq_refl
    cut15 stop N va minimal) as Q. rewrite E in Q. cbn in Q. symmetry in Q.
  pose proof (search_clf_importance _ _ _ _ _ _ _ _ _ _ j G H0 H1 (e_N _ _ _ _ _ _ _ _ _ _ _ _ _ _ _ _ _ HE) Q) as [A B].
  unfold collect at 1 3 4. cbn [e_importance]. rewrite (nth_map_seq (importance N st) d j 0%Q Hj). split; [|exact B]. rewrite A.
  rewrite (filter_ext_in (fun i => explains pi (s_rows st i) j) (fun i => explains pi (row_of (collect d N st) i) j)); [reflexivity|].
  intros i Hi. apply in_seq in Hi. now rewrite row_collect by lia.
Qed.
Lemma explain_index sched pi minimal stop e i : all_leaves ts sched -> (0 < pi)%Q -> (forall g, In g C -> g = []) ->
  Explain sched pi minimal stop = Returned e -> i < N ->
  filter (fun z => (0 <=? z)%Z) (nth i (e_index e) []) = firstn (nth i (e_size e) 0) (nth i (e_index e) []).
Proof.
  intros Hs H0 HC He Hi. destruct (va_ok _ _ _ _ _ _ _ _ _ _ _ _ _ _ _ _ _ HE by_count Hcount) as [G _].
  destruct (explain_state _ _ _ _ _ _ _ _ _ _ _ _ _ _ _ _ _ HE by_count Hcount sched Hs pi minimal stop) as (st & ce & E & R).
  cbv beta in He. rewrite R in He. injection He as <-.
  pose proof (clf_search_refines F d rws Xp fp sched (treats_perm _ _ (sched_treats _ _ _ _ _ _ _ _ _ _ _ _ _ _ _ _ _ HE sched Hs)) true v_tree pi eq_refl
    cut15 stop N va minimal) as Q. rewrite E in Q. cbn in Q. symmetry in Q.
  assert (Hsing : forall g, In g va -> length g = 1).
  { intros g Hg. destruct (va_searched _ _ _ _ _ _ _ _ _ _ _ _ _ _ _ _ _ HE by_count Hcount) as (_ & _ & _ & A & B).
    assert (Hne : g <> []) by (intros ->; now apply G).
    destruct (le_lt_dec d 10) as [Hd|Hd].
    - apply (proj2 (A Hd)) in Hg. destruct Hg as [[K _]|(s0 & _ & _ & ->)]; [apply HC in K; contradiction|reflexivity].
    - destruct (B Hd) as (sp & _ & Hsp). apply Hsp in Hg. destruct Hg as [[K _]|(s0 & -> & _)]; [apply HC in K; contradiction|reflexivity]. }
  destruct (search_clf_index_row _ _ _ _ _ _ _ _ _ _ i G H0 Hi Q Hsing) as [A _].
  unfold collect. cbn [e_index e_size]. rewrite !nth_map_seq by exact Hi. exact A.
Qed.
Lemma explain_order sched sched' pi minimal stop : all_leaves ts sched -> all_leaves ts sched' ->
  Explain sched pi minimal stop = Explain sched' pi minimal stop.
Proof.
  intros H1 H2.
  cbv beta. destruct (explain_state _ _ _ _ _ _ _ _ _ _ _ _ _ _ _ _ _ HE by_count Hcount sched H1 pi minimal stop) as (st & ce & E & ->).
  destruct (explain_state _ _ _ _ _ _ _ _ _ _ _ _ _ _ _ _ _ HE by_count Hcount sched' H2 pi minimal stop) as (st' & ce' & E' & ->).
  destruct (clf_schedules v_tree true d pi F rws Xp fp va minimal sched sched' cut15 stop N eq_refl
    (sched_treats _ _ _ _ _ _ _ _ _ _ _ _ _ _ _ _ _ HE sched H1) (sched_treats _ _ _ _ _ _ _ _ _ _ _ _ _ _ _ _ _ HE sched' H2)) as [Q _].
  rewrite E, E' in Q. cbn in Q. injection Q as ->. reflexivity.
Qed.

(** ** The sequential method *)
Lemma seq_leaves : all_leaves ts (fun _ => flat_map (fun b => map (pair b) (seq 0 (t_nb (o_tabs a) b))) (seq 0 (t_trees (o_tabs a)))).
Proof.
  intros _. rewrite (proj2 (e_trees _ _ _ _ _ _ _ _ _ _ _ _ _ _ _ _ _ HE)). split.
  - apply nodup_tagged; [apply seq_NoDup|]. intros; apply seq_NoDup.
  - intros b l. rewrite in_flat_map. split.
    + intros (b' & Hb & H). apply in_map_iff in H. destruct H as (l' & E & H). injection E as -> ->. apply in_seq in Hb. apply in_seq in H.
      exists (nth b ts no_tree). split; [apply nth_error_nth'; lia|]. rewrite <- (proj2 (e_nb _ _ _ _ _ _ _ _ _ _ _ _ _ _ _ _ _ HE b ltac:(lia))). lia.
    + intros (m & Hm & Hl). pose proof (nth_error_lt _ _ _ Hm) as Hb. exists b. split; [apply in_seq; lia|]. apply in_map, in_seq.
      rewrite (proj2 (e_nb _ _ _ _ _ _ _ _ _ _ _ _ _ _ _ _ _ HE b Hb)), (nth_error_nth _ _ no_tree Hm). lia.
Qed.
Lemma explain_nopa sched pi minimal : all_leaves ts sched -> d <= 10 -> boosted && (k =? 1) = false ->
  acv_explain_nopa h proba X data C pi minimal = Explain sched pi minimal true.
Proof.
  intros Hs Hd Hraw. cbv beta. rewrite (explain_order sched _ pi minimal true Hs seq_leaves).
  rewrite (explain_form _ _ _ _ _ _ _ _ _ _ _ _ _ _ _ _ _ HE by_count Hcount).
  unfold acv_explain_nopa. rewrite (checked_form _ _ _ _ _ _ _ _ _ _ _ _ _ _ _ _ _ HE).
  destruct (va_ok _ _ _ _ _ _ _ _ _ _ _ _ _ _ _ _ _ HE by_count Hcount) as [G Gl].
  assert (Ev : va = tree_groups C d) by (unfold tree_space_groups; replace (10 <? d) with false by (symmetry; apply Nat.ltb_ge; lia); reflexivity).
  assert (ET : o_tabs a = table_of a).
  { unfold table_of. rewrite (a_form sig ts stacked boosted d w k _ (e_ok _ _ _ _ _ _ _ _ _ _ _ _ _ _ _ _ _ HE) (e_con _ _ _ _ _ _ _ _ _ _ _ _ _ _ _ _ _ HE)).
    cbn [built o_boosted o_out o_tabs]. now rewrite Hraw. }
  rewrite Ev in *. rewrite ET at 1. rewrite (run_form _ _ _ _ _ _ _ _ _ _ _ _ _ _ _ _ _ HE) by exact G.
  set (sq := fun _ : list nat => flat_map _ _). 
  assert (Hsq : treats_all F sq) by (apply (sched_treats _ _ _ _ _ _ _ _ _ _ _ _ _ _ _ _ _ HE); exact seq_leaves).
  assert (Q : option_map fst (clf_search_all v_tree true d pi F rws Xp fp sq cut15 true N (tree_groups C d) minimal)
            = option_map fst (clf_search v_tree true d pi F rws Xp fp sq cut15 true N (tree_groups C d) minimal)).
  { rewrite clf_search_refines, clf_search_all_refines by (reflexivity || now apply treats_perm).
    destruct (le_lt_dec minimal (length (tree_groups C d))) as [Hl|Hl]; [apply search_all_from; lia|].
    unfold search, search_clf. cbn zeta. unfold power at 2 3. replace (S (length (tree_groups C d)) - minimal) with 0 by lia. reflexivity. }
  destruct (clf_search_all v_tree true d pi F rws Xp fp sq cut15 true N (tree_groups C d) minimal) as [[st ce]|];
    destruct (clf_search v_tree true d pi F rws Xp fp sq cut15 true N (tree_groups C d) minimal) as [[st' ce']|]; cbn in Q; try discriminate; [|reflexivity].
  injection Q as ->. reflexivity.
Qed.
Lemma explain_nopa_stray pi minimal : boosted = true -> k = 1 -> In 1 fX -> acv_explain_nopa h proba X data C pi minimal = Stray.
Proof.
  intros Hb Hk Hf. unfold acv_explain_nopa. rewrite (checked_form _ _ _ _ _ _ _ _ _ _ _ _ _ _ _ _ _ HE).
  unfold run_search. cbn [cols rows]. rewrite Nat.eqb_refl, (nonempty_match C) by apply HE.
  replace (fits h (o_tabs a) (mkMat d xs) (mkMat d zs) fX ys (tree_groups C d)) with false; [reflexivity|]. symmetry.
  unfold fits. rewrite (a_out sig ts stacked boosted d w k _ (e_ok _ _ _ _ _ _ _ _ _ _ _ _ _ _ _ _ _ HE) (e_con _ _ _ _ _ _ _ _ _ _ _ _ _ _ _ _ _ HE)), Hk.
  assert (E : forallb (fun c => c <? 1) fX = false).
  { destruct (forallb (fun c => c <? 1) fX) eqn:E; [|reflexivity]. rewrite forallb_forall in E. specialize (E 1 Hf). discriminate. }
  rewrite E, !andb_false_r. reflexivity.
Qed.
(** ** [importance_sdp_clf_ptrees] *)
Lemma ptrees_unchecked sched pi minimal stop : (data = M_frame d zs \/ data = M_list d zs) ->
  acv_explain_ptrees h proba sched X data C pi minimal stop = Raised EType.
Proof.
  intro H. unfold acv_explain_ptrees.
  assert (ES : forall Y ys0, is_table Y d ys0 -> seen Y = Returned (mkMat d ys0)) by (intros Y ys0 [->|[->|[dt ->]]]; reflexivity).
  rewrite (ES X xs) by apply HE. rewrite (ES data zs) by apply HE. cbn [andthen].
  rewrite (proj1 (classes_spec _ _ _ _ _ (e_fX _ _ _ _ _ _ _ _ _ _ _ _ _ _ _ _ _ HE))). cbn [andthen].
  rewrite (proj1 (classes_spec _ _ _ _ _ (e_ys _ _ _ _ _ _ _ _ _ _ _ _ _ _ _ _ _ HE))). cbn [andthen].
  assert (EB : buffer2 (as_float X) = Returned (mkMat d xs)) by (destruct (e_X _ _ _ _ _ _ _ _ _ _ _ _ _ _ _ _ _ HE) as [->|[->|[dt ->]]]; reflexivity).
  rewrite EB. cbn [andthen]. destruct H as [->| ->]; reflexivity.
Qed.
End Object.

Lemma explain_rows listed sig ts stacked boosted d w k h proba X data xs zs fX ys C :
  explainable listed sig ts stacked boosted d w k h proba X data xs zs fX ys C ->
  forall by_count, counted (flat_list h) (by_count (flat_list h)) -> forall sched, all_leaves ts sched ->
  forall order, all_pairs ts (length xs) order -> forall pi minimal stop e, (0 < pi)%Q -> (pi <= 1)%Q -> 1 <= minimal ->
  acv_explain h proba sched by_count X data C pi minimal stop = Returned e ->
  exists va, searched ts d C va /\ forall i, i < length xs ->
    ((pi <= nth i (e_sdp e) 0)%Q -> shows_minimal va minimal pi (told (h_acv h) proba order X data i) (row_of e i)) /\
    ((nth i (e_sdp e) 0 < pi)%Q -> forall T, In T (subs va) -> minimal <= length T ->
       (stop = true -> (forall g, In g C -> g = []) /\ length T <= Nat.max minimal (d / 2)) ->
       (told (h_acv h) proba order X data i (concat T) < pi)%Q).
Proof.
  intros HE by_count Hc sched Hs order Ho pi minimal stop e H0 H1 Hm He.
  exists (tree_space_groups d (by_count (flat_list h)) C). split; [exact (va_searched _ _ _ _ _ _ _ _ _ _ _ _ _ _ _ _ _ HE by_count Hc)|].
  intros i Hi. split.
  - intro Hp. exact (explain_found _ _ _ _ _ _ _ _ _ _ _ _ _ _ _ _ _ HE by_count Hc order Ho sched pi minimal stop e i Hs H0 H1 Hm He Hi Hp).
  - intros Hp T HT Hl Hst.
    exact (explain_not_found _ _ _ _ _ _ _ _ _ _ _ _ _ _ _ _ _ HE by_count Hc order Ho sched pi minimal stop e i Hs H0 H1 Hm He Hi Hp T HT Hl Hst).
Qed.

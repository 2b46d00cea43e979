(** Proofs about the explanations of an [ACVTree], from its trees: what the methods return. *)
From Verif Require Import Base TreeModel TreeSpec TreeProofs GameSpec GameProofs ShapModel ShapSpec ShapProofs FlatModel FlatSpec FlatProofs SkModel SkSpec SkProofs
  SdpModel SdpSpec SdpProofs SearchModel SearchSpec SearchProofs ClfModel ClfSpec ClfProofs ExplModel ExplSpec ExplProofs
  ArrModel ArrSpec ArrProofs ArrProofs2 ArrProofs3 ArrProofs4 EntryModel EntrySpec EntryProofs EntryProofs2 EntryProofs3 EntryProofs4 SbufModel SbufSpec SbufProofs SbufProofs2
  ImpModel ImpSpec ImpProofs.
From Coq Require Import NArith.
Local Open Scope nat_scope.

(** ** The enumerations *)
Lemma loop_same v d pi P stop N pw pw' : forall idx idx' st, Forall2 (fun i j => nth_error pw i = nth_error pw' j) idx idx' ->
  search_loop v d pi P stop N pw idx st = search_loop v d pi P stop N pw' idx' st.
Proof.
  intros idx idx' st H. revert st. induction H as [|i j idx idx' E H IH]; intro st; cbn [search_loop]; [reflexivity|].
  rewrite E. destruct (nth_error pw' j) as [sets|]; [|reflexivity]. cbn zeta. destruct (_ && stop); [reflexivity|apply IH].
Qed.
Lemma forall2_seq (R : nat -> nat -> Prop) n : forall a b, (forall i, i < n -> R (a + i) (b + i)) -> Forall2 R (seq a n) (seq b n).
Proof.
  induction n as [|n IH]; intros a b H; cbn [seq]; constructor.
  - specialize (H 0 ltac:(lia)). now rewrite !Nat.add_0_r in H.
  - apply IH. intros i Hi. specialize (H (S i) ltac:(lia)). now rewrite <- !plus_n_Sm in H.
Qed.
(** enumerating the sizes from [lo] or all sizes makes no difference *)
Lemma search_all_from v d pi P stop N va lo : length va <= 15 -> lo <= length va ->
  search v d pi P cut15 stop N va lo = search_clf v d pi P cut15 stop N va lo.
Proof.
  intros H Hlo. unfold search, search_clf. cbn zeta. rewrite !power_complete by lia. rewrite map_length, seq_length. apply loop_same.
  apply forall2_seq. intros i Hi. rewrite !nth_error_map, !nth_error_seq.
  replace (lo + i <? S (length va) - 0) with true by (symmetry; apply Nat.ltb_lt; lia).
  replace (0 + i <? S (length va) - lo) with true by (symmetry; apply Nat.ltb_lt; lia). reflexivity.
Qed.

(** ** The answer *)
Lemma nonempty_match {A B} (l : list A) (x y : B) : l <> [] -> match l with [] => x | _ => y end = y.
Proof. destruct l; [congruence|reflexivity]. Qed.
Lemma nth_map_seq {A} (f : nat -> A) N k dft : k < N -> nth k (map f (seq 0 N)) dft = f k.
Proof. intro H. rewrite (nth_indep _ dft (f 0)) by (rewrite map_length, seq_length; exact H). rewrite map_nth, seq_nth by exact H. reflexivity. Qed.
Lemma row_collect m N st k : k < N -> row_of (collect m N st) k = s_rows st k.
Proof.
  intro H. unfold row_of, collect. cbn [e_sdp e_size e_index]. rewrite !nth_map_seq by exact H. destruct (s_rows st k); reflexivity.
Qed.
Lemma shows_ext va lo pi f g r : (forall T, In T (subs va) -> (f (concat T) == g (concat T))%Q) ->
  shows_minimal va lo pi f r -> shows_minimal va lo pi g r.
Proof.
  intros H (T & H1 & H2 & H3 & H4 & H5 & H6 & H7). exists T. split; [exact H1|]. split; [exact H2|]. split; [exact H3|]. split; [exact H4|].
  split; [now rewrite <- H|]. split; intros T' HT' HL; rewrite <- (H T' HT'); auto.
Qed.
Lemma subs_concat_in (va : list (list nat)) T : In T (subs va) -> forall s, In s (concat T) -> In s (concat va).
Proof.
  intros HT s Hs. apply in_concat in Hs. destruct Hs as (g & Hg & Hs). apply in_concat. exists g. split; [|exact Hs].
  exact (subs_incl va T HT g Hg).
Qed.

Section Object.
Variables (listed : list nat -> list nat) (sig : Q -> Q) (ts : list mtree) (stacked : nat) (boosted : bool) (d w k : nat) (h : shap_acv)
  (proba : mat -> outcome (list (list Q))) (X data : marg) (xs zs : list (list Q)) (fX ys : list nat) (C : list (list nat)).
Hypothesis HE : explainable listed sig ts stacked boosted d w k h proba X data xs zs fX ys C.
Notation a := (h_acv h).
Notation T := (table_of (h_acv h)).
Notation F := (leaf_table (table_of (h_acv h))).
Notation rws := (combine (map point zs) ys).
Notation Xp := (fun k => nth k (map point xs) (fun _ => 0%Q)).
Notation fp := (fun k => nth k fX 0).
Notation N := (length xs).

Lemma e_list : lists_set listed. Proof. apply HE. Qed.
Lemma e_ok : ensemble_ok ts stacked d w k. Proof. apply HE. Qed.
Lemma e_X : is_table X d xs. Proof. apply HE. Qed.
Lemma e_xs : xs <> []. Proof. apply HE. Qed.
Lemma e_data : is_table data d zs. Proof. apply HE. Qed.
Lemma e_zs : zs <> []. Proof. apply HE. Qed.
Lemma e_fX : decides_as proba d xs (used_classes boosted k) fX. Proof. apply HE. Qed.
Lemma e_ys : decides_as proba d zs (used_classes boosted k) ys. Proof. apply HE. Qed.
Lemma e_C : coal_ok C d. Proof. apply HE. Qed.
Lemma e_Cne : C <> []. Proof. apply HE. Qed.
Lemma e_pos : 0 < d.
Proof. destruct HE as (H1 & H2 & (d0 & z0 & H3 & H4) & _). exact (d_pos listed sig ts stacked boosted d d0 z0 h H3 H4). Qed.
Lemma e_con : construct sig ts stacked boosted d = Some a.
Proof. destruct HE as (H1 & H2 & (d0 & z0 & H3 & H4) & _). exact (a_made listed sig ts stacked boosted d d0 z0 h H3 H4). Qed.
Lemma e_cols : o_cols a = d.
Proof. now rewrite (a_form sig ts stacked boosted d w k _ e_ok e_con). Qed.
Lemma e_N : 0 < N.
Proof. pose proof e_xs. destruct xs; [congruence|cbn; lia]. Qed.
Lemma e_out : t_out T = used_classes boosted k.
Proof. exact (proj1 (proj2 (used_table sig ts stacked boosted d w k a e_ok e_con))). Qed.
Lemma e_tabs : tabs_ok T.
Proof. exact (proj1 (used_table sig ts stacked boosted d w k a e_ok e_con)). Qed.
Lemma e_trees : t_trees T = length ts /\ t_trees (o_tabs a) = length ts.
Proof. unfold table_of. rewrite (a_form sig ts stacked boosted d w k _ e_ok e_con). cbn. destruct (boosted && (k =? 1)); split; reflexivity. Qed.
Lemma e_nb b : b < length ts -> t_nb T b = leaf_count (nth b ts no_tree) /\ t_nb (o_tabs a) b = leaf_count (nth b ts no_tree).
Proof.
  intro Hb. assert (E : length (leaf_list (nth b ts no_tree)) = leaf_count (nth b ts no_tree)).
  { apply (leaf_list_count d w). apply (h_wf ts stacked d w k e_ok). now apply nth_In. }
  unfold table_of. rewrite (a_form sig ts stacked boosted d w k _ e_ok e_con). cbn. destruct (boosted && (k =? 1)); cbn; rewrite E; split; reflexivity.
Qed.
Lemma e_classes : length fX = N /\ length ys = length zs /\ forall f, In f fX -> f < t_out T.
Proof.
  destruct (classes_spec _ _ _ _ _ e_fX) as (_ & L1 & B1). destruct (classes_spec _ _ _ _ _ e_ys) as (_ & L2 & _).
  split; [exact L1|]. split; [exact L2|]. rewrite e_out. exact B1.
Qed.

(** ** The probability of the same object *)
Lemma class_at c : map (map (fun lf => mkLeaf (c_rect lf) (c_vars lf) (c_val lf c))) F = forest_at T (fun _ _ => []) c.
Proof. unfold leaf_table, forest_at. rewrite map_map. apply map_ext. intro b. rewrite map_map. reflexivity. Qed.
Section Told.
Variable order : nat -> list (nat * nat).
Hypothesis Horder : all_pairs ts N order.
Lemma order_any : any_order T (length (map point xs)) order.
Proof.
  intros b Hb. rewrite map_length. rewrite (proj1 e_trees) in Hb. rewrite (proj1 (e_nb b Hb)). apply Horder. now apply nth_error_nth'.
Qed.
Lemma told_returned S : (forall s, In s S -> s < d) -> exists l, acv_sdp a proba order X (S_array I64 S) data = Returned l /\ length l = N /\
  forall i, i < N -> (nth i l 0 == documented d F rws Xp fp i S)%Q.
Proof.
  intro HS. destruct e_classes as (L1 & L2 & B).
  destruct (sdp_clf_prog_ok T d (map point xs) (map point zs) S order (fun _ _ => []) fX ys e_tabs order_any HS) with (upto := fun _ : nat => t_max T) as [r [E H]];
    [rewrite map_length; lia|rewrite map_length; lia|exact B|intros b Hb; apply (e_tabs b Hb)|].
  exists (map r (seq 0 N)). split; [|split; [now rewrite map_length, seq_length|]].
  - unfold acv_sdp. rewrite (sdp_call_form a proba true _ _ X (S_array I64 S) data d xs d zs S (used_classes boosted k) fX ys).
    + rewrite E. reflexivity.
    + exact e_X.
    + exact e_pos.
    + exact e_xs.
    + right; now left.
    + split; [exact e_data|]. split; [exact e_pos|exact e_zs].
    + lia.
    + exact e_cols.
    + exact e_fX.
    + exact e_ys.
  - intros i Hi. rewrite nth_map_seq by exact Hi.
    assert (Hx : nth_error (map point xs) i = Some (Xp i)) by (apply nth_error_nth'; rewrite map_length; exact Hi).
    assert (Hf : nth_error fX i = Some (fp i)) by (apply nth_error_nth'; lia).
    rewrite (H i _ _ Hx Hf). unfold documented. rewrite class_at. reflexivity.
Qed.
Lemma told_is S i : (forall s, In s S -> s < d) -> i < N -> (told a proba order X data i S == documented d F rws Xp fp i S)%Q.
Proof. intros HS Hi. destruct (told_returned S HS) as (l & E & _ & H). unfold told. rewrite E. now apply H. Qed.
Lemma told_subs va i : groups_ok d va -> i < N -> forall Tm, In Tm (subs va) ->
  (documented d F rws Xp fp i (concat Tm) == told a proba order X data i (concat Tm))%Q.
Proof.
  intros (_ & G & _) Hi Tm HT. symmetry. apply told_is; [|exact Hi]. intros s Hs. apply G. eapply subs_concat_in; eassumption.
Qed.
End Told.

(** ** The calls *)
Notation search_fun := (nat -> list (list cleaf) -> list (pt * nat) -> (nat -> pt) -> (nat -> nat) -> nat -> list group -> option (sstate * cells)).
Lemma checked_form T' C' groups (search : search_fun) : checked_search h proba T' C' groups search X data
  = run_search h T' C' groups search (mkMat d xs) (mkMat d zs) fX ys.
Proof.
  unfold checked_search. rewrite (EntryProofs3.table_checked X d xs e_X e_pos e_xs). cbn [andthen].
  rewrite (EntryProofs3.table_checked data d zs e_data e_pos e_zs). cbn [andthen seen].
  rewrite (proj1 (classes_spec _ _ _ _ _ e_fX)). cbn [andthen]. rewrite (proj1 (classes_spec _ _ _ _ _ e_ys)). reflexivity.
Qed.
Lemma checked_again T' C' groups (search : search_fun) :
  checked_search h proba T' C' groups search (M_array F64 d xs) (M_array F64 d zs) = checked_search h proba T' C' groups search X data.
Proof.
  unfold checked_search. rewrite (EntryProofs3.table_checked X d xs e_X e_pos e_xs). cbn [andthen].
  rewrite (EntryProofs3.table_checked data d zs e_data e_pos e_zs).
  rewrite (EntryProofs3.table_checked (M_array F64 d xs) d xs (or_intror (or_intror (ex_intro _ F64 eq_refl))) e_pos e_xs).
  now rewrite (EntryProofs3.table_checked (M_array F64 d zs) d zs (or_intror (or_intror (ex_intro _ F64 eq_refl))) e_pos e_zs).
Qed.
Lemma groups_fit va : groups_ok d va -> length (concat va) <= d.
Proof.
  intros (G1 & G2 & _). rewrite <- (seq_length d 0). apply NoDup_incl_length; [exact G1|]. intros s Hs. apply in_seq. specialize (G2 s Hs). lia.
Qed.
Lemma run_form groups (search : search_fun) : groups_ok d (groups d) -> run_search h T C groups search (mkMat d xs) (mkMat d zs) fX ys
  = match search d F rws Xp fp N (groups d) with Some (st, _) => Returned (collect d N st) | None => Stray end.
Proof.
  intro G. unfold run_search. cbn [cols rows]. rewrite Nat.eqb_refl. rewrite (nonempty_match C) by exact e_Cne.
  assert (Ef : fits h T (mkMat d xs) (mkMat d zs) fX ys (groups d) = true).
  { unfold fits. cbn [cols rows]. destruct e_classes as (L1 & L2 & B). rewrite e_cols, L1, L2, !Nat.leb_refl.
    rewrite (proj2 (Nat.leb_le _ _) (groups_fit _ G)). cbn [andb]. rewrite andb_true_r. apply andb_true_iff. split.
    - apply forallb_forall. intros f Hf. apply Nat.ltb_lt. now apply B.
    - apply forallb_forall. intros s Hs. apply Nat.ltb_lt. now apply G. }
  rewrite Ef. reflexivity.
Qed.
Lemma sched_treats sched : all_leaves ts sched -> treats_all F sched.
Proof.
  intros H Sv. destruct (H Sv) as [H1 H2]. split; [exact H1|]. intros b l. rewrite H2. unfold leaf_table. split.
  - intros (m & Hm & Hl). pose proof (nth_error_lt _ _ _ Hm) as Hb.
    eexists. split; [rewrite nth_error_map, nth_error_seq, (proj1 e_trees); replace (b <? length ts) with true by (symmetry; now apply Nat.ltb_lt); reflexivity|].
    rewrite map_length, seq_length. cbn [Nat.add]. rewrite (proj1 (e_nb b Hb)), (nth_error_nth _ _ no_tree Hm). exact Hl.
  - intros (ls & Hls & Hl). rewrite nth_error_map, nth_error_seq, (proj1 e_trees) in Hls. destruct (b <? length ts) eqn:Eb; [|discriminate].
    apply Nat.ltb_lt in Eb. cbn in Hls. injection Hls as <-. rewrite map_length, seq_length, (proj1 (e_nb b Eb)) in Hl.
    exists (nth b ts no_tree). split; [now apply nth_error_nth'|exact Hl].
Qed.

(** ** [importance_sdp_clf] *)
Section Explain.
Variable by_count : list nat -> list nat.
Hypothesis Hcount : counted (flat_list h) (by_count (flat_list h)).
Variable sched : list nat -> list (nat * nat).
Hypothesis Hsched : all_leaves ts sched.
Notation va := (tree_space_groups d (by_count (flat_list h)) C).
Lemma va_searched : searched ts d C va.
Proof.
  destruct HE as (H1 & H2 & (d0 & z0 & H3 & H4) & _).
  exact (groups_searched listed sig ts stacked boosted d w k d0 z0 h H1 H2 H3 H4 _ C Hcount e_C).
Qed.
Lemma va_ok : groups_ok d va /\ length va <= 10.
Proof.
  destruct HE as (H1 & H2 & (d0 & z0 & H3 & H4) & _).
  apply (tree_space_groups_ok (flat_list h)); [exact Hcount| |exact e_C].
  exact (flat_lt listed sig ts stacked boosted d w k d0 z0 h H1 H2 H3 H4).
Qed.
Variables (pi : Q) (minimal : nat) (stop : bool).
Lemma explain_form : acv_explain h proba sched by_count X data C pi minimal stop
  = match clf_search v_tree true d pi F rws Xp fp sched cut15 stop N va minimal with Some (st, _) => Returned (collect d N st) | None => Stray end.
Proof.
  unfold acv_explain. rewrite (EntryProofs3.table_checked X d xs e_X e_pos e_xs). cbn [andthen].
  rewrite (EntryProofs3.table_checked data d zs e_data e_pos e_zs). cbn [andthen seen cols].
  destruct va_ok as [G _]. revert G. unfold tree_space_groups. destruct (10 <? d); intro G.
  - unfold acv_space. rewrite checked_again, checked_form, run_form by exact G. reflexivity.
  - unfold acv_greedy. rewrite checked_again, checked_form, run_form by exact G. reflexivity.
Qed.
Lemma explain_state : exists st ce, clf_search v_tree true d pi F rws Xp fp sched cut15 stop N va minimal = Some (st, ce) /\
  acv_explain h proba sched by_count X data C pi minimal stop = Returned (collect d N st).
Proof.
  pose proof explain_form as E. destruct (clf_search v_tree true d pi F rws Xp fp sched cut15 stop N va minimal) as [[st ce]|] eqn:Es.
  - exists st, ce. split; [reflexivity|exact E].
  - exfalso. eapply clf_defined; [| |exact Es]; [reflexivity|now apply sched_treats].
Qed.
End Explain.
End Object.

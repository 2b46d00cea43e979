(** Proofs about the stored counts of the normalized Shapley values, and about the array program that reads them. *)
From Verif Require Import Base TreeModel TreeSpec TreeProofs GameSpec GameProofs ShapModel ShapSpec ShapProofs NopaModel NopaProofs NormModel NormSpec NormProofs
  FlatModel SkModel ArrModel ArrSpec EntryModel SbufModel SbufProofs CbufModel CbufProofs NbufModel NbufProofs.
Local Open Scope nat_scope.

Section Store.
Variables (T : tabs) (nid : nat -> nat -> list nat) (D : nat) (data : list pt) (scaling : nat) (C : list group) (order : nat -> list nat).
Hypothesis HC : coalitions_ok C D.
Hypothesis Htabs : tabs_ok T.
Hypothesis Hforest : forall b k, b < t_trees T -> k < t_nb T b -> leaf_ok D (leaf_at T nid 0 b k).
Hypothesis Hord : every_leaf T order.
Notation lf b k := (leaf_at T nid 0 b k).
Notation gs0 b k := (leaf_groups C D (nid b k)).
Definition nokr (st : nstore) : Prop := forall v c k, length (ns_S st v c k) = D.
(** one of the three arrays *)
Inductive which := Wn | Ws | Wsi.
Definition nsel (w : which) (h : ncounts) : nat -> nat -> nat -> nat -> nat -> nat :=
  match w with Wn => nc_n h | Ws => nc_s h | Wsi => nc_si h end.
Definition ncnt (w : which) (b k : nat) (va : group) (F : list nat) : nat :=
  match w with Wn => count_leaf D data (t_part T b k) | Ws => count_s data (t_part T b k) F | Wsi => count_si data (t_part T b k) F va end.

(** one cell *)
Variables (w : which) (b0 v0 k0 k1 c0 : nat).
Notation cell st := (nsel w (ns_counts st) b0 v0 k0 k1 c0).
Lemma nstore_counter_spec b k v va gs st cc : t_nb T b <= t_max T -> k < t_max T -> t_leaf T b k < t_nodes T -> leaf_ok D (lf b k) ->
  others C D (lf b k) va = Some gs -> cc < 2 ^ scaling -> nokr st ->
  exists st', nstore_counter T D data scaling b k v va gs st cc = Some st' /\ nokr st' /\
    cell st' = cell st + (if (b0 =? b) && (v0 =? v) && (k0 =? k) && (k1 <? t_nb T b) && (c0 =? cc) then ncnt w b k1 va (concat (pick cc gs)) else 0).
Proof.
  intros Hnb Hk Hl Hok Ho Hcc Hst. unfold nstore_counter. rewrite (proj2 (Nat.ltb_lt _ _) Hcc), (proj2 (Nat.leb_le _ _) Hnb). cbn [andb].
  destruct (filled T nid D data D C HC (Nat.le_refl D) b k Hk Hl Hok va gs (ns_S st v cc k) cc Ho (Hst v cc k)) as [S' [E1 [E2 E3]]].
  rewrite E1, E3. destruct (others_in T nid D C b k va gs Ho) as [Hva Hgs].
  assert (HCD : forall i, In i (concat C) -> i < D) by apply HC.
  assert (G1 : cols_exist D D (concat (pick cc gs)) = true).
  { apply forallb_forall. intros s Hs. apply in_concat in Hs. destruct Hs as (g & Hg & Hs). apply pick_in in Hg.
    pose proof (inside_cols T nid D D C HC HCD (Nat.le_refl D) b k Hk Hl Hok g (Hgs g Hg)) as Hc. unfold cols_exist in Hc. rewrite forallb_forall in Hc. now apply Hc. }
  rewrite G1, (inside_cols T nid D D C HC HCD (Nat.le_refl D) b k Hk Hl Hok va Hva). cbn [andb]. eexists. split; [reflexivity|]. split.
  - intros v' c' k'. cbn [ns_S]. unfold set3. destruct ((v' =? v) && (c' =? cc) && (k' =? k)); [exact E2|apply Hst].
  - cbn [ns_counts]. unfold nsel, ncnt. destruct w; cbn [nc_n nc_s nc_si]; unfold bump5;
      destruct ((b0 =? b) && (v0 =? v) && (k0 =? k) && (k1 <? t_nb T b) && (c0 =? cc)) eqn:E; try lia;
      apply andb_true_iff in E; destruct E as [E _]; apply andb_true_iff in E; destruct E as [E _]; apply andb_true_iff in E; destruct E as [E _];
      apply andb_true_iff in E; destruct E as [E _]; apply Nat.eqb_eq in E; subst b; lia.
Qed.
Notation fits b k := (length (gs0 b k) <= S scaling).
Variables (va0 : group) (gsT : list group).
Hypothesis Hva0 : nth_error (va_ids C D) v0 = Some va0.
Hypothesis HoT : others C D (lf b0 k0) va0 = Some gsT.
Hypothesis Hc0 : c0 < 2 ^ length gsT.
Hypothesis Hk1 : k1 < t_nb T b0.
Notation n0 := (ncnt w b0 k1 va0 (concat (pick c0 gsT))).
Lemma nstore_player_spec b k v va st : t_nb T b <= t_max T -> k < t_max T -> t_leaf T b k < t_nodes T -> leaf_ok D (lf b k) -> fits b k -> In (v, va) (indexed (va_ids C D)) -> nokr st ->
  exists st', nstore_player T D data scaling b k (gs0 b k) st (v, va) = Some st' /\ nokr st' /\
    cell st' = cell st + (if (b0 =? b) && (k0 =? k) && (v0 =? v) then n0 else 0).
Proof.
  intros Hnb Hk Hl Hok Hf Hi Hst. unfold nstore_player. rewrite (proj2 (Nat.ltb_lt _ _) (player_index T D D C HC (Nat.le_refl D) b k Hk Hl v va Hi)).
  change (nid b k) with (l_vars (lf b k)). rewrite (others_at_eq D C HC (lf b k) va Hok).
  apply in_indexed in Hi.
  destruct (others C D (lf b k) va) as [gs|] eqn:Ho.
  - destruct (ofold_addn (fun st => cell st) nokr (nstore_counter T D data scaling b k v va gs)
      (fun cc => if (b0 =? b) && (v0 =? v) && (k0 =? k) && (k1 <? t_nb T b) && (c0 =? cc) then ncnt w b k1 va (concat (pick cc gs)) else 0) (seq 0 (2 ^ length gs)))
      with (st := st) as [s' [E1 [O1 P1]]]; trivial.
    + intros s cc Hcc Hs. apply nstore_counter_spec; trivial. exact (power_fits T nid D scaling C b k va gs cc Hf Ho Hcc).
    + exists s'. split; [exact E1|]. split; [exact O1|]. rewrite P1. f_equal.
      destruct ((b0 =? b) && (k0 =? k) && (v0 =? v)) eqn:E.
      * apply andb_true_iff in E. destruct E as [E E3]. apply andb_true_iff in E. destruct E as [E4 E2].
        rewrite E4, E3, E2. cbn [andb]. apply Nat.eqb_eq in E4, E2, E3. subst b k v.
        rewrite (proj2 (Nat.ltb_lt _ _) Hk1). cbn [andb].
        assert (va = va0) by congruence. subst va. assert (gs = gsT) by congruence. subst gs.
        rewrite <- (sum_one (fun cc => c0 =? cc) c0 n0 (seq 0 (2 ^ length gsT))).
        -- f_equal. apply map_ext. intro cc. destruct (Nat.eqb_spec c0 cc) as [->|]; reflexivity.
        -- apply seq_NoDup.
        -- apply in_seq. lia.
        -- intros a _. rewrite Nat.eqb_eq. split; congruence.
      * apply sum_none. intros cc _. destruct (b0 =? b), (v0 =? v), (k0 =? k); cbn [andb] in *; try reflexivity. discriminate.
  - exists st. split; [reflexivity|]. split; [exact Hst|]. destruct ((b0 =? b) && (k0 =? k) && (v0 =? v)) eqn:E; [|lia].
    apply andb_true_iff in E. destruct E as [E E3]. apply andb_true_iff in E. destruct E as [E4 E2]. apply Nat.eqb_eq in E4, E2, E3. subst b k v.
    congruence.
Qed.
Lemma nstore_leaf_spec b k st : t_nb T b <= t_max T -> k < t_max T -> t_leaf T b k < t_nodes T -> leaf_ok D (lf b k) -> fits b k -> nokr st ->
  exists st', nstore_leaf T nid D data scaling C b st k = Some st' /\ nokr st' /\
    cell st' = cell st + (if (b0 =? b) && (k0 =? k) then n0 else 0).
Proof.
  intros Hnb Hk Hl Hok Hf Hst. unfold nstore_leaf. rewrite (proj2 (Nat.ltb_lt _ _) Hk), (leaf_players_eq D C HC), (va_id_arr_eq C D HC).
  destruct (ofold_addn (fun st => cell st) nokr (nstore_player T D data scaling b k (gs0 b k))
    (fun p => if (b0 =? b) && (k0 =? k) && (v0 =? fst p) then n0 else 0) (indexed (va_ids C D)))
    with (st := st) as [s' [E1 [O1 P1]]].
  - intros s [v va] Hi Hs. now apply nstore_player_spec.
  - exact Hst.
  - exists s'. split; [exact E1|]. split; [exact O1|]. rewrite P1. f_equal.
    destruct ((b0 =? b) && (k0 =? k)); cbn [andb]; [|now apply sum_none].
    apply (sum_one (fun p : nat * group => v0 =? fst p) (v0, va0)).
    + apply indexed_nodup.
    + now apply in_indexed.
    + intros [v va] Hi. cbn [fst]. rewrite Nat.eqb_eq. apply in_indexed in Hi. split; [intros ->; f_equal; congruence|intro E; now injection E].
Qed.
Hypothesis Hfit : all_fit T nid scaling D C.
Hypothesis Hb0 : b0 < t_trees T.
Hypothesis Hk0 : k0 < t_nb T b0.
Lemma nstore_tree_spec b st : b < t_trees T -> nokr st ->
  exists st', ofold (nstore_leaf T nid D data scaling C b) (order b) st = Some st' /\ nokr st' /\ cell st' = cell st + (if b0 =? b then n0 else 0).
Proof.
  intros Hb Hst. destruct (Htabs b Hb) as [H1 H2].
  destruct (ofold_addn (fun st => cell st) nokr (nstore_leaf T nid D data scaling C b)
    (fun k => if (b0 =? b) && (k0 =? k) then n0 else 0) (order b)) with (st := st) as [s' [E1 [O1 P1]]]; trivial.
  - intros s k Hk Hs. apply (Permutation_in _ (Hord b Hb)), in_seq in Hk. apply nstore_leaf_spec; [exact H1|lia|apply H2; lia|apply Hforest; lia|apply Hfit; lia|exact Hs].
  - exists s'. split; [exact E1|]. split; [exact O1|]. rewrite P1. f_equal.
    destruct (Nat.eqb_spec b0 b) as [<-|]; cbn [andb]; [|now apply sum_none].
    apply (sum_one (fun k => k0 =? k) k0).
    + apply (Permutation_NoDup (Permutation_sym (Hord b0 Hb))), seq_NoDup.
    + apply (Permutation_in _ (Permutation_sym (Hord b0 Hb))), in_seq. lia.
    + intros k _. rewrite Nat.eqb_eq. split; congruence.
Qed.
Definition start_nstore : nstore := mkNStore (fun _ _ _ => repeat 0 D)
  (mkNCounts (length (va_id_arr C D)) (fun _ _ _ _ _ => 0) (fun _ _ _ _ _ => 0) (fun _ _ _ _ _ => 0)).
Lemma nstore_all_spec : exists st, ofold (fun st b => ofold (nstore_leaf T nid D data scaling C b) (order b) st) (seq 0 (t_trees T)) start_nstore = Some st /\ cell st = n0.
Proof.
  destruct (ofold_addn (fun st => cell st) nokr (fun st b => ofold (nstore_leaf T nid D data scaling C b) (order b) st)
    (fun b => if b0 =? b then n0 else 0) (seq 0 (t_trees T))) with (st := start_nstore) as [s' [E1 [O1 P1]]].
  - intros s b Hb Hs. apply in_seq in Hb. apply nstore_tree_spec; [lia|exact Hs].
  - intros v c k. apply repeat_length.
  - exists s'. split; [exact E1|]. rewrite P1. replace (cell start_nstore) with 0 by (unfold nsel; destruct w; reflexivity). cbn [Nat.add].
    apply (sum_one (fun b => b0 =? b) b0); [apply seq_NoDup|apply in_seq; lia|]. intros b _. rewrite Nat.eqb_eq. split; congruence.
Qed.
End Store.

(** what the arrays hold *)
Definition nholds (T : tabs) (nid : nat -> nat -> list nat) (D : nat) (data : list pt) (C : list group) (h : ncounts) : Prop :=
  nc_players h = length (va_ids C D) /\
  forall b k k' v va gs c, b < t_trees T -> k < t_nb T b -> k' < t_nb T b ->
    nth_error (va_ids C D) v = Some va -> others C D (leaf_at T nid 0 b k) va = Some gs -> c < 2 ^ length gs ->
    nc_n h b v k k' c = count_leaf D data (t_part T b k') /\
    nc_s h b v k k' c = count_s data (t_part T b k') (concat (pick c gs)) /\
    nc_si h b v k k' c = count_si data (t_part T b k') (concat (pick c gs)) va.

Section Stored.
Variables (T : tabs) (nid : nat -> nat -> list nat) (D : nat) (data : list pt) (scaling : nat) (C : list group) (order : nat -> list nat).
Hypothesis HC : coalitions_ok C D.
Hypothesis Htabs : tabs_ok T.
Hypothesis Hforest : forall b k, b < t_trees T -> k < t_nb T b -> leaf_ok D (leaf_at T nid 0 b k).
Hypothesis Hord : every_leaf T order.
Notation run := (ofold (fun st b => ofold (nstore_leaf T nid D data scaling C b) (order b) st) (seq 0 (t_trees T)) (start_nstore D C)).
Lemma ncounter_other b k v va gs st c st' : nstore_counter T D data scaling b k v va gs st c = Some st' -> nc_players (ns_counts st') = nc_players (ns_counts st).
Proof.
  unfold nstore_counter. destruct (_ && _); [|discriminate]. destruct (fill 0 c gs (ns_S st v c k) 0 0) as [[[S' n] m]|]; [|discriminate].
  destruct (_ && _); [|discriminate]. intro E. injection E as <-. reflexivity.
Qed.
Lemma nplayer_other b k gs0 st p st' : nstore_player T D data scaling b k gs0 st p = Some st' -> nc_players (ns_counts st') = nc_players (ns_counts st).
Proof.
  destruct p as [v va]. unfold nstore_player. destruct (v <? D); [|discriminate]. destruct (others_at va gs0) as [gs|]; [|intro E; injection E as <-; auto].
  intro E. apply (ofold_keep (fun s => nc_players (ns_counts s) = nc_players (ns_counts st)) _ _) with (st := st) in E; [exact E| |auto].
  intros s a s' Hs H1. rewrite (ncounter_other _ _ _ _ _ _ _ _ Hs). exact H1.
Qed.
Lemma nleaf_other b st k st' : nstore_leaf T nid D data scaling C b st k = Some st' -> nc_players (ns_counts st') = nc_players (ns_counts st).
Proof.
  unfold nstore_leaf. destruct (k <? t_max T); [|discriminate]. intro E.
  apply (ofold_keep (fun s => nc_players (ns_counts s) = nc_players (ns_counts st)) _ _) in E; [exact E| |reflexivity].
  intros s a s' Hs H1. rewrite (nplayer_other _ _ _ _ _ _ Hs). exact H1.
Qed.
Lemma nstored_players st : run = Some st -> nc_players (ns_counts st) = length (va_ids C D).
Proof.
  intro E. rewrite <- (va_id_arr_eq C D HC). apply (ofold_keep (fun s => nc_players (ns_counts s) = length (va_id_arr C D))) in E; [exact E| |reflexivity].
  intros s b s' Hs HQ. apply (ofold_keep (fun s => nc_players (ns_counts s) = length (va_id_arr C D))) in Hs; [exact Hs| |exact HQ].
  intros s1 k s2 E1 H1. rewrite (nleaf_other _ _ _ _ E1). exact H1.
Qed.
Lemma nrun_ok : all_fit T nid scaling D C -> exists st, run = Some st.
Proof.
  intro Hfit. destruct (ofold_addn (fun _ => 0) (nokr D) (fun st b => ofold (nstore_leaf T nid D data scaling C b) (order b) st)
    (fun b => 0) (seq 0 (t_trees T))) with (st := start_nstore D C) as [s' [E1 _]]; [|intros v c k; apply repeat_length|exists s'; exact E1].
  intros s b Hb Hs. apply in_seq in Hb. assert (Hb' : b < t_trees T) by lia. destruct (Htabs b Hb') as [H1 H2].
  destruct (ofold_addn (fun _ => 0) (nokr D) (nstore_leaf T nid D data scaling C b) (fun _ => 0) (order b)) with (st := s) as [s1 [E1 [O1 _]]]; trivial.
  - intros s1 k Hk Hs1. apply (Permutation_in _ (Hord b Hb')), in_seq in Hk. assert (Hk' : k < t_nb T b) by lia.
    pose proof (Hforest b k Hb' Hk') as Hok. pose proof (H2 k Hk') as Hl. assert (Hm : k < t_max T) by lia.
    unfold nstore_leaf. rewrite (proj2 (Nat.ltb_lt _ _) Hm), (leaf_players_eq D C HC), (va_id_arr_eq C D HC).
    destruct (ofold_addn (fun _ => 0) (nokr D) (nstore_player T D data scaling b k (leaf_groups C D (nid b k))) (fun _ => 0) (indexed (va_ids C D)))
      with (st := s1) as [s2 [E2 [O2 _]]].
    + intros s2 [v va] Hi Hs2. unfold nstore_player. rewrite (proj2 (Nat.ltb_lt _ _) (player_index T D D C HC (Nat.le_refl D) b k Hm Hl v va Hi)).
      change (nid b k) with (l_vars (leaf_at T nid 0 b k)). rewrite (others_at_eq D C HC _ va Hok).
      destruct (others C D (leaf_at T nid 0 b k) va) as [gs|] eqn:Ho; [|exists s2; auto].
      destruct (ofold_addn (fun _ => 0) (nokr D) (nstore_counter T D data scaling b k v va gs) (fun _ => 0) (seq 0 (2 ^ length gs))) with (st := s2) as [s3 [E3 [O3 _]]]; trivial.
      * intros s3 cc Hcc Hs3.
        destruct (nstore_counter_spec T nid D data scaling C HC Wn 0 0 0 0 0 b k v va gs s3 cc H1 Hm Hl Hok Ho) as (s4 & E4 & O4 & _); [|exact Hs3|exists s4; auto].
        exact (power_fits T nid D scaling C b k va gs cc (Hfit b k Hb' Hk') Ho Hcc).
      * exists s3. auto.
    + exact Hs1.
    + exists s2. auto.
  - exists s1. auto.
Qed.
Theorem norm_store_holds : C <> [] -> all_fit T nid scaling D C ->
  exists h, norm_store T nid D data scaling C order = Some h /\ nholds T nid D data C h.
Proof.
  intros Hne Hfit. destruct (nrun_ok Hfit) as [st E]. exists (ns_counts st). split.
  - unfold norm_store. unfold start_nstore in E. rewrite E. destruct C; [congruence|reflexivity].
  - split; [exact (nstored_players st E)|]. intros b k k' v va gs c Hb Hk Hk' Hv Ho Hc.
    assert (V : forall w, nsel w (ns_counts st) b v k k' c = ncnt T D data w b k' va (concat (pick c gs))).
    { intro w. destruct (nstore_all_spec T nid D data scaling C order HC Htabs Hforest Hord w b v k k' c va gs Hv Ho Hc Hk' Hfit Hb Hk) as (s1 & E1 & V1).
      rewrite E in E1. injection E1 as <-. exact V1. }
    split; [exact (V Wn)|]. split; [exact (V Ws)|exact (V Wsi)].
Qed.
(** too few slots *)
Theorem norm_store_stray b k : b < t_trees T -> k < t_nb T b -> S scaling < length (leaf_groups C D (nid b k)) ->
  norm_store T nid D data scaling C order = None.
Proof.
  intros Hb Hk Hlt. unfold norm_store. destruct C as [|g0 C0] eqn:EC; [reflexivity|]. rewrite <- EC in *.
  rewrite (ofold_stuck _ _ b); [reflexivity|apply in_seq; lia|]. intro s. destruct (Htabs b Hb) as [H1 H2].
  apply (ofold_stuck _ _ k). { apply (Permutation_in _ (Permutation_sym (Hord b Hb))), in_seq. lia. }
  intro s'. assert (Hm : k < t_max T) by lia. pose proof (H2 k Hk) as Hl. pose proof (Hforest b k Hb Hk) as Hok.
  unfold nstore_leaf. rewrite (proj2 (Nat.ltb_lt _ _) Hm), (leaf_players_eq D C HC), (va_id_arr_eq C D HC).
  set (gs0 := leaf_groups C D (nid b k)) in *.
  destruct gs0 as [|va r] eqn:Eg; [cbn in Hlt; lia|]. rewrite <- Eg in *.
  assert (Hva : In va gs0) by (rewrite Eg; now left).
  assert (Ho : exists gs, others C D (leaf_at T nid 0 b k) va = Some gs).
  { unfold others. cbn [l_vars leaf_at]. fold gs0. destruct (in_dec group_eq_dec va gs0); [eexists; reflexivity|contradiction]. }
  destruct Ho as [gs Ho]. pose proof (others_length T nid D C b k va gs Ho) as El. fold gs0 in El.
  assert (HP : In va (va_ids C D)).
  { destruct (leaf_groups_touch C D _ (leaf_at T nid 0 b k) HC (va_ids_players C D HC) Hok) as [_ Hp].
    apply (Permutation_in va Hp), filter_In in Hva. apply Hva. }
  destruct (In_nth_error _ _ HP) as [v Hv]. apply in_indexed in Hv.
  apply (ofold_stuck _ _ (v, va) Hv). intro s1. unfold nstore_player. rewrite (proj2 (Nat.ltb_lt _ _) (player_index T D D C HC (Nat.le_refl D) b k Hm Hl v va Hv)).
  unfold gs0. change (nid b k) with (l_vars (leaf_at T nid 0 b k)). rewrite (others_at_eq D C HC _ va Hok), Ho.
  apply (ofold_stuck _ _ (2 ^ scaling)).
  - apply in_seq. split; [lia|]. cbn [Nat.add]. apply Nat.pow_lt_mono_r; lia.
  - intro s2. unfold nstore_counter. now rewrite Nat.ltb_irrefl.
Qed.
End Stored.

(** ** Reading them *)
Section Read.
Variables (T : tabs) (nid : nat -> nat -> list nat) (D : nat) (data : list pt) (h : ncounts) (scaling m : nat) (X : list pt) (C : list group)
  (order : nat -> list nat).
Hypothesis HC : coalitions_ok C D.
Hypothesis HDm : D <= m.
Hypothesis Htabs : tabs_ok T.
Hypothesis Hforest : forall b k, b < t_trees T -> k < t_nb T b -> leaf_ok D (leaf_at T nid 0 b k).
Hypothesis Hord : every_leaf T order.
Hypothesis Hfit : all_fit T nid scaling m C.
Hypothesis Hh : nholds T nid D data C h.
(** no observation is on a bound of a leaf *)
Definition off_tables : Prop := forall x b k s q, In x X -> b < t_trees T -> k < t_nb T b ->
  (fst (t_part T b k s) = Fin q \/ snd (t_part T b k s) = Fin q) -> ~ (x s == q)%Q.
Hypothesis Hoff : off_tables.
Lemma rM : coalitions_ok C m.
Proof. destruct HC as (H1 & H2 & H3). split; [exact H1|]. split; [|exact H3]. intros i Hi. specialize (H2 i Hi). lia. Qed.
Lemma rCd i : In i (concat C) -> i < D.
Proof. apply HC. Qed.
Lemma place_stored b k v va gs : b < t_trees T -> k < t_nb T b -> nth_error (va_ids C m) v = Some va -> others C m (leaf_at T nid 0 b k) va = Some gs ->
  nth_error (va_ids C D) v = Some va /\ others C D (leaf_at T nid 0 b k) va = Some gs.
Proof.
  intros Hb Hk Hv Ho. split.
  - apply (player_more T nid D m C HC HDm Hforest b k Hb Hk v va gs); [now apply in_indexed|exact Ho].
  - rewrite <- (others_more T nid D m C HDm Hforest b k Hb Hk va). exact Ho.
Qed.
Theorem kept_same_prog : norm_kept_prog T nid D (length data) h scaling m X C order = norm_prog T nid D data scaling m X C order.
Proof.
  unfold norm_kept_prog, norm_prog. apply (routine_same T nid D scaling m X C order); trivial.
  - exact rM.
  - exact rCd.
  - intros b k v va gs Hb Hk Hv Ho. unfold kept_cells, direct_cells. destruct (place_stored b k v va gs Hb Hk Hv Ho) as [Hv' _].
    rewrite (proj1 Hh). rewrite (proj2 (Nat.ltb_lt v (length (va_ids C D)))) by (apply nth_error_Some; congruence). cbn [orb]. apply andb_true_r.
  - intros b k v va gs c x Hb Hk Hv Ho Hc Hx. destruct (place_stored b k v va gs Hb Hk Hv Ho) as [Hv' Ho']. unfold kept_weight, norm_weight.
    assert (Es : forall k', k' < t_nb T b -> kept_entry_s T h b k v c (concat (pick c gs)) x k' = tab_entry_s T D data b (concat (pick c gs)) x k').
    { intros k' Hk'. destruct (proj2 Hh b k k' v va gs c Hb Hk Hk' Hv' Ho' Hc) as (E1 & E2 & _). unfold kept_entry_s, tab_entry_s. rewrite E1, E2.
      rewrite sat_lo_off; [reflexivity|]. intros s q. now apply (Hoff x b k' s q). }
    assert (Esi : forall k', k' < t_nb T b -> kept_entry_si T h b k v c (concat (pick c gs)) va x k' = tab_entry_si T D data b (concat (pick c gs)) va x k').
    { intros k' Hk'. destruct (proj2 Hh b k k' v va gs c Hb Hk Hk' Hv' Ho' Hc) as (E1 & _ & E3). unfold kept_entry_si, tab_entry_si. rewrite E1, E3.
      rewrite sat_lo_off, not_out_lo_off; [reflexivity| |]; intros s q; now apply (Hoff x b k' s q). }
    rewrite (Es k Hk), (Esi k Hk).
    rewrite (map_ext_in (kept_entry_s T h b k v c (concat (pick c gs)) x) (tab_entry_s T D data b (concat (pick c gs)) x)) by (intros k' Hk'; apply in_seq in Hk'; apply Es; lia).
    rewrite (map_ext_in (kept_entry_si T h b k v c (concat (pick c gs)) va x) (tab_entry_si T D data b (concat (pick c gs)) va x)) by (intros k' Hk'; apply in_seq in Hk'; apply Esi; lia).
    reflexivity.
Qed.
End Read.

(** a player at a leaf whose place lies outside the stored arrays *)
Section Beyond.
Variables (T : tabs) (nid : nat -> nat -> list nat) (D n : nat) (h : ncounts) (scaling m : nat) (X : list pt) (C : list group) (order : nat -> list nat).
Hypothesis HC : coalitions_ok C D.
Hypothesis HDm : D <= m.
Hypothesis Htabs : tabs_ok T.
Hypothesis Hord : every_leaf T order.
Theorem kept_prog_stray b k v va : b < t_trees T -> k < t_nb T b -> leaf_ok D (leaf_at T nid 0 b k) ->
  nth_error (va_ids C m) v = Some va -> In va (leaf_groups C m (nid b k)) -> nc_players h <= v -> X <> [] ->
  norm_kept_prog T nid D n h scaling m X C order = None.
Proof.
  intros Hb Hk Hok Hv Hva Hle Hx. pose proof (HCm D m C HC HDm) as HM. unfold norm_kept_prog, norm_routine. destruct C as [|g0 C0] eqn:EC; [reflexivity|]. rewrite <- EC in *.
  rewrite (ofold_stuck _ _ b); [reflexivity|apply in_seq; lia|]. intro s. unfold norm_tree. destruct (Htabs b Hb) as [H1 H2].
  rewrite (ofold_stuck _ _ k); [reflexivity| |].
  { apply (Permutation_in _ (Permutation_sym (Hord b Hb))), in_seq. lia. }
  intro s'. unfold norm_leaf. destruct (k <? t_max T); [|reflexivity]. rewrite (leaf_players_eq m C HM), (va_id_arr_eq C m HM).
  apply (ofold_stuck _ _ (v, va)); [now apply in_indexed|]. intro s1. unfold norm_player. destruct (v <? m); [|reflexivity].
  assert (Hw : leaf_ok m (leaf_at T nid 0 b k)).
  { destruct Hok as (K1 & K2 & K3). split; [exact K1|]. split; [|exact K3]. intros x Hx'. specialize (K2 x Hx'). lia. }
  change (nid b k) with (l_vars (leaf_at T nid 0 b k)) at 1. rewrite (others_at_eq m C HM _ va Hw). unfold others. cbn [l_vars leaf_at].
  destruct (in_dec group_eq_dec va (leaf_groups C m (nid b k))) as [_|Hn]; [|contradiction].
  apply (ofold_stuck _ _ 0).
  - apply in_seq. split; [lia|]. cbn [Nat.add]. pose proof (Nat.pow_nonzero 2 (length (remove1 va (leaf_groups C m (nid b k)))) ltac:(lia)). lia.
  - intro s2. unfold norm_counter, kept_cells. rewrite (proj2 (Nat.ltb_ge _ _) Hle).
    assert (El : (length X =? 0) = false) by (apply Nat.eqb_neq; destruct X; [congruence|discriminate]). rewrite El. cbn [orb]. rewrite !andb_false_r. reflexivity.
Qed.
End Beyond.

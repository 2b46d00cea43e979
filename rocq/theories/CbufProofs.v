(** Proofs about the cached Shapley array programs. *)
From Verif Require Import Base TreeModel TreeSpec TreeProofs GameSpec GameProofs ShapModel ShapSpec ShapProofs NopaModel NopaProofs
  FlatModel SkModel ArrModel ArrSpec EntryModel SbufModel SbufProofs CbufModel.
Local Open Scope nat_scope.

(** ** Loops *)
Lemma sum_cons a l : list_sum (a :: l) = a + list_sum l.
Proof. reflexivity. Qed.
Lemma ofold_addn {St A} (M : St -> nat) (ok : St -> Prop) (f : St -> A -> option St) (Dl : A -> nat) l :
  (forall st a, In a l -> ok st -> exists st', f st a = Some st' /\ ok st' /\ M st' = M st + Dl a) ->
  forall st, ok st -> exists st', ofold f l st = Some st' /\ ok st' /\ M st' = M st + list_sum (map Dl l).
Proof.
  induction l as [|a l IH]; intros H st Hok; cbn [ofold].
  - exists st. split; [trivial|]. split; [trivial|]. cbn. lia.
  - destruct (H st a (or_introl eq_refl) Hok) as [s1 [E1 [O1 P1]]]. rewrite E1.
    destruct (IH (fun st b Hb => H st b (or_intror Hb)) s1 O1) as [s2 [E2 [O2 P2]]].
    exists s2. split; [trivial|]. split; [trivial|]. rewrite P2, P1. cbn [map]. rewrite sum_cons. lia.
Qed.
Lemma ofold_est {St A} (Q : St -> Prop) (f : St -> A -> option St) a0 l :
  (forall st a st', f st a = Some st' -> Q st -> Q st') -> (forall st st', f st a0 = Some st' -> Q st') ->
  In a0 l -> forall st st', ofold f l st = Some st' -> Q st'.
Proof.
  intros Hk He. assert (K : forall l st st', ofold f l st = Some st' -> Q st -> Q st').
  { induction l0 as [|a r IH]; cbn; intros st st'; [intro E; now injection E as <-|]. destruct (f st a) as [s1|] eqn:E1; [|discriminate].
    intros E HQ. apply (IH s1 st' E). exact (Hk _ _ _ E1 HQ). }
  induction l as [|a r IH]; cbn; intros Hin st st'; [contradiction|]. destruct (f st a) as [s1|] eqn:E1; [|discriminate]. intro E.
  destruct Hin as [->|Hin]; [|exact (IH Hin s1 st' E)]. apply (K r s1 st' E). exact (He _ _ E1).
Qed.
Lemma ofold_keep {St A} (Q : St -> Prop) (f : St -> A -> option St) l :
  (forall st a st', f st a = Some st' -> Q st -> Q st') -> forall st st', ofold f l st = Some st' -> Q st -> Q st'.
Proof.
  intro Hk. induction l as [|a r IH]; cbn; intros st st'; [intro E; now injection E as <-|]. destruct (f st a) as [s1|] eqn:E1; [|discriminate].
  intros E HQ. apply (IH s1 st' E). exact (Hk _ _ _ E1 HQ).
Qed.
Lemma ofold_cong {St A} (ok : St -> Prop) (f g : St -> A -> option St) l :
  (forall st a, In a l -> ok st -> f st a = g st a /\ forall st', g st a = Some st' -> ok st') ->
  forall st, ok st -> ofold f l st = ofold g l st /\ forall st', ofold g l st = Some st' -> ok st'.
Proof.
  induction l as [|a l IH]; intros H st Hok; cbn [ofold].
  - split; [reflexivity|]. intros st' E. now injection E as <-.
  - destruct (H st a (or_introl eq_refl) Hok) as [E1 O1]. rewrite E1. destruct (g st a) as [s1|]; [|split; [reflexivity|discriminate]].
    apply IH; [intros s b Hb; apply H; now right|now apply O1].
Qed.
Lemma sum_one {A} (t : A -> bool) (a0 : A) n l : NoDup l -> In a0 l -> (forall a, In a l -> t a = true <-> a = a0) ->
  list_sum (map (fun a => if t a then n else 0) l) = n.
Proof.
  intros Hd. revert a0. induction l as [|a l IH]; intros a0 Hin Ht; [contradiction|]. inversion Hd as [|? ? Hn Hd']; subst. cbn [map]. rewrite sum_cons.
  assert (Z : forall r, (forall b, In b r -> t b = false) -> list_sum (map (fun a => if t a then n else 0) r) = 0).
  { clear. induction r as [|b r IH]; intro H; [reflexivity|]. cbn [map]. rewrite sum_cons, (H b (or_introl eq_refl)). rewrite IH; [reflexivity|]. intros; apply H; now right. }
  destruct Hin as [->|Hin].
  - rewrite (proj2 (Ht a0 (or_introl eq_refl)) eq_refl), Z; [lia|]. intros b Hb. destruct (t b) eqn:E; [|reflexivity].
    apply (Ht b (or_intror Hb)) in E. subst b. contradiction.
  - destruct (t a) eqn:E; [apply (Ht a (or_introl eq_refl)) in E; subst a0; contradiction|]. cbn [Nat.add]. apply (IH Hd' a0 Hin). intros b Hb. apply Ht. now right.
Qed.
Lemma sum_none {A} (f : A -> nat) l : (forall a, In a l -> f a = 0) -> list_sum (map f l) = 0.
Proof. induction l as [|b r IH]; intro H; [reflexivity|]. cbn [map]. rewrite sum_cons, (H b (or_introl eq_refl)). rewrite IH; [reflexivity|]. intros; apply H; now right. Qed.
Lemma in_indexed {A} (l : list A) v a : In (v, a) (indexed l) <-> nth_error l v = Some a.
Proof.
  unfold indexed. assert (G : forall (l : list A) s v a, In (v, a) (combine (seq s (length l)) l) <-> s <= v /\ nth_error l (v - s) = Some a).
  { induction l0 as [|b l0 IH]; intros s v0 a0; cbn [length seq combine In].
    - split; [contradiction|]. intros [_ H]. destruct (v0 - s); discriminate.
    - rewrite IH. split.
      + intros [E|[H1 H2]]; [injection E as <- <-; split; [lia|]; now rewrite Nat.sub_diag|]. split; [lia|].
        replace (v0 - s) with (S (v0 - S s)) by lia. exact H2.
      + intros [H1 H2]. destruct (Nat.eq_dec s v0) as [->|Hne]; [left; rewrite Nat.sub_diag in H2; cbn in H2; congruence|]. right. split; [lia|].
        replace (v0 - s) with (S (v0 - S s)) in H2 by lia. exact H2. }
  rewrite G, Nat.sub_0_r. split; [tauto|]. intro H. split; [lia|exact H].
Qed.
Lemma indexed_nodup {A} (l : list A) : NoDup (indexed l).
Proof.
  unfold indexed. assert (G : forall (l : list A) s, NoDup (combine (seq s (length l)) l)).
  { induction l0 as [|b l0 IH]; intro s; cbn [length seq combine]; [constructor|]. constructor; [|apply IH].
    intro H. apply in_combine_l, in_seq in H. lia. }
  apply G.
Qed.

(** ** Storing the counts *)
Section Store.
Variables (T : tabs) (nid : nat -> nat -> list nat) (D : nat) (data : list pt) (scaling : nat) (C : list group) (order : nat -> list nat).
Hypothesis HC : coalitions_ok C D.
Hypothesis Htabs : tabs_ok T.
Hypothesis Hforest : forall b k, b < t_trees T -> k < t_nb T b -> leaf_ok D (leaf_at T nid 0 b k).
Hypothesis Hord : every_leaf T order.
Notation lf b k := (leaf_at T nid 0 b k).
Notation gs0 b k := (leaf_groups C D (nid b k)).
Lemma HCD i : In i (concat C) -> i < D.
Proof. apply HC. Qed.
Definition okr (st : store) : Prop := forall v c k, length (r_S st v c k) = D.
Definition sel (w : bool) (h : counts) : nat -> nat -> nat -> nat -> nat := if w then c_s h else c_si h.
Definition cnt (w : bool) (b k : nat) (va : group) (F : list nat) : nat :=
  if w then count_s data (t_part T b k) F else count_si data (t_part T b k) F va.

(** one cell *)
Variables (w : bool) (b0 v0 k0 c0 : nat).
Notation cell st := (sel w (r_counts st) b0 v0 k0 c0).
Lemma store_counter_spec b k v va gs st cc : k < t_max T -> t_leaf T b k < t_nodes T -> leaf_ok D (lf b k) -> others C D (lf b k) va = Some gs -> cc < 2 ^ scaling -> okr st ->
  exists st', store_counter T D data scaling b k v va gs st cc = Some st' /\ okr st' /\
    cell st' = cell st + (if (b0 =? b) && (v0 =? v) && (k0 =? k) && (c0 =? cc) then cnt w b k va (concat (pick cc gs)) else 0).
Proof.
  intros Hk Hl Hok Ho Hcc Hst. unfold store_counter. rewrite (proj2 (Nat.ltb_lt _ _) Hcc).
  destruct (filled T nid D data D C HC (Nat.le_refl D) b k Hk Hl Hok va gs (r_S st v cc k) cc Ho (Hst v cc k)) as [S' [E1 [E2 E3]]].
  rewrite E1, E3. destruct (others_in T nid D C b k va gs Ho) as [Hva Hgs].
  assert (G1 : cols_exist D D (concat (pick cc gs)) = true).
  { apply forallb_forall. intros s Hs. apply in_concat in Hs. destruct Hs as (g & Hg & Hs). apply pick_in in Hg.
    pose proof (inside_cols T nid D D C HC HCD (Nat.le_refl D) b k Hk Hl Hok g (Hgs g Hg)) as Hc. unfold cols_exist in Hc. rewrite forallb_forall in Hc. now apply Hc. }
  rewrite G1, (inside_cols T nid D D C HC HCD (Nat.le_refl D) b k Hk Hl Hok va Hva). cbn [andb]. eexists. split; [reflexivity|]. split.
  - intros v' c' k'. cbn [r_S]. unfold set3. destruct ((v' =? v) && (c' =? cc) && (k' =? k)); [exact E2|apply Hst].
  - cbn [r_counts]. unfold sel, cnt. destruct w; cbn [c_s c_si]; unfold bump4; destruct ((b0 =? b) && (v0 =? v) && (k0 =? k) && (c0 =? cc)); lia.
Qed.
Notation fits b k := (length (gs0 b k) <= S scaling).
Lemma power_fits b k va gs cc : fits b k -> others C D (lf b k) va = Some gs -> In cc (seq 0 (2 ^ length gs)) -> cc < 2 ^ scaling.
Proof.
  intros Hf Ho Hcc. apply in_seq in Hcc. pose proof (others_length T nid D C b k va gs Ho) as El.
  assert (2 ^ length gs <= 2 ^ scaling) by (apply Nat.pow_le_mono_r; lia). lia.
Qed.
Variables (va0 : group) (gsT : list group).
Hypothesis Hva0 : nth_error (va_ids C D) v0 = Some va0.
Hypothesis HoT : others C D (lf b0 k0) va0 = Some gsT.
Hypothesis Hc0 : c0 < 2 ^ length gsT.
Notation n0 := (cnt w b0 k0 va0 (concat (pick c0 gsT))).
Lemma store_player_spec b k v va st : k < t_max T -> t_leaf T b k < t_nodes T -> leaf_ok D (lf b k) -> fits b k -> In (v, va) (indexed (va_ids C D)) -> okr st ->
  exists st', store_player T D data scaling b k (gs0 b k) st (v, va) = Some st' /\ okr st' /\
    cell st' = cell st + (if (b0 =? b) && (k0 =? k) && (v0 =? v) then n0 else 0).
Proof.
  intros Hk Hl Hok Hf Hi Hst. unfold store_player. rewrite (proj2 (Nat.ltb_lt _ _) (player_index T D D C HC (Nat.le_refl D) b k Hk Hl v va Hi)).
  change (nid b k) with (l_vars (lf b k)). rewrite (others_at_eq D C HC (lf b k) va Hok).
  apply in_indexed in Hi.
  destruct (others C D (lf b k) va) as [gs|] eqn:Ho.
  - destruct (ofold_addn (fun st => cell st) okr (store_counter T D data scaling b k v va gs)
      (fun cc => if (b0 =? b) && (v0 =? v) && (k0 =? k) && (c0 =? cc) then cnt w b k va (concat (pick cc gs)) else 0) (seq 0 (2 ^ length gs)))
      with (st := st) as [s' [E1 [O1 P1]]]; trivial.
    + intros s cc Hcc Hs. apply store_counter_spec; trivial. exact (power_fits b k va gs cc Hf Ho Hcc).
    + exists s'. split; [exact E1|]. split; [exact O1|]. rewrite P1. f_equal.
      destruct ((b0 =? b) && (k0 =? k) && (v0 =? v)) eqn:E.
      * apply andb_true_iff in E. destruct E as [E E3]. apply andb_true_iff in E. destruct E as [E4 E2].
        rewrite E4, E3, E2. cbn [andb]. apply Nat.eqb_eq in E4, E2, E3. subst b k v.
        assert (va = va0) by congruence. subst va. assert (gs = gsT) by congruence. subst gs.
        rewrite <- (sum_one (fun cc => c0 =? cc) c0 n0 (seq 0 (2 ^ length gsT))).
        -- f_equal. apply map_ext. intro cc. destruct (Nat.eqb_spec c0 cc) as [->|]; reflexivity.
        -- apply seq_NoDup.
        -- apply in_seq. lia.
        -- intros a _. rewrite Nat.eqb_eq. split; congruence.
      * apply sum_none. intros cc _. destruct (b0 =? b), (v0 =? v), (k0 =? k); cbn [andb] in *; try reflexivity. discriminate.
  - exists st. split; [reflexivity|]. split; [exact Hst|]. destruct ((b0 =? b) && (k0 =? k) && (v0 =? v)) eqn:E; [|lia].
    apply andb_true_iff in E. destruct E as [E E3]. apply andb_true_iff in E. destruct E as [E4 E2]. apply Nat.eqb_eq in E4, E2, E3. subst b k v.
    congruence.
Qed.
Lemma store_leaf_spec b k st : k < t_max T -> t_leaf T b k < t_nodes T -> leaf_ok D (lf b k) -> fits b k -> okr st ->
  exists st', store_leaf T nid D data scaling C b st k = Some st' /\ okr st' /\
    cell st' = cell st + (if (b0 =? b) && (k0 =? k) then n0 else 0).
Proof.
  intros Hk Hl Hok Hf Hst. unfold store_leaf. rewrite (proj2 (Nat.ltb_lt _ _) Hk), (leaf_players_eq D C HC), (va_id_arr_eq C D HC).
  destruct (ofold_addn (fun st => cell st) okr (store_player T D data scaling b k (gs0 b k))
    (fun p => if (b0 =? b) && (k0 =? k) && (v0 =? fst p) then n0 else 0) (indexed (va_ids C D)))
    with (st := mkStore (r_S st) (mkCounts (c_players (r_counts st)) (set2 (c_lm (r_counts st)) b k (count_leaf D data (t_part T b k))) (c_s (r_counts st)) (c_si (r_counts st))))
    as [s' [E1 [O1 P1]]].
  - intros s [v va] Hi Hs. now apply store_player_spec.
  - exact Hst.
  - exists s'. split; [exact E1|]. split; [exact O1|]. rewrite P1. f_equal.
    destruct ((b0 =? b) && (k0 =? k)); cbn [andb]; [|now apply sum_none].
    apply (sum_one (fun p : nat * group => v0 =? fst p) (v0, va0)).
    + apply indexed_nodup.
    + now apply in_indexed.
    + intros [v va] Hi. cbn [fst]. rewrite Nat.eqb_eq. apply in_indexed in Hi. split; [intros ->; f_equal; congruence|intro E; now injection E].
Qed.
Hypothesis Hfit : all_fit T nid scaling D C.
Hypothesis Hb0 : b0 < t_trees T.
Hypothesis Hk0 : k0 < t_nb T b0.
Lemma store_tree_spec b st : b < t_trees T -> okr st ->
  exists st', ofold (store_leaf T nid D data scaling C b) (order b) st = Some st' /\ okr st' /\ cell st' = cell st + (if b0 =? b then n0 else 0).
Proof.
  intros Hb Hst. destruct (Htabs b Hb) as [H1 H2].
  destruct (ofold_addn (fun st => cell st) okr (store_leaf T nid D data scaling C b)
    (fun k => if (b0 =? b) && (k0 =? k) then n0 else 0) (order b)) with (st := st) as [s' [E1 [O1 P1]]]; trivial.
  - intros s k Hk Hs. apply (Permutation_in _ (Hord b Hb)), in_seq in Hk. apply store_leaf_spec; [lia|apply H2; lia|apply Hforest; lia|apply Hfit; lia|exact Hs].
  - exists s'. split; [exact E1|]. split; [exact O1|]. rewrite P1. f_equal.
    destruct (Nat.eqb_spec b0 b) as [<-|]; cbn [andb]; [|now apply sum_none].
    apply (sum_one (fun k => k0 =? k) k0).
    + apply (Permutation_NoDup (Permutation_sym (Hord b0 Hb))), seq_NoDup.
    + apply (Permutation_in _ (Permutation_sym (Hord b0 Hb))), in_seq. lia.
    + intros k _. rewrite Nat.eqb_eq. split; congruence.
Qed.
Definition start_store : store := mkStore (fun _ _ _ => repeat 0 D)
  (mkCounts (length (va_id_arr C D)) (fun _ _ => 0) (fun _ _ _ _ => 0) (fun _ _ _ _ => 0)).
Lemma store_all_spec : exists st, ofold (fun st b => ofold (store_leaf T nid D data scaling C b) (order b) st) (seq 0 (t_trees T)) start_store = Some st /\ cell st = n0.
Proof.
  destruct (ofold_addn (fun st => cell st) okr (fun st b => ofold (store_leaf T nid D data scaling C b) (order b) st)
    (fun b => if b0 =? b then n0 else 0) (seq 0 (t_trees T))) with (st := start_store) as [s' [E1 [O1 P1]]].
  - intros s b Hb Hs. apply in_seq in Hb. apply store_tree_spec; [lia|exact Hs].
  - intros v c k. apply repeat_length.
  - exists s'. split; [exact E1|]. rewrite P1. replace (cell start_store) with 0 by (unfold sel; destruct w; reflexivity). cbn [Nat.add].
    apply (sum_one (fun b => b0 =? b) b0); [apply seq_NoDup|apply in_seq; lia|]. intros b _. rewrite Nat.eqb_eq. split; congruence.
Qed.
End Store.

(** what the arrays hold *)
Definition holds (T : tabs) (nid : nat -> nat -> list nat) (D : nat) (data : list pt) (C : list group) (h : counts) : Prop :=
  c_players h = length (va_ids C D) /\
  forall b k, b < t_trees T -> k < t_nb T b -> c_lm h b k = count_leaf D data (t_part T b k) /\
    forall v va gs c, nth_error (va_ids C D) v = Some va -> others C D (leaf_at T nid 0 b k) va = Some gs -> c < 2 ^ length gs ->
      c_s h b v k c = count_s data (t_part T b k) (concat (pick c gs)) /\
      c_si h b v k c = count_si data (t_part T b k) (concat (pick c gs)) va.

Section Stored.
Variables (T : tabs) (nid : nat -> nat -> list nat) (D : nat) (data : list pt) (scaling : nat) (C : list group) (order : nat -> list nat).
Hypothesis HC : coalitions_ok C D.
Hypothesis Htabs : tabs_ok T.
Hypothesis Hforest : forall b k, b < t_trees T -> k < t_nb T b -> leaf_ok D (leaf_at T nid 0 b k).
Hypothesis Hord : every_leaf T order.
Notation run := (ofold (fun st b => ofold (store_leaf T nid D data scaling C b) (order b) st) (seq 0 (t_trees T)) (start_store D C)).

Lemma counter_other b k v va gs st c st' : store_counter T D data scaling b k v va gs st c = Some st' ->
  c_players (r_counts st') = c_players (r_counts st) /\ c_lm (r_counts st') = c_lm (r_counts st).
Proof.
  unfold store_counter. destruct (c <? 2 ^ scaling); [|discriminate]. destruct (fill 0 c gs (r_S st v c k) 0 0) as [[[S' n] m]|]; [|discriminate].
  destruct (_ && _); [|discriminate]. intro E. injection E as <-. auto.
Qed.
Lemma player_other b k gs0 st p st' : store_player T D data scaling b k gs0 st p = Some st' ->
  c_players (r_counts st') = c_players (r_counts st) /\ c_lm (r_counts st') = c_lm (r_counts st).
Proof.
  destruct p as [v va]. unfold store_player. destruct (v <? D); [|discriminate]. destruct (others_at va gs0) as [gs|]; [|intro E; injection E as <-; auto].
  intro E. apply (ofold_keep (fun s => c_players (r_counts s) = c_players (r_counts st) /\ c_lm (r_counts s) = c_lm (r_counts st)) _ _) with (st := st) in E; [exact E| |auto].
  intros s a s' Hs [H1 H2]. destruct (counter_other _ _ _ _ _ _ _ _ Hs) as [K1 K2]. split; congruence.
Qed.
Lemma leaf_other b st k st' : store_leaf T nid D data scaling C b st k = Some st' ->
  c_players (r_counts st') = c_players (r_counts st) /\ c_lm (r_counts st') = set2 (c_lm (r_counts st)) b k (count_leaf D data (t_part T b k)).
Proof.
  unfold store_leaf. destruct (k <? t_max T); [|discriminate]. intro E.
  apply (ofold_keep (fun s => c_players (r_counts s) = c_players (r_counts st) /\ c_lm (r_counts s) = set2 (c_lm (r_counts st)) b k (count_leaf D data (t_part T b k))) _ _) in E;
    [exact E| |split; reflexivity].
  intros s a s' Hs [H1 H2]. destruct (player_other _ _ _ _ _ _ Hs) as [K1 K2]. split; congruence.
Qed.
Lemma stored_players st : run = Some st -> c_players (r_counts st) = length (va_ids C D).
Proof.
  intro E. rewrite <- (va_id_arr_eq C D HC). apply (ofold_keep (fun s => c_players (r_counts s) = length (va_id_arr C D))) in E; [exact E| |reflexivity].
  intros s b s' Hs HQ. apply (ofold_keep (fun s => c_players (r_counts s) = length (va_id_arr C D))) in Hs; [exact Hs| |exact HQ].
  intros s1 k s2 E1 H1. destruct (leaf_other _ _ _ _ E1) as [-> _]. exact H1.
Qed.
Lemma stored_lm st b k : run = Some st -> b < t_trees T -> k < t_nb T b -> c_lm (r_counts st) b k = count_leaf D data (t_part T b k).
Proof.
  intros E Hb Hk. set (Q := fun s => c_lm (r_counts s) b k = count_leaf D data (t_part T b k)).
  assert (K : forall b' s k' s', store_leaf T nid D data scaling C b' s k' = Some s' -> Q s -> Q s').
  { intros b' s k' s' Hs HQ. unfold Q in *. destruct (leaf_other _ _ _ _ Hs) as [_ ->]. unfold set2.
    destruct ((b =? b') && (k =? k')) eqn:E2; [|exact HQ]. apply andb_true_iff in E2. destruct E2 as [E3 E4]. apply Nat.eqb_eq in E3, E4. now subst. }
  apply (ofold_est Q _ b) in E; [exact E| | |apply in_seq; lia].
  - intros s b' s' Hs HQ. apply (ofold_keep Q) in Hs; [exact Hs| |exact HQ]. intros s1 k' s2. apply K.
  - intros s s' Hs. apply (ofold_est Q _ k) in Hs; [exact Hs| | |].
    + intros s1 k' s2. apply K.
    + intros s1 s2 E1. unfold Q. destruct (leaf_other _ _ _ _ E1) as [_ ->]. unfold set2. now rewrite !Nat.eqb_refl.
    + apply (Permutation_in _ (Permutation_sym (Hord b Hb))), in_seq. lia.
Qed.
Lemma run_ok : all_fit T nid scaling D C -> exists st, run = Some st.
Proof.
  intro Hfit. destruct (ofold_addn (fun _ => 0) (okr D) (fun st b => ofold (store_leaf T nid D data scaling C b) (order b) st)
    (fun b => 0) (seq 0 (t_trees T))) with (st := start_store D C) as [s' [E1 _]]; [|intros v c k; apply repeat_length|exists s'; exact E1].
  intros s b Hb Hs. apply in_seq in Hb. assert (Hb' : b < t_trees T) by lia. destruct (Htabs b Hb') as [H1 H2].
  destruct (ofold_addn (fun _ => 0) (okr D) (store_leaf T nid D data scaling C b) (fun _ => 0) (order b)) with (st := s) as [s1 [E1 [O1 _]]]; trivial.
  - intros s1 k Hk Hs1. apply (Permutation_in _ (Hord b Hb')), in_seq in Hk. assert (Hk' : k < t_nb T b) by lia.
    pose proof (Hforest b k Hb' Hk') as Hok. pose proof (H2 k Hk') as Hl. assert (Hm : k < t_max T) by lia.
    unfold store_leaf. rewrite (proj2 (Nat.ltb_lt _ _) Hm), (leaf_players_eq D C HC), (va_id_arr_eq C D HC).
    destruct (ofold_addn (fun _ => 0) (okr D) (store_player T D data scaling b k (leaf_groups C D (nid b k))) (fun _ => 0) (indexed (va_ids C D)))
      with (st := mkStore (r_S s1) (mkCounts (c_players (r_counts s1)) (set2 (c_lm (r_counts s1)) b k (count_leaf D data (t_part T b k))) (c_s (r_counts s1)) (c_si (r_counts s1)))) as [s2 [E2 [O2 _]]].
    + intros s2 [v va] Hi Hs2. unfold store_player. rewrite (proj2 (Nat.ltb_lt _ _) (player_index T D D C HC (Nat.le_refl D) b k Hm Hl v va Hi)).
      change (nid b k) with (l_vars (leaf_at T nid 0 b k)). rewrite (others_at_eq D C HC _ va Hok).
      destruct (others C D (leaf_at T nid 0 b k) va) as [gs|] eqn:Ho; [|exists s2; auto].
      destruct (ofold_addn (fun _ => 0) (okr D) (store_counter T D data scaling b k v va gs) (fun _ => 0) (seq 0 (2 ^ length gs))) with (st := s2) as [s3 [E3 [O3 _]]]; trivial.
      * intros s3 cc Hcc Hs3.
        destruct (store_counter_spec T nid D data scaling C HC true 0 0 0 0 b k v va gs s3 cc Hm Hl Hok Ho) as (s4 & E4 & O4 & _); [|exact Hs3|exists s4; auto].
        exact (power_fits T nid D scaling C b k va gs cc (Hfit b k Hb' Hk') Ho Hcc).
      * exists s3. auto.
    + exact Hs1.
    + exists s2. auto.
  - exists s1. auto.
Qed.
Theorem leaves_store_holds : C <> [] -> all_fit T nid scaling D C ->
  exists h, leaves_store T nid D data scaling C order = Some h /\ holds T nid D data C h.
Proof.
  intros Hne Hfit. destruct (run_ok Hfit) as [st E]. exists (r_counts st). split.
  - unfold leaves_store. unfold start_store in E. rewrite E. destruct C; [congruence|reflexivity].
  - split; [exact (stored_players st E)|]. intros b k Hb Hk. split; [exact (stored_lm st b k E Hb Hk)|]. intros v va gs c Hv Ho Hc.
    destruct (store_all_spec T nid D data scaling C order HC Htabs Hforest Hord true b v k c va gs Hv Ho Hc Hfit Hb Hk) as (s1 & E1 & V1).
    destruct (store_all_spec T nid D data scaling C order HC Htabs Hforest Hord false b v k c va gs Hv Ho Hc Hfit Hb Hk) as (s2 & E2 & V2).
    rewrite E in E1, E2. injection E1 as <-. injection E2 as <-. split; [exact V1|exact V2].
Qed.
(** too few slots *)
Theorem leaves_store_stray b k : b < t_trees T -> k < t_nb T b -> S scaling < length (leaf_groups C D (nid b k)) ->
  leaves_store T nid D data scaling C order = None.
Proof.
  intros Hb Hk Hlt. unfold leaves_store. destruct C as [|g0 C0] eqn:EC; [reflexivity|]. rewrite <- EC in *.
  rewrite (ofold_stuck _ _ b); [reflexivity|apply in_seq; lia|]. intro s. destruct (Htabs b Hb) as [H1 H2].
  apply (ofold_stuck _ _ k). { apply (Permutation_in _ (Permutation_sym (Hord b Hb))), in_seq. lia. }
  intro s'. assert (Hm : k < t_max T) by lia. pose proof (H2 k Hk) as Hl. pose proof (Hforest b k Hb Hk) as Hok.
  unfold store_leaf. rewrite (proj2 (Nat.ltb_lt _ _) Hm), (leaf_players_eq D C HC), (va_id_arr_eq C D HC).
  set (gs0 := leaf_groups C D (nid b k)) in *.
  destruct gs0 as [|va r] eqn:Eg; [cbn in Hlt; lia|]. rewrite <- Eg in *.
  assert (Hva : In va gs0) by (rewrite Eg; now left).
  assert (Ho : exists gs, others C D (leaf_at T nid 0 b k) va = Some gs).
  { unfold others. cbn [l_vars leaf_at]. fold gs0. destruct (in_dec group_eq_dec va gs0); [eexists; reflexivity|contradiction]. }
  destruct Ho as [gs Ho]. pose proof (others_length T nid D C b k va gs Ho) as El. fold gs0 in El.
  assert (HP : In va (va_ids C D)).
  { destruct (leaf_groups_touch C D _ (leaf_at T nid 0 b k) HC (va_ids_players C D HC) Hok) as [_ Hp].
    apply (Permutation_in va Hp), filter_In in Hva. apply Hva. }
  destruct (In_nth_error _ _ HP) as [v Hv]. apply in_indexed in Hv.
  apply (ofold_stuck _ _ (v, va) Hv). intro s1. unfold store_player. rewrite (proj2 (Nat.ltb_lt _ _) (player_index T D D C HC (Nat.le_refl D) b k Hm Hl v va Hv)).
  unfold gs0. change (nid b k) with (l_vars (leaf_at T nid 0 b k)). rewrite (others_at_eq D C HC _ va Hok), Ho.
  apply (ofold_stuck _ _ (2 ^ scaling)).
  - apply in_seq. split; [lia|]. cbn [Nat.add]. apply Nat.pow_lt_mono_r; lia.
  - intro s2. unfold store_counter. now rewrite Nat.ltb_irrefl.
Qed.
End Stored.

(** ** More columns than the background has *)
Lemma va_loop_more coal l2 : (forall i, In i l2 -> ~ In i coal) -> forall l1 Cb,
  va_loop coal Cb (l1 ++ l2) = va_loop coal Cb l1 ++ map (fun i => [i]) l2.
Proof.
  intros H2 l1. induction l1 as [|i l1 IH]; intro Cb; cbn [app va_loop].
  - revert Cb. induction l2 as [|i l2 IH]; intro Cb; [reflexivity|]. cbn [va_loop map].
    destruct (memb i coal) eqn:E; [apply memb_true in E; exfalso; exact (H2 i (or_introl eq_refl) E)|]. f_equal. apply IH. intros j Hj. apply H2. now right.
  - destruct (memb i coal); [|now rewrite IH]. destruct (find (memb i) Cb); now rewrite IH.
Qed.
Lemma va_ids_more C D m : (forall i, In i (concat C) -> i < D) -> D <= m -> va_ids C m = va_ids C D ++ map (fun i => [i]) (seq D (m - D)).
Proof.
  intros HC Hm. unfold va_ids. assert (E : seq 0 m = seq 0 D ++ seq D (m - D)) by (pose proof (seq_app D (m - D) 0) as E; replace (D + (m - D)) with m in E by lia; exact E).
  rewrite E. destruct (has_coal C).
  - apply va_loop_more. intros i Hi Hc. apply in_seq in Hi. specialize (HC i Hc). lia.
  - apply map_app.
Qed.
Lemma leaf_groups_more C D m vars : (forall s, In s vars -> s < D) -> D <= m -> leaf_groups C m vars = leaf_groups C D vars.
Proof.
  intros Hv Hm. unfold leaf_groups. destruct (has_coal C); [|reflexivity]. generalize C at 2 4. intro Cb. revert Cb Hv.
  induction vars as [|v vars IH]; intros Cb Hv; [reflexivity|]. cbn [leaf_groups_loop].
  assert (E : memb v (remove_va C m) = memb v (remove_va C D)).
  { unfold remove_va. specialize (Hv v (or_introl eq_refl)). apply eq_true_iff_eq. rewrite !memb_true, !filter_In, !in_seq. intuition lia. }
  rewrite E. assert (Hv' : forall s, In s vars -> s < D) by (intros s Hs; apply Hv; now right).
  destruct (memb v (remove_va C D)); [now rewrite IH|]. destruct (find (memb v) Cb); now rewrite IH.
Qed.

(** ** The values *)
Section Cached.
Variables (T : tabs) (nid : nat -> nat -> list nat) (D : nat) (data : list pt) (h : counts) (scaling m : nat) (X : list pt) (C : list group)
  (order : nat -> list nat).
Hypothesis HC : coalitions_ok C D.
Hypothesis HDm : D <= m.
Hypothesis Htabs : tabs_ok T.
Hypothesis Hforest : forall b k, b < t_trees T -> k < t_nb T b -> leaf_ok D (leaf_at T nid 0 b k).
Hypothesis Hord : every_leaf T order.
Hypothesis Hfit : all_fit T nid scaling m C.
Hypothesis Hh : holds T nid D data C h.
Lemma HCm : coalitions_ok C m.
Proof. destruct HC as (H1 & H2 & H3). split; [exact H1|]. split; [|exact H3]. intros i Hi. specialize (H2 i Hi). lia. Qed.
Lemma HCd i : In i (concat C) -> i < D.
Proof. apply HC. Qed.

Section Leaf.
Variables (b k : nat).
Hypothesis Hb : b < t_trees T.
Hypothesis Hk : k < t_nb T b.
Notation lf := (leaf_at T nid 0 b k).
Lemma l_max : k < t_max T.
Proof. destruct (Htabs b Hb) as [H1 _]. lia. Qed.
Lemma l_leaf : t_leaf T b k < t_nodes T.
Proof. destruct (Htabs b Hb) as [_ H2]. now apply H2. Qed.
Lemma l_ok : leaf_ok D lf.
Proof. now apply Hforest. Qed.
Lemma l_wide : leaf_ok m lf.
Proof. destruct l_ok as (H1 & H2 & H3). split; [exact H1|]. split; [|exact H3]. intros v Hv. specialize (H2 v Hv). lia. Qed.
Lemma others_more va : others C m lf va = others C D lf va.
Proof. unfold others. rewrite (leaf_groups_more C D m); [reflexivity| |exact HDm]. apply l_ok. Qed.
(** a player at the leaf has the same place in both lists *)
Lemma player_more v va gs : In (v, va) (indexed (va_ids C m)) -> others C m lf va = Some gs -> nth_error (va_ids C D) v = Some va.
Proof.
  intros Hi Ho. apply in_indexed in Hi. rewrite (va_ids_more C D m HCd HDm) in Hi.
  destruct (Nat.lt_ge_cases v (length (va_ids C D))) as [Hlt|Hge]; [now rewrite nth_error_app1 in Hi|]. exfalso.
  rewrite nth_error_app2 in Hi by exact Hge. apply nth_error_In, in_map_iff in Hi. destruct Hi as (i & <- & Hi). apply in_seq in Hi.
  destruct (others_in T nid m C b k [i] gs Ho) as [Hg _].
  pose proof (leaf_group_cols D m C HCm HCd HDm lf [i] i l_ok Hg (or_introl eq_refl)). lia.
Qed.
Lemma weight_same p va F ns vs lm x :
  cached_weight (length data) m p va F ns vs lm (count_s data p F) (count_si data p F va) x = row_weight data m p va F ns vs lm x.
Proof. reflexivity. Qed.
Lemma cached_counter_same v va gs st c : In (v, va) (indexed (va_ids C m)) -> others C m lf va = Some gs -> In c (seq 0 (2 ^ length gs)) -> okw m st ->
  cached_counter T D (length data) h scaling m X b k v va gs st c =
    counter_pass T D data scaling m X b k (count_leaf D data (t_part T b k)) v va gs st c /\
  forall st', counter_pass T D data scaling m X b k (count_leaf D data (t_part T b k)) v va gs st c = Some st' -> okw m st'.
Proof.
  intros Hi Ho Hc Hst. assert (Hcs : c < 2 ^ scaling) by exact (power_fits T nid m scaling C b k va gs c (Hfit b k Hb Hk) Ho Hc).
  split.
  - pose proof (player_more v va gs Hi Ho) as Hv. destruct Hh as [Hp Hcells]. destruct (Hcells b k Hb Hk) as [Hlm Hcell].
    apply in_seq in Hc. rewrite others_more in Ho. destruct (Hcell v va gs c Hv Ho ltac:(lia)) as [Hs Hsi]. rewrite <- others_more in Ho.
    unfold cached_counter, counter_pass. rewrite (proj2 (Nat.ltb_lt _ _) Hcs), Hp.
    assert (Hvl : v <? length (va_ids C D) = true) by (apply Nat.ltb_lt, nth_error_Some; congruence). rewrite Hvl. cbn [andb].
    destruct (filled T nid D data m C HCm HDm b k l_max l_leaf l_ok va gs (w_S st v c k) c Ho (Hst v c k)) as [S' [E1 [E2 E3]]].
    rewrite E1, E3, Hlm, Hs, Hsi. reflexivity.
  - intros st' E. destruct (counter_pass_spec T nid D data scaling m X C HCm HCd HDm b k l_max l_leaf l_ok v va gs st c Ho Hcs Hst) as (s & E1 & O & _).
    congruence.
Qed.
Lemma cached_leaf_same st : okw m st ->
  cached_leaf T nid D (length data) h scaling m X C b st k = leaf_pass T nid D data scaling m X C b st k /\
  forall st', leaf_pass T nid D data scaling m X C b st k = Some st' -> okw m st'.
Proof.
  intro Hst. unfold cached_leaf, leaf_pass. rewrite (proj2 (Nat.ltb_lt _ _) l_max).
  rewrite (leaf_players_eq m C HCm), (va_id_arr_eq C m HCm).
  apply (ofold_cong (okw m)); [|exact Hst]. intros s [v va] Hi Hs. unfold cached_player, player_pass.
  destruct (v <? m); [|split; [reflexivity|discriminate]].
  change (nid b k) with (l_vars lf). rewrite (others_at_eq m C HCm lf va l_wide).
  destruct (others C m lf va) as [gs|] eqn:Ho; [|split; [reflexivity|intros s' E; now injection E as <-]].
  apply (ofold_cong (okw m)); [|exact Hs]. intros s1 c Hc Hs1. now apply cached_counter_same.
Qed.
End Leaf.
Theorem cached_same : cached_prog T nid D (length data) h scaling m X C order = shap_prog T nid D data scaling m X C order.
Proof.
  unfold cached_prog, shap_prog. destruct C as [|g0 C0] eqn:EC; [reflexivity|]. rewrite <- EC in *.
  assert (G : ofold (cached_tree T nid D (length data) h scaling m X C order) (seq 0 (t_trees T)) (mkWork (fun _ _ _ => repeat 0 m) (fun _ _ _ _ _ => 0%Q), fun _ _ _ => 0%Q)
            = ofold (tree_pass T nid D data scaling m X C order) (seq 0 (t_trees T)) (mkWork (fun _ _ _ => repeat 0 m) (fun _ _ _ _ _ => 0%Q), fun _ _ _ => 0%Q)).
  { apply (ofold_cong (fun s : work * (nat -> nat -> nat -> Q) => okw m (fst s))); [|intros v c k; apply repeat_length].
    intros s b Hb Hs. apply in_seq in Hb. unfold cached_tree, tree_pass.
    destruct (ofold_cong (okw m) (cached_leaf T nid D (length data) h scaling m X C b) (leaf_pass T nid D data scaling m X C b) (order b))
      with (st := mkWork (w_S (fst s)) (fun _ _ _ _ _ => 0%Q)) as [E O].
    - intros s1 k Hk Hs1. apply (Permutation_in _ (Hord b ltac:(lia))), in_seq in Hk. apply cached_leaf_same; [lia|lia|exact Hs1].
    - exact Hs.
    - rewrite E. split; [reflexivity|]. destruct (ofold (leaf_pass T nid D data scaling m X C b) (order b) (mkWork (w_S (fst s)) (fun _ _ _ _ _ => 0%Q))) as [st|]; [|discriminate].
      intros s' E'. injection E' as <-. cbn [fst]. now apply O. }
  rewrite G. reflexivity.
Qed.
End Cached.

(** ** Coalitions other than those of the constructor *)
Section Beyond.
Variables (T : tabs) (nid : nat -> nat -> list nat) (D n : nat) (h : counts) (scaling m : nat) (X : list pt) (C : list group) (order : nat -> list nat).
Hypothesis HC : coalitions_ok C D.
Hypothesis HDm : D <= m.
Hypothesis Htabs : tabs_ok T.
Hypothesis Hord : every_leaf T order.
(** a player at a leaf whose place lies outside the stored arrays *)
Theorem cached_stray b k v va : b < t_trees T -> k < t_nb T b -> leaf_ok D (leaf_at T nid 0 b k) ->
  nth_error (va_ids C m) v = Some va -> In va (leaf_groups C m (nid b k)) -> c_players h <= v ->
  cached_prog T nid D n h scaling m X C order = None.
Proof.
  intros Hb Hk Hok Hv Hva Hle. pose proof (HCm D m C HC HDm) as HM. unfold cached_prog. destruct C as [|g0 C0] eqn:EC; [reflexivity|]. rewrite <- EC in *.
  rewrite (ofold_stuck _ _ b); [reflexivity|apply in_seq; lia|]. intro s. unfold cached_tree. destruct (Htabs b Hb) as [H1 H2].
  rewrite (ofold_stuck _ _ k); [reflexivity| |].
  { apply (Permutation_in _ (Permutation_sym (Hord b Hb))), in_seq. lia. }
  intro s'. unfold cached_leaf. destruct (k <? t_max T); [|reflexivity]. rewrite (leaf_players_eq m C HM), (va_id_arr_eq C m HM).
  apply (ofold_stuck _ _ (v, va)); [now apply in_indexed|]. intro s1. unfold cached_player. destruct (v <? m); [|reflexivity].
  assert (Hw : leaf_ok m (leaf_at T nid 0 b k)).
  { destruct Hok as (K1 & K2 & K3). split; [exact K1|]. split; [|exact K3]. intros x Hx. specialize (K2 x Hx). lia. }
  change (nid b k) with (l_vars (leaf_at T nid 0 b k)) at 1. rewrite (others_at_eq m C HM _ va Hw). unfold others. cbn [l_vars leaf_at].
  destruct (in_dec group_eq_dec va (leaf_groups C m (nid b k))) as [_|Hn]; [|contradiction].
  apply (ofold_stuck _ _ 0).
  - apply in_seq. split; [lia|]. cbn [Nat.add]. pose proof (Nat.pow_nonzero 2 (length (remove1 va (leaf_groups C m (nid b k)))) ltac:(lia)). lia.
  - intro s2. unfold cached_counter. rewrite (proj2 (Nat.ltb_ge _ _) Hle), andb_false_r. reflexivity.
Qed.
End Beyond.

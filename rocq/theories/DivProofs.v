(** Proofs about the divergent-set sessions. *)
From Verif Require Import Base GameSpec GameProofs TreeModel RfModel RfSpec RfProofs SearchModel SearchSpec SearchProofs
  ExplModel ExplSpec ExplProofs DivModel DivSpec.

(** ** Sets of single columns *)
Lemma concat_single (l : list nat) : concat (map (fun i => [i]) l) = l.
Proof. induction l as [|a l IH]; [reflexivity|]. cbn. now rewrite IH. Qed.
Lemma subs_single (l : list nat) T : In T (subs (map (fun i => [i]) l)) <-> exists S, In S (subs l) /\ T = map (fun i => [i]) S.
Proof.
  revert T. induction l as [|a l IH]; intro T; cbn [map subs].
  - split; [intros [<-|[]]; exists []; split; [now left|reflexivity]|]. intros [S [[<-|[]] ->]]. now left.
  - rewrite in_app_iff, in_map_iff. split.
    + intros [H|[T' [<- H]]]; apply IH in H; destruct H as [S [HS ->]].
      * exists S. split; [apply in_or_app; now left|reflexivity].
      * exists (a :: S). split; [apply in_or_app; right; now apply in_map|reflexivity].
    + intros [S [HS ->]]. apply in_app_or in HS. destruct HS as [HS|HS].
      * left. apply IH. now exists S.
      * apply in_map_iff in HS. destruct HS as [S' [<- HS]]. right. exists (map (fun i => [i]) S'). split; [reflexivity|].
        apply IH. now exists S'.
Qed.
Lemma level_subs (l : list nat) s S : In S (level (map (fun i => [i]) l) s) <-> In S (subs l) /\ length S = s.
Proof.
  rewrite in_level. split.
  - intros [T [HT [Hl <-]]]. apply subs_single in HT. destruct HT as [S [HS ->]]. rewrite concat_single.
    rewrite map_length in Hl. now split.
  - intros [HS Hl]. exists (map (fun i => [i]) S). split; [apply subs_single; now exists S|].
    split; [now rewrite map_length|apply concat_single].
Qed.

(** ** The best set tried *)
Section Tried.
Variable d : nat.
Variable pi : Q.
Variable P : nat -> list nat -> Q.
Variable k : nat.
Hypothesis P0 : forall S, (0 <= P k S)%Q.
Hypothesis pi0 : (0 < pi)%Q.
Hypothesis pi1 : (pi <= 1)%Q.
Notation shows := (shows d P k).

Definition tried (D : list (list nat)) (r : SearchModel.row) : Prop :=
  sized d r /\ ((D = [] /\ r = row0 d) \/ exists S, In S D /\ shows S r) /\
  ((r_sdp r < pi)%Q -> forall S, In S D -> (P k S <= r_sdp r)%Q).

Lemma tried_update D S r : length S <= d -> tried D r -> tried (D ++ [S]) (update_row v_rf d pi S (P k S) r).
Proof.
  intros HS [Hz [Hs Hb]]. split; [now apply update_sized|].
  destruct (Nat.eq_dec (length S) d) as [Hd|Hd].
  - unfold update_row. cbn zeta. cbn [v_full v_rf andb]. rewrite Hd, Nat.eqb_refl.
    match goal with |- context [write_star S (r_star ?r')] => set (r1 := r') end. cbn [r_sdp]. split; [|intro; exfalso; lra].
    right. exists S. split; [apply in_or_app; right; now left|]. unfold SearchProofs.shows, reported. cbn [r_star r_len r_sdp].
    split; [|split; [now symmetry|right; now split]].
    assert (Hl : length (write_star S (r_star r1)) = d).
    { assert (H1 : length (r_star r1) = d).
      { subst r1. destruct Hz as [Hz1 Hz2]. destruct (_ && _); [|exact Hz1]. cbn [r_star].
        rewrite write_star_length; [exact Hz1|]. rewrite Hz1. exact HS. }
      rewrite write_star_length; [exact H1|]. rewrite H1. exact HS. }
    destruct (clear_star_first d d (write_star S (r_star r1)) (or_intror I)) as [E|E].
    + rewrite E. rewrite <- Hd at 1. apply write_star_first.
    + exfalso. rewrite Hl in E. lia.
  - rewrite update_plain by trivial. cbn [v_need v_rf negb orb]. rewrite andb_true_r.
    destruct (qleb_spec (r_sdp r) (P k S)) as [E|E]; cbn [r_sdp].
    + split.
      * right. exists S. split; [apply in_or_app; right; now left|].
        unfold SearchProofs.shows, reported. cbn [r_star r_len r_sdp]. split; [apply write_star_first|]. split; [reflexivity|now left].
      * intros Hlt S' HS'. apply in_app_or in HS'. destruct HS' as [HS'|[<-|[]]]; [|lra].
        assert (H : (r_sdp r < pi)%Q) by lra. specialize (Hb H S' HS'). lra.
    + split.
      * destruct Hs as [[-> ->]|[S' [HS' H']]]; [exfalso; cbn [r_sdp row0] in E; specialize (P0 S); lra|].
        right. exists S'. split; [apply in_or_app; now left|trivial].
      * intros Hlt S' HS'. apply in_app_or in HS'. destruct HS' as [HS'|[<-|[]]]; [now apply Hb|lra].
Qed.
Lemma tried_sets sets D r : (forall S, In S sets -> length S <= d) -> tried D r ->
  tried (D ++ sets) (row_sets v_rf d pi P k sets r).
Proof.
  revert D r. induction sets as [|S sets IH]; intros D r Hs H; [now rewrite app_nil_r|]. cbn [row_sets fold_left].
  replace (D ++ S :: sets) with ((D ++ [S]) ++ sets) by (rewrite <- app_assoc; reflexivity).
  apply IH; [intros; apply Hs; now right|]. apply tried_update; [apply Hs; now left|trivial].
Qed.
Lemma tried_run L : (forall sets S, In sets L -> In S sets -> length S <= d) ->
  tried (concat L) (row_run v_rf d pi P k L).
Proof.
  intro Hs. assert (G : forall D r, tried D r -> tried (D ++ concat L) (fold_left (row_level v_rf d pi P k) L r)).
  { induction L as [|sets L IH]; intros D r H; [now rewrite app_nil_r|]. cbn [concat fold_left].
    rewrite app_assoc. apply IH; [intros s S Hi; apply Hs; now right|]. unfold row_level.
    destruct (qleb_spec pi (r_sdp r)) as [E|E].
    - destruct H as [Hz [Hh Hb]]. split; [trivial|]. split; [|intro; exfalso; lra].
      destruct Hh as [[-> ->]|[S [HS H]]]; [exfalso; cbn in E; lra|].
      right. exists S. split; [apply in_or_app; now left|trivial].
    - unfold tidy_row. cbn [v_clean v_rf andb]. apply tried_sets; [|trivial]. intros S HS. apply (Hs sets); [now left|trivial]. }
  apply (G [] (row0 d)). split; [apply row0_sized|]. split; [left; now split|]. easy.
Qed.
End Tried.

Section Search.
Variables (imp : nat -> Q) (d : nat) (order : list nat) (pi : Q) (stop : bool).
Hypothesis Hr : ranked imp d order.
Hypothesis d0 : 0 < d.
Hypothesis pi0 : (0 < pi)%Q.
Hypothesis pi1 : (pi <= 1)%Q.
Notation space := (agnostic_space d order).
Notation va := (map (fun i => [i]) space).

Lemma space_groups : search_groups [[]] space = va.
Proof. reflexivity. Qed.
Lemma va_ok : groups_ok d va.
Proof.
  rewrite <- space_groups. refine (proj1 (agnostic_groups_ok imp d order [[]] Hr _)).
  split; [constructor|]. split; [easy|now left].
Qed.
Lemma va_one g : In g va -> length g = 1.
Proof. intro H. apply in_map_iff in H. destruct H as [i [<- _]]. reflexivity. Qed.
Lemma sub_ok S : In S (subs space) -> NoDup S /\ (forall x, In x S -> x < d) /\ length S <= d.
Proof.
  intro H. destruct (agnostic_space_ok imp d order Hr) as [Hn [Hb Hl]].
  split; [eapply subs_NoDup; eauto|]. split; [intros x Hx; apply Hb; eapply subs_incl; eauto|].
  apply subs_length in H. lia.
Qed.

Lemma search_settled P n st k : k < n -> (forall S, (0 <= P k S)%Q) ->
  agnostic_search d order [[]] pi P stop n 1 = Some st ->
  exists S, settled d space pi stop (P k) S /\ reported (s_rows st k) = map Z.of_nat S /\
    r_len (s_rows st k) = length S /\
    (r_sdp (s_rows st k) = P k S \/ (length S = d /\ r_sdp (s_rows st k) = 1%Q)).
Proof.
  intros Hk H0 H. unfold agnostic_search in H. rewrite space_groups in H.
  pose proof va_ok as Hok.
  destruct (search_visits _ _ _ _ _ _ _ _ _ _ H) as [v [Hst [Hv1 [Hv2 Hv3]]]].
  assert (Hlen : length va = Nat.min 10 d).
  { rewrite map_length. now destruct (agnostic_space_ok imp d order Hr) as [_ [_ ->]]. }
  assert (Hlv : forall sets S, In sets (map (level va) (seq 1 v)) -> In S sets -> length S <= d).
  { intros sets S Hs HS. apply in_map_iff in Hs. destruct Hs as [s [<- _]]. apply (level_le d va s S Hok HS). }
  assert (Hrow : s_rows st k = row_run v_rf d pi P k (map (level va) (seq 1 v))).
  { rewrite Hst. rewrite levels_rows by (trivial; now apply state0_ok). reflexivity. }
  pose proof (tried_run d pi P k H0 pi0 pi1 _ Hlv) as [Tz [Ts Tb]]. rewrite <- Hrow in Tz, Ts, Tb.
  assert (Hin : forall S, In S (concat (map (level va) (seq 1 v))) <-> In S (subs space) /\ 1 <= length S <= v).
  { intro S. rewrite in_concat. split.
    - intros [sets [Hs HS]]. apply in_map_iff in Hs. destruct Hs as [s [<- Hs]]. apply in_seq in Hs.
      apply level_subs in HS. destruct HS as [HS <-]. split; [trivial|lia].
    - intros [HS Hl]. exists (level va (length S)). split; [apply in_map, in_seq; lia|]. now apply level_subs. }
  assert (Hv0 : 0 < v).
  { destruct (Nat.eq_dec v 0) as [->|]; [|lia]. destruct Hv3 as [_ [E _]]; [rewrite Hlen; lia|lia]. }
  destruct Ts as [[E _]|[S [HS [Hs1 [Hs2 Hs3]]]]].
  { exfalso. destruct (agnostic_space_ok imp d order Hr) as [_ [_ Hl]].
    destruct space as [|a sp] eqn:Esp; [change (length (@nil nat)) with 0 in Hl; lia|].
    assert (X : In [a] (concat (map (level (map (fun i => [i]) (a :: sp))) (seq 1 v)))).
    { apply Hin. split; [|cbn; lia]. cbn [subs]. apply in_or_app. right. apply in_map_iff. exists []. split; [reflexivity|apply subs_nil]. }
    rewrite E in X. easy. }
  apply Hin in HS. destruct HS as [HS HSl].
  exists S. split; [|split; [trivial|split; [trivial|exact Hs3]]].
  split; [trivial|]. split; [intros ->; cbn in HSl; lia|].
  destruct (Qlt_le_dec (r_sdp (s_rows st k)) pi) as [Hlt|Hle].
  - (* not found *)
    right. right. assert (E : r_sdp (s_rows st k) = P k S).
    { destruct Hs3 as [E|[_ E]]; [trivial|]. rewrite E in Hlt. exfalso. lra. }
    rewrite E in Hlt. split; [trivial|]. intros S' HS' Hne Hhalf. rewrite <- E. apply Tb; [now rewrite E|].
    apply Hin. split; [trivial|]. split; [destruct S'; [congruence|cbn; lia]|].
    destruct (Nat.eq_dec v (length va)) as [->|Hvn].
    { rewrite map_length. now apply subs_length. }
    destruct Hv3 as [Hst' [_ Hc]]; [lia|]. specialize (Hhalf Hst').
    destruct Hc as [Hc|Hc].
    + exfalso. apply (unfound_in_R pi n st k); trivial.
      * rewrite Hst. apply levels_ok. now apply state0_ok.
      * now rewrite E.
    + replace (1 + v - 1) with v in Hc by lia. cbn [v_half v_rf] in Hc. unfold half_int in Hc. apply Nat.leb_le in Hc.
      rewrite last_size_level in Hc by lia.
      assert (El : length (concat (skipn (length va - v) va)) = v).
      { rewrite <- last_size_level by lia. unfold last_size.
        apply (level_single va v); [apply va_one|]. assert (Hne' := combinations_nonempty v va ltac:(lia)).
        assert (Hl : level va v <> []) by (intro X; apply Hne'; now apply map_eq_nil in X).
        apply (exists_last) in Hl. destruct Hl as [l [a ->]]. rewrite last_last. apply in_or_app. right. now left. }
      rewrite El in Hc. lia.
  - destruct (search_found _ _ _ _ _ _ _ _ _ _ _ Hok pi0 pi1 Hk H Hle) as [T [[HT [_ [_ [HTp [HTm HTb]]]]] [HR HL]]].
    apply subs_single in HT. destruct HT as [S1 [HS1 ->]]. rewrite concat_single in *. rewrite map_length in *.
    assert (ES : S1 = S).
    { rewrite Hs1 in HR. clear -HR. revert S1 HR. induction S as [|a S IH]; intros [|b S1] H; cbn in H; try discriminate; [reflexivity|].
      injection H as H H'. f_equal; [lia|now apply IH]. }
    subst S1.
    assert (Hmin : forall S', In S' (subs space) -> S' <> [] -> length S' < length S -> (P k S' < pi)%Q).
    { intros S' HS' Hne Hl. specialize (HTm (map (fun i => [i]) S')). rewrite concat_single, map_length in HTm.
      apply HTm; [apply subs_single; now exists S'|]. split; [destruct S'; [congruence|cbn; lia]|trivial]. }
    destruct (Nat.eq_dec (length S) d) as [Hd|Hd].
    + left. split; [trivial|]. intros S' HS' Hne Hl. apply Hmin; trivial. lia.
    + right. left. assert (E : r_sdp (s_rows st k) = P k S) by (destruct Hs3 as [E|[E _]]; [trivial|contradiction]).
      rewrite E in *. split; [trivial|]. split; [exact Hmin|]. intros S' HS' Hl.
      destruct (list_eq_dec Nat.eq_dec S' S) as [->|Hne]; [lra|].
      specialize (HTb (map (fun i => [i]) S')). rewrite concat_single, map_length in HTb. apply HTb; [apply subs_single; now exists S'|trivial|].
      intro X. apply Hne. apply (f_equal (@concat nat)) in X. now rewrite !concat_single in X.
Qed.

Lemma active_null_sets S r : In S (subs space) -> reported r = map Z.of_nat S -> 
  active_null d (r_star r) (r_len r) = (map Z.of_nat S, map Z.of_nat (complement d S)).
Proof.
  intros HS E. unfold active_null. fold (reported r). rewrite E. f_equal.
  unfold complement. induction (seq 0 d) as [|a l IH]; [reflexivity|]. cbn [map filter]. rewrite IH.
  assert (X : existsb (Z.eqb (Z.of_nat a)) (map Z.of_nat S) = if in_dec Nat.eq_dec a S then true else false).
  { destruct (in_dec Nat.eq_dec a S) as [H|H].
    - apply existsb_exists. exists (Z.of_nat a). split; [now apply in_map|apply Z.eqb_refl].
    - destruct (existsb _ _) eqn:Ex; [|reflexivity]. apply existsb_exists in Ex. destruct Ex as [z [Hz Ez]].
      apply in_map_iff in Hz. destruct Hz as [b [<- Hb]]. apply Z.eqb_eq in Ez. apply Nat2Z.inj in Ez. now subst. }
  rewrite X. now destruct (in_dec _ _ _).
Qed.
Lemma as_columns_nat (l : list nat) : as_columns (map Z.of_nat l) = l.
Proof. unfold as_columns. rewrite map_map. rewrite <- (map_id l) at 2. apply map_ext. intro. apply Nat2Z.id. Qed.

Lemma session_settled P after n out k : k < n -> (forall S, (0 <= P k S)%Q) ->
  session d order pi stop P after n = Some out ->
  exists S, settled d space pi stop (P k) S /\
    dv_star (ds_row out k) = map Z.of_nat S /\ dv_bar (ds_row out k) = map Z.of_nat (complement d S) /\
    dv_p (ds_row out k) = fst (fst (after k (complement d S))) /\
    dv_w (ds_row out k) = snd (after k (complement d S)).
Proof.
  intros Hk H0 H. unfold session in H. destruct (agnostic_search _ _ _ _ _ _ _ _) as [st|] eqn:E; [|discriminate].
  injection H as <-. destruct (search_settled P n st k Hk H0 E) as [S [HS [Hs1 [Hs2 _]]]].
  exists S. split; [trivial|]. cbn [ds_row]. unfold session_row. rewrite (active_null_sets S _ (proj1 HS) Hs1).
  cbn [fst snd dv_star dv_bar dv_p dv_w]. rewrite as_columns_nat. repeat split; reflexivity.
Qed.
Lemma session_defined P after n : session d order pi stop P after n <> None.
Proof.
  unfold session. destruct (agnostic_search _ _ _ _ _ _ _ _) as [st|] eqn:E; [discriminate|].
  exfalso. revert E. apply (agnostic_defined imp); trivial. split; [constructor|]. split; [easy|now left].
Qed.
Lemma settled_ext f g S : (forall T, In T (subs space) -> f T = g T) ->
  settled d space pi stop f S -> settled d space pi stop g S.
Proof.
  intros E [HS [Hne H]]. split; [trivial|]. split; [trivial|].
  destruct H as [[H1 H2]|[[H1 [H2 H3]]|[H1 H2]]].
  - left. split; [trivial|]. intros S' HS' Hn Hl. rewrite <- E by trivial. now apply H2.
  - right. left. rewrite <- E by trivial. split; [trivial|]. split; intros S' HS'; rewrite <- E by trivial; auto.
  - right. right. rewrite <- E by trivial. split; [trivial|]. intros S' HS'. rewrite <- E by trivial. auto.
Qed.

Section Forest.
Variables (M : fmem) (data : nat -> pt) (y : nat -> Q) (N depth m : nat) (classifier : bool).
Variables (x : nat -> pt) (rules : nat -> rule) (target down up : nat -> Q).

(** ** The local session *)
Notation cdp k S := (compute_cdp_rf M data y N depth m classifier S (x k) (target k) (down k) (up k)).
Lemma cdp_unit k S : (0 <= cdp k S <= 1)%Q.
Proof.
  rewrite (cdp_is_sdp M data y N depth m classifier (down k) (up k) S (x k) (target k)).
  apply sdp_bounds.
Qed.
Theorem local_session n out k : k < n ->
  local_divergent M data y N depth m classifier d order pi stop x target down up n = Some out ->
  exists S, settled d space pi stop (fun S => cdp k (complement d S)) S /\
    dv_star (ds_row out k) = map Z.of_nat S /\ dv_bar (ds_row out k) = map Z.of_nat (complement d S) /\
    dv_p (ds_row out k) = cdp k (complement d S).
Proof.
  intros Hk H. unfold local_divergent in H.
  assert (X := fun P0 => session_settled _ _ n out k Hk P0 H). destruct X as [S [HS [H1 [H2 [H3 H4]]]]].
  { intro S. unfold on_complement. destruct (s_bar d S); [apply cdp_unit|lra]. }
  exists S. split; [|split; [trivial|split; [trivial|]]].
  - revert HS. apply settled_ext. intros T HT. destruct (sub_ok T HT) as [Hn [Hb _]]. unfold on_complement.
    now rewrite s_bar_spec.
  - rewrite H3. exact (proj1 (proj2 (rule_family M data y N depth m classifier 0 0 (complement d S) (x k) (target k) (down k) (up k)))).
Qed.
Theorem local_weights n out k e : k < n ->
  local_divergent M data y N depth m classifier d order pi stop x target down up n = Some out ->
  (forall i, e i = true <-> same_decision classifier (target k) (down k) (up k) y i) ->
  let w := dv_w (ds_row out k) in
  (dv_p (ds_row out k) == total N (fun i => if e i then w i else 0))%Q /\
  (forall i, (0 <= w i)%Q) /\ (total N w <= 1)%Q /\
  (0 < F_trees M -> forall i, i < N ->
     (forall j, j < d -> ~ In (Z.of_nat j) (dv_star (ds_row out k)) -> (x k j == data i j)%Q) ->
     (total N w == 1)%Q /\ (1 / Qn N <= w i)%Q).
Proof.
  intros Hk H He. unfold local_divergent in H.
  assert (X := fun P0 => session_settled _ _ n out k Hk P0 H). destruct X as [S [HS [H1 [H2 [H3 H4]]]]].
  { intro S. unfold on_complement. destruct (s_bar d S); [apply cdp_unit|lra]. }
  cbn zeta. rewrite H3, H4, H1.
  pose proof (rule_family M data y N depth m classifier (down k) (up k) (complement d S) (x k) (target k) (down k) (up k))
    as [_ [F2 [_ [_ [_ F3]]]]]. rewrite F2, F3.
  destruct (weights_statement_rf M data y N depth m classifier (down k) (up k) (complement d S) (x k) (target k))
    as [W1 [W2 W3]].
  split; [|split; [exact W1|split; [exact W2|]]].
  - rewrite (cdp_is_sdp M data y N depth m classifier (down k) (up k) (complement d S) (x k) (target k)).
    exact (proj1 (weighted_statement M data y N depth m classifier (down k) (up k) (complement d S) (x k) (target k) e He)).
  - intros HM i Hi Hag. apply W3; trivial. intros j Hj. unfold complement in Hj. apply filter_In in Hj.
    destruct Hj as [Hj Hc]. apply in_seq in Hj. apply Hag; [lia|]. intro X. apply in_map_iff in X.
    destruct X as [j' [E X]]. apply Nat2Z.inj in E. subst j'. destruct (in_dec Nat.eq_dec j S); [discriminate|contradiction].
Qed.
Theorem local_defined n : local_divergent M data y N depth m classifier d order pi stop x target down up n <> None.
Proof. apply session_defined. Qed.

(** ** The regional session *)
Notation intv k S := (compute_cdp_intv_weights M data y N depth m classifier (down k) (up k) S (target k) (rules k)).
Lemma intv_unit k S : (0 <= fst (fst (intv k S)) <= 1)%Q.
Proof.
  unfold compute_cdp_intv_weights. change (fun R => intv_step R S data (rules k)) with (its data S (rules k)).
  rewrite (forest_rule_prob M data true zinsert (dec_intv S (rules k)) _ (Hit data S (rules k))).
  apply (any_01 M data true zinsert (dec_intv S (rules k)) _ (Hit data S (rules k)) m depth N). intros i _.
  unfold ind_cdp_intv. destruct classifier; [apply Qb_bounds|].
  destruct (qleb _ _), (qleb _ _); cbn [Qb]; lra.
Qed.
Theorem regional_session n out k : k < n ->
  regional_divergent M data y N depth m classifier d order pi stop rules target down up n = Some out ->
  exists S, settled d space pi stop (fun S => fst (fst (intv k S))) S /\
    dv_star (ds_row out k) = map Z.of_nat S /\ dv_bar (ds_row out k) = map Z.of_nat (complement d S) /\
    dv_p (ds_row out k) = fst (fst (intv k (complement d S))).
Proof.
  intros Hk H. unfold regional_divergent in H. cbn zeta in H.
  assert (X := fun P0 => session_settled _ _ n out k Hk P0 H). destruct X as [S [HS [H1 [H2 [H3 H4]]]]].
  { intro S. apply intv_unit. }
  exists S. split; [exact HS|]. split; [exact H1|]. split; [exact H2|exact H3].
Qed.
Theorem regional_weights n out k e : k < n ->
  regional_divergent M data y N depth m classifier d order pi stop rules target down up n = Some out ->
  (forall i, e i = true <-> same_decision classifier (target k) (down k) (up k) y i) ->
  let w := dv_w (ds_row out k) in
  (dv_p (ds_row out k) == total N (fun i => if Bool.eqb (e i) (negb classifier) then w i else 0))%Q /\
  (forall i, (0 <= w i)%Q) /\ (total N w <= 1)%Q /\
  (0 < F_trees M -> forall i, i < N ->
     (forall j, ~ (j < d /\ ~ In (Z.of_nat j) (dv_star (ds_row out k))) ->
        (fst (rules k j) <= data i j)%Q /\ (data i j <= snd (rules k j))%Q) ->
     (1 / Qn N <= w i)%Q).
Proof.
  intros Hk H He. unfold regional_divergent in H. cbn zeta in H.
  assert (X := fun P0 => session_settled _ _ n out k Hk P0 H). destruct X as [S [HS [H1 [H2 [H3 H4]]]]].
  { intro S. apply intv_unit. }
  cbn zeta. rewrite H3, H4, H1. split; [|split; [|split]].
  - unfold compute_cdp_intv_weights. change (fun R => intv_step R (complement d S) data (rules k)) with (its data (complement d S) (rules k)).
    rewrite (forest_rule_prob M data true zinsert (dec_intv _ (rules k)) _ (Hit data _ (rules k))).
    rewrite (forest_eq M data true zinsert (dec_intv _ (rules k)) _ (Hit data _ (rules k))).
    unfold total. apply sumf_ext. intros i _. 
    pose proof (forest_rule_weights M data true zinsert (dec_intv _ (rules k)) _ (Hit data (complement d S) (rules k)) m depth N
      (ind_cdp_intv classifier (target k) (down k) (up k) y) i) as Hw.
    specialize (He i). unfold same_decision in He. unfold ind_cdp_intv in *. destruct classifier; cbn [negb].
    + destruct (qeqb_spec (target k) (y i)) as [E|E]; destruct (e i); cbn [Qb negb Bool.eqb]; try rewrite Hw; try lra; exfalso; intuition discriminate.
    + destruct (qleb_spec (down k) (y i)) as [E|E], (qleb_spec (y i) (up k)) as [E'|E']; destruct (e i); cbn [Qb negb Bool.eqb];
        try rewrite Hw; try lra; exfalso; intuition (try discriminate; lra).
  - exact (proj1 (cond_weights_total M data N depth m (complement d S) (x k) (rules k) _ _ (or_intror eq_refl))).
  - exact (proj2 (cond_weights_total M data N depth m (complement d S) (x k) (rules k) _ _ (or_intror eq_refl))).
  - intros HM i Hi Hb.
    refine (proj2 (intv_weights M data y N depth m classifier (down k) (up k) (complement d S) (target k) (rules k) HM i Hi _)).
    intros j Hj. apply Hb. intros [Hj1 Hj2]. apply Hj. unfold complement. apply filter_In. split; [apply in_seq; lia|].
    destruct (in_dec Nat.eq_dec j S) as [X|]; [|reflexivity]. exfalso. apply Hj2. now apply in_map.
Qed.
Theorem regional_defined n :
  regional_divergent M data y N depth m classifier d order pi stop rules target down up n <> None.
Proof. apply session_defined. Qed.
End Forest.
End Search.

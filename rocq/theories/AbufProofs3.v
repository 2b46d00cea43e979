(** Proofs about the active Shapley values: where the numbers are, and what they add up to. *)
From Verif Require Import Base TreeModel TreeSpec TreeProofs GameSpec GameProofs ShapModel ShapSpec ShapProofs NopaModel NopaProofs AcvModel AcvSpec AcvProofs
  FlatModel FlatSpec SkModel SkSpec EntryModel EntrySpec SbufSpec AbufModel AbufSpec AbufProofs.
Local Open Scope nat_scope.

Definition number (o : option Q) : Prop := exists q, o = Some q.
Lemma osum_number {A} (f : A -> option Q) l : number (osum f l) <-> forall a, In a l -> number (f a).
Proof.
  unfold number. induction l as [|a l IH]; cbn [osum]; [split; [contradiction|eauto]|]. split.
  - intros [q E]. destruct (f a) as [u|] eqn:Ea; [|discriminate]. destruct (osum f l) as [v|] eqn:El; [|discriminate].
    intros b [<-|Hb]; [eauto|]. apply IH; eauto.
  - intro H. destruct (H a (or_introl eq_refl)) as [u ->]. destruct (proj2 IH) as [v ->]; [intros; apply H; now right|]. eauto.
Qed.
Lemma cdiv_number a n : number (cdiv a (Qn n)) <-> n <> 0.
Proof.
  unfold number, cdiv. destruct (qeqb_spec (Qn n) 0) as [E|E].
  - split; [intros [q H]; discriminate|]. intro H. exfalso. apply H. now apply Qn_inj.
  - split; [|eauto]. intros _ ->. apply E. reflexivity.
Qed.
Lemma cdiv_nan a n : cdiv a (Qn n) = None <-> n = 0.
Proof.
  unfold cdiv. destruct (qeqb_spec (Qn n) 0) as [E|E]; (split; [|intros; trivial]); intros; trivial; try discriminate.
  - now apply Qn_inj.
  - subst n. exfalso. apply E. reflexivity.
Qed.
Lemma acv_term_number d m N data x lf va gs c : data <> [] ->
  (number (acv_term d m N data x lf va gs c) <-> rows_in data (l_rect lf) (concat (pick c gs) ++ N) <> 0 /\ rows_in data (l_rect lf) (va ++ concat (pick c gs) ++ N) <> 0).
Proof.
  intro Hd. assert (Hn : length data <> 0) by (destruct data; [congruence|cbn; lia]).
  unfold acv_term. cbv zeta. rewrite count_s_rows, count_si_rows.
  match goal with |- number (match ?A with _ => _ end) <-> _ => destruct A as [u|] eqn:E1 end.
  2:{ apply cdiv_nan in E1. split; [intros [q H]; discriminate|]. intros [H _]. contradiction. }
  match goal with |- number (match ?A with _ => _ end) <-> _ => destruct A as [v|] eqn:E2 end.
  2:{ apply cdiv_nan in E2. split; [intros [q H]; discriminate|]. intros [_ H]. contradiction. }
  assert (H1 := proj1 (cdiv_number _ _) (ex_intro _ _ E1)). assert (H2 := proj1 (cdiv_number _ _) (ex_intro _ _ E2)).
  split; [auto|]. intros _. destruct (length _ =? 0); [|unfold number; eauto].
  destruct (proj2 (cdiv_number (Qn (count_leaf d data (l_rect lf))) (length data)) Hn) as [p ->]. unfold number; eauto.
Qed.
Lemma acv_absent_number d N data x lf : data <> [] -> (number (acv_absent d N data x lf) <-> rows_in data (l_rect lf) N <> 0).
Proof.
  intro Hd. assert (Hn : length data <> 0) by (destruct data; [congruence|cbn; lia]).
  unfold acv_absent. cbv zeta. rewrite count_s_rows.
  destruct (proj2 (cdiv_number (Qn (count_leaf d data (l_rect lf))) (length data) ) Hn) as [p ->].
  match goal with |- number (match ?A with _ => _ end) <-> _ => destruct A as [u|] eqn:E1 end.
  - assert (H1 := proj1 (cdiv_number _ _) (ex_intro _ _ E1)). split; [auto|]. intros _. unfold number; eauto.
  - apply cdiv_nan in E1. split; [intros [q H]; discriminate|contradiction].
Qed.
Lemma rows_some data p F : rows_in data p F <> 0 <-> exists z, In z data /\ within F p z.
Proof.
  unfold rows_in. split.
  - intro H. destruct (filter (sat_on p F) data) as [|z l] eqn:E; [cbn in H; lia|]. exists z.
    assert (Hz : In z (filter (sat_on p F) data)) by (rewrite E; now left). apply filter_In in Hz. destruct Hz as [Hz Hs]. split; [exact Hz|].
    rewrite sat_on_true in Hs. intros s H1. specialize (Hs s H1). apply (proj1 (in_itv_spec _ _)). exact Hs.
  - intros (z & Hz & Hw) E. apply length_zero_iff_nil in E. assert (Hi : In z (filter (sat_on p F) data)).
    { apply filter_In. split; [exact Hz|]. apply sat_on_true. intros s Hs. apply in_itv_spec. now apply Hw. }
    rewrite E in Hi. contradiction.
Qed.
Lemma pick_everything gs n : length gs <= n -> pick (Nat.ones n) gs = gs.
Proof.
  assert (G : forall gs ci, ci + length gs <= n -> pick_from ci (Nat.ones n) gs = gs).
  { clear. induction gs as [|g gs IH]; intros ci H; [reflexivity|]. cbn [pick_from length] in *. rewrite Nat.ones_spec_low by lia. rewrite IH by lia. reflexivity. }
  intro H. apply G. exact H.
Qed.
Lemma ones_in n : In (Nat.ones n) (seq 0 (2 ^ n)).
Proof.
  apply in_seq. rewrite Nat.ones_equiv. pose proof (Nat.pow_nonzero 2 n ltac:(lia)). lia.
Qed.

Section Number.
Variables (C : list group) (d : nat) (A N : list nat) (P : list group) (data : list pt) (forest : list (list leaf)) (x : pt).
Hypothesis HC : coalitions_ok C d.
Hypothesis HP : is_players_of C A P.
Hypothesis HF : forest_ok d forest.
Hypothesis Hd : data <> [].
Hypothesis HA : active_null_cover A N forest.
Hypothesis HPN : forall g s, In g P -> In s g -> ~ In s N.

Lemma group_touched lf g : ShapSpec.leaf_ok d lf -> (forall s, In s (l_vars lf) -> In s A \/ In s N) -> In g P ->
  (In g (acv_leaf_groups C A N (l_vars lf)) <-> exists s, In s g /\ In s (l_vars lf)).
Proof.
  intros Hok Hcov Hg. destruct (acv_groups_touch C d A N P lf HC HP Hok Hcov (proj1 (proj2 HA))) as [_ Hp]. cbv zeta in Hp. split.
  - intro H. apply (Permutation_in g Hp), filter_In in H. destruct H as [_ H]. apply existsb_exists in H. destruct H as (s & Hs & Hv).
    apply memb_true, filter_In in Hv. exists s. tauto.
  - intros (s & Hs & Hv). apply (Permutation_in g (Permutation_sym Hp)), filter_In. split; [exact Hg|]. apply existsb_exists. exists s. split; [exact Hs|].
    apply memb_true, filter_In. split; [exact Hv|]. apply negb_true_iff, memb_false. now apply (HPN g).
Qed.
Lemma cover_player s : In s A -> exists g, In g P /\ In s g.
Proof.
  intro Hs. destruct (in_dec Nat.eq_dec s (concat C)) as [Hc|Hc].
  - apply in_concat in Hc. destruct Hc as (g & Hg & Hsg). exists g. split; [|exact Hsg]. apply HP. left. eauto.
  - exists [s]. split; [|now left]. apply HP. right. eauto.
Qed.
Lemma remove1_other va g (l : list group) : In g l -> g <> va -> In g (remove1 va l).
Proof.
  induction l as [|a l IH]; intros Hi Hn; [contradiction|]. cbn [remove1]. destruct (group_eq_dec a va) as [->|E].
  - destruct Hi as [->|Hi]; [congruence|exact Hi].
  - destruct Hi as [->|Hi]; [now left|right; now apply IH].
Qed.
Lemma inside_all lf F z : ShapSpec.leaf_ok d lf -> (forall s, In s (l_vars lf) -> In s F) -> within F (l_rect lf) z -> Inside d (l_rect lf) z.
Proof.
  intros (_ & _ & H3) HF' Hw s _. destruct (in_dec Nat.eq_dec s (l_vars lf)) as [Hi|Hi]; [apply Hw; now apply HF'|].
  rewrite (H3 s Hi). cbn. auto.
Qed.
Lemma leaf_number lf g : ShapSpec.leaf_ok d lf -> (forall s, In s (l_vars lf) -> In s A \/ In s N) -> In g P ->
  (number (acv_leaf_player C d (length P) A N data x lf g) <->
    ((exists s, In s g /\ In s (l_vars lf)) -> exists z, In z data /\ Inside d (l_rect lf) z) /\
    ((forall s, In s g -> ~ In s (l_vars lf)) -> exists z, In z data /\ within N (l_rect lf) z)).
Proof.
  intros Hok Hcov Hg. pose proof (group_touched lf g Hok Hcov Hg) as Ht. unfold acv_leaf_player. cbv zeta.
  set (gs0 := acv_leaf_groups C A N (l_vars lf)) in *. destruct (in_dec group_eq_dec g gs0) as [Hi|Hi].
  - rewrite osum_number. split.
    + intro H. split; [intros _|intro Hn; apply Ht in Hi; destruct Hi as (s & H1 & H2); exfalso; exact (Hn s H1 H2)].
      specialize (H _ (ones_in (length (remove1 g gs0)))). apply (acv_term_number _ _ _ _ _ _ _ _ _ Hd) in H. destruct H as [_ H].
      rewrite (pick_everything _ _ (Nat.le_refl _)) in H. apply rows_some in H. destruct H as (z & Hz & Hw). exists z. split; [exact Hz|].
      apply (inside_all lf (g ++ concat (remove1 g gs0) ++ N)); [exact Hok| |exact Hw].
      intros s Hs. destruct (Hcov s Hs) as [Ha|Ha]; [|apply in_or_app; right; apply in_or_app; now right].
      destruct (cover_player s Ha) as (p & Hp & Hsp). destruct (group_eq_dec p g) as [->|E]; [apply in_or_app; now left|].
      apply in_or_app. right. apply in_or_app. left. apply in_concat. exists p. split; [|exact Hsp]. apply remove1_other; [|exact E].
      apply (group_touched lf p Hok Hcov Hp). eauto.
    + intros [H _] c _. apply (acv_term_number _ _ _ _ _ _ _ _ _ Hd).
      destruct H as (z & Hz & Hzi); [now apply Ht|].
      assert (Hl : rows_in data (l_rect lf) (seq 0 d) <> 0).
      { apply rows_some. exists z. split; [exact Hz|]. intros s Hs. apply in_seq in Hs. apply Hzi. lia. }
      split; eapply rows_pos_of_leaf; eassumption.
  - rewrite (acv_absent_number _ _ _ _ _ Hd), rows_some. split.
    + intro H. split; [intro K; apply Ht in K; contradiction|auto].
    + intros [_ H]. apply H. intros s H1 H2. apply Hi, Ht. eauto.
Qed.
Lemma value_number g c : In g P -> In c g -> (number (shap_values_acv C d A N data forest x c) <-> countable d N data forest g).
Proof.
  intros Hg Hc. pose proof (acv_va_ids_players C d A HC (proj1 HA)) as HV.
  assert (Hperm : Permutation P (acv_va_ids C A)) by (eapply players_of_perm; eassumption).
  assert (Hgv : In g (acv_va_ids C A)) by (eapply Permutation_in; eassumption).
  unfold shap_values_acv. cbv zeta. rewrite <- (Permutation_length Hperm).
  rewrite (repeat_players (acv_va_ids C A) g c (proj1 HV) Hgv).
  2:{ intros p Hp Hcp. eapply (player_of_unique C d A _); eassumption. }
  2:{ pose proof (player_of_NoDup C d A _ g HC HV Hgv) as Hnd. rewrite (NoDup_count_occ' Nat.eq_dec) in Hnd. now apply Hnd. }
  set (f := fun ls => osum (fun lf => osum (acv_leaf_player C d (length P) A N data x lf) [g]) ls).
  assert (E : number (osum f forest) <-> countable d N data forest g).
  { rewrite osum_number. unfold countable. split.
    - intros H ls lf Hls Hlf. apply leaf_number; [eapply HF; eassumption|intros s; eapply HA; eassumption|exact Hg|].
      specialize (H ls Hls). unfold f in H. rewrite osum_number in H. specialize (H lf Hlf). rewrite osum_number in H. apply H. now left.
    - intros H ls Hls. unfold f. apply osum_number. intros lf Hlf. apply osum_number. intros g' [<-|[]].
      apply leaf_number; [eapply HF; eassumption|intros s; eapply HA; eassumption|exact Hg|]. now apply (H ls). }
  assert (Hn : length P <> 0) by (destruct P; [contradiction|cbn; lia]).
  rewrite <- E. destruct (osum f forest) as [s|]; [|split; intros [q H]; discriminate].
  rewrite cdiv_number. split; [intros _; unfold number; eauto|auto].
Qed.
Lemma column_zero c : P <> [] -> (forall g, In g P -> ~ In c g) -> oeq (shap_values_acv C d A N data forest x c) (Some 0%Q).
Proof.
  intros Hne Hno. pose proof (acv_va_ids_players C d A HC (proj1 HA)) as HV.
  assert (Hperm : Permutation P (acv_va_ids C A)) by (eapply players_of_perm; eassumption).
  unfold shap_values_acv. cbv zeta. rewrite <- (Permutation_length Hperm).
  assert (E : flat_map (fun va => repeat va (count_occ Nat.eq_dec va c)) (acv_va_ids C A) = []).
  { assert (G : forall l, (forall g, In g l -> ~ In c g) -> flat_map (fun va => repeat va (count_occ Nat.eq_dec va c)) l = []).
    { clear. induction l as [|g l IH]; intro H; [reflexivity|]. cbn [flat_map]. rewrite IH by (intros; apply H; now right).
      rewrite (proj1 (count_occ_not_In Nat.eq_dec g c)) by (apply H; now left). reflexivity. }
    apply G. intros g Hg. apply Hno. eapply Permutation_in; [apply Permutation_sym; exact Hperm|exact Hg]. }
  rewrite E. set (o := osum _ forest). assert (Ho : oeq o (Some 0%Q)).
  { apply osum_zero. intros ls _. apply osum_zero. reflexivity. }
  destruct o as [s|]; [|contradiction]. cbn in Ho. unfold cdiv.
  destruct (qeqb_spec (Qn (length P)) 0) as [Z|Z]; [exfalso; apply Qn_neq0 in Z; [exact Z|destruct P; [congruence|cbn; lia]]|].
  cbn. rewrite Ho. unfold Qdiv. ring.
Qed.
(** everybody together: the leaf that is reached *)
Lemma worth_cover T : (forall ls lf s, In ls forest -> In lf ls -> In s (l_vars lf) -> In s (concat T)) -> 
  (forall ls lf, In ls forest -> In lf ls -> exists z, In z data /\ Inside d (l_rect lf) z) ->
  (worth d data forest x T == sumf (fun ls => sumf (fun lf => Qb (in_rect d (l_rect lf) x) * l_val lf) ls) forest)%Q.
Proof.
  intros Hc Hpop. unfold worth. apply sumf_ext. intros ls Hls. apply sumf_ext. intros lf Hlf.
  pose proof (HF ls lf Hls Hlf) as Hok.
  assert (Hs : forall z, sat_on (l_rect lf) (concat T) z = in_rect d (l_rect lf) z).
  { intro z. apply bool_eq_iff. rewrite in_rect_Inside, sat_on_true. split.
    - intro H. apply (inside_all lf (concat T)); [exact Hok|intros; now apply (Hc ls lf)|]. intros s Hs. apply in_itv_spec. now apply H.
    - intros H s Hs. destruct (in_dec Nat.eq_dec s (l_vars lf)) as [Hi|Hi].
      + apply in_itv_spec, H. now apply Hok.
      + destruct Hok as (_ & _ & H3). rewrite (H3 s Hi). reflexivity. }
  unfold cond_prob. rewrite Hs.
  assert (R : rows_in data (l_rect lf) (concat T) = rows_in data (l_rect lf) (seq 0 d)).
  { unfold rows_in. f_equal. apply filter_ext_in'. intros z _. apply Hs. }
  rewrite R. destruct (in_rect d (l_rect lf) x); cbn [Qb]; [|ring].
  destruct (Hpop ls lf Hls Hlf) as (z & Hz & Hzi).
  assert (Hn : rows_in data (l_rect lf) (seq 0 d) <> 0).
  { apply rows_some. exists z. split; [exact Hz|]. intros s Hs'. apply in_seq in Hs'. apply Hzi. lia. }
  destruct (rows_in data (l_rect lf) (seq 0 d)) as [|n]; [congruence|]. field. apply Qn_neq0. lia.
Qed.
Lemma countable_filled g : (forall ls lf, In ls forest -> In lf ls -> exists z, In z data /\ Inside d (l_rect lf) z) -> countable d N data forest g.
Proof.
  intros H ls lf Hls Hlf. destruct (H ls lf Hls Hlf) as (z & Hz & Hi). split; intros _; exists z; (split; [exact Hz|]); [exact Hi|].
  intros s Hs. destruct (in_dec Nat.eq_dec s (l_vars lf)) as [K|K]; [apply Hi; now apply (HF ls lf Hls Hlf)|].
  destruct (HF ls lf Hls Hlf) as (_ & _ & H3). rewrite (H3 s K). cbn. auto.
Qed.
Lemma filled_countable : P <> [] -> (forall g, In g P -> countable d N data forest g) ->
  forall ls lf, In ls forest -> In lf ls -> exists z, In z data /\ Inside d (l_rect lf) z.
Proof.
  intros Hne H ls lf Hls Hlf.
  destruct (existsb (fun g => existsb (fun s => memb s (l_vars lf)) g) P) eqn:E.
  - apply existsb_exists in E. destruct E as (g & Hg & E). apply existsb_exists in E. destruct E as (s & Hs & Hv). apply memb_true in Hv.
    apply (proj1 (H g Hg ls lf Hls Hlf)). eauto.
  - assert (Hn : forall g s, In g P -> In s g -> ~ In s (l_vars lf)).
    { intros g s Hg Hs Hv. assert (K : existsb (fun g => existsb (fun s => memb s (l_vars lf)) g) P = true); [|congruence].
      apply existsb_exists. exists g. split; [exact Hg|]. apply existsb_exists. exists s. split; [exact Hs|]. now apply memb_true. }
    destruct P as [|g P'] eqn:EP; [congruence|]. rewrite <- EP in *. assert (Hg : In g P) by (rewrite EP; now left).
    destruct (proj2 (H g Hg ls lf Hls Hlf) (fun s => Hn g s Hg)) as (z & Hz & Hw). exists z. split; [exact Hz|].
    apply (inside_all lf N); [now apply (HF ls)| |exact Hw]. intros s Hs. destruct (proj2 (proj2 HA) ls lf s Hls Hlf Hs) as [Ha|Ha]; [|exact Ha].
    exfalso. destruct (cover_player s Ha) as (p & Hp & Hsp). exact (Hn p s Hp Hsp Hs).
Qed.
End Number.

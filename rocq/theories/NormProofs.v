(** Proofs about the normalized Shapley routines. *)
From Verif Require Import Base TreeModel TreeSpec TreeProofs GameSpec GameProofs
  ShapModel ShapSpec ShapProofs NormModel NormSpec.

(** ** The normaliser *)
Definition e_prob (e : entry) : Q := (Qb (fst e) * Qn (fst (snd e)) / Qn (snd (snd e)))%Q.

Lemma norm_sum_held (es : list entry) : (forall e, In e es -> snd (snd e) <> 0) ->
  (norm_sum es == sumf e_prob es)%Q.
Proof.
  unfold norm_sum. intro H.
  assert (G : forall n, (fold_left norm_step es n == n + sumf e_prob es)%Q).
  { induction es as [|[c [a l]] es IH]; intro n; cbn [fold_left sumf]; [lra|].
    rewrite IH by (intros; apply H; now right). cbn [norm_step].
    assert (Hl : l <> 0) by exact (H (c, (a, l)) (or_introl eq_refl)).
    destruct (Nat.eqb_spec l 0); [contradiction|]. unfold e_prob at 2. cbn [fst snd]. lra. }
  rewrite G. lra.
Qed.

Lemma Qdiv_0_r (a b : Q) : (b == 0)%Q -> (a / b == 0)%Q.
Proof. intro H. rewrite H. unfold Qdiv. change (/ 0)%Q with 0%Q. ring. Qed.

Lemma prob_norm_div c lm l n : (prob_norm c lm l n == e_prob (c, (lm, l)) / n)%Q.
Proof.
  unfold prob_norm, e_prob. cbn [fst snd]. destruct (qeqb_spec (n * Qn l) 0) as [E|E].
  - destruct (Qeq_dec n 0) as [En|En]; [now rewrite Qdiv_0_r|].
    assert (El : (Qn l == 0)%Q).
    { setoid_replace (Qn l) with ((n * Qn l) / n)%Q by (field; trivial). rewrite E. unfold Qdiv. ring. }
    rewrite (Qdiv_0_r _ _ El). unfold Qdiv. ring.
  - assert (~ Qn l == 0)%Q by (intro K; apply E; rewrite K; ring).
    assert (~ n == 0)%Q by (intro K; apply E; rewrite K; ring). field. split; trivial.
Qed.

Lemma count_s_rows data p F : count_s data p F = rows_in data p F.
Proof. unfold count_s, rows_in. f_equal. apply filter_ext_in'. intros; apply sat_sat_on. Qed.
Lemma count_si_rows data p F va : count_si data p F va = rows_in data p (va ++ F).
Proof.
  unfold count_si, rows_in. f_equal. apply filter_ext_in'. intros z _.
  rewrite sat_on_app, sat_sat_on, not_out_sat_on. apply andb_comm.
Qed.

Lemma ratio_cond m data p F x :
  (e_prob (sat_on p F x, (count_leaf m data p, rows_in data p F)) == cond_prob m data p F x)%Q.
Proof.
  unfold e_prob, cond_prob. cbn [fst snd]. rewrite count_leaf_rows.
  destruct (sat_on p F x); cbn [Qb].
  - destruct (rows_in data p F) as [|n]; [now rewrite Qdiv_0_r by apply Qn_0|].
    field. apply Qn_neq0. lia.
  - unfold Qdiv. ring.
Qed.
Lemma entry_s_prob m data F x lf :
  (e_prob (entry_s m data F x lf) == cond_prob m data (l_rect lf) F x)%Q.
Proof. unfold entry_s. rewrite sat_sat_on, count_s_rows. apply ratio_cond. Qed.
Lemma entry_si_prob m data F va x lf :
  (e_prob (entry_si m data F va x lf) == cond_prob m data (l_rect lf) (va ++ F) x)%Q.
Proof.
  unfold entry_si. rewrite sat_sat_on, not_out_sat_on, count_si_rows, andb_comm, <- sat_on_app.
  apply ratio_cond.
Qed.

Lemma rows_in_nil data p : rows_in data p [] = length data.
Proof. unfold rows_in. f_equal. induction data as [|a l IH]; cbn; [trivial|now rewrite IH]. Qed.

Section Tree.
Variables (m : nat) (data : list pt) (ls : list leaf) (x : pt).
Hypothesis Hd : data <> [].
Hypothesis Held : forall lf, In lf ls -> rows_in data (l_rect lf) (seq 0 m) <> 0.
Hypothesis Total : (sumf (fun lf => Qn (rows_in data (l_rect lf) (seq 0 m))) ls == Qn (length data))%Q.

Definition local_game (lf : leaf) (T : list group) : Q :=
  norm_prob m data ls lf (concat (filter (meets lf) T)) x.

Lemma held_on lf F : In lf ls -> (forall s, In s F -> s < m) -> rows_in data (l_rect lf) F <> 0.
Proof.
  intros Hlf HF. pose proof (Held lf Hlf).
  pose proof (rows_in_mono data (l_rect lf) F (seq 0 m)) as H1. enough (incl F (seq 0 m)) by (specialize (H1 H0); lia).
  intros s Hs. apply in_seq. specialize (HF s Hs). lia.
Qed.

Lemma norm_s_value lf F : In lf ls -> (forall s, In s F -> s < m) ->
  ((if length F =? 0 then (Qn (fst (snd (entry_s m data F x lf))) / Qn (length data))
    else prob_norm (fst (entry_s m data F x lf)) (fst (snd (entry_s m data F x lf)))
           (snd (snd (entry_s m data F x lf))) (norm_sum (map (entry_s m data F x) ls)))
   == norm_prob m data ls lf F x)%Q.
Proof.
  intros Hlf HF. destruct (Nat.eqb_spec (length F) 0) as [E|E].
  - destruct F; [|discriminate]. unfold norm_prob.
    assert (Hn : ~ (Qn (length data) == 0)%Q) by (apply Qn_neq0; destruct data; [congruence|cbn; lia]).
    assert (K : forall lf', (cond_prob m data (l_rect lf') [] x == Qn (rows_in data (l_rect lf') (seq 0 m)) / Qn (length data))%Q).
    { intro lf'. unfold cond_prob. cbn [sat_on forallb]. rewrite rows_in_nil.
      destruct data; [congruence|]. reflexivity. }
    rewrite (sumf_ext _ (fun lf' => Qn (rows_in data (l_rect lf') (seq 0 m)) * / Qn (length data))%Q)
      by (intros; apply K).
    rewrite sumf_scal_r, Total, K. cbn [entry_s fst snd]. rewrite count_leaf_rows. field. trivial.
  - rewrite prob_norm_div. unfold norm_prob.
    destruct (entry_s m data F x lf) as [c [a l]] eqn:Ee. cbn [fst snd]. rewrite <- Ee, entry_s_prob.
    rewrite norm_sum_held.
    + rewrite sumf_map. rewrite (sumf_ext _ (fun lf' => cond_prob m data (l_rect lf') F x));
        [reflexivity|]. intros; apply entry_s_prob.
    + intros e He. apply in_map_iff in He. destruct He as [lf' [<- Hlf']]. cbn [entry_s snd].
      rewrite count_s_rows. now apply held_on.
Qed.

Lemma norm_si_value lf F va : In lf ls -> (forall s, In s (va ++ F) -> s < m) ->
  (prob_norm (fst (entry_si m data F va x lf)) (fst (snd (entry_si m data F va x lf)))
     (snd (snd (entry_si m data F va x lf))) (norm_sum (map (entry_si m data F va x) ls))
   == norm_prob m data ls lf (va ++ F) x)%Q.
Proof.
  intros Hlf HF. rewrite prob_norm_div. unfold norm_prob.
  destruct (entry_si m data F va x lf) as [c [a l]] eqn:Ee. cbn [fst snd]. rewrite <- Ee, entry_si_prob.
  rewrite norm_sum_held.
  - rewrite sumf_map. rewrite (sumf_ext _ (fun lf' => cond_prob m data (l_rect lf') (va ++ F) x));
      [reflexivity|]. intros; apply entry_si_prob.
  - intros e He. apply in_map_iff in He. destruct He as [lf' [<- Hlf']]. cbn [entry_si snd].
    rewrite count_si_rows. now apply held_on.
Qed.

Lemma filter_id {A} (f : A -> bool) l : (forall a, In a l -> f a = true) -> filter f l = l.
Proof.
  induction l as [|a l IH]; intro H; [reflexivity|]. cbn. rewrite (H a) by now left.
  f_equal. apply IH. intros; apply H; now right.
Qed.
Lemma pick_in c gs g : In g (pick c gs) -> In g gs.
Proof.
  unfold pick. generalize 0. induction gs as [|h gs IH]; intros ci; cbn; [trivial|].
  destruct (Nat.testbit c ci); [intros [->|H]|intro H]; eauto.
Qed.

Lemma norm_term_value lf va gs c : In lf ls -> length gs < m ->
  meets lf va = true -> (forall g, In g gs -> meets lf g = true) ->
  (forall g s, In g (va :: gs) -> In s g -> s < m) ->
  (norm_term m data x ls lf va gs c / Qn m ==
   weight (length gs + 1) (length (pick c gs)) *
   (local_game lf (va :: pick c gs) - local_game lf (pick c gs)) * l_val lf)%Q.
Proof.
  intros Hlf Hk Hva Hgs Hb. unfold norm_term, norm_term_with.
  assert (HF : forall s, In s (concat (pick c gs)) -> s < m).
  { intros s Hs. apply in_concat in Hs. destruct Hs as [g [Hg Hs]]. apply (Hb g s); [right|trivial].
    eapply pick_in; eassumption. }
  rewrite norm_s_value, norm_si_value; trivial.
  2:{ intros s Hs. apply in_app_or in Hs. destruct Hs as [Hs|Hs]; [|auto]. apply (Hb va s); [now left|trivial]. }
  rewrite <- (code_coef_is_weight m (length gs)) by (trivial; apply pick_length).
  unfold local_game. rewrite !filter_id.
  - cbn [concat]. field. apply Qn_neq0. lia.
  - intros g Hg. apply Hgs. eapply pick_in; eassumption.
  - intros g [<-|Hg]; [trivial|]. apply Hgs. eapply pick_in; eassumption.
Qed.

Lemma norm_prob_same lf F G : (forall s, In s F <-> In s G) ->
  (norm_prob m data ls lf F x == norm_prob m data ls lf G x)%Q.
Proof.
  intro H. unfold norm_prob. rewrite (cond_prob_same m data (l_rect lf) F G x H).
  rewrite (sumf_ext _ (fun lf' => cond_prob m data (l_rect lf') G x)); [reflexivity|].
  intros lf' _. now rewrite (cond_prob_same m data (l_rect lf') F G x H).
Qed.
Lemma filter_perm {A} (f : A -> bool) l l' : Permutation l l' -> Permutation (filter f l) (filter f l').
Proof.
  induction 1 as [|a l l' P IH|a b l|l l' l'' P1 IH1 P2 IH2]; cbn; [constructor| | |etransitivity; eassumption].
  - destruct (f a); [now constructor|trivial].
  - destruct (f a), (f b); [apply perm_swap|reflexivity|reflexivity|reflexivity].
Qed.
Lemma local_game_is_game lf : is_game (local_game lf).
Proof.
  intros T U P. unfold local_game. apply norm_prob_same. intro s.
  assert (K := concat_perm _ _ (filter_perm (meets lf) T U P)).
  split; apply Permutation_in; [trivial|now symmetry].
Qed.
Lemma local_game_null lf g : meets lf g = false -> null_in (local_game lf) g.
Proof. intros H T. unfold local_game. cbn [filter]. rewrite H. reflexivity. Qed.

Theorem norm_leaf_shapley C P lf va :
  coalitions_ok C m -> is_players C m P -> In lf ls -> leaf_ok m lf -> In va P ->
  (norm_leaf_player C m data x ls lf va / Qn m == l_val lf * shapley gdec P (local_game lf) va)%Q.
Proof.
  intros HC HP Hlf Hok Hva.
  destruct (leaf_groups_touch C m P lf HC HP Hok) as [Hn Hperm].
  change (touches lf) with (meets lf) in Hperm.
  unfold norm_leaf_player, others.
  destruct (in_dec group_eq_dec va (leaf_groups C m (l_vars lf))) as [Hin|Hin].
  - assert (Ht : meets lf va = true).
    { apply (Permutation_in va Hperm) in Hin. apply filter_In in Hin. tauto. }
    rewrite (shapley_restrict gdec P (leaf_groups C m (l_vars lf)) _ va (meets lf)); trivial.
    2: apply HP.
    2: apply local_game_is_game.
    2:{ intros p Hp Hf. now apply local_game_null. }
    set (L := leaf_groups C m (l_vars lf)) in *.
    assert (HLP : forall g, In g L -> In g P /\ meets lf g = true).
    { intros g Hg. apply (Permutation_in g Hperm) in Hg. now apply filter_In in Hg. }
    rewrite (remove1_remove va L Hn).
    assert (Hlen : S (length (remove group_eq_dec va L)) = length L)
      by (apply (GameProofs.remove_length group_eq_dec); trivial).
    assert (HLm : length L <= m).
    { rewrite (Permutation_length Hperm). exact (Nat.le_trans _ _ _ (filter_length_le (meets lf) P) (players_length C m P HC HP)). }
    set (gs := remove group_eq_dec va L) in *.
    assert (HgL : forall g, In g gs -> In g L) by (intros g Hg; apply in_remove in Hg; tauto).
    unfold Qdiv. rewrite <- sumf_scal_r.
    rewrite (sumf_ext _ (fun c => (fun T => weight (length gs + 1) (length T) *
       (local_game lf (va :: T) - local_game lf T) * l_val lf)%Q (pick c gs))).
    2:{ intros c _. apply (norm_term_value lf va gs c); trivial.
        - lia.
        - intros g Hg. apply HLP. auto.
        - intros g s [<-|Hg] Hs; [exact (player_bound C m P va s HC HP Hva Hs)|].
          apply (player_bound C m P g s HC HP); trivial. apply HLP. auto. }
    rewrite (pick_subs (fun T => weight (length gs + 1) (length T) *
       (local_game lf (va :: T) - local_game lf T) * l_val lf)%Q gs).
    unfold GameSpec.shapley. rewrite <- sumf_scal.
    change (remove gdec va L) with gs.
    apply sumf_ext. intros T _. replace (length L) with (length gs + 1) by lia. ring.
  - rewrite (shapley_null gdec P); [unfold Qdiv; ring|].
    apply local_game_null. destruct (meets lf va) eqn:E; [|reflexivity].
    exfalso. apply Hin. apply (Permutation_in va (Permutation_sym Hperm)). apply filter_In. auto.
Qed.
End Tree.

(** ** Trees *)

(** every point lies in exactly one leaf *)
Lemma in_rect_unique t m ls x : wf_tree t m = true -> tree_leaves t = Some ls ->
  exists k lf, nth_error ls k = Some lf /\ in_rect m (l_rect lf) x = true /\
    forall k' lf', nth_error ls k' = Some lf' -> in_rect m (l_rect lf') x = true -> k' = k.
Proof.
  intros Hwf Hls. destruct (tiling t m Hwf) as [ls' [E [_ Ht]]].
  assert (ls' = ls) by congruence. subst ls'.
  destruct (Ht x) as [k [l [lf [_ [_ [H3 [H4 [_ H6]]]]]]]]. exists k, lf. split; [trivial|].
  split; [now apply in_rect_Inside|]. intros k' lf' H1 H2. apply (H6 k' lf' H1). now apply in_rect_Inside.
Qed.

Lemma rows_total t m ls data : wf_tree t m = true -> tree_leaves t = Some ls ->
  (sumf (fun lf => Qn (rows_in data (l_rect lf) (seq 0 m))) ls == Qn (length data))%Q.
Proof.
  intros Hwf Hls.
  rewrite (sumf_ext _ (fun lf => sumf (fun z => Qb (in_rect m (l_rect lf) z)) data))
    by (intros lf _; symmetry; apply (sumf_count (in_rect m (l_rect lf)))).
  rewrite (sumf_swap (fun lf z => Qb (in_rect m (l_rect lf) z))).
  rewrite (sumf_ext _ (fun _ => 1%Q)).
  - rewrite sumf_const. ring.
  - intros z _. destruct (in_rect_unique t m ls z Hwf Hls) as [k [lf [H1 [H2 H3]]]].
    rewrite (nth_error_single _ ls k lf H1); [now rewrite H2|].
    intros k' lf' H Hne. destruct (in_rect m (l_rect lf') z) eqn:E; [|reflexivity].
    exfalso. apply Hne. eapply H3; eassumption.
Qed.

Lemma held_rows m data lf z : In z data -> Inside m (l_rect lf) z ->
  rows_in data (l_rect lf) (seq 0 m) <> 0.
Proof.
  intros Hz Hi E. unfold rows_in in E. apply length_zero_iff_nil in E.
  assert (In z (filter (sat_on (l_rect lf) (seq 0 m)) data)) as K.
  { apply filter_In. split; [trivial|]. now apply in_rect_Inside in Hi. }
  rewrite E in K. contradiction.
Qed.

Lemma worth_local_shapley m data forest x P g :
  (shapley gdec P (worth_local m data forest x) g ==
   sumf (fun ls => sumf (fun lf => l_val lf * shapley gdec P (local_game m data ls x lf) g) ls) forest)%Q.
Proof.
  unfold worth_local.
  rewrite (shapley_sum gdec P (fun ls T => sumf (fun lf => l_val lf * local_game m data ls x lf T)%Q ls)).
  apply sumf_ext. intros ls Hls.
  rewrite (shapley_sum gdec P (fun lf T => l_val lf * local_game m data ls x lf T)%Q).
  apply sumf_ext. intros lf Hlf. apply shapley_scal.
Qed.

Theorem norm_is_local_shapley C m P data ts forest x g j :
  coalitions_ok C m -> is_players C m P ->
  forallb (fun t => wf_tree t m) ts = true -> forest_leaves ts = Some forest ->
  data <> [] -> all_held m data forest -> In g P -> In j g ->
  (shap_values_leaves_normalized C m data forest x j == shapley gdec P (worth_local m data forest x) g)%Q.
Proof.
  intros HC HP Hwf Hf Hd Hh Hg Hj.
  pose proof (forest_leaves_ok ts m forest Hwf Hf) as HF.
  rewrite worth_local_shapley. unfold shap_values_leaves_normalized.
  pose proof (va_ids_players C m HC) as HV.
  assert (Hgv : In g (va_ids C m)) by (apply HV; apply HP in Hg; exact Hg).
  unfold Qdiv. rewrite <- sumf_scal_r. apply sumf_ext. intros ls Hls.
  destruct (forest_leaves_in ts forest ls Hf Hls) as [t [Ht Et]].
  rewrite forallb_forall in Hwf. specialize (Hwf t Ht).
  rewrite <- sumf_scal_r. apply sumf_ext. intros lf Hlf.
  rewrite (sumf_single _ (va_ids C m) g); trivial.
  - assert (E : count_occ Nat.eq_dec g j = 1).
    { pose proof (player_NoDup C m P g HC HP Hg) as Hnd.
      rewrite (NoDup_count_occ' Nat.eq_dec) in Hnd. now apply Hnd. }
    rewrite E. change (Qn 1) with 1%Q. rewrite Qmult_1_l.
    apply (norm_leaf_shapley m data ls x); trivial.
    + intros lf' Hlf'. destruct (Hh ls lf' Hls Hlf') as [z [Hz Hi]]. eapply held_rows; eassumption.
    + eapply rows_total; eassumption.
    + eapply HF; eassumption.
  - apply HV.
  - intros h Hh' Hne. assert (E : count_occ Nat.eq_dec h j = 0).
    { apply count_occ_not_In. intro Hjh. apply Hne. symmetry.
      eapply (player_unique C m (va_ids C m)); eassumption. }
    rewrite E. rewrite Qn_0. ring.
Qed.

(** ** Efficiency *)
Lemma sat_on_meets C m P lf x : coalitions_ok C m -> is_players C m P -> leaf_ok m lf ->
  sat_on (l_rect lf) (concat (filter (meets lf) P)) x = in_rect m (l_rect lf) x.
Proof.
  intros HC HP [_ [Hb Hu]]. change (in_rect m (l_rect lf) x) with (sat_on (l_rect lf) (seq 0 m) x).
  apply bool_eq_iff. rewrite !sat_on_true. split; intros K s Hs.
  - destruct (in_dec Nat.eq_dec s (l_vars lf)) as [Hi|Hi]; [|now rewrite (Hu s Hi)].
    apply K. apply in_seq in Hs. destruct (player_exists C m P s HP ltac:(lia)) as [g [Hg Hsg]].
    apply (in_concat_of s g); [|trivial]. apply filter_In. split; [trivial|].
    apply (touches_true lf g). eauto.
  - apply K. apply in_concat in Hs. destruct Hs as [g [Hg Hs]]. apply filter_In in Hg.
    apply in_seq. pose proof (player_bound C m P g s HC HP (proj1 Hg) Hs). lia.
Qed.

Lemma local_all t C m P data ls x k lf :
  coalitions_ok C m -> is_players C m P -> wf_tree t m = true -> tree_leaves t = Some ls ->
  (forall lf, In lf ls -> leaf_ok m lf) ->
  (forall lf, In lf ls -> rows_in data (l_rect lf) (seq 0 m) <> 0) ->
  nth_error ls k = Some lf ->
  (local_game m data ls x lf P == Qb (in_rect m (l_rect lf) x))%Q.
Proof.
  intros HC HP Hwf Hls Hok Held Hk. unfold local_game, norm_prob.
  assert (Hlf : In lf ls) by (eapply nth_error_In; eassumption).
  set (F := concat (filter (meets lf) P)).
  assert (Hx : sat_on (l_rect lf) F x = in_rect m (l_rect lf) x) by (eapply sat_on_meets; eauto).
  assert (Hown : (cond_prob m data (l_rect lf) F x == Qb (in_rect m (l_rect lf) x))%Q).
  { unfold cond_prob. rewrite Hx. destruct (in_rect m (l_rect lf) x); [|reflexivity].
    assert (R : rows_in data (l_rect lf) F = rows_in data (l_rect lf) (seq 0 m)).
    { unfold rows_in. f_equal. apply filter_ext_in'. intros z _. eapply sat_on_meets; eauto. }
    rewrite R. pose proof (Held lf Hlf) as Hn. destruct (rows_in data (l_rect lf) (seq 0 m)) as [|n]; [congruence|].
    cbn [Qb]. field. apply Qn_neq0. lia. }
  rewrite Hown. destruct (in_rect m (l_rect lf) x) eqn:E; [|cbn [Qb]; unfold Qdiv; ring].
  rewrite (nth_error_single _ ls k lf Hk); [rewrite Hown; reflexivity|].
  intros k' lf' Hk' Hne. unfold cond_prob. destruct (sat_on (l_rect lf') F x) eqn:E'; [|reflexivity].
  exfalso. apply Hne.
  assert (Hlf' : In lf' ls) by (eapply nth_error_In; eassumption).
  pose proof (Held lf' Hlf') as Hn. unfold rows_in in Hn.
  destruct (filter (sat_on (l_rect lf') (seq 0 m)) data) as [|w r] eqn:Ew; [cbn in Hn; congruence|].
  assert (Hw : sat_on (l_rect lf') (seq 0 m) w = true).
  { assert (In w (w :: r)) as K by now left. rewrite <- Ew in K. now apply filter_In in K. }
  set (z := fun s => if in_dec Nat.eq_dec s F then x s else w s).
  assert (H1 : in_rect m (l_rect lf) z = true).
  { rewrite <- (sat_on_meets C m P lf z HC HP (Hok lf Hlf)). fold F. rewrite sat_on_true in *.
    intros s Hs. unfold z. destruct (in_dec Nat.eq_dec s F); [|contradiction]. now apply Hx. }
  assert (H2 : in_rect m (l_rect lf') z = true).
  { change (sat_on (l_rect lf') (seq 0 m) z = true). rewrite sat_on_true in *.
    intros s Hs. unfold z. destruct (in_dec Nat.eq_dec s F); auto. }
  destruct (in_rect_unique t m ls z Hwf Hls) as [k0 [lf0 [_ [_ U]]]].
  rewrite (U k lf Hk H1). now rewrite (U k' lf' Hk' H2).
Qed.

Lemma local_none m data ls x lf : data <> [] ->
  (sumf (fun lf => Qn (rows_in data (l_rect lf) (seq 0 m))) ls == Qn (length data))%Q ->
  (local_game m data ls x lf [] == cond_prob m data (l_rect lf) [] x)%Q.
Proof.
  intros Hd Total. unfold local_game, norm_prob. cbn [filter concat].
  assert (Hn : ~ (Qn (length data) == 0)%Q) by (apply Qn_neq0; destruct data; [congruence|cbn; lia]).
  assert (K : forall lf', (cond_prob m data (l_rect lf') [] x == Qn (rows_in data (l_rect lf') (seq 0 m)) / Qn (length data))%Q).
  { intro lf'. unfold cond_prob. cbn [sat_on forallb]. rewrite rows_in_nil.
    destruct data; [congruence|]. reflexivity. }
  rewrite (sumf_ext _ (fun lf' => Qn (rows_in data (l_rect lf') (seq 0 m)) * / Qn (length data))%Q)
    by (intros; apply K).
  rewrite sumf_scal_r, Total, K. field. trivial.
Qed.

Lemma worth_local_is_game m data forest x : is_game (worth_local m data forest x).
Proof.
  intros T U P. unfold worth_local. apply sumf_ext. intros ls _. apply sumf_ext. intros lf _.
  apply Qmult_comp; [reflexivity|]. exact (local_game_is_game m data ls x lf T U P).
Qed.

(** the values add up exactly as those of C07 *)
Theorem norm_efficiency C m P data ts forest x (rep : group -> nat) :
  coalitions_ok C m -> is_players C m P -> (forall g, In g P -> In (rep g) g) ->
  forallb (fun t => wf_tree t m) ts = true -> forest_leaves ts = Some forest ->
  data <> [] -> all_held m data forest ->
  (sumf (fun g => shap_values_leaves_normalized C m data forest x (rep g)) P ==
   sumf (fun g => shap_values_leaves C m data forest x (rep g)) P)%Q.
Proof.
  intros HC HP Hr Hwf Hf Hd Hh.
  pose proof (forest_leaves_ok ts m forest Hwf Hf) as HF.
  rewrite (sumf_ext _ (shapley gdec P (worth_local m data forest x))).
  2:{ intros g Hg. apply (norm_is_local_shapley C m P data ts forest x g); trivial. now apply Hr. }
  rewrite (shapley_efficiency gdec P) by (apply HP || apply worth_local_is_game).
  rewrite shap_efficiency by trivial.
  assert (HR : forall ls lf, In ls forest -> In lf ls -> rows_in data (l_rect lf) (seq 0 m) <> 0).
  { intros ls lf Hls Hlf. destruct (Hh ls lf Hls Hlf) as [z [Hz Hi]]. eapply held_rows; eassumption. }
  assert (E1 : (worth_local m data forest x P == worth m data forest x P)%Q).
  { rewrite (worth_all C m P data forest x HC HP HF).
    2:{ intros ls lf Hls Hlf _. destruct (Hh ls lf Hls Hlf) as [z [Hz Hi]].
        exists z. split; [trivial|]. now apply in_rect_Inside. }
    unfold worth_local. apply sumf_ext. intros ls Hls.
    destruct (forest_leaves_in ts forest ls Hf Hls) as [t [Ht Et]].
    rewrite forallb_forall in Hwf. specialize (Hwf t Ht).
    apply sumf_ext. intros lf Hlf. destruct (In_nth_error _ _ Hlf) as [k Hk].
    change (norm_prob m data ls lf (concat (filter (meets lf) P)) x) with (local_game m data ls x lf P).
    rewrite (local_all t C m P data ls x k lf HC HP Hwf Et); trivial.
    - ring.
    - intros. eapply HF; eassumption.
    - intros. eapply HR; eassumption. }
  assert (E2 : (worth_local m data forest x [] == worth m data forest x [])%Q).
  { unfold worth_local, worth. apply sumf_ext. intros ls Hls.
    destruct (forest_leaves_in ts forest ls Hf Hls) as [t [Ht Et]].
    rewrite forallb_forall in Hwf. specialize (Hwf t Ht).
    apply sumf_ext. intros lf Hlf. apply Qmult_comp; [reflexivity|].
    apply (local_none m data ls x lf Hd). eapply rows_total; eassumption. }
  rewrite E1, E2. reflexivity.
Qed.

Theorem norm_accounts_for_prediction C m P data ts forest x off rx rdata (rep : group -> nat) :
  coalitions_ok C m -> is_players C m P -> (forall g, In g P -> In (rep g) g) ->
  forallb (fun t => wf_tree t m) ts = true -> forest_leaves ts = Some forest -> data <> [] ->
  all_held m data forest ->
  dense_tree_predict ts (length ts) off x no_missing = Some rx ->
  Forall2 (fun z r => dense_tree_predict ts (length ts) off z no_missing = Some r) data rdata ->
  (sumf (fun g => shap_values_leaves_normalized C m data forest x (rep g)) P ==
   rx - sumf (fun r => r) rdata / Qn (length data))%Q.
Proof.
  intros HC HP Hr Hwf Hf Hd Hh Hx Hdata.
  rewrite (norm_efficiency C m P data ts forest x rep) by trivial.
  apply (shap_accounts_for_prediction C m P data ts forest x off rx rdata rep); trivial.
  intros ls lf H1 H2 _. exact (Hh ls lf H1 H2).
Qed.

(** ** Leaves meeting the same players *)
Lemma cond_prob_meets m data lf T x (f : group -> bool) : leaf_ok m lf ->
  (forall g, In g T -> f g = meets lf g) ->
  cond_prob m data (l_rect lf) (concat (filter f T)) x = cond_prob m data (l_rect lf) (concat T) x.
Proof.
  intros [_ [_ Hu]] Hf.
  assert (G : forall z, sat_on (l_rect lf) (concat (filter f T)) z = sat_on (l_rect lf) (concat T) z).
  { intro z. induction T as [|g T IH]; [reflexivity|]. cbn [filter concat].
    rewrite (Hf g) by now left. rewrite sat_on_app, <- IH by (intros; apply Hf; now right).
    destruct (meets lf g) eqn:E; [cbn [concat]; now rewrite sat_on_app|].
    replace (sat_on (l_rect lf) g z) with true; [reflexivity|]. symmetry. apply sat_on_true.
    intros s Hs. rewrite (Hu s); [reflexivity|]. intro Hv.
    assert (meets lf g = true) by (apply (touches_true lf g); eauto). congruence. }
  unfold cond_prob, rows_in. rewrite G. rewrite (filter_ext_in' _ _ _ (fun z _ => G z)). reflexivity.
Qed.

Theorem norm_same_players C m P data ts forest x g j :
  coalitions_ok C m -> is_players C m P ->
  forallb (fun t => wf_tree t m) ts = true -> forest_leaves ts = Some forest ->
  data <> [] -> all_held m data forest -> same_players P forest -> In g P -> In j g ->
  (shap_values_leaves_normalized C m data forest x j == shapley gdec P (worth_norm m data forest x) g)%Q.
Proof.
  intros HC HP Hwf Hf Hd Hh Hs Hg Hj.
  rewrite (norm_is_local_shapley C m P data ts forest x g j) by trivial.
  pose proof (forest_leaves_ok ts m forest Hwf Hf) as HF.
  assert (E : forall T, incl T P -> (worth_local m data forest x T == worth_norm m data forest x T)%Q).
  { intros T HT. unfold worth_local, worth_norm. apply sumf_ext. intros ls Hls. apply sumf_ext.
    intros lf Hlf. apply Qmult_comp; [reflexivity|]. unfold norm_prob.
    rewrite (cond_prob_meets m data lf T x (meets lf)); [|eapply HF; eassumption|reflexivity].
    apply Qmult_comp; [reflexivity|]. apply Qinv_comp. apply sumf_ext. intros lf' Hlf'.
    rewrite (cond_prob_meets m data lf' T x (meets lf)); [reflexivity|eapply HF; eassumption|].
    intros h Hh'. apply (Hs ls); trivial. auto. }
  unfold GameSpec.shapley. apply sumf_ext. intros T HT.
  assert (HTP : incl T P).
  { intros h Hh'. assert (In h (remove gdec g P)) by (eapply subs_incl; eassumption).
    apply in_remove in H. tauto. }
  rewrite !E; [reflexivity|trivial|]. intros h [<-|Hh']; auto.
Qed.

(** ** Cached variant *)
Lemma in_itv_lo_off i v :
  (forall b, (fst i = Fin b \/ snd i = Fin b) -> ~ (v == b)%Q) -> in_itv_lo i v = in_itv i v.
Proof.
  destruct i as [[|a|] [|b|]]; cbn; intro H; unfold in_itv_lo, in_itv; cbn; trivial;
  repeat match goal with
  | |- context [qleb ?u ?w] => destruct (qleb_spec u w)
  | |- context [qltb ?u ?w] => destruct (qltb_spec u w)
  end; cbn; trivial; exfalso;
  (try (apply (H a); [now left|]; lra)); (try (apply (H b); [now right|]; lra)).
Qed.

Lemma sat_lo_off p F x : (forall s b, (fst (p s) = Fin b \/ snd (p s) = Fin b) -> ~ (x s == b)%Q) ->
  sat_lo p F x = sat p F x.
Proof.
  intro H. unfold sat_lo, sat. f_equal. f_equal. apply filter_ext_in'. intros s _.
  apply in_itv_lo_off. intros b. apply H.
Qed.
Lemma not_out_lo_off p F x : (forall s b, (fst (p s) = Fin b \/ snd (p s) = Fin b) -> ~ (x s == b)%Q) ->
  not_out_lo p F x = not_out p F x.
Proof.
  intro H. unfold not_out_lo, not_out. f_equal. f_equal. apply filter_ext_in'. intros s _.
  pose proof (in_itv_lo_off (p s) (x s) (fun b => H s b)) as E. unfold in_itv_lo, in_itv in E.
  destruct (ext_leb_q (snd (p s)) (x s)), (ext_leb_q (fst (p s)) (x s)), (ext_ltb_q (fst (p s)) (x s)),
    (q_leb_ext (x s) (snd (p s))); cbn in *; congruence.
Qed.

Lemma map_indexed {A B} (f : nat * A -> B) (h : A -> B) l :
  (forall k a, In (k, a) (indexed l) -> f (k, a) = h a) -> map f (indexed l) = map h l.
Proof.
  unfold indexed. generalize 0. induction l as [|a l IH]; intros s H; [reflexivity|].
  cbn [length seq combine map]. f_equal; [apply H; now left|]. apply IH. intros k b Hk. apply H. now right.
Qed.

Lemma indexed_snd_in {A} (l : list A) k a : In (k, a) (indexed l) -> In a l.
Proof. unfold indexed. intro H. eapply in_combine_r. exact H. Qed.

Theorem norm_cache_same C m data forest x j : off_bounds forest x ->
  (shap_values_leaves_normalized_cache (leaves_cache_normalized C m data forest) C m (length data) forest x j
   == shap_values_leaves_normalized C m data forest x j)%Q.
Proof.
  intro Hoff. unfold shap_values_leaves_normalized_cache, shap_values_leaves_normalized.
  apply Qmult_comp; [|reflexivity].
  rewrite <- (sumf_indexed _ forest). apply sumf_ext. intros [b ls] Hb. cbn [fst snd].
  rewrite <- (sumf_indexed _ ls). apply sumf_ext. intros [k lf] Hk. cbn [fst snd].
  rewrite <- (sumf_indexed _ (va_ids C m)). apply sumf_ext. intros [i va] Hi. cbn [fst snd].
  apply Qmult_comp; [reflexivity|].
  assert (Hls := indexed_snd_in _ _ _ Hb).
  assert (Hst : forall F k' lf', In (k', lf') (indexed ls) -> sat_lo (l_rect lf') F x = sat (l_rect lf') F x).
  { intros F k' lf' H'. apply sat_lo_off. intros s q. apply (Hoff ls lf' s q Hls). eapply indexed_snd_in; eassumption. }
  assert (Hno : forall F k' lf', In (k', lf') (indexed ls) -> not_out_lo (l_rect lf') F x = not_out (l_rect lf') F x).
  { intros F k' lf' H'. apply not_out_lo_off. intros s q. apply (Hoff ls lf' s q Hls). eapply indexed_snd_in; eassumption. }
  unfold norm_leaf_player_cache, norm_leaf_player.
  destruct (others C m lf va) as [gs|] eqn:Eo; [|reflexivity].
  apply sumf_ext. intros c Hc. apply in_seq in Hc. unfold norm_term.
  set (F := concat (pick c gs)).
  set (ca := leaves_cache_normalized C m data forest).
  assert (Es : forall k' lf', In (k', lf') (indexed ls) ->
    entry_s_cache ca b i k c F x (k', lf') = entry_s m data F x lf').
  { intros k' lf' H'. unfold entry_s_cache, entry_s, ca, leaves_cache_normalized. cbn [fst snd n_lm n_lms].
    rewrite (indexed_nth forest [] b ls Hb), (indexed_nth ls dummy_leaf k lf Hk),
      (indexed_nth ls dummy_leaf k' lf' H'), (indexed_nth (va_ids C m) [] i va Hi), Eo.
    destruct (Nat.ltb_spec c (2 ^ length gs)); [|lia]. rewrite (Hst F k' lf' H'). reflexivity. }
  assert (Esi : forall k' lf', In (k', lf') (indexed ls) ->
    entry_si_cache ca b i k c F va x (k', lf') = entry_si m data F va x lf').
  { intros k' lf' H'. unfold entry_si_cache, entry_si, ca, leaves_cache_normalized. cbn [fst snd n_lm n_lmsi].
    rewrite (indexed_nth forest [] b ls Hb), (indexed_nth ls dummy_leaf k lf Hk),
      (indexed_nth ls dummy_leaf k' lf' H'), (indexed_nth (va_ids C m) [] i va Hi), Eo.
    destruct (Nat.ltb_spec c (2 ^ length gs)); [|lia].
    rewrite (Hst F k' lf' H'), (Hno va k' lf' H'). reflexivity. }
  rewrite (Es k lf Hk), (Esi k lf Hk).
  rewrite (map_indexed (entry_s_cache ca b i k c F x) (entry_s m data F x) ls Es).
  rewrite (map_indexed (entry_si_cache ca b i k c F va x) (entry_si m data F va x) ls Esi).
  reflexivity.
Qed.

Theorem api_normalized_same cn C m data forest x j : off_bounds forest x ->
  exists q, api_normalized true cn C C m data forest x j = Some q /\
    (q == shap_values_leaves_normalized C m data forest x j)%Q.
Proof.
  intro H. destruct cn; cbn; eexists; (split; [reflexivity|]); [now apply norm_cache_same|reflexivity].
Qed.
Theorem api_normalized_raises cache cn C0 C m data forest x j :
  api_normalized cache cn C0 C m data forest x j = None <-> cn = true /\ cache = false.
Proof. destruct cache, cn; cbn; intuition congruence. Qed.

(** Lemmas about the active-coalition Shapley routine and the parallel slots. *)
From Verif Require Import Base TreeModel TreeSpec TreeProofs GameSpec GameProofs
  ShapModel ShapSpec ShapProofs AcvModel AcvSpec.

Lemma cdiv_some a b q : cdiv a b = Some q -> ~ (b == 0)%Q /\ q = (a / b)%Q.
Proof. unfold cdiv. destruct (qeqb_spec b 0); [discriminate|]. intro E. injection E as <-. auto. Qed.

Lemma osum_sumf {A} (f : A -> option Q) l s : osum f l = Some s ->
  exists g, (forall a, In a l -> f a = Some (g a)) /\ (s == sumf g l)%Q.
Proof.
  intro H. exists (fun a => match f a with Some q => q | None => 0%Q end).
  revert s H. induction l as [|a l IH]; intros s H; cbn in H.
  - injection H as <-. split; [contradiction|reflexivity].
  - destruct (f a) as [u|] eqn:E; [|discriminate]. destruct (osum f l) as [v|]; [|discriminate].
    injection H as <-. destruct (IH v eq_refl) as [H1 H2]. split.
    + intros b [<-|Hb]; [now rewrite E|auto].
    + cbn [sumf]. rewrite E, H2. reflexivity.
Qed.
Lemma osum_total {A} (f : A -> option Q) l : (forall a, In a l -> exists q, f a = Some q) ->
  exists s, osum f l = Some s.
Proof.
  induction l as [|a l IH]; intro H; cbn; [eauto|].
  destruct (H a (or_introl eq_refl)) as [q ->].
  destruct IH as [s ->]; [intros; apply H; now right|]. eauto.
Qed.
Lemma osum_value {A} (f : A -> option Q) (g : A -> Q) l s : osum f l = Some s ->
  (forall a q, In a l -> f a = Some q -> (q == g a)%Q) -> (s == sumf g l)%Q.
Proof.
  intros H Hg. destruct (osum_sumf f l s H) as [h [H1 H2]]. rewrite H2. apply sumf_ext.
  intros a Ha. apply (Hg a); auto.
Qed.

(** counters of one player in one leaf, for any game without role for the
    untouched players *)
Lemma counters_shapley m P L u va (touched : list nat -> bool) :
  NoDup P -> NoDup L -> Permutation L (filter touched P) -> length P <= m -> In va L ->
  is_game u -> (forall p, In p P -> touched p = false -> null_in u p) ->
  (sumf (fun c => (coef_0 m (length (pick c (remove1 va L))) +
                   coef m (length (remove1 va L)) (length (pick c (remove1 va L))))
                  * (u (va :: pick c (remove1 va L)) - u (pick c (remove1 va L))))
        (seq 0 (2 ^ length (remove1 va L))) / Qn m == shapley gdec P u va)%Q.
Proof.
  intros HP Hn Hperm Hm Hin Hu Hnull.
  assert (Hva : In va P /\ touched va = true).
  { apply (Permutation_in va Hperm) in Hin. now apply filter_In in Hin. }
  destruct Hva as [Hva Ht].
  rewrite (shapley_restrict gdec P L u va touched) by trivial.
  rewrite (remove1_remove va L Hn).
  assert (Hlen : S (length (remove group_eq_dec va L)) = length L)
    by (apply (GameProofs.remove_length group_eq_dec); trivial).
  assert (HLm : length L <= m).
  { rewrite (Permutation_length Hperm). pose proof (filter_length_le touched P). lia. }
  set (gs := remove group_eq_dec va L) in *.
  unfold Qdiv. rewrite <- sumf_scal_r.
  rewrite (sumf_ext _ (fun c => (fun T => weight (length gs + 1) (length T) *
     (u (va :: T) - u T))%Q (pick c gs))).
  2:{ intros c _. rewrite <- (code_coef_is_weight m (length gs)) by (try apply pick_length; lia).
      field. apply Qn_neq0. lia. }
  rewrite (pick_subs (fun T => weight (length gs + 1) (length T) * (u (va :: T) - u T))%Q gs).
  unfold GameSpec.shapley. change (remove gdec va L) with gs.
  replace (length L) with (length gs + 1) by lia. reflexivity.
Qed.

Lemma shapley_plus l v w i :
  (shapley gdec l (fun T => v T + w T)%Q i == shapley gdec l v i + shapley gdec l w i)%Q.
Proof.
  unfold GameSpec.shapley. rewrite <- sumf_plus. apply sumf_ext. intros. ring.
Qed.

Lemma sum_nil_only {A} (q : Q) (l : list A) :
  (sumf (fun T => match T with [] => q | _ => 0 end) (subs l) == q)%Q.
Proof.
  induction l as [|a l IH]; [cbn; lra|]. rewrite sumf_subs_cons, IH, sumf_zero; [lra|reflexivity].
Qed.
(** the game that only gives a value to the empty set *)
Definition empty_only (q : Q) (T : list (list nat)) : Q := match T with [] => q | _ => 0%Q end.
Lemma shapley_empty_only l q i : NoDup l -> In i l ->
  (shapley gdec l (empty_only q) i == - q / Qn (length l))%Q.
Proof.
  intros Hd Hi. unfold GameSpec.shapley.
  rewrite (sumf_ext _ (fun T => match T with [] => - (weight (length l) 0 * q) | _ => 0 end)%Q).
  2:{ intros [|a T] _; unfold empty_only; cbn [length]; ring. }
  rewrite sum_nil_only.
  assert (Hpos : 0 < length l) by (destruct l; [contradiction|cbn; lia]).
  pose proof (weight_first (length l) Hpos) as E.
  assert (Hz : ~ (Qn (length l) == 0)%Q) by (apply Qn_neq0; lia).
  assert (E' : (weight (length l) 0 == 1 / Qn (length l))%Q).
  { rewrite <- E. field. trivial. }
  rewrite E'. field. trivial.
Qed.

(** game of one leaf given also the null variables *)
Definition leaf_game_n m (N : list nat) data lf x (T : list (list nat)) : Q :=
  cond_prob m data (l_rect lf) (concat T ++ N) x.
Lemma leaf_game_n_is_game m N data lf x : is_game (leaf_game_n m N data lf x).
Proof.
  intros T U P. unfold leaf_game_n.
  rewrite (cond_prob_same m data (l_rect lf) (concat T ++ N) (concat U ++ N)); [reflexivity|].
  intro s. rewrite !in_app_iff. apply concat_perm in P.
  split; (intros [H|H]; [left|now right]); [|symmetry in P]; eapply Permutation_in; eassumption.
Qed.
Lemma leaf_game_n_null m N data lf x g : leaf_ok m lf ->
  (forall s, In s g -> In s (l_vars lf) -> In s N) -> null_in (leaf_game_n m N data lf x) g.
Proof.
  intros [_ [_ Hu]] Hg T. unfold leaf_game_n. cbn [concat].
  enough (G : forall z, sat_on (l_rect lf) ((g ++ concat T) ++ N) z = sat_on (l_rect lf) (concat T ++ N) z).
  { unfold cond_prob, rows_in. rewrite G.
    rewrite (filter_ext_in' (sat_on (l_rect lf) ((g ++ concat T) ++ N)) (sat_on (l_rect lf) (concat T ++ N)))
      by (intros; apply G). reflexivity. }
  intro z. apply bool_eq_iff. rewrite !sat_on_true. split; intros K s Hs.
  - apply K. rewrite <- app_assoc. apply in_or_app. now right.
  - rewrite <- app_assoc in Hs. apply in_app_or in Hs. destruct Hs as [Hs|Hs]; [|auto].
    destruct (in_dec Nat.eq_dec s (l_vars lf)) as [Hv|Hv].
    + apply K. apply in_or_app. right. now apply Hg.
    + rewrite (Hu s Hv). reflexivity.
Qed.

Lemma count_s_rows data p F : count_s data p F = rows_in data p F.
Proof. unfold count_s, rows_in. f_equal. apply filter_ext_in'. intros; apply sat_sat_on. Qed.
Lemma count_si_rows data p F va : count_si data p F va = rows_in data p (va ++ F).
Proof.
  unfold count_si, rows_in. f_equal. apply filter_ext_in'. intros z _.
  rewrite sat_on_app, sat_sat_on, not_out_sat_on. apply andb_comm.
Qed.

Lemma cdiv_cond m data p F x b q : b = sat_on p F x ->
  cdiv (Qb b * Qn (rows_in data p (seq 0 m))) (Qn (rows_in data p F)) = Some q ->
  (q == cond_prob m data p F x)%Q.
Proof.
  intros -> H. apply cdiv_some in H. destruct H as [Hz ->]. unfold cond_prob.
  destruct (rows_in data p F) as [|n]; [exfalso; apply Hz; reflexivity|].
  destruct (sat_on p F x); cbn [Qb]; field; trivial.
Qed.

Lemma acv_term_value d m N data x lf va gs c q :
  (forall g, In g gs -> g <> []) -> 0 < m ->
  acv_term d m N data x lf va gs c = Some q ->
  let u := leaf_game_n d N data lf x in
  let T := pick c gs in
  let lm := (Qn (rows_in data (l_rect lf) (seq 0 d)) / Qn (length data))%Q in
  (q == l_val lf * ((coef_0 m (length T) + coef m (length gs) (length T)) * (u (va :: T) - u T)
        + match T with [] => u [] - lm | _ => 0 end))%Q.
Proof.
  intros Hne Hm H u T lm. unfold acv_term in H. fold T in H.
  rewrite count_leaf_rows, count_s_rows, count_si_rows, sat_sat_on, not_out_sat_on in H.
  destruct (cdiv (Qb (sat_on (l_rect lf) (concat T ++ N) x) * _) _) as [p_s|] eqn:Es; [|discriminate].
  destruct (cdiv (Qb (_ && _) * _) _) as [p_si|] eqn:Esi; [|discriminate].
  apply (cdiv_cond d data (l_rect lf) (concat T ++ N) x) in Es; [|reflexivity].
  apply (cdiv_cond d data (l_rect lf) (va ++ concat T ++ N) x) in Esi;
    [|rewrite (sat_on_app _ va); apply andb_comm].
  assert (Eu : u T = cond_prob d data (l_rect lf) (concat T ++ N) x) by reflexivity.
  assert (Ev : u (va :: T) = cond_prob d data (l_rect lf) (va ++ concat T ++ N) x)
    by (unfold u, leaf_game_n; cbn [concat]; now rewrite app_assoc).
  rewrite <- Eu in Es. rewrite <- Ev in Esi.
  destruct (Nat.eqb_spec (length (concat T)) 0) as [E0|E0].
  - assert (HT : T = []).
    { destruct T as [|g T'] eqn:ET; [trivial|]. exfalso.
      assert (Hg : In g gs).
      { assert (Hsub : forall gs ci g, In g (pick_from ci c gs) -> In g gs).
        { clear. induction gs as [|k gs IH]; intros ci g H; cbn in H; [trivial|].
          destruct (Nat.testbit c ci); [destruct H as [<-|H]|]; [now left|right; eauto|right; eauto]. }
        apply (Hsub gs 0). change (pick_from 0 c gs) with (pick c gs). fold T. rewrite ET. now left. }
      apply Hne in Hg. cbn [concat] in E0. rewrite app_length in E0. destruct g; [congruence|cbn in E0; lia]. }
    rewrite HT in *.
    destruct (cdiv (Qn (rows_in data (l_rect lf) (seq 0 d))) (Qn (length data))) as [p_off|] eqn:Eo; [|discriminate].
    apply cdiv_some in Eo. destruct Eo as [_ Eo].
    injection H as <-. rewrite Es, Esi, Eo. fold lm. cbn [length].
    assert (E1 : (coef_0 m 0 == 1)%Q).
    { unfold coef_0, binomialC. rewrite comb_exact, choose_0_r. reflexivity. }
    rewrite E1. ring.
  - injection H as <-. rewrite Es, Esi. destruct T as [|g T']; [contradiction|]. ring.
Qed.

Lemma acv_absent_value d N data x lf q : acv_absent d N data x lf = Some q ->
  (q == l_val lf * (leaf_game_n d N data lf x [] - Qn (rows_in data (l_rect lf) (seq 0 d)) / Qn (length data)))%Q.
Proof.
  unfold acv_absent. rewrite count_leaf_rows, count_s_rows, sat_sat_on.
  destruct (cdiv (Qn _) _) as [p_s|] eqn:Es; [|discriminate].
  destruct (cdiv (Qb _ * _) _) as [p_si|] eqn:Esi; [|discriminate].
  intro H. injection H as <-. apply cdiv_some in Es. destruct Es as [_ ->].
  apply (cdiv_cond d data (l_rect lf) N x) in Esi; [|reflexivity]. rewrite Esi.
  unfold leaf_game_n. cbn [concat app]. ring.
Qed.

(** ** Players *)
Lemma acv_va_ids_players C d S : coalitions_ok C d -> NoDup S ->
  is_players_of C S (acv_va_ids C S).
Proof.
  intros HC HS. unfold acv_va_ids.
  assert (G : NoDup (acv_va_ids C S) /\ forall g, In g (acv_va_ids C S) <->
    (exists i, In i S /\ ~ In i (concat C) /\ g = [i]) \/ (In g C /\ exists i, In i S /\ In i g)).
  { unfold acv_va_ids. destruct (has_coal C) eqn:E.
    - destruct HC as [H1 _]. apply va_loop_spec; trivial. apply incl_refl.
    - apply singles_spec; [now apply (no_coal_concat C d)|trivial]. }
  destruct G as [G1 G2]. split; [exact G1|]. intro g. unfold acv_va_ids in G2. rewrite G2. tauto.
Qed.
Lemma players_of_perm C S P P' : is_players_of C S P -> is_players_of C S P' -> Permutation P P'.
Proof.
  intros [H1 H2] [H3 H4]. apply NoDup_Permutation; trivial. intro g. now rewrite H2, H4.
Qed.

Lemma acv_groups_touch C d S N P lf : coalitions_ok C d -> is_players_of C S P -> leaf_ok d lf ->
  (forall s, In s (l_vars lf) -> In s S \/ In s N) -> (forall s, In s S -> ~ In s N) ->
  let touched g := existsb (fun s => memb s (acv_vars N (l_vars lf))) g in
  NoDup (acv_leaf_groups C S N (l_vars lf)) /\
  Permutation (acv_leaf_groups C S N (l_vars lf)) (filter touched P).
Proof.
  intros HC HP [Hn _] Hcov Hdis touched.
  assert (Hn' : NoDup (acv_vars N (l_vars lf))) by now apply NoDup_filter.
  assert (HS : forall v, In v (acv_vars N (l_vars lf)) -> In v S).
  { intros v Hv. apply filter_In in Hv. destruct Hv as [Hv Hb].
    apply negb_true_iff, memb_false in Hb. destruct (Hcov v Hv); [trivial|contradiction]. }
  assert (G : NoDup (acv_leaf_groups C S N (l_vars lf)) /\
    forall g, In g (acv_leaf_groups C S N (l_vars lf)) <->
    (exists i, In i (acv_vars N (l_vars lf)) /\ ~ In i (concat C) /\ g = [i]) \/
    (In g C /\ exists i, In i (acv_vars N (l_vars lf)) /\ In i g)).
  { unfold acv_leaf_groups. destruct (has_coal C) eqn:E.
    - rewrite (leaf_loop_eq _ (concat C)).
      + destruct HC as [H1 _]. apply va_loop_spec; trivial. apply incl_refl.
      + intros v Hv. unfold acv_remove_va. destruct (memb_spec v (concat C)) as [Hc|Hc]; cbn [negb].
        * apply memb_false. rewrite filter_In. intros [_ K]. apply negb_true_iff, memb_false in K. contradiction.
        * apply memb_true. apply filter_In. split; [auto|]. now apply negb_true_iff, memb_false.
    - apply singles_spec; [now apply (no_coal_concat C d)|trivial]. }
  destruct G as [G1 G2]. split; [exact G1|].
  apply NoDup_Permutation; [trivial|apply NoDup_filter, HP|]. intro g.
  rewrite G2, filter_In. destruct HP as [_ HP]. rewrite HP.
  assert (Ht : touched g = true <-> exists s, In s g /\ In s (acv_vars N (l_vars lf))).
  { unfold touched. rewrite existsb_exists. split; intros [s [K1 K2]]; exists s; split; trivial;
    now apply memb_true. }
  rewrite Ht. split.
  - intros [[i [Hi [Hni ->]]]|[Hg [i [Hi Hig]]]].
    + split; [right; exists i; auto|]. exists i. split; [now left|trivial].
    + split; [left; split; [trivial|exists i; auto]|]. exists i. auto.
  - intros [[[Hg _]|[i [_ [Hni ->]]]] [s [Hs Hv]]].
    + right. split; [trivial|]. exists s. auto.
    + destruct Hs as [->|[]]. left. exists s. auto.
Qed.

Lemma remove1_in_incl g gs h : In h (remove1 g gs) -> In h gs.
Proof. apply remove1_incl. Qed.

(** ** C12 *)
Lemma acv_leaf_value C d S N P data x lf va q :
  coalitions_ok C d -> is_players_of C S P -> leaf_ok d lf ->
  (forall s, In s (l_vars lf) -> In s S \/ In s N) -> (forall s, In s S -> ~ In s N) ->
  In va P ->
  acv_leaf_player C d (length P) S N data x lf va = Some q ->
  (q / Qn (length P) == l_val lf *
     shapley gdec P (fun T => leaf_game_n d N data lf x T +
        empty_only (Qn (rows_in data (l_rect lf) (seq 0 d)) / Qn (length data) - leaf_game_n d N data lf x []) T) va)%Q.
Proof.
  intros HC HP Hlf Hcov Hdis Hva H.
  set (u := leaf_game_n d N data lf x) in *.
  set (lm := (Qn (rows_in data (l_rect lf) (seq 0 d)) / Qn (length data))%Q) in *.
  destruct (acv_groups_touch C d S N P lf HC HP Hlf Hcov Hdis) as [Hn Hperm].
  assert (Hnull : forall p, existsb (fun s => memb s (acv_vars N (l_vars lf))) p = false -> null_in u p).
  { intros p Hp. apply leaf_game_n_null; [trivial|]. intros s Hs Hv.
    destruct (in_dec Nat.eq_dec s N) as [|Hns]; [trivial|]. exfalso.
    assert (existsb (fun s => memb s (acv_vars N (l_vars lf))) p = true); [|congruence].
    apply existsb_exists. exists s. split; [trivial|]. apply memb_true, filter_In. split; [trivial|].
    now apply negb_true_iff, memb_false. }
  assert (Hpos : 0 < length P) by (destruct P; [contradiction|cbn; lia]).
  assert (Hz : ~ (Qn (length P) == 0)%Q) by (apply Qn_neq0; lia).
  rewrite shapley_plus, shapley_empty_only by (trivial; apply HP).
  unfold acv_leaf_player in H. set (L := acv_leaf_groups C S N (l_vars lf)) in *.
  destruct (in_dec group_eq_dec va L) as [Hin|Hin].
  - assert (Hne : forall g, In g (remove1 va L) -> g <> []).
    { intros g Hg. apply remove1_incl in Hg. apply (Permutation_in g Hperm) in Hg.
      apply filter_In in Hg. destruct Hg as [Hg _]. apply HP in Hg.
      destruct Hg as [[_ [i [_ Hi]]]|[i [_ [_ ->]]]]; [intros ->; contradiction|discriminate]. }
    set (gs := remove1 va L) in *.
    apply (osum_value _ (fun c => l_val lf * ((coef_0 (length P) (length (pick c gs)) + coef (length P) (length gs) (length (pick c gs)))
              * (u (va :: pick c gs) - u (pick c gs)) + match pick c gs with [] => u [] - lm | _ => 0 end))%Q) in H.
    2:{ intros c q0 _ Hq. exact (acv_term_value d (length P) N data x lf va gs c q0 Hne Hpos Hq). }
    rewrite H, sumf_scal, sumf_plus.
    rewrite (pick_subs (fun T => match T with [] => u [] - lm | _ => 0 end)%Q gs).
    rewrite sum_nil_only.
    rewrite <- (counters_shapley (length P) P L u va (fun g => existsb (fun s => memb s (acv_vars N (l_vars lf))) g)); trivial.
    + fold gs. field. trivial.
    + apply HP.
    + apply leaf_game_n_is_game.
    + intros p _. apply Hnull.
  - apply acv_absent_value in H. rewrite H. fold u lm.
    rewrite (shapley_null gdec P).
    + field. trivial.
    + apply Hnull. destruct (existsb _ va) eqn:E; [|trivial]. exfalso. apply Hin.
      apply (Permutation_in va (Permutation_sym Hperm)). apply filter_In. auto.
Qed.

Lemma player_of_unique C d S P g h j : coalitions_ok C d -> is_players_of C S P ->
  In g P -> In h P -> In j g -> In j h -> g = h.
Proof.
  intros [Hd _] [_ HP] Hg Hh Hj Hk. apply HP in Hg, Hh.
  destruct Hg as [[Hg _]|[a [_ [Ha ->]]]], Hh as [[Hh _]|[b [_ [Hb ->]]]].
  - exact (concat_unique C g h j Hd Hg Hh Hj Hk).
  - destruct Hk as [->|[]]. exfalso. apply Hb. eapply in_concat_of; eassumption.
  - destruct Hj as [->|[]]. exfalso. apply Ha. eapply in_concat_of; eassumption.
  - destruct Hj as [->|[]], Hk as [->|[]]. reflexivity.
Qed.
Lemma player_of_NoDup C d S P g : coalitions_ok C d -> is_players_of C S P -> In g P -> NoDup g.
Proof.
  intros [Hd _] [_ HP] Hg. apply HP in Hg. destruct Hg as [[Hg _]|[a [_ [_ ->]]]].
  - eapply NoDup_concat_in; eassumption.
  - constructor; [intros []|constructor].
Qed.

Lemma repeat_players P g j : NoDup P -> In g P ->
  (forall h, In h P -> In j h -> h = g) -> count_occ Nat.eq_dec g j = 1 ->
  flat_map (fun va => repeat va (count_occ Nat.eq_dec va j)) P = [g].
Proof.
  intros Hd Hg Hu H1.
  assert (Hz : forall h, h <> g -> In h P -> count_occ Nat.eq_dec h j = 0).
  { intros h Hne Hh. apply count_occ_not_In. intro. apply Hne. auto. }
  clear Hu. induction Hd as [|h P Hn Hd IH]; [contradiction|]. cbn [flat_map].
  destruct (group_eq_dec h g) as [->|Hne].
  - rewrite H1. cbn [repeat app]. f_equal.
    assert (Hz' : forall h, In h P -> count_occ Nat.eq_dec h j = 0).
    { intros k Hk. apply Hz; [intros ->; contradiction|now right]. }
    clear - Hz'. induction P as [|k P IH]; [reflexivity|]. cbn [flat_map].
    rewrite (Hz' k) by now left. cbn [repeat app]. apply IH. intros; apply Hz'; now right.
  - rewrite (Hz h Hne) by now left. cbn [repeat app]. destruct Hg as [->|Hg]; [congruence|].
    apply IH; [trivial|]. intros; apply Hz; [trivial|now right].
Qed.

Lemma worth_acv_leaves d N data forest x T : data <> [] ->
  (worth_acv d N data forest x T == sumf (fun ls => sumf (fun lf =>
     l_val lf * (leaf_game_n d N data lf x T +
        empty_only (Qn (rows_in data (l_rect lf) (seq 0 d)) / Qn (length data) - leaf_game_n d N data lf x []) T)) ls) forest)%Q.
Proof.
  intro Hd. unfold worth_acv. destruct T as [|g T]; unfold worth; apply sumf_ext; intros ls _;
    apply sumf_ext; intros lf _; apply Qmult_comp; try reflexivity; cbn [empty_only].
  - transitivity (Qn (rows_in data (l_rect lf) (seq 0 d)) / Qn (length data))%Q; [|ring].
    unfold cond_prob. cbn [concat sat_on forallb].
    assert (R : rows_in data (l_rect lf) [] = length data).
    { unfold rows_in. f_equal. clear. induction data as [|a l IH]; cbn; [trivial|now rewrite IH]. }
    rewrite R. destruct data as [|a data]; [congruence|]. reflexivity.
  - unfold leaf_game_n. rewrite concat_app. cbn [concat]. rewrite app_nil_r. ring.
Qed.

Lemma worth_acv_is_game d N data forest x : is_game (worth_acv d N data forest x).
Proof.
  intros T U P. destruct T as [|g T], U as [|h U]; try reflexivity.
  - apply Permutation_nil_cons in P. contradiction.
  - symmetry in P. apply Permutation_nil_cons in P. contradiction.
  - apply worth_is_game. now apply Permutation_app_tail.
Qed.

Theorem acv_is_shapley C d S N P data forest x g j q :
  coalitions_ok C d -> is_players_of C S P -> forest_ok d forest -> data <> [] ->
  active_null_cover S N forest -> In g P -> In j g ->
  shap_values_acv C d S N data forest x j = Some q ->
  (q == shapley gdec P (worth_acv d N data forest x) g)%Q.
Proof.
  intros HC HP HF Hd [HS [Hdis Hcov]] Hg Hj H. unfold shap_values_acv in H.
  pose proof (acv_va_ids_players C d S HC HS) as HV.
  set (V := acv_va_ids C S) in *.
  assert (Hgv : In g V) by (apply HV; apply HP in Hg; exact Hg).
  assert (Hperm : Permutation P V) by (eapply players_of_perm; eassumption).
  rewrite (shapley_perm gdec P V) by (trivial; apply worth_acv_is_game).
  rewrite (repeat_players V g j) in H.
  2: apply HV. 2: exact Hgv.
  2:{ intros h Hh Hjh. eapply (player_of_unique C d S V); eassumption. }
  2:{ pose proof (player_of_NoDup C d S V g HC HV Hgv) as Hnd.
      rewrite (NoDup_count_occ' Nat.eq_dec) in Hnd. now apply Hnd. }
  destruct (osum _ forest) as [s|] eqn:Es; [|discriminate].
  apply cdiv_some in H. destruct H as [Hz ->].
  rewrite (shapley_ext gdec V _ _ g (fun T => worth_acv_leaves d N data forest x T Hd)).
  rewrite (shapley_sum gdec V (fun ls T => sumf (fun lf =>
     l_val lf * (leaf_game_n d N data lf x T +
        empty_only (Qn (rows_in data (l_rect lf) (seq 0 d)) / Qn (length data) - leaf_game_n d N data lf x []) T))%Q ls)).
  apply (osum_value _ (fun ls => Qn (length V) * sumf (fun lf => l_val lf * shapley gdec V (fun T => leaf_game_n d N data lf x T +
        empty_only (Qn (rows_in data (l_rect lf) (seq 0 d)) / Qn (length data) - leaf_game_n d N data lf x []) T) g) ls)%Q) in Es.
  2:{ intros ls qs Hls Hqs.
      rewrite <- sumf_scal. apply (osum_value _ _ ls qs Hqs). intros lf ql Hlf Hql.
      cbn [osum] in Hql. destruct (acv_leaf_player C d (length V) S N data x lf g) as [qa|] eqn:Ea; [|discriminate].
      injection Hql as <-.
      assert (E := acv_leaf_value C d S N V data x lf g qa HC HV (HF ls lf Hls Hlf)
                     (fun s => Hcov ls lf s Hls Hlf) Hdis Hgv Ea).
      rewrite <- E. field. trivial. }
  rewrite Es, sumf_scal.
  match goal with |- (_ * ?a / _ == _)%Q => transitivity a end.
  - field. trivial.
  - apply sumf_ext. intros ls _.
    rewrite (shapley_sum gdec V (fun lf T => l_val lf * (leaf_game_n d N data lf x T +
        empty_only (Qn (rows_in data (l_rect lf) (seq 0 d)) / Qn (length data) - leaf_game_n d N data lf x []) T))%Q).
    apply sumf_ext. intros lf _. rewrite shapley_scal. reflexivity.
Qed.

Theorem acv_efficiency C d S N P data forest x (rep : list nat -> nat) (phi : nat -> Q) :
  coalitions_ok C d -> is_players_of C S P -> forest_ok d forest -> data <> [] ->
  active_null_cover S N forest -> (forall g, In g P -> In (rep g) g) ->
  (forall g, In g P -> shap_values_acv C d S N data forest x (rep g) = Some (phi (rep g))) ->
  (sumf (fun g => phi (rep g)) P ==
   worth_acv d N data forest x P - worth_acv d N data forest x [])%Q.
Proof.
  intros HC HP HF Hd HA Hr Hphi.
  rewrite (sumf_ext _ (shapley gdec P (worth_acv d N data forest x))).
  - apply shapley_efficiency; [apply HP|apply worth_acv_is_game].
  - intros g Hg. exact (acv_is_shapley C d S N P data forest x g (rep g) _ HC HP HF Hd HA Hg (Hr g Hg) (Hphi g Hg)).
Qed.

(** ** C13: defined when every leaf holds a background row *)
Lemma cdiv_def a n : n <> 0 -> exists q, cdiv a (Qn n) = Some q.
Proof.
  intro H. unfold cdiv. destruct (qeqb_spec (Qn n) 0) as [E|E]; [|eauto].
  exfalso. apply H. now apply Qn_inj.
Qed.

Lemma rows_pos_of_leaf d data lf F : leaf_ok d lf -> rows_in data (l_rect lf) (seq 0 d) <> 0 ->
  rows_in data (l_rect lf) F <> 0.
Proof.
  intros [_ [Hv Hu]] H. enough (rows_in data (l_rect lf) (seq 0 d) <= rows_in data (l_rect lf) F) by lia.
  unfold rows_in. clear H. induction data as [|z data IH]; cbn; [lia|].
  destruct (sat_on (l_rect lf) (seq 0 d) z) eqn:E.
  - assert (sat_on (l_rect lf) F z = true) as ->; [|cbn; lia].
    rewrite sat_on_true in *. intros s Hs. destruct (in_dec Nat.eq_dec s (l_vars lf)) as [K|K].
    + apply E, in_seq. specialize (Hv s K). lia.
    + rewrite (Hu s K). reflexivity.
  - destruct (sat_on (l_rect lf) F z); cbn; lia.
Qed.

Theorem acv_defined C d S N data forest x j g :
  coalitions_ok C d -> NoDup S -> forest_ok d forest -> In j S \/ In g C /\ In j g /\ (exists i, In i S /\ In i g) ->
  (forall ls lf, In ls forest -> In lf ls -> exists z, In z data /\ Inside d (l_rect lf) z) ->
  data <> [] -> exists q, shap_values_acv C d S N data forest x j = Some q.
Proof.
  intros HC HS HF Hj Hpop Hd. unfold shap_values_acv.
  pose proof (acv_va_ids_players C d S HC HS) as HV.
  assert (HVne : length (acv_va_ids C S) <> 0).
  { assert (exists h, In h (acv_va_ids C S)) as [h Hh].
    { destruct Hj as [Hj|[Hg [Hjg Hi]]].
      - destruct (in_dec Nat.eq_dec j (concat C)) as [Hc|Hc].
        + apply in_concat in Hc. destruct Hc as [h [Hh Hjh]]. exists h. apply HV. left. eauto.
        + exists [j]. apply HV. right. eauto.
      - exists g. apply HV. left. auto. }
    destruct (acv_va_ids C S); [contradiction|cbn; lia]. }
  destruct (osum_total (fun ls => osum (fun lf => osum (acv_leaf_player C d (length (acv_va_ids C S)) S N data x lf)
                 (flat_map (fun va => repeat va (count_occ Nat.eq_dec va j)) (acv_va_ids C S))) ls) forest) as [s ->].
  2: apply (cdiv_def _ _ HVne).
  intros ls Hls. apply osum_total. intros lf Hlf. apply osum_total. intros va _.
  assert (Hok := HF ls lf Hls Hlf).
  assert (Hlm : rows_in data (l_rect lf) (seq 0 d) <> 0).
  { destruct (Hpop ls lf Hls Hlf) as [z [Hz Hzi]]. apply in_rect_Inside in Hzi.
    unfold rows_in. intro E. apply length_zero_iff_nil in E.
    assert (Hin : In z (filter (sat_on (l_rect lf) (seq 0 d)) data)) by (apply filter_In; auto).
    rewrite E in Hin. contradiction. }
  assert (HN : length data <> 0) by (destruct data; [congruence|cbn; lia]).
  unfold acv_leaf_player. destruct (in_dec _ va _).
  - apply osum_total. intros c _. unfold acv_term. rewrite count_s_rows, count_si_rows.
    edestruct (cdiv_def (Qb (sat (l_rect lf) (concat (pick c (remove1 va (acv_leaf_groups C S N (l_vars lf)))) ++ N) x)
        * Qn (count_leaf d data (l_rect lf)))) as [p ->]; [eapply rows_pos_of_leaf; eassumption|].
    edestruct (cdiv_def (Qb (sat (l_rect lf) (concat (pick c (remove1 va (acv_leaf_groups C S N (l_vars lf)))) ++ N) x
        && not_out (l_rect lf) va x)
        * Qn (count_leaf d data (l_rect lf)))) as [p' ->]; [eapply rows_pos_of_leaf; eassumption|].
    destruct (length _ =? 0); [|eauto].
    destruct (cdiv_def (Qn (count_leaf d data (l_rect lf))) (length data) HN) as [p'' ->]. eauto.
  - unfold acv_absent. rewrite count_s_rows.
    destruct (cdiv_def (Qn (count_leaf d data (l_rect lf))) (length data) HN) as [p'' ->].
    edestruct (cdiv_def (Qb (sat (l_rect lf) N x) * Qn (count_leaf d data (l_rect lf)))) as [p ->];
      [eapply rows_pos_of_leaf; eassumption|]. eauto.
Qed.

(** ** C11: schedules *)
Lemma fold_left_ext_local {A B} (f g : A -> B -> A) l : (forall a b, f a b = g a b) ->
  forall a, fold_left f l a = fold_left g l a.
Proof. intro H. induction l as [|b l IH]; intro a; [reflexivity|]. cbn. now rewrite H, IH. Qed.
Section Sched.
Context {V : Type} (add : V -> V -> V).

Lemma run_local l : forall (st : nat -> local V) k,
  run add st l k = fold_left (fun s o => run_instr add o s) (map snd (filter (fun ko => k =? fst ko) l)) (st k).
Proof.
  unfold run. induction l as [|[k0 o] l IH]; intros st k; [reflexivity|].
  cbn [fold_left filter fst]. rewrite IH. unfold run_step at 1. cbn [fst snd].
  destruct (k =? k0); reflexivity.
Qed.

Lemma interleaving_proj {A} (ps : nat -> list A) l : interleaving ps l ->
  forall k, map snd (filter (fun ko => k =? fst ko) l) = ps k.
Proof.
  induction 1 as [ps H|ps k0 a r l E H IH]; intro k; cbn [filter map fst].
  - symmetry. apply H.
  - destruct (Nat.eqb_spec k k0) as [->|Hne].
    + cbn [map snd]. rewrite IH, Nat.eqb_refl. now symmetry.
    + rewrite IH. destruct (Nat.eqb_spec k k0); [contradiction|reflexivity].
Qed.

Theorem schedule_independent (ps : nat -> list (instr V)) l l' st :
  interleaving ps l -> interleaving ps l' -> forall k, run add st l k = run add st l' k.
Proof.
  intros H H' k. rewrite !run_local, (interleaving_proj ps l H), (interleaving_proj ps l' H'). reflexivity.
Qed.
End Sched.

(** slots of one leaf after its program, in exact arithmetic *)
Lemma pair_store (s : local Q) c j dl c' j' :
  slot (fold_left (fun s o => run_instr Qplus o s) [Load c j; AddStore c j dl] s) c' j' =
  if (c' =? c) && (j' =? j) then (slot s c j + dl)%Q else slot s c' j'.
Proof. reflexivity. Qed.

Lemma pairs_store {A} (f : A -> nat * nat * Q) l : forall (s : local Q) c' j',
  (slot (fold_left (fun s o => run_instr Qplus o s)
     (flat_map (fun a => [Load (fst (fst (f a))) (snd (fst (f a))); AddStore (fst (fst (f a))) (snd (fst (f a))) (snd (f a))]) l) s) c' j'
   == slot s c' j' + sumf (fun a => if ((c' =? fst (fst (f a))) && (j' =? snd (fst (f a))))%nat then snd (f a) else 0) l)%Q.
Proof.
  induction l as [|a l IH]; intros s c' j'; [cbn; lra|].
  cbn [flat_map]. rewrite fold_left_app, IH. cbn [sumf]. rewrite pair_store.
  destruct (f a) as [[c j] dl]. cbn [fst snd].
  destruct (Nat.eqb_spec c' c), (Nat.eqb_spec j' j); cbn [andb]; subst; lra.
Qed.

Definition program_pairs (C : list group) m lf (delta : group -> nat -> Q) : list (nat * nat * Q) :=
  flat_map (fun va => match others C m lf va with
    | None => []
    | Some gs => flat_map (fun c => map (fun j => (c, j, delta va c)) va) (seq 0 (2 ^ length gs)) end) (va_ids C m).
Lemma flat_map_map {A B D} (f : B -> list D) (g : A -> B) l : flat_map f (map g l) = flat_map (fun a => f (g a)) l.
Proof. induction l as [|a l IH]; [reflexivity|]. cbn. now rewrite IH. Qed.
Lemma flat_map_flat_map {A B D} (f : B -> list D) (g : A -> list B) l :
  flat_map f (flat_map g l) = flat_map (fun a => flat_map f (g a)) l.
Proof. induction l as [|a l IH]; [reflexivity|]. cbn. now rewrite flat_map_app, IH. Qed.
Lemma leaf_program_pairs C m lf delta : leaf_program C m lf delta =
  flat_map (fun a => [Load (fst (fst a)) (snd (fst a)); AddStore (fst (fst a)) (snd (fst a)) (snd a)])
    (program_pairs C m lf delta).
Proof.
  unfold leaf_program, program_pairs. rewrite flat_map_flat_map. apply flat_map_ext. intro va.
  destruct (others C m lf va); [|reflexivity]. rewrite flat_map_flat_map. apply flat_map_ext. intro c.
  rewrite flat_map_map. reflexivity.
Qed.

Lemma sumf_list_prod {A B} (f : A * B -> Q) l l' :
  (sumf f (list_prod l l') == sumf (fun a => sumf (fun b => f (a, b)) l') l)%Q.
Proof.
  induction l as [|a l IH]; [reflexivity|]. cbn [list_prod sumf].
  rewrite sumf_app, sumf_map, IH. reflexivity.
Qed.
Lemma fold_add_sumf {A} (f : A -> Q) l : forall acc,
  (fold_left (fun acc a => acc + f a) l acc == acc + sumf f l)%Q.
Proof. induction l as [|a l IH]; intro acc; cbn [fold_left sumf]; [lra|]. rewrite IH. lra. Qed.

Lemma sum_indicator (v : Q) c n : c < n ->
  (sumf (fun c' => if (c' =? c)%nat then v else 0) (seq 0 n) == v)%Q.
Proof.
  intro H. rewrite (sumf_single _ (seq 0 n) c).
  - now rewrite Nat.eqb_refl.
  - apply seq_NoDup.
  - apply in_seq. lia.
  - intros c' _ Hne. destruct (Nat.eqb_spec c' c); [contradiction|reflexivity].
Qed.

Lemma count_indicator (v : Q) j l :
  (sumf (fun j' => if (j =? j')%nat then v else 0) l == Qn (count_occ Nat.eq_dec l j) * v)%Q.
Proof.
  induction l as [|a l IH]; [cbn [sumf count_occ]; rewrite Qn_0; ring|]. cbn [sumf count_occ].
  destruct (Nat.eq_dec a j) as [->|Hne].
  - rewrite Nat.eqb_refl, IH, Qn_S. ring.
  - destruct (Nat.eqb_spec j a); [congruence|]. rewrite IH. ring.
Qed.

Lemma leaf_slots_sum C m lf delta cap j :
  (forall va gs, In va (va_ids C m) -> others C m lf va = Some gs -> 2 ^ length gs <= cap) ->
  (sumf (fun c => slot (fold_left (fun s o => run_instr Qplus o s) (leaf_program C m lf delta)
            (mkLocal (fun _ _ => 0) 0)) c j) (seq 0 cap) ==
   sumf (fun va => Qn (count_occ Nat.eq_dec va j) *
      match others C m lf va with None => 0 | Some gs => sumf (delta va) (seq 0 (2 ^ length gs)) end) (va_ids C m))%Q.
Proof.
  intro Hcap. rewrite leaf_program_pairs.
  rewrite (sumf_ext _ (fun c => sumf (fun a : nat * nat * Q => if ((c =? fst (fst a)) && (j =? snd (fst a)))%nat then snd a else 0) (program_pairs C m lf delta))%Q).
  2:{ intros c _. rewrite (pairs_store (fun a => a)). cbn [slot]. lra. }
  rewrite (sumf_swap (fun c (a : nat * nat * Q) => if ((c =? fst (fst a)) && (j =? snd (fst a)))%nat then snd a else 0)%Q).
  unfold program_pairs. rewrite sumf_flat_map. apply sumf_ext. intros va Hva.
  destruct (others C m lf va) as [gs|] eqn:E; [|cbn [sumf]; ring].
  rewrite sumf_flat_map, <- sumf_scal. apply sumf_ext. intros c Hc. rewrite sumf_map. cbn [fst snd].
  rewrite <- count_indicator. apply sumf_ext. intros j' _.
  destruct (j =? j').
  - rewrite (sumf_ext _ (fun c' => if (c' =? c)%nat then delta va c else 0)%Q)
      by (intros; now rewrite andb_true_r).
    apply sum_indicator. apply in_seq in Hc. specialize (Hcap va gs Hva E). lia.
  - apply sumf_zero. intros; now rewrite andb_false_r.
Qed.

Theorem parallel_tree_value C m data x ls l max_leaves cap j phi :
  length ls <= max_leaves ->
  (forall lf va gs, In lf ls -> In va (va_ids C m) -> others C m lf va = Some gs -> 2 ^ length gs <= cap) ->
  interleaving (tree_programs C m ls (slot_delta C m data x)) l ->
  (reduce_slots Qplus 0%Q (run Qplus (zero_slots 0%Q) l) max_leaves cap j phi ==
   phi + sumf (fun lf => sumf (fun va => Qn (count_occ Nat.eq_dec va j) * leaf_player C m data x lf va) (va_ids C m)) ls)%Q.
Proof.
  intros Hml Hcap Hil. unfold reduce_slots. rewrite fold_add_sumf, sumf_list_prod. cbn [fst snd].
  apply Qplus_comp; [reflexivity|].
  rewrite (sumf_ext _ (fun k => match nth_error ls k with
     | Some lf => sumf (fun va => Qn (count_occ Nat.eq_dec va j) * leaf_player C m data x lf va) (va_ids C m)
     | None => 0 end)%Q).
  2:{ intros k _.
      assert (R := fun c => f_equal (fun s => slot s c j) (run_local Qplus l (zero_slots 0%Q) k)).
      cbn beta in R. rewrite (interleaving_proj _ l Hil k) in R.
      rewrite (sumf_ext _ (fun c => slot (fold_left (fun s o => run_instr Qplus o s)
         (tree_programs C m ls (slot_delta C m data x) k) (zero_slots 0%Q k)) c j)%Q)
        by (intros; now rewrite R).
      unfold tree_programs.
      destruct (nth_error ls k) as [lf|] eqn:E.
      - unfold zero_slots. rewrite leaf_slots_sum.
        + apply sumf_ext. intros va _. unfold leaf_player, slot_delta. destruct (others C m lf va); reflexivity.
        + intros va gs Hva Ho. eapply Hcap; try eassumption. eapply nth_error_In; eassumption.
      - apply sumf_zero. reflexivity. }
  set (F := fun lf => sumf (fun va => Qn (count_occ Nat.eq_dec va j) * leaf_player C m data x lf va)%Q (va_ids C m)).
  clear - Hml. revert max_leaves Hml.
  assert (G : forall ls s n, length ls <= n ->
    (sumf (fun k => match nth_error ls (k - s) with Some lf => F lf | None => 0 end) (seq s n) == sumf F ls)%Q).
  { clear. induction ls as [|lf ls IH]; intros s n H.
    - cbn [sumf]. apply sumf_zero. intros a _. now destruct (a - s).
    - destruct n as [|n]; [cbn in H; lia|]. cbn [seq sumf]. rewrite Nat.sub_diag. cbn [nth_error].
      apply Qplus_comp; [reflexivity|]. cbn [length] in H. rewrite <- (IH (S s) n) by lia.
      apply sumf_ext. intros k Hk. apply in_seq in Hk.
      replace (k - s) with (S (k - S s)) by lia. reflexivity. }
  intros n H. rewrite <- (G ls 0 n H). apply sumf_ext. intros k _. now rewrite Nat.sub_0_r.
Qed.

Lemma va_loop_length coal B is_ : length (va_loop coal B is_) <= length is_.
Proof.
  revert B. induction is_ as [|i r IH]; intro B; [cbn; lia|]. cbn [va_loop].
  destruct (memb i coal); [destruct (find (memb i) B)|]; cbn [length];
    [pose proof (IH (remove1 l B))|pose proof (IH B)|pose proof (IH B)]; lia.
Qed.
Lemma leaf_groups_loop_length rva B vars : length (leaf_groups_loop rva B vars) <= length vars.
Proof.
  revert B. induction vars as [|i r IH]; intro B; [cbn; lia|]. cbn [leaf_groups_loop].
  destruct (memb i rva); [|destruct (find (memb i) B)]; cbn [length];
    [pose proof (IH B)|pose proof (IH (remove1 l B))|pose proof (IH B)]; lia.
Qed.
Lemma remove1_length g gs : length (remove1 g gs) <= length gs.
Proof. induction gs as [|h gs IH]; cbn; [lia|]. destruct (group_eq_dec h g); cbn; lia. Qed.
Lemma others_length C m lf va gs : others C m lf va = Some gs -> length gs <= length (l_vars lf).
Proof.
  unfold others. destruct (in_dec _ _ _); [|discriminate]. intro E. injection E as <-.
  pose proof (remove1_length va (leaf_groups C m (l_vars lf))).
  enough (length (leaf_groups C m (l_vars lf)) <= length (l_vars lf)) by lia.
  unfold leaf_groups. destruct (has_coal C); [apply leaf_groups_loop_length|].
  rewrite map_length. lia.
Qed.

Theorem parallel_is_sequential C m data x forest scheds max_leaves scaling j :
  (forall ls, In ls forest -> length ls <= max_leaves) ->
  (forall ls lf, In ls forest -> In lf ls -> length (l_vars lf) <= scaling) ->
  Forall2 (fun ls l => interleaving (tree_programs C m ls (slot_delta C m data x)) l) forest scheds ->
  (trees_slots Qplus 0 scheds max_leaves (2 ^ scaling) j / Qn m ==
   shap_values_leaves C m data forest x j)%Q.
Proof.
  intros Hml Hsc H. unfold trees_slots, shap_values_leaves. apply Qmult_comp; [|reflexivity].
  match goal with |- (_ == ?r)%Q => transitivity (0 + r)%Q; [|ring] end.
  generalize 0%Q at 3 4 as phi.
  induction H as [|ls l forest scheds Hl H IH]; intro phi; cbn [fold_left sumf]; [ring|].
  rewrite IH.
  - rewrite (parallel_tree_value C m data x ls l max_leaves (2 ^ scaling) j phi); trivial.
    + ring.
    + apply Hml. now left.
    + intros lf va gs Hlf _ Ho. apply Nat.pow_le_mono_r; [lia|].
      apply others_length in Ho. specialize (Hsc ls lf (or_introl eq_refl) Hlf). lia.
  - intros; apply Hml; now right.
  - intros; eapply Hsc; [right|]; eassumption.
Qed.

Theorem parallel_exact {V} (add : V -> V -> V) (zero : V) (progs : list (nat -> list (instr V)))
  scheds scheds' max_leaves cap j :
  Forall2 interleaving progs scheds -> Forall2 interleaving progs scheds' ->
  trees_slots add zero scheds max_leaves cap j = trees_slots add zero scheds' max_leaves cap j.
Proof.
  unfold trees_slots. intros H.
  enough (G : forall phi scheds', Forall2 interleaving progs scheds' ->
    fold_left (fun phi l => reduce_slots add zero (run add (zero_slots zero) l) max_leaves cap j phi) scheds phi =
    fold_left (fun phi l => reduce_slots add zero (run add (zero_slots zero) l) max_leaves cap j phi) scheds' phi)
    by (apply G).
  clear scheds'. induction H as [|p l ps scheds Hl H IH]; intros phi scheds' H'; inversion H' as [|? l' ? ? Hl' H'']; subst; [reflexivity|].
  cbn [fold_left].
  assert (E : forall k, run add (zero_slots zero) l k = run add (zero_slots zero) l' k)
    by (intro k; eapply schedule_independent; eassumption).
  assert (E2 : reduce_slots add zero (run add (zero_slots zero) l) max_leaves cap j phi =
               reduce_slots add zero (run add (zero_slots zero) l') max_leaves cap j phi).
  { unfold reduce_slots. apply fold_left_ext_local. intros a [k c]. cbn [fst snd]. now rewrite E. }
  rewrite E2. apply IH. trivial.
Qed.

Theorem acv_null_zero C d S N data forest x j q :
  (forall g, In g (acv_va_ids C S) -> ~ In j g) ->
  shap_values_acv C d S N data forest x j = Some q -> (q == 0)%Q.
Proof.
  intros Hj H. unfold shap_values_acv in H.
  assert (E : flat_map (fun va => repeat va (count_occ Nat.eq_dec va j)) (acv_va_ids C S) = []).
  { clear H. induction (acv_va_ids C S) as [|g P IH]; [reflexivity|]. cbn [flat_map].
    assert (E0 : count_occ Nat.eq_dec g j = 0).
    { apply count_occ_not_In. exact (Hj g (or_introl eq_refl)). }
    rewrite E0.
    cbn [repeat app]. apply IH. intros g0 Hg0. exact (Hj g0 (or_intror Hg0)). }
  rewrite E in H. destruct (osum _ forest) as [s|] eqn:Es; [|discriminate].
  apply (osum_value _ (fun _ => 0%Q)) in Es.
  2:{ intros ls ql _ Hl. apply (osum_value _ (fun _ => 0%Q)) in Hl.
      - rewrite Hl. now apply sumf_zero.
      - intros lf qf _ Hf. cbn in Hf. injection Hf as <-. reflexivity. }
  rewrite sumf_zero in Es by reflexivity.
  apply cdiv_some in H. destruct H as [Hz ->]. rewrite Es. unfold Qdiv. ring.
Qed.

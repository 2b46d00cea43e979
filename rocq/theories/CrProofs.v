(** Proofs about the counterfactual sessions (CrModel). *)
From Verif Require Import Base RfModel RulesModel RulesSpec RulesProofs RulesModelProofs AnnealModel AnnealSpec AnnealProofs CrModel CrSpec.

(** ** Rules of one observation *)
Lemma prune_spec {W} d (w0 : W) l :
  let r i := fst (fst (nth i l (rule0, 0%Q, w0))) in
  exists keep, prune d w0 l = map (fun i => nth i l (rule0, 0%Q, w0)) keep /\ NoDup keep /\
    forall j, In j keep <-> j < length l /\ forall i, i < length l -> i <> j -> ~ wider d (r j) (r i).
Proof.
  cbv zeta. unfold prune.
  destruct (wsdp_cr_exact d (length l) (fun i => fst (fst (nth i l (rule0, 0%Q, w0))))
    (fun i => snd (fst (nth i l (rule0, 0%Q, w0)))) (fun i => snd (nth i l (rule0, 0%Q, w0)))) as (keep & E & Hn & Hk).
  exists keep. split; [|split; [exact Hn|exact Hk]]. rewrite E. apply map_ext. intros i.
  destruct (nth i l (rule0, 0%Q, w0)) as [[a b] c]. reflexivity.
Qed.

Section Rules.
Context {W : Type}.
Variables (d N : nat) (data : nat -> pt) (ind : nat -> bool) (acc_level : Q) (leaves : list rule)
  (est : rule -> Q * W) (mk : rule -> rule) (pi : Q) (w0 : W).
Notation rules := (observation_rules d N data ind acc_level leaves est mk pi w0).

Theorem obs_defined : rules = None <-> leaves = [].
Proof.
  unfold observation_rules. destruct (compatible_all d N data ind acc_level leaves) as [Hn Hs].
  destruct (get_compatible_leaf d N data ind acc_level leaves) as [suf|] eqn:E; [|tauto].
  destruct (counterfactuals_spec est mk suf pi) as [Hc _].
  destruct (return_counterfactuals est mk suf pi) as [l|] eqn:El.
  - split; [discriminate|]. intros H. apply Hn in H. discriminate.
  - exfalso. destruct (Hs suf eq_refl) as (parts & _ & _ & [(Hne & _)|(_ & r & -> & _)]);
      [apply Hne; now apply Hc|]. now discriminate (proj1 Hc eq_refl).
Qed.
(** every rule kept is made from a compatible leaf, with its estimate, and reaches the
    level unless none does *)
Theorem obs_sound out c p w : rules = Some out -> In (c, p, w) out ->
  exists suf leaf leaf0, get_compatible_leaf d N data ind acc_level leaves = Some suf /\ In leaf suf /\
    In leaf0 leaves /\ near (1 # 200) leaf leaf0 /\ c = mk leaf /\ (p, w) = est c /\
    ((pi <= p)%Q \/ forall l, In l suf -> (fst (est (mk l)) < pi)%Q /\ (fst (est (mk l)) <= p)%Q).
Proof.
  unfold observation_rules. destruct (compatible_all d N data ind acc_level leaves) as [_ Hs].
  destruct (get_compatible_leaf d N data ind acc_level leaves) as [suf|] eqn:E; [|discriminate].
  destruct (counterfactuals_spec est mk suf pi) as [_ Hc].
  destruct (return_counterfactuals est mk suf pi) as [l|] eqn:El; [|discriminate].
  intros H Hin. injection H as <-. destruct (prune_spec d w0 l) as (keep & Ek & _ & Hk). rewrite Ek in Hin.
  apply in_map_iff in Hin. destruct Hin as (j & Ej & Hj). apply Hk in Hj. destruct Hj as [Hj _].
  assert (Hl : In (c, p, w) l) by (rewrite <- Ej; now apply nth_In).
  assert (Hnear : forall leaf, In leaf suf -> exists leaf0, In leaf0 leaves /\ near (1 # 200) leaf leaf0).
  { intros leaf Hi. destruct (Hs suf eq_refl) as (parts & Hp & _ & [(_ & Ho)|(_ & r & -> & Hr & _)]).
    - apply Hp. now apply Ho.
    - destruct Hi as [<-|[]]. now apply Hp. }
  destruct (Hc l eq_refl) as [(_ & _ & _ & Hall)|(leaf & Hi & Hall & ->)].
  - apply Hall in Hl. destruct Hl as (leaf & Hi & Hp & -> & Hw). destruct (Hnear leaf Hi) as (leaf0 & H0 & Hn).
    exists suf, leaf, leaf0. split; [reflexivity|]. split; [exact Hi|]. split; [exact H0|]. split; [exact Hn|].
    split; [reflexivity|]. split; [exact Hw|]. left. apply (f_equal fst) in Hw. cbn in Hw. now rewrite Hw.
  - destruct Hl as [Hl|[]]. injection Hl as <- <- <-. destruct (Hnear leaf Hi) as (leaf0 & H0 & Hn).
    exists suf, leaf, leaf0. split; [reflexivity|]. split; [exact Hi|]. split; [exact H0|]. split; [exact Hn|]. split; [reflexivity|].
    split; [now destruct (est (mk leaf))|]. right. exact Hall.
Qed.
(** no rule kept contains another one *)
Theorem obs_antichain out i j e f : rules = Some out -> nth_error out i = Some e -> nth_error out j = Some f -> i <> j ->
  ~ wider d (fst (fst e)) (fst (fst f)).
Proof.
  unfold observation_rules. destruct (get_compatible_leaf d N data ind acc_level leaves) as [suf|]; [|discriminate].
  destruct (return_counterfactuals est mk suf pi) as [l|]; [|discriminate]. intros H Hi Hj Hij. injection H as <-.
  destruct (prune_spec d w0 l) as (keep & Ek & Hnd & Hk). rewrite Ek in Hi, Hj.
  rewrite nth_error_map in Hi, Hj.
  destruct (nth_error keep i) as [a|] eqn:Ea; [|discriminate]. destruct (nth_error keep j) as [b|] eqn:Eb; [|discriminate].
  cbn in Hi, Hj. injection Hi as <-. injection Hj as <-.
  assert (Hab : a <> b).
  { intros ->. apply Hij. apply (proj1 (NoDup_nth_error keep) Hnd); [apply nth_error_Some; congruence|congruence]. }
  assert (Hka : In a keep) by (eapply nth_error_In; eauto). assert (Hkb : In b keep) by (eapply nth_error_In; eauto).
  apply Hk in Hka. apply Hk in Hkb. apply (proj2 Hka b); [apply Hkb|congruence].
Qed.
(** if the conditions made from the leaves are pairwise different, some rule is kept, and
    every condition that reaches the level contains a rule kept *)
Lemma wider_same a b : wider d a b -> wider d b a -> same_rule d a b.
Proof. intros H1 H2 k Hk. destruct (H1 k Hk), (H2 k Hk). split; lra. Qed.
Lemma fop_nth {A} (R : A -> A -> Prop) dflt l : ForallOrdPairs R l -> forall i j, i < j -> j < length l ->
  R (nth i l dflt) (nth j l dflt).
Proof.
  induction 1 as [|a l Ha H IH]; intros i j Hij Hj; cbn in Hj; [lia|].
  destruct j as [|j]; [lia|]. destruct i as [|i]; cbn.
  - rewrite Forall_forall in Ha. apply Ha. apply nth_In. lia.
  - apply IH; lia.
Qed.
Lemma fop_filter {A} (R : A -> A -> Prop) f l : ForallOrdPairs R l -> ForallOrdPairs R (filter f l).
Proof.
  induction 1 as [|a l Ha H IH]; cbn; [constructor|]. destruct (f a); [|exact IH]. constructor; [|exact IH].
  rewrite Forall_forall in *. intros b Hb. apply Ha. now apply filter_In in Hb.
Qed.
Lemma fop_map {A B} (R : B -> B -> Prop) (f : A -> B) l :
  ForallOrdPairs R (map f l) <-> ForallOrdPairs (fun a b => R (f a) (f b)) l.
Proof.
  induction l as [|a l IH]; cbn; [split; constructor|]. split; intros H; inversion H; subst; constructor; try apply IH; auto.
  - rewrite Forall_forall in *. intros b Hb. apply H2. now apply in_map.
  - rewrite Forall_forall in *. intros b Hb. apply in_map_iff in Hb. destruct Hb as (c & <- & Hc). now apply H2.
Qed.
Theorem obs_complete suf out : get_compatible_leaf d N data ind acc_level leaves = Some suf ->
  ForallOrdPairs (fun a b => ~ same_rule d (mk a) (mk b)) suf -> rules = Some out ->
  out <> [] /\ forall leaf, In leaf suf -> (pi <= fst (est (mk leaf)))%Q ->
    exists c p w, In (c, p, w) out /\ wider d (mk leaf) c.
Proof.
  intros E Hd. unfold observation_rules. rewrite E.
  destruct (counterfactuals_spec est mk suf pi) as [Hc1 Hc].
  destruct (return_counterfactuals est mk suf pi) as [l|] eqn:El; [|discriminate].
  intros H. injection H as <-. destruct (prune_spec d w0 l) as (keep & Ek & _ & Hk).
  set (r := fun i => fst (fst (nth i l (rule0, 0%Q, w0)))).
  assert (Hl : ForallOrdPairs (fun a b => ~ same_rule d (fst (fst a)) (fst (fst b))) l /\ l <> []).
  { unfold return_counterfactuals in El.
    set (all := map (fun leaf => (mk leaf, fst (est (mk leaf)), snd (est (mk leaf)))) suf) in *.
    assert (Hall : ForallOrdPairs (fun a b => ~ same_rule d (fst (fst a)) (fst (fst b))) all).
    { unfold all. now apply fop_map. }
    destruct (filter (fun p => qleb pi (snd (fst p))) all) as [|f0 fs] eqn:Ef.
    - destruct (argmax _) as [b|]; [|discriminate]. destruct (nth_error suf b); [|discriminate].
      injection El as <-. split; [|discriminate]. constructor; constructor.
    - injection El as <-. rewrite <- Ef. split; [now apply fop_filter|]. rewrite Ef. discriminate. }
  destruct Hl as [Hl Hne].
  assert (Hmin := minimal_exists d (length l) r).
  assert (Hs : forall i j, i < length l -> j < length l -> i <> j -> wider d (r i) (r j) -> wider d (r j) (r i) -> False).
  { intros i j Hi Hj Hij H1 H2. pose proof (fop_nth _ (rule0, 0%Q, w0) l Hl) as Hp.
    destruct (Nat.lt_total i j) as [Hlt|[Heq|Hlt]]; [|lia|].
    - apply (Hp i j Hlt Hj). now apply wider_same.
    - apply (Hp j i Hlt Hi). now apply wider_same. }
  specialize (Hmin Hs). rewrite Ek.
  assert (Hex : forall i, i < length l -> exists j, In j keep /\ wider d (r i) (r j)).
  { intros i Hi. destruct (Hmin i Hi) as (j & Hj & Hw & Hm). exists j. split; [|exact Hw]. apply Hk. split; [exact Hj|].
    intros k Hkl Hkj. now apply Hm. }
  split.
  - destruct (Hex 0) as (j & Hj & _); [destruct l; [congruence|cbn; lia]|]. intros Hn. apply map_eq_nil in Hn. now rewrite Hn in Hj.
  - intros leaf Hi Hp. destruct (Hc l eq_refl) as [(_ & _ & _ & Hall)|(leaf' & Hi' & Hall & _)].
    + assert (Hin : In (mk leaf, fst (est (mk leaf)), snd (est (mk leaf))) l).
      { apply Hall. exists leaf. split; [exact Hi|]. split; [exact Hp|]. split; [reflexivity|]. now destruct (est (mk leaf)). }
      apply (In_nth _ _ (rule0, 0%Q, w0)) in Hin. destruct Hin as (i & Hil & Ei).
      destruct (Hex i Hil) as (j & Hj & Hw). unfold r in Hw at 1. rewrite Ei in Hw. cbn in Hw.
      destruct (nth j l (rule0, 0%Q, w0)) as [[c p] w] eqn:En. exists c, p, w. split; [|unfold r in Hw; now rewrite En in Hw].
      apply in_map_iff. exists j. auto.
    + destruct (Hall leaf Hi) as [Hlt _]. exfalso. lra.
Qed.
End Rules.

Lemma local_sound W cls d N data ind acc_level pi_level leaves (est : rule -> Q * W) S_star S_bar x w0 out c p w :
  local_rules cls d N data ind acc_level pi_level leaves est S_star S_bar x w0 = Some out -> In (c, p, w) out ->
  let pi := if cls then pi_level else acc_level in
  exists suf leaf leaf0, get_compatible_leaf d N data ind acc_level (leaves pi) = Some suf /\ In leaf suf /\
    In leaf0 (leaves pi) /\ near (1 # 200) leaf leaf0 /\
    (forall k, In k S_star -> c k = leaf k) /\ (forall k, ~ In k S_star -> In k S_bar -> c k = (x k, x k)) /\ est c = (p, w) /\
    ((pi <= p)%Q \/ forall l, In l suf -> (fst (est (cond_local S_star S_bar x l)) < pi)%Q /\ (fst (est (cond_local S_star S_bar x l)) <= p)%Q).
Proof.
  intros H Hin. unfold local_rules in H. eapply obs_sound in H; [|exact Hin]. destruct H as (suf & leaf & leaf0 & H1 & H2 & H3 & H4 & -> & H6 & H7).
  exists suf, leaf, leaf0. split; [exact H1|]. split; [exact H2|]. split; [exact H3|]. split; [exact H4|].
  split; [intros k Hk; now apply cond_local_spec|]. split; [intros k Hk Hb; now apply cond_local_spec|]. split; [congruence|exact H7].
Qed.
Lemma regional_sound W d N data ind acc_level pi_level leaves (est : rule -> Q * W) S_star cond_s w0 out c p w :
  regional_rules d N data ind acc_level pi_level leaves est S_star cond_s w0 = Some out -> In (c, p, w) out ->
  exists suf leaf leaf0, get_compatible_leaf d N data ind acc_level (leaves pi_level) = Some suf /\ In leaf suf /\
    In leaf0 (leaves pi_level) /\ near (1 # 200) leaf leaf0 /\
    (forall k, In k S_star -> c k = leaf k) /\ (forall k, ~ In k S_star -> c k = cond_s k) /\ est c = (p, w) /\
    ((pi_level <= p)%Q \/ forall l, In l suf -> (fst (est (cond_regional S_star cond_s l)) < pi_level)%Q /\ (fst (est (cond_regional S_star cond_s l)) <= p)%Q).
Proof.
  intros H Hin. unfold regional_rules in H. eapply obs_sound in H; [|exact Hin]. destruct H as (suf & leaf & leaf0 & H1 & H2 & H3 & H4 & -> & H6 & H7).
  exists suf, leaf, leaf0. split; [exact H1|]. split; [exact H2|]. split; [exact H3|]. split; [exact H4|].
  split; [intros k Hk; rewrite cond_regional_spec; now apply memb_true in Hk as ->|].
  split; [intros k Hk; rewrite cond_regional_spec; now apply memb_false in Hk as ->|]. split; [congruence|exact H7].
Qed.
Lemma local_antichain W cls d N data ind acc_level pi_level leaves (est : rule -> Q * W) S_star S_bar x w0 out i j e f :
  local_rules cls d N data ind acc_level pi_level leaves est S_star S_bar x w0 = Some out ->
  nth_error out i = Some e -> nth_error out j = Some f -> i <> j -> ~ wider d (fst (fst e)) (fst (fst f)).
Proof. apply obs_antichain. Qed.
Lemma regional_antichain W d N data ind acc_level pi_level leaves (est : rule -> Q * W) S_star cond_s w0 out i j e f :
  regional_rules d N data ind acc_level pi_level leaves est S_star cond_s w0 = Some out ->
  nth_error out i = Some e -> nth_error out j = Some f -> i <> j -> ~ wider d (fst (fst e)) (fst (fst f)).
Proof. apply obs_antichain. Qed.
Lemma rules_defined W (cls : bool) d N data ind acc_level pi_level (leaves : Q -> list rule) (est : rule -> Q * W) S_star S_bar x cond_s w0 :
  (local_rules cls d N data ind acc_level pi_level leaves est S_star S_bar x w0 = None <-> leaves (if cls then pi_level else acc_level) = []) /\
  (regional_rules d N data ind acc_level pi_level leaves est S_star cond_s w0 = None <-> leaves pi_level = []).
Proof. split; apply obs_defined. Qed.
Lemma local_complete W (cls : bool) d N data ind acc_level pi_level leaves (est : rule -> Q * W) S_star S_bar x (w0 : W) suf out :
  let pi := if cls then pi_level else acc_level in
  get_compatible_leaf d N data ind acc_level (leaves pi) = Some suf ->
  ForallOrdPairs (fun a b => ~ same_rule d (cond_local S_star S_bar x a) (cond_local S_star S_bar x b)) suf ->
  local_rules cls d N data ind acc_level pi_level leaves est S_star S_bar x w0 = Some out ->
  out <> [] /\ forall leaf, In leaf suf -> (pi <= fst (est (cond_local S_star S_bar x leaf)))%Q ->
    exists c p w, In (c, p, w) out /\ wider d (cond_local S_star S_bar x leaf) c.
Proof. intros pi. unfold local_rules, local_level. apply obs_complete. Qed.
Lemma regional_complete W d N data ind acc_level pi_level leaves (est : rule -> Q * W) S_star cond_s w0 suf out :
  get_compatible_leaf d N data ind acc_level (leaves pi_level) = Some suf ->
  ForallOrdPairs (fun a b => ~ same_rule d (cond_regional S_star cond_s a) (cond_regional S_star cond_s b)) suf ->
  regional_rules d N data ind acc_level pi_level leaves est S_star cond_s w0 = Some out ->
  out <> [] /\ forall leaf, In leaf suf -> (pi_level <= fst (est (cond_regional S_star cond_s leaf)))%Q ->
    exists c p w, In (c, p, w) out /\ wider d (cond_regional S_star cond_s leaf) c.
Proof. unfold regional_rules. apply obs_complete. Qed.

(** ** Samples *)
Lemma best_rule_spec cs : match best_rule cs with
  | Some c => most_probable cs c
  | None => cs = []
  end.
Proof.
  unfold best_rule. destruct (argmax (map snd cs)) as [b|] eqn:E.
  - pose proof E as E'. apply argmax_spec in E'. destruct E' as [Hb Hm]. rewrite map_length in Hb, Hm.
    destruct (nth_error cs b) as [[c p]|] eqn:En; [|apply nth_error_None in En; lia]. cbn.
    exists p. split; [eapply nth_error_In; eauto|]. intros c' p' Hi. apply In_nth_error in Hi. destruct Hi as [j Hj].
    assert (Hjl : j < length cs) by (apply nth_error_Some; unfold rule in *; congruence). specialize (Hm j Hjl). unfold rule in *.
    rewrite (nth_error_nth (map snd cs) j (x := p') 0%Q) in Hm by (rewrite nth_error_map, Hj; reflexivity).
    rewrite (nth_error_nth (map snd cs) b (x := p) 0%Q) in Hm by (rewrite nth_error_map, En; reflexivity). exact Hm.
  - destruct cs; [reflexivity|discriminate].
Qed.

Section Sampling.
Context {G : Type}.
Variables (rand : G -> Q * G) (randint : nat -> G -> nat * G) (exp : Q -> Q) (lg : nat -> Q) (temp : Q)
  (classifier : bool) (predict : pt -> Q).
Hypothesis randint_lt : forall n g, 0 < n -> fst (randint n g) < n.
Notation draw_one := (draw_one rand randint exp lg temp classifier predict).
Notation sample_local := (sample_local rand randint exp lg temp classifier predict).
Notation sample_regional := (sample_regional rand randint exp lg temp classifier predict).
Notation sample_alltests := (sample_alltests rand randint exp lg temp classifier predict).

Lemma draw_all_spec (one : task (G := G) -> option draw) l : forall ds, draw_all one l = Some ds <-> Forall2 (fun t a => one t = Some a) l ds.
Proof.
  induction l as [|t l IH]; intros ds; cbn.
  - split; [intros H; injection H as <-; constructor|intros H; now inversion H].
  - split.
    + destruct (one t) as [a|] eqn:E; [|discriminate]. destruct (draw_all one l) as [r|] eqn:Er; [|discriminate].
      cbn. intros H. injection H as <-. constructor; [exact E|]. now apply IH.
    + intros H. inversion H as [|? a ? r Ha Hr]; subst. rewrite Ha. apply IH in Hr. now rewrite Hr.
Qed.
Lemma draw_all_some (one : task (G := G) -> option draw) l : (forall t, In t l -> one t <> None) -> exists ds, draw_all one l = Some ds.
Proof.
  induction l as [|t l IH]; intros H; cbn; [eauto|]. destruct (one t) as [a|] eqn:E; [|exfalso; apply (H t); [now left|exact E]].
  destruct IH as [r Hr]; [intros u Hu; apply H; now right|]. rewrite Hr. cbn. eauto.
Qed.
(** what one draw returns *)
Definition good_draw (N : nat) (data : nat -> pt) (score : pt -> Q) (t : task (G := G)) (a : draw) : Prop :=
  moved N data (t_S t) (t_cond t) (t_x t) (d_point a) /\ (d_score a == score (d_point a))%Q /\
  d_err a = success classifier predict t (d_point a).
Lemma draw_one_spec score model N data batch max_iter t a : draw_one score model N data batch max_iter t = Some a ->
  good_draw N data score t a /\ d_orig a = success_original model t (d_point a).
Proof.
  unfold CrModel.draw_one.
  destruct (simulated_annealing _ _ _ _ _ _ _ _ _ _ _ _ _ _ _ _) as [[[b e] log]|] eqn:E; [|discriminate].
  intros H. injection H as <-. apply sa_general in E; [|exact randint_lt]. destruct E as (Hb & He & Hl).
  destruct (Hl b Hb) as (_ & H1 & H2). split; [|reflexivity]. split; [|split; [exact He|reflexivity]].
  split; [exact H1|]. intros k Hk. destruct (H2 k Hk) as [H|(_ & H & Hn)]; auto.
Qed.
Lemma draw_one_some score model N data batch max_iter t : 0 < batch -> draw_one score model N data batch max_iter t <> None.
Proof.
  intros Hb. unfold CrModel.draw_one.
  destruct (sa_some rand randint exp lg temp randint_lt true score (t_x t) (t_S t) N data (t_cond t) batch max_iter 10 (t_g t) Hb)
    as [[[b e] log] ->]; [now left|discriminate].
Qed.
Lemma originals_nil ds : (forall a, In a ds -> d_orig a = None) -> originals ds = [].
Proof.
  induction ds as [|a ds IH]; intros H; cbn; [reflexivity|]. rewrite (H a) by now left. cbn. apply IH. intros b Hb. apply H. now right.
Qed.
Lemma local_tasks_map n x S_star cs down up (gs : nat -> G) :
  local_tasks n x S_star cs down up gs =
  map (fun i => mkTask (x i) (S_star i) (match best_rule (cs i) with Some c => c | None => rule0 end) (down i) (up i) (gs i))
      (with_rules n cs).
Proof.
  unfold local_tasks, with_rules. induction (seq 0 n) as [|i l IH]; cbn; [reflexivity|].
  pose proof (best_rule_spec (cs i)) as Hb. rewrite IH. destruct (best_rule (cs i)) as [c|] eqn:E.
  - destruct Hb as (p & Hp & _). destruct (cs i) as [|e r] eqn:Ec; [destruct Hp|]. cbn. now rewrite Ec, E.
  - now rewrite Hb.
Qed.
Lemma Forall2_map_l {A B C} (f : A -> B) (R : B -> C -> Prop) l ds :
  Forall2 R (map f l) ds <-> Forall2 (fun a c => R (f a) c) l ds.
Proof.
  revert ds. induction l as [|a l IH]; intros ds; cbn; split; intros H; inversion H; subst; constructor; auto; now apply IH.
Qed.
Lemma Forall2_in_l {A B} (R R' : A -> B -> Prop) l ds : (forall a b, In a l -> R a b -> R' a b) -> Forall2 R l ds -> Forall2 R' l ds.
Proof.
  intros H HF. induction HF as [|a b l ds Hab HF IH]; constructor.
  - apply H; [now left|exact Hab].
  - apply IH. intros u v Hu. apply H. now right.
Qed.
Lemma Forall2_len {A B} (R : A -> B -> Prop) l ds : Forall2 R l ds -> length l = length ds.
Proof. induction 1; cbn; congruence. Qed.
Lemma with_rules_in n cs i : In i (with_rules n cs) <-> i < n /\ cs i <> [].
Proof.
  unfold with_rules. rewrite filter_In, in_seq. split.
  - intros [H1 H2]. split; [lia|]. intros E. now rewrite E in H2.
  - intros [H1 H2]. split; [lia|]. destruct (cs i); [congruence|reflexivity].
Qed.

(** entry of the list of successes *)
Definition succeeds (x a : pt) (down up : Q) : Prop :=
  if classifier then ~ (predict a == predict x)%Q else (down <= predict a <= up)%Q.
Lemma success_spec (t : task (G := G)) a : success classifier predict t a = true <-> succeeds (t_x t) a (t_down t) (t_up t).
Proof.
  unfold success, succeeds. destruct classifier.
  - rewrite negb_true_iff. destruct (qeqb_spec (predict a) (predict (t_x t))); split; intros; auto; congruence.
  - rewrite andb_true_iff, !qleb_true. tauto.
Qed.

Theorem local_draws given score N data batch max_iter n x S_star cs down up gs o :
  sample_local given score N data batch max_iter n x S_star cs down up gs = Some o ->
  Forall2 (fun i a => (exists c, most_probable (cs i) c /\ moved N data (S_star i) c (x i) (d_point a)) /\
                      (d_score a == score (d_point a))%Q /\
                      (d_err a = true <-> succeeds (x i) (d_point a) (down i) (up i))) (with_rules n cs) (o_draws o).
Proof.
  unfold CrModel.sample_local. destruct (draw_all _ _) as [ds|] eqn:E; [|discriminate]. cbn. intros H. injection H as <-. cbn [o_draws summary].
  apply draw_all_spec in E. rewrite local_tasks_map in E. apply Forall2_map_l in E.
  revert E. apply Forall2_in_l. intros i a Hi Ha. apply with_rules_in in Hi. destruct Hi as [_ Hi].
  apply draw_one_spec in Ha. destruct Ha as [(Hm & Hsc & He) _]. cbn in Hm.
  pose proof (best_rule_spec (cs i)) as Hb. destruct (best_rule (cs i)) as [c|]; [|contradiction].
  split; [now exists c|]. split; [exact Hsc|]. rewrite He. rewrite success_spec. cbn. tauto.
Qed.
Lemma local_length given score N data batch max_iter n x S_star cs down up gs o :
  sample_local given score N data batch max_iter n x S_star cs down up gs = Some o -> length (o_draws o) = length (with_rules n cs).
Proof. intros H. apply local_draws in H. symmetry. eapply Forall2_len; eauto. Qed.
Lemma summary_acc total ds : (ds = [] /\ o_acc (summary total ds) = None) \/
  exists q, o_acc (summary total ds) = Some q /\ (q == share d_err ds)%Q /\ ds <> [].
Proof.
  destruct ds as [|a r]; [left; auto|right]. cbn [summary o_acc].
  destruct (mean_share d_err (a :: r)) as [q [E Hq]]; [discriminate|]. exists q. repeat split; auto. discriminate.
Qed.
Theorem local_figures given score N data batch max_iter n x S_star cs down up gs o : 0 < n ->
  sample_local given score N data batch max_iter n x S_star cs down up gs = Some o ->
  (o_acc o = None <-> with_rules n cs = []) /\
  (forall q, o_acc o = Some q -> (q == share d_err (o_draws o))%Q) /\
  (exists c, o_cov o = Some c /\ (c == Qn (length (with_rules n cs)) / Qn n)%Q).
Proof.
  intros Hn H. pose proof (local_length _ _ _ _ _ _ _ _ _ _ _ _ _ _ H) as Hl. revert H Hl. unfold CrModel.sample_local.
  destruct (draw_all _ _) as [ds|] eqn:E; [|discriminate]. cbn [option_map]. intros H. injection H as <-. cbn [o_draws summary]. intros Hl.
  split; [|split].
  - destruct (summary_acc n ds) as [[-> ->]|(q & -> & _ & Hne)].
    + split; [|reflexivity]. intros _. apply length_zero_iff_nil. now rewrite <- Hl.
    + split; [discriminate|]. intros Hw. rewrite Hw in Hl. now apply length_zero_iff_nil in Hl.
  - intros q Hq. destruct (summary_acc n ds) as [[_ Ha]|(q' & Ha & Hs & _)]; rewrite Ha in Hq; [discriminate|]. now injection Hq as <-.
  - cbn. unfold ratio. destruct (Nat.eqb_spec n 0) as [->|_]; [lia|]. eexists. split; [reflexivity|]. rewrite Hl. reflexivity.
Qed.
Theorem local_some given score N data batch max_iter n x S_star cs down up gs : 0 < batch ->
  sample_local given score N data batch max_iter n x S_star cs down up gs <> None.
Proof.
  intros Hb. unfold CrModel.sample_local.
  destruct (draw_all_some (draw_one score (cr_model given) N data batch max_iter) (local_tasks n x S_star cs down up gs)) as [ds ->];
    [|discriminate]. intros t _. now apply draw_one_some.
Qed.
Lemma orig_none score N data batch max_iter l ds given :
  draw_all (draw_one score (cr_model given) N data batch max_iter) l = Some ds -> mean (map Qb (originals ds)) = None.
Proof.
  intros E. apply draw_all_spec in E. rewrite originals_nil; [reflexivity|].
  intros a Ha. induction E as [|t b l ds Hb E IH]; [destruct Ha|]. destruct Ha as [<-|Ha]; [|auto].
  apply draw_one_spec in Hb. now rewrite (proj2 Hb).
Qed.
Theorem local_original given score N data batch max_iter n x S_star cs down up gs o :
  sample_local given score N data batch max_iter n x S_star cs down up gs = Some o -> o_acc_orig o = None.
Proof.
  unfold CrModel.sample_local. destruct (draw_all _ _) as [ds|] eqn:E; [|discriminate]. cbn. intros H. injection H as <-.
  eapply orig_none; eauto.
Qed.
(** points drawn satisfy the rule they are drawn from *)
Lemma moved_inside N data d S_star c x z : (forall k, k < d -> ~ In k S_star -> (fst (c k) <= x k <= snd (c k))%Q) ->
  proper S_star c -> moved N data S_star c x z -> inside d c z.
Proof.
  intros Hx Hp (H1 & H2) k Hk. destruct (in_dec Nat.eq_dec k S_star) as [Hi|Hi].
  - destruct (H2 k Hi) as [(i & _ & -> & Hz)|(-> & _)]; [exact Hz|]. specialize (Hp k Hi). lra.
  - rewrite (H1 k Hi). now apply Hx.
Qed.
Theorem local_inside given score N data batch max_iter d n x S_star cs down up gs o :
  (forall i c p, i < n -> In (c, p) (cs i) -> proper (S_star i) c /\
     forall k, k < d -> ~ In k (S_star i) -> (fst (c k) <= x i k <= snd (c k))%Q) ->
  sample_local given score N data batch max_iter n x S_star cs down up gs = Some o ->
  Forall2 (fun i a => exists c p, In (c, p) (cs i) /\ inside d c (d_point a)) (with_rules n cs) (o_draws o).
Proof.
  intros Hc H. apply local_draws in H. revert H. apply Forall2_in_l. intros i a Hi ((c & (p & Hp & _) & Hm) & _).
  apply with_rules_in in Hi. destruct (Hc i c p (proj1 Hi) Hp) as [H1 H2]. exists c, p. split; [exact Hp|]. eapply moved_inside; eauto.
Qed.
Lemma share_all ds : ds <> [] -> (share d_err ds == 1)%Q -> forall a, In a ds -> d_err a = true.
Proof.
  intros Hne. unfold share. intros H a Ha.
  assert (Hl : (Qn (length (filter d_err ds)) == Qn (length ds))%Q).
  { assert (Hn : ~ (Qn (length ds) == 0)%Q) by (apply Qn_neq0; destruct ds; [congruence|discriminate]).
    rewrite <- (Qmult_div_r (Qn (length (filter d_err ds))) (Qn (length ds))) by exact Hn. rewrite H. ring. }
  apply Qn_inj in Hl. clear H Hne. revert Ha Hl.
  assert (Hle : forall l : list draw, length (filter d_err l) <= length l).
  { induction l as [|b l IH]; cbn; [lia|]. destruct (d_err b); cbn; lia. }
  induction ds as [|b l IH]; [intros []|]. cbn. specialize (Hle l). destruct (d_err b) eqn:E; cbn; [|intros; lia].
  intros [<-|Ha] Hl; [exact E|]. apply IH; [exact Ha|lia].
Qed.
(** with two classes a full accuracy means that every sample reaches the target *)
Theorem local_target given score N data batch max_iter n x S_star cs down up gs o target q :
  classifier = true -> (forall a b c, predict a == predict b \/ predict a == predict c \/ predict b == predict c)%Q ->
  (forall i, i < n -> ~ (target i == predict (x i))%Q) -> (forall i, i < n -> exists a, (predict a == target i)%Q) ->
  sample_local given score N data batch max_iter n x S_star cs down up gs = Some o -> o_acc o = Some q -> (q == 1)%Q ->
  Forall2 (fun i a => predict (d_point a) == target i)%Q (with_rules n cs) (o_draws o).
Proof.
  intros Hc H2 Ht He H Hq Hq1. assert (Hall : forall a, In a (o_draws o) -> d_err a = true).
  { revert H Hq. unfold CrModel.sample_local. destruct (draw_all _ _) as [ds|]; [|discriminate]. cbn [option_map]. intros H. injection H as <-.
    intros Hq. destruct (summary_acc n ds) as [[_ Ha]|(q' & Ha & Hs & Hne)]; rewrite Ha in Hq; [discriminate|]. injection Hq as <-.
    cbn [o_draws summary]. apply share_all; [exact Hne|]. now rewrite <- Hs. }
  apply local_draws in H. revert H Hall. generalize (o_draws o).
  assert (Hw : forall i, In i (with_rules n cs) -> i < n) by (intros i Hi; now apply with_rules_in in Hi).
  revert Hw. generalize (with_rules n cs). intros l Hw ds HF. induction HF as [|i a l ds (_ & _ & Hs) HF IH]; intros Hall; constructor.
  - assert (Hi : i < n) by (apply Hw; now left). specialize (Hall a (or_introl eq_refl)). apply Hs in Hall. unfold succeeds in Hall. rewrite Hc in Hall.
    destruct (He i Hi) as [b Hb]. specialize (Ht i Hi). destruct (H2 (d_point a) (x i) b) as [E|[E|E]].
    + contradiction.
    + now rewrite E.
    + exfalso. apply Ht. now rewrite E.
  - apply IH; [intros j Hj; apply Hw; now right|]. intros b Hb. apply Hall. now right.
Qed.
(** points drawn from a local rule satisfy it *)
Theorem moved_inside_local N data d S_star S_bar x leaf z : (forall k, k < d -> In k S_star \/ In k S_bar) ->
  proper S_star leaf -> moved N data S_star (cond_local S_star S_bar x leaf) x z ->
  inside d (cond_local S_star S_bar x leaf) z.
Proof.
  intros Hd Hp (H1 & H2) k Hk. destruct (cond_local_spec S_star S_bar x leaf k) as (C1 & C2 & _).
  destruct (in_dec Nat.eq_dec k S_star) as [Hi|Hi].
  - destruct (H2 k Hi) as [(i & _ & -> & Hz)|(-> & _)]; [exact Hz|]. rewrite (C1 Hi). specialize (Hp k Hi). lra.
  - destruct (Hd k Hk) as [|Hb]; [contradiction|]. rewrite (C2 Hi Hb), (H1 k Hi). cbn. lra.
Qed.
Theorem moved_inside_regional N data d S_star r leaf x z : inside d r x -> proper S_star leaf ->
  moved N data S_star (cond_regional S_star r leaf) x z -> inside d (cond_regional S_star r leaf) z.
Proof.
  intros Hx Hp (H1 & H2) k Hk. pose proof (cond_regional_spec S_star r leaf k) as C.
  destruct (memb k S_star) eqn:E.
  - apply memb_true in E. destruct (H2 k E) as [(i & _ & -> & Hz)|(-> & _)]; [exact Hz|]. rewrite C. specialize (Hp k E). lra.
  - apply memb_false in E. rewrite C, (H1 k E). now apply Hx.
Qed.

(** *** Regional sessions *)
Lemma nb_fold d max_obs tests (rules : nat -> rule) (cs : nat -> list (rule * Q)) l : forall nb,
  fold_left (fun nb i => match cs i with
                         | [] => nb
                         | _ => nb + (let k := length (in_tests d (rules i) tests) in if k <=? max_obs then k else max_obs)
                         end) l nb =
  nb + list_sum (map (fun i => match cs i : list (rule * Q) with [] => 0 | _ => length (firstn max_obs (in_tests d (rules i) tests)) end) l).
Proof.
  induction l as [|i l IH]; intros nb; [cbn; lia|]. cbn [fold_left map list_sum fold_right]. rewrite IH. unfold list_sum. destruct (cs i); [lia|].
  cbv zeta. rewrite firstn_length. destruct (Nat.leb_spec (length (in_tests d (rules i) tests)) max_obs); lia.
Qed.
Lemma filter_len {A} (f : A -> bool) l : length (filter f l) <= length l.
Proof. induction l as [|a l IH]; cbn; [lia|]. destruct (f a); cbn; lia. Qed.
Lemma regional_tasks_length d n max_obs tests rules S_star cs down up (gs : nat -> nat -> G) :
  length (regional_tasks d n max_obs tests rules S_star cs down up gs) = regional_nb d n max_obs tests rules cs.
Proof.
  unfold regional_nb. rewrite nb_fold. cbn [Nat.add]. unfold regional_tasks.
  induction (seq 0 n) as [|i l IH]; cbn; [reflexivity|]. rewrite app_length, IH. f_equal.
  pose proof (best_rule_spec (cs i)) as Hb. destruct (best_rule (cs i)) as [c|].
  - destruct Hb as (p & Hp & _). destruct (cs i) as [|e r]; [destruct Hp|]. rewrite map_length, combine_length, seq_length.
    apply Nat.min_r. rewrite firstn_length. unfold in_tests.
    pose proof (filter_len (in_rule (seq 0 d) (rules i)) tests). lia.
  - now rewrite Hb.
Qed.
Theorem regional_coverage given iso N data batch max_iter d n max_obs tests rules S_star cs down up gs o :
  sample_regional given iso N data batch max_iter d n max_obs tests rules S_star cs down up gs = Some o ->
  match o_cov o with Some c => (c == 1)%Q /\ o_draws o <> [] | None => o_draws o = [] end.
Proof.
  unfold CrModel.sample_regional. destruct (draw_all _ _) as [ds|] eqn:E; [|discriminate]. cbn. intros H. injection H as <-.
  apply draw_all_spec, Forall2_len in E. rewrite regional_tasks_length in E. cbn. rewrite <- E. unfold ratio.
  destruct (Nat.eqb_spec (regional_nb d n max_obs tests rules cs) 0) as [Hz|Hz].
  - apply length_zero_iff_nil. congruence.
  - split.
    + field. intros Hc. apply Hz. change (Qn (regional_nb d n max_obs tests rules cs) == Qn 0)%Q in Hc. now apply Qn_inj in Hc.
    + intros ->. cbn in E. lia.
Qed.
Lemma in_tests_spec d r tests x : In x (in_tests d r tests) <-> In x tests /\ inside d r x.
Proof. unfold in_tests. rewrite filter_In, in_rule_spec, covered_inside. reflexivity. Qed.
(** every sample drawn starts from a test observation of a rule and follows its most
    probable counterfactual *)
Theorem regional_draws given iso N data batch max_iter d n max_obs tests rules S_star cs down up gs o a :
  sample_regional given iso N data batch max_iter d n max_obs tests rules S_star cs down up gs = Some o ->
  In a (o_draws o) ->
  exists i x c score, i < n /\ In x tests /\ inside d (rules i) x /\ iso = Some score /\ most_probable (cs i) c /\
    moved N data (S_star i) c x (d_point a) /\ (d_score a == score (d_point a))%Q /\
    (d_err a = true <-> succeeds x (d_point a) (down i) (up i)).
Proof.
  unfold CrModel.sample_regional. destruct (draw_all _ _) as [ds|] eqn:E; [|discriminate]. cbn. intros H. injection H as <-. cbn.
  apply draw_all_spec in E. intros Ha.
  assert (Ht : exists t, In t (regional_tasks d n max_obs tests rules S_star cs down up gs) /\
    match iso with Some score => draw_one score (cr_model given) N data batch max_iter t | None => None end = Some a).
  { clear -E Ha. induction E as [|t b l ds Hb E IH]; [destruct Ha|]. destruct Ha as [<-|Ha].
    - exists t. split; [now left|]. destruct iso; exact Hb.
    - destruct (IH Ha) as (u & Hu & Hau). exists u. split; [now right|exact Hau]. }
  destruct Ht as (t & Ht & Hd). destruct iso as [score|]; [|discriminate].
  unfold regional_tasks in Ht. apply in_flat_map in Ht. destruct Ht as (i & Hi & Ht). apply in_seq in Hi.
  pose proof (best_rule_spec (cs i)) as Hb. destruct (best_rule (cs i)) as [c|]; [|destruct Ht].
  apply in_map_iff in Ht. destruct Ht as ([k x] & <- & Hk). apply in_combine_r in Hk. cbn in Hd.
  assert (Hx : In x (in_tests d (rules i) tests)).
  { revert Hk. clear. revert max_obs. induction (in_tests d (rules i) tests) as [|b l IH]; intros [|m]; cbn; try tauto.
    intros [H|H]; auto. right. eapply IH; eauto. }
  apply in_tests_spec in Hx. destruct Hx as [Hx1 Hx2].
  apply draw_one_spec in Hd. destruct Hd as [(Hm & Hsc & He) _]. cbn in Hm.
  exists i, x, c, score. split; [lia|]. split; [exact Hx1|]. split; [exact Hx2|]. split; [reflexivity|].
  split; [exact Hb|]. split; [exact Hm|]. split; [exact Hsc|]. rewrite He, success_spec. cbn. tauto.
Qed.
Theorem regional_inside given iso N data batch max_iter d n max_obs tests rules S_star cs down up gs o a :
  (forall i c p, i < n -> In (c, p) (cs i) -> proper (S_star i) c /\ forall k, k < d -> ~ In k (S_star i) -> c k = rules i k) ->
  sample_regional given iso N data batch max_iter d n max_obs tests rules S_star cs down up gs = Some o -> In a (o_draws o) ->
  exists i c p, i < n /\ In (c, p) (cs i) /\ inside d c (d_point a).
Proof.
  intros Hc H Ha. eapply regional_draws in H; [|exact Ha]. destruct H as (i & x & c & score & Hi & _ & Hx & _ & (p & Hp & _) & Hm & _).
  destruct (Hc i c p Hi Hp) as [H1 H2]. exists i, c, p. split; [exact Hi|]. split; [exact Hp|]. eapply moved_inside; [|exact H1|exact Hm].
  intros k Hk Hn. rewrite (H2 k Hk Hn). now apply Hx.
Qed.
Theorem regional_original given iso N data batch max_iter d n max_obs tests rules S_star cs down up gs o :
  sample_regional given iso N data batch max_iter d n max_obs tests rules S_star cs down up gs = Some o -> o_acc_orig o = None.
Proof.
  unfold CrModel.sample_regional. destruct iso as [score|].
  - destruct (draw_all _ _) as [ds|] eqn:E; [|discriminate]. cbn. intros H. injection H as <-. eapply orig_none; eauto.
  - destruct (regional_tasks _ _ _ _ _ _ _ _ _ _); cbn; [|discriminate]. intros H. now injection H as <-.
Qed.
(** it raises exactly when a draw is needed before any local session *)
Theorem regional_raises given iso N data batch max_iter d n max_obs tests rules S_star cs down up gs : 0 < batch -> 0 < max_obs ->
  sample_regional given iso N data batch max_iter d n max_obs tests rules S_star cs down up gs = None <->
  iso = None /\ exists i x, i < n /\ cs i <> [] /\ In x tests /\ inside d (rules i) x.
Proof.
  intros Hb Hm. unfold CrModel.sample_regional. destruct iso as [score|].
  - split; [|intros [H _]; discriminate]. intros H.
    destruct (draw_all_some (draw_one score (cr_model given) N data batch max_iter)
      (regional_tasks d n max_obs tests rules S_star cs down up gs)) as [ds E]; [intros t _; now apply draw_one_some|].
    now rewrite E in H.
  - destruct (regional_tasks d n max_obs tests rules S_star cs down up gs) as [|t l] eqn:E; cbn; (split; [|intros [_ (i & x & Hi & Hc & Hx & Hr)]]).
    + discriminate.
    + exfalso. assert (Hin : In i (seq 0 n)) by (apply in_seq; lia).
      assert (He : match best_rule (cs i) with
                   | Some c => map (fun p => mkTask (snd p) (S_star i) c (down i) (up i) (gs i (fst p)))
                                 (combine (seq 0 (length tests)) (firstn max_obs (in_tests d (rules i) tests)))
                   | None => [] end = []).
      { destruct (match best_rule (cs i) with Some _ => _ | None => _ end) as [|u us] eqn:Eu; [reflexivity|].
        assert (Hu : In u (regional_tasks d n max_obs tests rules S_star cs down up gs)).
        { unfold regional_tasks. apply in_flat_map. exists i. split; [exact Hin|]. rewrite Eu. now left. }
        rewrite E in Hu. destruct Hu. }
      pose proof (best_rule_spec (cs i)) as Hbr. destruct (best_rule (cs i)) as [c|]; [|contradiction].
      apply map_eq_nil in He. assert (Hxt : In x (in_tests d (rules i) tests)) by (apply in_tests_spec; auto).
      destruct tests as [|t0 ts]; [destruct Hx|]. destruct (in_tests d (rules i) (t0 :: ts)) as [|b bs]; [destruct Hxt|].
      destruct max_obs; [lia|]. discriminate.
    + intros _. split; [reflexivity|].
      assert (Ht : In t (regional_tasks d n max_obs tests rules S_star cs down up gs)) by (rewrite E; now left).
      unfold regional_tasks in Ht. apply in_flat_map in Ht. destruct Ht as (i & Hi & Ht). apply in_seq in Hi.
      pose proof (best_rule_spec (cs i)) as Hbr. destruct (best_rule (cs i)) as [c|]; [|destruct Ht].
      apply in_map_iff in Ht. destruct Ht as ([k x] & _ & Hk). apply in_combine_r in Hk.
      assert (Hx : In x (in_tests d (rules i) tests)).
      { revert Hk. clear. revert max_obs. induction (in_tests d (rules i) tests) as [|b l' IH]; intros [|m]; cbn; try tauto.
        intros [H|H]; auto. right. eapply IH; eauto. }
      apply in_tests_spec in Hx. destruct Hx as [Hx1 Hx2]. exists i, x. split; [lia|]. split; [|auto].
      destruct Hbr as (p & Hp & _). intros Hn. rewrite Hn in Hp. destruct Hp.
    + reflexivity.
Qed.

(** *** All test observations *)
Lemma in_rule_open_spec d r x : in_rule_open d r x = true <-> inside_open d r x.
Proof.
  unfold in_rule_open, inside_open. rewrite forallb_forall. split.
  - intros H k Hk. specialize (H k ltac:(apply in_seq; lia)). apply andb_prop in H. destruct H as [H1 H2].
    apply qleb_true in H1. apply qltb_true in H2. auto.
  - intros H k Hk. apply in_seq in Hk. destruct (H k ltac:(lia)) as [H1 H2]. apply andb_true_intro.
    split; [now apply qleb_true|now apply qltb_true].
Qed.
Lemma max_prob_spec cs : cs <> [] -> exists c, In (c, max_prob cs) cs /\ forall c' p', In (c', p') cs -> (p' <= max_prob cs)%Q.
Proof.
  intros Hne. unfold max_prob. destruct (argmax (map snd cs)) as [b|] eqn:E; [|destruct cs; [congruence|discriminate]].
  pose proof E as E'. apply argmax_spec in E'. destruct E' as [Hb Hm]. rewrite map_length in Hb, Hm.
  destruct (nth_error cs b) as [[c p]|] eqn:En; [|apply nth_error_None in En; lia]. cbn.
  exists c. split; [eapply nth_error_In; eauto|]. intros c' p' Hi. apply In_nth_error in Hi. destruct Hi as [j Hj].
  assert (Hjl : j < length cs) by (apply nth_error_Some; congruence). specialize (Hm j Hjl).
  rewrite (nth_error_nth (map snd cs) j (x := p') 0%Q) in Hm by (rewrite nth_error_map, Hj; reflexivity).
  rewrite (nth_error_nth (map snd cs) b (x := p) 0%Q) in Hm by (rewrite nth_error_map, En; reflexivity). exact Hm.
Qed.
(** the chosen rule holds the observation and is the most probable, provided some rule
    with a counterfactual of positive probability holds it *)
Theorem chosen_spec d n rules cs x i c p : i < n -> In (c, p) (cs i) -> (0 < p)%Q -> inside_open d (rules i) x ->
  exists b c' p', chosen d n rules cs x = Some b /\ b < n /\ In (c', p') (cs b) /\ (p <= p')%Q /\ inside_open d (rules b) x.
Proof.
  intros Hi Hc Hp Hx. unfold chosen. destruct (argmax (map (test_pb d rules cs x) (seq 0 n))) as [b|] eqn:E.
  2:{ destruct n; [lia|discriminate]. }
  apply argmax_spec in E. destruct E as [Hb Hm]. rewrite map_length, seq_length in Hb, Hm.
  assert (Hnth : forall j, j < n -> nth j (map (test_pb d rules cs x) (seq 0 n)) 0%Q = test_pb d rules cs x j).
  { intros j Hj. rewrite (nth_indep _ 0%Q (test_pb d rules cs x 0)) by (rewrite map_length, seq_length; lia).
    rewrite map_nth, seq_nth by lia. reflexivity. }
  specialize (Hm i Hi). rewrite !Hnth in Hm by lia.
  assert (Hti : (p <= test_pb d rules cs x i)%Q).
  { unfold test_pb. destruct (cs i) as [|e r] eqn:Ec; [destruct Hc|]. rewrite <- Ec in *.
    apply in_rule_open_spec in Hx. rewrite Hx. cbn [Qb].
    destruct (max_prob_spec (cs i)) as (c0 & _ & Hmax); [rewrite Ec; discriminate|]. specialize (Hmax c p Hc). lra. }
  unfold test_pb at 2 in Hm. destruct (cs b) as [|e r] eqn:Ec; [lra|]. rewrite <- Ec in *.
  destruct (in_rule_open d (rules b) x) eqn:Ex; cbn [Qb] in Hm; [|lra].
  destruct (max_prob_spec (cs b)) as (c0 & Hin & _); [rewrite Ec; discriminate|].
  exists b, c0, (max_prob (cs b)). repeat split; auto; [lra| |]; apply in_rule_open_spec in Ex; now apply Ex.
Qed.
Lemma sa_still score x N data cond batch max_iter conv g b e log :
  simulated_annealing rand randint exp lg temp true score x [] N data cond batch max_iter conv g = Some (b, e, log) -> b = x.
Proof.
  unfold simulated_annealing, generate_candidate. cbn [fill_columns repeat]. intros H.
  pose proof H as Hb. eapply loop_best in Hb; [|reflexivity|now left|intros a [<-|[]]; lra]. destruct Hb as (_ & Hin & _).
  eapply (loop_inv rand exp lg temp _ _ _ (fun p => p = x)) in H; [exact H| |reflexivity|intros a [<-|[]]; reflexivity|exact Hin].
  cbn. intros c g0 l g' -> Hl a Ha. injection Hl as <- _. now apply repeat_spec in Ha.
Qed.
Lemma alltest_in one d n rules S_star cs down up gs tests : forall k ds,
  alltest_all (alltest_one classifier one d n rules S_star cs down up gs) k tests = Some ds ->
  forall a, In a ds -> exists (t : task (G := G)), In (t_x t) tests /\ one t = Some a.
Proof.
  induction tests as [|x r IH]; intros k ds H a Ha; cbn in H.
  - injection H as <-. destruct Ha.
  - destruct (alltest_one classifier one d n rules S_star cs down up gs k x) as [o|] eqn:E; [|discriminate].
    destruct (alltest_all _ (S k) r) as [l|] eqn:El; [|discriminate]. cbn in H. injection H as <-.
    assert (Hr : In a l -> exists t, In (t_x t) (x :: r) /\ one t = Some a).
    { intros Hl. destruct (IH _ _ El a Hl) as (t & Ht & Hat). exists t. split; [now right|exact Hat]. }
    destruct o as [b|]; [|auto]. destruct Ha as [<-|Ha]; [|auto].
    unfold alltest_one in E. destruct (chosen d n rules cs x) as [bi|]; [|discriminate].
    destruct (best_rule (cs bi)) as [c|]; [|discriminate]. destruct (_ && _); [discriminate|].
    destruct (one _) as [b'|] eqn:Eo; [|discriminate]. cbn in E. injection E as <-.
    eexists. split; [|exact Eo]. cbn. now left.
Qed.
(** whatever it returns, no observation was changed *)
Theorem alltests_still given iso N data batch max_iter d n tests rules S_star cs down up gs o a :
  sample_alltests given iso N data batch max_iter d n tests rules S_star cs down up gs = Some o -> In a (o_draws o) ->
  In (d_point a) tests /\ (classifier = true -> d_err a = false).
Proof.
  unfold CrModel.sample_alltests. destruct (n =? 0); [discriminate|].
  destruct (alltest_all _ 0 tests) as [ds|] eqn:E; [|discriminate]. cbn. intros H. injection H as <-. cbn. intros Ha.
  destruct (alltest_in _ _ _ _ _ _ _ _ _ _ _ _ E a Ha) as (t & Ht & Hat). destruct iso as [score|]; [|discriminate].
  unfold draw_row in Hat. destruct (t_S t) as [|s ss] eqn:Es; [|discriminate]. unfold CrModel.draw_one in Hat. rewrite Es in Hat.
  destruct (simulated_annealing _ _ _ _ _ _ _ _ _ _ _ _ _ _ _ _) as [[[b e] log]|] eqn:Esa; [|discriminate].
  apply sa_still in Esa. subst b. injection Hat as <-. cbn. split; [exact Ht|]. intros Hc. unfold success. rewrite Hc.
  destruct (qeqb_spec (predict (t_x t)) (predict (t_x t))) as [|Hn]; [reflexivity|]. exfalso. apply Hn. reflexivity.
Qed.
Theorem alltests_accuracy given iso N data batch max_iter d n tests rules S_star cs down up gs o q :
  classifier = true ->
  sample_alltests given iso N data batch max_iter d n tests rules S_star cs down up gs = Some o -> o_acc o = Some q -> (q == 0)%Q.
Proof.
  intros Hc H Hq. assert (Hs : forall a, In a (o_draws o) -> d_err a = false).
  { intros a Ha. now apply (alltests_still _ _ _ _ _ _ _ _ _ _ _ _ _ _ _ _ _ H Ha). }
  revert H Hq. unfold CrModel.sample_alltests in *. destruct (n =? 0); [discriminate|].
  destruct (alltest_all _ 0 tests) as [ds|] eqn:E; [|discriminate]. cbn [option_map]. intros H. injection H as <-. intros Hq. cbn [o_draws summary] in Hs.
  destruct (summary_acc (length tests) ds) as [[_ Ha]|(q' & Ha & Hsh & _)]; rewrite Ha in Hq; [discriminate|]. injection Hq as <-.
  rewrite Hsh. unfold share. replace (filter d_err ds) with (@nil draw); [cbn; unfold Qdiv; apply Qmult_0_l|].
  symmetry. clear -Hs. induction ds as [|a l IH]; [reflexivity|]. cbn. rewrite (Hs a) by now left. apply IH. intros b Hb. apply Hs. now right.
Qed.
(** it raises as soon as the rule chosen for a test observation has a counterfactual that
    changes some variable *)
Theorem alltests_raises given iso N data batch max_iter d n tests rules S_star cs down up gs x b :
  In x tests -> chosen d n rules cs x = Some b -> cs b <> [] -> S_star b <> [] ->
  sample_alltests given iso N data batch max_iter d n tests rules S_star cs down up gs = None.
Proof.
  intros Hx Hch Hc HS. unfold CrModel.sample_alltests. destruct (n =? 0); [reflexivity|].
  match goal with |- option_map _ (alltest_all ?f 0 tests) = None => set (F := f) end.
  enough (H : forall k, alltest_all F k tests = None) by now rewrite H.
  assert (HF : forall k, F k x = None).
  { intros k. unfold F, alltest_one. rewrite Hch. pose proof (best_rule_spec (cs b)) as Hb. destruct (best_rule (cs b)) as [c|]; [|contradiction].
    destruct (_ && _); [reflexivity|]. destruct iso as [score|]; [|reflexivity]. unfold draw_row. cbn [t_S]. now destruct (S_star b). }
  clearbody F. induction tests as [|y r IH]; [destruct Hx|]. intros k. cbn. destruct Hx as [->|Hx]; [now rewrite HF|].
  destruct (F k y); [|reflexivity]. now rewrite (IH Hx).
Qed.
End Sampling.

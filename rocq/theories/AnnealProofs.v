(** Proofs about the annealing searches. *)
From Verif Require Import Base RfModel RulesModel RulesSpec SearchProofs RulesProofs RulesModelProofs AnnealModel AnnealSpec.

(** ** Values, validity *)
Lemma left_cr_spec r o k v : In v (left_values_cr r o k) -> (v <= fst (r k))%Q /\ (v = fst (r k) \/ exists q, In q o /\ v = fst (q k)).
Proof.
  unfold left_values_cr. intro H. apply in_app_or in H. destruct H as [H|[<-|[]]]; [|unfold lo; split; [lra|auto]].
  apply in_map_iff in H. destruct H as [q [<- H]]. apply filter_In in H. destruct H as [H1 H2]. apply qltb_true in H2.
  unfold lo in *. split; [lra|eauto].
Qed.
Lemma right_cr_spec r o k v : In v (right_values_cr r o k) -> (snd (r k) <= v)%Q /\ (v = snd (r k) \/ exists q, In q o /\ v = snd (q k)).
Proof.
  unfold right_values_cr. intro H. apply in_app_or in H. destruct H as [H|[<-|[]]]; [|unfold hi; split; [lra|auto]].
  apply in_map_iff in H. destruct H as [q [<- H]]. apply filter_In in H. destruct H as [H1 H2]. apply qltb_true in H2.
  unfold hi in *. split; [lra|eauto].
Qed.
Lemma left_spec r o k v : In v (left_values r o k) -> (v <= fst (r k))%Q /\ (v = fst (r k) \/ exists q, In q o /\ v = fst (q k)).
Proof.
  unfold left_values. intro H. apply in_app_or in H. destruct H as [H|[<-|[]]]; [|unfold lo; split; [lra|auto]].
  apply in_map_iff in H. destruct H as [q [<- H]]. apply filter_In in H. destruct H as [H1 H2]. apply qleb_true in H2.
  unfold lo in *. split; [lra|eauto].
Qed.
Lemma right_spec r o k v : In v (right_values r o k) -> (snd (r k) <= v)%Q /\ (v = snd (r k) \/ exists q, In q o /\ v = snd (q k)).
Proof.
  unfold right_values. intro H. apply in_app_or in H. destruct H as [H|[<-|[]]]; [|unfold hi; split; [lra|auto]].
  apply in_map_iff in H. destruct H as [q [<- H]]. apply filter_In in H. destruct H as [H1 H2]. apply qleb_true in H2.
  unfold hi in *. split; [lra|eauto].
Qed.
Lemma sumf_zero_terms {A} (f : A -> Q) l : (forall a, In a l -> (0 <= f a)%Q) -> (sumf f l == 0)%Q -> forall a, In a l -> (f a == 0)%Q.
Proof.
  induction l as [|b r IH]; intros Hp Hs a Ha; [destruct Ha|]. cbn in Hs.
  assert (H1 : (0 <= f b)%Q) by (apply Hp; now left).
  assert (H2 : (0 <= sumf f r)%Q) by (apply sumf_nonneg; intros; apply Hp; now right).
  destruct Ha as [<-|Ha]; [lra|]. apply IH; auto; [intros; apply Hp; now right|lra].
Qed.
Lemma check_spec d N data bad r : (forall i, i < N -> (0 <= bad i)%Q) ->
  (check_rule d N data bad r = true <-> forall i, i < N -> inside d r (data i) -> (bad i == 0)%Q).
Proof.
  intro Hb. unfold check_rule.
  assert (P : forall i, In i (seq 0 N) -> (0 <= Qb (in_rule (seq 0 d) r (data i)) * bad i)%Q).
  { intros i Hi. apply in_seq in Hi. apply Qmult_le_0_compat; [apply Qb_bounds|apply Hb; lia]. }
  destruct (qeqb_spec (sumf (fun i => Qb (in_rule (seq 0 d) r (data i)) * bad i)%Q (seq 0 N)) 0) as [E|E].
  - split; [|reflexivity]. intros _ i Hi Hin. pose proof (sumf_zero_terms _ _ P E i ltac:(apply in_seq; lia)) as Z.
    cbn beta in Z. assert (T : in_rule (seq 0 d) r (data i) = true) by (apply in_rule_spec, covered_inside; exact Hin).
    rewrite T in Z. cbn in Z. lra.
  - split; [discriminate|]. intro H. exfalso. apply E. apply sumf_zero. intros i Hi. apply in_seq in Hi.
    destruct (in_rule (seq 0 d) r (data i)) eqn:T; cbn; [|ring].
    apply in_rule_spec, covered_inside in T. rewrite (H i ltac:(lia) T). ring.
Qed.

(** ** Drawing rules *)
Section Random.
Context {G : Type}.
Variables (rand : G -> Q * G) (randint : nat -> G -> nat * G) (exp : Q -> Q) (lg : nat -> Q) (temp : Q).
Hypothesis randint_lt : forall n g, 0 < n -> fst (randint n g) < n.

Lemma rdm_sample_in {A} (l : list A) g a g' : rdm_sample randint l g = Some (a, g') -> In a l.
Proof using.
  unfold rdm_sample. destruct l as [|b r]; [discriminate|]. destruct (randint _ g) as [k g1].
  destruct (nth_error (b :: r) k) as [c|] eqn:E; [|discriminate]. intro H. injection H as <- _. exact (nth_error_In _ _ E).
Qed.
Lemma rdm_sample_some {A} (l : list A) g : l <> [] -> exists a g', rdm_sample randint l g = Some (a, g').
Proof using randint_lt.
  intro Hne. unfold rdm_sample. destruct l as [|b r]; [congruence|].
  pose proof (randint_lt (length (b :: r)) g ltac:(cbn; lia)) as L.
  destruct (randint _ g) as [k g1]. cbn [fst] in L. destruct (nth_error (b :: r) k) as [c|] eqn:E; [cbn; eauto|].
  apply nth_error_None in E. lia.
Qed.
(** bounds taken among the allowed values *)
Definition allowed (d : nat) (left right : nat -> list Q) (r : rule) : Prop :=
  forall k, k < d -> In (fst (r k)) (left k) /\ In (snd (r k)) (right k).
Lemma draw_bounds_spec left right keep vars : forall r g r' g', draw_bounds randint left right keep vars r g = Some (r', g') ->
  (forall k, In k vars -> In (fst (r' k)) (left k) /\ In (snd (r' k)) (right k)) /\ (forall k, ~ In k vars -> r' k = r k).
Proof using.
  induction vars as [|i rest IH]; intros r g r' g' H; cbn in H.
  - injection H as <- _. split; [intros k []|reflexivity].
  - set (L := if keep then _ else left i) in H. set (R := if keep then _ else right i) in H.
    destruct (rdm_sample randint L g) as [[a g1]|] eqn:EL; [|discriminate].
    destruct (rdm_sample randint R g1) as [[b g2]|] eqn:ER; [|discriminate].
    apply rdm_sample_in in EL. apply rdm_sample_in in ER.
    assert (IL : In a (left i)) by (unfold L in EL; destruct keep; [apply filter_In in EL; exact (proj1 EL)|exact EL]).
    assert (IR : In b (right i)) by (unfold R in ER; destruct keep; [apply filter_In in ER; exact (proj1 ER)|exact ER]).
    apply IH in H. destruct H as [H1 H2]. split.
    + intros k Hk. destruct (in_dec Nat.eq_dec k rest) as [I|I]; [auto|]. destruct Hk as [<-|Hk]; [|contradiction].
      rewrite (H2 i I), upd_same. auto.
    + intros k Hk. rewrite H2 by (intro; apply Hk; now right). apply upd_other. intro; apply Hk; now left.
Qed.
Lemma draw_bounds_some left right keep vars : forall r g,
  (forall k, In k vars -> In (fst (r k)) (left k) /\ In (snd (r k)) (right k)) -> NoDup vars ->
  exists q, draw_bounds randint left right keep vars r g = Some q.
Proof using randint_lt.
  induction vars as [|i rest IH]; intros r g H Hn; cbn; [eauto|].
  destruct (H i ltac:(now left)) as [HL HR]. inversion Hn as [|? ? Hi Hr]; subst.
  set (L := if keep then _ else left i). set (R := if keep then _ else right i).
  destruct (rdm_sample_some L g) as [a [g1 EL]].
  { intro E. assert (I : In (fst (r i)) L); [|rewrite E in I; destruct I].
    unfold L. destruct keep; [apply filter_In; split; [exact HL|apply qleb_true; unfold lo; lra]|exact HL]. }
  rewrite EL. destruct (rdm_sample_some R g1) as [b [g2 ER]].
  { intro E. assert (I : In (snd (r i)) R); [|rewrite E in I; destruct I].
    unfold R. destruct keep; [apply filter_In; split; [exact HR|apply qleb_true; unfold hi; lra]|exact HR]. }
  rewrite ER. apply IH; [|exact Hr]. intros k Hk. rewrite upd_other by (intro; subst; contradiction). apply H. now right.
Qed.
Lemma newrule_spec d r left right p g r' g' : generate_newrule rand randint d r left right p g = Some (r', g') ->
  allowed d left right r' /\ forall k, d <= k -> r' k = r k.
Proof using.
  unfold generate_newrule. destruct (rand g) as [u g1]. intro H. apply draw_bounds_spec in H. destruct H as [H1 H2]. split.
  - intros k Hk. apply H1, in_seq. lia.
  - intros k Hk. apply H2. rewrite in_seq. lia.
Qed.
Lemma draw_bounds_keep left right vars : NoDup vars -> forall r g r' g', draw_bounds randint left right true vars r g = Some (r', g') ->
  forall k, (fst (r' k) <= fst (r k))%Q /\ (snd (r k) <= snd (r' k))%Q.
Proof using.
  induction vars as [|i rest IH]; intros Hn r g r' g' H k; cbn in H.
  - injection H as <- _. split; lra.
  - inversion Hn as [|? ? Hi Hr]; subst.
    destruct (rdm_sample randint _ g) as [[a g1]|] eqn:EL; [|discriminate].
    destruct (rdm_sample randint _ g1) as [[b g2]|] eqn:ER; [|discriminate].
    apply rdm_sample_in, filter_In in EL. apply rdm_sample_in, filter_In in ER.
    destruct EL as [_ EL], ER as [_ ER]. apply qleb_true in EL, ER.
    specialize (IH Hr _ _ _ _ H k). destruct (Nat.eq_dec k i) as [->|Hk].
    + rewrite upd_same in IH. cbn in IH. unfold lo, hi in *. lra.
    + rewrite upd_other in IH by exact Hk. exact IH.
Qed.
Lemma newrule_keep d r left right p g r' g' : generate_newrule rand randint d r left right p g = Some (r', g') ->
  (fst (rand g) <= p)%Q -> wider d r' r.
Proof using.
  unfold generate_newrule. destruct (rand g) as [u g1]. cbn [fst]. intros H Hu.
  assert (E : qltb p u = false) by (apply qltb_false; exact Hu). rewrite E in H. cbn [negb] in H.
  intros k _. exact (draw_bounds_keep _ _ _ (seq_NoDup _ _) _ _ _ _ H k).
Qed.
Lemma newrule_some d r left right p g : allowed d left right r -> exists q, generate_newrule rand randint d r left right p g = Some q.
Proof using randint_lt.
  intro H. unfold generate_newrule. destruct (rand g) as [u g1]. apply draw_bounds_some; [|apply seq_NoDup].
  intros k Hk. apply in_seq in Hk. apply H. lia.
Qed.
Lemma try_rules_spec tries d N data bad left right p r : forall g r' g',
  try_rules rand randint tries d N data bad r left right p g = Some (r', g') ->
  r' = r \/ (allowed d left right r' /\ check_rule d N data bad r' = true /\ forall k, d <= k -> r' k = r k).
Proof using.
  induction tries as [|t IH]; intros g r' g' H; cbn in H; [injection H as <- _; now left|].
  destruct (generate_newrule rand randint d r left right p g) as [[q g1]|] eqn:E; [|discriminate].
  destruct (check_rule d N data bad q) eqn:C; [|now apply IH in H].
  injection H as <- _. right. apply newrule_spec in E. destruct E as [E1 E2]. split; [exact E1|split; [exact C|exact E2]].
Qed.
Lemma try_rules_some tries d N data bad left right p r : allowed d left right r -> forall g,
  exists q, try_rules rand randint tries d N data bad r left right p g = Some q.
Proof using randint_lt.
  intro H. induction tries as [|t IH]; intro g; cbn; [eauto|].
  destruct (newrule_some d r left right p g H) as [[q g1] ->]. destruct (check_rule d N data bad q); eauto.
Qed.
Lemma generate_rules_spec n n_try d N data bad left right p r : forall g l g',
  generate_rules rand randint n n_try d N data bad r left right p g = Some (l, g') ->
  length l = n /\ forall r', In r' l ->
  r' = r \/ (allowed d left right r' /\ check_rule d N data bad r' = true /\ forall k, d <= k -> r' k = r k).
Proof using.
  induction n as [|n IH]; intros g l g' H; cbn [generate_rules] in H; [injection H as <- _; split; [reflexivity|intros ? []]|].
  destruct (generate_valid_rule rand randint n_try d N data bad r left right p g) as [[q g1]|] eqn:E; [|discriminate].
  destruct (generate_rules rand randint n n_try d N data bad r left right p g1) as [[l1 g2]|] eqn:F; [|discriminate].
  cbn in H. injection H as <- _. apply IH in F. destruct F as [F1 F2]. split; [cbn; lia|].
  intros r' [<-|I]; [|auto]. eapply try_rules_spec; exact E.
Qed.
Lemma generate_rules_some n n_try d N data bad left right p r : allowed d left right r -> forall g,
  exists q, generate_rules rand randint n n_try d N data bad r left right p g = Some q.
Proof using randint_lt.
  intro H. induction n as [|n IH]; intro g; cbn [generate_rules]; [eauto|].
  destruct (try_rules_some (S n_try) d N data bad left right p r H g) as [[q g1] E]. unfold generate_valid_rule. rewrite E.
  destruct (IH g1) as [[l g2] ->]. cbn. eauto.
Qed.

(** ** The loop *)
Section Loop.
Context {A : Type}.
Variables (gen : A -> G -> option (list A * G)) (value : A -> Q) (stop : Q -> nat -> bool).
Let loop := anneal_loop rand exp lg temp gen value stop.
Lemma argmax_nth (l : list A) b c : argmax (map value l) = Some b -> nth_error l b = Some c ->
  In c l /\ forall a, In a l -> (value a <= value c)%Q.
Proof using.
  intros H E. apply argmax_spec in H. destruct H as [H1 H2]. rewrite map_length in *. split; [eapply nth_error_In; eauto|].
  intros a Ha. apply In_nth_error in Ha. destruct Ha as [j J].
  assert (Lj : j < length l) by (apply nth_error_Some; congruence). specialize (H2 j Lj).
  assert (Nt : forall i a, nth_error l i = Some a -> nth i (map value l) 0%Q = value a).
  { intros i e K. apply nth_error_nth. now apply map_nth_error. }
  now rewrite (Nt j a J), (Nt b c E) in H2.
Qed.
Lemma loop_inv (P : A -> Prop) : (forall c g l g', P c -> gen c g = Some (l, g') -> forall a, In a l -> P a) ->
  forall iters i best curr be ce move g log b e log', P curr -> (forall a, In a log -> P a) ->
  loop iters i best curr be ce move g log = Some (b, e, log') -> forall a, In a log' -> P a.
Proof using.
  intro Hg. unfold loop. induction iters as [|n IH]; intros i best curr be ce move g log b e log' Hc Hl H; cbn in H.
  - now injection H as <- <- <-.
  - destruct (gen curr g) as [[cands g1]|] eqn:E; [|discriminate].
    destruct (argmax (map value cands)) as [bi|] eqn:Ea; [|discriminate].
    destruct (nth_error cands bi) as [cand|] eqn:En; [|discriminate].
    assert (Pc : forall a, In a cands -> P a) by (intros; eapply Hg; eauto).
    assert (Hl' : forall a, In a (log ++ cands) -> P a) by (intros a Ha; apply in_app_or in Ha; destruct Ha; auto).
    destruct (stop _ _); [now injection H as <- <- <-|].
    destruct (accept rand exp lg temp i (value cand - ce) g1) as [ok g2].
    refine (IH _ _ _ _ _ _ _ _ _ _ _ _ Hl' H). destruct ok; [|exact Hc]. apply Pc. eapply nth_error_In; eauto.
Qed.
Lemma loop_best : forall iters i best curr be ce move g log b e log',
  (be == value best)%Q -> In best log -> (forall a, In a log -> (value a <= be)%Q) ->
  loop iters i best curr be ce move g log = Some (b, e, log') ->
  (e == value b)%Q /\ In b log' /\ (forall a, In a log' -> (value a <= e)%Q).
Proof using.
  unfold loop. induction iters as [|n IH]; intros i best curr be ce move g log b e log' Hb Hi Hm H; cbn in H.
  - injection H as <- <- <-. auto.
  - destruct (gen curr g) as [[cands g1]|] eqn:E; [|discriminate].
    destruct (argmax (map value cands)) as [bi|] eqn:Ea; [|discriminate].
    destruct (nth_error cands bi) as [cand|] eqn:En; [|discriminate].
    destruct (argmax_nth cands bi cand Ea En) as [Hin Hmax].
    set (up := qltb be (value cand)) in H.
    assert (I1 : ((if up then value cand else be) == value (if up then cand else best))%Q) by (destruct up; [reflexivity|exact Hb]).
    assert (I2 : In (if up then cand else best) (log ++ cands)) by (apply in_or_app; destruct up; auto).
    assert (I3 : forall a, In a (log ++ cands) -> (value a <= (if up then value cand else be))%Q).
    { intros a Ha. unfold up. apply in_app_or in Ha. destruct Ha as [Ha|Ha]; [apply Hm in Ha|apply Hmax in Ha]; destruct (qltb_spec be (value cand)); lra. }
    destruct (stop _ _); [injection H as <- <- <-; auto|].
    destruct (accept rand exp lg temp i (value cand - ce) g1) as [ok g2]. eapply IH; [exact I1|exact I2|exact I3|exact H].
Qed.
(** an early stop comes after more than [conv] batches without improvement *)
Lemma loop_idle batch conv : (forall c g l g', gen c g = Some (l, g') -> length l = batch) ->
  (forall q m, stop q m = true -> conv < m) ->
  forall iters i best curr be ce move g log pre post b e log',
  log = pre ++ post -> In best pre -> length post = move * batch ->
  loop iters i best curr be ce move g log = Some (b, e, log') ->
  length log' = length log + iters * batch \/
  exists pre' post', log' = pre' ++ post' /\ In b pre' /\ (conv + 1) * batch <= length post'.
Proof using.
  intros Hg Hst. unfold loop. induction iters as [|n IH]; intros i best curr be ce move g log pre post b e log' El Hb Hp H; cbn in H.
  - injection H as <- <- <-. left. lia.
  - destruct (gen curr g) as [[cands g1]|] eqn:E; [|discriminate]. apply Hg in E.
    destruct (argmax (map value cands)) as [bi|] eqn:Ea; [|discriminate].
    destruct (nth_error cands bi) as [cand|] eqn:En; [|discriminate].
    set (up := qltb be (value cand)) in H.
    assert (K : exists pre1 post1, log ++ cands = pre1 ++ post1 /\ In (if up then cand else best) pre1 /\
      length post1 = (if up then 0 else S move) * batch).
    { destruct up.
      - exists (log ++ cands), []. rewrite app_nil_r. split; [reflexivity|]. split; [|reflexivity].
        apply in_or_app. right. eapply nth_error_In; eauto.
      - exists pre, (post ++ cands). rewrite El, <- app_assoc. split; [reflexivity|]. split; [exact Hb|].
        rewrite app_length. cbn. lia. }
    destruct K as [pre1 [post1 [K1 [K2 K3]]]].
    destruct (stop _ _) eqn:Es.
    + injection H as <- <- <-. right. exists pre1, post1. split; [exact K1|]. split; [exact K2|].
      apply Hst in Es. rewrite K3. apply Nat.mul_le_mono_r. lia.
    + destruct (accept rand exp lg temp i (value cand - ce) g1) as [ok g2].
      apply (IH _ _ _ _ _ _ _ _ pre1 post1) in H; [|exact K1|exact K2|exact K3].
      rewrite app_length, E in H. destruct H as [H|H]; [left; cbn; lia|right; exact H].
Qed.
Lemma loop_length batch : (forall c g l g', gen c g = Some (l, g') -> length l = batch) ->
  forall iters i best curr be ce move g log b e log',
  loop iters i best curr be ce move g log = Some (b, e, log') ->
  (length log' <= length log + iters * batch) /\ ((forall m, stop e m = false) -> (forall q q' m, stop q m = true -> (q <= q')%Q -> stop q' m = true) ->
     length log' = length log + iters * batch) /\ (be <= e)%Q.
Proof using.
  intro Hg. unfold loop. induction iters as [|n IH]; intros i best curr be ce move g log b e log' H; cbn in H.
  - injection H as <- <- <-. split; [lia|]. split; [intros; lia|lra].
  - destruct (gen curr g) as [[cands g1]|] eqn:E; [|discriminate]. apply Hg in E.
    destruct (argmax (map value cands)) as [bi|] eqn:Ea; [|discriminate].
    destruct (nth_error cands bi) as [cand|] eqn:En; [|discriminate].
    assert (U : (be <= (if qltb be (value cand) then value cand else be))%Q) by (destruct (qltb_spec be (value cand)); lra).
    destruct (stop _ _) eqn:Es.
    + injection H as <- <- <-. rewrite app_length, E. split; [lia|]. split; [|exact U].
      intros Hs _. rewrite Hs in Es. discriminate.
    + destruct (accept rand exp lg temp i (value cand - ce) g1) as [ok g2]. apply IH in H. destruct H as [H1 [H2 H3]].
      rewrite app_length, E in *. split; [lia|]. split; [|lra]. intros Ha Hb. specialize (H2 Ha Hb). lia.
Qed.
Lemma loop_some (P : A -> Prop) : (forall c g l g', P c -> gen c g = Some (l, g') -> forall a, In a l -> P a) ->
  (forall c g, P c -> exists l g', gen c g = Some (l, g') /\ l <> []) ->
  forall iters i best curr be ce move g log, P curr -> exists q, loop iters i best curr be ce move g log = Some q.
Proof using.
  intros Hg Hd. unfold loop. induction iters as [|n IH]; intros i best curr be ce move g log Hc; cbn; [eauto|].
  destruct (Hd curr g Hc) as [l [g1 [E Hne]]]. rewrite E. destruct (argmax (map value l)) as [bi|] eqn:Ea.
  2:{ destruct l; [congruence|cbn in Ea; discriminate]. }
  destruct (argmax_spec _ _ Ea) as [Lb _]. rewrite map_length in Lb.
  destruct (nth_error l bi) as [cand|] eqn:En; [|apply nth_error_None in En; lia].
  destruct (stop _ _); [eauto|]. destruct (accept rand exp lg temp i (value cand - ce) g1) as [ok g2].
  apply IH. destruct ok; [|exact Hc]. eapply Hg; eauto. eapply nth_error_In; eauto.
Qed.
End Loop.

(** ** Acceptance *)
Lemma always_accepts i diff g : (forall z, (0 <= z)%Q -> (1 <= exp z)%Q) -> (forall n, 0 < n -> (0 < lg n)%Q) -> (0 < temp)%Q ->
  (forall g, (fst (rand g) < 1)%Q) -> fst (accept rand exp lg temp i diff g) = true.
Proof using.
  intros He Hl Ht Hr. unfold accept. destruct (qltb_spec 0 diff); [reflexivity|].
  pose proof (Hr g) as U. destruct (rand g) as [u g']. cbn [fst] in *. apply qltb_true.
  assert (M : (1 <= metropolis exp lg temp i diff)%Q); [|lra].
  unfold metropolis. apply He. destruct (Nat.eqb_spec i 0); [lra|].
  assert (P : (0 < temp / lg i)%Q). { apply Qlt_shift_div_l; [apply Hl; lia|lra]. }
  apply Qle_shift_div_l; [exact P|lra].
Qed.

(** ** Rules *)
Section Rules.
Variables (value : rule -> Q) (r : rule) (left right : nat -> list Q) (d N : nat) (data : nat -> pt) (bad : nat -> Q)
          (p_best : Q) (n_try batch max_iter conv : nat).
Hypothesis Hr : allowed d left right r.
Let run := rules_simulated_annealing rand randint exp lg temp value r left right d N data bad p_best n_try batch max_iter conv.
Lemma rules_inv (P : rule -> Prop) : P r ->
  (forall c c', P c -> allowed d left right c' -> check_rule d N data bad c' = true -> (forall k, d <= k -> c' k = c k) -> P c') ->
  forall g b e log, run g = Some (b, e, log) -> forall a, In a log -> P a.
Proof using.
  intros H0 Hs g b e log. unfold run, rules_simulated_annealing.
  destruct (generate_rules _ _ 1 _ _ _ _ _ _ _ _ _ _) as [[[|b0 [|? ?]] g1]|] eqn:E; try discriminate.
  destruct (_ && _); [discriminate|].
  apply generate_rules_spec in E. destruct E as [_ E].
  assert (P0 : P b0). { destruct (E b0 ltac:(now left)) as [->|[E1 [E2 E3]]]; [exact H0|eapply Hs; eauto]. }
  intro H. refine (loop_inv _ _ _ P _ _ _ _ _ _ _ _ _ _ _ _ _ P0 _ H); [|intros a [<-|[]]; exact P0].
  intros c g2 l g3 Hc Eg a Ha. apply generate_rules_spec in Eg. destruct Eg as [_ Eg].
  destruct (Eg a Ha) as [->|[E1 [E2 E3]]]; [exact Hc|eapply Hs; eauto].
Qed.
Lemma rules_best g b e log : run g = Some (b, e, log) -> (e == value b)%Q /\ In b log /\ forall a, In a log -> (value a <= e)%Q.
Proof using.
  unfold run, rules_simulated_annealing.
  destruct (generate_rules _ _ 1 _ _ _ _ _ _ _ _ _ _) as [[[|b0 [|? ?]] g1]|] eqn:E; try discriminate.
  destruct (_ && _); [discriminate|]. intro H. eapply loop_best in H; [exact H|reflexivity|now left|].
  intros a [<-|[]]. lra.
Qed.
Lemma rules_some g : d <> 1 \/ max_iter = 0 -> 0 < batch -> exists q, run g = Some q.
Proof using Hr randint_lt.
  intros Hd Hb. unfold run, rules_simulated_annealing.
  destruct (generate_rules_some 1 n_try d N data bad left right p_best r Hr g) as [[l g1] E]. rewrite E.
  apply generate_rules_spec in E. destruct E as [E1 E2]. destruct l as [|b0 [|? ?]]; try discriminate.
  assert (F : (d =? 1) && negb (max_iter =? 0) = false).
  { destruct Hd as [Hd|Hd]; [apply Nat.eqb_neq in Hd; now rewrite Hd|rewrite Hd; cbn; apply andb_false_r]. }
  rewrite F. apply (loop_some _ _ _ (allowed d left right)).
  - intros c g2 l g3 Hc Eg a Ha. apply generate_rules_spec in Eg. destruct Eg as [_ Eg]. destruct (Eg a Ha) as [->|[K _]]; assumption.
  - intros c g2 Hc. destruct (generate_rules_some batch n_try d N data bad left right p_best c Hc g2) as [[l g3] El].
    exists l, g3. split; [exact El|]. apply generate_rules_spec in El. destruct El as [El _]. destruct l; [cbn in El; lia|discriminate].
  - destruct (E2 b0 ltac:(now left)) as [->|[K _]]; assumption.
Qed.
Lemma rules_one g : d = 1 -> 0 < max_iter -> run g = None.
Proof using.
  intros Hd Hm. unfold run, rules_simulated_annealing.
  destruct (generate_rules _ _ 1 _ _ _ _ _ _ _ _ _ _) as [[[|b0 [|? ?]] g1]|]; try reflexivity.
  assert (E : max_iter =? 0 = false) by (apply Nat.eqb_neq; lia). rewrite Hd, E. reflexivity.
Qed.
Lemma rules_log g b e log : run g = Some (b, e, log) -> length log <= 1 + max_iter * batch.
Proof using.
  unfold run, rules_simulated_annealing.
  destruct (generate_rules _ _ 1 _ _ _ _ _ _ _ _ _ _) as [[[|b0 [|? ?]] g1]|] eqn:E; try discriminate.
  destruct (_ && _); [discriminate|]. intro H. eapply (loop_length _ _ _ batch) in H; [cbn in H; lia|].
  intros c g2 l g3 Eg. apply generate_rules_spec in Eg. exact (proj1 Eg).
Qed.
Lemma rules_idle g b e log : run g = Some (b, e, log) -> length log = 1 + max_iter * batch \/
  exists pre post, log = pre ++ post /\ In b pre /\ (conv + 1) * batch <= length post.
Proof using.
  unfold run, rules_simulated_annealing.
  destruct (generate_rules _ _ 1 _ _ _ _ _ _ _ _ _ _) as [[[|b0 [|? ?]] g1]|] eqn:E; try discriminate.
  destruct (_ && _); [discriminate|]. intro H.
  apply (loop_idle _ _ _ batch conv) with (pre := [b0]) (post := []) in H;
    [exact H| | |reflexivity|now left|reflexivity].
  - intros c g2 l g3 Eg. apply generate_rules_spec in Eg. exact (proj1 Eg).
  - intros q m Hm. now apply Nat.ltb_lt in Hm.
Qed.
(** everything but the wrapper: candidates are allowed, and valid if the start is *)
Lemma rules_candidates g b e log : run g = Some (b, e, log) ->
  (forall a, In a log -> allowed d left right a /\ forall k, d <= k -> a k = r k) /\
  (check_rule d N data bad r = true -> forall a, In a log -> check_rule d N data bad a = true) /\
  (e == value b)%Q /\ In b log /\ (forall a, In a log -> (value a <= e)%Q).
Proof using Hr.
  intro H. split; [|split; [|exact (rules_best _ _ _ _ H)]].
  - apply (rules_inv (fun a => allowed d left right a /\ forall k, d <= k -> a k = r k)) with (3 := H).
    + split; [exact Hr|reflexivity].
    + intros c c' [_ Hc] H1 _ H3. split; [exact H1|]. intros k Hk. rewrite H3 by exact Hk. auto.
  - intro Hv. apply (rules_inv (fun a => check_rule d N data bad a = true)) with (3 := H); [exact Hv|auto].
Qed.
End Rules.

Lemma allowed_left_cr d r o : allowed d (left_values_cr r o) (right_values_cr r o) r.
Proof using. intros k _. split; apply in_or_app; right; now left. Qed.
Lemma allowed_left d r o : allowed d (left_values r o) (right_values r o) r.
Proof using. intros k _. split; apply in_or_app; right; now left. Qed.
Lemma bad_cr_spec d data r o i : (bad_sample_cr d data r o i == 0)%Q <->
  inside d r (data i) \/ exists q, In q o /\ inside d q (data i).
Proof using.
  unfold bad_sample_cr. destruct (in_rule (seq 0 d) r (data i)) eqn:E; cbn.
  - split; [|reflexivity]. intros _. left. now apply covered_inside, in_rule_spec.
  - destruct (existsb _ o) eqn:F.
    + split; [|reflexivity]. intros _. right. apply existsb_exists in F. destruct F as [q [F1 F2]].
      exists q. split; [exact F1|]. now apply covered_inside, in_rule_spec.
    + split; [intro H; lra|]. intros [H|[q [Q1 Q2]]].
      * apply covered_inside, in_rule_spec in H. congruence.
      * apply covered_inside, in_rule_spec in Q2. assert (T : existsb (fun q => in_rule (seq 0 d) q (data i)) o = true) by (apply existsb_exists; eauto).
        congruence.
Qed.
Lemma bad_cr_nonneg d data r o i : (0 <= bad_sample_cr d data r o i)%Q.
Proof using. unfold bad_sample_cr. destruct (_ || _); lra. Qed.
Lemma bad_spec sdp pi i : (bad_sample sdp pi i == 0)%Q <-> (pi <= sdp i)%Q.
Proof using. unfold bad_sample. destruct (qleb_spec pi (sdp i)); split; intro H; try lra. Qed.
Lemma bad_nonneg sdp pi i : (0 <= bad_sample sdp pi i)%Q.
Proof using. unfold bad_sample. destruct (qleb pi (sdp i)); lra. Qed.

Lemma annealing_cr value r others d N data p_best n_try batch max_iter conv g b e log :
  rules_by_annealing_cr rand randint exp lg temp value r others d N data p_best n_try batch max_iter conv g = Some (b, e, log) ->
  In b log /\ (e == value b)%Q /\ forall a, In a log ->
    (value a <= e)%Q /\ grown d r others a /\
    forall i, i < N -> inside d a (data i) -> inside d r (data i) \/ exists q, In q others /\ inside d q (data i).
Proof using.
  intro H. unfold rules_by_annealing_cr in H. apply rules_candidates in H; [|apply allowed_left_cr].
  destruct H as [H1 [H2 [H3 [H4 H5]]]]. split; [exact H4|]. split; [exact H3|]. intros a Ha. split; [auto|].
  destruct (H1 a Ha) as [Al Out]. split.
  - split; [|split; [exact Out|]].
    + intros k Hk. destruct (Al k Hk) as [A1 A2]. apply left_cr_spec in A1. apply right_cr_spec in A2. exact (conj (proj1 A1) (proj1 A2)).
    + intros k Hk. destruct (Al k Hk) as [A1 A2]. apply left_cr_spec in A1. apply right_cr_spec in A2. exact (conj (proj2 A1) (proj2 A2)).
  - intros i Hi Hin. apply (bad_cr_spec d data r others i).
    assert (V : check_rule d N data (bad_sample_cr d data r others) r = true).
    { apply check_spec; [intros; apply bad_cr_nonneg|]. intros j Hj Hin'. apply bad_cr_spec. now left. }
    specialize (H2 V a Ha). exact (proj1 (check_spec d N data _ a (fun j _ => bad_cr_nonneg d data r others j)) H2 i Hi Hin).
Qed.
Lemma annealing value r rule_data sdp pi d N data p_best n_try batch max_iter conv g b e log :
  rules_by_annealing rand randint exp lg temp value r rule_data sdp pi d N data p_best n_try batch max_iter conv g = Some (b, e, log) ->
  In b log /\ (e == value b)%Q /\ forall a, In a log ->
    (value a <= e)%Q /\ grown d r (adjacent N rule_data sdp pi) a /\
    ((forall i, i < N -> inside d r (data i) -> (pi <= sdp i)%Q) ->
     forall i, i < N -> inside d a (data i) -> (pi <= sdp i)%Q).
Proof using.
  intro H. unfold rules_by_annealing in H. apply rules_candidates in H; [|apply allowed_left].
  destruct H as [H1 [H2 [H3 [H4 H5]]]]. split; [exact H4|]. split; [exact H3|]. intros a Ha. split; [auto|].
  destruct (H1 a Ha) as [Al Out]. split.
  - split; [|split; [exact Out|]].
    + intros k Hk. destruct (Al k Hk) as [A1 A2]. apply left_spec in A1. apply right_spec in A2. exact (conj (proj1 A1) (proj1 A2)).
    + intros k Hk. destruct (Al k Hk) as [A1 A2]. apply left_spec in A1. apply right_spec in A2. exact (conj (proj2 A1) (proj2 A2)).
  - intros Hv i Hi Hin. apply bad_spec.
    assert (V : check_rule d N data (bad_sample sdp pi) r = true).
    { apply check_spec; [intros; apply bad_nonneg|]. intros j Hj Hin'. apply bad_spec. auto. }
    specialize (H2 V a Ha). exact (proj1 (check_spec d N data _ a (fun j _ => bad_nonneg sdp pi j)) H2 i Hi Hin).
Qed.
Lemma annealing_defined value r others rule_data sdp pi d N data p_best n_try batch max_iter conv g : 0 < batch ->
  d <> 1 \/ max_iter = 0 ->
  (exists q, rules_by_annealing_cr rand randint exp lg temp value r others d N data p_best n_try batch max_iter conv g = Some q) /\
  (exists q, rules_by_annealing rand randint exp lg temp value r rule_data sdp pi d N data p_best n_try batch max_iter conv g = Some q).
Proof using randint_lt.
  intros Hb Hd. split; apply rules_some; auto; [apply allowed_left_cr|apply allowed_left].
Qed.
Lemma annealing_one value r others rule_data sdp pi N data p_best n_try batch max_iter conv g : 0 < max_iter ->
  rules_by_annealing_cr rand randint exp lg temp value r others 1 N data p_best n_try batch max_iter conv g = None /\
  rules_by_annealing rand randint exp lg temp value r rule_data sdp pi 1 N data p_best n_try batch max_iter conv g = None.
Proof using. intro H. split; now apply rules_one. Qed.
Lemma annealing_improves value r others d N data p_best n_try batch max_iter conv g b e log :
  (forall a, grown d r others a -> (value r <= value a)%Q) ->
  rules_by_annealing_cr rand randint exp lg temp value r others d N data p_best n_try batch max_iter conv g = Some (b, e, log) ->
  (value r <= e)%Q.
Proof using.
  intros Hm H. apply annealing_cr in H. destruct H as [H1 [H2 H3]]. rewrite H2. apply Hm. exact (proj1 (proj2 (H3 b H1))).
Qed.
Lemma annealing_work value r others d N data p_best n_try batch max_iter conv g b e log :
  rules_by_annealing_cr rand randint exp lg temp value r others d N data p_best n_try batch max_iter conv g = Some (b, e, log) ->
  length log <= 1 + max_iter * batch.
Proof using. apply rules_log. Qed.

Lemma annealing_idle_cr value r others d N data p_best n_try batch max_iter conv g b e log :
  rules_by_annealing_cr rand randint exp lg temp value r others d N data p_best n_try batch max_iter conv g = Some (b, e, log) ->
  length log = 1 + max_iter * batch \/ exists pre post, log = pre ++ post /\ In b pre /\ (conv + 1) * batch <= length post.
Proof using. apply rules_idle. Qed.
Lemma annealing_idle value r rule_data sdp pi d N data p_best n_try batch max_iter conv g b e log :
  rules_by_annealing rand randint exp lg temp value r rule_data sdp pi d N data p_best n_try batch max_iter conv g = Some (b, e, log) ->
  length log = 1 + max_iter * batch \/ exists pre post, log = pre ++ post /\ In b pre /\ (conv + 1) * batch <= length post.
Proof using. apply rules_idle. Qed.
Lemma adjacent_spec N (rule_data : nat -> rule) sdp pi q : In q (adjacent N rule_data sdp pi) <->
  exists i, i < N /\ (pi <= sdp i)%Q /\ q = rule_data i.
Proof using.
  clear. unfold adjacent. rewrite in_map_iff. split.
  - intros [i [<- Hi]]. apply filter_In in Hi. destruct Hi as [Hi Hs]. apply in_seq in Hi. apply qleb_true in Hs.
    exists i. split; [lia|]. now split.
  - intros [i [Hi [Hs ->]]]. exists i. split; [reflexivity|]. apply filter_In. split; [apply in_seq; lia|now apply qleb_true].
Qed.
Lemma annealing_full value r rule_data sdp pi d N data p_best n_try batch max_iter conv g b e log :
  rules_by_annealing rand randint exp lg temp value r rule_data sdp pi d N data p_best n_try batch max_iter conv g = Some (b, e, log) ->
  In b log /\ (e == value b)%Q /\ forall a, In a log ->
    (value a <= e)%Q /\
    (forall others, (forall q, In q others <-> exists i, i < N /\ (pi <= sdp i)%Q /\ q = rule_data i) -> grown d r others a) /\
    ((forall i, i < N -> inside d r (data i) -> (pi <= sdp i)%Q) ->
     forall i, i < N -> inside d a (data i) -> (pi <= sdp i)%Q).
Proof using.
  intro H. apply annealing in H. destruct H as [H1 [H2 H3]]. split; [exact H1|]. split; [exact H2|]. intros a Ha.
  destruct (H3 a Ha) as [K1 [[G1 [G2 G3]] K3]]. split; [exact K1|]. split; [|exact K3]. intros others Ho.
  split; [exact G1|]. split; [exact G2|]. intros k Hk. specialize (G3 k Hk). destruct G3 as [L R]. split.
  - destruct L as [L|[q [Hq L]]]; [now left|]. right. exists q. split; [|exact L]. now apply Ho, adjacent_spec.
  - destruct R as [R|[q [Hq R]]]; [now left|]. right. exists q. split; [|exact R]. now apply Ho, adjacent_spec.
Qed.

(** ** Leaves of counterfactuals *)
Lemma grow_spec value all d N data p_best n_try batch max_iter conv gs : forall leaves i l, (forall r, In r leaves -> In r all) ->
  grow_leaves rand randint exp lg temp value all d N data p_best n_try batch max_iter conv gs i leaves = Some l ->
  Forall2 (fun r b => grown d r all b /\ forall j, j < N -> inside d b (data j) -> exists q, In q all /\ inside d q (data j)) leaves l.
Proof using.
  induction leaves as [|r rest IH]; intros i l Hin H; cbn [grow_leaves] in H; [injection H as <-; constructor|].
  destruct (rules_by_annealing_cr _ _ _ _ _ _ _ _ _ _ _ _ _ _ _ _ _) as [[[b e] log]|] eqn:E; [|discriminate].
  destruct (grow_leaves _ _ _ _ _ _ _ _ _ _ _ _ _ _ _ _ _ rest) as [l'|] eqn:F; [|discriminate]. injection H as <-.
  apply IH in F; [|intros; apply Hin; now right]. constructor; [|exact F].
  apply annealing_cr in E. destruct E as [E1 [_ E2]]. destruct (E2 b E1) as [_ [[W [O B]] I]]. split; [split; [exact W|split; [exact O|]]|].
  - intros k Hk. destruct (B k Hk) as [[B1|[q [B1 B1']]] [B2|[q' [B2 B2']]]]; split; auto;
      right; first [apply filter_In in B1; exists q; split; [exact (proj1 B1)|exact B1']|apply filter_In in B2; exists q'; split; [exact (proj1 B2)|exact B2']].
  - intros j Hj Hb. destruct (I j Hj Hb) as [K|[q [Q1 Q2]]]; [exists r; split; [apply Hin; now left|exact K]|].
    apply filter_In in Q1. exists q. split; [exact (proj1 Q1)|exact Q2].
Qed.
Lemma grow_some value all d N data p_best n_try batch max_iter conv gs : 0 < batch -> d <> 1 \/ max_iter = 0 ->
  forall leaves i, exists l, grow_leaves rand randint exp lg temp value all d N data p_best n_try batch max_iter conv gs i leaves = Some l.
Proof using randint_lt.
  intros Hb Hd. induction leaves as [|r rest IH]; intro i; cbn [grow_leaves]; [eauto|].
  destruct (annealing_defined value r (filter (fun q => negb (allclose d q r)) all) (fun _ => r) (fun _ => 0%Q) 0 d N data p_best n_try batch max_iter conv (gs i) Hb Hd) as [[[[b e] log] E] _].
  rewrite E. destruct (IH (S i)) as [l ->]. cbn. eauto.
Qed.

(** ** Samples *)
Lemma randints_spec n k g : 0 < k -> length (fst (randints randint n k g)) = n /\ forall j, In j (fst (randints randint n k g)) -> j < k.
Proof using randint_lt.
  intro Hk. revert g. induction n as [|n IH]; intro g; cbn; [split; [reflexivity|intros j []]|].
  pose proof (randint_lt k g Hk) as L. destruct (randint k g) as [a g1]. specialize (IH g1).
  destruct (randints randint n k g1) as [l g2]. cbn in *. destruct IH as [I1 I2]. split; [lia|]. intros j [<-|Hj]; auto.
Qed.
Lemma possible_spec N data cond k v : In v (possible N data cond k) <->
  exists i, i < N /\ v = data i k /\ (fst (cond k) <= data i k <= snd (cond k))%Q.
Proof using.
  unfold possible. rewrite in_map_iff. split.
  - intros [i [<- H]]. apply filter_In in H. destruct H as [H1 H2]. apply in_seq in H1. apply andb_prop in H2.
    destruct H2 as [H2 H3]. apply qleb_true in H2. apply qleb_true in H3. exists i. split; [lia|]. auto.
  - intros [i [H1 [-> [H2 H3]]]]. exists i. split; [reflexivity|]. apply filter_In. split; [apply in_seq; lia|].
    apply andb_true_intro. split; apply qleb_true; assumption.
Qed.
(** admissible value of variable [k] *)
Definition sampled (fallback : bool) (N : nat) (data : nat -> pt) (cond : rule) (k : nat) (v : Q) : Prop :=
  from_training N data cond k v \/ (fallback = true /\ v = fst (cond k) /\ ~ available N data cond k).
Lemma set_column_length k vals xs : length vals = length xs -> length (set_column k vals xs) = length xs.
Proof using. intro H. unfold set_column. rewrite map_length, combine_length. lia. Qed.
Lemma set_column_in k vals xs p : In p (set_column k vals xs) -> exists q v, In q xs /\ In v vals /\ p = upd q k v.
Proof using.
  unfold set_column. rewrite in_map_iff. intros [[q v] [<- H]]. exists q, v. split; [eapply in_combine_l; eauto|].
  split; [eapply in_combine_r; eauto|reflexivity].
Qed.
Lemma fill_spec fb N data cond S n : forall xs g l g', length xs = n ->
  fill_columns randint fb N data cond S n xs g = Some (l, g') ->
  length l = n /\ forall p, In p l -> exists q, In q xs /\ (forall k, ~ In k S -> p k = q k) /\
    forall k, In k S -> sampled fb N data cond k (p k).
Proof using randint_lt.
  induction S as [|k rest IH]; intros xs g l g' Hx H; cbn [fill_columns] in H.
  - injection H as <- _. split; [exact Hx|]. intros p Hp. exists p. repeat split; auto. intros k [].
  - assert (Step : forall vals g1, length vals = n -> (forall v, In v vals -> sampled fb N data cond k v) ->
      fill_columns randint fb N data cond rest n (set_column k vals xs) g1 = Some (l, g') ->
      length l = n /\ forall p, In p l -> exists q, In q xs /\ (forall j, ~ In j (k :: rest) -> p j = q j) /\
        forall j, In j (k :: rest) -> sampled fb N data cond j (p j)).
    { intros vals g1 Hv Hs Hf. apply IH in Hf; [|rewrite set_column_length; lia]. destruct Hf as [F1 F2]. split; [exact F1|].
      intros p Hp. destruct (F2 p Hp) as [q [Q1 [Q2 Q3]]]. apply set_column_in in Q1. destruct Q1 as [q0 [v [V1 [V2 ->]]]].
      exists q0. split; [exact V1|]. split.
      - intros j Hj. rewrite Q2 by (intro; apply Hj; now right). apply upd_other. intro; apply Hj; now left.
      - intros j Hj. destruct (in_dec Nat.eq_dec j rest) as [I|I]; [auto|]. destruct Hj as [<-|Hj]; [|contradiction].
        rewrite (Q2 k I), upd_same. auto. }
    destruct (possible N data cond k) as [|v0 vs] eqn:Ep.
    + destruct fb; [|discriminate]. apply (Step _ g) in H; [exact H|apply repeat_length|].
      intros v Hv. apply repeat_spec in Hv. right. split; [reflexivity|]. split; [exact Hv|].
      intros [i [Hi Hin]]. assert (I : In (data i k) (possible N data cond k)) by (apply possible_spec; eauto). rewrite Ep in I. destruct I.
    + destruct (randints_spec n (length (v0 :: vs)) g ltac:(cbn; lia)) as [R1 R2].
      destruct (randints randint n (length (v0 :: vs)) g) as [ids g1] eqn:Er. cbn [fst] in *.
      apply (Step _ g1) in H; [exact H|now rewrite map_length|].
      intros v Hv. apply in_map_iff in Hv. destruct Hv as [j [<- Hj]]. left. apply possible_spec. rewrite Ep. apply nth_In. auto.
Qed.
Lemma fill_some fb N data cond S n : (fb = true \/ forall k, In k S -> available N data cond k) ->
  forall xs g, exists q, fill_columns randint fb N data cond S n xs g = Some q.
Proof using.
  intro H. induction S as [|k rest IH]; intros xs g; cbn [fill_columns]; [eauto|].
  assert (H' : fb = true \/ forall k, In k rest -> available N data cond k).
  { destruct H as [H|H]; [now left|right; intros; apply H; now right]. }
  destruct (possible N data cond k) as [|v0 vs] eqn:Ep.
  - destruct fb; [now apply IH|]. exfalso. destruct H as [H|H]; [discriminate|]. destruct (H k ltac:(now left)) as [i [H1 H2]].
    assert (I : In (data i k) (possible N data cond k)) by (apply possible_spec; eauto). rewrite Ep in I. destruct I.
  - destruct (randints randint n (length (v0 :: vs)) g) as [ids g1]. now apply IH.
Qed.
Lemma fill_raises N data cond S n k : In k S -> ~ available N data cond k ->
  forall xs g, fill_columns randint false N data cond S n xs g = None.
Proof using.
  intros Hk Hn. induction S as [|j rest IH]; intros xs g; [destruct Hk|]. cbn [fill_columns].
  destruct (possible N data cond j) as [|v0 vs] eqn:Ep; [reflexivity|].
  destruct Hk as [->|Hk].
  - assert (I : In v0 (possible N data cond k)) by (rewrite Ep; now left). apply possible_spec in I. destruct I as [i [I1 [_ I2]]].
    exfalso. apply Hn. now exists i.
  - destruct (randints randint n (length (v0 :: vs)) g) as [ids g1]. now apply IH.
Qed.
Lemma candidate_spec fb x S N data cond n g l g' : generate_candidate randint fb x S N data cond n g = Some (l, g') ->
  length l = n /\ forall p, In p l -> (forall k, ~ In k S -> p k = x k) /\ forall k, In k S -> sampled fb N data cond k (p k).
Proof using randint_lt.
  unfold generate_candidate. intro H. apply fill_spec in H; [|apply repeat_length]. destruct H as [H1 H2]. split; [exact H1|].
  intros p Hp. destruct (H2 p Hp) as [q [Q1 [Q2 Q3]]]. apply repeat_spec in Q1. subst q. auto.
Qed.
Lemma sa_spec fb score x S N data cond batch max_iter conv g b e log :
  simulated_annealing rand randint exp lg temp fb score x S N data cond batch max_iter conv g = Some (b, e, log) ->
  In b log /\ (e == score b)%Q /\ (length log <= 1 + max_iter * batch) /\
  ((e <= 0)%Q -> length log = 1 + max_iter * batch) /\
  forall p, In p log -> (score p <= e)%Q /\ (forall k, ~ In k S -> p k = x k) /\ forall k, In k S -> sampled fb N data cond k (p k).
Proof using randint_lt.
  unfold simulated_annealing.
  destruct (generate_candidate randint fb x S N data cond 1 g) as [[[|b0 [|? ?]] g1]|] eqn:E; try discriminate.
  apply candidate_spec in E. destruct E as [_ E]. intro H.
  pose proof H as Hb. eapply loop_best in Hb; [|reflexivity|now left|intros a [<-|[]]; lra]. destruct Hb as [B1 [B2 B3]].
  pose proof H as Hl. eapply (loop_length _ _ _ batch) in Hl; [|intros c g2 l g3 Eg; apply candidate_spec in Eg; exact (proj1 Eg)].
  destruct Hl as [L1 [L2 L3]]. cbn [length] in *.
  split; [exact B2|]. split; [exact B1|]. split; [lia|]. split.
  - intro He. rewrite L2; [lia| |].
    + intro m. destruct (qltb_spec 0 e); [exfalso; lra|reflexivity].
    + intros q q' m Hq Hle. apply andb_prop in Hq. destruct Hq as [Q1 Q2]. rewrite Q2, andb_true_r. apply qltb_true in Q1. apply qltb_true. lra.
  - pose proof (fun Hg Hc Hl => loop_inv _ _ _ (fun p => (forall k, ~ In k S -> p k = x k) /\ forall k, In k S -> sampled fb N data cond k (p k)) Hg _ _ _ _ _ _ _ _ _ _ _ _ Hc Hl H) as K.
    intros p Hp. split; [auto|]. revert p Hp. apply K.
    + intros c g2 l g3 [C1 C2] Eg p Hp. apply candidate_spec in Eg. destruct Eg as [_ Eg]. destruct (Eg p Hp) as [P1 P2].
      split; [|exact P2]. intros k Hk. rewrite P1 by exact Hk. auto.
    + apply E. now left.
    + intros p [<-|[]]. apply E. now left.
Qed.
Lemma sa_some fb score x S N data cond batch max_iter conv g : 0 < batch ->
  (fb = true \/ forall k, In k S -> available N data cond k) ->
  exists q, simulated_annealing rand randint exp lg temp fb score x S N data cond batch max_iter conv g = Some q.
Proof using randint_lt.
  intros Hb H. unfold simulated_annealing. destruct (fill_some fb N data cond S 1 H (repeat x 1) g) as [[l g1] E].
  change (generate_candidate randint fb x S N data cond 1 g = Some (l, g1)) in E. rewrite E.
  apply candidate_spec in E. destruct E as [E _]. destruct l as [|b0 [|? ?]]; try discriminate.
  apply (loop_some _ _ _ (fun _ => True)); auto. intros c g2 _.
  destruct (fill_some fb N data cond S batch H (repeat c batch) g2) as [[l g3] El]. exists l, g3. split; [exact El|].
  change (generate_candidate randint fb c S N data cond batch g2 = Some (l, g3)) in El.
  apply candidate_spec in El. destruct El as [El _]. destruct l; [cbn in El; lia|discriminate].
Qed.
Lemma sa_raises score x S N data cond batch max_iter conv g k : In k S ->
  ~ available N data cond k ->
  simulated_annealing rand randint exp lg temp false score x S N data cond batch max_iter conv g = None.
Proof using.
  intros Hk Hn. unfold simulated_annealing, generate_candidate. now rewrite (fill_raises N data cond S 1 k Hk Hn).
Qed.
Lemma sa_training fb score x S N data cond batch max_iter conv g b e log :
  (forall k, In k S -> available N data cond k) ->
  simulated_annealing rand randint exp lg temp fb score x S N data cond batch max_iter conv g = Some (b, e, log) ->
  In b log /\ (e == score b)%Q /\
  forall p, In p log -> (score p <= e)%Q /\ (forall k, ~ In k S -> p k = x k) /\ forall k, In k S -> from_training N data cond k (p k).
Proof using randint_lt.
  intros Ha H. apply sa_spec in H. destruct H as [H1 [H2 [_ [_ H3]]]]. split; [exact H1|]. split; [exact H2|].
  intros p Hp. destruct (H3 p Hp) as [P1 [P2 P3]]. split; [exact P1|]. split; [exact P2|].
  intros k Hk. destruct (P3 k Hk) as [K|[_ [_ K]]]; [exact K|]. exfalso. apply K. auto.
Qed.
Lemma sa_general fb score x S N data cond batch max_iter conv g b e log :
  simulated_annealing rand randint exp lg temp fb score x S N data cond batch max_iter conv g = Some (b, e, log) ->
  In b log /\ (e == score b)%Q /\
  forall p, In p log -> (score p <= e)%Q /\ (forall k, ~ In k S -> p k = x k) /\
    forall k, In k S -> from_training N data cond k (p k) \/ (fb = true /\ p k = fst (cond k) /\ ~ available N data cond k).
Proof using randint_lt. intros H. apply sa_spec in H. destruct H as [H1 [H2 [_ [_ H3]]]]. auto. Qed.
Lemma sa_budget fb score x S N data cond batch max_iter conv g b e log :
  simulated_annealing rand randint exp lg temp fb score x S N data cond batch max_iter conv g = Some (b, e, log) ->
  length log <= 1 + max_iter * batch /\ ((e <= 0)%Q -> length log = 1 + max_iter * batch).
Proof using randint_lt. intros H. apply sa_spec in H. destruct H as [_ [_ [H1 [H2 _]]]]. auto. Qed.
Lemma sa_raises_iff fb score x S N data cond batch max_iter conv g : 0 < batch ->
  simulated_annealing rand randint exp lg temp fb score x S N data cond batch max_iter conv g = None <->
  fb = false /\ exists k, In k S /\ ~ available N data cond k.
Proof using randint_lt.
  intro Hb. split.
  - intro H. destruct fb.
    + destruct (sa_some true score x S N data cond batch max_iter conv g Hb ltac:(now left)) as [q Hq]. rewrite Hq in H. discriminate.
    + split; [reflexivity|].
      assert (D : forall k, available N data cond k \/ ~ available N data cond k).
      { intro k. destruct (possible N data cond k) as [|v vs] eqn:E.
        - right. intros [i [H1 H2]]. assert (I : In (data i k) (possible N data cond k)) by (apply possible_spec; eauto). rewrite E in I. destruct I.
        - left. assert (I : In v (possible N data cond k)) by (rewrite E; now left). apply possible_spec in I. destruct I as [i [I1 [_ I2]]]. now exists i. }
      assert (K : (forall k, In k S -> available N data cond k) \/ exists k, In k S /\ ~ available N data cond k).
      { clear H. induction S as [|a S IH]; [left; intros k []|]. destruct (D a) as [Ha|Ha]; [|right; exists a; split; [now left|exact Ha]].
        destruct IH as [IH|[k [K1 K2]]]; [|right; exists k; split; [now right|exact K2]]. left. intros k [<-|Hk]; auto. }
      destruct K as [K|K]; [|exact K].
      destruct (sa_some false score x S N data cond batch max_iter conv g Hb ltac:(now right)) as [q Hq]. rewrite Hq in H. discriminate.
  - intros [-> [k [K1 K2]]]. eapply sa_raises; eauto.
Qed.
End Random.

(** ** Volumes and densities *)
Lemma fold_prod_mono (f h : nat -> Q) l : forall a b, (0 <= a)%Q -> (a <= b)%Q -> (forall i, In i l -> (0 <= f i)%Q /\ (f i <= h i)%Q) ->
  (fold_left (fun v i => v * f i)%Q l a <= fold_left (fun v i => v * h i)%Q l b)%Q.
Proof.
  induction l as [|i r IH]; intros a b Ha Hab H; cbn; [exact Hab|].
  destruct (H i ltac:(now left)) as [H1 H2]. apply IH; [now apply Qmult_le_0_compat| |intros; apply H; now right].
  apply Qle_trans with (b * f i)%Q; [now apply Qmult_le_compat_r|].
  rewrite !(Qmult_comm b). apply Qmult_le_compat_r; [exact H2|lra].
Qed.
Lemma convert_mono mn mx v w : (mn <= mx)%Q -> (- big < mn)%Q -> (mx < big)%Q -> in_range big mn mx v -> in_range big mn mx w -> (v <= w)%Q ->
  (convert_bound mn mx v <= convert_bound mn mx w)%Q.
Proof.
  unfold convert_bound, in_range. intros H1 H2 H3 Hv Hw Hle.
  assert (B : (0 < big)%Q) by reflexivity.
  destruct (qleb_spec v (- big)), (qleb_spec w (- big)); cbn zeta;
  repeat match goal with |- context [qleb ?a ?b] => destruct (qleb_spec a b) end; lra.
Qed.
Lemma volume_mono d mx mn a b : (forall k, k < d -> (mn k <= mx k)%Q /\ (- big < mn k)%Q /\ (mx k < big)%Q) ->
  (forall k, k < d -> in_range big (mn k) (mx k) (fst (a k)) /\ in_range big (mn k) (mx k) (snd (a k)) /\
                      in_range big (mn k) (mx k) (fst (b k)) /\ in_range big (mn k) (mx k) (snd (b k))) ->
  (forall k, k < d -> (fst (a k) <= snd (a k))%Q) -> wider d b a ->
  (0 <= volume_rectangle d mx mn a)%Q /\ (volume_rectangle d mx mn a <= volume_rectangle d mx mn b)%Q.
Proof.
  intros Hd Hr Hp Hw. unfold volume_rectangle.
  assert (K : forall i, In i (seq 0 d) ->
    (0 <= convert_bound (mn i) (mx i) (hi a i) - convert_bound (mn i) (mx i) (lo a i))%Q /\
    (convert_bound (mn i) (mx i) (hi a i) - convert_bound (mn i) (mx i) (lo a i) <=
     convert_bound (mn i) (mx i) (hi b i) - convert_bound (mn i) (mx i) (lo b i))%Q).
  { intros i Hi. apply in_seq in Hi. specialize (Hd i ltac:(lia)). specialize (Hr i ltac:(lia)). specialize (Hp i ltac:(lia)). specialize (Hw i ltac:(lia)).
    destruct Hd as [D1 [D2 D3]]. destruct Hr as [R1 [R2 [R3 R4]]]. unfold lo, hi.
    pose proof (convert_mono _ _ _ _ D1 D2 D3 R1 R2 Hp). pose proof (convert_mono _ _ _ _ D1 D2 D3 R3 R1 (proj1 Hw)).
    pose proof (convert_mono _ _ _ _ D1 D2 D3 R2 R4 (proj2 Hw)). split; lra. }
  split.
  - apply Qle_trans with (fold_left (fun v i => v * 0)%Q (seq 0 d) 0%Q).
    + clear. induction (seq 0 d) as [|i r IH]; cbn; [lra|]. exact IH.
    + apply (fold_prod_mono (fun _ => 0%Q)); [lra|lra|]. intros i Hi. split; [lra|]. now apply K.
  - apply (fold_prod_mono (fun i => convert_bound (mn i) (mx i) (hi a i) - convert_bound (mn i) (mx i) (lo a i))%Q); [lra|lra|exact K].
Qed.
Lemma dens_spec strict d N data bad r v : (forall i, i < N -> (0 <= bad i <= 1)%Q) ->
  max_dens strict d N data bad r = Some v -> (0 <= v <= 1)%Q.
Proof.
  intros Hb. unfold max_dens. cbn zeta. set (t := sumf (fun i => 1 - bad i)%Q (seq 0 N)). set (x_in := fun i => forallb (fun s => qleb (data i s) (hi r s) && (if strict then qltb (lo r s) (data i s) else qleb (lo r s) (data i s))) (seq 0 d)).
  destruct (qeqb_spec t 0) as [E|E]; [discriminate|]. intro H. injection H as <-.
  assert (T : (0 <= t)%Q) by (apply sumf_nonneg; intros i Hi; apply in_seq in Hi; specialize (Hb i ltac:(lia)); lra).
  assert (P : (0 < t)%Q) by (destruct (Qlt_le_dec 0 t); [assumption|exfalso; apply E; lra]).
  change ((0 <= sumf (fun i => Qb (x_in i) * (1 - bad i))%Q (seq 0 N) / t <= 1)%Q).
  assert (S0 : (0 <= sumf (fun i => Qb (x_in i) * (1 - bad i))%Q (seq 0 N))%Q).
  { apply sumf_nonneg. intros i Hi. apply in_seq in Hi. specialize (Hb i ltac:(lia)). apply Qmult_le_0_compat; [apply Qb_bounds|lra]. }
  split; [now apply Qdiv_nonneg|]. apply Qdiv_le_1; [exact S0| |exact P].
  apply sumf_le. intros i Hi. apply in_seq in Hi. specialize (Hb i ltac:(lia)). destruct (x_in i); cbn; lra.
Qed.
Lemma dens_mono strict d N data bad a b v w : (forall i, i < N -> (0 <= bad i <= 1)%Q) -> wider d b a ->
  max_dens strict d N data bad a = Some v -> max_dens strict d N data bad b = Some w -> (v <= w)%Q.
Proof.
  intros Hb Hw. unfold max_dens. cbn zeta. set (t := sumf (fun i => 1 - bad i)%Q (seq 0 N)).
  destruct (qeqb_spec t 0) as [E|E]; [discriminate|]. intros H H'. injection H as <-. injection H' as <-.
  assert (T : (0 <= t)%Q) by (apply sumf_nonneg; intros i Hi; apply in_seq in Hi; specialize (Hb i ltac:(lia)); lra).
  assert (P : (0 < t)%Q) by (destruct (Qlt_le_dec 0 t); [assumption|exfalso; apply E; lra]).
  unfold Qdiv. apply Qmult_le_compat_r; [|apply Qlt_le_weak, Qinv_lt_0_compat, P].
  apply sumf_le. intros i Hi. apply in_seq in Hi. specialize (Hb i ltac:(lia)). apply Qmult_le_compat_r; [|lra].
  destruct (forallb _ _) eqn:F; [|cbn; apply Qb_bounds].
  assert (G : forallb (fun s => qleb (data i s) (hi b s) && (if strict then qltb (lo b s) (data i s) else qleb (lo b s) (data i s))) (seq 0 d) = true).
  { rewrite forallb_forall in *. intros s Hs. specialize (F s Hs). apply in_seq in Hs. specialize (Hw s ltac:(lia)).
    apply andb_prop in F. destruct F as [F1 F2]. apply qleb_true in F1. unfold hi, lo in *. apply andb_true_intro. split; [apply qleb_true; lra|].
    destruct strict; [apply qltb_true in F2; apply qltb_true|apply qleb_true in F2; apply qleb_true]; lra. }
  rewrite G. cbn. lra.
Qed.

Lemma start_spec d n rules sdp pi order r : In r (start_leaves d n rules sdp pi order) ->
  (forall i, In i order -> i < n) -> exists i, i < n /\ r = rules i /\ ((exists j, j < n /\ (pi <= sdp j)%Q) -> (pi <= sdp i)%Q).
Proof.
  unfold start_leaves. intros H Ho. destruct (filter _ _) as [|a l] eqn:E.
  - apply in_map_iff in H. destruct H as [i [<- H]]. exists i. split; [apply Ho; rewrite <- (firstn_skipn 5 order); apply in_or_app; now left|]. split; [reflexivity|].
    intros [j [J1 J2]]. assert (I : In j (filter (fun i => qleb pi (sdp i)) (seq 0 n))) by (apply filter_In; split; [apply in_seq; lia|now apply qleb_true]).
    rewrite E in I. destruct I.
  - apply unique_in in H. rewrite <- E in H. apply in_map_iff in H. destruct H as [i [<- H]]. apply filter_In in H. destruct H as [H1 H2].
    apply in_seq in H1. apply qleb_true in H2. exists i. split; [lia|]. auto.
Qed.

Lemma forall2_in_r {A B} (P : A -> B -> Prop) l m b : Forall2 P l m -> In b m -> exists a, In a l /\ P a b.
Proof. induction 1 as [|x y l m H H' IH]; [intros []|]. intros [->|Hb]; [exists x; split; [now left|exact H]|]. destruct (IH Hb) as [a [H1 H2]]. exists a. split; [now right|exact H2]. Qed.
Lemma forall2_in_l {A B} (P : A -> B -> Prop) l m a : Forall2 P l m -> In a l -> exists b, In b m /\ P a b.
Proof. induction 1 as [|x y l m H H' IH]; [intros []|]. intros [->|Ha]; [exists y; split; [now left|exact H]|]. destruct (IH Ha) as [b [H1 H2]]. exists b. split; [now right|exact H2]. Qed.
Lemma leaf_cnt_spec {G} (rand : G -> Q * G) randint exp lg temp value d n rules sdp pi order N data p_best n_try batch max_iter conv gs l :
  (forall i, In i order -> i < n) ->
  return_leaf_cnt rand randint exp lg temp value d n rules sdp pi order N data p_best n_try batch max_iter conv gs = Some l ->
  (forall b, In b l -> exists i, i < n /\ wider d b (rules i) /\ ((exists j, j < n /\ (pi <= sdp j)%Q) -> (pi <= sdp i)%Q)) /\
  (forall b j, In b l -> j < N -> inside d b (data j) ->
     exists i, i < n /\ inside d (rules i) (data j) /\ ((exists j, j < n /\ (pi <= sdp j)%Q) -> (pi <= sdp i)%Q)) /\
  (forall i, i < n -> (pi <= sdp i)%Q -> exists b, In b l /\ wider d b (rules i)).
Proof.
  intros Ho H. unfold return_leaf_cnt in H. apply grow_spec in H; [|auto]. split; [|split].
  - intros b Hb. destruct (forall2_in_r _ _ _ _ H Hb) as [r [R1 [[R2 _] _]]].
    destruct (start_spec _ _ _ _ _ _ _ R1 Ho) as [i [I1 [-> I2]]]. eauto.
  - intros b j Hb Hj Hin. destruct (forall2_in_r _ _ _ _ H Hb) as [r [R1 [_ R2]]]. destruct (R2 j Hj Hin) as [q [Q1 Q2]].
    destruct (start_spec _ _ _ _ _ _ _ Q1 Ho) as [i [I1 [-> I2]]]. eauto.
  - intros i Hi Hs. unfold start_leaves in H.
    assert (I : In i (filter (fun i => qleb pi (sdp i)) (seq 0 n))) by (apply filter_In; split; [apply in_seq; lia|now apply qleb_true]).
    destruct (filter (fun i => qleb pi (sdp i)) (seq 0 n)) as [|a f] eqn:E; [destruct I|].
    destruct (unique_rule d (map rules (a :: f)) (rules i) (in_map rules _ _ I)) as [r [R1 R2]].
    destruct (forall2_in_l _ _ _ _ H R1) as [b [B1 [[B2 _] _]]]. exists b. split; [exact B1|].
    intros k Hk. destruct (B2 k Hk) as [W1 W2]. destruct (R2 k Hk) as [S1 S2]. split; lra.
Qed.
Lemma leaf_cnt_some {G} (rand : G -> Q * G) randint exp lg temp value d n rules sdp pi order N data p_best n_try batch max_iter conv gs :
  (forall n g, 0 < n -> fst (randint n g) < n) -> 0 < batch -> d <> 1 \/ max_iter = 0 ->
  exists l, return_leaf_cnt rand randint exp lg temp value d n rules sdp pi order N data p_best n_try batch max_iter conv gs = Some l.
Proof. intros Hr Hb Hd. unfold return_leaf_cnt. now apply grow_some. Qed.

Lemma annealing_valid_iff {G} (rand : G -> Q * G) randint exp lg temp value r rule_data sdp pi d N data p_best n_try batch max_iter conv g b e log :
  rules_by_annealing rand randint exp lg temp value r rule_data sdp pi d N data p_best n_try batch max_iter conv g = Some (b, e, log) ->
  (forall i, i < N -> inside d b (data i) -> (pi <= sdp i)%Q) <-> (forall i, i < N -> inside d r (data i) -> (pi <= sdp i)%Q).
Proof.
  intro H. apply annealing in H. destruct H as [H1 [_ H2]]. destruct (H2 b H1) as [_ [[W _] V]]. split; [|exact V].
  intros K i Hi Hin. apply (K i Hi). intros k Hk. specialize (W k Hk). specialize (Hin k Hk). lra.
Qed.
Lemma annealing_volume {G} (rand : G -> Q * G) randint exp lg temp mx mn r others d N data p_best n_try batch max_iter conv g b e log :
  (forall k, k < d -> (mn k <= mx k)%Q /\ (- big < mn k)%Q /\ (mx k < big)%Q) ->
  (forall q k, q = r \/ In q others -> k < d -> in_range big (mn k) (mx k) (fst (q k)) /\ in_range big (mn k) (mx k) (snd (q k))) ->
  (forall k, k < d -> (fst (r k) <= snd (r k))%Q) ->
  rules_by_annealing_cr rand randint exp lg temp (volume_rectangle d mx mn) r others d N data p_best n_try batch max_iter conv g = Some (b, e, log) ->
  (volume_rectangle d mx mn r <= e)%Q.
Proof.
  intros Hm Hr Hp. apply annealing_improves. intros a [W [_ B]]. apply (volume_mono d mx mn r a); auto.
  intros k Hk. destruct (Hr r k ltac:(now left) Hk) as [R1 R2]. destruct (B k Hk) as [B1 B2]. split; [exact R1|]. split; [exact R2|]. split.
  - destruct B1 as [->|[q [Q1 ->]]]; [exact R1|]. exact (proj1 (Hr q k ltac:(now right) Hk)).
  - destruct B2 as [->|[q [Q1 ->]]]; [exact R2|]. exact (proj2 (Hr q k ltac:(now right) Hk)).
Qed.
Lemma dens_defined strict d N data bad r : (forall i, i < N -> (0 <= bad i <= 1)%Q) ->
  (max_dens strict d N data bad r = None <-> forall i, i < N -> (bad i == 1)%Q).
Proof.
  intro Hb. unfold max_dens. cbn zeta.
  assert (P : forall i, In i (seq 0 N) -> (0 <= 1 - bad i)%Q) by (intros i Hi; apply in_seq in Hi; specialize (Hb i ltac:(lia)); lra).
  destruct (qeqb_spec (sumf (fun i => 1 - bad i)%Q (seq 0 N)) 0) as [E|E]; split; intro H; try discriminate; try reflexivity.
  - intros i Hi. pose proof (sumf_zero_terms _ _ P E i ltac:(apply in_seq; lia)) as Z. cbn beta in Z. lra.
  - exfalso. apply E. apply sumf_zero. intros i Hi. apply in_seq in Hi. rewrite (H i ltac:(lia)). ring.
Qed.

Lemma metropolis_sign (exp : Q -> Q) (lg : nat -> Q) temp u z :
  (forall z, (0 <= z)%Q -> (1 <= exp z)%Q) -> (forall n, 0 < n -> (0 < lg n)%Q) -> (0 < temp)%Q ->
  (u < 1)%Q -> (z < 0)%Q -> (exp z <= u)%Q ->
  exists i diff, (diff < 0)%Q /\ (diff / (temp / lg i) == z)%Q /\ fst (accept (fun g : unit => (u, g)) exp lg temp i diff tt) = true.
Proof.
  intros He Hl Ht Hu Hz _. pose proof (Hl 1 ltac:(lia)) as L.
  assert (P : (0 < temp / lg 1%nat)%Q) by (apply Qlt_shift_div_l; [exact L|lra]).
  exists 1, (z * (temp / lg 1%nat))%Q. split; [|split; [field; split; lra|]].
  - setoid_replace 0%Q with (0 * (temp / lg 1%nat))%Q by ring. now apply Qmult_lt_compat_r.
  - apply always_accepts; auto.
Qed.
Lemma dens_share d N data bad r v : (forall i, i < N -> bad i = 0%Q \/ bad i = 1%Q) ->
  max_dens false d N data bad r = Some v ->
  exists l m, NoDup l /\ NoDup m /\ (forall i, In i l <-> i < N /\ bad i = 0%Q) /\ (forall i, In i m <-> In i l /\ inside d r (data i)) /\
    (v == Qn (length m) / Qn (length l))%Q.
Proof.
  intros Hb H. exists (filter (fun i => qeqb (bad i) 0) (seq 0 N)), (filter (fun i => in_rule (seq 0 d) r (data i)) (filter (fun i => qeqb (bad i) 0) (seq 0 N))).
  split; [apply NoDup_filter, seq_NoDup|]. split; [apply NoDup_filter, NoDup_filter, seq_NoDup|]. split; [|split].
  - intro i. rewrite filter_In, in_seq. split; intros [H1 H2].
    + split; [lia|]. destruct (qeqb_spec (bad i) 0) as [E|E]; [|discriminate]. destruct (Hb i ltac:(lia)) as [K|K]; [exact K|]. rewrite K in E. lra.
    + split; [lia|]. rewrite H2. reflexivity.
  - intro i. rewrite filter_In. rewrite in_rule_spec, covered_inside. reflexivity.
  - unfold max_dens in H. cbn zeta in H. destruct (qeqb _ 0); [discriminate|]. injection H as <-.
    assert (E : forall p : nat -> bool, (sumf (fun i => Qb (p i) * (1 - bad i)) (seq 0 N) == Qn (length (filter p (filter (fun i => qeqb (bad i) 0) (seq 0 N)))))%Q).
    { intro p. rewrite <- sumf_Qb. rewrite sumf_filter. apply sumf_ext. intros i Hi. apply in_seq in Hi.
      destruct (Hb i ltac:(lia)) as [K|K]; rewrite K; cbn; ring. }
    assert (X : forall i, forallb (fun s => qleb (data i s) (hi r s) && qleb (lo r s) (data i s)) (seq 0 d) = in_rule (seq 0 d) r (data i)).
    { intro i. unfold in_rule. reflexivity. }
    rewrite <- (E (fun i => in_rule (seq 0 d) r (data i))).
    assert (T : (sumf (fun i => 1 - bad i) (seq 0 N) == Qn (length (filter (fun i => qeqb (bad i) 0) (seq 0 N))))%Q).
    { pose proof (E (fun _ => true)) as E'. rewrite filter_true in E' by reflexivity. rewrite <- E'. apply sumf_ext. intros i _. cbn. ring. }
    rewrite T. apply Qeq_refl.
Qed.

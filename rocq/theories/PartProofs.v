(** Lemmas about the pure Python same-decision probabilities. *)
From Verif Require Import Base TreeModel TreeSpec TreeProofs ShapModel SdpModel RulesModel RulesModelProofs PartModel PartSpec.

Section Tree.
Variable t : tree.
Variable d : nat.
Hypothesis Hwf : wf_tree t d = true.
Variables (x : pt) (Sv : list nat).

Lemma explore_step f i p : explore t x Sv (S f) i p =
  if is_leaf t i then Some [(i, p)]
  else if memb (ftn t i) Sv then
    (if qleb (x (ftn t i)) (thq t i)
     then explore t x Sv f (Z.to_nat (clz t i)) (narrow p (ftn t i) NInf (Fin (thq t i)))
     else explore t x Sv f (Z.to_nat (crz t i)) (narrow p (ftn t i) (Fin (thq t i)) PInf))
  else match explore t x Sv f (Z.to_nat (clz t i)) (narrow p (ftn t i) NInf (Fin (thq t i))),
             explore t x Sv f (Z.to_nat (crz t i)) (narrow p (ftn t i) (Fin (thq t i)) PInf) with
       | Some a, Some b => Some (a ++ b) | _, _ => None end.
Proof. reflexivity. Qed.

(** Induction over the calls of [explore]. *)
Lemma explore_ind (P : nat -> nat -> rect -> list (nat * rect) -> Prop) :
  (forall f i p, i < nn t -> is_leaf t i = true -> P (S f) i p [(i, p)]) ->
  (forall f i p a, i < nn t -> is_leaf t i = false -> In (ftn t i) Sv -> (x (ftn t i) <= thq t i)%Q ->
     i < Z.to_nat (clz t i) < nn t ->
     P f (Z.to_nat (clz t i)) (narrow p (ftn t i) NInf (Fin (thq t i))) a -> P (S f) i p a) ->
  (forall f i p a, i < nn t -> is_leaf t i = false -> In (ftn t i) Sv -> (thq t i < x (ftn t i))%Q ->
     i < Z.to_nat (crz t i) < nn t ->
     P f (Z.to_nat (crz t i)) (narrow p (ftn t i) (Fin (thq t i)) PInf) a -> P (S f) i p a) ->
  (forall f i p a b, i < nn t -> is_leaf t i = false -> ~ In (ftn t i) Sv ->
     i < Z.to_nat (clz t i) < nn t -> i < Z.to_nat (crz t i) < nn t ->
     P f (Z.to_nat (clz t i)) (narrow p (ftn t i) NInf (Fin (thq t i))) a ->
     P f (Z.to_nat (crz t i)) (narrow p (ftn t i) (Fin (thq t i)) PInf) b -> P (S f) i p (a ++ b)) ->
  forall f i p ls, i < nn t -> explore t x Sv f i p = Some ls -> P f i p ls.
Proof.
  intros H1 H2 H3 H4. induction f as [|f IH]; intros i p ls Hi E; [discriminate|].
  rewrite explore_step in E. destruct (is_leaf t i) eqn:El.
  - injection E as <-. now apply H1.
  - destruct (wf_internal t d Hwf i Hi El) as [A [B _]].
    destruct (memb_spec (ftn t i) Sv) as [Hm|Hm].
    + destruct (qleb_spec (x (ftn t i)) (thq t i)) as [Hx|Hx].
      * apply H2; trivial; [lia|]. apply IH; [lia|exact E].
      * apply H3; trivial; [now apply Qnot_le_lt|lia|]. apply IH; [lia|exact E].
    + destruct (explore t x Sv f (Z.to_nat (clz t i)) _) as [a|] eqn:E1; [|discriminate].
      destruct (explore t x Sv f (Z.to_nat (crz t i)) _) as [b|] eqn:E2; [|discriminate].
      injection E as <-. apply H4; trivial; try lia; apply IH; trivial; lia.
Qed.

Lemma explore_total f : forall i p, i < nn t -> nn t - i <= f -> exists ls, explore t x Sv f i p = Some ls.
Proof.
  induction f as [|f IH]; intros i p Hi Hf; [lia|]. rewrite explore_step.
  destruct (is_leaf t i) eqn:El; [eauto|].
  destruct (wf_internal t d Hwf i Hi El) as [A [B _]].
  destruct (IH (Z.to_nat (clz t i)) (narrow p (ftn t i) NInf (Fin (thq t i)))) as [a Ea]; [lia|lia|].
  destruct (IH (Z.to_nat (crz t i)) (narrow p (ftn t i) (Fin (thq t i)) PInf)) as [b Eb]; [lia|lia|].
  rewrite Ea, Eb. destruct (memb _ _); [destruct (qleb _ _)|]; eauto.
Qed.
Lemma compatible_total : exists ls, compatible t x Sv = Some ls.
Proof. apply explore_total; [now apply (wf_pos t d)|lia]. Qed.

Lemma explore_leaf : forall f i p ls, i < nn t -> explore t x Sv f i p = Some ls ->
  forall l q, In (l, q) ls -> i <= l < nn t /\ is_leaf t l = true.
Proof.
  apply (explore_ind (fun f i p ls => forall l q, In (l, q) ls -> i <= l < nn t /\ is_leaf t l = true)).
  - intros f i p Hi El l q [E|[]]. injection E as <- <-. split; [lia|trivial].
  - intros f i p a Hi El _ _ Hc IH l q Hl. destruct (IH l q Hl). split; [lia|trivial].
  - intros f i p a Hi El _ _ Hc IH l q Hl. destruct (IH l q Hl). split; [lia|trivial].
  - intros f i p a b Hi El _ Hc Hc' IH IH' l q Hl. apply in_app_iff in Hl. destruct Hl as [Hl|Hl].
    + destruct (IH l q Hl). split; [lia|trivial].
    + destruct (IH' l q Hl). split; [lia|trivial].
Qed.

Lemma next_left z i : (z (ftn t i) <= thq t i)%Q -> next_node t z no_missing i = Z.to_nat (clz t i).
Proof. intro H. unfold next_node, no_missing. destruct (qleb_spec (z (ftn t i)) (thq t i)); [trivial|lra]. Qed.
Lemma next_right z i : (thq t i < z (ftn t i))%Q -> next_node t z no_missing i = Z.to_nat (crz t i).
Proof. intro H. unfold next_node, no_missing. destruct (qleb_spec (z (ftn t i)) (thq t i)); [lra|trivial]. Qed.

(** A leaf of the list holds, among the observations of the rectangle given, those that walk to it. *)
(** [reach i l]: node [l] is below [i]. *)
Inductive reach : nat -> nat -> Prop :=
| rc_refl i : reach i i
| rc_left i l : i < nn t -> is_leaf t i = false -> reach (Z.to_nat (clz t i)) l -> reach i l
| rc_right i l : i < nn t -> is_leaf t i = false -> reach (Z.to_nat (crz t i)) l -> reach i l.
Lemma walk_reach z f : forall i l, i < nn t -> walk f t z no_missing i = Some l -> reach i l.
Proof.
  induction f as [|f IH]; intros i l Hi H; [discriminate|]. cbn [walk] in H. destruct (is_leaf t i) eqn:E.
  - injection H as <-. constructor.
  - pose proof (next_lt t d Hwf z no_missing i Hi E). specialize (IH (next_node t z no_missing i) l ltac:(lia) H).
    unfold next_node, no_missing in IH. destruct (qleb _ _); [now apply rc_left|now apply rc_right].
Qed.
Lemma reach_last i l : reach i l -> i < nn t -> i = l \/ exists k, reach i k /\ k < nn t /\ is_leaf t k = false /\
  (Z.to_nat (clz t k) = l \/ Z.to_nat (crz t k) = l).
Proof.
  induction 1 as [i|i l Hi El Hr IH|i l Hi El Hr IH]; intro H0; [now left| |];
    destruct (wf_internal t d Hwf i Hi El) as [A [B _]]; right;
    (destruct IH as [E|[k [K1 [K2 [K3 K4]]]]]; [lia| |]).
  - exists i. split; [constructor|]. auto.
  - exists k. split; [now apply rc_left|auto].
  - exists i. split; [constructor|]. auto.
  - exists k. split; [now apply rc_right|auto].
Qed.
Lemma reach_le i l : reach i l -> i < nn t -> i <= l < nn t.
Proof.
  induction 1 as [i|i l Hi El Hr IH|i l Hi El Hr IH]; intro H0; [lia| |];
    destruct (wf_internal t d Hwf i Hi El) as [A [B _]]; lia.
Qed.
(** one parent only *)
Lemma parent_unique k k' l : k < nn t -> k' < nn t -> is_leaf t k = false -> is_leaf t k' = false ->
  (Z.to_nat (clz t k) = l \/ Z.to_nat (crz t k) = l) -> (Z.to_nat (clz t k') = l \/ Z.to_nat (crz t k') = l) ->
  k = k' /\ (Z.to_nat (clz t k) = l <-> Z.to_nat (clz t k') = l).
Proof.
  intros Hk Hk' E E' H H'.
  destruct (wf_internal t d Hwf k Hk E) as [A [B [N _]]].
  destruct (wf_internal t d Hwf k' Hk' E') as [A' [B' [N' _]]].
  assert (Hl : 0 < l < nn t) by lia.
  assert (F : forall k, k < nn t -> is_leaf t k = false -> (Z.to_nat (clz t k) = l \/ Z.to_nat (crz t k) = l) ->
    In k (where_eq (cl t) l) \/ In k (where_eq (cr t) l)).
  { intros j Hj Ej Hc. destruct (wf_internal t d Hwf j Hj Ej) as [Aj [Bj _]].
    destruct Hc; [left; apply in_where_cl|right; apply (in_where_cr t d Hwf)]; trivial; lia. }
  pose proof (F k Hk E H) as G. pose proof (F k' Hk' E' H') as G'.
  assert (k = k') as ->; [|tauto].
  destruct (parent_cases t d Hwf l Hl) as [[r [Er El]]|[r [Er El]]]; rewrite Er, El in G, G'; cbn in G, G'; intuition congruence.
Qed.
Lemma subtrees_disjoint i l : i < nn t -> is_leaf t i = false ->
  reach (Z.to_nat (clz t i)) l -> reach (Z.to_nat (crz t i)) l -> False.
Proof.
  intros Hi El. destruct (wf_internal t d Hwf i Hi El) as [A [B [N _]]].
  remember l as m eqn:Em. assert (Hm : m <= l) by lia. clear Em. revert m Hm.
  induction l as [|l IH]; intros m Hm Ha Hb.
  - pose proof (reach_le _ _ Ha ltac:(lia)). lia.
  - destruct (reach_last _ _ Ha ltac:(lia)) as [E|[k [K1 [K2 [K3 K4]]]]].
    + destruct (reach_last _ _ Hb ltac:(lia)) as [E'|[k' [K1' [K2' [K3' K4']]]]]; [lia|].
      destruct (parent_unique i k' m Hi K2' El K3' (or_introl E) K4') as [<- _].
      pose proof (reach_le _ _ K1' ltac:(lia)). lia.
    + destruct (reach_last _ _ Hb ltac:(lia)) as [E'|[k' [K1' [K2' [K3' K4']]]]].
      * destruct (parent_unique i k m Hi K2 El K3 (or_intror E') K4) as [<- _].
        pose proof (reach_le _ _ K1 ltac:(lia)). lia.
      * destruct (parent_unique k k' m K2 K2' K3 K3' K4 K4') as [<- _].
        apply (IH k); trivial. destruct (wf_internal t d Hwf k K2 K3) as [Ak [Bk _]]. lia.
Qed.

Lemma explore_nodup : forall f i p ls, i < nn t -> explore t x Sv f i p = Some ls ->
  NoDup (map fst ls) /\ forall l, In l (map fst ls) -> reach i l.
Proof.
  apply (explore_ind (fun f i p ls => NoDup (map fst ls) /\ forall l, In l (map fst ls) -> reach i l)).
  - intros f i p Hi El. split; [cbn; repeat constructor; intros []|]. intros l [<-|[]]. constructor.
  - intros f i p a Hi El _ _ Hc [IH1 IH2]. split; [trivial|]. intros l Hl. apply rc_left; auto.
  - intros f i p a Hi El _ _ Hc [IH1 IH2]. split; [trivial|]. intros l Hl. apply rc_right; auto.
  - intros f i p a b Hi El _ Hc Hc' [IH1 IH2] [IH1' IH2']. rewrite map_app. split.
    + assert (D : forall l, In l (map fst a) -> ~ In l (map fst b)).
      { intros l Ha Hb. apply (subtrees_disjoint i l Hi El); auto. }
      clear IH2 IH2'. revert IH1 D. generalize (map fst a) as u. induction u as [|m u IH]; intros Hu D; cbn [app]; [trivial|].
      inversion Hu as [|? ? Hn Hd]; subst. constructor; [|apply IH; [trivial|intros; apply D; now right]].
      rewrite in_app_iff. intros [H|H]; [contradiction|]. apply (D m); [now left|trivial].
    + intros l Hl. apply in_app_iff in Hl. destruct Hl; [apply rc_left|apply rc_right]; auto.
Qed.

Lemma inside_left z f i p l : i < nn t -> is_leaf t i = false -> reach (Z.to_nat (clz t i)) l ->
  (in_rect d (narrow p (ftn t i) NInf (Fin (thq t i))) z = true /\ walk f t z no_missing (Z.to_nat (clz t i)) = Some l <->
   in_rect d p z = true /\ walk (S f) t z no_missing i = Some l).
Proof.
  intros Hi El Hr. destruct (wf_internal t d Hwf i Hi El) as [A [B [_ [Hf _]]]].
  cbn [walk]. rewrite El, in_rect_narrow by exact Hf. cbn [ext_ltb_q q_leb_ext]. rewrite andb_true_iff. cbn [andb]. rewrite qleb_true.
  split.
  - intros [[H1 H2] H3]. rewrite next_left by exact H2. auto.
  - intros [H1 H2]. destruct (Qlt_le_dec (thq t i) (z (ftn t i))) as [Hz|Hz].
    + exfalso. rewrite next_right in H2 by exact Hz. apply (subtrees_disjoint i l Hi El Hr).
      apply (walk_reach z f); [lia|exact H2].
    + rewrite next_left in H2 by exact Hz. auto.
Qed.
Lemma inside_right z f i p l : i < nn t -> is_leaf t i = false -> reach (Z.to_nat (crz t i)) l ->
  (in_rect d (narrow p (ftn t i) (Fin (thq t i)) PInf) z = true /\ walk f t z no_missing (Z.to_nat (crz t i)) = Some l <->
   in_rect d p z = true /\ walk (S f) t z no_missing i = Some l).
Proof.
  intros Hi El Hr. destruct (wf_internal t d Hwf i Hi El) as [A [B [_ [Hf _]]]].
  cbn [walk]. rewrite El, in_rect_narrow by exact Hf. cbn [ext_ltb_q q_leb_ext]. rewrite !andb_true_iff. rewrite qltb_true.
  split.
  - intros [[H1 [H2 _]] H3]. rewrite next_right by exact H2. auto.
  - intros [H1 H2]. destruct (Qlt_le_dec (thq t i) (z (ftn t i))) as [Hz|Hz].
    + rewrite next_right in H2 by exact Hz. auto.
    + exfalso. rewrite next_left in H2 by exact Hz. apply (subtrees_disjoint i l Hi El); trivial.
      apply (walk_reach z f); [lia|exact H2].
Qed.
Lemma explore_inside z : forall f i p ls, i < nn t -> explore t x Sv f i p = Some ls ->
  forall l q, In (l, q) ls ->
    reach i l /\ (in_rect d q z = true <-> in_rect d p z = true /\ walk f t z no_missing i = Some l).
Proof.
  apply (explore_ind (fun f i p ls => forall l q, In (l, q) ls ->
    reach i l /\ (in_rect d q z = true <-> in_rect d p z = true /\ walk f t z no_missing i = Some l))).
  - intros f i p Hi El l q [E|[]]. injection E as <- <-. cbn [walk]. rewrite El. split; [constructor|tauto].
  - intros f i p a Hi El _ _ Hc IH l q Hl. destruct (IH l q Hl) as [Hr IH']. split; [now apply rc_left|].
    rewrite IH'. now apply inside_left.
  - intros f i p a Hi El _ _ Hc IH l q Hl. destruct (IH l q Hl) as [Hr IH']. split; [now apply rc_right|].
    rewrite IH'. now apply inside_right.
  - intros f i p a b Hi El _ Hc Hc' IH IH' l q Hl. apply in_app_iff in Hl. destruct Hl as [Hl|Hl].
    + destruct (IH l q Hl) as [Hr G]. split; [now apply rc_left|]. rewrite G. now apply inside_left.
    + destruct (IH' l q Hl) as [Hr G]. split; [now apply rc_right|]. rewrite G. now apply inside_right.
Qed.

(** ** The sides of the variables of [S] hold [x] *)
Lemma explore_x : forall f i p ls, i < nn t -> explore t x Sv f i p = Some ls ->
  (forall s, In s Sv -> in_itv (p s) (x s) = true) ->
  forall l q, In (l, q) ls -> forall s, In s Sv -> in_itv (q s) (x s) = true.
Proof.
  apply (explore_ind (fun f i p ls => (forall s, In s Sv -> in_itv (p s) (x s) = true) ->
    forall l q, In (l, q) ls -> forall s, In s Sv -> in_itv (q s) (x s) = true)).
  - intros f i p Hi El Hp l q [E|[]]. injection E as <- <-. exact Hp.
  - intros f i p a Hi El Hm Hx Hc IH Hp. apply IH. intros s Hs. rewrite in_itv_narrow, (Hp s Hs).
    destruct (Nat.eqb_spec s (ftn t i)) as [->|]; [|reflexivity]. cbn. now apply qleb_true.
  - intros f i p a Hi El Hm Hx Hc IH Hp. apply IH. intros s Hs. rewrite in_itv_narrow, (Hp s Hs).
    destruct (Nat.eqb_spec s (ftn t i)) as [->|]; [|reflexivity]. cbn. rewrite andb_true_r. now apply qltb_true.
  - intros f i p a b Hi El Hm Hc Hc' IH IH' Hp l q Hl. apply in_app_iff in Hl.
    destruct Hl as [Hl|Hl]; [apply (IH) with (l := l)|apply IH' with (l := l)]; trivial;
      intros s Hs; rewrite in_itv_narrow, (Hp s Hs); (destruct (Nat.eqb_spec s (ftn t i)) as [->|]; [contradiction|reflexivity]).
Qed.
(** ** An observation that agrees with [x] on [S] walks to a leaf of the list *)
Lemma explore_complete z : same_on Sv x z -> forall f i p ls, i < nn t -> explore t x Sv f i p = Some ls ->
  exists l q, In (l, q) ls /\ walk f t z no_missing i = Some l.
Proof.
  intro Hz. apply (explore_ind (fun f i p ls => exists l q, In (l, q) ls /\ walk f t z no_missing i = Some l)).
  - intros f i p Hi El. exists i, p. cbn [walk]. rewrite El. split; [now left|trivial].
  - intros f i p a Hi El Hm Hx Hc [l [q [H1 H2]]]. exists l, q. split; [trivial|]. cbn [walk]. rewrite El.
    rewrite next_left; [trivial|]. rewrite <- (Hz _ Hm). exact Hx.
  - intros f i p a Hi El Hm Hx Hc [l [q [H1 H2]]]. exists l, q. split; [trivial|]. cbn [walk]. rewrite El.
    rewrite next_right; [trivial|]. rewrite <- (Hz _ Hm). exact Hx.
  - intros f i p a b Hi El Hm Hc Hc' [l [q [H1 H2]]] [l' [q' [H1' H2']]].
    destruct (Qlt_le_dec (thq t i) (z (ftn t i))) as [H|H].
    + exists l', q'. rewrite in_app_iff. split; [auto|]. cbn [walk]. rewrite El, next_right by exact H. trivial.
    + exists l, q. rewrite in_app_iff. split; [auto|]. cbn [walk]. rewrite El, next_left by exact H. trivial.
Qed.
(** ** Sides only shrink, and an observation within the sides of [S] of all leaves walks to one of them *)
Lemma explore_section z : forall f i p ls, i < nn t -> explore t x Sv f i p = Some ls ->
  ls <> [] /\ (forall l q, In (l, q) ls -> forall s v, in_itv (q s) v = true -> in_itv (p s) v = true) /\
  ((forall l q, In (l, q) ls -> forall s, In s Sv -> in_itv (q s) (z s) = true) ->
   exists l q, In (l, q) ls /\ walk f t z no_missing i = Some l).
Proof.
  apply (explore_ind (fun f i p ls => ls <> [] /\
    (forall l q, In (l, q) ls -> forall s v, in_itv (q s) v = true -> in_itv (p s) v = true) /\
    ((forall l q, In (l, q) ls -> forall s, In s Sv -> in_itv (q s) (z s) = true) ->
     exists l q, In (l, q) ls /\ walk f t z no_missing i = Some l))).
  - intros f i p Hi El. split; [discriminate|]. split; [intros l q [E|[]]; injection E as <- <-; auto|].
    intros _. exists i, p. cbn [walk]. rewrite El. split; [now left|trivial].
  - intros f i p a Hi El Hm Hx Hc [IH1 [IH2 IH3]]. split; [trivial|]. split.
    { intros l q Hl s v Hv. specialize (IH2 l q Hl s v Hv). rewrite in_itv_narrow in IH2. now apply andb_true_iff in IH2. }
    intro Hz. destruct (IH3 Hz) as [l [q [H1 H2]]]. exists l, q. split; [trivial|]. cbn [walk]. rewrite El.
    rewrite next_left; [trivial|].
    pose proof (IH2 l q H1 _ _ (Hz l q H1 _ Hm)) as G. rewrite in_itv_narrow, Nat.eqb_refl in G.
    apply andb_true_iff in G. destruct G as [_ G]. now apply qleb_true.
  - intros f i p a Hi El Hm Hx Hc [IH1 [IH2 IH3]]. split; [trivial|]. split.
    { intros l q Hl s v Hv. specialize (IH2 l q Hl s v Hv). rewrite in_itv_narrow in IH2. now apply andb_true_iff in IH2. }
    intro Hz. destruct (IH3 Hz) as [l [q [H1 H2]]]. exists l, q. split; [trivial|]. cbn [walk]. rewrite El.
    rewrite next_right; [trivial|].
    pose proof (IH2 l q H1 _ _ (Hz l q H1 _ Hm)) as G. rewrite in_itv_narrow, Nat.eqb_refl in G.
    apply andb_true_iff in G. destruct G as [_ G]. cbn in G. rewrite andb_true_r in G. now apply qltb_true.
  - intros f i p a b Hi El Hm Hc Hc' [IH1 [IH2 IH3]] [IH1' [IH2' IH3']]. split; [destruct a; [contradiction|discriminate]|]. split.
    { intros l q Hl s v Hv. apply in_app_iff in Hl. destruct Hl as [Hl|Hl].
      - specialize (IH2 l q Hl s v Hv). rewrite in_itv_narrow in IH2. now apply andb_true_iff in IH2.
      - specialize (IH2' l q Hl s v Hv). rewrite in_itv_narrow in IH2'. now apply andb_true_iff in IH2'. }
    intro Hz.
    destruct (IH3 ltac:(intros l q Hl; apply Hz with (l := l); apply in_app_iff; auto)) as [l [q [H1 H2]]].
    destruct (IH3' ltac:(intros l' q' Hl; apply Hz with (l := l'); apply in_app_iff; auto)) as [l' [q' [H1' H2']]].
    destruct (Qlt_le_dec (thq t i) (z (ftn t i))) as [H|H].
    + exists l', q'. rewrite in_app_iff. split; [auto|]. cbn [walk]. rewrite El, next_right by exact H. trivial.
    + exists l, q. rewrite in_app_iff. split; [auto|]. cbn [walk]. rewrite El, next_left by exact H. trivial.
Qed.
(** ** Finite lower bounds are thresholds *)
Lemma ext_max_cases a b : ext_max a b = a \/ ext_max a b = b.
Proof. destruct a, b; cbn; auto. destruct (qleb _ _); auto. Qed.
Lemma explore_bounds : forall f i p ls, i < nn t -> explore t x Sv f i p = Some ls ->
  (forall s a, fst (p s) = Fin a -> exists k, k < nn t /\ is_leaf t k = false /\ ftn t k = s /\ thq t k = a) ->
  forall l q, In (l, q) ls ->
  forall s a, fst (q s) = Fin a -> exists k, k < nn t /\ is_leaf t k = false /\ ftn t k = s /\ thq t k = a.
Proof.
  apply (explore_ind (fun f i p ls =>
    (forall s a, fst (p s) = Fin a -> exists k, k < nn t /\ is_leaf t k = false /\ ftn t k = s /\ thq t k = a) ->
    forall l q, In (l, q) ls ->
    forall s a, fst (q s) = Fin a -> exists k, k < nn t /\ is_leaf t k = false /\ ftn t k = s /\ thq t k = a)).
  - intros f i p Hi El Hp l q [E|[]]. injection E as <- <-. exact Hp.
  - intros f i p a Hi El Hm Hx Hc IH Hp. apply IH. intros s a0 H. unfold narrow, upd in H.
    destruct (Nat.eqb_spec s (ftn t i)) as [->|]; [|now apply Hp]. cbn in H.
    apply Hp. destruct (fst (p (ftn t i))); cbn in H; congruence.
  - intros f i p a Hi El Hm Hx Hc IH Hp. apply IH. intros s a0 H. unfold narrow, upd in H.
    destruct (Nat.eqb_spec s (ftn t i)) as [->|]; [|now apply Hp]. cbn [fst] in H.
    destruct (ext_max_cases (fst (p (ftn t i))) (Fin (thq t i))) as [E|E]; rewrite E in H; [now apply Hp|].
    injection H as <-. exists i. auto.
  - intros f i p a b Hi El Hm Hc Hc' IH IH' Hp l q Hl. apply in_app_iff in Hl.
    destruct Hl as [Hl|Hl]; [apply IH with (l := l)|apply IH' with (l := l)]; trivial;
    intros s a0 H; unfold narrow, upd in H; (destruct (Nat.eqb_spec s (ftn t i)) as [->|]; [|now apply Hp]); cbn [fst] in H.
    + apply Hp. destruct (fst (p (ftn t i))); cbn in H; congruence.
    + destruct (ext_max_cases (fst (p (ftn t i))) (Fin (thq t i))) as [E|E]; rewrite E in H; [now apply Hp|].
      injection H as <-. exists i. auto.
Qed.

(** ** Exactly the leaves that can be met *)
Lemma explore_may : forall f i p ls, i < nn t -> explore t x Sv f i p = Some ls ->
  forall l, In l (map fst ls) <-> may_meet t x Sv i l /\ is_leaf t l = true.
Proof.
  apply (explore_ind (fun f i p ls => forall l, In l (map fst ls) <-> may_meet t x Sv i l /\ is_leaf t l = true)).
  - intros f i p Hi El l. cbn. split.
    + intros [<-|[]]. split; [constructor|trivial].
    + intros [H _]. inversion H as [|? ? E|? ? E]; subst; [now left| |]; unfold leaf_node in E; unfold is_leaf in El; congruence.
  - intros f i p a Hi El Hm Hx Hc IH l. rewrite IH. split; intros [H Hl]; (split; [|trivial]).
    + apply mm_left; auto.
    + inversion H as [|? ? E G K|? ? E G K]; subst; [congruence|exact K|]. specialize (G Hm). lra.
  - intros f i p a Hi El Hm Hx Hc IH l. rewrite IH. split; intros [H Hl]; (split; [|trivial]).
    + apply mm_right; auto.
    + inversion H as [|? ? E G K|? ? E G K]; subst; [congruence| |exact K]. specialize (G Hm). lra.
  - intros f i p a b Hi El Hm Hc Hc' IH IH' l. rewrite map_app, in_app_iff, IH, IH'. split.
    + intros [[H Hl]|[H Hl]]; (split; [|trivial]); [apply mm_left|apply mm_right]; auto; contradiction.
    + intros [H Hl]. inversion H as [|? ? E G K|? ? E G K]; subst; [congruence|auto|auto].
Qed.
End Tree.

Lemma Inside_rect d p z : in_rect d p z = true <-> Inside d p z.
Proof. apply in_rect_Inside. Qed.
Lemma leaves_statement t d x Sv : wf_tree t d = true ->
  exists ls, compatible t x Sv = Some ls /\ NoDup (map fst ls) /\
    (forall l, In l (map fst ls) <-> may_meet t x Sv 0 l /\ leaf_node t l = true) /\
    (forall l p, In (l, p) ls ->
       (forall s, In s Sv -> above_lo (fst (p s)) (x s) /\ below_hi (snd (p s)) (x s)) /\
       (forall z, Inside d p z <-> visits t z no_missing l)) /\
    (forall z, same_on Sv x z -> exists l, In l (map fst ls) /\ visits t z no_missing l).
Proof.
  intro Hwf. pose proof (wf_pos t d Hwf) as H0.
  destruct (compatible_total t d Hwf x Sv) as [ls E]. exists ls. split; [exact E|]. unfold compatible in E.
  split; [apply (explore_nodup t d Hwf x Sv _ _ _ _ H0 E)|].
  split; [apply (explore_may t d Hwf x Sv _ _ _ _ H0 E)|]. split.
  - intros l p Hl. split.
    + intros s Hs. apply in_itv_spec. apply (explore_x t d Hwf x Sv _ _ _ _ H0 E) with (l := l); trivial.
    + intro z. destruct (explore_inside t d Hwf x Sv z _ _ _ _ H0 E l p Hl) as [_ G].
      destruct (explore_leaf t d Hwf x Sv _ _ _ _ H0 E l p Hl) as [_ L].
      rewrite <- in_rect_Inside, G, in_rect_whole. split.
      * intros [_ W]. apply (walk_visits t z no_missing _ _ _ (vis_root t z no_missing) W).
      * intro V. split; [trivial|]. now apply (visited_leaf_predicted t d Hwf z no_missing l V).
  - intros z Hz. destruct (explore_complete t d Hwf x Sv z Hz _ _ _ _ H0 E) as [l [q [H1 H2]]].
    exists l. split; [apply in_map_iff; exists (l, q); auto|].
    apply (walk_visits t z no_missing _ _ _ (vis_root t z no_missing) H2).
Qed.

(** ** Sums over the leaves of a tree *)
Lemma in_sides_within p F z : in_sides p F z = true <-> within p F z.
Proof.
  unfold in_sides, within. rewrite forallb_forall. split; intros H s Hs; specialize (H s Hs).
  - apply andb_true_iff in H. destruct H as [H1 H2]. split.
    + destruct (fst (p s)); cbn in H2; [trivial|now apply qleb_true|discriminate].
    + destruct (snd (p s)); cbn in *; [discriminate|now apply qleb_true|trivial].
  - destruct H as [H1 H2]. apply andb_true_iff. split.
    + destruct (snd (p s)); cbn in *; [contradiction|now apply qleb_true|trivial].
    + destruct (fst (p s)); cbn in *; [trivial|now apply qleb_true|contradiction].
Qed.
Lemma sides_all d p Sv z : (forall s, In s Sv -> s < d) ->
  in_sides p Sv z && in_sides p (others d Sv) z = in_sides p (seq 0 d) z.
Proof.
  intro HS. apply eq_true_iff_eq. rewrite andb_true_iff, !in_sides_within. unfold within, others. split.
  - intros [H1 H2] s Hs. destruct (memb_spec s Sv) as [Hm|Hm]; [now apply H1|].
    apply H2. apply filter_In. split; [trivial|]. apply negb_true_iff. now apply memb_false.
  - intro H. split; intros s Hs; apply H; [apply in_seq; specialize (HS s Hs); lia|].
    apply filter_In in Hs. apply Hs.
Qed.
(** closed and half-open sides agree off the bounds *)
Lemma itv_closed p F z : (forall s a, fst (p s) = Fin a -> ~ (z s == a)%Q) ->
  in_sides p F z = forallb (fun s => in_itv (p s) (z s)) F.
Proof.
  intro H. apply forallb_ext_in. intros s _. unfold in_itv. rewrite andb_comm. f_equal.
  destruct (fst (p s)) eqn:E; cbn; trivial. specialize (H s q E).
  destruct (qleb_spec q (z s)), (qltb_spec q (z s)); trivial; lra.
Qed.

Section Rows.
Variables (t : tree) (d : nat) (x : pt) (Sv : list nat) (ls : list (nat * rect)).
Hypothesis Hwf : wf_tree t d = true.
Hypothesis HS : forall s, In s Sv -> s < d.
Hypothesis E : compatible t x Sv = Some ls.

(** a row on no threshold is in the closed box of a leaf exactly when it walks to it *)
Lemma row_leaf z l p : off_thresholds t z -> In (l, p) ls ->
  in_sides p Sv z && in_sides p (others d Sv) z = true <-> predict_leaf t z no_missing = Some l.
Proof.
  intros Hz Hl. pose proof (wf_pos t d Hwf) as H0.
  rewrite sides_all by exact HS. rewrite itv_closed.
  - destruct (explore_inside t d Hwf x Sv z _ _ _ _ H0 E l p Hl) as [_ G]. unfold in_rect in G at 1. rewrite G, in_rect_whole.
    unfold predict_leaf. tauto.
  - intros s a Ha K.
    destruct (explore_bounds t d Hwf x Sv _ _ _ _ H0 E) with (l := l) (q := p) (s := s) (a := a) as [k [K1 [K2 [<- K4]]]]; trivial.
    { intros ? ? C. discriminate C. }
    apply (Hz k K1 K2). now rewrite K4.
Qed.
(** rows within the sides of [S] of all the leaves walk to one of them *)
Lemma row_section z : off_thresholds t z -> (forall l p, In (l, p) ls -> in_sides p Sv z = true) ->
  exists l p, In (l, p) ls /\ predict_leaf t z no_missing = Some l.
Proof.
  intros Hz H. pose proof (wf_pos t d Hwf) as H0.
  destruct (explore_section t d Hwf x Sv z _ _ _ _ H0 E) as [_ [_ G]]. apply G.
  intros l q Hl. specialize (H l q Hl). rewrite itv_closed in H.
  - rewrite forallb_forall in H. exact H.
  - intros s a Ha K.
    destruct (explore_bounds t d Hwf x Sv _ _ _ _ H0 E) with (l := l) (q := q) (s := s) (a := a) as [k [K1 [K2 [<- K4]]]]; trivial.
    { intros ? ? C. discriminate C. }
    apply (Hz k K1 K2). now rewrite K4.
Qed.

Variable data : list pt.
Hypothesis Hoff : forall z, In z data -> off_thresholds t z.
Variable A : pt -> bool.
Hypothesis HA : forall l p z, In (l, p) ls -> In z data -> in_sides p Sv z = A z.

(** weight of one row over the leaves *)
Lemma row_sum (g : nat -> Q) z l0 : In z data -> predict_leaf t z no_missing = Some l0 ->
  (sumf (fun l => Qb (in_sides (snd l) Sv z && in_sides (snd l) (others d Sv) z) * g (fst l)) ls == Qb (A z) * g l0)%Q.
Proof.
  intros Hd Hp. pose proof (wf_pos t d Hwf) as H0.
  destruct (A z) eqn:Ea.
  - destruct (row_section z (Hoff z Hd)) as [l [p [Hl Hl0]]].
    { intros l p Hl. now rewrite (HA l p z Hl Hd). }
    assert (l = l0) by congruence. subst l.
    destruct (explore_nodup t d Hwf x Sv _ _ _ _ H0 E) as [ND _].
    assert (ND' : NoDup ls) by (eapply NoDup_map_inv; eassumption).
    rewrite (sumf_single _ ls (l0, p) ND' Hl).
    + cbn [fst snd]. rewrite (proj2 (row_leaf z l0 p (Hoff z Hd) Hl) Hp). reflexivity.
    + intros [l' p'] Hl' Hn. cbn [fst snd].
      destruct (in_sides p' Sv z && in_sides p' (others d Sv) z) eqn:B; [|cbn [Qb]; ring].
      exfalso. apply (proj1 (row_leaf z l' p' (Hoff z Hd) Hl')) in B.
      assert (l' = l0) by congruence. subst l'. apply Hn. f_equal.
      clear - ND Hl Hl'. induction ls as [|[a b] r IH]; [contradiction|]. cbn in ND. inversion ND as [|? ? N1 N2]; subst.
      destruct Hl as [C|C], Hl' as [C'|C'].
      * congruence.
      * injection C as -> ->. exfalso. apply N1. apply in_map_iff. exists (l0, p'). auto.
      * injection C' as -> ->. exfalso. apply N1. apply in_map_iff. exists (l0, p). auto.
      * now apply IH.
  - cbn [Qb]. rewrite sumf_zero; [ring|]. intros [l p] Hl. cbn [fst snd]. rewrite (HA l p z Hl Hd), Ea. cbn. ring.
Qed.
(** the leaf a row walks to *)
Definition leaf_at (z : pt) : nat := match predict_leaf t z no_missing with Some l => l | None => 0 end.
Lemma leaf_at_spec z : predict_leaf t z no_missing = Some (leaf_at z).
Proof.
  unfold leaf_at. destruct (predict_leaf_total t d Hwf z no_missing) as [l [-> _]]. reflexivity.
Qed.

End Rows.

(** ** Means over the rows of a common section *)
Section Means.
Variables (d : nat) (Sv : list nat) (ls : list (nat * rect)) (data : list pt) (A down : pt -> bool).
Hypothesis HSne : Sv <> [].
Hypothesis HA : forall l p z, In (l, p) ls -> In z data -> in_sides p Sv z = A z.
Variable g : nat -> Q.
(** what a row adds over the leaves *)
Definition row_weight (z : pt) : Q :=
  sumf (fun l => Qb (in_sides (snd l) Sv z && in_sides (snd l) (others d Sv) z) * g (fst l))%Q ls.
(** mean of [g] over a part *)
Definition gmean (nm : part) : Q := sumf (fun l => prob d Sv data down nm (snd l) * g (fst l))%Q ls.
Lemma side_rows_all nm l p : In (l, p) ls ->
  side_rows Sv data nm (flag down nm) p = length (filter (fun z => A z && flag down nm z) data).
Proof.
  intro Hl. unfold side_rows. destruct Sv as [|s r] eqn:Es; [contradiction|]. f_equal.
  apply filter_ext_in'. intros z Hz. now rewrite (HA l p z Hl Hz).
Qed.
(** the sum over the leaves is the mean over the rows of the section *)
Lemma mean_rows nm :
  (gmean nm == qdiv0 (sumf (fun z => Qb (A z && flag down nm z) * row_weight z) data)
         (Qn (length (filter (fun z => A z && flag down nm z) data))))%Q.
Proof.
  unfold gmean. set (n := length (filter (fun z => A z && flag down nm z) data)).
  rewrite (sumf_ext _ (fun l => (if n =? 0 then 0 else / Qn n) *
     sumf (fun z => (Qb (in_sides (snd l) Sv z && in_sides (snd l) (others d Sv) z && flag down nm z) * g (fst l))) data)%Q).
  - rewrite sumf_scal, sumf_swap.
    rewrite (sumf_ext _ (fun z => Qb (A z && flag down nm z) * row_weight z)%Q).
    + unfold qdiv0. destruct (Nat.eqb_spec n 0) as [->|Hn].
      * cbn. ring.
      * destruct (qeqb_spec (Qn n) 0) as [C|C]; [exfalso; now apply (Qn_neq0 n Hn)|]. unfold Qdiv. ring.
    + intros z Hz. unfold row_weight. rewrite <- sumf_scal. apply sumf_ext. intros [l p] Hl. cbn [fst snd].
      rewrite (HA l p z Hl Hz). destruct (A z), (in_sides p (others d Sv) z), (flag down nm z); cbn; ring.
  - intros [l p] Hl. cbn [fst snd]. unfold prob, gdiv. rewrite (side_rows_all nm l p Hl). fold n.
    destruct (n =? 0); [ring|]. unfold leaf_rows. rewrite sumf_scal_r, sumf_count. unfold Qdiv. ring.
Qed.
End Means.

(** ** The quotient of the three means is a share *)
Lemma clip_ratio_range a b q : clip_ratio a b = Some q -> (0 <= q <= 1)%Q.
Proof.
  unfold clip_ratio. destruct (qeqb b 0); [discriminate|]. intro H. injection H as <-.
  destruct (qltb_spec (a / b) 0); [lra|]. destruct (qltb_spec 1 (a / b)); lra.
Qed.
Lemma clip_ratio_id a b s q : ~ (b == 0)%Q -> (a == s * b)%Q -> (0 <= s <= 1)%Q -> clip_ratio a b = Some q -> (q == s)%Q.
Proof.
  intros Hb Ha Hs. unfold clip_ratio. destruct (qeqb_spec b 0) as [C|_]; [contradiction|]. intro H. injection H as <-.
  assert (G : (a / b == s)%Q) by (rewrite Ha; field; exact Hb).
  destruct (qltb_spec (a / b) 0); [lra|]. destruct (qltb_spec 1 (a / b)); lra.
Qed.
Lemma three_means (T0 T1 : Q) (n0 n1 : nat) : (n0 = 0 -> (T0 == 0)%Q) -> (n1 = 0 -> (T1 == 0)%Q) ->
  let m0 := qdiv0 T0 (Qn n0) in let m1 := qdiv0 T1 (Qn n1) in let m := qdiv0 (T0 + T1) (Qn (n0 + n1)) in
  ~ (m0 - m1 == 0)%Q ->
  (0 < n0 + n1) /\ (m0 - m == (Qn n1 / Qn (n0 + n1)) * (m0 - m1))%Q.
Proof.
  intros H0 H1 m0 m1 m Hn. subst m0 m1 m. unfold qdiv0 in *.
  destruct (Nat.eq_dec n0 0) as [E0|E0], (Nat.eq_dec n1 0) as [E1|E1].
  - exfalso. subst. apply Hn. reflexivity.
  - subst n0. cbn [Nat.add]. split; [lia|]. pose proof (Qn_neq0 n1 E1) as N1. specialize (H0 eq_refl).
    destruct (qeqb_spec (Qn n1) 0) as [C|_]; [contradiction|]. cbn [qeqb]. destruct (qeqb_spec (Qn 0) 0) as [_|C]; [|exfalso; now apply C].
    rewrite H0. field. exact N1.
  - subst n1. rewrite Nat.add_0_r. split; [lia|]. pose proof (Qn_neq0 n0 E0) as N0. specialize (H1 eq_refl).
    destruct (qeqb_spec (Qn n0) 0) as [C|_]; [contradiction|]. destruct (qeqb_spec (Qn 0) 0) as [_|C]; [|exfalso; now apply C].
    rewrite H1, Qn_0. field. exact N0.
  - split; [lia|]. pose proof (Qn_neq0 n0 E0) as N0. pose proof (Qn_neq0 n1 E1) as N1.
    assert (N : ~ (Qn (n0 + n1) == 0)%Q) by (apply Qn_neq0; lia).
    destruct (qeqb_spec (Qn n0) 0) as [C|_]; [contradiction|]. destruct (qeqb_spec (Qn n1) 0) as [C|_]; [contradiction|].
    destruct (qeqb_spec (Qn (n0 + n1)) 0) as [C|_]; [contradiction|].
    rewrite Qn_plus in *. field. auto.
Qed.

Lemma share_bounds A B data : (0 <= share A B data <= 1)%Q.
Proof.
  unfold share. set (n := length (filter A data)).
  assert (L : length (filter (fun z => A z && B z) data) <= n).
  { subst n. induction data as [|z r IH]; cbn; [lia|]. destruct (A z), (B z); cbn; lia. }
  destruct (Nat.eq_dec n 0) as [->|Hn].
  - unfold Qdiv. cbn. lra.
  - split; [apply Qdiv_nonneg; [apply Qn_nonneg|apply Qn_pos; lia]|].
    apply Qdiv_le_1; [apply Qn_nonneg|now apply Qn_le|apply Qn_pos; lia].
Qed.
Lemma share_ext A A' B B' data : (forall z, In z data -> A z = A' z) -> (forall z, In z data -> B z = B' z) ->
  share A B data = share A' B' data.
Proof.
  intros H1 H2. unfold share. rewrite (filter_ext_in' A A' data H1).
  rewrite (filter_ext_in' (fun z => A z && B z) (fun z => A' z && B' z) data); [reflexivity|].
  intros z Hz. now rewrite H1, H2.
Qed.
Lemma flag_split A down (g : pt -> Q) data :
  (sumf (fun z => Qb (A z && flag down All z) * g z) data ==
   sumf (fun z => Qb (A z && flag down Up z) * g z) data + sumf (fun z => Qb (A z && flag down Down z) * g z) data)%Q /\
  length (filter (fun z => A z && flag down All z) data) =
  length (filter (fun z => A z && flag down Up z) data) + length (filter (fun z => A z && flag down Down z) data).
Proof.
  split.
  - rewrite <- sumf_plus. apply sumf_ext. intros z _. unfold flag. destruct (A z), (down z); cbn; ring.
  - induction data as [|z r IH]; cbn [filter length]; [reflexivity|]. unfold flag in *. destruct (A z), (down z); cbn in *; lia.
Qed.
Lemma flag_empty A down nm (g : pt -> Q) data : length (filter (fun z => A z && flag down nm z) data) = 0 ->
  (sumf (fun z => Qb (A z && flag down nm z) * g z) data == 0)%Q.
Proof.
  intro H. apply sumf_zero. intros z Hz. destruct (A z && flag down nm z) eqn:E; [|cbn; ring].
  exfalso. assert (K : In z (filter (fun z => A z && flag down nm z) data)) by now apply filter_In.
  apply length_zero_iff_nil in H. rewrite H in K. exact K.
Qed.

Section Share.
Variables (d : nat) (Sv : list nat) (ls : list (nat * rect)) (data : list pt) (A down : pt -> bool).
Hypothesis HSne : Sv <> [].
Hypothesis HA : forall l p z, In (l, p) ls -> In z data -> in_sides p Sv z = A z.
Variable g : nat -> Q.
Let gmean := gmean d Sv ls data down g.
Lemma gmean_parts : ~ (gmean Up - gmean Down == 0)%Q ->
  filter A data <> [] /\
  (gmean Up - gmean All == share A down data * (gmean Up - gmean Down))%Q /\
  (gmean All - gmean Down == share A (fun z => negb (down z)) data * (gmean Up - gmean Down))%Q.
Proof.
  intro Hn.
  pose proof (fun nm => mean_rows d Sv ls data A down HSne HA g nm) as M. fold gmean in M.
  pose proof (M All) as MA. pose proof (M Up) as MU. pose proof (M Down) as MD. clear M.
  set (gz := row_weight d Sv ls g) in *.
  destruct (flag_split A down gz data) as [F1 F2].
  set (nU := length (filter (fun z => A z && flag down Up z) data)) in *.
  set (nD := length (filter (fun z => A z && flag down Down z) data)) in *.
  set (nA := length (filter (fun z => A z && flag down All z) data)) in *.
  set (TU := sumf (fun z => Qb (A z && flag down Up z) * gz z)%Q data) in *.
  set (TD := sumf (fun z => Qb (A z && flag down Down z) * gz z)%Q data) in *.
  set (TA := sumf (fun z => Qb (A z && flag down All z) * gz z)%Q data) in *.
  change (gmean All == qdiv0 TA (Qn nA))%Q in MA.
  change (gmean Up == qdiv0 TU (Qn nU))%Q in MU.
  change (gmean Down == qdiv0 TD (Qn nD))%Q in MD.
  assert (MA' : (gmean All == qdiv0 (TU + TD) (Qn (nU + nD)))%Q).
  { rewrite MA, F2. unfold qdiv0. destruct (qeqb _ _); [reflexivity|]. now rewrite F1. }
  assert (LA : length (filter A data) = nU + nD).
  { rewrite <- F2. subst nA. f_equal. apply filter_ext. intro z. cbn. now rewrite andb_true_r. }
  assert (Hn' : ~ (qdiv0 TU (Qn nU) - qdiv0 TD (Qn nD) == 0)%Q) by (rewrite <- MU, <- MD; exact Hn).
  destruct (three_means TU TD nU nD (flag_empty A down Up gz data) (flag_empty A down Down gz data) Hn') as [P Q1].
  rewrite <- MU, <- MD, <- MA' in Q1.
  assert (N : ~ (Qn (nU + nD) == 0)%Q) by (apply Qn_neq0; lia).
  split; [intro C; rewrite C in LA; cbn in LA; lia|].
  unfold share. rewrite LA.
  change (fun z => A z && down z) with (fun z => A z && flag down Down z). fold nD.
  change (fun z => A z && negb (down z)) with (fun z => A z && flag down Up z). fold nU.
  split; [exact Q1|].
  assert (R : (gmean All - gmean Down == (gmean Up - gmean Down) - (gmean Up - gmean All))%Q) by ring.
  rewrite R, Q1. rewrite Qn_plus in *. field. exact N.
Qed.
End Share.

(** ** Regression, one tree *)
Lemma mean_one fx tx d Sv data t ls nm :
  (mean_part fx tx d Sv data [(t, ls)] nm ==
   gmean d Sv ls data (near fx tx t) (fun l => vlq t l * vlq t l - 2 * fx * vlq t l)%Q nm)%Q.
Proof.
  unfold mean_part, indexed. cbn [length seq combine sumf fst snd Nat.eqb]. unfold diag_mean, gmean.
  rewrite (sumf_ext (fun l => prob d Sv data (near fx tx t) nm (snd l) * (vlq t (fst l) * vlq t (fst l) - 2 * fx * vlq t (fst l)))%Q
    (fun l => prob d Sv data (near fx tx t) nm (snd l) * (vlq t (fst l) * vlq t (fst l))
              - 2 * fx * (prob d Sv data (near fx tx t) nm (snd l) * vlq t (fst l)))%Q) by (intros; ring).
  rewrite sumf_minus, sumf_scal. change (Qn 1) with 1%Q. field.
Qed.
Lemma clip_ratio_ext a a' b b' : (a == a')%Q -> (b == b')%Q ->
  match clip_ratio a b, clip_ratio a' b' with Some q, Some q' => (q == q')%Q | None, None => True | _, _ => False end.
Proof.
  intros Ha Hb. unfold clip_ratio.
  destruct (qeqb_spec b 0) as [C|C], (qeqb_spec b' 0) as [C'|C'].
  - exact I.
  - apply C'. now rewrite <- Hb.
  - apply C. now rewrite Hb.
  - assert (G : (a / b == a' / b')%Q) by now rewrite Ha, Hb.
    destruct (qltb_spec (a / b) 0), (qltb_spec (a' / b') 0); try lra.
    destruct (qltb_spec 1 (a / b)), (qltb_spec 1 (a' / b')); lra.
Qed.

Lemma near_spec fx tx t d z (b : bool) v : wf_tree t d = true -> leaf_value t z no_missing v ->
  decided b ((v - fx) * (v - fx) <= tx)%Q -> near fx tx t z = b.
Proof.
  intros Hwf [l [V [L ->]]] Hd. unfold near, predict_value.
  rewrite (proj1 (visited_leaf_predicted t d Hwf z no_missing l V) L).
  apply eq_true_iff_eq. rewrite qleb_true. symmetry. exact Hd.
Qed.
Lemma subscripts_true d Sv : 2 <= d -> (forall s, In s Sv -> s < d) -> subscripts_ok d Sv = true.
Proof.
  intros Hd HS. unfold subscripts_ok. apply andb_true_iff. split.
  - apply negb_true_iff, Nat.eqb_neq. lia.
  - apply forallb_forall. intros s Hs. apply Nat.ltb_lt. auto.
Qed.

Section OneTree.
Variables (t : tree) (d : nat) (x : pt) (Sv : list nat) (ls : list (nat * rect)) (data : list pt).
Variables (fx tx : Q) (A close : pt -> bool).
Hypothesis Hwf : wf_tree t d = true.
Hypothesis Hd : 2 <= d.
Hypothesis HS : forall s, In s Sv -> s < d.
Hypothesis HSne : Sv <> [].
Hypothesis E : compatible t x Sv = Some ls.
Hypothesis HA : forall l p z, In (l, p) ls -> In z data -> decided (A z) (within p Sv z).
Hypothesis HB : forall z, In z data -> exists v, leaf_value t z no_missing v /\ decided (close z) ((v - fx) * (v - fx) <= tx)%Q.

Let gv := fun l => (vlq t l * vlq t l - 2 * fx * vlq t l)%Q.
Let M nm := gmean d Sv ls data (near fx tx t) gv nm.
Lemma one_result : exists r, cond_sdp_forest fx tx d Sv data x [t] = Some r /\
  match r, clip_ratio (M Up - M All)%Q (M Up - M Down)%Q with Some q, Some q' => (q == q')%Q | None, None => True | _, _ => False end.
Proof.
  unfold cond_sdp_forest. rewrite (subscripts_true d Sv Hd HS). cbn [partitions]. rewrite E.
  eexists. split; [reflexivity|]. apply clip_ratio_ext; rewrite !mean_one; reflexivity.
Qed.
Lemma HA' : forall l p z, In (l, p) ls -> In z data -> in_sides p Sv z = A z.
Proof. intros l p z Hl Hz. apply eq_true_iff_eq. rewrite in_sides_within. symmetry. now apply HA with (l := l). Qed.
Lemma Hnear : forall z, In z data -> near fx tx t z = close z.
Proof. intros z Hz. destruct (HB z Hz) as [v [V D]]. eapply near_spec; eassumption. Qed.

Lemma one_share q : cond_sdp_forest fx tx d Sv data x [t] = Some (Some q) ->
  (exists z, In z data /\ A z = true) /\ (q == share A close data)%Q.
Proof.
  intro H. destruct one_result as [r [H1 H2]]. rewrite H1 in H. injection H as ->.
  destruct (clip_ratio (M Up - M All)%Q (M Up - M Down)%Q) as [q'|] eqn:C; [|contradiction].
  assert (N : ~ (M Up - M Down == 0)%Q).
  { intro K. unfold clip_ratio in C. destruct (qeqb_spec (M Up - M Down) 0); [discriminate|contradiction]. }
  destruct (gmean_parts d Sv ls data A (near fx tx t) HSne HA' gv N) as [G1 [G2 _]].
  split.
  - destruct (filter A data) as [|z r] eqn:F; [contradiction|]. exists z. apply filter_In. rewrite F. now left.
  - rewrite H2. rewrite (share_ext A A close (near fx tx t) data) by (auto; intros; now rewrite Hnear).
    eapply clip_ratio_id; [exact N|exact G2|apply share_bounds|exact C].
Qed.

(** with close and distant rows in the section the result is a number *)
Lemma one_defined : (forall z, In z data -> off_thresholds t z) -> (exists z, In z data /\ A z = true /\ close z = true) -> (exists z, In z data /\ A z = true /\ close z = false) ->
  exists q, cond_sdp_forest fx tx d Sv data x [t] = Some (Some q).
Proof.
  intros Hoff [z1 [Z1 [A1 B1]]] [z2 [Z2 [A2 B2]]].
  destruct one_result as [r [H1 H2]]. destruct r as [q|]; [eauto|]. exfalso.
  destruct (clip_ratio (M Up - M All)%Q (M Up - M Down)%Q) as [q'|] eqn:C; [contradiction|]. clear H1 H2.
  assert (N : (M Up == M Down)%Q).
  { unfold clip_ratio in C. destruct (qeqb_spec (M Up - M Down) 0); [lra|discriminate]. }
  clear C. revert N. apply Qnot_eq_sym.
  assert (R : forall nm, (M nm == qdiv0 (sumf (fun z => Qb (A z && flag (near fx tx t) nm z) * gv (leaf_at t z)) data)
         (Qn (length (filter (fun z => A z && flag (near fx tx t) nm z) data))))%Q).
  { intro nm. unfold M. rewrite (mean_rows d Sv ls data A _ HSne HA' gv nm). unfold qdiv0.
    destruct (qeqb _ _); [reflexivity|].
    rewrite (sumf_ext _ (fun z => Qb (A z && flag (near fx tx t) nm z) * gv (leaf_at t z))%Q); [reflexivity|].
    intros z Hz. destruct (A z) eqn:Ea; [|cbn; ring].
    unfold row_weight. rewrite (row_sum t d x Sv ls Hwf HS E data Hoff A HA' gv z _ Hz (leaf_at_spec t d Hwf z)), Ea. cbn [Qb]. ring. }
  rewrite (R Up), (R Down). clear R.
  assert (V : forall z, In z data -> (gv (leaf_at t z) == (vlq t (leaf_at t z) - fx) * (vlq t (leaf_at t z) - fx) - fx * fx)%Q /\
     decided (near fx tx t z) ((vlq t (leaf_at t z) - fx) * (vlq t (leaf_at t z) - fx) <= tx)%Q).
  { intros z Hz. split; [unfold gv; ring|]. unfold near, predict_value. rewrite (leaf_at_spec t d Hwf). unfold decided. apply qleb_true. }
  assert (P : forall nm z, In z data -> A z = true -> flag (near fx tx t) nm z = true ->
     0 < length (filter (fun z => A z && flag (near fx tx t) nm z) data)).
  { intros nm z Hz Ha Hf. assert (K : In z (filter (fun z => A z && flag (near fx tx t) nm z) data)).
    { apply filter_In. now rewrite Ha, Hf. }
    destruct (filter _ data); [contradiction|cbn; lia]. }
  assert (PU := P Up z2 Z2 A2). assert (PD := P Down z1 Z1 A1). cbn [flag] in PU, PD.
  rewrite (Hnear z2 Z2), B2 in PU. rewrite (Hnear z1 Z1), B1 in PD. specialize (PU eq_refl). specialize (PD eq_refl).
  set (nU := length (filter (fun z => A z && flag (near fx tx t) Up z) data)) in *.
  set (nD := length (filter (fun z => A z && flag (near fx tx t) Down z) data)) in *.
  change (0 < nU) in PU. change (0 < nD) in PD.
  assert (QU : (0 < Qn nU)%Q) by now apply Qn_pos. assert (QD : (0 < Qn nD)%Q) by now apply Qn_pos.
  unfold qdiv0. destruct (qeqb_spec (Qn nU) 0); [lra|]. destruct (qeqb_spec (Qn nD) 0); [lra|].
  assert (LD : (sumf (fun z => Qb (A z && flag (near fx tx t) Down z) * gv (leaf_at t z)) data / Qn nD <= tx - fx * fx)%Q).
  { apply Qle_shift_div_r; [exact QD|].
    rewrite Qmult_comm. unfold nD. rewrite <- sumf_count, <- sumf_scal_r. apply sumf_le. intros z Hz. destruct (V z Hz) as [V1 V2].
    destruct (A z && flag (near fx tx t) Down z) eqn:F; cbn [Qb]; [|lra].
    apply andb_true_iff in F. destruct F as [_ F]. cbn [flag] in F. apply V2 in F. rewrite V1. lra. }
  assert (LU : (tx - fx * fx < sumf (fun z => Qb (A z && flag (near fx tx t) Up z) * gv (leaf_at t z)) data / Qn nU)%Q).
  { apply Qlt_shift_div_l; [exact QU|].
    rewrite Qmult_comm. unfold nU. rewrite <- sumf_count, <- sumf_scal_r.
    assert (ST : forall l, (forall z, In z l -> In z data) ->
      (sumf (fun z => Qb (A z && flag (near fx tx t) Up z) * (tx - fx * fx)) l <=
       sumf (fun z => Qb (A z && flag (near fx tx t) Up z) * gv (leaf_at t z)) l)%Q /\
      (In z2 l -> (sumf (fun z => Qb (A z && flag (near fx tx t) Up z) * (tx - fx * fx)) l <
       sumf (fun z => Qb (A z && flag (near fx tx t) Up z) * gv (leaf_at t z)) l)%Q)).
    { induction l as [|z l IH]; intro Hl; [split; [cbn; lra|intros []]|].
      destruct (IH (fun y Hy => Hl y (or_intror Hy))) as [I1 I2].
      assert (S1 : A z && flag (near fx tx t) Up z = true -> (tx - fx * fx < gv (leaf_at t z))%Q).
      { intro F. apply andb_true_iff in F. destruct F as [_ F]. cbn [flag] in F. apply negb_true_iff in F.
        destruct (V z (Hl z (or_introl eq_refl))) as [V1 V2]. rewrite V1.
        destruct (Qlt_le_dec tx ((vlq t (leaf_at t z) - fx) * (vlq t (leaf_at t z) - fx))) as [K|K]; [lra|].
        apply V2 in K. congruence. }
      cbn [sumf]. destruct (A z && flag (near fx tx t) Up z) eqn:F; cbn [Qb].
      - specialize (S1 eq_refl). split; [lra|]. intros _. lra.
      - split; [lra|]. intros [<-|Hi].
        + exfalso. cbn [flag] in F. rewrite A2, (Hnear z Z2), B2 in F. discriminate.
        + specialize (I2 Hi). lra. }
    apply (ST data); auto. }
  intro K. lra.
Qed.
End OneTree.

(** ** Range and certain cases *)
Lemma cond_range fx tx d Sv data x ts q : cond_sdp_forest fx tx d Sv data x ts = Some (Some q) -> (0 <= q <= 1)%Q.
Proof.
  unfold cond_sdp_forest. destruct ts as [|t r]; [discriminate|]. destruct (subscripts_ok d Sv); [|discriminate].
  destruct (partitions Sv x (t :: r)); [|discriminate]. intro H. injection H as H. eapply clip_ratio_range; exact H.
Qed.
Lemma filter_none {A} (f : A -> bool) l : (forall a, In a l -> f a = false) -> filter f l = [].
Proof. induction l as [|a l IH]; cbn; intro H; [reflexivity|]. rewrite (H a) by now left. apply IH. intros; apply H; now right. Qed.
Section Certain.
Variables (fx tx : Q) (d : nat) (Sv : list nat) (data : list pt) (x : pt).
Hypothesis HSne : Sv <> [].
Lemma indexed_in {A} (l : list A) i a : In (i, a) (indexed l) -> In a l.
Proof. unfold indexed. intro H. now apply in_combine_r in H. Qed.
Lemma prob_same down nm nm' p : (forall z, In z data -> flag down nm z = flag down nm' z) ->
  prob d Sv data down nm p = prob d Sv data down nm' p.
Proof.
  intro H. unfold prob, leaf_rows, side_rows. destruct Sv as [|s r]; [contradiction|].
  rewrite (filter_ext_in' _ (fun z => in_sides p (s :: r) z && in_sides p (others d (s :: r)) z && flag down nm' z) data)
    by (intros z Hz; now rewrite H).
  rewrite (filter_ext_in' (fun z => in_sides p (s :: r) z && flag down nm z) (fun z => in_sides p (s :: r) z && flag down nm' z) data)
    by (intros z Hz; now rewrite H). reflexivity.
Qed.
Lemma prob2_same down down' nm nm' p p' : (forall z, In z data -> flag down nm z = flag down nm' z) ->
  (forall z, In z data -> flag down' nm z = flag down' nm' z) ->
  prob2 d Sv data down down' nm p p' = prob2 d Sv data down down' nm' p p'.
Proof.
  intros H H'. unfold prob2. destruct Sv as [|s r]; [contradiction|].
  rewrite (filter_ext_in' _ (fun z => in_sides p (s :: r) z && in_sides p (others d (s :: r)) z
                                     && in_sides p' (s :: r) z && in_sides p' (others d (s :: r)) z && (flag down nm' z && flag down' nm' z)) data)
    by (intros z Hz; now rewrite H, H').
  rewrite (filter_ext_in' (fun z => in_sides p (s :: r) z && in_sides p' (s :: r) z && (flag down nm z && flag down' nm z))
     (fun z => in_sides p (s :: r) z && in_sides p' (s :: r) z && (flag down nm' z && flag down' nm' z)) data)
    by (intros z Hz; now rewrite H, H'). reflexivity.
Qed.
Lemma prob_none down nm p : (forall z, In z data -> flag down nm z = false) -> (prob d Sv data down nm p == 0)%Q.
Proof.
  intro H. unfold prob, leaf_rows. rewrite (filter_none _ data) by (intros z Hz; rewrite H by trivial; apply andb_false_r).
  unfold gdiv. destruct (_ =? 0); [reflexivity|]. cbn [length]. unfold Qdiv. rewrite Qn_0. ring.
Qed.
Lemma prob2_none down down' nm p p' : (forall z, In z data -> flag down nm z = false) -> (prob2 d Sv data down down' nm p p' == 0)%Q.
Proof.
  intro H. unfold prob2.
  rewrite (filter_none (fun z => in_sides p Sv z && in_sides p (others d Sv) z && in_sides p' Sv z && in_sides p' (others d Sv) z
     && (flag down nm z && flag down' nm z)) data) by (intros z Hz; rewrite H by trivial; apply andb_false_r).
  unfold gdiv. destruct (_ =? 0); [reflexivity|]. cbn [length]. unfold Qdiv. rewrite Qn_0. ring.
Qed.
Lemma mean_same ps nm nm' : (forall t ls, In (t, ls) ps -> forall z, In z data -> flag (near fx tx t) nm z = flag (near fx tx t) nm' z) ->
  (mean_part fx tx d Sv data ps nm == mean_part fx tx d Sv data ps nm')%Q.
Proof.
  intro H. unfold mean_part. apply sumf_ext. intros [i [t ls]] Hi. apply sumf_ext. intros [j [t' ls']] Hj. cbn [fst snd].
  apply indexed_in in Hi, Hj. destruct (i =? j).
  - unfold diag_mean.
    rewrite (sumf_ext (fun l => prob d Sv data (near fx tx t) nm (snd l) * (vlq t (fst l) * vlq t (fst l)))%Q
      (fun l => prob d Sv data (near fx tx t) nm' (snd l) * (vlq t (fst l) * vlq t (fst l)))%Q)
      by (intros l _; rewrite (prob_same _ nm nm'); [reflexivity|exact (H t ls Hi)]).
    rewrite (sumf_ext (fun l => prob d Sv data (near fx tx t) nm (snd l) * vlq t (fst l))%Q
      (fun l => prob d Sv data (near fx tx t) nm' (snd l) * vlq t (fst l))%Q)
      by (intros l _; rewrite (prob_same _ nm nm'); [reflexivity|exact (H t ls Hi)]). reflexivity.
  - unfold pair_mean. unfold Qdiv. rewrite (sumf_ext _ (fun l => sumf (fun l' => prob2 d Sv data (near fx tx t) (near fx tx t') nm' (snd l) (snd l')
                                  * (vlq t (fst l) * vlq t' (fst l'))) ls')%Q); [reflexivity|].
    intros l _. apply sumf_ext. intros l' _. rewrite (prob2_same _ _ nm nm'); [reflexivity|exact (H t ls Hi)|exact (H t' ls' Hj)].
Qed.
Lemma mean_none ps nm : (forall t ls, In (t, ls) ps -> forall z, In z data -> flag (near fx tx t) nm z = false) ->
  (mean_part fx tx d Sv data ps nm == 0)%Q.
Proof.
  intro H. unfold mean_part. apply sumf_zero. intros [i [t ls]] Hi. apply sumf_zero. intros [j [t' ls']] Hj. cbn [fst snd].
  apply indexed_in in Hi. destruct (i =? j).
  - unfold diag_mean. rewrite !sumf_zero; [unfold Qdiv; ring| |];
      intros l _; rewrite prob_none by exact (H t ls Hi); ring.
  - unfold pair_mean. rewrite sumf_zero; [unfold Qdiv; ring|]. intros l _. apply sumf_zero. intros l' _.
    rewrite prob2_none by exact (H t ls Hi). ring.
Qed.
Lemma partitions_in ts ps : partitions Sv x ts = Some ps -> forall t ls, In (t, ls) ps -> In t ts.
Proof.
  revert ps. induction ts as [|a ts IH]; intros ps H t ls Hi; cbn in H; [injection H as <-; contradiction|].
  destruct (compatible a x Sv) as [la|]; [|discriminate]. destruct (partitions Sv x ts) as [pa|] eqn:P; [|discriminate].
  injection H as <-. destruct Hi as [C|Hi]; [injection C as <- <-; now left|right; eapply IH; eauto].
Qed.
Lemma certain_close ts q : (forall t z, In t ts -> In z data -> near fx tx t z = true) ->
  cond_sdp_forest fx tx d Sv data x ts = Some (Some q) -> (q == 1)%Q.
Proof.
  intro H. unfold cond_sdp_forest. destruct ts as [|t r]; [discriminate|]. destruct (subscripts_ok d Sv); [|discriminate].
  destruct (partitions Sv x (t :: r)) as [ps|] eqn:P; [|discriminate]. intro K. injection K as K.
  assert (Hp : forall t' ls, In (t', ls) ps -> forall z, In z data -> near fx tx t' z = true).
  { intros t' ls Hi z Hz. apply H; [eapply partitions_in; eauto|trivial]. }
  assert (MU : (mean_part fx tx d Sv data ps Up == 0)%Q) by (apply mean_none; intros; cbn; erewrite Hp; eauto).
  assert (MD : (mean_part fx tx d Sv data ps Down == mean_part fx tx d Sv data ps All)%Q) by (apply mean_same; intros; cbn; erewrite Hp; eauto).
  assert (N : ~ (mean_part fx tx d Sv data ps Up - mean_part fx tx d Sv data ps Down == 0)%Q).
  { intro C. unfold clip_ratio in K. destruct (qeqb_spec (mean_part fx tx d Sv data ps Up - mean_part fx tx d Sv data ps Down) 0); [discriminate|contradiction]. }
  eapply clip_ratio_id; [exact N| |split; [discriminate|apply Qle_refl]|exact K]. rewrite MD. ring.
Qed.
Lemma certain_far ts q : (forall t z, In t ts -> In z data -> near fx tx t z = false) ->
  cond_sdp_forest fx tx d Sv data x ts = Some (Some q) -> (q == 0)%Q.
Proof.
  intro H. unfold cond_sdp_forest. destruct ts as [|t r]; [discriminate|]. destruct (subscripts_ok d Sv); [|discriminate].
  destruct (partitions Sv x (t :: r)) as [ps|] eqn:P; [|discriminate]. intro K. injection K as K.
  assert (Hp : forall t' ls, In (t', ls) ps -> forall z, In z data -> near fx tx t' z = false).
  { intros t' ls Hi z Hz. apply H; [eapply partitions_in; eauto|trivial]. }
  assert (MU : (mean_part fx tx d Sv data ps Up == mean_part fx tx d Sv data ps All)%Q) by (apply mean_same; intros; cbn; erewrite Hp; eauto).
  assert (N : ~ (mean_part fx tx d Sv data ps Up - mean_part fx tx d Sv data ps Down == 0)%Q).
  { intro C. unfold clip_ratio in K. destruct (qeqb_spec (mean_part fx tx d Sv data ps Up - mean_part fx tx d Sv data ps Down) 0); [discriminate|contradiction]. }
  eapply clip_ratio_id; [exact N| |split; [apply Qle_refl|discriminate]|exact K]. rewrite MU. ring.
Qed.
End Certain.

(** ** Classification *)
Lemma argmax_from_first r : forall pre best m, best < length pre -> nth best pre 0%Q = m ->
  (forall j, j < length pre -> (nth j pre 0 <= m)%Q) -> (forall j, j < best -> (nth j pre 0 < m)%Q) ->
  first_best (pre ++ r) (argmax_from r (length pre) best m).
Proof.
  induction r as [|a r IH]; intros pre best m Hb Hm Hle Hlt; cbn [argmax_from].
  - rewrite app_nil_r. split; [exact Hb|]. rewrite Hm. auto.
  - assert (E : pre ++ a :: r = (pre ++ [a]) ++ r) by (rewrite <- app_assoc; reflexivity).
    assert (L : length (pre ++ [a]) = S (length pre)) by (rewrite app_length; cbn; lia).
    assert (N : nth (length pre) (pre ++ [a]) 0%Q = a) by (rewrite app_nth2, Nat.sub_diag by lia; reflexivity).
    rewrite E, <- L. destruct (qltb_spec m a) as [H|H].
    + apply IH; [lia|exact N| |].
      * intros j Hj. destruct (Nat.lt_ge_cases j (length pre)) as [J|J].
        -- rewrite app_nth1 by exact J. specialize (Hle j J). lra.
        -- assert (j = length pre) as -> by lia. rewrite N. lra.
      * intros j J. rewrite app_nth1 by exact J. specialize (Hle j J). lra.
    + apply IH; [lia|rewrite app_nth1 by exact Hb; exact Hm| |].
      * intros j Hj. destruct (Nat.lt_ge_cases j (length pre)) as [J|J].
        -- rewrite app_nth1 by exact J. auto.
        -- assert (j = length pre) as -> by lia. rewrite N. lra.
      * intros j J. rewrite app_nth1 by lia. auto.
Qed.
Lemma argmax_first l b : argmax l = Some b -> first_best l b.
Proof.
  destruct l as [|a r]; cbn [argmax]; [discriminate|]. intro H. injection H as <-.
  apply (argmax_from_first r [a] 0 a); [cbn; lia|reflexivity| |lia].
  intros j Hj. cbn in Hj. assert (j = 0) as -> by lia. cbn. lra.
Qed.
Lemma first_best_unique l a b : first_best l a -> first_best l b -> a = b.
Proof.
  intros [A1 [A2 A3]] [B1 [B2 B3]]. destruct (Nat.lt_trichotomy a b) as [H|[H|H]]; [|trivial|].
  - specialize (B3 a H). specialize (A2 b B1). lra.
  - specialize (A3 b H). specialize (B2 a A1). lra.
Qed.
Lemma other_class_spec c t d z l b : wf_tree (c_tree t) d = true -> visits (c_tree t) z no_missing l -> leaf_node (c_tree t) l = true ->
  2 <= length (c_val t l) -> decided b (first_best (c_val t l) c) -> other_class c t z = negb b.
Proof.
  intros Hwf V L H2 Hd. unfold other_class, tree_class.
  rewrite (proj1 (visited_leaf_predicted (c_tree t) d Hwf z no_missing l V) L).
  destruct (c_val t l) as [|v [|w r]] eqn:Ev; [cbn in H2; lia|cbn in H2; lia|].
  destruct (argmax (v :: w :: r)) as [k|] eqn:Ek; [|discriminate]. apply argmax_first in Ek. f_equal.
  apply eq_true_iff_eq. rewrite Nat.eqb_eq. split.
  - intros ->. now apply Hd.
  - intro K. apply Hd in K. eapply first_best_unique; eassumption.
Qed.

Lemma tree_sdp_range c d Sv data x t q : tree_sdp c d Sv data x t = Some (Some q) -> (0 <= q <= 1)%Q.
Proof.
  unfold tree_sdp. destruct (compatible (c_tree t) x Sv) as [[|l ls]|]; try discriminate.
  destruct (c <? _); [|discriminate]. intro H. injection H as H. eapply clip_ratio_range; exact H.
Qed.
Lemma add_sdp_range c d Sv data x ts q : add_sdp c d Sv data x ts = Some (Some q) -> (0 <= q <= Qn (length ts))%Q.
Proof.
  revert q. induction ts as [|t r IH]; intros q H; cbn [add_sdp] in H.
  - injection H as <-. cbn [length]. rewrite Qn_0. lra.
  - destruct (tree_sdp c d Sv data x t) as [[a|]|] eqn:T; [|destruct (add_sdp c d Sv data x r); discriminate|discriminate].
    destruct (add_sdp c d Sv data x r) as [[b|]|] eqn:R; [|discriminate|discriminate].
    injection H as <-. apply tree_sdp_range in T. specialize (IH b eq_refl). cbn [length]. rewrite Qn_S. lra.
Qed.
Lemma clf_range c d Sv data x ts q : cond_sdp_forest_clf c d Sv data x ts = Some (Some q) -> (0 <= q <= 1)%Q.
Proof.
  unfold cond_sdp_forest_clf. destruct (length Sv =? d); [intro H; injection H as <-; lra|].
  destruct Sv as [|s r]; [intro H; injection H as <-; lra|].
  destruct ts as [|t ts]; [discriminate|]. destruct (subscripts_ok d (s :: r)); [|discriminate].
  destruct (add_sdp c d (s :: r) data x (t :: ts)) as [[b|]|] eqn:A; cbn [option_map]; try discriminate.
  intro H. injection H as <-. apply add_sdp_range in A.
  assert (P : (0 < Qn (length (t :: ts)))%Q) by (apply Qn_pos; cbn; lia).
  destruct A as [A1 A2]. split; [apply Qdiv_nonneg; [exact A1|exact P]|apply Qdiv_le_1; [exact A1|exact A2|exact P]].
Qed.
Lemma tree_sdp_share c d Sv data x t ls A same q :
  wf_tree (c_tree t) d = true -> Sv <> [] -> compatible (c_tree t) x Sv = Some ls ->
  (forall l p z, In (l, p) ls -> In z data -> decided (A z) (within p Sv z)) ->
  (forall z, In z data -> exists l, visits (c_tree t) z no_missing l /\ leaf_node (c_tree t) l = true /\
     2 <= length (c_val t l) /\ decided (same z) (first_best (c_val t l) c)) ->
  tree_sdp c d Sv data x t = Some (Some q) -> (q == share A same data)%Q.
Proof.
  intros Hwf HSne E HA HB H. unfold tree_sdp in H. rewrite E in H.
  destruct ls as [|l0 ls0]; [discriminate|]. destruct (c <? _); [|discriminate]. injection H as H.
  set (ls := l0 :: ls0) in *.
  assert (HA' : forall l p z, In (l, p) ls -> In z data -> in_sides p Sv z = A z).
  { intros l p z Hl Hz. apply eq_true_iff_eq. rewrite in_sides_within. symmetry. now apply HA with (l := l). }
  set (g := fun l => nth c (c_val t l) 0%Q).
  change (clip_ratio (gmean d Sv ls data (other_class c t) g All - gmean d Sv ls data (other_class c t) g Down)
    (gmean d Sv ls data (other_class c t) g Up - gmean d Sv ls data (other_class c t) g Down) = Some q) in H.
  assert (N : ~ (gmean d Sv ls data (other_class c t) g Up - gmean d Sv ls data (other_class c t) g Down == 0)%Q).
  { intro K. unfold clip_ratio in H. destruct (qeqb_spec (gmean d Sv ls data (other_class c t) g Up - gmean d Sv ls data (other_class c t) g Down) 0); [discriminate|contradiction]. }
  destruct (gmean_parts d Sv ls data A (other_class c t) HSne HA' g N) as [_ [_ G]].
  rewrite (share_ext A A same (fun z => negb (other_class c t z)) data).
  - eapply clip_ratio_id; [exact N|exact G|apply share_bounds|exact H].
  - auto.
  - intros z Hz. destruct (HB z Hz) as [l [V [L [K D]]]]. rewrite (other_class_spec c t d z l (same z)); trivial. symmetry. apply negb_involutive.
Qed.
Lemma clf_share c d Sv data x ts (A same : ctree -> pt -> bool) q :
  Sv <> [] -> length Sv <> d ->
  (forall t, In t ts -> wf_tree (c_tree t) d = true /\
     (forall ls l p z, compatible (c_tree t) x Sv = Some ls -> In (l, p) ls -> In z data -> decided (A t z) (within p Sv z)) /\
     (forall z, In z data -> exists l, visits (c_tree t) z no_missing l /\ leaf_node (c_tree t) l = true /\
        2 <= length (c_val t l) /\ decided (same t z) (first_best (c_val t l) c))) ->
  cond_sdp_forest_clf c d Sv data x ts = Some (Some q) ->
  (q == sumf (fun t => share (A t) (same t) data) ts / Qn (length ts))%Q.
Proof.
  intros HSne Hl H. unfold cond_sdp_forest_clf. destruct (Nat.eqb_spec (length Sv) d) as [C|_]; [contradiction|].
  destruct Sv as [|s r] eqn:Es; [contradiction|]. rewrite <- Es in *. clear Es.
  destruct ts as [|t0 ts0]; [discriminate|]. set (ts := t0 :: ts0) in *.
  destruct (subscripts_ok d Sv); [|discriminate].
  destruct (add_sdp c d Sv data x ts) as [[b|]|] eqn:R; cbn [option_map]; try discriminate.
  intro K. injection K as <-.
  assert (G : (b == sumf (fun t => share (A t) (same t) data) ts)%Q); [|now rewrite G].
  clearbody ts. clear t0 ts0 Hl. revert b R. induction ts as [|t ts IH]; intros b R; cbn [add_sdp] in R.
  - injection R as <-. reflexivity.
  - destruct (tree_sdp c d Sv data x t) as [[a|]|] eqn:T; [|destruct (add_sdp c d Sv data x ts); discriminate|discriminate].
    destruct (add_sdp c d Sv data x ts) as [[e|]|] eqn:Q; [|discriminate|discriminate].
    injection R as <-. cbn [sumf]. rewrite (IH (fun t' Ht => H t' (or_intror Ht)) e eq_refl).
    destruct (H t (or_introl eq_refl)) as [H1 [H3 H4]].
    destruct (compatible_total (c_tree t) d H1 x Sv) as [ls E].
    rewrite (tree_sdp_share c d Sv data x t ls (A t) (same t) a); trivial; [reflexivity|].
    intros l p z. now apply H3.
Qed.

(** ** Rows and boxes *)
Lemma rows_statement t d x Sv ls z : wf_tree t d = true -> (forall s, In s Sv -> s < d) -> compatible t x Sv = Some ls ->
  off_thresholds t z ->
  (forall l p, In (l, p) ls -> (within p (seq 0 d) z <-> visits t z no_missing l)) /\
  ((forall l p, In (l, p) ls -> within p Sv z) -> exists l p, In (l, p) ls /\ within p (seq 0 d) z).
Proof.
  intros Hwf HS E Hz.
  assert (G : forall l p, In (l, p) ls -> (within p (seq 0 d) z <-> predict_leaf t z no_missing = Some l)).
  { intros l p Hl. rewrite <- in_sides_within, <- (sides_all d p Sv z HS). eapply row_leaf; eassumption. }
  split.
  - intros l p Hl. rewrite (G l p Hl). pose proof (wf_pos t d Hwf) as H0.
    destruct (explore_leaf t d Hwf x Sv _ _ _ _ H0 E l p Hl) as [_ L]. split.
    + intro W. apply (walk_visits t z no_missing _ _ _ (vis_root t z no_missing) W).
    + intro V. now apply (visited_leaf_predicted t d Hwf z no_missing l V).
  - intro H. destruct (row_section t d x Sv ls Hwf E z Hz) as [l [p [H1 H2]]].
    { intros l p Hl. apply in_sides_within. eauto. }
    exists l, p. split; [trivial|]. now apply (G l p H1).
Qed.
Lemma single_column fx tx Sv data x ts : cond_sdp_forest fx tx 1 Sv data x ts = None.
Proof. destruct ts; reflexivity. Qed.
Lemma clf_full c d Sv data x ts : length Sv = d -> cond_sdp_forest_clf c d Sv data x ts = Some (Some 1%Q).
Proof. intros <-. unfold cond_sdp_forest_clf. now rewrite Nat.eqb_refl. Qed.
Lemma near_leaf fx tx t d z v : wf_tree t d = true -> leaf_value t z no_missing v ->
  (near fx tx t z = true <-> ((v - fx) * (v - fx) <= tx)%Q).
Proof.
  intros Hwf [l [V [L ->]]]. unfold near, predict_value.
  rewrite (proj1 (visited_leaf_predicted t d Hwf z no_missing l V) L). apply qleb_true.
Qed.
Lemma certain_statement fx tx d Sv data x ts q : (forall t, In t ts -> wf_tree t d = true) -> Sv <> [] ->
  cond_sdp_forest fx tx d Sv data x ts = Some (Some q) ->
  ((forall t z v, In t ts -> In z data -> leaf_value t z no_missing v -> ((v - fx) * (v - fx) <= tx)%Q) -> (q == 1)%Q) /\
  ((forall t z v, In t ts -> In z data -> leaf_value t z no_missing v -> (tx < (v - fx) * (v - fx))%Q) -> (q == 0)%Q).
Proof.
  intros Hwf HS H. split; intro K.
  - eapply certain_close; [exact HS| |exact H]. intros t z Ht Hz.
    destruct (leaf_value_total t d z no_missing (Hwf t Ht)) as [v V]. apply (near_leaf fx tx t d z v); eauto.
  - eapply certain_far; [exact HS| |exact H]. intros t z Ht Hz.
    destruct (leaf_value_total t d z no_missing (Hwf t Ht)) as [v V].
    destruct (near fx tx t z) eqn:N; [|reflexivity]. apply (near_leaf fx tx t d z v (Hwf t Ht) V) in N.
    specialize (K t z v Ht Hz V). lra.
Qed.

(** Proofs about the rule helpers. *)
From Verif Require Import Base RfModel RulesModel RulesSpec SearchProofs.

Lemma wider_sub d a b : wider d b a -> subrule d a b.
Proof. intros H x Hx k Hk. specialize (H k Hk). specialize (Hx k Hk). lra. Qed.
Lemma wider_refl d a : wider d a a.
Proof. intros k _. lra. Qed.
Lemma wider_trans d a b c : wider d a b -> wider d b c -> wider d a c.
Proof. intros H1 H2 k Hk. specialize (H1 k Hk). specialize (H2 k Hk). lra. Qed.

(** ** Neighbours *)
Lemma find_nbor_spec a b Sv k (s : bool) : In (k, s) (find_nbor a b Sv) ->
  In k Sv /\ (if s then hi a k == lo b k else lo a k == hi b k)%Q.
Proof.
  induction Sv as [|j r IH]; cbn; [tauto|].
  destruct (qeqb_spec (lo a j) (hi b j)) as [E|E].
  - intros [H|H]; [injection H as <- <-; auto|]. apply IH in H. tauto.
  - destruct (qeqb_spec (hi a j) (lo b j)) as [E'|E'].
    + intros [H|H]; [injection H as <- <-; auto|]. apply IH in H. tauto.
    + intro H. apply IH in H. tauto.
Qed.
Lemma find_nbor_axes a b Sv k : In k (map fst (find_nbor a b Sv)) <-> In k Sv /\ touch a b k.
Proof.
  unfold touch. fold (lo a k) (hi b k) (hi a k) (lo b k).
  induction Sv as [|j r IH]; cbn; [tauto|].
  destruct (qeqb_spec (lo a j) (hi b j)) as [E|E]; cbn.
  { rewrite IH. split; [intros [<-|[]]; tauto|]. intros [[<-|H] K]; tauto. }
  destruct (qeqb_spec (hi a j) (lo b j)) as [E'|E']; cbn; rewrite IH.
  { split; [intros [<-|[]]; tauto|]. intros [[<-|H] K]; tauto. }
  split; [tauto|]. intros [[<-|H] K]; tauto.
Qed.

Definition extended (b : rule) (ax : list (nat * bool)) (a : rule) : rule :=
  fold_left (fun r p => set_bound r (fst p) (snd p) (if snd p then hi b (fst p) else lo b (fst p))) ax a.

Lemma set_bound_other r k s v j : j <> k -> set_bound r k s v j = r j.
Proof. unfold set_bound. apply upd_other. Qed.

Lemma set_bound_lo r k s v j : lo (set_bound r k s v) j = if (j =? k) && negb s then v else lo r j.
Proof.
  unfold set_bound, lo. destruct (Nat.eqb_spec j k) as [->|H]; [rewrite upd_same|now rewrite upd_other].
  now destruct s.
Qed.
Lemma set_bound_hi r k s v j : hi (set_bound r k s v) j = if (j =? k) && s then v else hi r j.
Proof.
  unfold set_bound, hi. destruct (Nat.eqb_spec j k) as [->|H]; [rewrite upd_same|now rewrite upd_other].
  now destruct s.
Qed.

Lemma extended_other b ax a k : ~ In k (map fst ax) -> extended b ax a k = a k.
Proof.
  unfold extended. revert a. induction ax as [|[j s] r IH]; cbn; intros a H; [reflexivity|].
  rewrite IH by tauto. apply set_bound_other. intro; apply H; now left.
Qed.
(** each bound is that of [a] or that of [b]; the latter only on a touching side *)
Lemma extended_bound b ax a k :
  (lo (extended b ax a) k = lo a k \/ (lo (extended b ax a) k = lo b k /\ In (k, false) ax)) /\
  (hi (extended b ax a) k = hi a k \/ (hi (extended b ax a) k = hi b k /\ In (k, true) ax)).
Proof.
  unfold extended. revert a. induction ax as [|[j s] r IH]; cbn; intro a; [tauto|].
  specialize (IH (set_bound a j s (if s then hi b j else lo b j))).
  rewrite set_bound_lo, set_bound_hi in IH.
  destruct (Nat.eqb_spec k j) as [->|Hk]; destruct s; cbn in IH; tauto.
Qed.
Lemma extended_covers b ax a k (s : bool) : In (k, s) ax ->
  (if s then hi (extended b ax a) k = hi b k else lo (extended b ax a) k = lo b k).
Proof.
  unfold extended. revert a. induction ax as [|[j t] r IH]; cbn; intros a H; [tauto|].
  assert (D : {In (k, s) r} + {~ In (k, s) r}) by (apply in_dec; decide equality; [apply Bool.bool_dec|apply Nat.eq_dec]).
  destruct D as [I|I]; [now apply IH|].
  destruct H as [H|H]; [|tauto]. injection H as -> ->.
  pose proof (extended_bound b r (set_bound a k s (if s then hi b k else lo b k)) k) as [H1 H2].
  rewrite set_bound_lo in H1. rewrite set_bound_hi in H2. rewrite Nat.eqb_refl in *. unfold extended in *.
  destruct s; cbn in *; tauto.
Qed.

Lemma extend_rec_cases a b Sv ax :
  extend_rec a b Sv ax = a \/
  (extend_rec a b Sv ax = extended b ax a /\
   forall k, In k Sv -> ~ In k (map fst ax) -> ~ ((lo a k < lo b k)%Q /\ (hi a k <= hi b k)%Q)).
Proof.
  unfold extend_rec. destruct (existsb _ Sv) eqn:E; [now left|right]. split; [reflexivity|].
  intros k Hk Hn [H1 H2].
  assert (X : existsb (fun k => negb (memb k (map fst ax)) && blocked a b k) Sv = true).
  { apply existsb_exists. exists k. split; [exact Hk|]. apply andb_true_intro. split.
    - apply negb_true_iff. now apply memb_false.
    - unfold blocked. apply andb_true_intro. split; [apply negb_true_iff; now apply qleb_false|now apply qleb_true]. }
  congruence.
Qed.
Lemma extend_rec_wider a b Sv d : proper Sv b -> wider d (extend_rec a b Sv (find_nbor a b Sv)) a.
Proof.
  intros Hp. destruct (extend_rec_cases a b Sv (find_nbor a b Sv)) as [->|[-> _]]; [apply wider_refl|].
  intros k _. destruct (extended_bound b (find_nbor a b Sv) a k) as [H1 H2].
  fold (lo (extended b (find_nbor a b Sv) a) k) (hi (extended b (find_nbor a b Sv) a) k) (lo a k) (hi a k).
  split.
  - destruct H1 as [->|[-> I]]; [lra|]. apply find_nbor_spec in I. destruct I as [I E]. specialize (Hp k I).
    unfold lo, hi in *. lra.
  - destruct H2 as [->|[-> I]]; [lra|]. apply find_nbor_spec in I. destruct I as [I E]. specialize (Hp k I).
    unfold lo, hi in *. lra.
Qed.
Lemma extend_rec_other a b Sv k : ~ In k Sv -> extend_rec a b Sv (find_nbor a b Sv) k = a k.
Proof.
  intro H. destruct (extend_rec_cases a b Sv (find_nbor a b Sv)) as [->|[-> _]]; [reflexivity|].
  apply extended_other. rewrite find_nbor_axes. tauto.
Qed.
Lemma union_covers a b Sv d : proper Sv a -> proper Sv b ->
  (forall k, k < d -> ~ (In k Sv /\ touch a b k) -> (fst (a k) <= fst (b k))%Q /\ (snd (b k) <= snd (a k))%Q) ->
  let u := extend_rec a b Sv (find_nbor a b Sv) in
  subrule d a u /\ (u = a \/ subrule d b u).
Proof.
  intros Ha Hb Hin u. split; [now apply wider_sub, extend_rec_wider|].
  pose proof (extend_rec_wider a b Sv d Hb) as W. fold u in W.
  destruct (extend_rec_cases a b Sv (find_nbor a b Sv)) as [E|[E _]]; [now left|right]. fold u in E.
  apply wider_sub. intros k Hk. specialize (W k Hk).
  destruct (in_dec Nat.eq_dec k (map fst (find_nbor a b Sv))) as [I|I].
  - apply in_map_iff in I. destruct I as [[k' s] [<- I]]. cbn in *.
    pose proof (extended_covers b (find_nbor a b Sv) a k' s I) as C. rewrite <- E in C.
    apply find_nbor_spec in I. destruct I as [I T]. specialize (Ha _ I). specialize (Hb _ I).
    unfold lo, hi in *. destruct s; rewrite C in *; lra.
  - rewrite find_nbor_axes in I. specialize (Hin k Hk I). lra.
Qed.
Lemma union_only a b Sv d k0 s : find_nbor a b Sv = [(k0, s)] ->
  (forall k, k < d -> k <> k0 -> (fst (b k) <= fst (a k))%Q /\ (snd (a k) <= snd (b k))%Q) ->
  forall x, inside d (extend_rec a b Sv (find_nbor a b Sv)) x -> inside d a x \/ inside d b x.
Proof.
  intros Hn Hw x. assert (I : In (k0, s) (find_nbor a b Sv)) by (rewrite Hn; now left).
  apply find_nbor_spec in I. destruct I as [_ T].
  destruct (extend_rec_cases a b Sv (find_nbor a b Sv)) as [->|[-> _]]; [now left|]. rewrite Hn. intro Hx.
  assert (O : forall k, k < d -> k <> k0 -> (fst (a k) <= x k <= snd (a k))%Q).
  { intros k Hk N. specialize (Hx k Hk). rewrite extended_other in Hx; [exact Hx|]. cbn. intros [H|[]]; auto. }
  destruct (le_lt_dec d k0) as [L|L].
  { left. intros k Hk. apply O; [exact Hk|lia]. }
  pose proof (Hx k0 L) as H0. cbn in H0. fold (lo (set_bound a k0 s (if s then hi b k0 else lo b k0)) k0) in H0.
  fold (hi (set_bound a k0 s (if s then hi b k0 else lo b k0)) k0) in H0.
  rewrite set_bound_lo, set_bound_hi, Nat.eqb_refl in H0. unfold lo, hi in *.
  assert (B : forall k, k < d -> k <> k0 -> (fst (b k) <= x k <= snd (b k))%Q).
  { intros k Hk N. specialize (O k Hk N). specialize (Hw k Hk N). lra. }
  destruct s; cbn in H0.
  - destruct (Qlt_le_dec (snd (a k0)) (x k0)) as [C|C].
    + right. intros k Hk. destruct (Nat.eq_dec k k0) as [->|N]; [lra|now apply B].
    + left. intros k Hk. destruct (Nat.eq_dec k k0) as [->|N]; [lra|now apply O].
  - destruct (Qlt_le_dec (x k0) (fst (a k0))) as [C|C].
    + right. intros k Hk. destruct (Nat.eq_dec k k0) as [->|N]; [lra|now apply B].
    + left. intros k Hk. destruct (Nat.eq_dec k k0) as [->|N]; [lra|now apply O].
Qed.

(** ** Repeated merging *)
Lemma first_nbor_perm a l Sv b l' : first_nbor a l Sv = Some (b, l') -> Permutation l (b :: l').
Proof.
  revert b l'. induction l as [|c r IH]; cbn; intros b l' H; [discriminate|].
  destruct (find_nbor a c Sv).
  - destruct (first_nbor a r Sv) as [[e r']|] eqn:E; [|discriminate]. injection H as <- <-.
    rewrite (IH _ _ eq_refl). apply perm_swap.
  - injection H as <- <-. reflexivity.
Qed.
Lemma find_union_some n a l Sv : length l < n -> exists r, find_union_n n a l Sv = Some r.
Proof.
  revert a l. induction n as [|n IH]; intros a l H; [lia|]. cbn.
  destruct (first_nbor a l Sv) as [[b l']|] eqn:E; [|eauto]. apply IH.
  apply first_nbor_perm in E. apply Permutation_length in E. cbn in E. lia.
Qed.
Lemma find_union_inv Sv (P : rule -> Prop) n : forall a l r,
  (forall a b, In b l -> P a -> P (extend_rec a b Sv (find_nbor a b Sv))) ->
  P a -> find_union_n n a l Sv = Some r -> P r.
Proof.
  induction n as [|n IH]; intros a l r Hs Ha H; [discriminate|]. cbn in H.
  destruct (first_nbor a l Sv) as [[b l']|] eqn:E; [|now injection H as <-].
  apply first_nbor_perm in E.
  assert (I : forall c, In c (b :: l') -> In c l) by (intros c; apply Permutation_in; now symmetry).
  refine (IH _ l' r _ _ H); [|apply Hs; [apply I; now left|exact Ha]].
  intros a' b' Hb'. apply Hs. apply I. now right.
Qed.
Lemma find_union_defined a l Sv : exists r, find_union a l Sv = Some r.
Proof. apply find_union_some. lia. Qed.
Lemma find_union_wider a l Sv r d : (forall b, In b l -> proper Sv b) -> find_union a l Sv = Some r -> wider d r a.
Proof.
  intros Hp. apply (find_union_inv Sv (fun r => wider d r a)); [|apply wider_refl].
  intros c b Hb H. eapply wider_trans; [apply extend_rec_wider; now apply Hp|exact H].
Qed.
Lemma find_union_other a l Sv r k : ~ In k Sv -> find_union a l Sv = Some r -> r k = a k.
Proof.
  intro Hk. apply (find_union_inv Sv (fun r => r k = a k)); [|reflexivity].
  intros c b Hb <-. now apply extend_rec_other.
Qed.
Lemma find_union_bounds a l Sv r k : find_union a l Sv = Some r ->
  (exists b, In b (a :: l) /\ fst (r k) = fst (b k)) /\ (exists b, In b (a :: l) /\ snd (r k) = snd (b k)).
Proof.
  apply (find_union_inv Sv (fun r =>
    (exists b, In b (a :: l) /\ lo r k = lo b k) /\ (exists b, In b (a :: l) /\ hi r k = hi b k))).
  - intros c b Hb [H1 H2]. destruct (extend_rec_cases c b Sv (find_nbor c b Sv)) as [->|[-> _]]; [tauto|].
    destruct (extended_bound b (find_nbor c b Sv) c k) as [E1 E2]. split.
    + destruct E1 as [->|[-> _]]; [exact H1|]. exists b. cbn; tauto.
    + destruct E2 as [->|[-> _]]; [exact H2|]. exists b. cbn; tauto.
  - split; exists a; cbn; auto.
Qed.
Lemma extended_partition rules rules_data sdp_all M pi Ss i d :
  (forall j, j < M -> proper (Ss i) (rules_data i j)) ->
  exists r, extend_partition rules rules_data sdp_all M pi Ss i = Some r /\ subrule d (rules i) r /\
    (forall k, ~ In k (Ss i) -> r k = rules i k) /\
    forall k, (fst (r k) = fst (rules i k) \/ exists j, j < M /\ (pi <= sdp_all i j)%Q /\ fst (r k) = fst (rules_data i j k)) /\
              (snd (r k) = snd (rules i k) \/ exists j, j < M /\ (pi <= sdp_all i j)%Q /\ snd (r k) = snd (rules_data i j k)).
Proof.
  intro Hp. unfold extend_partition. set (l := map _ _).
  assert (L : forall b, In b l -> exists j, j < M /\ (pi <= sdp_all i j)%Q /\ b = rules_data i j).
  { intros b Hb. apply in_map_iff in Hb. destruct Hb as [j [<- Hj]]. apply filter_In in Hj. destruct Hj as [H1 H2].
    apply in_seq in H1. apply qleb_true in H2. exists j. repeat split; [lia|exact H2]. }
  destruct (find_union_defined (rules i) l (Ss i)) as [r Hr]. exists r. split; [exact Hr|]. split; [|split].
  - apply wider_sub. apply (find_union_wider (rules i) l (Ss i) r d); [|exact Hr].
    intros b Hb. destruct (L b Hb) as [j [Hj [_ ->]]]. now apply Hp.
  - intros k Hk. now apply (find_union_other _ _ _ _ _ Hk Hr).
  - intro k. destruct (find_union_bounds _ _ _ _ k Hr) as [[b [Hb E]] [b' [Hb' E']]]. split.
    + destruct Hb as [<-|Hb]; [now left|right]. destruct (L b Hb) as [j [H1 [H2 ->]]]. eauto.
    + destruct Hb' as [<-|Hb2]; [now left|right]. destruct (L b' Hb2) as [j [H1 [H2 ->]]]. eauto.
Qed.

(** ** Distinct sorted rows *)
Lemma qlist_cmp_eq a b : qlist_cmp a b = Eq <-> Forall2 Qeq a b.
Proof.
  revert b. induction a as [|x r IH]; destruct b as [|y s]; cbn.
  - split; auto.
  - split; [discriminate|]. intro H. inversion H.
  - split; [discriminate|]. intro H. inversion H.
  - destruct (qltb_spec x y); [split; [discriminate|]; intro H; inversion H; subst; exfalso; lra|].
    destruct (qltb_spec y x); [split; [discriminate|]; intro H; inversion H; subst; exfalso; lra|].
    rewrite IH. split; intro H; [constructor; [lra|exact H]|now inversion H].
Qed.
Lemma qlist_cmp_lt_trans a b c : qlist_cmp a b = Lt -> qlist_cmp b c = Lt -> qlist_cmp a c = Lt.
Proof.
  revert b c. induction a as [|x r IH]; destruct b as [|y s]; destruct c as [|z t]; cbn; try discriminate; auto.
  destruct (qltb_spec x y).
  - intros _. destruct (qltb_spec y z); destruct (qltb_spec x z); auto; try (exfalso; lra).
    destruct (qltb_spec z y); [discriminate|]. exfalso; lra.
  - destruct (qltb_spec y x); [discriminate|]. intro H.
    destruct (qltb_spec y z); destruct (qltb_spec x z); auto; try (exfalso; lra).
    destruct (qltb_spec z y); [discriminate|]. destruct (qltb_spec z x); [exfalso; lra|]. now apply IH.
Qed.
Lemma qlist_cmp_opp a b : qlist_cmp b a = CompOpp (qlist_cmp a b).
Proof.
  revert b. induction a as [|x r IH]; destruct b as [|y s]; cbn; auto.
  destruct (qltb_spec x y), (qltb_spec y x); cbn; auto; try (exfalso; lra).
Qed.
Lemma flat_eq d a b : Forall2 Qeq (flat d a) (flat d b) <-> same_rule d a b.
Proof.
  unfold same_rule, flat. assert (G : forall i n, Forall2 Qeq (flat_map (fun k => [lo a k; hi a k]) (seq i n))
      (flat_map (fun k => [lo b k; hi b k]) (seq i n)) <->
      forall k, i <= k < i + n -> (fst (a k) == fst (b k))%Q /\ (snd (a k) == snd (b k))%Q).
  { intros i n. revert i. induction n as [|n IH]; intro i; cbn.
    - split; [intros _ k H; lia|constructor].
    - split.
      + intros H k Hk. inversion H as [|? ? ? ? H1 H2]; subst. inversion H2 as [|? ? ? ? H3 H4]; subst.
        destruct (Nat.eq_dec k i) as [->|N]; [unfold lo, hi in *; auto|]. apply (proj1 (IH (S i)) H4). lia.
      + intro H. constructor; [apply (H i); lia|]. constructor; [apply (H i); lia|].
        apply IH. intros k Hk. apply H. lia. }
  rewrite G. split; intros H k Hk; apply H; lia.
Qed.
Lemma rule_cmp_eq d a b : rule_cmp d a b = Eq <-> same_rule d a b.
Proof. unfold rule_cmp. now rewrite qlist_cmp_eq, flat_eq. Qed.

Section Unique.
Context {A : Type} (cmp : A -> A -> comparison).
Lemma uinsert_in a l b : In b (uinsert cmp a l) -> b = a \/ In b l.
Proof.
  induction l as [|c r IH]; cbn; [intuition|]. destruct (cmp a c); cbn; intuition.
Qed.
Lemma uinsert_keep a l b : In b l -> In b (uinsert cmp a l).
Proof.
  induction l as [|c r IH]; cbn; [tauto|]. destruct (cmp a c); cbn; intuition.
Qed.
Lemma uinsert_self a l : exists b, In b (uinsert cmp a l) /\ (b = a \/ cmp a b = Eq).
Proof.
  induction l as [|c r IH]; cbn; [exists a; auto|]. destruct (cmp a c) eqn:E.
  - exists c; cbn; auto.
  - exists a; cbn; auto.
  - destruct IH as [b [H1 H2]]. exists b; cbn; auto.
Qed.
Lemma unique_in l b : In b (unique cmp l) -> In b l.
Proof.
  unfold unique. induction l as [|a r IH]; cbn; [tauto|]. intro H. apply uinsert_in in H. destruct H as [->|H]; auto.
Qed.
Lemma unique_covers l a : In a l -> exists b, In b (unique cmp l) /\ (b = a \/ cmp a b = Eq).
Proof.
  unfold unique. induction l as [|c r IH]; cbn; [tauto|]. intros [->|H]; [apply uinsert_self|].
  destruct (IH H) as [b [H1 H2]]. exists b. split; [now apply uinsert_keep|exact H2].
Qed.
Hypothesis trans : forall a b c, cmp a b = Lt -> cmp b c = Lt -> cmp a c = Lt.
Hypothesis opp : forall a b, cmp b a = CompOpp (cmp a b).
Lemma uinsert_sorted a l : ForallOrdPairs (fun a b => cmp a b = Lt) l -> ForallOrdPairs (fun a b => cmp a b = Lt) (uinsert cmp a l).
Proof using trans opp.
  induction 1 as [|c r Hc Hr IH]; cbn; [repeat constructor|].
  destruct (cmp a c) eqn:E; [now constructor| |].
  - constructor; [|now constructor]. constructor; [exact E|]. apply Forall_forall. intros b Hb.
    rewrite Forall_forall in Hc. eapply trans; [exact E|now apply Hc].
  - constructor; [|exact IH]. apply Forall_forall. intros b Hb. apply uinsert_in in Hb. destruct Hb as [->|Hb].
    + rewrite opp, E. reflexivity.
    + rewrite Forall_forall in Hc. now apply Hc.
Qed.
Lemma unique_sorted l : ForallOrdPairs (fun a b => cmp a b = Lt) (unique cmp l).
Proof using trans opp. unfold unique. induction l; cbn; [constructor|now apply uinsert_sorted]. Qed.
End Unique.

Lemma same_inside d a b x : same_rule d a b -> inside d a x -> inside d b x.
Proof. intros H Hx k Hk. specialize (H k Hk). specialize (Hx k Hk). lra. Qed.
Lemma same_rule_refl d a : same_rule d a a.
Proof. intros k _. split; reflexivity. Qed.
Lemma unique_rule d l a : In a l -> exists b, In b (unique (rule_cmp d) l) /\ same_rule d a b.
Proof.
  intro H. destruct (unique_covers (rule_cmp d) l a H) as [b [H1 [->|H2]]].
  - exists a. split; [exact H1|apply same_rule_refl].
  - exists b. split; [exact H1|now apply rule_cmp_eq].
Qed.

(** ** Removing contained rules *)
Lemma contained_spec d a b : contained d a b = true <-> wider d b a.
Proof.
  unfold contained. rewrite forallb_forall. unfold wider. split; intros H k Hk.
  - specialize (H k ltac:(apply in_seq; lia)). apply andb_prop in H. destruct H as [H1 H2].
    apply qleb_true in H1. apply qleb_true in H2. unfold lo, hi in *. auto.
  - apply in_seq in Hk. specialize (H k ltac:(lia)). apply andb_true_intro. split; apply qleb_true; tauto.
Qed.
Definition grows (d n : nat) (ra0 ra : nat -> rule) : Prop :=
  (forall i, i < n -> wider d (ra i) (ra0 i)) /\ (forall i, i < n -> exists j, j < n /\ ra i = ra0 j).
Lemma absorb_grows d n ra0 ra i j : i < n -> j < n -> grows d n ra0 ra -> grows d n ra0 (absorb d i ra j).
Proof.
  intros Hi Hj [H1 H2]. unfold absorb. destruct (negb (i =? j) && contained d (ra i) (ra j)) eqn:E; [|now split].
  apply andb_prop in E. destruct E as [_ E]. apply contained_spec in E. split; intros k Hk.
  - destruct (Nat.eq_dec k i) as [->|N]; [rewrite upd_same|rewrite upd_other by exact N; auto].
    eapply wider_trans; [exact E|auto].
  - destruct (Nat.eq_dec k i) as [->|N]; [rewrite upd_same|rewrite upd_other by exact N]; auto.
Qed.
Lemma fold_inv {A B} (P : A -> Prop) (f : A -> B -> A) l a :
  (forall a b, In b l -> P a -> P (f a b)) -> P a -> P (fold_left f l a).
Proof.
  revert a. induction l as [|b r IH]; cbn; intros a H Ha; [exact Ha|].
  apply IH; [intros; apply H; auto|apply H; auto].
Qed.
Lemma absorb_all_grows d n ra : grows d n ra (absorb_all d n ra).
Proof.
  unfold absorb_all. apply fold_inv; [|split; [intros; apply wider_refl|eauto]].
  intros a i Hi Ha. apply in_seq in Hi. apply fold_inv; [|exact Ha].
  intros b j Hj Hb. apply in_seq in Hj. apply absorb_grows; [lia|lia|exact Hb].
Qed.
Lemma remove_in_covers d n ra i : i < n -> exists r, In r (remove_in d n ra) /\ wider d r (ra i).
Proof.
  intro Hi. destruct (absorb_all_grows d n ra) as [H1 _].
  destruct (unique_rule d (map (absorb_all d n ra) (seq 0 n)) (absorb_all d n ra i)) as [b [Hb E]].
  { apply in_map. apply in_seq. lia. }
  exists b. split; [exact Hb|]. specialize (H1 i Hi). intros k Hk. specialize (H1 k Hk). specialize (E k Hk). lra.
Qed.
Lemma remove_in_members d n ra r : In r (remove_in d n ra) -> exists i, i < n /\ r = ra i.
Proof.
  intro H. apply unique_in in H. apply in_map_iff in H. destruct H as [i [<- Hi]]. apply in_seq in Hi.
  destruct (proj2 (absorb_all_grows d n ra) i ltac:(lia)) as [j [Hj E]]. eauto.
Qed.
Lemma ordpairs_nth {A} (P : A -> A -> Prop) l d i j : ForallOrdPairs P l -> i < j -> j < length l -> P (nth i l d) (nth j l d).
Proof.
  intro H. revert i j. induction H as [|a l Ha Hl IH]; cbn; intros i j Hij Hj; [lia|].
  destruct j as [|j]; [lia|]. destruct i as [|i].
  - rewrite Forall_forall in Ha. apply Ha. apply nth_In. lia.
  - apply IH; lia.
Qed.
Lemma remove_in_distinct d n ra i j r0 : i < j -> j < length (remove_in d n ra) ->
  ~ same_rule d (nth i (remove_in d n ra) r0) (nth j (remove_in d n ra) r0).
Proof.
  intros Hij Hj H. apply rule_cmp_eq in H.
  pose proof (ordpairs_nth _ _ r0 i j (unique_sorted (rule_cmp d) (fun a b c => qlist_cmp_lt_trans _ _ _)
    (fun a b => qlist_cmp_opp _ _) (map (absorb_all d n ra) (seq 0 n))) Hij Hj) as K.
  cbn in K. unfold remove_in in H. rewrite H in K. discriminate.
Qed.
Lemma remove_in_maximal d n ra i : i < n ->
  (forall j, j < n -> wider d (ra j) (ra i) -> same_rule d (ra j) (ra i)) ->
  exists r, In r (remove_in d n ra) /\ same_rule d r (ra i).
Proof.
  intros Hi Hm. destruct (remove_in_covers d n ra i Hi) as [r [Hr W]]. exists r. split; [exact Hr|].
  destruct (remove_in_members _ _ _ _ Hr) as [j [Hj ->]]. auto.
Qed.

(** rules together with their probabilities *)
Lemma absorb_pair_fst d n (ra : nat -> rule * Q) : forall k,
  fst (fold_left (fun ra i => fold_left (absorb_pair d i) (seq 0 n) ra) (seq 0 n) ra k) =
  absorb_all d n (fun i => fst (ra i)) k.
Proof.
  unfold absorb_all. assert (I : forall i l (ra : nat -> rule * Q) (rb : nat -> rule),
     (forall k, fst (ra k) = rb k) -> forall k, fst (fold_left (absorb_pair d i) l ra k) = fold_left (absorb d i) l rb k).
  { intros i l. induction l as [|j r IH]; cbn; intros a b H k; [apply H|]. apply IH. intro k'.
    unfold absorb_pair, absorb. rewrite !H. destruct (negb (i =? j) && contained d (b i) (b j)); [|apply H].
    unfold upd. destruct (k' =? i); apply H. }
  assert (O : forall l (ra : nat -> rule * Q) (rb : nat -> rule),
     (forall k, fst (ra k) = rb k) -> forall k,
     fst (fold_left (fun ra i => fold_left (absorb_pair d i) (seq 0 n) ra) l ra k) =
     fold_left (fun ra i => fold_left (absorb d i) (seq 0 n) ra) l rb k).
  { induction l as [|j r IH]; cbn; intros a b H k; [apply H|]. apply IH. intro. now apply I. }
  intro k. now apply O.
Qed.
Lemma absorb_pair_members d n (ra : nat -> rule * Q) i : i < n ->
  exists j, j < n /\ fold_left (fun ra i => fold_left (absorb_pair d i) (seq 0 n) ra) (seq 0 n) ra i = ra j.
Proof.
  revert i. apply (fold_inv (fun out => forall i, i < n -> exists j, j < n /\ out i = ra j)); [|eauto].
  intros a i Hi Ha. apply (fold_inv (fun out => forall i, i < n -> exists j, j < n /\ out i = ra j)); [|exact Ha].
  intros b j Hj Hb. apply in_seq in Hj. unfold absorb_pair.
  destruct (negb (i =? j) && contained d (fst (b i)) (fst (b j))); [|exact Hb].
  intros k Hk. unfold upd. destruct (k =? i); apply Hb; lia.
Qed.
Lemma wsdp_rules d n ra : fst (remove_in_wsdp d n ra) = remove_in d n (fun i => fst (ra i)).
Proof.
  unfold remove_in_wsdp, remove_in. cbn. f_equal. apply map_ext_in. intros i _. apply absorb_pair_fst.
Qed.
Lemma wsdp_probs d n ra q : In q (snd (remove_in_wsdp d n ra)) -> exists i, i < n /\ q = snd (ra i).
Proof.
  intro H. apply unique_in in H. apply in_map_iff in H. destruct H as [i [<- Hi]]. apply in_seq in Hi.
  destruct (absorb_pair_members d n ra i ltac:(lia)) as [j [Hj ->]]. eauto.
Qed.

(** the version that deletes rows *)
Lemma remove_list_spec d n ra j : In j (remove_list d n ra) <->
  j < n /\ exists i, i < n /\ i <> j /\ wider d (ra j) (ra i).
Proof.
  unfold remove_list. rewrite in_flat_map. split.
  - intros [i [Hi H]]. apply filter_In in H. destruct H as [Hj H]. apply in_seq in Hi. apply in_seq in Hj.
    apply andb_prop in H. destruct H as [H1 H2]. apply negb_true_iff in H1. apply Nat.eqb_neq in H1.
    apply contained_spec in H2. split; [lia|]. exists i. split; [lia|split; [exact H1|exact H2]].
  - intros [Hj [i [Hi [N W]]]]. exists i. split; [apply in_seq; lia|]. apply filter_In. split; [apply in_seq; lia|].
    apply andb_true_intro. split; [apply negb_true_iff; now apply Nat.eqb_neq|now apply contained_spec].
Qed.
Lemma wsdp_cr_exact {W} d n ra sa (wa : nat -> W) :
  exists keep, remove_in_wsdp_cr d n ra sa wa = map (fun i => (ra i, sa i, wa i)) keep /\ NoDup keep /\
    forall j, In j keep <-> j < n /\ forall i, i < n -> i <> j -> ~ wider d (ra j) (ra i).
Proof.
  eexists. split; [reflexivity|]. split; [apply NoDup_filter, seq_NoDup|].
  intro j. rewrite filter_In, in_seq, negb_true_iff, memb_false, remove_list_spec. split.
  - intros [H1 H2]. split; [lia|]. intros i Hi N Wi. apply H2. split; [lia|]. eauto.
  - intros [H1 H2]. split; [lia|]. intros [_ [i [Hi [N Wi]]]]. now apply (H2 i).
Qed.
Lemma NoDup_incl_length_lt {A} (c : A) l l' : NoDup l -> incl l l' -> In c l' -> ~ In c l -> length l < length l'.
Proof.
  intros Hn Hi Hc Hnc. assert (H : length (c :: l) <= length l').
  { apply NoDup_incl_length; [now constructor|]. intros k [<-|Hk]; auto. }
  cbn in H. lia.
Qed.
(** without mutual inclusions every rule contains a kept one *)
Lemma minimal_exists d n (ra : nat -> rule) :
  (forall i j, i < n -> j < n -> i <> j -> wider d (ra i) (ra j) -> wider d (ra j) (ra i) -> False) ->
  forall i, i < n -> exists j, j < n /\ wider d (ra i) (ra j) /\ forall k, k < n -> k <> j -> ~ wider d (ra j) (ra k).
Proof.
  intro Hs.
  (* strong induction on the number of rules contained in rule i *)
  set (below i := filter (fun k => negb (k =? i) && contained d (ra k) (ra i)) (seq 0 n)).
  assert (B : forall i k, In k (below i) <-> k < n /\ k <> i /\ wider d (ra i) (ra k)).
  { intros i k. unfold below. rewrite filter_In, in_seq, andb_true_iff, negb_true_iff, Nat.eqb_neq, contained_spec.
    split; intros [H1 H2]; (split; [lia|tauto]). }
  assert (G : forall m i, i < n -> length (below i) <= m -> exists j, j < n /\ wider d (ra i) (ra j) /\
     forall k, k < n -> k <> j -> ~ wider d (ra j) (ra k)).
  { induction m as [|m IH]; intros i Hi Hl.
    - exists i. split; [exact Hi|]. split; [apply wider_refl|]. intros k Hk N W.
      assert (I : In k (below i)) by (apply B; auto). destruct (below i); [destruct I|cbn in Hl; lia].
    - destruct (below i) as [|c r] eqn:E.
      + apply (IH i Hi). rewrite E. cbn. lia.
      + assert (Hc : In c (below i)) by (rewrite E; now left). apply B in Hc. destruct Hc as [H1 [H2 H3]].
        destruct (IH c H1) as [j [Hj [W M]]].
        * assert (L : length (below c) < length (below i)).
          { apply (NoDup_incl_length_lt c); [apply NoDup_filter, seq_NoDup| | |].
            - intros k Hk. apply B in Hk. apply B. destruct Hk as [K1 [K2 K3]]. split; [exact K1|split].
              + intros ->. apply (Hs i c Hi H1); auto.
              + eapply wider_trans; eauto.
            - rewrite E. now left.
            - intro K. apply B in K. tauto. }
          rewrite E in L. cbn in *. lia.
        * exists j. split; [exact Hj|]. split; [eapply wider_trans; eauto|exact M]. }
  intros i Hi. now apply (G (length (below i)) i).
Qed.

(** ** The kept rules are maximal *)
Lemma absorb_pass d n i ra0 : i < n -> forall l ra done,
  (forall k, k <> i -> ra k = ra0 k) -> (forall j, In j (done ++ l) -> j < n) ->
  (exists k, k < n /\ ra i = ra0 k) ->
  (forall j, In j done -> j <> i -> wider d (ra i) (ra0 j) \/ ~ wider d (ra0 j) (ra i)) ->
  let ra' := fold_left (absorb d i) l ra in
  (forall k, k <> i -> ra' k = ra0 k) /\ (exists k, k < n /\ ra' i = ra0 k) /\
  (forall j, In j (done ++ l) -> j <> i -> wider d (ra' i) (ra0 j) \/ ~ wider d (ra0 j) (ra' i)).
Proof.
  intro Hi. induction l as [|j l IH]; intros ra done Ho Hl Hk Hd; cbn.
  - rewrite app_nil_r. auto.
  - replace (done ++ j :: l) with ((done ++ [j]) ++ l) in * by (rewrite <- app_assoc; reflexivity).
    apply IH; auto; clear IH; unfold absorb.
    + intros k K. destruct (negb (i =? j) && contained d (ra i) (ra j)); [rewrite upd_other by exact K|]; auto.
    + destruct (negb (i =? j) && contained d (ra i) (ra j)) eqn:E; [|exact Hk]. rewrite upd_same.
      apply andb_prop in E. destruct E as [E _]. apply negb_true_iff, Nat.eqb_neq in E.
      exists j. split; [|apply Ho; auto]. apply Hl. apply in_or_app. left. apply in_or_app. right. now left.
    + intros k Hk' Hki. destruct (Nat.eqb_spec i j) as [<-|E]; cbn [negb andb].
      { apply in_app_or in Hk'. destruct Hk' as [H|[H|[]]]; [now apply Hd|congruence]. }
      destruct (contained d (ra i) (ra j)) eqn:C.
      * rewrite upd_same. apply contained_spec in C. rewrite (Ho j) in * by auto.
        apply in_app_or in Hk'. destruct Hk' as [H|[H|[]]].
        -- destruct (Hd k H Hki) as [D|D]; [left; eapply wider_trans; eauto|].
           right. intro K. apply D. eapply wider_trans; eauto.
        -- subst k. left. apply wider_refl.
      * apply in_app_or in Hk'. destruct Hk' as [H|[H|[]]]; [now apply Hd|]. subst k. right.
        intro K. rewrite <- (Ho j) in K by auto. apply contained_spec in K. congruence.
Qed.
Definition topmost (d n : nat) (ra : nat -> rule) (k : nat) : Prop :=
  forall j, j < n -> wider d (ra j) (ra k) -> wider d (ra k) (ra j).
Lemma absorb_all_top d n : forall l done ra,
  (forall j, In j (done ++ l) -> j < n) -> (forall k, In k done -> topmost d n ra k) ->
  forall k, In k (done ++ l) -> topmost d n (fold_left (fun ra i => fold_left (absorb d i) (seq 0 n) ra) l ra) k.
Proof.
  induction l as [|i l IH]; intros done ra Hl Hd k Hk; cbn.
  - rewrite app_nil_r in Hk. auto.
  - replace (done ++ i :: l) with ((done ++ [i]) ++ l) in * by (rewrite <- app_assoc; reflexivity).
    apply IH with (done := done ++ [i]); auto. clear IH k Hk. intros k Hk.
    assert (Hi : i < n) by (apply Hl; apply in_or_app; left; apply in_or_app; right; now left).
    destruct (absorb_pass d n i ra Hi (seq 0 n) ra []) as [P1 [[m [Hm P2]] P3]]; auto.
    + intros j Hj. apply in_seq in Hj. lia.
    + exists i. split; [exact Hi|reflexivity].
    + set (ra' := fold_left (absorb d i) (seq 0 n) ra) in *. cbn [app] in P3.
      intros j Hj W. destruct (Nat.eq_dec k i) as [->|Nk].
      * destruct (Nat.eq_dec j i) as [->|Nj]; [apply wider_refl|]. rewrite (P1 j Nj) in *.
        destruct (P3 j) as [H|H]; auto; [apply in_seq; lia|contradiction].
      * apply in_app_or in Hk. destruct Hk as [Hk|[Hk|[]]]; [|congruence]. rewrite (P1 k Nk) in *.
        destruct (Nat.eq_dec j i) as [->|Nj]; [rewrite P2 in *; now apply (Hd k Hk m)|].
        rewrite (P1 j Nj) in *. now apply (Hd k Hk j).
Qed.
Lemma wider_antisym d a b : wider d a b -> wider d b a -> same_rule d a b.
Proof. intros H1 H2 k Hk. specialize (H1 k Hk). specialize (H2 k Hk). split; lra. Qed.
Lemma remove_in_antichain d n ra r s : In r (remove_in d n ra) -> In s (remove_in d n ra) ->
  wider d r s -> same_rule d r s.
Proof.
  intros Hr Hs W. apply unique_in in Hr. apply unique_in in Hs. apply in_map_iff in Hr. apply in_map_iff in Hs.
  destruct Hr as [i [<- Hi]]. destruct Hs as [j [<- Hj]]. apply wider_antisym; [exact W|].
  apply in_seq in Hi. apply in_seq in Hj.
  apply (absorb_all_top d n (seq 0 n) [] ra); [intros k Hk; apply in_seq in Hk; lia|intros k []|apply in_seq; lia|lia|exact W].
Qed.
Lemma remove_in_points d n ra x :
  (exists i, i < n /\ inside d (ra i) x) <-> (exists r, In r (remove_in d n ra) /\ inside d r x).
Proof.
  split.
  - intros [i [Hi Hx]]. destruct (remove_in_covers d n ra i Hi) as [r [Hr W]]. exists r. split; [exact Hr|].
    now apply (wider_sub d (ra i) r W).
  - intros [r [Hr Hx]]. destruct (remove_in_members _ _ _ _ Hr) as [i [Hi ->]]. eauto.
Qed.
(** exactly the maximal rules are kept *)
Lemma remove_in_exact d n ra i : i < n ->
  ((exists r, In r (remove_in d n ra) /\ same_rule d r (ra i)) <->
   forall j, j < n -> wider d (ra j) (ra i) -> same_rule d (ra j) (ra i)).
Proof.
  intro Hi. split; [|now apply remove_in_maximal]. intros [r [Hr E]] j Hj W.
  destruct (remove_in_covers d n ra j Hj) as [s [Hs Ws]].
  assert (Wsr : wider d s r).
  { intros k Hk. specialize (E k Hk). specialize (W k Hk). specialize (Ws k Hk). lra. }
  pose proof (remove_in_antichain d n ra s r Hs Hr Wsr) as K.
  intros k Hk. specialize (E k Hk). specialize (W k Hk). specialize (Ws k Hk). specialize (K k Hk). lra.
Qed.
Lemma wsdp_constant d n (ra : nat -> rule * Q) p : 0 < n -> (forall i, i < n -> snd (ra i) = p) ->
  snd (remove_in_wsdp d n ra) = [p].
Proof.
  intros Hn Hp. unfold remove_in_wsdp. cbn [snd]. set (out := fold_left _ _ ra).
  assert (E : forall i, i < n -> snd (out i) = p).
  { intros i Hi. destruct (absorb_pair_members d n ra i Hi) as [j [Hj K]]. fold out in K. rewrite K. auto. }
  assert (G : forall l, (forall i, In i l -> snd (out i) = p) -> l <> [] -> unique q_cmp (map (fun i => snd (out i)) l) = [p]).
  { induction l as [|a r IH]; intros H Hne; [congruence|]. cbn [map unique fold_right]. rewrite (H a) by now left.
    destruct r as [|b r]; [reflexivity|]. change (uinsert q_cmp p (unique q_cmp (map (fun i => snd (out i)) (b :: r))) = [p]).
    rewrite IH; [|intros; apply H; now right|discriminate]. cbn. destruct (qltb_spec p p); [exfalso; lra|reflexivity]. }
  apply G; [intros i Hi; apply E; apply in_seq in Hi; lia|]. destruct n; [lia|discriminate].
Qed.

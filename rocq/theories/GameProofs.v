(** Textbook facts about Shapley values: efficiency, null players, orders. *)
From Verif Require Import Base GameSpec.
From Coq Require Import Setoid Morphisms.

Section Game.
Context {A : Type}.
Variable eqd : forall a b : A, {a = b} + {a <> b}.
Notation remove := (remove eqd).
Notation shapley := (shapley eqd).
Implicit Types (l T U : list A) (v g f : list A -> Q).

Lemma sumf_subs_cons f a l :
  (sumf f (subs (a :: l)) == sumf f (subs l) + sumf (fun T => f (a :: T)) (subs l))%Q.
Proof. cbn [subs]. rewrite sumf_app, sumf_map. reflexivity. Qed.

Lemma subs_length l T : In T (subs l) -> length T <= length l.
Proof.
  revert T. induction l as [|a l IH]; intros T H; cbn in H.
  - destruct H as [<-|[]]. cbn. lia.
  - apply in_app_or in H. destruct H as [H|H]; [apply IH in H; cbn; lia|].
    apply in_map_iff in H. destruct H as [U [<- H]]. apply IH in H. cbn. lia.
Qed.
Lemma subs_incl l T : In T (subs l) -> incl T l.
Proof.
  revert T. induction l as [|a l IH]; intros T H; cbn in H.
  - destruct H as [<-|[]]. intros ? [].
  - apply in_app_or in H. destruct H as [H|H]; [apply IH in H; now apply incl_tl|].
    apply in_map_iff in H. destruct H as [U [<- H]]. apply IH in H.
    intros b [->|Hb]; [now left|right; auto].
Qed.
Lemma subs_NoDup l T : NoDup l -> In T (subs l) -> NoDup T.
Proof.
  intro Hd. revert T. induction Hd as [|a l Hn Hd IH]; intros T H; cbn in H.
  - destruct H as [<-|[]]. constructor.
  - apply in_app_or in H. destruct H as [H|H]; [auto|].
    apply in_map_iff in H. destruct H as [U [<- H]]. constructor; [|auto].
    intro Ha. apply Hn. eapply subs_incl; eassumption.
Qed.
Lemma subs_all l : In l (subs l).
Proof.
  induction l as [|a l IH]; cbn; [now left|]. apply in_or_app. right.
  now apply in_map.
Qed.
Lemma subs_nil l : In [] (subs l).
Proof. induction l as [|a l IH]; cbn; [now left|]. apply in_or_app. now left. Qed.
Lemma length_subs l : length (subs l) = 2 ^ length l.
Proof. induction l as [|a l IH]; cbn; [reflexivity|]. rewrite app_length, map_length, IH. lia. Qed.

Lemma sumf_subs_ext f g l :
  (forall T, incl T l -> (f T == g T)%Q) -> (sumf f (subs l) == sumf g (subs l))%Q.
Proof. intro H. apply sumf_ext. intros T HT. apply H. now apply subs_incl. Qed.

Lemma sumf_subs_perm f l l' : is_game f -> Permutation l l' ->
  (sumf f (subs l) == sumf f (subs l'))%Q.
Proof.
  intros Hf Hp. revert f Hf. induction Hp as [|a l l' Hp IH|a b l|l l' l'' H1 IH1 H2 IH2]; intros f Hf.
  - reflexivity.
  - rewrite !sumf_subs_cons, (IH f Hf), (IH (fun T => f (a :: T))); [reflexivity|].
    intros T U H. apply Hf. now constructor.
  - rewrite !sumf_subs_cons.
    rewrite (sumf_ext (fun T => f (b :: a :: T)) (fun T => f (a :: b :: T)));
    [|intros; apply Hf, perm_swap]. lra.
  - rewrite (IH1 f Hf). now apply IH2.
Qed.

Lemma is_game_cons v a : is_game v -> is_game (fun T => v (a :: T)).
Proof. intros H T U P. apply H. now constructor. Qed.

Lemma remove_not_in a l : ~ In a l -> remove a l = l.
Proof. apply notin_remove. Qed.
Lemma remove_head a l : ~ In a l -> remove a (a :: l) = l.
Proof. intro H. cbn. destruct (eqd a a); [|congruence]. now apply remove_not_in. Qed.
Lemma remove_tail a b l : a <> b -> remove b (a :: l) = a :: remove b l.
Proof. intro H. cbn. destruct (eqd b a); congruence. Qed.
Lemma remove_NoDup a l : NoDup l -> NoDup (remove a l).
Proof.
  induction 1 as [|b l Hn Hd IH]; cbn; [constructor|].
  destruct (eqd a b); [trivial|]. constructor; [|trivial].
  intro H. apply Hn. now apply in_remove in H.
Qed.
Lemma remove_length a l : NoDup l -> In a l -> S (length (remove a l)) = length l.
Proof.
  induction 1 as [|b l Hn Hd IH]; intro Hi; [contradiction|].
  destruct (eqd b a) as [->|Hne].
  - now rewrite remove_head.
  - rewrite remove_tail by trivial. cbn. rewrite IH; [reflexivity|].
    destruct Hi; [contradiction|trivial].
Qed.
Lemma remove_perm_cons a l : NoDup l -> In a l -> Permutation l (a :: remove a l).
Proof.
  induction 1 as [|b l Hn Hd IH]; intro Hi; [contradiction|].
  destruct (eqd b a) as [->|Hne].
  - now rewrite remove_head.
  - rewrite remove_tail by trivial. destruct Hi as [->|Hi]; [contradiction|].
    rewrite perm_swap. now constructor; apply IH.
Qed.
Lemma remove_perm a l l' : Permutation l l' -> Permutation (remove a l) (remove a l').
Proof.
  induction 1 as [|b l l' Hp IH|b c l|l l' l'' H1 IH1 H2 IH2]; cbn.
  - constructor.
  - destruct (eqd a b); [trivial|now constructor].
  - destruct (eqd a b), (eqd a c); try reflexivity. apply perm_swap.
  - now rewrite IH1.
Qed.

(** ** Double counting *)
Lemma sum_players_without g l : NoDup l ->
  (sumf (fun i => sumf g (subs (remove i l))) l ==
   sumf (fun U => (Qn (length l) - Qn (length U)) * g U) (subs l))%Q.
Proof.
  intro Hd. revert g. induction Hd as [|a l Hn Hd IH]; intro g.
  - cbn [sumf subs length]. rewrite Qn_0. lra.
  - cbn [sumf]. rewrite remove_head by trivial.
    rewrite (sumf_ext (fun i => sumf g (subs (remove i (a :: l))))
       (fun i => sumf g (subs (remove i l)) + sumf (fun T => g (a :: T)) (subs (remove i l)))%Q).
    2:{ intros i Hi. rewrite remove_tail by (intro; subst; contradiction).
        apply sumf_subs_cons. }
    rewrite sumf_plus, (IH g), (IH (fun T => g (a :: T))), sumf_subs_cons.
    rewrite (sumf_ext (fun T => (Qn (length (a :: l)) - Qn (length (a :: T))) * g (a :: T))%Q
                      (fun T => (Qn (length l) - Qn (length T)) * g (a :: T))%Q).
    2:{ intros T _. cbn [length]. rewrite !Qn_S. lra. }
    rewrite (sumf_ext (fun U => (Qn (length (a :: l)) - Qn (length U)) * g U)%Q
                      (fun U => g U + (Qn (length l) - Qn (length U)) * g U)%Q).
    2:{ intros T _. cbn [length]. rewrite !Qn_S. lra. }
    rewrite sumf_plus. lra.
Qed.

Lemma sum_players_with g l : NoDup l -> is_game g ->
  (sumf (fun i => sumf (fun T => g (i :: T)) (subs (remove i l))) l ==
   sumf (fun U => Qn (length U) * g U) (subs l))%Q.
Proof.
  intro Hd. revert g. induction Hd as [|a l Hn Hd IH]; intros g Hg.
  - cbn [sumf subs length]. rewrite Qn_0. lra.
  - cbn [sumf]. rewrite remove_head by trivial.
    rewrite (sumf_ext (fun i => sumf (fun T => g (i :: T)) (subs (remove i (a :: l))))
       (fun i => sumf (fun T => g (i :: T)) (subs (remove i l))
                 + sumf (fun T => g (a :: i :: T)) (subs (remove i l)))%Q).
    2:{ intros i Hi. rewrite remove_tail by (intro; subst; contradiction).
        rewrite sumf_subs_cons. apply Qplus_comp; [reflexivity|].
        apply sumf_ext. intros T _. apply Hg, perm_swap. }
    rewrite sumf_plus, (IH g Hg), (IH (fun T => g (a :: T)) (is_game_cons g a Hg)), sumf_subs_cons.
    rewrite (sumf_ext (fun T => Qn (length (a :: T)) * g (a :: T))%Q
                      (fun T => g (a :: T) + Qn (length T) * g (a :: T))%Q).
    2:{ intros T _. cbn [length]. rewrite !Qn_S. lra. }
    rewrite sumf_plus. lra.
Qed.

Lemma sum_empty_only f l :
  (sumf (fun U => if length U =? 0 then f U else 0) (subs l) == f [])%Q.
Proof.
  induction l as [|a l IH]; [cbn; lra|].
  rewrite sumf_subs_cons, IH. rewrite (sumf_zero _ (subs l)); [lra|]. intros; reflexivity.
Qed.
Lemma sum_full_only f l :
  (sumf (fun U => if length U =? length l then f U else 0) (subs l) == f l)%Q.
Proof.
  revert f. induction l as [|a l IH]; intro f; [cbn; lra|].
  rewrite sumf_subs_cons. rewrite (sumf_zero _ (subs l)).
  2:{ intros U HU. apply subs_length in HU.
      destruct (Nat.eqb_spec (length U) (length (a :: l))); [cbn in *; lia|reflexivity]. }
  cbn [length Nat.eqb]. rewrite (IH (fun T => f (a :: T))). lra.
Qed.

(** ** Weights *)
Lemma fact_pos n : (0 < Qn (fact n))%Q.
Proof. apply Qn_pos. apply lt_O_fact. Qed.
Lemma fact_nz n : ~ (Qn (fact n) == 0)%Q.
Proof. pose proof (fact_pos n). lra. Qed.
Lemma Qn_fact_S n : (Qn (fact (S n)) == Qn (S n) * Qn (fact n))%Q.
Proof. cbn [fact]. rewrite <- Qn_mult. reflexivity. Qed.

Lemma weight_split n s : s < n -> (weight n s == weight (S n) s + weight (S n) (S s))%Q.
Proof.
  intro H. unfold weight. rewrite !Qn_mult.
  replace (S n - s - 1) with (S (n - s - 1)) by lia.
  replace (S n - S s - 1) with (n - s - 1) by lia.
  rewrite !Qn_fact_S.
  assert (E : (Qn (S (n - s - 1)) + Qn (S s) == Qn (S n))%Q)
    by (rewrite <- Qn_plus; replace (S (n - s - 1) + S s) with (S n) by lia; reflexivity).
  assert (~ Qn (S n) == 0)%Q by (apply Qn_neq0; lia).
  pose proof (fact_nz n).
  rewrite <- E in *. field. split; trivial.
Qed.

Lemma weight_balance n s : 0 < s < n ->
  (Qn s * weight n (s - 1) == (Qn n - Qn s) * weight n s)%Q.
Proof.
  intro H. destruct s as [|s]; [lia|]. unfold weight.
  replace (S s - 1) with s by lia.
  replace (n - s - 1) with (S (n - S s - 1)) by lia.
  rewrite !Qn_mult, !Qn_fact_S.
  assert (E : (Qn (S (n - S s - 1)) == Qn n - Qn (S s))%Q).
  { rewrite <- Qn_minus by lia. replace (S (n - S s - 1)) with (n - S s) by lia. reflexivity. }
  rewrite E. pose proof (fact_nz n). field. trivial.
Qed.
Lemma weight_first n : 0 < n -> (Qn n * weight n 0 == 1)%Q.
Proof.
  intro H. destruct n as [|n]; [lia|]. unfold weight.
  replace (S n - 0 - 1) with n by lia. rewrite Qn_mult, Qn_fact_S. change (fact 0) with 1.
  pose proof (fact_nz n). assert (~ Qn (S n) == 0)%Q by (apply Qn_neq0; lia).
  change (Qn 1) with 1%Q. field. split; trivial.
Qed.
Lemma weight_last n : 0 < n -> (Qn n * weight n (n - 1) == 1)%Q.
Proof.
  intro H. destruct n as [|n]; [lia|]. unfold weight.
  replace (S n - 1) with n by lia. replace (S n - n - 1) with 0 by lia.
  rewrite Qn_mult, Qn_fact_S. change (fact 0) with 1.
  pose proof (fact_nz n). assert (~ Qn (S n) == 0)%Q by (apply Qn_neq0; lia).
  change (Qn 1) with 1%Q. field. split; trivial.
Qed.
Lemma weight_nonneg n s : (0 <= weight n s)%Q.
Proof. unfold weight. apply Qdiv_nonneg; [apply Qn_nonneg|apply fact_pos]. Qed.

(** ** Efficiency *)
Theorem shapley_efficiency l v : NoDup l -> is_game v ->
  (sumf (shapley l v) l == v l - v [])%Q.
Proof.
  intros Hd Hv. destruct (Nat.eq_dec (length l) 0) as [E|E].
  { destruct l; [|cbn in E; lia]. cbn. lra. }
  unfold GameSpec.shapley.
  rewrite (sumf_ext _ (fun i =>
     sumf (fun T => weight (length l) (length (i :: T) - 1) * v (i :: T)) (subs (remove i l))
     - sumf (fun T => weight (length l) (length T) * v T) (subs (remove i l)))%Q).
  2:{ intros i _. rewrite <- sumf_minus. apply sumf_ext. intros T _. cbn [length].
      replace (S (length T) - 1) with (length T) by lia. lra. }
  rewrite sumf_minus.
  rewrite (sum_players_with (fun U => weight (length l) (length U - 1) * v U)%Q l Hd).
  2:{ intros T U P. rewrite (Hv T U P), (Permutation_length P). reflexivity. }
  rewrite (sum_players_without (fun T => weight (length l) (length T) * v T)%Q l Hd).
  rewrite <- sumf_minus.
  rewrite (sumf_ext _ (fun U => (if length U =? length l then v U else 0)
                                - (if length U =? 0 then v U else 0))%Q).
  2:{ intros U HU. apply subs_length in HU.
      destruct (Nat.eqb_spec (length U) (length l)) as [E1|E1];
      destruct (Nat.eqb_spec (length U) 0) as [E2|E2]; try lia.
      - rewrite E1. setoid_rewrite Qmult_assoc. rewrite weight_last by lia. lra.
      - rewrite E2. rewrite Qn_0.
        setoid_replace ((Qn (length l) - 0) * (weight (length l) 0 * v U))%Q
          with ((Qn (length l) * weight (length l) 0) * v U)%Q by ring.
        rewrite weight_first by lia. lra.
      - rewrite !Qmult_assoc. rewrite weight_balance by lia. lra. }
  rewrite sumf_minus, sum_full_only, sum_empty_only. lra.
Qed.

(** ** Linearity and extensionality *)
Lemma shapley_ext l v v' i : (forall T, (v T == v' T)%Q) -> (shapley l v i == shapley l v' i)%Q.
Proof. intro H. unfold GameSpec.shapley. apply sumf_ext. intros T _. rewrite !H. reflexivity. Qed.
Lemma shapley_sum {B} l (f : B -> list A -> Q) (bs : list B) i :
  (shapley l (fun T => sumf (fun b => f b T) bs) i == sumf (fun b => shapley l (f b) i) bs)%Q.
Proof.
  unfold GameSpec.shapley. rewrite sumf_swap. apply sumf_ext. intros T _.
  rewrite sumf_scal, sumf_minus. reflexivity.
Qed.
Lemma shapley_scal l c v i :
  (shapley l (fun T => c * v T) i == c * shapley l v i)%Q.
Proof.
  unfold GameSpec.shapley. rewrite <- sumf_scal. apply sumf_ext. intros T _. ring.
Qed.

(** ** Null players *)
Definition null_in (v : list A -> Q) (p : A) : Prop := forall T, (v (p :: T) == v T)%Q.

Lemma shapley_null l v i : null_in v i -> (shapley l v i == 0)%Q.
Proof.
  intro H. unfold GameSpec.shapley. apply sumf_zero. intros T _. rewrite (H T). ring.
Qed.

Lemma shapley_drop_null l v i p : NoDup (p :: l) -> In i l -> is_game v -> null_in v p ->
  (shapley (p :: l) v i == shapley l v i)%Q.
Proof.
  intros Hd Hi Hv Hp. inversion Hd as [|? ? Hn Hd']; subst.
  unfold GameSpec.shapley. rewrite remove_tail by (intro; subst; contradiction).
  rewrite sumf_subs_cons, <- sumf_plus. apply sumf_ext. intros T HT. cbn [length].
  apply subs_length in HT. pose proof (remove_length i l Hd' Hi).
  rewrite (Hv (i :: p :: T) (p :: i :: T)) by apply perm_swap.
  rewrite (Hp (i :: T)), (Hp T), (weight_split (length l)) by lia. ring.
Qed.

Lemma shapley_drop_nulls l q v i : NoDup (q ++ l) -> In i l -> is_game v ->
  (forall p, In p q -> null_in v p) -> (shapley (q ++ l) v i == shapley l v i)%Q.
Proof.
  intros Hd Hi Hv. induction q as [|p q IH]; intro Hq; [reflexivity|].
  cbn [app]. rewrite shapley_drop_null; trivial.
  - apply IH; [now inversion Hd|]. intros; apply Hq; now right.
  - apply in_or_app. now right.
  - apply Hq. now left.
Qed.

Lemma shapley_perm l l' v i : Permutation l l' -> is_game v ->
  (shapley l v i == shapley l' v i)%Q.
Proof.
  intros Hp Hv. unfold GameSpec.shapley. rewrite <- (Permutation_length Hp).
  apply sumf_subs_perm; [|now apply remove_perm].
  intros T U P. rewrite (Hv (i :: T) (i :: U)), (Hv T U), (Permutation_length P) by
    (trivial; now constructor). reflexivity.
Qed.

(** players outside [L] are null: only the players in [L] matter *)
Lemma shapley_restrict l L v i (inL : A -> bool) :
  NoDup l -> In i l -> inL i = true -> is_game v ->
  (forall p, In p l -> inL p = false -> null_in v p) ->
  Permutation L (filter inL l) ->
  (shapley l v i == shapley L v i)%Q.
Proof.
  intros Hd Hi HiL Hv Hnull HL.
  assert (P : Permutation l (filter (fun p => negb (inL p)) l ++ filter inL l)).
  { clear. induction l as [|a l IH]; cbn; [constructor|].
    destruct (inL a); cbn; [|now constructor]. rewrite IH at 1. apply Permutation_middle. }
  rewrite (shapley_perm l _ v i P Hv), (shapley_perm L _ v i HL Hv).
  apply shapley_drop_nulls; trivial.
  - now apply (Permutation_NoDup P).
  - now apply filter_In.
  - intros p Hp. apply filter_In in Hp. destruct Hp as [Hp E].
    apply Hnull; [trivial|]. now apply negb_true_iff in E.
Qed.

(** ** Orders of arrival *)
Lemma orders_perm n l o : NoDup l -> length l = n -> In o (orders eqd n l) <-> Permutation l o.
Proof.
  revert l o. induction n as [|n IH]; intros l o Hd Hn; cbn [orders].
  - destruct l; [|discriminate]. cbn. split.
    + intros [<-|[]]. constructor.
    + intro P. apply Permutation_nil in P. now left.
  - rewrite in_flat_map. split.
    + intros [a [Ha H]]. apply in_map_iff in H. destruct H as [o' [<- H]].
      apply IH in H.
      * rewrite (remove_perm_cons a l Hd Ha). now constructor.
      * now apply remove_NoDup.
      * pose proof (remove_length a l Hd Ha). lia.
    + intro P. destruct o as [|a o]; [apply Permutation_length in P; cbn in *; lia|].
      assert (Ha : In a l) by (apply (Permutation_in a (Permutation_sym P)); now left).
      exists a. split; [trivial|]. apply in_map. apply IH.
      * now apply remove_NoDup.
      * pose proof (remove_length a l Hd Ha). lia.
      * apply (Permutation_cons_inv (a := a)). rewrite <- P. symmetry. now apply remove_perm_cons.
Qed.

Lemma orders_count n l : NoDup l -> length l = n -> length (orders eqd n l) = fact n.
Proof.
  revert l. induction n as [|n IH]; intros l Hd Hn; [reflexivity|].
  cbn [orders]. rewrite flat_map_concat_map.
  assert (G : forall k, incl k l ->
    length (concat (map (fun a => map (cons a) (orders eqd n (remove a l))) k)) = length k * fact n).
  { induction k as [|a k IHk]; intro Hk; [reflexivity|].
    cbn [map concat]. rewrite app_length, map_length, IH, IHk.
    - cbn. lia.
    - intros b Hb. apply Hk. now right.
    - now apply remove_NoDup.
    - pose proof (remove_length a l Hd (Hk a (or_introl eq_refl))). lia. }
  rewrite G by apply incl_refl. rewrite Hn. reflexivity.
Qed.

Lemma subs_raw_step (c : nat -> Q) (w : list A -> Q) l : is_game w ->
  (sumf (fun T => c (length T) * w T) (subs l) ==
   c 0%nat * w [] +
   sumf (fun a => sumf (fun T => c (S (length T)) / Qn (S (length T)) * w (a :: T)) (subs (remove a l))) l)%Q
  \/ ~ NoDup l.
Proof.
  intro Hw. destruct (ListDec.NoDup_dec eqd l) as [Hd|Hd]; [left|now right].
  pose proof (sum_players_with (fun U => c (length U) / Qn (length U) * w U)%Q l Hd) as H.
  cbn [length] in H. rewrite H; clear H.
  2:{ intros T U P. rewrite (Hw T U P), (Permutation_length P). reflexivity. }
  rewrite <- (sum_empty_only (fun U => c 0%nat * w U)%Q l), <- sumf_plus.
  apply sumf_ext. intros U _. destruct (Nat.eqb_spec (length U) 0) as [E|E].
  - rewrite E, Qn_0. lra.
  - pose proof (Qn_neq0 _ E). field. trivial.
Qed.

Lemma before_cons_same i o : before eqd i (i :: o) = [].
Proof. cbn. destruct (eqd i i); congruence. Qed.
Lemma before_cons_other i a o : a <> i -> before eqd i (a :: o) = a :: before eqd i o.
Proof. intro H. cbn. destruct (eqd a i); congruence. Qed.

Lemma orders_sum n l v i : NoDup l -> length l = n -> In i l -> is_game v ->
  (sumf (fun o => v (i :: before eqd i o) - v (before eqd i o)) (orders eqd n l) ==
   sumf (fun T => Qn (fact (length T) * fact (n - length T - 1)) * (v (i :: T) - v T))
     (subs (remove i l)))%Q.
Proof.
  revert l v. induction n as [|n IH]; intros l v Hd Hn Hi Hv.
  - destruct l; [contradiction|discriminate].
  - assert (Hw : is_game (fun T => v (i :: T) - v T)%Q).
    { intros T U P. rewrite (Hv T U P), (Hv (i :: T) (i :: U)); [reflexivity|now constructor]. }
    cbn [orders]. rewrite sumf_flat_map.
    assert (Hdr := remove_NoDup i l Hd). assert (Hlr := remove_length i l Hd Hi).
    rewrite (sumf_perm _ l (i :: remove i l)) by now apply remove_perm_cons.
    cbn [sumf]. rewrite sumf_map.
    rewrite (sumf_ext _ (fun _ => v [i] - v [])%Q).
    2:{ intros o _. now rewrite before_cons_same. }
    rewrite sumf_const, orders_count by (trivial; lia).
    destruct (subs_raw_step (fun s => Qn (fact s * fact (S n - s - 1)))
               (fun T => v (i :: T) - v T)%Q (remove i l) Hw) as [E|E]; [|contradiction].
    rewrite E; clear E.
    replace (S n - 0 - 1) with n by lia. change (fact 0) with 1. rewrite Nat.mul_1_l.
    apply Qplus_comp; [reflexivity|]. apply sumf_ext. intros a Ha.
    assert (Hai : a <> i /\ In a l).
    { apply in_remove in Ha. tauto. }
    destruct Hai as [Hai Hal].
    rewrite sumf_map.
    rewrite (sumf_ext _ (fun o => v (a :: i :: before eqd i o) - v (a :: before eqd i o))%Q).
    2:{ intros o _. rewrite before_cons_other by trivial.
        rewrite (Hv (i :: a :: _) (a :: i :: _)) by apply perm_swap. reflexivity. }
    rewrite (IH (remove a l) (fun T => v (a :: T))).
    + rewrite remove_remove_comm.
      apply sumf_ext. intros T HT.
      rewrite (Hv (a :: i :: T) (i :: a :: T)) by apply perm_swap.
      apply subs_length in HT.
      assert (Hl2 : S (length (remove a (remove i l))) = length (remove i l)) by now apply remove_length.
      replace (S n - S (length T) - 1) with (n - length T - 1) by lia.
      rewrite !Qn_mult, Qn_fact_S.
      assert (~ Qn (S (length T)) == 0)%Q by (apply Qn_neq0; lia).
      field. trivial.
    + now apply remove_NoDup.
    + pose proof (remove_length a l Hd Hal). lia.
    + apply in_in_remove; auto.
    + now apply is_game_cons.
Qed.

Theorem shapley_is_order_average l v i : NoDup l -> In i l -> is_game v ->
  (shapley_orders eqd l v i == shapley l v i)%Q.
Proof.
  intros Hd Hi Hv. unfold shapley_orders, GameSpec.shapley.
  rewrite orders_sum, orders_count by trivial.
  unfold weight. pose proof (fact_nz (length l)).
  unfold Qdiv. rewrite <- sumf_scal_r. apply sumf_ext. intros T _. ring.
Qed.
End Game.

(** Lemmas about the leaf-based Shapley routines. *)
From Verif Require Import Base TreeModel TreeSpec TreeProofs GameSpec GameProofs ShapModel ShapSpec.
From Coq Require Import Setoid Morphisms.

(** ** Binomial coefficients (C14) *)
Lemma choose_0_r n : choose n 0 = 1.
Proof. destruct n; reflexivity. Qed.
Lemma choose_gt n k : n < k -> choose n k = 0.
Proof.
  revert k. induction n as [|n IH]; intros [|k] H; try lia; cbn; [reflexivity|].
  rewrite !IH by lia. reflexivity.
Qed.
Lemma choose_fact n k : k <= n -> choose n k * (fact k * fact (n - k)) = fact n.
Proof.
  revert k. induction n as [|n IH]; intros k H.
  - assert (k = 0) by lia. subst. reflexivity.
  - destruct k as [|k]; [cbn [choose]; rewrite Nat.sub_0_r; change (fact 0) with 1; lia|].
    cbn [choose]. rewrite Nat.mul_add_distr_r.
    assert (E1 : choose n k * (fact (S k) * fact (S n - S k)) = S k * fact n).
    { rewrite <- (IH k) by lia. replace (S n - S k) with (n - k) by lia. cbn [fact]. ring. }
    destruct (Nat.eq_dec k n) as [->|Hn].
    + rewrite (choose_gt n (S n)) by lia. rewrite E1. cbn [fact]. ring.
    + assert (E2 : choose n (S k) * (fact (S k) * fact (S n - S k)) = (n - k) * fact n).
      { rewrite <- (IH (S k)) by lia. replace (S n - S k) with (S (n - S k)) by lia.
        cbn [fact]. replace (n - k) with (S (n - S k)) by lia. ring. }
      rewrite E1, E2, <- Nat.mul_add_distr_r. replace (S k + (n - k)) with (S n) by lia. reflexivity.
Qed.
Lemma choose_pos n k : k <= n -> 0 < choose n k.
Proof.
  intro H. pose proof (choose_fact n k H). pose proof (lt_O_fact n).
  destruct (choose n k); [cbn in *; lia|lia].
Qed.
Lemma choose_step n k : choose n (S k) * S k = choose n k * (n - k).
Proof.
  destruct (le_lt_dec n k) as [H|H].
  - rewrite choose_gt by lia. replace (n - k) with 0 by lia. lia.
  - pose proof (choose_fact n (S k) H) as E1. pose proof (choose_fact n k ltac:(lia)) as E2.
    replace (n - k) with (S (n - S k)) in * by lia. cbn [fact] in E1, E2.
    change (fact (S (n - S k))) with (S (n - S k) * fact (n - S k)) in E2.
    assert (Hc : fact k * fact (n - S k) <> 0)
      by (pose proof (lt_O_fact k); pose proof (lt_O_fact (n - S k)); nia).
    apply (Nat.mul_cancel_r _ _ _ Hc).
    transitivity (fact n); [rewrite <- E1|rewrite <- E2]; cbn [fact]; ring.
Qed.
Lemma choose_sym n k : k <= n -> choose n (n - k) = choose n k.
Proof.
  intro H. pose proof (choose_fact n k H) as E1. pose proof (choose_fact n (n - k) ltac:(lia)) as E2.
  replace (n - (n - k)) with k in E2 by lia.
  assert (Hc : fact k * fact (n - k) <> 0)
    by (pose proof (lt_O_fact k); pose proof (lt_O_fact (n - k)); nia).
  apply (Nat.mul_cancel_r _ _ _ Hc). rewrite E1, <- E2. ring.
Qed.

Lemma comb_loop_choose N k j : j + k <= S N -> 1 <= j ->
  comb_loop (N + 1) j k (choose N (j - 1)) = choose N (j - 1 + k).
Proof.
  revert j. induction k as [|k IH]; intros j H Hj; cbn [comb_loop].
  - now rewrite Nat.add_0_r.
  - assert (E : choose N (j - 1) * (N + 1 - j) / j = choose N (S j - 1)).
    { replace (S j - 1) with j by lia. pose proof (choose_step N (j - 1)) as Hs.
      replace (S (j - 1)) with j in Hs by lia. replace (N + 1 - j) with (N - (j - 1)) by lia.
      rewrite <- Hs. apply Nat.div_mul. lia. }
    rewrite E, IH by lia. f_equal. lia.
Qed.
Theorem comb_exact N k : comb_int_long N k = choose N k.
Proof.
  unfold comb_int_long. destruct (Nat.ltb_spec N k) as [H|H].
  - symmetry. now apply choose_gt.
  - pose proof (comb_loop_choose N (Nat.min k (N - k)) 1 ltac:(lia) ltac:(lia)) as E.
    cbn [Nat.sub] in E. rewrite choose_0_r in E. rewrite E. cbn [Nat.add].
    destruct (Nat.min_spec k (N - k)) as [[_ ->]|[_ ->]]; [reflexivity|].
    now apply choose_sym.
Qed.

(** ** The coefficients of the code are textbook weights *)
Lemma inv_choose_weight m t : t < m ->
  (1 / Qn (choose (m - 1) t) / Qn m == weight m t)%Q.
Proof.
  intro H. pose proof (choose_fact (m - 1) t ltac:(lia)) as E.
  destruct m as [|n]; [lia|]. replace (S n - 1) with n in * by lia. unfold weight.
  replace (S n - t - 1) with (n - t) by lia.
  apply (f_equal Qn) in E. rewrite Qn_fact_S, <- E. rewrite !Qn_mult.
  assert (~ Qn (S n) == 0)%Q by (apply Qn_neq0; lia).
  assert (~ Qn (choose n t) == 0)%Q by (apply Qn_neq0; pose proof (choose_pos n t ltac:(lia)); lia).
  pose proof (fact_nz t). pose proof (fact_nz (n - t)). field. auto.
Qed.

Lemma weight_sum r k s : s <= k ->
  (sumf (fun l => Qn (choose r l) * weight (k + 1 + r) (s + l)) (seq 0 (S r)) == weight (k + 1) s)%Q.
Proof.
  intro H. induction r as [|r IH].
  - cbn [seq sumf choose]. rewrite !Nat.add_0_r. change (Qn 1) with 1%Q. lra.
  - rewrite <- IH.
    assert (G : forall f : nat -> Q, (forall l, f l == f l)%Q ->
      (sumf (fun l => Qn (choose (S r) l) * f l) (seq 0 (S (S r))) ==
       sumf (fun l => Qn (choose r l) * (f l + f (S l))) (seq 0 (S r)))%Q).
    { intros f _.
      assert (Hr : (Qn (choose r (S r)) == 0)%Q) by (rewrite choose_gt by lia; reflexivity).
      rewrite (sumf_ext (fun l => Qn (choose r l) * (f l + f (S l)))%Q
                 (fun l => Qn (choose r l) * f l + Qn (choose r l) * f (S l))%Q) by (intros; ring).
      rewrite sumf_plus.
      assert (E1 : (sumf (fun l => Qn (choose r l) * f l) (seq 0 (S r)) ==
                    Qn (choose r 0) * f 0%nat + sumf (fun l => Qn (choose r (S l)) * f (S l)) (seq 0 (S r)))%Q).
      { assert (E0 : (sumf (fun l => Qn (choose r l) * f l) (seq 0 (S (S r))) ==
                      sumf (fun l => Qn (choose r l) * f l) (seq 0 (S r)))%Q).
        { rewrite (seq_S (S r) 0), sumf_app. cbn [sumf]. rewrite Nat.add_0_l, Hr. ring. }
        rewrite <- E0. change (seq 0 (S (S r))) with (0%nat :: seq 1 (S r)).
        cbn [sumf]. apply Qplus_comp; [reflexivity|]. rewrite <- seq_shift, sumf_map. reflexivity. }
      rewrite E1.
      change (seq 0 (S (S r))) with (0%nat :: seq 1 (S r)). cbn [sumf].
      rewrite <- seq_shift, sumf_map.
      rewrite (sumf_ext (fun a => Qn (choose (S r) (S a)) * f (S a))%Q
                 (fun a => Qn (choose r (S a)) * f (S a) + Qn (choose r a) * f (S a))%Q).
      2:{ intros a _. cbn [choose]. rewrite Qn_plus. ring. }
      rewrite sumf_plus, !choose_0_r. ring. }
    rewrite (G (fun l => weight (k + 1 + S r) (s + l))) by reflexivity.
    apply sumf_ext. intros l Hl. apply in_seq in Hl.
    replace (k + 1 + S r) with (S (k + 1 + r)) by lia.
    replace (s + S l) with (S (s + l)) by lia.
    rewrite <- weight_split by lia. reflexivity.
Qed.

Lemma coef_fold m k s l0 (ls : list nat) : s <= k -> k < m ->
  (forall l, In l ls -> l <= m - k - 1) ->
  (fold_left (coef_step m k s) ls l0 ==
   l0 + sumf (fun l => Qn (choose (m - k - 1) l) / Qn (choose (m - 1) (s + l))) ls)%Q.
Proof.
  intros Hs Hk. revert l0. induction ls as [|l ls IH]; intros l0 Hl; cbn [fold_left sumf]; [lra|].
  rewrite IH by (intros; apply Hl; now right).
  unfold coef_step at 1, binomialC. rewrite !comb_exact.
  assert (Hle : l <= m - k - 1) by (apply Hl; now left).
  destruct (qeqb_spec (Qn (choose (m - 1) (l + s))) 0) as [E|E].
  - exfalso. assert (choose (m - 1) (l + s) = 0) by now apply Qn_inj.
    pose proof (choose_pos (m - 1) (l + s) ltac:(lia)). lia.
  - rewrite (Nat.add_comm s l). field. trivial.
Qed.

Theorem code_coef_is_weight m k s : s <= k -> k < m ->
  ((coef_0 m s + coef m k s) / Qn m == weight (k + 1) s)%Q.
Proof.
  intros Hs Hk. unfold coef_0, coef, binomialC. rewrite comb_exact.
  rewrite coef_fold; trivial.
  2:{ intros l Hl. apply in_seq in Hl. lia. }
  assert (~ Qn m == 0)%Q by (apply Qn_neq0; lia).
  destruct (qeqb_spec (Qn (choose (m - 1) s)) 0) as [E|E].
  { exfalso. assert (choose (m - 1) s = 0) by now apply Qn_inj.
    pose proof (choose_pos (m - 1) s ltac:(lia)). lia. }
  rewrite <- (weight_sum (m - k - 1) k s Hs).
  replace (k + 1 + (m - k - 1)) with m by lia.
  change (seq 0 (S (m - k - 1))) with (0%nat :: seq 1 (m - k - 1)). cbn [sumf].
  rewrite Nat.add_0_r, choose_0_r.
  rewrite <- (inv_choose_weight m s) by lia.
  rewrite (sumf_ext (fun l => Qn (choose (m - k - 1) l) * weight m (s + l))%Q
     (fun l => (Qn (choose (m - k - 1) l) / Qn (choose (m - 1) (s + l))) * (1 / Qn m))%Q).
  2:{ intros l Hl. apply in_seq in Hl. rewrite <- (inv_choose_weight m (s + l)) by lia.
      assert (~ Qn (choose (m - 1) (s + l)) == 0)%Q.
      { apply Qn_neq0. pose proof (choose_pos (m - 1) (s + l) ltac:(lia)). lia. }
      field. auto. }
  rewrite sumf_scal_r. change (Qn 1) with 1%Q. field. auto.
Qed.

(** ** Counters enumerate subsets *)
Lemma pick_from_shift gs ci c : pick_from (S ci) c gs = pick_from ci (Nat.div2 c) gs.
Proof.
  revert ci. induction gs as [|g gs IH]; intro ci; [reflexivity|].
  cbn [pick_from]. rewrite IH. cbn [Nat.testbit]. reflexivity.
Qed.

Lemma sum_even_odd (f : nat -> Q) n :
  (sumf f (seq 0 (2 * n)) == sumf (fun c => f (2 * c)%nat) (seq 0 n) + sumf (fun c => f (S (2 * c))%nat) (seq 0 n))%Q.
Proof.
  induction n as [|n IH]; [cbn; lra|].
  replace (2 * S n) with (S (S (2 * n))) by lia.
  rewrite (seq_S (S (2 * n))), (seq_S (2 * n)), (seq_S n), !sumf_app, IH. cbn [sumf].
  rewrite !Nat.add_0_l. lra.
Qed.

Lemma pick_subs (F : list group -> Q) gs :
  (sumf (fun c => F (pick c gs)) (seq 0 (2 ^ length gs)) == sumf F (subs gs))%Q.
Proof.
  revert F. induction gs as [|g gs IH]; intro F.
  - cbn. lra.
  - cbn [length]. rewrite Nat.pow_succ_r', sum_even_odd, sumf_subs_cons.
    rewrite <- (IH F), <- (IH (fun T => F (g :: T))).
    apply Qplus_comp; apply sumf_ext; intros c _; unfold pick; cbn [pick_from];
      rewrite pick_from_shift.
    + replace (Nat.testbit (2 * c) 0) with false by (symmetry; apply Nat.testbit_even_0).
      rewrite Nat.div2_double. reflexivity.
    + replace (Nat.testbit (S (2 * c)) 0) with true
        by (symmetry; replace (S (2 * c)) with (2 * c + 1) by lia; apply Nat.testbit_odd_0).
      rewrite Nat.div2_succ_double. reflexivity.
Qed.

Lemma pick_length gs c : length (pick c gs) <= length gs.
Proof.
  unfold pick. generalize 0. induction gs as [|g gs IH]; intro ci; cbn; [lia|].
  specialize (IH (S ci)). destruct (Nat.testbit c ci); cbn; lia.
Qed.

(** ** Membership tests *)
Lemma filter_length_le {A} (f : A -> bool) l : length (filter f l) <= length l.
Proof. induction l as [|a l IH]; cbn; [lia|]. destruct (f a); cbn; lia. Qed.
Lemma filter_all_length {A} (f : A -> bool) l : (length (filter f l) =? length l) = forallb f l.
Proof.
  induction l as [|a l IH]; [reflexivity|]. cbn. destruct (f a); cbn; [exact IH|].
  apply Nat.eqb_neq. pose proof (filter_length_le f l). lia.
Qed.
Lemma sat_sat_on p F x : sat p F x = sat_on p F x.
Proof. unfold sat, sat_on. apply filter_all_length. Qed.
Lemma filter_none_length {A} (f : A -> bool) l : (length (filter f l) =? 0) = forallb (fun a => negb (f a)) l.
Proof. induction l as [|a l IH]; [reflexivity|]. cbn. destruct (f a); cbn; [reflexivity|exact IH]. Qed.
Lemma not_out_sat_on p va x : not_out p va x = sat_on p va x.
Proof.
  unfold not_out, sat_on. rewrite filter_none_length. apply forallb_ext_in. intros s _.
  unfold in_itv. destruct (q_leb_ext (x s) (snd (p s))), (ext_ltb_q (fst (p s)) (x s)); reflexivity.
Qed.
Lemma sat_on_app p F G x : sat_on p (F ++ G) x = sat_on p F x && sat_on p G x.
Proof. apply forallb_app'. Qed.
Lemma sat_on_true p F x : sat_on p F x = true <-> forall s, In s F -> in_itv (p s) (x s) = true.
Proof. apply forallb_forall. Qed.
Lemma bool_eq_iff a b : (a = true <-> b = true) -> a = b.
Proof. destruct a, b; intuition congruence. Qed.
Lemma sat_on_same p F G x : (forall s, In s F <-> In s G) -> sat_on p F x = sat_on p G x.
Proof. intro H. apply bool_eq_iff. rewrite !sat_on_true. split; intros K s Hs; apply K, H, Hs. Qed.
Lemma rows_in_same data p F G : (forall s, In s F <-> In s G) -> rows_in data p F = rows_in data p G.
Proof. intro H. unfold rows_in. f_equal. apply filter_ext_in'. intros x _. now apply sat_on_same. Qed.
Lemma cond_prob_same m data p F G x : (forall s, In s F <-> In s G) ->
  cond_prob m data p F x = cond_prob m data p G x.
Proof.
  intro H. unfold cond_prob. rewrite (sat_on_same p F G x H), (rows_in_same data p F G H). reflexivity.
Qed.

Lemma count_leaf_rows m data p : count_leaf m data p = rows_in data p (seq 0 m).
Proof. reflexivity. Qed.

Lemma rows_in_mono data p F G : incl F G -> rows_in data p G <= rows_in data p F.
Proof.
  intro H. unfold rows_in. induction data as [|x data IH]; cbn; [lia|].
  destruct (sat_on p G x) eqn:E.
  - assert (sat_on p F x = true) as ->; [|cbn; lia].
    rewrite sat_on_true in *. intros s Hs. apply E, H, Hs.
  - destruct (sat_on p F x); cbn; lia.
Qed.

(** ** The game of one leaf *)
Definition leaf_game m data lf x (T : list group) : Q := cond_prob m data (l_rect lf) (concat T) x.

Lemma concat_perm {A} (T U : list (list A)) : Permutation T U -> Permutation (concat T) (concat U).
Proof.
  induction 1 as [|a l l' Hp IH|a b l|l l' l'' H1 IH1 H2 IH2]; cbn.
  - constructor.
  - now apply Permutation_app_head.
  - rewrite !app_assoc. apply Permutation_app_tail, Permutation_app_comm.
  - now rewrite IH1.
Qed.

Lemma leaf_game_is_game m data lf x : is_game (leaf_game m data lf x).
Proof.
  intros T U P. unfold leaf_game. rewrite (cond_prob_same m data (l_rect lf) (concat T) (concat U)).
  - reflexivity.
  - intro s. apply concat_perm in P. split; apply Permutation_in; [trivial|now symmetry].
Qed.

Lemma sat_on_unbounded p g F x : (forall s, In s g -> p s = (NInf, PInf)) ->
  sat_on p (g ++ F) x = sat_on p F x.
Proof.
  intro H. rewrite sat_on_app. assert (sat_on p g x = true) as ->; [|reflexivity].
  apply sat_on_true. intros s Hs. now rewrite (H s Hs).
Qed.
Lemma cond_prob_unbounded m data p g F x : (forall s, In s g -> p s = (NInf, PInf)) ->
  cond_prob m data p (g ++ F) x = cond_prob m data p F x.
Proof.
  intro H. unfold cond_prob, rows_in. rewrite sat_on_unbounded by trivial.
  rewrite (filter_ext_in' (sat_on p (g ++ F)) (sat_on p F)); [reflexivity|].
  intros z _. now apply sat_on_unbounded.
Qed.

Lemma leaf_game_null m data lf x g : leaf_ok m lf ->
  (forall s, In s g -> ~ In s (l_vars lf)) -> null_in (leaf_game m data lf x) g.
Proof.
  intros [_ [_ Hu]] Hg T. unfold leaf_game. cbn [concat].
  rewrite cond_prob_unbounded; [reflexivity|]. intros s Hs. apply Hu. auto.
Qed.

(** probabilities of the code = conditional probabilities of the specification *)
Lemma prob_s_cond m data p F x : data <> [] ->
  (prob_s (length data) F (sat p F x) (count_leaf m data p) (count_s data p F)
   == cond_prob m data p F x)%Q.
Proof.
  intro Hd. unfold prob_s, cond_prob. rewrite sat_sat_on, count_leaf_rows.
  assert (E : count_s data p F = rows_in data p F).
  { unfold count_s, rows_in. f_equal. apply filter_ext_in'. intros; apply sat_sat_on. }
  rewrite E. destruct (Nat.eqb_spec (length F) 0) as [E0|E0].
  - destruct F; [|discriminate]. cbn [sat_on forallb].
    assert (R : rows_in data p [] = length data).
    { unfold rows_in. f_equal. clear. induction data as [|a l IH]; cbn; [trivial|now rewrite IH]. }
    rewrite R. destruct data; [congruence|]. reflexivity.
  - destruct (rows_in data p F) as [|n] eqn:En; cbn [Nat.eqb].
    + destruct (sat_on p F x); reflexivity.
    + destruct (sat_on p F x); unfold Qb; [|field; apply Qn_neq0; lia].
      field. apply Qn_neq0; lia.
Qed.

Lemma prob_si_cond m data p F va x :
  (prob_si (sat p F x && not_out p va x) (count_leaf m data p) (count_si data p F va)
   == cond_prob m data p (va ++ F) x)%Q.
Proof.
  unfold prob_si, cond_prob. rewrite sat_sat_on, not_out_sat_on, count_leaf_rows.
  assert (E : count_si data p F va = rows_in data p (va ++ F)).
  { unfold count_si, rows_in. f_equal. apply filter_ext_in'. intros z _.
    rewrite sat_on_app, sat_sat_on, not_out_sat_on. apply andb_comm. }
  rewrite E, sat_on_app, (andb_comm (sat_on p va x)).
  destruct (rows_in data p (va ++ F)) as [|n] eqn:En; cbn [Nat.eqb].
  - destruct (sat_on p F x && sat_on p va x); reflexivity.
  - destruct (sat_on p F x && sat_on p va x); unfold Qb; field; apply Qn_neq0; lia.
Qed.

Lemma term_value m data x lf va gs counter : data <> [] -> length gs < m ->
  (term m data x lf va gs counter / Qn m ==
   weight (length gs + 1) (length (pick counter gs)) *
   (leaf_game m data lf x (va :: pick counter gs) - leaf_game m data lf x (pick counter gs))
   * l_val lf)%Q.
Proof.
  intros Hd Hk. unfold term, term_with.
  rewrite prob_s_cond, prob_si_cond by trivial.
  rewrite <- (code_coef_is_weight m (length gs)) by (trivial; apply pick_length).
  unfold leaf_game. cbn [concat]. field. apply Qn_neq0. lia.
Qed.

(** ** Players *)
Lemma remove1_remove g gs : NoDup gs -> remove1 g gs = remove group_eq_dec g gs.
Proof.
  induction 1 as [|h gs Hn Hd IH]; [reflexivity|]. cbn.
  destruct (group_eq_dec h g) as [->|E].
  - destruct (group_eq_dec g g); [|congruence]. symmetry. now apply notin_remove.
  - destruct (group_eq_dec g h); [congruence|]. now rewrite IH.
Qed.
Lemma remove1_incl g gs h : In h (remove1 g gs) -> In h gs.
Proof.
  induction gs as [|k gs IH]; cbn; [trivial|]. destruct (group_eq_dec k g); cbn; tauto.
Qed.
Lemma concat_remove1 g gs : In g gs -> Permutation (concat gs) (g ++ concat (remove1 g gs)).
Proof.
  induction gs as [|k gs IH]; [contradiction|]. intro H. cbn.
  destruct (group_eq_dec k g) as [->|E]; [reflexivity|]. destruct H as [H|H]; [contradiction|].
  cbn. rewrite (IH H) at 1. rewrite !app_assoc. apply Permutation_app_tail, Permutation_app_comm.
Qed.
Lemma in_concat_of {A} (a : A) g gs : In g gs -> In a g -> In a (concat gs).
Proof. intros. apply in_concat. eauto. Qed.

Lemma NoDup_app_inv_disj {A} (l l' : list A) a : NoDup (l ++ l') -> In a l -> In a l' -> False.
Proof.
  induction l as [|b l IH]; [contradiction|]. cbn. intros Hd [->|H] H'.
  - inversion Hd as [|? ? Hn _]; subst. apply Hn. apply in_or_app. now right.
  - inversion Hd; subst. auto.
Qed.
Lemma NoDup_app_l {A} (l l' : list A) : NoDup (l ++ l') -> NoDup l.
Proof.
  induction l as [|b l IH]; cbn; [constructor|]. intro H. inversion H as [|? ? Hn Hd]; subst.
  constructor; [|auto]. intro. apply Hn. apply in_or_app. now left.
Qed.
Lemma NoDup_app_r {A} (l l' : list A) : NoDup (l ++ l') -> NoDup l'.
Proof. induction l as [|b l IH]; cbn; [trivial|]. intro H. inversion H; auto. Qed.

Lemma concat_unique {A} (gs : list (list A)) g h a : NoDup (concat gs) ->
  In g gs -> In h gs -> In a g -> In a h -> g = h.
Proof.
  induction gs as [|k gs IH]; [contradiction|]. cbn. intros Hd Hg Hh Ha Hb.
  destruct Hg as [->|Hg], Hh as [->|Hh]; trivial.
  - exfalso. eapply NoDup_app_inv_disj; [exact Hd|exact Ha|]. eapply in_concat_of; eassumption.
  - exfalso. eapply NoDup_app_inv_disj; [exact Hd|exact Hb|]. eapply in_concat_of; eassumption.
  - apply IH; trivial. now apply NoDup_app_r in Hd.
Qed.
Lemma NoDup_concat_in {A} (gs : list (list A)) g : NoDup (concat gs) -> In g gs -> NoDup g.
Proof.
  induction gs as [|k gs IH]; [contradiction|]. cbn. intros Hd [->|H].
  - now apply NoDup_app_l in Hd.
  - apply IH; [|trivial]. now apply NoDup_app_r in Hd.
Qed.

Lemma find_group i B g : find (memb i) B = Some g -> In g B /\ In i g.
Proof. intro H. apply find_some in H. destruct H as [H1 H2]. split; [trivial|now apply memb_true]. Qed.
Lemma find_group_none i B : find (memb i) B = None -> forall g, In g B -> ~ In i g.
Proof. intros H g Hg. apply memb_false. eapply find_none; eassumption. Qed.

Lemma in_remove1 B g0 g i : NoDup (concat B) -> In g0 B -> In i g0 ->
  In g (remove1 g0 B) <-> In g B /\ g <> g0.
Proof.
  intros Hd H0 Hi. induction B as [|k B IH]; [contradiction|]. cbn.
  cbn in Hd. destruct (group_eq_dec k g0) as [->|E].
  - split.
    + intro H. split; [now right|]. intros ->.
      eapply NoDup_app_inv_disj; [exact Hd|exact Hi|]. eapply in_concat_of; eassumption.
    + intros [[H|H] Hn]; [congruence|trivial].
  - destruct H0 as [H0|H0]; [contradiction|]. cbn. rewrite IH; trivial.
    + split; [intros [->|[H1 H2]]; auto|tauto].
    + now apply NoDup_app_r in Hd.
Qed.

Lemma va_loop_spec coal B is_ : NoDup is_ -> NoDup (concat B) -> incl (concat B) coal ->
  NoDup (va_loop coal B is_) /\
  forall g, In g (va_loop coal B is_) <->
    (exists i, In i is_ /\ ~ In i coal /\ g = [i]) \/ (In g B /\ exists i, In i is_ /\ In i g).
Proof.
  intro Hn. revert B. induction Hn as [|i r Hi Hn IH]; intros B Hd Hc; cbn [va_loop].
  - split; [constructor|]. intro g. split; [contradiction|].
    intros [[i [[] _]]|[_ [i [[] _]]]].
  - destruct (memb_spec i coal) as [Hm|Hm].
    + destruct (find (memb i) B) as [g0|] eqn:Ef.
      * apply find_group in Ef. destruct Ef as [H0 Hi0].
        assert (P := concat_remove1 g0 B H0).
        assert (Hd' : NoDup (concat (remove1 g0 B))).
        { apply (Permutation_NoDup P) in Hd. now apply NoDup_app_r in Hd. }
        assert (Hc' : incl (concat (remove1 g0 B)) coal).
        { intros a Ha. apply Hc. apply (Permutation_in a (Permutation_sym P)).
          apply in_or_app. now right. }
        destruct (IH _ Hd' Hc') as [I1 I2]. split.
        -- constructor; [|trivial]. rewrite I2. intros [[a [Ha [Hna E]]]|[H _]].
           ++ subst g0. destruct Hi0 as [->|[]]. contradiction.
           ++ apply (in_remove1 B g0 g0 i Hd H0 Hi0) in H. tauto.
        -- intro g. cbn [In]. rewrite I2. split.
           ++ intros [<-|[[a [Ha [Hna E]]]|[H [a [Ha Hag]]]]].
              ** right. split; [trivial|]. exists i. auto.
              ** left. exists a. auto.
              ** right. apply (in_remove1 B g0 g i Hd H0 Hi0) in H. split; [tauto|]. exists a. auto.
           ++ intros [[a [[->|Ha] [Hna E]]]|[H [a [[->|Ha] Hag]]]].
              ** contradiction.
              ** right. left. exists a. auto.
              ** left. exact (concat_unique B g0 g _ Hd H0 H Hi0 Hag).
              ** destruct (group_eq_dec g g0) as [->|Hne]; [now left|].
                 right. right. split; [|exists a; auto].
                 apply (in_remove1 B g0 g i Hd H0 Hi0). auto.
      * pose proof (find_group_none i B Ef) as Hnone.
        destruct (IH B Hd Hc) as [I1 I2]. split; [trivial|]. intro g. rewrite I2. split.
        -- intros [[a [Ha [Hna E]]]|[H [a [Ha Hag]]]]; [left|right; split; trivial]; exists a; cbn; auto.
        -- intros [[a [[->|Ha] [Hna E]]]|[H [a [[->|Ha] Hag]]]].
           ++ contradiction.
           ++ left. exists a; auto.
           ++ exfalso. eapply Hnone; eassumption.
           ++ right. split; trivial. exists a; auto.
    + destruct (IH B Hd Hc) as [I1 I2]. split.
      * constructor; [|trivial]. rewrite I2. intros [[a [Ha [_ E]]]|[H [a [Ha Hag]]]].
        -- injection E as ->. contradiction.
        -- destruct Hag as [->|[]]. contradiction.
      * intro g. cbn [In]. rewrite I2. split.
        -- intros [<-|[[a [Ha [Hna E]]]|[H [a [Ha Hag]]]]].
           ++ left. exists i. auto.
           ++ left. exists a. auto.
           ++ right. split; trivial. exists a; auto.
        -- intros [[a [[->|Ha] [Hna E]]]|[H [a [[->|Ha] Hag]]]].
           ++ left. now symmetry.
           ++ right. left. exists a; auto.
           ++ exfalso. apply Hm, Hc. eapply in_concat_of; eassumption.
           ++ right. right. split; trivial. exists a; auto.
Qed.

Lemma leaf_loop_eq rva coal B vars :
  (forall v, In v vars -> memb v rva = negb (memb v coal)) ->
  leaf_groups_loop rva B vars = va_loop coal B vars.
Proof.
  revert B. induction vars as [|v vars IH]; intros B H; [reflexivity|].
  cbn [leaf_groups_loop va_loop]. rewrite (H v) by now left.
  destruct (memb v coal); cbn [negb].
  - destruct (find (memb v) B); rewrite IH; auto; intros; apply H; now right.
  - rewrite IH; auto. intros; apply H; now right.
Qed.

Lemma no_coal_concat C m : coalitions_ok C m -> has_coal C = false -> concat C = [].
Proof.
  intros [_ [_ H]] E. destruct C as [|[|a g] C]; trivial. discriminate.
Qed.

Lemma singles_spec (C : list group) is_ : concat C = [] -> NoDup is_ ->
  NoDup (map (fun i : nat => [i]) is_) /\
  forall g, In g (map (fun i => [i]) is_) <->
    (exists i, In i is_ /\ ~ In i (concat C) /\ g = [i]) \/ (In g C /\ exists i, In i is_ /\ In i g).
Proof.
  intros HC Hn. split.
  - apply FinFun.Injective_map_NoDup; [|trivial]. intros a b E. now injection E.
  - intro g. rewrite in_map_iff. rewrite HC. split.
    + intros [i [<- Hi]]. left. exists i. auto.
    + intros [[i [Hi [_ ->]]]|[Hg [i [_ Hi]]]].
      * exists i. auto.
      * exfalso. assert (In i (concat C)) by (eapply in_concat_of; eassumption). rewrite HC in *. contradiction.
Qed.

Lemma va_ids_spec C m : coalitions_ok C m ->
  NoDup (va_ids C m) /\
  forall g, In g (va_ids C m) <->
    (exists i, In i (seq 0 m) /\ ~ In i (concat C) /\ g = [i]) \/ (In g C /\ exists i, In i (seq 0 m) /\ In i g).
Proof.
  intro H. unfold va_ids. destruct (has_coal C) eqn:E.
  - destruct H as [H1 [H2 _]]. apply va_loop_spec; trivial; [apply seq_NoDup|apply incl_refl].
  - apply singles_spec; [now apply (no_coal_concat C m)|apply seq_NoDup].
Qed.
Lemma leaf_groups_spec C m vars : coalitions_ok C m -> NoDup vars -> (forall v, In v vars -> v < m) ->
  NoDup (leaf_groups C m vars) /\
  forall g, In g (leaf_groups C m vars) <->
    (exists i, In i vars /\ ~ In i (concat C) /\ g = [i]) \/ (In g C /\ exists i, In i vars /\ In i g).
Proof.
  intros H Hn Hm. unfold leaf_groups. destruct (has_coal C) eqn:E.
  - destruct H as [H1 [H2 _]]. rewrite (leaf_loop_eq _ (concat C)).
    + apply va_loop_spec; trivial. apply incl_refl.
    + intros v Hv. unfold remove_va. destruct (memb_spec v (concat C)) as [Hc|Hc]; cbn [negb].
      * apply memb_false. rewrite filter_In. intros [_ K]. apply negb_true_iff, memb_false in K. contradiction.
      * apply memb_true. apply filter_In. split; [apply in_seq; specialize (Hm v Hv); lia|].
        now apply negb_true_iff, memb_false.
  - apply singles_spec; [now apply (no_coal_concat C m)|trivial].
Qed.

Theorem va_ids_players C m : coalitions_ok C m -> is_players C m (va_ids C m).
Proof.
  intro H. destruct (va_ids_spec C m H) as [H1 H2]. split; [trivial|]. intro g. rewrite H2.
  destruct H as [Hd [Hb _]]. split.
  - intros [[i [Hi [Hn ->]]]|[Hg [i [Hi Hig]]]].
    + right. exists i. apply in_seq in Hi. split; [lia|auto].
    + left. split; [trivial|]. intros ->. contradiction.
  - intros [[Hg Hne]|[i [Hi [Hn ->]]]].
    + right. split; [trivial|]. destruct g as [|i g]; [congruence|].
      exists i. split; [|now left]. apply in_seq. split; [lia|].
      cbn. apply Hb. eapply in_concat_of; [exact Hg|now left].
    + left. exists i. split; [apply in_seq; lia|auto].
Qed.

Lemma players_perm C m P P' : is_players C m P -> is_players C m P' -> Permutation P P'.
Proof.
  intros [H1 H2] [H3 H4]. apply NoDup_Permutation; trivial. intro g. now rewrite H2, H4.
Qed.

Lemma player_unique C m P g h j : coalitions_ok C m -> is_players C m P ->
  In g P -> In h P -> In j g -> In j h -> g = h.
Proof.
  intros [Hd _] [_ HP] Hg Hh Hj Hk. apply HP in Hg, Hh.
  destruct Hg as [[Hg _]|[a [_ [Ha ->]]]], Hh as [[Hh _]|[b [_ [Hb ->]]]].
  - eapply concat_unique; eassumption.
  - destruct Hk as [->|[]]. exfalso. apply Hb. eapply in_concat_of; eassumption.
  - destruct Hj as [->|[]]. exfalso. apply Ha. eapply in_concat_of; eassumption.
  - destruct Hj as [->|[]], Hk as [->|[]]. reflexivity.
Qed.
Lemma player_NoDup C m P g : coalitions_ok C m -> is_players C m P -> In g P -> NoDup g.
Proof.
  intros [Hd _] [_ HP] Hg. apply HP in Hg. destruct Hg as [[Hg _]|[a [_ [_ ->]]]].
  - eapply NoDup_concat_in; eassumption.
  - constructor; [intros []|constructor].
Qed.
Lemma player_bound C m P g j : coalitions_ok C m -> is_players C m P -> In g P -> In j g -> j < m.
Proof.
  intros [_ [Hb _]] [_ HP] Hg Hj. apply HP in Hg. destruct Hg as [[Hg _]|[a [Ha [_ ->]]]].
  - apply Hb. eapply in_concat_of; eassumption.
  - destruct Hj as [->|[]]. trivial.
Qed.
Lemma player_exists C m P j : is_players C m P -> j < m -> exists g, In g P /\ In j g.
Proof.
  intros [_ HP] Hj. destruct (in_dec Nat.eq_dec j (concat C)) as [H|H].
  - apply in_concat in H. destruct H as [g [Hg Hjg]]. exists g. split; [|trivial].
    apply HP. left. split; [trivial|]. intros ->. contradiction.
  - exists [j]. split; [|now left]. apply HP. right. eauto.
Qed.
Lemma players_length C m P : coalitions_ok C m -> is_players C m P -> length P <= m.
Proof.
  intros HC HP. assert (Hnd : NoDup (concat P) ).
  { assert (G : forall Q, NoDup Q -> incl Q P -> NoDup (concat Q)).
    { induction Q as [|g Q IH]; intros Hd Hi; cbn; [constructor|].
      inversion Hd as [|? ? Hn Hd']; subst.
      assert (HgP : In g P) by (apply Hi; now left).
      assert (IHQ : NoDup (concat Q)) by (apply IH; [trivial|intros a Ha; apply Hi; now right]).
      pose proof (player_NoDup C m P g HC HP HgP) as Hg.
      assert (Hdisj : forall a, In a g -> ~ In a (concat Q)).
      { intros a Ha Hc. apply in_concat in Hc. destruct Hc as [h [Hh Hah]].
        assert (g = h) by (eapply (player_unique C m P); eauto; apply Hi; now right).
        subst h. contradiction. }
      clear - IHQ Hg Hdisj. induction Hg as [|a g Hna Hg IH]; [trivial|].
      cbn. constructor.
      - intro H. apply in_app_or in H. destruct H as [H|H]; [contradiction|].
        eapply Hdisj; [now left|eassumption].
      - apply IH. intros b Hb. apply Hdisj. now right. }
    apply G; [apply HP|apply incl_refl]. }
  assert (Hle : length (concat P) <= m).
  { rewrite <- (seq_length m 0). apply NoDup_incl_length; [trivial|].
    intros a Ha. apply in_concat in Ha. destruct Ha as [g [Hg Ha]].
    apply in_seq. pose proof (player_bound C m P g a HC HP Hg Ha). lia. }
  assert (Hlen : length P <= length (concat P)).
  { assert (Hne : forall g, In g P -> g <> []).
    { intros g Hg. apply HP in Hg. destruct Hg as [[_ H]|[i [_ [_ ->]]]]; [trivial|discriminate]. }
    clear - Hne. induction P as [|g P IH]; cbn; [lia|]. rewrite app_length.
    assert (g <> []) by (apply Hne; now left). destruct g; [congruence|]. cbn.
    assert (length P <= length (concat P)) by (apply IH; intros; apply Hne; now right). lia. }
  lia.
Qed.

(** ** One leaf, one player *)
Definition touches (lf : leaf) (g : group) : bool := existsb (fun s => memb s (l_vars lf)) g.
Lemma touches_true lf g : touches lf g = true <-> exists s, In s g /\ In s (l_vars lf).
Proof.
  unfold touches. rewrite existsb_exists. split; intros [s [H1 H2]]; exists s; split; trivial;
  now apply memb_true.
Qed.

Lemma leaf_groups_touch C m P lf : coalitions_ok C m -> is_players C m P -> leaf_ok m lf ->
  NoDup (leaf_groups C m (l_vars lf)) /\
  Permutation (leaf_groups C m (l_vars lf)) (filter (touches lf) P).
Proof.
  intros HC HP [Hn [Hm _]]. destruct (leaf_groups_spec C m (l_vars lf) HC Hn Hm) as [H1 H2].
  split; [trivial|]. apply NoDup_Permutation; [trivial|apply NoDup_filter, HP|].
  intro g. rewrite H2, filter_In, touches_true. destruct HP as [_ HP]. rewrite HP. split.
  - intros [[i [Hi [Hni ->]]]|[Hg [i [Hi Hig]]]].
    + split; [right; exists i; auto|]. exists i. split; [now left|trivial].
    + split; [left; split; [trivial|intros ->; contradiction]|]. exists i. auto.
  - intros [[[Hg _]|[i [_ [Hni ->]]]] [s [Hs Hv]]].
    + right. split; [trivial|]. exists s. auto.
    + destruct Hs as [->|[]]. left. exists s. auto.
Qed.

Theorem leaf_player_shapley C m P data x lf va :
  coalitions_ok C m -> is_players C m P -> leaf_ok m lf -> data <> [] -> In va P ->
  (leaf_player C m data x lf va / Qn m ==
   l_val lf * shapley gdec P (leaf_game m data lf x) va)%Q.
Proof.
  intros HC HP Hlf Hd Hva.
  destruct (leaf_groups_touch C m P lf HC HP Hlf) as [Hn Hperm].
  unfold leaf_player, others.
  destruct (in_dec group_eq_dec va (leaf_groups C m (l_vars lf))) as [Hin|Hin].
  - assert (Ht : touches lf va = true).
    { apply (Permutation_in va Hperm) in Hin. apply filter_In in Hin. tauto. }
    rewrite (shapley_restrict gdec P (leaf_groups C m (l_vars lf)) _ va (touches lf)); trivial.
    2: apply HP.
    2: apply leaf_game_is_game.
    2:{ intros p Hp Hf. apply leaf_game_null; [trivial|]. intros s Hs Hv.
        assert (touches lf p = true) by (apply touches_true; eauto). congruence. }
    set (L := leaf_groups C m (l_vars lf)) in *.
    rewrite (remove1_remove va L Hn).
    assert (Hlen : S (length (remove group_eq_dec va L)) = length L)
      by (apply (GameProofs.remove_length group_eq_dec); trivial).
    assert (HLm : length L <= m).
    { rewrite (Permutation_length Hperm). exact (Nat.le_trans _ _ _ (filter_length_le (touches lf) P) (players_length C m P HC HP)). }
    set (gs := remove group_eq_dec va L) in *.
    unfold Qdiv. rewrite <- sumf_scal_r.
    rewrite (sumf_ext _ (fun c => (fun T => weight (length gs + 1) (length T) *
       (leaf_game m data lf x (va :: T) - leaf_game m data lf x T) * l_val lf)%Q (pick c gs))).
    2:{ intros c _. apply (term_value m data x lf va gs c); trivial. lia. }
    rewrite (pick_subs (fun T => weight (length gs + 1) (length T) *
       (leaf_game m data lf x (va :: T) - leaf_game m data lf x T) * l_val lf)%Q gs).
    unfold GameSpec.shapley. fold gs. rewrite <- sumf_scal.
    change (remove gdec va L) with gs.
    apply sumf_ext. intros T _. replace (length L) with (length gs + 1) by lia. ring.
  - rewrite (shapley_null gdec P); [unfold Qdiv; ring|].
    apply leaf_game_null; [trivial|]. intros s Hs Hv. apply Hin.
    apply (Permutation_in va (Permutation_sym Hperm)). apply filter_In. split; [trivial|].
    apply touches_true. eauto.
Qed.

(** ** C06 *)
Theorem shap_is_shapley C m P data forest x g j :
  coalitions_ok C m -> is_players C m P -> forest_ok m forest -> data <> [] ->
  In g P -> In j g ->
  (shap_values_leaves C m data forest x j == shapley gdec P (worth m data forest x) g)%Q.
Proof.
  intros HC HP HF Hd Hg Hj. unfold shap_values_leaves, worth.
  pose proof (va_ids_players C m HC) as HV.
  assert (Hgv : In g (va_ids C m)) by (apply HV; apply HP in Hg; exact Hg).
  unfold Qdiv. rewrite <- sumf_scal_r.
  rewrite (shapley_sum gdec P (fun ls T => sumf (fun lf => l_val lf * cond_prob m data (l_rect lf) (concat T) x)%Q ls)).
  apply sumf_ext. intros ls Hls. rewrite <- sumf_scal_r.
  rewrite (shapley_sum gdec P (fun lf T => l_val lf * cond_prob m data (l_rect lf) (concat T) x)%Q).
  apply sumf_ext. intros lf Hlf.
  rewrite (sumf_single _ (va_ids C m) g); trivial.
  - assert (E : count_occ Nat.eq_dec g j = 1).
    { pose proof (player_NoDup C m P g HC HP Hg) as Hnd.
      rewrite (NoDup_count_occ' Nat.eq_dec) in Hnd. now apply Hnd. }
    rewrite E. change (Qn 1) with 1%Q. rewrite Qmult_1_l.
    change (leaf_player C m data x lf g * / Qn m)%Q with (leaf_player C m data x lf g / Qn m)%Q.
    rewrite (leaf_player_shapley C m P data x lf g) by (trivial; eapply HF; eassumption).
    rewrite shapley_scal. reflexivity.
  - apply HV.
  - intros h Hh Hne. assert (E : count_occ Nat.eq_dec h j = 0).
    { apply count_occ_not_In. intro Hjh. apply Hne. symmetry.
      eapply (player_unique C m (va_ids C m)); eassumption. }
    rewrite E. rewrite Qn_0. ring.
Qed.

Lemma worth_is_game m data forest x : is_game (worth m data forest x).
Proof.
  intros T U P. unfold worth. apply sumf_ext. intros ls _. apply sumf_ext. intros lf _.
  apply Qmult_comp; [reflexivity|]. exact (leaf_game_is_game m data lf x T U P).
Qed.

Theorem shap_is_order_average C m P data forest x g j :
  coalitions_ok C m -> is_players C m P -> forest_ok m forest -> data <> [] ->
  In g P -> In j g ->
  (shap_values_leaves C m data forest x j == shapley_orders gdec P (worth m data forest x) g)%Q.
Proof.
  intros HC HP HF Hd Hg Hj. transitivity (shapley gdec P (worth m data forest x) g).
  - now apply (shap_is_shapley C).
  - symmetry. apply shapley_is_order_average; [apply HP|trivial|apply worth_is_game].
Qed.

(** ** C07 *)
Theorem shap_efficiency C m P data forest x (rep : group -> nat) :
  coalitions_ok C m -> is_players C m P -> forest_ok m forest -> data <> [] ->
  (forall g, In g P -> In (rep g) g) ->
  (sumf (fun g => shap_values_leaves C m data forest x (rep g)) P ==
   worth m data forest x P - worth m data forest x [])%Q.
Proof.
  intros HC HP HF Hd Hr.
  rewrite (sumf_ext _ (shapley gdec P (worth m data forest x))).
  2:{ intros g Hg. apply (shap_is_shapley C); trivial. now apply Hr. }
  apply shapley_efficiency; [apply HP|apply worth_is_game].
Qed.

Lemma leaf_sat_players C m P lf x : is_players C m P -> leaf_ok m lf -> coalitions_ok C m ->
  sat_on (l_rect lf) (concat P) x = in_rect m (l_rect lf) x.
Proof.
  intros HP Hlf HC. change (in_rect m (l_rect lf) x) with (sat_on (l_rect lf) (seq 0 m) x).
  apply sat_on_same. intro s. split; intro H.
  - apply in_concat in H. destruct H as [g [Hg Hs]].
    apply in_seq. pose proof (player_bound C m P g s HC HP Hg Hs). lia.
  - apply in_seq in H. destruct (player_exists C m P s HP ltac:(lia)) as [g [Hg Hs]].
    eapply in_concat_of; eassumption.
Qed.

(** worth of everybody: the value of the populated leaf reached *)
Lemma worth_all C m P data forest x : coalitions_ok C m -> is_players C m P -> forest_ok m forest ->
  (forall ls lf, In ls forest -> In lf ls -> in_rect m (l_rect lf) x = true ->
     exists z, In z data /\ in_rect m (l_rect lf) z = true) ->
  (worth m data forest x P ==
   sumf (fun ls => sumf (fun lf => Qb (in_rect m (l_rect lf) x) * l_val lf) ls) forest)%Q.
Proof.
  intros HC HP HF Hpop. unfold worth. apply sumf_ext. intros ls Hls. apply sumf_ext. intros lf Hlf.
  assert (Hok : leaf_ok m lf) by (eapply HF; eassumption).
  unfold cond_prob. rewrite (leaf_sat_players C m P lf x HP Hok HC).
  destruct (in_rect m (l_rect lf) x) eqn:E; cbn [Qb]; [|ring].
  assert (R : rows_in data (l_rect lf) (concat P) = rows_in data (l_rect lf) (seq 0 m)).
  { unfold rows_in. f_equal. apply filter_ext_in'. intros z _. now apply (leaf_sat_players C). }
  rewrite R. destruct (Hpop ls lf Hls Hlf E) as [z [Hz Hzin]].
  destruct (rows_in data (l_rect lf) (seq 0 m)) as [|n] eqn:En.
  - exfalso. unfold rows_in in En. apply length_zero_iff_nil in En.
    assert (Hin : In z (filter (sat_on (l_rect lf) (seq 0 m)) data)) by (apply filter_In; auto).
    rewrite En in Hin. contradiction.
  - field. apply Qn_neq0. lia.
Qed.

(** worth of nobody: the average over the background rows *)
Lemma worth_none m data forest x : data <> [] ->
  (worth m data forest x [] ==
   sumf (fun z => sumf (fun ls => sumf (fun lf => Qb (in_rect m (l_rect lf) z) * l_val lf) ls) forest) data
   / Qn (length data))%Q.
Proof.
  intro Hd. unfold worth, Qdiv.
  rewrite (sumf_swap (fun z ls => sumf (fun lf => Qb (in_rect m (l_rect lf) z) * l_val lf)%Q ls)).
  rewrite <- sumf_scal_r. apply sumf_ext. intros ls _.
  rewrite (sumf_swap (fun z lf => Qb (in_rect m (l_rect lf) z) * l_val lf)%Q).
  rewrite <- sumf_scal_r. apply sumf_ext. intros lf _.
  unfold cond_prob. cbn [concat sat_on forallb].
  assert (R : rows_in data (l_rect lf) [] = length data).
  { unfold rows_in. f_equal. clear. induction data as [|a l IH]; cbn; [trivial|now rewrite IH]. }
  rewrite R. destruct data as [|a data]; [congruence|]. cbn [length].
  rewrite sumf_scal_r, (sumf_count (in_rect m (l_rect lf))).
  unfold rows_in. change (sat_on (l_rect lf) (seq 0 m)) with (in_rect m (l_rect lf)).
  field. apply Qn_neq0. lia.
Qed.

Lemma forest_leaves_in ts forest ls : forest_leaves ts = Some forest -> In ls forest ->
  exists t, In t ts /\ tree_leaves t = Some ls.
Proof.
  revert forest. induction ts as [|t ts IH]; intros forest H Hin; cbn in H.
  - injection H as <-. contradiction.
  - destruct (tree_leaves t) as [l|] eqn:E; [|discriminate].
    destruct (forest_leaves ts) as [f|]; [|discriminate]. injection H as <-.
    destruct Hin as [<-|Hin]; [exists t; split; [now left|trivial]|].
    destruct (IH f eq_refl Hin) as [t' [H1 H2]]. exists t'. split; [now right|trivial].
Qed.

Lemma forest_leaves_ok ts m forest : forallb (fun t => wf_tree t m) ts = true ->
  forest_leaves ts = Some forest -> forest_ok m forest.
Proof.
  intros Hwf Hf ls lf Hls Hlf. destruct (forest_leaves_in ts forest ls Hf Hls) as [t [Ht E]].
  rewrite forallb_forall in Hwf. specialize (Hwf t Ht).
  destruct (leaves_from_nth t _ ls E) as [Hlen Hnth].
  destruct (In_nth_error _ _ Hlf) as [k Hk]. specialize (Hnth k).
  destruct (nth_error (leaf_idx t) k) as [i|] eqn:Ei; [|congruence].
  rewrite Hk in Hnth. assert (Hi : In i (leaf_idx t)) by (eapply nth_error_In; eassumption).
  destruct (leaf_vars_exact t m Hwf i lf Hi Hnth) as [H1 [H2 [H3 [H4 _]]]].
  repeat split; trivial.
Qed.

Lemma nth_error_single {A} (f : A -> Q) l k a : nth_error l k = Some a ->
  (forall k' b, nth_error l k' = Some b -> k' <> k -> (f b == 0)%Q) -> (sumf f l == f a)%Q.
Proof.
  revert k. induction l as [|b l IH]; intros [|k] H Hz; cbn in *; try discriminate.
  - injection H as ->. rewrite sumf_zero; [lra|]. intros c Hc.
    destruct (In_nth_error _ _ Hc) as [k' Hk']. apply (Hz (S k') c); [trivial|lia].
  - rewrite (IH k H).
    + rewrite (Hz 0 b) by (trivial; lia). lra.
    + intros k' c Hk' Hne. apply (Hz (S k') c); [trivial|lia].
Qed.

Lemma tree_leaf_sum t m ls x v : wf_tree t m = true -> tree_leaves t = Some ls ->
  leaf_value t x no_missing v ->
  (sumf (fun lf => Qb (in_rect m (l_rect lf) x) * l_val lf) ls == v)%Q.
Proof.
  intros Hwf Hls Hv. destruct (tiling t m Hwf) as [ls' [Hls' [_ Ht]]].
  assert (ls' = ls) by congruence. subst ls'.
  destruct (Ht x) as [k [l [lf [H1 [H2 [H3 [H4 [H5 H6]]]]]]]].
  rewrite (nth_error_single _ ls k lf H3).
  - apply in_rect_Inside in H4. rewrite H4, H5. cbn [Qb].
    apply (predict_value_leaf t m x no_missing v Hwf) in Hv. unfold predict_value in Hv.
    rewrite H2 in Hv. injection Hv as <-. ring.
  - intros k' lf' Hk' Hne. destruct (in_rect m (l_rect lf') x) eqn:E; [|cbn [Qb]; ring].
    exfalso. apply Hne. eapply H6; [eassumption|]. now apply in_rect_Inside.
Qed.

Lemma forest_sum ts m forest x off r : forallb (fun t => wf_tree t m) ts = true ->
  forest_leaves ts = Some forest ->
  dense_tree_predict ts (length ts) off x no_missing = Some r ->
  (sumf (fun ls => sumf (fun lf => Qb (in_rect m (l_rect lf) x) * l_val lf) ls) forest == r - off)%Q.
Proof.
  intros Hwf Hf Hp.
  destruct (dense_predict_sum ts (length ts) off x no_missing m Hwf) as [vs [r' [H1 [H2 H3]]]].
  assert (r' = r) by congruence. subst r'. rewrite firstn_all in H1.
  assert (E : (sumf (fun ls => sumf (fun lf => Qb (in_rect m (l_rect lf) x) * l_val lf) ls) forest
              == sumf (fun v => v) vs)%Q); [|rewrite E, H3; ring].
  clear - Hwf Hf H1. revert forest Hf. induction H1 as [|t v ts vs Hv H1 IH]; intros forest Hf; cbn in Hf.
  - injection Hf as <-. reflexivity.
  - cbn in Hwf. apply andb_true_iff in Hwf. destruct Hwf as [Ht Hts].
    destruct (tree_leaves t) as [ls|] eqn:E; [|discriminate].
    destruct (forest_leaves ts) as [f|] eqn:Ef; [|discriminate]. injection Hf as <-.
    cbn [sumf]. rewrite (IH Hts f eq_refl), (tree_leaf_sum t m ls x v Ht E); [reflexivity|].
    now apply (predict_value_leaf t m).
Qed.

Theorem shap_accounts_for_prediction C m P data ts forest x off rx rdata (rep : group -> nat) :
  coalitions_ok C m -> is_players C m P -> (forall g, In g P -> In (rep g) g) ->
  forallb (fun t => wf_tree t m) ts = true -> forest_leaves ts = Some forest -> data <> [] ->
  (forall ls lf, In ls forest -> In lf ls -> Inside m (l_rect lf) x ->
     exists z, In z data /\ Inside m (l_rect lf) z) ->
  dense_tree_predict ts (length ts) off x no_missing = Some rx ->
  Forall2 (fun z r => dense_tree_predict ts (length ts) off z no_missing = Some r) data rdata ->
  (sumf (fun g => shap_values_leaves C m data forest x (rep g)) P ==
   rx - sumf (fun r => r) rdata / Qn (length data))%Q.
Proof.
  intros HC HP Hr Hwf Hf Hd Hpop Hx Hdata.
  pose proof (forest_leaves_ok ts m forest Hwf Hf) as HF.
  rewrite shap_efficiency by trivial.
  assert (Hpop' : forall ls lf, In ls forest -> In lf ls -> in_rect m (l_rect lf) x = true ->
     exists z, In z data /\ in_rect m (l_rect lf) z = true).
  { intros ls lf H1 H2 H3. apply in_rect_Inside in H3.
    destruct (Hpop ls lf H1 H2 H3) as [z [Hz Hzi]]. exists z. split; [trivial|now apply in_rect_Inside]. }
  rewrite (worth_all C m P data forest x HC HP HF Hpop').
  rewrite worth_none by trivial.
  rewrite (forest_sum ts m forest x off rx Hwf Hf Hx).
  assert (E : (sumf (fun z => sumf (fun ls => sumf (fun lf => Qb (in_rect m (l_rect lf) z) * l_val lf) ls) forest) data
              == sumf (fun r => r) rdata - Qn (length data) * off)%Q).
  { clear - Hwf Hf Hdata. induction Hdata as [|z r data rdata Hz H IH]; cbn [sumf length].
    - rewrite Qn_0. ring.
    - rewrite IH, (forest_sum ts m forest z off r Hwf Hf Hz), Qn_S. ring. }
  rewrite E. assert (~ Qn (length data) == 0)%Q by (apply Qn_neq0; destruct data; [congruence|cbn; lia]).
  field. trivial.
Qed.

(** ** C08 *)
Theorem unused_feature_zero C m P data forest x g j :
  coalitions_ok C m -> is_players C m P -> forest_ok m forest -> data <> [] ->
  In g P -> In j g ->
  (forall ls lf s, In ls forest -> In lf ls -> In s g -> ~ In s (l_vars lf)) ->
  (shap_values_leaves C m data forest x j == 0)%Q.
Proof.
  intros HC HP HF Hd Hg Hj Hn. rewrite (shap_is_shapley C m P data forest x g j) by trivial.
  apply shapley_null. intro T. unfold worth. apply sumf_ext. intros ls Hls. apply sumf_ext. intros lf Hlf.
  apply Qmult_comp; [reflexivity|].
  apply (leaf_game_null m data lf x g); [eapply HF; eassumption|]. intros s. now apply (Hn ls lf).
Qed.

(** ** C09 *)
Theorem coalition_members_share C m P data forest x g j k :
  coalitions_ok C m -> is_players C m P -> forest_ok m forest -> data <> [] ->
  In g P -> In j g -> In k g ->
  (shap_values_leaves C m data forest x j == shap_values_leaves C m data forest x k)%Q.
Proof.
  intros. rewrite !(shap_is_shapley C m P data forest x g) by trivial. reflexivity.
Qed.

Lemma rows_in_wider m m' data lf : leaf_ok m lf -> m <= m' ->
  rows_in data (l_rect lf) (seq 0 m') = rows_in data (l_rect lf) (seq 0 m).
Proof.
  intros [_ [Hv Hu]] H. unfold rows_in. f_equal. apply filter_ext_in'. intros z _.
  apply bool_eq_iff. rewrite !sat_on_true. split; intros K s Hs.
  - apply K. apply in_seq in Hs. apply in_seq. lia.
  - destruct (in_dec Nat.eq_dec s (l_vars lf)) as [Hi|Hi].
    + apply K, in_seq. specialize (Hv s Hi). lia.
    + rewrite (Hu s Hi). reflexivity.
Qed.

Theorem extra_columns_irrelevant C m m' data forest x j :
  coalitions_ok C m -> forest_ok m forest -> data <> [] -> j < m -> m <= m' ->
  (shap_values_leaves C m' data forest x j == shap_values_leaves C m data forest x j)%Q.
Proof.
  intros HC HF Hd Hj Hm.
  assert (HC' : coalitions_ok C m').
  { destruct HC as [H1 [H2 H3]]. split; [trivial|]. split; [|trivial]. intros i Hi. specialize (H2 i Hi). lia. }
  assert (HF' : forest_ok m' forest).
  { intros ls lf H1 H2. destruct (HF ls lf H1 H2) as [K1 [K2 K3]]. split; [trivial|]. split; [|trivial].
    intros s Hs. specialize (K2 s Hs). lia. }
  pose proof (va_ids_players C m HC) as HP. pose proof (va_ids_players C m' HC') as HP'.
  destruct (player_exists C m (va_ids C m) j HP Hj) as [g [Hg Hjg]].
  assert (Hinc : forall h, In h (va_ids C m) -> In h (va_ids C m')).
  { intros h Hh. apply HP'. apply HP in Hh. destruct Hh as [Hh|[i [Hi Hh]]]; [now left|].
    right. exists i. split; [lia|trivial]. }
  rewrite (shap_is_shapley C m (va_ids C m) data forest x g j) by trivial.
  rewrite (shap_is_shapley C m' (va_ids C m') data forest x g j) by auto.
  rewrite (shapley_ext gdec (va_ids C m') _ (worth m data forest x)).
  2:{ intro T. unfold worth. apply sumf_ext. intros ls Hls. apply sumf_ext. intros lf Hlf.
      unfold cond_prob. rewrite (rows_in_wider m m' data lf) by (trivial; eapply HF; eassumption).
      reflexivity. }
  apply (shapley_restrict gdec (va_ids C m') (va_ids C m) _ g (fun h => if in_dec gdec h (va_ids C m) then true else false)).
  - apply HP'.
  - auto.
  - destruct (in_dec gdec g (va_ids C m)); [reflexivity|contradiction].
  - apply worth_is_game.
  - intros p Hp Hnot. destruct (in_dec gdec p (va_ids C m)) as [|Hnp]; [discriminate|].
    assert (Hsing : exists i, m <= i /\ p = [i]).
    { apply HP' in Hp. destruct Hp as [Hp|[i [Hi [Hni ->]]]].
      - exfalso. apply Hnp, HP. now left.
      - exists i. split; [|reflexivity]. destruct (le_lt_dec m i); [trivial|].
        exfalso. apply Hnp, HP. right. exists i. auto. }
    destruct Hsing as [i [Hi ->]]. intro T. unfold worth. apply sumf_ext. intros ls Hls.
    apply sumf_ext. intros lf Hlf. apply Qmult_comp; [reflexivity|].
    apply (leaf_game_null m data lf x [i]); [eapply HF; eassumption|].
    intros s [<-|[]] Hs. destruct (HF ls lf Hls Hlf) as [_ [K _]]. specialize (K i Hs). lia.
  - apply NoDup_Permutation; [apply HP|apply NoDup_filter, HP'|].
    intro h. rewrite filter_In. split.
    + intro Hh. split; [auto|]. destruct (in_dec gdec h (va_ids C m)); [trivial|contradiction].
    + intros [_ Hh]. destruct (in_dec gdec h (va_ids C m)); [trivial|discriminate].
Qed.

(** ** C10 *)
Lemma indexed_nth {A} (l : list A) d k a : In (k, a) (indexed l) -> nth k l d = a.
Proof.
  unfold indexed. assert (G : forall s, In (k, a) (combine (seq s (length l)) l) -> s <= k /\ nth (k - s) l d = a).
  { induction l as [|b l IH]; intros s H; cbn in H; [contradiction|].
    destruct H as [E|H].
    - injection E as -> ->. rewrite Nat.sub_diag. split; [lia|reflexivity].
    - apply IH in H. destruct H as [H1 H2]. split; [lia|].
      replace (k - s) with (S (k - S s)) by lia. exact H2. }
  intro H. apply G in H. now rewrite Nat.sub_0_r in H.
Qed.
Lemma sumf_indexed {A} (f : A -> Q) l : (sumf (fun p => f (snd p)) (indexed l) == sumf f l)%Q.
Proof.
  unfold indexed. generalize 0. induction l as [|a l IH]; intro s; [reflexivity|].
  cbn [length seq combine sumf snd]. rewrite IH. reflexivity.
Qed.

Theorem cache_same C m data forest x j :
  (shap_values_leaves_cache (leaves_cache C m data forest) C m (length data) forest x j ==
   shap_values_leaves C m data forest x j)%Q.
Proof.
  unfold shap_values_leaves_cache, shap_values_leaves. apply Qmult_comp; [|reflexivity].
  rewrite <- (sumf_indexed _ forest). apply sumf_ext. intros [b ls] Hb. cbn [fst snd].
  rewrite <- (sumf_indexed _ ls). apply sumf_ext. intros [k lf] Hk. cbn [fst snd].
  rewrite <- (sumf_indexed _ (va_ids C m)). apply sumf_ext. intros [i va] Hi. cbn [fst snd].
  apply Qmult_comp; [reflexivity|].
  unfold leaf_player_cache, leaf_player, leaves_cache. cbn [c_lm c_lms c_lmsi].
  rewrite (indexed_nth forest [] b ls Hb), (indexed_nth ls dummy_leaf k lf Hk),
    (indexed_nth (va_ids C m) [] i va Hi).
  destruct (others C m lf va) as [gs|]; [|reflexivity].
  apply sumf_ext. intros c Hc. apply in_seq in Hc.
  destruct (Nat.ltb_spec c (2 ^ length gs)); [|lia]. reflexivity.
Qed.

(** Proofs about the Gaussian routines. *)
From Verif Require Import Base MvnModel MvnSpec.
Local Open Scope nat_scope.

Lemma Sm_ext k f g : (forall i, i < k -> (f i == g i)%Q) -> (sumf f (seq 0 k) == sumf g (seq 0 k))%Q.
Proof. intro H. apply sumf_ext. intros a Ha. apply in_seq in Ha. apply H. lia. Qed.
Lemma seq_shift_map q k : map (fun l => q + l) (seq 0 k) = seq q k.
Proof.
  assert (E : forall a c, map (fun l => a + l) (seq c k) = seq (a + c) k).
  { induction k as [|k IH]; intros a c; [reflexivity|]. cbn [seq map]. f_equal. rewrite IH. f_equal. lia. }
  rewrite E. f_equal. lia.
Qed.
Lemma Sm_plus_idx q k f : (sumf f (seq 0 (q + k)) == sumf f (seq 0 q) + sumf (fun l => f (q + l)%nat) (seq 0 k))%Q.
Proof.
  rewrite seq_app, sumf_app. cbn [plus]. rewrite <- (sumf_map (fun l => q + l) f (seq 0 k)), seq_shift_map. reflexivity.
Qed.
Lemma Sm_delta k i f : i < k -> (sumf (fun l => delta i l * f l) (seq 0 k) == f i)%Q.
Proof.
  intro Hi. rewrite (sumf_single _ (seq 0 k) i).
  - unfold delta. rewrite Nat.eqb_refl. lra.
  - apply seq_NoDup.
  - apply in_seq. lia.
  - intros b _ Hb. unfold delta. destruct (Nat.eqb_spec i b); [congruence|lra].
Qed.
Lemma delta_sym i j : delta i j = delta j i.
Proof. unfold delta. rewrite Nat.eqb_sym. reflexivity. Qed.
Lemma Sm_delta_r k i f : i < k -> (sumf (fun l => f l * delta l i) (seq 0 k) == f i)%Q.
Proof.
  intro Hi. rewrite <- (Sm_delta k i f Hi). apply Sm_ext. intros l _. rewrite delta_sym. lra.
Qed.
(** the product of a product *)
Lemma Sm_assoc k k' (a : nat -> Q) (M : nat -> nat -> Q) (b : nat -> Q) :
  (sumf (fun l => sumf (fun m => a m * M m l) (seq 0 k') * b l) (seq 0 k) ==
   sumf (fun m => a m * sumf (fun l => M m l * b l) (seq 0 k)) (seq 0 k'))%Q.
Proof.
  rewrite (Sm_ext k _ (fun l => sumf (fun m => a m * M m l * b l)%Q (seq 0 k'))) by (intros; rewrite <- sumf_scal_r; reflexivity).
  rewrite sumf_swap. apply Sm_ext. intros m _. rewrite <- sumf_scal. apply Sm_ext. intros l _. lra.
Qed.

(** a system with an invertible matrix has one solution *)
Lemma solve_unique k A B z y : is_inverse k A B ->
  (forall i, i < k -> (sumf (fun l => A i l * z l) (seq 0 k) == y i)%Q) ->
  forall i, i < k -> (z i == sumf (fun l => B i l * y l) (seq 0 k))%Q.
Proof.
  intros HI H i Hi.
  rewrite <- (Sm_ext k (fun l => B i l * sumf (fun m => A l m * z m) (seq 0 k))%Q) by (intros l Hl; rewrite (H l Hl); reflexivity).
  rewrite <- Sm_assoc.
  rewrite (Sm_ext k _ (fun l => delta i l * z l)%Q).
  - rewrite Sm_delta by exact Hi. reflexivity.
  - intros l Hl. rewrite (proj2 (HI i l Hi Hl)). reflexivity.
Qed.
Lemma solve_exists k A B y : is_inverse k A B ->
  forall i, i < k -> (sumf (fun l => A i l * sumf (fun m => B l m * y m) (seq 0 k)) (seq 0 k) == y i)%Q.
Proof.
  intros HI i Hi. rewrite <- Sm_assoc.
  rewrite (Sm_ext k _ (fun l => delta i l * y l)%Q).
  - apply Sm_delta. exact Hi.
  - intros l Hl. rewrite (proj1 (HI i l Hi Hl)). reflexivity.
Qed.
(** the same for rows *)
Lemma row_exists k A B y : is_inverse k A B ->
  forall j, j < k -> (sumf (fun l => sumf (fun m => y m * B m l) (seq 0 k) * A l j) (seq 0 k) == y j)%Q.
Proof.
  intros HI j Hj. rewrite Sm_assoc.
  rewrite (Sm_ext k _ (fun l => y l * delta l j)%Q).
  - apply Sm_delta_r. exact Hj.
  - intros l Hl. rewrite (proj2 (HI l j Hl Hj)). reflexivity.
Qed.

(** ** covariances *)
Lemma covar_ext n C u u' v v' : (forall i, i < n -> (u i == u' i)%Q) -> (forall i, i < n -> (v i == v' i)%Q) ->
  (covar n C u v == covar n C u' v')%Q.
Proof.
  intros Hu Hv. unfold covar. apply Sm_ext. intros i Hi. apply Sm_ext. intros j Hj. rewrite (Hu i Hi), (Hv j Hj). reflexivity.
Qed.
Lemma covar_minus_l n C u u' v : (covar n C (fun k => u k - u' k) v == covar n C u v - covar n C u' v)%Q.
Proof.
  unfold covar. rewrite <- sumf_minus. apply Sm_ext. intros i _. rewrite <- sumf_minus. apply Sm_ext. intros j _. lra.
Qed.
Lemma covar_plus_l n C u u' v : (covar n C (fun k => u k + u' k) v == covar n C u v + covar n C u' v)%Q.
Proof.
  unfold covar. rewrite <- sumf_plus. apply Sm_ext. intros i _. rewrite <- sumf_plus. apply Sm_ext. intros j _. lra.
Qed.
Lemma covar_flip n C u v : (covar n C u v == covar n (fun i j => C j i) v u)%Q.
Proof. unfold covar. rewrite sumf_swap. apply Sm_ext. intros i _. apply Sm_ext. intros j _. lra. Qed.
Lemma covar_sym n C u v : symm n C -> (covar n C u v == covar n C v u)%Q.
Proof.
  intro Hs. rewrite covar_flip. unfold covar. apply Sm_ext. intros i Hi. apply Sm_ext. intros j Hj.
  rewrite (Hs j i Hj Hi). reflexivity.
Qed.
Lemma covar_minus_r n C u v v' : (covar n C u (fun k => v k - v' k) == covar n C u v - covar n C u v')%Q.
Proof. rewrite (covar_flip n C u v), (covar_flip n C u v'), covar_flip, covar_minus_l. reflexivity. Qed.
Lemma covar_plus_r n C u v v' : (covar n C u (fun k => v k + v' k) == covar n C u v + covar n C u v')%Q.
Proof. rewrite (covar_flip n C u v), (covar_flip n C u v'), covar_flip, covar_plus_l. reflexivity. Qed.
Lemma covar_sum_l n C p (w : vec) (U : nat -> vec) v :
  (covar n C (fun k => sumf (fun i => w i * U i k) (seq 0 p)) v == sumf (fun i => w i * covar n C (U i) v) (seq 0 p))%Q.
Proof.
  unfold covar.
  rewrite (Sm_ext p (fun i => w i * _)%Q (fun i => sumf (fun a => sumf (fun j => w i * (U i a * v j * C a j)) (seq 0 n)) (seq 0 n))%Q)
    by (intros i _; rewrite <- sumf_scal; apply Sm_ext; intros a _; rewrite <- sumf_scal; reflexivity).
  rewrite (sumf_swap (fun i a => sumf (fun j => w i * (U i a * v j * C a j))%Q (seq 0 n))).
  apply Sm_ext. intros a _. rewrite (sumf_swap (fun i j => (w i * (U i a * v j * C a j))%Q)).
  apply Sm_ext. intros j _.
  rewrite <- (sumf_scal_r (v j)), <- (sumf_scal_r (C a j)). apply Sm_ext. intros i _. lra.
Qed.
Lemma covar_sum_r n C p (w : vec) (U : nat -> vec) v :
  (covar n C v (fun k => sumf (fun i => w i * U i k) (seq 0 p)) == sumf (fun i => w i * covar n C v (U i)) (seq 0 p))%Q.
Proof.
  rewrite covar_flip, covar_sum_l. apply Sm_ext. intros i _. rewrite (covar_flip n C v (U i)). reflexivity.
Qed.
Lemma covar_coord n C a b : a < n -> b < n -> (covar n C (coord a) (coord b) == C a b)%Q.
Proof.
  intros Ha Hb. unfold covar, coord.
  transitivity (sumf (fun i => delta a i * C i b)%Q (seq 0 n)); [|apply (Sm_delta n a (fun i => C i b)); exact Ha].
  apply Sm_ext. intros i _. transitivity (sumf (fun j => delta b j * (delta a i * C i j))%Q (seq 0 n)).
  - apply Sm_ext. intros; lra.
  - apply (Sm_delta n b (fun j => delta a i * C i j)%Q). exact Hb.
Qed.
Lemma covar_comb_l n C s w v : (covar n C (comb s w) v == sumf (fun j => w j * covar n C (coord (nth j s 0%nat)) v) (seq 0 (length s)))%Q.
Proof. exact (covar_sum_l n C (length s) w (fun j => coord (nth j s 0)) v). Qed.
Lemma covar_comb_r n C s w v : (covar n C v (comb s w) == sumf (fun j => w j * covar n C v (coord (nth j s 0%nat))) (seq 0 (length s)))%Q.
Proof. exact (covar_sum_r n C (length s) w (fun j => coord (nth j s 0)) v). Qed.

(** ** the conditional parameters *)
Definition coefs_of (cov B : mat) (bar set : list nat) : mat := fun i l => mmul (length set) (msub cov bar set) B i l.
Lemma in_range_nth n l i : in_range n l = true -> i < length l -> nth i l 0 < n.
Proof.
  unfold in_range. intros H Hi. rewrite forallb_forall in H.
  apply Nat.ltb_lt. apply H. apply nth_In. exact Hi.
Qed.
Lemma spread_some x k : length x = k -> spread x k = Some (fun i => nth i x 0%Q).
Proof. intros <-. unfold spread. rewrite Nat.eqb_refl. reflexivity. Qed.
Lemma cond_some inv n mean cov bar set x g : set <> [] -> condMVN inv n mean cov bar set x = Some g ->
  exists B v, in_range n bar = true /\ in_range n set = true /\ inv (length set) (msub cov set set) = Some B /\
    spread x (length set) = Some v /\ g_dim g = length bar /\
    (forall i, g_mean g i = (mean (nth i bar 0%nat) + sumf (fun j => coefs_of cov B bar set i j * (v j - mean (nth j set 0%nat))) (seq 0 (length set)))%Q) /\
    (forall i j, g_cov g i j = (cov (nth i bar 0%nat) (nth j bar 0%nat) - sumf (fun l => coefs_of cov B bar set i l * cov (nth l set 0%nat) (nth j bar 0%nat)) (seq 0 (length set)))%Q).
Proof.
  intros Hne H. unfold condMVN in H. destruct set as [|s0 set]; [congruence|]. remember (s0 :: set) as st eqn:Est.
  destruct (in_range n bar) eqn:E1; [|discriminate]. destruct (in_range n st) eqn:E2; [|discriminate]. cbn [andb] in H.
  destruct (inv (length st) (msub cov st st)) as [B|] eqn:E3; [|discriminate].
  destruct (spread x (length st)) as [v|] eqn:E4; [|discriminate].
  injection H as <-. exists B, v. repeat (split; [reflexivity|]). split; reflexivity.
Qed.
Lemma coefs_normal cov B bar set i j : is_inverse (length set) (msub cov set set) B -> j < length set ->
  (sumf (fun l => coefs_of cov B bar set i l * cov (nth l set 0%nat) (nth j set 0%nat)) (seq 0 (length set)) == cov (nth i bar 0%nat) (nth j set 0%nat))%Q.
Proof. intros HI Hj. exact (row_exists (length set) (msub cov set set) B (fun m => cov (nth i bar 0) (nth m set 0)) HI j Hj). Qed.
Lemma covar_resid_l n cov b s w v : (covar n cov (resid b s w) v == covar n cov (coord b) v - sumf (fun j => w j * covar n cov (coord (nth j s 0%nat)) v) (seq 0 (length s)))%Q.
Proof. unfold resid. rewrite covar_minus_l, covar_comb_l. reflexivity. Qed.
Lemma covar_resid_r n cov b s w v : (covar n cov v (resid b s w) == covar n cov v (coord b) - sumf (fun j => w j * covar n cov v (coord (nth j s 0%nat))) (seq 0 (length s)))%Q.
Proof. unfold resid. rewrite covar_minus_r, covar_comb_r. reflexivity. Qed.
Lemma coefs_regression n cov B bar set : in_range n bar = true -> in_range n set = true ->
  is_inverse (length set) (msub cov set set) B -> regression n cov bar set (coefs_of cov B bar set).
Proof.
  intros Hb Hs HI i j Hi Hj. rewrite covar_resid_l.
  rewrite covar_coord by (apply in_range_nth; assumption).
  rewrite (Sm_ext _ _ (fun l => coefs_of cov B bar set i l * cov (nth l set 0%nat) (nth j set 0%nat))%Q).
  - rewrite coefs_normal by assumption. lra.
  - intros l Hl. rewrite covar_coord by (apply in_range_nth; assumption). reflexivity.
Qed.
Lemma regression_comb n cov bar set W i s' w : regression n cov bar set W -> i < length bar -> s' = set ->
  (covar n cov (resid (nth i bar 0%nat) set (W i)) (comb s' w) == 0)%Q.
Proof.
  intros HR Hi ->. rewrite covar_comb_r. apply sumf_zero. intros j Hj. apply in_seq in Hj. pose proof (HR i j Hi ltac:(lia)) as E. cbv beta in E. rewrite E. lra.
Qed.
Lemma cond_cov_resid inv n mean cov bar set x g : inv_sound inv -> set <> [] -> condMVN inv n mean cov bar set x = Some g ->
  exists W, regression n cov bar set W /\
    (forall i, i < length bar -> length x = length set ->
       (g_mean g i == mean (nth i bar 0%nat) + sumf (fun j => W i j * (nth j x 0 - mean (nth j set 0%nat))) (seq 0 (length set)))%Q) /\
    (forall i j, i < length bar -> j < length bar ->
       (g_cov g i j == covar n cov (resid (nth i bar 0%nat) set (W i)) (resid (nth j bar 0%nat) set (W j)))%Q).
Proof.
  intros Hinv Hne H. destruct (cond_some _ _ _ _ _ _ _ _ Hne H) as [B [v [Hb [Hs [HB [Hv [_ [Hm Hc]]]]]]]].
  apply Hinv in HB. exists (coefs_of cov B bar set).
  assert (HR : regression n cov bar set (coefs_of cov B bar set)) by (apply coefs_regression; assumption).
  split; [exact HR|]. split.
  - intros i Hi Hx. rewrite Hm. rewrite (spread_some x _ Hx) in Hv. injection Hv as <-. reflexivity.
  - intros i j Hi Hj. rewrite Hc. unfold resid at 2. rewrite covar_minus_r, (regression_comb n cov bar set _ i set) by (assumption || reflexivity).
    rewrite covar_resid_l, covar_coord by (apply in_range_nth; assumption).
    rewrite (Sm_ext _ (fun l => coefs_of cov B bar set i l * covar n cov _ _)%Q (fun l => coefs_of cov B bar set i l * cov (nth l set 0%nat) (nth j bar 0%nat))%Q).
    + lra.
    + intros l Hl. rewrite covar_coord by (apply in_range_nth; assumption). reflexivity.
Qed.
Lemma cond_dim inv n mean cov bar set x g : set <> [] -> condMVN inv n mean cov bar set x = Some g -> g_dim g = length bar.
Proof. intros Hne H. destruct (cond_some _ _ _ _ _ _ _ _ Hne H) as [B [v [_ [_ [_ [_ [Hd _]]]]]]]. exact Hd. Qed.

Theorem conditional_spec inv n mean cov bar set x g : inv_sound inv -> set <> [] -> length x = length set ->
  condMVN inv n mean cov bar set x = Some g ->
  g_dim g = length bar /\ exists W, regression n cov bar set W /\
    (forall i, i < length bar -> (g_mean g i == mean (nth i bar 0%nat) + sumf (fun j => W i j * (nth j x 0 - mean (nth j set 0%nat))) (seq 0 (length set)))%Q) /\
    (forall i j, i < length bar -> j < length bar ->
       (g_cov g i j == covar n cov (resid (nth i bar 0%nat) set (W i)) (resid (nth j bar 0%nat) set (W j)))%Q).
Proof.
  intros Hinv Hne Hx H. split; [eapply cond_dim; eassumption|].
  destruct (cond_cov_resid _ _ _ _ _ _ _ _ Hinv Hne H) as [W [HR [Hm Hc]]]. exists W. split; [exact HR|]. split; [|exact Hc].
  intros i Hi. apply Hm; assumption.
Qed.
Theorem cond_symm inv n mean cov bar set x g : inv_sound inv -> set <> [] -> symm n cov ->
  condMVN inv n mean cov bar set x = Some g -> symm (g_dim g) (g_cov g).
Proof.
  intros Hinv Hne Hs H. rewrite (cond_dim _ _ _ _ _ _ _ _ Hne H).
  destruct (cond_cov_resid _ _ _ _ _ _ _ _ Hinv Hne H) as [W [HR [_ Hc]]].
  intros i j Hi Hj. rewrite !Hc by assumption. apply covar_sym. exact Hs.
Qed.
Theorem cond_psd inv n mean cov bar set x g : inv_sound inv -> set <> [] -> psd n cov ->
  condMVN inv n mean cov bar set x = Some g -> psd (g_dim g) (g_cov g).
Proof.
  intros Hinv Hne Hs H. rewrite (cond_dim _ _ _ _ _ _ _ _ Hne H).
  destruct (cond_cov_resid _ _ _ _ _ _ _ _ Hinv Hne H) as [W [HR [_ Hc]]].
  intro u. specialize (Hs (fun k => sumf (fun i => u i * resid (nth i bar 0%nat) set (W i) k)%Q (seq 0 (length bar)))).
  eapply Qle_trans; [exact Hs|]. apply Qle_lteq. right.
  rewrite covar_sum_l. unfold covar at 2. apply Sm_ext. intros i Hi.
  rewrite covar_sum_r, <- sumf_scal. apply Sm_ext. intros j Hj. rewrite Hc by assumption. apply Qmult_assoc.
Qed.
Theorem cond_best inv n mean cov bar set x g : inv_sound inv -> set <> [] -> symm n cov -> psd n cov ->
  condMVN inv n mean cov bar set x = Some g ->
  forall i w, i < length bar -> (g_cov g i i <= covar n cov (resid (nth i bar 0%nat) set w) (resid (nth i bar 0%nat) set w))%Q.
Proof.
  intros Hinv Hne Hs Hp H i w Hi.
  destruct (cond_cov_resid _ _ _ _ _ _ _ _ Hinv Hne H) as [W [HR [_ Hc]]].
  rewrite Hc by assumption.
  set (r := resid (nth i bar 0) set (W i)). set (c := comb set (fun j => (W i j - w j)%Q)).
  assert (E : (covar n cov (resid (nth i bar 0%nat) set w) (resid (nth i bar 0%nat) set w) == covar n cov (fun k => r k + c k) (fun k => r k + c k))%Q).
  { assert (F : forall k, (resid (nth i bar 0%nat) set w k == r k + c k)%Q).
    { intro k. unfold r, c, resid, comb.
      assert (G : (sumf (fun j => (W i j - w j) * delta (nth j set 0%nat) k) (seq 0 (length set)) ==
               sumf (fun j => W i j * delta (nth j set 0%nat) k) (seq 0 (length set)) - sumf (fun j => w j * delta (nth j set 0%nat) k) (seq 0 (length set)))%Q).
      { rewrite <- sumf_minus. apply Sm_ext. intros; lra. }
      rewrite G. lra. }
    apply covar_ext; intros; apply F. }
  rewrite E, covar_plus_l, !covar_plus_r.
  assert (E1 : (covar n cov r c == 0)%Q) by (apply regression_comb; auto).
  assert (E2 : (covar n cov c r == 0)%Q) by (rewrite covar_sym by exact Hs; exact E1).
  rewrite E1, E2. specialize (Hp c). lra.
Qed.
Theorem cond_total inv n mean cov bar set x g : inv_sound inv -> set <> [] -> symm n cov ->
  condMVN inv n mean cov bar set x = Some g ->
  exists W, regression n cov bar set W /\ forall i j, i < length bar -> j < length bar ->
    (cov (nth i bar 0%nat) (nth j bar 0%nat) == g_cov g i j + covar n cov (comb set (W i)) (comb set (W j)))%Q.
Proof.
  intros Hinv Hne Hs H. destruct (cond_some _ _ _ _ _ _ _ _ Hne H) as [B [v [Hb [Hset _]]]].
  destruct (cond_cov_resid _ _ _ _ _ _ _ _ Hinv Hne H) as [W [HR [_ Hc]]].
  exists W. split; [exact HR|]. intros i j Hi Hj. rewrite Hc by assumption.
  rewrite <- (covar_coord n) by (apply in_range_nth; assumption).
  assert (F : forall a k, (coord (nth a bar 0%nat) k == resid (nth a bar 0%nat) set (W a) k + comb set (W a) k)%Q) by (intros; unfold resid; lra).
  rewrite (covar_ext n cov _ (fun k => resid (nth i bar 0%nat) set (W i) k + comb set (W i) k)%Q _ (fun k => resid (nth j bar 0%nat) set (W j) k + comb set (W j) k)%Q)
    by (intros; apply F).
  rewrite covar_plus_l, !covar_plus_r.
  rewrite (regression_comb n cov bar set W i set) by auto.
  rewrite (covar_sym n cov (comb set (W i)) (resid _ _ _)) by exact Hs. rewrite (regression_comb n cov bar set W j set) by auto. lra.
Qed.

(** ** predictions through the solution of a system *)
Lemma coefs_predict cov B bar set i y z : is_inverse (length set) (msub cov set set) B ->
  (forall a, a < length set -> (sumf (fun l => cov (nth a set 0%nat) (nth l set 0%nat) * z l) (seq 0 (length set)) == y a)%Q) ->
  (sumf (fun l => coefs_of cov B bar set i l * y l) (seq 0 (length set)) == sumf (fun l => cov (nth i bar 0%nat) (nth l set 0%nat) * z l) (seq 0 (length set)))%Q.
Proof.
  intros HI Hz.
  transitivity (sumf (fun m => cov (nth i bar 0%nat) (nth m set 0%nat) * sumf (fun l => B m l * y l) (seq 0 (length set)))%Q (seq 0 (length set))).
  - exact (Sm_assoc (length set) (length set) (fun m => cov (nth i bar 0) (nth m set 0)) B y).
  - apply Sm_ext. intros m Hm. rewrite <- (solve_unique (length set) (msub cov set set) B z y HI Hz m Hm). reflexivity.
Qed.
Lemma coefs_solved cov B bar set i y : is_inverse (length set) (msub cov set set) B ->
  exists z, (forall a, a < length set -> (sumf (fun l => cov (nth a set 0%nat) (nth l set 0%nat) * z l) (seq 0 (length set)) == y a)%Q) /\
  (sumf (fun l => coefs_of cov B bar set i l * y l) (seq 0 (length set)) == sumf (fun l => cov (nth i bar 0%nat) (nth l set 0%nat) * z l) (seq 0 (length set)))%Q.
Proof.
  intro HI. exists (fun m => sumf (fun l => B m l * y l)%Q (seq 0 (length set))).
  assert (Hz : forall a, a < length set -> (sumf (fun l => cov (nth a set 0%nat) (nth l set 0%nat) * sumf (fun m => B l m * y m) (seq 0 (length set))) (seq 0 (length set)) == y a)%Q)
    by (intros a Ha; exact (solve_exists (length set) (msub cov set set) B y HI a Ha)).
  split; [exact Hz|]. apply coefs_predict; assumption.
Qed.
Lemma coefs_self cov B bar set i j y : is_inverse (length set) (msub cov set set) B -> j < length set -> nth i bar 0 = nth j set 0 ->
  (sumf (fun l => coefs_of cov B bar set i l * y l) (seq 0 (length set)) == y j)%Q.
Proof.
  intros HI Hj E. destruct (coefs_solved cov B bar set i y HI) as [z [Hz Hp]]. rewrite Hp, E. apply Hz. exact Hj.
Qed.
Theorem cond_known inv n mean cov bar set x g i j : inv_sound inv -> length x = length set ->
  condMVN inv n mean cov bar set x = Some g -> i < length bar -> j < length set -> nth i bar 0 = nth j set 0 ->
  (g_mean g i == nth j x 0%Q)%Q /\ forall k, (g_cov g i k == 0)%Q.
Proof.
  intros Hinv Hx H Hi Hj E. assert (Hne : set <> []) by (destruct set; [cbn in Hj; lia|discriminate]).
  destruct (cond_some _ _ _ _ _ _ _ _ Hne H) as [B [v [Hb [Hs [HB [Hv [_ [Hm Hc]]]]]]]]. apply Hinv in HB.
  rewrite (spread_some x _ Hx) in Hv. injection Hv as <-. split.
  - rewrite Hm, (coefs_self cov B bar set i j (fun a => nth a x 0 - mean (nth a set 0%nat))%Q HB Hj E), E. lra.
  - intro k. rewrite Hc, (coefs_self cov B bar set i j (fun a => cov (nth a set 0%nat) (nth k bar 0%nat)) HB Hj E), E. lra.
Qed.
Theorem cond_at_mean inv n mean cov bar set g : set <> [] ->
  condMVN inv n mean cov bar set (map mean set) = Some g ->
  forall i, i < length bar -> (g_mean g i == mean (nth i bar 0%nat))%Q.
Proof.
  intros Hne H i Hi. destruct (cond_some _ _ _ _ _ _ _ _ Hne H) as [B [v [Hb [Hs [HB [Hv [_ [Hm Hc]]]]]]]].
  rewrite (spread_some (map mean set) (length set)) in Hv by apply map_length. injection Hv as <-. rewrite Hm.
  rewrite sumf_zero; [lra|]. intros a Ha. apply in_seq in Ha.
  rewrite (nth_indep _ _ (mean 0)) by (rewrite map_length; lia). rewrite map_nth. lra.
Qed.
Theorem cond_uncorrelated inv n mean cov bar set x g : inv_sound inv -> set <> [] ->
  condMVN inv n mean cov bar set x = Some g ->
  (forall i j, i < length bar -> j < length set -> (cov (nth i bar 0%nat) (nth j set 0%nat) == 0)%Q) ->
  exists h, marMVN n mean cov bar set x = Some h /\ same_gauss g h.
Proof.
  intros Hinv Hne H H0. destruct (cond_some _ _ _ _ _ _ _ _ Hne H) as [B [v [Hb [Hs [HB [Hv [Hd [Hm Hc]]]]]]]].
  assert (W0 : forall i l, i < length bar -> (coefs_of cov B bar set i l == 0)%Q).
  { intros i l Hi. unfold coefs_of, mmul. apply sumf_zero. intros m Hm'. apply in_seq in Hm'. unfold msub. rewrite H0 by (assumption || lia). lra. }
  unfold marMVN. destruct set as [|s0 set]; [congruence|]. rewrite Hb. eexists. split; [reflexivity|]. split; [exact Hd|]. cbn [g_mean g_cov g_dim].
  rewrite Hd. split.
  - intros i Hi. rewrite Hm, sumf_zero; [unfold vsub; lra|]. intros a _. rewrite W0 by exact Hi. lra.
  - intros i j Hi Hj. rewrite Hc, sumf_zero; [unfold msub; lra|]. intros a _. rewrite W0 by exact Hi. lra.
Qed.
(** ** order of the variables *)
Lemma inverse_NoDup cov set B : is_inverse (length set) (msub cov set set) B -> NoDup set.
Proof.
  intro HI. apply (NoDup_nth set 0). intros i j Hi Hj E. destruct (Nat.eq_dec i j) as [|Hn]; [assumption|exfalso].
  pose proof (proj1 (HI i i Hi Hi)) as A1. pose proof (proj1 (HI j i Hj Hi)) as A2.
  assert (A3 : (delta i i == delta j i)%Q).
  { rewrite <- A1, <- A2. apply Sm_ext. intros l _. unfold msub. rewrite E. reflexivity. }
  unfold delta in A3. rewrite Nat.eqb_refl in A3. destruct (Nat.eqb_spec j i); [congruence|lra].
Qed.
Lemma sum_positions f l : (sumf f l == sumf (fun i => f (nth i l 0%nat)) (seq 0 (length l)))%Q.
Proof.
  induction l as [|a l IH]; [reflexivity|]. cbn [length seq sumf]. rewrite IH, <- seq_shift, sumf_map. reflexivity.
Qed.
Lemma coefs_perm cov B B' bar set set' i (yv : nat -> Q) : Permutation set set' ->
  is_inverse (length set) (msub cov set set) B -> is_inverse (length set') (msub cov set' set') B' ->
  (sumf (fun l => coefs_of cov B bar set i l * yv (nth l set 0%nat)) (seq 0 (length set)) ==
   sumf (fun l => coefs_of cov B' bar set' i l * yv (nth l set' 0%nat)) (seq 0 (length set')))%Q.
Proof.
  intros HP HI HI'.
  destruct (coefs_solved cov B bar set i (fun l => yv (nth l set 0)) HI) as [z [Hz Hp]]. rewrite Hp.
  assert (Hnd : NoDup set) by (eapply inverse_NoDup; exact HI).
  set (zv := comb set z).
  assert (Hzv : forall l, l < length set -> (zv (nth l set 0%nat) == z l)%Q).
  { intros l Hl. unfold zv, comb. rewrite (sumf_single _ (seq 0 (length set)) l).
    - unfold delta. rewrite Nat.eqb_refl. lra.
    - apply seq_NoDup.
    - apply in_seq. lia.
    - intros b Hb Hne. apply in_seq in Hb. unfold delta. destruct (Nat.eqb_spec (nth b set 0) (nth l set 0)) as [E|_]; [|lra].
      exfalso. apply Hne. apply (proj1 (NoDup_nth set 0) Hnd); (lia || assumption). }
  assert (Hsum : forall c, (sumf (fun l => cov c (nth l set 0%nat) * z l) (seq 0 (length set)) ==
                       sumf (fun l => cov c (nth l set' 0%nat) * zv (nth l set' 0%nat)) (seq 0 (length set')))%Q).
  { intro c. rewrite <- (sum_positions (fun k => cov c k * zv k)%Q set').
    rewrite <- (sumf_perm _ _ _ HP), (sum_positions _ set). apply Sm_ext. intros l Hl. rewrite Hzv by exact Hl. reflexivity. }
  rewrite Hsum. symmetry. apply (coefs_predict cov B' bar set' i (fun l => yv (nth l set' 0)) (fun l => zv (nth l set' 0)) HI').
  intros a Ha. rewrite <- Hsum.
  assert (Hin : In (nth a set' 0) set) by (eapply Permutation_in; [symmetry; exact HP|apply nth_In; exact Ha]).
  apply (In_nth _ _ 0) in Hin. destruct Hin as [b [Hb Eb]]. rewrite <- Eb. apply Hz. exact Hb.
Qed.
Theorem cond_order inv n mean cov bar set set' xv g g' : inv_sound inv -> Permutation set set' ->
  condMVN inv n mean cov bar set (map xv set) = Some g -> condMVN inv n mean cov bar set' (map xv set') = Some g' -> same_gauss g g'.
Proof.
  intros Hinv HP H H'. destruct set as [|s0 set].
  { apply Permutation_nil in HP. subst set'. cbn in H, H'. rewrite H in H'. injection H' as <-.
    split; [reflexivity|]. split; reflexivity. }
  assert (Hne : s0 :: set <> []) by discriminate. assert (Hne' : set' <> []).
  { intros ->. apply Permutation_sym, Permutation_nil in HP. discriminate. }
  remember (s0 :: set) as st. clear Heqst s0 set.
  destruct (cond_some _ _ _ _ _ _ _ _ Hne H) as [B [v [Hb [Hs [HB [Hv [Hd [Hm Hc]]]]]]]].
  destruct (cond_some _ _ _ _ _ _ _ _ Hne' H') as [B' [v' [Hb' [Hs' [HB' [Hv' [Hd' [Hm' Hc']]]]]]]].
  apply Hinv in HB. apply Hinv in HB'.
  rewrite (spread_some (map xv st) (length st)) in Hv by apply map_length. injection Hv as <-.
  rewrite (spread_some (map xv set') (length set')) in Hv' by apply map_length. injection Hv' as <-.
  assert (Hx : forall l a, a < length l -> nth a (map xv l) 0%Q = xv (nth a l 0)).
  { intros l a Ha. rewrite (nth_indep _ _ (xv 0)) by (rewrite map_length; lia). apply map_nth. }
  split; [congruence|]. split.
  - intros i _. rewrite Hm, Hm'. apply Qplus_comp; [reflexivity|].
    transitivity (sumf (fun l => coefs_of cov B bar st i l * (fun k => xv k - mean k)%Q (nth l st 0%nat))%Q (seq 0 (length st))).
    { apply Sm_ext. intros a Ha. rewrite Hx by exact Ha. reflexivity. }
    rewrite (coefs_perm cov B B' bar st set' i (fun k => xv k - mean k)%Q HP HB HB').
    apply Sm_ext. intros a Ha. rewrite Hx by exact Ha. reflexivity.
  - intros i j _ _. rewrite Hc, Hc'. apply Qplus_comp; [reflexivity|]. apply Qopp_comp.
    exact (coefs_perm cov B B' bar st set' i (fun k => cov k (nth j bar 0)) HP HB HB').
Qed.
(** the variables of interest taken apart *)
Theorem cond_select inv n mean cov bar set x g I : set <> [] -> (forall a, In a I -> a < length bar) ->
  condMVN inv n mean cov bar set x = Some g ->
  exists h, condMVN inv n mean cov (map (fun a => nth a bar 0) I) set x = Some h /\ same_gauss h (marginal (g_mean g) (g_cov g) I).
Proof.
  intros Hne HI H. unfold condMVN in H |- *. destruct set as [|s0 set]; [congruence|]. remember (s0 :: set) as st eqn:Est.
  destruct (in_range n bar) eqn:E1; [|discriminate]. destruct (in_range n st) eqn:E2; [|discriminate]. cbn [andb] in H.
  assert (E3 : in_range n (map (fun a => nth a bar 0) I) = true).
  { apply forallb_forall. intros k Hk. apply in_map_iff in Hk. destruct Hk as [a [<- Ha]]. apply Nat.ltb_lt.
    apply in_range_nth; [exact E1|apply HI; exact Ha]. }
  rewrite E3. cbn [andb]. destruct (inv (length st) (msub cov st st)) as [B|]; [|discriminate].
  destruct (spread x (length st)) as [v|]; [|discriminate]. injection H as <-.
  eexists. split; [reflexivity|]. unfold same_gauss, marginal. cbn [g_dim g_mean g_cov]. rewrite map_length. split; [reflexivity|].
  assert (Hn : forall i, i < length I -> nth i (map (fun a => nth a bar 0) I) 0 = nth (nth i I 0) bar 0).
  { intros i Hi. rewrite (nth_indep _ _ (nth 0 bar 0)) by (rewrite map_length; exact Hi).
    exact (map_nth (fun a => nth a bar 0) I 0 i). }
  split.
  - intros i Hi. unfold vsub, mvec, mmul, msub. rewrite Hn by exact Hi. reflexivity.
  - intros i j Hi Hj. unfold vsub, mvec, mmul, msub. rewrite !Hn by assumption. reflexivity.
Qed.

(** ** two steps of conditioning *)
Lemma nth_app_l {A} (l l' : list A) i d : i < length l -> nth i (l ++ l') d = nth i l d.
Proof. apply app_nth1. Qed.
Lemma nth_app_r {A} (l l' : list A) i d : nth (length l + i) (l ++ l') d = nth i l' d.
Proof. rewrite app_nth2 by lia. f_equal. lia. Qed.
(** solution of the system on [s ++ t] from the inverse on [s] and the inverse of the conditional covariance of [t] *)
Lemma block_solve cov s t B1 B2 (y : nat -> Q) :
  is_inverse (length s) (msub cov s s) B1 ->
  let W := fun b l => sumf (fun m => cov b (nth m s 0%nat) * B1 m l)%Q (seq 0 (length s)) in
  let C := fun b c => (cov b c - sumf (fun l => W b l * cov (nth l s 0%nat) c) (seq 0 (length s)))%Q in
  is_inverse (length t) (fun i j => C (nth i t 0) (nth j t 0)) B2 ->
  let yt := fun i => (y (length s + i)%nat - sumf (fun l => W (nth i t 0%nat) l * y l) (seq 0 (length s)))%Q in
  let zt := fun j => sumf (fun l => B2 j l * yt l)%Q (seq 0 (length t)) in
  exists z, (forall j, z (length s + j) = zt j) /\
    (forall c, (sumf (fun l => cov c (nth l (s ++ t) 0%nat) * z l) (seq 0 (length (s ++ t))) ==
            sumf (fun l => W c l * y l) (seq 0 (length s)) + sumf (fun m => C c (nth m t 0%nat) * zt m) (seq 0 (length t)))%Q) /\
    (forall a, a < length (s ++ t) -> (sumf (fun l => cov (nth a (s ++ t) 0%nat) (nth l (s ++ t) 0%nat) * z l) (seq 0 (length (s ++ t))) == y a)%Q).
Proof.
  intros HI1 W C HI2 yt zt.
  set (r := fun i => (y i - sumf (fun m => cov (nth i s 0%nat) (nth m t 0%nat) * zt m) (seq 0 (length t)))%Q).
  set (zs := fun j => sumf (fun l => B1 j l * r l)%Q (seq 0 (length s))).
  exists (fun j => if j <? length s then zs j else zt (j - length s)).
  assert (Hsplit : forall c, (sumf (fun l => cov c (nth l (s ++ t) 0%nat) * (if (l <? length s)%nat then zs l else zt (l - length s)%nat)) (seq 0 (length (s ++ t))) ==
     sumf (fun l => cov c (nth l s 0%nat) * zs l) (seq 0 (length s)) + sumf (fun m => cov c (nth m t 0%nat) * zt m) (seq 0 (length t)))%Q).
  { intro c. rewrite app_length, Sm_plus_idx. apply Qplus_comp; apply Sm_ext; intros l Hl.
    - rewrite nth_app_l by exact Hl. destruct (Nat.ltb_spec l (length s)); [reflexivity|lia].
    - rewrite nth_app_r. destruct (Nat.ltb_spec (length s + l) (length s)); [lia|].
      replace (length s + l - length s) with l by lia. reflexivity. }
  assert (Hc : forall c, (sumf (fun l => cov c (nth l s 0%nat) * zs l) (seq 0 (length s)) + sumf (fun m => cov c (nth m t 0%nat) * zt m) (seq 0 (length t)) ==
     sumf (fun l => W c l * y l) (seq 0 (length s)) + sumf (fun m => C c (nth m t 0%nat) * zt m) (seq 0 (length t)))%Q).
  { intro c.
    assert (E1 : (sumf (fun l => cov c (nth l s 0%nat) * zs l) (seq 0 (length s)) == sumf (fun l => W c l * r l) (seq 0 (length s)))%Q).
    { symmetry. exact (Sm_assoc (length s) (length s) (fun m => cov c (nth m s 0)) B1 r). }
    assert (E2 : (sumf (fun l => W c l * r l) (seq 0 (length s)) == sumf (fun l => W c l * y l) (seq 0 (length s)) -
        sumf (fun m => sumf (fun l => W c l * cov (nth l s 0%nat) (nth m t 0%nat)) (seq 0 (length s)) * zt m) (seq 0 (length t)))%Q).
    { rewrite Sm_assoc, <- sumf_minus. apply Sm_ext. intros l _. unfold r. lra. }
    assert (E3 : (sumf (fun m => C c (nth m t 0%nat) * zt m) (seq 0 (length t)) == sumf (fun m => cov c (nth m t 0%nat) * zt m) (seq 0 (length t)) -
        sumf (fun m => sumf (fun l => W c l * cov (nth l s 0%nat) (nth m t 0%nat)) (seq 0 (length s)) * zt m) (seq 0 (length t)))%Q).
    { rewrite <- sumf_minus. apply Sm_ext. intros m _. unfold C. lra. }
    rewrite E1, E2, E3. lra. }
  split; [|split].
  - intro j. destruct (Nat.ltb_spec (length s + j) (length s)); [lia|]. f_equal. lia.
  - intro c. rewrite Hsplit. apply Hc.
  - intros a Ha. rewrite Hsplit. rewrite app_length in Ha. destruct (Nat.lt_ge_cases a (length s)) as [Hl|Hl].
    + rewrite nth_app_l by exact Hl.
      assert (E : (sumf (fun l => cov (nth a s 0%nat) (nth l s 0%nat) * zs l) (seq 0 (length s)) == r a)%Q)
        by exact (solve_exists (length s) (msub cov s s) B1 r HI1 a Hl).
      rewrite E. unfold r. lra.
    + remember (a - length s) as i eqn:Ei. assert (Ea : a = length s + i) by lia. subst a. rewrite nth_app_r, Hc.
      assert (E : (sumf (fun m => C (nth i t 0%nat) (nth m t 0%nat) * zt m) (seq 0 (length t)) == yt i)%Q)
        by exact (solve_exists (length t) (fun i j => C (nth i t 0) (nth j t 0)) B2 yt HI2 i ltac:(lia)).
      rewrite E. unfold yt. lra.
Qed.
Theorem cond_chain inv n mean cov b s t xs xt g1 g2 g : inv_sound inv -> s <> [] -> t <> [] ->
  length xs = length s -> length xt = length t ->
  condMVN inv n mean cov (t ++ b) s xs = Some g1 ->
  condMVN inv (g_dim g1) (g_mean g1) (g_cov g1) (seq (length t) (length b)) (seq 0 (length t)) xt = Some g2 ->
  condMVN inv n mean cov b (s ++ t) (xs ++ xt) = Some g -> same_gauss g2 g.
Proof.
  intros Hinv Hs Ht Hxs Hxt H1 H2 H.
  assert (Hne2 : seq 0 (length t) <> []) by (destruct t; [congruence|discriminate]).
  assert (Hne : s ++ t <> []) by (destruct s; [congruence|discriminate]).
  destruct (cond_some _ _ _ _ _ _ _ _ Hs H1) as [B1 [v1 [_ [_ [HB1 [Hv1 [Hd1 [Hm1 Hc1]]]]]]]].
  destruct (cond_some _ _ _ _ _ _ _ _ Hne2 H2) as [B2 [v2 [_ [_ [HB2 [Hv2 [Hd2 [Hm2 Hc2]]]]]]]].
  destruct (cond_some _ _ _ _ _ _ _ _ Hne H) as [B [v [_ [_ [HB [Hv [Hd [Hm Hc]]]]]]]].
  apply Hinv in HB1. apply Hinv in HB2. apply Hinv in HB. rewrite seq_length in *.
  rewrite (spread_some xs _ Hxs) in Hv1. injection Hv1 as <-. rewrite (spread_some xt _ Hxt) in Hv2. injection Hv2 as <-.
  rewrite (spread_some (xs ++ xt)) in Hv by (rewrite !app_length; lia). injection Hv as <-.
  set (W := fun c l => sumf (fun m => cov c (nth m s 0%nat) * B1 m l)%Q (seq 0 (length s))).
  set (C := fun c c' => (cov c c' - sumf (fun l => W c l * cov (nth l s 0%nat) c') (seq 0 (length s)))%Q).
  assert (HW : forall i l, coefs_of cov B1 (t ++ b) s i l = W (nth i (t ++ b) 0) l) by reflexivity.
  assert (HC : forall i j, g_cov g1 i j = C (nth i (t ++ b) 0) (nth j (t ++ b) 0)) by exact Hc1.
  assert (Hnt : forall i, i < length t -> nth i (t ++ b) 0 = nth i t 0) by (intros; apply nth_app_l; assumption).
  assert (HI2 : is_inverse (length t) (fun i j => C (nth i t 0) (nth j t 0)) B2).
  { intros i j Hi Hj. destruct (HB2 i j Hi Hj) as [A1 A2]. split.
    - rewrite <- A1. apply Sm_ext. intros l Hl. unfold msub. rewrite !seq_nth by assumption. cbn [plus]. rewrite HC, !Hnt by assumption. reflexivity.
    - rewrite <- A2. apply Sm_ext. intros l Hl. unfold msub. rewrite !seq_nth by assumption. cbn [plus]. rewrite HC, !Hnt by assumption. reflexivity. }
  (* the prediction of the second step is the one of the block solution *)
  assert (HK : forall (y : nat -> Q) i, i < length b ->
    (sumf (fun l => coefs_of cov B b (s ++ t) i l * y l) (seq 0 (length (s ++ t))) ==
     sumf (fun l => W (nth i b 0%nat) l * y l) (seq 0 (length s)) +
     sumf (fun l => coefs_of (g_cov g1) B2 (seq (length t) (length b)) (seq 0 (length t)) i l *
        (y (length s + l)%nat - sumf (fun m => W (nth l t 0%nat) m * y m) (seq 0 (length s)))) (seq 0 (length t)))%Q).
  { intros y i Hi. destruct (block_solve cov s t B1 B2 y HB1 HI2) as [z [Hz [Hp Hsol]]].
    rewrite (coefs_predict cov B b (s ++ t) i y z HB Hsol), Hp. fold W. apply Qplus_comp; [reflexivity|].
    rewrite <- Sm_assoc. apply Sm_ext. intros l Hl. apply Qmult_comp; [|reflexivity].
    unfold coefs_of, mmul. rewrite seq_length. apply Sm_ext. intros m Hm'. apply Qmult_comp; [|reflexivity].
    unfold msub. rewrite !seq_nth by assumption. cbn [plus]. rewrite HC, nth_app_r, Hnt by assumption. reflexivity. }
  split; [rewrite Hd2, Hd, ?seq_length; reflexivity|]. rewrite Hd2. rewrite ?seq_length. split.
  - intros i Hi. rewrite Hm2, Hm, HK by exact Hi. rewrite seq_nth by exact Hi. rewrite Hm1, nth_app_r.
    rewrite <- Qplus_assoc. apply Qplus_comp; [reflexivity|]. apply Qplus_comp.
    + apply Sm_ext. intros l Hl. rewrite HW, nth_app_r, !nth_app_l by (assumption || lia). reflexivity.
    + apply Sm_ext. intros l Hl. apply Qmult_comp; [reflexivity|]. rewrite seq_nth by exact Hl. cbn [plus]. rewrite Hm1, Hnt by exact Hl.
      rewrite nth_app_r, <- Hxs, nth_app_r, Hxs.
      assert (E : (sumf (fun j => coefs_of cov B1 (t ++ b) s l j * (nth j xs 0 - mean (nth j s 0%nat))) (seq 0 (length s)) ==
         sumf (fun m => W (nth l t 0%nat) m * (nth m (xs ++ xt) 0 - mean (nth m (s ++ t) 0%nat))) (seq 0 (length s)))%Q).
      { apply Sm_ext. intros m Hm'. rewrite HW, Hnt by exact Hl. rewrite !nth_app_l by (assumption || lia). reflexivity. }
      rewrite E. lra.
  - intros i j Hi Hj. rewrite Hc2, Hc, (HK (fun l => cov (nth l (s ++ t) 0) (nth j b 0))) by exact Hi.
    rewrite !seq_nth by assumption. rewrite HC, !nth_app_r.
    assert (E1 : (sumf (fun l => W (nth i b 0%nat) l * cov (nth l (s ++ t) 0%nat) (nth j b 0%nat)) (seq 0 (length s)) ==
       sumf (fun l => W (nth i b 0%nat) l * cov (nth l s 0%nat) (nth j b 0%nat)) (seq 0 (length s)))%Q).
    { apply Sm_ext. intros l Hl. rewrite nth_app_l by exact Hl. reflexivity. }
    assert (E2 : (sumf (fun l => coefs_of (g_cov g1) B2 (seq (length t) (length b)) (seq 0 (length t)) i l * g_cov g1 (nth l (seq 0 (length t)) 0%nat) (length t + j)%nat) (seq 0 (length t)) ==
       sumf (fun l => coefs_of (g_cov g1) B2 (seq (length t) (length b)) (seq 0 (length t)) i l *
        (cov (nth (length s + l) (s ++ t) 0%nat) (nth j b 0%nat) - sumf (fun m => W (nth l t 0%nat) m * cov (nth m (s ++ t) 0%nat) (nth j b 0%nat)) (seq 0 (length s)))) (seq 0 (length t)))%Q).
    { apply Sm_ext. intros l Hl. apply Qmult_comp; [reflexivity|]. rewrite seq_nth by exact Hl. cbn [plus].
      rewrite HC, !nth_app_r, Hnt by exact Hl. unfold C. apply Qplus_comp; [reflexivity|]. apply Qopp_comp.
      apply Sm_ext. intros m Hm'. rewrite nth_app_l by exact Hm'. reflexivity. }
    rewrite E1, E2. unfold C. lra.
Qed.

(** ** the density of a pair factorises *)
Theorem cond_density inv n mean cov b s xs g B P D : inv_sound inv -> s <> [] -> length xs = length s -> symm n cov ->
  condMVN inv n mean cov b s xs = Some g ->
  is_inverse (length s) (msub cov s s) B -> is_inverse (length (s ++ b)) (msub cov (s ++ b) (s ++ b)) P ->
  is_inverse (g_dim g) (g_cov g) D ->
  forall xb : vec,
  (energy (length (s ++ b)) P (fun i => (if (i <? length s)%nat then nth i xs 0 else xb (i - length s)%nat) - mean (nth i (s ++ b) 0%nat)) ==
   energy (length s) B (fun i => nth i xs 0 - mean (nth i s 0%nat)) +
   energy (g_dim g) D (fun i => xb i - g_mean g i))%Q.
Proof.
  intros Hinv Hs Hxs Hsym H HIB HIP HID xb.
  destruct (cond_some _ _ _ _ _ _ _ _ Hs H) as [B1 [v1 [Hrb [Hrs [HB1 [Hv1 [Hd [Hm Hc]]]]]]]]. apply Hinv in HB1.
  rewrite (spread_some xs _ Hxs) in Hv1. injection Hv1 as <-. rewrite Hd in *.
  set (y := fun i => ((if (i <? length s)%nat then nth i xs 0 else xb (i - length s)%nat) - mean (nth i (s ++ b) 0%nat))%Q).
  set (W := fun c l => sumf (fun m => cov c (nth m s 0%nat) * B1 m l)%Q (seq 0 (length s))).
  set (C := fun c c' => (cov c c' - sumf (fun l => W c l * cov (nth l s 0%nat) c') (seq 0 (length s)))%Q).
  assert (HI2 : is_inverse (length b) (fun i j => C (nth i b 0) (nth j b 0)) D).
  { intros i j Hi Hj. destruct (HID i j Hi Hj) as [A1 A2]. split; [rewrite <- A1|rewrite <- A2]; apply Sm_ext; intros l Hl; rewrite Hc; reflexivity. }
  destruct (block_solve cov s b B1 D y HB1 HI2) as [z [Hz [_ Hsol]]]. cbv zeta in Hz. fold W in Hz.
  assert (Een : forall k M u, (energy k M u == sumf (fun i => u i * sumf (fun j => M i j * u j) (seq 0 k)) (seq 0 k))%Q).
  { intros k M u. unfold energy, covar. apply Sm_ext. intros i _. rewrite <- sumf_scal. apply Sm_ext. intros j _. lra. }
  assert (HPz : forall i, i < length (s ++ b) -> (sumf (fun j => P i j * y j) (seq 0 (length (s ++ b))) == z i)%Q).
  { intros i Hi. symmetry. exact (solve_unique _ (msub cov (s ++ b) (s ++ b)) P z y HIP Hsol i Hi). }
  assert (Hys : forall i, i < length s -> (y i == nth i xs 0 - mean (nth i s 0%nat))%Q).
  { intros i Hi. unfold y. destruct (Nat.ltb_spec i (length s)); [|lia]. rewrite nth_app_l by exact Hi. reflexivity. }
  assert (Hyb : forall i, (y (length s + i)%nat == xb i - mean (nth i b 0%nat))%Q).
  { intro i. unfold y. destruct (Nat.ltb_spec (length s + i) (length s)); [lia|]. rewrite nth_app_r.
    replace (length s + i - length s) with i by lia. reflexivity. }
  set (q := fun j => sumf (fun l => B j l * y l)%Q (seq 0 (length s))).
  (* z on s: q - (inverse) Sigma_sb z_b, through uniqueness *)
  assert (Hqz : forall i, i < length s -> (z i == q i - sumf (fun m => sumf (fun l => B i l * cov (nth l s 0%nat) (nth m b 0%nat)) (seq 0 (length s)) * z (length s + m)%nat) (seq 0 (length b)))%Q).
  { intros i Hi. rewrite Sm_assoc.
    rewrite (solve_unique (length s) (msub cov s s) B z (fun a => (y a - sumf (fun m => cov (nth a s 0%nat) (nth m b 0%nat) * z (length s + m)%nat) (seq 0 (length b)))%Q) HIB).
    - unfold q. rewrite <- sumf_minus. apply Sm_ext. intros l _. lra.
    - intros a Ha. pose proof (Hsol a ltac:(rewrite app_length; lia)) as E. rewrite app_length, Sm_plus_idx, nth_app_l in E by exact Ha.
      rewrite <- E.
      assert (E1 : (sumf (fun l => msub cov s s a l * z l) (seq 0 (length s)) == sumf (fun l => cov (nth a s 0%nat) (nth l (s ++ b) 0%nat) * z l) (seq 0 (length s)))%Q).
      { apply Sm_ext. intros l Hl. rewrite nth_app_l by exact Hl. reflexivity. }
      assert (E2 : (sumf (fun l => cov (nth a s 0%nat) (nth (length s + l) (s ++ b) 0%nat) * z (length s + l)%nat) (seq 0 (length b)) == sumf (fun m => cov (nth a s 0%nat) (nth m b 0%nat) * z (length s + m)%nat) (seq 0 (length b)))%Q).
      { apply Sm_ext. intros l Hl. rewrite nth_app_r. reflexivity. }
      rewrite E1, E2. lra.
    - exact Hi. }
  (* y_s B Sigma_sb = W y_s, by symmetry *)
  assert (HWq : forall m, m < length b -> (sumf (fun i => y i * sumf (fun l => B i l * cov (nth l s 0%nat) (nth m b 0%nat)) (seq 0 (length s))) (seq 0 (length s)) ==
     sumf (fun l => W (nth m b 0%nat) l * y l) (seq 0 (length s)))%Q).
  { intros m Hm'.
    assert (E : (sumf (fun l => W (nth m b 0%nat) l * y l) (seq 0 (length s)) == sumf (fun l => cov (nth m b 0%nat) (nth l s 0%nat) * q l) (seq 0 (length s)))%Q).
    { apply (coefs_predict cov B1 b s m y q HB1). intros a Ha. exact (solve_exists (length s) (msub cov s s) B y HIB a Ha). }
    rewrite E.
    (* w solves the system with right side Sigma_s,bm; q.(M w) = (M q).w *)
    set (w := fun i => sumf (fun l => B i l * cov (nth l s 0%nat) (nth m b 0%nat))%Q (seq 0 (length s))).
    assert (Hw : forall a, a < length s -> (sumf (fun l => cov (nth a s 0%nat) (nth l s 0%nat) * w l) (seq 0 (length s)) == cov (nth a s 0%nat) (nth m b 0%nat))%Q)
      by (intros a Ha; exact (solve_exists (length s) (msub cov s s) B (fun l => cov (nth l s 0) (nth m b 0)) HIB a Ha)).
    assert (Hq : forall a, a < length s -> (sumf (fun l => cov (nth a s 0%nat) (nth l s 0%nat) * q l) (seq 0 (length s)) == y a)%Q)
      by (intros a Ha; exact (solve_exists (length s) (msub cov s s) B y HIB a Ha)).
    transitivity (sumf (fun i => sumf (fun l => q l * cov (nth l s 0%nat) (nth i s 0%nat)) (seq 0 (length s)) * w i)%Q (seq 0 (length s))).
    - apply Sm_ext. intros i Hi. apply Qmult_comp; [|reflexivity]. rewrite <- (Hq i Hi). apply Sm_ext. intros l Hl.
      rewrite (Hsym (nth i s 0) (nth l s 0)) by (apply in_range_nth; assumption). lra.
    - rewrite Sm_assoc. apply Sm_ext. intros l Hl. rewrite Hw by exact Hl.
      rewrite (Hsym (nth l s 0) (nth m b 0)) by (apply in_range_nth; assumption). lra. }
  rewrite !Een.
  transitivity (sumf (fun i => y i * z i)%Q (seq 0 (length (s ++ b)))).
  { apply Sm_ext. intros i Hi. apply Qmult_comp; [reflexivity|]. exact (HPz i Hi). }
  rewrite app_length, Sm_plus_idx.
  assert (E1 : (sumf (fun i => y i * z i) (seq 0 (length s)) == sumf (fun i => y i * q i) (seq 0 (length s)) -
     sumf (fun m => sumf (fun l => W (nth m b 0%nat) l * y l) (seq 0 (length s)) * z (length s + m)%nat) (seq 0 (length b)))%Q).
  { transitivity (sumf (fun i => y i * q i)%Q (seq 0 (length s)) -
       sumf (fun m => sumf (fun i => y i * sumf (fun l => B i l * cov (nth l s 0%nat) (nth m b 0%nat)) (seq 0 (length s))) (seq 0 (length s)) * z (length s + m)%nat) (seq 0 (length b)))%Q.
    - rewrite Sm_assoc, <- sumf_minus. apply Sm_ext. intros i Hi. rewrite (Hqz i Hi). lra.
    - apply Qplus_comp; [reflexivity|]. apply Qopp_comp. apply Sm_ext. intros m Hm'. rewrite (HWq m Hm'). reflexivity. }
  rewrite E1.
  assert (E2 : (sumf (fun i => y i * q i) (seq 0 (length s)) == sumf (fun i => (nth i xs 0 - mean (nth i s 0%nat)) * sumf (fun j => B i j * (nth j xs 0 - mean (nth j s 0%nat))) (seq 0 (length s))) (seq 0 (length s)))%Q).
  { apply Sm_ext. intros i Hi. rewrite (Hys i Hi). apply Qmult_comp; [reflexivity|]. unfold q. apply Sm_ext. intros l Hl. rewrite (Hys l Hl). reflexivity. }
  rewrite E2.
  assert (Hres : forall i, i < length b -> (xb i - g_mean g i == y (length s + i)%nat - sumf (fun l => W (nth i b 0%nat) l * y l) (seq 0 (length s)))%Q).
  { intros i Hi. rewrite Hyb, Hm.
    assert (E : (sumf (fun j => coefs_of cov B1 b s i j * (nth j xs 0 - mean (nth j s 0%nat))) (seq 0 (length s)) == sumf (fun l => W (nth i b 0%nat) l * y l) (seq 0 (length s)))%Q).
    { apply Sm_ext. intros l Hl. rewrite (Hys l Hl). reflexivity. }
    rewrite E. lra. }
  assert (E3 : (sumf (fun i => (xb i - g_mean g i) * sumf (fun j => D i j * (xb j - g_mean g j)) (seq 0 (length b))) (seq 0 (length b)) ==
     sumf (fun l => y (length s + l)%nat * z (length s + l)%nat) (seq 0 (length b)) -
     sumf (fun m => sumf (fun l => W (nth m b 0%nat) l * y l) (seq 0 (length s)) * z (length s + m)%nat) (seq 0 (length b)))%Q).
  { rewrite <- sumf_minus. apply Sm_ext. intros i Hi.
    assert (F : (sumf (fun j => D i j * (xb j - g_mean g j)) (seq 0 (length b)) == z (length s + i)%nat)%Q).
    { rewrite Hz. apply Sm_ext. intros j Hj. rewrite (Hres j Hj). reflexivity. }
    rewrite F, (Hres i Hi). lra. }
  rewrite E3. lra.
Qed.

(** ** samples *)
Theorem sample_spec inv rvs N n mean cov bar set x rows : (forall g M l, rvs g M = Some l -> length l = M * g_dim g) ->
  sampleMVN inv rvs N n mean cov bar set x = Some rows ->
  exists g l, condMVN inv n mean cov bar set x = Some g /\ rvs g N = Some l /\ N * g_dim g = N * length bar /\
    length rows = N /\ (forall i, i < N -> length (nth i rows []) = length bar) /\ concat rows = l.
Proof.
  intros Hr H. unfold sampleMVN in H. destruct (condMVN inv n mean cov bar set x) as [g|]; [|discriminate].
  destruct (rvs g N) as [l|] eqn:El; [|discriminate]. unfold reshape in H.
  destruct (Nat.eqb_spec (length l) (N * length bar)) as [E|]; [|discriminate]. injection H as <-.
  exists g, l. split; [reflexivity|]. split; [exact El|]. rewrite (Hr g N l El) in E. split; [exact E|].
  split; [rewrite map_length, seq_length; reflexivity|]. split.
  - intros i Hi. rewrite (nth_indep _ _ ((fun i => map (fun j => nth (i * length bar + j) l 0%Q) (seq 0 (length bar))) 0)) by (rewrite map_length, seq_length; exact Hi).
    rewrite (map_nth (fun i => map (fun j => nth (i * length bar + j) l 0%Q) (seq 0 (length bar))) (seq 0 N) 0), map_length, seq_length. reflexivity.
  - rewrite <- (Hr g N l El) in E. clear Hr El. revert l E. induction N as [|M IH]; intros l E.
    + cbn in E. destruct l; [reflexivity|discriminate].
    + cbn [seq map concat]. rewrite <- seq_shift, map_map.
      assert (Hl : l = firstn (length bar) l ++ skipn (length bar) l) by (symmetry; apply firstn_skipn).
      assert (Hlen : length (firstn (length bar) l) = length bar) by (apply firstn_length_le; rewrite E; lia).
      assert (Hsk : length (skipn (length bar) l) = M * length bar) by (rewrite skipn_length, E; lia).
      transitivity (firstn (length bar) l ++ skipn (length bar) l); [|symmetry; exact Hl]. f_equal.
      * apply (nth_ext _ _ 0%Q 0%Q); [rewrite map_length, seq_length, Hlen; reflexivity|].
        rewrite map_length, seq_length. intros j Hj.
        rewrite (nth_indep _ _ ((fun j => nth (0 * length bar + j) l 0%Q) 0)) by (rewrite map_length, seq_length; exact Hj).
        rewrite (map_nth (fun j => nth (0 * length bar + j) l 0%Q) (seq 0 (length bar)) 0), seq_nth by exact Hj. cbn [plus Nat.mul].
        rewrite Hl at 1. rewrite app_nth1 by (rewrite Hlen; exact Hj). reflexivity.
      * transitivity (concat (map (fun i => map (fun j => nth (i * length bar + j) (skipn (length bar) l) 0%Q) (seq 0 (length bar))) (seq 0 M))); [|apply IH; exact Hsk].
        f_equal. apply map_ext. intro i. apply map_ext. intro j. rewrite Hl at 1. rewrite app_nth2 by (rewrite Hlen; lia).
        f_equal. rewrite Hlen. lia.
Qed.
Theorem sample_empty_raises inv rvs N n mean cov bar x : (forall g M l, rvs g M = Some l -> length l = M * g_dim g) ->
  0 < N -> length bar <> n -> sampleMVN inv rvs N n mean cov bar [] x = None.
Proof.
  intros Hr HN Hb. destruct (sampleMVN inv rvs N n mean cov bar [] x) as [rows|] eqn:E; [|reflexivity]. exfalso.
  destruct (sample_spec _ _ _ _ _ _ _ _ _ _ Hr E) as [g [l [Hg [_ [Hd _]]]]]. cbn in Hg. injection Hg as <-. cbn [g_dim] in Hd. nia.
Qed.

(** ** the linear model *)
Lemma write_at_other x idx v k : ~ In k idx -> write_at x idx v k = x k.
Proof.
  intro Hk. unfold write_at.
  assert (G : forall l y, (forall i, In i l -> i < length idx) -> fold_left (fun z i => upd z (nth i idx 0) (v i)) l y k = y k).
  { induction l as [|i l IH]; intros y Hl; [reflexivity|]. cbn [fold_left]. rewrite IH by (intros; apply Hl; now right).
    apply upd_other. intros E. apply Hk. rewrite E. apply nth_In. apply Hl. now left. }
  apply G. intros i Hi. apply in_seq in Hi. lia.
Qed.
Lemma write_at_nth x idx v i : NoDup idx -> i < length idx -> write_at x idx v (nth i idx 0) = v i.
Proof.
  intros Hnd Hi. unfold write_at.
  assert (G : forall l y, NoDup l -> (forall j, In j l -> j < length idx) -> In i l ->
     fold_left (fun z j => upd z (nth j idx 0) (v j)) l y (nth i idx 0) = v i).
  { induction l as [|j l IH] using rev_ind; intros y Hl Hr Hin; [contradiction|]. rewrite fold_left_app. cbn [fold_left].
    destruct (Nat.eq_dec i j) as [->|Hne]; [apply upd_same|].
    rewrite upd_other.
    - apply IH; [apply NoDup_remove_1 in Hl; rewrite app_nil_r in Hl; exact Hl|intros; apply Hr; apply in_or_app; now left|].
      apply in_app_or in Hin. destruct Hin as [Hin|[E|[]]]; [exact Hin|congruence].
    - intros E. apply Hne. apply (proj1 (NoDup_nth idx 0) Hnd); [exact Hi|apply Hr; apply in_or_app; right; now left|exact E]. }
  apply G; [apply seq_NoDup|intros j Hj; apply in_seq in Hj; lia|apply in_seq; lia].
Qed.
Definition rest (d : nat) (Sv : list nat) : list nat := filter (fun i => negb (memb i Sv)) (seq 0 d).
Lemma rest_nil d : rest d [] = seq 0 d.
Proof. unfold rest. induction (seq 0 d) as [|a l IH]; [reflexivity|]. cbn [filter memb existsb negb]. cbn in IH |- *. f_equal. exact IH. Qed.
Lemma rest_NoDup d Sv : NoDup (rest d Sv). Proof. apply NoDup_filter, seq_NoDup. Qed.
Lemma rest_In d Sv k : In k (rest d Sv) <-> k < d /\ ~ In k Sv.
Proof.
  unfold rest. rewrite filter_In, in_seq. split.
  - intros [A B]. split; [lia|]. intros C. apply memb_true in C. rewrite C in B. discriminate.
  - intros [A B]. split; [lia|]. destruct (memb k Sv) eqn:E; [|reflexivity]. apply memb_true in E. contradiction.
Qed.
Lemma split_sum d Sv f : NoDup Sv -> (forall k, In k Sv -> k < d) ->
  (sumf f (seq 0 d) == sumf f Sv + sumf f (rest d Sv))%Q.
Proof.
  intros Hnd Hr. rewrite (sumf_split (fun i => memb i Sv) f (seq 0 d)). apply Qplus_comp; [|reflexivity].
  apply sumf_perm. apply NoDup_Permutation; [apply NoDup_filter, seq_NoDup|exact Hnd|].
  intro k. rewrite filter_In, in_seq, memb_true. split; [tauto|]. intro Hk. split; [|exact Hk]. specialize (Hr k Hk). lia.
Qed.
Lemma rest_full d Sv : NoDup Sv -> (forall k, In k Sv -> k < d) -> length Sv = d -> rest d Sv = [].
Proof.
  intros Hnd Hr Hl. destruct (rest d Sv) as [|k l] eqn:E; [reflexivity|exfalso].
  assert (Hk : In k (rest d Sv)) by (rewrite E; now left). apply rest_In in Hk. destruct Hk as [Hk Hn].
  apply Hn. apply (NoDup_length_incl Hnd (l' := seq 0 d)); [rewrite seq_length; lia| |apply in_seq; lia].
  intros a Ha. apply in_seq. specialize (Hr a Ha). lia.
Qed.
Lemma filled_sum d Sv coefs x v : NoDup Sv -> (forall k, In k Sv -> k < d) ->
  (sumf (fun i => coefs i * (if (length Sv =? d)%nat then x else write_at x (rest d Sv) v) i) (seq 0 d) ==
   sumf (fun k => coefs k * x k) Sv + sumf (fun i => coefs (nth i (rest d Sv) 0%nat) * v i) (seq 0 (length (rest d Sv))))%Q.
Proof.
  intros Hnd Hr.
  assert (E : forall k, (if length Sv =? d then x else write_at x (rest d Sv) v) k = write_at x (rest d Sv) v k).
  { intro k. destruct (Nat.eqb_spec (length Sv) d) as [El|]; [|reflexivity]. rewrite rest_full by assumption. reflexivity. }
  rewrite (split_sum d Sv _ Hnd Hr). apply Qplus_comp.
  - apply sumf_ext. intros k Hk. rewrite E, write_at_other; [reflexivity|]. intro C. apply rest_In in C. tauto.
  - rewrite sum_positions. apply Sm_ext. intros i Hi. rewrite E, write_at_nth by (assumption || apply rest_NoDup). reflexivity.
Qed.
Theorem mar_linear_spec d mean cov coefs x Sv : NoDup Sv -> (forall k, In k Sv -> k < d) ->
  exists r, mar_exp_linear d mean cov coefs x Sv = Some r /\
    (r == sumf (fun k => coefs k * (if memb k Sv then x k else mean k)) (seq 0 d))%Q.
Proof.
  intros Hnd Hr. unfold mar_exp_linear. fold (rest d Sv).
  assert (Hm : exists g, marMVN d mean cov (rest d Sv) Sv (map x Sv) = Some g /\ forall i, i < length (rest d Sv) -> g_mean g i = mean (nth i (rest d Sv) 0)).
  { unfold marMVN. destruct Sv as [|s0 Sv].
    - eexists. split; [reflexivity|]. cbn [g_mean]. intros i Hi. unfold rest in *. cbn [memb negb] in *.
      assert (Ef : filter (fun i => negb (memb i [])) (seq 0 d) = seq 0 d) by (apply rest_nil).
      rewrite Ef in *. rewrite seq_length in Hi. rewrite seq_nth by exact Hi. reflexivity.
    - assert (Er : in_range d (rest d (s0 :: Sv)) = true).
      { apply forallb_forall. intros k Hk. apply rest_In in Hk. apply Nat.ltb_lt. tauto. }
      rewrite Er. eexists. split; [reflexivity|]. reflexivity. }
  destruct Hm as [g [Eg Hg]]. rewrite Eg. eexists. split; [reflexivity|]. cbv zeta. rewrite (filled_sum d Sv coefs x (g_mean g) Hnd Hr).
  rewrite (split_sum d Sv _ Hnd Hr). apply Qplus_comp.
  - apply sumf_ext. intros k Hk. apply memb_true in Hk. rewrite Hk. reflexivity.
  - rewrite (sum_positions _ (rest d Sv)). apply Sm_ext. intros i Hi. rewrite Hg by exact Hi.
    destruct (memb (nth i (rest d Sv) 0) Sv) eqn:E; [|reflexivity]. exfalso. apply memb_true in E.
    assert (C : In (nth i (rest d Sv) 0) (rest d Sv)) by (apply nth_In; exact Hi). apply rest_In in C. tauto.
Qed.
Theorem cond_linear_spec inv d mean cov coefs Sv x0 r0 : inv_sound inv -> (forall k, In k Sv -> k < d) ->
  cond_exp_linear inv d mean cov coefs x0 Sv = Some r0 ->
  exists w, (forall j, j < length Sv -> (covar d cov (fun k => coefs k - comb Sv w k) (coord (nth j Sv 0%nat)) == 0)%Q) /\
    forall x, exists r, cond_exp_linear inv d mean cov coefs x Sv = Some r /\
      (r == sumf (fun k => coefs k * mean k) (seq 0 d) + sumf (fun j => w j * (x (nth j Sv 0%nat) - mean (nth j Sv 0%nat))) (seq 0 (length Sv)))%Q.
Proof.
  intros Hinv Hr H. destruct Sv as [|s0 Sv'].
  - exists (fun _ => 0%Q). split; [intros j Hj; cbn in Hj; lia|]. intro x. unfold cond_exp_linear. fold (rest d []). cbn [condMVN map].
    eexists. split; [reflexivity|]. cbv zeta. cbn [g_mean]. rewrite (filled_sum d [] coefs x mean (NoDup_nil _) Hr). cbn [sumf length seq].
    rewrite (split_sum d [] (fun k => coefs k * mean k)%Q (NoDup_nil _) Hr). cbn [sumf].
    assert (Ef : rest d [] = seq 0 d) by (apply rest_nil). rewrite Ef, seq_length.
    rewrite (Sm_ext d (fun i => coefs (nth i (seq 0 d) 0%nat) * mean i)%Q (fun k => coefs k * mean k)%Q) by (intros i Hi; rewrite seq_nth by exact Hi; reflexivity).
    lra.
  - assert (Hne : s0 :: Sv' <> []) by discriminate. remember (s0 :: Sv') as Sv eqn:ES. clear ES.
    unfold cond_exp_linear in H. fold (rest d Sv) in H.
    destruct (condMVN inv d mean cov (rest d Sv) Sv (map x0 Sv)) as [g0|] eqn:Eg0; [|discriminate]. clear H.
    destruct (cond_some _ _ _ _ _ _ _ _ Hne Eg0) as [B [v0 [Hb [Hs [HB [_ _]]]]]].
    pose proof (Hinv _ _ _ HB) as HI. assert (Hnd : NoDup Sv) by (eapply inverse_NoDup; exact HI).
    set (b := rest d Sv) in *. set (W := coefs_of cov B b Sv).
    assert (HR : regression d cov b Sv W) by (apply coefs_regression; assumption).
    set (w := fun j => (coefs (nth j Sv 0%nat) + sumf (fun i => coefs (nth i b 0%nat) * W i j) (seq 0 (length b)))%Q).
    exists w. split.
    + intros j Hj.
      rewrite (covar_ext d cov _ (fun k => sumf (fun i => coefs (nth i b 0%nat) * resid (nth i b 0%nat) Sv (W i) k)%Q (seq 0 (length b))) _ (coord (nth j Sv 0))).
      * rewrite covar_sum_l. apply sumf_zero. intros i Hi. apply in_seq in Hi. pose proof (HR i j ltac:(lia) Hj) as E. cbv beta in E.
        transitivity (coefs (nth i b 0%nat) * 0)%Q; [|lra]. apply Qmult_comp; [reflexivity|]. exact E.
      * intros k Hk.
        assert (E1 : (coefs k == sumf (fun m => coefs m * delta m k) Sv + sumf (fun m => coefs m * delta m k) b)%Q).
        { unfold b. rewrite <- (split_sum d Sv (fun m => coefs m * delta m k)%Q Hnd Hr). rewrite (Sm_delta_r d k coefs Hk). reflexivity. }
        assert (E2 : (comb Sv w k == sumf (fun m => coefs m * delta m k) Sv +
           sumf (fun i => coefs (nth i b 0%nat) * comb Sv (W i) k) (seq 0 (length b)))%Q).
        { unfold comb at 1. rewrite (sum_positions _ Sv).
          rewrite (Sm_ext (length b) (fun i => coefs (nth i b 0%nat) * comb Sv (W i) k)%Q
             (fun i => coefs (nth i b 0%nat) * sumf (fun j => W i j * delta (nth j Sv 0%nat) k) (seq 0 (length Sv)))%Q) by reflexivity.
          rewrite <- Sm_assoc, <- sumf_plus. apply Sm_ext. intros a _. unfold w. lra. }
        assert (E3 : (sumf (fun i => coefs (nth i b 0%nat) * resid (nth i b 0%nat) Sv (W i) k) (seq 0 (length b)) ==
           sumf (fun m => coefs m * delta m k) b - sumf (fun i => coefs (nth i b 0%nat) * comb Sv (W i) k) (seq 0 (length b)))%Q).
        { rewrite (sum_positions _ b), <- sumf_minus. apply Sm_ext. intros i _. unfold resid, coord. lra. }
        rewrite E2, E3. rewrite E1 at 1. lra.
      * reflexivity.
    + intro x. unfold cond_exp_linear. fold (rest d Sv). fold b.
      assert (Eg : exists g, condMVN inv d mean cov b Sv (map x Sv) = Some g).
      { unfold condMVN. destruct Sv as [|s1 Sv'']; [congruence|]. remember (s1 :: Sv'') as st eqn:Est. rewrite Hb, Hs, HB. cbn [andb].
        rewrite (spread_some (map x st) (length st)) by apply map_length. eexists. reflexivity. }
      destruct Eg as [g Eg]. rewrite Eg. eexists. split; [reflexivity|]. cbv zeta.
      etransitivity; [exact (filled_sum d Sv coefs x (g_mean g) Hnd Hr)|]. fold b.
      destruct (cond_some _ _ _ _ _ _ _ _ Hne Eg) as [B' [v [_ [_ [HB' [Hv [_ [Hm _]]]]]]]]. rewrite HB in HB'. injection HB' as <-.
      rewrite (spread_some (map x Sv) (length Sv)) in Hv by apply map_length. injection Hv as <-.
      assert (E1 : (sumf (fun i => coefs (nth i b 0%nat) * g_mean g i) (seq 0 (length b)) ==
         sumf (fun k => coefs k * mean k) b + sumf (fun j => sumf (fun i => coefs (nth i b 0%nat) * W i j) (seq 0 (length b)) * (x (nth j Sv 0%nat) - mean (nth j Sv 0%nat))) (seq 0 (length Sv)))%Q).
      { rewrite Sm_assoc, (sum_positions _ b), <- sumf_plus. apply Sm_ext. intros i Hi. rewrite Hm.
        assert (E : (sumf (fun j => coefs_of cov B b Sv i j * (nth j (map x Sv) 0 - mean (nth j Sv 0%nat))) (seq 0 (length Sv)) ==
           sumf (fun j => W i j * (x (nth j Sv 0%nat) - mean (nth j Sv 0%nat))) (seq 0 (length Sv)))%Q).
        { apply Sm_ext. intros a Ha. rewrite (nth_indep _ _ (x 0)) by (rewrite map_length; exact Ha). rewrite map_nth. reflexivity. }
        rewrite E. lra. }
      rewrite E1, (split_sum d Sv (fun k => coefs k * mean k)%Q Hnd Hr). fold b.
      assert (E2 : (sumf (fun j => w j * (x (nth j Sv 0%nat) - mean (nth j Sv 0%nat))) (seq 0 (length Sv)) ==
         sumf (fun k => coefs k * x k) Sv - sumf (fun k => coefs k * mean k) Sv +
         sumf (fun j => sumf (fun i => coefs (nth i b 0%nat) * W i j) (seq 0 (length b)) * (x (nth j Sv 0%nat) - mean (nth j Sv 0%nat))) (seq 0 (length Sv)))%Q).
      { rewrite <- sumf_minus, (sum_positions _ Sv), <- sumf_plus. apply Sm_ext. intros a _. unfold w. lra. }
      rewrite E2. lra.
Qed.

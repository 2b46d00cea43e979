(** Proofs about GmmModel. *)
From Verif Require Import Base GameSpec GameProofs ShapSpec ShapProofs ShapModel SearchModel SearchProofs SwingModel SwingProofs MvnModel MvnSpec MvnProofs PermModel PermSpec PermProofs GmmModel GmmSpec.
From Coq Require Import ZArith.
Local Open Scope nat_scope.

(** ** The regression is unique *)
Lemma regressed_unique inv d mean cov coefs x s r q : inv_sound inv -> (forall k, In k s -> k < d) ->
  cond_exp_linear inv d mean cov coefs x s = Some q -> regressed d mean cov coefs x s r -> (r == q)%Q.
Proof.
  intros Hinv Hr Hc [w [Hw Er]].
  destruct (cond_linear_spec inv d mean cov coefs s x q Hinv Hr Hc) as [w' [Hw' Hx]].
  destruct (Hx x) as [q' [Eq Hq]]. rewrite Hc in Eq. injection Eq as <-. rewrite Er, Hq. apply Qplus_comp; [reflexivity|].
  destruct s as [|s0 s']; [reflexivity|]. remember (s0 :: s') as s eqn:Es. assert (Hne : s <> []) by (subst; discriminate). clear Es.
  unfold cond_exp_linear in Hc. fold (rest d s) in Hc.
  destruct (condMVN inv d mean cov (rest d s) s (map x s)) as [g0|] eqn:Eg0; [|discriminate]. clear Hc.
  destruct (cond_some _ _ _ _ _ _ _ _ Hne Eg0) as [B [v0 [Hb [Hs [HB [_ _]]]]]].
  pose proof (Hinv _ _ _ HB) as HI. clear Eg0.
  assert (Hsame : forall j, j < length s -> (sumf (fun l => w l * cov (nth l s 0%nat) (nth j s 0%nat)) (seq 0 (length s)) ==
     sumf (fun l => w' l * cov (nth l s 0%nat) (nth j s 0%nat)) (seq 0 (length s)))%Q).
  { intros j Hj. assert (G : forall u, (covar d cov (fun k => coefs k - comb s u k) (coord (nth j s 0%nat)) == 0)%Q ->
       (sumf (fun l => u l * cov (nth l s 0%nat) (nth j s 0%nat)) (seq 0 (length s)) == covar d cov coefs (coord (nth j s 0%nat)))%Q).
    { intros u Hu. rewrite (covar_minus_l d cov coefs (comb s u) (coord (nth j s 0))) in Hu. rewrite covar_comb_l in Hu.
      rewrite (Sm_ext (length s) (fun l => u l * cov (nth l s 0%nat) (nth j s 0%nat))%Q
        (fun l => u l * covar d cov (coord (nth l s 0%nat)) (coord (nth j s 0%nat)))%Q); [lra|].
      intros l Hl. rewrite covar_coord; [reflexivity| |]; apply Hr, nth_In; assumption. }
    rewrite (G w (Hw j Hj)), (G w' (Hw' j Hj)). reflexivity. }
  apply Sm_ext. intros j Hj. apply Qmult_comp; [|reflexivity].
  assert (G : forall u : vec, (u j == sumf (fun k => sumf (fun l => u l * cov (nth l s 0%nat) (nth k s 0%nat)) (seq 0 (length s)) * B k j) (seq 0 (length s)))%Q).
  { intro u. rewrite Sm_assoc. rewrite <- (Sm_delta_r (length s) j u Hj) at 1. apply Sm_ext. intros l Hl. apply Qmult_comp; [reflexivity|].
    destruct (HI l j Hl Hj) as [E _]. symmetry. exact E. }
  rewrite (G w), (G w'). apply Sm_ext. intros k Hk. apply Qmult_comp; [|reflexivity]. now apply Hsame.
Qed.

(** ** Indicators *)
Section Layout.
Variables (G : gmm) (n : nat).
Hypothesis HL : layout G n.
Let d := gm_d G.
Lemma cat_memb k : memb k (gm_cat G) = (k =? d) || (k =? S d).
Proof. rewrite (proj1 HL). cbn. rewrite orb_false_r. reflexivity. Qed.
Lemma numeric_eq S : in_n n S -> filter (fun k => negb (memb k (gm_cat G))) S = numeric G S.
Proof.
  intro Hr. unfold numeric. apply filter_ext_in'. intros k Hk. rewrite cat_memb. specialize (Hr k Hk). pose proof (proj2 HL) as Hn. fold d in Hn |- *.
  destruct (Nat.eqb_spec k d), (Nat.eqb_spec k (Datatypes.S d)), (Nat.ltb_spec k d); cbn; (reflexivity || lia).
Qed.
Lemma agrees_spec x S y : in_n n S -> agrees G x S y = true <->
  (In d S -> (x d == indicator G y d)%Q) /\ (In (Datatypes.S d) S -> (x (Datatypes.S d) == indicator G y (Datatypes.S d))%Q).
Proof.
  intro Hr. unfold agrees. rewrite forallb_forall. split.
  - intro H. split; intro Hk; specialize (H _ Hk); fold d in H.
    + rewrite Nat.ltb_irrefl in H. cbn [orb] in H. destruct (qeqb_spec (x d) (indicator G y d)); [trivial|discriminate].
    + destruct (Nat.ltb_spec (Datatypes.S d) d); [lia|]. cbn [orb] in H. destruct (qeqb_spec (x (Datatypes.S d)) (indicator G y (Datatypes.S d))); [trivial|discriminate].
  - intros [H1 H2] k Hk. fold d. destruct (Nat.ltb_spec k d); [reflexivity|]. specialize (Hr k Hk). pose proof (proj2 HL) as Hn. fold d in Hn.
    assert (Hc : k = d \/ k = Datatypes.S d) by lia. cbn [orb]. destruct Hc as [->| ->].
    + destruct (qeqb_spec (x d) (indicator G y d)) as [|C]; [reflexivity|]. elim C. now apply H1.
    + destruct (qeqb_spec (x (Datatypes.S d)) (indicator G y (Datatypes.S d))) as [|C]; [reflexivity|]. elim C. now apply H2.
Qed.
Lemma agrees_perm x S S' y : in_n n S -> Permutation S S' -> agrees G x S y = agrees G x S' y.
Proof.
  intros Hr HP. assert (Hr' : in_n n S') by (intros k Hk; apply Hr; now apply (Permutation_in k (Permutation_sym HP))).
  assert (E : agrees G x S y = true <-> agrees G x S' y = true).
  { rewrite !agrees_spec by assumption. split; intros [A B]; split; intro K; (apply A || apply B);
      (now apply (Permutation_in _ HP)) || (now apply (Permutation_in _ (Permutation_sym HP))). }
  destruct (agrees G x S y), (agrees G x S' y); try reflexivity; destruct E as [E1 E2]; [rewrite E1 by reflexivity|rewrite E2 by reflexivity]; reflexivity.
Qed.
(** the known indicators *)
Definition cats (S : list nat) : list nat := filter (fun k => memb k (gm_cat G)) S.
Lemma cats_In S k : In k (cats S) <-> In k S /\ (k = d \/ k = Datatypes.S d).
Proof.
  unfold cats. rewrite filter_In, cat_memb. split; intros [A B]; (split; [exact A|]).
  - apply orb_true_iff in B. rewrite !Nat.eqb_eq in B. exact B.
  - apply orb_true_iff. rewrite !Nat.eqb_eq. exact B.
Qed.
Lemma cats_cases S : NoDup S -> cats S = [] \/ cats S = [d] \/ cats S = [Datatypes.S d] \/ cats S = [d; Datatypes.S d] \/ cats S = [Datatypes.S d; d].
Proof.
  intro Hd. pose proof (NoDup_filter (fun k => memb k (gm_cat G)) Hd) as Hn. fold (cats S) in Hn.
  assert (Hi : forall k, In k (cats S) -> k = d \/ k = Datatypes.S d) by (intros k Hk; apply cats_In in Hk; tauto).
  assert (Hlen : length (cats S) <= 2).
  { change 2 with (length [d; Datatypes.S d]). apply NoDup_incl_length; [exact Hn|]. intros k Hk. destruct (Hi k Hk) as [->| ->]; cbn; tauto. }
  destruct (cats S) as [|a [|b [|c l]]]; [now left| | |cbn in Hlen; lia].
  - destruct (Hi a (or_introl eq_refl)) as [->| ->]; tauto.
  - inversion Hn as [|? ? Hnab _]; subst. assert (a <> b) by (intros ->; apply Hnab; now left).
    destruct (Hi a (or_introl eq_refl)) as [->| ->], (Hi b (or_intror (or_introl eq_refl))) as [->| ->]; try congruence; tauto.
Qed.
Lemma cats_ordered S : ordered G S -> cats S <> [Datatypes.S d; d].
Proof.
  intros Ho E. assert (Hd : In d S) by (apply cats_In with (k := d); rewrite E; cbn; tauto).
  destruct (in_split _ _ Hd) as [l [r ->]]. apply (Ho l r eq_refl). fold d.
  unfold cats in E. rewrite filter_app in E. cbn [filter] in E. rewrite cat_memb, Nat.eqb_refl in E. cbn [orb] in E.
  destruct (filter (fun k => memb k (gm_cat G)) l) as [|a l'] eqn:El; cbn [app] in E.
  - injection E as E _. lia.
  - injection E as -> _. assert (Ha : In (Datatypes.S d) (filter (fun k => memb k (gm_cat G)) l)) by (rewrite El; now left).
    apply filter_In in Ha. tauto.
Qed.
Lemma parts_perm S : in_n n S -> Permutation S (numeric G S ++ cats S).
Proof.
  intro Hr. unfold numeric, cats. induction S as [|a S IH]; [constructor|].
  assert (IH' := IH (fun k Hk => Hr k (or_intror Hk))). cbn [filter]. rewrite cat_memb. specialize (Hr a (or_introl eq_refl)).
  pose proof (proj2 HL) as Hn. fold d in Hn |- *.
  destruct (Nat.ltb_spec a d), (Nat.eqb_spec a d), (Nat.eqb_spec a (Datatypes.S d)); cbn [orb]; try lia; cbn [app].
  - now constructor.
  - etransitivity; [apply perm_skip, IH'|]. apply Permutation_middle.
  - etransitivity; [apply perm_skip, IH'|]. apply Permutation_middle.
Qed.
Lemma numeric_perm S S' : Permutation S S' -> Permutation (numeric G S) (numeric G S').
Proof.
  clear. induction 1; unfold numeric in *; cbn [filter].
  - constructor.
  - destruct (x <? gm_d G); [now constructor|assumption].
  - destruct (x <? gm_d G), (y <? gm_d G); try reflexivity. constructor.
  - etransitivity; eassumption.
Qed.
Lemma numeric_NoDup S : NoDup S -> NoDup (numeric G S). Proof. apply NoDup_filter. Qed.
Lemma numeric_lt S k : In k (numeric G S) -> k < d.
Proof. unfold numeric. rewrite filter_In. intros [_ H]. now apply Nat.ltb_lt in H. Qed.
Lemma numeric_full S : NoDup S -> in_n n S -> length S = n -> length (numeric G S) = d /\ In d S /\ In (Datatypes.S d) S.
Proof.
  intros Hd Hr Hl. pose proof (proj2 HL) as Hn. fold d in Hn.
  assert (HI : incl (seq 0 n) S). { apply NoDup_length_incl; [exact Hd|rewrite seq_length; lia|]. intros k Hk. apply in_seq. specialize (Hr k Hk). lia. }
  split; [|split; apply HI, in_seq; lia].
  assert (HP : Permutation (numeric G S) (seq 0 d)).
  { apply NoDup_Permutation; [now apply numeric_NoDup|apply seq_NoDup|]. intro k. unfold numeric. rewrite filter_In, in_seq, Nat.ltb_lt. fold d. split; [lia|].
    intro Hk. split; [|lia]. apply HI, in_seq. lia. }
  rewrite (Permutation_length HP). apply seq_length.
Qed.
End Layout.

(** ** The value *)
Lemma loop_spec f (p pm : cls -> Q) l : (forall y, f y = Some (p y, pm y)) ->
  exists a b, loop f l = Some (a, b) /\ (a == sumf p l)%Q /\ (b == sumf pm l)%Q.
Proof.
  intro Hf. unfold loop.
  assert (H : forall a0 b0, exists a b, fold_left (fun acc y => match acc, f y with Some (p, c), Some (a, b) => Some (p + a, c + b)%Q | _, _ => None end) l (Some (a0, b0)) = Some (a, b) /\
     (a == a0 + sumf p l)%Q /\ (b == b0 + sumf pm l)%Q).
  { induction l as [|y l IH]; intros a0 b0; cbn [fold_left sumf].
    - exists a0, b0. split; [reflexivity|]. split; lra.
    - rewrite Hf. destruct (IH (a0 + p y) (b0 + pm y))%Q as [a [b [E [Ha Hb]]]]. exists a, b. split; [exact E|]. split; [rewrite Ha|rewrite Hb]; lra. }
  destruct (H 0 0)%Q as [a [b [E [Ha Hb]]]]. exists a, b. split; [exact E|]. split; lra.
Qed.
Lemma qeqb_ext a b c : (a == b)%Q -> qeqb a c = qeqb b c.
Proof. intro H. destruct (qeqb_spec a c) as [E|E], (qeqb_spec b c) as [F|F]; try reflexivity; exfalso; [apply F|apply E]; lra. Qed.
Lemma indicator_d G y : indicator G y (gm_d G) = match y with Ka => 1%Q | _ => 0%Q end.
Proof. unfold indicator. now rewrite Nat.eqb_refl. Qed.
Lemma indicator_Sd G y : indicator G y (S (gm_d G)) = match y with Kb => 1%Q | _ => 0%Q end.
Proof. unfold indicator. destruct (Nat.eqb_spec (S (gm_d G)) (gm_d G)); [lia|reflexivity]. Qed.
Lemma agrees_bool G n x T y : layout G n -> in_n n T -> agrees G x T y =
  (if memb (gm_d G) T then qeqb (x (gm_d G)) (indicator G y (gm_d G)) else true) &&
  (if memb (S (gm_d G)) T then qeqb (x (S (gm_d G))) (indicator G y (S (gm_d G))) else true).
Proof.
  intros HL Hr. pose proof (agrees_spec G n HL x T y Hr) as H.
  destruct (agrees G x T y) eqn:E.
  - destruct (proj1 H eq_refl) as [A B]. symmetry. apply andb_true_iff. split.
    + destruct (memb (gm_d G) T) eqn:M; [|reflexivity]. apply memb_true in M. destruct (qeqb_spec (x (gm_d G)) (indicator G y (gm_d G))) as [|K]; [reflexivity|].
      elim K. now apply A.
    + destruct (memb (S (gm_d G)) T) eqn:M; [|reflexivity]. apply memb_true in M. destruct (qeqb_spec (x (S (gm_d G))) (indicator G y (S (gm_d G)))) as [|K]; [reflexivity|].
      elim K. now apply B.
  - symmetry. apply not_true_iff_false. intro K. apply andb_true_iff in K. destruct K as [K1 K2].
    assert (F : false = true); [|discriminate]. apply H. split; intro Hk; apply memb_true in Hk.
    + rewrite Hk in K1. destruct (qeqb_spec (x (gm_d G)) (indicator G y (gm_d G))); [trivial|discriminate].
    + rewrite Hk in K2. destruct (qeqb_spec (x (S (gm_d G))) (indicator G y (S (gm_d G)))); [trivial|discriminate].
Qed.

Section Value.
Variable inv : nat -> mat -> option mat.
Variable pdf : nat -> vec -> mat -> vec -> option Q.
Variables (G : gmm) (n : nat).
Hypothesis Hinv : inv_sound inv.
Hypothesis HL : layout G n.
Hypothesis Hpi : is_prior G.
Hypothesis Hpos : pdf_pos pdf.
Hypothesis Hrun : runs inv pdf G.
Let d := gm_d G.

Definition Pv (x : vec) (T : list nat) (y : cls) : Q :=
  match numeric G T with
  | [] => gm_pi G y
  | s => (gm_pi G y * the (pdf (length s) (vsub (gm_mean G y) s) (msub (gm_cov G y) s s) (vsub x s)))%Q
  end.
Definition Mv (x : vec) (T : list nat) (y : cls) : Q := the (cond_y inv G x y (numeric G T)).
Lemma Pv_pos x T y : NoDup T -> (0 < Pv x T y)%Q.
Proof.
  intro Hd. unfold Pv. pose proof (proj1 Hpi y) as Hp. destruct (numeric G T) as [|s0 s] eqn:E; [exact Hp|].
  destruct (Hrun x y (numeric G T)) as [_ H]; [now apply numeric_NoDup|intros k Hk; now apply numeric_lt in Hk|].
  rewrite E in H. specialize (H ltac:(discriminate)).
  destruct (pdf (length (s0 :: s)) (vsub (gm_mean G y) (s0 :: s)) (msub (gm_cov G y) (s0 :: s) (s0 :: s)) (vsub x (s0 :: s))) as [q|] eqn:Eq; [|congruence].
  apply Hpos in Eq. cbn [the]. rewrite <- (Qmult_0_l q). now apply Qmult_lt_compat_r.
Qed.
Lemma Pv_weight x T : NoDup T -> weight pdf G x T (Pv x T).
Proof.
  intros Hd y. unfold Pv. destruct (numeric G T) as [|s0 s] eqn:E; [reflexivity|].
  destruct (Hrun x y (numeric G T)) as [_ H]; [now apply numeric_NoDup|intros k Hk; now apply numeric_lt in Hk|].
  rewrite E in H. specialize (H ltac:(discriminate)).
  destruct (pdf (length (s0 :: s)) (vsub (gm_mean G y) (s0 :: s)) (msub (gm_cov G y) (s0 :: s) (s0 :: s)) (vsub x (s0 :: s))) as [q|] eqn:Eq; [|congruence].
  exists q. split; [reflexivity|]. reflexivity.
Qed.
Lemma weight_unique x T p : weight pdf G x T p -> forall y, (p y == Pv x T y)%Q.
Proof using.
  clear. intros Hw y. specialize (Hw y). unfold Pv. destruct (numeric G T) as [|s0 s]; [exact Hw|].
  destruct Hw as [q [E H]]. rewrite E. exact H.
Qed.
Lemma Mv_some x T y : NoDup T -> cond_y inv G x y (numeric G T) = Some (Mv x T y).
Proof.
  intro Hd. unfold Mv. destruct (Hrun x y (numeric G T)) as [H _]; [now apply numeric_NoDup|intros k Hk; now apply numeric_lt in Hk|].
  unfold cond_y in *. destruct (cond_exp_linear _ _ _ _ _ _ _); [reflexivity|congruence].
Qed.
Lemma Mv_regressed x T y : NoDup T -> regressed d (gm_mean G y) (gm_cov G y) (gm_coefs G y) x (numeric G T) (Mv x T y).
Proof.
  intro Hd. pose proof (Mv_some x T y Hd) as E. unfold cond_y in E. fold d in E.
  destruct (cond_linear_spec inv d (gm_mean G y) (gm_cov G y) (gm_coefs G y) (numeric G T) x (Mv x T y) Hinv) as [w [Hw Hx]].
  { intros k Hk. now apply numeric_lt in Hk. }
  { exact E. }
  exists w. split; [exact Hw|]. destruct (Hx x) as [r [Er Hr]]. rewrite E in Er. injection Er as <-. exact Hr.
Qed.
Lemma Mv_unique x T y m : NoDup T -> regressed d (gm_mean G y) (gm_cov G y) (gm_coefs G y) x (numeric G T) m -> (m == Mv x T y)%Q.
Proof.
  intros Hd Hm. eapply regressed_unique; [exact Hinv| |exact (Mv_some x T y Hd)|exact Hm].
  intros k Hk. now apply numeric_lt in Hk.
Qed.
Definition body (x : vec) (T : list nat) := match numeric G T with [] => turn0 inv G x [] | s => turn inv pdf G x s end.
Lemma body_some x T y : NoDup T -> body x T y = Some (Pv x T y, Pv x T y * Mv x T y)%Q.
Proof.
  intro Hd. pose proof (Mv_some x T y Hd) as E. unfold body, Pv. destruct (numeric G T) as [|s0 s] eqn:En.
  - unfold turn0. rewrite E. reflexivity.
  - unfold turn. unfold density. rewrite E.
    assert (Er : in_range (gm_d G) (s0 :: s) = true). { rewrite <- En. apply forallb_forall. intros k Hk. apply Nat.ltb_lt. now apply numeric_lt in Hk. }
    rewrite Er. destruct (Hrun x y (numeric G T)) as [_ H]; [now apply numeric_NoDup|intros k Hk; now apply numeric_lt in Hk|].
    rewrite En in H. specialize (H ltac:(discriminate)).
    destruct (pdf (length (s0 :: s)) (vsub (gm_mean G y) (s0 :: s)) (msub (gm_cov G y) (s0 :: s) (s0 :: s)) (vsub x (s0 :: s))) as [q|]; [reflexivity|congruence].
Qed.
Lemma sum_pos x T l : NoDup T -> l <> [] -> (0 < sumf (Pv x T) l)%Q.
Proof.
  intros Hd Hl. destruct l as [|y l]; [congruence|]. cbn [sumf]. pose proof (Pv_pos x T y Hd).
  assert (0 <= sumf (Pv x T) l)%Q. { apply sumf_nonneg. intros z _. apply Qlt_le_weak. now apply Pv_pos. } lra.
Qed.
(** a loop over the classes of a list, then the division *)
Lemma body_quot x T l : NoDup T -> l <> [] ->
  exists r, quot (loop (body x T) l) = Some r /\ (r == sumf (fun y => Pv x T y * Mv x T y) l / sumf (Pv x T) l)%Q.
Proof.
  intros Hd Hl. destruct (loop_spec (body x T) (Pv x T) (fun y => Pv x T y * Mv x T y)%Q l) as [a [b [E [Ha Hb]]]]; [intro y; now apply body_some|].
  rewrite E. cbn [quot]. pose proof (sum_pos x T l Hd Hl) as Hp. destruct (qeqb_spec a 0) as [K|_]; [lra|].
  eexists. split; [reflexivity|]. rewrite Ha, Hb. reflexivity.
Qed.
Lemma one_class x T y : NoDup T -> (sumf (fun y => Pv x T y * Mv x T y) [y] / sumf (Pv x T) [y] == Mv x T y)%Q.
Proof. intro Hd. cbn [sumf]. pose proof (Pv_pos x T y Hd). field. lra. Qed.
Lemma full_Mv x T y : NoDup T -> length (numeric G T) = d -> (Mv x T y == sumf (fun i => gm_coefs G y i * x i) (seq 0 d))%Q.
Proof.
  intros Hd Hl. pose proof (Mv_some x T y Hd) as E. unfold cond_y, cond_exp_linear in E. fold d in E. rewrite Hl, Nat.eqb_refl in E. cbv zeta in E.
  destruct (condMVN _ _ _ _ _ _ _); [|discriminate]. injection E as <-. reflexivity.
Qed.

Lemma cond_value x T : NoDup T -> in_n n T -> (ordered G T \/ (x d == x (S d))%Q) -> (exists y, agrees G x T y = true) ->
  exists r, cond_gmm inv pdf G n x T = Some r /\ (r == bayes G x T (Pv x T) (Mv x T))%Q.
Proof.
  intros Hd Hr Ho [y0 Hy]. pose proof (agrees_spec G n HL x T y0 Hr) as Ha. destruct (proj1 Ha Hy) as [A1 A2]. clear Ha. fold d in A1, A2.
  unfold bayes. assert (Hf : filter (agrees G x T) keys = filter (fun y => (if memb d T then qeqb (x d) (indicator G y d) else true) &&
     (if memb (S d) T then qeqb (x (S d)) (indicator G y (S d)) else true)) keys).
  { apply filter_ext. intro y. now apply agrees_bool with (n := n). }
  rewrite Hf. clear Hf. unfold indicator in A1, A2 |- *. fold d in A1, A2 |- *. rewrite Nat.eqb_refl in *.
  assert (Esd : (S d =? d) = false) by (apply Nat.eqb_neq; lia). rewrite Esd in *.
  unfold cond_gmm. destruct (Nat.eqb_spec (length T) n) as [Hlen|_].
  - destruct (numeric_full G n HL T Hd Hr Hlen) as [Hlen' [I1 I2]]. fold d in I1, I2, Hlen'. specialize (A1 I1). specialize (A2 I2).
    apply memb_true in I1, I2. rewrite I1, I2. unfold linear_gmm. rewrite (proj1 HL). fold d.
    pose proof (proj2 HL) as Hn. fold d in Hn. destruct (Nat.ltb_spec d n) as [_|]; [|lia]. destruct (Nat.ltb_spec (S d) n) as [_|]; [|lia]. cbn [andb].
    eexists. split; [reflexivity|].
    rewrite !(qeqb_ext _ _ 1 A1), !(qeqb_ext _ _ 0 A1), !(qeqb_ext _ _ 1 A2), !(qeqb_ext _ _ 0 A2).
    unfold keys. cbn [filter]. rewrite !(qeqb_ext _ _ _ A1), !(qeqb_ext _ _ _ A2).
    destruct y0; cbn -[sumf seq d Qb Qdiv Qmult]; unfold Qb; rewrite one_class by exact Hd; rewrite full_Mv by assumption; fold d; lra.
  - cbv zeta. rewrite (numeric_eq G n HL T Hr). change (filter (fun k => memb k (gm_cat G)) T) with (cats G T).
    assert (HM : forall k, k = d \/ k = S d -> memb k T = memb k (cats G T)).
    { intros k Hk. destruct (memb k T) eqn:E.
      - apply memb_true in E. symmetry. apply memb_true. apply (cats_In G n HL). split; [exact E|]. exact Hk.
      - symmetry. apply memb_false. intro K. apply (cats_In G n HL) in K. apply memb_false in E. tauto. }
    rewrite (HM d (or_introl eq_refl)), (HM (S d) (or_intror eq_refl)).
    assert (HIn : forall k, In k (cats G T) -> In k T) by (intros k Hk; now apply (cats_In G n HL) in Hk). clear HM.
    pose proof (proj2 HL) as Hn. fold d in Hn.
    assert (Ebody : forall l, (match numeric G T with [] => quot (loop (turn0 inv G x (numeric G T)) l) | _ => quot (loop (turn inv pdf G x (numeric G T)) l) end) = quot (loop (body x T) l)).
    { intro l. unfold body. destruct (numeric G T); reflexivity. }
    destruct (cats_cases G n HL T Hd) as [E|[E|[E|[E|E]]]]; fold d in E; rewrite E in *.
    + (* no indicator *)
      cbn [memb existsb andb]. assert (Ek : filter (fun _ : cls => true) keys = keys) by reflexivity.
      match goal with |- context [filter ?f keys] => change (filter f keys) with keys end.
      destruct (numeric G T) as [|s0 s] eqn:En.
      * assert (Eb : body x T = turn0 inv G x []) by (unfold body; now rewrite En). rewrite <- Eb.
        destruct (loop_spec (body x T) (Pv x T) (fun y => Pv x T y * Mv x T y)%Q keys) as [a [b [El [Ha Hb]]]]; [intro y; now apply body_some|].
        rewrite El. cbn [option_map snd]. eexists. split; [reflexivity|]. rewrite Hb.
        assert (E1 : (sumf (Pv x T) keys == 1)%Q). { unfold Pv. rewrite En. cbn [sumf keys]. pose proof (proj2 Hpi). lra. }
        rewrite E1. field.
      * assert (Eb : body x T = turn inv pdf G x (s0 :: s)) by (unfold body; now rewrite En). rewrite <- Eb. apply body_quot; [exact Hd|discriminate].
    + (* the indicator of a *)
      specialize (A1 (HIn d (or_introl eq_refl))).
      destruct (Nat.ltb_spec d n) as [_|]; [|lia].
      assert (Ei : index_cat G d = Some Ka). { unfold index_cat. rewrite (proj1 HL). cbn [nth]. fold d. rewrite Nat.eqb_refl. destruct (Nat.eqb_spec d (S d)); [lia|reflexivity]. }
      rewrite Ei. assert (Em : memb d [d] = true) by (apply memb_true; now left). assert (Em' : memb (S d) [d] = false) by (apply memb_false; cbn; lia).
      rewrite Em, Em'. unfold keys. cbn [filter]. rewrite !(qeqb_ext _ _ _ A1).
      destruct y0; cbn -[sumf d Qdiv Qmult loop quot].
      * eexists. split; [exact (Mv_some x T Ka Hd)|]. now rewrite one_class.
      * rewrite Ebody. apply body_quot; [exact Hd|discriminate].
      * rewrite Ebody. apply body_quot; [exact Hd|discriminate].
    + specialize (A2 (HIn (S d) (or_introl eq_refl))).
      destruct (Nat.ltb_spec (S d) n) as [_|]; [|lia].
      assert (Ei : index_cat G (S d) = Some Kb). { unfold index_cat. rewrite (proj1 HL). cbn [nth]. fold d. rewrite Nat.eqb_refl. reflexivity. }
      rewrite Ei. assert (Em : memb (S d) [S d] = true) by (apply memb_true; now left). assert (Em' : memb d [S d] = false) by (apply memb_false; cbn; lia).
      rewrite Em, Em'. unfold keys. cbn [filter]. rewrite !(qeqb_ext _ _ _ A2).
      destruct y0; cbn -[sumf d Qdiv Qmult loop quot].
      * rewrite Ebody. apply body_quot; [exact Hd|discriminate].
      * eexists. split; [exact (Mv_some x T Kb Hd)|]. now rewrite one_class.
      * rewrite Ebody. apply body_quot; [exact Hd|discriminate].
    + specialize (A1 (HIn d (or_introl eq_refl))). specialize (A2 (HIn (S d) (or_intror (or_introl eq_refl)))).
      assert (Em : memb d [d; S d] = true) by (apply memb_true; now left). assert (Em' : memb (S d) [d; S d] = true) by (apply memb_true; right; now left).
      assert (Er : in_range n [d; S d] = true). { unfold in_range. cbn [forallb]. destruct (Nat.ltb_spec d n), (Nat.ltb_spec (S d) n); (reflexivity || lia). }
      rewrite Em, Em', Er. cbn [map revers_dummy]. unfold keys. cbn [filter]. rewrite !(qeqb_ext _ _ _ A1), !(qeqb_ext _ _ _ A2).
      destruct y0; cbn -[sumf d Qdiv Qmult]; (eexists; split; [apply Mv_some; exact Hd|]); rewrite one_class by exact Hd; reflexivity.
    + destruct Ho as [Ho|Ho]; [elim (cats_ordered G n HL T Ho); exact E|].
      specialize (A2 (HIn (S d) (or_introl eq_refl))). specialize (A1 (HIn d (or_intror (or_introl eq_refl)))).
      assert (Em : memb d [S d; d] = true) by (apply memb_true; right; now left). assert (Em' : memb (S d) [S d; d] = true) by (apply memb_true; now left).
      assert (Er : in_range n [S d; d] = true). { unfold in_range. cbn [forallb]. destruct (Nat.ltb_spec d n), (Nat.ltb_spec (S d) n); (reflexivity || lia). }
      rewrite Em, Em', Er. cbn [map revers_dummy]. unfold keys. cbn [filter]. rewrite !(qeqb_ext _ _ _ A1), !(qeqb_ext _ _ _ A2).
      destruct y0; [exfalso; lra|exfalso; lra|]. cbn -[sumf d Qdiv Qmult]. eexists. split; [apply Mv_some; exact Hd|]. rewrite one_class by exact Hd. reflexivity.
Qed.

Lemma bayes_ext x T p p' m m' : (forall y, p y == p' y)%Q -> (forall y, m y == m' y)%Q -> (bayes G x T p m == bayes G x T p' m')%Q.
Proof using.
  clear. intros Hp Hm. unfold bayes. rewrite (sumf_ext (fun y => p y * m y)%Q (fun y => p' y * m' y)%Q) by (intros y _; now rewrite Hp, Hm).
  rewrite (sumf_ext p p') by (intros y _; apply Hp). reflexivity.
Qed.
Lemma bayes_expectation x T r : NoDup T -> (r == bayes G x T (Pv x T) (Mv x T))%Q -> expectation pdf G x T r.
Proof.
  intros Hd E. split.
  - exists (Pv x T), (Mv x T). split; [now apply Pv_weight|]. split; [intro y; now apply Pv_pos|]. intro y. now apply Mv_regressed.
  - intros p m Hp Hm. rewrite E. apply bayes_ext; intro y; symmetry; [now apply weight_unique|]. apply Mv_unique; [exact Hd|]. apply Hm.
Qed.
Theorem gmm_bayes x T : NoDup T -> in_n n T -> (ordered G T \/ (x d == x (S d))%Q) -> (exists y, agrees G x T y = true) ->
  exists r, cond_gmm inv pdf G n x T = Some r /\ expectation pdf G x T r.
Proof.
  intros Hd Hr Ho Hy. destruct (cond_value x T Hd Hr Ho Hy) as [r [E Hv]]. exists r. split; [exact E|]. now apply bayes_expectation.
Qed.
Theorem gmm_between x T r lo hi : NoDup T -> in_n n T -> (ordered G T \/ (x d == x (S d))%Q) -> (exists y, agrees G x T y = true) ->
  cond_gmm inv pdf G n x T = Some r ->
  (forall y m, agrees G x T y = true -> regressed d (gm_mean G y) (gm_cov G y) (gm_coefs G y) x (numeric G T) m -> lo <= m <= hi)%Q ->
  (lo <= r <= hi)%Q.
Proof.
  intros Hd Hr Ho Hy E Hm. destruct (cond_value x T Hd Hr Ho Hy) as [r' [E' Hv]]. rewrite E in E'. injection E' as <-.
  unfold bayes in Hv. set (l := filter (agrees G x T) keys) in *.
  assert (Hl : l <> []). { destruct Hy as [y Hy]. assert (K : In y l) by (apply filter_In; split; [destruct y; cbn; tauto|exact Hy]). intros K'. rewrite K' in K. exact K. }
  pose proof (sum_pos x T l Hd Hl) as Hp.
  assert (Hb : forall y, In y l -> (lo <= Mv x T y <= hi)%Q). { intros y Hi. apply filter_In in Hi. apply (Hm y); [tauto|]. now apply Mv_regressed. }
  assert (H1 : (lo * sumf (Pv x T) l <= sumf (fun y => Pv x T y * Mv x T y) l)%Q).
  { rewrite <- sumf_scal. apply sumf_le. intros y Hi. specialize (Hb y Hi). pose proof (Pv_pos x T y Hd). nra. }
  assert (H2 : (sumf (fun y => Pv x T y * Mv x T y) l <= hi * sumf (Pv x T) l)%Q).
  { rewrite <- sumf_scal. apply sumf_le. intros y Hi. specialize (Hb y Hi). pose proof (Pv_pos x T y Hd). nra. }
  rewrite Hv. split; [apply Qle_shift_div_l|apply Qle_shift_div_r]; assumption.
Qed.
(** all the variables known *)
Theorem gmm_prediction x T y : NoDup T -> in_n n T -> length T = n -> agrees G x T y = true ->
  exists r, cond_gmm inv pdf G n x T = Some r /\ (r == sumf (fun i => gm_coefs G y i * x i) (seq 0 d))%Q.
Proof.
  intros Hd Hr Hl Hy. unfold cond_gmm. rewrite Hl, Nat.eqb_refl. unfold linear_gmm. rewrite (proj1 HL). fold d.
  pose proof (proj2 HL) as Hn. fold d in Hn. destruct (Nat.ltb_spec d n) as [_|]; [|lia]. destruct (Nat.ltb_spec (S d) n) as [_|]; [|lia]. cbn [andb].
  eexists. split; [reflexivity|]. destruct (numeric_full G n HL T Hd Hr Hl) as [_ [I1 I2]].
  destruct (proj1 (agrees_spec G n HL x T y Hr) Hy) as [A1 A2]. specialize (A1 I1). specialize (A2 I2). fold d in A1, A2.
  unfold d in A1, A2. rewrite indicator_d in A1. rewrite indicator_Sd in A2. fold d in A1, A2.
  rewrite !(qeqb_ext _ _ _ A1), !(qeqb_ext _ _ _ A2). destruct y; cbn -[sumf seq d Qb Qmult]; unfold Qb; fold d; lra.
Qed.
Theorem gmm_nothing x : exists r, cond_gmm inv pdf G n x [] = Some r /\
  (r == sumf (fun y => gm_pi G y * sumf (fun i => gm_coefs G y i * gm_mean G y i) (seq 0 d)) keys)%Q.
Proof.
  destruct (cond_value x [] (NoDup_nil _)) as [r [E Hv]]; [intros k []|left; intros l l' K; destruct l; discriminate|exists Ka; reflexivity|].
  exists r. split; [exact E|]. rewrite Hv. unfold bayes. change (filter (agrees G x []) keys) with keys.
  assert (E1 : (sumf (Pv x []) keys == 1)%Q). { cbn. pose proof (proj2 Hpi). lra. } rewrite E1.
  rewrite (sumf_ext (fun y => Pv x [] y * Mv x [] y)%Q (fun y => gm_pi G y * sumf (fun i => gm_coefs G y i * gm_mean G y i) (seq 0 d))%Q); [field|].
  intros y _. apply Qmult_comp; [reflexivity|]. unfold Mv, cond_y. cbn [numeric filter].
  destruct (cond_empty inv d (gm_mean G y) (gm_cov G y) (gm_coefs G y) x) as [q [Eq Hq]]. fold d. rewrite Eq. exact Hq.
Qed.

(** ** Learning one indicator *)
Hypothesis Hord : pdf_order pdf.
Lemma Pv_same x x' T T' y : NoDup T -> Permutation T T' -> (forall k, In k T -> k < d -> (x k == x' k)%Q) -> (Pv x T y == Pv x' T' y)%Q.
Proof.
  intros Hd HP Hx. unfold Pv. pose proof (numeric_perm G T T' HP) as HPn.
  destruct (numeric G T) as [|s0 s] eqn:E.
  - apply Permutation_nil in HPn. rewrite HPn. reflexivity.
  - destruct (numeric G T') as [|s0' s'] eqn:E'; [apply Permutation_sym, Permutation_nil in HPn; discriminate|].
    apply Qmult_comp; [reflexivity|].
    assert (Hd' : NoDup T') by (now apply (Permutation_NoDup HP)).
    destruct (Hrun x y (numeric G T)) as [_ H]; [now apply numeric_NoDup|intros k Hk; now apply numeric_lt in Hk|].
    destruct (Hrun x' y (numeric G T')) as [_ H']; [now apply numeric_NoDup|intros k Hk; now apply numeric_lt in Hk|].
    rewrite E in H. rewrite E' in H'. specialize (H ltac:(discriminate)). specialize (H' ltac:(discriminate)).
    destruct (pdf (length (s0 :: s)) _ _ _) as [q|] eqn:Eq; [|congruence].
    destruct (pdf (length (s0' :: s')) _ _ _) as [q'|] eqn:Eq'; [|congruence]. cbn [the].
    eapply (Hord (s0 :: s) (s0' :: s')); [exact HPn| | |exact Eq|exact Eq'].
    + rewrite <- E. now apply numeric_NoDup.
    + intros k Hk. rewrite <- E in Hk. apply Hx; [|now apply numeric_lt in Hk]. unfold numeric in Hk. apply filter_In in Hk. tauto.
Qed.
Lemma regressed_same x x' s y m : (forall k, In k s -> (x k == x' k)%Q) ->
  regressed d (gm_mean G y) (gm_cov G y) (gm_coefs G y) x s m -> regressed d (gm_mean G y) (gm_cov G y) (gm_coefs G y) x' s m.
Proof using.
  clear. intros Hx [w [Hw E]]. exists w. split; [exact Hw|]. rewrite E. apply Qplus_comp; [reflexivity|]. apply Sm_ext. intros j Hj.
  rewrite (Hx (nth j s 0)) by (now apply nth_In). reflexivity.
Qed.
Lemma Mv_same x x' T T' y : NoDup T -> Permutation T T' -> (forall k, In k T -> k < d -> (x k == x' k)%Q) -> (Mv x T y == Mv x' T' y)%Q.
Proof.
  intros Hd HP Hx. assert (Hd' : NoDup T') by (now apply (Permutation_NoDup HP)).
  transitivity (Mv x' T y).
  - apply Mv_unique; [exact Hd|]. eapply regressed_same; [|apply Mv_regressed; exact Hd].
    intros k Hk. pose proof (numeric_lt G _ _ Hk). apply Hx; [|assumption]. unfold numeric in Hk. apply filter_In in Hk. tauto.
  - assert (HR : forall U, NoDup U -> (forall k, In k U -> k < d) -> cond_exp_linear inv d (gm_mean G y) (gm_cov G y) (gm_coefs G y) x' U <> None).
    { intros U HU1 HU2. exact (proj1 (Hrun x' y U HU1 HU2)). }
    destruct (cond_set_function inv d (gm_mean G y) (gm_cov G y) (gm_coefs G y) x' Hinv HR (numeric G T) (numeric G T')) as [q [q' [E [E' Eq]]]].
    + now apply numeric_NoDup.
    + intros k Hk. now apply numeric_lt in Hk.
    + now apply numeric_perm.
    + unfold Mv, cond_y. fold d. rewrite E, E'. exact Eq.
Qed.
Theorem gmm_total x T k z p : NoDup T -> (forall i, In i T -> i < d) -> (k = d /\ z = Ka) \/ (k = S d /\ z = Kb) ->
  weight pdf G x T p ->
  exists r r1 r0, cond_gmm inv pdf G n x T = Some r /\ cond_gmm inv pdf G n (upd x k 1%Q) (k :: T) = Some r1 /\
    cond_gmm inv pdf G n (upd x k 0%Q) (k :: T) = Some r0 /\
    (r * sumf p keys == p z * r1 + (sumf p keys - p z) * r0)%Q.
Proof.
  intros Hd Hr Hk Hp. pose proof (proj2 HL) as Hn. fold d in Hn.
  assert (Hkn : ~ In k T) by (intro K; specialize (Hr k K); destruct Hk as [[-> _]|[-> _]]; lia).
  assert (Hdk : NoDup (k :: T)) by (now constructor).
  assert (Hrn : in_n n T) by (intros i Hi; specialize (Hr i Hi); lia).
  assert (Hrk : in_n n (k :: T)). { intros i [<-|Hi]; [destruct Hk as [[-> _]|[-> _]]; lia|now apply Hrn]. }
  assert (HoT : ordered G T). { intros l r E K. assert (Hi : In (S d) T) by (rewrite E; apply in_or_app; now left). specialize (Hr _ Hi). lia. }
  assert (Hok : ordered G (k :: T)).
  { intros l r E K. destruct l as [|a l]; [contradiction|]. cbn in E. injection E as -> E. assert (Hi : In (gm_d G) T) by (rewrite E; apply in_or_app; right; now left).
    specialize (Hr _ Hi). unfold d in Hr. lia. }
  assert (HaT : forall x' y, agrees G x' T y = true).
  { intros x' y. apply forallb_forall. intros i Hi. specialize (Hr i Hi). fold d. destruct (Nat.ltb_spec i d); [reflexivity|lia]. }
  assert (Hak : forall v y, agrees G (upd x k v) (k :: T) y = qeqb v (indicator G y k)).
  { intros v y. unfold agrees. cbn [forallb]. fold (agrees G (upd x k v) T y). rewrite HaT, andb_true_r. fold d.
    destruct (Nat.ltb_spec k d); [destruct Hk as [[-> _]|[-> _]]; lia|]. cbn [orb]. unfold upd. rewrite Nat.eqb_refl. reflexivity. }
  destruct (cond_value x T Hd Hrn (or_introl HoT) (ex_intro _ Ka (HaT x Ka))) as [r [E Hv]].
  destruct (cond_value (upd x k 1%Q) (k :: T) Hdk Hrk (or_introl Hok)) as [r1 [E1 Hv1]].
  { exists z. rewrite Hak. unfold indicator. fold d. destruct Hk as [[-> ->]|[-> ->]]; [rewrite Nat.eqb_refl; reflexivity|]. destruct (Nat.eqb_spec (S d) d); [lia|reflexivity]. }
  destruct (cond_value (upd x k 0%Q) (k :: T) Hdk Hrk (or_introl Hok)) as [r0 [E0 Hv0]].
  { exists Kc. rewrite Hak. unfold indicator. destruct (k =? gm_d G); reflexivity. }
  exists r, r1, r0. split; [exact E|]. split; [exact E1|]. split; [exact E0|].
  assert (Enum : numeric G (k :: T) = numeric G T). { unfold numeric. cbn [filter]. fold d. destruct (Nat.ltb_spec k d); [destruct Hk as [[-> _]|[-> _]]; lia|reflexivity]. }
  assert (HP : forall v y, (Pv (upd x k v) (k :: T) y == p y)%Q).
  { intros v y. rewrite (weight_unique x T p Hp y). transitivity (Pv (upd x k v) T y); [unfold Pv; rewrite Enum; reflexivity|].
    apply Pv_same; [exact Hd|reflexivity|]. intros i Hi _. unfold upd. destruct (Nat.eqb_spec i k) as [->|]; [contradiction|reflexivity]. }
  assert (HM : forall v y, (Mv (upd x k v) (k :: T) y == Mv x T y)%Q).
  { intros v y. transitivity (Mv (upd x k v) T y); [unfold Mv; rewrite Enum; reflexivity|].
    apply Mv_same; [exact Hd|reflexivity|]. intros i Hi _. unfold upd. destruct (Nat.eqb_spec i k) as [->|]; [contradiction|reflexivity]. }
  unfold bayes in Hv, Hv1, Hv0.
  rewrite (filter_ext _ _ (HaT x)) in Hv. rewrite (filter_ext _ _ (Hak 1%Q)) in Hv1. rewrite (filter_ext _ _ (Hak 0%Q)) in Hv0.
  assert (Hq : forall y, (Pv x T y == p y)%Q) by (intro y; symmetry; now apply weight_unique).
  assert (Hpp : forall y, (0 < p y)%Q) by (intro y; rewrite <- Hq; now apply Pv_pos).
  pose proof (Hpp Ka). pose proof (Hpp Kb). pose proof (Hpp Kc).
  unfold indicator in Hv1, Hv0. fold d in Hv1, Hv0. rewrite Hv, Hv1, Hv0.
  destruct Hk as [[-> ->]|[-> ->]].
  - rewrite Nat.eqb_refl. cbn -[d Qmult Qplus Qdiv Pv Mv]. rewrite !HP, !HM, !Hq. field. lra.
  - assert (Ef : (S d =? d) = false) by (apply Nat.eqb_neq; lia). rewrite Ef. cbn -[d Qmult Qplus Qdiv Pv Mv]. rewrite !HP, !HM, !Hq. field. lra.
Qed.

(** ** Orders *)
Theorem gmm_order x T T' : NoDup T -> in_n n T -> Permutation T T' -> (ordered G T /\ ordered G T' \/ (x d == x (S d))%Q) ->
  (exists y, agrees G x T y = true) ->
  exists r r', cond_gmm inv pdf G n x T = Some r /\ cond_gmm inv pdf G n x T' = Some r' /\ (r == r')%Q.
Proof.
  intros Hd Hr HP Ho [y Hy]. assert (Hd' : NoDup T') by (now apply (Permutation_NoDup HP)).
  assert (Hr' : in_n n T') by (intros k Hk; apply Hr; now apply (Permutation_in k (Permutation_sym HP))).
  destruct (cond_value x T Hd Hr) as [r [E Hv]]; [tauto|now exists y|].
  destruct (cond_value x T' Hd' Hr') as [r' [E' Hv']]; [tauto|exists y; rewrite <- (agrees_perm G n HL x T T' y Hr HP); exact Hy|].
  exists r, r'. split; [exact E|]. split; [exact E'|]. rewrite Hv, Hv'. unfold bayes.
  rewrite (filter_ext (agrees G x T') (agrees G x T)) by (intro z; symmetry; now apply (agrees_perm G n HL)).
  rewrite (sumf_ext (fun z => Pv x T z * Mv x T z)%Q (fun z => Pv x T' z * Mv x T' z)%Q).
  - rewrite (sumf_ext (Pv x T) (Pv x T')); [reflexivity|]. intros z _. apply Pv_same; [exact Hd|exact HP|]. intros; reflexivity.
  - intros z _. apply Qmult_comp; [apply Pv_same|apply Mv_same]; try assumption; intros; reflexivity.
Qed.
End Value.

(** ** Shapley values *)
Lemma perm_shap_ext v v' C d j : coalitions_ok C d -> sized C ->
  (forall P U, is_players C d P -> NoDup U -> incl U P -> v (concat U) = v' (concat U)) -> perm_shap v C d j = perm_shap v' C d j.
Proof.
  intros HC HS Hv. rewrite !(perm_shap_eq _ C d j (proj1 HS)).
  assert (E : flat_map (fun p => map (fun i => perm_term v d p i j) (seq 0 (Z.to_nat (perm_m C d)))) (perms (length (perm_ids C d)) (perm_ids C d)) =
    flat_map (fun p => map (fun i => perm_term v' d p i j) (seq 0 (Z.to_nat (perm_m C d)))) (perms (length (perm_ids C d)) (perm_ids C d))); [|now rewrite E].
  rewrite !flat_map_concat_map. f_equal. apply map_ext_in. intros p Hp. apply (perms_perm C d HC HS) in Hp.
  destruct (ids_perm C d HC HS p Hp) as [Hok HP]. apply map_ext. intro i. unfold perm_term. destruct (nth_error p i); [|reflexivity].
  assert (Hc : forall k, chain_l (firstn k p) = Some (concat (firstn k (map snd p)))).
  { intro k. rewrite chain_ok; [now rewrite firstn_map|]. intros h Hh. apply Hok. now apply (firstn_incl p k). }
  rewrite !Hc. assert (Hk : forall k, v (concat (firstn k (map snd p))) = v' (concat (firstn k (map snd p)))).
  { intro k. apply (Hv (map snd p)); [exact HP|apply firstn_NoDup, (proj1 HP)|apply firstn_incl]. }
  rewrite !Hk. reflexivity.
Qed.
Lemma split_unique {A} (a : A) l r l' r' : NoDup (l ++ a :: r) -> l ++ a :: r = l' ++ a :: r' -> l = l'.
Proof.
  revert l'. induction l as [|b l IH]; intros l' Hd E.
  - destruct l' as [|c l']; [reflexivity|]. exfalso. cbn in E. injection E as -> E. inversion Hd as [|? ? Hn _]; subst. apply Hn. apply in_or_app. right. now left.
  - destruct l' as [|c l'].
    + exfalso. cbn in E. injection E as -> E. inversion Hd as [|? ? Hn _]; subst. apply Hn. apply in_or_app. right. now left.
    + cbn in E. injection E as -> E. f_equal. inversion Hd; subst. now apply IH.
Qed.

Section Shap.
Variable inv : nat -> mat -> option mat.
Variable pdf : nat -> vec -> mat -> vec -> option Q.
Variables (G : gmm) (n : nat).
Hypothesis Hinv : inv_sound inv.
Hypothesis HL : layout G n.
Hypothesis Hpi : is_prior G.
Hypothesis Hpos : pdf_pos pdf.
Hypothesis Hord : pdf_order pdf.
Hypothesis Hrun : runs inv pdf G.
Let d := gm_d G.
Variable x : vec.
Variable y0 : cls.
Hypothesis Hy : agrees G x [d; S d] y0 = true.

Lemma class_agrees T : in_n n T -> agrees G x T y0 = true.
Proof.
  intro Hr. apply (agrees_spec G n HL x T y0 Hr).
  assert (Hr2 : in_n n [d; S d]) by (intros k [<-|[<-|[]]]; rewrite (proj2 HL); unfold d; lia).
  destruct (proj1 (agrees_spec G n HL x [d; S d] y0 Hr2) Hy) as [A B]. fold d in A, B |- *. split; intros _; [apply A|apply B]; cbn; tauto.
Qed.
(** the same set with the indicators at the end, in order *)
Definition tidy (T : list nat) : list nat := numeric G T ++ filter (fun k => memb k T) [d; S d].
Lemma tidy_ordered T : ordered G (tidy T).
Proof using.
  clear. intros l r E K. unfold tidy in E. fold d in E.
  assert (Hnum : forall k, In k (numeric G T) -> k < gm_d G) by (intros k Hk; now apply numeric_lt in Hk). fold d in Hnum, K.
  assert (Hcase : forall A B (N : list nat), (forall k, In k N -> k < d) -> N ++ A = l ++ d :: B -> (A = [] \/ A = [d] \/ A = [S d] \/ A = [d; S d]) -> ~ In (S d) l).
  { clear. revert l. intros l A B N HN E HA K. revert l E K. induction N as [|a N IH]; intros l E K.
    - cbn in E. destruct l as [|b l]; [contradiction|]. destruct HA as [->|[->|[->| ->]]]; cbn in E; try discriminate.
      + injection E as <- E. destruct l; discriminate.
      + injection E as <- E. destruct l; discriminate.
      + injection E as <- E. destruct l as [|c l]; cbn in E; [injection E as E _; lia|]. injection E as <- E. destruct l; discriminate.
    - destruct l as [|b l]; [contradiction|]. cbn in E. injection E as <- E. destruct K as [K|K].
      + specialize (HN a (or_introl eq_refl)). lia.
      + apply (IH (fun k Hk => HN k (or_intror Hk)) l E K). }
  apply (Hcase _ r _ Hnum E); [|exact K]. cbn [filter]. destruct (memb d T), (memb (S d) T); tauto.
Qed.
Lemma tidy_perm T : NoDup T -> in_n n T -> Permutation T (tidy T).
Proof.
  intros Hd Hr. apply NoDup_Permutation; [exact Hd| |].
  - apply NoDup_app_intro.
    + now apply numeric_NoDup.
    + apply NoDup_filter. repeat constructor; cbn; intuition lia.
    + intros k H1 H2. apply numeric_lt in H1. apply filter_In in H2. destruct H2 as [[<-|[<-|[]]] _]; fold d in H1; lia.
  - intro k. unfold tidy. rewrite in_app_iff, filter_In, memb_true. unfold numeric. rewrite filter_In, Nat.ltb_lt. fold d. split.
    + intro Hk. specialize (Hr k Hk). rewrite (proj2 HL) in Hr. fold d in Hr. destruct (Nat.lt_ge_cases k d); [tauto|]. right. split; [|exact Hk].
      assert (k = d \/ k = S d) by lia. cbn. intuition lia.
    + intros [[A _]|[_ A]]; exact A.
Qed.
Definition best (T : list nat) : option Q := cond_gmm inv pdf G n x (tidy T).
Lemma best_eq T : NoDup T -> in_n n T -> ordered G T -> cond_gmm inv pdf G n x T = best T.
Proof.
  intros Hd Hr Ho. unfold best, cond_gmm. assert (HP := tidy_perm T Hd Hr). rewrite <- (Permutation_length HP).
  assert (Hr' : in_n n (tidy T)) by (intros k Hk; apply Hr; now apply (Permutation_in k (Permutation_sym HP))).
  rewrite !(numeric_eq G n HL) by assumption.
  change (filter (fun k => memb k (gm_cat G)) T) with (cats G T). change (filter (fun k => memb k (gm_cat G)) (tidy T)) with (cats G (tidy T)).
  assert (E1 : numeric G (tidy T) = numeric G T).
  { unfold tidy, numeric. rewrite filter_app. fold d.
    assert (Ea : filter (fun k => k <? d) (filter (fun k => memb k T) [d; S d]) = []).
    { destruct (filter (fun k => k <? d) (filter (fun k => memb k T) [d; S d])) as [|a l] eqn:E; [reflexivity|]. exfalso.
      assert (Hi : In a (filter (fun k => k <? d) (filter (fun k => memb k T) [d; S d]))) by (rewrite E; now left).
      apply filter_In in Hi. destruct Hi as [Hi H1]. apply filter_In in Hi. destruct Hi as [[<-|[<-|[]]] _]; apply Nat.ltb_lt in H1; lia. }
    rewrite Ea, app_nil_r. clear. induction T as [|a T IH]; [reflexivity|]. cbn [filter]. destruct (a <? d) eqn:E; [cbn [filter]; rewrite E; f_equal|]; exact IH. }
  assert (E2 : cats G (tidy T) = cats G T).
  { assert (Hd' : NoDup (tidy T)) by (now apply (Permutation_NoDup HP)).
    assert (HI : forall k, In k (cats G T) <-> In k (cats G (tidy T))).
    { intro k. rewrite !(cats_In G n HL). split; intros [A B]; (split; [|exact B]); [now apply (Permutation_in k HP)|now apply (Permutation_in k (Permutation_sym HP))]. }
    pose proof (cats_ordered G n HL T Ho) as N1. pose proof (cats_ordered G n HL (tidy T) (tidy_ordered T)) as N2.
    fold d in N1, N2.
    assert (HF : forall U, NoDup U -> cats G U <> [S d; d] -> cats G U = filter (fun k => memb k (cats G U)) [d; S d]).
    { assert (K1 : (d =? S d) = false) by (apply Nat.eqb_neq; lia). assert (K2 : (S d =? d) = false) by (apply Nat.eqb_neq; lia).
      intros U HU Hn. destruct (cats_cases G n HL U HU) as [E|[E|[E|[E|E]]]]; fold d in E; [| | | |congruence]; rewrite E; unfold memb; cbn [filter existsb];
        rewrite ?Nat.eqb_refl, ?K1, ?K2; reflexivity. }
    rewrite (HF T Hd N1), (HF (tidy T) Hd' N2). apply filter_ext. intro k. destruct (memb k (cats G T)) eqn:M.
    - apply memb_true in M. apply memb_true. now apply HI.
    - apply memb_false in M. apply memb_false. intro K. apply M. now apply HI. }
  rewrite E1, E2. reflexivity.
Qed.
Lemma best_set : set_function n best.
Proof.
  intros T T' Hd Hr HP. assert (Hd' : NoDup T') by (now apply (Permutation_NoDup HP)).
  assert (Hr' : in_n n T') by (intros k Hk; apply Hr; now apply (Permutation_in k (Permutation_sym HP))).
  pose proof (tidy_perm T Hd Hr) as P1. pose proof (tidy_perm T' Hd' Hr') as P2.
  apply (gmm_order inv pdf G n Hinv HL Hpi Hpos Hrun Hord x (tidy T) (tidy T')).
  - now apply (Permutation_NoDup P1).
  - intros k Hk. apply Hr. now apply (Permutation_in k (Permutation_sym P1)).
  - rewrite <- P1, <- P2. exact HP.
  - left. split; apply tidy_ordered.
  - exists y0. apply class_agrees. intros k Hk. apply Hr. now apply (Permutation_in k (Permutation_sym P1)).
Qed.
Lemma bayes_perm T T' : NoDup T -> in_n n T -> Permutation T T' ->
  (bayes G x T (Pv pdf G x T) (Mv inv G x T) == bayes G x T' (Pv pdf G x T') (Mv inv G x T'))%Q.
Proof.
  intros Hd Hr HP. unfold bayes. rewrite (filter_ext (agrees G x T') (agrees G x T)) by (intro z; symmetry; now apply (agrees_perm G n HL)).
  rewrite (sumf_ext (fun z => Pv pdf G x T z * Mv inv G x T z)%Q (fun z => Pv pdf G x T' z * Mv inv G x T' z)%Q).
  - rewrite (sumf_ext (Pv pdf G x T) (Pv pdf G x T')); [reflexivity|]. intros z _. apply (Pv_same inv pdf G Hrun Hord); [exact Hd|exact HP|]. intros; reflexivity.
  - intros z _. apply Qmult_comp; [apply (Pv_same inv pdf G Hrun Hord)|apply (Mv_same inv pdf G Hinv Hrun)]; try assumption; intros; reflexivity.
Qed.
Lemma best_value T : NoDup T -> in_n n T -> exists q, best T = Some q /\ expectation pdf G x T q.
Proof.
  intros Hd Hr. pose proof (tidy_perm T Hd Hr) as P1.
  assert (Hd' : NoDup (tidy T)) by (now apply (Permutation_NoDup P1)).
  assert (Hr' : in_n n (tidy T)) by (intros k Hk; apply Hr; now apply (Permutation_in k (Permutation_sym P1))).
  destruct (cond_value inv pdf G n HL Hpi Hpos Hrun x (tidy T) Hd' Hr' (or_introl (tidy_ordered T))) as [q [E Hq]]; [exists y0; now apply class_agrees|].
  exists q. split; [exact E|]. apply (bayes_expectation inv pdf G Hinv Hpi Hpos Hrun); [exact Hd|]. rewrite Hq. symmetry. now apply bayes_perm.
Qed.

Lemma grouped_ordered C P U : coalitions_ok C n -> is_players C n P -> grouped G C -> NoDup U -> incl U P -> ordered G (concat U).
Proof.
  intros HC HP [l [m [r Hg]]] Hd Hi L R E K. fold d in E, K.
  assert (Hg' : In (l ++ d :: m ++ S d :: r) P). { apply (proj2 HP). left. split; [exact Hg|]. destruct l; discriminate. }
  assert (Hin : In d (concat U)) by (rewrite E; apply in_or_app; right; now left).
  apply in_concat in Hin. destruct Hin as [g [HgU Hdg]].
  assert (Eg : g = l ++ d :: m ++ S d :: r).
  { eapply (player_unique C n P g _ d); [exact HC|exact HP|now apply Hi|exact Hg'|exact Hdg|]. apply in_or_app. right. now left. }
  destruct (in_split _ _ HgU) as [U1 [U2 ->]]. subst g.
  destruct (players_concat C n P (U1 ++ (l ++ d :: m ++ S d :: r) :: U2) HC HP Hd Hi) as [Hnd _].
  rewrite concat_app in E, Hnd. cbn [concat] in E, Hnd. rewrite <- app_assoc in E, Hnd. cbn [app] in E, Hnd.
  rewrite app_assoc in E, Hnd. pose proof (split_unique d _ _ _ _ Hnd E) as EL. subst L.
  rewrite app_comm_cons in Hnd. clear E.
  assert (H2 : In (S d) ((m ++ S d :: r) ++ concat U2)) by (apply in_or_app; left; apply in_or_app; right; now left).
  remember (concat U1 ++ l) as A eqn:EA. clear -Hnd K H2. induction A as [|a A IH]; [contradiction|]. cbn in Hnd. inversion Hnd as [|? ? Hn Hnd']; subst.
  destruct K as [->|K]; [|now apply IH]. apply Hn. apply in_or_app. right. right. exact H2.
Qed.
Lemma shap_best C j : coalitions_ok C n -> sized C -> grouped G C -> gmm_shap inv pdf G n x C j = perm_shap best C n j.
Proof.
  intros HC HS HG. apply perm_shap_ext; [exact HC|exact HS|]. intros P U HP Hd Hi.
  destruct (players_concat C n P U HC HP Hd Hi) as [A B]. apply best_eq; [exact A|exact B|]. eapply grouped_ordered; eassumption.
Qed.
Theorem gmm_shapley C P j g E : coalitions_ok C n -> sized C -> grouped G C \/ y0 = Kc -> is_players C n P -> In g P -> In j g ->
  (forall T, NoDup T -> in_n n T -> expectation pdf G x T (E T)) ->
  exists r, gmm_shap inv pdf G n x C j = Some r /\ (r == shapley gdec P (fun U => E (concat U)) g)%Q.
Proof.
  intros HC HS HG HP Hg Hj HE.
  assert (HX : forall v, set_function n v -> (forall T, NoDup T -> in_n n T -> exists q, v T = Some q /\ expectation pdf G x T q) ->
    exists r, perm_shap v C n j = Some r /\ (r == shapley gdec P (fun U => E (concat U)) g)%Q).
  { intros v Hv Hb. destruct (perm_is_shapley v C n HC HS Hv P j g HP Hg Hj) as [r [Er Hr]]. exists r. split; [exact Er|]. rewrite Hr.
    unfold shapley. apply sumf_ext. intros T HT.
    assert (Ht : NoDup T) by (eapply subs_NoDup; [|exact HT]; apply remove_NoDup, (proj1 HP)).
    assert (Hi : forall a, In a T -> In a P /\ a <> g). { intros a Ha. apply subs_incl in HT. apply HT, in_remove in Ha. exact Ha. }
    assert (HN : NoDup (g :: T)) by (constructor; [intro K; apply Hi in K; tauto|exact Ht]).
    destruct (players_concat C n P (g :: T) HC HP HN) as [A1 A2]; [intros a [<-|Ha]; [exact Hg|now apply Hi]|].
    destruct (players_concat C n P T HC HP Ht) as [B1 B2]; [intros a Ha; now apply Hi|].
    assert (HU : forall U, NoDup U -> in_n n U -> (the (v U) == E U)%Q).
    { intros U HU1 HU2. destruct (Hb U HU1 HU2) as [q [Eq [[p [m [Hp [_ Hm]]]] Hq]]]. rewrite Eq. cbn [the]. rewrite (Hq p m Hp Hm). symmetry.
      apply (proj2 (HE U HU1 HU2)); assumption. }
    rewrite (HU _ A1 A2), (HU _ B1 B2). reflexivity. }
  destruct HG as [HG|Hc].
  - rewrite shap_best by assumption. apply HX; [exact best_set|exact best_value].
  - assert (Hx : (x d == x (S d))%Q).
    { assert (Hr2 : in_n n [d; S d]) by (intros k [<-|[<-|[]]]; rewrite (proj2 HL); unfold d; lia).
      destruct (proj1 (agrees_spec G n HL x [d; S d] y0 Hr2) Hy) as [A B]. fold d in A, B. subst y0.
      rewrite (A (or_introl eq_refl)), (B (or_intror (or_introl eq_refl))). unfold d. rewrite indicator_d, indicator_Sd. reflexivity. }
    apply HX.
    + intros T T' Hd Hr HPT. apply (gmm_order inv pdf G n Hinv HL Hpi Hpos Hrun Hord x T T' Hd Hr HPT (or_intror Hx)). exists y0. now apply class_agrees.
    + intros T Hd Hr. apply (gmm_bayes inv pdf G n Hinv HL Hpi Hpos Hrun x T Hd Hr (or_intror Hx)). exists y0. now apply class_agrees.
Qed.
Theorem gmm_efficiency C P rep : coalitions_ok C n -> sized C -> grouped G C -> is_players C n P -> (forall g, In g P -> In (rep g) g) ->
  (sumf (fun g => the (gmm_shap inv pdf G n x C (rep g))) P ==
   sumf (fun i => gm_coefs G y0 i * x i) (seq 0 d) - sumf (fun y => gm_pi G y * sumf (fun i => gm_coefs G y i * gm_mean G y i) (seq 0 d)) keys)%Q.
Proof.
  intros HC HS HG HP Hrep. rewrite (sumf_ext (fun g => the (gmm_shap inv pdf G n x C (rep g))) (fun g => the (perm_shap best C n (rep g)))).
  2: { intros g _. now rewrite shap_best. }
  rewrite (perm_efficiency best C n HC HS best_set P rep HP Hrep).
  assert (Hseq : in_n n (seq 0 n)) by (intros k Hk; apply in_seq in Hk; lia).
  assert (Hone : ordered G (seq 0 n)).
  { intros l r E K. assert (Hn : NoDup (seq 0 n)) by apply seq_NoDup. pose proof (proj2 HL) as Hn2. fold d in E, K, Hn2.
    assert (E' : seq 0 n = seq 0 d ++ d :: [S d]). { rewrite Hn2, seq_app. reflexivity. }
    rewrite E' in Hn, E. pose proof (split_unique d _ _ _ _ Hn E) as El. subst l. apply in_seq in K. lia. }
  rewrite <- (best_eq (seq 0 n)) by (try assumption; apply seq_NoDup).
  assert (Hnil : cond_gmm inv pdf G n x [] = best []).
  { apply best_eq; [constructor|intros k []|]. intros l r E. destruct l; discriminate. }
  rewrite <- Hnil.
  destruct (gmm_prediction inv pdf G n HL x (seq 0 n) y0) as [a [Ea Ha]]; [apply seq_NoDup|exact Hseq|apply seq_length|now apply class_agrees|].
  destruct (gmm_nothing inv pdf G n HL Hpi Hpos Hrun x) as [b [Eb Hb]]. rewrite Ea, Eb. cbn [the]. rewrite Ha, Hb. reflexivity.
Qed.
End Shap.

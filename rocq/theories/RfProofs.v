(** Proofs about the projected forest. *)
From Verif Require Import Base TreeModel TreeSpec TreeProofs RfModel RfSpec SearchProofs.

(** * One description of all node steps *)
Section Gen.
Variable R : row.
Variable data : nat -> pt.
Variable cut : bool.
Variable ins : Z -> list Z -> list Z.
Hypothesis ins_in : forall a b l, In a (ins b l) <-> a = b \/ In a l.

Definition gf (n : Z) : nat := Z.to_nat (r_feat R n).

Definition gstep (dec : Z -> option bool) (n : Z) (st : rfst) : rfst :=
  match dec n with
  | Some true => mkSt (ins (r_left R n) (st_child st)) (keep_left data (gf n) (r_thr R n) (st_in st))
                   (if cut then cut_hi (st_part st) (gf n) (r_thr R n) else st_part st) (n :: st_log st)
  | Some false => mkSt (ins (r_right R n) (st_child st)) (keep_right data (gf n) (r_thr R n) (st_in st))
                   (if cut then cut_lo (st_part st) (gf n) (r_thr R n) else st_part st) (n :: st_log st)
  | None => mkSt (ins (r_right R n) (ins (r_left R n) (st_child st))) (st_in st)
                   (st_part st) (n :: st_log st)
  end.

(** does sample [i] survive node [n]? *)
Definition ok (dec : Z -> option bool) (i : nat) (n : Z) : bool :=
  match dec n with
  | Some true => qleb (data i (gf n)) (r_thr R n)
  | Some false => qltb (r_thr R n) (data i (gf n))
  | None => true
  end.

Lemma gstep_log dec n st : st_log (gstep dec n st) = n :: st_log st.
Proof. unfold gstep. destruct (dec n) as [[]|]; reflexivity. Qed.

Lemma gstep_in dec n st : st_in (gstep dec n st) = filter (fun i => ok dec i n) (st_in st).
Proof.
  unfold gstep, ok. destruct (dec n) as [[]|]; cbn.
  - apply filter_ext. intro i. unfold qltb, qleb. now rewrite negb_involutive.
  - apply filter_ext. intro i. reflexivity.
  - symmetry. induction (st_in st) as [|a l IH]; cbn; congruence.
Qed.

(** loop invariants *)
Lemma level_loop_inv step (P : rfst -> Prop) m nodes st :
  (forall n s, In n nodes -> P s -> P (step n s)) -> P st -> P (level_loop step m nodes st).
Proof.
  revert st. induction nodes as [|n nodes IH]; intros st Hs H0; cbn [level_loop]; [exact H0|].
  destruct (length (st_in (step n st)) <? m).
  - apply Hs; [now left|exact H0].
  - apply IH; [|apply Hs; [now left|exact H0]]. intros; apply Hs; [now right|assumption].
Qed.

Lemma levels_inv step (P : rfst -> Prop) m depth nodes st :
  (forall n s, P s -> P (step n s)) -> P st -> P (all_levels step m depth nodes st).
Proof.
  intro Hs. revert nodes st. induction depth as [|k IH]; intros nodes st H0; cbn; [exact H0|].
  apply IH. apply level_loop_inv; [intros; now apply Hs|exact H0].
Qed.

(** the samples kept are those surviving every node read *)
Lemma gin_filter dec m depth nodes st0 l0 :
  st_in st0 = filter (fun i => forallb (ok dec i) (st_log st0)) l0 ->
  let st := all_levels (gstep dec) m depth nodes st0 in
  st_in st = filter (fun i => forallb (ok dec i) (st_log st)) l0.
Proof.
  intros H st. unfold st. apply (levels_inv (gstep dec)
    (fun s => st_in s = filter (fun i => forallb (ok dec i) (st_log s)) l0)); [|exact H].
  intros n s IH. rewrite gstep_in, gstep_log, IH, filter_filter.
  apply filter_ext. intro i. cbn. apply andb_comm.
Qed.

Lemma run_in dec m depth N p :
  let st := run_tree (gstep dec) m depth N p in
  st_in st = filter (fun i => forallb (ok dec i) (st_log st)) (seq 0 N).
Proof.
  apply gin_filter. cbn. symmetry. rewrite filter_true; auto.
Qed.

Lemma in_le step m depth nodes st :
  (forall n s, length (st_in (step n s)) <= length (st_in s)) ->
  length (st_in (all_levels step m depth nodes st)) <= length (st_in st).
Proof.
  intro H. apply (levels_inv step (fun s => length (st_in s) <= length (st_in st))); [|lia].
  intros n s Hs. specialize (H n s). lia.
Qed.

Lemma gstep_shrinks dec n s : length (st_in (gstep dec n s)) <= length (st_in s).
Proof. rewrite gstep_in. apply filter_length_le. Qed.

Lemma log_grows_loop dec m nodes st n :
  In n (st_log st) -> In n (st_log (level_loop (gstep dec) m nodes st)).
Proof.
  intro H. apply (level_loop_inv (gstep dec) (fun s => In n (st_log s))); [|exact H].
  intros k s _ Hs. rewrite gstep_log. now right.
Qed.

Lemma log_grows dec m depth nodes st n :
  In n (st_log st) -> In n (st_log (all_levels (gstep dec) m depth nodes st)).
Proof.
  intro H. apply (levels_inv (gstep dec) (fun s => In n (st_log s))); [|exact H].
  intros k s Hs. rewrite gstep_log. now right.
Qed.

(** ** Nodes read and nodes met *)
Definition gnext (dec : Z -> option bool) (n c : Z) : Prop :=
  (c = r_left R n /\ dec n <> Some false) \/ (c = r_right R n /\ dec n <> Some true).

Inductive gmet (dec : Z -> option bool) : nat -> Z -> Prop :=
| gm_root : gmet dec 0 0%Z
| gm_next k n c : gmet dec k n -> gnext dec n c -> gmet dec (S k) c.

Lemma gstep_child dec n st c :
  In c (st_child (gstep dec n st)) <-> gnext dec n c \/ In c (st_child st).
Proof.
  unfold gstep, gnext. destruct (dec n) as [[]|]; cbn; rewrite ?ins_in; intuition congruence.
Qed.

Definition childinv (dec : Z -> option bool) (st : rfst) : Prop :=
  forall c, In c (st_child st) <-> exists n, In n (st_log st) /\ gnext dec n c.

Lemma childinv_step dec n st : childinv dec st -> childinv dec (gstep dec n st).
Proof.
  intros H c. rewrite gstep_child, gstep_log, (H c). split.
  - intros [Hn|[k [Hk Hn]]]; [exists n|exists k]; (split; [|exact Hn]); [now left|now right].
  - intros [k [[->|Hk] Hn]]; [now left|right; eauto].
Qed.

Lemma childinv_loop dec m nodes st : childinv dec st -> childinv dec (level_loop (gstep dec) m nodes st).
Proof. intro H. apply level_loop_inv; [intros; now apply childinv_step|exact H]. Qed.

Definition bounded (dec : Z -> option bool) (K : nat) (n : Z) : Prop := exists j, j < K /\ gmet dec j n.

Lemma log_loop_sub dec m nodes st n :
  In n (st_log (level_loop (gstep dec) m nodes st)) -> In n nodes \/ In n (st_log st).
Proof.
  revert st. induction nodes as [|a nodes IH]; intros st; cbn [level_loop]; [now right|].
  destruct (length _ <? m); rewrite ?gstep_log.
  - intros [->|H]; [left; now left|now right].
  - intro H. apply IH in H. rewrite gstep_log in H. destruct H as [H|[->|H]].
    + left; now right. + left; now left. + now right.
Qed.

Lemma levels_sound dec m depth : forall K nodes st, childinv dec st ->
  (forall n, In n nodes -> bounded dec (S K) n) ->
  (forall n, In n (st_log st) -> bounded dec K n) ->
  forall n, In n (st_log (all_levels (gstep dec) m depth nodes st)) -> bounded dec (K + depth) n.
Proof.
  induction depth as [|d IH]; intros K nodes st HC Hn Hl n; cbn [all_levels].
  - intro H. rewrite Nat.add_0_r. auto.
  - intro H. replace (K + S d) with (S K + d) by lia. revert n H. apply IH.
    + now apply childinv_loop.
    + intros c Hc. apply (childinv_loop dec m nodes) in HC. apply HC in Hc. destruct Hc as [k [Hk Hc]].
      apply log_loop_sub in Hk. assert (B : bounded dec (S K) k).
      { destruct Hk as [Hk|Hk]; [auto|]. destruct (Hl k Hk) as [j [? ?]]. exists j; split; [lia|assumption]. }
      destruct B as [j [Hj Hm]]. exists (S j). split; [lia|]. now apply (gm_next dec j k).
    + intros k Hk. apply log_loop_sub in Hk. destruct Hk as [Hk|Hk]; [auto|].
      destruct (Hl k Hk) as [j [? ?]]. exists j; split; [lia|assumption].
Qed.

Lemma run_log_sound dec m depth N p n :
  In n (st_log (run_tree (gstep dec) m depth N p)) -> exists k, k < depth /\ gmet dec k n.
Proof.
  intro H. apply (levels_sound dec m depth 0 [0%Z]) in H.
  - exact H.
  - intro c. cbn. split; [tauto|]. intros [k [[] _]].
  - intros k [<-|[]]. exists 0. split; [lia|constructor].
  - cbn. tauto.
Qed.

Lemma loop_full dec m nodes st :
  m <= length (st_in (level_loop (gstep dec) m nodes st)) ->
  forall n, In n nodes -> In n (st_log (level_loop (gstep dec) m nodes st)).
Proof.
  revert st. induction nodes as [|a nodes IH]; intros st; cbn [level_loop]; [intros _ n []|].
  destruct (Nat.ltb_spec (length (st_in (gstep dec a st))) m) as [Hlt|Hge].
  - intro H. lia.
  - intros H n [<-|Hn]; [|now apply IH].
    apply log_grows_loop. rewrite gstep_log. now left.
Qed.

Lemma levels_complete dec m depth : forall K nodes st, childinv dec st ->
  (forall n, gmet dec K n -> In n nodes) ->
  (forall j n, j < K -> gmet dec j n -> In n (st_log st)) ->
  m <= length (st_in (all_levels (gstep dec) m depth nodes st)) ->
  forall j n, j < K + depth -> gmet dec j n -> In n (st_log (all_levels (gstep dec) m depth nodes st)).
Proof.
  induction depth as [|d IH]; intros K nodes st HC Hn Hl Hm j n Hj Hg; cbn [all_levels] in *.
  - apply (Hl j); [lia|assumption].
  - set (st' := level_loop (gstep dec) m nodes st) in *.
    assert (Hm' : m <= length (st_in st')).
    { eapply Nat.le_trans; [exact Hm|]. apply in_le. intros. apply gstep_shrinks. }
    assert (Hlog : forall i k, i < S K -> gmet dec i k -> In k (st_log st')).
    { intros i k Hi Hk. destruct (Nat.eq_dec i K) as [->|Ne].
      - apply loop_full; auto.
      - apply log_grows_loop. apply (Hl i); [lia|assumption]. }
    apply (IH (S K) _ _ (childinv_loop dec m nodes st HC)) with (j := j); auto; [|lia].
    intros c Hc. apply (childinv_loop dec m nodes st HC).
    inversion Hc as [|k a c' Ha Hac]; subst. exists a. split; [|assumption].
    apply (Hlog K); [lia|assumption].
Qed.

Lemma run_log_complete dec m depth N p :
  m <= length (st_in (run_tree (gstep dec) m depth N p)) ->
  forall k n, k < depth -> gmet dec k n -> In n (st_log (run_tree (gstep dec) m depth N p)).
Proof.
  intros Hm k n Hk Hg. apply (levels_complete dec m depth 0 [0%Z]) with (j := k); auto.
  - intro c. cbn. split; [tauto|]. intros [a [[] _]].
  - intros a Ha. inversion Ha. now left.
  - intros j a Hj. lia.
Qed.

(** survivors of every node met *)
Definition survives (dec : Z -> option bool) (depth i : nat) : Prop :=
  forall k n, k < depth -> gmet dec k n -> ok dec i n = true.

Lemma run_in_superset dec m depth N p i : i < N -> survives dec depth i ->
  In i (st_in (run_tree (gstep dec) m depth N p)).
Proof.
  intros Hi H. rewrite run_in. apply filter_In. split; [apply in_seq; lia|].
  apply forallb_forall. intros n Hn. apply run_log_sound in Hn. destruct Hn as [k [Hk Hn]].
  now apply (H k).
Qed.

Lemma run_in_exact dec m depth N p :
  m <= length (st_in (run_tree (gstep dec) m depth N p)) ->
  forall i, In i (st_in (run_tree (gstep dec) m depth N p)) <-> i < N /\ survives dec depth i.
Proof.
  intros Hm i. split; [|intros [H1 H2]; now apply run_in_superset].
  intro H. rewrite run_in in H. apply filter_In in H. destruct H as [H1 H2]. apply in_seq in H1.
  split; [lia|]. intros k n Hk Hn. rewrite forallb_forall in H2. apply H2.
  now apply (run_log_complete dec m depth N p Hm k).
Qed.

Lemma run_in_nodup dec m depth N p : NoDup (st_in (run_tree (gstep dec) m depth N p)).
Proof. rewrite run_in. apply NoDup_filter, seq_NoDup. Qed.

Lemma run_in_lt dec m depth N p i : In i (st_in (run_tree (gstep dec) m depth N p)) -> i < N.
Proof. rewrite run_in. intro H. apply filter_In in H. destruct H as [H _]. apply in_seq in H. lia. Qed.

(** ** Equal decisions on the nodes read give equal runs *)
Lemma loop_same dec1 dec2 m nodes st :
  (forall n, In n (st_log (level_loop (gstep dec1) m nodes st)) -> dec1 n = dec2 n) ->
  level_loop (gstep dec2) m nodes st = level_loop (gstep dec1) m nodes st.
Proof.
  revert st. induction nodes as [|a nodes IH]; intros st; cbn [level_loop]; [reflexivity|].
  intro H.
  assert (E : gstep dec2 a st = gstep dec1 a st).
  { unfold gstep at 1. rewrite <- H; [reflexivity|].
    destruct (_ <? m); [|apply log_grows_loop]; rewrite gstep_log; now left. }
  rewrite E. destruct (_ <? m); [reflexivity|]. now apply IH.
Qed.

Lemma levels_same dec1 dec2 m depth : forall nodes st,
  (forall n, In n (st_log (all_levels (gstep dec1) m depth nodes st)) -> dec1 n = dec2 n) ->
  all_levels (gstep dec2) m depth nodes st = all_levels (gstep dec1) m depth nodes st.
Proof.
  induction depth as [|d IH]; intros nodes st H; cbn [all_levels] in *; [reflexivity|].
  rewrite (loop_same dec1 dec2).
  - now apply IH.
  - intros n Hn. apply H. now apply log_grows.
Qed.
End Gen.

(** ** The rule does not influence the traversal *)
Definition sim (a b : rfst) : Prop :=
  st_child a = st_child b /\ st_in a = st_in b /\ st_log a = st_log b.

Lemma sim_loop s1 s2 m nodes : (forall n a b, sim a b -> sim (s1 n a) (s2 n b)) ->
  forall a b, sim a b -> sim (level_loop s1 m nodes a) (level_loop s2 m nodes b).
Proof.
  intro H. induction nodes as [|n nodes IH]; intros a b Hab; cbn [level_loop]; [exact Hab|].
  pose proof (H n a b Hab) as Hn. destruct Hn as [H1 [H2 H3]]. rewrite H2.
  destruct (_ <? m); [now split|]. apply IH. now split.
Qed.

Lemma sim_levels s1 s2 m depth : (forall n a b, sim a b -> sim (s1 n a) (s2 n b)) ->
  forall nodes a b, sim a b -> sim (all_levels s1 m depth nodes a) (all_levels s2 m depth nodes b).
Proof.
  intro H. induction depth as [|d IH]; intros nodes a b Hab; cbn [all_levels]; [exact Hab|].
  pose proof (sim_loop s1 s2 m nodes H a b Hab) as Hl. destruct Hl as [H1 [H2 H3]].
  rewrite H1. apply IH. now split.
Qed.

Lemma sim_gstep R data c1 c2 ins dec n a b : sim a b ->
  sim (gstep R data c1 ins dec n a) (gstep R data c2 ins dec n b).
Proof.
  intros [H1 [H2 H3]]. unfold gstep, sim. rewrite H1, H2, H3. destruct (dec n) as [[]|]; cbn; auto.
Qed.

Lemma sim_run R data c1 c2 ins dec m depth N p q :
  sim (run_tree (gstep R data c1 ins dec) m depth N p) (run_tree (gstep R data c2 ins dec) m depth N q).
Proof. apply sim_levels; [intros; now apply sim_gstep|now split]. Qed.

(** * Sums over trees *)
Section Sel.
Variable T N : nat.
Variable sel : nat -> list nat.
Hypothesis sel_nodup : forall b, NoDup (sel b).
Hypothesis sel_lt : forall b i, In i (sel b) -> i < N.

Definition wt (l : list nat) (i : nat) : Q := if memb i l then (1 / Qn (T * length l))%Q else 0%Q.
Definition weight (i : nat) : Q := sumf (fun b => wt (sel b) i) (seq 0 T).

Lemma sumf_sel (g : nat -> Q) l : NoDup l -> (forall i, In i l -> i < N) ->
  (sumf g l == sumf (fun i => if memb i l then g i else 0) (seq 0 N))%Q.
Proof.
  intros Hn Hl. rewrite <- (sumf_filter (fun i => memb i l) g (seq 0 N)).
  apply sumf_perm. apply NoDup_Permutation; [exact Hn|apply NoDup_filter, seq_NoDup|].
  intro i. rewrite filter_In, memb_true, in_seq. split; [|tauto].
  intro Hi. specialize (Hl i Hi). split; [lia|assumption].
Qed.

Lemma fold_sum {A} (g : A -> Q) l acc : (fold_left (fun a i => a + g i) l acc == acc + sumf g l)%Q.
Proof. revert acc. induction l as [|a l IH]; intro acc; cbn [fold_left sumf]; [lra|rewrite IH; lra]. Qed.

Lemma add_tree_sum ind l acc : NoDup l -> (forall i, In i l -> i < N) ->
  (add_tree T ind l acc == acc + sumf (fun i => wt l i * ind i) (seq 0 N))%Q.
Proof.
  intros Hn Hl. unfold add_tree. rewrite fold_sum.
  rewrite (sumf_sel _ l Hn Hl). apply Qplus_comp; [reflexivity|]. apply sumf_ext. intros i _.
  unfold wt. destruct (memb i l); lra.
Qed.

Lemma forest_sum ind trees acc :
  (fold_left (fun a b => add_tree T ind (sel b) a) trees acc ==
   acc + sumf (fun i => sumf (fun b => wt (sel b) i) trees * ind i) (seq 0 N))%Q.
Proof.
  revert acc. induction trees as [|b trees IH]; intro acc; cbn [fold_left].
  - rewrite sumf_zero; [lra|]. intros i _. cbn [sumf]. lra.
  - rewrite IH. rewrite (add_tree_sum ind (sel b) acc (sel_nodup b) (sel_lt b)). rewrite <- Qplus_assoc. apply Qplus_comp; [reflexivity|].
    rewrite <- sumf_plus. apply sumf_ext. intros i _. cbn [sumf]. lra.
Qed.

Lemma forest_weight ind :
  (fold_left (fun a b => add_tree T ind (sel b) a) (seq 0 T) 0 ==
   sumf (fun i => weight i * ind i) (seq 0 N))%Q.
Proof. rewrite forest_sum. unfold weight. lra. Qed.

Lemma add_weights_fold q l (w : nat -> Q) i : NoDup l ->
  (fold_left (fun v i => upd v i (v i + q)) l w i == w i + (if memb i l then q else 0))%Q.
Proof.
  revert w. induction l as [|a l IH]; intros w Hn; cbn [fold_left]; [cbn; lra|].
  inversion Hn as [|? ? Ha Hl]; subst. rewrite IH by assumption. cbn [memb existsb].
  fold (memb i l). destruct (Nat.eqb_spec i a) as [->|Ne].
  - rewrite upd_same. cbn [orb]. destruct (memb_spec a l); [contradiction|]. lra.
  - rewrite upd_other by assumption. cbn [orb]. reflexivity.
Qed.

Lemma add_weights_wt l w i : NoDup l -> (add_weights T l w i == w i + wt l i)%Q.
Proof. intro H. unfold add_weights. now rewrite add_weights_fold. Qed.

Lemma wt_nonneg l i : (0 <= wt l i)%Q.
Proof.
  unfold wt. destruct (memb i l); [|lra].
  unfold Qdiv. rewrite Qmult_1_l. apply Qinv_le_0_compat, Qn_nonneg.
Qed.

Lemma weight_nonneg i : (0 <= weight i)%Q.
Proof. apply sumf_nonneg. intros. apply wt_nonneg. Qed.

Lemma wt_total l : NoDup l -> (forall i, In i l -> i < N) ->
  (sumf (wt l) (seq 0 N) == if length l =? 0 then 0 else 1 / Qn T)%Q.
Proof.
  intros Hn Hl. transitivity (sumf (fun _ : nat => 1 / Qn (T * length l))%Q l).
  - rewrite (sumf_sel _ l Hn Hl). apply sumf_ext. intros; reflexivity.
  - rewrite sumf_const. destruct (Nat.eqb_spec (length l) 0) as [->|Ne]; [rewrite Qn_0; apply Qmult_0_l|].
    destruct (Nat.eq_dec T 0) as [->|HT].
    + change (Qn (0 * length l)) with 0%Q. change (Qn 0) with 0%Q. unfold Qdiv. change (/ 0)%Q with 0%Q. lra.
    + rewrite Qn_mult. field. split; apply Qn_neq0; assumption.
Qed.

Lemma weight_total :
  (total N weight == sumf (fun b => if length (sel b) =? 0 then 0 else 1 / Qn T) (seq 0 T))%Q.
Proof.
  unfold total, weight. rewrite sumf_swap. apply sumf_ext. intros b _. apply (wt_total (sel b) (sel_nodup b) (sel_lt b)).
Qed.

Lemma weight_total_le1 : (total N weight <= 1)%Q.
Proof.
  rewrite weight_total. destruct (Nat.eq_dec T 0) as [->|HT]; [cbn; lra|].
  apply Qle_trans with (sumf (fun _ : nat => 1 / Qn T)%Q (seq 0 T)).
  - apply sumf_le. intros b _. assert (0 < Qn T)%Q by (apply Qn_pos; lia).
    destruct (_ =? 0); [|lra]. apply Qdiv_nonneg; [lra|assumption].
  - rewrite sumf_const, seq_length. apply Qle_lteq. right. field. now apply Qn_neq0.
Qed.

Lemma weight_total_1 : 0 < T -> (forall b, b < T -> sel b <> []) -> (total N weight == 1)%Q.
Proof.
  intros HT Hne. rewrite weight_total.
  rewrite (sumf_ext _ (fun _ => 1 / Qn T)%Q).
  - rewrite sumf_const, seq_length. field. apply Qn_neq0. lia.
  - intros b Hb. apply in_seq in Hb. specialize (Hne b ltac:(lia)). destruct (sel b); [congruence|reflexivity].
Qed.

Lemma weight_total_count :
  0 < T -> (total N weight == Qn (length (filter (fun b => negb (length (sel b) =? 0)%nat) (seq 0 T))) / Qn T)%Q.
Proof.
  intro HT. rewrite weight_total. 
  rewrite <- (Qmult_1_r (Qn (length _))). rewrite <- sumf_const, sumf_filter.
  unfold Qdiv. rewrite <- sumf_scal_r. apply sumf_ext. intros b _. destruct (_ =? 0); cbn [negb]; field; apply Qn_neq0; lia.
Qed.

Lemma weight_ge i : (forall b, b < T -> In i (sel b)) -> 0 < T -> (1 / Qn N <= weight i)%Q.
Proof.
  intros H HT. unfold weight.
  apply Qle_trans with (sumf (fun _ : nat => 1 / Qn (T * N))%Q (seq 0 T)).
  - rewrite sumf_const, seq_length, Qn_mult.
    assert (i < N) by (apply (sel_lt 0); auto).
    apply Qle_lteq. right. field. split; apply Qn_neq0; lia.
  - apply sumf_le. intros b Hb. apply in_seq in Hb. assert (Hi : In i (sel b)) by (apply H; lia).
    unfold wt. destruct (memb_spec i (sel b)) as [_|]; [|contradiction].
    assert (length (sel b) <= N).
    { rewrite <- (seq_length N 0). apply NoDup_incl_length; [apply sel_nodup|].
      intros j Hj. apply in_seq. specialize (sel_lt b j Hj). lia. }
    assert (0 < length (sel b)) by (destruct (sel b); [destruct Hi|cbn; lia]).
    unfold Qdiv. rewrite !Qmult_1_l.
    assert (A : (0 < Qn (T * length (sel b)))%Q) by (apply Qn_pos; nia).
    assert (B : (Qn (T * length (sel b)) <= Qn (T * N))%Q) by (apply Qn_le; nia).
    apply Qle_shift_inv_l; [exact A|]. 
    apply Qmult_le_l with (z := Qn (T * N)); [lra|]. field_simplify; lra.
Qed.

Lemma weight_pos_iff i : 0 < T -> (0 < weight i)%Q <-> exists b, b < T /\ In i (sel b).
Proof.
  intro HT. split.
  - intro H. destruct (existsb (fun b => memb i (sel b)) (seq 0 T)) eqn:E.
    + apply existsb_exists in E. destruct E as [b [Hb Hm]]. apply in_seq in Hb. apply memb_true in Hm.
      exists b. split; [lia|assumption].
    + exfalso. assert (weight i == 0)%Q; [|lra]. unfold weight. apply sumf_zero. intros b Hb.
      unfold wt. destruct (memb i (sel b)) eqn:Em; [|reflexivity].
      assert (existsb (fun b => memb i (sel b)) (seq 0 T) = true); [|congruence].
      apply existsb_exists. eauto.
  - intros [b [Hb Hi]]. apply Qlt_le_trans with (wt (sel b) i).
    + unfold wt. destruct (memb_spec i (sel b)) as [_|]; [|contradiction].
      unfold Qdiv. rewrite Qmult_1_l. apply Qinv_lt_0_compat. apply Qn_pos.
      destruct (sel b); [destruct Hi|cbn; nia].
    + apply (sumf_ge_term (fun b => wt (sel b) i)); [intros; apply wt_nonneg|apply in_seq; lia].
Qed.

Lemma weighted_bounds ind lo hi : (forall i, i < N -> (lo <= ind i <= hi)%Q) ->
  (lo * total N weight <= sumf (fun i => weight i * ind i) (seq 0 N) <= hi * total N weight)%Q.
Proof.
  intro H. unfold total. rewrite <- !sumf_scal. split; apply sumf_le; intros i Hi; apply in_seq in Hi;
    pose proof (weight_nonneg i); destruct (H i ltac:(lia)); nra.
Qed.
End Sel.

(** * Concrete steps *)
Definition vins (a : Z) (l : list Z) : list Z := l ++ [a].

Lemma zinsert_in a b l : In a (zinsert b l) <-> a = b \/ In a l.
Proof.
  induction l as [|c l IH]; cbn.
  - intuition.
  - destruct (Z.ltb_spec b c); [cbn; intuition|].
    destruct (Z.eqb_spec b c) as [->|]; cbn; [intuition|rewrite IH; intuition].
Qed.

Lemma vins_in a b l : In a (vins b l) <-> a = b \/ In a l.
Proof. unfold vins. rewrite in_app_iff. cbn. intuition. Qed.

Definition dec_obs (Sv : list nat) (x : pt) (R : row) (n : Z) : option bool :=
  if inS Sv (r_feat R n) then Some (qleb (x (gf R n)) (r_thr R n)) else None.
Definition dec_box (cond : rule) (R : row) (n : Z) : option bool :=
  if (0 <=? r_feat R n)%Z && qleb (snd (cond (gf R n))) (r_thr R n) then Some true
  else if (0 <=? r_feat R n)%Z && qltb (r_thr R n) (fst (cond (gf R n))) then Some false
  else None.
Definition dec_cond (Sv : list nat) (x : pt) (cond : rule) (R : row) (n : Z) : option bool :=
  if inS Sv (r_feat R n) then dec_obs Sv x R n else dec_box cond R n.
Definition dec_intv (Sv : list nat) (cond : rule) (R : row) (n : Z) : option bool :=
  if inS Sv (r_feat R n) then None else dec_box cond R n.

Lemma rf_step_g Sv x data R n st : rf_step R Sv x data n st = gstep R data false zinsert (dec_obs Sv x R) n st.
Proof.
  unfold rf_step, gstep, dec_obs, gf. destruct (inS Sv _); [|reflexivity]. destruct (qleb _ _); reflexivity.
Qed.
Lemma rule_step_g Sv x data R n st : rule_step R Sv x data n st = gstep R data true zinsert (dec_obs Sv x R) n st.
Proof.
  unfold rule_step, gstep, dec_obs, gf. destruct (inS Sv _); [|reflexivity]. destruct (qleb _ _); reflexivity.
Qed.
Lemma vec_step_g Sv x data R n st : vec_step R Sv x data n st = gstep R data true vins (dec_obs Sv x R) n st.
Proof.
  unfold vec_step, gstep, dec_obs, gf, vins. destruct (inS Sv _).
  - destruct (qleb _ _); reflexivity.
  - rewrite <- app_assoc. reflexivity.
Qed.
Lemma box_step_g data cond R n st : box_step R data cond n st = gstep R data true zinsert (dec_box cond R) n st.
Proof.
  unfold box_step, gstep, dec_box, gf. destruct (_ && _); [reflexivity|]. destruct (_ && _); reflexivity.
Qed.
Lemma cond_step_g Sv x data cond R n st :
  cond_step R Sv x data cond n st = gstep R data true zinsert (dec_cond Sv x cond R) n st.
Proof.
  unfold cond_step. destruct (inS Sv (r_feat R n)) eqn:E.
  - rewrite rule_step_g. unfold gstep, dec_cond. now rewrite E.
  - rewrite box_step_g. unfold gstep, dec_cond. now rewrite E.
Qed.
Lemma intv_step_g Sv data cond R n st :
  intv_step R Sv data cond n st = gstep R data true zinsert (dec_intv Sv cond R) n st.
Proof.
  unfold intv_step. destruct (inS Sv (r_feat R n)) eqn:E.
  - unfold gstep, dec_intv. now rewrite E.
  - rewrite box_step_g. unfold gstep, dec_intv. now rewrite E.
Qed.

Lemma loop_ext s1 s2 m nodes st : (forall n s, s1 n s = s2 n s) ->
  level_loop s1 m nodes st = level_loop s2 m nodes st.
Proof.
  intro H. revert st. induction nodes as [|n nodes IH]; intro st; cbn [level_loop]; [reflexivity|].
  rewrite H. destruct (_ <? m); [reflexivity|apply IH].
Qed.
Lemma run_ext s1 s2 m depth N p : (forall n s, s1 n s = s2 n s) ->
  run_tree s1 m depth N p = run_tree s2 m depth N p.
Proof.
  intro H. unfold run_tree. generalize ([0%Z]) as nodes. generalize (mkSt [] (seq 0 N) p []).
  induction depth as [|d IH]; intros st nodes; cbn [all_levels]; [reflexivity|].
  rewrite (loop_ext s1 s2) by assumption. apply IH.
Qed.

Lemma inS_true Sv f : inS Sv f = true <-> exists g, f = Z.of_nat g /\ In g Sv.
Proof.
  unfold inS. rewrite andb_true_iff, Z.leb_le, memb_true. split.
  - intros [H1 H2]. exists (Z.to_nat f). split; [now rewrite Z2Nat.id|exact H2].
  - intros [g [-> H]]. rewrite Nat2Z.id. split; [lia|exact H].
Qed.

Lemma splits_inS R Sv n f : splits_on R Sv n f -> inS Sv (r_feat R n) = true /\ gf R n = f.
Proof.
  intros [H1 H2]. split; [apply inS_true; eauto|]. unfold gf. rewrite H1. apply Nat2Z.id.
Qed.
Lemma inS_splits R Sv n : inS Sv (r_feat R n) = true -> splits_on R Sv n (gf R n).
Proof.
  intro H. apply inS_true in H. destruct H as [g [Hg Hi]]. unfold splits_on, gf. rewrite Hg, Nat2Z.id. auto.
Qed.
Lemma not_splits R Sv n : (forall f, ~ splits_on R Sv n f) <-> inS Sv (r_feat R n) = false.
Proof.
  split.
  - intro H. destruct (inS Sv _) eqn:E; [|reflexivity]. destruct (H _ (inS_splits R Sv n E)).
  - intros H f Hf. apply splits_inS in Hf. destruct Hf. congruence.
Qed.

Lemma met_gmet R Sv x k n : met R Sv x k n <-> gmet R (dec_obs Sv x R) k n.
Proof.
  split.
  - induction 1 as [|k n f _ IH Hs Hx|k n f _ IH Hs Hx|k n _ IH Hs|k n _ IH Hs].
    + constructor.
    + apply splits_inS in Hs. destruct Hs as [E Ef]. apply (gm_next _ _ k n); [exact IH|].
      left. split; [reflexivity|]. unfold dec_obs. rewrite E, Ef. apply qleb_true in Hx. congruence.
    + apply splits_inS in Hs. destruct Hs as [E Ef]. apply (gm_next _ _ k n); [exact IH|].
      right. split; [reflexivity|]. unfold dec_obs. rewrite E, Ef. apply qleb_false in Hx. congruence.
    + apply not_splits in Hs. apply (gm_next _ _ k n); [exact IH|].
      left. split; [reflexivity|]. unfold dec_obs. rewrite Hs. discriminate.
    + apply not_splits in Hs. apply (gm_next _ _ k n); [exact IH|].
      right. split; [reflexivity|]. unfold dec_obs. rewrite Hs. discriminate.
  - induction 1 as [|k n c _ IH Hn]; [constructor|].
    destruct (inS Sv (r_feat R n)) eqn:E.
    + pose proof (inS_splits _ _ _ E) as Hs. destruct Hn as [[-> Hd]|[-> Hd]].
      * apply (met_left R Sv x k n (gf R n)); auto. unfold dec_obs in Hd. rewrite E in Hd.
        apply qleb_true. destruct (qleb _ _); congruence.
      * apply (met_right R Sv x k n (gf R n)); auto. unfold dec_obs in Hd. rewrite E in Hd.
        apply qleb_false. destruct (qleb _ _); congruence.
    + pose proof (proj2 (not_splits R Sv n) E) as Hs.
      destruct Hn as [[-> _]|[-> _]]; [now apply met_free_left|now apply met_free_right].
Qed.

Lemma survives_cell R data Sv x depth i :
  survives R data (dec_obs Sv x R) depth i <-> same_cell R Sv depth x (data i).
Proof.
  split.
  - intros H k n f Hk Hm Hs. apply met_gmet in Hm. specialize (H k n Hk Hm).
    apply splits_inS in Hs. destruct Hs as [E Ef]. unfold ok, dec_obs in H. rewrite E, Ef in H.
    destruct (qleb_spec (x f) (r_thr R n)); [apply qleb_true in H|apply qltb_true in H]; split; intro; try tauto; lra.
  - intros H k n Hk Hm. unfold ok, dec_obs. destruct (inS Sv (r_feat R n)) eqn:E; [|reflexivity].
    pose proof (inS_splits _ _ _ E) as Hs. apply met_gmet in Hm. specialize (H k n _ Hk Hm Hs).
    destruct (qleb_spec (x (gf R n)) (r_thr R n)); [apply qleb_true; tauto|apply qltb_true].
    apply Qnot_le_lt. tauto.
Qed.

Lemma agree_same_cell R Sv depth x z : agree_on Sv x z -> same_cell R Sv depth x z.
Proof. intros H k n f _ _ [_ Hf]. rewrite (H f Hf). tauto. Qed.

(** ** The rule *)
Definition inb (p : rule) (g : nat) (v : Q) : Prop := (fst (p g) < v)%Q /\ (v <= snd (p g))%Q.
Definition lim (R : row) (dec : Z -> option bool) (n : Z) (v : Q) : Prop :=
  match dec n with Some true => (v <= r_thr R n)%Q | Some false => (r_thr R n < v)%Q | None => True end.

Lemma inb_cut_hi p f t g v : inb (cut_hi p f t) g v <-> inb p g v /\ (g = f -> (v <= t)%Q).
Proof.
  unfold inb, cut_hi. destruct (qleb_spec t (snd (p f))) as [H|H].
  - destruct (Nat.eq_dec g f) as [->|Ne].
    + rewrite upd_same. cbn [fst snd]. split; [intros [A B]; repeat split; auto; lra|]. intros [[A B] C]. specialize (C eq_refl). auto.
    + rewrite upd_other by assumption. tauto.
  - split; [|tauto]. intros [A B]. split; [auto|]. intros ->. lra.
Qed.
Lemma inb_cut_lo p f t g v : inb (cut_lo p f t) g v <-> inb p g v /\ (g = f -> (t < v)%Q).
Proof.
  unfold inb, cut_lo. destruct (qleb_spec (fst (p f)) t) as [H|H].
  - destruct (Nat.eq_dec g f) as [->|Ne].
    + rewrite upd_same. cbn [fst snd]. split; [intros [A B]; repeat split; auto; lra|]. intros [[A B] C]. specialize (C eq_refl). auto.
    + rewrite upd_other by assumption. tauto.
  - split; [|tauto]. intros [A B]. split; [auto|]. intros ->. lra.
Qed.

Lemma run_rule R data ins dec m depth N p :
  let st := run_tree (gstep R data true ins dec) m depth N p in
  forall g v, inb (st_part st) g v <->
    inb p g v /\ forall n, In n (st_log st) -> gf R n = g -> lim R dec n v.
Proof.
  intro st. unfold st, run_tree.
  apply (levels_inv (gstep R data true ins dec) (fun s => forall g v, inb (st_part s) g v <->
    inb p g v /\ forall n, In n (st_log s) -> gf R n = g -> lim R dec n v)).
  - intros n s H g v. rewrite gstep_log.
    assert (Hc : inb (st_part (gstep R data true ins dec n s)) g v <->
                 inb (st_part s) g v /\ (gf R n = g -> lim R dec n v)).
    { unfold gstep, lim. destruct (dec n) as [[]|]; cbn [st_part].
      - rewrite inb_cut_hi. split; intros [A B]; (split; [exact A|]); intro E; apply B; congruence.
      - rewrite inb_cut_lo. split; intros [A B]; (split; [exact A|]); intro E; apply B; congruence.
      - tauto. }
    rewrite Hc, H. split.
    + intros [[A B] C]. split; [exact A|]. intros k [<-|Hk]; auto.
    + intros [A B]. split; [split|]; [exact A| |]; intros; apply B; cbn; auto.
  - intros g v. cbn. tauto.
Qed.

Lemma run_rule_untouched R data ins dec m depth N p g :
  (forall n, dec n <> None -> gf R n <> g) ->
  st_part (run_tree (gstep R data true ins dec) m depth N p) g = p g.
Proof.
  intro H. unfold run_tree. apply (levels_inv _ (fun s => st_part s g = p g)); [|reflexivity].
  intros n s Hs. unfold gstep. specialize (H n). destruct (dec n) as [[]|]; cbn [st_part]; [| |exact Hs].
  - unfold cut_hi. destruct (qleb _ _); [|exact Hs]. rewrite upd_other; [exact Hs|]. intro E. symmetry in E. apply H in E; [exact E|discriminate].
  - unfold cut_lo. destruct (qleb _ _); [|exact Hs]. rewrite upd_other; [exact Hs|]. intro E. symmetry in E. apply H in E; [exact E|discriminate].
Qed.

(** * The forest with rules *)
Section ForestG.
Variable M : fmem.
Variable data : nat -> pt.
Variable cut : bool.
Variable ins : Z -> list Z -> list Z.
Hypothesis ins_in : forall a b l, In a (ins b l) <-> a = b \/ In a l.
Variable dec : row -> Z -> option bool.
Variable step : row -> Z -> rfst -> rfst.
Hypothesis Hstep : forall R n s, step R n s = gstep R data cut ins (dec R) n s.
Variables m depth N : nat.

Definition sel (b : nat) : list nat := selected M step m depth N b.
Definition log (b : nat) : list Z := st_log (run_tree (step (row_of M b)) m depth N rule0).

Lemma run_g b p : run_tree (step (row_of M b)) m depth N p =
  run_tree (gstep (row_of M b) data cut ins (dec (row_of M b))) m depth N p.
Proof. apply run_ext. intros. apply Hstep. Qed.

Lemma run_any b p : st_in (run_tree (step (row_of M b)) m depth N p) = sel b /\
                    st_log (run_tree (step (row_of M b)) m depth N p) = log b.
Proof.
  unfold sel, selected, log. rewrite !run_g.
  destruct (sim_run (row_of M b) data cut cut ins (dec (row_of M b)) m depth N p rule0) as [_ [H1 H2]].
  now split.
Qed.

Lemma sel_nodup b : NoDup (sel b).
Proof. unfold sel, selected. rewrite run_g. now apply run_in_nodup. Qed.
Lemma sel_lt b i : In i (sel b) -> i < N.
Proof. unfold sel, selected. rewrite run_g. now apply run_in_lt. Qed.
Lemma sel_superset b i : i < N -> survives (row_of M b) data (dec (row_of M b)) depth i -> In i (sel b).
Proof. unfold sel, selected. rewrite run_g. now apply run_in_superset. Qed.
Lemma sel_exact b : m <= length (sel b) -> forall i,
  In i (sel b) <-> i < N /\ survives (row_of M b) data (dec (row_of M b)) depth i.
Proof. unfold sel, selected. rewrite run_g. intro H. now apply run_in_exact. Qed.
Lemma log_sound b n : In n (log b) -> exists k, k < depth /\ gmet (row_of M b) (dec (row_of M b)) k n.
Proof. unfold log. rewrite run_g. now apply run_log_sound. Qed.
Lemma log_complete b : m <= length (sel b) -> forall k n, k < depth ->
  gmet (row_of M b) (dec (row_of M b)) k n -> In n (log b).
Proof. unfold sel, selected, log. rewrite run_g. intros H k n. now apply run_log_complete. Qed.

Definition fw : nat -> Q := weight (F_trees M) sel.

Lemma forest_eq ind : (forest M step m depth N ind == sumf (fun i => fw i * ind i) (seq 0 N))%Q.
Proof. apply (forest_weight (F_trees M) N sel sel_nodup sel_lt). Qed.

Lemma forest_rule_eq ind :
  let '(acc, p, w) := forest_rule M step m depth N ind in
  acc = forest M step m depth N ind /\
  p = fold_left (fun p b => st_part (run_tree (step (row_of M b)) m depth N p)) (seq 0 (F_trees M)) rule0 /\
  w = fold_left (fun w b => add_weights (F_trees M) (sel b) w) (seq 0 (F_trees M)) (fun _ => 0%Q).
Proof.
  unfold forest_rule, forest. generalize (seq 0 (F_trees M)) as trees. generalize rule0 as p.
  generalize (fun _ : nat => 0%Q) as w. generalize 0%Q as acc.
  intros acc w p trees. revert acc w p.
  induction trees as [|b trees IH]; intros acc w p; [cbn; auto|].
  cbn [fold_left]. destruct (run_any b p) as [H1 H2]. rewrite H1. apply IH.
Qed.

Lemma forest_rule_prob ind : fst (fst (forest_rule M step m depth N ind)) = forest M step m depth N ind.
Proof. pose proof (forest_rule_eq ind) as H. destruct (forest_rule _ _ _ _ _ ind) as [[a p] w]. apply H. Qed.

Lemma forest_rule_weights ind i : (snd (forest_rule M step m depth N ind) i == fw i)%Q.
Proof.
  pose proof (forest_rule_eq ind) as H. destruct (forest_rule _ _ _ _ _ ind) as [[a p] w].
  cbn. destruct H as [_ [_ ->]]. unfold fw, weight. clear a p.
  assert (G : forall trees w, (fold_left (fun w b => add_weights (F_trees M) (sel b) w) trees w i ==
              w i + sumf (fun b => wt (F_trees M) (sel b) i) trees)%Q).
  { induction trees as [|b trees IH]; intro w; cbn [fold_left sumf]; [lra|].
    rewrite IH, add_weights_wt by apply sel_nodup. lra. }
  rewrite G. lra.
Qed.

Definition frule : rule := snd (fst (forest_rule M step m depth N (fun _ => 0%Q))).
Lemma forest_rule_rule ind : snd (fst (forest_rule M step m depth N ind)) = frule.
Proof.
  unfold frule. pose proof (forest_rule_eq ind) as H. pose proof (forest_rule_eq (fun _ => 0%Q)) as H0.
  destruct (forest_rule _ _ _ _ _ ind) as [[a p] w].
  destruct (forest_rule _ _ _ _ _ (fun _ => 0%Q)) as [[a0 p0] w0]. cbn.
  destruct H as [_ [-> _]]. destruct H0 as [_ [-> _]]. reflexivity.
Qed.

Lemma frule_inb : cut = true -> forall g v, inb frule g v <->
  inb rule0 g v /\ forall b, b < F_trees M -> forall n, In n (log b) -> gf (row_of M b) n = g ->
     lim (row_of M b) (dec (row_of M b)) n v.
Proof.
  intros Hc g v. unfold frule. pose proof (forest_rule_eq (fun _ => 0%Q)) as H0.
  destruct (forest_rule _ _ _ _ _ (fun _ => 0%Q)) as [[a0 p0] w0]. cbn.
  destruct H0 as [_ [-> _]]. clear a0.
  assert (G : forall trees p, inb (fold_left (fun p b => st_part (run_tree (step (row_of M b)) m depth N p)) trees p) g v
     <-> inb p g v /\ forall b, In b trees -> forall n, In n (log b) -> gf (row_of M b) n = g ->
     lim (row_of M b) (dec (row_of M b)) n v).
  { induction trees as [|b trees IH]; intro p; cbn [fold_left]; [cbn; intuition|].
    rewrite IH. destruct (run_any b p) as [_ Hl]. rewrite run_g in Hl |- *. subst cut.
    rewrite (run_rule (row_of M b) data ins (dec (row_of M b)) m depth N p g v). rewrite Hl.
    split.
    - intros [[A B] C]. split; [exact A|]. intros b' [<-|Hb]; auto.
    - intros [A B]. split; [split; [exact A|]|]; intros; apply B; cbn; auto. }
  rewrite G. split; intros [A B]; (split; [exact A|]); intros b Hb; apply B; [apply in_seq; lia|].
  apply in_seq in Hb. lia.
Qed.

Lemma frule_untouched g : cut = true ->
  (forall R n, dec R n <> None -> gf R n <> g) -> frule g = rule0 g.
Proof.
  intros Hc H. unfold frule. pose proof (forest_rule_eq (fun _ => 0%Q)) as H0.
  destruct (forest_rule _ _ _ _ _ (fun _ => 0%Q)) as [[a0 p0] w0]. cbn.
  destruct H0 as [_ [-> _]]. clear a0.
  assert (G : forall trees p, fold_left (fun p b => st_part (run_tree (step (row_of M b)) m depth N p)) trees p g = p g).
  { induction trees as [|b trees IH]; intro p; cbn [fold_left]; [reflexivity|].
    rewrite IH, run_g. subst cut. apply run_rule_untouched. auto. }
  apply G.
Qed.
End ForestG.

Lemma fold_left_ext_in {A B} (f g : A -> B -> A) l : forall a,
  (forall a b, In b l -> f a b = g a b) -> fold_left f l a = fold_left g l a.
Proof.
  induction l as [|b l IH]; intros a H; cbn [fold_left]; [reflexivity|].
  rewrite (H a b) by now left. apply IH. intros; apply H. now right.
Qed.

(** * Two observations *)
Section Two.
Variable M : fmem.
Variable data : nat -> pt.
Variable cut : bool.
Variable ins : Z -> list Z -> list Z.
Variables dec1 dec2 : row -> Z -> option bool.
Variables step1 step2 : row -> Z -> rfst -> rfst.
Hypothesis H1 : forall R n s, step1 R n s = gstep R data cut ins (dec1 R) n s.
Hypothesis H2 : forall R n s, step2 R n s = gstep R data cut ins (dec2 R) n s.
Variables m depth N : nat.
Hypothesis Hsame : forall b, b < F_trees M -> forall n, In n (log M step1 m depth N b) ->
  dec1 (row_of M b) n = dec2 (row_of M b) n.

Lemma run_two b p : b < F_trees M ->
  run_tree (step1 (row_of M b)) m depth N p = run_tree (step2 (row_of M b)) m depth N p.
Proof.
  intro Hb. rewrite (run_g M data cut ins dec1 step1 H1), (run_g M data cut ins dec2 step2 H2).
  symmetry. unfold run_tree. apply levels_same. intros n Hn. apply (Hsame b Hb).
  destruct (run_any M data cut ins dec1 step1 H1 m depth N b p) as [_ <-].
  rewrite (run_g M data cut ins dec1 step1 H1). exact Hn.
Qed.

Lemma forest_two ind : forest M step1 m depth N ind = forest M step2 m depth N ind.
Proof.
  unfold forest. apply fold_left_ext_in. intros a b Hb. apply in_seq in Hb.
  unfold selected. rewrite run_two by lia. reflexivity.
Qed.
Lemma forest_rule_two ind : forest_rule M step1 m depth N ind = forest_rule M step2 m depth N ind.
Proof.
  unfold forest_rule. apply fold_left_ext_in. intros [[a p] w] b Hb. apply in_seq in Hb.
  rewrite run_two by lia. reflexivity.
Qed.
End Two.

(** * Indicators *)
Section Inds.
Variables (classifier : bool) (yx t0 t1 : Q) (y : nat -> Q).

Lemma ind_same_Qb i : exists b : bool, (ind_same classifier yx t0 t1 y i == Qb b)%Q /\
  (ind_diff classifier yx t0 t1 y i == Qb (negb b))%Q /\ (b = true <-> same_decision classifier yx t0 t1 y i).
Proof.
  unfold ind_same, ind_diff, same_decision. destruct classifier.
  - exists (qeqb yx (y i)). split; [reflexivity|]. split; [reflexivity|].
    destruct (qeqb_spec yx (y i)); intuition discriminate.
  - exists (qleb t0 (y i) && qleb (y i) t1).
    destruct (qleb_spec t0 (y i)); destruct (qleb_spec (y i) t1); cbn [andb negb Qb];
      repeat split; try lra; try tauto; intuition discriminate.
Qed.

Lemma ind_same_01 i : (0 <= ind_same classifier yx t0 t1 y i <= 1)%Q.
Proof. destruct (ind_same_Qb i) as [b [-> _]]. apply Qb_bounds. Qed.
Lemma ind_diff_01 i : (0 <= ind_diff classifier yx t0 t1 y i <= 1)%Q.
Proof. destruct (ind_same_Qb i) as [b [_ [-> _]]]. apply Qb_bounds. Qed.
Lemma ind_same_diff i : (ind_same classifier yx t0 t1 y i + ind_diff classifier yx t0 t1 y i == 1)%Q.
Proof. destruct (ind_same_Qb i) as [b [-> [-> _]]]. destruct b; cbn; lra. Qed.
Lemma ind_cdp_same i : (ind_cdp classifier yx t0 t1 y i == ind_same classifier yx t0 t1 y i)%Q.
Proof.
  unfold ind_cdp, ind_same. destruct classifier; [reflexivity|].
  destruct (qleb t0 (y i)); destruct (qleb (y i) t1); cbn; lra.
Qed.
End Inds.

(** * The estimators that follow the observation *)
Section Obs.
Variable M : fmem.
Variable data : nat -> pt.
Variable N : nat.
Variables (depth m : nat) (Sv : list nat) (x : pt).

Definition rfs (R : row) := rf_step R Sv x data.
Definition rls (R : row) := rule_step R Sv x data.
Definition vcs (R : row) := vec_step R Sv x data.

Definition Hrf : forall R n s, rfs R n s = gstep R data false zinsert (dec_obs Sv x R) n s :=
  fun R n s => rf_step_g Sv x data R n s.
Definition Hrl : forall R n s, rls R n s = gstep R data true zinsert (dec_obs Sv x R) n s :=
  fun R n s => rule_step_g Sv x data R n s.
Definition Hvc : forall R n s, vcs R n s = gstep R data true vins (dec_obs Sv x R) n s :=
  fun R n s => vec_step_g Sv x data R n s.

Lemma sel_rule_rf b : sel M rls m depth N b = sel M rfs m depth N b.
Proof.
  unfold sel, selected. rewrite (run_g M data true zinsert (dec_obs Sv x) rls Hrl).
  rewrite (run_g M data false zinsert (dec_obs Sv x) rfs Hrf).
  apply (sim_run (row_of M b) data true false zinsert (dec_obs Sv x (row_of M b)) m depth N rule0 rule0).
Qed.

Lemma forest_rule_rf ind : forest M rls m depth N ind = forest M rfs m depth N ind.
Proof.
  unfold forest. apply fold_left_ext_in. intros a b _. f_equal. apply (sel_rule_rf b).
Qed.

Lemma sel_cell b i : i < N -> same_cell (row_of M b) Sv depth x (data i) ->
  In i (sel M rls m depth N b) /\ In i (sel M vcs m depth N b).
Proof.
  intros Hi Hc. apply survives_cell in Hc. split.
  - eapply (sel_superset M data true zinsert zinsert_in (dec_obs Sv x) rls Hrl); assumption.
  - eapply (sel_superset M data true vins vins_in (dec_obs Sv x) vcs Hvc); assumption.
Qed.

Lemma sel_cell_iff b : m <= length (sel M rls m depth N b) -> forall i,
  In i (sel M rls m depth N b) <-> i < N /\ same_cell (row_of M b) Sv depth x (data i).
Proof.
  intros H i. rewrite (sel_exact M data true zinsert zinsert_in (dec_obs Sv x) rls Hrl) by exact H.
  now rewrite survives_cell.
Qed.
Lemma sel_cell_iff_vec b : m <= length (sel M vcs m depth N b) -> forall i,
  In i (sel M vcs m depth N b) <-> i < N /\ same_cell (row_of M b) Sv depth x (data i).
Proof.
  intros H i. rewrite (sel_exact M data true vins vins_in (dec_obs Sv x) vcs Hvc) by exact H.
  now rewrite survives_cell.
Qed.

Lemma sel_is_filter b : exists p, sel M rls m depth N b = filter p (seq 0 N).
Proof.
  unfold sel, selected. rewrite (run_g M data true zinsert (dec_obs Sv x) rls Hrl).
  rewrite run_in. eauto.
Qed.
Lemma sel_is_filter_vec b : exists p, sel M vcs m depth N b = filter p (seq 0 N).
Proof.
  unfold sel, selected. rewrite (run_g M data true vins (dec_obs Sv x) vcs Hvc).
  rewrite run_in. eauto.
Qed.

Lemma filter_seq_eq p q : (forall i, In i (filter p (seq 0 N)) <-> In i (filter q (seq 0 N))) ->
  filter p (seq 0 N) = filter q (seq 0 N).
Proof.
  intro H. apply filter_ext_in'. intros i Hi. specialize (H i). rewrite !filter_In in H.
  destruct (p i), (q i); intuition congruence.
Qed.

Lemma sel_vec_eq b : m <= length (sel M rls m depth N b) \/ m <= length (sel M vcs m depth N b) ->
  sel M vcs m depth N b = sel M rls m depth N b.
Proof.
  assert (A : forall l1 l2 : list nat, NoDup l1 -> (forall i, In i l1 -> In i l2) -> length l1 <= length l2).
  { intros l1 l2 Hn Hs. apply NoDup_incl_length; [exact Hn|]. intros i Hi. now apply Hs. }
  intro H.
  assert (B : m <= length (sel M rls m depth N b) /\ m <= length (sel M vcs m depth N b)).
  { destruct H as [H|H].
    - split; [exact H|]. eapply Nat.le_trans; [exact H|]. apply A.
      + apply (sel_nodup M data true zinsert (dec_obs Sv x) rls Hrl).
      + intros i Hi. apply (sel_cell_iff b H) in Hi. destruct Hi. now apply sel_cell.
    - split; [|exact H]. eapply Nat.le_trans; [exact H|]. apply A.
      + apply (sel_nodup M data true vins (dec_obs Sv x) vcs Hvc).
      + intros i Hi. apply (sel_cell_iff_vec b H) in Hi. destruct Hi. now apply sel_cell. }
  destruct B as [B1 B2].
  destruct (sel_is_filter b) as [p Hp], (sel_is_filter_vec b) as [q Hq].
  rewrite Hp, Hq. apply filter_seq_eq. intro i. rewrite <- Hp, <- Hq.
  rewrite (sel_cell_iff b B1), (sel_cell_iff_vec b B2). tauto.
Qed.

Lemma forest_bounds ind lo hi : (forall i, i < N -> (lo <= ind i <= hi)%Q) ->
  (lo * total N (fw M rls m depth N) <= forest M rls m depth N ind <= hi * total N (fw M rls m depth N))%Q.
Proof.
  intro H. rewrite (forest_eq M data true zinsert (dec_obs Sv x) rls Hrl).
  now apply weighted_bounds.
Qed.

Lemma fw_total_le1 : (total N (fw M rls m depth N) <= 1)%Q.
Proof.
  apply weight_total_le1.
  - apply (sel_nodup M data true zinsert (dec_obs Sv x) rls Hrl).
  - apply (sel_lt M data true zinsert (dec_obs Sv x) rls Hrl).
Qed.
Lemma fw_nonneg i : (0 <= fw M rls m depth N i)%Q.
Proof. apply weight_nonneg. Qed.
Lemma fw_total_nonneg : (0 <= total N (fw M rls m depth N))%Q.
Proof. apply sumf_nonneg. intros. apply fw_nonneg. Qed.

Lemma forest_01 ind : (forall i, i < N -> (0 <= ind i <= 1)%Q) ->
  (0 <= forest M rls m depth N ind <= 1)%Q.
Proof.
  intro H. pose proof (forest_bounds ind 0 1 H). pose proof fw_total_le1. lra.
Qed.

Lemma fw_total_1 : 0 < F_trees M ->
  (forall b, b < F_trees M -> sel M rls m depth N b <> []) -> (total N (fw M rls m depth N) == 1)%Q.
Proof.
  intros HT H. apply weight_total_1; auto.
  - apply (sel_nodup M data true zinsert (dec_obs Sv x) rls Hrl).
  - apply (sel_lt M data true zinsert (dec_obs Sv x) rls Hrl).
Qed.

Lemma agree_selected i : i < N -> agree_on Sv x (data i) -> forall b, In i (sel M rls m depth N b).
Proof. intros Hi Ha b. apply sel_cell; [exact Hi|]. now apply agree_same_cell. Qed.

Lemma fw_agree_ge i : 0 < F_trees M -> i < N -> agree_on Sv x (data i) ->
  (1 / Qn N <= fw M rls m depth N i)%Q.
Proof.
  intros HT Hi Ha. apply weight_ge; auto.
  - apply (sel_nodup M data true zinsert (dec_obs Sv x) rls Hrl).
  - apply (sel_lt M data true zinsert (dec_obs Sv x) rls Hrl).
  - intros b _. now apply agree_selected.
Qed.
End Obs.

Lemma total_ext N w w' : (forall i, (w i == w' i)%Q) -> (total N w == total N w')%Q.
Proof. intro H. apply sumf_ext. intros. apply H. Qed.

(** * Statements *)
Section Statements.
Variable M : fmem.
Variable data : nat -> pt.
Variable y : nat -> Q.
Variable N : nat.
Variables (depth m : nat) (classifier : bool) (t0 t1 : Q).
Variables (Sv : list nat) (x : pt) (yx : Q).

Notation W := (fw M (rls data Sv x) m depth N).
Notation SDP := (compute_sdp_rf M data y N depth m classifier t0 t1 Sv x yx).
Notation DDP := (compute_ddp_rf M data y N depth m classifier t0 t1 Sv x yx).
Notation RULE := (compute_sdp_rule_weights M data y N depth m classifier t0 t1 Sv x yx).

Lemma plain_rule ind : forest M (rfs data Sv x) m depth N ind = forest M (rls data Sv x) m depth N ind.
Proof. symmetry. apply forest_rule_rf. Qed.

Lemma sdp_bounds : (0 <= SDP <= 1)%Q.
Proof.
  unfold compute_sdp_rf. change (fun R => rf_step R Sv x data) with (rfs data Sv x).
  rewrite plain_rule. apply forest_01. intros. apply ind_same_01.
Qed.
Lemma ddp_bounds : (0 <= DDP <= 1)%Q.
Proof.
  unfold compute_ddp_rf. change (fun R => rf_step R Sv x data) with (rfs data Sv x).
  rewrite plain_rule. apply forest_01. intros. apply ind_diff_01.
Qed.

Lemma cdp_is_sdp : (compute_cdp_rf M data y N depth m classifier Sv x yx t0 t1 == SDP)%Q.
Proof.
  unfold compute_cdp_rf, compute_sdp_rf. change (fun R => rf_step R Sv x data) with (rfs data Sv x).
  rewrite !(forest_eq M data false zinsert (dec_obs Sv x) (rfs data Sv x) (Hrf data Sv x)).
  apply sumf_ext. intros i _. rewrite ind_cdp_same. reflexivity.
Qed.

Lemma w_eq i : (snd RULE i == W i)%Q.
Proof. apply (forest_rule_weights M data true zinsert (dec_obs Sv x) (rls data Sv x) (Hrl data Sv x)). Qed.
Lemma p_eq : snd (fst RULE) = frule M (rls data Sv x) m depth N.
Proof. apply (forest_rule_rule M data true zinsert (dec_obs Sv x) (rls data Sv x) (Hrl data Sv x)). Qed.

Lemma weights_statement_rf :
  (forall i, (0 <= snd RULE i)%Q) /\ (total N (snd RULE) <= 1)%Q /\
  (0 < F_trees M -> forall i, i < N -> agree_on Sv x (data i) ->
     (total N (snd RULE) == 1)%Q /\ (1 / Qn N <= snd RULE i)%Q).
Proof.
  split; [|split].
  - intro i. rewrite w_eq. apply fw_nonneg.
  - rewrite (total_ext N _ W) by apply w_eq. apply fw_total_le1.
  - intros HT i Hi Ha. split.
    + rewrite (total_ext N _ W) by apply w_eq. apply fw_total_1; [exact HT|].
      intros b _ E. pose proof (agree_selected M data N depth m Sv x i Hi Ha b) as H. rewrite E in H. destruct H.
    + rewrite w_eq. now apply fw_agree_ge.
Qed.

Lemma weighted_statement (e : nat -> bool) :
  (forall i, e i = true <-> same_decision classifier yx t0 t1 y i) ->
  (SDP == total N (fun i => if e i then snd RULE i else 0))%Q /\
  (DDP == total N (fun i => if e i then 0 else snd RULE i))%Q.
Proof.
  intro He. unfold compute_sdp_rf, compute_ddp_rf.
  change (fun R => rf_step R Sv x data) with (rfs data Sv x). rewrite !plain_rule.
  rewrite !(forest_eq M data true zinsert (dec_obs Sv x) (rls data Sv x) (Hrl data Sv x)).
  split; apply sumf_ext; intros i _; pose proof (w_eq i) as Hw;
    destruct (ind_same_Qb classifier yx t0 t1 y i) as [b [H1 [H2 H3]]].
  - rewrite H1. specialize (He i). destruct b, (e i); cbn [Qb]; try rewrite Hw; try lra; intuition congruence.
  - rewrite H2. specialize (He i). destruct b, (e i); cbn [Qb negb]; try rewrite Hw; try lra; intuition congruence.
Qed.

Lemma complement_statement : (SDP + DDP == total N (snd RULE))%Q.
Proof.
  unfold compute_sdp_rf, compute_ddp_rf.
  change (fun R => rf_step R Sv x data) with (rfs data Sv x). rewrite !plain_rule.
  rewrite !(forest_eq M data true zinsert (dec_obs Sv x) (rls data Sv x) (Hrl data Sv x)).
  rewrite <- sumf_plus. apply sumf_ext. intros i _. rewrite w_eq.
  pose proof (ind_same_diff classifier yx t0 t1 y i) as H. rewrite <- Qmult_plus_distr_r, H. lra.
Qed.

Lemma rule_prob_statement : fst (fst RULE) = SDP.
Proof.
  unfold compute_sdp_rule_weights, compute_sdp_rf.
  change (fun R => rf_step R Sv x data) with (rfs data Sv x).
  change (fun R => rule_step R Sv x data) with (rls data Sv x).
  rewrite (forest_rule_prob M data true zinsert (dec_obs Sv x) (rls data Sv x) (Hrl data Sv x)).
  symmetry. apply plain_rule.
Qed.

Lemma rule_contains : (forall f, In f Sv -> (- big < x f <= big)%Q) -> in_rule Sv (snd (fst RULE)) x.
Proof.
  intros Hx f Hf. rewrite p_eq.
  apply (frule_inb M data true zinsert (dec_obs Sv x) (rls data Sv x) (Hrl data Sv x) m depth N eq_refl f (x f)).
  split; [exact (Hx f Hf)|]. intros b _ n _ Hn. unfold lim, dec_obs.
  destruct (inS Sv _); [|exact I]. rewrite Hn. destruct (qleb_spec (x f) (r_thr (row_of M b) n)); [assumption|lra].
Qed.

Lemma rule_untouched f : ~ In f Sv -> snd (fst RULE) f = ((- big)%Q, big).
Proof.
  intro Hf. rewrite p_eq.
  apply (frule_untouched M data true zinsert (dec_obs Sv x) (rls data Sv x) (Hrl data Sv x) m depth N f eq_refl).
  intros R n Hd E. apply Hf. unfold dec_obs in Hd. destruct (inS Sv (r_feat R n)) eqn:Ei; [|congruence].
  apply inS_splits in Ei. rewrite <- E. apply Ei.
Qed.

(** what the rule says, in terms of the splits met *)
Lemma rule_wide z :
  (forall f, In f Sv -> (- big < z f <= big)%Q) ->
  (forall b, b < F_trees M -> same_cell (row_of M b) Sv depth x z) -> in_rule Sv (snd (fst RULE)) z.
Proof.
  intros Hz Hc f Hf. rewrite p_eq.
  apply (frule_inb M data true zinsert (dec_obs Sv x) (rls data Sv x) (Hrl data Sv x) m depth N eq_refl f (z f)).
  split; [exact (Hz f Hf)|]. intros b Hb n Hn Hg.
  apply (log_sound M data true zinsert zinsert_in (dec_obs Sv x) (rls data Sv x) (Hrl data Sv x)) in Hn.
  destruct Hn as [k [Hk Hm]]. apply met_gmet in Hm. unfold lim, dec_obs.
  destruct (inS Sv (r_feat (row_of M b) n)) eqn:Ei; [|exact I]. apply inS_splits in Ei.
  specialize (Hc b Hb k n _ Hk Hm Ei). rewrite Hg in *.
  destruct (qleb_spec (x f) (r_thr (row_of M b) n)); [tauto|]. apply Qnot_le_lt. tauto.
Qed.

Lemma rule_exact z :
  (forall b, b < F_trees M -> m <= length (sel M (rls data Sv x) m depth N b)) ->
  in_rule Sv (snd (fst RULE)) z ->
  forall b, b < F_trees M -> same_cell (row_of M b) Sv depth x z.
Proof.
  intros Hm Hr b Hb k n f Hk Hmet [Hs Hf]. specialize (Hr f Hf). rewrite p_eq in Hr.
  apply (frule_inb M data true zinsert (dec_obs Sv x) (rls data Sv x) (Hrl data Sv x) m depth N eq_refl f (z f)) in Hr.
  destruct Hr as [_ Hr]. apply met_gmet in Hmet.
  apply (log_complete M data true zinsert zinsert_in (dec_obs Sv x) (rls data Sv x) (Hrl data Sv x) m depth N b (Hm b Hb)) in Hmet; [|exact Hk].
  destruct (splits_inS (row_of M b) Sv n f (conj Hs Hf)) as [Ei Ef].
  specialize (Hr b Hb n Hmet Ef). unfold lim, dec_obs in Hr. rewrite Ei, Ef in Hr.
  destruct (qleb_spec (x f) (r_thr (row_of M b) n)); [tauto|]. split; intro; lra.
Qed.
End Statements.

Lemma dec_obs_agree Sv x x' R n : agree_on Sv x x' -> dec_obs Sv x R n = dec_obs Sv x' R n.
Proof.
  intro H. unfold dec_obs. destruct (inS Sv (r_feat R n)) eqn:E; [|reflexivity].
  apply inS_splits in E. destruct E as [_ E]. specialize (H _ E). f_equal.
  destruct (qleb_spec (x (gf R n)) (r_thr R n)), (qleb_spec (x' (gf R n)) (r_thr R n)); try reflexivity; exfalso; lra.
Qed.

Section TwoObs.
Variable M : fmem.
Variable data : nat -> pt.
Variable y : nat -> Q.
Variable N : nat.
Variables (depth m : nat) (classifier : bool) (t0 t1 : Q).
Variables (Sv : list nat) (x x' : pt) (yx : Q).

Lemma noninterference : agree_on Sv x x' ->
  compute_sdp_rule_weights M data y N depth m classifier t0 t1 Sv x yx =
  compute_sdp_rule_weights M data y N depth m classifier t0 t1 Sv x' yx /\
  compute_sdp_rf M data y N depth m classifier t0 t1 Sv x yx =
  compute_sdp_rf M data y N depth m classifier t0 t1 Sv x' yx /\
  compute_exp_rf M data y N depth m Sv x = compute_exp_rf M data y N depth m Sv x'.
Proof.
  intro H. split; [|split].
  - apply (forest_rule_two M data true zinsert (dec_obs Sv x) (dec_obs Sv x') (rls data Sv x) (rls data Sv x')
            (Hrl data Sv x) (Hrl data Sv x')). intros. now apply dec_obs_agree.
  - apply (forest_two M data false zinsert (dec_obs Sv x) (dec_obs Sv x') (rfs data Sv x) (rfs data Sv x')
            (Hrf data Sv x) (Hrf data Sv x')). intros. now apply dec_obs_agree.
  - apply (forest_two M data false zinsert (dec_obs Sv x) (dec_obs Sv x') (rfs data Sv x) (rfs data Sv x')
            (Hrf data Sv x) (Hrf data Sv x')). intros. now apply dec_obs_agree.
Qed.

Lemma rule_same_dec : in_rule Sv (frule M (rls data Sv x) m depth N) x' ->
  forall b, b < F_trees M -> forall n, In n (log M (rls data Sv x) m depth N b) ->
  dec_obs Sv x (row_of M b) n = dec_obs Sv x' (row_of M b) n.
Proof.
  intros H b Hb n Hn. destruct (inS Sv (r_feat (row_of M b) n)) eqn:E; [|unfold dec_obs; now rewrite E].
  pose proof (inS_splits _ _ _ E) as [_ Hf].
  pose proof (proj1 (frule_inb M data true zinsert (dec_obs Sv x) (rls data Sv x) (Hrl data Sv x) m depth N eq_refl _ _) (H _ Hf)) as [_ Hr].
  specialize (Hr b Hb n Hn eq_refl). unfold lim, dec_obs in *. rewrite E in *. f_equal.
  destruct (qleb_spec (x (gf (row_of M b) n)) (r_thr (row_of M b) n)); symmetry; [apply qleb_true|apply qleb_false]; assumption.
Qed.

Lemma rule_guarantee :
  in_rule Sv (snd (fst (compute_sdp_rule_weights M data y N depth m classifier t0 t1 Sv x yx))) x' ->
  compute_sdp_rule_weights M data y N depth m classifier t0 t1 Sv x' yx =
  compute_sdp_rule_weights M data y N depth m classifier t0 t1 Sv x yx /\
  compute_sdp_rf M data y N depth m classifier t0 t1 Sv x' yx =
  compute_sdp_rf M data y N depth m classifier t0 t1 Sv x yx.
Proof.
  intro H. rewrite p_eq in H.
  assert (E : compute_sdp_rule_weights M data y N depth m classifier t0 t1 Sv x' yx =
              compute_sdp_rule_weights M data y N depth m classifier t0 t1 Sv x yx).
  { symmetry. apply (forest_rule_two M data true zinsert (dec_obs Sv x) (dec_obs Sv x') (rls data Sv x) (rls data Sv x')
            (Hrl data Sv x) (Hrl data Sv x')). now apply rule_same_dec. }
  split; [exact E|]. rewrite <- !rule_prob_statement. now rewrite E.
Qed.
End TwoObs.

(** * Any traversal: bounds *)
Section AnyF.
Variable M : fmem.
Variable data : nat -> pt.
Variable cut : bool.
Variable ins : Z -> list Z -> list Z.
Hypothesis ins_in : forall a b l, In a (ins b l) <-> a = b \/ In a l.
Variable dec : row -> Z -> option bool.
Variable step : row -> Z -> rfst -> rfst.
Hypothesis Hstep : forall R n s, step R n s = gstep R data cut ins (dec R) n s.
Variables m depth N : nat.
Notation w := (fw M step m depth N).
Notation se := (sel M step m depth N).

Lemma any_bounds ind lo hi : (forall i, i < N -> (lo <= ind i <= hi)%Q) ->
  (lo * total N w <= forest M step m depth N ind <= hi * total N w)%Q.
Proof. intro H. rewrite (forest_eq M data cut ins dec step Hstep). now apply weighted_bounds. Qed.
Lemma any_total_le1 : (total N w <= 1)%Q.
Proof. apply weight_total_le1; [apply (sel_nodup M data cut ins dec step Hstep)|apply (sel_lt M data cut ins dec step Hstep)]. Qed.
Lemma any_total_1 : 0 < F_trees M -> (forall b, b < F_trees M -> se b <> []) -> (total N w == 1)%Q.
Proof.
  intros. apply weight_total_1; auto;
    [apply (sel_nodup M data cut ins dec step Hstep)|apply (sel_lt M data cut ins dec step Hstep)].
Qed.
Lemma any_weight_ge i : 0 < F_trees M -> i < N ->
  (forall b, survives (row_of M b) data (dec (row_of M b)) depth i) -> (1 / Qn N <= w i)%Q.
Proof.
  intros HT Hi H. apply weight_ge; auto;
    [apply (sel_nodup M data cut ins dec step Hstep)|apply (sel_lt M data cut ins dec step Hstep)|].
  intros b _. apply (sel_superset M data cut ins ins_in dec step Hstep); auto.
Qed.
Lemma any_01 ind : (forall i, i < N -> (0 <= ind i <= 1)%Q) -> (0 <= forest M step m depth N ind <= 1)%Q.
Proof. intro H. pose proof (any_bounds ind 0 1 H). pose proof any_total_le1. lra. Qed.
Lemma any_filter b : exists p, se b = filter p (seq 0 N).
Proof. unfold sel, selected. rewrite (run_g M data cut ins dec step Hstep). rewrite run_in. eauto. Qed.

(** all samples selected: equal weights *)
Lemma any_full : (forall b i, i < N -> In i (se b)) -> forall b, se b = seq 0 N.
Proof.
  intros H b. destruct (any_filter b) as [p Hp]. rewrite Hp.
  rewrite (filter_ext_in' p (fun _ => true)).
  - apply filter_true. reflexivity.
  - intros i Hi. apply in_seq in Hi. specialize (H b i ltac:(lia)). rewrite Hp in H. apply filter_In in H. apply H.
Qed.
Lemma any_uniform ind : 0 < F_trees M -> (forall b i, i < N -> In i (se b)) ->
  (forest M step m depth N ind == sumf ind (seq 0 N) / Qn N)%Q.
Proof.
  intros HT H. rewrite (forest_eq M data cut ins dec step Hstep).
  assert (E : forall i, i < N -> (w i == / Qn N)%Q).
  { intros i Hi. unfold fw, weight.
    rewrite (sumf_ext _ (fun _ : nat => 1 / Qn (F_trees M * N))%Q).
    - rewrite sumf_const, seq_length, Qn_mult. field. split; apply Qn_neq0; lia.
    - intros b _. unfold wt. rewrite (any_full H b), seq_length.
      destruct (memb_spec i (seq 0 N)) as [_|Hn]; [reflexivity|]. exfalso. apply Hn, in_seq. lia. }
  unfold Qdiv. rewrite <- sumf_scal_r. apply sumf_ext. intros i Hi. apply in_seq in Hi. rewrite E by lia. lra.
Qed.
End AnyF.

Lemma sumf_frequency N (e : nat -> bool) : (sumf (fun i => Qb (e i)) (seq 0 N) / Qn N == frequency N e)%Q.
Proof.
  unfold frequency. rewrite <- (Qmult_1_r (Qn (length _))), <- sumf_const, sumf_filter.
  apply Qmult_comp; [|reflexivity]. apply sumf_ext. intros i _. destruct (e i); reflexivity.
Qed.

Section Statements2.
Variable M : fmem.
Variable data : nat -> pt.
Variable y : nat -> Q.
Variable N : nat.
Variables (depth m : nat) (classifier : bool) (t0 t1 : Q).
Variables (Sv : list nat) (x : pt) (yx : Q).

Lemma nothing_statement (e : nat -> bool) : 0 < F_trees M ->
  (forall i, e i = true <-> same_decision classifier yx t0 t1 y i) ->
  (compute_sdp_rf M data y N depth m classifier t0 t1 [] x yx == frequency N e)%Q /\
  (compute_exp_rf M data y N depth m [] x == sumf y (seq 0 N) / Qn N)%Q /\
  (forall t, compute_cdf_rf M data y N depth m [] x t == frequency N (fun i => qleb (y i) t))%Q.
Proof.
  intros HT He.
  assert (A : forall b i, i < N -> In i (sel M (rfs data [] x) m depth N b)).
  { intros b i Hi. rewrite <- sel_rule_rf. apply agree_selected; [exact Hi|]. intros f []. }
  split; [|split].
  - unfold compute_sdp_rf. change (fun R => rf_step R [] x data) with (rfs data [] x).
    rewrite (any_uniform M data false zinsert (dec_obs [] x) _ (Hrf data [] x)) by assumption.
    rewrite <- sumf_frequency. apply Qmult_comp; [|reflexivity]. apply sumf_ext. intros i _.
    destruct (ind_same_Qb classifier yx t0 t1 y i) as [b [H1 [_ H3]]]. rewrite H1. specialize (He i).
    destruct b, (e i); try reflexivity; exfalso; intuition congruence.
  - unfold compute_exp_rf. change (fun R => rf_step R [] x data) with (rfs data [] x).
    rewrite (any_uniform M data false zinsert (dec_obs [] x) _ (Hrf data [] x)) by assumption. reflexivity.
  - intro t. unfold compute_cdf_rf. change (fun R => vec_step R [] x data) with (vcs data [] x).
    rewrite (any_uniform M data true vins (dec_obs [] x) _ (Hvc data [] x)).
    + rewrite <- sumf_frequency. reflexivity.
    + exact HT.
    + intros b i Hi. apply (sel_cell M data N depth m [] x b i Hi). apply agree_same_cell. intros f [].
Qed.

Lemma exp_statement lo hi : 0 < F_trees M ->
  (forall b, b < F_trees M -> selected M (fun R => rf_step R Sv x data) m depth N b <> []) ->
  (forall i, i < N -> (lo <= y i <= hi)%Q) ->
  (lo <= compute_exp_rf M data y N depth m Sv x <= hi)%Q.
Proof.
  intros HT Hs Hy. unfold compute_exp_rf. change (fun R => rf_step R Sv x data) with (rfs data Sv x) in *.
  pose proof (any_bounds M data false zinsert (dec_obs Sv x) _ (Hrf data Sv x) m depth N (ind_exp y) lo hi Hy) as H.
  rewrite (any_total_1 M data false zinsert (dec_obs Sv x) _ (Hrf data Sv x) m depth N HT Hs) in H. lra.
Qed.

Lemma ind_cdf_01 t i : (0 <= ind_cdf t y i <= 1)%Q.
Proof. apply Qb_bounds. Qed.
Lemma cdf_bounds t : (0 <= compute_cdf_rf M data y N depth m Sv x t <= 1)%Q.
Proof. apply (any_01 M data true vins (dec_obs Sv x) _ (Hvc data Sv x)). intros. apply ind_cdf_01. Qed.
Lemma cdf_monotone t t' : (t <= t')%Q ->
  (compute_cdf_rf M data y N depth m Sv x t <= compute_cdf_rf M data y N depth m Sv x t')%Q.
Proof.
  intro Ht. unfold compute_cdf_rf. change (fun R => vec_step R Sv x data) with (vcs data Sv x).
  rewrite !(forest_eq M data true vins (dec_obs Sv x) _ (Hvc data Sv x)). apply sumf_le. intros i _.
  assert (0 <= fw M (vcs data Sv x) m depth N i)%Q by apply weight_nonneg.
  unfold ind_cdf. destruct (qleb_spec (y i) t), (qleb_spec (y i) t'); cbn [Qb]; lra.
Qed.
Lemma cdf_ends t : 0 < F_trees M ->
  (forall b, b < F_trees M -> selected M (fun R => vec_step R Sv x data) m depth N b <> []) ->
  ((forall i, i < N -> (y i <= t)%Q) -> (compute_cdf_rf M data y N depth m Sv x t == 1)%Q) /\
  ((forall i, i < N -> (t < y i)%Q) -> (compute_cdf_rf M data y N depth m Sv x t == 0)%Q).
Proof.
  intros HT Hs. unfold compute_cdf_rf. change (fun R => vec_step R Sv x data) with (vcs data Sv x) in *.
  pose proof (any_total_1 M data true vins (dec_obs Sv x) _ (Hvc data Sv x) m depth N HT Hs) as E.
  split; intro H.
  - pose proof (any_bounds M data true vins (dec_obs Sv x) _ (Hvc data Sv x) m depth N (ind_cdf t y) 1 1) as B.
    rewrite E in B. assert (forall i, i < N -> (1 <= ind_cdf t y i <= 1)%Q); [|specialize (B H0); lra].
    intros i Hi. unfold ind_cdf. destruct (qleb_spec (y i) t); cbn [Qb]; [lra|]. specialize (H i Hi). lra.
  - pose proof (any_bounds M data true vins (dec_obs Sv x) _ (Hvc data Sv x) m depth N (ind_cdf t y) 0 0) as B.
    rewrite E in B. assert (forall i, i < N -> (0 <= ind_cdf t y i <= 0)%Q); [|specialize (B H0); lra].
    intros i Hi. unfold ind_cdf. destruct (qleb_spec (y i) t); cbn [Qb]; [|lra]. specialize (H i Hi). lra.
Qed.

(** the routines returning a rule give the numbers of the plain ones, and the
    rule and weights do not depend on the decision counted *)
Lemma rule_family down up :
  fst (fst (compute_ddp_rule_weights M data y N depth m classifier t0 t1 Sv x yx)) =
    compute_ddp_rf M data y N depth m classifier t0 t1 Sv x yx /\
  fst (fst (compute_cdp_rule_weights M data y N depth m classifier Sv x yx down up)) =
    compute_cdp_rf M data y N depth m classifier Sv x yx down up /\
  (let S := compute_sdp_rule_weights M data y N depth m classifier t0 t1 Sv x yx in
   let D := compute_ddp_rule_weights M data y N depth m classifier t0 t1 Sv x yx in
   let C := compute_cdp_rule_weights M data y N depth m classifier Sv x yx down up in
   snd (fst D) = snd (fst S) /\ snd (fst C) = snd (fst S) /\ snd D = snd S /\ snd C = snd S).
Proof.
  assert (P : forall ind, fst (fst (forest_rule M (rls data Sv x) m depth N ind)) = forest M (rfs data Sv x) m depth N ind).
  { intro ind. rewrite (forest_rule_prob M data true zinsert (dec_obs Sv x) _ (Hrl data Sv x)). apply forest_rule_rf. }
  split; [apply P|]. split; [apply P|]. cbn zeta.
  unfold compute_sdp_rule_weights, compute_ddp_rule_weights, compute_cdp_rule_weights.
  change (fun R => rule_step R Sv x data) with (rls data Sv x).
  rewrite !(forest_rule_rule M data true zinsert (dec_obs Sv x) _ (Hrl data Sv x)).
  repeat split;
  match goal with |- snd (forest_rule _ _ _ _ _ ?a) = snd (forest_rule _ _ _ _ _ ?b) =>
    pose proof (forest_rule_eq M data true zinsert (dec_obs Sv x) _ (Hrl data Sv x) m depth N a) as H1;
    pose proof (forest_rule_eq M data true zinsert (dec_obs Sv x) _ (Hrl data Sv x) m depth N b) as H2;
    destruct (forest_rule _ _ _ _ _ a) as [[? ?] ?]; destruct (forest_rule _ _ _ _ _ b) as [[? ?] ?]
  end; cbn [snd]; destruct H1 as [_ [_ ->]]; destruct H2 as [_ [_ ->]]; reflexivity.
Qed.

(** vectors against sets *)
Lemma vec_agrees : (forall b, b < F_trees M ->
     m <= length (selected M (fun R => rule_step R Sv x data) m depth N b) \/
     m <= length (selected M (fun R => vec_step R Sv x data) m depth N b)) ->
  forall ind, forest M (fun R => vec_step R Sv x data) m depth N ind =
              forest M (fun R => rf_step R Sv x data) m depth N ind.
Proof.
  intros H ind. change (fun R => vec_step R Sv x data) with (vcs data Sv x) in *.
  change (fun R => rule_step R Sv x data) with (rls data Sv x) in *.
  change (fun R => rf_step R Sv x data) with (rfs data Sv x).
  unfold forest. apply fold_left_ext_in. intros a b Hb. apply in_seq in Hb. f_equal.
  transitivity (sel M (rls data Sv x) m depth N b); [|apply (sel_rule_rf M data N depth m Sv x b)].
  apply (sel_vec_eq M data N depth m Sv x b). apply H. lia.
Qed.
End Statements2.

(** * Boxes *)
Section Boxes.
Variable M : fmem.
Variable data : nat -> pt.
Variable y : nat -> Q.
Variable N : nat.
Variables (depth m : nat) (classifier : bool) (t0 t1 : Q).
Variables (Sv : list nat) (x : pt) (yx : Q) (cond : rule).

Definition cds (R : row) := cond_step R Sv x data cond.
Definition its (R : row) := intv_step R Sv data cond.
Definition Hcd : forall R n s, cds R n s = gstep R data true zinsert (dec_cond Sv x cond R) n s :=
  fun R n s => cond_step_g Sv x data cond R n s.
Definition Hit : forall R n s, its R n s = gstep R data true zinsert (dec_intv Sv cond R) n s :=
  fun R n s => intv_step_g Sv data cond R n s.

Lemma box_ok R i n : in_box Sv cond (data i) -> inS Sv (r_feat R n) = false ->
  ok R data (dec_box cond R) i n = true.
Proof.
  intros Hb E. unfold ok, dec_box.
  destruct (Z.leb_spec 0 (r_feat R n)) as [H0|]; [|reflexivity]. cbn [andb].
  assert (Hn : ~ In (gf R n) Sv).
  { intro Hi. assert (inS Sv (r_feat R n) = true); [|congruence].
    apply inS_true. exists (gf R n). split; [unfold gf; rewrite Z2Nat.id by lia; reflexivity|exact Hi]. }
  specialize (Hb _ Hn). destruct (qleb_spec (snd (cond (gf R n))) (r_thr R n)) as [H1|H1].
  - apply qleb_true. lra.
  - destruct (qltb_spec (r_thr R n) (fst (cond (gf R n)))) as [H2|H2]; [|reflexivity]. apply qltb_true. lra.
Qed.

Lemma cond_survives R i : agree_on Sv x (data i) -> in_box Sv cond (data i) ->
  survives R data (dec_cond Sv x cond R) depth i.
Proof.
  intros Ha Hb k n Hk _. unfold ok, dec_cond. destruct (inS Sv (r_feat R n)) eqn:E.
  - pose proof (inS_splits R Sv n E) as [_ Hf]. unfold dec_obs. rewrite E. specialize (Ha _ Hf).
    destruct (qleb_spec (x (gf R n)) (r_thr R n)); [apply qleb_true|apply qltb_true]; lra.
  - now apply box_ok.
Qed.
Lemma intv_survives R i : in_box Sv cond (data i) -> survives R data (dec_intv Sv cond R) depth i.
Proof.
  intros Hb k n Hk _. unfold ok, dec_intv. destruct (inS Sv (r_feat R n)) eqn:E; [reflexivity|]. now apply box_ok.
Qed.

Lemma cond_weights : 0 < F_trees M -> forall i, i < N -> agree_on Sv x (data i) -> in_box Sv cond (data i) ->
  (1 / Qn N <= snd (compute_ddp_cond_weights M data y N depth m classifier t0 t1 Sv x yx cond) i)%Q /\
  (forall down up, 1 / Qn N <= snd (compute_cdp_cond_weights M data y N depth m classifier Sv x yx cond down up) i)%Q.
Proof.
  intros HT i Hi Ha Hb.
  assert (H : (1 / Qn N <= fw M cds m depth N i)%Q).
  { apply (any_weight_ge M data true zinsert zinsert_in (dec_cond Sv x cond) _ Hcd); auto. intro b. now apply cond_survives. }
  split; [|intros down up]; eapply Qle_trans; try exact H; apply Qle_lteq; right; symmetry;
    apply (forest_rule_weights M data true zinsert (dec_cond Sv x cond) _ Hcd).
Qed.
Lemma intv_weights : 0 < F_trees M -> forall i, i < N -> in_box Sv cond (data i) ->
  (1 / Qn N <= snd (compute_ddp_intv_weights M data y N depth m classifier t0 t1 Sv yx cond) i)%Q /\
  (1 / Qn N <= snd (compute_cdp_intv_weights M data y N depth m classifier t0 t1 Sv yx cond) i)%Q.
Proof.
  intros HT i Hi Hb.
  assert (H : (1 / Qn N <= fw M its m depth N i)%Q).
  { apply (any_weight_ge M data true zinsert zinsert_in (dec_intv Sv cond) _ Hit); auto. intro b. now apply intv_survives. }
  split; eapply Qle_trans; try exact H; apply Qle_lteq; right; symmetry;
    apply (forest_rule_weights M data true zinsert (dec_intv Sv cond) _ Hit).
Qed.

Lemma cond_weights_total (ind : nat -> Q) w :
  w = snd (forest_rule M cds m depth N ind) \/ w = snd (forest_rule M its m depth N ind) ->
  (forall i, (0 <= w i)%Q) /\ (total N w <= 1)%Q.
Proof.
  intros [-> | ->]; (split; [intro i|]).
  - rewrite (forest_rule_weights M data true zinsert (dec_cond Sv x cond) _ Hcd). apply weight_nonneg.
  - rewrite (total_ext N _ (fw M cds m depth N)) by apply (forest_rule_weights M data true zinsert (dec_cond Sv x cond) _ Hcd).
    apply (any_total_le1 M data true zinsert (dec_cond Sv x cond) _ Hcd).
  - rewrite (forest_rule_weights M data true zinsert (dec_intv Sv cond) _ Hit). apply weight_nonneg.
  - rewrite (total_ext N _ (fw M its m depth N)) by apply (forest_rule_weights M data true zinsert (dec_intv Sv cond) _ Hit).
    apply (any_total_le1 M data true zinsert (dec_intv Sv cond) _ Hit).
Qed.

(** a box wider than every threshold changes nothing *)
Lemma wide_box :
  (forall b n, b < F_trees M -> (0 <= r_feat (row_of M b) n)%Z ->
     let f := Z.to_nat (r_feat (row_of M b) n) in
     (fst (cond f) <= r_thr (row_of M b) n)%Q /\ (r_thr (row_of M b) n < snd (cond f))%Q) ->
  compute_ddp_cond_weights M data y N depth m classifier t0 t1 Sv x yx cond =
  compute_ddp_rule_weights M data y N depth m classifier t0 t1 Sv x yx /\
  (forall down up, compute_cdp_cond_weights M data y N depth m classifier Sv x yx cond down up =
  compute_cdp_rule_weights M data y N depth m classifier Sv x yx down up).
Proof.
  intro H.
  assert (E : forall b, b < F_trees M -> forall n, In n (log M (rls data Sv x) m depth N b) ->
            dec_obs Sv x (row_of M b) n = dec_cond Sv x cond (row_of M b) n).
  { intros b Hb n _. unfold dec_cond. destruct (inS Sv _) eqn:E; [reflexivity|]. unfold dec_obs. rewrite E.
    unfold dec_box. destruct (Z.leb_spec 0 (r_feat (row_of M b) n)) as [H0|]; [|reflexivity]. cbn [andb].
    specialize (H b n Hb H0). cbn zeta in H. unfold gf. destruct H as [H1 H2].
    destruct (qleb_spec (snd (cond (Z.to_nat (r_feat (row_of M b) n)))) (r_thr (row_of M b) n)); [exfalso; lra|].
    destruct (qltb_spec (r_thr (row_of M b) n) (fst (cond (Z.to_nat (r_feat (row_of M b) n))))); [exfalso; lra|reflexivity]. }
  split; [|intros down up]; symmetry;
  apply (forest_rule_two M data true zinsert (dec_obs Sv x) (dec_cond Sv x cond) _ _ (Hrl data Sv x) Hcd); exact E.
Qed.

(** cdp and ddp on a box, regression *)
Lemma intv_complement : classifier = false ->
  (fst (fst (compute_cdp_intv_weights M data y N depth m classifier t0 t1 Sv yx cond)) +
   fst (fst (compute_ddp_intv_weights M data y N depth m classifier t0 t1 Sv yx cond)) ==
   total N (snd (compute_ddp_intv_weights M data y N depth m classifier t0 t1 Sv yx cond)))%Q.
Proof.
  intros ->. unfold compute_cdp_intv_weights, compute_ddp_intv_weights.
  change (fun R => intv_step R Sv data cond) with its.
  rewrite !(forest_rule_prob M data true zinsert (dec_intv Sv cond) _ Hit).
  rewrite !(forest_eq M data true zinsert (dec_intv Sv cond) _ Hit).
  rewrite <- sumf_plus. unfold total. apply sumf_ext. intros i _.
  rewrite (forest_rule_weights M data true zinsert (dec_intv Sv cond) _ Hit).
  unfold ind_cdp_intv, ind_diff. lra.
Qed.
Lemma intv_clash : classifier = true ->
  fst (fst (compute_cdp_intv_weights M data y N depth m classifier t0 t1 Sv yx cond)) =
  fst (fst (compute_ddp_intv_weights M data y N depth m classifier t0 t1 Sv yx cond)).
Proof. intros ->. reflexivity. Qed.
End Boxes.

Lemma complement_one M data y N depth m classifier t0 t1 Sv x yx :
  0 < F_trees M ->
  (forall b, b < F_trees M -> selected M (fun R => rf_step R Sv x data) m depth N b <> []) ->
  (compute_sdp_rf M data y N depth m classifier t0 t1 Sv x yx +
   compute_ddp_rf M data y N depth m classifier t0 t1 Sv x yx == 1)%Q.
Proof.
  intros HT Hs. rewrite complement_statement.
  rewrite (total_ext N _ (fw M (rls data Sv x) m depth N)) by apply w_eq.
  apply fw_total_1; [exact HT|]. intros b Hb. rewrite sel_rule_rf. now apply Hs.
Qed.

Lemma enough_in_cell M data N depth m Sv x b l :
  NoDup l -> (forall i, In i l -> i < N /\ same_cell (row_of M b) Sv depth x (data i)) ->
  m <= length l -> m <= length (selected M (fun R => rf_step R Sv x data) m depth N b).
Proof.
  intros Hn Hl Hm. eapply Nat.le_trans; [exact Hm|]. apply NoDup_incl_length; [exact Hn|].
  intros i Hi. destruct (Hl i Hi) as [H1 H2].
  pose proof (sel_cell M data N depth m Sv x b i H1 H2) as [H _]. rewrite sel_rule_rf in H. exact H.
Qed.

Lemma v0_is_sdp M data y N depth m Sv x yx t0 t1 :
  (forall b, b < F_trees M ->
     m <= length (selected M (fun R => rule_step R Sv x data) m depth N b) \/
     m <= length (selected M (fun R => vec_step R Sv x data) m depth N b)) ->
  compute_sdp_rf_v0 M data y N depth m true t1 Sv x yx =
  compute_sdp_rf M data y N depth m true t0 t1 Sv x yx.
Proof. intro H. unfold compute_sdp_rf_v0. rewrite (vec_agrees M data N depth m Sv x H). reflexivity. Qed.

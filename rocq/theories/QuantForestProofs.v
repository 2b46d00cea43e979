(** Proofs about the traversal that undoes a too small step and the estimators
    built on it. *)
From Coq Require Import Sorted Permutation.
From Verif Require Import Base TreeModel TreeSpec TreeProofs RfModel RfSpec SearchProofs RfProofs RfTreeProofs
  QuantModel QuantSpec QuantProofs.

(** * The traversal *)
Definition undone (step : Z -> rfst -> rfst) (n : Z) (st : rfst) : rfst :=
  mkSt (st_child (step n st)) (st_in st) (st_part st) (st_log (step n st)).

Lemma undo_loop_inv step m (I : rfst -> Prop) nodes :
  (forall n s, In n nodes -> I s -> m <= length (st_in (step n s)) -> I (step n s)) ->
  (forall n s, In n nodes -> I s -> length (st_in (step n s)) < m -> I (undone step n s)) ->
  forall st, I st -> I (undo_loop step m nodes st).
Proof.
  intros H1 H2. induction nodes as [|n nodes IH]; intros st H; cbn [undo_loop]; [exact H|].
  destruct (Nat.ltb_spec (length (st_in (step n st))) m) as [Hlt|Hge].
  - apply H2; [now left|exact H|exact Hlt].
  - apply IH; [intros; apply H1; auto; now right|intros; apply H2; auto; now right|].
    apply H1; [now left|exact H|exact Hge].
Qed.
Lemma undo_levels_inv step m (I : rfst -> Prop) depth :
  (forall n s, I s -> m <= length (st_in (step n s)) -> I (step n s)) ->
  (forall n s, I s -> length (st_in (step n s)) < m -> I (undone step n s)) ->
  forall nodes st, I st -> I (undo_levels step m depth nodes st).
Proof.
  intros H1 H2. induction depth as [|k IH]; intros nodes st H; cbn [undo_levels]; [exact H|].
  apply IH. apply undo_loop_inv; auto.
Qed.
Lemma undo_loop_ext s1 s2 m nodes st : (forall n s, s1 n s = s2 n s) -> undo_loop s1 m nodes st = undo_loop s2 m nodes st.
Proof.
  intro H. revert st. induction nodes as [|n nodes IH]; intro st; cbn [undo_loop]; [reflexivity|].
  rewrite H. destruct (_ <? m); [reflexivity|apply IH].
Qed.
Lemma undo_levels_ext s1 s2 m depth : (forall n s, s1 n s = s2 n s) ->
  forall nodes st, undo_levels s1 m depth nodes st = undo_levels s2 m depth nodes st.
Proof.
  intro H. induction depth as [|k IH]; intros nodes st; cbn [undo_levels]; [reflexivity|].
  rewrite (undo_loop_ext s1 s2) by assumption. apply IH.
Qed.
Lemma undo_run_ext s1 s2 m depth N : (forall n s, s1 n s = s2 n s) -> undo_run s1 m depth N = undo_run s2 m depth N.
Proof. intro H. unfold undo_run. now apply undo_levels_ext. Qed.

Section Undo.
Variable R : row.
Variable data : nat -> pt.
Variable cut : bool.
Variable ins : Z -> list Z -> list Z.
Hypothesis ins_in : forall a b l, In a (ins b l) <-> a = b \/ In a l.
Variable dec : Z -> option bool.
Variables m depth N : nat.
Notation step := (gstep R data cut ins dec).

Lemma undo_filter : exists p, st_in (undo_run step m depth N) = filter p (seq 0 N).
Proof.
  unfold undo_run. apply (undo_levels_inv step m (fun s => exists p, st_in s = filter p (seq 0 N))).
  - intros n s [p Hp] _. rewrite gstep_in, Hp, filter_filter. eauto.
  - intros n s [p Hp] _. cbn. eauto.
  - exists (fun _ => true). cbn. symmetry. now apply filter_true.
Qed.
Lemma undo_nodup : NoDup (st_in (undo_run step m depth N)).
Proof. destruct undo_filter as [p ->]. apply NoDup_filter, seq_NoDup. Qed.
Lemma undo_lt i : In i (st_in (undo_run step m depth N)) -> i < N.
Proof. destruct undo_filter as [p ->]. intro H. apply filter_In in H. destruct H as [H _]. apply in_seq in H. lia. Qed.

Lemma undo_enough : Nat.min m N <= length (st_in (undo_run step m depth N)).
Proof.
  unfold undo_run. apply (undo_levels_inv step m (fun s => Nat.min m N <= length (st_in s))).
  - intros n s _ H. lia.
  - intros n s H _. exact H.
  - cbn. rewrite seq_length. lia.
Qed.

(** nodes read are nodes met *)
Lemma undo_loop_bounded K nodes st :
  (forall n, In n nodes -> bounded R dec (S K) n) ->
  (forall c, In c (st_child st) -> bounded R dec (S (S K)) c) ->
  forall c, In c (st_child (undo_loop step m nodes st)) -> bounded R dec (S (S K)) c.
Proof.
  intros Hn Hc.
  assert (S1 : forall n s, In n nodes -> (forall c, In c (st_child s) -> bounded R dec (S (S K)) c) ->
    forall c, In c (st_child (step n s)) -> bounded R dec (S (S K)) c).
  { intros n s Hin Hs c H. apply (gstep_child R data cut ins ins_in dec n s c) in H. destruct H as [H|H]; [|auto].
    destruct (Hn n Hin) as [j [Hj Hm]]. exists (S j). split; [lia|]. now apply (gm_next R dec j n). }
  apply (undo_loop_inv step m (fun s => forall c, In c (st_child s) -> bounded R dec (S (S K)) c)).
  - intros n s H1 H2 _. exact (S1 n s H1 H2).
  - intros n s H1 H2 _. exact (S1 n s H1 H2).
  - exact Hc.
Qed.

Lemma undo_loop_keeps K nodes st i :
  (forall n, In n nodes -> bounded R dec K n) -> survives R data dec K i ->
  In i (st_in st) -> In i (st_in (undo_loop step m nodes st)).
Proof.
  intros Hn Hs. apply (undo_loop_inv step m (fun s => In i (st_in s))).
  - intros n s Hin H _. rewrite gstep_in. apply filter_In. split; [exact H|].
    destruct (Hn n Hin) as [j [Hj Hm]]. now apply (Hs j).
  - intros n s _ H _. exact H.
Qed.

Lemma undo_levels_keeps i d : forall K nodes st,
  (forall n, In n nodes -> bounded R dec (S K) n) ->
  (forall c, In c (st_child st) -> bounded R dec (S K) c) ->
  survives R data dec (K + d) i -> In i (st_in st) ->
  In i (st_in (undo_levels step m d nodes st)).
Proof.
  induction d as [|d IH]; intros K nodes st Hn Hc Hs Hi; cbn [undo_levels]; [exact Hi|].
  assert (Hc' : forall c, In c (st_child (undo_loop step m nodes st)) -> bounded R dec (S (S K)) c).
  { apply undo_loop_bounded; [exact Hn|]. intros c H. destruct (Hc c H) as [j [? ?]]. exists j. split; [lia|assumption]. }
  apply (IH (S K)); auto.
  - intros k n Hk. apply Hs. lia.
  - apply (undo_loop_keeps (S K)); auto. intros k n Hk. apply Hs. lia.
Qed.

Lemma undo_superset i : i < N -> survives R data dec depth i -> In i (st_in (undo_run step m depth N)).
Proof.
  intros Hi Hs. apply (undo_levels_keeps i depth 0); auto.
  - intros n [<-|[]]. exists 0. split; [lia|constructor].
  - intros c [].
  - cbn. apply in_seq. lia.
Qed.

(** enough samples in the cell: nothing is undone *)
Definition cell_list (p : nat -> bool) : list nat := filter p (seq 0 N).

Lemma undo_loop_plain K nodes l st :
  (forall n, In n nodes -> bounded R dec K n) -> NoDup l -> m <= length l ->
  (forall i, In i l -> survives R data dec K i) -> (forall i, In i l -> In i (st_in st)) ->
  undo_loop step m nodes st = level_loop step 0 nodes st.
Proof.
  intros Hn Hnd Hm Hs. revert st. induction nodes as [|n nodes IH]; intros st Hi; cbn [undo_loop level_loop]; [reflexivity|].
  assert (Hi' : forall i, In i l -> In i (st_in (step n st))).
  { intros i Hil. rewrite gstep_in. apply filter_In. split; [auto|].
    destruct (Hn n (or_introl eq_refl)) as [j [Hj Hg]]. now apply (Hs i Hil j). }
  assert (L : length l <= length (st_in (step n st))) by (apply NoDup_incl_length; [exact Hnd|exact Hi']).
  destruct (Nat.ltb_spec (length (st_in (step n st))) m) as [C|C]; [lia|].
  destruct (Nat.ltb_spec (length (st_in (step n st))) 0) as [D|D]; [lia|].
  apply IH; [intros; apply Hn; now right|exact Hi'].
Qed.
Lemma undo_levels_plain l d : NoDup l -> m <= length l -> forall K nodes st,
  (forall n, In n nodes -> bounded R dec (S K) n) ->
  (forall c, In c (st_child st) -> bounded R dec (S K) c) ->
  (forall i, In i l -> survives R data dec (K + d) i) -> (forall i, In i l -> In i (st_in st)) ->
  undo_levels step m d nodes st = all_levels step 0 d nodes st.
Proof.
  intros Hnd Hm. induction d as [|d IH]; intros K nodes st Hn Hc Hs Hi; cbn [undo_levels all_levels]; [reflexivity|].
  assert (Hs' : forall i, In i l -> survives R data dec (S K) i) by (intros i Hil k n Hk; apply (Hs i Hil); lia).
  assert (Hc' : forall c, In c (st_child (undo_loop step m nodes st)) -> bounded R dec (S (S K)) c).
  { apply undo_loop_bounded; [exact Hn|]. intros c H. destruct (Hc c H) as [j [? ?]]. exists j. split; [lia|assumption]. }
  assert (Hi' : forall i, In i l -> In i (st_in (undo_loop step m nodes st))).
  { intros i Hil. apply (undo_loop_keeps (S K)); auto. }
  rewrite (undo_loop_plain (S K) nodes l st Hn Hnd Hm Hs' Hi) in *.
  apply (IH (S K)); auto. intros i Hil. replace (S K + d) with (K + S d) by lia. auto.
Qed.

Lemma undo_exact l : NoDup l -> m <= length l -> (forall i, In i l <-> i < N /\ survives R data dec depth i) ->
  forall i, In i (st_in (undo_run step m depth N)) <-> In i l.
Proof.
  intros Hnd Hm Hl i.
  assert (E : undo_run step m depth N = run_tree step 0 depth N rule0).
  { unfold undo_run, run_tree. apply (undo_levels_plain l depth Hnd Hm 0).
    - intros n [<-|[]]. exists 0. split; [lia|constructor].
    - intros c [].
    - intros j Hj. now apply Hl in Hj.
    - intros j Hj. apply Hl in Hj. cbn. apply in_seq. lia. }
  rewrite E, Hl. apply run_in_exact; [exact ins_in|lia].
Qed.
End Undo.

(** * Two rows that agree on the nodes reached *)
Section TwoRows.
Variables R1 R2 : row.
Variable G : Z -> Prop.
Variable data : nat -> pt.
Variables (Sv : list nat) (x : pt).
Hypothesis G0 : G 0%Z.
Hypothesis Gl : forall n, G n -> G (r_left R1 n).
Hypothesis Gr : forall n, G n -> G (r_right R1 n).
Hypothesis El : forall n, G n -> r_left R1 n = r_left R2 n.
Hypothesis Er : forall n, G n -> r_right R1 n = r_right R2 n.
Hypothesis Ef : forall n, G n -> inS Sv (r_feat R1 n) = inS Sv (r_feat R2 n).
Hypothesis Es : forall n, G n -> inS Sv (r_feat R1 n) = true -> r_feat R1 n = r_feat R2 n /\ r_thr R1 n = r_thr R2 n.

Lemma vec_step_same n st : G n -> vec_step R1 Sv x data n st = vec_step R2 Sv x data n st.
Proof.
  intro H. rewrite !vec_step_g. unfold gstep, dec_obs. rewrite <- (Ef n H), <- (El n H), <- (Er n H).
  destruct (inS Sv (r_feat R1 n)) eqn:E; [|reflexivity]. destruct (Es n H E) as [E1 E2].
  unfold gf. rewrite <- E1, <- E2. reflexivity.
Qed.
Lemma vec_step_G n st : G n -> Forall G (st_child st) -> Forall G (st_child (vec_step R1 Sv x data n st)).
Proof.
  intros H Hs. rewrite Forall_forall in *. intros c Hc. rewrite vec_step_g in Hc.
  apply (gstep_child R1 data true vins vins_in) in Hc. destruct Hc as [[[-> _]|[-> _]]|Hc]; auto.
Qed.
Lemma undo_loop_same m nodes : Forall G nodes -> forall st, Forall G (st_child st) ->
  undo_loop (vec_step R1 Sv x data) m nodes st = undo_loop (vec_step R2 Sv x data) m nodes st /\
  Forall G (st_child (undo_loop (vec_step R1 Sv x data) m nodes st)).
Proof.
  induction 1 as [|n nodes Hn _ IH]; intros st Hs; cbn [undo_loop]; [auto|].
  rewrite <- (vec_step_same n st Hn). pose proof (vec_step_G n st Hn Hs) as Hc.
  destruct (_ <? m); [split; [reflexivity|exact Hc]|]. now apply IH.
Qed.
Lemma undo_run_same m depth N :
  undo_run (vec_step R1 Sv x data) m depth N = undo_run (vec_step R2 Sv x data) m depth N.
Proof.
  unfold undo_run. assert (H : forall nodes st, Forall G nodes -> Forall G (st_child st) ->
    undo_levels (vec_step R1 Sv x data) m depth nodes st = undo_levels (vec_step R2 Sv x data) m depth nodes st).
  { induction depth as [|d IH]; intros nodes st Hn Hs; cbn [undo_levels]; [reflexivity|].
    destruct (undo_loop_same m nodes Hn st Hs) as [E Hc]. rewrite <- E. now apply IH. }
  apply H; [|constructor]. constructor; [exact G0|constructor].
Qed.
End TwoRows.

(** * Selections and weights *)
Section Estimators.
Variable rows : nat -> row.
Variable T : nat.
Variable data : nat -> pt.
Variables (N depth m : nat) (Sv : list nat) (x : pt).
Notation us := (undo_selected rows data N depth m Sv x).

Lemma us_g b : us b = st_in (undo_run (gstep (rows b) data true vins (dec_obs Sv x (rows b))) m depth N).
Proof. unfold undo_selected. f_equal. apply undo_run_ext. intros. apply vec_step_g. Qed.
Lemma us_nodup b : NoDup (us b).
Proof. rewrite us_g. apply undo_nodup. Qed.
Lemma us_lt b i : In i (us b) -> i < N.
Proof. rewrite us_g. apply undo_lt. Qed.
Lemma us_enough b : Nat.min m N <= length (us b).
Proof. rewrite us_g. apply undo_enough. Qed.
Lemma us_cell b i : i < N -> same_cell (rows b) Sv depth x (data i) -> In i (us b).
Proof. intros Hi H. rewrite us_g. apply undo_superset; [apply vins_in|exact Hi|]. now apply survives_cell. Qed.
Lemma us_exact b l : NoDup l -> m <= length l ->
  (forall i, In i l <-> i < N /\ same_cell (rows b) Sv depth x (data i)) -> forall i, In i (us b) <-> In i l.
Proof.
  intros Hnd Hm Hl. rewrite us_g. apply undo_exact; [apply vins_in|exact Hnd|exact Hm|].
  intro i. rewrite Hl. now rewrite survives_cell.
Qed.

Notation w i := (weight T us i).

Lemma sel_weight_some i : (forall b, b < T -> us b <> []) -> 0 < T ->
  exists v, undo_weight rows T data N depth m Sv x i = Some v /\ (v == w i)%Q.
Proof.
  intros Hne HT. unfold undo_weight.
  assert (G : forall trees acc, (forall b, In b trees -> us b <> []) ->
    exists s, fold_left (fun acc b => match acc, tree_weight rows data N depth m Sv x i b with
                          | Some a, Some v => Some (a + v)%Q | _, _ => None end) trees (Some acc) = Some s /\
    (s == acc + sumf (fun b => Qb (memb i (us b)) * (1 / Qn (length (us b)))) trees)%Q).
  { induction trees as [|b trees IH]; intros acc Hb; cbn [fold_left sumf]; [exists acc; split; [reflexivity|lra]|].
    unfold tree_weight at 2. destruct (Nat.eqb_spec (length (us b)) 0) as [E|E].
    - exfalso. apply (Hb b (or_introl eq_refl)). now apply length_zero_iff_nil.
    - destruct (IH (acc + Qb (memb i (us b)) * (1 / Qn (length (us b))))%Q) as [s [H1 H2]]; [intros; apply Hb; now right|].
      exists s. split; [exact H1|]. rewrite H2. lra. }
  destruct (G (seq 0 T) 0%Q) as [s [-> Hs]]; [intros b Hb; apply Hne; apply in_seq in Hb; lia|].
  destruct (Nat.eqb_spec T 0) as [|_]; [lia|]. eexists. split; [reflexivity|].
  rewrite Hs, Qplus_0_l. unfold weight. unfold Qdiv at 1. rewrite <- sumf_scal_r. apply sumf_ext.
  intros b Hb. apply in_seq in Hb. unfold wt, Qb. assert (us b <> []) by (apply Hne; lia).
  assert (0 < length (us b)) by (destruct (us b); [congruence|cbn; lia]).
  destruct (memb i (us b)); [|lra]. rewrite Qn_mult. field. split; apply Qn_neq0; lia.
Qed.

Lemma weight_none i : (exists b, b < T /\ us b = []) -> undo_weight rows T data N depth m Sv x i = None.
Proof.
  intros [b [Hb Hs]]. unfold undo_weight.
  assert (G : forall trees acc, acc = None \/ In b trees -> 
    fold_left (fun acc b => match acc, tree_weight rows data N depth m Sv x i b with
                          | Some a, Some v => Some (a + v)%Q | _, _ => None end) trees acc = None).
  { induction trees as [|c trees IH]; intros acc H; cbn [fold_left].
    - destruct H as [H|[]]. exact H.
    - apply IH. destruct H as [->|[->|H]]; [now left| |now right]. left.
      unfold tree_weight. rewrite Hs. cbn. now destruct acc. }
  rewrite G; [reflexivity|]. right. apply in_seq. lia.
Qed.

Lemma weights_some : (forall b, b < T -> us b <> []) -> 0 < T ->
  exists l, undo_weights rows T data N depth m Sv x = Some l /\ length l = N /\
    forall i, i < N -> (nth i l 0 == w i)%Q.
Proof.
  intros Hne HT. unfold undo_weights.
  assert (G : forall is, exists l, fold_right (fun i acc => match undo_weight rows T data N depth m Sv x i, acc with
      | Some v, Some l => Some (v :: l) | _, _ => None end) (Some []) is = Some l /\ length l = length is /\
      forall k, k < length is -> (nth k l 0 == w (nth k is 0%nat))%Q).
  { induction is as [|i is IH]; cbn [fold_right]; [exists []; split; [reflexivity|split; [reflexivity|cbn; lia]]|].
    destruct IH as [l [-> [Hl Hk]]]. destruct (sel_weight_some i Hne HT) as [v [-> Hv]].
    exists (v :: l). split; [reflexivity|]. split; [cbn; congruence|]. intros k Hlt. cbn [length] in Hlt.
    destruct k as [|k]; cbn [nth]; [exact Hv|]. apply Hk. lia. }
  destruct (G (seq 0 N)) as [l [H1 [H2 H3]]]. rewrite seq_length in *. exists l. split; [exact H1|]. split; [exact H2|].
  intros i Hi. rewrite H3 by exact Hi. rewrite seq_nth by exact Hi. reflexivity.
Qed.

Lemma weights_none : 0 < N -> T = 0 \/ (exists b, b < T /\ us b = []) -> undo_weights rows T data N depth m Sv x = None.
Proof.
  intros HN H. unfold undo_weights.
  assert (E : forall i, undo_weight rows T data N depth m Sv x i = None).
  { intro i. destruct H as [->|H]; [reflexivity|]. now apply weight_none. }
  destruct (seq 0 N) as [|i l] eqn:Es; [pose proof (seq_length N 0) as L; rewrite Es in L; cbn in L; lia|].
  cbn [fold_right]. now rewrite E.
Qed.

Variable y : nat -> Q.

Lemma weighted_sum_eq a : (forall b, b < T -> us b <> []) -> 0 < T ->
  exists s, weighted_sum rows T data N depth m Sv x a = Some s /\ (s == sumf (fun i => w i * a i) (seq 0 N))%Q.
Proof.
  intros Hne HT. unfold weighted_sum. destruct (weights_some Hne HT) as [l [-> [Hl Hk]]].
  eexists. split; [reflexivity|].
  assert (G : forall is l, length l = length is -> (forall k, k < length is -> (nth k l 0 == w (nth k is 0%nat))%Q) ->
    (sumf (fun p => snd p * a (fst p)) (combine is l) == sumf (fun i => w i * a i) is)%Q).
  { induction is as [|i is IH]; intros l' Hl' Hk'; [reflexivity|]. destruct l' as [|v l']; [discriminate|].
    cbn [combine sumf fst snd]. rewrite IH; [|cbn in Hl'; congruence|].
    - pose proof (Hk' 0 ltac:(cbn; lia)) as H0. cbn in H0. rewrite H0. reflexivity.
    - intros k Hlt. apply (Hk' (S k)). cbn. lia. }
  apply G; [now rewrite seq_length|]. intros k Hlt. rewrite seq_length in Hlt. rewrite seq_nth by exact Hlt. now apply Hk.
Qed.

Lemma exp_eq : (forall b, b < T -> us b <> []) -> 0 < T ->
  exists s, compute_shaff_exp rows T data y N depth m Sv x = Some s /\ (s == sumf (fun i => w i * y i) (seq 0 N))%Q.
Proof.
  intros Hne HT. unfold compute_shaff_exp.
  assert (G : forall trees acc, (forall b, In b trees -> us b <> []) ->
    exists s, fold_left (fun acc b => match acc with
       | Some a => if length (us b) =? 0 then None else Some (a + sumf y (us b) / Qn (length (us b)))%Q
       | None => None end) trees (Some acc) = Some s /\
    (s == acc + sumf (fun b => sumf y (us b) / Qn (length (us b))) trees)%Q).
  { induction trees as [|b trees IH]; intros acc Hb; cbn [fold_left sumf]; [exists acc; split; [reflexivity|lra]|].
    destruct (Nat.eqb_spec (length (us b)) 0) as [E|E].
    - exfalso. apply (Hb b (or_introl eq_refl)). now apply length_zero_iff_nil.
    - destruct (IH (acc + sumf y (us b) / Qn (length (us b)))%Q) as [s [H1 H2]]; [intros; apply Hb; now right|].
      exists s. split; [exact H1|]. rewrite H2. lra. }
  destruct (G (seq 0 T) 0%Q) as [s [H1 Hs]]; [intros b Hb; apply Hne; apply in_seq in Hb; lia|].
  cbv zeta. rewrite H1. destruct (Nat.eqb_spec T 0) as [|_]; [lia|]. eexists. split; [reflexivity|].
  rewrite Hs, Qplus_0_l. unfold Qdiv at 1. rewrite <- sumf_scal_r.
  rewrite (sumf_ext (fun i => w i * y i)%Q (fun i => sumf (fun b => wt T (us b) i * y i)%Q (seq 0 T))).
  2:{ intros i _. unfold weight. now rewrite sumf_scal_r. }
  rewrite sumf_swap. apply sumf_ext. intros b Hb. apply in_seq in Hb.
  rewrite (sumf_sel T N y (us b) (us_nodup b) (us_lt b)).
  assert (us b <> []) by (apply Hne; lia). assert (0 < length (us b)) by (destruct (us b); [congruence|cbn; lia]).
  unfold Qdiv. rewrite <- !sumf_scal_r. apply sumf_ext. intros i _. unfold wt.
  destruct (memb i (us b)); [|lra]. rewrite Qn_mult. field. split; apply Qn_neq0; lia.
Qed.

(** ** Quantiles *)
Variable argsort : list Q -> list nat.
Hypothesis Hsort : sorting argsort.

Definition samples_of (l : list Q) : list (Q * Q) := combine (map y (seq 0 N)) l.

Lemma in_samples l p : length l = N -> In p (samples_of l) <-> exists i, i < N /\ p = (y i, nth i l 0%Q).
Proof.
  intro Hl. unfold samples_of.
  assert (L1 : length (map y (seq 0 N)) = N) by now rewrite map_length, seq_length.
  assert (L : length (combine (map y (seq 0 N)) l) = N) by (rewrite combine_length; lia).
  assert (E : forall i, i < N -> nth i (combine (map y (seq 0 N)) l) (y 0, 0%Q) = (y i, nth i l 0%Q)).
  { intros i Hi. rewrite combine_nth by lia. rewrite map_nth, seq_nth by exact Hi. reflexivity. }
  split.
  - intro H. destruct (In_nth _ p (y 0, 0%Q) H) as [i [Hi Ei]]. rewrite L in Hi. exists i. split; [exact Hi|].
    now rewrite <- Ei, E.
  - intros [i [Hi ->]]. rewrite <- E by exact Hi. apply nth_In. lia.
Qed.

Lemma quantile_unfold q r : compute_quantile rows T data y N depth m Sv x argsort q = Some r ->
  exists l, undo_weights rows T data N depth m Sv x = Some l /\
    weighted_percentile argsort (samples_of l) q = Some r.
Proof.
  unfold compute_quantile, samples_of. destruct (undo_weights _ _ _ _ _ _ _ _) as [l|]; [|discriminate]. eauto.
Qed.

Lemma nonempty_enough : 0 < m -> 0 < N -> forall b, us b <> [].
Proof. intros Hm HN b E. pose proof (us_enough b) as H. rewrite E in H. cbn in H. lia. Qed.

Lemma fair_samples l : length l = N -> (forall i, i < N -> (nth i l 0 == w i)%Q) -> fair (samples_of l).
Proof.
  intros Hl Hw p Hp. apply (in_samples l p Hl) in Hp. destruct Hp as [i [Hi ->]]. cbn [snd].
  rewrite (Hw i Hi). apply weight_nonneg.
Qed.

Lemma weighted_samples l p : 0 < T -> length l = N -> (forall i, i < N -> (nth i l 0 == w i)%Q) ->
  weighted (samples_of l) p <-> exists i, p = (y i, nth i l 0%Q) /\ exists b, b < T /\ In i (us b).
Proof.
  intros HT Hl Hw. unfold weighted. rewrite (in_samples l p Hl). split.
  - intros [[i [Hi ->]] Hp]. cbn [snd] in Hp. rewrite (Hw i Hi) in Hp. apply (weight_pos_iff T us i HT) in Hp. eauto.
  - intros [i [-> Hb]]. assert (Hi : i < N) by (destruct Hb as [b [_ Hb]]; now apply us_lt in Hb).
    split; [eauto|]. cbn [snd]. rewrite (Hw i Hi). now apply weight_pos_iff.
Qed.

Lemma quantile_defined q : 0 < m -> 0 < N -> 0 < T ->
  (exists r, compute_quantile rows T data y N depth m Sv x argsort q = Some r) <-> (0 <= q <= 100)%Q.
Proof.
  intros Hm HN HT. pose proof (nonempty_enough Hm HN) as Hne.
  destruct (weights_some (fun b _ => Hne b) HT) as [l [E [Hl Hw]]]. unfold compute_quantile. rewrite E.
  fold (samples_of l).
  rewrite (percentile_defined argsort Hsort (weighted_percentile argsort) (or_introl eq_refl) (samples_of l) (fair_samples l Hl Hw)).
  split; [tauto|]. intro Hq. split; [exact Hq|].
  destruct (us 0) as [|i r] eqn:Es; [exfalso; now apply (Hne 0)|]. exists (y i, nth i l 0%Q).
  apply (weighted_samples l _ HT Hl Hw). exists i. split; [reflexivity|]. exists 0. split; [exact HT|]. rewrite Es. now left.
Qed.

Lemma some_selected l : 0 < T -> 0 < N -> undo_weights rows T data N depth m Sv x = Some l -> forall b, b < T -> us b <> [].
Proof.
  intros HT HN H b Hb E. rewrite weights_none in H; [discriminate|exact HN|]. right. eauto.
Qed.

Lemma quantile_none_T q : 0 < N -> T = 0 -> compute_quantile rows T data y N depth m Sv x argsort q = None.
Proof. intros HN H. unfold compute_quantile. rewrite weights_none; [reflexivity|exact HN|now left]. Qed.

Lemma quantile_N0 q : N = 0 -> compute_quantile rows T data y N depth m Sv x argsort q = None.
Proof.
  intro E. unfold compute_quantile. destruct (undo_weights rows T data N depth m Sv x) as [l|]; [|reflexivity].
  subst N. cbn [seq map combine]. unfold weighted_percentile. destruct (_ || _); [reflexivity|].
  destruct (reorder_sorted argsort [] Hsort) as [H _]. apply Permutation_nil in H. now rewrite H.
Qed.

Lemma quantile_facts q r : compute_quantile rows T data y N depth m Sv x argsort q = Some r ->
  0 < T /\ 0 < N /\ (forall b, b < T -> us b <> []).
Proof.
  intro H. destruct (Nat.eq_dec N 0) as [E|E]; [rewrite quantile_N0 in H by exact E; discriminate|].
  destruct (Nat.eq_dec T 0) as [E'|E']; [rewrite quantile_none_T in H by (assumption || lia); discriminate|].
  destruct (quantile_unfold q r H) as [l [E1 _]].
  split; [lia|]. split; [lia|]. apply (some_selected l); [lia|lia|exact E1].
Qed.

Lemma quantile_between q r : compute_quantile rows T data y N depth m Sv x argsort q = Some r ->
  exists i j, (exists b, b < T /\ In i (us b)) /\ (exists b, b < T /\ In j (us b)) /\ (y i <= r <= y j)%Q.
Proof.
  intro H. destruct (quantile_facts q r H) as [HT [HN Hne]].
  destruct (weights_some Hne HT) as [l [E [Hl Hw]]]. destruct (quantile_unfold q r H) as [l' [E' Hp]].
  assert (l' = l) as -> by congruence.
  destruct (percentile_between argsort Hsort _ (or_introl eq_refl) (samples_of l) (fair_samples l Hl Hw) q r Hp) as [a [b [Ha [Hb Hr]]]].
  apply (weighted_samples l _ HT Hl Hw) in Ha, Hb. destruct Ha as [i [-> Hi]]. destruct Hb as [j [-> Hj]].
  exists i, j. auto.
Qed.

Lemma quantile_mono q q' r r' : (q <= q')%Q ->
  compute_quantile rows T data y N depth m Sv x argsort q = Some r ->
  compute_quantile rows T data y N depth m Sv x argsort q' = Some r' -> (r <= r')%Q.
Proof.
  intros Hq H H'. destruct (quantile_facts q r H) as [HT [HN Hne]].
  destruct (weights_some Hne HT) as [l [E [Hl Hw]]].
  destruct (quantile_unfold q r H) as [l1 [E1 Hp1]]. destruct (quantile_unfold q' r' H') as [l2 [E2 Hp2]].
  assert (l1 = l) as -> by congruence. assert (l2 = l) as -> by congruence.
  exact (percentile_mono argsort Hsort _ (or_introl eq_refl) (samples_of l) (fair_samples l Hl Hw) q q' r r' Hq Hp1 Hp2).
Qed.
End Estimators.

(** only the conditioning variables matter *)
Lemma us_agree rows data N depth m Sv x x' b : agree_on Sv x x' ->
  undo_selected rows data N depth m Sv x b = undo_selected rows data N depth m Sv x' b.
Proof.
  intro H. unfold undo_selected. f_equal. apply undo_run_ext. intros n s. rewrite !vec_step_g.
  unfold gstep. assert (E : dec_obs Sv x (rows b) n = dec_obs Sv x' (rows b) n); [|now rewrite E].
  unfold dec_obs. destruct (inS Sv (r_feat (rows b) n)) eqn:E; [|reflexivity]. apply inS_splits in E. destruct E as [_ E].
  f_equal. specialize (H _ E). destruct (qleb_spec (x (gf (rows b) n)) (r_thr (rows b) n));
    destruct (qleb_spec (x' (gf (rows b) n)) (r_thr (rows b) n)); auto; exfalso; lra.
Qed.

Lemma weights_us rows1 rows2 T data N depth m Sv x1 x2 :
  (forall b, b < T -> undo_selected rows1 data N depth m Sv x1 b = undo_selected rows2 data N depth m Sv x2 b) ->
  undo_weights rows1 T data N depth m Sv x1 = undo_weights rows2 T data N depth m Sv x2.
Proof.
  intro H. unfold undo_weights.
  assert (E : forall i, undo_weight rows1 T data N depth m Sv x1 i = undo_weight rows2 T data N depth m Sv x2 i).
  { intro i. unfold undo_weight. erewrite fold_left_ext_in; [reflexivity|].
    intros acc b Hb. apply in_seq in Hb. unfold tree_weight. rewrite H by lia. reflexivity. }
  induction (seq 0 N) as [|i l IH]; cbn [fold_right]; [reflexivity|]. now rewrite E, IH.
Qed.
Lemma exp_us rows1 rows2 T data y N depth m Sv x1 x2 :
  (forall b, b < T -> undo_selected rows1 data N depth m Sv x1 b = undo_selected rows2 data N depth m Sv x2 b) ->
  compute_shaff_exp rows1 T data y N depth m Sv x1 = compute_shaff_exp rows2 T data y N depth m Sv x2.
Proof.
  intro H. unfold compute_shaff_exp. erewrite fold_left_ext_in; [reflexivity|].
  intros acc b Hb. apply in_seq in Hb. cbv beta. destruct acc; [|reflexivity]. rewrite H by lia. reflexivity.
Qed.

(** * Python rows *)
Section PyRow.
Variable t : tree.
Variable d : nat.
Hypothesis Hwf : wf_tree t d = true.
Hypothesis Hpl : plain_leaves t.
Variable Sv : list nat.

Lemma py_stores : stores t (py_row t).
Proof.
  intros i Hi. unfold py_row, py_index. cbn [r_feat r_thr r_left r_right].
  destruct (Z.ltb_spec (Z.of_nat i) 0) as [C|_]; [lia|]. rewrite Nat2Z.id. auto.
Qed.
Lemma py_minus : let l := nn t - 1 in leaf_node t l = true /\ l < nn t /\
  r_feat (py_row t) (-1) = nth l (ft t) (-1)%Z /\ r_left (py_row t) (-1) = (-1)%Z /\ r_right (py_row t) (-1) = (-1)%Z.
Proof.
  pose proof (wf_pos t d Hwf) as Hp. intro l.
  assert (Hl : leaf_node t l = true).
  { destruct (leaf_node t l) eqn:E; [reflexivity|].
    destruct (wf_internal t d Hwf l ltac:(unfold l; lia) E) as [A _]. unfold l in *. lia. }
  assert (E : py_index t (-1) = l) by (unfold py_index, l; cbn [Z.ltb Z.compare]; lia).
  unfold py_row. cbn [r_feat r_left r_right]. rewrite E.
  destruct (Hpl l ltac:(unfold l; lia) Hl) as [A [B _]]. repeat split; auto. unfold l. lia.
Qed.
Lemma py_dead : dead_end (py_row t) Sv.
Proof.
  destruct py_minus as [Hl [Hlt [E1 [E2 E3]]]]. split; [|auto]. intros f [Hf _].
  destruct (Hpl _ Hlt Hl) as [_ [_ C]]. rewrite E1 in Hf. lia.
Qed.
Lemma py_cell depth x z : tree_depth t <= depth -> same_cell (py_row t) Sv depth x z <-> same_leaves t Sv x z.
Proof. apply (cell_leaves t d Hwf Hpl (py_row t) Sv py_stores py_dead). Qed.

(** any two rows storing the tree, with a dead end at -1, give the same run *)
Lemma rows_same R1 R2 data x m depth N : stores t R1 -> stores t R2 -> dead_end R1 Sv -> dead_end R2 Sv ->
  undo_run (vec_step R1 Sv x data) m depth N = undo_run (vec_step R2 Sv x data) m depth N.
Proof.
  intros S1 S2 D1 D2.
  apply (undo_run_same R1 R2 (fun n => n = (-1)%Z \/ exists i, n = Z.of_nat i /\ i < nn t)).
  - right. exists 0. split; [reflexivity|apply (wf_pos t d Hwf)].
  - intros n [->|[i [-> Hi]]]; [left; apply D1|]. destruct (leaf_node t i) eqn:E.
    + left. now apply (leaf_children t Hpl R1 S1).
    + right. destruct (child_left t d Hwf R1 S1 i Hi E) as [-> Hc]. eexists. split; [reflexivity|lia].
  - intros n [->|[i [-> Hi]]]; [left; apply D1|]. destruct (leaf_node t i) eqn:E.
    + left. now apply (leaf_children t Hpl R1 S1).
    + right. destruct (child_right t d Hwf R1 S1 i Hi E) as [-> Hc]. eexists. split; [reflexivity|lia].
  - intros n [->|[i [-> Hi]]]; [destruct D1 as [_ [-> _]]; destruct D2 as [_ [-> _]]; reflexivity|].
    destruct (S1 i Hi) as [_ [_ [-> _]]]. now destruct (S2 i Hi) as [_ [_ [-> _]]].
  - intros n [->|[i [-> Hi]]]; [destruct D1 as [_ [_ ->]]; destruct D2 as [_ [_ ->]]; reflexivity|].
    destruct (S1 i Hi) as [_ [_ [_ ->]]]. now destruct (S2 i Hi) as [_ [_ [_ ->]]].
  - intros n [->|[i [-> Hi]]].
    + rewrite (proj1 (not_splits R1 Sv (-1)) (proj1 D1)). now rewrite (proj1 (not_splits R2 Sv (-1)) (proj1 D2)).
    + destruct (S1 i Hi) as [-> _]. now destruct (S2 i Hi) as [-> _].
  - intros n [->|[i [-> Hi]]] E.
    + rewrite (proj1 (not_splits R1 Sv (-1)) (proj1 D1)) in E. discriminate.
    + destruct (S1 i Hi) as [-> [-> _]]. destruct (S2 i Hi) as [-> [-> _]]. auto.
Qed.
End PyRow.

(** * Compiled and Python versions *)
Section Versions.
Variable ts : list tree.
Variable stray : row.
Variable d : nat.
Hypothesis Hwf : forall t, In t ts -> wf_tree t d = true.
Hypothesis Hpl : forall t, In t ts -> plain_leaves t.
Variable Sv : list nat.
Hypothesis Hh : harmless stray Sv.
Variable data : nat -> pt.
Variables (N depth m : nat) (x : pt).
Notation M := (dense ts stray).

Lemma versions_us b : b < length ts ->
  undo_selected (row_of M) data N depth m Sv x b = undo_selected (py_rows ts) data N depth m Sv x b.
Proof.
  intro Hb. assert (Hin : In (nth b ts t0') ts) by now apply nth_In. unfold undo_selected, py_rows. f_equal.
  apply (rows_same (nth b ts t0') d (Hwf _ Hin) (Hpl _ Hin) Sv).
  - now apply (dense_stores ts stray d Hwf Hpl).
  - apply py_stores.
  - apply (dense_dead ts stray d Hwf Hpl); auto.
  - apply (py_dead _ d (Hwf _ Hin) (Hpl _ Hin)).
Qed.

Lemma cell_us b l : b < length ts -> tree_depth (nth b ts t0') <= depth -> NoDup l -> m <= length l ->
  (forall i, In i l -> i < N /\ same_leaves (nth b ts t0') Sv x (data i)) ->
  forall i, In i (undo_selected (py_rows ts) data N depth m Sv x b) <->
    i < N /\ same_cell (row_of M b) Sv depth x (data i).
Proof.
  intros Hb Hd Hnd Hm Hl. assert (Hin : In (nth b ts t0') ts) by now apply nth_In.
  rewrite <- versions_us by exact Hb.
  pose proof (fun z => forest_cell ts stray d Hwf Hpl depth Sv x b Hb (or_intror Hh) z Hd) as Hc.
  (* the full cell *)
  set (us := undo_selected (row_of M) data N depth m Sv x b).
  assert (G : exists c, NoDup c /\ forall i, In i c <-> i < N /\ same_cell (row_of M b) Sv depth x (data i)).
  { exists (st_in (run_tree (gstep (row_of M b) data true vins (dec_obs Sv x (row_of M b))) 0 depth N rule0)).
    split; [apply run_in_nodup|]. intro i. rewrite (run_in_exact _ _ _ _ vins_in) by lia. now rewrite survives_cell. }
  destruct G as [c [Hcn Hci]]. assert (length l <= length c).
  { apply NoDup_incl_length; [exact Hnd|]. intros i Hi. apply Hci. destruct (Hl i Hi). split; [assumption|]. now apply Hc. }
  intro i. unfold us. rewrite (us_exact (row_of M) data N depth m Sv x b c Hcn ltac:(lia) Hci). apply Hci.
Qed.
End Versions.

Lemma wt_perm T l l' i : NoDup l -> NoDup l' -> (forall j, In j l <-> In j l') -> wt T l i = wt T l' i.
Proof.
  intros H H' E. assert (P : Permutation l l') by now apply NoDup_Permutation.
  unfold wt. rewrite (Permutation_length P). destruct (memb_spec i l) as [Hi|Hi]; destruct (memb_spec i l') as [Hj|Hj]; auto; exfalso.
  - apply Hj. now apply E. - apply Hi. now apply E.
Qed.

Section Agree.
Variable ts : list tree.
Variable stray : row.
Variable d : nat.
Hypothesis Hwf : forall t, In t ts -> wf_tree t d = true.
Hypothesis Hpl : forall t, In t ts -> plain_leaves t.
Variable Sv : list nat.
Hypothesis Hh : harmless stray Sv.
Variable data : nat -> pt.
Variables (N depth m : nat) (x : pt).
Hypothesis Hm : 0 < m.
Hypothesis Hdepth : forall t, In t ts -> tree_depth t <= depth.
Hypothesis Hbig : forall t, In t ts -> exists l, NoDup l /\ m <= length l /\
  forall i, In i l -> i < N /\ same_leaves t Sv x (data i).
Hypothesis Hts : ts <> [].
Notation M := (dense ts stray).
Notation T := (length ts).
Notation pus := (undo_selected (py_rows ts) data N depth m Sv x).
Notation csel := (selected M (fun R => rf_step R Sv x data) m depth N).

Lemma csel_nodup b : NoDup (csel b).
Proof. apply (sel_nodup M data false zinsert (dec_obs Sv x) (fun R => rf_step R Sv x data)). intros. apply rf_step_g. Qed.
Lemma csel_lt b i : In i (csel b) -> i < N.
Proof. apply (sel_lt M data false zinsert (dec_obs Sv x) (fun R => rf_step R Sv x data)). intros. apply rf_step_g. Qed.

Lemma same_selection b : b < T -> forall i, In i (pus b) <-> In i (csel b).
Proof.
  intros Hb. assert (Hin : In (nth b ts t0') ts) by now apply nth_In.
  destruct (Hbig _ Hin) as [l [H1 [H2 H3]]].
  pose proof (cell_us ts stray d Hwf Hpl Sv Hh data N depth m x b l Hb (Hdepth _ Hin) H1 H2 H3) as Hc.
  destruct (selected_leaves ts stray d Hwf Hpl data N depth m Sv x b Hb (or_intror Hh) (Hdepth _ Hin)) as [A B].
  assert (L : m <= length (csel b)).
  { eapply Nat.le_trans; [exact H2|]. apply NoDup_incl_length; [exact H1|]. intros i Hi.
    destruct (H3 i Hi). now apply A. }
  intro i. rewrite (B L i), (Hc i).
  now rewrite (forest_cell ts stray d Hwf Hpl depth Sv x b Hb (or_intror Hh) (data i) (Hdepth _ Hin)).
Qed.

Lemma pus_ne b : b < T -> pus b <> [].
Proof.
  intros Hb. assert (Hin : In (nth b ts t0') ts) by now apply nth_In.
  destruct (Hbig _ Hin) as [l [H1 [H2 H3]]].
  apply nonempty_enough; [exact Hm|]. destruct l as [|i l]; [cbn in H2; lia|]. destruct (H3 i (or_introl eq_refl)). lia.
Qed.
Lemma T_pos : 0 < T.
Proof. destruct ts; [congruence|cbn; lia]. Qed.

Lemma same_weight i : (weight T pus i == weight T csel i)%Q.
Proof.
  unfold weight. apply sumf_ext. intros b Hb. apply in_seq in Hb. rewrite (wt_perm T (pus b) (csel b) i); [reflexivity| | |].
  - apply us_nodup. - apply csel_nodup. - apply same_selection. lia.
Qed.

Lemma forest_csel ind : (forest M (fun R => rf_step R Sv x data) m depth N ind == sumf (fun i => weight T csel i * ind i) (seq 0 N))%Q.
Proof. apply (forest_weight T N csel csel_nodup csel_lt). Qed.

Lemma agree_sum a : exists s, weighted_sum (py_rows ts) T data N depth m Sv x a = Some s /\
  (s == forest M (fun R => rf_step R Sv x data) m depth N a)%Q.
Proof.
  destruct (weighted_sum_eq (py_rows ts) T data N depth m Sv x a pus_ne T_pos) as [s [E Hs]].
  exists s. split; [exact E|]. rewrite Hs, forest_csel. apply sumf_ext. intros i _. now rewrite same_weight.
Qed.
Lemma agree_exp y : exists s, compute_shaff_exp (py_rows ts) T data y N depth m Sv x = Some s /\
  (s == forest M (fun R => rf_step R Sv x data) m depth N y)%Q.
Proof.
  destruct (exp_eq (py_rows ts) T data N depth m Sv x y pus_ne T_pos) as [s [E Hs]].
  exists s. split; [exact E|]. rewrite Hs, forest_csel. apply sumf_ext. intros i _. now rewrite same_weight.
Qed.
End Agree.

Lemma forest_ext M step m depth N i1 i2 : (forall i, (i1 i == i2 i)%Q) -> 
  (forest M step m depth N i1 == forest M step m depth N i2)%Q.
Proof.
  intro H. unfold forest. generalize (seq 0 (F_trees M)) as trees.
  assert (A : forall l a b, (a == b)%Q -> (add_tree (F_trees M) i1 l a == add_tree (F_trees M) i2 l b)%Q).
  { intros l. unfold add_tree. generalize (1 / Qn (F_trees M * length l))%Q as c. intro c. induction l as [|i l IH]; intros a b E; cbn [fold_left]; [exact E|].
    apply IH. now rewrite E, H. }
  intro trees. assert (G : forall a b, (a == b)%Q -> (fold_left (fun acc b => add_tree (F_trees M) i1 (selected M step m depth N b) acc) trees a ==
    fold_left (fun acc b => add_tree (F_trees M) i2 (selected M step m depth N b) acc) trees b)%Q).
  { induction trees as [|b trees IH]; intros a a' E; cbn [fold_left]; [exact E|]. apply IH. now apply A. }
  now apply G.
Qed.

(** * Quantile of the differences *)
Section Diff.
Variable M : fmem.
Variable data : nat -> pt.
Variable y : nat -> Q.
Variables (N depth m : nat) (Sv : list nat) (x : pt) (yx : Q).
Variable argsort : list Q -> list nat.
Hypothesis Hsort : sorting argsort.
Hypothesis HT : 0 < F_trees M.
Notation vs := (selected M (fun R => vec_step R Sv x data) m depth N).
Notation qd := (compute_quantile_diff M data y N depth m Sv x yx argsort).

Lemma vs_nodup b : NoDup (vs b).
Proof. apply (sel_nodup M data true vins (dec_obs Sv x) (fun R => vec_step R Sv x data)). intros. apply vec_step_g. Qed.
Lemma vs_lt b i : In i (vs b) -> i < N.
Proof. apply (sel_lt M data true vins (dec_obs Sv x) (fun R => vec_step R Sv x data)). intros. apply vec_step_g. Qed.

Definition dw (i : nat) : Q :=
  (sumf (fun l => if memb i l then 1 / Qn (length l) else 0) (map vs (seq 0 (F_trees M))) / Qn (F_trees M))%Q.
Definition dd (i : nat) : Q := if existsb (memb i) (map vs (seq 0 (F_trees M))) then (yx - y i)%Q else 0%Q.
Definition dl : list (Q * Q) := map (fun i => (dd i, dw i)) (seq 0 N).

Lemma dw_weight i : (dw i == weight (F_trees M) vs i)%Q.
Proof.
  unfold dw, weight. rewrite sumf_map. unfold Qdiv at 1. rewrite <- sumf_scal_r. apply sumf_ext. intros b _. unfold wt.
  destruct (memb_spec i (vs b)) as [Hi|Hi]; [|lra]. assert (0 < length (vs b)) by (destruct (vs b); [destruct Hi|cbn; lia]).
  rewrite Qn_mult. field. split; apply Qn_neq0; lia.
Qed.
Lemma dl_fair : fair dl.
Proof.
  intros p Hp. apply in_map_iff in Hp. destruct Hp as [i [<- _]]. cbn. rewrite dw_weight. apply weight_nonneg.
Qed.
Lemma dl_weighted p : weighted dl p <-> exists i, p = ((yx - y i)%Q, dw i) /\ exists b, b < F_trees M /\ In i (vs b).
Proof.
  unfold weighted, dl. rewrite in_map_iff.
  assert (D : forall i, (exists b, b < F_trees M /\ In i (vs b)) -> dd i = (yx - y i)%Q).
  { intros i [b [Hb Hi]]. unfold dd. assert (E : existsb (memb i) (map vs (seq 0 (F_trees M))) = true); [|now rewrite E].
    apply existsb_exists. exists (vs b). split; [apply in_map, in_seq; lia|now apply memb_true]. }
  split.
  - intros [[i [<- Hi]] Hp]. cbn in Hp. rewrite dw_weight in Hp. apply weight_pos_iff in Hp; [|exact HT].
    exists i. split; [|exact Hp]. now rewrite D.
  - intros [i [-> Hb]]. split.
    + exists i. split; [now rewrite D|]. destruct Hb as [b [_ Hb]]. apply vs_lt in Hb. apply in_seq. lia.
    + cbn. rewrite dw_weight. now apply weight_pos_iff.
Qed.

Lemma diff_defined q : (exists r, qd q = Some r) <-> (0 <= q <= 100)%Q /\ exists b, b < F_trees M /\ vs b <> [].
Proof.
  change (qd q) with (weighted_percentile argsort dl q).
  rewrite (percentile_defined argsort Hsort (weighted_percentile argsort) (or_introl eq_refl) dl dl_fair).
  split; intros [H1 H2]; (split; [exact H1|]).
  - destruct H2 as [p Hp]. apply dl_weighted in Hp. destruct Hp as [i [_ [b [Hb Hi]]]]. exists b. split; [exact Hb|].
    intro E. rewrite E in Hi. destruct Hi.
  - destruct H2 as [b [Hb Hne]]. destruct (vs b) as [|i r] eqn:E; [congruence|]. exists ((yx - y i)%Q, dw i).
    apply dl_weighted. exists i. split; [reflexivity|]. exists b. split; [exact Hb|]. rewrite E. now left.
Qed.
Lemma diff_between q r : qd q = Some r ->
  exists i j, (exists b, b < F_trees M /\ In i (vs b)) /\ (exists b, b < F_trees M /\ In j (vs b)) /\
    (yx - y i <= r <= yx - y j)%Q.
Proof.
  change (qd q) with (weighted_percentile argsort dl q). intro H.
  destruct (percentile_between argsort Hsort _ (or_introl eq_refl) dl dl_fair q r H) as [a [b [Ha [Hb Hr]]]].
  apply dl_weighted in Ha, Hb. destruct Ha as [i [-> Hi]]. destruct Hb as [j [-> Hj]]. exists i, j. auto.
Qed.
Lemma diff_mono q q' r r' : (q <= q')%Q -> qd q = Some r -> qd q' = Some r' -> (r <= r')%Q.
Proof. apply (percentile_mono argsort Hsort _ (or_introl eq_refl) dl dl_fair). Qed.
End Diff.

(** * Bounds of the Python estimators *)
Section Bounds.
Variable rows : nat -> row.
Variable T : nat.
Variable data : nat -> pt.
Variables (N depth m : nat) (Sv : list nat) (x : pt).
Notation us := (undo_selected rows data N depth m Sv x).

Lemma us_total : 0 < T -> (forall b, b < T -> us b <> []) -> (total N (weight T us) == 1)%Q.
Proof. apply weight_total_1; [apply us_nodup|apply us_lt]. Qed.

Lemma weighted_sum_facts a s : 0 < N -> weighted_sum rows T data N depth m Sv x a = Some s ->
  0 < T /\ (forall b, b < T -> us b <> []).
Proof.
  intros HN H. unfold weighted_sum in H. destruct (undo_weights rows T data N depth m Sv x) as [l|] eqn:E; [|discriminate].
  assert (HT : 0 < T).
  { destruct (Nat.eq_dec T 0) as [E'|E']; [|lia]. rewrite weights_none in E; [discriminate|exact HN|now left]. }
  split; [exact HT|]. now apply (some_selected rows T data N depth m Sv x l).
Qed.

Lemma weighted_sum_bounds a s lo hi : 0 < N -> (forall i, i < N -> (lo <= a i <= hi)%Q) ->
  weighted_sum rows T data N depth m Sv x a = Some s -> (lo <= s <= hi)%Q.
Proof.
  intros HN Ha H. destruct (weighted_sum_facts a s HN H) as [HT Hne].
  destruct (weighted_sum_eq rows T data N depth m Sv x a Hne HT) as [s' [E Hs]].
  assert (s' = s) by congruence. subst s'. pose proof (us_total HT Hne) as Ht.
  pose proof (weighted_bounds T N us a lo hi Ha) as [B1 B2]. rewrite Ht in B1, B2. rewrite Hs. lra.
Qed.

Lemma sdp_defined a : 0 < m -> 0 < N -> 0 < T -> exists s, weighted_sum rows T data N depth m Sv x a = Some s.
Proof.
  intros Hm HN HT. destruct (weighted_sum_eq rows T data N depth m Sv x a) as [s [E _]]; eauto.
  intros b _. now apply nonempty_enough.
Qed.

Variable y : nat -> Q.
Lemma exp_facts s : compute_shaff_exp rows T data y N depth m Sv x = Some s -> 0 < T /\ (forall b, b < T -> us b <> []).
Proof.
  unfold compute_shaff_exp. intro H. split.
  - destruct T; [discriminate|lia].
  - intros b Hb E.
    assert (G : forall trees acc, acc = None \/ In b trees ->
      fold_left (fun acc b => match acc with
                    | Some a => let l := us b in
                        if length l =? 0 then None else Some (a + sumf y l / Qn (length l))%Q
                    | None => None end) trees acc = None).
    { induction trees as [|c trees IH]; intros acc Hc; cbn [fold_left].
      - destruct Hc as [Hc|[]]. exact Hc.
      - apply IH. destruct Hc as [->|[->|Hc]]; [now left| |now right]. left. cbv zeta. rewrite E. cbn. now destruct acc. }
    rewrite G in H; [discriminate|]. right. apply in_seq. lia.
Qed.

Lemma exp_bounds s lo hi : (forall i, chosen T us i -> (lo <= y i <= hi)%Q) ->
  compute_shaff_exp rows T data y N depth m Sv x = Some s -> (lo <= s <= hi)%Q.
Proof.
  intros Hy H. destruct (exp_facts s H) as [HT Hne].
  destruct (exp_eq rows T data N depth m Sv x y Hne HT) as [s' [E Hs]].
  assert (s' = s) by congruence. subst s'. pose proof (us_total HT Hne) as Ht.
  set (z := fun i => if existsb (fun b => memb i (us b)) (seq 0 T) then y i else lo).
  assert (Ez : (sumf (fun i => weight T us i * y i) (seq 0 N) == sumf (fun i => weight T us i * z i) (seq 0 N))%Q).
  { apply sumf_ext. intros i _. unfold z. destruct (existsb (fun b => memb i (us b)) (seq 0 T)) eqn:Eb; [reflexivity|].
    assert (E0 : (weight T us i == 0)%Q); [|rewrite E0; lra].
    pose proof (weight_nonneg T us i) as Hn. destruct (Qlt_le_dec 0 (weight T us i)) as [C|C]; [|lra].
    apply weight_pos_iff in C; [|exact HT]. destruct C as [b [Hb Hi]]. exfalso.
    assert (existsb (fun b => memb i (us b)) (seq 0 T) = true); [|congruence].
    apply existsb_exists. exists b. split; [apply in_seq; lia|now apply memb_true]. }
  assert (Hlh : (lo <= hi)%Q).
  { destruct (us 0) as [|i r] eqn:E0; [exfalso; now apply (Hne 0)|]. destruct (Hy i); [|lra].
    exists 0. split; [exact HT|]. rewrite E0. now left. }
  assert (Hz : forall i, i < N -> (lo <= z i <= hi)%Q).
  { intros i _. unfold z. destruct (existsb (fun b => memb i (us b)) (seq 0 T)) eqn:Eb; [|lra].
    apply existsb_exists in Eb. destruct Eb as [b [Hb Hi]]. apply in_seq in Hb. apply memb_true in Hi.
    apply Hy. exists b. split; [lia|exact Hi]. }
  pose proof (weighted_bounds T N us z lo hi Hz) as [B1 B2]. rewrite Ht in B1, B2. rewrite Hs, Ez. lra.
Qed.
Lemma exp_defined : 0 < m -> 0 < N -> 0 < T -> exists s, compute_shaff_exp rows T data y N depth m Sv x = Some s.
Proof.
  intros Hm HN HT. destruct (exp_eq rows T data N depth m Sv x y) as [s [E _]]; eauto.
  intros b _. now apply nonempty_enough.
Qed.

Lemma sdp_clf_in yx s : 0 < N -> compute_shaff_sdp_clf rows T data y N depth m Sv x yx = Some s -> (0 <= s <= 1)%Q.
Proof. intros HN. apply weighted_sum_bounds; [exact HN|]. intros. apply Qb_bounds. Qed.
Lemma sdp_reg_in yx t s : 0 < N -> compute_shaff_sdp rows T data y N depth m Sv x yx t = Some s -> (0 <= s <= 1)%Q.
Proof. intros HN. apply weighted_sum_bounds; [exact HN|]. intros. apply Qb_bounds. Qed.

Lemma sdp_reg_mono yx t t' s s' : 0 < N -> (t <= t')%Q -> compute_shaff_sdp rows T data y N depth m Sv x yx t = Some s ->
  compute_shaff_sdp rows T data y N depth m Sv x yx t' = Some s' -> (s <= s')%Q.
Proof.
  intros HN Ht H H'. destruct (weighted_sum_facts _ s HN H) as [HT Hne]. unfold compute_shaff_sdp in *.
  destruct (weighted_sum_eq rows T data N depth m Sv x (fun i => Qb (qleb ((y i - yx) * (y i - yx)) t)) Hne HT) as [v [E Hv]].
  destruct (weighted_sum_eq rows T data N depth m Sv x (fun i => Qb (qleb ((y i - yx) * (y i - yx)) t')) Hne HT) as [v' [E' Hv']].
  assert (v = s) by congruence. assert (v' = s') by congruence. subst v v'. rewrite Hv, Hv'.
  apply sumf_le. intros i _. pose proof (weight_nonneg T us i).
  destruct (qleb_spec ((y i - yx) * (y i - yx))%Q t) as [C|C]; destruct (qleb_spec ((y i - yx) * (y i - yx))%Q t') as [D|D];
    cbn [Qb]; try lra.
Qed.
End Bounds.

Lemma agree_estimators rows T data y N depth m Sv x x' yx t argsort q : agree_on Sv x x' ->
  compute_quantile rows T data y N depth m Sv x argsort q = compute_quantile rows T data y N depth m Sv x' argsort q /\
  compute_shaff_sdp_clf rows T data y N depth m Sv x yx = compute_shaff_sdp_clf rows T data y N depth m Sv x' yx /\
  compute_shaff_sdp rows T data y N depth m Sv x yx t = compute_shaff_sdp rows T data y N depth m Sv x' yx t /\
  compute_shaff_exp rows T data y N depth m Sv x = compute_shaff_exp rows T data y N depth m Sv x'.
Proof.
  intro H. assert (E : undo_weights rows T data N depth m Sv x = undo_weights rows T data N depth m Sv x').
  { apply weights_us. intros. now apply us_agree. }
  unfold compute_quantile, compute_shaff_sdp_clf, compute_shaff_sdp, weighted_sum. rewrite E.
  repeat split. apply exp_us. intros. now apply us_agree.
Qed.

Lemma versions_agree ts stray d data y N depth m Sv x yx t argsort q :
  (forall tr, In tr ts -> wf_tree tr d = true) -> (forall tr, In tr ts -> plain_leaves tr) -> harmless stray Sv ->
  compute_quantile (row_of (dense ts stray)) (length ts) data y N depth m Sv x argsort q =
    compute_quantile (py_rows ts) (length ts) data y N depth m Sv x argsort q /\
  compute_shaff_sdp (row_of (dense ts stray)) (length ts) data y N depth m Sv x yx t =
    compute_shaff_sdp (py_rows ts) (length ts) data y N depth m Sv x yx t.
Proof.
  intros Hwf Hpl Hh. 
  assert (E : undo_weights (row_of (dense ts stray)) (length ts) data N depth m Sv x =
              undo_weights (py_rows ts) (length ts) data N depth m Sv x).
  { apply weights_us. intros b Hb. now apply (versions_us ts stray d). }
  unfold compute_quantile, compute_shaff_sdp, weighted_sum. rewrite E. auto.
Qed.

Lemma shaff_agrees ts stray d data y N depth m Sv x yx t0 t1 :
  (forall t, In t ts -> wf_tree t d = true) -> (forall t, In t ts -> plain_leaves t) -> harmless stray Sv ->
  0 < m -> (forall t, In t ts -> tree_depth t <= depth) -> ts <> [] ->
  (forall t, In t ts -> exists l, NoDup l /\ m <= length l /\
     forall i, In i l -> i < N /\ same_leaves t Sv x (data i)) ->
  (exists s, compute_shaff_sdp_clf (py_rows ts) (length ts) data y N depth m Sv x yx = Some s /\
     (s == compute_sdp_rf (dense ts stray) data y N depth m true t0 t1 Sv x yx)%Q) /\
  (exists s, compute_shaff_exp (py_rows ts) (length ts) data y N depth m Sv x = Some s /\
     (s == compute_exp_rf (dense ts stray) data y N depth m Sv x)%Q).
Proof.
  intros Hwf Hpl Hh Hm Hd Hts Hbig. split.
  - destruct (agree_sum ts stray d Hwf Hpl Sv Hh data N depth m x Hm Hd Hbig Hts (fun i => Qb (qeqb (y i) yx))) as [s [E Hs]].
    exists s. split; [exact E|]. rewrite Hs. unfold compute_sdp_rf. apply forest_ext. intro i. unfold ind_same.
    destruct (qeqb_spec (y i) yx) as [A|A]; destruct (qeqb_spec yx (y i)) as [B|B]; try reflexivity; exfalso.
    + apply B. now symmetry. + apply A. now symmetry.
  - exact (agree_exp ts stray d Hwf Hpl Sv Hh data N depth m x Hm Hd Hbig Hts y).
Qed.

(** Proofs about the methods that loop over the Python routines of utils_exp.py. *)
From Coq Require Import Sorted Permutation.
From Verif Require Import Base TreeModel NopaModel ShapModel AxsModel RfModel RfSpec RfProofs QuantModel QuantSpec QuantProofs
  QuantForestProofs QbufModel QbufSpec QbufProofs QbufProofs2.
Local Open Scope nat_scope.

Lemma per_row_all {A} (f : nat -> pt -> option A) X : forall k, (forall i x, nth_error X i = Some x -> exists v, f (k + i) x = Some v) ->
  exists l, per_row f k X = Gives l /\ length l = length X /\ forall i x, nth_error X i = Some x -> f (k + i) x = nth_error l i.
Proof.
  induction X as [|x X IH]; intros k H; cbn [per_row length].
  - exists []. split; [reflexivity|]. split; [reflexivity|]. intros [|i] x E; discriminate E.
  - destruct (H 0 x eq_refl) as [v Ev]. rewrite Nat.add_0_r in Ev. rewrite Ev.
    destruct (IH (S k)) as [l [E [Hl Hi]]].
    + intros i z Hz. destruct (H (S i) z Hz) as [w Hw]. exists w. now replace (S k + i) with (k + S i) by lia.
    + rewrite E. cbn [next]. exists (v :: l). split; [reflexivity|]. split; [cbn; congruence|].
      intros [|i] z Hz; cbn [nth_error].
      * injection Hz as <-. now rewrite Nat.add_0_r.
      * replace (k + S i) with (S k + i) by lia. now apply Hi.
Qed.
Lemma per_row_fail {A} (f : nat -> pt -> option A) X : forall k i x, nth_error X i = Some x -> f (k + i) x = None -> per_row f k X = Raises.
Proof.
  induction X as [|x X IH]; intros k i z Hz E; [destruct i; discriminate Hz|]. cbn [per_row]. destruct i as [|i].
  - injection Hz as ->. rewrite Nat.add_0_r in E. now rewrite E.
  - destruct (f k x); [|reflexivity]. rewrite (IH (S k) i z Hz); [reflexivity|]. now replace (S k + i) with (k + S i) by lia.
Qed.

Section Shaff.
Variables (ts : list tree) (data : nat -> pt) (N : nat) (y : nat -> Q) (depth : nat) (m : Z) (Sv : list nat) (x : pt).
Notation T := (length ts).
Notation sel := (py_selected ts data N depth m Sv x).
Hypothesis HT : 0 < T.

Lemma sel_nd b : NoDup (sel b).
Proof. apply us_nodup. Qed.
Lemma sel_in b i : In i (sel b) -> i < N.
Proof. apply us_lt. Qed.

Lemma py_weight_eq i : exists v, py_weight ts data N depth m Sv x i = Some v /\ (v == weight T sel i)%Q.
Proof.
  unfold py_weight. destruct (Nat.eqb_spec T 0); [lia|]. eexists. split; [reflexivity|].
  rewrite (fold_sum (py_tree_weight ts data N depth m Sv x i)), Qplus_0_l. unfold weight. unfold Qdiv at 1. rewrite <- sumf_scal_r.
  apply sumf_ext. intros b _. unfold py_tree_weight, wt.
  destruct (Nat.eqb_spec (length (sel b)) 0) as [E|E].
  - apply length_zero_iff_nil in E. rewrite E. cbn. lra.
  - unfold Qb. destruct (memb i (sel b)); [|lra]. rewrite Qn_mult. field. split; apply Qn_neq0; lia.
Qed.
Lemma py_sum_eq a : exists s, py_sum ts data N depth m Sv x a = Some s /\ (s == sumf (fun i => weight T sel i * a i) (seq 0 N))%Q.
Proof.
  unfold py_sum. destruct (Nat.eqb_spec T 0); [lia|].
  assert (G : forall l c, exists s, fold_left (fun s i => match s, py_weight ts data N depth m Sv x i with
      | Some s, Some w => Some (s + w * a i)%Q | _, _ => None end) l (Some c) = Some s /\
      (s == c + sumf (fun i => weight T sel i * a i) l)%Q).
  { induction l as [|i l IH]; intro c; cbn [fold_left sumf]; [exists c; split; [reflexivity|lra]|].
    destruct (py_weight_eq i) as [v [-> Hv]]. destruct (IH (c + v * a i)%Q) as [s [E Es]]. exists s. split; [exact E|].
    rewrite Es, Hv. lra. }
  destruct (G (seq 0 N) 0%Q) as [s [E Es]]. exists s. split; [exact E|]. rewrite Es. lra.
Qed.
Lemma weight_averaged (e : nat -> bool) : (sumf (fun i => weight T sel i * Qb (e i)) (seq 0 N) == averaged T sel e)%Q.
Proof.
  unfold weight, averaged.
  assert (G : forall bs, (sumf (fun i => sumf (fun b => wt T (sel b) i) bs * Qb (e i)) (seq 0 N) ==
                          sumf (fun b => share_in e (sel b)) bs / Qn T)%Q).
  { induction bs as [|b bs IH]; cbn [sumf].
    - rewrite sumf_zero by (intros; lra). unfold Qdiv. lra.
    - rewrite (sumf_ext _ (fun i => wt T (sel b) i * Qb (e i) + sumf (fun b => wt T (sel b) i) bs * Qb (e i))%Q) by (intros; lra).
      rewrite sumf_plus, IH.
      assert (E : (sumf (fun i => wt T (sel b) i * Qb (e i)) (seq 0 N) == share_in e (sel b) / Qn T)%Q).
      { rewrite (sumf_ext _ (fun i => if memb i (sel b) then (1 / Qn (T * length (sel b))) * Qb (e i) else 0)%Q).
        2: { intros i _. unfold wt. destruct (memb i (sel b)); lra. }
        rewrite <- (sumf_sel 0 N (fun i => (1 / Qn (T * length (sel b))) * Qb (e i))%Q (sel b) (sel_nd b) (sel_in b)).
        rewrite sumf_scal, sumf_count. unfold share_in.
        destruct (Nat.eq_dec (length (sel b)) 0) as [E|E].
        - apply length_zero_iff_nil in E. rewrite E. cbn [filter length]. rewrite Qn_0. unfold Qdiv. lra.
        - rewrite Qn_mult. field. split; apply Qn_neq0; lia. }
      rewrite E. field. apply Qn_neq0. lia. }
  apply G.
Qed.
Lemma share_bounds e l : (0 <= share_in e l)%Q /\ (share_in e l <= if length l =? 0 then 0 else 1)%Q.
Proof.
  unfold share_in. destruct (Nat.eqb_spec (length l) 0) as [E|E].
  - apply length_zero_iff_nil in E. subst l. cbn [filter length]. unfold Qdiv. rewrite Qn_0, Qmult_0_l. split; lra.
  - assert (P : (0 < Qn (length l))%Q) by (apply (Qn_pos (length l)); lia).
    split; [apply Qle_shift_div_l; [exact P|rewrite Qmult_0_l; apply Qn_nonneg]|].
    apply Qle_shift_div_r; [exact P|]. rewrite Qmult_1_l. rewrite <- Qn_le.
    clear. induction l as [|a l IH]; cbn; [lia|]. destruct (e a); cbn; lia.
Qed.
Lemma averaged_bounds e : (0 <= averaged T sel e)%Q /\ (averaged T sel e <= keeping T sel)%Q /\ (keeping T sel <= 1)%Q.
Proof.
  assert (P : (0 < Qn T)%Q) by (apply (Qn_pos T); lia).
  assert (K : (keeping T sel == sumf (fun b => if (length (sel b) =? 0)%nat then 0 else 1) (seq 0 T) / Qn T)%Q).
  { unfold keeping. rewrite <- sumf_count. assert (E : (sumf (fun a => Qb (negb (length (sel a) =? 0)%nat)) (seq 0 T) ==
       sumf (fun b => if (length (sel b) =? 0)%nat then 0 else 1) (seq 0 T))%Q); [|now rewrite E].
    apply sumf_ext. intros b _. now destruct (_ =? 0). }
  split; [|split].
  - unfold averaged. apply Qle_shift_div_l; [exact P|]. rewrite Qmult_0_l. apply sumf_nonneg. intros. apply share_bounds.
  - rewrite K. unfold averaged, Qdiv. apply Qmult_le_compat_r; [|apply Qinv_le_0_compat; lra].
    apply sumf_le. intros. apply share_bounds.
  - rewrite K. apply Qle_shift_div_r; [exact P|]. rewrite Qmult_1_l.
    apply Qle_trans with (sumf (fun _ => 1%Q) (seq 0 T)); [apply sumf_le; intros; destruct (_ =? 0); lra|].
    rewrite sumf_const, seq_length. lra.
Qed.
Lemma averaged_split e : (averaged T sel e + averaged T sel (fun i => negb (e i)) == keeping T sel)%Q.
Proof.
  unfold averaged, keeping.
  assert (E : (sumf (fun b => share_in e (sel b)) (seq 0 T) + sumf (fun b => share_in (fun i => negb (e i)) (sel b)) (seq 0 T) ==
     Qn (length (filter (fun b => negb (length (sel b) =? 0)) (seq 0 T))))%Q).
  { rewrite <- sumf_plus, <- sumf_count. apply sumf_ext. intros b _. unfold share_in.
    destruct (Nat.eqb_spec (length (sel b)) 0) as [E|E].
    - apply length_zero_iff_nil in E. rewrite E. cbn [filter length negb Qb]. unfold Qdiv. rewrite Qn_0, Qmult_0_l. reflexivity.
    - cbn [negb Qb]. assert (L : length (sel b) = length (filter e (sel b)) + length (filter (fun i => negb (e i)) (sel b))).
      { generalize (sel b). intro l. induction l as [|a l IH]; cbn; [reflexivity|]. destruct (e a); cbn; lia. }
      assert (Z : ~ (Qn (length (sel b)) == 0)%Q) by now apply Qn_neq0.
      assert (QL : (Qn (length (sel b)) == Qn (length (filter e (sel b))) + Qn (length (filter (fun i => negb (e i)) (sel b))))%Q)
        by (rewrite L at 1; apply Qn_plus).
      unfold Qdiv. rewrite <- Qmult_plus_distr_l, <- QL. field. exact Z. }
  unfold Qdiv. rewrite <- Qmult_plus_distr_l, E. reflexivity.
Qed.
Lemma keeping_one : all_keep T sel -> (keeping T sel == 1)%Q.
Proof.
  intros [_ K]. unfold keeping. assert (E : filter (fun b => negb (length (sel b) =? 0)) (seq 0 T) = seq 0 T).
  { assert (G : forall l, (forall b, In b l -> sel b <> []) -> filter (fun b => negb (length (sel b) =? 0)) l = l).
    { induction l as [|b l IH]; intro H; cbn; [reflexivity|]. assert (sel b <> []) by (apply H; now left).
      destruct (sel b) eqn:Eb; [congruence|]. cbn. f_equal. apply IH. intros; apply H; now right. }
    apply G. intros b Hb. apply K. apply in_seq in Hb. lia. }
  rewrite E, seq_length. field. apply Qn_neq0. lia.
Qed.

(** ** Expectation *)
Lemma py_exp_all : all_keep T sel -> exists s, py_exp ts data N y depth m Sv x = Some s /\ (s == mean_of_means T sel y)%Q.
Proof.
  intros [_ K]. unfold py_exp.
  assert (G : forall bs c, (forall b, In b bs -> sel b <> []) -> exists s,
    fold_left (fun a b => nadd a (py_mean y (sel b))) bs (Some c) = Some s /\
    (s == c + sumf (fun b => sumf y (sel b) / Qn (length (sel b))) bs)%Q).
  { induction bs as [|b bs IH]; intros c H; cbn [fold_left sumf]; [exists c; split; [reflexivity|lra]|].
    unfold py_mean at 2. destruct (Nat.eqb_spec (length (sel b)) 0) as [E|E].
    - exfalso. apply (H b (or_introl eq_refl)). now apply length_zero_iff_nil.
    - cbn [nadd]. destruct (IH (c + sumf y (sel b) / Qn (length (sel b)))%Q) as [s [Es Hs]]; [intros; apply H; now right|].
      exists s. split; [exact Es|]. rewrite Hs. lra. }
  destruct (G (seq 0 T) 0%Q) as [s [Es Hs]]; [intros b Hb; apply K; apply in_seq in Hb; lia|]. rewrite Es. cbn [over].
  destruct (Nat.eqb_spec T 0); [lia|]. eexists. split; [reflexivity|]. unfold mean_of_means. rewrite Hs, Qplus_0_l. reflexivity.
Qed.
Lemma py_exp_none : (exists b, b < T /\ sel b = []) -> py_exp ts data N y depth m Sv x = None.
Proof.
  intros [b [Hb E]]. unfold py_exp.
  assert (G : forall bs a, a = None \/ In b bs -> fold_left (fun a b => nadd a (py_mean y (sel b))) bs a = None).
  { induction bs as [|c bs IH]; intros a H; cbn [fold_left]; [destruct H as [H|[]]; exact H|].
    apply IH. destruct H as [->|[->|H]]; [now left| |now right]. left. unfold py_mean. rewrite E. cbn. now destruct a. }
  rewrite G; [reflexivity|]. right. apply in_seq. lia.
Qed.

(** ** Quantile *)
Variable argsort : list Q -> list nat.
Hypothesis Hsort : sorting argsort.
Lemma py_quantile_eq q : exists l, py_quantile ts data N y depth m Sv argsort q x = weighted_percentile argsort l q /\ fair l /\
  forall p, weighted l p <-> exists i v, p = (y i, v) /\ py_weight ts data N depth m Sv x i = Some v /\ chosen T sel i.
Proof.
  unfold py_quantile. destruct (Nat.eqb_spec T 0); [lia|].
  set (w i := match py_weight ts data N depth m Sv x i with Some v => v | None => 0%Q end).
  assert (W : forall i, py_weight ts data N depth m Sv x i = Some (w i) /\ (w i == weight T sel i)%Q).
  { intro i. unfold w. destruct (py_weight_eq i) as [v [E Hv]]. rewrite E. now split. }
  exists (map (fun i => (y i, w i)) (seq 0 N)). split; [|split].
  - rewrite <- percentile_numbers. f_equal. unfold numbers. rewrite map_map. cbn [fst snd]. apply map_ext. intro i. now rewrite (proj1 (W i)).
  - intros p Hp. apply in_map_iff in Hp. destruct Hp as [i [<- _]]. cbn [snd]. rewrite (proj2 (W i)). apply weight_nonneg.
  - intro p. unfold weighted. rewrite in_map_iff. split.
    + intros [[i [<- Hi]] Hp]. cbn [snd] in Hp. exists i, (w i). split; [reflexivity|]. split; [apply W|].
      rewrite (proj2 (W i)) in Hp. now apply (weight_pos_iff T sel i HT) in Hp.
    + intros [i [v [-> [Hv Hc]]]]. rewrite (proj1 (W i)) in Hv. injection Hv as <-. split.
      * exists i. split; [reflexivity|]. destruct Hc as [b [_ Hb]]. apply sel_in in Hb. apply in_seq. lia.
      * cbn [snd]. rewrite (proj2 (W i)). now apply weight_pos_iff.
Qed.
Lemma py_quantile_defined q : (exists r, py_quantile ts data N y depth m Sv argsort q x = Some r) <-> percentage q /\ exists b, b < T /\ sel b <> [].
Proof.
  destruct (py_quantile_eq q) as [l [E [Hf Hw]]]. rewrite E.
  rewrite (percentile_defined argsort Hsort (weighted_percentile argsort) (or_introl eq_refl) l Hf).
  split; intros [H1 H2]; (split; [exact H1|]).
  - destruct H2 as [p Hp]. apply Hw in Hp. destruct Hp as [i [v [_ [_ [b [Hb Hi]]]]]]. exists b. split; [exact Hb|]. intro Z.
    rewrite Z in Hi. destruct Hi.
  - destruct H2 as [b [Hb Hne]]. destruct (sel b) as [|i r] eqn:Es; [congruence|]. destruct (py_weight_eq i) as [v [Ev _]].
    exists (y i, v). apply Hw. exists i, v. split; [reflexivity|]. split; [exact Ev|]. exists b. split; [exact Hb|]. rewrite Es. now left.
Qed.
Lemma py_quantile_between q r : py_quantile ts data N y depth m Sv argsort q x = Some r ->
  exists i j, chosen T sel i /\ chosen T sel j /\ (y i <= r <= y j)%Q.
Proof.
  destruct (py_quantile_eq q) as [l [E [Hf Hw]]]. rewrite E. intro H.
  destruct (percentile_between argsort Hsort _ (or_introl eq_refl) l Hf q r H) as [a [b [Ha [Hb Hr]]]].
  apply Hw in Ha, Hb. destruct Ha as [i [v [-> [_ Hi]]]]. destruct Hb as [j [v' [-> [_ Hj]]]]. exists i, j. auto.
Qed.
End Shaff.

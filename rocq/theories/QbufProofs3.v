(** Proofs about the quantiles of the differences: equal weights give equal percentiles, the tables of one observation. *)
From Coq Require Import Sorted Permutation.
From Verif Require Import Base TreeModel NopaModel ShapModel AxsModel RfModel RfSpec RfProofs QuantModel QuantSpec QuantProofs
  QuantForestProofs QbufModel QbufSpec QbufProofs QbufProofs2.
Local Open Scope nat_scope.

(** * Equal weights, equal percentiles *)
Definition oeq (a b : option Q) : Prop :=
  match a, b with Some p, Some q => (p == q)%Q | None, None => True | _, _ => False end.
Definition peq (a b : Q * Q) : Prop := fst a = fst b /\ (snd a == snd b)%Q.
Lemma peq_fst l l' : Forall2 peq l l' -> map fst l = map fst l'.
Proof. induction 1 as [|a b l l' [H _] _ IH]; cbn; congruence. Qed.
Lemma peq_length l l' : Forall2 peq l l' -> length l = length l'.
Proof. induction 1; cbn; congruence. Qed.
Lemma peq_nth l l' : Forall2 peq l l' -> forall i, peq (nth i l (0%Q, 0%Q)) (nth i l' (0%Q, 0%Q)).
Proof.
  induction 1 as [|a b l l' H _ IH]; intro i; destruct i as [|i]; cbn [nth]; try (split; reflexivity); [exact H|apply IH].
Qed.
Lemma peq_reorder argsort l l' : Forall2 peq l l' -> Forall2 peq (reorder argsort l) (reorder argsort l').
Proof.
  intro H. unfold reorder. rewrite <- (peq_fst l l' H). generalize (argsort (map fst l)). intro s.
  induction s as [|i s IH]; cbn [map]; constructor; [now apply peq_nth|exact IH].
Qed.
Lemma peq_nonzero l l' : Forall2 peq l l' -> Forall2 peq (nonzero l) (nonzero l').
Proof.
  unfold nonzero. induction 1 as [|a b l l' H _ IH]; cbn [filter]; [constructor|].
  assert (E : qeqb (snd a) 0 = qeqb (snd b) 0) by (destruct H as [_ ->]; reflexivity). rewrite E.
  destruct (negb (qeqb (snd b) 0)); [now constructor|exact IH].
Qed.
Lemma peq_cumsum l l' : Forall2 peq l l' -> forall c c', (c == c')%Q -> Forall2 Qeq (cumsum c (map snd l)) (cumsum c' (map snd l')).
Proof.
  induction 1 as [|a b l l' H _ IH]; intros c c' Hc; cbn [map cumsum]; [constructor|].
  destruct H as [_ H]. assert (E : (c + snd a == c' + snd b)%Q) by now rewrite Hc, H. constructor; [exact E|now apply IH].
Qed.
Lemma qeq_last l l' : Forall2 Qeq l l' -> (last l 0 == last l' 0)%Q.
Proof.
  induction 1 as [|a b l l' H F IH]; [reflexivity|]. cbn [last]. destruct F; [exact H|exact IH].
Qed.
Lemma peq_partial l l' : Forall2 peq l l' -> Forall2 Qeq (partial_sum (map snd l)) (partial_sum (map snd l')).
Proof.
  intro H. unfold partial_sum. pose proof (peq_cumsum l l' H 0%Q 0%Q (Qeq_refl 0)) as C. pose proof (qeq_last _ _ C) as L.
  revert L. generalize (last (cumsum 0 (map snd l)) 0%Q) (last (cumsum 0 (map snd l')) 0%Q). intros t t' Ht.
  revert C. generalize (cumsum 0 (map snd l)) (cumsum 0 (map snd l')). intros c c' C. revert l l' H.
  induction C as [|a b c c' Hab _ IH]; intros l l' H; cbn [combine map]; [constructor|].
  destruct H as [|p p' l l' Hp H]; cbn [combine map]; [constructor|]. constructor; [|now apply IH].
  cbn [fst snd]. destruct Hp as [_ Hp]. now rewrite Ht, Hab, Hp.
Qed.
Lemma qeq_search l l' q : Forall2 Qeq l l' -> searchsorted l q = searchsorted l' q.
Proof.
  induction 1 as [|a b l l' H _ IH]; cbn [searchsorted]; [reflexivity|].
  assert (E : qltb a q = qltb b q) by now rewrite H. rewrite E, IH. reflexivity.
Qed.
Lemma qeq_nth l l' : Forall2 Qeq l l' -> forall i, (nth i l 0 == nth i l' 0)%Q.
Proof. induction 1 as [|a b l l' H _ IH]; intro i; destruct i as [|i]; cbn [nth]; try reflexivity; [exact H|apply IH]. Qed.
Lemma peq_sorted l l' q : Forall2 peq l l' -> oeq (percentile_sorted l q) (percentile_sorted l' q).
Proof.
  intro H. unfold percentile_sorted. pose proof (peq_length l l' H) as L. pose proof (peq_fst l l' H) as F.
  pose proof (peq_partial l l' H) as P. pose proof (qeq_search _ _ q P) as S. pose proof (qeq_nth _ _ P) as Nt.
  destruct l as [|a l], l' as [|b l']; [exact I|inversion H|inversion H|].
  rewrite <- S, <- L, <- F. destruct (_ =? length (a :: l)); [reflexivity|]. destruct (_ =? 0); [reflexivity|].
  cbn [oeq]. rewrite !Nt. reflexivity.
Qed.
Lemma peq_percentile argsort l l' q : Forall2 peq l l' -> oeq (weighted_percentile argsort l q) (weighted_percentile argsort l' q).
Proof.
  intro H. unfold weighted_percentile. destruct (_ || _); [exact I|]. apply peq_sorted, peq_nonzero, peq_reorder, H.
Qed.

(** * One observation *)
Section Diff.
Variables (M : fmem) (data : nat -> pt) (N : nat) (Y : list Q) (depth : nat) (m : Z).
Variables (argsort : list Q -> list nat) (q : Q).
Hypothesis Hsort : sorting argsort.
Hypothesis HY : N <= length Y.
Variables (Sv : list nat) (x : pt) (yx : Q).
Notation T := (F_trees M).
Notation vs := (selected M (fun R => vec_step R Sv x data) (cutoff N m) depth N).

Lemma sample_pass size l : NoDup l -> (forall i, In i l -> i < N) -> forall st, exists w d,
  passes (diff_sample Y yx size) l st = Gives (w, d) /\
  (forall i, w i = if memb i l then nadd (fst st i) (Some (1 / Qn size)%Q) else fst st i) /\
  (forall i, d i = if memb i l then (yx - target Y i)%Q else snd st i).
Proof.
  induction l as [|b l IH]; intros ND Hlt st; cbn [passes].
  - exists (fst st), (snd st). split; [now destruct st|]. split; reflexivity.
  - inversion ND as [|? ? Hb ND']; subst. unfold diff_sample at 1.
    destruct (nth_error Y b) as [yb|] eqn:E; [|apply nth_error_None in E; specialize (Hlt b (or_introl eq_refl)); lia].
    cbn [next].
    destruct (IH ND' (fun i Hi => Hlt i (or_intror Hi)) (upd (fst st) b (nadd (fst st b) (Some (1 / Qn size)%Q)), upd (snd st) b (yx - yb)%Q))
      as [w [d [E' [Hw Hd]]]]. cbn [fst snd] in Hw, Hd.
    exists w, d. split; [exact E'|]. split; intro i; [rewrite Hw|rewrite Hd];
      (destruct (memb_spec i l) as [Hi|Hi]; destruct (memb_spec i (b :: l)) as [Hj|Hj]; cbn in Hj; try tauto).
    + assert (i <> b) by (intro; subst; tauto). now rewrite upd_other.
    + destruct Hj as [->|Hj]; [now rewrite upd_same|tauto].
    + rewrite upd_other; [reflexivity|]. intro; subst; tauto.
    + destruct Hj as [->|Hj]; [|tauto]. rewrite upd_same. unfold target. f_equal. now rewrite (nth_error_nth Y i 0%Q E).
    + rewrite upd_other; [reflexivity|]. intro; subst; tauto.
Qed.
Lemma trees_pass bs : forall st, exists w d,
  passes (diff_tree M data N Y depth m Sv x yx) bs st = Gives (w, d) /\
  (forall i a, fst st i = Some a -> exists c, w i = Some c /\ (c == a + sumf (fun l => if memb i l then 1 / Qn (length l) else 0) (map vs bs))%Q) /\
  (forall i, d i = if existsb (memb i) (map vs bs) then (yx - target Y i)%Q else snd st i).
Proof.
  induction bs as [|b bs IH]; intro st; cbn [passes].
  - exists (fst st), (snd st). split; [now destruct st|]. split; [|reflexivity]. intros i a H. exists a. split; [exact H|]. cbn. lra.
  - unfold diff_tree at 1.
    destruct (sample_pass (length (vs b)) (vs b) (vs_nodup M data N depth (cutoff N m) Sv x b)
                (vs_lt M data N depth (cutoff N m) Sv x b) st) as [w [d [E [Hw Hd]]]].
    rewrite E. cbn [next]. destruct (IH (w, d)) as [w' [d' [E' [Hw' Hd']]]]. cbn [fst snd] in Hw', Hd'.
    exists w', d'. split; [exact E'|]. split.
    + intros i a Ha. specialize (Hw i). rewrite Ha in Hw. cbn [map sumf]. destruct (memb i (vs b)); cbn [nadd] in Hw.
      * destruct (Hw' i _ Hw) as [c [Hc Ec]]. exists c. split; [exact Hc|]. rewrite Ec. lra.
      * destruct (Hw' i _ Hw) as [c [Hc Ec]]. exists c. split; [exact Hc|]. rewrite Ec. lra.
    + intro i. cbn [map existsb]. rewrite Hd', Hd. destruct (memb i (vs b)); cbn [orb]; [now destruct (existsb _ _)|reflexivity].
Qed.
Notation one := (diff_one M data N Y depth m argsort q Sv x yx (fun _ => Some 0%Q)).
Lemma diff_one_value : 0 < T -> exists r w, one = Gives (r, w) /\
  oeq r (compute_quantile_diff M data (target Y) N depth (cutoff N m) Sv x yx argsort q).
Proof.
  intro HT. unfold diff_one. destruct (trees_pass (seq 0 T) (@pair (nat -> num) (nat -> Q) (fun _ => Some 0%Q) (fun _ => 0%Q))) as [w [d [E [Hw Hd]]]].
  rewrite E. cbn [next fst snd]. eexists. exists w. split; [reflexivity|].
  assert (G : forall s, exists l, map (fun i => (d i, over T (w i))) s = numbers l /\
    Forall2 peq l (map (fun i => (if existsb (memb i) (map vs (seq 0 T)) then (yx - target Y i)%Q else 0%Q,
       (sumf (fun l => if memb i l then 1 / Qn (length l) else 0) (map vs (seq 0 T)) / Qn T)%Q)) s)).
  { induction s as [|i s IH]; [exists []; split; [reflexivity|constructor]|]. destruct IH as [l [El Hl]].
    destruct (Hw i 0%Q eq_refl) as [c [Hc Ec]]. exists ((d i, (c / Qn T)%Q) :: l). cbn [map numbers fst snd]. split.
    - rewrite El, Hc. cbn [over]. destruct (Nat.eqb_spec T 0); [lia|reflexivity].
    - constructor; [|exact Hl]. split; cbn [fst snd]; [apply Hd|]. rewrite Ec, Qplus_0_l. reflexivity. }
  destruct (G (seq 0 N)) as [l [El Hl]]. rewrite El, percentile_numbers. unfold compute_quantile_diff. now apply peq_percentile.
Qed.
Lemma diff_one_none : T = 0 -> 0 < N -> percentage q -> exists w, one = Gives (Some 0%Q, w).
Proof.
  intros HT HN Hq. unfold diff_one. destruct (trees_pass (seq 0 T) (@pair (nat -> num) (nat -> Q) (fun _ => Some 0%Q) (fun _ => 0%Q))) as [w [d [E [Hw Hd]]]].
  rewrite E. cbn [next fst snd]. exists w. do 2 f_equal. rewrite HT in *. cbn [seq map existsb snd] in Hd.
  destruct (percentile_no_numbers argsort (map (fun i => (d i, over 0 (w i))) (seq 0 N)) q Hsort Hq) as [v [Ev [Hv _]]].
  - destruct N; [lia|discriminate].
  - intros p Hp. apply in_map_iff in Hp. destruct Hp as [i [<- _]]. cbn [snd over]. now destruct (w i).
  - rewrite Ev. f_equal. rewrite map_map in Hv. apply in_map_iff in Hv. destruct Hv as [i [<- _]]. apply Hd.
Qed.
End Diff.

(** * The loop *)
Section Batch.
Variables (M : fmem) (data : nat -> pt) (N : nat) (Y : list Q) (depth : nat) (m : Z).
Variables (argsort : list Q -> list nat) (q : Q).
Hypothesis Hsort : sorting argsort.
Variable strict : bool.
Notation T := (F_trees M).
Notation vs Sv x := (selected M (fun R => vec_step R Sv x data) (cutoff N m) depth N).
Notation one Sv x yx := (diff_one M data N Y depth m argsort q Sv x yx (fun _ => Some 0%Q)).
Notation batch := (diff_batch M data N Y depth m argsort q strict).

Definition dval (Ss : list (list nat)) (yX : list Q) (i : nat) (x : pt) : ending Q :=
  match nth_error Ss i, nth_error yX i with
  | Some Sv, Some yx => next (one Sv x yx) (fun rw => caught strict (fst rw))
  | _, _ => Strays end.
Lemma diff_rows X yX Ss : batch X yX Ss = rows_from (dval Ss yX) 0 X.
Proof.
  unfold diff_batch. apply batch_rows. intros [f A] i x [H1 [H2 H3]]. cbn [fst snd] in *. unfold dval, diff_pass.
  destruct (nth_error Ss i) as [Sv|]; [|reflexivity]. destruct (nth_error yX i) as [yx|]; [|reflexivity]. cbn [fst snd].
  rewrite H1. destruct (one Sv x yx) as [[r w]| |]; cbn [next fst snd]; [|reflexivity|reflexivity].
  destruct (caught strict r) as [v| |]; cbn [next]; [|reflexivity|reflexivity].
  eexists. split; [reflexivity|]. intros j Hj [K1 [K2 K3]]. unfold fresh_at. cbn [a_weights a_samples a_sub]. now rewrite !upd_other.
Qed.
Lemma diff_single X yX Ss v i x yx Sv : batch X yX Ss = Gives v -> nth_error X i = Some x -> nth_error Ss i = Some Sv ->
  nth_error yX i = Some yx -> batch [x] [yx] [Sv] = Gives [nth i v 0%Q].
Proof.
  rewrite !diff_rows. intros H Hx HS Hy. destruct (rows_given (dval Ss yX) X 0 v H) as [_ Hi].
  specialize (Hi i x Hx). cbn [Nat.add] in Hi. unfold dval in Hi at 1. rewrite HS, Hy in Hi.
  cbn [rows_from]. unfold dval at 1. cbn [nth_error]. now rewrite Hi.
Qed.
Lemma dval_value Ss yX i x Sv yx : N <= length Y -> 0 < T -> nth_error Ss i = Some Sv -> nth_error yX i = Some yx ->
  match compute_quantile_diff M data (target Y) N depth (cutoff N m) Sv x yx argsort q with
  | Some r => exists v, dval Ss yX i x = Gives v /\ (v == r)%Q
  | None => dval Ss yX i x = if strict then Raises else Gives 0%Q
  end.
Proof.
  intros HY HT HS Hy. unfold dval. rewrite HS, Hy.
  destruct (diff_one_value M data N Y depth m argsort q HY Sv x yx HT) as [r [w [E Hr]]]. rewrite E. cbn [next fst].
  destruct r as [r|], (compute_quantile_diff _ _ _ _ _ _ _ _ _ _ _) as [r'|]; cbn [oeq] in Hr; try contradiction.
  - exists r. split; [reflexivity|exact Hr].
  - reflexivity.
Qed.
Lemma diff_entries X yX Ss : N <= length Y -> 0 < T -> length X <= length Ss -> length X <= length yX -> percentage q ->
  (forall i x Sv, nth_error X i = Some x -> nth_error Ss i = Some Sv -> exists b, b < T /\ vs Sv x b <> []) ->
  exists v, batch X yX Ss = Gives v /\ length v = length X /\
    forall i x Sv yx, nth_error X i = Some x -> nth_error Ss i = Some Sv -> nth_error yX i = Some yx ->
      exists r, compute_quantile_diff M data (target Y) N depth (cutoff N m) Sv x yx argsort q = Some r /\ (nth i v 0 == r)%Q.
Proof.
  intros HY HT HS Hy Hq Hs.
  assert (V : forall i x Sv yx, nth_error X i = Some x -> nth_error Ss i = Some Sv -> nth_error yX i = Some yx ->
    exists r v, compute_quantile_diff M data (target Y) N depth (cutoff N m) Sv x yx argsort q = Some r /\
      dval Ss yX i x = Gives v /\ (v == r)%Q).
  { intros i x Sv yx Ex ES Ey. pose proof (dval_value Ss yX i x Sv yx HY HT ES Ey) as D.
    destruct (proj2 (diff_defined M data (target Y) N depth (cutoff N m) Sv x yx argsort Hsort HT q) (conj Hq (Hs i x Sv Ex ES))) as [r Er].
    rewrite Er in *. destruct D as [v [Dv Hv]]. eauto. }
  rewrite diff_rows. destruct (rows_all (dval Ss yX) X 0) as [v [E [Hl Hi]]].
  - intros i x Hx. assert (i < length X) by (apply nth_error_Some; congruence).
    destruct (nth_error Ss i) as [Sv|] eqn:ES; [|apply nth_error_None in ES; lia].
    destruct (nth_error yX i) as [yx|] eqn:Ey; [|apply nth_error_None in Ey; lia].
    destruct (V i x Sv yx Hx ES Ey) as [r [w [_ [Hw _]]]]. now exists w.
  - exists v. split; [exact E|]. split; [exact Hl|]. intros i x Sv yx Hx ES Ey.
    destruct (V i x Sv yx Hx ES Ey) as [r [w [Hr [Hw Ew]]]]. exists r. split; [exact Hr|].
    specialize (Hi i x Hx). cbn [Nat.add] in Hi. rewrite Hi in Hw. injection Hw as ->. exact Ew.
Qed.
(** the value of one row without a sample, or for an invalid percentage *)
Lemma diff_missing x yx Sv : N <= length Y -> 0 < T -> ~ percentage q \/ (forall b, b < T -> vs Sv x b = []) ->
  batch [x] [yx] [Sv] = if strict then Raises else Gives [0%Q].
Proof.
  intros HY HT H. rewrite diff_rows. cbn [rows_from].
  pose proof (dval_value [Sv] [yx] 0 x Sv yx HY HT eq_refl eq_refl) as D.
  destruct (compute_quantile_diff M data (target Y) N depth (cutoff N m) Sv x yx argsort q) as [r|] eqn:E.
  - exfalso. destruct (proj1 (diff_defined M data (target Y) N depth (cutoff N m) Sv x yx argsort Hsort HT q) (ex_intro _ r E)) as [Hq [b [Hb Hne]]].
    destruct H as [H|H]; [now apply H|]. now apply Hne, H.
  - rewrite D. now destruct strict.
Qed.
Lemma diff_raises X yX Ss i x Sv : strict = true -> N <= length Y -> 0 < T -> length X <= length Ss -> length X <= length yX ->
  nth_error X i = Some x -> nth_error Ss i = Some Sv -> ~ percentage q \/ (forall b, b < T -> vs Sv x b = []) ->
  batch X yX Ss = Raises.
Proof.
  intros Hst HY HT HS Hy Hx ES H. rewrite diff_rows.
  assert (R : forall X k, k + length X <= length Ss -> k + length X <= length yX -> 
     (exists v, rows_from (dval Ss yX) k X = Gives v) \/ rows_from (dval Ss yX) k X = Raises).
  { clear X x i HS Hy Hx ES H Sv. induction X as [|x X IH]; intros k H1 H2; cbn [rows_from]; [left; eauto|]. cbn [length] in *.
    destruct (nth_error Ss k) as [Sv|] eqn:ES; [|apply nth_error_None in ES; lia].
    destruct (nth_error yX k) as [yx|] eqn:Ey; [|apply nth_error_None in Ey; lia].
    assert (D : (exists v, dval Ss yX k x = Gives v) \/ dval Ss yX k x = Raises).
    { unfold dval. rewrite ES, Ey. destruct (diff_one_value M data N Y depth m argsort q HY Sv x yx HT) as [r [w [E _]]]. rewrite E.
      cbn [next fst]. unfold caught. rewrite Hst. destruct r; eauto. }
    destruct D as [[v D]|D]; rewrite D; cbn [next]; [|now right].
    destruct (IH (S k)) as [[l El]|El]; try lia; rewrite El; cbn [next]; eauto. }
  destruct (R X 0) as [[v Ev]|Er]; [cbn; lia|cbn; lia| |exact Er].
  exfalso. destruct (rows_given _ X 0 v Ev) as [_ Hi]. specialize (Hi i x Hx). cbn [Nat.add] in Hi.
  assert (i < length X) by (apply nth_error_Some; congruence).
  destruct (nth_error yX i) as [yx|] eqn:Ey; [|apply nth_error_None in Ey; lia].
  assert (D : batch [x] [yx] [Sv] = Raises) by (rewrite diff_missing by assumption; now rewrite Hst).
  rewrite diff_rows in D. cbn [rows_from] in D. unfold dval in D, Hi. cbn [nth_error] in D. rewrite ES, Ey in Hi. rewrite Hi in D.
  discriminate D.
Qed.
End Batch.

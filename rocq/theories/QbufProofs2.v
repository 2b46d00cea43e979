(** Proofs about the loops over the observations: every row of the buffers is fresh when its pass begins. *)
From Coq Require Import Sorted Permutation.
From Verif Require Import Base TreeModel NopaModel ShapModel AxsModel RfModel RfSpec RfProofs QuantModel QuantSpec QuantProofs
  QuantForestProofs QbufModel QbufSpec QbufProofs.
Local Open Scope nat_scope.

Definition fresh_at (A : arrays) (i : nat) : Prop :=
  a_weights A i = (fun _ => Some 0%Q) /\ a_samples A i = (fun _ => 1%Q) /\ a_sub A i = (fun _ => 1%Q).

(** * Any loop whose pass only depends on its own row *)
Section Loop.
Variable pass : (nat -> Q) * arrays -> nat * pt -> ending ((nat -> Q) * arrays).
Variable val : nat -> pt -> ending Q.
Hypothesis local : forall st i x, fresh_at (snd st) i ->
  match val i x with
  | Gives v => exists A, pass st (i, x) = Gives (upd (fst st) i v, A) /\ forall j, j <> i -> fresh_at (snd st) j -> fresh_at A j
  | Raises => pass st (i, x) = Raises
  | Strays => pass st (i, x) = Strays
  end.
Fixpoint rows_from (i : nat) (X : list pt) : ending (list Q) :=
  match X with
  | [] => Gives []
  | x :: r => next (val i x) (fun v => next (rows_from (S i) r) (fun l => Gives (v :: l)))
  end.
Lemma loop_rows X : forall k st, (forall j, k <= j -> fresh_at (snd st) j) ->
  match rows_from k X with
  | Gives l => exists A f, passes pass (combine (seq k (length X)) X) st = Gives (f, A) /\ map f (seq k (length X)) = l /\
                 forall j, j < k -> f j = fst st j
  | Raises => passes pass (combine (seq k (length X)) X) st = Raises
  | Strays => passes pass (combine (seq k (length X)) X) st = Strays
  end.
Proof.
  induction X as [|x X IH]; intros k st Hf; cbn [rows_from length seq combine passes].
  - exists (snd st), (fst st). split; [now destruct st|]. split; [reflexivity|auto].
  - pose proof (local st k x (Hf k (le_n k))) as L. destruct (val k x) as [v| |]; cbn [next].
    + destruct L as [A [E HA]]. rewrite E. cbn [next].
      specialize (IH (S k) (upd (fst st) k v, A)). cbn [fst snd] in IH.
      assert (HF : forall j, S k <= j -> fresh_at A j) by (intros j Hj; apply HA; [lia|apply Hf; lia]).
      specialize (IH HF). destruct (rows_from (S k) X) as [l| |]; cbn [next].
      * destruct IH as [A' [f [E' [Hl Hk]]]]. exists A', f. split; [exact E'|]. split.
        -- cbn [map]. rewrite Hl, (Hk k) by lia. now rewrite upd_same.
        -- intros j Hj. rewrite Hk by lia. apply upd_other. lia.
      * exact IH.
      * exact IH.
    + now rewrite L.
    + now rewrite L.
Qed.
Lemma batch_rows X : next (passes pass (indexed X) (fun _ => 0%Q, fresh)) (fun st => Gives (map (fst st) (seq 0 (length X)))) = rows_from 0 X.
Proof.
  pose proof (loop_rows X 0 (fun _ => 0%Q, fresh)) as H. unfold indexed.
  assert (F : forall j, 0 <= j -> fresh_at (snd (fun _ : nat => 0%Q, fresh)) j) by (intros j _; repeat split).
  specialize (H F). destruct (rows_from 0 X) as [l| |].
  - destruct H as [A [f [E [Hl _]]]]. rewrite E. cbn [next fst]. now rewrite Hl.
  - now rewrite H.
  - now rewrite H.
Qed.

Lemma rows_all X : forall k, (forall i x, nth_error X i = Some x -> exists v, val (k + i) x = Gives v) ->
  exists l, rows_from k X = Gives l /\ length l = length X /\
    forall i x, nth_error X i = Some x -> val (k + i) x = Gives (nth i l 0%Q).
Proof.
  induction X as [|x X IH]; intros k H; cbn [rows_from length].
  - exists []. split; [reflexivity|]. split; [reflexivity|]. intros [|i] x E; discriminate E.
  - destruct (H 0 x eq_refl) as [v Ev]. rewrite Nat.add_0_r in Ev. rewrite Ev. cbn [next].
    destruct (IH (S k)) as [l [E [Hl Hi]]].
    + intros i z Hz. destruct (H (S i) z Hz) as [w Hw]. exists w. now replace (S k + i) with (k + S i) by lia.
    + rewrite E. cbn [next]. exists (v :: l). split; [reflexivity|]. split; [cbn; congruence|].
      intros [|i] z Hz; cbn [nth].
      * injection Hz as <-. now rewrite Nat.add_0_r.
      * replace (k + S i) with (S k + i) by lia. now apply Hi.
Qed.
Lemma rows_given X : forall k l, rows_from k X = Gives l -> length l = length X /\
  forall i x, nth_error X i = Some x -> val (k + i) x = Gives (nth i l 0%Q).
Proof.
  induction X as [|x X IH]; intros k l H; cbn [rows_from] in H.
  - injection H as <-. split; [reflexivity|]. intros [|i] x E; discriminate E.
  - destruct (val k x) as [v| |] eqn:Ev; cbn [next] in H; [|discriminate H|discriminate H].
    destruct (rows_from (S k) X) as [r| |] eqn:Er; cbn [next] in H; [|discriminate H|discriminate H].
    injection H as <-. destruct (IH (S k) r Er) as [Hl Hi]. split; [cbn; congruence|].
    intros [|i] z Hz; cbn [nth].
    + injection Hz as <-. now rewrite Nat.add_0_r.
    + replace (k + S i) with (S k + i) by lia. now apply Hi.
Qed.
(** the first row that does not give a value decides *)
Lemma rows_first X e : (forall v, e <> Gives v) -> forall k i x, nth_error X i = Some x -> val (k + i) x = e ->
  (forall j z, j < i -> nth_error X j = Some z -> exists v, val (k + j) z = Gives v) ->
  rows_from k X = match e with Raises => Raises | _ => Strays end.
Proof.
  intro He. induction X as [|x X IH]; intros k i z Hz E Hb; [destruct i; discriminate Hz|]. cbn [rows_from]. destruct i as [|i].
  - injection Hz as ->. rewrite Nat.add_0_r in E. rewrite E. destruct e as [v| |]; [destruct (He v eq_refl)|reflexivity|reflexivity].
  - destruct (Hb 0 x (Nat.lt_0_succ i) eq_refl) as [v Ev]. rewrite Nat.add_0_r in Ev. rewrite Ev. cbn [next].
    rewrite (IH (S k) i z Hz).
    + destruct e as [w| |]; [destruct (He w eq_refl)|reflexivity|reflexivity].
    + now replace (S k + i) with (k + S i) by lia.
    + intros j y Hj Hy. destruct (Hb (S j) y) as [w Hw]; [lia|exact Hy|]. exists w. now replace (S k + j) with (k + S j) by lia.
Qed.
End Loop.

(** * The quantiles *)
Section Quantile.
Variables (M : fmem) (data : nat -> pt) (N : nat) (Y : list Q) (depth : nat) (m : Z).
Variables (argsort : list Q -> list nat) (q : Q).
Hypothesis Hsort : sorting argsort.
Variable strict : bool.
Notation T := (F_trees M).
Notation us Sv x := (undo_selected (row_of M) data N depth (Z.to_nat m) Sv x).
Notation one Sv x := (fst (quantile_one M data N Y depth m argsort q Sv x (mkBufs (fun _ => Some 0%Q) (fun _ => 1%Q) (fun _ => 1%Q)))).
Notation batch := (quantile_batch M data N Y depth m argsort q strict).

Definition qval (Ss : list (list nat)) (i : nat) (x : pt) : ending Q :=
  match nth_error Ss i with None => Strays | Some Sv => caught strict (one Sv x) end.
Lemma quantile_rows X Ss : batch X Ss = rows_from (qval Ss) 0 X.
Proof.
  unfold quantile_batch. apply batch_rows. intros [f A] i x [H1 [H2 H3]]. cbn [fst snd] in *. unfold qval, quantile_pass.
  destruct (nth_error Ss i) as [Sv|]; [|reflexivity]. cbn [fst snd]. rewrite H1, H2, H3.
  destruct (quantile_one M data N Y depth m argsort q Sv x _) as [r u]. cbn [fst].
  destruct (caught strict r) as [v| |]; cbn [next]; [|reflexivity|reflexivity].
  eexists. split; [reflexivity|]. intros j Hj HA. unfold fresh_at. cbn [a_weights a_samples a_sub]. now rewrite !upd_other.
Qed.
Lemma quantile_single X Ss v i x Sv : batch X Ss = Gives v -> nth_error X i = Some x -> nth_error Ss i = Some Sv ->
  batch [x] [Sv] = Gives [nth i v 0%Q].
Proof.
  rewrite !quantile_rows. intros H Hx HS. destruct (rows_given (qval Ss) X 0 v H) as [_ Hi].
  specialize (Hi i x Hx). cbn [Nat.add] in Hi. unfold qval in Hi at 1. rewrite HS in Hi.
  cbn [rows_from]. unfold qval at 1. cbn [nth_error]. now rewrite Hi.
Qed.
Lemma quantile_entries X Ss : length Y = N -> 0 < N -> 0 < T -> (0 < m)%Z -> percentage q -> length X <= length Ss ->
  exists v, batch X Ss = Gives v /\ length v = length X /\
    forall i x Sv, nth_error X i = Some x -> nth_error Ss i = Some Sv ->
      compute_quantile (row_of M) T data (target Y) N depth (Z.to_nat m) Sv x argsort q = Some (nth i v 0%Q).
Proof.
  intros HY HN HT Hm Hq HL.
  assert (V : forall i x Sv, nth_error X i = Some x -> nth_error Ss i = Some Sv -> exists r,
    compute_quantile (row_of M) T data (target Y) N depth (Z.to_nat m) Sv x argsort q = Some r /\ qval Ss i x = Gives r).
  { intros i x Sv Hx HS. assert (Hm' : 0 < Z.to_nat m) by lia.
    destruct (proj2 (quantile_defined (row_of M) T data N depth (Z.to_nat m) Sv x (target Y) argsort Hsort q Hm' HN HT) Hq) as [r Hr].
    exists r. split; [exact Hr|]. unfold qval. rewrite HS, one_value; [now rewrite Hr|exact HY|].
    split; [exact HT|]. intros b _. now apply nonempty_enough. }
  rewrite quantile_rows. destruct (rows_all (qval Ss) X 0) as [v [E [Hl Hi]]].
  - intros i x Hx. destruct (nth_error Ss i) as [Sv|] eqn:HS.
    + destruct (V i x Sv Hx HS) as [r [_ Hr]]. now exists r.
    + exfalso. apply nth_error_None in HS. assert (i < length X) by (apply nth_error_Some; congruence). lia.
  - exists v. split; [exact E|]. split; [exact Hl|]. intros i x Sv Hx HS. destruct (V i x Sv Hx HS) as [r [Hr Hv]].
    specialize (Hi i x Hx). cbn [Nat.add] in Hi. rewrite Hi in Hv. injection Hv as ->. exact Hr.
Qed.
(** whatever the node size *)
Lemma quantile_any X Ss : length Y = N -> 0 < N -> percentage q -> length X <= length Ss ->
  exists v, batch X Ss = Gives v /\ length v = length X /\
    forall i x Sv, nth_error X i = Some x -> nth_error Ss i = Some Sv ->
      (all_keep T (us Sv x) ->
         compute_quantile (row_of M) T data (target Y) N depth (Z.to_nat m) Sv x argsort q = Some (nth i v 0%Q)) /\
      (~ all_keep T (us Sv x) -> smallest N (target Y) (nth i v 0%Q)).
Proof.
  intros HY HN Hq HL.
  assert (V : forall i x Sv, nth_error X i = Some x -> nth_error Ss i = Some Sv -> exists r, qval Ss i x = Gives r /\
    (all_keep T (us Sv x) -> compute_quantile (row_of M) T data (target Y) N depth (Z.to_nat m) Sv x argsort q = Some r) /\
    (~ all_keep T (us Sv x) -> smallest N (target Y) r)).
  { intros i x Sv Hx HS. unfold qval. rewrite HS. destruct (all_keep_dec M data N depth m Sv x) as [K|K].
    - rewrite one_value by assumption. destruct K as [HT Hk].
      destruct (weights_some (row_of M) T data N depth (Z.to_nat m) Sv x Hk HT) as [l [E [Hl Hw]]].
      assert (D : exists r, compute_quantile (row_of M) T data (target Y) N depth (Z.to_nat m) Sv x argsort q = Some r).
      { unfold compute_quantile. rewrite E.
        change (combine (map (target Y) (seq 0 N)) l) with (samples_of N (target Y) l).
        apply (percentile_defined argsort Hsort (weighted_percentile argsort) (or_introl eq_refl)).
        - now apply (fair_samples (row_of M) T data N depth (Z.to_nat m) Sv x).
        - split; [exact Hq|]. destruct (us Sv x 0) as [|j r] eqn:Es; [exfalso; now apply (Hk 0)|].
          exists (target Y j, nth j l 0%Q). apply (weighted_samples (row_of M) T data N depth (Z.to_nat m) Sv x (target Y) l); auto.
          exists j. split; [reflexivity|]. exists 0. split; [exact HT|]. rewrite Es. now left. }
      destruct D as [r Hr]. rewrite Hr. exists r. split; [reflexivity|]. split; [reflexivity|]. intro K. exfalso. apply K. now split.
    - destruct (one_empty M data N Y depth m argsort q Hsort Sv x HY HN Hq K) as [v [E Hv]]. rewrite E. exists v.
      split; [reflexivity|]. split; [|now intro]. intros [HT Hk]. exfalso. destruct K as [K|[b [Hb Eb]]]; [lia|now apply (Hk b)]. }
  rewrite quantile_rows. destruct (rows_all (qval Ss) X 0) as [v [E [Hl Hi]]].
  - intros i x Hx. destruct (nth_error Ss i) as [Sv|] eqn:HS.
    + destruct (V i x Sv Hx HS) as [r [Hr _]]. now exists r.
    + exfalso. apply nth_error_None in HS. assert (i < length X) by (apply nth_error_Some; congruence). lia.
  - exists v. split; [exact E|]. split; [exact Hl|]. intros i x Sv Hx HS. destruct (V i x Sv Hx HS) as [r [Hv Hr]].
    specialize (Hi i x Hx). cbn [Nat.add] in Hi. rewrite Hi in Hv. injection Hv as ->. exact Hr.
Qed.
Lemma quantile_invalid X Ss : ~ percentage q \/ length Y <> N \/ N = 0 -> X <> [] -> length X <= length Ss ->
  batch X Ss = if strict then Raises else Gives (repeat 0%Q (length X)).
Proof.
  intros Hb HX HL. rewrite quantile_rows.
  assert (V : forall i, i < length Ss -> forall x, qval Ss i x = if strict then Raises else Gives 0%Q).
  { intros i Hi x. unfold qval. destruct (nth_error Ss i) as [Sv|] eqn:E; [|apply nth_error_None in E; lia].
    now rewrite one_bad. }
  destruct strict.
  - destruct X as [|x X]; [congruence|]. cbn [rows_from]. rewrite V; [reflexivity|cbn in HL; lia].
  - assert (G : forall Z k, k + length Z <= length Ss -> rows_from (qval Ss) k Z = Gives (repeat 0%Q (length Z))).
    { induction Z as [|z Z IH]; intros k Hk; cbn [rows_from length repeat]; [reflexivity|]. cbn [length] in Hk.
      rewrite V by lia. cbn [next]. rewrite IH by lia. reflexivity. }
    apply G. cbn. exact HL.
Qed.
Lemma quantile_stray X Ss : length Ss < length X -> strict = false \/ (length Y = N /\ 0 < N /\ percentage q) -> batch X Ss = Strays.
Proof.
  intros HL H. rewrite quantile_rows. destruct (nth_error X (length Ss)) as [x|] eqn:Ex; [|apply nth_error_None in Ex; lia].
  apply (rows_first (qval Ss) X Strays) with (k := 0) (i := length Ss) (x := x).
  - intros v E. discriminate E.
  - exact Ex.
  - unfold qval. cbn [Nat.add]. now rewrite (proj2 (nth_error_None Ss (length Ss)) (le_n _)).
  - intros j z Hj Hz. cbn [Nat.add]. unfold qval. destruct (nth_error Ss j) as [Sv|] eqn:E; [|apply nth_error_None in E; lia].
    destruct H as [->|[HY [HN Hq]]]; [destruct (one Sv z); cbn; eauto|].
    destruct (quantile_any [z] [Sv] HY HN Hq (le_n _)) as [v [Hv _]]. rewrite quantile_rows in Hv.
    cbn [rows_from] in Hv. unfold qval at 1 in Hv. cbn [nth_error] in Hv.
    destruct (caught strict (one Sv z)) as [w| |]; cbn [next] in Hv; [now exists w|discriminate Hv|discriminate Hv].
Qed.
End Quantile.

(** C142-C144: the quantile methods, from the arrays of the trees to the returned arrays, and the methods over the Python estimators.
    [strict] tells whether a compiled function of type [double] hands exceptions on (Cython 3) or prints them and returns zero
    (Cython 0.29); the repository names no version, the theorems speak of both. *)
From Verif Require Import Base TreeModel TreeSpec PropertiesTree RfModel RfSpec RfProofs AxsModel QuantModel QuantSpec QuantProofs QuantForestProofs
  PropertiesRf PropertiesQuant QbufModel QbufSpec QbufProofs QbufProofs2 QbufProofs3 QbufProofs4.
Local Open Scope nat_scope.

(** what an ending shows, with reduced fractions, for examples *)
Definition shown (e : ending (list Q)) : ending (list Q) := match e with Gives l => Gives (map Qred l) | Raises => Raises | Strays => Strays end.
Definition ex_Y : list Q := [5; 1; 2; 0; 3; 9]%Q.
Definition ex_rows : list pt := [ex_point; ex_obs 9 9 9; ex_obs 0 9 9].
Definition ex_sets : list (list nat) := [[0; 2]; [0; 1; 2]; [1]].
Definition ex_batch m q strict := quantile_batch ex_mem ex_train 6 ex_Y 3 m argsort_up q strict ex_rows ex_sets.
(** three training samples only: the second tree keeps none for the second row *)
Definition ex_short m q strict := quantile_batch ex_mem ex_train 3 [5; 1; 2]%Q 3 m argsort_up q strict [ex_obs 9 9 9] [[0; 1; 2]].

(** C142: the compiled quantile method.  For a positive size and a percentage every entry is the weighted percentile of the targets over
    the samples that the rows of the trees select for that observation and that set ... *)
Theorem C142_entries : forall M data N Y depth m argsort q, sorting argsort -> forall strict X Ss,
  length Y = N -> 0 < N -> 0 < F_trees M -> (0 < m)%Z -> percentage q -> length X <= length Ss ->
  exists v, quantile_batch M data N Y depth m argsort q strict X Ss = Gives v /\ length v = length X /\
    forall i x Sv, nth_error X i = Some x -> nth_error Ss i = Some Sv ->
      compute_quantile (row_of M) (F_trees M) data (target Y) N depth (Z.to_nat m) Sv x argsort q = Some (nth i v 0%Q).
Proof. exact quantile_entries. Qed.
Print Assumptions C142_entries.
(** ... so it lies between the targets of two of them, *)
Theorem C142_between_partial : forall M data N Y depth m argsort q, sorting argsort -> forall strict X Ss v,
  length Y = N -> 0 < N -> 0 < F_trees M -> (0 < m)%Z -> percentage q -> length X <= length Ss ->
  quantile_batch M data N Y depth m argsort q strict X Ss = Gives v ->
  forall i x Sv, nth_error X i = Some x -> nth_error Ss i = Some Sv ->
  exists j k, chosen (F_trees M) (undo_selected (row_of M) data N depth (Z.to_nat m) Sv x) j /\
    chosen (F_trees M) (undo_selected (row_of M) data N depth (Z.to_nat m) Sv x) k /\ (target Y j <= nth i v 0 <= target Y k)%Q.
Proof.
  intros M data N Y depth m argsort q Hs strict X Ss v HY HN HT Hm Hq Hl E i x Sv Hx HS.
  destruct (C142_entries M data N Y depth m argsort q Hs strict X Ss HY HN HT Hm Hq Hl) as (v' & E' & _ & H).
  rewrite E in E'. injection E' as <-. exact (C62_quantile_between _ _ _ _ _ _ _ _ _ _ Hs _ _ (H i x Sv Hx HS)).
Qed.
Print Assumptions C142_between_partial.
(** and a larger percentage gives no smaller entry. *)
Theorem C142_monotone : forall M data N Y depth m argsort q q', sorting argsort -> forall strict X Ss v v',
  length Y = N -> 0 < N -> 0 < F_trees M -> (0 < m)%Z -> percentage q -> percentage q' -> (q <= q')%Q -> length X <= length Ss ->
  quantile_batch M data N Y depth m argsort q strict X Ss = Gives v -> quantile_batch M data N Y depth m argsort q' strict X Ss = Gives v' ->
  forall i, i < length X -> (nth i v 0 <= nth i v' 0)%Q.
Proof.
  intros M data N Y depth m argsort q q' Hs strict X Ss v v' HY HN HT Hm Hq Hq' Hle Hl E E' i Hi.
  destruct (C142_entries M data N Y depth m argsort q Hs strict X Ss HY HN HT Hm Hq Hl) as (w & F & _ & H).
  destruct (C142_entries M data N Y depth m argsort q' Hs strict X Ss HY HN HT Hm Hq' Hl) as (w' & F' & _ & H').
  rewrite E in F. injection F as <-. rewrite E' in F'. injection F' as <-.
  destruct (nth_error X i) as [x|] eqn:Hx; [|apply nth_error_None in Hx; lia].
  destruct (nth_error Ss i) as [Sv|] eqn:HS; [|apply nth_error_None in HS; lia].
  exact (C62_quantile_monotone _ _ _ _ _ _ _ _ _ _ Hs _ _ _ _ Hle (H i x Sv Hx HS) (H' i x Sv Hx HS)).
Qed.
Print Assumptions C142_monotone.
(** Whatever the arguments, an entry is what the method returns for that row alone: the arrays kept from row to row leak nothing. *)
Theorem C142_row_alone : forall M data N Y depth m argsort q strict X Ss v i x Sv,
  quantile_batch M data N Y depth m argsort q strict X Ss = Gives v -> nth_error X i = Some x -> nth_error Ss i = Some Sv ->
  quantile_batch M data N Y depth m argsort q strict [x] [Sv] = Gives [nth i v 0%Q].
Proof. exact quantile_single. Qed.
Print Assumptions C142_row_alone.
Lemma ex_percentage q : (0 <= q)%Q -> (q <= 100)%Q -> percentage q.
Proof. now split. Qed.
Example C142_example :
  length ex_Y = 6 /\ 0 < F_trees ex_mem /\ percentage 5 /\ percentage 50 /\ length ex_rows <= length ex_sets /\
  shown (ex_batch 1 5 true) = Gives [1; 0; 0]%Q /\
  shown (ex_batch 1 50 true) = Gives [7 # 3; 4 # 5; 9 # 4]%Q /\ shown (ex_batch 1 50 false) = shown (ex_batch 1 50 true) /\
  shown (ex_batch 4 50 true) <> shown (ex_batch 1 50 true).
Proof.
  split; [reflexivity|]. split; [vm_compute; lia|]. do 2 (split; [apply ex_percentage; lra|]). split; [vm_compute; lia|].
  do 3 (split; [vm_compute; reflexivity|]). vm_compute. discriminate.
Qed.
(** For any size: a row for which some tree keeps no sample (a size of zero or less) gets the smallest of all targets, whatever the percentage. *)
Theorem C142_any_size : forall M data N Y depth m argsort q, sorting argsort -> forall strict X Ss,
  length Y = N -> 0 < N -> percentage q -> length X <= length Ss ->
  exists v, quantile_batch M data N Y depth m argsort q strict X Ss = Gives v /\ length v = length X /\
    forall i x Sv, nth_error X i = Some x -> nth_error Ss i = Some Sv ->
      (all_keep (F_trees M) (undo_selected (row_of M) data N depth (Z.to_nat m) Sv x) ->
       compute_quantile (row_of M) (F_trees M) data (target Y) N depth (Z.to_nat m) Sv x argsort q = Some (nth i v 0%Q)) /\
      (~ all_keep (F_trees M) (undo_selected (row_of M) data N depth (Z.to_nat m) Sv x) -> smallest N (target Y) (nth i v 0%Q)).
Proof. exact quantile_any. Qed.
Print Assumptions C142_any_size.
(** So the entry need not lie between targets of selected samples. *)
Theorem C142_between_refuted : exists M data N Y depth m argsort q x Sv v,
  sorting argsort /\ length Y = N /\ 0 < N /\ percentage q /\ (0 <= m)%Z /\
  (forall strict, quantile_batch M data N Y depth m argsort q strict [x] [Sv] = Gives [v]) /\
  (exists j, chosen (F_trees M) (undo_selected (row_of M) data N depth (Z.to_nat m) Sv x) j) /\
  forall j, chosen (F_trees M) (undo_selected (row_of M) data N depth (Z.to_nat m) Sv x) j -> (v < target Y j)%Q.
Proof.
  exists ex_mem, ex_train, 3, [5; 1; 2]%Q, 3, 0%Z, argsort_up, 50%Q, (ex_obs 9 9 9), [0; 1; 2]. exists 1%Q.
  split; [apply sorting_up|]. split; [reflexivity|]. split; [lia|]. split; [apply ex_percentage; lra|]. split; [lia|].
  split; [intros []; vm_compute; reflexivity|].
  assert (E0 : undo_selected (row_of ex_mem) ex_train 3 3 (Z.to_nat 0) [0; 1; 2] (ex_obs 9 9 9) 0 = [2]) by (vm_compute; reflexivity).
  assert (E1 : undo_selected (row_of ex_mem) ex_train 3 3 (Z.to_nat 0) [0; 1; 2] (ex_obs 9 9 9) 1 = []) by (vm_compute; reflexivity).
  split.
  - exists 2, 0. rewrite E0. split; [vm_compute; lia|now left].
  - intros j (b & Hb & Hj). change (F_trees ex_mem) with 2 in Hb. assert (Hb' : b = 0 \/ b = 1) by lia. destruct Hb' as [->| ->].
    + rewrite E0 in Hj. destruct Hj as [<-|[]]. unfold target. cbn. lra.
    + rewrite E1 in Hj. destruct Hj.
Qed.
Print Assumptions C142_between_refuted.
Example C142_any_size_example : shown (ex_short 0 95 true) = Gives [1]%Q /\ shown (ex_short (-4) 95 true) = Gives [1]%Q /\ shown (ex_short 1 95 true) = Gives [2]%Q.
Proof. vm_compute. auto. Qed.
(** A number that is no percentage, targets that do not match the samples, no sample: raised or, unnoticed, all zero. *)
Theorem C142_invalid : forall M data N Y depth m argsort q, sorting argsort -> forall strict X Ss,
  ~ percentage q \/ length Y <> N \/ N = 0 -> X <> [] -> length X <= length Ss ->
  quantile_batch M data N Y depth m argsort q strict X Ss = (if strict then Raises else Gives (repeat 0%Q (length X))).
Proof. exact quantile_invalid. Qed.
Print Assumptions C142_invalid.
Theorem C142_too_few_sets : forall M data N Y depth m argsort q, sorting argsort -> forall strict X Ss,
  length Ss < length X -> strict = false \/ length Y = N /\ 0 < N /\ percentage q ->
  quantile_batch M data N Y depth m argsort q strict X Ss = Strays.
Proof. exact quantile_stray. Qed.
Print Assumptions C142_too_few_sets.
(** "an invalid percentage is refused": not where exceptions of compiled functions are printed *)
Theorem C142_refused_refuted : exists M data N Y depth m argsort q X Ss v,
  sorting argsort /\ length Y = N /\ ~ percentage q /\ (forall j, j < N -> (0 < target Y j)%Q) /\
  quantile_batch M data N Y depth m argsort q false X Ss = Gives v /\ In 0%Q v.
Proof.
  exists ex_mem, ex_train, 3, [5; 1; 2]%Q, 3, 1%Z, argsort_up, 150%Q, [ex_obs 9 9 9], [[0; 1; 2]], [0%Q].
  split; [apply sorting_up|]. split; [reflexivity|]. split; [intros [_ H]; lra|]. split.
  - intros j Hj. assert (j = 0 \/ j = 1 \/ j = 2) as [->|[->| ->]] by lia; unfold target; cbn; lra.
  - split; [vm_compute; reflexivity|now left].
Qed.
Print Assumptions C142_refused_refuted.
Example C142_invalid_example :
  ~ percentage 150 /\ ex_batch 1 150 true = Raises /\ ex_batch 1 150 false = Gives [0; 0; 0]%Q /\
  quantile_batch ex_mem ex_train 6 [5; 1; 2]%Q 3 1 argsort_up 50 true ex_rows ex_sets = Raises /\
  quantile_batch ex_mem ex_train 6 ex_Y 3 1 argsort_up 50 true ex_rows [[0; 2]] = Strays.
Proof. split; [intros [_ H]; lra|]. vm_compute. auto. Qed.

(** C143: the compiled quantile of the differences between the targets of the selected samples and that of the observation.  Every entry
    is the percentile of QuantModel.v (C64, C65) with the size read as unsigned: below zero it is above every number of samples ... *)
Theorem C143_entries_partial : forall M data N Y depth m argsort q, sorting argsort -> forall strict X yX Ss,
  N <= length Y -> 0 < F_trees M -> length X <= length Ss -> length X <= length yX -> percentage q ->
  (forall i x Sv, nth_error X i = Some x -> nth_error Ss i = Some Sv ->
     exists b, b < F_trees M /\ selected M (fun R => vec_step R Sv x data) (cutoff N m) depth N b <> []) ->
  exists v, diff_batch M data N Y depth m argsort q strict X yX Ss = Gives v /\ length v = length X /\
    forall i x Sv yx, nth_error X i = Some x -> nth_error Ss i = Some Sv -> nth_error yX i = Some yx ->
    exists r, compute_quantile_diff M data (target Y) N depth (cutoff N m) Sv x yx argsort q = Some r /\ (nth i v 0 == r)%Q.
Proof. exact diff_entries. Qed.
Print Assumptions C143_entries_partial.
Theorem C143_row_alone : forall M data N Y depth m argsort q strict X yX Ss v i x yx Sv,
  diff_batch M data N Y depth m argsort q strict X yX Ss = Gives v ->
  nth_error X i = Some x -> nth_error Ss i = Some Sv -> nth_error yX i = Some yx ->
  diff_batch M data N Y depth m argsort q strict [x] [yx] [Sv] = Gives [nth i v 0%Q].
Proof. exact diff_single. Qed.
Print Assumptions C143_row_alone.
(** ... without a selected sample, or for a number that is no percentage, the call raises or the entry is zero. *)
Theorem C143_missing : forall M data N Y depth m argsort q, sorting argsort -> forall strict x yx Sv,
  N <= length Y -> 0 < F_trees M ->
  ~ percentage q \/ (forall b, b < F_trees M -> selected M (fun R => vec_step R Sv x data) (cutoff N m) depth N b = []) ->
  diff_batch M data N Y depth m argsort q strict [x] [yx] [Sv] = (if strict then Raises else Gives [0%Q]).
Proof. exact diff_missing. Qed.
Print Assumptions C143_missing.
(** One such row makes the whole call raise where exceptions are handed on. *)
Theorem C143_raises : forall M data N Y depth m argsort q, sorting argsort -> forall X yX Ss i x Sv,
  N <= length Y -> 0 < F_trees M -> length X <= length Ss -> length X <= length yX ->
  nth_error X i = Some x -> nth_error Ss i = Some Sv ->
  ~ percentage q \/ (forall b, b < F_trees M -> selected M (fun R => vec_step R Sv x data) (cutoff N m) depth N b = []) ->
  diff_batch M data N Y depth m argsort q true X yX Ss = Raises.
Proof. intros. eapply diff_raises; eauto. Qed.
Print Assumptions C143_raises.
(** "an entry is a difference that some sample has, or between two": false where exceptions are printed *)
Theorem C143_entries_refuted : exists M data N Y depth m argsort q x yx Sv,
  sorting argsort /\ length Y = N /\ 0 < N /\ 0 < F_trees M /\ (0 < m)%Z /\ percentage q /\
  diff_batch M data N Y depth m argsort q false [x] [yx] [Sv] = Gives [0%Q] /\ forall j, j < N -> (0 < yx - target Y j)%Q \/ (yx - target Y j < 0)%Q.
Proof.
  exists ex_mem, ex_train, 2, [5; 1]%Q, 3, 1%Z, argsort_up, 50%Q, (ex_obs 9 9 9), 100%Q, [0; 1; 2].
  split; [apply sorting_up|]. split; [reflexivity|]. split; [lia|]. split; [vm_compute; lia|]. split; [lia|]. split; [apply ex_percentage; lra|].
  split; [vm_compute; reflexivity|]. intros j Hj. left. assert (j = 0 \/ j = 1) as [->| ->] by lia; unfold target; cbn; lra.
Qed.
Print Assumptions C143_entries_refuted.
Definition ex_diff m q strict := diff_batch ex_mem ex_train 6 ex_Y 3 m argsort_up q strict ex_rows [3; 3; -1]%Q ex_sets.
Example C143_example :
  (forall i x Sv, nth_error ex_rows i = Some x -> nth_error ex_sets i = Some Sv ->
     exists b, b < F_trees ex_mem /\ selected ex_mem (fun R => vec_step R Sv x ex_train) (cutoff 6 1) 3 6 b <> []) /\
  exists a b c, shown (ex_diff 1 50 true) = Gives [a; b; c] /\ ~ (a == b)%Q /\ ~ (b == c)%Q /\ shown (ex_diff 1 50 false) = Gives [a; b; c].
Proof.
  split.
  - intros [|[|[|i]]] x Sv Hx HS; try (destruct i; discriminate); injection Hx as <-; injection HS as <-; exists 0; (split; [vm_compute; lia|vm_compute; discriminate]).
  - do 3 eexists. split; [vm_compute; reflexivity|]. split; [vm_compute; discriminate|]. split; [vm_compute; discriminate|vm_compute; reflexivity].
Qed.
Definition ex_gone m q strict := diff_batch ex_mem ex_train 2 [5; 1]%Q 3 m argsort_up q strict [ex_point; ex_obs 9 9 9] [100; 100]%Q [[0; 2]; [0; 1; 2]].
Example C143_missing_example :
  (forall b, b < F_trees ex_mem -> selected ex_mem (fun R => vec_step R [0; 1; 2] (ex_obs 9 9 9) ex_train) (cutoff 2 1) 3 2 b = []) /\
  ex_gone 1 50 true = Raises /\ shown (ex_gone 1 50 false) = Gives [98; 0]%Q /\ ex_diff 1 (-1) true = Raises /\
  (* a size below zero lets every level look at one node only *)
  cutoff 6 (-1) = 7 /\ shown (ex_diff (-1) 50 true) = shown (ex_diff 7 50 true) /\ shown (ex_diff (-1) 50 true) <> shown (ex_diff 1 50 true).
Proof.
  split.
  - intros b Hb. change (F_trees ex_mem) with 2 in Hb. assert (b = 0 \/ b = 1) as [->| ->] by lia; vm_compute; reflexivity.
  - do 5 (split; [vm_compute; reflexivity|]). vm_compute. discriminate.
Qed.

(** C144: the methods over the Python estimators.  The same-decision probability of a class or of a distance is the average over the
    trees of the share of selected samples with the class or within the distance ... *)
Theorem C144_classes : forall ts data N y depth m Sv X yX, 0 < length ts -> length X <= length yX ->
  exists l, sdp_clf_shaff ts data N y depth m Sv X yX = Gives l /\ length l = length X /\
    forall i x yx, nth_error X i = Some x -> nth_error yX i = Some yx ->
    exists s, nth_error l i = Some (Some s) /\ (s == averaged (length ts) (py_selected ts data N depth m Sv x) (fun j => qeqb (y j) yx))%Q.
Proof.
  intros ts data N y depth m Sv X yX HT Hl. unfold sdp_clf_shaff.
  destruct (per_row_all (fun i x => option_map (py_sdp_clf ts data N y depth m Sv x) (nth_error yX i)) X 0) as (l & E & L & H).
  { intros i x Hx. cbn [Nat.add]. assert (Hi : i < length X) by (apply nth_error_Some; congruence).
    destruct (nth_error yX i) eqn:Hy; [eexists; reflexivity|]. apply nth_error_None in Hy. lia. }
  exists l. split; [exact E|]. split; [exact L|]. intros i x yx Hx Hy. specialize (H i x Hx). cbn [Nat.add] in H. rewrite Hy in H. cbn [option_map] in H.
  unfold py_sdp_clf in H. destruct (py_sum_eq ts data N depth m Sv x HT (fun j => Qb (qeqb (y j) yx))) as (s & Es & Hs). rewrite Es in H.
  exists s. split; [now rewrite <- H|]. rewrite Hs. now apply weight_averaged.
Qed.
Print Assumptions C144_classes.
Theorem C144_distances : forall ts data N y depth m Sv X yX t, 0 < length ts -> length X <= length yX ->
  exists l, sdp_shaff ts data N y depth m Sv X yX t = Gives l /\ length l = length X /\
    forall i x yx, nth_error X i = Some x -> nth_error yX i = Some yx ->
    exists s, nth_error l i = Some (Some s) /\
      (s == averaged (length ts) (py_selected ts data N depth m Sv x) (fun j => qleb ((y j - yx) * (y j - yx)) t))%Q.
Proof.
  intros ts data N y depth m Sv X yX t HT Hl. unfold sdp_shaff.
  destruct (per_row_all (fun i x => option_map (fun yx => py_sdp ts data N y depth m Sv x yx t) (nth_error yX i)) X 0) as (l & E & L & H).
  { intros i x Hx. cbn [Nat.add]. assert (Hi : i < length X) by (apply nth_error_Some; congruence).
    destruct (nth_error yX i) eqn:Hy; [eexists; reflexivity|]. apply nth_error_None in Hy. lia. }
  exists l. split; [exact E|]. split; [exact L|]. intros i x yx Hx Hy. specialize (H i x Hx). cbn [Nat.add] in H. rewrite Hy in H. cbn [option_map] in H.
  unfold py_sdp in H. destruct (py_sum_eq ts data N depth m Sv x HT (fun j => Qb (qleb ((y j - yx) * (y j - yx)) t))) as (s & Es & Hs). rewrite Es in H.
  exists s. split; [now rewrite <- H|]. rewrite Hs. now apply weight_averaged.
Qed.
Print Assumptions C144_distances.
(** ... between zero and the share of the trees that keep a sample, and what is missing to that share is the probability of the rest; *)
Theorem C144_probabilities_partial : forall ts data N depth m Sv x e, 0 < length ts ->
  let sel := py_selected ts data N depth m Sv x in
  (0 <= averaged (length ts) sel e <= keeping (length ts) sel)%Q /\ (keeping (length ts) sel <= 1)%Q /\
  (averaged (length ts) sel e + averaged (length ts) sel (fun i => negb (e i)) == keeping (length ts) sel)%Q /\
  ((0 < m)%Z -> 0 < N -> (keeping (length ts) sel == 1)%Q).
Proof.
  intros ts data N depth m Sv x e HT sel. destruct (averaged_bounds ts data N depth m Sv x HT e) as [A [B C]].
  split; [split; [exact A|exact B]|]. split; [exact C|]. split; [now apply averaged_split|]. intros Hm HN.
  apply keeping_one; [exact HT|]. split; [exact HT|]. intros b Hb. unfold py_selected.
  pose proof (proj2 (proj2 (C61_undo_size (py_rows ts) data N depth (Z.to_nat m) Sv x b))) as H. intro E.
  rewrite E in H. cbn [length] in H. lia.
Qed.
Print Assumptions C144_probabilities_partial.
(** with a size of zero the probabilities of the classes can add up to less than one. *)
Theorem C144_probabilities_refuted : exists ts data N (y : nat -> Q) depth m Sv x l1 l2 s1 s2,
  0 < length ts /\ (0 <= m)%Z /\ (forall j, j < N -> y j = 0%Q \/ y j = 1%Q) /\
  sdp_clf_shaff ts data N y depth m Sv [x] [0%Q] = Gives l1 /\ sdp_clf_shaff ts data N y depth m Sv [x] [1%Q] = Gives l2 /\
  nth_error l1 0 = Some (Some s1) /\ nth_error l2 0 = Some (Some s2) /\ (s1 + s2 < 1)%Q.
Proof.
  exists ex_rf, ex_train, 3, (fun j => Qb (j =? 2)), 3, 0%Z, [0; 1; 2], (ex_obs 9 9 9).
  do 4 eexists. split; [vm_compute; lia|]. split; [lia|]. split; [intros j _; destruct (j =? 2); auto|].
  split; [vm_compute; reflexivity|]. split; [vm_compute; reflexivity|]. split; [reflexivity|]. split; [reflexivity|]. vm_compute. reflexivity.
Qed.
Print Assumptions C144_probabilities_refuted.
(** The expectation is the average over the trees of the mean target of their samples, not a number when a tree keeps none. *)
Theorem C144_expectations : forall ts data N y depth m Sv X i x, 0 < length ts -> nth_error X i = Some x ->
  let sel := py_selected ts data N depth m Sv x in
  length (exp_shaff ts data N y depth m Sv X) = length X /\
  (all_keep (length ts) sel -> exists s, nth_error (exp_shaff ts data N y depth m Sv X) i = Some (Some s) /\ (s == mean_of_means (length ts) sel y)%Q) /\
  ((exists b, b < length ts /\ sel b = []) -> nth_error (exp_shaff ts data N y depth m Sv X) i = Some None).
Proof.
  intros ts data N y depth m Sv X i x HT Hx sel. unfold exp_shaff. rewrite map_length. split; [reflexivity|].
  rewrite (map_nth_error _ _ _ Hx). split; intro H.
  - destruct (py_exp_all ts data N y depth m Sv x HT H) as (s & E & Hs). exists s. now rewrite E.
  - now rewrite (py_exp_none ts data N y depth m Sv x HT H).
Qed.
Print Assumptions C144_expectations.
(** The quantiles: all returned, each between the targets of two selected samples, exactly when the number is a percentage and for
    every row some tree keeps a sample; else the method raises. *)
Theorem C144_quantiles : forall ts data N y depth m Sv argsort q X, 0 < length ts -> sorting argsort -> X <> [] ->
  let keeps x := exists b, b < length ts /\ py_selected ts data N depth m Sv x b <> [] in
  (percentage q -> (forall x, In x X -> keeps x) ->
   exists l, quantile_shaff ts data N y depth m Sv argsort q X = Gives l /\ length l = length X /\
     forall i x, nth_error X i = Some x -> exists r j k, nth_error l i = Some r /\
       chosen (length ts) (py_selected ts data N depth m Sv x) j /\ chosen (length ts) (py_selected ts data N depth m Sv x) k /\ (y j <= r <= y k)%Q) /\
  (~ percentage q \/ (exists x, In x X /\ ~ keeps x) -> quantile_shaff ts data N y depth m Sv argsort q X = Raises).
Proof.
  intros ts data N y depth m Sv argsort q X HT Hs Hne keeps. unfold quantile_shaff. split.
  - intros Hq Hk. destruct (per_row_all (fun (_ : nat) x => py_quantile ts data N y depth m Sv argsort q x) X 0) as (l & E & L & H).
    { intros i x Hx. apply (py_quantile_defined ts data N y depth m Sv x HT argsort Hs q). split; [exact Hq|]. apply Hk. now apply nth_error_In with i. }
    exists l. split; [exact E|]. split; [exact L|]. intros i x Hx. specialize (H i x Hx).
    destruct (proj2 (py_quantile_defined ts data N y depth m Sv x HT argsort Hs q)) as [r Er].
    { split; [exact Hq|]. apply Hk. now apply nth_error_In with i. }
    destruct (py_quantile_between ts data N y depth m Sv x HT argsort Hs q r Er) as (j & k & Hj & Hk' & B).
    exists r, j, k. rewrite Er in H. now rewrite <- H.
  - intro H. assert (exists i x, nth_error X i = Some x /\ ~ (percentage q /\ keeps x)) as (i & x & Hx & Hn).
    { destruct H as [H|(x & Hin & H)].
      - destruct X as [|x X]; [congruence|]. exists 0, x. split; [reflexivity|]. tauto.
      - destruct (In_nth_error _ _ Hin) as [i Hi]. exists i, x. split; [exact Hi|]. tauto. }
    apply (per_row_fail _ X 0 i x Hx). cbn beta. destruct (py_quantile ts data N y depth m Sv argsort q x) as [r|] eqn:E; [|reflexivity].
    exfalso. apply Hn. apply (py_quantile_defined ts data N y depth m Sv x HT argsort Hs q). now exists r.
Qed.
Print Assumptions C144_quantiles.
(** A row without a target raises. *)
Theorem C144_missing_target : forall ts data N y depth m Sv X yX t, length yX < length X ->
  sdp_clf_shaff ts data N y depth m Sv X yX = Raises /\ sdp_shaff ts data N y depth m Sv X yX t = Raises.
Proof.
  intros ts data N y depth m Sv X yX t H. destruct (nth_error X (length yX)) as [x|] eqn:Hx; [|apply nth_error_None in Hx; lia].
  assert (Hy : nth_error yX (length yX) = None) by (apply nth_error_None; lia).
  split; apply (per_row_fail _ X 0 (length yX) x Hx); cbn [Nat.add]; now rewrite Hy.
Qed.
Print Assumptions C144_missing_target.
Definition shown_nums (e : ending (list num)) : ending (list num) := match e with Gives l => Gives (map (option_map Qred) l) | Raises => Raises | Strays => Strays end.
Example C144_example :
  shown_nums (sdp_clf_shaff ex_rf ex_train 6 ex_targets 3 1 [0; 2] ex_rows [1; 0; 9]%Q) = Gives [Some (1 # 3); Some (2 # 3); Some (5 # 12)]%Q /\
  shown_nums (sdp_shaff ex_rf ex_train 6 ex_targets 3 1 [0; 2] ex_rows [1; 0; 9]%Q 4) = Gives [Some (5 # 6); Some (5 # 6); Some (5 # 12)]%Q /\
  map (option_map Qred) (exp_shaff ex_rf ex_train 6 ex_targets 3 1 [0; 2] ex_rows) = [Some (5 # 2); Some (11 # 6); Some (16 # 3)]%Q /\
  exp_shaff ex_rf ex_train 3 ex_targets 3 0 [0; 1; 2] [ex_obs 9 9 9] = [None] /\
  shown (quantile_shaff ex_rf ex_train 6 ex_targets 3 1 [0; 2] argsort_up 50 ex_rows) = Gives [7 # 3; 4 # 5; 11 # 2]%Q /\
  quantile_shaff ex_rf ex_train 6 ex_targets 3 1 [0; 2] argsort_up 101 ex_rows = Raises /\
  sdp_clf_shaff ex_rf ex_train 6 ex_targets 3 1 [0; 2] ex_rows [1; 0]%Q = Raises.
Proof. vm_compute. repeat split. Qed.
Example C144_quantiles_example : forall x, In x ex_rows -> exists b, b < length ex_rf /\ py_selected ex_rf ex_train 6 3 1 [0; 2] x b <> [].
Proof. intros x Hx. exists 0. split; [vm_compute; lia|]. destruct Hx as [<-|[<-|[<-|[]]]]; vm_compute; discriminate. Qed.

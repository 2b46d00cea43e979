(** Property theorems C33, C60-C65: weighted percentiles, the traversal that
    undoes a too small step, and the estimators built on them. *)
From Coq Require Import Sorted Permutation.
From Verif Require Import Base TreeModel TreeSpec PropertiesTree RfModel RfSpec RfProofs RfTreeProofs
  PropertiesRf QuantModel QuantSpec QuantProofs QuantForestProofs.

(** C33: the percentile exists exactly for a percentage and some weight, lies
    between two sample values with weight, does not decrease with the
    percentage, does not depend on the scale of the weights. *)
Theorem C33_defined : forall argsort, sorting argsort -> forall f, percentile_of argsort f ->
  forall l, fair l -> forall q,
  (exists r, f l q = Some r) <-> (0 <= q <= 100)%Q /\ exists p, weighted l p.
Proof. exact percentile_defined. Qed.
Print Assumptions C33_defined.
Theorem C33_between : forall argsort, sorting argsort -> forall f, percentile_of argsort f ->
  forall l, fair l -> forall q r, f l q = Some r ->
  exists a b, weighted l a /\ weighted l b /\ (fst a <= r <= fst b)%Q.
Proof. exact percentile_between. Qed.
Print Assumptions C33_between.
Theorem C33_monotone : forall argsort, sorting argsort -> forall f, percentile_of argsort f ->
  forall l, fair l -> forall q q' r r', (q <= q')%Q -> f l q = Some r -> f l q' = Some r' -> (r <= r')%Q.
Proof. exact percentile_mono. Qed.
Print Assumptions C33_monotone.
Theorem C33_scale : forall argsort f l c q r, sorting argsort -> percentile_of argsort f -> fair l ->
  (0 < c)%Q -> f l q = Some r -> exists r', f (scaled c l) q = Some r' /\ (r' == r)%Q.
Proof. exact percentile_scaled. Qed.
Print Assumptions C33_scale.
(** With distinct values the percentile is the piecewise linear curve through
    the points (rank, value). *)
Theorem C33_smallest : forall argsort, sorting argsort -> forall f, percentile_of argsort f ->
  forall l, fair l -> distinct_values l -> forall q r a, f l q = Some r -> weighted l a ->
  (forall b, weighted l b -> (fst a <= fst b)%Q) -> (q <= rank l a)%Q -> (r == fst a)%Q.
Proof. exact percentile_low. Qed.
Print Assumptions C33_smallest.
Theorem C33_largest : forall argsort, sorting argsort -> forall f, percentile_of argsort f ->
  forall l, fair l -> distinct_values l -> forall q r a, f l q = Some r -> weighted l a ->
  (forall b, weighted l b -> (fst b <= fst a)%Q) -> (rank l a <= q)%Q -> (r == fst a)%Q.
Proof. exact percentile_high. Qed.
Print Assumptions C33_largest.
Theorem C33_interpolation : forall argsort, sorting argsort -> forall f, percentile_of argsort f ->
  forall l, fair l -> distinct_values l -> forall q r a b, f l q = Some r -> weighted l a -> weighted l b ->
  (fst a < fst b)%Q -> (forall c, weighted l c -> ~ ((fst a < fst c)%Q /\ (fst c < fst b)%Q)) ->
  (rank l a <= q <= rank l b)%Q ->
  (r == fst a + (q - rank l a) / (rank l b - rank l a) * (fst b - fst a))%Q.
Proof. exact percentile_mid. Qed.
Print Assumptions C33_interpolation.

Definition ex_samples : list (Q * Q) := [(3, 1); (1, 2); (7, 0); (2, 1)]%Q.
Example C33_example :
  sorting argsort_up /\ percentile_of argsort_up (weighted_percentile argsort_up) /\
  fair ex_samples /\ distinct_values ex_samples /\
  map (rank ex_samples) [(1, 2); (2, 1); (3, 1)]%Q = [200 # 8; 500 # 8; 700 # 8]%Q /\
  map (fun q => option_map Qred (weighted_percentile argsort_up ex_samples q)) [10; 50; 75; 95; 101]%Q
   = [Some 1; Some (5 # 3); Some (5 # 2); Some 3; None]%Q /\
  map (fun q => option_map Qred (weighted_percentile_unsorted argsort_up ex_samples q)) [10; 50; 75; 95; 101]%Q
   = [Some 1; Some (5 # 3); Some (5 # 2); Some 3; None]%Q.
Proof.
  split; [apply sorting_up|]. split; [now left|]. split.
  { intros p [<-|[<-|[<-|[<-|[]]]]]; cbn; lra. }
  split; [repeat (constructor; [repeat (constructor; [cbn; intros; lra|]); constructor|]); constructor|].
  vm_compute. auto.
Qed.

(** C60: the percentile depends on the weighted sample only, not on the order of
    the samples nor on how the sort breaks ties: false, equal values with
    different weights can be interpolated from differently. *)
Theorem C60_order_irrelevant_refuted : exists a1 a2 l q r1 r2,
  sorting a1 /\ sorting a2 /\ fair l /\
  weighted_percentile a1 l q = Some r1 /\ weighted_percentile a2 l q = Some r2 /\ ~ (r1 == r2)%Q.
Proof.
  exists argsort_up, argsort_down, [(1, 1); (1, 3); (2, 1)]%Q, 80%Q. eexists. eexists.
  split; [apply sorting_up|]. split; [apply sorting_down|].
  split; [intros p [<-|[<-|[<-|[]]]]; cbn; lra|].
  split; [vm_compute; reflexivity|]. split; [vm_compute; reflexivity|]. vm_compute. discriminate.
Qed.
Print Assumptions C60_order_irrelevant_refuted.
(** Partial: true when no value occurs twice with weight. *)
Theorem C60_order_irrelevant_partial : forall a1 a2 f1 f2 l1 l2 q, sorting a1 -> sorting a2 ->
  percentile_of a1 f1 -> percentile_of a2 f2 -> fair l1 -> distinct_values l1 -> Permutation l1 l2 ->
  f1 l1 q = f2 l2 q.
Proof. exact order_irrelevant. Qed.
Print Assumptions C60_order_irrelevant_partial.
Example C60_example :
  Permutation ex_samples [(7, 0); (3, 1); (1, 2); (2, 1)]%Q /\
  option_map Qred (weighted_percentile argsort_up ex_samples 50) = Some (5 # 3)%Q /\
  option_map Qred (weighted_percentile_unsorted argsort_down [(7, 0); (3, 1); (1, 2); (2, 1)]%Q 50) = Some (5 # 3)%Q.
Proof.
  split; [|vm_compute; auto]. unfold ex_samples.
  symmetry. apply (Permutation_cons_app [(3, 1); (1, 2)]%Q [(2, 1)]%Q). reflexivity.
Qed.

(** C61: the traversal that takes a too small step back: distinct training
    samples, never fewer than asked for (unless there are not so many), always
    the whole cell, exactly the cell when the cell is large enough. *)
Theorem C61_undo_size : forall rows data N depth m Sv x b,
  let l := undo_selected rows data N depth m Sv x b in
  NoDup l /\ (forall i, In i l -> i < N) /\ Nat.min m N <= length l.
Proof.
  intros. split; [apply us_nodup|]. split; [intro; apply us_lt|apply us_enough].
Qed.
Print Assumptions C61_undo_size.
Theorem C61_undo_contains_cell : forall rows data N depth m Sv x b i,
  i < N -> same_cell (rows b) Sv depth x (data i) -> In i (undo_selected rows data N depth m Sv x b).
Proof. exact us_cell. Qed.
Print Assumptions C61_undo_contains_cell.
Theorem C61_undo_is_cell : forall rows data N depth m Sv x b l, NoDup l -> m <= length l ->
  (forall i, In i l <-> i < N /\ same_cell (rows b) Sv depth x (data i)) ->
  forall i, In i (undo_selected rows data N depth m Sv x b) <-> In i l.
Proof. exact us_exact. Qed.
Print Assumptions C61_undo_is_cell.
(** ... and for the trees as Python indexes them the cell is the set of samples
    reaching the same leaves of the projected tree, whatever the tree. *)
Theorem C61_python_cell : forall t d, wf_tree t d = true -> plain_leaves t ->
  forall Sv depth x z, tree_depth t <= depth ->
  same_cell (py_row t) Sv depth x z <-> same_leaves t Sv x z.
Proof. exact py_cell. Qed.
Print Assumptions C61_python_cell.
Example C61_example :
  map (undo_selected (py_rows ex_rf) ex_train 6 3 1 [0; 2] ex_point) [0; 1] = [[0; 1; 4]; [1; 2; 4]] /\
  map (undo_selected (py_rows ex_rf) ex_train 6 3 4 [0; 2] ex_point) [0; 1] = [[0; 1; 2; 3; 4; 5]; [1; 2; 3; 4]] /\
  map (undo_selected (py_rows ex_rf) ex_train 6 3 9 [0; 2] ex_point) [0; 1] = [seq 0 6; seq 0 6] /\
  (forall t, In t ex_rf -> wf_tree t 3 = true) /\ (forall t, In t ex_rf -> plain_leaves t) /\
  (forall t, In t ex_rf -> tree_depth t <= 3) /\
  (* a cell of three samples *)
  NoDup [1; 2; 4] /\
  (forall i, In i [1; 2; 4] <-> i < 6 /\ same_cell (py_rows ex_rf 1) [0; 2] 3 ex_point (ex_train i)).
Proof.
  do 3 (split; [vm_compute; reflexivity|]).
  assert (W : forall t, In t ex_rf -> wf_tree t 3 = true) by exact (proj1 C55_example).
  assert (L : forall t, In t ex_rf -> plain_leaves t) by exact (proj1 (proj2 C55_example)).
  split; [exact W|]. split; [exact L|].
  split; [intros t [<-|[<-|[]]]; vm_compute; lia|].
  assert (ND : NoDup [1; 2; 4]) by (repeat constructor; cbn; intuition lia). split; [exact ND|].
  intro i. transitivity (In i (selected ex_mem (fun R => rf_step R [0; 2] ex_point ex_train) 1 3 6 1)); [vm_compute; tauto|].
  destruct (C55_selected_same_leaves ex_rf ex_calm 3 W L ex_train 6 3 1 [0; 2] ex_point 1) as [_ H];
    [vm_compute; lia|left; lia|vm_compute; lia|].
  unfold ex_mem. rewrite (H ltac:(vm_compute; lia) i).
  assert (I : In ex_deep ex_rf) by (right; now left).
  pose proof (C61_python_cell ex_deep 3 (W _ I) (L _ I) [0; 2] 3 ex_point (ex_train i) ltac:(vm_compute; lia)) as C.
  change (py_rows ex_rf 1) with (py_row ex_deep). cbn [nth ex_rf]. tauto.
Qed.

(** C62: the conditional quantiles (compiled and Python: [rows] are arbitrary
    tree rows): defined for a positive node size, between two targets of
    selected samples, monotone, only looking at the conditioning variables. *)
Theorem C62_quantile_defined : forall rows T data N depth m Sv x y argsort, sorting argsort -> forall q,
  0 < m -> 0 < N -> 0 < T ->
  (exists r, compute_quantile rows T data y N depth m Sv x argsort q = Some r) <-> (0 <= q <= 100)%Q.
Proof. exact quantile_defined. Qed.
Print Assumptions C62_quantile_defined.
Theorem C62_quantile_between : forall rows T data N depth m Sv x y argsort, sorting argsort -> forall q r,
  compute_quantile rows T data y N depth m Sv x argsort q = Some r ->
  exists i j, chosen T (undo_selected rows data N depth m Sv x) i /\
    chosen T (undo_selected rows data N depth m Sv x) j /\ (y i <= r <= y j)%Q.
Proof. exact quantile_between. Qed.
Print Assumptions C62_quantile_between.
Theorem C62_quantile_monotone : forall rows T data N depth m Sv x y argsort, sorting argsort -> forall q q' r r',
  (q <= q')%Q -> compute_quantile rows T data y N depth m Sv x argsort q = Some r ->
  compute_quantile rows T data y N depth m Sv x argsort q' = Some r' -> (r <= r')%Q.
Proof. exact quantile_mono. Qed.
Print Assumptions C62_quantile_monotone.
Theorem C62_noninterference : forall rows T data y N depth m Sv x x' yx t argsort q, agree_on Sv x x' ->
  compute_quantile rows T data y N depth m Sv x argsort q = compute_quantile rows T data y N depth m Sv x' argsort q /\
  compute_shaff_sdp_clf rows T data y N depth m Sv x yx = compute_shaff_sdp_clf rows T data y N depth m Sv x' yx /\
  compute_shaff_sdp rows T data y N depth m Sv x yx t = compute_shaff_sdp rows T data y N depth m Sv x' yx t /\
  compute_shaff_exp rows T data y N depth m Sv x = compute_shaff_exp rows T data y N depth m Sv x'.
Proof. exact agree_estimators. Qed.
Print Assumptions C62_noninterference.
Definition ex_targets : nat -> Q := fun i => nth i [5; 1; 2; 0; 3; 9]%Q 0%Q.
Example C62_example :
  map (fun q => option_map Qred (compute_quantile (py_rows ex_rf) 2 ex_train ex_targets 6 3 1 [0; 2] ex_point argsort_up q))
    [0; 5; 50; 95; 200]%Q = [Some 1; Some 1; Some (7 # 3); Some 5; None]%Q /\
  map (fun q => option_map Qred (compute_quantile (row_of ex_mem) 2 ex_train ex_targets 6 3 4 [0; 2] ex_point argsort_up q))
    [0; 5; 50; 95; 200]%Q = [Some 0; Some 0; Some (19 # 10); Some (43 # 5); None]%Q /\
  agree_on [0; 2] ex_point (ex_obs 2 1000 4).
Proof. split; [vm_compute; reflexivity|]. split; [vm_compute; reflexivity|]. exact (proj1 C27_example). Qed.

(** C63: the Python estimators: probabilities in [0,1], the expectation between
    the targets of the selected samples, the probability of a closer target
    smaller; all defined for a positive node size. *)
Theorem C63_sdp_clf_in_unit_interval : forall rows T data N depth m Sv x y yx s, 0 < N ->
  compute_shaff_sdp_clf rows T data y N depth m Sv x yx = Some s -> (0 <= s <= 1)%Q.
Proof. exact sdp_clf_in. Qed.
Print Assumptions C63_sdp_clf_in_unit_interval.
Theorem C63_sdp_in_unit_interval : forall rows T data N depth m Sv x y yx t s, 0 < N ->
  compute_shaff_sdp rows T data y N depth m Sv x yx t = Some s -> (0 <= s <= 1)%Q.
Proof. exact sdp_reg_in. Qed.
Print Assumptions C63_sdp_in_unit_interval.
Theorem C63_sdp_monotone : forall rows T data N depth m Sv x y yx t t' s s', 0 < N -> (t <= t')%Q ->
  compute_shaff_sdp rows T data y N depth m Sv x yx t = Some s ->
  compute_shaff_sdp rows T data y N depth m Sv x yx t' = Some s' -> (s <= s')%Q.
Proof. exact sdp_reg_mono. Qed.
Print Assumptions C63_sdp_monotone.
Theorem C63_exp_between : forall rows T data N depth m Sv x y s lo hi,
  (forall i, chosen T (undo_selected rows data N depth m Sv x) i -> (lo <= y i <= hi)%Q) ->
  compute_shaff_exp rows T data y N depth m Sv x = Some s -> (lo <= s <= hi)%Q.
Proof. exact exp_bounds. Qed.
Print Assumptions C63_exp_between.
Theorem C63_defined : forall rows T data N depth m Sv x y yx t, 0 < m -> 0 < N -> 0 < T ->
  (exists s, compute_shaff_sdp_clf rows T data y N depth m Sv x yx = Some s) /\
  (exists s, compute_shaff_sdp rows T data y N depth m Sv x yx t = Some s) /\
  (exists s, compute_shaff_exp rows T data y N depth m Sv x = Some s).
Proof.
  intros. split; [now apply sdp_defined|]. split; [now apply sdp_defined|now apply exp_defined].
Qed.
Print Assumptions C63_defined.
Example C63_example :
  option_map Qred (compute_shaff_sdp_clf (py_rows ex_rf) 2 ex_train ex_y 6 3 1 [0; 2] ex_point 1) = Some (5 # 6)%Q /\
  option_map Qred (compute_shaff_sdp (py_rows ex_rf) 2 ex_train ex_targets 6 3 1 [0; 2] ex_point 1 1) = Some (1 # 2)%Q /\
  option_map Qred (compute_shaff_sdp (py_rows ex_rf) 2 ex_train ex_targets 6 3 1 [0; 2] ex_point 1 4) = Some (5 # 6)%Q /\
  option_map Qred (compute_shaff_exp (py_rows ex_rf) 2 ex_train ex_targets 6 3 1 [0; 2] ex_point) = Some (5 # 2)%Q.
Proof. vm_compute. auto. Qed.

(** C64: the compiled quantile and the Python one agree on every forest whose
    stray memory is harmless; the Python probability and expectation agree with
    the compiled estimators as soon as every cell holds enough samples. *)
Theorem C64_versions_agree : forall ts stray d data y N depth m Sv x yx t argsort q,
  (forall tr, In tr ts -> wf_tree tr d = true) -> (forall tr, In tr ts -> plain_leaves tr) -> harmless stray Sv ->
  compute_quantile (row_of (dense ts stray)) (length ts) data y N depth m Sv x argsort q =
    compute_quantile (py_rows ts) (length ts) data y N depth m Sv x argsort q /\
  compute_shaff_sdp (row_of (dense ts stray)) (length ts) data y N depth m Sv x yx t =
    compute_shaff_sdp (py_rows ts) (length ts) data y N depth m Sv x yx t.
Proof. exact versions_agree. Qed.
Print Assumptions C64_versions_agree.
Theorem C64_python_agrees_with_compiled : forall ts stray d data y N depth m Sv x yx t0 t1,
  (forall t, In t ts -> wf_tree t d = true) -> (forall t, In t ts -> plain_leaves t) -> harmless stray Sv ->
  0 < m -> (forall t, In t ts -> tree_depth t <= depth) -> ts <> [] ->
  (forall t, In t ts -> exists l, NoDup l /\ m <= length l /\
     forall i, In i l -> i < N /\ same_leaves t Sv x (data i)) ->
  (exists s, compute_shaff_sdp_clf (py_rows ts) (length ts) data y N depth m Sv x yx = Some s /\
     (s == compute_sdp_rf (dense ts stray) data y N depth m true t0 t1 Sv x yx)%Q) /\
  (exists s, compute_shaff_exp (py_rows ts) (length ts) data y N depth m Sv x = Some s /\
     (s == compute_exp_rf (dense ts stray) data y N depth m Sv x)%Q).
Proof. exact shaff_agrees. Qed.
Print Assumptions C64_python_agrees_with_compiled.
Example C64_example :
  harmless ex_calm [0; 2] /\
  (forall t, In t ex_rf -> exists l, NoDup l /\ 3 <= length l /\
     forall i, In i l -> i < 6 /\ same_leaves t [0; 2] ex_point (ex_train i)) /\
  Qred (compute_sdp_rf ex_mem ex_train ex_y 6 3 3 true 0 0 [0; 2] ex_point 1) = (5 # 6)%Q /\
  option_map Qred (compute_shaff_sdp_clf (py_rows ex_rf) 2 ex_train ex_y 6 3 3 [0; 2] ex_point 1) = Some (5 # 6)%Q /\
  (* and not when a cell is too small *)
  Qred (compute_sdp_rf ex_mem ex_train ex_y 6 3 4 true 0 0 [0; 2] ex_point 1) = (5 # 6)%Q /\
  option_map Qred (compute_shaff_sdp_clf (py_rows ex_rf) 2 ex_train ex_y 6 3 4 [0; 2] ex_point 1) = Some (5 # 8)%Q.
Proof.
  assert (W : forall t, In t ex_rf -> wf_tree t 3 = true) by exact (proj1 C55_example).
  assert (L : forall t, In t ex_rf -> plain_leaves t) by exact (proj1 (proj2 C55_example)).
  assert (H : harmless ex_calm [0; 2]) by exact (proj1 (proj2 (proj2 C55_example))).
  split; [exact H|]. split; [|vm_compute; auto].
  assert (G : forall b, b < 2 -> 3 <= length (selected ex_mem (fun R => rf_step R [0; 2] ex_point ex_train) 1 3 6 b) ->
    exists l, NoDup l /\ 3 <= length l /\
     forall i, In i l -> i < 6 /\ same_leaves (nth b ex_rf (mkTree [] [] [] [] [] [])) [0; 2] ex_point (ex_train i)).
  { intros b Hb Hl. exists (selected ex_mem (fun R => rf_step R [0; 2] ex_point ex_train) 1 3 6 b).
    split; [apply csel_nodup|]. split; [exact Hl|]. intros i Hi.
    destruct (C55_selected_same_leaves ex_rf ex_calm 3 W L ex_train 6 3 1 [0; 2] ex_point b Hb (or_intror H)) as [_ C].
    { destruct b as [|[|b]]; [vm_compute; lia|vm_compute; lia|lia]. }
    apply C; [unfold ex_mem in Hl; lia|exact Hi]. }
  intros t [<-|[<-|[]]]; [apply (G 0)|apply (G 1)]; vm_compute; lia.
Qed.

(** C65: quantiles of the difference between the observation's target and those
    of the selected samples: defined iff some tree selects a sample, between two
    such differences, monotone. *)
Theorem C65_diff_defined : forall M data y N depth m Sv x yx argsort, sorting argsort -> 0 < F_trees M -> forall q,
  (exists r, compute_quantile_diff M data y N depth m Sv x yx argsort q = Some r) <->
  (0 <= q <= 100)%Q /\
  exists b, b < F_trees M /\ selected M (fun R => vec_step R Sv x data) m depth N b <> [].
Proof. exact diff_defined. Qed.
Print Assumptions C65_diff_defined.
Theorem C65_diff_between : forall M data y N depth m Sv x yx argsort, sorting argsort -> 0 < F_trees M -> forall q r,
  compute_quantile_diff M data y N depth m Sv x yx argsort q = Some r ->
  exists i j, chosen (F_trees M) (selected M (fun R => vec_step R Sv x data) m depth N) i /\
    chosen (F_trees M) (selected M (fun R => vec_step R Sv x data) m depth N) j /\
    (yx - y i <= r <= yx - y j)%Q.
Proof. exact diff_between. Qed.
Print Assumptions C65_diff_between.
Theorem C65_diff_monotone : forall M data y N depth m Sv x yx argsort, sorting argsort -> 0 < F_trees M ->
  forall q q' r r', (q <= q')%Q ->
  compute_quantile_diff M data y N depth m Sv x yx argsort q = Some r ->
  compute_quantile_diff M data y N depth m Sv x yx argsort q' = Some r' -> (r <= r')%Q.
Proof. exact diff_mono. Qed.
Print Assumptions C65_diff_monotone.
Example C65_example :
  map (fun q => option_map Qred (compute_quantile_diff ex_mem ex_train ex_targets 6 3 1 [0; 2] ex_point 2 argsort_up q))
    [0; 5; 50; 95; 200]%Q = [Some (-3); Some (-3); Some (-1 # 3); Some 1; None]%Q.
Proof. vm_compute. reflexivity. Qed.

(** Property theorems C01-C05 and C48: trees, prediction, node weights, buffer
    exponent, depth.  Each is proved by a lemma of TreeProofs.v. *)
From Verif Require Import Base TreeModel TreeSpec TreeProofs.

(** A concrete tree used in the examples: depth 2, three leaves,
    node 0: x0 <= 1 -> node 1 else node 2; node 2: x1 <= 3 -> node 3 else node 4. *)
Definition ex_tree : tree :=
  mkTree [1; -1; 3; -1; -1]%Z [2; -1; 4; -1; -1]%Z [1; -1; 3; -1; -1]%Z
         [0; -2; 1; -2; -2]%Z [1; 0; 3; 0; 0]%Q [0; 10; 0; 20; 30]%Q.
(** a one-split tree *)
Definition ex_stump : tree :=
  mkTree [1; -1; -1]%Z [2; -1; -1]%Z [2; -1; -1]%Z [2; -2; -2]%Z [5; 0; 0]%Q [0; 1; 2]%Q.
(** three nested splits on three different features *)
Definition ex_deep : tree :=
  mkTree [1; -1; 3; -1; 5; -1; -1]%Z [2; -1; 4; -1; 6; -1; -1]%Z [1; -1; 3; -1; 5; -1; -1]%Z
         [0; -2; 1; -2; 2; -2; -2]%Z [1; 0; 3; 0; 7; 0; 0]%Q [0; 10; 0; 20; 0; 30; 40]%Q.
Definition ex_x : pt := fun f => match f with 0 => 2%Q | 1 => 3%Q | _ => 7%Q end.

(** C01: the leaf rectangles tile the space and agree with prediction. *)
Theorem C01_leaf_rectangles_tile : forall t d, wf_tree t d = true ->
  exists ls, tree_leaves t = Some ls /\ length ls = length (leaf_idx t) /\
  forall x, exists k l lf,
    nth_error (leaf_idx t) k = Some l /\ predict_leaf t x no_missing = Some l /\
    nth_error ls k = Some lf /\ Inside d (l_rect lf) x /\ l_val lf = vlq t l /\
    forall k' lf', nth_error ls k' = Some lf' -> Inside d (l_rect lf') x -> k' = k.
Proof. exact tiling. Qed.
Print Assumptions C01_leaf_rectangles_tile.
Example C01_example :
  wf_tree ex_tree 2 = true /\ predict_leaf ex_tree ex_x no_missing = Some 3 /\
  option_map (map (fun l => in_rect 2 (l_rect l) ex_x)) (tree_leaves ex_tree)
    = Some [false; true; false].
Proof. vm_compute. auto. Qed.

(** C02: recorded variables are exactly the split features above the leaf, the
    rectangle is unbounded elsewhere, membership depends on them only. *)
Theorem C02_leaf_variables_exact : forall t d, wf_tree t d = true ->
  forall i lf, In i (leaf_idx t) -> leaf_of t i = Some lf ->
  NoDup (l_vars lf) /\
  (forall s, In s (l_vars lf) <-> above t s i) /\
  (forall s, In s (l_vars lf) -> s < d) /\
  (forall s, ~ In s (l_vars lf) -> l_rect lf s = (NInf, PInf)) /\
  (forall x z, (forall s, In s (l_vars lf) -> (x s == z s)%Q) ->
     (Inside d (l_rect lf) x <-> Inside d (l_rect lf) z)).
Proof. exact leaf_vars_statement. Qed.
Print Assumptions C02_leaf_variables_exact.
Example C02_example :
  wf_tree ex_tree 5 = true /\ In 3 (leaf_idx ex_tree) /\
  option_map l_vars (leaf_of ex_tree 3) = Some [1; 0] /\
  option_map l_vars (leaf_of ex_tree 1) = Some [0].
Proof. vm_compute. intuition. Qed.

(** C03: ensemble prediction is the offset plus the leaf values of the selected
    trees ([Forall2 leaf_value] pairs each selected tree with the value of the
    leaf reached). *)
Theorem C03_prediction_is_offset_plus_trees : forall ts d limit off x miss,
  forallb (fun t => wf_tree t d) ts = true ->
  exists vs r,
    Forall2 (fun t v => leaf_value t x miss v)
      (if ((limit <? 0) || (Z.of_nat (length ts) <? limit))%Z then ts
       else firstn (Z.to_nat limit) ts) vs /\
    base_predict ts limit off x miss = Some r /\ (r == off + sumf (fun v => v) vs)%Q.
Proof. exact limit_statement. Qed.
Print Assumptions C03_prediction_is_offset_plus_trees.

Theorem C03_growing_the_limit_adds_trees : forall ts d j k off x miss,
  forallb (fun t => wf_tree t d) ts = true -> j <= k ->
  exists vs rj rk,
    Forall2 (fun t v => leaf_value t x miss v) (firstn (k - j) (skipn j ts)) vs /\
    dense_tree_predict ts j off x miss = Some rj /\
    dense_tree_predict ts k off x miss = Some rk /\
    (rk == rj + sumf (fun v => v) vs)%Q.
Proof. exact increment_statement. Qed.
Print Assumptions C03_growing_the_limit_adds_trees.

Theorem C03_single_tree : forall ts d j off x miss t,
  forallb (fun t => wf_tree t d) ts = true -> nth_error ts j = Some t ->
  exists v r, leaf_value t x miss v /\
    single_tree_predict ts j off x miss = Some r /\ (r == off + v)%Q.
Proof. exact single_statement. Qed.
Print Assumptions C03_single_tree.

Theorem C03_leaf_value_functional : forall t d x miss v v', wf_tree t d = true ->
  leaf_value t x miss v -> leaf_value t x miss v' -> v = v'.
Proof. exact leaf_value_unique. Qed.
Print Assumptions C03_leaf_value_functional.
Example C03_example :
  forallb (fun t => wf_tree t 3) [ex_tree; ex_stump] = true /\
  base_predict [ex_tree; ex_stump] (-1) (1#2) ex_x no_missing = Some (45#2) /\
  base_predict [ex_tree; ex_stump] 1 (1#2) ex_x no_missing = Some (41#2) /\
  (* a missing x2 follows the default child of the stump *)
  base_predict [ex_tree; ex_stump] 2 0 (fun _ => 0%Q) (fun f => f =? 2) = Some 12%Q.
Proof. vm_compute. auto. Qed.

(** C04: re-weighting adds to each node the number of samples whose path
    visits it; the root gets all, an internal node the sum of its children. *)
Theorem C04_node_weights_count_paths : forall t d rows w,
  wf_tree t d = true ->
  exists vis : pt * (nat -> bool) -> nat -> bool,
    (forall r j, vis r j = true <-> visits t (fst r) (snd r) j) /\
    (forall j, (update_weights t rows w j == w j + Qn (length (filter (fun r => vis r j) rows)))%Q).
Proof. exact weights_statement. Qed.
Print Assumptions C04_node_weights_count_paths.
Theorem C04_root_and_children : forall t d, wf_tree t d = true -> forall rows w,
  (update_weights t rows w 0%nat - w 0%nat == Qn (length rows))%Q /\
  forall i, i < nn t -> leaf_node t i = false ->
  (update_weights t rows w i - w i ==
   (update_weights t rows w (Z.to_nat (clz t i)) - w (Z.to_nat (clz t i))) +
   (update_weights t rows w (Z.to_nat (crz t i)) - w (Z.to_nat (crz t i))))%Q.
Proof.
  intros t d H rows w.
  exact (conj (update_weights_root t d H rows w) (update_weights_balance t d H rows w)).
Qed.
Print Assumptions C04_root_and_children.
Example C04_example :
  wf_tree ex_tree 2 = true /\
  map (update_weights ex_tree [(ex_x, no_missing); ((fun _ => 0%Q), no_missing); (ex_x, fun f => f =? 0)]
         (fun _ => 0%Q)) (seq 0 5) = [3; 2; 1; 1; 0]%Q.
Proof. vm_compute. auto. Qed.

(** C05 is false of the code: [max_var] only sees the last tree.  In the
    witness the deep tree's leaf has three variables, while the exponent is 1;
    coalition counters of that leaf go up to [2^(3-1)-1 = 3], beyond a buffer
    of [2^1] slots. *)
Theorem C05_buffer_exponent_refuted :
  exists ts t ls lf mv,
    forallb (fun t => wf_tree t 3) ts = true /\ In t ts /\ tree_leaves t = Some ls /\ In lf ls /\
    ensemble_max_var ts = Some mv /\ mv < length (l_vars lf) /\
    2 ^ mv <= 2 ^ (length (l_vars lf) - 1) - 1.
Proof.
  assert (G : option_map (map (fun l => length (l_vars l))) (tree_leaves ex_deep)
              = Some [1; 2; 3; 3]) by (vm_compute; reflexivity).
  exists [ex_deep; ex_stump], ex_deep.
  destruct (tree_leaves ex_deep) as [ls|] eqn:E; [|discriminate].
  exists ls. destruct ls as [|l0 [|l1 [|l2 r]]]; try discriminate.
  exists l2, 1. injection G as G0 G1 G2 G3.
  split; [reflexivity|]. split; [now left|]. split; [trivial|]. split; [cbn; auto|].
  split; [reflexivity|]. rewrite G2. cbn. lia.
Qed.
Print Assumptions C05_buffer_exponent_refuted.

(** C05, what holds: when some leaf of the last tree attains the maximum. *)
Theorem C05_buffer_exponent_partial : forall ts mv,
  ensemble_max_var ts = Some mv ->
  (exists t lf ls, last ts t = t /\ In t ts /\ tree_leaves t = Some ls /\ In lf ls /\
     forall t' ls' lf', In t' ts -> tree_leaves t' = Some ls' -> In lf' ls' ->
       length (l_vars lf') <= length (l_vars lf)) ->
  forall t' ls' lf', In t' ts -> tree_leaves t' = Some ls' -> In lf' ls' ->
    length (l_vars lf') <= mv.
Proof. exact ensemble_max_var_partial_lemma. Qed.
Print Assumptions C05_buffer_exponent_partial.
Example C05_example :
  ensemble_max_var [ex_stump; ex_deep] = Some 3 /\
  map leaf_sizes [ex_stump; ex_deep] = [[1; 1]; [1; 2; 3; 3]].
Proof. vm_compute. auto. Qed.

(** C48: the computed depth is the length of the longest downward path from the
    root, and that path ends in a leaf. *)
Theorem C48_depth_exact : forall t d, wf_tree t d = true ->
  (forall k j, down_path t k 0 j -> k <= tree_depth t) /\
  (exists j, down_path t (tree_depth t) 0 j /\ leaf_node t j = true).
Proof. exact tree_depth_exact. Qed.
Print Assumptions C48_depth_exact.
Example C48_example : wf_tree ex_deep 3 = true /\ tree_depth ex_deep = 3 /\ tree_depth ex_tree = 2.
Proof. vm_compute. auto. Qed.

(** C45, C46, C81, C82: trees loaded from the dumps of other libraries. *)
From Verif Require Import Base TreeModel LoadModel LoadSpec LoadProofs.

(** ** C45 LightGBM *)

(** Every well-numbered dump is loaded, whatever the arrays contained before. *)
Theorem C45_loads : forall n junk scaling v, lgb_ok n v ->
  exists t w, load_lgb n junk scaling v = Some (t, w) /\ nn t = 2 * n - 1.
Proof. exact lgb_loads. Qed.
Print Assumptions C45_loads.

(** The loaded tree gives every observation, with missing values or not, the value of
    the leaf reached in the dump, times the scaling. *)
Theorem C45_predicts : forall n junk scaling v t w, lgb_ok n v -> load_lgb n junk scaling v = Some (t, w) ->
  forall x miss, exists q, predict_value t x miss = Some q /\ (q == lgb_follow v x miss * scaling)%Q.
Proof. exact lgb_predicts. Qed.
Print Assumptions C45_predicts.

(** The weights are the counts of the dump: split [i] at cell [i], leaf [i] after all the splits. *)
Theorem C45_weights : forall n junk scaling v t w, lgb_ok n v -> load_lgb n junk scaling v = Some (t, w) ->
  (forall i q c, In (LLeaf i q c) (lgb_sub v) -> w (i + (n - 1)) = c) /\
  (forall i f t0 dl q c l r, In (LNode i f t0 dl q c l r) (lgb_sub v) -> w i = c).
Proof. exact lgb_weights. Qed.
Print Assumptions C45_weights.

(** Splits numbered in the order of their creation: the tree is one the explainer accepts. *)
Theorem C45_well_formed : forall n junk scaling v t w d, lgb_ok n v -> load_lgb n junk scaling v = Some (t, w) ->
  lgb_ordered v -> lgb_features d v -> wf_tree t d = true.
Proof. exact lgb_well_formed. Qed.
Print Assumptions C45_well_formed.

Definition ex_lgb : lgb :=
  LNode 0 1 (1#2) true 5 10
    (LNode 2 0 3 false 4 6 (LLeaf 0 7 2) (LLeaf 3 9 4))
    (LNode 1 2 (-1) true 6 4 (LLeaf 1 (-2) 1) (LLeaf 2 (3#2) 3)).
Definition ex_junk : arrays := mkArrays (fun _ => 77%Z) (fun _ => 77%Z) (fun _ => 77%Z) (fun _ => 77%Z) (fun _ => 77%Q) (fun _ => 77%Q) (fun _ => 77%Q).
Definition ex_x : pt := fun i => nth i [4%Q; (1#2)%Q; 0%Q] 0%Q.
Example C45_example : lgb_ok 4 ex_lgb /\ lgb_ordered ex_lgb /\ lgb_features 3 ex_lgb /\
  match load_lgb 4 ex_junk 2 ex_lgb with
  | Some (t, w) => predict_value t ex_x (fun _ => false) = Some (9 * 2)%Q /\
                   predict_value t ex_x (fun i => i =? 1) = Some (9 * 2)%Q /\
                   predict_value t ex_x (fun i => i =? 0) = Some (9 * 2)%Q /\
                   predict_value t (fun _ => 1%Q) (fun i => i =? 2) = Some (-2 * 2)%Q /\ wf_tree t 3 = true /\ w 6 = 4%Q
  | None => False
  end.
Proof.
  unfold lgb_ok, ex_lgb. cbn [lgb_splits lgb_leaves app seq Nat.sub]. repeat split; try (vm_compute; lia); try reflexivity.
  - apply perm_skip. apply perm_swap.
  - apply perm_skip. apply perm_trans with [1; 3; 2]; [apply perm_swap|apply perm_skip, perm_swap].
Qed.

(** ** C81 XGBoost JSON dumps *)

(** XGBoost sends an observation to [yes] when it is strictly below the condition; the
    loaded tree does so when it is at most the condition. *)
Theorem C81_predicts_partial : forall junk scaling v x miss, xjs_ok v -> xjs_off v x ->
  exists q, predict_value (fst (load_xjs junk scaling v)) x miss = Some q /\ (q == xjs_follow qltb v x miss * scaling)%Q.
Proof. exact xjs_predicts. Qed.
Print Assumptions C81_predicts_partial.
(** Without the condition that no value falls on a split: what is computed. *)
Theorem C81_computes : forall junk scaling v x miss, xjs_ok v ->
  exists q, predict_value (fst (load_xjs junk scaling v)) x miss = Some q /\ (q == xjs_follow qleb v x miss * scaling)%Q.
Proof. exact xjs_computes. Qed.
Print Assumptions C81_computes.
(** An observation equal to the condition of a split gets the value of the other side. *)
Theorem C81_predicts_refuted : exists junk scaling v x miss, xjs_ok v /\
  exists q, predict_value (fst (load_xjs junk scaling v)) x miss = Some q /\ ~ (q == xjs_follow qltb v x miss * scaling)%Q.
Proof. exact xjs_tie. Qed.
Print Assumptions C81_predicts_refuted.
(** The weights are the covers of the dump. *)
Theorem C81_weights : forall junk scaling v u, xjs_ok v -> In u (xjs_sub v) ->
  snd (load_xjs junk scaling v) (xjs_id u) = match u with XLeaf _ _ c => c | XNode _ _ _ _ _ _ c _ _ => c end.
Proof. exact xjs_weights. Qed.
Print Assumptions C81_weights.
(** Nodes numbered without holes, each after the one above it: a tree the explainer accepts. *)
Theorem C81_well_formed : forall junk scaling v d, xjs_ok v ->
  Permutation (map xjs_id (xjs_sub v)) (seq 0 (length (xjs_sub v))) -> xjs_ordered v -> xjs_features d v ->
  nn (fst (load_xjs junk scaling v)) = length (xjs_sub v) /\ wf_tree (fst (load_xjs junk scaling v)) d = true.
Proof. exact xjs_well_formed. Qed.
Print Assumptions C81_well_formed.

(** the children listed in the other order, missing values to [no] *)
Definition ex_xjs : xjs :=
  XNode 0 1 (1#2) 1 2 2 10 (XLeaf 2 7 4) (XNode 1 0 3 3 4 3 6 (XLeaf 3 5 1) (XLeaf 4 9 5)).
Example C81_example : xjs_ok ex_xjs /\ xjs_off ex_xjs (fun _ => 0%Q) /\ ~ xjs_off ex_xjs ex_x /\
  xjs_ordered ex_xjs /\ xjs_features 2 ex_xjs /\ Permutation (map xjs_id (xjs_sub ex_xjs)) (seq 0 5) /\
  let (t, w) := load_xjs (fun _ => 77%Q) 1 ex_xjs in
  (exists q, predict_value t (fun _ => 0%Q) (fun _ => false) = Some q /\ q == 5)%Q /\
  (exists q, predict_value t (fun _ => 0%Q) (fun i => i =? 1) = Some q /\ q == 7)%Q /\
  (exists q, predict_value t ex_x (fun _ => false) = Some q /\ q == 9)%Q /\
  xjs_follow qltb ex_xjs ex_x (fun _ => false) = 7%Q /\ wf_tree t 2 = true /\ w 4 = 5%Q.
Proof.
  assert (P : Permutation [0; 2; 1; 3; 4] [0; 1; 2; 3; 4]) by (apply perm_skip, perm_swap).
  split; [|split; [|split; [|split; [|split; [|split]]]]].
  - split; [|vm_compute; intuition]. apply (Permutation_NoDup (Permutation_sym P)). exact (seq_NoDup 5 0).
  - vm_compute. intuition discriminate.
  - vm_compute. intuition.
  - vm_compute. intuition lia.
  - vm_compute. intuition lia.
  - exact P.
  - vm_compute. repeat split; eexists; split; reflexivity.
Qed.

(** ** C82 Spark *)

Theorem C82_predicts : forall scaling v x miss, (forall f, miss f = false) ->
  exists q, predict_value (fst (load_spk scaling v)) x miss = Some q /\ (q == spk_follow v x * scaling)%Q.
Proof. exact spk_predicts. Qed.
Print Assumptions C82_predicts.
(** The nodes are numbered in prefix order and carry their counts. *)
Theorem C82_weights : forall scaling v, nn (fst (load_spk scaling v)) = length (spk_nodes v) /\
  forall i u, nth_error (spk_nodes v) i = Some u -> snd (load_spk scaling v) i = spk_count u.
Proof. exact spk_weights. Qed.
Print Assumptions C82_weights.
Theorem C82_well_formed : forall scaling v d, spk_features d v -> wf_tree (fst (load_spk scaling v)) d = true.
Proof. exact spk_well_formed. Qed.
Print Assumptions C82_well_formed.

Definition ex_spk : spk :=
  SNode 1 (1#2) 5 10 (SNode 0 3 4 6 (SLeaf 7 2) (SLeaf 9 4)) (SLeaf 1 4).
Example C82_example : spk_features 2 ex_spk /\
  let (t, w) := load_spk 3 ex_spk in
  predict_value t ex_x (fun _ => false) = Some (9 * 3)%Q /\ predict_value t (fun _ => 1%Q) (fun _ => false) = Some (1 * 3)%Q /\
  wf_tree t 2 = true /\ map w (seq 0 5) = [10; 6; 2; 4; 4]%Q.
Proof. split; [vm_compute; intuition lia|]. vm_compute. repeat split. Qed.

(** ** C46 CatBoost *)

(** Numerical splits: the leaf is the one numbered by the answers, the first split giving
    the lowest bit. *)
Theorem C46_leaf_partial : forall splits values weights x miss,
  length values = 2 ^ length splits -> (forall s, In s splits -> is_float s) -> (forall f, miss f = false) ->
  exists q, predict_value (fst (load_cb splits values weights)) x miss = Some q /\
            (q == nth (cb_leaf (map (cb_answer x) splits)) values 0)%Q.
Proof. exact cb_leaf_reached. Qed.
Print Assumptions C46_leaf_partial.
(** A split on a category is an equality in CatBoost and a threshold in the loaded tree. *)
Theorem C46_leaf_refuted : exists splits values weights x miss,
  length values = 2 ^ length splits /\ length weights = 2 ^ length splits /\ (forall f, miss f = false) /\
  exists q, predict_value (fst (load_cb splits values weights)) x miss = Some q /\
            ~ (q == nth (cb_leaf (map (cb_answer x) splits)) values 0)%Q.
Proof. exact cb_category. Qed.
Print Assumptions C46_leaf_refuted.
(** The weight of position [j] of level [c] is that of the leaves below it. *)
Theorem C46_weights : forall splits values weights c m j, length weights = 2 ^ length splits ->
  c + m = length splits -> j < 2 ^ c ->
  (snd (load_cb splits values weights) (2 ^ c - 1 + j)%nat == block weights (j * 2 ^ m) (2 ^ m))%Q.
Proof. exact cb_weights_of_nodes. Qed.
Print Assumptions C46_weights.
Theorem C46_well_formed : forall splits values weights d, length values = 2 ^ length splits ->
  (forall s, In s splits -> cb_feature s < d) ->
  nn (fst (load_cb splits values weights)) = 2 ^ (length splits + 1) - 1 /\
  wf_tree (fst (load_cb splits values weights)) d = true.
Proof. exact cb_well_formed. Qed.
Print Assumptions C46_well_formed.

Definition ex_cb : list cbsplit := [FloatFeature 0 3; FloatFeature 2 1; FloatFeature 1 (1#4)].
Definition ex_values : list Q := [10; 11; 12; 13; 14; 15; 16; 17]%Q.
Definition ex_weights : list Q := [1; 2; 3; 4; 5; 6; 7; 8]%Q.
Example C46_example : (forall s, In s ex_cb -> is_float s) /\ length ex_values = 2 ^ length ex_cb /\
  (forall s, In s ex_cb -> cb_feature s < 3) /\ cb_leaf (map (cb_answer ex_x) ex_cb) = 5 /\
  let (t, w) := load_cb ex_cb ex_values ex_weights in
  predict_value t ex_x (fun _ => false) = Some (15 * 1)%Q /\ wf_tree t 3 = true /\
  (map (fun i => Qred (w i)) (seq 0 7) = [36; 10; 26; 3; 7; 11; 15])%Q.
Proof.
  split; [intros s [<-|[<-|[<-|[]]]]; exact I|]. split; [reflexivity|].
  split; [intros s [<-|[<-|[<-|[]]]]; cbn; lia|]. split; [reflexivity|]. vm_compute. repeat split.
Qed.

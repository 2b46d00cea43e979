(** Property theorems C15-C17, C51, C52: leaf-based conditional expectations and
    same-decision probabilities.  Each is proved by a lemma of SdpProofs.v. *)
From Verif Require Import Base TreeModel TreeSpec GameSpec ShapModel ShapSpec ShapProofs AcvModel
  SdpModel SdpSpec SdpProofs PropertiesTree PropertiesShap.

Lemma ex_off z : In z (row 2 4 2 :: ex_data) -> off_boundary ex_forest z.
Proof.
  intro H. apply (off_check_ok 3); [exact ex_forest_ok|].
  cbn in H. repeat (destruct H as [<-|H]; [vm_compute; reflexivity|]). destruct H.
Qed.

(** C15: no variable gives the average prediction, all variables give the
    prediction; both off the leaf boundaries. *)
Theorem C15_exp_no_variable : forall m data ts forest x off rdata,
  forallb (fun t => wf_tree t m) ts = true -> forest_leaves ts = Some forest -> data <> [] ->
  off_boundary forest x -> (forall z, In z data -> off_boundary forest z) ->
  Forall2 (fun z r => dense_tree_predict ts (length ts) off z no_missing = Some r) data rdata ->
  (compute_exp m data [] forest x == sumf (fun r => r) rdata / Qn (length data) - off)%Q.
Proof. exact exp_no_variable. Qed.
Print Assumptions C15_exp_no_variable.
Theorem C15_exp_all_variables : forall m data ts forest S x off r,
  forallb (fun t => wf_tree t m) ts = true -> forest_leaves ts = Some forest ->
  off_boundary forest x -> (forall z, In z data -> off_boundary forest z) ->
  (forall s, In s S <-> s < m) ->
  (forall ls lf, In ls forest -> In lf ls -> Inside m (l_rect lf) x ->
     exists z, In z data /\ Inside m (l_rect lf) z) ->
  dense_tree_predict ts (length ts) off x no_missing = Some r ->
  (compute_exp m data S forest x == r - off)%Q.
Proof. exact exp_all_variables. Qed.
Print Assumptions C15_exp_all_variables.
(** between the two: the plug-in conditional expectation of the Shapley game *)
Theorem C15_exp_is_worth : forall m data S forest x,
  off_boundary forest x -> (forall z, In z data -> off_boundary forest z) ->
  (compute_exp m data S forest x == worth m data forest x [S])%Q.
Proof. exact compute_exp_worth. Qed.
Print Assumptions C15_exp_is_worth.
(** the Python version agrees for a non-empty set of variables *)
Theorem C15_python_agrees : forall m data S forest x, S <> [] ->
  off_boundary forest x -> (forall z, In z data -> off_boundary forest z) ->
  exists v, py_compute_exp m data S forest x = Some v /\ (v == compute_exp m data S forest x)%Q.
Proof. exact py_exp_all_off. Qed.
Print Assumptions C15_python_agrees.
Example C15_example :
  (forall z, In z ex_data -> off_boundary ex_forest z) /\ off_boundary ex_forest (row 2 4 2) /\
  (forall ls lf, In ls ex_forest -> In lf ls -> Inside 3 (l_rect lf) (row 2 4 2) ->
     exists z, In z ex_data /\ Inside 3 (l_rect lf) z) /\
  map (fun z => dense_tree_predict ex_trees 2 5 z no_missing) ex_data = map Some [25; 45; 65; 75; 25]%Q /\
  Qred (compute_exp 3 ex_data [] ex_forest (row 2 4 2)) = (42)%Q /\
  dense_tree_predict ex_trees 2 5 (row 2 4 2) no_missing = Some 65%Q /\
  Qred (compute_exp 3 ex_data [0; 1; 2] ex_forest (row 2 4 2)) = 60%Q /\
  Qred (compute_exp 3 ex_data [0] ex_forest (row 2 4 2)) = (170 # 3)%Q.
Proof.
  split; [intros z H; apply ex_off; now right|]. split; [apply ex_off; now left|]. split.
  { intros ls lf H1 H2 H3. exists (row 2 4 2). split; [right; right; now left|exact H3]. }
  vm_compute. auto 10.
Qed.
(** on a boundary the claim is false: closed tests count a row twice *)
Theorem C15_on_boundary_refuted : exists t forest data x r,
  wf_tree t 1 = true /\ forest_leaves [t] = Some forest /\
  (forall ls lf, In ls forest -> In lf ls -> Inside 1 (l_rect lf) x ->
     exists z, In z data /\ Inside 1 (l_rect lf) z) /\
  dense_tree_predict [t] 1 0 x no_missing = Some r /\
  ~ (compute_exp 1 data [0%nat] forest x == r)%Q.
Proof.
  exists (mkTree [1; -1; -1]%Z [2; -1; -1]%Z [2; -1; -1]%Z [0; -2; -2]%Z [1; 0; 0]%Q [0; 10; 20]%Q).
  eexists. exists [row 1 0 0; row 2 0 0]%Q, (row 1 0 0)%Q, 10%Q.
  split; [reflexivity|]. split; [vm_compute; reflexivity|]. split; [|split; [reflexivity|]].
  - intros ls lf H1 H2 H3. exists (row 1 0 0)%Q. split; [now left|exact H3].
  - intro H. vm_compute in H. discriminate.
Qed.
Print Assumptions C15_on_boundary_refuted.
(** the Python version raises for the empty set of variables *)
Theorem C15_python_empty_set_raises : forall m data forest x ls,
  In ls forest -> ls <> [] -> py_compute_exp m data [] forest x = None.
Proof. exact py_exp_empty_raises. Qed.
Print Assumptions C15_python_empty_set_raises.
Example C15_python_empty_set_example : py_compute_exp 3 ex_data [] ex_forest (row 2 4 2) = None.
Proof. reflexivity. Qed.

(** C15, categorical version: the exact average of the predictions over the rows
    equal to the observation on the given variables, on or off boundaries. *)
Theorem C15_exp_cat_conditional_mean : forall m data ts forest S x off rs,
  forallb (fun t => wf_tree t m) ts = true -> forest_leaves ts = Some forest ->
  (forall s, In s S -> s < m) ->
  Forall2 (fun z r => dense_tree_predict ts (length ts) off z no_missing = Some r)
          (filter (same_on S x) data) rs ->
  rs <> [] ->
  (compute_exp_cat m data S forest x == sumf (fun r => r) rs / Qn (length rs) - off)%Q.
Proof. exact exp_cat_predictions. Qed.
Print Assumptions C15_exp_cat_conditional_mean.
Example C15_exp_cat_example :
  length (filter (same_on [0] (row 2 3 7)) ex_data) = 3 /\
  map (fun z => dense_tree_predict ex_trees 2 5 z no_missing) (filter (same_on [0] (row 2 3 7)) ex_data)
    = map Some [45; 65; 75]%Q /\
  Qred (compute_exp_cat 3 ex_data [0] ex_forest (row 2 3 7)) = (170 # 3)%Q.
Proof. vm_compute. auto. Qed.

(** C16: the normalised expectation of a tree is between two of its leaf values. *)
Theorem C16_normalised_expectation_bounds : forall m data S ls x v,
  exp_norm_tree m data S ls x = Some v ->
  (exists lf, In lf ls /\
     forallb (fun s => ext_leb_q (fst (l_rect lf s)) (x s) && q_leb_ext (x s) (snd (l_rect lf s))) S = true /\
     exists z, In z data /\ inside_closed m (l_rect lf) z = true) ->
  exists lo hi, In lo ls /\ In hi ls /\ (l_val lo <= v <= l_val hi)%Q.
Proof. exact exp_norm_bounds. Qed.
Print Assumptions C16_normalised_expectation_bounds.
Example C16_example :
  let ls := nth 1 ex_forest [] in
  exists v, exp_norm_tree 3 ex_data [1] ls (row 2 4 2) = Some v /\ (v == 205 # 8)%Q /\ map l_val ls = [10; 20; 30; 40]%Q.
Proof. cbn zeta. eexists. split; [vm_compute; reflexivity|]. split; vm_compute; reflexivity. Qed.

(** C17: the categorical routine and both Python routines return probabilities. *)
Theorem C17_sdp_clf_cat_probability : forall m rows fX S forest x,
  (0 <= compute_sdp_clf_cat m rows fX S forest x <= 1)%Q /\
  (length S = m -> (compute_sdp_clf_cat m rows fX S forest x == 1)%Q) /\
  (0 < m -> S = [] -> (compute_sdp_clf_cat m rows fX S forest x == 0)%Q).
Proof. exact sdp_clf_cat_prob. Qed.
Print Assumptions C17_sdp_clf_cat_probability.
Theorem C17_python_cat_same : forall m rows fX S forest x,
  (py_sdp_clf_cat m rows fX S forest x == compute_sdp_clf_cat m rows fX S forest x)%Q.
Proof. exact py_sdp_clf_cat_same. Qed.
Print Assumptions C17_python_cat_same.
Theorem C17_python_sdp_clf_probability : forall m rows fX S forest x,
  (0 <= py_sdp_clf m rows fX S forest x <= 1)%Q /\
  (length S = m -> (py_sdp_clf m rows fX S forest x == 1)%Q) /\
  (0 < m -> S = [] -> (py_sdp_clf m rows fX S forest x == 0)%Q).
Proof. exact py_sdp_clf_prob. Qed.
Print Assumptions C17_python_sdp_clf_probability.
(** the compiled non-categorical routine keeps the two end values only *)
Theorem C17_compiled_sdp_clf_partial : forall m rows fX S forest x,
  (length S = m -> (compute_sdp_clf m rows fX S forest x == 1)%Q) /\
  (0 < m -> S = [] -> (compute_sdp_clf m rows fX S forest x == 0)%Q).
Proof. exact sdp_clf_ends. Qed.
Print Assumptions C17_compiled_sdp_clf_partial.
(** probability of class 0 of a two-class tree *)
Definition ex_proba : tree :=
  mkTree [1; 2; -1; -1; 5; -1; -1]%Z [4; 3; -1; -1; 6; -1; -1]%Z [4; 3; -1; -1; 6; -1; -1]%Z
         [1; 0; -2; -2; 0; -2; -2]%Z [1; 1; 0; 0; 2; 0; 0]%Q [0; 0; 1#2; 3#4; 0; 1; 1#4]%Q.
Definition ex_proba_rows : list (pt * nat) :=
  [(row (1#2) (3#2) 0, 0%nat); (row (5#2) (1#2) 0, 0%nat); (row (5#2) (3#2) 0, 1%nat)]%Q.
(** but its values may exceed 1: witness with the true classes of every row and
    of the observation (class 0 iff the probability of class 0 is above 1/2) *)
Theorem C17_compiled_sdp_clf_refuted : exists t forest rows S x p,
  wf_tree t 2 = true /\ forest_leaves [t] = Some forest /\
  (forall s, In s S -> s < 2) /\ NoDup S /\
  (forall r, In r rows -> off_boundary forest (fst r) /\
     exists q, dense_tree_predict [t] 1 0 (fst r) no_missing = Some q /\ (0 <= q <= 1)%Q /\
               (snd r = 0 <-> (1 # 2 < q)%Q) /\ (snd r = 1 <-> (q < 1 # 2)%Q)) /\
  dense_tree_predict [t] 1 0 x no_missing = Some p /\ (1 # 2 < p)%Q /\ off_boundary forest x /\
  (1 < compute_sdp_clf 2 rows 0%nat S forest x)%Q.
Proof.
  exists ex_proba. eexists. exists ex_proba_rows, [0], (row (3#2) (3#2) 0)%Q, 1%Q.
  split; [vm_compute; reflexivity|]. split; [vm_compute; reflexivity|].
  match goal with |- context [off_boundary ?f] => set (F := f) end.
  assert (Hok : forest_ok 2 F) by (apply (forest_leaves_ok [ex_proba]); vm_compute; reflexivity).
  split; [intros s [<-|[]]; lia|]. split; [repeat constructor; intros []|]. split.
  - intros r Hr. cbn in Hr. destruct Hr as [<-|[<-|[<-|[]]]];
      (split; [apply (off_check_ok 2 F _ Hok); vm_compute; reflexivity|]);
      eexists; (split; [vm_compute; reflexivity|]); cbn; (split; [lra|]); split; split; intro; try lra; try lia; try discriminate.
  - split; [vm_compute; reflexivity|]. split; [reflexivity|].
    split; [apply (off_check_ok 2 F _ Hok); vm_compute; reflexivity|]. vm_compute. reflexivity.
Qed.
Print Assumptions C17_compiled_sdp_clf_refuted.

(** C51: the categorical classifier routine returns the frequency of the decision
    among the rows equal to the observation on the given variables. *)
Theorem C51_sdp_clf_cat_is_frequency : forall m rows fX S forest x,
  (forall s, In s S -> s < m) -> 0 < length S -> length S < m ->
  let ms := filter (fun r => same_on S x (fst r)) rows in
  ms <> [] ->
  ~ (mean (fun r => closed_value m forest (fst r)) (filter (fun r => snd r =? fX) ms) ==
     mean (fun r => closed_value m forest (fst r)) (filter (fun r => negb (snd r =? fX)) ms))%Q ->
  (compute_sdp_clf_cat m rows fX S forest x ==
   Qn (length (filter (fun r => snd r =? fX) ms)) / Qn (length ms))%Q.
Proof. exact sdp_clf_cat_exact. Qed.
Print Assumptions C51_sdp_clf_cat_is_frequency.
(** in particular whenever the decision is a threshold on the predicted value and
    both decisions occur among those rows *)
Theorem C51_threshold_decisions : forall m ts forest rows fX S x c (pr : pt -> Q),
  forallb (fun t => wf_tree t m) ts = true -> forest_leaves ts = Some forest ->
  (forall s, In s S -> s < m) -> 0 < length S -> length S < m ->
  (forall r, In r rows -> off_boundary forest (fst r) /\
     dense_tree_predict ts (length ts) 0 (fst r) no_missing = Some (pr (fst r)) /\
     (snd r = fX <-> (c < pr (fst r))%Q)) ->
  let ms := filter (fun r => same_on S x (fst r)) rows in
  (exists r, In r ms /\ snd r = fX) -> (exists r, In r ms /\ snd r <> fX) ->
  (compute_sdp_clf_cat m rows fX S forest x ==
   Qn (length (filter (fun r => snd r =? fX) ms)) / Qn (length ms))%Q.
Proof. exact sdp_clf_cat_threshold. Qed.
Print Assumptions C51_threshold_decisions.
Definition ex_rows_clf : list (pt * nat) := combine ex_data [0; 1; 2; 2; 0].
Example C51_example :
  map snd (filter (fun r => same_on [0%nat] (row 2 4 2) (fst r)) ex_rows_clf) = [1; 2; 2] /\
  Qred (compute_sdp_clf_cat 3 ex_rows_clf 2 [0] ex_forest (row 2 4 2)) = (2 # 3)%Q /\
  ~ (mean (fun r => closed_value 3 ex_forest (fst r))
       (filter (fun r => Nat.eqb (snd r) 2) (filter (fun r => same_on [0%nat] (row 2 4 2) (fst r)) ex_rows_clf)) ==
     mean (fun r => closed_value 3 ex_forest (fst r))
       (filter (fun r => negb (Nat.eqb (snd r) 2)) (filter (fun r => same_on [0%nat] (row 2 4 2) (fst r)) ex_rows_clf)))%Q.
Proof. vm_compute. repeat split; try reflexivity. discriminate. Qed.

(** C52: the categorical regression routine always returns a probability, and the
    frequency of the rows within the tolerance when the row predictions are those
    of the ensemble and both kinds of rows occur. *)
Theorem C52_sdp_reg_cat_probability : forall m rows fX tX S forest x,
  (forall s, In s S -> s < m) -> (0 <= compute_sdp_reg_cat m rows fX tX S forest x <= 1)%Q.
Proof. exact sdp_reg_cat_prob. Qed.
Print Assumptions C52_sdp_reg_cat_probability.
Theorem C52_sdp_reg_cat_is_frequency : forall m ts forest rows fX tX S x,
  forallb (fun t => wf_tree t m) ts = true -> forest_leaves ts = Some forest ->
  (forall s, In s S -> s < m) ->
  (forall r, In r rows -> off_boundary forest (fst r) /\
     dense_tree_predict ts (length ts) 0 (fst r) no_missing = Some (snd r)) ->
  let ms := filter (fun r => same_on S x (fst r)) rows in
  let near := fun r : pt * Q => qleb ((fX - snd r) * (fX - snd r)) tX in
  (exists r, In r ms /\ near r = true) -> (exists r, In r ms /\ near r = false) ->
  (compute_sdp_reg_cat m rows fX tX S forest x == Qn (length (filter near ms)) / Qn (length ms))%Q.
Proof. exact sdp_reg_cat_exact. Qed.
Print Assumptions C52_sdp_reg_cat_is_frequency.
Definition ex_rows_reg : list (pt * Q) := combine ex_data [20; 40; 60; 70; 20]%Q.
Example C52_example :
  (forall r, In r ex_rows_reg -> off_boundary ex_forest (fst r) /\
     dense_tree_predict ex_trees 2 0 (fst r) no_missing = Some (snd r)) /\
  map snd (filter (fun r => same_on [0] (row 2 4 2) (fst r)) ex_rows_reg) = [40; 60; 70]%Q /\
  Qred (compute_sdp_reg_cat 3 ex_rows_reg 60 100 [0] ex_forest (row 2 4 2)) = (2 # 3)%Q.
Proof.
  split; [|vm_compute; auto]. intros r Hr. split.
  - apply ex_off. right. cbn in Hr. cbn. repeat (destruct Hr as [<-|Hr]; [cbn; tauto|]). destruct Hr.
  - cbn in Hr. repeat (destruct Hr as [<-|Hr]; [vm_compute; reflexivity|]). destruct Hr.
Qed.
(** outside these hypotheses the compiled routine can answer 0 although every
    matching row is within the tolerance *)
Theorem C52_all_rows_near_refuted : exists ts forest rows fX tX S x,
  forallb (fun t => wf_tree t 1) ts = true /\ forest_leaves ts = Some forest /\
  (forall r, In r rows -> off_boundary forest (fst r) /\
     dense_tree_predict ts (length ts) 0 (fst r) no_missing = Some (snd r)) /\
  dense_tree_predict ts (length ts) 0 x no_missing = Some fX /\
  (forall r, In r rows -> same_on S x (fst r) = true /\ ((fX - snd r) * (fX - snd r) <= tX)%Q) /\ rows <> [] /\
  (compute_sdp_reg_cat 1%nat rows fX tX S forest x == 0)%Q.
Proof.
  exists [mkTree [1; -1; -1]%Z [2; -1; -1]%Z [2; -1; -1]%Z [0; -2; -2]%Z [1; 0; 0]%Q [0; 0; 20]%Q].
  eexists. exists [(row 0 0 0, 0%Q)]%Q, 0%Q, 1%Q, [0], (row 0 0 0)%Q.
  split; [reflexivity|]. split; [vm_compute; reflexivity|].
  match goal with |- context [off_boundary ?f] => set (F := f) end.
  assert (Hok : forest_ok 1 F).
  { apply (forest_leaves_ok [mkTree [1; -1; -1]%Z [2; -1; -1]%Z [2; -1; -1]%Z [0; -2; -2]%Z [1; 0; 0]%Q [0; 0; 20]%Q]);
    vm_compute; reflexivity. }
  split.
  - intros r [<-|[]]. split; [apply (off_check_ok 1 F _ Hok); vm_compute; reflexivity|vm_compute; reflexivity].
  - split; [reflexivity|]. split; [|split; [discriminate|vm_compute; reflexivity]].
    intros r [<-|[]]. split; [reflexivity|cbn; lra].
Qed.
Print Assumptions C52_all_rows_near_refuted.

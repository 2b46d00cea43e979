(** C115 to C117: the conditional expectations of one tree in the experiments. *)
From Verif Require Import Base TreeModel TreeSpec TreeProofs RulesModel PartModel PartSpec PartProofs MvnModel McModel CteModel CteSpec
  CteProofs CteProofs2 CteProofs3 CteProofs4 PropertiesPart CteCases.
Local Open Scope nat_scope.

(** ** C115: algo 'shap' *)
(** The answer is between the least and the greatest value of the leaves that can be met. *)
Theorem C115_range : forall t d w x S lo hi, wf_tree t d = true -> sk_tree t -> fitted t w -> met_between t x S (fun v => v) lo hi ->
  exists q, exp_shap t w x S = Some q /\ (lo <= q <= hi)%Q.
Proof. intros t d w x S lo hi Hwf Hsk. exact (shap_between t d Hwf Hsk w x S lo hi). Qed.
Print Assumptions C115_range.
Example C115_range_example : wf_tree deep 2 = true /\ sk_tree deep /\ fitted deep (seen deep ex_rows) /\
  met_between deep (pp 3 4) [1] (fun v => v) 7 9 /\ option_map Qred (exp_shap deep (seen deep ex_rows) (pp 3 4) [1]) = Some (25 # 3)%Q.
Proof. split; [reflexivity|]. split; [exact deep_sk|]. split; [exact deep_fitted|]. split; [met|vm_compute; reflexivity]. Qed.

(** When all the split features are known the answer is the prediction. *)
Theorem C115_full : forall t d w x S, wf_tree t d = true -> sk_tree t -> fitted t w -> splits_in t S ->
  exists q v, exp_shap t w x S = Some q /\ leaf_value t x no_missing v /\ (q == v)%Q.
Proof. intros t d w x S Hwf Hsk. exact (shap_full t d Hwf Hsk w x S). Qed.
Print Assumptions C115_full.
Example C115_full_example : splits_in one [0] /\ ~ splits_in one [1] /\ fitted one (seen one two_rows) /\
  option_map Qred (exp_shap one (seen one two_rows) (pp 1 1) [0]) = Some 2%Q.
Proof.
  split; [|split; [|split; [exact one_fitted|vm_compute; reflexivity]]].
  - intros i Hi L. vm_compute in Hi. destruct i as [|[|[|i]]]; [now left|discriminate|discriminate|lia].
  - intro H. specialize (H 0 ltac:(vm_compute; lia) eq_refl). cbn in H. destruct H as [H|[]]. discriminate.
Qed.

(** The answer depends on nothing but the values of the known features and on which split features are known. *)
Theorem C115_known : forall t d w x y S S' q r, wf_tree t d = true -> sk_tree t -> fitted t w -> same_on S x y ->
  (forall i, i < nn t -> leaf_node t i = false -> (In (ftn t i) S <-> In (ftn t i) S')) ->
  exp_shap t w x S = Some q -> exp_shap t w y S' = Some r -> (q == r)%Q.
Proof. intros t d w x y S S' q r Hwf Hsk. exact (shap_same t d Hwf Hsk w x y S S' q r). Qed.
Print Assumptions C115_known.
Example C115_known_example : same_on [1] (pp 3 4) (pp (-7) 4) /\
  (forall i, i < nn deep -> leaf_node deep i = false -> (In (ftn deep i) [1] <-> In (ftn deep i) [5; 1])) /\
  option_map Qred (exp_shap deep (seen deep ex_rows) (pp 3 4) [1]) = Some (25 # 3)%Q /\
  option_map Qred (exp_shap deep (seen deep ex_rows) (pp (-7) 4) [5; 1]) = Some (25 # 3)%Q.
Proof.
  split; [intros s [<-|[]]; reflexivity|]. split; [|split; vm_compute; reflexivity].
  intros i Hi L. vm_compute in Hi. do 7 (destruct i as [|i]; [vm_compute in *; intuition congruence|]). lia.
Qed.

(** Without known features the answer is the mean of the predictions over the training sample. *)
Theorem C115_empty : forall t d w x rows q, wf_tree t d = true -> sk_tree t -> fitted t w -> counts t w rows -> rows <> [] ->
  exp_shap t w x [] = Some q -> mean_pred t rows q.
Proof. intros t d w x rows q Hwf Hsk. exact (shap_empty t d Hwf Hsk w x rows q). Qed.
Print Assumptions C115_empty.
Example C115_empty_example : fitted uneven (seen uneven all_rows) /\ counts uneven (seen uneven all_rows) all_rows /\
  option_map Qred (exp_shap uneven (seen uneven all_rows) (pp 1 1) []) = Some (37 # 6)%Q /\ mean_pred uneven all_rows (37 # 6)%Q.
Proof. split; [exact uneven_fitted|]. split; [now apply (seen_counts uneven 2)|]. split; [vm_compute; reflexivity|mean]. Qed.

(** The answer is the mean of the predictions over the rows that agree with [x] on [S] as soon as, at the nodes met, the agreeing rows
    split like the training sample. *)
Theorem C115_conditional_partial : forall t d w x S data A, wf_tree t d = true -> sk_tree t -> fitted t w -> agreeing S x data A ->
  filter A data <> [] -> blind t w S (filter A data) -> exists q, exp_shap t w x S = Some q /\ mean_pred t (filter A data) q.
Proof. intros t d w x S data A Hwf Hsk. exact (shap_blind t d Hwf Hsk w x S data A). Qed.
Print Assumptions C115_conditional_partial.
Definition even_rows : list pt := [pp 3 4; pp (-1) 4; pp 2 2; pp (-1) 3; pp (-1) 0; pp 1 0].
Example C115_conditional_example : fitted deep (seen deep even_rows) /\ agreeing [1] (pp 3 4) even_rows (agreeb [1] (pp 3 4)) /\
  length (filter (agreeb [1] (pp 3 4)) even_rows) = 2 /\ blind deep (seen deep even_rows) [1] (filter (agreeb [1] (pp 3 4)) even_rows) /\
  option_map Qred (exp_shap deep (seen deep even_rows) (pp 3 4) [1]) = Some 8%Q.
Proof.
  split; [nodes|]. split; [apply agreeb_ok|]. split; [vm_compute; reflexivity|]. split; [|vm_compute; reflexivity].
  apply (blind_check deep 2); [reflexivity|]. intros i Hi L Hn. vm_compute in Hi.
  do 7 (destruct i as [|i]; [first [discriminate L|exfalso; apply Hn; now left|vm_compute; reflexivity]|]). lia.
Qed.
(** In general it is not: the weights of the nodes know nothing of the known features. *)
Theorem C115_conditional_refuted : exists t d w x S data A q r, wf_tree t d = true /\ sk_tree t /\ fitted t w /\ counts t w data /\
  (forall z, In z data -> off_thresholds t z) /\ agreeing S x data A /\ exp_shap t w x S = Some q /\ mean_pred t (filter A data) r /\ ~ (q == r)%Q.
Proof.
  exists one, 2, (seen one two_rows), (pp 1 1), [1], two_rows, (agreeb [1] (pp 1 1)). eexists. exists 2%Q.
  split; [reflexivity|]. split; [exact one_sk|]. split; [exact one_fitted|]. split; [now apply (seen_counts one 2)|]. split; [off|].
  split; [apply agreeb_ok|]. split; [reflexivity|]. split; [mean|vm_compute; discriminate].
Qed.
Print Assumptions C115_conditional_refuted.

(** ** C116: algo 'plugin' and 'plugin_v1' *)
(** Without known features: the mean of the predictions over the training sample, whatever [data] is. *)
Theorem C116_empty : forall t d w x data rows, wf_tree t d = true -> sk_tree t -> counts t w rows -> rows <> [] ->
  exists q, exp_plugin t w x [] d data = Some q /\ mean_pred t rows q.
Proof. intros t d w x data rows Hwf Hsk. exact (empty_mean t d Hwf Hsk w x rows). Qed.
Print Assumptions C116_empty.
Example C116_empty_example : counts uneven (seen uneven all_rows) all_rows /\
  option_map Qred (exp_plugin uneven (seen uneven all_rows) (pp 1 1) [] 2 two_rows) = Some (37 # 6)%Q.
Proof. split; [now apply (seen_counts uneven 2)|vm_compute; reflexivity]. Qed.

(** With as many features as columns every algorithm but 'shap' answers the prediction. *)
Theorem C116_full : forall t d w data pcmvnorm a x S, wf_tree t d = true -> a <> Shap -> S <> [] -> length S = d ->
  exists v, leaf_value t x no_missing v /\ estimate t w d data pcmvnorm a x S = Some v.
Proof. exact full_value. Qed.
Print Assumptions C116_full.
Example C116_full_example :
  map (fun a => option_map Qred (estimate deep (seen deep ex_rows) 2 ex_rows (draw_prob ex_rows) a (pp 3 0) [0; 1])) [Plugin; Intv; Intv2; Exact; ExactV1]
    = repeat (Some 5%Q) 5.
Proof. vm_compute. reflexivity. Qed.

(** When the boxes of all the leaves met have the same rows of [data] within their sides on [S], the answer of 'plugin' is the mean of the
    predictions over those rows. *)
Theorem C116_section_partial : forall t d w x S ls data A, wf_tree t d = true -> sk_tree t -> S <> [] -> length S <> d -> 2 <= d ->
  (forall s, In s S -> s < d) -> compatible t x S = Some ls -> (forall l p z, In (l, p) ls -> In z data -> decided (A z) (within p S z)) ->
  (forall z, In z data -> off_thresholds t z) -> filter A data <> [] -> counts t w data ->
  exists q, exp_plugin t w x S d data = Some q /\ mean_pred t (filter A data) q.
Proof. intros t d w x S ls data A Hwf Hsk Hne Hl Hd HS E HA Hoff Hn Hc. exact (plugin_common t d Hwf Hsk w x S ls data Hne Hl Hd HS E A HA Hoff Hn Hc). Qed.
Print Assumptions C116_section_partial.
Lemma deep_section : exists ls, compatible deep (pp 3 4) [1] = Some ls /\
  forall l p z, In (l, p) ls -> In z ex_rows -> decided (qltb 1 (z 1)) (within p [1] z).
Proof.
  eexists. split; [reflexivity|]. intros l p z Hl Hz. unfold decided. rewrite <- in_sides_within.
  cbn in Hl, Hz. destruct Hl as [Hl|[Hl|[]]]; injection Hl as <- <-;
    repeat (destruct Hz as [<-|Hz]; [vm_compute; tauto|]); contradiction.
Qed.
Example C116_section_example :
  (exists ls, compatible deep (pp 3 4) [1] = Some ls /\ forall l p z, In (l, p) ls -> In z ex_rows -> decided (qltb 1 (z 1)) (within p [1] z)) /\
  (forall z, In z ex_rows -> off_thresholds deep z) /\ counts deep (seen deep ex_rows) ex_rows /\
  length (filter (fun z => qltb 1 (z 1)) ex_rows) = 3 /\
  option_map Qred (exp_plugin deep (seen deep ex_rows) (pp 3 4) [1] 2 ex_rows) = Some (25 # 3)%Q.
Proof. split; [exact deep_section|]. split; [off|]. split; [now apply (seen_counts deep 2)|]. split; vm_compute; reflexivity. Qed.
(** Otherwise the weights of the leaves do not add up to one: a constant tree does not get its constant, even on its training sample. *)
Theorem C116_section_refuted : exists t d w x S data c q, wf_tree t d = true /\ sk_tree t /\ fitted t w /\ counts t w data /\
  (forall z, In z data -> off_thresholds t z) /\ (forall s, In s S -> s < d) /\ S <> [] /\ length S <> d /\
  (forall l, l < nn t -> leaf_node t l = true -> (vlq t l == c)%Q) /\ exp_plugin t w x S d data = Some q /\ ~ (q == c)%Q.
Proof.
  exists flat, 2, (seen flat all_rows), (pp 1 (-1)), [1], all_rows, 1%Q. eexists.
  split; [reflexivity|]. split; [exact flat_sk|]. split; [exact flat_fitted|]. split; [now apply (seen_counts flat 2)|]. split; [off|].
  split; [intros s [<-|[]]; lia|]. split; [discriminate|]. split; [discriminate|]. split.
  { intros l Hl L. vm_compute in Hl. do 7 (destruct l as [|l]; [first [discriminate L|reflexivity]|]). lia. }
  split; [reflexivity|vm_compute; discriminate].
Qed.
Print Assumptions C116_section_refuted.
(** The numerator counts the training sample and the denominator the rows of [data]: the rows twice give half the answer, for every tree. *)
Theorem C116_twice : forall t d w x S ls data q, wf_tree t d = true -> sk_tree t -> S <> [] -> length S <> d -> 2 <= d ->
  (forall s, In s S -> s < d) -> compatible t x S = Some ls -> exp_plugin t w x S d data = Some q ->
  exists q', exp_plugin t w x S d (data ++ data) = Some q' /\ (q' == q / 2)%Q.
Proof. intros t d w x S ls data q Hwf Hsk Hne Hl Hd HS E. exact (plugin_twice t d Hwf Hsk w x S ls data Hne Hl Hd HS E q). Qed.
Print Assumptions C116_twice.
Example C116_twice_example :
  option_map Qred (exp_plugin deep (seen deep ex_rows) (pp 3 4) [1] 2 (ex_rows ++ ex_rows)) = Some (25 # 6)%Q.
Proof. vm_compute. reflexivity. Qed.
(** On other rows than the training sample there may be no number at all. *)
Theorem C116_number_refuted : exists t d w x S data, wf_tree t d = true /\ sk_tree t /\ fitted t w /\ data <> [] /\
  (forall z, In z data -> off_thresholds t z) /\ (forall s, In s S -> s < d) /\ exp_plugin t w x S d data = None.
Proof.
  exists uneven, 2, (seen uneven all_rows), (pp 1 (-1)), [1], [pp 1 6].
  split; [reflexivity|]. split; [exact uneven_sk|]. split; [exact uneven_fitted|]. split; [discriminate|]. split; [off|].
  split; [intros s [<-|[]]; lia|]. vm_compute. reflexivity.
Qed.
Print Assumptions C116_number_refuted.

(** 'plugin_v1' answers the mean of the predictions over the training rows that fall in a leaf that can be met... *)
Theorem C116_v1 : forall t d w x S rows A, wf_tree t d = true -> sk_tree t -> counts t w rows -> falling t S x rows A -> filter A rows <> [] ->
  exists q, exp_plugin_v1 t w x S = Some q /\ mean_pred t (filter A rows) q.
Proof. intros t d w x S rows A Hwf Hsk. exact (v1_mean t d Hwf Hsk w x S rows A). Qed.
Print Assumptions C116_v1.
Example C116_v1_example : counts uneven (seen uneven all_rows) all_rows /\
  falling uneven [1] (pp 1 (-1)) all_rows (fallb uneven [1] (pp 1 (-1))) /\ length (filter (fallb uneven [1] (pp 1 (-1))) all_rows) = 3 /\
  option_map Qred (exp_plugin_v1 uneven (seen uneven all_rows) (pp 1 (-1)) [1]) = Some 6%Q.
Proof. split; [now apply (seen_counts uneven 2)|]. split; [now apply (fallb_ok uneven 2)|]. split; vm_compute; reflexivity. Qed.
(** ... so it is between their values... *)
Theorem C116_v1_range : forall t d w x S lo hi, wf_tree t d = true -> sk_tree t -> fitted t w -> met_between t x S (fun v => v) lo hi ->
  exists q, exp_plugin_v1 t w x S = Some q /\ (lo <= q <= hi)%Q.
Proof. intros t d w x S lo hi Hwf Hsk. exact (v1_between t d Hwf Hsk w x S lo hi). Qed.
Print Assumptions C116_v1_range.
Example C116_v1_range_example : fitted uneven (seen uneven all_rows) /\ met_between uneven (pp 1 (-1)) [1] (fun v => v) 2 8.
Proof. split; [exact uneven_fitted|met]. Qed.
(** ... but it is not the mean over the rows that agree with [x]. *)
Theorem C116_v1_refuted : exists t d w x S data A q r, wf_tree t d = true /\ sk_tree t /\ fitted t w /\ counts t w data /\
  (forall z, In z data -> off_thresholds t z) /\ agreeing S x data A /\ exp_plugin_v1 t w x S = Some q /\ mean_pred t (filter A data) r /\ ~ (q == r)%Q.
Proof.
  exists one, 2, (seen one two_rows), (pp 1 1), [1], two_rows, (agreeb [1] (pp 1 1)). eexists. exists 2%Q.
  split; [reflexivity|]. split; [exact one_sk|]. split; [exact one_fitted|]. split; [now apply (seen_counts one 2)|]. split; [off|].
  split; [apply agreeb_ok|]. split; [reflexivity|]. split; [mean|vm_compute; discriminate].
Qed.
Print Assumptions C116_v1_refuted.

(** ** C117: the interventional and the exact algorithms *)
(** 'plugin_interventional' answers the mean of the predictions over the rows of [data] whose known features are replaced by those of [x],
    when no row is on a threshold and the index holds the split features. *)
Theorem C117_interventional_partial : forall t d w x S idx data, wf_tree t d = true -> sk_tree t -> S <> [] -> length S <> d -> 2 <= d ->
  (forall k, In k idx -> k < d) -> (forall i, i < nn t -> leaf_node t i = false -> In (ftn t i) S \/ In (ftn t i) idx) ->
  (exists k, In k idx /\ ~ In k S) -> (forall z, In z data -> off_thresholds t z) -> data <> [] ->
  exists q, exp_intv t w x S d idx data = Some q /\ mean_pred t (map (splice S x) data) q.
Proof. intros t d w x S idx data Hwf Hsk. exact (intv_mean t d Hwf Hsk w x S idx data). Qed.
Print Assumptions C117_interventional_partial.
(** 'plugin_interventionalv2' also does without known features. *)
Theorem C117_interventional2_partial : forall t d x S idx data, wf_tree t d = true -> sk_tree t -> length S <> d ->
  (forall k, In k idx -> k < d) -> (forall i, i < nn t -> leaf_node t i = false -> In (ftn t i) S \/ In (ftn t i) idx) ->
  (exists k, In k idx /\ ~ In k S) -> (forall z, In z data -> off_thresholds t z) -> data <> [] ->
  exists q, exp_intv2 t x S d idx data = Some q /\ mean_pred t (map (splice S x) data) q.
Proof. intros t d x S idx data Hwf Hsk. exact (intv2_mean t d Hwf Hsk x S idx data). Qed.
Print Assumptions C117_interventional2_partial.
Example C117_interventional_example :
  (forall i, i < nn deep -> leaf_node deep i = false -> In (ftn deep i) [1] \/ In (ftn deep i) [0]) /\
  (forall z, In z ex_rows -> off_thresholds deep z) /\
  option_map Qred (exp_intv deep (seen deep ex_rows) (pp 3 4) [1] 2 [0] ex_rows) = Some (41 # 5)%Q /\
  option_map Qred (exp_intv2 deep (pp 3 4) [1] 2 [0] ex_rows) = Some (41 # 5)%Q /\
  option_map Qred (exp_intv2 deep (pp 3 4) [] 2 [0; 1] ex_rows) = Some (32 # 5)%Q /\
  mean_pred deep (map (splice [1] (pp 3 4)) ex_rows) (41 # 5)%Q.
Proof.
  split; [|split; [off|split; [vm_compute; reflexivity|split; [vm_compute; reflexivity|split; [vm_compute; reflexivity|mean]]]]].
  intros i Hi L. vm_compute in Hi. do 7 (destruct i as [|i]; [vm_compute in *; first [tauto|discriminate]|]). lia.
Qed.
(** The two agree, also when they are wrong. *)
Theorem C117_two : forall t d w x S idx data, wf_tree t d = true -> sk_tree t -> S <> [] -> 2 <= d -> (forall k, In k idx -> k < d) ->
  match exp_intv t w x S d idx data, exp_intv2 t x S d idx data with Some q, Some r => (q == r)%Q | None, None => True | _, _ => False end.
Proof. intros t d w x S idx data Hwf Hsk. exact (intv_two t d Hwf Hsk w x S idx data). Qed.
Print Assumptions C117_two.
Example C117_two_example : option_map Qred (exp_intv uneven (seen uneven all_rows) (pp 1 (-1)) [1] 2 [0; 1] [pp 0 0; pp 2 2]) = Some 9%Q /\
  option_map Qred (exp_intv2 uneven (pp 1 (-1)) [1] 2 [0; 1] [pp 0 0; pp 2 2]) = Some 9%Q.
Proof. split; vm_compute; reflexivity. Qed.
(** A row on a threshold is counted on both sides. *)
Theorem C117_interventional_refuted : exists t d w x S idx data q q2 r, wf_tree t d = true /\ sk_tree t /\ fitted t w /\ S <> [] /\ length S <> d /\
  idx = seq 0 d /\ exp_intv t w x S d idx data = Some q /\ exp_intv2 t x S d idx data = Some q2 /\ mean_pred t (map (splice S x) data) r /\
  ~ (q == r)%Q /\ ~ (q2 == r)%Q.
Proof.
  exists one, 2, (seen one two_rows), (pp 1 1), [1], [0; 1], [pp 0 0]. eexists. eexists. exists 0%Q.
  split; [reflexivity|]. split; [exact one_sk|]. split; [exact one_fitted|]. split; [discriminate|]. split; [discriminate|]. split; [reflexivity|].
  split; [reflexivity|]. split; [reflexivity|]. split; [mean|]. split; vm_compute; discriminate.
Qed.
Print Assumptions C117_interventional_refuted.
(** Without known features 'plugin_interventional' ignores [data]. *)
Theorem C117_empty_refuted : exists t d w x idx data q r, wf_tree t d = true /\ sk_tree t /\ fitted t w /\ idx = seq 0 d /\
  (forall z, In z data -> off_thresholds t z) /\ exp_intv t w x [] d idx data = Some q /\ mean_pred t (map (splice [] x) data) r /\ ~ (q == r)%Q.
Proof.
  exists one, 2, (seen one two_rows), (pp 1 1), [0; 1], [pp 1 1]. eexists. exists 2%Q.
  split; [reflexivity|]. split; [exact one_sk|]. split; [exact one_fitted|]. split; [reflexivity|]. split; [off|]. split; [reflexivity|].
  split; [mean|vm_compute; discriminate].
Qed.
Print Assumptions C117_empty_refuted.
(** The index of the mixture leaves out the indicators: a tree that splits on one is counted several times, a constant tree too. *)
Theorem C117_index_refuted : exists t d w x S idx data c q q2, wf_tree t d = true /\ sk_tree t /\ fitted t w /\ S <> [] /\ length S <> d /\
  (forall k, In k idx -> k < d) /\ (exists k, In k idx /\ ~ In k S) /\ (forall z, In z data -> off_thresholds t z) /\ counts t w data /\
  (forall l, l < nn t -> leaf_node t l = true -> (vlq t l == c)%Q) /\
  exp_intv t w x S d idx data = Some q /\ exp_intv2 t x S d idx data = Some q2 /\ ~ (q == c)%Q /\ ~ (q2 == c)%Q.
Proof.
  exists flat, 3, (seen flat all_rows), (pp 1 (-1)), [1], [1; 2], all_rows, 1%Q. eexists. eexists.
  split; [reflexivity|]. split; [exact flat_sk|]. split; [exact flat_fitted|]. split; [discriminate|]. split; [discriminate|].
  split; [intros k [<-|[<-|[]]]; lia|]. split; [exists 2; split; [right; now left|intros [H|[]]; discriminate]|]. split; [off|].
  split; [now apply (seen_counts flat 2)|]. split.
  { intros l Hl L. vm_compute in Hl. do 7 (destruct l as [|l]; [first [discriminate L|reflexivity]|]). lia. }
  split; [reflexivity|]. split; [reflexivity|]. split; vm_compute; discriminate.
Qed.
Print Assumptions C117_index_refuted.
(** When all features of the index are known, the empty product counts one row, not all: the prediction is divided by their number. *)
Theorem C117_all_known_refuted : exists t d w x S idx data q q2 r, wf_tree t d = true /\ sk_tree t /\ fitted t w /\ S <> [] /\ length S <> d /\
  (forall k, In k idx -> k < d) /\ (forall i, i < nn t -> leaf_node t i = false -> In (ftn t i) S) /\
  (forall k, In k idx -> In k S) /\ (forall z, In z data -> off_thresholds t z) /\
  exp_intv t w x S d idx data = Some q /\ exp_intv2 t x S d idx data = Some q2 /\ mean_pred t (map (splice S x) data) r /\
  (q * Qn (length data) == r)%Q /\ (q2 == q)%Q /\ ~ (q == r)%Q.
Proof.
  exists one, 2, (seen one two_rows), (pp 1 1), [0], [0], two_rows. eexists. eexists. exists 2%Q.
  split; [reflexivity|]. split; [exact one_sk|]. split; [exact one_fitted|]. split; [discriminate|]. split; [discriminate|].
  split; [intros k [<-|[]]; lia|]. split.
  { intros i Hi L. vm_compute in Hi. do 3 (destruct i as [|i]; [vm_compute in *; first [tauto|discriminate]|]). lia. }
  split; [auto|]. split; [off|]. split; [reflexivity|]. split; [reflexivity|]. split; [mean|]. split; [vm_compute; reflexivity|].
  split; vm_compute; [reflexivity|discriminate].
Qed.
Print Assumptions C117_all_known_refuted.

(** 'exact' and 'exact_v1' answer the mean of the prediction under the law whose boxes R measures. *)
Theorem C117_exact : forall t d x S pcmvnorm E v, wf_tree t d = true -> sk_tree t -> mean_law E -> gives_boxes pcmvnorm (complement d S) S x E ->
  length S <> d -> d <> 1 -> (forall z, leaf_value t z no_missing (v z)) ->
  exists q r, exp_exact t x S d pcmvnorm = Some q /\ exp_exact_v1 t x S d pcmvnorm = Some r /\ (q == E (fun z => v (splice S x z)))%Q /\ (r == q)%Q.
Proof. intros t d x S pcmvnorm E v Hwf Hsk. exact (exact_mean t d Hwf Hsk x S pcmvnorm E v). Qed.
Print Assumptions C117_exact.
Example C117_exact_example : mean_law (draw ex_rows) /\ gives_boxes (draw_prob ex_rows) (complement 2 [1]) [1] (pp 3 4) (draw ex_rows) /\
  (forall z, leaf_value deep z no_missing (val deep z)) /\
  option_map Qred (exp_exact deep (pp 3 4) [1] 2 (draw_prob ex_rows)) = Some (41 # 5)%Q /\
  option_map Qred (exp_exact_v1 deep (pp 3 4) [1] 2 (draw_prob ex_rows)) = Some (41 # 5)%Q /\
  option_map Qred (exp_exact uneven (pp 1 (-1)) [1] 2 (draw_prob all_rows)) = Some 5%Q.
Proof.
  split; [now apply draw_law|]. split; [apply draw_boxes|]. split; [intro z; now apply (val_spec deep 2)|].
  split; [vm_compute; reflexivity|]. split; vm_compute; reflexivity.
Qed.
(** It is between the values of the leaves that can be met. *)
Theorem C117_exact_range : forall t d x S pcmvnorm E lo hi q, wf_tree t d = true -> sk_tree t -> mean_law E ->
  gives_boxes pcmvnorm (complement d S) S x E -> length S <> d -> d <> 1 -> met_between t x S (fun v => v) lo hi ->
  exp_exact t x S d pcmvnorm = Some q -> (lo <= q <= hi)%Q.
Proof. intros t d x S pcmvnorm E lo hi q Hwf Hsk. exact (exact_between t d Hwf Hsk x S pcmvnorm E lo hi q). Qed.
Print Assumptions C117_exact_range.
Example C117_exact_range_example : gives_boxes (draw_prob all_rows) (complement 2 [1]) [1] (pp 1 (-1)) (draw all_rows) /\
  met_between uneven (pp 1 (-1)) [1] (fun v => v) 2 8.
Proof. split; [apply draw_boxes|met]. Qed.
(** With a single column 'exact' raises where 'exact_v1' answers. *)
Theorem C117_single_refuted : exists t x pcmvnorm E q, wf_tree t 1 = true /\ sk_tree t /\ mean_law E /\ gives_boxes pcmvnorm (complement 1 []) [] x E /\
  exp_exact t x [] 1 pcmvnorm = None /\ exp_exact_v1 t x [] 1 pcmvnorm = Some q.
Proof.
  exists one, (pp 1 1), (draw_prob ex_rows), (draw ex_rows). eexists. split; [reflexivity|]. split; [exact one_sk|]. split; [now apply draw_law|].
  split; [apply draw_boxes|]. split; [reflexivity|reflexivity].
Qed.
Print Assumptions C117_single_refuted.

(** 'monte_carlo_interventional' answers the mean of the predictions over the sampled rows whose known features are replaced by those of
    [x], up to ten columns. *)
Theorem C117_sampled_partial : forall t d x S rg, wf_tree t d = true -> d <= 10 -> NoDup S -> (forall k, In k S -> k < d) -> length S <> d ->
  (forall row, In row rg -> length row = d) -> rg <> [] ->
  exists q, exp_mc_intv t x S d (seq 0 d) rg = Some q /\ mean_pred t (map (fun row => splice S x (fun k => nth k row 0%Q)) rg) q.
Proof. intros t d x S rg Hwf. exact (mc_intv_mean t d Hwf x S rg). Qed.
Print Assumptions C117_sampled_partial.
Example C117_sampled_example : option_map Qred (exp_mc_intv deep (pp 3 4) [1] 2 [0; 1] [[3; 0]; [-1; 0]; [2; 8]]%Q) = Some (25 # 3)%Q.
Proof. vm_compute. reflexivity. Qed.
(** From eleven columns on the columns are permuted: their names are sorted as texts. *)
Definition third : tree := mkTree [1; -1; -1]%Z [2; -1; -1]%Z [1; -1; -1]%Z [2; -2; -2]%Z [0; 0; 0]%Q [0; 0; 2]%Q.
Theorem C117_sampled_refuted : exists t d x S rg q r, wf_tree t d = true /\ sk_tree t /\ NoDup S /\ (forall k, In k S -> k < d) /\ length S <> d /\
  (forall row, In row rg -> length row = d) /\ exp_mc_intv t x S d (seq 0 d) rg = Some q /\
  mean_pred t (map (fun row => splice S x (fun k => nth k row 0%Q)) rg) r /\ ~ (q == r)%Q.
Proof.
  exists third, 11, (pp 0 0), [0], [[0; 0; -1; 0; 0; 0; 0; 0; 0; 0; 1]%Q]. eexists. exists 0%Q.
  split; [reflexivity|]. split; [nodes|]. split; [repeat constructor; intros []|]. split; [intros k [<-|[]]; lia|]. split; [discriminate|].
  split; [intros row [<-|[]]; reflexivity|]. split; [vm_compute; reflexivity|].
  split; [apply (mean_over_val third 3 eq_refl); [discriminate|vm_compute; reflexivity]|vm_compute; discriminate].
Qed.
Print Assumptions C117_sampled_refuted.

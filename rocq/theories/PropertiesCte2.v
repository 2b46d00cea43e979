(** C118 to C120: distance, same-decision probability and Shapley values of one tree in the experiments. *)
From Verif Require Import Base TreeModel TreeSpec TreeProofs RulesModel PartModel PartSpec PartProofs MvnModel McModel ShapModel ShapSpec SwingModel PermModel PermSpec
  CteModel CteSpec CteProofs CteProofs2 CteProofs3 CteProofs4 PropertiesPart PropertiesPerm CteCases PropertiesCte.
Local Open Scope nat_scope.

(** ** C118: cond_dist_tree *)
(** 'plugin' and 'plugin2' agree. *)
Theorem C118_two : forall t d w x S data fx, match dist_plugin t w x S d data fx, dist_plugin2 t w x S d data fx with
  | Some q, Some r => (q == r)%Q | None, None => True | _, _ => False end.
Proof. exact dist_two. Qed.
Print Assumptions C118_two.
Example C118_two_example : option_map Qred (dist_plugin uneven (seen uneven all_rows) (pp 1 (-1)) [1] 2 all_rows 3) = Some (35 # 3)%Q /\
  option_map Qred (dist_plugin2 uneven (seen uneven all_rows) (pp 1 (-1)) [1] 2 all_rows 3) = Some (35 # 3)%Q.
Proof. split; vm_compute; reflexivity. Qed.

(** A number returned is between the least and the greatest squared distance of the leaves that can be met; in particular it is not negative. *)
Theorem C118_range : forall t d w x S data fx lo hi q, wf_tree t d = true -> sk_tree t -> fitted t w -> 0 < d -> length S <> d ->
  met_between t x S (fun v => (v - fx) * (v - fx))%Q lo hi -> dist_plugin t w x S d data fx = Some q -> (lo <= q <= hi)%Q.
Proof. intros t d w x S data fx lo hi q Hwf Hsk. exact (dist_between t d Hwf Hsk w x S data fx lo hi q). Qed.
Print Assumptions C118_range.
Example C118_range_example : fitted uneven (seen uneven all_rows) /\ met_between uneven (pp 1 (-1)) [1] (fun v => (v - 3) * (v - 3))%Q 1 25.
Proof. split; [exact uneven_fitted|met]. Qed.

(** With as many features as columns: the squared distance of the prediction. *)
Theorem C118_full : forall t d w x S data fx, wf_tree t d = true -> S <> [] -> length S = d ->
  exists v, leaf_value t x no_missing v /\ dist_plugin t w x S d data fx = Some ((v - fx) * (v - fx))%Q.
Proof. intros t d w x S data fx Hwf. exact (dist_full t d Hwf w x S data fx). Qed.
Print Assumptions C118_full.
Example C118_full_example : option_map Qred (dist_plugin deep (seen deep ex_rows) (pp 3 0) [0; 1] 2 ex_rows 3) = Some 4%Q.
Proof. vm_compute. reflexivity. Qed.

(** Without known features: the mean squared distance over the training sample. *)
Theorem C118_empty : forall t d w x data rows fx, wf_tree t d = true -> sk_tree t -> counts t w rows -> rows <> [] ->
  exists q, dist_plugin t w x [] d data fx = Some q /\ mean_over t (fun v => (v - fx) * (v - fx))%Q rows q.
Proof. intros t d w x data rows fx Hwf Hsk. exact (dist_empty t d Hwf Hsk w x data rows fx). Qed.
Print Assumptions C118_empty.
Example C118_empty_example : counts uneven (seen uneven all_rows) all_rows /\
  option_map Qred (dist_plugin uneven (seen uneven all_rows) (pp 1 1) [] 2 two_rows 3) = Some (95 # 6)%Q.
Proof. split; [now apply (seen_counts uneven 2)|vm_compute; reflexivity]. Qed.

(** When the boxes of all the leaves met have the same rows of [data] within their sides on [S]: the mean squared distance over those rows. *)
Theorem C118_section_partial : forall t d w x S ls data fx A, wf_tree t d = true -> sk_tree t -> S <> [] -> length S <> d -> 2 <= d ->
  (forall s, In s S -> s < d) -> compatible t x S = Some ls -> (forall l p z, In (l, p) ls -> In z data -> decided (A z) (within p S z)) ->
  (forall z, In z data -> off_thresholds t z) -> filter A data <> [] -> counts t w data ->
  exists q, dist_plugin t w x S d data fx = Some q /\ mean_over t (fun v => (v - fx) * (v - fx))%Q (filter A data) q.
Proof. intros t d w x S ls data fx A Hwf Hsk Hne Hl Hd HS E. exact (dist_common t d Hwf Hsk w x S ls data Hne Hl Hd HS E fx A). Qed.
Print Assumptions C118_section_partial.
Example C118_section_example :
  (exists ls, compatible deep (pp 3 4) [1] = Some ls /\ forall l p z, In (l, p) ls -> In z ex_rows -> decided (qltb 1 (z 1)) (within p [1] z)) /\
  (forall z, In z ex_rows -> off_thresholds deep z) /\ counts deep (seen deep ex_rows) ex_rows /\
  option_map Qred (dist_plugin deep (seen deep ex_rows) (pp 3 4) [1] 2 ex_rows 3) = Some (88 # 3)%Q /\
  mean_over deep (fun v => (v - 3) * (v - 3))%Q (filter (fun z => qltb 1 (z 1)) ex_rows) (88 # 3)%Q.
Proof.
  split; [exact deep_section|]. split; [off|]. split; [now apply (seen_counts deep 2)|]. split; [vm_compute; reflexivity|].
  apply (mean_over_val deep 2 eq_refl (fun v => (v - 3) * (v - 3))%Q); [discriminate|vm_compute; reflexivity].
Qed.
(** Otherwise it is not the mean over the training rows that fall in a leaf that can be met. *)
Theorem C118_section_refuted : exists t d w x S data fx A q r, wf_tree t d = true /\ sk_tree t /\ fitted t w /\ counts t w data /\
  (forall z, In z data -> off_thresholds t z) /\ (forall s, In s S -> s < d) /\ falling t S x data A /\
  dist_plugin t w x S d data fx = Some q /\ mean_over t (fun v => (v - fx) * (v - fx))%Q (filter A data) r /\ ~ (q == r)%Q.
Proof.
  exists uneven, 2, (seen uneven all_rows), (pp 1 (-1)), [1], all_rows, 3%Q, (fallb uneven [1] (pp 1 (-1))). eexists. exists 17%Q.
  split; [reflexivity|]. split; [exact uneven_sk|]. split; [exact uneven_fitted|]. split; [now apply (seen_counts uneven 2)|]. split; [off|].
  split; [intros s [<-|[]]; lia|]. split; [now apply (fallb_ok uneven 2)|]. split; [reflexivity|].
  split; [apply (mean_over_val uneven 2 eq_refl (fun v => (v - 3) * (v - 3))%Q); [discriminate|vm_compute; reflexivity]|vm_compute; discriminate].
Qed.
Print Assumptions C118_section_refuted.
(** 'shap' answers the expectation: no distance at all, it ignores [fx] and may be negative. *)
Theorem C118_shap_refuted : exists t d w x rows fx q r, wf_tree t d = true /\ sk_tree t /\ fitted t w /\ counts t w rows /\
  dist_shap t w x [] = Some q /\ (q < 0)%Q /\ mean_over t (fun v => (v - fx) * (v - fx))%Q rows r /\ (0 < r)%Q.
Proof.
  exists (stump (-3) 1), 2, (seen (stump (-3) 1) two_rows), (pp 1 1), two_rows, 0%Q. eexists. exists 5%Q.
  split; [reflexivity|]. split; [nodes|]. split; [nodes|]. split; [now apply (seen_counts (stump (-3) 1) 2)|]. split; [reflexivity|].
  split; [vm_compute; reflexivity|]. split; [|reflexivity].
  apply (mean_over_val (stump (-3) 1) 2 eq_refl (fun v => (v - 0) * (v - 0))%Q); [discriminate|vm_compute; reflexivity].
Qed.
Print Assumptions C118_shap_refuted.

(** ** C119: cond_sdp_tree *)
(** With known and unknown features 'plugin' computes what the pure Python routine of the library computes for the forest of one tree,
    before that one is cut to [0, 1]. *)
Theorem C119_library : forall t d w x S idx data fx tx ls, wf_tree t d = true -> sk_tree t -> S <> [] -> length S <> d -> 2 <= d ->
  (forall k, In k S -> k < d) -> (forall k, In k idx -> k < d) ->
  (forall i, i < nn t -> leaf_node t i = false -> In (ftn t i) S \/ In (ftn t i) idx) -> compatible t x S = Some ls ->
  exists r, cond_sdp_forest fx tx d S data x [t] = Some r /\
  match sdp_tree t w x S d idx data fx tx, r with
  | Some q, Some s => ((q < 0 -> s == 0) /\ (0 <= q <= 1 -> s == q) /\ (1 < q -> s == 1))%Q
  | None, None => True | _, _ => False end.
Proof. intros t d w x S idx data fx tx ls Hwf Hsk. exact (sdp_library t d Hwf Hsk w x S idx data fx tx ls). Qed.
Print Assumptions C119_library.
Example C119_library_example :
  map (fun b => option_map Qred (sdp_tree uneven (seen uneven all_rows) (pp 1 b) [1] 2 [0; 1] all_rows 8 1)) [-1; 3; 6]%Q
    = [Some (29 # 90)%Q; Some (-19 # 90)%Q; Some (71 # 16)%Q] /\
  map (fun b => option_map (option_map Qred) (cond_sdp_forest 8 1 2 [1] all_rows (pp 1 b) [uneven])) [-1; 3; 6]%Q
    = [Some (Some (29 # 90)%Q); Some (Some 0%Q); Some (Some 1%Q)].
Proof. split; vm_compute; reflexivity. Qed.

(** When the boxes of all the leaves met have the same rows within their sides on [S], a number returned is the share of those rows whose
    prediction is close. *)
Theorem C119_section_partial : forall t d w x S idx data fx tx ls A close q, wf_tree t d = true -> sk_tree t -> S <> [] -> length S <> d -> 2 <= d ->
  (forall k, In k S -> k < d) -> (forall k, In k idx -> k < d) ->
  (forall i, i < nn t -> leaf_node t i = false -> In (ftn t i) S \/ In (ftn t i) idx) -> compatible t x S = Some ls ->
  (forall l p z, In (l, p) ls -> In z data -> decided (A z) (within p S z)) ->
  (forall z, In z data -> exists v, leaf_value t z no_missing v /\ decided (close z) ((v - fx) * (v - fx) <= tx)%Q) ->
  sdp_tree t w x S d idx data fx tx = Some q -> (exists z, In z data /\ A z = true) /\ (q == share A close data)%Q.
Proof.
  intros t d w x S idx data fx tx ls A close q Hwf Hsk Hne Hl Hd HS Hi Hs E HA HB.
  exact (sdp_common t d Hwf Hsk w x S idx data fx tx ls Hne Hl Hd HS Hi Hs E A close HA HB q).
Qed.
Print Assumptions C119_section_partial.
Example C119_section_example :
  let close z := if qltb 1 (z 1) then qltb 0 (z 0) else false in
  (exists ls, compatible deep (pp 3 4) [1] = Some ls /\ forall l p z, In (l, p) ls -> In z ex_rows -> decided (qltb 1 (z 1)) (within p [1] z)) /\
  (forall z, In z ex_rows -> exists v, leaf_value deep z no_missing v /\ decided (close z) ((v - 9) * (v - 9) <= 1)%Q) /\
  option_map Qred (sdp_tree deep (seen deep ex_rows) (pp 3 4) [1] 2 [0; 1] ex_rows 9 1) = Some (2 # 3)%Q.
Proof.
  cbv zeta. split; [exact deep_section|]. split; [|vm_compute; reflexivity].
  intros z Hz. exists (val deep z). split; [now apply (val_spec deep 2)|]. unfold decided. rewrite <- qleb_true. cbn in Hz.
  repeat (destruct Hz as [<-|Hz]; [vm_compute; tauto|]). contradiction.
Qed.
(** Otherwise it is no probability: below 0 and above 1 on the training sample. *)
Theorem C119_range_refuted : exists t d w x y S data fx tx q r, wf_tree t d = true /\ sk_tree t /\ fitted t w /\ counts t w data /\
  (forall z, In z data -> off_thresholds t z) /\ (forall s, In s S -> s < d) /\ S <> [] /\ length S <> d /\ (0 <= tx)%Q /\
  sdp_tree t w x S d (seq 0 d) data fx tx = Some q /\ (q < 0)%Q /\ sdp_tree t w y S d (seq 0 d) data fx tx = Some r /\ (1 < r)%Q.
Proof.
  exists uneven, 2, (seen uneven all_rows), (pp 1 3), (pp 1 6), [1], all_rows, 8%Q, 1%Q. eexists. eexists.
  split; [reflexivity|]. split; [exact uneven_sk|]. split; [exact uneven_fitted|]. split; [now apply (seen_counts uneven 2)|]. split; [off|].
  split; [intros s [<-|[]]; lia|]. split; [discriminate|]. split; [discriminate|]. split; [discriminate|].
  split; [vm_compute; reflexivity|]. split; [vm_compute; reflexivity|]. split; [vm_compute; reflexivity|vm_compute; reflexivity].
Qed.
Print Assumptions C119_range_refuted.
(** Without known features, and with all of them, it is a prediction, no probability. *)
Theorem C119_ends : forall t d w x S idx data fx tx, wf_tree t d = true -> sk_tree t ->
  (forall rows, counts t w rows -> rows <> [] -> exists q, sdp_tree t w x [] d idx data fx tx = Some q /\ mean_pred t rows q) /\
  (S <> [] -> length S = d -> exists v, leaf_value t x no_missing v /\ sdp_tree t w x S d idx data fx tx = Some v).
Proof. exact sdp_ends. Qed.
Print Assumptions C119_ends.
Theorem C119_ends_refuted : exists t d w x data fx tx q r, wf_tree t d = true /\ sk_tree t /\ fitted t w /\ counts t w data /\
  sdp_tree t w x [] d (seq 0 d) data fx tx = Some q /\ sdp_tree t w x (seq 0 d) d (seq 0 d) data fx tx = Some r /\ (1 < q)%Q /\ (1 < r)%Q.
Proof.
  exists uneven, 2, (seen uneven all_rows), (pp 1 3), all_rows, 8%Q, 1%Q. eexists. eexists.
  split; [reflexivity|]. split; [exact uneven_sk|]. split; [exact uneven_fitted|]. split; [now apply (seen_counts uneven 2)|].
  split; [vm_compute; reflexivity|]. split; [vm_compute; reflexivity|]. split; vm_compute; reflexivity.
Qed.
Print Assumptions C119_ends_refuted.

(** 'monte_carlo' answers the share of the sampled predictions that are close. *)
Theorem C119_sampled_partial : forall t x S d fx tx ys (close : Q -> bool), length S <> d -> (0 <= tx)%Q -> ys <> [] ->
  (forall y, In y ys -> decided (close y) ((y - fx) * (y - fx) <= tx)%Q) ->
  exists q, sdp_mc t x S d fx tx ys = Some q /\ (q == Qn (length (filter close ys)) / Qn (length ys))%Q.
Proof. exact sdp_mc_share. Qed.
Print Assumptions C119_sampled_partial.
Example C119_sampled_example : option_map Qred (sdp_mc deep (pp 3 4) [1] 2 9 1 [9; 7; 8; 7; 5]%Q) = Some (2 # 5)%Q /\
  option_map Qred (sdp_mc deep (pp 3 4) [1] 2 9 0 [9; 9]%Q) = Some 1%Q /\ option_map Qred (sdp_mc deep (pp 3 4) [1] 2 9 1 [5; 5]%Q) = Some 0%Q.
Proof. split; [|split]; vm_compute; reflexivity. Qed.
(** With all the features it answers the squared distance: 0 when the decision is the same for sure. *)
Theorem C119_sampled_full_refuted : exists t d x fx tx ys q, wf_tree t d = true /\ (0 <= tx)%Q /\
  (exists v, leaf_value t x no_missing v /\ ((v - fx) * (v - fx) <= tx)%Q) /\ sdp_mc t x (seq 0 d) d fx tx ys = Some q /\ (q == 0)%Q.
Proof.
  exists deep, 2, (pp 3 4), 9%Q, 1%Q, [9%Q]. eexists. split; [reflexivity|]. split; [discriminate|]. split.
  - exists (val deep (pp 3 4)). split; [now apply (val_spec deep 2)|vm_compute; discriminate].
  - split; vm_compute; reflexivity.
Qed.
Print Assumptions C119_sampled_full_refuted.
(** Below a negative threshold nothing is close, but exact predictions get probability 1. *)
Theorem C119_sampled_refuted : exists t x S d fx tx ys q, length S <> d /\ ys <> [] /\
  (forall y, In y ys -> ~ ((y - fx) * (y - fx) <= tx)%Q) /\ sdp_mc t x S d fx tx ys = Some q /\ (q == 1)%Q.
Proof.
  exists deep, (pp 3 4), [1], 2, 9%Q, (-1)%Q, [9%Q]. eexists. split; [discriminate|]. split; [discriminate|].
  split; [intros y [<-|[]]; vm_compute; congruence|]. split; vm_compute; reflexivity.
Qed.
Print Assumptions C119_sampled_refuted.

(** ** C120: tree_shap *)
(** With 'shap' the values of the players add up to the prediction minus the mean prediction over the training sample. *)
Theorem C120_shap_efficiency : forall t d w x data pcmvnorm C P rep rows, wf_tree t d = true -> sk_tree t -> fitted t w -> counts t w rows -> rows <> [] ->
  coalitions_ok C d -> sized C -> is_players C d P -> (forall g, In g P -> In (rep g) g) ->
  exists v m, leaf_value t x no_missing v /\ mean_pred t rows m /\ (sumf (fun g => the (tree_shap t w d data pcmvnorm Shap x C (rep g))) P == v - m)%Q.
Proof. intros t d w x data pcmvnorm C P rep rows Hwf Hsk. exact (shap_efficiency t d Hwf Hsk w x data pcmvnorm C P rep rows). Qed.
Print Assumptions C120_shap_efficiency.
(** A player the tree never splits on gets 0. *)
Theorem C120_shap_unused : forall t d w x data pcmvnorm C P g j, wf_tree t d = true -> sk_tree t -> fitted t w -> coalitions_ok C d -> sized C ->
  is_players C d P -> In g P -> In j g -> (forall k, In k g -> unused t k) ->
  exists r, tree_shap t w d data pcmvnorm Shap x C j = Some r /\ (r == 0)%Q.
Proof. intros t d w x data pcmvnorm C P g j Hwf Hsk. exact (shap_unused t d Hwf Hsk w x data pcmvnorm C P g j). Qed.
Print Assumptions C120_shap_unused.
(** With 'plugin_interventionalv2' the mean is the one over [data]. *)
Theorem C120_interventional_efficiency : forall t d w x data pcmvnorm C P rep, wf_tree t d = true -> sk_tree t ->
  (forall z, In z data -> off_thresholds t z) -> data <> [] ->
  coalitions_ok C d -> sized C -> is_players C d P -> (forall g, In g P -> In (rep g) g) ->
  exists v m, leaf_value t x no_missing v /\ mean_pred t data m /\ (sumf (fun g => the (tree_shap t w d data pcmvnorm Intv2 x C (rep g))) P == v - m)%Q.
Proof. intros t d w x data pcmvnorm C P rep Hwf Hsk Ho Hn. exact (intv2_efficiency t d Hwf Hsk w x data pcmvnorm Ho Hn C P rep). Qed.
Print Assumptions C120_interventional_efficiency.
Theorem C120_interventional_unused : forall t d w x data pcmvnorm C P g j, wf_tree t d = true -> sk_tree t ->
  (forall z, In z data -> off_thresholds t z) -> data <> [] -> coalitions_ok C d -> sized C ->
  is_players C d P -> In g P -> In j g -> (forall k, In k g -> unused t k) ->
  exists r, tree_shap t w d data pcmvnorm Intv2 x C j = Some r /\ (r == 0)%Q.
Proof. intros t d w x data pcmvnorm C P g j Hwf Hsk Ho Hn. exact (intv2_unused t d Hwf Hsk w x data pcmvnorm Ho Hn C P g j). Qed.
Print Assumptions C120_interventional_unused.
Lemma one_unused : unused one 1.
Proof. intros i Hi L. vm_compute in Hi. destruct i as [|[|[|i]]]; [discriminate|discriminate L|discriminate L|lia]. Qed.
Definition some_rows : list pt := [pp 3 4; pp 2 2; pp (-1) 3; pp (-1) 1; pp 1 6].
Example C120_example : coalitions_ok pm_none 2 /\ sized pm_none /\ is_players pm_none 2 [[0]; [1]] /\ unused one 1 /\
  (forall z, In z some_rows -> off_thresholds uneven z) /\
  map (fun j => option_map Qred (tree_shap uneven (seen uneven all_rows) 2 some_rows (draw_prob some_rows) Shap (pp 1 6) pm_none j)) [0; 1] = [Some (25 # 12)%Q; Some (3 # 4)%Q] /\
  map (fun j => option_map Qred (tree_shap uneven (seen uneven all_rows) 2 some_rows (draw_prob some_rows) Intv2 (pp 1 6) pm_none j)) [0; 1] = [Some (7 # 5)%Q; Some (3 # 5)%Q] /\
  map (fun j => option_map Qred (tree_shap one (seen one two_rows) 2 some_rows (draw_prob some_rows) Intv2 (pp 1 6) pm_none j)) [0; 1] = [Some (4 # 5)%Q; Some 0%Q].
Proof.
  split; [exact (proj1 (pm_none_ok 2))|]. split; [exact (proj2 (pm_none_ok 2))|]. split; [exact pm_pairs|]. split; [exact one_unused|].
  split; [off|]. split; [vm_compute; reflexivity|]. split; vm_compute; reflexivity.
Qed.
(** With 'plugin' a feature the tree never splits on may get a value. *)
Theorem C120_plugin_refuted : exists t d w x data pcmvnorm j r, wf_tree t d = true /\ sk_tree t /\ fitted t w /\
  (forall z, In z data -> off_thresholds t z) /\ data <> [] /\ j < d /\ unused t j /\ tree_shap t w d data pcmvnorm Plugin x [[]] j = Some r /\ ~ (r == 0)%Q.
Proof.
  exists one, 2, (seen one two_rows), (pp 1 1), (two_rows ++ two_rows), (draw_prob two_rows), 1. eexists.
  split; [reflexivity|]. split; [exact one_sk|]. split; [exact one_fitted|]. split; [off|]. split; [discriminate|]. split; [lia|].
  split; [exact one_unused|]. split; [vm_compute; reflexivity|vm_compute; discriminate].
Qed.
Print Assumptions C120_plugin_refuted.

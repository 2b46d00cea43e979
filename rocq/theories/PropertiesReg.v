(** Property theorems C84, C85: leaf-based same-decision probability of regression
    forests.  Each is proved by a lemma of RegProofs.v. *)
From Verif Require Import Base TreeModel TreeSpec TreeProofs ShapModel ShapSpec ShapProofs AcvModel SdpModel SdpSpec SdpProofs
  GameSpec SearchModel SearchSpec RegModel RegSpec RegProofs PropertiesTree PropertiesShap.

(** a tree: [x0 <= 1] gives [a]; otherwise [xj <= 1] gives [b], else [c] *)
Definition rt (j : Z) (a b c : Q) : tree :=
  mkTree [1; -1; 3; -1; -1]%Z [2; -1; 4; -1; -1]%Z [2; -1; 4; -1; -1]%Z [0; -2; j; -2; -2]%Z
         [1; 0; 1; 0; 0]%Q [0; a; 0; b; c]%Q.
(** a tree: [x1 <= 1] gives [a], else [b] *)
Definition st (a b : Q) : tree :=
  mkTree [1; -1; -1]%Z [2; -1; -1]%Z [2; -1; -1]%Z [1; -2; -2]%Z [1; 0; 0]%Q [0; a; b]%Q.
Definition rleaves (t : tree) : list leaf := match tree_leaves t with Some ls => ls | None => [] end.
Definition rrows : list (pt * Q) := [(row 2 2 0, 2); (row 0 0 0, 3); (row 2 0 0, 4); (row 0 0 0, 3)]%Q.
Definition robs : list (pt * Q) := [(row 2 0 0, 4); (row 0 0 0, 3)]%Q.
Lemma rt_off a b c z : off_check 2 [rleaves (rt 1 a b c)] z = true -> off_boundary [rleaves (rt 1 a b c)] z.
Proof. apply off_check_ok. apply (forest_leaves_ok [rt 1 a b c]); reflexivity. Qed.
Lemma rrows_ok r : In r rrows -> off_boundary [rleaves (rt 1 3 4 2)] (fst r) /\
  dense_tree_predict [rt 1 3 4 2] 1 0 (fst r) no_missing = Some (snd r).
Proof.
  intro H. cbn in H. repeat (destruct H as [<-|H]; [split; [apply rt_off; vm_compute; reflexivity|vm_compute; reflexivity]|]).
  destruct H.
Qed.

(** C84, full claim: the probability returned by compute_sdp_reg is a probability, does not
    depend on the other observations of the batch, is the frequency of the predictions
    within the tolerance when no column is given and 1 when all are.  True for one tree, apart
    from the bounds and from predictions equal to 0; false for forests. *)
Theorem C84_batch_partial : forall m rows tX S ls obs k o, nth_error obs k = Some o ->
  nth_error (compute_sdp_reg m rows tX S [ls] obs) k = nth_error (compute_sdp_reg m rows tX S [ls] [o]) 0.
Proof. exact batch_one. Qed.
Print Assumptions C84_batch_partial.
(** the value for one tree: with the leaves weighted by the share of the rows of their
    projection on [S], the position of the mean squared distance to [f(x)] between its values on the
    rows beyond and within the tolerance *)
Theorem C84_value_partial : forall m rows tX S ls obs k x fX,
  (forall s, In s S -> s < m) -> nth_error obs k = Some (x, fX) ->
  let all := map fst rows in
  let far := map fst (filter (fun r => negb (near fX tX r)) rows) in
  let clo := map fst (filter (near fX tX) rows) in
  ~ (total_weight m S x all ls == 0)%Q -> ~ (total_weight m S x far ls == 0)%Q ->
  ~ (total_weight m S x clo ls == 0)%Q ->
  ~ (deviation m S x far fX ls == deviation m S x clo fX ls)%Q ->
  exists v, nth_error (compute_sdp_reg m rows tX S [ls] obs) k = Some v /\
   (v == (deviation m S x far fX ls - deviation m S x all fX ls)
         / (deviation m S x far fX ls - deviation m S x clo fX ls))%Q.
Proof. exact value_dev. Qed.
Print Assumptions C84_value_partial.
Theorem C84_empty_partial : forall m t ls rows tX obs k x fX,
  wf_tree t m = true -> tree_leaves t = Some ls ->
  (forall r, In r rows -> off_boundary [ls] (fst r) /\ dense_tree_predict [t] 1 0 (fst r) no_missing = Some (snd r)) ->
  nth_error obs k = Some (x, fX) ->
  (exists r, In r rows /\ near fX tX r = true) -> (exists r, In r rows /\ near fX tX r = false) ->
  exists v, nth_error (compute_sdp_reg m rows tX [] [ls] obs) k = Some v /\
    (v == Qn (length (filter (near fX tX) rows)) / Qn (length rows))%Q.
Proof. exact empty_freq. Qed.
Print Assumptions C84_empty_partial.
Theorem C84_full_partial : forall m t ls rows tX S obs k x fX,
  wf_tree t m = true -> tree_leaves t = Some ls -> (forall s, In s S <-> s < m) -> (0 <= tX)%Q ->
  (forall r, In r rows -> off_boundary [ls] (fst r) /\ dense_tree_predict [t] 1 0 (fst r) no_missing = Some (snd r)) ->
  off_boundary [ls] x -> dense_tree_predict [t] 1 0 x no_missing = Some fX ->
  (exists r, In r rows /\ predict_leaf t (fst r) no_missing = predict_leaf t x no_missing) ->
  nth_error obs k = Some (x, fX) ->
  exists v, nth_error (compute_sdp_reg m rows tX S [ls] obs) k = Some v /\
    (v == if qeqb fX 0 then 0 else 1)%Q.
Proof. exact full_one. Qed.
Print Assumptions C84_full_partial.
Example C84_example : let t := rt 1 3 4 2 in let ls := rleaves t in
  wf_tree t 2 = true /\ tree_leaves t = Some ls /\
  (forall r, In r rrows -> off_boundary [ls] (fst r) /\ dense_tree_predict [t] 1 0 (fst r) no_missing = Some (snd r)) /\
  nth_error robs 0 = Some (row 2 0 0, 4%Q) /\
  (exists r, In r rrows /\ near 4 0 r = true) /\ (exists r, In r rrows /\ near 4 0 r = false) /\
  map Qred (compute_sdp_reg 2%nat rrows 0 [] [ls] robs) = [1 # 4; 1 # 2]%Q /\
  off_boundary [ls] (row 2 0 0) /\ dense_tree_predict [t] 1 0 (row 2 0 0) no_missing = Some 4%Q /\
  (exists r, In r rrows /\ predict_leaf t (fst r) no_missing = predict_leaf t (row 2 0 0) no_missing) /\
  map Qred (compute_sdp_reg 2%nat rrows 0 [0%nat; 1%nat] [ls] robs) = [1; 1]%Q /\
  map Qred (compute_sdp_reg 2%nat rrows 0 [1%nat] [ls] robs) = [2 # 5; 3 # 5]%Q /\
  ~ (total_weight 2%nat [1%nat] (row 2 0 0) (map fst rrows) ls == 0)%Q /\
  ~ (total_weight 2%nat [1%nat] (row 2 0 0) (map fst (filter (fun r => negb (near 4 0 r)) rrows)) ls == 0)%Q /\
  ~ (total_weight 2%nat [1%nat] (row 2 0 0) (map fst (filter (near 4 0) rrows)) ls == 0)%Q /\
  Qred (deviation 2%nat [1%nat] (row 2 0 0) (map fst (filter (fun r => negb (near 4 0 r)) rrows)) 4 ls) = 1%Q /\
  Qred (deviation 2%nat [1%nat] (row 2 0 0) (map fst rrows) 4 ls) = (3 # 5)%Q /\
  Qred (deviation 2%nat [1%nat] (row 2 0 0) (map fst (filter (near 4 0) rrows)) 4 ls) = 0%Q.
Proof.
  cbn zeta. split; [reflexivity|]. split; [reflexivity|]. split; [exact rrows_ok|]. split; [reflexivity|].
  split; [exists (row 2 0 0, 4%Q); split; [cbn; tauto|reflexivity]|].
  split; [exists (row 0 0 0, 3%Q); split; [cbn; tauto|reflexivity]|].
  split; [vm_compute; reflexivity|]. split; [apply rt_off; vm_compute; reflexivity|].
  split; [vm_compute; reflexivity|].
  split; [exists (row 2 0 0, 4%Q); split; [cbn; tauto|reflexivity]|].
  split; [vm_compute; reflexivity|]. split; [vm_compute; reflexivity|].
  split; [vm_compute; discriminate|]. split; [vm_compute; discriminate|]. split; [vm_compute; discriminate|].
  split; [vm_compute; reflexivity|]. split; vm_compute; reflexivity.
Qed.
(** not a probability *)
Theorem C84_probability_refuted : exists t ls rows tX S x fX v,
  wf_tree t 2 = true /\ tree_leaves t = Some ls /\ (0 <= tX)%Q /\ (forall s, In s S -> s < 2) /\
  (forall r, In r rows -> off_boundary [ls] (fst r) /\ dense_tree_predict [t] 1 0 (fst r) no_missing = Some (snd r)) /\
  off_boundary [ls] x /\ dense_tree_predict [t] 1 0 x no_missing = Some fX /\
  compute_sdp_reg 2%nat rows tX S [ls] [(x, fX)] = [v] /\ (1 < v)%Q.
Proof.
  exists (rt 1 3 4 2), (rleaves (rt 1 3 4 2)), rrows, 1%Q, [1], (row 2 0 0), 4%Q. eexists.
  split; [reflexivity|]. split; [reflexivity|]. split; [lra|]. split; [cbn; lia|].
  split; [exact rrows_ok|]. split; [apply rt_off; vm_compute; reflexivity|].
  split; [vm_compute; reflexivity|]. split; [vm_compute; reflexivity|vm_compute; reflexivity].
Qed.
Print Assumptions C84_probability_refuted.
(** all columns, a prediction equal to 0: probability 0 *)
Theorem C84_full_refuted : exists t ls rows tX x fX v,
  wf_tree t 2 = true /\ tree_leaves t = Some ls /\ (0 <= tX)%Q /\
  (forall r, In r rows -> off_boundary [ls] (fst r) /\ dense_tree_predict [t] 1 0 (fst r) no_missing = Some (snd r)) /\
  In (x, fX) rows /\ compute_sdp_reg 2%nat rows tX [0; 1] [ls] [(x, fX)] = [v] /\ (v == 0)%Q.
Proof.
  exists (rt 1 3 0 2), (rleaves (rt 1 3 0 2)), [(row 2 2 0, 2); (row 0 0 0, 3); (row 2 0 0, 0)]%Q, 1%Q, (row 2 0 0), 0%Q. eexists.
  split; [reflexivity|]. split; [reflexivity|]. split; [lra|].
  split. { intros r H. cbn in H. repeat (destruct H as [<-|H]; [split; [apply rt_off; vm_compute; reflexivity|vm_compute; reflexivity]|]). destruct H. }
  split; [cbn; tauto|]. split; [vm_compute; reflexivity|reflexivity].
Qed.
Print Assumptions C84_full_refuted.

Definition rtrees : list tree := [rt 1 3 4 2; st 1 4].
Definition rforest : list (list leaf) := map rleaves rtrees.
Definition rrows2 : list (pt * Q) := [(row 2 2 0, 6); (row 0 0 0, 4); (row 2 0 0, 5); (row 0 2 0, 7)]%Q.
Lemma rforest_off z : off_check 2 rforest z = true -> off_boundary rforest z.
Proof. apply off_check_ok. apply (forest_leaves_ok rtrees); reflexivity. Qed.
Lemma rrows2_ok r : In r rrows2 -> off_boundary rforest (fst r) /\
  dense_tree_predict rtrees 2 0 (fst r) no_missing = Some (snd r).
Proof.
  intro H. cbn in H. repeat (destruct H as [<-|H]; [split; [apply rforest_off; vm_compute; reflexivity|vm_compute; reflexivity]|]).
  destruct H.
Qed.
(** two trees: the terms of different second trees share a cell, so that even with no column the
    result is not the frequency, for the first observation of the batch and for later ones *)
Theorem C84_empty_refuted : exists ts forest rows tX x fX v1 v2,
  forallb (fun t => wf_tree t 2) ts = true /\ forest_leaves ts = Some forest /\
  (forall r, In r rows -> off_boundary forest (fst r) /\ dense_tree_predict ts (length ts) 0 (fst r) no_missing = Some (snd r)) /\
  In (x, fX) rows /\ (exists r, In r rows /\ near fX tX r = true) /\ (exists r, In r rows /\ near fX tX r = false) /\
  compute_sdp_reg 2%nat rows tX [] forest [(x, fX); (x, fX)] = [v1; v2] /\
  ~ (v1 == Qn (length (filter (near fX tX) rows)) / Qn (length rows))%Q /\
  ~ (v2 == Qn (length (filter (near fX tX) rows)) / Qn (length rows))%Q.
Proof.
  exists rtrees, rforest, rrows2, 1%Q, (row 2 0 0), 5%Q. do 2 eexists.
  split; [reflexivity|]. split; [reflexivity|]. split; [exact rrows2_ok|]. split; [cbn; tauto|].
  split; [exists (row 2 0 0, 5%Q); split; [cbn; tauto|reflexivity]|].
  split; [exists (row 0 2 0, 7%Q); split; [cbn; tauto|reflexivity]|].
  split; [vm_compute; reflexivity|]. split; vm_compute; discriminate.
Qed.
Print Assumptions C84_empty_refuted.
(** two trees: the value of an observation depends on the observation before it *)
Theorem C84_batch_refuted : exists ts forest rows tX S x fX v1 v2,
  forallb (fun t => wf_tree t 2) ts = true /\ forest_leaves ts = Some forest /\
  (forall r, In r rows -> off_boundary forest (fst r) /\ dense_tree_predict ts (length ts) 0 (fst r) no_missing = Some (snd r)) /\
  In (x, fX) rows /\ compute_sdp_reg 2%nat rows tX S forest [(x, fX); (x, fX)] = [v1; v2] /\ ~ (v1 == v2)%Q.
Proof.
  exists rtrees, rforest, rrows2, 1%Q, [0], (row 2 0 0), 5%Q. do 2 eexists.
  split; [reflexivity|]. split; [reflexivity|]. split; [exact rrows2_ok|]. split; [cbn; tauto|].
  split; [vm_compute; reflexivity|]. vm_compute. discriminate.
Qed.
Print Assumptions C84_batch_refuted.
(** the values computed for these two trees *)
Example C84_forest_example :
  map Qred (compute_sdp_reg 2%nat rrows2 1 [] rforest [(row 2 0 0, 5%Q); (row 2 0 0, 5%Q)]) = [37 # 45; 1456 # 1775]%Q /\
  map Qred (compute_sdp_reg 2%nat rrows2 1 [0%nat] rforest [(row 2 0 0, 5%Q); (row 2 0 0, 5%Q)]) = [27 # 22; 735 # 1276]%Q.
Proof. vm_compute. split; reflexivity. Qed.
(** the Python version limits the result and treats the two ends apart *)
Theorem C84_python_probability : forall m rows fX tX S forest x,
  (0 <= py_sdp_reg m rows fX tX S forest x <= 1)%Q /\
  (length S = m -> (py_sdp_reg m rows fX tX S forest x == 1)%Q) /\
  (S = [] -> 0 < m -> (py_sdp_reg m rows fX tX S forest x == 0)%Q).
Proof. exact py_reg_ends. Qed.
Print Assumptions C84_python_probability.
(** one tree, total weight 1 for the three groups of rows: both versions agree up to the limit *)
Theorem C84_python_agrees : forall m rows fX tX S ls x v,
  0 < length S -> length S < m -> (forall s, In s S -> s < m) ->
  (total_weight m S x (map fst rows) ls == 1)%Q ->
  (total_weight m S x (map fst (filter (fun r => negb (near fX tX r)) rows)) ls == 1)%Q ->
  (total_weight m S x (map fst (filter (near fX tX) rows)) ls == 1)%Q ->
  compute_sdp_reg m rows tX S [ls] [(x, fX)] = [v] -> (0 <= v <= 1)%Q ->
  (py_sdp_reg m rows fX tX S [ls] x == v)%Q.
Proof. exact py_reg_agrees. Qed.
Print Assumptions C84_python_agrees.
Example C84_python_example : let ls := rleaves (rt 1 3 4 2) in
  Qred (total_weight 2%nat [0%nat] (row 2 0 0) (map fst rrows) ls) = 1%Q /\
  Qred (total_weight 2%nat [0%nat] (row 2 0 0) (map fst (filter (fun r => negb (near 4 0 r)) rrows)) ls) = 1%Q /\
  Qred (total_weight 2%nat [0%nat] (row 2 0 0) (map fst (filter (near 4 0) rrows)) ls) = 1%Q /\
  map Qred (compute_sdp_reg 2%nat rrows 0 [0%nat] [ls] [(row 2 0 0, 4%Q)]) = [1 # 2]%Q /\
  Qred (py_sdp_reg 2%nat rrows 4 0 [0%nat] [ls] (row 2 0 0)) = (1 # 2)%Q /\
  Qred (py_sdp_reg 2%nat rrows 4 1 [1%nat] [ls] (row 2 0 0)) = (77 # 92)%Q.
Proof. vm_compute. repeat split; reflexivity. Qed.

(** C85, full claim: the probabilities that global_sdp_reg compares with the level are those of
    compute_sdp_reg for the same set and observation.  True for one tree without coalitions. *)
Theorem C85_search_partial : forall d rows tX ls es k S o, nth_error es k = Some (S, o) ->
  nth_error (search_reg_evals [[]] d rows tX [ls] es) k = nth_error (compute_sdp_reg d rows tX S [ls] [o]) 0.
Proof. exact search_evals_one. Qed.
Print Assumptions C85_search_partial.
Example C85_example :
  map Qred (search_reg_evals [[]] 2 rrows 0 [rleaves (rt 1 3 4 2)] [([], (row 2 0 0, 4%Q)); ([0%nat], (row 2 0 0, 4%Q)); ([1%nat], (row 0 0 0, 3%Q))])
  = [1 # 4; 1 # 2; 3 # 5]%Q.
Proof. vm_compute. reflexivity. Qed.
(** with a coalition the last columns are not tested *)
Theorem C85_coalition_refuted : exists C t ls rows tX S x fX v w,
  groups_ok 3 (tree_groups C 3) /\ In S (map (@concat nat) (subs (tree_groups C 3))) /\
  wf_tree t 3 = true /\ tree_leaves t = Some ls /\
  (forall r, In r rows -> off_boundary [ls] (fst r) /\ dense_tree_predict [t] 1 0 (fst r) no_missing = Some (snd r)) /\
  In (x, fX) rows /\ search_reg_evals C 3 rows tX [ls] [(S, (x, fX))] = [v] /\
  compute_sdp_reg 3 rows tX S [ls] [(x, fX)] = [w] /\ (0 <= w <= 1)%Q /\ ~ (v == w)%Q.
Proof.
  exists [[1; 2]], (rt 2 3 4 2), (rleaves (rt 2 3 4 2)),
    [(row 2 0 2, 2); (row 0 0 0, 3); (row 2 0 0, 4); (row 2 0 0, 4)]%Q, 0%Q, [0], (row 2 0 0), 4%Q. do 2 eexists.
  split; [split; [repeat constructor; cbn; intuition discriminate|split; [cbn; intuition lia|cbn; intuition discriminate]]|].
  split; [cbn; tauto|]. split; [reflexivity|]. split; [reflexivity|].
  split. { intros r H. cbn in H. repeat (destruct H as [<-|H]; [split; [apply (off_check_ok 3); [apply (forest_leaves_ok [rt 2 3 4 2]); reflexivity|vm_compute; reflexivity]|vm_compute; reflexivity]|]). destruct H. }
  split; [cbn; tauto|].
  split; [vm_compute; reflexivity|]. split; [vm_compute; reflexivity|].
  split; [split; vm_compute; discriminate|vm_compute; discriminate].
Qed.
Print Assumptions C85_coalition_refuted.
(** with several trees the estimates also depend on those made before *)
Theorem C85_history_refuted : exists ts forest rows tX x fX v1 v2 w,
  forallb (fun t => wf_tree t 2) ts = true /\ forest_leaves ts = Some forest /\
  (forall r, In r rows -> off_boundary forest (fst r) /\ dense_tree_predict ts (length ts) 0 (fst r) no_missing = Some (snd r)) /\
  In (x, fX) rows /\
  search_reg_evals [[]] 2%nat rows tX forest [([], (x, fX)); ([0], (x, fX))] = [v1; v2] /\
  compute_sdp_reg 2%nat rows tX [0] forest [(x, fX)] = [w] /\ ~ (v2 == w)%Q.
Proof.
  exists rtrees, rforest, rrows2, 1%Q, (row 2 0 0), 5%Q. do 3 eexists.
  split; [reflexivity|]. split; [reflexivity|]. split; [exact rrows2_ok|]. split; [cbn; tauto|].
  split; [vm_compute; reflexivity|]. split; [vm_compute; reflexivity|]. vm_compute. discriminate.
Qed.
Print Assumptions C85_history_refuted.

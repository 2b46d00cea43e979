(** Property theorems C94-C95: normalized Shapley values.  Each is proved by a
    lemma of NormProofs.v. *)
From Verif Require Import Base TreeModel TreeSpec TreeProofs GameSpec GameProofs
  ShapModel ShapSpec ShapProofs NormModel NormSpec NormProofs PropertiesTree PropertiesShap.

(** a tree whose four leaves all use the two columns, and rows in all of them *)
Definition ex_bal : tree :=
  mkTree [1; 2; -1; -1; 5; -1; -1]%Z [4; 3; -1; -1; 6; -1; -1]%Z [1; 2; -1; -1; 5; -1; -1]%Z
         [0; 1; -2; -2; 1; -2; -2]%Z [1; 3; 0; 0; 9#2; 0; 0]%Q [0; 0; 10; 20; 0; 40; 80]%Q.
Definition leaves_of (ts : list tree) : list (list leaf) :=
  match forest_leaves ts with Some f => f | None => [] end.
Definition bal_data : list pt := [row 0 0 0; row 0 1 0; row 0 4 0; row 2 2 2; row 2 4 2; row 2 5 8; row 0 5 9]%Q.
Ltac held :=
  intros ls lf H1 H2; cbn in H1;
  repeat (destruct H1 as [<-|H1]; [cbn in H2; repeat (destruct H2 as [<-|H2]; [
    match goal with |- exists z, In z ?D /\ Inside ?m ?p z =>
      let f := eval vm_compute in (map (in_rect m p) D) in
      let rec go k f := match f with
        | true :: _ => exists (nth k D (fun _ => 0%Q)); split; [cbn; tauto|apply in_rect_Inside; vm_compute; reflexivity]
        | false :: ?r => go (S k) r end in go 0 f end|]); destruct H2|]); destruct H1.

(** C94: with a background row in every leaf, the value of a player is its
    Shapley value in the game where, for each leaf, the probability is
    normalized over the tree given only the players met by that leaf. *)
Theorem C94_local_game : forall C m P data ts forest x g j,
  coalitions_ok C m -> is_players C m P ->
  forallb (fun t => wf_tree t m) ts = true -> forest_leaves ts = Some forest ->
  data <> [] -> all_held m data forest -> In g P -> In j g ->
  (shap_values_leaves_normalized C m data forest x j == shapley gdec P (worth_local m data forest x) g)%Q.
Proof. exact norm_is_local_shapley. Qed.
Print Assumptions C94_local_game.
Lemma ex_held : all_held 3 ex_data ex_forest.
Proof. held. Qed.
Example C94_local_example :
  coalitions_ok ex_C 3 /\ is_players ex_C 3 (va_ids ex_C 3) /\
  forallb (fun t => wf_tree t 3) ex_trees = true /\ forest_leaves ex_trees = Some ex_forest /\
  all_held 3 ex_data ex_forest /\
  map (fun j => Qred (shap_values_leaves_normalized ex_C 3 ex_data ex_forest ex_x j)) [0; 1; 2]
    = [(92#9); (-110#9); (92#9)]%Q /\
  map (fun j => Qred (shap_values_leaves_normalized [[]] 3 ex_data ex_forest ex_x j)) [0; 1; 2]
    = [(499#42); (-1499#126); (-125#63)]%Q /\
  map (fun j => Qred (shap_values_leaves [[]] 3 ex_data ex_forest ex_x j)) [0; 1; 2]
    = [(227#18); (-107#9); (-49#18)]%Q.
Proof.
  split; [exact ex_C_ok|]. split; [apply va_ids_players, ex_C_ok|].
  split; [vm_compute; reflexivity|]. split; [vm_compute; reflexivity|]. split; [exact ex_held|].
  vm_compute. auto.
Qed.

(** C94: it is the Shapley value of the normalized expectation itself when all
    leaves of a tree meet the same players. *)
Theorem C94_shapley_partial : forall C m P data ts forest x g j,
  coalitions_ok C m -> is_players C m P ->
  forallb (fun t => wf_tree t m) ts = true -> forest_leaves ts = Some forest ->
  data <> [] -> all_held m data forest -> same_players P forest -> In g P -> In j g ->
  (shap_values_leaves_normalized C m data forest x j == shapley gdec P (worth_norm m data forest x) g)%Q.
Proof. exact norm_same_players. Qed.
Print Assumptions C94_shapley_partial.
Lemma none_ok m : coalitions_ok [[]] m.
Proof. split; [constructor|]. split; [contradiction|reflexivity]. Qed.
Example C94_shapley_example :
  forallb (fun t => wf_tree t 3) [ex_bal] = true /\ forest_leaves [ex_bal] = Some (leaves_of [ex_bal]) /\
  all_held 3 bal_data (leaves_of [ex_bal]) /\ same_players (va_ids [[]] 3) (leaves_of [ex_bal]) /\
  map (fun j => Qred (shap_values_leaves_normalized [[]] 3 bal_data (leaves_of [ex_bal]) ex_x j)) [0; 1; 2]
    = [(3415#168); (-1975#168); 0]%Q /\
  map (fun j => Qred (shap_values_leaves [[]] 3 bal_data (leaves_of [ex_bal]) ex_x j)) [0; 1; 2]
    = [(412#21); (-232#21); 0]%Q.
Proof.
  split; [vm_compute; reflexivity|]. split; [vm_compute; reflexivity|]. split; [held|]. split.
  - intros ls lf lf' g H1 H2 H3 H4. cbn in H1. destruct H1 as [<-|[]].
    cbn in H2, H3, H4.
    repeat (destruct H4 as [<-|H4]; [
      repeat (destruct H2 as [<-|H2]; [repeat (destruct H3 as [<-|H3]; [vm_compute; reflexivity|]); destruct H3|]);
      destruct H2|]). destruct H4.
  - vm_compute. auto.
Qed.
(** false in general, even with a row in every leaf *)
Theorem C94_shapley_refuted : exists C m P data ts forest x g j,
  coalitions_ok C m /\ is_players C m P /\
  forallb (fun t => wf_tree t m) ts = true /\ forest_leaves ts = Some forest /\
  data <> [] /\ all_held m data forest /\ In g P /\ In j g /\
  ~ (shap_values_leaves_normalized C m data forest x j == shapley gdec P (worth_norm m data forest x) g)%Q.
Proof.
  exists [[]], 3, (va_ids [[]] 3), ex_data, ex_trees, ex_forest, ex_x, [0], 0.
  split; [apply none_ok|]. split; [apply va_ids_players, none_ok|].
  split; [vm_compute; reflexivity|]. split; [vm_compute; reflexivity|].
  split; [discriminate|]. split; [exact ex_held|]. split; [now left|]. split; [now left|].
  vm_compute. discriminate.
Qed.
Print Assumptions C94_shapley_refuted.

(** C94: with a background row in every leaf, the values of the players add up to
    the prediction minus the average prediction. *)
Theorem C94_efficiency_partial : forall C m P data ts forest x off rx rdata (rep : list nat -> nat),
  coalitions_ok C m -> is_players C m P -> (forall g, In g P -> In (rep g) g) ->
  forallb (fun t => wf_tree t m) ts = true -> forest_leaves ts = Some forest -> data <> [] ->
  all_held m data forest ->
  dense_tree_predict ts (length ts) off x no_missing = Some rx ->
  Forall2 (fun z r => dense_tree_predict ts (length ts) off z no_missing = Some r) data rdata ->
  (sumf (fun g => shap_values_leaves_normalized C m data forest x (rep g)) P ==
   rx - sumf (fun r => r) rdata / Qn (length data))%Q.
Proof. exact norm_accounts_for_prediction. Qed.
Print Assumptions C94_efficiency_partial.
Example C94_efficiency_example :
  all_held 3 ex_data ex_forest /\ dense_tree_predict ex_trees 2 5 ex_x no_missing = Some 45%Q /\
  map (fun z => dense_tree_predict ex_trees 2 5 z no_missing) ex_data = map Some [25; 45; 65; 75; 25]%Q /\
  Qred (sumf (fun g => shap_values_leaves_normalized ex_C 3 ex_data ex_forest ex_x (hd 0 g)) (va_ids ex_C 3)) = (-2)%Q.
Proof. split; [exact ex_held|]. vm_compute. auto. Qed.
(** false as soon as another leaf is empty: the running normaliser is set back
    to zero.  The leaf of the observation does hold rows, so C07 applies. *)
Definition ex_two : tree :=
  mkTree [1; -1; 3; -1; -1]%Z [2; -1; 4; -1; -1]%Z [1; -1; 3; -1; -1]%Z
         [0; -2; 0; -2; -2]%Z [1; 0; 5; 0; 0]%Q [0; 10; 0; 20; 30]%Q.
Theorem C94_efficiency_refuted : exists C m P data ts forest x off rx rdata (rep : list nat -> nat),
  coalitions_ok C m /\ is_players C m P /\ (forall g, In g P -> In (rep g) g) /\
  forallb (fun t => wf_tree t m) ts = true /\ forest_leaves ts = Some forest /\ data <> [] /\
  (forall ls lf, In ls forest -> In lf ls -> Inside m (l_rect lf) x ->
     exists z, In z data /\ Inside m (l_rect lf) z) /\
  dense_tree_predict ts (length ts) off x no_missing = Some rx /\
  Forall2 (fun z r => dense_tree_predict ts (length ts) off z no_missing = Some r) data rdata /\
  (sumf (fun g => shap_values_leaves C m data forest x (rep g)) P ==
   rx - sumf (fun r => r) rdata / Qn (length data))%Q /\
  ~ (sumf (fun g => shap_values_leaves_normalized C m data forest x (rep g)) P ==
     rx - sumf (fun r => r) rdata / Qn (length data))%Q.
Proof.
  exists [[]], 1, (va_ids [[]] 1), [row 0 0 0; row 2 0 0; row 3 0 0]%Q, [ex_two], (leaves_of [ex_two]),
    (row 2 0 0), 0%Q, 20%Q, [10; 20; 20]%Q, (hd 0).
  split; [apply none_ok|]. split; [apply va_ids_players, none_ok|].
  split; [intros g [<-|[]]; now left|].
  split; [vm_compute; reflexivity|]. split; [vm_compute; reflexivity|]. split; [discriminate|].
  split.
  - intros ls lf H1 H2 H3. exists (row 2 0 0). split; [now right; left|trivial].
  - split; [vm_compute; reflexivity|]. split; [repeat constructor|].
    split; [vm_compute; reflexivity|]. vm_compute. discriminate.
Qed.
Print Assumptions C94_efficiency_refuted.

(** C95: with the cache built for the same coalitions, and an observation on no
    bound of a leaf, the method returns the same values whatever the flag. *)
Theorem C95_cache_partial : forall cache_normalized C m data forest x j, off_bounds forest x ->
  exists q, api_normalized true cache_normalized C C m data forest x j = Some q /\
    (q == shap_values_leaves_normalized C m data forest x j)%Q.
Proof. exact api_normalized_same. Qed.
Print Assumptions C95_cache_partial.
Definition off_x : pt := row 2 4 8.
Lemma ex_off : off_bounds (leaves_of [ex_bal]) off_x.
Proof.
  intros ls lf s b H1 H2 H3. cbn in H1. destruct H1 as [<-|[]]. cbn in H2.
  repeat (destruct H2 as [<-|H2]; [
    destruct s as [|[|[|s]]]; cbn in H3; destruct H3 as [H3|H3]; try discriminate;
      injection H3 as <-; intro K; vm_compute in K; discriminate|]). destruct H2.
Qed.
Example C95_cache_example :
  off_bounds (leaves_of [ex_bal]) off_x /\
  option_map Qred (api_normalized true true [[]] [[]] 3 bal_data (leaves_of [ex_bal]) off_x 0) = Some (1040#63)%Q /\
  option_map Qred (api_normalized true false [[]] [[]] 3 bal_data (leaves_of [ex_bal]) off_x 0) = Some (1040#63)%Q /\
  n_lmsi (leaves_cache_normalized [[]] 3 bal_data (leaves_of [ex_bal])) 0 1 3 2 1 = 2.
Proof. split; [exact ex_off|]. vm_compute. auto. Qed.
(** on a bound the two routines disagree: the cached one tests [lo <= x < hi] *)
Theorem C95_bounds_refuted : exists C m data ts forest x j q q',
  coalitions_ok C m /\ forallb (fun t => wf_tree t m) ts = true /\ forest_leaves ts = Some forest /\
  all_held m data forest /\ j < m /\
  api_normalized true true C C m data forest x j = Some q /\
  api_normalized true false C C m data forest x j = Some q' /\ ~ (q == q')%Q.
Proof.
  eexists [[]], 3, bal_data, [ex_bal], (leaves_of [ex_bal]), (row 1 4 8), 0, _, _.
  split; [apply none_ok|]. split; [vm_compute; reflexivity|]. split; [vm_compute; reflexivity|].
  split; [held|]. split; [lia|]. split; [reflexivity|]. split; [reflexivity|].
  vm_compute. discriminate.
Qed.
Print Assumptions C95_bounds_refuted.
(** counts stored for other coalitions than those of the call are read as if
    they were theirs *)
Theorem C95_coalitions_refuted : exists C0 C m data ts forest x j q q',
  coalitions_ok C0 m /\ coalitions_ok C m /\
  forallb (fun t => wf_tree t m) ts = true /\ forest_leaves ts = Some forest /\
  all_held m data forest /\ off_bounds forest x /\ j < m /\
  api_normalized true true C0 C m data forest x j = Some q /\
  api_normalized true false C0 C m data forest x j = Some q' /\ ~ (q == q')%Q.
Proof.
  eexists [[0; 1]], [[]], 3, bal_data, [ex_bal], (leaves_of [ex_bal]), off_x, 0, _, _.
  split.
  { split; [cbn; repeat constructor; cbn; intuition lia|]. split; [cbn; intuition lia|exact I]. }
  split; [apply none_ok|]. split; [vm_compute; reflexivity|]. split; [vm_compute; reflexivity|].
  split; [held|]. split; [exact ex_off|]. split; [lia|]. split; [reflexivity|]. split; [reflexivity|].
  vm_compute. discriminate.
Qed.
Print Assumptions C95_coalitions_refuted.
(** the method raises exactly when [cache_normalized] is asked without [cache] *)
Theorem C95_raises : forall cache cache_normalized C0 C m data forest x j,
  api_normalized cache cache_normalized C0 C m data forest x j = None <->
  cache_normalized = true /\ cache = false.
Proof. exact api_normalized_raises. Qed.
Print Assumptions C95_raises.
Example C95_raises_example :
  api_normalized false true [[]] [[]] 3 bal_data (leaves_of [ex_bal]) off_x 0 = None /\
  option_map Qred (api_normalized false false [[]] [[]] 3 bal_data (leaves_of [ex_bal]) off_x 0) = Some (1040#63)%Q.
Proof. vm_compute. auto. Qed.

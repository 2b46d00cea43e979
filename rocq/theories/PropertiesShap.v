(** Property theorems C06-C14: leaf-based Shapley values.  Each is proved by a
    lemma of ShapProofs.v or AcvProofs.v. *)
From Verif Require Import Base TreeModel TreeSpec TreeProofs GameSpec GameProofs
  ShapModel ShapSpec ShapProofs AcvModel AcvSpec AcvProofs PropertiesTree.

(** Concrete ensemble of two trees over three columns, five background rows. *)
Definition ex_trees : list tree := [ex_tree; ex_deep].
Definition row (a b c : Q) : pt := fun f => match f with 0 => a | 1 => b | _ => c end.
Definition ex_data : list pt :=
  [row 0 0 0; row 2 2 2; row 2 4 2; row 2 4 8; row 0 5 9]%Q.
Definition ex_C : list (list nat) := [[0; 2]].
Definition ex_forest : list (list leaf) :=
  match forest_leaves ex_trees with Some f => f | None => [] end.
Lemma ex_C_ok : coalitions_ok ex_C 3.
Proof.
  split; [|split; [|exact I]].
  - cbn. repeat constructor; cbn; intuition lia.
  - cbn. intuition lia.
Qed.
Lemma ex_forest_ok : forest_ok 3 ex_forest.
Proof. apply (forest_leaves_ok ex_trees); vm_compute; reflexivity. Qed.

(** C14: binomial coefficients are exact. *)
Theorem C14_binomial_exact : forall N k, comb_int_long N k = choose N k.
Proof. exact comb_exact. Qed.
Print Assumptions C14_binomial_exact.
Theorem C14_choose_is_factorial_ratio : forall n k, k <= n ->
  comb_int_long n k * (fact k * fact (n - k)) = fact n.
Proof. intros n k H. rewrite comb_exact. now apply choose_fact. Qed.
Print Assumptions C14_choose_is_factorial_ratio.
Example C14_example : comb_int_long 10 4 = 210 /\ comb_int_long 3 5 = 0 /\ comb_int_long 0 0 = 1.
Proof. vm_compute. auto. Qed.

(** C06: the value returned for column [j] of player [g] is the Shapley value of
    [g] in the game [worth]; equivalently its average marginal contribution over
    all orders of arrival of the players. *)
Theorem C06_shap_is_shapley : forall C m P data forest x g j,
  coalitions_ok C m -> is_players C m P -> forest_ok m forest -> data <> [] ->
  In g P -> In j g ->
  (shap_values_leaves C m data forest x j == shapley gdec P (worth m data forest x) g)%Q.
Proof. exact shap_is_shapley. Qed.
Print Assumptions C06_shap_is_shapley.
Theorem C06_shap_is_order_average : forall C m P data forest x g j,
  coalitions_ok C m -> is_players C m P -> forest_ok m forest -> data <> [] ->
  In g P -> In j g ->
  (shap_values_leaves C m data forest x j == shapley_orders gdec P (worth m data forest x) g)%Q.
Proof. exact shap_is_order_average. Qed.
Print Assumptions C06_shap_is_order_average.
(** every column belongs to a player, so the two theorems cover every column *)
Theorem C06_every_column_has_a_player : forall C m j, coalitions_ok C m -> j < m ->
  is_players C m (va_ids C m) /\ exists g, In g (va_ids C m) /\ In j g.
Proof.
  exact (fun C m j HC Hj => conj (va_ids_players C m HC) (player_exists C m _ j (va_ids_players C m HC) Hj)).
Qed.
Print Assumptions C06_every_column_has_a_player.
Example C06_example :
  coalitions_ok ex_C 3 /\ forest_ok 3 ex_forest /\ va_ids ex_C 3 = [[0; 2]; [1]] /\
  is_players ex_C 3 (va_ids ex_C 3) /\
  Qred (shap_values_leaves ex_C 3 ex_data ex_forest ex_x 0) = Qred (shapley gdec [[0; 2]; [1]] (worth 3 ex_data ex_forest ex_x) [0; 2]) /\
  map (fun j => Qred (shap_values_leaves ex_C 3 ex_data ex_forest ex_x j)) [0; 1; 2] = [(55#6); (-67#6); (55#6)]%Q.
Proof.
  split; [exact ex_C_ok|]. split; [exact ex_forest_ok|]. split; [reflexivity|].
  split; [apply va_ids_players, ex_C_ok|]. vm_compute. auto.
Qed.

(** C07: efficiency, in game form and in terms of predictions. *)
Theorem C07_efficiency : forall C m P data forest x (rep : list nat -> nat),
  coalitions_ok C m -> is_players C m P -> forest_ok m forest -> data <> [] ->
  (forall g, In g P -> In (rep g) g) ->
  (sumf (fun g => shap_values_leaves C m data forest x (rep g)) P ==
   worth m data forest x P - worth m data forest x [])%Q.
Proof. exact shap_efficiency. Qed.
Print Assumptions C07_efficiency.
Theorem C07_prediction_minus_average : forall C m P data ts forest x off rx rdata (rep : list nat -> nat),
  coalitions_ok C m -> is_players C m P -> (forall g, In g P -> In (rep g) g) ->
  forallb (fun t => wf_tree t m) ts = true -> forest_leaves ts = Some forest -> data <> [] ->
  (forall ls lf, In ls forest -> In lf ls -> Inside m (l_rect lf) x ->
     exists z, In z data /\ Inside m (l_rect lf) z) ->
  dense_tree_predict ts (length ts) off x no_missing = Some rx ->
  Forall2 (fun z r => dense_tree_predict ts (length ts) off z no_missing = Some r) data rdata ->
  (sumf (fun g => shap_values_leaves C m data forest x (rep g)) P ==
   rx - sumf (fun r => r) rdata / Qn (length data))%Q.
Proof. exact shap_accounts_for_prediction. Qed.
Print Assumptions C07_prediction_minus_average.
Example C07_example :
  forallb (fun t => wf_tree t 3) ex_trees = true /\ forest_leaves ex_trees = Some ex_forest /\
  dense_tree_predict ex_trees 2 5 ex_x no_missing = Some 45%Q /\
  (forall ls lf, In ls ex_forest -> In lf ls -> Inside 3 (l_rect lf) ex_x ->
     exists z, In z ex_data /\ Inside 3 (l_rect lf) z) /\
  map (fun z => dense_tree_predict ex_trees 2 5 z no_missing) ex_data
    = map Some [25; 45; 65; 75; 25]%Q /\
  Qred (sumf (fun g => shap_values_leaves ex_C 3 ex_data ex_forest ex_x (hd 0 g)) (va_ids ex_C 3)) = (-2)%Q.
Proof.
  split; [vm_compute; reflexivity|]. split; [vm_compute; reflexivity|]. split; [vm_compute; reflexivity|].
  split.
  - intros ls lf H1 H2 H3. exists (row 2 2 2). split; [vm_compute; tauto|].
    apply in_rect_Inside in H3. apply in_rect_Inside.
    cbn in H1. repeat (destruct H1 as [<-|H1]; [cbn in H2; repeat (destruct H2 as [<-|H2];
      [vm_compute in H3; try discriminate; vm_compute; reflexivity|]); destruct H2|]). destruct H1.
  - vm_compute. auto.
Qed.

(** C08: a player none of whose columns is used by any leaf gets zero. *)
Theorem C08_unused_feature_zero : forall C m P data forest x g j,
  coalitions_ok C m -> is_players C m P -> forest_ok m forest -> data <> [] ->
  In g P -> In j g ->
  (forall ls lf s, In ls forest -> In lf ls -> In s g -> ~ In s (l_vars lf)) ->
  (shap_values_leaves C m data forest x j == 0)%Q.
Proof. exact unused_feature_zero. Qed.
Print Assumptions C08_unused_feature_zero.
Example C08_example :
  forest_ok 3 [match tree_leaves ex_tree with Some l => l | None => [] end] /\
  map (fun j => Qred (shap_values_leaves [[]] 3 ex_data
         [match tree_leaves ex_tree with Some l => l | None => [] end] ex_x j)) [0; 1; 2] = [(19#3); (-19#3); 0]%Q.
Proof.
  split; [apply (forest_leaves_ok [ex_tree]); vm_compute; reflexivity|]. vm_compute. auto.
Qed.

(** C09: members of a coalition share its value; extra columns do not matter. *)
Theorem C09_members_share_value : forall C m P data forest x g j k,
  coalitions_ok C m -> is_players C m P -> forest_ok m forest -> data <> [] ->
  In g P -> In j g -> In k g ->
  (shap_values_leaves C m data forest x j == shap_values_leaves C m data forest x k)%Q /\
  (shap_values_leaves C m data forest x j == shapley gdec P (worth m data forest x) g)%Q.
Proof.
  exact (fun C m P data forest x g j k HC HP HF Hd Hg Hj Hk =>
    conj (coalition_members_share C m P data forest x g j k HC HP HF Hd Hg Hj Hk)
         (shap_is_shapley C m P data forest x g j HC HP HF Hd Hg Hj)).
Qed.
Print Assumptions C09_members_share_value.
Theorem C09_extra_columns_irrelevant : forall C m m' data forest x j,
  coalitions_ok C m -> forest_ok m forest -> data <> [] -> j < m -> m <= m' ->
  (shap_values_leaves C m' data forest x j == shap_values_leaves C m data forest x j)%Q.
Proof. exact extra_columns_irrelevant. Qed.
Print Assumptions C09_extra_columns_irrelevant.
Example C09_example :
  coalitions_ok ex_C 3 /\ forest_ok 3 ex_forest /\
  map (fun j => Qred (shap_values_leaves ex_C 6 ex_data ex_forest ex_x j)) [0; 1; 2; 3] = [(55#6); (-67#6); (55#6); 0]%Q.
Proof. split; [exact ex_C_ok|]. split; [exact ex_forest_ok|]. vm_compute. auto. Qed.

(** C10: counts computed once and reused. *)
Theorem C10_cache_same : forall C m data forest x j,
  (shap_values_leaves_cache (leaves_cache C m data forest) C m (length data) forest x j ==
   shap_values_leaves C m data forest x j)%Q.
Proof. exact cache_same. Qed.
Print Assumptions C10_cache_same.
Example C10_example :
  c_lms (leaves_cache ex_C 3 ex_data ex_forest) 1 1 3 1 = 1 /\
  Qred (shap_values_leaves_cache (leaves_cache ex_C 3 ex_data ex_forest) ex_C 3 5 ex_forest ex_x 1) = (-67#6)%Q.
Proof. vm_compute. auto. Qed.

(** C11: the slots written by the parallel loop, reduced sequentially, give the
    same answer for every interleaving of the leaves.  First in exact arithmetic
    against the sequential definition, then as an exact equality for any number
    type and any addition (floating point included). *)
Theorem C11_parallel_is_sequential : forall C m data x forest scheds max_leaves scaling j,
  (forall ls, In ls forest -> length ls <= max_leaves) ->
  (forall ls lf, In ls forest -> In lf ls -> length (l_vars lf) <= scaling) ->
  Forall2 (fun ls l => interleaving (tree_programs C m ls (slot_delta C m data x)) l) forest scheds ->
  (trees_slots Qplus 0 scheds max_leaves (2 ^ scaling) j / Qn m ==
   shap_values_leaves C m data forest x j)%Q.
Proof. exact parallel_is_sequential. Qed.
Print Assumptions C11_parallel_is_sequential.
Theorem C11_schedule_independent : forall (V : Type) (add : V -> V -> V) (zero : V)
  (C : list (list nat)) m (delta : nat -> leaf -> list nat -> nat -> V) (forest : list (list leaf))
  scheds scheds' max_leaves cap j,
  let progs := map (fun bl => tree_programs C m (snd bl) (delta (fst bl))) (indexed forest) in
  Forall2 interleaving progs scheds -> Forall2 interleaving progs scheds' ->
  trees_slots add zero scheds max_leaves cap j = trees_slots add zero scheds' max_leaves cap j.
Proof. intros. eapply parallel_exact; eassumption. Qed.
Print Assumptions C11_schedule_independent.
(** two different interleavings of two two-step programs *)
Definition ex_progs (k : nat) : list (instr Q) :=
  match k with 0 => [Load 0 0; AddStore 0 0 1%Q] | 1 => [Load 0 0; AddStore 0 0 2%Q] | _ => [] end.
Example C11_example :
  interleaving ex_progs [(0, Load 0 0); (1, Load 0 0); (0, AddStore 0 0 1%Q); (1, AddStore 0 0 2%Q)] /\
  interleaving ex_progs [(1, Load 0 0); (1, AddStore 0 0 2%Q); (0, Load 0 0); (0, AddStore 0 0 1%Q)].
Proof.
  split; repeat (eapply il_step; [reflexivity|]); constructor;
    intros [|[|k]]; reflexivity.
Qed.

(** C12: active-coalition Shapley values (whenever they are numbers). *)
Theorem C12_acv_is_shapley : forall C d S N P data forest x g j q,
  coalitions_ok C d -> is_players_of C S P -> forest_ok d forest -> data <> [] ->
  active_null_cover S N forest -> In g P -> In j g ->
  shap_values_acv C d S N data forest x j = Some q ->
  (q == shapley gdec P (worth_acv d N data forest x) g)%Q.
Proof. exact acv_is_shapley. Qed.
Print Assumptions C12_acv_is_shapley.
Theorem C12_acv_efficiency : forall C d S N P data forest x (rep : list nat -> nat) (phi : nat -> Q),
  coalitions_ok C d -> is_players_of C S P -> forest_ok d forest -> data <> [] ->
  active_null_cover S N forest -> (forall g, In g P -> In (rep g) g) ->
  (forall g, In g P -> shap_values_acv C d S N data forest x (rep g) = Some (phi (rep g))) ->
  (sumf (fun g => phi (rep g)) P ==
   worth_acv d N data forest x P - worth_acv d N data forest x [])%Q.
Proof. exact acv_efficiency. Qed.
Print Assumptions C12_acv_efficiency.
Theorem C12_null_columns_zero : forall C d S N data forest x j q,
  (forall g, In g (acv_va_ids C S) -> ~ In j g) ->
  shap_values_acv C d S N data forest x j = Some q -> (q == 0)%Q.
Proof. exact acv_null_zero. Qed.
Print Assumptions C12_null_columns_zero.
Lemma ex_cover : active_null_cover [0; 2] [1] ex_forest.
Proof.
  split; [repeat constructor; cbn; intuition lia|]. split; [cbn; intuition lia|].
  intros ls lf s H1 H2 H3. destruct (ex_forest_ok ls lf H1 H2) as [_ [Hb _]]. specialize (Hb s H3).
  cbn. lia.
Qed.
Example C12_example :
  active_null_cover [0; 2] [1] ex_forest /\ is_players_of [[]] [0; 2] [[0]; [2]] /\
  map (fun j => option_map Qred (shap_values_acv [[]] 3 [0; 2] [1] ex_data ex_forest ex_x j)) [0; 1; 2]
    = [Some 5%Q; Some 0%Q; Some (-7)%Q] /\
  Qred (worth_acv 3 [1] ex_data ex_forest ex_x [[0]; [2]] - worth_acv 3 [1] ex_data ex_forest ex_x []) = (-2)%Q.
Proof.
  split; [exact ex_cover|]. split.
  - apply (acv_va_ids_players [[]] 3 [0; 2]).
    + split; [constructor|]. split; [contradiction|reflexivity].
    + repeat constructor; cbn; intuition lia.
  - vm_compute. auto.
Qed.

(** C13 is false: with one background row, a leaf has an empty projection and
    the unguarded divisions produce a non-number. *)
Theorem C13_always_numbers_refuted : exists C d S N data forest x j,
  coalitions_ok C d /\ forest_ok d forest /\ data <> [] /\ active_null_cover S N forest /\ In j S /\
  (exists ts, forallb (fun t => wf_tree t d) ts = true /\ forest_leaves ts = Some forest) /\
  shap_values_acv C d S N data forest x j = None.
Proof.
  exists [[]], 3, [0; 2], [1], [row 0 0 0], ex_forest, ex_x, 0.
  split; [split; [constructor|]; split; [contradiction|reflexivity]|].
  split; [exact ex_forest_ok|]. split; [discriminate|]. split; [exact ex_cover|].
  split; [now left|]. split; [exists ex_trees; vm_compute; auto|]. vm_compute. reflexivity.
Qed.
Print Assumptions C13_always_numbers_refuted.
(** The part that holds: a number whenever every leaf holds a background row. *)
Theorem C13_numbers_partial : forall C d S N data forest x j g,
  coalitions_ok C d -> NoDup S -> forest_ok d forest ->
  In j S \/ In g C /\ In j g /\ (exists i, In i S /\ In i g) ->
  (forall ls lf, In ls forest -> In lf ls -> exists z, In z data /\ Inside d (l_rect lf) z) ->
  data <> [] -> exists q, shap_values_acv C d S N data forest x j = Some q.
Proof. exact acv_defined. Qed.
Print Assumptions C13_numbers_partial.
Example C13_example :
  forallb (fun ls => forallb (fun lf => existsb (in_rect 3 (l_rect lf)) ex_data) ls) ex_forest = true /\
  option_map Qred (shap_values_acv [[]] 3 [0; 2] [1] ex_data ex_forest ex_x 2) = Some (-7)%Q.
Proof. vm_compute. auto. Qed.

(** C125: the Shapley values of an [ACVTree], from its trees, by the array programs of the compiled routines.
    [listed] lists a set in whatever order, [sig] is the logistic function; any functions. *)
From Verif Require Import Base TreeModel TreeSpec GameSpec ShapModel ShapSpec ShapProofs FlatModel FlatSpec SkModel SkSpec SdpSpec ArrModel EntryModel EntrySpec
  SbufModel SbufSpec SbufProofs2 PropertiesEntry.
Local Open Scope nat_scope.

(** *** Small ensembles *)
Definition ex_listed (l : list nat) : list nat := rev (nodup Nat.eq_dec l).
Lemma ex_listed_ok : lists_set ex_listed.
Proof.
  intro l. unfold ex_listed. split; [apply NoDup_rev, NoDup_nodup|]. intro s. rewrite <- in_rev. apply nodup_In.
Qed.
Definition ex_wide : list (list Q) := [[1; 2; 7]; [0; 1; 8]]%Q.
(** the leaves of every tree from the last to the first *)
Definition ex_order (ts : list mtree) (b : nat) : list nat := rev (seq 0 (leaf_count (nth b ts no_tree))).
Lemma ex_order_ok ts : leaf_orders ts (ex_order ts).
Proof. intros b m Hb. unfold ex_order. rewrite (nth_error_nth _ _ no_tree Hb). apply Permutation_sym, Permutation_rev. Qed.
Definition on_shap (ts : list mtree) (data : marg) {A} (f : shap_acv -> outcome A) : outcome A :=
  match construct_shap ex_listed ex_sig ts 1 false data with Some h => f h | None => Stray end.
Notation reduced := (plainly (map (map Qred))).
Lemma no_groups d : coalitions_ok [[]] d.
Proof. split; [constructor|]. split; [contradiction|reflexivity]. Qed.
Lemma ex_explained : explained ex_ts 1 2 2 2 (M_list 2 ex_zs) ex_zs (M_frame 3 ex_wide) ex_wide 3 [[]] [[0]; [1]; [2]].
Proof.
  split; [exact ex_ok|]. split; [right; now left|]. split; [now left|]. split; [discriminate|]. split; [lia|].
  split; [apply no_groups|]. split; [discriminate|]. exact (va_ids_players [[]] 3 (no_groups 3)).
Qed.
Lemma ex_t2_leaf : is_leaf_of (last ex_ts no_tree) 1 /\ features_above (last ex_ts no_tree) 1 [1].
Proof.
  split; [split; [cbn; lia|reflexivity]|]. apply (node_set_above ex_listed ex_listed_ok 2 2 ex_t2 1); [apply ex_ok; right; now left|].
  cbn. tauto.
Qed.
Lemma ex_room : room ex_ts [[0]; [1]; [2]].
Proof.
  intros m i ps Hm Hi [Hn Hps]. exists 1, [1]. destruct ex_t2_leaf as [H1 H2]. split; [exact H1|]. split; [exact H2|]. cbn.
  assert (Hlt : forall s, above (as_tree m 0) s i -> s < 2).
  { intros s Hs. apply (TreeProofs.above_lt (as_tree m 0) 2) with (i := i); [|exact Hs].
    exact (proj1 (proj1 (proj2 ex_ok) m Hm)). }
  change 2 with (length [[0]; [1]]). apply NoDup_incl_length; [exact Hn|]. intros g Hg. apply Hps in Hg.
  destruct Hg as [Hg (s & Hs & Ha)]. apply Hlt in Ha. cbn in Hg. destruct Hg as [<-|[<-|[<-|[]]]]; [now left|right; now left|].
  destruct Hs as [<-|[]]. lia.
Qed.

(** ** C125 *)

(** The constructor accepts every well-formed ensemble with a background that has rows and columns. *)
Theorem C125_built : forall listed sig ts stacked boosted d w k data zs, lists_set listed -> ensemble_ok ts stacked d w k ->
  is_table data d zs -> zs <> [] -> 0 < d -> exists h, construct_shap listed sig ts stacked boosted data = Some h.
Proof. exact construct_shap_some. Qed.
Print Assumptions C125_built.
(** Without rows it raises. *)
Theorem C125_no_background : forall listed sig ts stacked boosted d data, is_table data d [] ->
  construct_shap listed sig ts stacked boosted data = None.
Proof. exact construct_shap_empty. Qed.
Print Assumptions C125_no_background.
Example C125_built_example : option_map (fun h => (h_max h, h_nid h 0 1, h_nid h 1 0)) (construct_shap ex_listed ex_sig ex_ts 1 false (M_list 2 ex_zs)) = Some (1, [0; 1], [1]).
Proof. reflexivity. Qed.
Example C125_no_background_example : is_table (M_frame 2 []) 2 [].
Proof. now left. Qed.

(** [shap_values_nopa] returns, for every row, column and output, the Shapley value of the player of the column in the game whose
    worth is the plug-in conditional expectation over the background. *)
Theorem C125_sequential : forall listed sig ts stacked boosted d w k data zs h X xs m C P, lists_set listed ->
  explained ts stacked d w k data zs X xs m C P -> construct_shap listed sig ts stacked boosted data = Some h ->
  cube_entries (acv_shap_nopa h X C) xs m k (fun x f => forall j, j < k ->
    exists forest, forest_leaves (shared (raw_share stacked) ts j) = Some forest /\
    forall g c, In g P -> In c g -> (f c j == shapley gdec P (worth d (map point zs) forest (point x)) g)%Q).
Proof.
  exact (fun listed sig ts stacked boosted d w k data zs h X xs m C P HL HE Hh =>
    proj2 (shapley_entries listed sig ts stacked boosted d w k data zs h X xs m C P HL HE Hh (fun _ => []))).
Qed.
Print Assumptions C125_sequential.
Example C125_sequential_example : explained ex_ts 1 2 2 2 (M_list 2 ex_zs) ex_zs (M_frame 3 ex_wide) ex_wide 3 [[]] [[0]; [1]; [2]] /\
  reduced (on_shap ex_ts (M_list 2 ex_zs) (fun h => acv_shap_nopa h (M_frame 3 ex_wide) [[]]))
    = Returned [[[-11#30; 1#6]; [-1#3; 8#15]; [0; 0]]; [[39#80; -7#16]; [-3#16; 11#80]; [0; 0]]]%Q.
Proof. split; [exact ex_explained|]. vm_compute. reflexivity. Qed.

(** The parallel [shap_values] returns the same, whatever the order of the leaves, provided the work buffers, sized for the
    last tree only, have room for the players of every leaf.  Missing: without that proviso it is false, see below. *)
Theorem C125_parallel_partial : forall listed sig ts stacked boosted d w k data zs h X xs m C P, lists_set listed ->
  explained ts stacked d w k data zs X xs m C P -> construct_shap listed sig ts stacked boosted data = Some h ->
  forall order, room ts P -> leaf_orders ts order ->
  cube_entries (acv_shap h order X C) xs m k (fun x f => forall j, j < k ->
    exists forest, forest_leaves (shared (raw_share stacked) ts j) = Some forest /\
    forall g c, In g P -> In c g -> (f c j == shapley gdec P (worth d (map point zs) forest (point x)) g)%Q).
Proof.
  exact (fun listed sig ts stacked boosted d w k data zs h X xs m C P HL HE Hh order =>
    proj1 (shapley_entries listed sig ts stacked boosted d w k data zs h X xs m C P HL HE Hh order)).
Qed.
Print Assumptions C125_parallel_partial.
Theorem C125_same_partial : forall listed sig ts stacked boosted d w k data zs h X xs m C P, lists_set listed ->
  explained ts stacked d w k data zs X xs m C P -> construct_shap listed sig ts stacked boosted data = Some h ->
  forall order, room ts P -> leaf_orders ts order -> same_cube (acv_shap h order X C) (acv_shap_nopa h X C).
Proof. exact same_entries. Qed.
Print Assumptions C125_same_partial.
Example C125_parallel_example : explained ex_ts 1 2 2 2 (M_list 2 ex_zs) ex_zs (M_frame 3 ex_wide) ex_wide 3 [[]] [[0]; [1]; [2]] /\
  room ex_ts [[0]; [1]; [2]] /\ leaf_orders ex_ts (ex_order ex_ts) /\
  reduced (on_shap ex_ts (M_list 2 ex_zs) (fun h => acv_shap h (ex_order ex_ts) (M_frame 3 ex_wide) [[]]))
    = Returned [[[-11#30; 1#6]; [-1#3; 8#15]; [0; 0]]; [[39#80; -7#16]; [-3#16; 11#80]; [0; 0]]]%Q.
Proof. split; [exact ex_explained|]. split; [exact ex_room|]. split; [apply ex_order_ok|]. vm_compute. reflexivity. Qed.

(** Where some leaf has more players than one plus the features above every leaf of the last tree, the parallel routine
    goes outside its buffers. *)
Theorem C125_stray : forall listed sig ts stacked boosted d w k data zs h X xs m C P, lists_set listed ->
  explained ts stacked d w k data zs X xs m C P -> construct_shap listed sig ts stacked boosted data = Some h ->
  forall order, no_room ts P -> leaf_orders ts order -> acv_shap h order X C = Stray.
Proof. exact stray_entries. Qed.
Print Assumptions C125_stray.
(** a tree with three features above its last leaves, and a stump *)
Definition ex_deep3 : mtree := mkM [1; -1; 3; -1; 5; -1; -1]%Z [2; -1; 4; -1; 6; -1; -1]%Z [1; -1; 3; -1; 5; -1; -1]%Z [0; -2; 1; -2; 2; -2; -2]%Z
  [1#2; -2; 1#2; -2; 1#2; -2; -2]%Q [[0]; [1]; [0]; [2]; [0]; [3]; [4]]%Q.
Definition ex_stump1 : mtree := mkM [1; -1; -1]%Z [2; -1; -1]%Z [1; -1; -1]%Z [1; -2; -2]%Z [1#2; -2; -2]%Q [[0]; [1]; [5]]%Q.
Definition ex_uneven := [ex_deep3; ex_stump1].
Definition ex_zs3 : list (list Q) := [[0; 0; 0]; [1; 0; 0]; [1; 1; 0]; [1; 1; 1]]%Q.
Lemma ex_uneven_ok : ensemble_ok ex_uneven 1 3 1 1.
Proof.
  split; [discriminate|]. split; [|reflexivity]. intros m [<-|[<-|[]]]; (split; [reflexivity|]); intros r Hr; cbn in Hr;
    repeat (destruct Hr as [<-|Hr]; [reflexivity|]); contradiction.
Qed.
Lemma ex_uneven_explained : explained ex_uneven 1 3 1 1 (M_list 3 ex_zs3) ex_zs3 (M_list 3 ex_zs3) ex_zs3 3 [[]] [[0]; [1]; [2]].
Proof.
  split; [exact ex_uneven_ok|]. split; [right; now left|]. split; [right; now left|]. split; [discriminate|]. split; [lia|].
  split; [apply no_groups|]. split; [discriminate|]. exact (va_ids_players [[]] 3 (no_groups 3)).
Qed.
Lemma ex_uneven_no_room : no_room ex_uneven [[0]; [1]; [2]].
Proof.
  exists ex_deep3, 6, [[2]; [1]; [0]]. split; [now left|]. split; [split; [cbn; lia|reflexivity]|].
  assert (Hw : well_formed 3 1 ex_deep3) by (apply ex_uneven_ok; now left).
  assert (Hw' : well_formed 3 1 ex_stump1) by (apply ex_uneven_ok; right; now left).
  assert (F : features_above ex_deep3 6 [2; 1; 0]).
  { change [2; 1; 0] with (rev [0; 1; 2]). exact (node_set_above (fun l => nodup Nat.eq_dec l) (fun l => conj (NoDup_nodup _ l) (nodup_In _ l)) 3 1 ex_deep3 6 Hw ltac:(cbn; tauto)). }
  split.
  - destruct F as [_ F]. split; [repeat constructor; cbn; intuition congruence|]. intro g. split.
    + intros [<-|[<-|[<-|[]]]]; (split; [cbn; auto|]); [exists 2|exists 1|exists 0]; (split; [now left|apply F; cbn; auto]).
    + cbn. intuition.
  - intros i' l Hi Hl. cbn in Hl. apply (leaf_list_in 3 1 ex_stump1 i' Hw') in Hi.
    rewrite (features_length _ _ _ _ Hl (node_set_above ex_listed ex_listed_ok 3 1 ex_stump1 i' Hw' Hi)).
    cbn in Hi. destruct Hi as [<-|[<-|[]]]; vm_compute; lia.
Qed.
(** C125, refuted: a well-formed ensemble for which the parallel method goes astray while the sequential one returns. *)
Theorem C125_parallel_refuted : exists ts data zs X xs P h, explained ts 1 3 1 1 data zs X xs 3 [[]] P /\
  construct_shap ex_listed ex_sig ts 1 false data = Some h /\
  (forall order, leaf_orders ts order -> acv_shap h order X [[]] = Stray) /\ exists res, acv_shap_nopa h X [[]] = Returned res.
Proof.
  destruct (construct_shap_some ex_listed ex_sig ex_uneven 1 false 3 1 1 (M_list 3 ex_zs3) ex_zs3 ex_listed_ok ex_uneven_ok) as [h Eh];
    [right; now left|discriminate|lia|].
  exists ex_uneven, (M_list 3 ex_zs3), ex_zs3, (M_list 3 ex_zs3), ex_zs3, [[0]; [1]; [2]], h.
  split; [exact ex_uneven_explained|]. split; [exact Eh|]. split.
  - intros order Ho. exact (stray_entries ex_listed ex_sig ex_uneven 1 false 3 1 1 _ _ h _ _ _ _ _ ex_listed_ok ex_uneven_explained Eh order ex_uneven_no_room Ho).
  - destruct (C125_sequential ex_listed ex_sig ex_uneven 1 false 3 1 1 _ _ h _ _ _ _ _ ex_listed_ok ex_uneven_explained Eh) as (res & E & _).
    exists res. exact E.
Qed.
Print Assumptions C125_parallel_refuted.
Example C125_stray_example : explained ex_uneven 1 3 1 1 (M_list 3 ex_zs3) ex_zs3 (M_list 3 ex_zs3) ex_zs3 3 [[]] [[0]; [1]; [2]] /\
  no_room ex_uneven [[0]; [1]; [2]] /\
  on_shap ex_uneven (M_list 3 ex_zs3) (fun h => acv_shap h (ex_order ex_uneven) (M_list 3 ex_zs3) [[]]) = Stray /\
  reduced (on_shap ex_uneven (M_list 3 ex_zs3) (fun h => acv_shap_nopa h (M_list 3 [[1; 1; 1]]%Q) [[]])) = Returned [[[1#36]; [79#36]; [23#18]]]%Q.
Proof. split; [exact ex_uneven_explained|]. split; [exact ex_uneven_no_room|]. vm_compute. auto. Qed.

(** For an observation that shares its leaf with a background row in every tree, the values of the players add up to its
    output minus the mean output of the background. *)
Theorem C125_adds_up : forall listed sig ts stacked boosted d w k data zs h X xs m C P, lists_set listed ->
  explained ts stacked d w k data zs X xs m C P -> construct_shap listed sig ts stacked boosted data = Some h ->
  forall order rep, (forall g, In g P -> In (rep g) g) ->
  let accounts (x : list Q) (f : nat -> nat -> Q) := (forall t, In t ts -> exists z, In z zs /\ same_leaf t x z) ->
    forall j v vs, j < k -> adds_up (raw_share stacked) ts j x v -> Forall2 (adds_up (raw_share stacked) ts j) zs vs ->
    (sumf (fun g => f (rep g) j) P == v - mean (fun v => v) vs)%Q in
  (room ts P -> leaf_orders ts order -> cube_entries (acv_shap h order X C) xs m k accounts) /\
  cube_entries (acv_shap_nopa h X C) xs m k accounts.
Proof. exact account_entries. Qed.
Print Assumptions C125_adds_up.
(** A player none of whose columns is split on above a leaf gets nothing. *)
Theorem C125_unused : forall listed sig ts stacked boosted d w k data zs h X xs m C P, lists_set listed ->
  explained ts stacked d w k data zs X xs m C P -> construct_shap listed sig ts stacked boosted data = Some h ->
  forall order, let nothing (x : list Q) (f : nat -> nat -> Q) := forall g c j, In g P -> In c g -> j < k -> unused ts g -> (f c j == 0)%Q in
  (room ts P -> leaf_orders ts order -> cube_entries (acv_shap h order X C) xs m k nothing) /\
  cube_entries (acv_shap_nopa h X C) xs m k nothing.
Proof. exact unused_entries. Qed.
Print Assumptions C125_unused.
(** the first row of [ex_wide] shares its leaves with the last background row; its outputs are 1/2 and 3/2, the means 6/5 and 4/5 *)
Example C125_adds_up_example : (forall t, In t ex_ts -> exists z, In z ex_zs /\ same_leaf t [1; 2; 7]%Q z) /\
  Qred ((-11#30) + (-1#3) + 0)%Q = Qred ((1#2) - (6#5))%Q /\ Qred ((1#6) + (8#15) + 0)%Q = Qred ((3#2) - (4#5))%Q.
Proof.
  split; [|vm_compute; auto]. intros t Ht. exists [1; 2]%Q. split; [cbn; tauto|].
  destruct Ht as [<-|[<-|[]]].
  - exists 4. split; (split; [|reflexivity]); (apply vis_step with (i := 2); [|reflexivity|apply dec_right; [reflexivity|vm_compute; reflexivity]]);
      (apply vis_step with (i := 0); [constructor|reflexivity|apply dec_right; [reflexivity|vm_compute; reflexivity]]).
  - exists 2. split; (split; [|reflexivity]);
      (apply vis_step with (i := 0); [constructor|reflexivity|apply dec_right; [reflexivity|vm_compute; reflexivity]]).
Qed.
Example C125_unused_example : unused ex_ts [2].
Proof.
  intros t i s Ht _ [<-|[]] Ha. apply (TreeProofs.above_lt (as_tree t 0) 2) in Ha; [lia|]. exact (proj1 (proj1 (proj2 ex_ok) t Ht)).
Qed.

(** Scikit-learn forests and trees, classifiers (shares of the leaf counts) and regressors: the values of the players add up to the
    prediction minus the mean prediction of the background. *)
Theorem C125_forest : forall listed apl sig reg mo es l d w data zs X xs m C P rep, lists_set listed ->
  is_forest reg mo es -> es <> [] -> (forall e, In e es -> sk_ok d w e) -> (reg = false -> forall e, In e es -> SkSpec.counts e) ->
  load_model apl mo = Some l -> is_table data d zs -> zs <> [] -> 0 < d -> is_table X m xs -> xs <> [] -> d <= m ->
  coalitions_ok C d -> C <> [] -> is_players C m P -> (forall g, In g P -> In (rep g) g) ->
  exists h, construct_shap_sk listed apl sig mo data = Some h /\ forall order,
  let gives j z q := exists ls, all_land es (point z) no_missing ls /\ (q == over (SkSpec.value_at (negb reg) j) es ls / Qn (length es))%Q in
  let accounts (x : list Q) (f : nat -> nat -> Q) :=
    (forall e, In e es -> exists z n, In z zs /\ lands (splits e) (point x) no_missing n /\ lands (splits e) (point z) no_missing n) ->
    forall j v vs, j < w -> gives j x v -> Forall2 (gives j) zs vs ->
    (sumf (fun g => f (rep g) j) P == v - mean (fun v => v) vs)%Q in
  (room (l_trees l) P -> leaf_orders (l_trees l) order -> cube_entries (acv_shap h order X C) xs m w accounts) /\
  cube_entries (acv_shap_nopa h X C) xs m w accounts.
Proof. exact forest_accounts. Qed.
Print Assumptions C125_forest.
Example C125_forest_example : is_forest false (ForestClf ex_es) ex_es /\ coalitions_ok [[0; 1]] 2 /\
  is_players [[0; 1]] 2 (va_ids [[0; 1]] 2) /\
  reduced (match construct_shap_sk ex_listed (fun _ => 0%Q) ex_sig (ForestClf ex_es) (M_list 2 ex_zs) with
           | Some h => acv_shap_nopa h (M_list 2 ex_xs) [[0; 1]] | None => Stray end)
    = Returned [[[-3#10; 3#10]; [-3#10; 3#10]]; [[3#40; -3#40]; [3#40; -3#40]]; [[3#40; -3#40]; [3#40; -3#40]]]%Q.
Proof.
  split; [now left|]. assert (H : coalitions_ok [[0; 1]] 2).
  { split; [cbn; repeat constructor; cbn; intuition congruence|]. split; [cbn; intuition lia|exact I]. }
  split; [exact H|]. split; [exact (va_ids_players _ _ H)|]. vm_compute. reflexivity.
Qed.

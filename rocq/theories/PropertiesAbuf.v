(** C126: the active Shapley values of an [ACVTree], from its trees, by the array programs of the compiled routines.
    [listed] lists a set in whatever order, [sig] is the logistic function; any functions.  None is the non-number. *)
From Verif Require Import Base TreeModel TreeSpec GameSpec ShapModel ShapSpec AcvModel AcvSpec AcvProofs FlatModel FlatSpec SkModel SkSpec SdpSpec ArrModel EntryModel EntrySpec
  SbufModel SbufSpec SbufProofs2 AbufModel AbufSpec AbufProofs4 PropertiesEntry PropertiesSbuf.
Local Open Scope nat_scope.

(** *** The small ensemble of [PropertiesEntry], column 0 active and column 1 null; column 2 is active and not used *)
Notation nreduced := (plainly (map (map (option_map Qred)))).
Lemma ex_above_lt t s i : In t ex_ts -> above (as_tree t 0) s i -> s < 2.
Proof. intros Ht Ha. apply (TreeProofs.above_lt (as_tree t 0) 2) in Ha; [exact Ha|]. exact (proj1 (proj1 (proj2 ex_ok) t Ht)). Qed.
Lemma ex_active : activated ex_ts 1 2 2 2 (M_list 2 ex_zs) ex_zs (M_frame 3 ex_wide) ex_wide 3 [[]] [0; 2] [1] [[0]; [2]].
Proof.
  split; [exact ex_ok|]. split; [right; now left|]. split; [now left|]. split; [discriminate|]. split; [lia|].
  split; [apply no_groups|]. split; [discriminate|].
  split; [exact (acv_va_ids_players [[]] 2 [0; 2] (no_groups 2) ltac:(repeat constructor; cbn; intuition congruence))|].
  split; [repeat constructor; cbn; intuition congruence|]. split; [cbn; intros s; lia|]. split; [repeat constructor; cbn; intuition congruence|].
  split; [cbn; intros s; lia|]. split; [intros g s [<-|[<-|[]]] [<-|[]] [K|[]]; discriminate|].
  intros t i s Ht _ Ha. apply (ex_above_lt t s i Ht) in Ha. destruct s as [|[|s]]; [left; now left|right; now left|lia].
Qed.
(** the same with the two columns of the model *)
Lemma ex_active2 zs : zs <> [] -> activated ex_ts 1 2 2 2 (M_list 2 zs) zs (M_list 2 ex_xs) ex_xs 2 [[]] [0] [1] [[0]].
Proof.
  intro Hz. split; [exact ex_ok|]. split; [right; now left|]. split; [right; now left|]. split; [discriminate|]. split; [lia|].
  split; [apply no_groups|]. split; [discriminate|].
  split; [exact (acv_va_ids_players [[]] 2 [0] (no_groups 2) ltac:(repeat constructor; cbn; intuition congruence))|].
  split; [repeat constructor; cbn; intuition congruence|]. split; [cbn; intros s; lia|]. split; [repeat constructor; cbn; intuition congruence|].
  split; [cbn; intros s; lia|]. split; [intros g s [<-|[]] [<-|[]] [K|[]]; discriminate|].
  intros t i s Ht _ Ha. apply (ex_above_lt t s i Ht) in Ha. destruct s as [|[|s]]; [left; now left|right; now left|lia].
Qed.
Lemma ex_active_room P : incl P [[0]; [2]] -> room ex_ts P.
Proof.
  intros HP m i ps Hm Hi [Hn Hps]. exists 1, [1]. destruct ex_t2_leaf as [H1 H2]. split; [exact H1|]. split; [exact H2|]. cbn.
  transitivity (length [[0]]); [|cbn; lia]. apply NoDup_incl_length; [exact Hn|]. intros g Hg. apply Hps in Hg.
  destruct Hg as [Hg (s & Hs & Ha)]. apply (ex_above_lt m s i Hm) in Ha. apply HP in Hg. destruct Hg as [<-|[<-|[]]]; [now left|].
  destruct Hs as [<-|[]]. lia.
Qed.
Lemma ex_made : exists h, construct_shap ex_listed ex_sig ex_ts 1 false (M_list 2 ex_zs) = Some h.
Proof. apply (construct_shap_some ex_listed ex_sig ex_ts 1 false 2 2 2 (M_list 2 ex_zs) ex_zs ex_listed_ok ex_ok); [right; now left|discriminate|lia]. Qed.
Lemma on_it {B} ts data f (r : outcome (list (list (list (option Q)))) -> B) h b :
  construct_shap ex_listed ex_sig ts 1 false data = Some h -> r (on_shap ts data f) = b -> r (f h) = b.
Proof. intros Eh E. unfold on_shap in E. rewrite Eh in E. exact E. Qed.
Lemma ex_filled : filled ex_ts ex_zs.
Proof.
  assert (L : forall t x, TreeSpec.visits t x no_missing 0) by constructor.
  intros t i Ht [Hi Hl]. destruct Ht as [<-|[<-|[]]]; cbn [ex_t1 ex_t2 m_cl length] in Hi.
  - destruct i as [|[|[|[|[|i]]]]]; try lia; try discriminate Hl.
    + exists [0; 0]%Q. split; [cbn; tauto|]. split; [|reflexivity]. apply vis_step with (i := 0); [apply L|reflexivity|apply dec_left; [reflexivity|vm_compute; discriminate]].
    + exists [1; 0]%Q. split; [cbn; tauto|]. split; [|reflexivity].
      apply vis_step with (i := 2); [|reflexivity|apply dec_left; [reflexivity|vm_compute; discriminate]].
      apply vis_step with (i := 0); [apply L|reflexivity|apply dec_right; [reflexivity|vm_compute; reflexivity]].
    + exists [1; 2]%Q. split; [cbn; tauto|]. split; [|reflexivity].
      apply vis_step with (i := 2); [|reflexivity|apply dec_right; [reflexivity|vm_compute; reflexivity]].
      apply vis_step with (i := 0); [apply L|reflexivity|apply dec_right; [reflexivity|vm_compute; reflexivity]].
  - destruct i as [|[|[|i]]]; try lia; try discriminate Hl.
    + exists [0; 0]%Q. split; [cbn; tauto|]. split; [|reflexivity]. apply vis_step with (i := 0); [apply L|reflexivity|apply dec_left; [reflexivity|vm_compute; discriminate]].
    + exists [0; 1]%Q. split; [cbn; tauto|]. split; [|reflexivity]. apply vis_step with (i := 0); [apply L|reflexivity|apply dec_right; [reflexivity|vm_compute; reflexivity]].
Qed.

(** ** C126 *)

(** [shap_values_acv_nopa] returns, for every row, column of a player and output, the Shapley value of the player in the restricted
    game: nobody is worth the mean over the background, any other set the plug-in conditional expectation given its
    columns and all null columns.  The entry is a number exactly where the leaves that depend on the player hold a background row
    and the other leaves have one within their bounds on the null columns. *)
Theorem C126_sequential : forall listed sig ts stacked boosted d w k data zs h X xs m C A N P, lists_set listed ->
  activated ts stacked d w k data zs X xs m C A N P -> construct_shap listed sig ts stacked boosted data = Some h ->
  ncube_entries (acv_active_nopa h X (S_array I64 A) (S_array I64 N) C) xs m k (fun x f => forall j, j < k ->
    exists forest, forest_leaves (shared (raw_share stacked) ts j) = Some forest /\
    forall g c, In g P -> In c g -> True ->
      (countable d N (map point zs) forest g -> exists q, f c j = Some q /\ (q == shapley gdec P (worth_acv d N (map point zs) forest (point x)) g)%Q) /\
      (~ countable d N (map point zs) forest g -> f c j = None)).
Proof. exact active_sequential. Qed.
Print Assumptions C126_sequential.
Example C126_sequential_example : activated ex_ts 1 2 2 2 (M_list 2 ex_zs) ex_zs (M_frame 3 ex_wide) ex_wide 3 [[]] [0; 2] [1] [[0]; [2]] /\
  nreduced (on_shap ex_ts (M_list 2 ex_zs) (fun h => acv_active_nopa h (M_frame 3 ex_wide) (S_array I64 [0; 2]) (S_array I64 [1]) [[]]))
    = Returned [[[Some (-11#20); Some (7#20)]; [Some 0; Some 0]; [Some (-3#20); Some (7#20)]];
                [[Some (31#80); Some (-27#80)]; [Some 0; Some 0]; [Some (-7#80); Some (3#80)]]]%Q.
Proof. split; [exact ex_active|]. vm_compute. reflexivity. Qed.
(** one leaf without a background row: the player of its split gets no number, the other one does *)
Example C126_nan_example :
  nreduced (on_shap ex_ts (M_list 2 [[0; 0]; [0; 1]; [1; 2]]%Q) (fun h => acv_active_nopa h (M_frame 3 [[1; 2; 7]]%Q) (S_array I64 [0; 2]) (S_array I64 [1]) [[]]))
    = Returned [[[None; None]; [Some 0; Some 0]; [Some (-1#12); Some (5#12)]]]%Q.
Proof. vm_compute. reflexivity. Qed.

(** The parallel [shap_values_acv] returns the same in the columns of the model, whatever the order of the leaves, provided the
    work buffers, sized for the last tree only, have room for the players of every leaf.  Missing: without that proviso, and for
    active columns beyond those of the background, it is false, see below. *)
Theorem C126_parallel_partial : forall listed sig ts stacked boosted d w k data zs h X xs m C A N P, lists_set listed ->
  activated ts stacked d w k data zs X xs m C A N P -> construct_shap listed sig ts stacked boosted data = Some h ->
  forall order, room ts P -> leaf_orders ts order ->
  ncube_entries (acv_active h order X (S_array I64 A) (S_array I64 N) C) xs m k (fun x f => forall j, j < k ->
    exists forest, forest_leaves (shared (raw_share stacked) ts j) = Some forest /\
    forall g c, In g P -> In c g -> c < d ->
      (countable d N (map point zs) forest g -> exists q, f c j = Some q /\ (q == shapley gdec P (worth_acv d N (map point zs) forest (point x)) g)%Q) /\
      (~ countable d N (map point zs) forest g -> f c j = None)).
Proof. exact active_parallel. Qed.
Print Assumptions C126_parallel_partial.
(** For observations with the columns of the background the two methods return the same array. *)
Theorem C126_same_partial : forall listed sig ts stacked boosted d w k data zs h X xs m C A N P, lists_set listed ->
  activated ts stacked d w k data zs X xs m C A N P -> construct_shap listed sig ts stacked boosted data = Some h ->
  forall order, m = d -> room ts P -> leaf_orders ts order ->
  exists res res', acv_active h order X (S_array I64 A) (S_array I64 N) C = Returned res /\ acv_active_nopa h X (S_array I64 A) (S_array I64 N) C = Returned res' /\
    Forall2 (Forall2 (Forall2 same_number)) res res'.
Proof. exact active_same. Qed.
Print Assumptions C126_same_partial.
Example C126_parallel_example : activated ex_ts 1 2 2 2 (M_list 2 ex_zs) ex_zs (M_list 2 ex_xs) ex_xs 2 [[]] [0] [1] [[0]] /\
  room ex_ts [[0]] /\ leaf_orders ex_ts (ex_order ex_ts) /\
  nreduced (on_shap ex_ts (M_list 2 ex_zs) (fun h => acv_active h (ex_order ex_ts) (M_list 2 ex_xs) (S_array I64 [0]) (S_array I64 [1]) [[]]))
    = Returned [[[Some (-7#10); Some (7#10)]; [Some 0; Some 0]]; [[Some (3#10); Some (-3#10)]; [Some 0; Some 0]];
                [[Some (1#20); Some (-1#20)]; [Some 0; Some 0]]]%Q.
Proof.
  split; [apply ex_active2; discriminate|]. split; [apply ex_active_room; intros g [<-|[]]; now left|]. split; [apply ex_order_ok|]. vm_compute. reflexivity.
Qed.

(** Where some leaf has more players than one plus the features above every leaf of the last tree, the parallel routine
    goes outside its buffers. *)
Theorem C126_stray : forall listed sig ts stacked boosted d w k data zs h X xs m C A N P, lists_set listed ->
  activated ts stacked d w k data zs X xs m C A N P -> construct_shap listed sig ts stacked boosted data = Some h ->
  forall order, no_room ts P -> leaf_orders ts order -> acv_active h order X (S_array I64 A) (S_array I64 N) C = Stray.
Proof. exact active_stray. Qed.
Print Assumptions C126_stray.
Lemma ex_uneven_active : activated ex_uneven 1 3 1 1 (M_list 3 ex_zs3) ex_zs3 (M_list 3 ex_zs3) ex_zs3 3 [[]] [0; 1; 2] [] [[0]; [1]; [2]].
Proof.
  split; [exact ex_uneven_ok|]. split; [right; now left|]. split; [right; now left|]. split; [discriminate|]. split; [lia|].
  split; [apply no_groups|]. split; [discriminate|].
  split; [exact (acv_va_ids_players [[]] 3 [0; 1; 2] (no_groups 3) ltac:(repeat constructor; cbn; intuition congruence))|].
  split; [repeat constructor; cbn; intuition congruence|]. split; [cbn; intros s; lia|]. split; [constructor|].
  split; [contradiction|]. split; [intros g s _ _ []|].
  intros t i s Ht _ Ha. apply (TreeProofs.above_lt (as_tree t 0) 3) in Ha; [|exact (proj1 (proj1 (proj2 ex_uneven_ok) t Ht))].
  left. destruct s as [|[|[|s]]]; cbn; auto. lia.
Qed.
(** C126, refuted: all columns active, a deeper tree before the last one. *)
Theorem C126_parallel_refuted : exists ts data zs X xs P h, activated ts 1 3 1 1 data zs X xs 3 [[]] [0; 1; 2] [] P /\
  construct_shap ex_listed ex_sig ts 1 false data = Some h /\
  (forall order, leaf_orders ts order -> acv_active h order X (S_array I64 [0; 1; 2]) (S_array I64 []) [[]] = Stray) /\
  exists res, acv_active_nopa h X (S_array I64 [0; 1; 2]) (S_array I64 []) [[]] = Returned res.
Proof.
  destruct (construct_shap_some ex_listed ex_sig ex_uneven 1 false 3 1 1 (M_list 3 ex_zs3) ex_zs3 ex_listed_ok ex_uneven_ok) as [h Eh];
    [right; now left|discriminate|lia|].
  exists ex_uneven, (M_list 3 ex_zs3), ex_zs3, (M_list 3 ex_zs3), ex_zs3, [[0]; [1]; [2]], h.
  split; [exact ex_uneven_active|]. split; [exact Eh|]. split.
  - intros order Ho. exact (active_stray ex_listed ex_sig ex_uneven 1 false 3 1 1 _ _ h _ _ _ _ _ _ _ ex_listed_ok ex_uneven_active Eh order ex_uneven_no_room Ho).
  - destruct (C126_sequential ex_listed ex_sig ex_uneven 1 false 3 1 1 _ _ h _ _ _ _ _ _ _ ex_listed_ok ex_uneven_active Eh) as (res & E & _).
    exists res. exact E.
Qed.
Print Assumptions C126_parallel_refuted.
Example C126_stray_example : activated ex_uneven 1 3 1 1 (M_list 3 ex_zs3) ex_zs3 (M_list 3 ex_zs3) ex_zs3 3 [[]] [0; 1; 2] [] [[0]; [1]; [2]] /\
  no_room ex_uneven [[0]; [1]; [2]] /\
  on_shap ex_uneven (M_list 3 ex_zs3) (fun h => acv_active h (ex_order ex_uneven) (M_list 3 ex_zs3) (S_array I64 [0; 1; 2]) (S_array I64 []) [[]]) = Stray.
Proof. split; [exact ex_uneven_active|]. split; [exact ex_uneven_no_room|]. vm_compute. reflexivity. Qed.

(** Columns beyond those of the background get 0 from the parallel method, active or not. *)
Theorem C126_beyond : forall listed sig ts stacked boosted d w k data zs h X xs m C A N P, lists_set listed ->
  activated ts stacked d w k data zs X xs m C A N P -> construct_shap listed sig ts stacked boosted data = Some h ->
  forall order, P <> [] -> room ts P -> leaf_orders ts order ->
  ncube_entries (acv_active h order X (S_array I64 A) (S_array I64 N) C) xs m k (fun _ f => forall c j, d <= c -> c < m -> j < k ->
    exists q, f c j = Some q /\ (q == 0)%Q).
Proof. exact active_beyond. Qed.
Print Assumptions C126_beyond.
(** C126, refuted: the Shapley value of such an active column is not 0, and the two methods differ. *)
Theorem C126_beyond_refuted : exists ts data zs X xs P h, activated ts 1 2 2 2 data zs X xs 3 [[]] [0; 2] [1] P /\ room ts P /\
  construct_shap ex_listed ex_sig ts 1 false data = Some h /\
  nreduced (acv_active h (ex_order ts) X (S_array I64 [0; 2]) (S_array I64 [1]) [[]])
    = Returned [[[Some (-11#20); Some (7#20)]; [Some 0; Some 0]; [Some 0; Some 0]];
                [[Some (31#80); Some (-27#80)]; [Some 0; Some 0]; [Some 0; Some 0]]]%Q /\
  nreduced (acv_active_nopa h X (S_array I64 [0; 2]) (S_array I64 [1]) [[]])
    = Returned [[[Some (-11#20); Some (7#20)]; [Some 0; Some 0]; [Some (-3#20); Some (7#20)]];
                [[Some (31#80); Some (-27#80)]; [Some 0; Some 0]; [Some (-7#80); Some (3#80)]]]%Q.
Proof.
  destruct ex_made as [h Eh].
  exists ex_ts, (M_list 2 ex_zs), ex_zs, (M_frame 3 ex_wide), ex_wide, [[0]; [2]], h.
  split; [exact ex_active|]. split; [apply ex_active_room, incl_refl|]. split; [exact Eh|].
  assert (E1 : nreduced (on_shap ex_ts (M_list 2 ex_zs) (fun h => acv_active h (ex_order ex_ts) (M_frame 3 ex_wide) (S_array I64 [0; 2]) (S_array I64 [1]) [[]]))
    = Returned [[[Some (-11#20); Some (7#20)]; [Some 0; Some 0]; [Some 0; Some 0]];
                [[Some (31#80); Some (-27#80)]; [Some 0; Some 0]; [Some 0; Some 0]]]%Q) by (vm_compute; reflexivity).
  split; [exact (on_it _ _ _ _ _ _ Eh E1)|].
  exact (on_it _ _ _ _ _ _ Eh (proj2 C126_sequential_example)).
Qed.
Print Assumptions C126_beyond_refuted.
Example C126_beyond_example : activated ex_ts 1 2 2 2 (M_list 2 ex_zs) ex_zs (M_frame 3 ex_wide) ex_wide 3 [[]] [0; 2] [1] [[0]; [2]] /\ room ex_ts [[0]; [2]].
Proof. split; [exact ex_active|apply ex_active_room, incl_refl]. Qed.

(** Columns of no player get 0; without an active column every entry is the non-number. *)
Theorem C126_nobody : forall listed sig ts stacked boosted d w k data zs h X xs m C A N P, lists_set listed ->
  activated ts stacked d w k data zs X xs m C A N P -> construct_shap listed sig ts stacked boosted data = Some h ->
  forall order, P <> [] -> let nothing (_ : list Q) (f : nat -> nat -> option Q) := forall c j, c < m -> j < k -> (forall g, In g P -> ~ In c g) ->
    exists q, f c j = Some q /\ (q == 0)%Q in
  (room ts P -> leaf_orders ts order -> ncube_entries (acv_active h order X (S_array I64 A) (S_array I64 N) C) xs m k nothing) /\
  ncube_entries (acv_active_nopa h X (S_array I64 A) (S_array I64 N) C) xs m k nothing.
Proof. exact active_nobody. Qed.
Print Assumptions C126_nobody.
Theorem C126_no_active : forall listed sig ts stacked boosted d w k data zs h X xs m C A N P, lists_set listed ->
  activated ts stacked d w k data zs X xs m C A N P -> construct_shap listed sig ts stacked boosted data = Some h ->
  forall order, P = [] -> let nan (_ : list Q) (f : nat -> nat -> option Q) := forall c j, c < m -> j < k -> f c j = None in
  (room ts P -> leaf_orders ts order -> ncube_entries (acv_active h order X (S_array I64 A) (S_array I64 N) C) xs m k nan) /\
  ncube_entries (acv_active_nopa h X (S_array I64 A) (S_array I64 N) C) xs m k nan.
Proof. exact none_at_all. Qed.
Print Assumptions C126_no_active.
Example C126_nobody_example : forall g, In g [[0]; [2]] -> ~ In 1 g.
Proof. intros g [<-|[<-|[]]] [H|[]]; discriminate. Qed.
Example C126_no_active_example : activated ex_ts 1 2 2 2 (M_list 2 ex_zs) ex_zs (M_frame 3 ex_wide) ex_wide 3 [[]] [] [0; 1] [] /\
  on_shap ex_ts (M_list 2 ex_zs) (fun h => acv_active h (ex_order ex_ts) (M_list 2 [[1; 2]]%Q) (S_array I64 []) (S_array I64 [0; 1]) [[]])
    = Returned [[[None; None]; [None; None]]].
Proof.
  split; [|reflexivity].
  split; [exact ex_ok|]. split; [right; now left|]. split; [now left|]. split; [discriminate|]. split; [lia|].
  split; [apply no_groups|]. split; [discriminate|].
  split; [exact (acv_va_ids_players [[]] 2 [] (no_groups 2) (NoDup_nil _))|].
  split; [constructor|]. split; [contradiction|]. split; [repeat constructor; cbn; intuition congruence|].
  split; [cbn; intros s; lia|]. split; [intros g s []|].
  intros t i s Ht _ Ha. apply (ex_above_lt t s i Ht) in Ha. right. destruct s as [|[|s]]; [now left|right; now left|lia].
Qed.

(** All players have numbers exactly when every leaf of every tree holds a background row. *)
Theorem C126_numbers : forall listed sig ts stacked boosted d w k data zs h X xs m C A N P, lists_set listed ->
  activated ts stacked d w k data zs X xs m C A N P -> construct_shap listed sig ts stacked boosted data = Some h ->
  forall order rep, (forall g, In g P -> In (rep g) g) -> P <> [] -> 0 < k ->
  let told (x : list Q) (f : nat -> nat -> option Q) := (forall g j, In g P -> j < k -> exists q, f (rep g) j = Some q) <-> filled ts zs in
  ((forall g, In g P -> rep g < d) -> room ts P -> leaf_orders ts order -> ncube_entries (acv_active h order X (S_array I64 A) (S_array I64 N) C) xs m k told) /\
  ncube_entries (acv_active_nopa h X (S_array I64 A) (S_array I64 N) C) xs m k told.
Proof. exact active_numbers. Qed.
Print Assumptions C126_numbers.
(** Then the values of the players add up to the output of the observation minus the mean output of the background. *)
Theorem C126_adds_up : forall listed sig ts stacked boosted d w k data zs h X xs m C A N P, lists_set listed ->
  activated ts stacked d w k data zs X xs m C A N P -> construct_shap listed sig ts stacked boosted data = Some h ->
  forall order rep, (forall g, In g P -> In (rep g) g) -> P <> [] -> filled ts zs ->
  let accounts (x : list Q) (f : nat -> nat -> option Q) :=
    forall j v vs, j < k -> adds_up (raw_share stacked) ts j x v -> Forall2 (adds_up (raw_share stacked) ts j) zs vs ->
    exists q, (forall g, In g P -> f (rep g) j = Some (q g)) /\ (sumf q P == v - mean (fun v => v) vs)%Q in
  ((forall g, In g P -> rep g < d) -> room ts P -> leaf_orders ts order -> ncube_entries (acv_active h order X (S_array I64 A) (S_array I64 N) C) xs m k accounts) /\
  ncube_entries (acv_active_nopa h X (S_array I64 A) (S_array I64 N) C) xs m k accounts.
Proof. exact active_adds. Qed.
Print Assumptions C126_adds_up.
Example C126_adds_up_example : activated ex_ts 1 2 2 2 (M_list 2 ex_zs) ex_zs (M_list 2 ex_xs) ex_xs 2 [[]] [0] [1] [[0]] /\ filled ex_ts ex_zs /\
  Qred ((1#2) - (6#5))%Q = (-7#10)%Q /\ Qred ((3#2) - (4#5))%Q = (7#10)%Q.
Proof. split; [apply ex_active2; discriminate|]. split; [exact ex_filled|]. split; reflexivity. Qed.

(** Scikit-learn forests and trees, classifiers and regressors: the values of the players add up to the prediction minus the mean
    prediction of the background. *)
Theorem C126_forest : forall listed apl sig reg mo es l d w data zs X xs m C A N P rep, lists_set listed ->
  is_forest reg mo es -> es <> [] -> (forall e, In e es -> sk_ok d w e) -> (reg = false -> forall e, In e es -> SkSpec.counts e) ->
  load_model apl mo = Some l -> activated (l_trees l) 1 d w w data zs X xs m C A N P -> zs <> [] -> 0 < d ->
  (forall g, In g P -> In (rep g) g) -> P <> [] -> filled (l_trees l) zs ->
  exists h, construct_shap_sk listed apl sig mo data = Some h /\ forall order,
  let gives j z q := exists ls, all_land es (point z) no_missing ls /\ (q == over (SkSpec.value_at (negb reg) j) es ls / Qn (length es))%Q in
  let accounts (x : list Q) (f : nat -> nat -> option Q) :=
    forall j v vs, j < w -> gives j x v -> Forall2 (gives j) zs vs ->
    exists q, (forall g, In g P -> f (rep g) j = Some (q g)) /\ (sumf q P == v - mean (fun v => v) vs)%Q in
  ((forall g, In g P -> rep g < d) -> room (l_trees l) P -> leaf_orders (l_trees l) order ->
     ncube_entries (acv_active h order X (S_array I64 A) (S_array I64 N) C) xs m w accounts) /\
  ncube_entries (acv_active_nopa h X (S_array I64 A) (S_array I64 N) C) xs m w accounts.
Proof. exact forest_active. Qed.
Print Assumptions C126_forest.
Example C126_forest_example : is_forest false (ForestClf ex_es) ex_es /\
  (exists l, load_model (fun _ => 0%Q) (ForestClf ex_es) = Some l /\ filled (l_trees l) ex_zs) /\
  nreduced (match construct_shap_sk ex_listed (fun _ => 0%Q) ex_sig (ForestClf ex_es) (M_list 2 ex_zs) with
           | Some h => acv_active_nopa h (M_list 2 ex_xs) (S_array I64 [0]) (S_array I64 [1]) [[]] | None => Stray end)
    = Returned [[[Some (-3#10); Some (3#10)]; [Some 0; Some 0]]; [[Some (3#40); Some (-3#40)]; [Some 0; Some 0]]; [[Some (3#40); Some (-3#40)]; [Some 0; Some 0]]]%Q.
Proof.
  split; [now left|]. split; [|vm_compute; reflexivity].
  eexists. split; [reflexivity|]. intros t i Ht [Hi Hl]. cbn [l_trees] in Ht.
  destruct Ht as [<-|[<-|[]]]; cbn in Hi; (destruct i as [|[|[|i]]]; [discriminate Hl| | |lia]).
  - exists [0; 0]%Q. split; [cbn; tauto|]. split; [|reflexivity]. apply vis_step with (i := 0); [constructor|reflexivity|apply dec_left; [reflexivity|vm_compute; discriminate]].
  - exists [1; 0]%Q. split; [cbn; tauto|]. split; [|reflexivity]. apply vis_step with (i := 0); [constructor|reflexivity|apply dec_right; [reflexivity|vm_compute; reflexivity]].
  - exists [0; 0]%Q. split; [cbn; tauto|]. split; [|reflexivity]. apply vis_step with (i := 0); [constructor|reflexivity|apply dec_left; [reflexivity|vm_compute; discriminate]].
  - exists [0; 1]%Q. split; [cbn; tauto|]. split; [|reflexivity]. apply vis_step with (i := 0); [constructor|reflexivity|apply dec_right; [reflexivity|vm_compute; reflexivity]].
Qed.

(** Lists of columns, as documented, raise a type error; only arrays of 64-bit integers pass. *)
Theorem C126_lists : forall h order X m xs A N B C, is_table X m xs -> xs <> [] -> 0 < m ->
  (acv_active h order X (S_list A) N C = Raised EType /\ acv_active_nopa h X (S_list A) N C = Raised EType) /\
  acv_active h order X (S_array I64 A) (S_list B) C = Raised EType /\ acv_active_nopa h X (S_array I64 A) (S_list B) C = Raised EType.
Proof. exact lists_raise. Qed.
Print Assumptions C126_lists.
(** C126, refuted for the arguments of the documentation *)
Theorem C126_lists_refuted : exists ts data zs X xs P h, activated ts 1 2 2 2 data zs X xs 2 [[]] [0] [1] P /\
  construct_shap ex_listed ex_sig ts 1 false data = Some h /\
  forall order, acv_active h order X (S_list [0]) (S_list [1]) [[]] = Raised EType /\ acv_active_nopa h X (S_list [0]) (S_list [1]) [[]] = Raised EType.
Proof.
  destruct ex_made as [h Eh].
  exists ex_ts, (M_list 2 ex_zs), ex_zs, (M_list 2 ex_xs), ex_xs, [[0]], h.
  split; [apply ex_active2; discriminate|]. split; [exact Eh|]. intro order.
  apply (lists_raise h order (M_list 2 ex_xs) 2 ex_xs [0] (S_list [1]) [] [[]]); [right; now left|discriminate|lia].
Qed.
Print Assumptions C126_lists_refuted.

(** A coalition with active and null columns: both routines write the null columns a second time behind the coalition and leave
    the buffer [S], which has as many cells as there are columns. *)
Definition ex_far : mtree := mkM [1; -1; 3; -1; -1]%Z [2; -1; 4; -1; -1]%Z [1; -1; 3; -1; -1]%Z [0; -2; 3; -2; -2]%Z
  [1#2; -2; 1#2; -2; -2]%Q [[0]; [1]; [0]; [2]; [3]]%Q.
Definition ex_zs4 : list (list Q) := [[0; 0; 0; 0]; [1; 0; 0; 0]; [1; 0; 0; 1]]%Q.
Lemma ex_far_ok : ensemble_ok [ex_far] 1 4 1 1.
Proof.
  split; [discriminate|]. split; [|reflexivity]. intros m [<-|[]]; (split; [reflexivity|]); intros r Hr; cbn in Hr;
    repeat (destruct Hr as [<-|Hr]; [reflexivity|]); contradiction.
Qed.
Theorem C126_overlap_refuted : exists ts data zs C A N h, ensemble_ok ts 1 4 1 1 /\ is_table data 4 zs /\ zs <> [] /\ coalitions_ok C 4 /\
  NoDup (A ++ N) /\ (forall s, In s (A ++ N) <-> s < 4) /\ construct_shap ex_listed ex_sig ts 1 false data = Some h /\
  acv_active h (ex_order ts) data (S_array I64 A) (S_array I64 N) C = Stray /\ acv_active_nopa h data (S_array I64 A) (S_array I64 N) C = Stray.
Proof.
  destruct (construct_shap_some ex_listed ex_sig [ex_far] 1 false 4 1 1 (M_list 4 ex_zs4) ex_zs4 ex_listed_ok ex_far_ok) as [h Eh];
    [right; now left|discriminate|lia|].
  exists [ex_far], (M_list 4 ex_zs4), ex_zs4, [[0; 1; 2]; [3]], [0; 3], [1; 2], h.
  split; [exact ex_far_ok|]. split; [right; now left|]. split; [discriminate|].
  split; [split; [repeat constructor; cbn; intuition congruence|]; split; [cbn; intros s; lia|exact I]|].
  split; [repeat constructor; cbn; intuition congruence|]. split; [cbn; intro s; lia|]. split; [exact Eh|].
  assert (E : on_shap [ex_far] (M_list 4 ex_zs4) (fun h => acv_active h (ex_order [ex_far]) (M_list 4 ex_zs4) (S_array I64 [0; 3]) (S_array I64 [1; 2]) [[0; 1; 2]; [3]]) = Stray /\
    on_shap [ex_far] (M_list 4 ex_zs4) (fun h => acv_active_nopa h (M_list 4 ex_zs4) (S_array I64 [0; 3]) (S_array I64 [1; 2]) [[0; 1; 2]; [3]]) = Stray) by (vm_compute; auto).
  destruct E as [E1 E2]. split; [exact (on_it _ _ _ (fun o => o) _ _ Eh E1)|exact (on_it _ _ _ (fun o => o) _ _ Eh E2)].
Qed.
Print Assumptions C126_overlap_refuted.

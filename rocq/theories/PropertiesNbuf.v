(** C140, C141: the normalized Shapley values of an [ACVTree], from its trees, by the array programs of the compiled routines, counted
    in the call or stored by the constructor.  [listed] lists a set in whatever order, [sig] is the logistic function; any functions. *)
From Verif Require Import Base TreeModel TreeSpec GameSpec ShapModel ShapSpec ShapProofs NormSpec FlatModel FlatSpec SkModel SkSpec SdpSpec ArrModel EntryModel EntrySpec
  SbufModel SbufSpec SbufProofs2 AbufSpec CbufModel CbufProofs2 NbufModel NbufSpec NbufProofs2 NbufProofs4 PropertiesEntry PropertiesSbuf PropertiesAbuf PropertiesImp PropertiesCbuf.
Local Open Scope nat_scope.

(** *** A tree whose four leaves are all below splits on the two columns, with background rows in all of them *)
Definition bal_t : mtree := mkM [1; 2; -1; -1; 5; -1; -1]%Z [4; 3; -1; -1; 6; -1; -1]%Z [1; 2; -1; -1; 5; -1; -1]%Z [0; 1; -2; -2; 1; -2; -2]%Z
  [1; 3; -2; -2; 9#2; -2; -2]%Q [[0]; [0]; [10]; [20]; [0]; [40]; [80]]%Q.
Definition bal := [bal_t].
Definition bal_zs : list (list Q) := [[0; 0]; [0; 1]; [0; 4]; [2; 2]; [2; 4]; [2; 5]; [0; 5]]%Q.
(** the second one has a coordinate on a threshold *)
Definition bal_xs : list (list Q) := [[2; 4]; [0; 7]]%Q.
Definition bal_ys : list (list Q) := [[1; 4]; [0; 7]]%Q.
Lemma bal_ok : ensemble_ok bal 1 2 1 1.
Proof.
  split; [discriminate|]. split; [|reflexivity]. intros m [<-|[]]; (split; [reflexivity|]); intros r Hr; cbn in Hr;
    repeat (destruct Hr as [<-|Hr]; [reflexivity|]); contradiction.
Qed.
Lemma bal_explained xs : xs <> [] -> explained bal 1 2 1 1 (M_list 2 bal_zs) bal_zs (M_list 2 xs) xs 2 [[]] [[0]; [1]].
Proof.
  intro Hx. split; [exact bal_ok|]. split; [right; now left|]. split; [right; now left|]. split; [exact Hx|]. split; [lia|].
  split; [apply no_groups|]. split; [discriminate|]. exact (va_ids_players [[]] 2 (no_groups 2)).
Qed.
Lemma bal_pair_explained xs : xs <> [] -> explained bal 1 2 1 1 (M_list 2 bal_zs) bal_zs (M_list 2 xs) xs 2 [[0; 1]] [[0; 1]].
Proof.
  intro Hx. split; [exact bal_ok|]. split; [right; now left|]. split; [right; now left|]. split; [exact Hx|]. split; [lia|].
  split; [exact pair_ok|]. split; [discriminate|]. exact (va_ids_players _ _ pair_ok).
Qed.
Lemma bal_leaf i : is_leaf_of bal_t i -> forall s, above (as_tree bal_t 0) s i <-> s < 2.
Proof.
  intros Hi s. assert (Hw : well_formed 2 1 bal_t) by (apply bal_ok; now left). apply (leaf_list_in 2 1 bal_t i Hw) in Hi.
  rewrite <- (proj2 (node_set_above ex_listed ex_listed_ok 2 1 bal_t i Hw Hi) s).
  cbn in Hi. destruct Hi as [<-|[<-|[<-|[<-|[]]]]];
    (match goal with |- In s ?l <-> _ => let l' := eval vm_compute in l in change l with l' end); cbn; (split; [lia|]); intro H; assert (s = 0 \/ s = 1) by lia; intuition.
Qed.
Lemma bal_leaf2 : is_leaf_of bal_t 2.
Proof. split; [cbn; lia|reflexivity]. Qed.
Lemma bal_room P : length P <= 3 -> room bal P.
Proof.
  intros HP m i ps Hm Hi [Hn Hps]. exists 2, [0; 1]. split; [exact bal_leaf2|]. split.
  - split; [repeat constructor; cbn; intuition congruence|]. intro s. cbn [last bal]. rewrite (bal_leaf 2 bal_leaf2 s). cbn. lia.
  - cbn. transitivity (length P); [|lia]. apply NoDup_incl_length; [exact Hn|]. intros g Hg. apply Hps in Hg. apply Hg.
Qed.
Lemma bal_even P : even_trees bal P.
Proof.
  intros t i i' g [<-|[]] Hi Hi' _ (s & Hs & Ha). exists s. split; [exact Hs|]. apply (bal_leaf i' Hi'). now apply (bal_leaf i Hi).
Qed.
Ltac step_left n := apply vis_step with (i := n); [|reflexivity|apply dec_left; [reflexivity|vm_compute; discriminate]].
Ltac step_right n := apply vis_step with (i := n); [|reflexivity|apply dec_right; [reflexivity|vm_compute; reflexivity]].
Lemma bal_filled : filled bal bal_zs.
Proof.
  intros t i [<-|[]] [Hi Hl]. cbn [bal_t m_cl length] in Hi. destruct i as [|[|[|[|[|[|[|i]]]]]]]; try lia; try discriminate Hl.
  - exists [0; 0]%Q. split; [cbn; tauto|]. split; [|reflexivity]. step_left 1. step_left 0. constructor.
  - exists [0; 4]%Q. split; [cbn; tauto|]. split; [|reflexivity]. step_right 1. step_left 0. constructor.
  - exists [2; 2]%Q. split; [cbn; tauto|]. split; [|reflexivity]. step_left 4. step_right 0. constructor.
  - exists [2; 5]%Q. split; [cbn; tauto|]. split; [|reflexivity]. step_right 4. step_right 0. constructor.
Qed.
Lemma bal_off : forall x, In x bal_xs -> off_thresholds bal x.
Proof.
  intros x Hx m i [<-|[]] Hi Hc. cbn in Hi. destruct Hx as [<-|[<-|[]]]; destruct i as [|[|[|[|[|[|[|i]]]]]]]; try lia; try (exfalso; vm_compute in Hc; apply Hc; reflexivity);
    vm_compute; discriminate.
Qed.
Lemma bal_made : exists h, construct_shap ex_listed ex_sig bal 1 false (M_list 2 bal_zs) = Some h.
Proof. apply (construct_shap_some ex_listed ex_sig bal 1 false 2 1 1 (M_list 2 bal_zs) bal_zs ex_listed_ok bal_ok); [right; now left|discriminate|lia]. Qed.

(** ** C140: counted in the call *)

(** With room in the work buffers and a background row in every leaf, [shap_values_normalized] returns, for every row, column and
    output, whatever the order of the leaves, the Shapley value of the player of the column in the game where, for each leaf, the
    probability is normalized over the tree given only the players whom that leaf depends on. *)
Theorem C140_local_partial : forall listed sig ts stacked boosted d w k data zs h X xs m C P, lists_set listed ->
  explained ts stacked d w k data zs X xs m C P -> construct_shap listed sig ts stacked boosted data = Some h ->
  forall order, filled ts zs -> room ts P -> leaf_orders ts order ->
  cube_entries (acv_norm h order X C) xs m k (fun x f => forall j, j < k ->
    exists forest, forest_leaves (shared (raw_share stacked) ts j) = Some forest /\
    forall g c, In g P -> In c g -> (f c j == shapley gdec P (worth_local d (map point zs) forest (point x)) g)%Q).
Proof. exact norm_shapley. Qed.
Print Assumptions C140_local_partial.
Example C140_local_example : explained ex_ts 1 2 2 2 (M_list 2 ex_zs) ex_zs (M_frame 3 ex_wide) ex_wide 3 [[]] [[0]; [1]; [2]] /\
  filled ex_ts ex_zs /\ room ex_ts [[0]; [1]; [2]] /\ leaf_orders ex_ts (ex_order ex_ts) /\
  reduced (on_shap ex_ts (M_list 2 ex_zs) (fun h => acv_norm h (ex_order ex_ts) (M_frame 3 ex_wide) [[]]))
    = Returned [[[-11#30; 13#42]; [-1#3; 41#105]; [0; 0]]; [[173#360; -11#24]; [-13#72; 19#120]; [0; 0]]]%Q.
Proof. split; [exact ex_explained|]. split; [exact ex_filled|]. split; [exact ex_room|]. split; [apply ex_order_ok|]. vm_compute. reflexivity. Qed.

(** It is the Shapley value in the game of the normalized expectation itself where any two leaves of a tree are below splits on
    columns of the same players. *)
Theorem C140_shapley_partial : forall listed sig ts stacked boosted d w k data zs h X xs m C P, lists_set listed ->
  explained ts stacked d w k data zs X xs m C P -> construct_shap listed sig ts stacked boosted data = Some h ->
  forall order, filled ts zs -> even_trees ts P -> room ts P -> leaf_orders ts order ->
  cube_entries (acv_norm h order X C) xs m k (fun x f => forall j, j < k ->
    exists forest, forest_leaves (shared (raw_share stacked) ts j) = Some forest /\
    forall g c, In g P -> In c g -> (f c j == shapley gdec P (worth_norm d (map point zs) forest (point x)) g)%Q).
Proof. exact norm_even. Qed.
Print Assumptions C140_shapley_partial.
Example C140_shapley_example : explained bal 1 2 1 1 (M_list 2 bal_zs) bal_zs (M_list 2 bal_xs) bal_xs 2 [[]] [[0]; [1]] /\
  filled bal bal_zs /\ even_trees bal [[0]; [1]] /\ room bal [[0]; [1]] /\
  reduced (on_shap bal (M_list 2 bal_zs) (fun h => acv_norm h (ex_order bal) (M_list 2 bal_xs) [[]]))
    = Returned [[[1040#63]; [-500#63]]; [[-325#14]; [165#14]]]%Q /\
  reduced (on_shap bal (M_list 2 bal_zs) (fun h => acv_shap h (ex_order bal) (M_list 2 bal_xs) [[]]))
    = Returned [[[377#21]; [-197#21]]; [[-325#14]; [165#14]]]%Q.
Proof.
  split; [apply bal_explained; discriminate|]. split; [exact bal_filled|]. split; [apply bal_even|]. split; [apply bal_room; cbn; lia|].
  vm_compute. auto.
Qed.

(** C140, refuted: in general it is not, even with a row in every leaf and room. *)
Theorem C140_shapley_refuted : exists ts data zs X xs P h order forest q, explained ts 1 2 2 2 data zs X xs 2 [[]] P /\
  construct_shap ex_listed ex_sig ts 1 false data = Some h /\ filled ts zs /\ room ts P /\ leaf_orders ts order /\
  forest_leaves (shared (raw_share 1) ts 0) = Some forest /\ In [0] P /\ corner (acv_norm h order X [[]]) = Returned q /\
  ~ (q == shapley gdec P (worth_norm 2 (map point zs) forest (point (hd [] xs))) [0%nat])%Q.
Proof.
  destruct ex_made as [h Eh].
  destruct (forest_leaves (shared (raw_share 1) ex_ts 0)) as [forest|] eqn:Ef; [|discriminate Ef].
  exists ex_ts, (M_list 2 ex_zs), ex_zs, (M_frame 2 ex_xs), ex_xs, [[0]; [1]], h, (ex_order ex_ts), forest, (-11#30)%Q.
  split; [exact ex_single|]. split; [exact Eh|]. split; [exact ex_filled|]. split.
  { intros t i ps Ht Hi [Hn Hps]. apply (ex_room t i ps Ht Hi). split; [exact Hn|]. intro g. rewrite Hps. cbn [In].
    split; intros [Hg (s & Hs & Ha)]; (split; [|exists s; auto]); [tauto|]. destruct Hg as [<-|[<-|[<-|[]]]]; auto.
    apply (ex_above_lt t s i Ht) in Ha. destruct Hs as [<-|[]]. lia. }
  split; [apply ex_order_ok|]. split; [exact Ef|]. split; [now left|]. split.
  - apply (on_shap_at _ _ (fun h => corner (acv_norm h (ex_order ex_ts) (M_frame 2 ex_xs) [[]])) h _ Eh). vm_compute. reflexivity.
  - assert (E : match forest_leaves (shared (raw_share 1) ex_ts 0) with
                | Some f => Qred (shapley gdec [[0]; [1]] (worth_norm 2 (map point ex_zs) f (point (hd [] ex_xs))) [0]) | None => 0%Q end = (-13#42)%Q)
      by (vm_compute; reflexivity).
    rewrite Ef in E. intro K. apply Qred_complete in K. pose proof (eq_trans K E) as K'. vm_compute in K'. discriminate K'.
Qed.
Print Assumptions C140_shapley_refuted.

(** With a background row in every leaf, the values of the players add up to the output minus the mean output of the background. *)
Theorem C140_accounts_partial : forall listed sig ts stacked boosted d w k data zs h X xs m C P, lists_set listed ->
  explained ts stacked d w k data zs X xs m C P -> construct_shap listed sig ts stacked boosted data = Some h ->
  forall order rep, (forall g, In g P -> In (rep g) g) -> filled ts zs -> room ts P -> leaf_orders ts order ->
  cube_entries (acv_norm h order X C) xs m k (fun x f =>
    forall j v vs, j < k -> adds_up (raw_share stacked) ts j x v -> Forall2 (adds_up (raw_share stacked) ts j) zs vs ->
    (sumf (fun g => f (rep g) j) P == v - mean (fun v => v) vs)%Q).
Proof. exact norm_accounts. Qed.
Print Assumptions C140_accounts_partial.
(** the outputs of (2, 4) and (0, 7) are 40 and 20, the mean 220/7 *)
Example C140_accounts_example : filled bal bal_zs /\
  Qred ((1040#63) + (-500#63))%Q = Qred (40 - (220#7))%Q /\ Qred ((-325#14) + (165#14))%Q = Qred (20 - (220#7))%Q /\
  Qred (mean (fun v => v) [10; 10; 20; 40; 40; 80; 20]%Q) = (220#7)%Q.
Proof. split; [exact bal_filled|]. vm_compute. auto. Qed.
(** one column, two splits on it, no background row in the last leaf *)
Definition two_t : mtree := mkM [1; -1; 3; -1; -1]%Z [2; -1; 4; -1; -1]%Z [1; -1; 3; -1; -1]%Z [0; -2; 0; -2; -2]%Z
  [1; -2; 5; -2; -2]%Q [[0]; [10]; [0]; [20]; [30]]%Q.
Definition two_zs : list (list Q) := [[0]; [2]; [3]]%Q.
Lemma two_ok : ensemble_ok [two_t] 1 1 1 1.
Proof.
  split; [discriminate|]. split; [|reflexivity]. intros m [<-|[]]; (split; [reflexivity|]); intros r Hr; cbn in Hr;
    repeat (destruct Hr as [<-|Hr]; [reflexivity|]); contradiction.
Qed.
Lemma two_explained : explained [two_t] 1 1 1 1 (M_list 1 two_zs) two_zs (M_list 1 [[2]]%Q) [[2]]%Q 1 [[]] [[0]].
Proof.
  split; [exact two_ok|]. split; [right; now left|]. split; [right; now left|]. split; [discriminate|]. split; [lia|].
  split; [apply no_groups|]. split; [discriminate|]. exact (va_ids_players [[]] 1 (no_groups 1)).
Qed.
Lemma two_room : room [two_t] [[0]].
Proof.
  intros m i ps Hm Hi [Hn Hps]. exists 1, [0]. split; [split; [cbn; lia|reflexivity]|].
  assert (Hw : well_formed 1 1 two_t) by (apply two_ok; now left).
  split; [exact (node_set_above ex_listed ex_listed_ok 1 1 two_t 1 Hw ltac:(cbn; tauto))|].
  cbn. transitivity (length [[0]]); [|cbn; lia]. apply NoDup_incl_length; [exact Hn|]. intros g Hg. apply Hps in Hg. apply Hg.
Qed.
(** C140, refuted: as soon as a leaf holds no background row the sum may differ, although the plain values add up. *)
Theorem C140_accounts_refuted : exists ts data zs X xs P h order v vs q q', explained ts 1 1 1 1 data zs X xs 1 [[]] P /\ P = [[0]] /\
  construct_shap ex_listed ex_sig ts 1 false data = Some h /\ room ts P /\ leaf_orders ts order /\
  (forall t x, In t ts -> In x xs -> exists z, In z zs /\ same_leaf t x z) /\
  adds_up (raw_share 1) ts 0 (hd [] xs) v /\ Forall2 (adds_up (raw_share 1) ts 0) zs vs /\
  corner (acv_shap h order X [[]]) = Returned q /\ (q == v - mean (fun v => v) vs)%Q /\
  corner (acv_norm h order X [[]]) = Returned q' /\ ~ (q' == v - mean (fun v => v) vs)%Q.
Proof.
  destruct (construct_shap_some ex_listed ex_sig [two_t] 1 false 1 1 1 (M_list 1 two_zs) two_zs ex_listed_ok two_ok) as [h Eh];
    [right; now left|discriminate|lia|].
  assert (L1 : lands (as_tree two_t 0) (point [0]%Q) no_missing 1) by (split; [step_left 0; constructor|reflexivity]).
  assert (L2 : lands (as_tree two_t 0) (point [2]%Q) no_missing 3) by (split; [step_left 2; step_right 0; constructor|reflexivity]).
  assert (L3 : lands (as_tree two_t 0) (point [3]%Q) no_missing 3) by (split; [step_left 2; step_right 0; constructor|reflexivity]).
  assert (A : forall z l q, lands (as_tree two_t 0) (point z) no_missing l -> (raw_share 1 0 0 (nth l (m_vl two_t) []) == q)%Q -> adds_up (raw_share 1) [two_t] 0 z q).
  { intros z l q Hl Hq. exists [nth l (m_vl two_t) []]. split; [constructor; [exists l; destruct Hl as [H1 H2]; auto|constructor]|]. cbn [length seq sumf nth]. rewrite Hq. lra. }
  exists [two_t], (M_list 1 two_zs), two_zs, (M_list 1 [[2]]%Q), [[2]]%Q, [[0]], h, (ex_order [two_t]), 20%Q, [10; 20; 20]%Q, (10#3)%Q, (-50#3)%Q.
  split; [exact two_explained|]. split; [reflexivity|]. split; [exact Eh|]. split; [exact two_room|]. split; [apply ex_order_ok|]. split.
  { intros t x [<-|[]] [<-|[]]. exists [2]%Q. split; [right; now left|]. exists 3. auto. }
  split; [apply (A _ 3 _ L2); reflexivity|]. split.
  { constructor; [apply (A _ 1 _ L1); reflexivity|]. constructor; [apply (A _ 3 _ L2); reflexivity|]. constructor; [apply (A _ 3 _ L3); reflexivity|constructor]. }
  split; [apply (on_shap_at _ _ (fun h => corner (acv_shap h (ex_order [two_t]) (M_list 1 [[2]]%Q) [[]])) h _ Eh); vm_compute; reflexivity|].
  split; [vm_compute; reflexivity|].
  split; [apply (on_shap_at _ _ (fun h => corner (acv_norm h (ex_order [two_t]) (M_list 1 [[2]]%Q) [[]])) h _ Eh); vm_compute; reflexivity|].
  vm_compute. discriminate.
Qed.
Print Assumptions C140_accounts_refuted.

(** A player none of whose columns is split on above a leaf gets nothing, whether the leaves hold background rows or not. *)
Theorem C140_unused_partial : forall listed sig ts stacked boosted d w k data zs h X xs m C P, lists_set listed ->
  explained ts stacked d w k data zs X xs m C P -> construct_shap listed sig ts stacked boosted data = Some h ->
  forall order, room ts P -> leaf_orders ts order ->
  cube_entries (acv_norm h order X C) xs m k (fun _ f => forall g c j, In g P -> In c g -> j < k -> unused ts g -> (f c j == 0)%Q).
Proof. exact norm_zero. Qed.
Print Assumptions C140_unused_partial.
Example C140_unused_example : unused ex_ts [2] /\
  reduced (on_shap ex_ts (M_list 2 ex_zs) (fun h => acv_norm h (ex_order ex_ts) (M_frame 3 [[1; 2; 7]]%Q) [[]])) = Returned [[[-11#30; 13#42]; [-1#3; 41#105]; [0; 0]]]%Q.
Proof. split; [exact C125_unused_example|]. vm_compute. reflexivity. Qed.
(** With room the array does not depend on the order of the leaves. *)
Theorem C140_orders_partial : forall listed sig ts stacked boosted d w k data zs h X xs m C P, lists_set listed ->
  explained ts stacked d w k data zs X xs m C P -> construct_shap listed sig ts stacked boosted data = Some h ->
  forall order order', room ts P -> leaf_orders ts order -> leaf_orders ts order' -> same_cube (acv_norm h order X C) (acv_norm h order' X C).
Proof. exact norm_orders. Qed.
Print Assumptions C140_orders_partial.
Example C140_orders_example : leaf_orders bal (ex_order bal) /\ leaf_orders bal (fun b => seq 0 (leaf_count (nth b bal no_tree))) /\
  ex_order bal 0 = [3; 2; 1; 0] /\ room bal [[0]; [1]].
Proof.
  split; [apply ex_order_ok|]. split; [intros b m Hb; rewrite (nth_error_nth _ _ no_tree Hb); apply Permutation_refl|]. split; [reflexivity|]. apply bal_room. cbn. lia.
Qed.
(** Without room the routine goes outside its buffers. *)
Theorem C140_stray : forall listed sig ts stacked boosted d w k data zs h X xs m C P, lists_set listed ->
  explained ts stacked d w k data zs X xs m C P -> construct_shap listed sig ts stacked boosted data = Some h ->
  forall order, no_room ts P -> leaf_orders ts order -> acv_norm h order X C = Stray.
Proof. exact norm_stray. Qed.
Print Assumptions C140_stray.
Example C140_stray_example : no_room ex_uneven [[0]; [1]; [2]] /\
  on_shap ex_uneven (M_list 3 ex_zs3) (fun h => acv_norm h (ex_order ex_uneven) (M_list 3 ex_zs3) [[]]) = Stray.
Proof. split; [exact ex_uneven_no_room|]. vm_compute. reflexivity. Qed.
(** C140, refuted: an ensemble for which it does, in whatever order, while [shap_values_nopa] returns. *)
Theorem C140_room_refuted : exists ts data zs X xs P h, explained ts 1 3 1 1 data zs X xs 3 [[]] P /\
  construct_shap ex_listed ex_sig ts 1 false data = Some h /\
  (forall order, leaf_orders ts order -> acv_norm h order X [[]] = Stray) /\ exists res, acv_shap_nopa h X [[]] = Returned res.
Proof.
  destruct (construct_shap_some ex_listed ex_sig ex_uneven 1 false 3 1 1 (M_list 3 ex_zs3) ex_zs3 ex_listed_ok ex_uneven_ok) as [h Eh];
    [right; now left|discriminate|lia|].
  exists ex_uneven, (M_list 3 ex_zs3), ex_zs3, (M_list 3 ex_zs3), ex_zs3, [[0]; [1]; [2]], h.
  split; [exact ex_uneven_explained|]. split; [exact Eh|]. split.
  - intros order Ho. exact (norm_stray ex_listed ex_sig ex_uneven 1 false 3 1 1 _ _ h _ _ _ _ _ ex_listed_ok ex_uneven_explained Eh order ex_uneven_no_room Ho).
  - destruct (C125_sequential ex_listed ex_sig ex_uneven 1 false 3 1 1 _ _ h _ _ _ _ _ ex_listed_ok ex_uneven_explained Eh) as (res & E & _).
    exists res. exact E.
Qed.
Print Assumptions C140_room_refuted.

(** ** C141: stored by the constructor *)
(** the object is constructed with the coalitions [C0] *)
Definition on_nkept (ts : list mtree) (data : marg) (C0 : list (list nat)) {A} (f : nkept -> outcome A) : outcome A :=
  on_shap ts data (fun h => o <- with_norm_cache true true true (ex_order ts) C0 h ;; f o).

(** With [cache] and room, and no observation on a threshold, the constructor returns, by threads or in turn; whatever
    [cache_normalized], [shap_values_normalized] returns exactly the array counted in the call, for the coalitions of the
    constructor; with [cache_normalized] so do [shap_values_normalized_cache] and [shap_values_normalized_cache_nopa]. *)
Theorem C141_same_partial : forall listed sig ts stacked boosted d w k data zs h X xs m C P, lists_set listed ->
  explained ts stacked d w k data zs X xs m C P -> construct_shap listed sig ts stacked boosted data = Some h ->
  forall flag multi order0, room ts P -> leaf_orders ts order0 -> (forall x, In x xs -> off_thresholds ts x) ->
  exists o, with_norm_cache true flag multi order0 C h = Returned o /\ forall order, leaf_orders ts order ->
    kept_norm o order X C = acv_norm h order X C /\
    (flag = true -> kept_norm_cache o order X C = acv_norm h order X C /\ kept_norm_cache_nopa o X C = acv_norm h (in_turn h) X C).
Proof. exact nkept_same. Qed.
Print Assumptions C141_same_partial.
(** With a background row in every leaf they are the Shapley values of C140. *)
Theorem C141_local_partial : forall listed sig ts stacked boosted d w k data zs h X xs m C P, lists_set listed ->
  explained ts stacked d w k data zs X xs m C P -> construct_shap listed sig ts stacked boosted data = Some h ->
  forall multi order0, filled ts zs -> room ts P -> leaf_orders ts order0 -> (forall x, In x xs -> off_thresholds ts x) ->
  exists o, with_norm_cache true true multi order0 C h = Returned o /\ forall order, leaf_orders ts order ->
    Forall (fun r => cube_entries r xs m k (fun x f => forall j, j < k ->
      exists forest, forest_leaves (shared (raw_share stacked) ts j) = Some forest /\
      forall g c, In g P -> In c g -> (f c j == shapley gdec P (worth_local d (map point zs) forest (point x)) g)%Q))
      [kept_norm o order X C; kept_norm_cache o order X C; kept_norm_cache_nopa o X C].
Proof. exact nkept_local. Qed.
Print Assumptions C141_local_partial.
Example C141_same_example : explained bal 1 2 1 1 (M_list 2 bal_zs) bal_zs (M_list 2 bal_xs) bal_xs 2 [[]] [[0]; [1]] /\
  (forall x, In x bal_xs -> off_thresholds bal x) /\ room bal [[0]; [1]] /\ leaf_orders bal (ex_order bal) /\
  reduced (on_nkept bal (M_list 2 bal_zs) [[]] (fun o => kept_norm o (ex_order bal) (M_list 2 bal_xs) [[]]))
    = Returned [[[1040#63]; [-500#63]]; [[-325#14]; [165#14]]]%Q.
Proof.
  split; [apply bal_explained; discriminate|]. split; [exact bal_off|]. split; [apply bal_room; cbn; lia|]. split; [apply ex_order_ok|]. vm_compute. reflexivity.
Qed.
Example C141_local_example : explained bal 1 2 1 1 (M_list 2 bal_zs) bal_zs (M_list 2 bal_xs) bal_xs 2 [[0; 1]] [[0; 1]] /\
  filled bal bal_zs /\ room bal [[0; 1]] /\
  reduced (on_nkept bal (M_list 2 bal_zs) [[0; 1]] (fun o => kept_norm_cache_nopa o (M_list 2 bal_xs) [[0; 1]]))
    = Returned [[[60#7]; [60#7]]; [[-80#7]; [-80#7]]]%Q.
Proof. split; [apply bal_pair_explained; discriminate|]. split; [exact bal_filled|]. split; [apply bal_room; cbn; lia|]. vm_compute. reflexivity. Qed.
(** C141, refuted: an observation on a threshold; both return, the first entries differ. *)
Theorem C141_bounds_refuted : exists ts data zs X xs P h o order q q', explained ts 1 2 1 1 data zs X xs 2 [[]] P /\ room ts P /\ filled ts zs /\
  construct_shap ex_listed ex_sig ts 1 false data = Some h /\ leaf_orders ts order /\ with_norm_cache true true true order [[]] h = Returned o /\
  corner (kept_norm o order X [[]]) = Returned q /\ corner (acv_norm h order X [[]]) = Returned q' /\ ~ (q == q')%Q.
Proof.
  destruct bal_made as [h Eh].
  destruct (nkept_same ex_listed ex_sig bal 1 false 2 1 1 _ _ h _ _ _ _ _ ex_listed_ok (bal_explained bal_xs ltac:(discriminate)) Eh true true (ex_order bal)
    (bal_room [[0]; [1]] ltac:(cbn; lia)) (ex_order_ok bal) bal_off) as (o & Eo & _).
  exists bal, (M_list 2 bal_zs), bal_zs, (M_list 2 bal_ys), bal_ys, [[0]; [1]], h, o, (ex_order bal), (1040#63)%Q, (-1595#126)%Q.
  split; [apply bal_explained; discriminate|]. split; [apply bal_room; cbn; lia|]. split; [exact bal_filled|]. split; [exact Eh|]. split; [apply ex_order_ok|].
  split; [exact Eo|]. split; [|split].
  - assert (E : (o <- with_norm_cache true true true (ex_order bal) [[]] h ;; corner (kept_norm o (ex_order bal) (M_list 2 bal_ys) [[]])) = Returned (1040#63)%Q).
    { apply (on_shap_at _ _ (fun h => o <- with_norm_cache true true true (ex_order bal) [[]] h ;; corner (kept_norm o (ex_order bal) (M_list 2 bal_ys) [[]])) h _ Eh). vm_compute. reflexivity. }
    rewrite Eo in E. exact E.
  - apply (on_shap_at _ _ (fun h => corner (acv_norm h (ex_order bal) (M_list 2 bal_ys) [[]])) h _ Eh). vm_compute. reflexivity.
  - unfold Qeq. cbn. lia.
Qed.
Print Assumptions C141_bounds_refuted.

(** Without [cache] nothing is stored: [cache_normalized] makes every call raise, otherwise the counting method is called. *)
Theorem C141_without : forall h X C flag multi order0 order, exists o, with_norm_cache false flag multi order0 C h = Returned o /\
  (flag = false -> kept_norm o order X C = acv_norm h order X C) /\ (flag = true -> kept_norm o order X C = Raised EAttribute) /\
  kept_norm_cache o order X C = Raised EAttribute /\ kept_norm_cache_nopa o X C = Raised EAttribute.
Proof. exact nkept_without. Qed.
Print Assumptions C141_without.
(** With [cache] and not [cache_normalized] the two cached methods raise. *)
Theorem C141_unstored : forall h X C multi order0 o order, with_norm_cache true false multi order0 C h = Returned o ->
  kept_norm_cache o order X C = Raised EAttribute /\ kept_norm_cache_nopa o X C = Raised EAttribute.
Proof. exact nkept_unstored. Qed.
Print Assumptions C141_unstored.
Example C141_unstored_example :
  on_shap bal (M_list 2 bal_zs) (fun h => o <- with_norm_cache true false true (ex_order bal) [[]] h ;; kept_norm_cache o (ex_order bal) (M_list 2 bal_xs) [[]]) = Raised EAttribute /\
  corner (on_shap bal (M_list 2 bal_zs) (fun h => o <- with_norm_cache true false true (ex_order bal) [[]] h ;; kept_norm o (ex_order bal) (M_list 2 bal_xs) [[]])) = Returned (1040#63)%Q /\
  on_shap bal (M_list 2 bal_zs) (fun h => o <- with_norm_cache false true true (ex_order bal) [[]] h ;; kept_norm o (ex_order bal) (M_list 2 bal_xs) [[]]) = Raised EAttribute.
Proof. vm_compute. auto. Qed.

(** Without room already the constructor with [cache] goes outside its buffers. *)
Theorem C141_stray : forall listed sig ts stacked boosted d w k data zs h X xs m C P, lists_set listed ->
  explained ts stacked d w k data zs X xs m C P -> construct_shap listed sig ts stacked boosted data = Some h ->
  forall flag multi order0, no_room ts P -> leaf_orders ts order0 -> with_norm_cache true flag multi order0 C h = Stray.
Proof. exact nkept_stray. Qed.
Print Assumptions C141_stray.
Example C141_stray_example : no_room ex_uneven [[0]; [1]; [2]] /\ on_nkept ex_uneven (M_list 3 ex_zs3) [[]] (fun _ => Returned tt) = Stray.
Proof. split; [exact ex_uneven_no_room|]. vm_compute. reflexivity. Qed.
(** After coalitions in the constructor, a call with the default coalitions reads outside the stored counts as soon as some leaf
    is below a split on a column whose number is at least the number of players of the constructor. *)
Theorem C141_default_stray : forall listed sig ts stacked boosted d w k data zs h X xs m P C0 P0 multi order0 o order t i s, lists_set listed ->
  explained ts stacked d w k data zs X xs m [[]] P -> construct_shap listed sig ts stacked boosted data = Some h ->
  coalitions_ok C0 d -> is_players C0 d P0 -> with_norm_cache true true multi order0 C0 h = Returned o -> leaf_orders ts order ->
  In t ts -> is_leaf_of t i -> above (as_tree t 0) s i -> length P0 <= s ->
  kept_norm o order X [[]] = Stray /\ kept_norm_cache o order X [[]] = Stray /\ kept_norm_cache_nopa o X [[]] = Stray.
Proof. exact nkept_default_stray. Qed.
Print Assumptions C141_default_stray.
Example C141_default_stray_example : is_players [[0; 1]] 2 [[0; 1]] /\ is_leaf_of bal_t 2 /\ above (as_tree bal_t 0) 1 2 /\
  on_nkept bal (M_list 2 bal_zs) [[0; 1]] (fun o => kept_norm o (ex_order bal) (M_list 2 bal_xs) [[]]) = Stray.
Proof.
  split; [exact (va_ids_players _ _ pair_ok)|]. split; [exact bal_leaf2|]. split; [apply (bal_leaf 2 bal_leaf2); lia|]. vm_compute. reflexivity.
Qed.
(** C141, refuted: coalitions in the constructor, the default coalitions in the call; the counting method returns. *)
Theorem C141_default_refuted : exists ts data zs X xs P C0 h o order, explained ts 1 2 1 1 data zs X xs 2 [[]] P /\ coalitions_ok C0 2 /\
  (forall x, In x xs -> off_thresholds ts x) /\
  construct_shap ex_listed ex_sig ts 1 false data = Some h /\ leaf_orders ts order /\ with_norm_cache true true true order C0 h = Returned o /\
  kept_norm o order X [[]] = Stray /\ exists res, acv_norm h order X [[]] = Returned res.
Proof.
  destruct bal_made as [h Eh].
  destruct (nkept_same ex_listed ex_sig bal 1 false 2 1 1 _ _ h _ _ _ _ _ ex_listed_ok (bal_pair_explained bal_xs ltac:(discriminate)) Eh true true (ex_order bal)
    (bal_room [[0; 1]] ltac:(cbn; lia)) (ex_order_ok bal) bal_off) as (o & Eo & _).
  pose proof (bal_explained bal_xs ltac:(discriminate)) as HE.
  exists bal, (M_list 2 bal_zs), bal_zs, (M_list 2 bal_xs), bal_xs, [[0]; [1]], [[0; 1]], h, o, (ex_order bal).
  split; [exact HE|]. split; [exact pair_ok|]. split; [exact bal_off|]. split; [exact Eh|]. split; [apply ex_order_ok|]. split; [exact Eo|]. split.
  - refine (proj1 (nkept_default_stray ex_listed ex_sig bal 1 false 2 1 1 _ _ h _ _ _ _ [[0; 1]] [[0; 1]] true _ o _ bal_t 2 1 ex_listed_ok HE Eh pair_ok
      (va_ids_players _ _ pair_ok) Eo (ex_order_ok bal) _ bal_leaf2 _ _)); [now left|apply (bal_leaf 2 bal_leaf2); lia|cbn; lia].
  - assert (E : corner (acv_norm h (ex_order bal) (M_list 2 bal_xs) [[]]) = Returned (1040#63)%Q).
    { apply (on_shap_at _ _ (fun h => corner (acv_norm h (ex_order bal) (M_list 2 bal_xs) [[]])) h _ Eh). vm_compute. reflexivity. }
    destruct (acv_norm h (ex_order bal) (M_list 2 bal_xs) [[]]) as [res|e|]; [now exists res|discriminate|discriminate].
Qed.
Print Assumptions C141_default_refuted.

(** C133: the cached Shapley values of an [ACVTree], from its trees, by the array programs of the compiled routines.
    [listed] lists a set in whatever order, [sig] is the logistic function; any functions. *)
From Verif Require Import Base TreeModel TreeSpec GameSpec ShapModel ShapSpec ShapProofs FlatModel FlatSpec SkModel SkSpec ArrModel EntryModel EntrySpec
  SbufModel SbufSpec SbufProofs2 CbufModel CbufProofs2 PropertiesEntry PropertiesSbuf PropertiesImp.
Local Open Scope nat_scope.

(** *** Helpers of the examples *)
(** the first entry of the array returned *)
Definition corner (o : outcome (list (list (list Q)))) : outcome Q :=
  match o with Returned (((q :: _) :: _) :: _) => Returned (Qred q) | Returned _ => Stray | Raised e => Raised e | Stray => Stray end.
(** the object is constructed with the coalitions [C0] *)
Definition on_kept (ts : list mtree) (data : marg) (C0 : list (list nat)) {A} (f : kept -> outcome A) : outcome A :=
  on_shap ts data (fun h => o <- with_cache true true (ex_order ts) C0 h ;; f o).
Lemma pair_ok : coalitions_ok [[0; 1]] 2.
Proof. split; [cbn; repeat constructor; cbn; intuition congruence|]. split; [cbn; intuition lia|exact I]. Qed.
Lemma pair_explained : explained ex_ts 1 2 2 2 (M_list 2 ex_zs) ex_zs (M_frame 2 ex_xs) ex_xs 2 [[0; 1]] [[0; 1]].
Proof.
  split; [exact ex_ok|]. split; [right; now left|]. split; [now left|]. split; [discriminate|]. split; [lia|].
  split; [exact pair_ok|]. split; [discriminate|]. exact (va_ids_players _ _ pair_ok).
Qed.
Lemma pair_room : room ex_ts [[0; 1]].
Proof.
  intros m i ps Hm Hi [Hn Hps]. exists 1, [1]. destruct ex_t2_leaf as [H1 H2]. split; [exact H1|]. split; [exact H2|]. cbn.
  assert (length ps <= length [[0; 1]]); [|cbn in *; lia]. apply NoDup_incl_length; [exact Hn|]. intros g Hg. apply Hps in Hg. apply Hg.
Qed.
Lemma ex_single : explained ex_ts 1 2 2 2 (M_list 2 ex_zs) ex_zs (M_frame 2 ex_xs) ex_xs 2 [[]] [[0]; [1]].
Proof.
  split; [exact ex_ok|]. split; [right; now left|]. split; [now left|]. split; [discriminate|]. split; [lia|].
  split; [apply no_groups|]. split; [discriminate|]. exact (va_ids_players [[]] 2 (no_groups 2)).
Qed.

(** ** C133 *)

(** If the buffers have room, the constructor returns, with or without the cache, by threads or in turn; and [shap_values],
    [shap_values_cache] and [shap_values_cache_nopa] return exactly the array that the uncached [shap_values] returns for the
    coalitions of the constructor, whatever the order of the leaves. *)
Theorem C133_same_partial : forall listed sig ts stacked boosted d w k data zs h X xs m C P, lists_set listed ->
  explained ts stacked d w k data zs X xs m C P -> construct_shap listed sig ts stacked boosted data = Some h ->
  forall cache multi order0, room ts P -> leaf_orders ts order0 ->
  exists o, with_cache cache multi order0 C h = Returned o /\ forall order, leaf_orders ts order ->
    kept_shap o order X C = acv_shap h order X C /\
    (cache = true -> kept_cache o order X C = acv_shap h order X C /\ kept_cache_nopa o X C = acv_shap h (in_turn h) X C).
Proof. exact kept_same. Qed.
Print Assumptions C133_same_partial.
(** They are the Shapley values of the game whose worth is the plug-in conditional expectation over the background. *)
Theorem C133_shapley_partial : forall listed sig ts stacked boosted d w k data zs h X xs m C P, lists_set listed ->
  explained ts stacked d w k data zs X xs m C P -> construct_shap listed sig ts stacked boosted data = Some h ->
  forall multi order0, room ts P -> leaf_orders ts order0 ->
  exists o, with_cache true multi order0 C h = Returned o /\ forall order, leaf_orders ts order ->
    Forall (fun r => cube_entries r xs m k (fun x f => forall j, j < k ->
      exists forest, forest_leaves (shared (raw_share stacked) ts j) = Some forest /\
      forall g c, In g P -> In c g -> (f c j == shapley gdec P (worth d (map point zs) forest (point x)) g)%Q))
      [kept_shap o order X C; kept_cache o order X C; kept_cache_nopa o X C].
Proof. exact kept_shapley. Qed.
Print Assumptions C133_shapley_partial.
Example C133_same_example : explained ex_ts 1 2 2 2 (M_list 2 ex_zs) ex_zs (M_frame 3 ex_wide) ex_wide 3 [[]] [[0]; [1]; [2]] /\
  room ex_ts [[0]; [1]; [2]] /\ leaf_orders ex_ts (ex_order ex_ts) /\
  plainly (map (map Qred)) (on_kept ex_ts (M_list 2 ex_zs) [[]] (fun o => kept_shap o (ex_order ex_ts) (M_frame 3 ex_wide) [[]]))
    = Returned [[[-11#30; 1#6]; [-1#3; 8#15]; [0; 0]]; [[39#80; -7#16]; [-3#16; 11#80]; [0; 0]]]%Q /\
  plainly (map (map Qred)) (on_kept ex_ts (M_list 2 ex_zs) [[0; 1]] (fun o => kept_cache_nopa o (M_frame 2 ex_xs) [[0; 1]]))
    = Returned [[[-7#10; 7#10]; [-7#10; 7#10]]; [[3#10; -3#10]; [3#10; -3#10]]; [[1#20; -1#20]; [1#20; -1#20]]]%Q.
Proof. split; [exact ex_explained|]. split; [exact ex_room|]. split; [apply ex_order_ok|]. vm_compute. auto. Qed.
Example C133_shapley_example : explained ex_ts 1 2 2 2 (M_list 2 ex_zs) ex_zs (M_frame 2 ex_xs) ex_xs 2 [[0; 1]] [[0; 1]] /\ room ex_ts [[0; 1]].
Proof. split; [exact pair_explained|exact pair_room]. Qed.

(** Without room, already the constructor goes outside its buffers, by threads or in turn. *)
Theorem C133_stray : forall listed sig ts stacked boosted d w k data zs h X xs m C P, lists_set listed ->
  explained ts stacked d w k data zs X xs m C P -> construct_shap listed sig ts stacked boosted data = Some h ->
  forall multi order0, no_room ts P -> leaf_orders ts order0 -> with_cache true multi order0 C h = Stray.
Proof. exact kept_stray. Qed.
Print Assumptions C133_stray.
(** C133, refuted: an ensemble for which the constructor goes astray in both ways, while the sequential [shap_values_nopa] of
    the object without the cache returns. *)
Theorem C133_room_refuted : exists ts data zs X xs P h, explained ts 1 3 1 1 data zs X xs 3 [[]] P /\
  construct_shap ex_listed ex_sig ts 1 false data = Some h /\
  (forall multi order, leaf_orders ts order -> with_cache true multi order [[]] h = Stray) /\ exists res, acv_shap_nopa h X [[]] = Returned res.
Proof.
  destruct (construct_shap_some ex_listed ex_sig ex_uneven 1 false 3 1 1 (M_list 3 ex_zs3) ex_zs3 ex_listed_ok ex_uneven_ok) as [h Eh];
    [right; now left|discriminate|lia|].
  exists ex_uneven, (M_list 3 ex_zs3), ex_zs3, (M_list 3 ex_zs3), ex_zs3, [[0]; [1]; [2]], h.
  split; [exact ex_uneven_explained|]. split; [exact Eh|]. split.
  - intros multi order Ho.
    exact (kept_stray ex_listed ex_sig ex_uneven 1 false 3 1 1 _ _ h _ _ _ _ _ ex_listed_ok ex_uneven_explained Eh multi order ex_uneven_no_room Ho).
  - destruct (C125_sequential ex_listed ex_sig ex_uneven 1 false 3 1 1 _ _ h _ _ _ _ _ ex_listed_ok ex_uneven_explained Eh) as (res & E & _).
    exists res. exact E.
Qed.
Print Assumptions C133_room_refuted.
Example C133_stray_example : no_room ex_uneven [[0]; [1]; [2]] /\
  on_kept ex_uneven (M_list 3 ex_zs3) [[]] (fun _ => Returned tt) = Stray.
Proof. split; [exact ex_uneven_no_room|]. vm_compute. reflexivity. Qed.

(** After coalitions in the constructor, a call with the default coalitions reads outside the stored counts as soon as some leaf
    is below a split on a column whose number is at least the number of players of the constructor. *)
Theorem C133_default_stray : forall listed sig ts stacked boosted d w k data zs h X xs m P C0 P0 multi order0 o order t i s, lists_set listed ->
  explained ts stacked d w k data zs X xs m [[]] P -> construct_shap listed sig ts stacked boosted data = Some h ->
  coalitions_ok C0 d -> is_players C0 d P0 -> with_cache true multi order0 C0 h = Returned o -> leaf_orders ts order ->
  In t ts -> is_leaf_of t i -> above (as_tree t 0) s i -> length P0 <= s ->
  kept_shap o order X [[]] = Stray /\ kept_cache o order X [[]] = Stray /\ kept_cache_nopa o X [[]] = Stray.
Proof. exact default_stray. Qed.
Print Assumptions C133_default_stray.
Example C133_default_stray_example : is_players [[0; 1]] 2 [[0; 1]] /\ above (as_tree ex_t2 0) 1 1 /\
  on_kept ex_ts (M_list 2 ex_zs) [[0; 1]] (fun o => kept_shap o (ex_order ex_ts) (M_frame 2 ex_xs) [[]]) = Stray.
Proof.
  split; [exact (va_ids_players _ _ pair_ok)|]. split; [apply ex_t2_leaf; now left|]. vm_compute. reflexivity.
Qed.
(** C133, refuted: coalitions in the constructor, the default coalitions in the call; the uncached method returns. *)
Theorem C133_default_refuted : exists ts data zs X xs P C0 h o order, explained ts 1 2 2 2 data zs X xs 2 [[]] P /\ coalitions_ok C0 2 /\
  construct_shap ex_listed ex_sig ts 1 false data = Some h /\ leaf_orders ts order /\ with_cache true true order C0 h = Returned o /\
  kept_shap o order X [[]] = Stray /\ exists res, acv_shap h order X [[]] = Returned res.
Proof.
  destruct (construct_shap_some ex_listed ex_sig ex_ts 1 false 2 2 2 (M_list 2 ex_zs) ex_zs ex_listed_ok ex_ok) as [h Eh];
    [right; now left|discriminate|lia|].
  destruct (kept_same ex_listed ex_sig ex_ts 1 false 2 2 2 _ _ h _ _ _ _ _ ex_listed_ok pair_explained Eh true true (ex_order ex_ts) pair_room (ex_order_ok ex_ts)) as (o & Eo & _).
  exists ex_ts, (M_list 2 ex_zs), ex_zs, (M_frame 2 ex_xs), ex_xs, [[0]; [1]], [[0; 1]], h, o, (ex_order ex_ts).
  split; [exact ex_single|]. split; [exact pair_ok|]. split; [exact Eh|]. split; [apply ex_order_ok|]. split; [exact Eo|]. split.
  - refine (proj1 (default_stray ex_listed ex_sig ex_ts 1 false 2 2 2 _ _ h _ _ _ _ [[0; 1]] [[0; 1]] true _ o _ ex_t2 1 1 ex_listed_ok ex_single Eh pair_ok
      (va_ids_players _ _ pair_ok) Eo (ex_order_ok ex_ts) _ _ _ _)); [right; now left|apply ex_t2_leaf|apply ex_t2_leaf; now left|cbn; lia].
  - assert (E : corner (acv_shap h (ex_order ex_ts) (M_frame 2 ex_xs) [[]]) = Returned (-11#30)%Q).
    { apply (on_shap_at _ _ (fun h => corner (acv_shap h (ex_order ex_ts) (M_frame 2 ex_xs) [[]])) h _ Eh). vm_compute. reflexivity. }
    destruct (acv_shap h (ex_order ex_ts) (M_frame 2 ex_xs) [[]]) as [res|e|]; [now exists res|discriminate|discriminate].
Qed.
Print Assumptions C133_default_refuted.
(** C133, refuted: no coalitions in the constructor, some in the call; both methods return, the first entries differ. *)
Theorem C133_groups_refuted : exists ts data zs X xs P C h o order q q', explained ts 1 2 2 2 data zs X xs 2 C P /\ room ts P /\
  construct_shap ex_listed ex_sig ts 1 false data = Some h /\ leaf_orders ts order /\ with_cache true true order [[]] h = Returned o /\
  corner (kept_shap o order X C) = Returned q /\ corner (acv_shap h order X C) = Returned q' /\ ~ (q == q')%Q.
Proof.
  destruct (construct_shap_some ex_listed ex_sig ex_ts 1 false 2 2 2 (M_list 2 ex_zs) ex_zs ex_listed_ok ex_ok) as [h Eh];
    [right; now left|discriminate|lia|].
  destruct (kept_same ex_listed ex_sig ex_ts 1 false 2 2 2 _ _ h _ _ _ _ _ ex_listed_ok ex_explained Eh true true (ex_order ex_ts) ex_room (ex_order_ok ex_ts)) as (o & Eo & _).
  exists ex_ts, (M_list 2 ex_zs), ex_zs, (M_frame 2 ex_xs), ex_xs, [[0; 1]], [[0; 1]], h, o, (ex_order ex_ts), (-6#5)%Q, (-7#10)%Q.
  split; [exact pair_explained|]. split; [exact pair_room|]. split; [exact Eh|]. split; [apply ex_order_ok|]. split; [exact Eo|]. split; [|split].
  - assert (E : (o <- with_cache true true (ex_order ex_ts) [[]] h ;; corner (kept_shap o (ex_order ex_ts) (M_frame 2 ex_xs) [[0; 1]])) = Returned (-6#5)%Q).
    { apply (on_shap_at _ _ (fun h => o <- with_cache true true (ex_order ex_ts) [[]] h ;; corner (kept_shap o (ex_order ex_ts) (M_frame 2 ex_xs) [[0; 1]])) h _ Eh). vm_compute. reflexivity. }
    rewrite Eo in E. exact E.
  - apply (on_shap_at _ _ (fun h => corner (acv_shap h (ex_order ex_ts) (M_frame 2 ex_xs) [[0; 1]])) h _ Eh). vm_compute. reflexivity.
  - unfold Qeq. cbn. lia.
Qed.
Print Assumptions C133_groups_refuted.

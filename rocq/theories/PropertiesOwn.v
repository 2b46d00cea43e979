(** C131: the active Shapley values of an [ACVTree] with one explanation per observation, from its trees to the array returned.
    [listed] lists a set in whatever order, [sig] is the logistic function; any functions.  None is the non-number. *)
From Verif Require Import Base TreeModel TreeSpec GameSpec ShapModel ShapSpec ShapProofs AcvModel AcvSpec AcvProofs FlatModel FlatSpec SkModel SkSpec SdpSpec SearchModel ClfModel ExplSpec ArrModel EntryModel EntrySpec
  SbufModel SbufSpec SbufProofs2 AbufModel AbufSpec AbufProofs4 ImpModel ImpSpec AdapModel AdapSpec OwnModel OwnSpec OwnProofs OwnProofs2 OwnProofs3
  PropertiesEntry PropertiesSbuf PropertiesAbuf PropertiesImp.
Local Open Scope nat_scope.

(** *** The small ensemble of [PropertiesEntry]: observations with both columns, the first column and both columns active *)
Definition ow_S : list (list Z) := [[0; 1]; [0; -1]; [0; 1]]%Z.
Definition ow_N : list (list Z) := [[-1; -1]; [-1; 1]; [-1; -1]]%Z.
Definition ow_A (i : nat) : list nat := nth i [[0; 1]; [0]; [0; 1]] [].
Definition ow_O (i : nat) : list nat := nth i [[]; [1]; []] [].
Definition ow_P (i : nat) : list (list nat) := map (fun c => [c]) (ow_A i).
Lemma ow_adapted : adapted ex_ts 1 2 2 2 (M_list 2 ex_zs) ex_zs (M_frame 2 ex_xs) ex_xs 2 [[]] (Z_array I64 2 ow_S) (Z_array I64 2 ow_N) (S_list [2; 1; 2]) ow_A ow_O ow_P.
Proof.
  assert (HP : is_players [[]] 2 [[0]; [1]]) by exact (va_ids_players [[]] 2 (no_groups 2)).
  assert (HE : forall x, explained ex_ts 1 2 2 2 (M_list 2 ex_zs) ex_zs (M_array F64 2 [x]) [x] 2 [[]] [[0]; [1]]).
  { intro x. split; [exact ex_ok|]. split; [right; now left|]. split; [right; right; now exists F64|]. split; [discriminate|]. split; [lia|].
    split; [apply no_groups|]. split; [discriminate|exact HP]. }
  split; [now left|]. split; [discriminate|]. split; [lia|]. exists 2, 2, ow_S, ow_N, [2; 1; 2].
  split; [right; right; now exists I64|]. split; [lia|]. split; [right; right; now exists I64|]. split; [lia|]. split; [discriminate|]. split; [now left|]. split; [reflexivity|].
  intros [|[|[|i]]] x Hx; cbn in Hx; [| | |destruct i; discriminate]; split; try reflexivity; split; cbn [ow_A nth length]; try lia; intro Hl; try apply HE; try discriminate; try (now contradiction Hl).
  split; [|exists [0; -1]%Z, [-1; 1]%Z; auto].
  destruct (ex_active2 ex_zs ltac:(discriminate)) as (B1 & B2 & _ & _ & B5). split; [exact B1|]. split; [exact B2|]. split; [right; right; now exists F64|]. split; [discriminate|]. exact B5.
Qed.
Lemma ow_room i : i < 3 -> room ex_ts (ow_P i).
Proof.
  intros Hi m j ps Hm Hj [Hn Hps]. exists 1, [1]. destruct ex_t2_leaf as [H1 H2]. split; [exact H1|]. split; [exact H2|]. cbn.
  change 2 with (length [[0]; [1]]). apply NoDup_incl_length; [exact Hn|]. intros g Hg. apply Hps in Hg. destruct Hg as [Hg _].
  destruct i as [|[|[|i]]]; [| | |lia]; cbn in Hg; intuition (subst; cbn; auto).
Qed.

(** ** C131 *)

(** [shap_values_acv_adap] returns for every observation exactly what the methods for one set of columns return when they are called with
    it alone: [shap_values] if all columns are active, otherwise [shap_values_acv] with the first entries of its row of [S_star]
    and the last entries of its row of [N_star]; and it returns exactly if they all do. *)
Theorem C131_rows : forall h order X S_star N_star size C m xs cs ss cn ns ks, is_table X m xs -> xs <> [] -> 0 < m ->
  is_ztable S_star cs ss -> 0 < cs -> is_ztable N_star cn ns -> 0 < cn -> ns <> [] -> is_sizes size ks -> length ss = length xs ->
  length xs <= length ks -> (forall i k, nth_error ks i = Some k -> i < length xs -> k <> m -> i < length ns) ->
  forall res, acv_own h order X S_star N_star size C = Returned res <->
    length res = length xs /\ forall i x, nth_error xs i = Some x -> exists table, nth_error res i = Some table /\
      alone h (order i) m C x (nth i ks 0) (nth i ss []) (nth i ns []) table.
Proof. exact own_is_alone. Qed.
Print Assumptions C131_rows.
(** [shap_values_acv_adap_nopa] is [shap_values_acv_adap] with the leaves in sequence: it has the same buffers. *)
Theorem C131_nopa : forall h X S_star N_star size C,
  acv_own_nopa h X S_star N_star size C = acv_own h (fun _ b => seq 0 (t_nb (o_tabs (h_acv h)) b)) X S_star N_star size C.
Proof. exact own_nopa. Qed.
Print Assumptions C131_nopa.
Example C131_rows_example :
  nreduced (on_shap ex_ts (M_list 2 ex_zs) (fun h => acv_own h (fun _ => ex_order ex_ts) (M_frame 2 ex_xs) (Z_array I64 2 ow_S) (Z_array I64 2 ow_N) (S_list [2; 1; 2]) [[]]))
    = Returned [[[Some (-11#30); Some (1#6)]; [Some (-1#3); Some (8#15)]]; [[Some (3#10); Some (-3#10)]; [Some 0; Some 0]];
                [[Some (-73#240); Some (17#48)]; [Some (17#48); Some (-97#240)]]]%Q /\
  nreduced (on_shap ex_ts (M_list 2 ex_zs) (fun h => acv_own_nopa h (M_frame 2 ex_xs) (Z_array I64 2 ow_S) (Z_array I64 2 ow_N) (S_list [2; 1; 2]) [[]]))
    = nreduced (on_shap ex_ts (M_list 2 ex_zs) (fun h => acv_own h (fun _ => ex_order ex_ts) (M_frame 2 ex_xs) (Z_array I64 2 ow_S) (Z_array I64 2 ow_N) (S_list [2; 1; 2]) [[]])) /\
  reduced (on_shap ex_ts (M_list 2 ex_zs) (fun h => acv_shap h (ex_order ex_ts) (M_array F64 2 [[1; 2]]%Q) [[]])) = Returned [[[-11#30; 1#6]; [-1#3; 8#15]]]%Q /\
  nreduced (on_shap ex_ts (M_list 2 ex_zs) (fun h => acv_active h (ex_order ex_ts) (M_array F64 2 [[0; 1]]%Q) (S_array I64 [0]) (S_array I64 [1]) [[]]))
    = Returned [[[Some (3#10); Some (-3#10)]; [Some 0; Some 0]]]%Q.
Proof. vm_compute. auto. Qed.

(** Both methods return, for every observation, column of one of its players and output, the Shapley value of the player in the
    observation's own game: the plug-in game where all columns are active, otherwise the game restricted to its active columns, in
    which its null columns are always given.  Missing: the buffers must have room for the players of every observation, see below. *)
Theorem C131_values_partial : forall listed sig ts stacked boosted d w k data zs h X xs m C S_star N_star size A O P, lists_set listed ->
  adapted ts stacked d w k data zs X xs m C S_star N_star size A O P -> construct_shap listed sig ts stacked boosted data = Some h ->
  forall o, called ts h X S_star N_star size C o -> (forall i, i < length xs -> room ts (P i)) ->
  entries_at o xs m k (fun i x f => forall j, j < k ->
    exists forest, forest_leaves (shared (raw_share stacked) ts j) = Some forest /\
    forall g c, In g (P i) -> In c g ->
      (length (A i) = m -> exists q, f c j = Some q /\ (q == shapley gdec (P i) (worth d (map point zs) forest (point x)) g)%Q) /\
      (length (A i) <> m -> c < d ->
        (countable d (O i) (map point zs) forest g -> exists q, f c j = Some q /\ (q == shapley gdec (P i) (worth_acv d (O i) (map point zs) forest (point x)) g)%Q) /\
        (~ countable d (O i) (map point zs) forest g -> f c j = None))).
Proof. exact own_values. Qed.
Print Assumptions C131_values_partial.
(** A column without a player gets zero, and no number where the observation has no player at all. *)
Theorem C131_nobody : forall listed sig ts stacked boosted d w k data zs h X xs m C S_star N_star size A O P, lists_set listed ->
  adapted ts stacked d w k data zs X xs m C S_star N_star size A O P -> construct_shap listed sig ts stacked boosted data = Some h ->
  forall o, called ts h X S_star N_star size C o -> (forall i, i < length xs -> room ts (P i)) ->
  entries_at o xs m k (fun i x f => forall c j, c < m -> j < k -> (forall g, In g (P i) -> ~ In c g) ->
    (P i <> [] -> exists q, f c j = Some q /\ (q == 0)%Q) /\ (P i = [] -> f c j = None)).
Proof. exact own_nobody. Qed.
Print Assumptions C131_nobody.
(** When every leaf holds a background row, the values of the players of an observation add up to the difference between its output and
    the mean output of the background. *)
Theorem C131_adds_up : forall listed sig ts stacked boosted d w k data zs h X xs m C S_star N_star size A O P, lists_set listed ->
  adapted ts stacked d w k data zs X xs m C S_star N_star size A O P -> construct_shap listed sig ts stacked boosted data = Some h ->
  forall o rep, called ts h X S_star N_star size C o -> (forall i, i < length xs -> room ts (P i)) ->
  (forall i g, In g (P i) -> In (rep i g) g /\ rep i g < d) -> filled ts zs ->
  entries_at o xs m k (fun i x f => P i <> [] -> forall j v vs, j < k -> adds_up (raw_share stacked) ts j x v -> Forall2 (adds_up (raw_share stacked) ts j) zs vs ->
    exists q, (forall g, In g (P i) -> f (rep i g) j = Some (q g)) /\ (sumf q (P i) == v - mean (fun v => v) vs)%Q).
Proof. exact own_adds. Qed.
Print Assumptions C131_adds_up.
Example C131_values_example : adapted ex_ts 1 2 2 2 (M_list 2 ex_zs) ex_zs (M_frame 2 ex_xs) ex_xs 2 [[]] (Z_array I64 2 ow_S) (Z_array I64 2 ow_N) (S_list [2; 1; 2]) ow_A ow_O ow_P /\
  (forall i, i < length ex_xs -> room ex_ts (ow_P i)) /\ filled ex_ts ex_zs /\ (forall i g, In g (ow_P i) -> In (hd 0 g) g /\ hd 0 g < 2) /\
  (exists h, construct_shap ex_listed ex_sig ex_ts 1 false (M_list 2 ex_zs) = Some h /\
    called ex_ts h (M_frame 2 ex_xs) (Z_array I64 2 ow_S) (Z_array I64 2 ow_N) (S_list [2; 1; 2]) [[]]
      (acv_own h (fun _ => ex_order ex_ts) (M_frame 2 ex_xs) (Z_array I64 2 ow_S) (Z_array I64 2 ow_N) (S_list [2; 1; 2]) [[]])).
Proof.
  split; [exact ow_adapted|]. split; [exact ow_room|]. split; [exact ex_filled|]. split.
  - intros i g Hg. apply in_map_iff in Hg. destruct Hg as (c & <- & Hc). split; [now left|].
    destruct i as [|[|[|i]]]; cbn in Hc; [| | |destruct i; contradiction]; intuition (subst; cbn; lia).
  - destruct ex_made as [h Eh]. exists h. split; [exact Eh|]. right. exists (fun _ => ex_order ex_ts). split; [intros _; apply ex_order_ok|reflexivity].
Qed.

(** Where one observation has more players at some leaf than one plus the features above every leaf of the last tree, both methods
    go outside their buffers, for all observations. *)
Theorem C131_stray : forall listed sig ts stacked boosted d w k data zs h X xs m C S_star N_star size A O P, lists_set listed ->
  adapted ts stacked d w k data zs X xs m C S_star N_star size A O P -> construct_shap listed sig ts stacked boosted data = Some h ->
  forall o i, called ts h X S_star N_star size C o -> i < length xs -> no_room ts (P i) -> o = Stray.
Proof. exact own_stray. Qed.
Print Assumptions C131_stray.
Definition ow_S3 : list (list Z) := [[0; 1; 2]]%Z.
Definition ow_N3 : list (list Z) := [[-1; -1; -1]]%Z.
Lemma ow_uneven : adapted ex_uneven 1 3 1 1 (M_list 3 ex_zs3) ex_zs3 (M_list 3 [[1; 1; 1]]%Q) [[1; 1; 1]]%Q 3 [[]]
  (Z_array I64 3 ow_S3) (Z_array I64 3 ow_N3) (S_list [3]) (fun _ => [0; 1; 2]) (fun _ => []) (fun _ => [[0]; [1]; [2]]).
Proof.
  split; [right; now left|]. split; [discriminate|]. split; [lia|]. exists 3, 3, ow_S3, ow_N3, [3].
  split; [right; right; now exists I64|]. split; [lia|]. split; [right; right; now exists I64|]. split; [lia|]. split; [discriminate|]. split; [now left|]. split; [reflexivity|].
  intros [|[|i]] x Hx; try discriminate. split; [reflexivity|]. split; [|contradiction]. intros _.
  destruct ex_uneven_explained as (B1 & B2 & _ & _ & B5). split; [exact B1|]. split; [exact B2|]. split; [right; right; now exists F64|]. split; [discriminate|]. exact B5.
Qed.
(** C131, refuted: one observation, all columns active, a deeper tree before the last one: unlike [shap_values_nopa], the variant without
    parallel loops does not return either. *)
Theorem C131_buffers_refuted : exists ts data zs X xs S_star N_star size A O P h, adapted ts 1 3 1 1 data zs X xs 3 [[]] S_star N_star size A O P /\
  construct_shap ex_listed ex_sig ts 1 false data = Some h /\
  acv_own_nopa h X S_star N_star size [[]] = Stray /\ exists res, acv_shap_nopa h X [[]] = Returned res.
Proof.
  destruct (construct_shap_some ex_listed ex_sig ex_uneven 1 false 3 1 1 (M_list 3 ex_zs3) ex_zs3 ex_listed_ok ex_uneven_ok) as [h Eh];
    [right; now left|discriminate|lia|].
  exists ex_uneven, (M_list 3 ex_zs3), ex_zs3, (M_list 3 [[1; 1; 1]]%Q), [[1; 1; 1]]%Q, (Z_array I64 3 ow_S3), (Z_array I64 3 ow_N3), (S_list [3]),
    (fun _ => [0; 1; 2]), (fun _ => []), (fun _ => [[0]; [1]; [2]]), h.
  split; [exact ow_uneven|]. split; [exact Eh|]. split.
  - apply (own_stray ex_listed ex_sig ex_uneven 1 false 3 1 1 _ _ h _ _ _ _ _ _ _ _ _ _ ex_listed_ok ow_uneven Eh _ 0); [now left|cbn; lia|exact ex_uneven_no_room].
  - assert (HE : explained ex_uneven 1 3 1 1 (M_list 3 ex_zs3) ex_zs3 (M_list 3 [[1; 1; 1]]%Q) [[1; 1; 1]]%Q 3 [[]] [[0]; [1]; [2]]).
    { destruct ex_uneven_explained as (B1 & B2 & _ & _ & B5). split; [exact B1|]. split; [exact B2|]. split; [right; now left|]. split; [discriminate|]. exact B5. }
    destruct (C125_sequential ex_listed ex_sig ex_uneven 1 false 3 1 1 _ _ h _ _ _ _ _ ex_listed_ok HE Eh) as (res & E & _). now exists res.
Qed.
Print Assumptions C131_buffers_refuted.

(** A negative entry among the entries of a row of [N_star] from the size on, or a row of [N_star] that does not exist, is read
    outside the arrays. *)
Theorem C131_filler : forall h X S_star N_star size C m xs cs ss cn ns ks i k, is_table X m xs -> xs <> [] -> 0 < m ->
  is_ztable S_star cs ss -> 0 < cs -> is_ztable N_star cn ns -> 0 < cn -> ns <> [] -> is_sizes size ks -> ks <> [] -> length ss = length xs -> i < length xs ->
  nth_error ks i = Some k -> k <> m ->
  (nth_error ns i = None \/ exists n z, nth_error ns i = Some n /\ In z (skipn k n) /\ (z < 0)%Z) ->
  forall order, acv_own h order X S_star N_star size C = Stray /\ acv_own_nopa h X S_star N_star size C = Stray.
Proof. exact own_one_wrong. Qed.
Print Assumptions C131_filler.
(** The documentation says that the first entries of a row of [N_star] are the null columns: rows written like this, with negative
    entries behind, are read outside the arrays as soon as one observation has some but not all columns active. *)
Theorem C131_documented : forall h X S_star N_star size C m xs cs ss ns ks i (s : list nat), is_table X m xs -> xs <> [] -> 0 < m ->
  is_ztable S_star cs ss -> 0 < cs -> is_ztable N_star m ns -> is_sizes size ks -> length ss = length xs -> i < length xs ->
  nth_error ks i = Some (length s) -> 0 < length s -> length s < m -> forall o, length o = m - length s ->
  nth_error ns i = Some (map Z.of_nat o ++ repeat (-1)%Z (length s)) ->
  forall order, acv_own h order X S_star N_star size C = Stray /\ acv_own_nopa h X S_star N_star size C = Stray.
Proof. exact own_documented. Qed.
Print Assumptions C131_documented.
(** C131, refuted: one observation, its first column active; written as documented the call goes outside the arrays, with the null
    column last it returns. *)
Theorem C131_documented_refuted : exists ts data X h, construct_shap ex_listed ex_sig ts 1 false data = Some h /\
  acv_own_nopa h X (Z_array I64 2 [[0; -1]]%Z) (Z_array I64 2 [[1; -1]]%Z) (S_array I64 [1]) [[]] = Stray /\
  nreduced (acv_own_nopa h X (Z_array I64 2 [[0; -1]]%Z) (Z_array I64 2 [[-1; 1]]%Z) (S_array I64 [1]) [[]]) = Returned [[[Some (3#10); Some (-3#10)]; [Some 0; Some 0]]]%Q.
Proof.
  destruct ex_made as [h Eh]. exists ex_ts, (M_list 2 ex_zs), (M_list 2 [[0; 1]]%Q), h. split; [exact Eh|]. split.
  - refine (proj2 (own_documented h (M_list 2 [[0; 1]]%Q) _ _ _ [[]] 2 [[0; 1]]%Q 2 [[0; -1]]%Z [[1; -1]]%Z [1] 0 [0] _ _ _ _ _ _ _ _ _ _ _ _ [1] _ _ (fun _ _ => [])));
      cbn; try lia; try reflexivity; try discriminate; [right; now left|right; right; now exists I64|right; right; now exists I64|right; now left].
  - apply (on_it ex_ts (M_list 2 ex_zs) (fun h => acv_own_nopa h (M_list 2 [[0; 1]]%Q) (Z_array I64 2 [[0; -1]]%Z) (Z_array I64 2 [[-1; 1]]%Z) (S_array I64 [1]) [[]]) _ h _ Eh).
    vm_compute. reflexivity.
Qed.
Print Assumptions C131_documented_refuted.
(** Only the length of [S_star] is compared with the number of observations: too few sizes are read outside the array. *)
Theorem C131_no_size : forall h X S_star N_star size C m xs cs ss cn ns ks, is_table X m xs -> xs <> [] -> 0 < m ->
  is_ztable S_star cs ss -> 0 < cs -> is_ztable N_star cn ns -> 0 < cn -> ns <> [] -> is_sizes size ks -> ks <> [] -> length ss = length xs -> length ks < length xs ->
  forall order, acv_own h order X S_star N_star size C = Stray /\ acv_own_nopa h X S_star N_star size C = Stray.
Proof. exact own_no_size. Qed.
Print Assumptions C131_no_size.
(** C131, refuted: [S_star] with too few rows is an error, [N_star] or [size] with too few is read outside the array. *)
Theorem C131_length_refuted : exists ts data X h, construct_shap ex_listed ex_sig ts 1 false data = Some h /\
  acv_own_nopa h X (Z_list 2 [[0; -1]]%Z) (Z_list 2 [[-1; 1]; [-1; 1]]%Z) (S_list [1; 1]) [[]] = Raised EValue /\
  acv_own_nopa h X (Z_list 2 [[0; -1]; [0; -1]]%Z) (Z_list 2 [[-1; 1]]%Z) (S_list [1; 1]) [[]] = Stray /\
  acv_own_nopa h X (Z_list 2 [[0; -1]; [0; -1]]%Z) (Z_list 2 [[-1; 1]; [-1; 1]]%Z) (S_list [1]) [[]] = Stray.
Proof.
  destruct ex_made as [h Eh]. exists ex_ts, (M_list 2 ex_zs), (M_list 2 [[0; 1]; [1; 0]]%Q), h. split; [exact Eh|]. split; [reflexivity|]. split.
  - refine (proj2 (own_one_wrong h (M_list 2 [[0; 1]; [1; 0]]%Q) _ _ _ [[]] 2 [[0; 1]; [1; 0]]%Q 2 [[0; -1]; [0; -1]]%Z 2 [[-1; 1]]%Z [1; 1] 1 1 _ _ _ _ _ _ _ _ _ _ _ _ _ _ _ (fun _ _ => [])));
      cbn; try lia; try reflexivity; try discriminate; [right; now left|right; now left|right; now left|now left|now left].
  - refine (proj2 (own_no_size h (M_list 2 [[0; 1]; [1; 0]]%Q) _ _ _ [[]] 2 [[0; 1]; [1; 0]]%Q 2 [[0; -1]; [0; -1]]%Z 2 [[-1; 1]; [-1; 1]]%Z [1] _ _ _ _ _ _ _ _ _ _ _ _ (fun _ _ => [])));
      cbn; try lia; try reflexivity; try discriminate; [right; now left|right; now left|right; now left|now left].
Qed.
Print Assumptions C131_length_refuted.
(** The errors, in the order in which they are raised. *)
Theorem C131_errors : forall h X S_star N_star size C m xs cs ss cn ns order,
  let both o := acv_own h order X S_star N_star size C = o /\ acv_own_nopa h X S_star N_star size C = o in
  (forall dt l, X = M_vector dt l -> both (Raised EValue)) /\
  (is_table X m xs -> xs = [] \/ m = 0 -> both (Raised EValue)) /\
  (is_table X m xs -> xs <> [] -> 0 < m -> (forall dt l, S_star = Z_vector dt l -> both (Raised EValue)) /\
   (is_ztable S_star cs ss -> ss = [] \/ cs = 0 -> both (Raised EValue)) /\
   (is_ztable S_star cs ss -> ss <> [] -> 0 < cs -> (forall dt l, N_star = Z_vector dt l -> both (Raised EValue)) /\
    (is_ztable N_star cn ns -> ns = [] \/ cn = 0 -> both (Raised EValue)) /\
    (is_ztable N_star cn ns -> ns <> [] -> 0 < cn ->
      (length ss <> length xs -> both (Raised EValue)) /\
      (length ss = length xs -> size = S_list [] \/ (exists dt l, dt <> I64 /\ (size = S_array dt l \/ size = S_column dt l)) -> both (Raised EValue))))).
Proof. exact own_errors. Qed.
Print Assumptions C131_errors.
Example C131_errors_example : is_table (M_frame 2 ex_xs) 2 ex_xs /\ is_ztable (Z_frame 2 ow_S) 2 ow_S /\ is_ztable (Z_list 2 ow_N) 2 ow_N /\
  on_shap ex_ts (M_list 2 ex_zs) (fun h => acv_own_nopa h (M_frame 2 ex_xs) (Z_frame 2 ow_S) (Z_list 2 ow_N) (S_array F64 [2; 1; 2]) [[]]) = Raised EValue.
Proof. split; [now left|]. split; [now left|]. split; [right; now left|]. vm_compute. reflexivity. Qed.

(** The pipeline of the documentation: the explanations [importance_sdp_clf] of the same object returns, turned into null columns by [get_null_coalition], are
    handed to either method.  [get_null_coalition] returns, and every observation gets, for the columns of its explanation, numbers that add up to its output
    minus the mean output of the background, zero for the other columns, and no number at all if its explanation is empty. *)
Theorem C131_pipeline : forall listed sig ts stacked boosted d w k h proba X data xs zs fX ys,
  explainable listed sig ts stacked boosted d w k h proba X data xs zs fX ys [[]] ->
  forall by_count, counted (flat_list h) (by_count (flat_list h)) -> forall sched pi minimal stop e, all_leaves ts sched -> (0 < pi)%Q ->
  acv_explain h proba sched by_count X data [[]] pi minimal stop = Returned e ->
  forall data0 zs0, is_table data0 d zs0 -> construct_shap listed sig ts stacked boosted data0 = Some h ->
  exists Ns, get_null_coalition d (e_index e) (e_size e) = Some Ns /\
  forall o, called ts h X (Z_array I64 d (e_index e)) (Z_array I64 d Ns) (S_array I64 (e_size e)) [[]] o ->
  room ts (map (fun c => [c]) (seq 0 d)) -> filled ts zs0 ->
  entries_at o xs d k (fun i x f => exists A, columns_ok d A /\ nth_error (e_size e) i = Some (length A) /\
    (exists row, nth_error (e_index e) i = Some row /\ firstn (length A) row = map Z.of_nat A) /\
    (A = [] -> forall c j, c < d -> j < k -> f c j = None) /\
    (A <> [] -> (forall c j, c < d -> j < k -> ~ In c A -> exists q, f c j = Some q /\ (q == 0)%Q) /\
       forall j v vs, j < k -> adds_up (raw_share stacked) ts j x v -> Forall2 (adds_up (raw_share stacked) ts j) zs0 vs ->
       exists q, (forall c, In c A -> f c j = Some (q c)) /\ (sumf q A == v - mean (fun v => v) vs)%Q)).
Proof. exact pipeline. Qed.
Print Assumptions C131_pipeline.
(** the explanations, then the values: *)
Definition ow_run (pi : Q) (minimal : nat) (stop : bool) (h : shap_acv) : outcome (list (list (list (option Q)))) :=
  match acv_explain h ex_proba (ex_leaves ex_ts) ex_count (M_frame 2 ex_xs) (M_list 2 ex_zs) [[]] pi minimal stop with
  | Returned e => match get_null_coalition 2 (e_index e) (e_size e) with
    | Some Ns => acv_own h (fun _ => ex_order ex_ts) (M_frame 2 ex_xs) (Z_array I64 2 (e_index e)) (Z_array I64 2 Ns) (S_array I64 (e_size e)) [[]] | None => Stray end
  | Raised e => Raised e | Stray => Stray end.
Example C131_pipeline_example :
  (exists h, construct_shap ex_listed ex_sig ex_ts 1 false (M_list 2 ex_zs) = Some h /\
    explainable ex_listed ex_sig ex_ts 1 false 2 2 2 h ex_proba (M_frame 2 ex_xs) (M_list 2 ex_zs) ex_xs ex_zs [1; 0; 0] [0; 0; 0; 1; 1] [[]] /\
    counted (flat_list h) (ex_count (flat_list h))) /\ all_leaves ex_ts (ex_leaves ex_ts) /\
  room ex_ts (map (fun c => [c]) (seq 0 2)) /\ filled ex_ts ex_zs /\
  nreduced (on_shap ex_ts (M_list 2 ex_zs) (ow_run (9#10) 1 false))
    = Returned [[[Some (-11#30); Some (1#6)]; [Some (-1#3); Some (8#15)]]; [[Some (3#10); Some (-3#10)]; [Some 0; Some 0]];
                [[Some (-73#240); Some (17#48)]; [Some (17#48); Some (-97#240)]]]%Q.
Proof.
  split. { destruct (ex_explainable (M_frame 2 ex_xs) (M_list 2 ex_zs)) as (h & E1 & E2); [now left|right; now left|].
    exists h. split; [exact E1|]. split; [exact E2|apply ex_count_ok]. }
  split; [apply ex_leaves_ok|]. split; [exact (ow_room 0 ltac:(lia))|]. split; [exact ex_filled|]. vm_compute. reflexivity.
Qed.
(** C131, refuted: explanations may be empty when the search starts with [minimal = 0]; such observations get no numbers, although their
    outputs differ from the mean. *)
Theorem C131_empty_refuted : exists h e Ns, construct_shap ex_listed ex_sig ex_ts 1 false (M_list 2 ex_zs) = Some h /\
  explainable ex_listed ex_sig ex_ts 1 false 2 2 2 h ex_proba (M_frame 2 ex_xs) (M_list 2 ex_zs) ex_xs ex_zs [1; 0; 0] [0; 0; 0; 1; 1] [[]] /\
  acv_explain h ex_proba (ex_leaves ex_ts) ex_count (M_frame 2 ex_xs) (M_list 2 ex_zs) [[]] (1#2) 0 true = Returned e /\
  get_null_coalition 2 (e_index e) (e_size e) = Some Ns /\
  nreduced (acv_own h (fun _ => ex_order ex_ts) (M_frame 2 ex_xs) (Z_array I64 2 (e_index e)) (Z_array I64 2 Ns) (S_array I64 (e_size e)) [[]])
   = Returned [[[Some 0; Some 0]; [Some (-7#10); Some (7#10)]]; [[None; None]; [None; None]]; [[None; None]; [None; None]]]%Q.
Proof.
  destruct (ex_explainable (M_frame 2 ex_xs) (M_list 2 ex_zs)) as (h & Eh & HE); [now left|right; now left|].
  assert (E : nreduced (ow_run (1#2) 0 true h)
   = Returned [[[Some 0; Some 0]; [Some (-7#10); Some (7#10)]]; [[None; None]; [None; None]]; [[None; None]; [None; None]]]%Q).
  { apply (on_it ex_ts (M_list 2 ex_zs) (ow_run (1#2) 0 true) _ h _ Eh). vm_compute. reflexivity. }
  unfold ow_run in E.
  destruct (acv_explain h ex_proba (ex_leaves ex_ts) ex_count (M_frame 2 ex_xs) (M_list 2 ex_zs) [[]] (1#2) 0 true) as [e| |] eqn:Ee; [|discriminate E|discriminate E].
  destruct (get_null_coalition 2 (e_index e) (e_size e)) as [Ns|] eqn:En; [|discriminate E].
  exists h, e, Ns. split; [exact Eh|]. split; [exact HE|]. split; [exact Ee|]. split; [exact En|exact E].
Qed.
Print Assumptions C131_empty_refuted.

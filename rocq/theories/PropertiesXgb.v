(** Properties of the reader of binary XGBoost models (base_tree.py, [XGBTreeModelLoader]). *)
From Verif Require Import Base TreeModel XgbModel XgbSpec XgbProofs.

(** * C47: binary models are parsed back to what was written *)

(** Full claim: for every model, [parse (binf ++ write m ...) = Some m].  Proved when the
    low byte of the base score is none of the letters b, i, n, f; with or without header. *)
Theorem C47_parse_partial : forall m r1 r2 pads rest, model_ok m -> pads_ok m r1 r2 pads ->
  ~ In (m_base m mod 256)%Z binf ->
  parse (write m r1 r2 pads rest) = Some m /\ parse (binf ++ write m r1 r2 pads rest) = Some m.
Proof. exact parse_write. Qed.
Print Assumptions C47_parse_partial.
(** Exactly these models are recovered: [lstrip] eats the low byte of the others. *)
Theorem C47_exact : forall m r1 r2 pads rest, model_ok m -> pads_ok m r1 r2 pads ->
  Forall is_byte (write m r1 r2 pads rest) ->
  (parse (binf ++ write m r1 r2 pads rest) = Some m <-> ~ In (m_base m mod 256)%Z binf).
Proof. exact parse_exact. Qed.
Print Assumptions C47_exact.
Theorem C47_parse_refuted : exists m r1 r2 pads rest, model_ok m /\ pads_ok m r1 r2 pads /\
  Forall is_byte (write m r1 r2 pads rest) /\ parse (binf ++ write m r1 r2 pads rest) <> Some m.
Proof. exact parse_refuted. Qed.
Print Assumptions C47_parse_refuted.
(** Conversely every buffer that is accepted is a written model, after letters of the header. *)
Theorem C47_sound : forall raw m, Forall is_byte raw -> parse raw = Some m ->
  model_ok m /\ exists h r1 r2 pads rest, Forall (fun b => In b binf) h /\ pads_ok m r1 r2 pads /\
    raw = h ++ write m r1 r2 pads rest.
Proof. exact parse_inv. Qed.
Print Assumptions C47_sound.
(** The default direction and the column packed in one word are recovered. *)
Theorem C47_packed : forall n dl c, (0 <= c < 2 ^ 31)%Z -> x_sindex n = packed dl c ->
  x_feature n = c /\ x_default n = (if dl then x_cleft n else x_cright n).
Proof. exact packed_bits. Qed.
Print Assumptions C47_packed.

Definition ex_tree : xtree :=
  mkXtree 1 3 0 1 2 0
    [mkXnode (-1) 1 2 (packed true 5) 1069547520; mkXnode (-2147483648) (-1) (-1) 0 3212836864;
     mkXnode 0 (-1) (-1) 0 1073741824]
    [mkXstat 1090519040 1077936128 0 (-1); mkXstat 0 1065353216 0 0; mkXstat 0 1073741824 0 7].
Definition ex_model : xmodel :=
  mkXmodel 1056964608 6 0 0 1 [114; 101; 103; 58; 115]%Z gbtree 2 0 6 0 0 1 0 [ex_tree; ex_tree].
Example C47_example :
  model_ok ex_model /\ pads_ok ex_model (repeat 7%Z 116) (repeat 0%Z 128) [repeat 1%Z 124; repeat 2%Z 124] /\
  ~ In (m_base ex_model mod 256)%Z binf /\
  parse (binf ++ write ex_model (repeat 7%Z 116) (repeat 0%Z 128) [repeat 1%Z 124; repeat 2%Z 124] [9%Z]) = Some ex_model.
Proof.
  assert (Ht : tree_ok ex_tree).
  { unfold tree_ok, int32; cbn [ex_tree t_roots t_num t_deleted t_depth t_features t_vector t_nodes t_stats length].
    repeat split; try lia; repeat constructor; cbn; try lia. }
  split; [|split; [|split; [|vm_compute; reflexivity]]].
  - unfold model_ok, int32, uint32, uint64. cbn [ex_model m_base m_features m_class m_extra m_metrics m_obj m_gbm m_num
      m_roots m_features2 m_pad m_pbuffer m_group m_vector m_trees length].
    repeat split; try lia. constructor; [exact Ht|constructor; [exact Ht|constructor]].
  - unfold pads_ok. repeat split. repeat constructor.
  - cbn. lia.
Qed.
(** A truncated buffer is refused. *)
Example C47_truncated : forall k,
  k = 300 -> parse (firstn k (binf ++ write ex_model (repeat 7%Z 116) (repeat 0%Z 128) [repeat 1%Z 124; repeat 2%Z 124] [])) = None.
Proof. intros k ->. vm_compute. reflexivity. Qed.

(** * C83: trees loaded from the binary form predict like XGBoost *)

(** Full claim: the loaded tree gives the leaf of XGBoost for every observation.  Proved
    for observations made of 32-bit numbers (and missing values), whatever the
    order of the nodes. *)
Theorem C83_leaf_partial : forall t x miss i k, nodes_ok (t_nodes t) -> (forall c, finite (x c)) ->
  i < length (t_nodes t) ->
  ((exists fuel, walk fuel (fst (x_tree t)) (fun c => f_num (x c)) miss i = Some k) <->
   reaches (t_nodes t) x miss i k).
Proof. exact xgb_walk. Qed.
Print Assumptions C83_leaf_partial.
(** With children numbered after their parent the prediction ends on a leaf and is its value. *)
Theorem C83_predicts_partial : forall t x miss, nodes_ok (t_nodes t) -> forward (t_nodes t) -> t_nodes t <> [] ->
  (forall c, finite (x c)) ->
  exists k n q, reaches (t_nodes t) x miss 0 k /\ nth_error (t_nodes t) k = Some n /\
    predict_value (fst (x_tree t)) (fun c => f_num (x c)) miss = Some q /\ (q == f_num (x_info n))%Q.
Proof. exact xgb_predicts. Qed.
Print Assumptions C83_predicts_partial.
(** The threshold moved to the next number below separates the 32-bit numbers as [<] does. *)
Theorem C83_threshold : forall v p, finite v -> finite p -> finite (f_prev p) ->
  ((f_num v <= f_num (f_prev p))%Q <-> (f_num v < f_num p)%Q).
Proof. exact prev_test. Qed.
Print Assumptions C83_threshold.
(** Cells of an inner node. *)
Theorem C83_cells : forall t i n dl c, nth_error (t_nodes t) i = Some n -> x_sindex n = packed dl (Z.of_nat c) ->
  (Z.of_nat c < 2 ^ 31)%Z -> x_cleft n <> (-1)%Z ->
  let T := fst (x_tree t) in
  clz T i = x_cleft n /\ crz T i = x_cright n /\ cdz T i = (if dl then clz T i else crz T i) /\ ftn T i = c.
Proof. exact xgb_cells. Qed.
Print Assumptions C83_cells.
(** A 64-bit value that XGBoost rounds to the number below the threshold is sent to the other side. *)
Theorem C83_double_refuted : exists t v p k q n, nodes_ok (t_nodes t) /\ forward (t_nodes t) /\ nearest v p /\
  reaches (t_nodes t) (fun _ => p) (fun _ => false) 0 k /\ nth_error (t_nodes t) k = Some n /\
  predict_value (fst (x_tree t)) (fun _ => v) (fun _ => false) = Some q /\ ~ (q == f_num (x_info n))%Q.
Proof. exact double_refuted. Qed.
Print Assumptions C83_double_refuted.

(** 1069547520 is 3/2 and 1069547519 the number below: it goes left (value -1), 3/2 goes
    right (value 2), a missing value follows the default, left. *)
Example C83_example : nodes_ok (t_nodes ex_tree) /\ forward (t_nodes ex_tree) /\ finite 1069547519 /\
  (f_num 1069547520 == 3#2)%Q /\
  reaches (t_nodes ex_tree) (fun _ => 1069547519%Z) (fun _ => false) 0 1 /\
  (exists q, predict_value (fst (x_tree ex_tree)) (fun _ => f_num 1069547519) (fun _ => false) = Some q /\ q == -1)%Q /\
  (exists q, predict_value (fst (x_tree ex_tree)) (fun _ => 3#2)%Q (fun _ => false) = Some q /\ q == 2)%Q /\
  (exists q, predict_value (fst (x_tree ex_tree)) (fun _ => 3#2)%Q (fun _ => true) = Some q /\ q == -1)%Q /\
  map Qred (snd (x_tree ex_tree)) = [3; 1; 2]%Q.
Proof.
  split; [|split; [|split; [|split; [|split; [|split; [|split; [|split]]]]]]].
  - unfold nodes_ok, uint32, finite; cbn [ex_tree t_nodes length]. repeat (constructor; [cbn; lia|]). constructor.
  - intros [|[|[|[|i]]]] n H; cbn in H; try discriminate; injection H as <-; cbn; lia.
  - unfold finite. lia.
  - vm_compute. reflexivity.
  - eapply re_step with (j := 1); [reflexivity|cbn; lia| |eapply re_leaf; reflexivity].
    exists true, 5. split; [reflexivity|]. split; [reflexivity|]. cbn [x_info x_cleft].
    left. split; [vm_compute; reflexivity|reflexivity].
  - eexists. split; [vm_compute; reflexivity|]. vm_compute. reflexivity.
  - eexists. split; [vm_compute; reflexivity|]. vm_compute. reflexivity.
  - eexists. split; [vm_compute; reflexivity|]. vm_compute. reflexivity.
  - vm_compute. reflexivity.
Qed.

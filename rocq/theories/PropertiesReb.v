(** C109: trees read again on data. *)
From Verif Require Import Base TreeModel TreeSpec PropertiesTree RebModel RebSpec RebProofs.
Local Open Scope nat_scope.

(** After the rebuild the weight of a node is the number of rows that pass it and its value the mean of their targets
    (nothing when no row passes); outputs that are not written keep their old value. *)
Theorem C109_rebuild : forall t d every rows st, wf_tree t d = true ->
  exists w v, rebuild t every (nn t) 0 rows st = Some (w, v) /\
    (forall j, j < nn t -> exists l, rows_at t rows j l /\ w j = length l /\
       forall k, (every = true \/ k = 0) -> mean_is (v j k) (map (fun r => snd r k) l)) /\
    (forall j k, every = false -> k <> 0 -> v j k = snd st j k).
Proof. exact rebuild_spec. Qed.
Print Assumptions C109_rebuild.
Definition ex_rows : list obs :=
  map (fun q => ((fun f => nth f (fst q) 0%Q), (fun k => nth k (snd q) 0%Q)))
    [([0; 0; 0], [4; 1]); ([2; 3; 7], [6; 1]); ([2; 9; 7], [5; 3]); ([2; 1; 8], [7; 5])]%Q.
Definition ex_blank : node_state := (fun _ => 0, fun _ _ => Some 0%Q).
Definition ex_red (o : option Q) : option Q := match o with Some q => Some (Qred q) | None => None end.
(** the nodes of three nested splits: 0, then its leaf 1, and so on *)
Example C109_rebuild_example : wf_tree ex_deep 3 = true /\
  match rebuild ex_deep true 7 0 ex_rows ex_blank with
  | Some (w, v) => map w (seq 0 7) = [4; 1; 3; 2; 1; 1; 0] /\
      map (fun j => ex_red (v j 0)) (seq 0 7) = [Some (11 # 2); Some 4; Some 6; Some (13 # 2); Some 5; Some 5; None]%Q /\
      map (fun j => ex_red (v j 1)) (seq 0 7) = [Some (5 # 2); Some 1; Some 3; Some 3; Some 3; Some 3; None]%Q
  | None => False end.
Proof. vm_compute. repeat split. Qed.

(** The weights are those of the compiled routine. *)
Theorem C109_weights : forall t d every rows st w v, wf_tree t d = true -> rebuild t every (nn t) 0 rows st = Some (w, v) ->
  forall j, j < nn t -> (Qn (w j) == update_weights t (map (fun r => (fst r, no_missing)) rows) (fun _ => 0%Q) j)%Q.
Proof. exact rebuild_weights. Qed.
Print Assumptions C109_weights.
Example C109_weights_example :
  map (update_weights ex_deep (map (fun r : obs => (fst r, no_missing)) ex_rows) (fun _ => 0%Q)) (seq 0 7) = [4; 1; 3; 2; 1; 1; 0]%Q.
Proof. vm_compute. reflexivity. Qed.

(** The predictions of the rebuilt tree on the rows are numbers and have the total of the targets. *)
Theorem C109_total : forall t d every rows st w v k, wf_tree t d = true -> rebuild t every (nn t) 0 rows st = Some (w, v) ->
  (every = true \/ k = 0) ->
  exists p : obs -> Q, (forall r, In r rows -> exists l, predict_leaf t (fst r) no_missing = Some l /\ v l k = Some (p r)) /\
    (sumf p rows == sumf (fun r => snd r k) rows)%Q.
Proof. exact rebuild_total. Qed.
Print Assumptions C109_total.
Example C109_total_example :
  match rebuild ex_deep true 7 0 ex_rows ex_blank with
  | Some (w, v) => map (fun r : obs => match predict_leaf ex_deep (fst r) no_missing with Some l => ex_red (v l 0) | None => None end) ex_rows
                   = [Some 4; Some (13 # 2); Some 5; Some (13 # 2)]%Q
  | None => False end.
Proof. vm_compute. reflexivity. Qed.

(** A node holds the rows of its two children and their weighted mean. *)
Theorem C109_balance : forall t d every rows st w v k i, wf_tree t d = true -> rebuild t every (nn t) 0 rows st = Some (w, v) ->
  (every = true \/ k = 0) -> i < nn t -> leaf_node t i = false ->
  let wv j := match v j k with Some m => (Qn (w j) * m)%Q | None => 0%Q end in
  w i = w (Z.to_nat (clz t i)) + w (Z.to_nat (crz t i)) /\ (wv i == wv (Z.to_nat (clz t i)) + wv (Z.to_nat (crz t i)))%Q.
Proof. exact rebuild_balance. Qed.
Print Assumptions C109_balance.
Example C109_balance_example : 2 < nn ex_deep /\ leaf_node ex_deep 2 = false /\ rebuild ex_deep true (nn ex_deep) 0 ex_rows ex_blank <> None.
Proof. split; [vm_compute; repeat constructor|]. split; [reflexivity|]. destruct (C109_rebuild ex_deep 3 true ex_rows ex_blank eq_refl) as [w [v [-> _]]]. discriminate. Qed.

(** A rebuilt tree predicts no number where no row arrived. *)
Theorem C109_number_refuted : exists t d rows st w v x l, wf_tree t d = true /\ rows <> [] /\
  rebuild t true (nn t) 0 rows st = Some (w, v) /\ predict_leaf t x no_missing = Some l /\ v l 0 = None.
Proof.
  destruct (C109_rebuild ex_deep 3 true ex_rows ex_blank eq_refl) as [w [v [E [H _]]]].
  exists ex_deep, 3, ex_rows, ex_blank, w, v, (fun _ => 9%Q), 6. split; [reflexivity|]. split; [discriminate|]. split; [exact E|]. split; [vm_compute; reflexivity|].
  pose proof (f_equal (fun o : option node_state => match o with Some st => snd st 6 0 | None => Some 0%Q end) E) as Hv. vm_compute in Hv. symmetry. exact Hv.
Qed.
Print Assumptions C109_number_refuted.
(** The version for one output leaves the other outputs as they were. *)
Theorem C109_outputs_refuted : exists t d rows st w v l, wf_tree t d = true /\ rebuild t false (nn t) 0 rows st = Some (w, v) /\
  rows_at t rows 0 l /\ ~ mean_is (v 0 1) (map (fun r => snd r 1) l).
Proof.
  destruct (C109_rebuild ex_deep 3 false ex_rows ex_blank eq_refl) as [w [v [E [H K]]]].
  exists ex_deep, 3, ex_rows, ex_blank, w, v, ex_rows. split; [reflexivity|]. split; [exact E|]. split.
  - exists (fun _ => true). split; [intro r; split; [constructor|reflexivity]|reflexivity].
  - rewrite (K 0 1 eq_refl ltac:(discriminate)). intros [_ H1]. vm_compute in H1. discriminate H1.
Qed.
Print Assumptions C109_outputs_refuted.

(** The rectangle collected from the leaf upwards is the rectangle of the explainer, and holds the points that reach it. *)
Theorem C109_partition : forall t d i, wf_tree t d = true -> i < nn t ->
  exists q, get_partition_tree (nn t) t i parts0 = Some q /\
    (forall lf, leaf_of t i = Some lf -> forall g, final_partition q g = l_rect lf g) /\
    (forall x, inside_on (seq 0 d) (final_partition q) x <-> visits t x no_missing i).
Proof. exact partition_spec. Qed.
Print Assumptions C109_partition.
Theorem C109_row : forall x p Sv, nb_row x p Sv = true <-> inside_on Sv p x.
Proof. exact nb_row_spec. Qed.
Print Assumptions C109_row.
Example C109_partition_example :
  match get_partition_tree 7 ex_deep 5 parts0 with
  | Some q => map (final_partition q) (seq 0 3) = [(Fin 1, PInf); (Fin 3, PInf); (NInf, Fin 7)]%Q /\
              nb_row (fun _ => 4%Q) (final_partition q) [0; 1; 2] = true /\ nb_row (fun _ => 3%Q) (final_partition q) [0; 1; 2] = false
  | None => False end.
Proof. vm_compute. repeat split. Qed.

(** Off the lower bounds the rows counted for a leaf are those inside its rectangle on the columns, and on all the
    columns the weight of the rebuilt leaf.  The full statement, for every row, is refuted below. *)
Theorem C109_proba_partial : forall t d i lf data Sv, wf_tree t d = true -> i < nn t -> leaf_of t i = Some lf -> Sv <> [] ->
  (forall x, In x data -> off_lower Sv (l_rect lf) x) ->
  exists e : pt -> bool, (forall x, e x = true <-> inside_on Sv (l_rect lf) x) /\ leaves_proba t i data Sv = Some (length (filter e data)).
Proof. exact proba_spec. Qed.
Print Assumptions C109_proba_partial.
Theorem C109_proba_weight_partial : forall t d i lf every rows st w v, wf_tree t d = true -> 0 < d -> i < nn t -> leaf_of t i = Some lf ->
  (forall r, In r rows -> off_lower (seq 0 d) (l_rect lf) (fst r)) -> rebuild t every (nn t) 0 rows st = Some (w, v) ->
  leaves_proba t i (map fst rows) (seq 0 d) = Some (w i).
Proof. exact proba_weight. Qed.
Print Assumptions C109_proba_weight_partial.
Example C109_proba_example : (exists lf, leaf_of ex_deep 3 = Some lf /\ forall r, In r ex_rows -> off_lower (seq 0 3) (l_rect lf) (fst r)) /\
  leaves_proba ex_deep 3 (map fst ex_rows) [0; 1; 2] = Some 2 /\ leaves_proba ex_deep 3 (map fst ex_rows) [1] = Some 3.
Proof.
  split; [|vm_compute; auto].
  destruct (leaf_of ex_deep 3) as [lf|] eqn:E; [|vm_compute in E; discriminate]. exists lf. split; [reflexivity|].
  vm_compute in E. injection E as <-. intros r Hr s a Hs Ha. cbn [l_rect] in Ha.
  assert (Hs' : s = 0 \/ s = 1 \/ s = 2) by (cbn in Hs; lia).
  destruct Hs' as [->|[->| ->]]; vm_compute in Ha; try discriminate Ha. injection Ha as <-.
  cbn in Hr. destruct Hr as [<-|[<-|[<-|[<-|[]]]]]; vm_compute; discriminate.
Qed.
(** A row on a threshold is counted in two leaves. *)
Theorem C109_proba_refuted : exists t d data, wf_tree t d = true /\
  exists cs, map (fun i => leaves_proba t i data (seq 0 d)) (leaf_idx t) = map Some cs /\ length data < list_sum cs.
Proof.
  exists ex_deep, 3, [(fun f => nth f [1; 0; 0] 0)%Q]. split; [reflexivity|]. exists [1; 1; 0; 0]. split; [vm_compute; reflexivity|cbn; lia].
Qed.
Print Assumptions C109_proba_refuted.
(** Without columns the answer is 1 whatever the data. *)
Theorem C109_empty_refuted : exists t d i, wf_tree t d = true /\ i < nn t /\ leaves_proba t i [] [] = Some 1.
Proof. exists ex_deep, 3, 1. split; [reflexivity|]. split; [vm_compute; repeat constructor|vm_compute; reflexivity]. Qed.
Print Assumptions C109_empty_refuted.

(** C106: models loaded from scikit-learn predict like the original models.
    [apl] is the correction of scikit-learn for a leaf of an isolation tree; any function. *)
From Verif Require Import Base TreeModel TreeSpec TreeProofs FlatModel FlatSpec FlatProofs SkModel SkSpec SkProofs SkIsoProofs.
Local Open Scope nat_scope.

(** Regression forests and trees: the mean over the trees of the outputs of the leaves. *)
Theorem C106_regressor : forall apl m es w d n M X miss fuel,
  is_forest true m es -> es <> [] -> 0 < w -> (forall e, In e es -> sk_ok d w e) -> d <= M -> sk_small es w d fuel ->
  exists o, model_predict apl m fuel n M X miss = Some o /\ len o = (Z.of_nat n * Z.of_nat w)%Z /\
    forall i, i < n -> exists ls, all_land es (X i) (miss i) ls /\ forall k, k < w ->
      (get o (Z.of_nat i * Z.of_nat w + Z.of_nat k)%Z == over (cell k) es ls / Qn (length es))%Q.
Proof. intros apl m es w d n M X miss fuel H1 H2 H3 H4 H5 H6. exact (forest_predict apl true m es w d n M X miss fuel H1 H2 H3 H4 (fun F => match Bool.diff_true_false F with end) H5 H6). Qed.
Print Assumptions C106_regressor.

(** Classification forests and trees: the mean over the trees of the shares of the class in the leaves. *)
Theorem C106_classifier : forall apl m es w d n M X miss fuel,
  is_forest false m es -> es <> [] -> 0 < w -> (forall e, In e es -> sk_ok d w e) -> (forall e, In e es -> counts e) ->
  d <= M -> sk_small es w d fuel ->
  exists o, model_predict apl m fuel n M X miss = Some o /\ len o = (Z.of_nat n * Z.of_nat w)%Z /\
    forall i, i < n -> exists ls, all_land es (X i) (miss i) ls /\ forall k, k < w ->
      (get o (Z.of_nat i * Z.of_nat w + Z.of_nat k)%Z == over (share k) es ls / Qn (length es))%Q.
Proof. intros apl m es w d n M X miss fuel H1 H2 H3 H4 Hc. exact (forest_predict apl false m es w d n M X miss fuel H1 H2 H3 H4 (fun _ => Hc)). Qed.
Print Assumptions C106_classifier.

(** Its outputs are probabilities. *)
Theorem C106_probability : forall apl m es w d n M X miss fuel,
  is_forest false m es -> es <> [] -> 0 < w -> (forall e, In e es -> sk_ok d w e) ->
  (forall e, In e es -> counts e) -> d <= M -> sk_small es w d fuel ->
  exists o, model_predict apl m fuel n M X miss = Some o /\
    forall i, i < n ->
      (forall k, k < w -> (0 <= get o (Z.of_nat i * Z.of_nat w + Z.of_nat k)%Z <= 1)%Q) /\
      (sumf (fun k => get o (Z.of_nat i * Z.of_nat w + Z.of_nat k)%Z) (seq 0 w) == 1)%Q.
Proof. exact forest_probability. Qed.
Print Assumptions C106_probability.

(** Gradient boosting: the initial value plus the learning rate times the sum of the leaves. *)
Theorem C106_boosting : forall apl m b rate es d n M X miss fuel,
  m = BoostReg (Some b) rate (map (fun e => [e]) es) \/ m = BoostClf (Some b) rate (map (fun e => [e]) es) ->
  es <> [] -> (forall e, In e es -> sk_ok d 1 e) -> d <= M -> offset_fits b 1 -> sk_small es 1 d fuel ->
  exists o, model_predict apl m fuel n M X miss = Some o /\ len o = Z.of_nat n /\
    forall i, i < n -> exists ls, all_land es (X i) (miss i) ls /\
      (get o (Z.of_nat i) == offset_of b 0 + rate * over (cell 0) es ls)%Q.
Proof. exact boosting_predict. Qed.
Print Assumptions C106_boosting.

(** Histogram boosting: the baseline plus the sum of the leaves, a missing value going to the side the node declares. *)
Theorem C106_histogram : forall apl m b ps d n M X miss fuel,
  m = HistReg b (map (fun p => [p]) ps) \/ (exists q, b = Scalar q) /\ m = HistClf b (map (fun p => [p]) ps) ->
  ps <> [] -> (forall p, In p ps -> wf_tree (h_splits p) d = true) -> d <= M -> offset_fits b 1 ->
  (forall p, In p ps -> length p <= fuel) -> (Z.of_nat (length ps) * Z.of_nat fuel <= 2 ^ 32)%Z -> (Z.of_nat d <= 2 ^ 32)%Z ->
  exists o, model_predict apl m fuel n M X miss = Some o /\ len o = Z.of_nat n /\
    forall i, i < n -> exists vs, Forall2 (fun p v => leaf_value (h_splits p) (X i) (miss i) v) ps vs /\
      (get o (Z.of_nat i) == offset_of b 0 + sumf (fun v => v) vs)%Q.
Proof. exact hist_predict. Qed.
Print Assumptions C106_histogram.

(** A tree of a loaded forest, asked alone, gives its own outputs and not its part of the mean. *)
Theorem C106_tree_partial : forall apl reg m es ld j e t s w d n M X miss fuel,
  is_forest reg m es -> es <> [] -> 0 < w -> (forall e, In e es -> sk_ok d w e) ->
  (reg = false -> forall e, In e es -> counts e) -> d <= M -> sk_small es w d fuel ->
  load_model apl m = Some ld -> nth_error es j = Some e -> nth_error (l_trees ld) j = Some t ->
  nth_error (l_scalings ld) j = Some s ->
  exists o, tree_predict t s fuel n M X miss = Some o /\ len o = (Z.of_nat n * Z.of_nat w)%Z /\
    forall i, i < n -> exists l, lands (splits e) (X i) (miss i) l /\ forall k, k < w ->
      (get o (Z.of_nat i * Z.of_nat w + Z.of_nat k)%Z == value_at (negb reg) k e l)%Q.
Proof. exact forest_tree_predict. Qed.
Print Assumptions C106_tree_partial.

(** Isolation forests with at least two features per tree: the mean over the trees of the path lengths. *)
Theorem C106_isolation_partial : forall apl es d n M X miss fuel,
  es <> [] -> (forall p, In p es -> iso_ok d p) -> d <= M ->
  (forall p, In p es -> length (sk_cl (fst p)) <= fuel) ->
  (Z.of_nat (length es) * Z.of_nat fuel <= 2 ^ 32)%Z -> (Z.of_nat d <= 2 ^ 32)%Z ->
  exists o, model_predict apl (IsoForest es) fuel n M X miss = Some o /\ len o = Z.of_nat n /\
    forall i, i < n -> exists vs,
      Forall2 (fun p v => path_length apl (fst p) (through (snd p) (X i)) (through (snd p) (miss i)) v) es vs /\
      (get o (Z.of_nat i) == sumf (fun v => v) vs / Qn (length es))%Q.
Proof. exact isolation_predict. Qed.
Print Assumptions C106_isolation_partial.

(** Inner nodes of an isolation tree hold the mean of the values below, weighted by the numbers of samples. *)
Theorem C106_isolation_nodes : forall apl s d p m j, iso_ok d p -> samples (fst p) -> load_iso apl s (fst p) (snd p) = Some m ->
  j < length (sk_cl (fst p)) -> leaf_node (splits (fst p)) j = false ->
  let value i := nth 0 (nth i (m_vl m) []) 0%Q in
  let count i := inject_Z (nth i (sk_ns (fst p)) 0%Z) in
  let l := Z.to_nat (nth j (sk_cl (fst p)) (-1)%Z) in
  let r := Z.to_nat (nth j (sk_cr (fst p)) (-1)%Z) in
  (count j == count l + count r)%Q /\ (value j * count j == value l * count l + value r * count r)%Q.
Proof. exact isolation_nodes. Qed.
Print Assumptions C106_isolation_nodes.

(** An isolation forest with a tree grown on one feature cannot be loaded: the mark -2 of the leaves is used as an index. *)
Theorem C106_isolation_one_feature : forall apl es p d, In p es -> wf_tree (splits (fst p)) d = true -> marked (fst p) ->
  length (snd p) <= 1 -> load_model apl (IsoForest es) = None.
Proof. exact isolation_one_feature. Qed.
Print Assumptions C106_isolation_one_feature.

(** ** Concrete cases *)
Definition stump (v0 v1 v2 : list (list Q)) : sk :=
  mkSk [1; -1; -1]%Z [2; -1; -1]%Z [0; -2; -2]%Z [1#2; -2; -2]%Q [v0; v1; v2] [4; 3; 1]%Z.
Definition tree1 := stump [[3; 1]]%Q [[3; 0]]%Q [[0; 1]]%Q.
Definition tree2 := stump [[2; 2]]%Q [[2; 1]]%Q [[0; 1]]%Q.
Definition reg1 := stump [[3]]%Q [[2]]%Q [[6]]%Q.
Definition reg2 := stump [[4]]%Q [[4]]%Q [[5]]%Q.
Definition corr (n : Z) : Q := if (n <=? 1)%Z then 0%Q else 1%Q.
Definition outputs (o : option (arr Q)) (n : nat) : option (list Q) :=
  match o with Some a => Some (map (fun i => Qred (get a (Z.of_nat i))) (seq 0 n)) | None => None end.
Definition two_rows (i s : nat) : Q := Qn i.
Definition none_missing (i s : nat) : bool := false.

Lemma stump_ok v0 v1 v2 w d : 1 <= d -> (forall r, In r [v0; v1; v2] -> length (concat r) = w) -> sk_ok d w (stump v0 v1 v2).
Proof.
  intros Hd H. destruct d as [|d]; [lia|]. split; [|split; [reflexivity|exact H]].
  unfold stump, splits, wf_tree. cbn -[Z.of_nat]. unfold wf_node. cbn -[Z.of_nat].
  rewrite (proj2 (Z.ltb_lt 0 (Z.of_nat (S d)))) by lia. reflexivity.
Qed.
Lemma trees_ok : forall e, In e [tree1; tree2] -> sk_ok 1 2 e /\ counts e.
Proof.
  intros e He. cbn in He. split.
  - destruct He as [<-|[<-|[]]]; (apply stump_ok; [lia|]); intros r Hr; cbn in Hr;
      repeat (destruct Hr as [<-|Hr]; [reflexivity|]); contradiction.
  - destruct He as [<-|[<-|[]]]; intros r Hr; cbn in Hr; repeat (destruct Hr as [<-|Hr]; [
      split; [intros a Ha; cbn in Ha; repeat (destruct Ha as [<-|Ha]; [lra|]); contradiction|cbn; lra]|]); contradiction.
Qed.
Lemma regs_ok : forall e, In e [reg1; reg2] -> sk_ok 1 1 e.
Proof.
  intros e He. cbn in He. destruct He as [<-|[<-|[]]]; (apply stump_ok; [lia|]); intros r Hr; cbn in Hr;
      repeat (destruct Hr as [<-|Hr]; [reflexivity|]); contradiction.
Qed.
Lemma small2 e1 e2 w : w <= 2 -> length (sk_cl e1) = 3 -> length (sk_cl e2) = 3 -> sk_small [e1; e2] w 1 3.
Proof.
  intros Hw H1 H2. split; [intros e [<-|[<-|[]]]; lia|]. split; [|lia]. cbn [length].
  change (Z.of_nat 2 * Z.of_nat 3)%Z with 6%Z. lia.
Qed.

Example C106_classifier_example :
  outputs (model_predict corr (ForestClf [tree1; tree2]) 3 2 1 two_rows none_missing) 4 = Some [5#6; 1#6; 0; 1]%Q /\
  is_forest false (ForestClf [tree1; tree2]) [tree1; tree2] /\ sk_small [tree1; tree2] 2 1 3 /\
  (forall e, In e [tree1; tree2] -> sk_ok 1 2 e /\ counts e).
Proof.
  split; [vm_compute; reflexivity|]. split; [now left|]. split; [now apply small2|exact trees_ok].
Qed.
Example C106_single_tree_example :
  outputs (model_predict corr (TreeClf tree2) 3 2 1 two_rows none_missing) 4 = Some [2#3; 1#3; 0; 1]%Q /\
  is_forest false (TreeClf tree2) [tree2].
Proof. split; [vm_compute; reflexivity|]. right. now exists tree2. Qed.
Example C106_regressor_example :
  outputs (model_predict corr (ForestReg [reg1; reg2]) 3 2 1 two_rows none_missing) 2 = Some [3; 11#2]%Q /\
  sk_small [reg1; reg2] 1 1 3 /\ (forall e, In e [reg1; reg2] -> sk_ok 1 1 e).
Proof. split; [vm_compute; reflexivity|]. split; [apply small2; [lia|reflexivity|reflexivity]|exact regs_ok]. Qed.
Example C106_boosting_example :
  outputs (model_predict corr (BoostClf (Some (Scalar 10)) (1#10) [[reg1]; [reg2]]) 3 2 1 two_rows none_missing) 2
    = Some [53#5; 111#10]%Q.
Proof. vm_compute. reflexivity. Qed.
(** the third row has a missing value, which goes right *)
Definition hist1 : list hnode :=
  [mkH 0 0 (1#2) false 1 2 false; mkH 5 0 0 false 0 0 true; mkH 7 0 0 false 0 0 true]%Z.
Example C106_histogram_example :
  outputs (model_predict corr (HistReg (Scalar 1) [[hist1]; [hist1]]) 3 3 1 (fun i _ => if i =? 1 then 1%Q else 0%Q) (fun i _ => i =? 2)) 3
    = Some [11; 15; 15]%Q /\ wf_tree (h_splits hist1) 1 = true.
Proof. split; vm_compute; reflexivity. Qed.
Example C106_tree_example : exists ld t s, load_model corr (ForestClf [tree1; tree2]) = Some ld /\
  nth_error (l_trees ld) 1 = Some t /\ nth_error (l_scalings ld) 1 = Some s /\
  outputs (tree_predict t s 3 2 1 two_rows none_missing) 4 = Some [2#3; 1#3; 0; 1]%Q.
Proof. do 3 eexists. split; [reflexivity|]. split; [reflexivity|]. split; [reflexivity|]. vm_compute. reflexivity. Qed.

(** a tree grown on the columns 2 and 0 of three *)
Definition iso1 : sk * list Z := (reg1, [2; 0]%Z).
Lemma iso1_ok : iso_ok 3 iso1 /\ samples (fst iso1).
Proof.
  assert (Hm : marked reg1).
  { intros i Hi Hl. destruct i as [|[|[|i]]]; [discriminate|repeat split|repeat split|cbn in Hi; lia]. }
  assert (Hp : forall i, i < 3 -> (0 < nth i [4; 3; 1] 0)%Z) by (intros i Hi; destruct i as [|[|[|i]]]; cbn; lia).
  split.
  - split; [apply stump_ok; [cbn; lia|]|].
    { intros r Hr. cbn in Hr. repeat (destruct Hr as [<-|Hr]; [reflexivity|]). contradiction. }
    split; [exact Hm|]. split; [exact Hp|]. split; [cbn; lia|]. intros f [<-|[<-|[]]]; lia.
  - split; [reflexivity|]. split; [exact Hp|]. intros i Hi Hl. destruct i as [|[|[|i]]]; [reflexivity|discriminate|discriminate|cbn in Hi; lia].
Qed.
Example C106_isolation_example :
  outputs (model_predict corr (IsoForest [iso1]) 3 2 3 (fun i s => if s =? 2 then Qn i else 9%Q) none_missing) 2 = Some [2; 1]%Q /\
  iso_ok 3 iso1 /\ samples (fst iso1).
Proof. split; [vm_compute; reflexivity|exact iso1_ok]. Qed.

(** ** What does not hold *)
(** A tree with two targets: the shares are taken over the cells of both, so that the classes of a target do not add up to 1. *)
Theorem C106_multioutput_refuted : exists m es o, is_forest false m es /\ (forall e, In e es -> sk_ok 1 4 e /\ counts e) /\
  (forall e r, In e es -> In r (sk_value e) -> length r = 2 /\ forall c, In c r -> length c = 2) /\
  model_predict corr m 3 1 1 two_rows none_missing = Some o /\
  ~ (get o 0%Z + get o 1%Z == 1)%Q.
Proof.
  set (e := stump [[3; 1]; [2; 2]]%Q [[3; 0]; [2; 1]]%Q [[0; 1]; [0; 1]]%Q).
  exists (TreeClf e), [e]. eexists. split; [right; now exists e|]. split.
  { intros x [<-|[]]. split.
    - apply stump_ok; [lia|]. intros r Hr. cbn in Hr. repeat (destruct Hr as [<-|Hr]; [reflexivity|]). contradiction.
    - intros r Hr. cbn in Hr. repeat (destruct Hr as [<-|Hr]; [
        split; [intros a Ha; cbn in Ha; repeat (destruct Ha as [<-|Ha]; [lra|]); contradiction|cbn; lra]|]). contradiction. }
  split.
  { intros x r [<-|[]] Hr. cbn in Hr. repeat (destruct Hr as [<-|Hr]; [
      split; [reflexivity|intros c Hc; cbn in Hc; repeat (destruct Hc as [<-|Hc]; [reflexivity|]); contradiction]|]). contradiction. }
  split; [vm_compute; reflexivity|]. vm_compute. discriminate.
Qed.
Print Assumptions C106_multioutput_refuted.

(** A learning rate of 0 is undone by a division: asked alone, a tree of the model gives no number. *)
Theorem C106_tree_refuted : exists m ld t s o, load_model corr m = Some ld /\ nth_error (l_trees ld) 0 = Some t /\
  nth_error (l_scalings ld) 0 = Some s /\ model_predict corr m 3 2 1 two_rows none_missing = Some o /\
  tree_predict t s 3 2 1 two_rows none_missing = None.
Proof.
  exists (BoostReg (Some (Scalar 10)) 0 [[reg1]]). do 4 eexists. split; [reflexivity|]. split; [reflexivity|].
  split; [reflexivity|]. split; [vm_compute; reflexivity|reflexivity].
Qed.
Print Assumptions C106_tree_refuted.

(** Data with one column: the isolation forest is not loaded. *)
Theorem C106_isolation_refuted : exists p, wf_tree (splits (fst p)) 1 = true /\ marked (fst p) /\ samples (fst p) /\
  snd p = [0%Z] /\ load_model corr (IsoForest [p]) = None.
Proof.
  exists (reg1, [0%Z]). split; [reflexivity|]. split; [exact (proj1 (proj2 (proj1 iso1_ok)))|].
  split; [exact (proj2 iso1_ok)|]. split; reflexivity.
Qed.
Print Assumptions C106_isolation_refuted.

(** The constructor never sets the output asked for, which the branch of NGBoost needs. *)
Theorem C106_ngboost_refuted : exists init rate scalings es, es <> [] /\ init <> [] /\ length scalings = length es /\
  (forall r e, In r es -> In e r -> sk_ok 1 1 e) /\ load_model corr (Ngb init rate scalings es) = None.
Proof.
  exists [1%Q], (1#10), [1%Q], [[reg1]]. split; [discriminate|]. split; [discriminate|]. split; [reflexivity|].
  split; [|reflexivity]. intros r e [<-|[]] [<-|[]]. apply regs_ok. now left.
Qed.
Print Assumptions C106_ngboost_refuted.

(** A binary classifier of histogram boosting whose baseline is an array is refused, although the regressor is accepted. *)
Theorem C106_histogram_refuted : exists b p, offset_fits b 1 /\ wf_tree (h_splits p) 1 = true /\
  load_model corr (HistReg b [[p]]) <> None /\ load_model corr (HistClf b [[p]]) = None.
Proof. exists (Vector [1%Q]), hist1. split; [reflexivity|]. split; [reflexivity|]. split; [discriminate|reflexivity]. Qed.
Print Assumptions C106_histogram_refuted.

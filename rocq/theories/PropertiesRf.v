(** Property theorems C25-C32, C49, C55-C59: estimators of the projected forest.
    Each is proved by a lemma of RfProofs.v or RfTreeProofs.v.  [M] is the memory
    of the tree arrays including whatever lies around them. *)
From Verif Require Import Base TreeModel TreeSpec PropertiesTree RfModel RfSpec RfProofs RfTreeProofs.

(** memory around the arrays in the examples *)
Definition ex_calm : RfModel.row := mkRow (fun _ => (-1)%Z) (fun _ => 0%Q) (fun _ => (-1)%Z) (fun _ => (-1)%Z).
Definition ex_wild : RfModel.row := mkRow (fun _ => 0%Z) (fun _ => 2%Q) (fun _ => (-1)%Z) (fun _ => (-1)%Z).
(** a one-split tree and a tree of depth three *)
Definition ex_rf : list tree := [ex_stump; ex_deep].
Definition ex_mem : fmem := dense ex_rf ex_calm.
Definition ex_obs (a b c : Q) : pt := fun f => match f with 0 => a | 1 => b | _ => c end.
Definition ex_train : nat -> pt := fun i => nth i
  [ex_obs 0 0 0; ex_obs 2 2 4; ex_obs 2 4 6; ex_obs 3 5 8; ex_obs 2 1 5; ex_obs 1 9 9] (ex_obs 0 0 0).
Definition ex_y : nat -> Q := fun i => nth i [0; 1; 1; 0; 1; 0]%Q 0%Q.
Definition ex_point : pt := ex_obs 2 3 4.

(** C25: probabilities in [0,1]; weights non-negative, of total at most one, of
    total exactly one as soon as a training sample agrees with the observation;
    the probability is the weight of the samples of the same decision. *)
Theorem C25_sdp_in_unit_interval : forall M data y N depth m classifier t0 t1 Sv x yx,
  (0 <= compute_sdp_rf M data y N depth m classifier t0 t1 Sv x yx <= 1)%Q.
Proof. exact sdp_bounds. Qed.
Print Assumptions C25_sdp_in_unit_interval.
Theorem C25_weights : forall M data y N depth m classifier t0 t1 Sv x yx,
  let w := snd (compute_sdp_rule_weights M data y N depth m classifier t0 t1 Sv x yx) in
  (forall i, (0 <= w i)%Q) /\ (total N w <= 1)%Q /\
  (0 < F_trees M -> forall i, i < N -> agree_on Sv x (data i) ->
     (total N w == 1)%Q /\ (1 / Qn N <= w i)%Q).
Proof. exact weights_statement_rf. Qed.
Print Assumptions C25_weights.
Theorem C25_sdp_is_weight : forall M data y N depth m classifier t0 t1 Sv x yx e,
  (forall i, e i = true <-> same_decision classifier yx t0 t1 y i) ->
  let w := snd (compute_sdp_rule_weights M data y N depth m classifier t0 t1 Sv x yx) in
  (compute_sdp_rf M data y N depth m classifier t0 t1 Sv x yx == total N (fun i => if e i then w i else 0))%Q /\
  (compute_ddp_rf M data y N depth m classifier t0 t1 Sv x yx == total N (fun i => if e i then 0 else w i))%Q.
Proof. exact weighted_statement. Qed.
Print Assumptions C25_sdp_is_weight.
Example C25_example :
  agree_on [0; 2] ex_point (ex_train 1) /\ 1 < 6 /\ 0 < F_trees ex_mem /\
  (forall i, (qeqb 1 (ex_y i)) = true <-> same_decision true 1 0 0 ex_y i) /\
  Qred (compute_sdp_rf ex_mem ex_train ex_y 6 3 1 true 0 0 [0; 2] ex_point 1) = (5 # 6)%Q /\
  map (fun i => Qred (snd (compute_sdp_rule_weights ex_mem ex_train ex_y 6 3 1 true 0 0 [0; 2] ex_point 1) i)) (seq 0 6)
   = [1 # 6; 1 # 3; 1 # 6; 0; 1 # 3; 0]%Q.
Proof.
  split; [intros f [<-|[<-|[]]]; vm_compute; reflexivity|].
  split; [lia|]. split; [vm_compute; lia|]. split.
  { intro i. unfold same_decision. destruct (qeqb_spec 1 (ex_y i)); intuition discriminate. }
  vm_compute. auto.
Qed.

(** C26: the two probabilities are complementary; a target interval as an
    upper/lower pair gives the same thing. *)
Theorem C26_complement : forall M data y N depth m classifier t0 t1 Sv x yx,
  (compute_sdp_rf M data y N depth m classifier t0 t1 Sv x yx +
   compute_ddp_rf M data y N depth m classifier t0 t1 Sv x yx ==
   total N (snd (compute_sdp_rule_weights M data y N depth m classifier t0 t1 Sv x yx)))%Q.
Proof. exact complement_statement. Qed.
Print Assumptions C26_complement.
Theorem C26_complement_one : forall M data y N depth m classifier t0 t1 Sv x yx,
  0 < F_trees M ->
  (forall b, b < F_trees M -> selected M (fun R => rf_step R Sv x data) m depth N b <> []) ->
  (compute_sdp_rf M data y N depth m classifier t0 t1 Sv x yx +
   compute_ddp_rf M data y N depth m classifier t0 t1 Sv x yx == 1)%Q.
Proof. exact complement_one. Qed.
Print Assumptions C26_complement_one.
Theorem C26_ddp_in_unit_interval : forall M data y N depth m classifier t0 t1 Sv x yx,
  (0 <= compute_ddp_rf M data y N depth m classifier t0 t1 Sv x yx <= 1)%Q.
Proof. exact ddp_bounds. Qed.
Print Assumptions C26_ddp_in_unit_interval.
Theorem C26_cdp_is_sdp : forall M data y N depth m classifier t0 t1 Sv x yx,
  (compute_cdp_rf M data y N depth m classifier Sv x yx t0 t1 ==
   compute_sdp_rf M data y N depth m classifier t0 t1 Sv x yx)%Q.
Proof. exact cdp_is_sdp. Qed.
Print Assumptions C26_cdp_is_sdp.
Example C26_example :
  map (selected ex_mem (fun R => rf_step R [0; 2] ex_point ex_train) 1 3 6) [0; 1] = [[0; 1; 4]; [1; 2; 4]] /\
  Qred (compute_ddp_rf ex_mem ex_train ex_y 6 3 1 true 0 0 [0; 2] ex_point 1) = (1 # 6)%Q /\
  Qred (compute_cdp_rf ex_mem ex_train ex_y 6 3 1 false [0; 2] ex_point 1 0 (1 # 2)) = (1 # 6)%Q.
Proof. vm_compute. auto. Qed.

(** C27: only the conditioning variables of the observation are looked at. *)
Theorem C27_noninterference : forall M data y N depth m classifier t0 t1 Sv x x' yx,
  agree_on Sv x x' ->
  compute_sdp_rule_weights M data y N depth m classifier t0 t1 Sv x yx =
  compute_sdp_rule_weights M data y N depth m classifier t0 t1 Sv x' yx /\
  compute_sdp_rf M data y N depth m classifier t0 t1 Sv x yx =
  compute_sdp_rf M data y N depth m classifier t0 t1 Sv x' yx /\
  compute_exp_rf M data y N depth m Sv x = compute_exp_rf M data y N depth m Sv x'.
Proof. exact noninterference. Qed.
Print Assumptions C27_noninterference.
Example C27_example :
  agree_on [0; 2] ex_point (ex_obs 2 1000 4) /\
  Qred (compute_sdp_rf ex_mem ex_train ex_y 6 3 1 true 0 0 [0; 2] (ex_obs 2 1000 4) 1) = (5 # 6)%Q /\
  Qred (compute_sdp_rf ex_mem ex_train ex_y 6 3 1 true 0 0 [0; 1] (ex_obs 2 1000 4) 1) = (1 # 2)%Q.
Proof. split; [intros f [<-|[<-|[]]]; vm_compute; reflexivity|]. vm_compute. auto. Qed.

(** C28: the rule contains its observation, leaves the other variables alone,
    is never narrower than the splits met, and is exactly the cell when the
    selections are large enough. *)
Theorem C28_rule_contains_observation : forall M data y N depth m classifier t0 t1 Sv x yx,
  (forall f, In f Sv -> (- big < x f <= big)%Q) ->
  in_rule Sv (snd (fst (compute_sdp_rule_weights M data y N depth m classifier t0 t1 Sv x yx))) x.
Proof. exact rule_contains. Qed.
Print Assumptions C28_rule_contains_observation.
Theorem C28_other_variables_free : forall M data y N depth m classifier t0 t1 Sv x yx f,
  ~ In f Sv ->
  snd (fst (compute_sdp_rule_weights M data y N depth m classifier t0 t1 Sv x yx)) f = ((- big)%Q, big).
Proof. exact rule_untouched. Qed.
Print Assumptions C28_other_variables_free.
Theorem C28_rule_not_too_narrow : forall M data y N depth m classifier t0 t1 Sv x yx z,
  (forall f, In f Sv -> (- big < z f <= big)%Q) ->
  (forall b, b < F_trees M -> same_cell (row_of M b) Sv depth x z) ->
  in_rule Sv (snd (fst (compute_sdp_rule_weights M data y N depth m classifier t0 t1 Sv x yx))) z.
Proof. exact rule_wide. Qed.
Print Assumptions C28_rule_not_too_narrow.
Theorem C28_rule_exact : forall M data y N depth m classifier t0 t1 Sv x yx z,
  (forall b, b < F_trees M -> m <= length (selected M (fun R => rule_step R Sv x data) m depth N b)) ->
  in_rule Sv (snd (fst (compute_sdp_rule_weights M data y N depth m classifier t0 t1 Sv x yx))) z ->
  forall b, b < F_trees M -> same_cell (row_of M b) Sv depth x z.
Proof. exact rule_exact. Qed.
Print Assumptions C28_rule_exact.
Example C28_example :
  (forall f, In f [0; 2] -> (- big < ex_point f <= big)%Q) /\
  (forall b, b < F_trees ex_mem -> 1 <= length (selected ex_mem (fun R => rule_step R [0; 2] ex_point ex_train) 1 3 6 b)) /\
  map (snd (fst (compute_sdp_rule_weights ex_mem ex_train ex_y 6 3 1 true 0 0 [0; 2] ex_point 1))) [0; 1; 2] =
  [(1, big); (- big, big); (- big, 5)]%Q.
Proof.
  split; [intros f [<-|[<-|[]]]; vm_compute; split; congruence|]. split.
  { intros [|[|b]] H; [vm_compute; lia..|]. vm_compute in H. lia. }
  vm_compute. reflexivity.
Qed.

(** C29: every observation in the rule gets the same answer. *)
Theorem C29_rule_guarantee : forall M data y N depth m classifier t0 t1 Sv x x' yx,
  in_rule Sv (snd (fst (compute_sdp_rule_weights M data y N depth m classifier t0 t1 Sv x yx))) x' ->
  compute_sdp_rule_weights M data y N depth m classifier t0 t1 Sv x' yx =
  compute_sdp_rule_weights M data y N depth m classifier t0 t1 Sv x yx /\
  compute_sdp_rf M data y N depth m classifier t0 t1 Sv x' yx =
  compute_sdp_rf M data y N depth m classifier t0 t1 Sv x yx.
Proof. exact rule_guarantee. Qed.
Print Assumptions C29_rule_guarantee.
Example C29_example :
  in_rule [0; 2] (snd (fst (compute_sdp_rule_weights ex_mem ex_train ex_y 6 3 1 true 0 0 [0; 2] ex_point 1)))
    (ex_obs 77 0 (-5)) /\
  Qred (compute_sdp_rf ex_mem ex_train ex_y 6 3 1 true 0 0 [0; 2] (ex_obs 77 0 (-5)) 1) = (5 # 6)%Q /\
  Qred (compute_sdp_rf ex_mem ex_train ex_y 6 3 1 true 0 0 [0; 2] (ex_obs 77 0 6) 1) = (2 # 3)%Q.
Proof. split; [intros f [<-|[<-|[]]]; vm_compute; split; congruence|]. vm_compute. auto. Qed.

(** C30: conditioning on nothing. *)
Theorem C30_no_condition : forall M data y N depth m classifier t0 t1 x yx e,
  0 < F_trees M -> (forall i, e i = true <-> same_decision classifier yx t0 t1 y i) ->
  (compute_sdp_rf M data y N depth m classifier t0 t1 [] x yx == frequency N e)%Q /\
  (compute_exp_rf M data y N depth m [] x == sumf y (seq 0 N) / Qn N)%Q /\
  (forall t, compute_cdf_rf M data y N depth m [] x t == frequency N (fun i => qleb (y i) t))%Q.
Proof. exact nothing_statement. Qed.
Print Assumptions C30_no_condition.
Example C30_example :
  (forall i, (qeqb 1 (ex_y i)) = true <-> same_decision true 1 0 0 ex_y i) /\
  Qred (compute_sdp_rf ex_mem ex_train ex_y 6 3 1 true 0 0 [] ex_point 1) = (1 # 2)%Q /\
  frequency 6 (fun i => qeqb 1 (ex_y i)) = (3 # 6)%Q.
Proof.
  split; [intro i; unfold same_decision; destruct (qeqb_spec 1 (ex_y i)); intuition discriminate|].
  vm_compute. auto.
Qed.

(** C31: reads outside the arrays.  The first tree is left through its leaves
    when another tree is deeper: the node -1 of the first row is read, and the
    answer depends on what lies there. *)
Theorem C31_reads_outside_refuted : exists ts stray data N depth m Sv x n,
  (forall t, In t ts -> wf_tree t 3 = true) /\ (forall t, In t ts -> plain_leaves t) /\
  (forall t, In t ts -> tree_depth t <= depth) /\ (exists t, In t ts /\ tree_depth t = depth) /\
  In n (st_log (run_tree (rf_step (row_of (dense ts stray) 0) Sv x data) m depth N rule0)) /\
  inside_arrays (dense ts stray) (offset (dense ts stray) 0 n) = false.
Proof.
  exists ex_rf, ex_calm, ex_train, 6, 3, 1, [0; 2], ex_point, (-1)%Z.
  split; [intros t [<-|[<-|[]]]; reflexivity|]. split.
  { intros t Ht l Hl. destruct Ht as [<-|[<-|[]]]; vm_compute in Hl;
    do 7 (destruct l as [|l]; [vm_compute; intuition congruence|]); lia. }
  split; [intros t [<-|[<-|[]]]; vm_compute; lia|].
  split; [exists ex_deep; split; [right; now left|reflexivity]|].
  split; [vm_compute; auto 10|reflexivity].
Qed.
Print Assumptions C31_reads_outside_refuted.
Theorem C31_depends_on_stray_refuted : exists ts stray stray' data y N depth m Sv x yx,
  (forall t, In t ts -> wf_tree t 3 = true) /\
  (forall t, In t ts -> tree_depth t <= depth) /\ (exists t, In t ts /\ tree_depth t = depth) /\
  ~ (compute_sdp_rf (dense ts stray) data y N depth m true 0 0 Sv x yx ==
     compute_sdp_rf (dense ts stray') data y N depth m true 0 0 Sv x yx)%Q.
Proof.
  exists ex_rf, ex_calm, ex_wild, ex_train, ex_y, 6, 3, 1, [0; 2], (ex_obs 3 3 4), 1%Q.
  split; [intros t [<-|[<-|[]]]; reflexivity|].
  split; [intros t [<-|[<-|[]]]; vm_compute; lia|].
  split; [exists ex_deep; split; [right; now left|reflexivity]|].
  vm_compute. discriminate.
Qed.
Print Assumptions C31_depends_on_stray_refuted.
(** what holds: all trees but the first, and the first one if no leaf is met
    before the last level *)
Theorem C31_reads_inside_partial : forall ts stray d data N depth m Sv x b n,
  (forall t, In t ts -> wf_tree t d = true) -> (forall t, In t ts -> plain_leaves t) -> b < length ts ->
  In n (st_log (run_tree (rf_step (row_of (dense ts stray) b) Sv x data) m depth N rule0)) ->
  0 < b \/ (let t := nth b ts (mkTree [] [] [] [] [] []) in forall l k, l < nn t -> leaf_node t l = true ->
            reached t Sv x l -> down_path t k 0 l -> depth <= S k) ->
  inside_arrays (dense ts stray) (offset (dense ts stray) b n) = true.
Proof. exact reads_inside. Qed.
Print Assumptions C31_reads_inside_partial.
Example C31_example :
  In 4%Z (st_log (run_tree (rf_step (row_of ex_mem 1) [0; 2] ex_point ex_train) 1 3 6 rule0)) /\
  In 0%Z (st_log (run_tree (rf_step (row_of (dense [ex_stump] ex_wild) 0) [0; 2] ex_point ex_train) 1 1 6 rule0)) /\
  (forall l k, l < nn ex_stump -> leaf_node ex_stump l = true ->
            reached ex_stump [0; 2] ex_point l -> down_path ex_stump k 0 l -> 1 <= S k).
Proof. split; [vm_compute; auto 10|]. split; [vm_compute; auto 10|]. intros; lia. Qed.

(** C32: expectation between the extreme targets, distribution function
    monotone from 0 to 1. *)
Theorem C32_expectation_between : forall M data y N depth m Sv x lo hi,
  0 < F_trees M ->
  (forall b, b < F_trees M -> selected M (fun R => rf_step R Sv x data) m depth N b <> []) ->
  (forall i, i < N -> (lo <= y i <= hi)%Q) ->
  (lo <= compute_exp_rf M data y N depth m Sv x <= hi)%Q.
Proof. exact exp_statement. Qed.
Print Assumptions C32_expectation_between.
Theorem C32_cdf_bounds : forall M data y N depth m Sv x t,
  (0 <= compute_cdf_rf M data y N depth m Sv x t <= 1)%Q.
Proof. exact cdf_bounds. Qed.
Print Assumptions C32_cdf_bounds.
Theorem C32_cdf_monotone : forall M data y N depth m Sv x t t', (t <= t')%Q ->
  (compute_cdf_rf M data y N depth m Sv x t <= compute_cdf_rf M data y N depth m Sv x t')%Q.
Proof. exact cdf_monotone. Qed.
Print Assumptions C32_cdf_monotone.
Theorem C32_cdf_ends : forall M data y N depth m Sv x t, 0 < F_trees M ->
  (forall b, b < F_trees M -> selected M (fun R => vec_step R Sv x data) m depth N b <> []) ->
  ((forall i, i < N -> (y i <= t)%Q) -> (compute_cdf_rf M data y N depth m Sv x t == 1)%Q) /\
  ((forall i, i < N -> (t < y i)%Q) -> (compute_cdf_rf M data y N depth m Sv x t == 0)%Q).
Proof. exact cdf_ends. Qed.
Print Assumptions C32_cdf_ends.
Example C32_example :
  (forall b, b < F_trees ex_mem -> selected ex_mem (fun R => rf_step R [0; 2] ex_point ex_train) 1 3 6 b <> []) /\
  (forall b, b < F_trees ex_mem -> selected ex_mem (fun R => vec_step R [0; 2] ex_point ex_train) 1 3 6 b <> []) /\
  (forall i, i < 6 -> (0 <= ex_y i <= 1)%Q) /\
  Qred (compute_exp_rf ex_mem ex_train ex_y 6 3 1 [0; 2] ex_point) = (5 # 6)%Q /\
  map (fun t => Qred (compute_cdf_rf ex_mem ex_train ex_y 6 3 1 [0; 2] ex_point t)) [-1; 0; 1]%Q = [0; 1 # 6; 1]%Q.
Proof.
  split; [intros [|[|b]] H; [vm_compute; discriminate..|vm_compute in H; lia]|].
  split; [intros [|[|b]] H; [vm_compute; discriminate..|vm_compute in H; lia]|].
  split; [intros i H; do 6 (destruct i as [|i]; [vm_compute; intuition congruence|]); lia|].
  vm_compute. auto.
Qed.

(** C49: boxes for the other variables keep every compatible sample. *)
Theorem C49_cond_weights : forall M data y N depth m classifier t0 t1 Sv x yx cond,
  0 < F_trees M -> forall i, i < N -> agree_on Sv x (data i) -> in_box Sv cond (data i) ->
  (1 / Qn N <= snd (compute_ddp_cond_weights M data y N depth m classifier t0 t1 Sv x yx cond) i)%Q /\
  (forall down up, 1 / Qn N <= snd (compute_cdp_cond_weights M data y N depth m classifier Sv x yx cond down up) i)%Q.
Proof. exact cond_weights. Qed.
Print Assumptions C49_cond_weights.
Theorem C49_intv_weights : forall M data y N depth m classifier t0 t1 Sv yx cond,
  0 < F_trees M -> forall i, i < N -> in_box Sv cond (data i) ->
  (1 / Qn N <= snd (compute_ddp_intv_weights M data y N depth m classifier t0 t1 Sv yx cond) i)%Q /\
  (1 / Qn N <= snd (compute_cdp_intv_weights M data y N depth m classifier t0 t1 Sv yx cond) i)%Q.
Proof. exact intv_weights. Qed.
Print Assumptions C49_intv_weights.
(** a box wider than every threshold changes nothing *)
Theorem C49_wide_box : forall M data y N depth m classifier t0 t1 Sv x yx cond,
  (forall b n, b < F_trees M -> (0 <= r_feat (row_of M b) n)%Z ->
     let f := Z.to_nat (r_feat (row_of M b) n) in
     (fst (cond f) <= r_thr (row_of M b) n)%Q /\ (r_thr (row_of M b) n < snd (cond f))%Q) ->
  compute_ddp_cond_weights M data y N depth m classifier t0 t1 Sv x yx cond =
  compute_ddp_rule_weights M data y N depth m classifier t0 t1 Sv x yx /\
  (forall down up, compute_cdp_cond_weights M data y N depth m classifier Sv x yx cond down up =
  compute_cdp_rule_weights M data y N depth m classifier Sv x yx down up).
Proof. exact wide_box. Qed.
Print Assumptions C49_wide_box.
Definition ex_box : rule := fun f => match f with 1 => (0, 5 # 2)%Q | _ => ((- big)%Q, big) end.
Example C49_example :
  agree_on [0; 2] ex_point (ex_train 1) /\ in_box [0; 2] ex_box (ex_train 1) /\ in_box [2] ex_box (ex_train 1) /\
  map (fun i => Qred (snd (compute_ddp_cond_weights ex_mem ex_train ex_y 6 3 1 true 0 0 [0; 2] ex_point 1 ex_box) i)) (seq 0 6)
   = [1 # 6; 5 # 12; 0; 0; 5 # 12; 0]%Q /\
  map (fun i => Qred (snd (compute_cdp_intv_weights ex_mem ex_train ex_y 6 3 1 true 0 0 [0; 2] 1 ex_box) i)) (seq 0 6)
   = [1 # 4; 1 # 4; 1 # 12; 1 # 12; 1 # 4; 1 # 12]%Q /\
  (forall b n, b < F_trees ex_mem -> (0 <= r_feat (row_of ex_mem b) n)%Z ->
     let f := Z.to_nat (r_feat (row_of ex_mem b) n) in
     (fst (rule0 f) <= r_thr (row_of ex_mem b) n)%Q /\ (r_thr (row_of ex_mem b) n < snd (rule0 f))%Q).
Proof.
  split; [intros f [<-|[<-|[]]]; vm_compute; reflexivity|].
  assert (B : forall f, (fst (ex_box f) <= ex_train 1 f)%Q /\ (ex_train 1 f <= snd (ex_box f))%Q).
  { intro f. do 3 (destruct f as [|f]; [vm_compute; split; congruence|]). vm_compute; split; congruence. }
  split; [intros f _; apply B|]. split; [intros f _; apply B|].
  split; [vm_compute; reflexivity|]. split; [vm_compute; reflexivity|].
  intros b n _. cbn [row_of r_feat r_thr]. generalize (offset ex_mem b n). clear. intros k H.
  unfold ex_mem, dense in *. cbn [F_feat F_thr r_feat r_thr ex_calm] in *.
  destruct (_ && _); [|lia].
  assert (T : forall q, In q [5; 0; 1; 3; 7; 0]%Q -> (- big <= q)%Q /\ (q < big)%Q).
  { intros q Hq. cbn in Hq. repeat (destruct Hq as [<-|Hq]; [vm_compute; split; congruence|]). destruct Hq. }
  apply T. assert (D : forall t, In t ex_rf \/ t = mkTree [] [] [] [] [] [] -> forall i, In (nth i (th t) 0%Q) [5; 0; 1; 3; 7; 0]%Q).
  { intros t [[<-|[<-|[]]]| ->] i; do 7 (destruct i as [|i]; [cbn; auto 10|]); destruct i; cbn; auto 10. }
  apply D. destruct (nth_in_or_default (Z.to_nat (k / Z.of_nat (max_nodes ex_rf))) ex_rf (mkTree [] [] [] [] [] [])); auto.
Qed.

(** C55: on the padded arrays of real trees the samples selected are those that
    the projected tree does not separate from the observation, hence, with all
    split variables known, those of its leaf.  ([harmless]: see C31.) *)
Theorem C55_selected_same_leaves : forall ts stray d, (forall t, In t ts -> wf_tree t d = true) ->
  (forall t, In t ts -> plain_leaves t) ->
  forall data N depth m Sv x b, b < length ts -> 0 < b \/ harmless stray Sv ->
  let t := nth b ts (mkTree [] [] [] [] [] []) in
  tree_depth t <= depth ->
  (forall i, i < N -> same_leaves t Sv x (data i) ->
     In i (selected (dense ts stray) (fun R => rf_step R Sv x data) m depth N b)) /\
  (m <= length (selected (dense ts stray) (fun R => rf_step R Sv x data) m depth N b) ->
   forall i, In i (selected (dense ts stray) (fun R => rf_step R Sv x data) m depth N b) <->
     i < N /\ same_leaves t Sv x (data i)).
Proof. exact selected_leaves. Qed.
Print Assumptions C55_selected_same_leaves.
Theorem C55_same_leaves_full : forall t d, wf_tree t d = true -> forall Sv x z,
  (forall i, i < nn t -> leaf_node t i = false -> In (ftn t i) Sv) ->
  (same_leaves t Sv x z <-> predict_leaf t x no_missing = predict_leaf t z no_missing).
Proof. exact full_leaves. Qed.
Print Assumptions C55_same_leaves_full.
Example C55_example :
  (forall t, In t ex_rf -> wf_tree t 3 = true) /\ (forall t, In t ex_rf -> plain_leaves t) /\
  harmless ex_calm [0; 2] /\ (forall t, In t ex_rf -> tree_depth t <= 3) /\
  map (selected ex_mem (fun R => rf_step R [0; 2] ex_point ex_train) 1 3 6) [0; 1] = [[0; 1; 4]; [1; 2; 4]] /\
  (forall i, i < nn ex_deep -> leaf_node ex_deep i = false -> In (ftn ex_deep i) [0; 1; 2]) /\
  map (selected ex_mem (fun R => rf_step R [0; 1; 2] ex_point ex_train) 1 3 6) [0; 1] = [[0; 1; 4]; [1; 4]] /\
  map (fun i => predict_leaf ex_deep (ex_train i) no_missing) (seq 0 6) = map Some [1; 3; 5; 6; 3; 1].
Proof.
  split; [intros t [<-|[<-|[]]]; reflexivity|]. split.
  { intros t Ht l Hl. destruct Ht as [<-|[<-|[]]]; vm_compute in Hl;
    do 7 (destruct l as [|l]; [vm_compute; intuition congruence|]); lia. }
  split. { split; [|split; reflexivity]. intros f [H _]. cbn in H. lia. }
  split; [intros t [<-|[<-|[]]]; vm_compute; lia|]. split; [reflexivity|]. split.
  { intros i Hi. vm_compute in Hi. do 7 (destruct i as [|i]; [vm_compute; intuition congruence|]); lia. }
  split; reflexivity.
Qed.

(** C56: the minimal node size.  The loop stops after the sample set has
    become too small, so the selection may be smaller than asked for, even empty. *)
Theorem C56_min_node_size_refuted : exists ts stray data N depth m Sv x b,
  (forall t, In t ts -> wf_tree t 3 = true) /\ harmless stray Sv /\ b < length ts /\ m <= N /\ 0 < m /\
  selected (dense ts stray) (fun R => rf_step R Sv x data) m depth N b = [].
Proof.
  exists ex_rf, ex_calm, ex_train, 3, 3, 2, [2], (ex_obs 2 3 99), 1.
  split; [intros t [<-|[<-|[]]]; reflexivity|].
  split. { split; [|split; reflexivity]. intros f [H _]. cbn in H. lia. }
  split; [cbn; lia|]. split; [lia|]. split; [lia|]. reflexivity.
Qed.
Print Assumptions C56_min_node_size_refuted.
(** what holds: enough samples in the cell of the observation *)
Theorem C56_min_node_size_partial : forall M data N depth m Sv x b l,
  NoDup l -> (forall i, In i l -> i < N /\ same_cell (row_of M b) Sv depth x (data i)) ->
  m <= length l -> m <= length (selected M (fun R => rf_step R Sv x data) m depth N b).
Proof. exact enough_in_cell. Qed.
Print Assumptions C56_min_node_size_partial.
Example C56_example : agree_on [0] ex_point (ex_train 1) /\ agree_on [0] ex_point (ex_train 2) /\
  length (selected ex_mem (fun R => rf_step R [0] ex_point ex_train) 2 3 6 1) = 4.
Proof. split; [intros f [<-|[]]; reflexivity|]. split; [intros f [<-|[]]; reflexivity|]. reflexivity. Qed.

(** C57: the older versions, which keep vectors of nodes instead of sets, select
    the same samples whenever one of the two selections is large enough. *)
Theorem C57_vector_version_agrees : forall M data N depth m Sv x,
  (forall b, b < F_trees M ->
     m <= length (selected M (fun R => rule_step R Sv x data) m depth N b) \/
     m <= length (selected M (fun R => vec_step R Sv x data) m depth N b)) ->
  forall ind, forest M (fun R => vec_step R Sv x data) m depth N ind =
              forest M (fun R => rf_step R Sv x data) m depth N ind.
Proof. exact vec_agrees. Qed.
Print Assumptions C57_vector_version_agrees.
Theorem C57_sdp_v0_is_sdp : forall M data y N depth m Sv x yx t0 t1,
  (forall b, b < F_trees M ->
     m <= length (selected M (fun R => rule_step R Sv x data) m depth N b) \/
     m <= length (selected M (fun R => vec_step R Sv x data) m depth N b)) ->
  compute_sdp_rf_v0 M data y N depth m true t1 Sv x yx =
  compute_sdp_rf M data y N depth m true t0 t1 Sv x yx.
Proof. exact v0_is_sdp. Qed.
Print Assumptions C57_sdp_v0_is_sdp.
Example C57_example :
  (forall b, b < F_trees ex_mem -> 2 <= length (selected ex_mem (fun R => rule_step R [0; 2] ex_point ex_train) 2 3 6 b)) /\
  Qred (compute_sdp_rf_v0 ex_mem ex_train ex_y 6 3 2 true 0 [0; 2] ex_point 1) = (5 # 6)%Q.
Proof. split; [intros [|[|b]] H; [vm_compute; lia..|vm_compute in H; lia]|]. reflexivity. Qed.

(** C58: the routines that also return rules and weights return the same
    probability as the plain ones, and rule and weights do not depend on the
    decision counted. *)
Theorem C58_rule_routines_agree : forall M data y N depth m classifier t0 t1 Sv x yx,
  fst (fst (compute_sdp_rule_weights M data y N depth m classifier t0 t1 Sv x yx)) =
  compute_sdp_rf M data y N depth m classifier t0 t1 Sv x yx.
Proof. exact rule_prob_statement. Qed.
Print Assumptions C58_rule_routines_agree.
Theorem C58_rule_family : forall M data y N depth m classifier t0 t1 Sv x yx down up,
  fst (fst (compute_ddp_rule_weights M data y N depth m classifier t0 t1 Sv x yx)) =
    compute_ddp_rf M data y N depth m classifier t0 t1 Sv x yx /\
  fst (fst (compute_cdp_rule_weights M data y N depth m classifier Sv x yx down up)) =
    compute_cdp_rf M data y N depth m classifier Sv x yx down up /\
  (let S := compute_sdp_rule_weights M data y N depth m classifier t0 t1 Sv x yx in
   let D := compute_ddp_rule_weights M data y N depth m classifier t0 t1 Sv x yx in
   let C := compute_cdp_rule_weights M data y N depth m classifier Sv x yx down up in
   snd (fst D) = snd (fst S) /\ snd (fst C) = snd (fst S) /\ snd D = snd S /\ snd C = snd S).
Proof. exact rule_family. Qed.
Print Assumptions C58_rule_family.
Example C58_example :
  Qred (fst (fst (compute_ddp_rule_weights ex_mem ex_train ex_y 6 3 1 true 0 0 [0; 2] ex_point 1))) = (1 # 6)%Q /\
  Qred (fst (fst (compute_cdp_rule_weights ex_mem ex_train ex_y 6 3 1 true [0; 2] ex_point 1 0 0))) = (5 # 6)%Q.
Proof. vm_compute. auto. Qed.

(** C59: on a box alone the two probabilities should be complementary.  True
    for intervals of the target, false for classes: both count the other classes. *)
Theorem C59_intv_complement_partial : forall M data y N depth m classifier t0 t1 Sv yx cond,
  classifier = false ->
  (fst (fst (compute_cdp_intv_weights M data y N depth m classifier t0 t1 Sv yx cond)) +
   fst (fst (compute_ddp_intv_weights M data y N depth m classifier t0 t1 Sv yx cond)) ==
   total N (snd (compute_ddp_intv_weights M data y N depth m classifier t0 t1 Sv yx cond)))%Q.
Proof. exact intv_complement. Qed.
Print Assumptions C59_intv_complement_partial.
Theorem C59_intv_complement_refuted : exists ts data y N depth m t0 t1 Sv yx cond,
  (forall t, In t ts -> wf_tree t 3 = true) /\
  (let C := compute_cdp_intv_weights (dense ts ex_calm) data y N depth m true t0 t1 Sv yx cond in
   let D := compute_ddp_intv_weights (dense ts ex_calm) data y N depth m true t0 t1 Sv yx cond in
   (total N (snd D) == 1)%Q /\ fst (fst C) = fst (fst D) /\
   ~ (fst (fst C) + fst (fst D) == total N (snd D))%Q).
Proof.
  exists ex_rf, ex_train, ex_y, 5, 3, 1, 0%Q, 0%Q, [0; 2], 1%Q, ex_box.
  split; [intros t [<-|[<-|[]]]; reflexivity|]. cbn zeta.
  split; [vm_compute; reflexivity|]. split; [reflexivity|]. vm_compute. discriminate.
Qed.
Print Assumptions C59_intv_complement_refuted.
Example C59_example :
  Qred (fst (fst (compute_cdp_intv_weights ex_mem ex_train ex_y 5 3 1 false 0 (1 # 2) [0; 2] 1 ex_box))) = (11 # 30)%Q /\
  Qred (fst (fst (compute_ddp_intv_weights ex_mem ex_train ex_y 5 3 1 false 0 (1 # 2) [0; 2] 1 ex_box))) = (19 # 30)%Q.
Proof. vm_compute. auto. Qed.

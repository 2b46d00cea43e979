(** C104: same-decision probabilities of the pure Python routines. *)
From Verif Require Import Base TreeModel TreeSpec TreeProofs RulesModel PartModel PartSpec PartProofs.

(** ** Example data *)
(** an observation of two columns *)
Definition pp (a b : Q) : pt := fun k => match k with 0 => a | 1 => b | _ => 0%Q end.
(** one split of column 0 at 0, values [a] and [b] *)
Definition stump (a b : Q) : tree := mkTree [1; -1; -1]%Z [2; -1; -1]%Z [1; -1; -1]%Z [0; -2; -2]%Z [0; 0; 0]%Q [0; a; b]%Q.
(** column 1 at 1, then column 0 at 0 on both sides *)
Definition deep : tree :=
  mkTree [1; 3; 5; -1; -1; -1; -1]%Z [2; 4; 6; -1; -1; -1; -1]%Z [1; 3; 5; -1; -1; -1; -1]%Z
         [1; 0; 0; -2; -2; -2; -2]%Z [1; 0; 0; 0; 0; 0; 0]%Q [0; 0; 0; 2; 5; 7; 9]%Q.
(** column 0 at 0, then column 1 at 0 on the left and at 5 on the right *)
Definition uneven : tree :=
  mkTree [1; 3; 5; -1; -1; -1; -1]%Z [2; 4; 6; -1; -1; -1; -1]%Z [1; 3; 5; -1; -1; -1; -1]%Z
         [0; 1; 1; -2; -2; -2; -2]%Z [0; 0; 5; 0; 0; 0; 0]%Q [0; 0; 0; 2; 5; 8; 9]%Q.

Ltac visit_leaf := (* the walk of a concrete observation *)
  match goal with |- visits ?t ?x ?m ?l =>
    apply (proj1 (iff_refl (visits t x m l)));
    let H := fresh in
    assert (H : walk (nn t) t x m 0 = Some l) by (vm_compute; reflexivity);
    exact (walk_visits t x m (nn t) 0 l (vis_root t x m) H) end.

(** The walk lists, once each, exactly the leaves that can be met by following the observation
    on [S] and both sides elsewhere; the rectangle of a leaf holds exactly the observations that
    fall in the leaf, its sides on [S] hold [x], and every observation equal to [x] on [S] falls
    in a leaf of the list. *)
Theorem C104_leaves : forall t d x S, wf_tree t d = true ->
  exists ls, compatible t x S = Some ls /\ NoDup (map fst ls) /\
    (forall l, In l (map fst ls) <-> may_meet t x S 0 l /\ leaf_node t l = true) /\
    (forall l p, In (l, p) ls ->
       (forall s, In s S -> above_lo (fst (p s)) (x s) /\ below_hi (snd (p s)) (x s)) /\
       (forall z, Inside d p z <-> visits t z no_missing l)) /\
    (forall z, same_on S x z -> exists l, In l (map fst ls) /\ visits t z no_missing l).
Proof. exact leaves_statement. Qed.
Print Assumptions C104_leaves.
Example C104_leaves_example :
  wf_tree deep 2 = true /\
  option_map (map (fun l => (fst l, snd l 0, snd l 1))) (compatible deep (pp 3 4) [1])
    = Some [(5, (NInf, Fin 0%Q), (Fin 1%Q, PInf)); (6, (Fin 0%Q, PInf), (Fin 1%Q, PInf))] /\
  option_map (map fst) (compatible deep (pp 3 4) []) = Some [3; 4; 5; 6] /\
  option_map (map fst) (compatible deep (pp 3 4) [0; 1]) = Some [6].
Proof. vm_compute. auto. Qed.

(** The rows are counted with closed boxes.  A row on no threshold is counted in the leaf it falls
    in and in no other... *)
Theorem C104_rows_partial : forall t d x S ls z, wf_tree t d = true -> (forall s, In s S -> s < d) ->
  compatible t x S = Some ls -> off_thresholds t z ->
  (forall l p, In (l, p) ls -> (within p (seq 0 d) z <-> visits t z no_missing l)) /\
  ((forall l p, In (l, p) ls -> within p S z) -> exists l p, In (l, p) ls /\ within p (seq 0 d) z).
Proof. exact rows_statement. Qed.
Print Assumptions C104_rows_partial.
Example C104_rows_example : off_thresholds deep (pp 3 4) /\ ~ off_thresholds deep (pp 0 4).
Proof.
  split.
  - intros i Hi Hl. vm_compute in Hi. do 7 (destruct i as [|i]; [vm_compute in *; congruence|]). lia.
  - intro H. apply (H 2); [vm_compute; lia|reflexivity|reflexivity].
Qed.
(** ... but a row on a threshold is counted in leaves it does not fall in. *)
Theorem C104_rows_refuted : exists t d x S ls z l p, wf_tree t d = true /\ (forall s, In s S -> s < d) /\
  compatible t x S = Some ls /\ In (l, p) ls /\ within p (seq 0 d) z /\ ~ visits t z no_missing l /\
  leaf_rows d S [z] (fun _ => true) p = 1.
Proof.
  exists (stump 0 2), 2, (pp 0 0), [1]. eexists. exists (pp 0 0), 2. eexists.
  split; [reflexivity|]. split; [intros s [<-|[]]; lia|]. split; [reflexivity|]. split; [right; left; reflexivity|].
  split; [apply in_sides_within; reflexivity|]. split; [|reflexivity].
  intro V. apply (visited_leaf_predicted (stump 0 2) 2 eq_refl) in V. destruct V as [V _]. specialize (V eq_refl). discriminate V.
Qed.
Print Assumptions C104_rows_refuted.

(** The result is a probability. *)
Theorem C104_range : forall fx tx d S data x ts q, cond_sdp_forest fx tx d S data x ts = Some (Some q) -> (0 <= q <= 1)%Q.
Proof. exact cond_range. Qed.
Print Assumptions C104_range.
Theorem C104_range_clf : forall c d S data x ts q, cond_sdp_forest_clf c d S data x ts = Some (Some q) -> (0 <= q <= 1)%Q.
Proof. exact clf_range. Qed.
Print Assumptions C104_range_clf.

(** One regression tree whose compatible leaves have the same rows [A] within their sides on [S]:
    the result, when it is a number, is the share of the rows of [A] with a prediction
    close to [fx]... *)
Theorem C104_share_partial : forall t d x S ls data fx tx (A close : pt -> bool),
  wf_tree t d = true -> 2 <= d -> (forall s, In s S -> s < d) -> S <> [] -> compatible t x S = Some ls ->
  (forall l p z, In (l, p) ls -> In z data -> decided (A z) (within p S z)) ->
  (forall z, In z data -> exists v, leaf_value t z no_missing v /\ decided (close z) ((v - fx) * (v - fx) <= tx)%Q) ->
  forall q, cond_sdp_forest fx tx d S data x [t] = Some (Some q) ->
    (exists z, In z data /\ A z = true) /\ (q == share A close data)%Q.
Proof. exact one_share. Qed.
Print Assumptions C104_share_partial.
(** ... and it is a number when some of these rows are close, some are not and none is on a threshold. *)
Theorem C104_number_partial : forall t d x S ls data fx tx (A close : pt -> bool),
  wf_tree t d = true -> 2 <= d -> (forall s, In s S -> s < d) -> S <> [] -> compatible t x S = Some ls ->
  (forall l p z, In (l, p) ls -> In z data -> decided (A z) (within p S z)) ->
  (forall z, In z data -> exists v, leaf_value t z no_missing v /\ decided (close z) ((v - fx) * (v - fx) <= tx)%Q) ->
  (forall z, In z data -> off_thresholds t z) ->
  (exists z, In z data /\ A z = true /\ close z = true) -> (exists z, In z data /\ A z = true /\ close z = false) ->
  exists q, cond_sdp_forest fx tx d S data x [t] = Some (Some q).
Proof. exact one_defined. Qed.
Print Assumptions C104_number_partial.
(** rows of the example: column 1 above 1, close when column 0 is positive *)
Definition ex_rows : list pt := [pp 3 4; pp 2 2; pp (-1) 3; pp (-1) 0; pp 1 0].
Example C104_share_example :
  let A z := qltb 1 (z 1) in let close z := if qltb 1 (z 1) then qltb 0 (z 0) else false in
  wf_tree deep 2 = true /\
  (exists ls, compatible deep (pp 3 4) [1] = Some ls /\
     forall l p z, In (l, p) ls -> In z ex_rows -> decided (A z) (within p [1] z)) /\
  (forall z, In z ex_rows -> exists v, leaf_value deep z no_missing v /\ decided (close z) ((v - 9) * (v - 9) <= 1)%Q) /\
  (forall z, In z ex_rows -> off_thresholds deep z) /\
  option_map (option_map Qred) (cond_sdp_forest 9 1 2 [1] ex_rows (pp 3 4) [deep]) = Some (Some (2 # 3)%Q) /\ (share A close ex_rows == 2 # 3)%Q.
Proof.
  cbv zeta. split; [reflexivity|]. split.
  { eexists. split; [reflexivity|]. intros l p z Hl Hz. unfold decided. rewrite <- in_sides_within.
    cbn in Hl, Hz. destruct Hl as [Hl|[Hl|[]]]; injection Hl as <- <-;
      repeat (destruct Hz as [<-|Hz]; [vm_compute; tauto|]); contradiction. }
  split.
  { intros z Hz. cbn in Hz. repeat (destruct Hz as [<-|Hz]; [|]); try contradiction;
      (eexists; split; [eexists; split; [|split; [|reflexivity]]|]).
    all: try (match goal with |- visits ?t ?x ?m ?l =>
      let r := eval vm_compute in (predict_leaf t x m) in match r with Some ?k => unify l k end; visit_leaf end).
    all: try reflexivity.
    all: unfold decided; rewrite <- qleb_true; vm_compute; tauto. }
  split.
  { intros z Hz i Hi Hl. vm_compute in Hi. cbn in Hz.
    repeat (destruct Hz as [<-|Hz]; [do 7 (destruct i as [|i]; [vm_compute in *; congruence|]); lia|]); contradiction. }
  split; [vm_compute; reflexivity|vm_compute; reflexivity].
Qed.

(** With different sections the result is no share of rows at all: neither of those that fall in a
    compatible leaf, nor of those within the sides of all compatible leaves, nor of some. *)
Definition un_rows : list pt := [pp (-1) (-1); pp 1 (-1); pp 1 3; pp (-1) 3; pp (-1) 4].
Theorem C104_share_refuted : exists t d x S ls data fx tx (A1 A2 A3 close : pt -> bool) q,
  wf_tree t d = true /\ 2 <= d /\ (forall s, In s S -> s < d) /\ S <> [] /\ compatible t x S = Some ls /\
  (forall z, In z data -> off_thresholds t z) /\
  (forall z, In z data -> decided (A1 z) (exists l, In l (map fst ls) /\ visits t z no_missing l)) /\
  (forall z, In z data -> decided (A2 z) (forall l p, In (l, p) ls -> within p S z)) /\
  (forall z, In z data -> decided (A3 z) (exists l p, In (l, p) ls /\ within p S z)) /\
  (forall z, In z data -> exists v, leaf_value t z no_missing v /\ decided (close z) ((v - fx) * (v - fx) <= tx)%Q) /\
  cond_sdp_forest fx tx d S data x [t] = Some (Some q) /\
  ~ (q == share A1 close data)%Q /\ ~ (q == share A2 close data)%Q /\ ~ (q == share A3 close data)%Q.
Proof.
  exists uneven, 2, (pp 1 (-1)), [1]. eexists. exists un_rows, 2%Q, 1%Q.
  exists (fun z => if qleb (z 0) 0 then qleb (z 1) 0 else qleb (z 1) 5), (fun z => qleb (z 1) 0), (fun z => qleb (z 1) 5).
  exists (fun z => qleb (z 0) 0 && qleb (z 1) 0). eexists.
  split; [reflexivity|]. split; [lia|]. split; [intros s [<-|[]]; lia|]. split; [discriminate|]. split; [reflexivity|].
  split.
  { intros z Hz i Hi Hl. vm_compute in Hi. cbn in Hz.
    repeat (destruct Hz as [<-|Hz]; [do 7 (destruct i as [|i]; [vm_compute in *; congruence|]); lia|]); contradiction. }
  split.
  { intros z Hz. unfold decided. split.
    - intro K. exists (match predict_leaf uneven z no_missing with Some l => l | None => 0 end). cbn in Hz.
      repeat (destruct Hz as [<-|Hz]; [first [exfalso; vm_compute in K; discriminate K|split; [vm_compute; tauto|]]|]); try contradiction;
      (eapply (walk_visits uneven _ no_missing (nn uneven) 0 _ (vis_root uneven _ no_missing)); vm_compute; reflexivity).
    - intros [l [Hl V]].
      assert (W : predict_leaf uneven z no_missing = Some l).
      { apply (visited_leaf_predicted uneven 2 eq_refl z no_missing l V). cbn in Hl. destruct Hl as [<-|[<-|[]]]; reflexivity. }
      clear V. cbn in Hz. vm_compute in Hl. repeat (destruct Hz as [<-|Hz]; [vm_compute in W; injection W as <-; vm_compute; clear - Hl; intuition congruence|]). contradiction. }
  split.
  { intros z Hz. unfold decided. split.
    - intros K l p Hl. apply in_sides_within. cbn in Hl, Hz.
      destruct Hl as [Hl|[Hl|[]]]; injection Hl as <- <-;
        repeat (destruct Hz as [<-|Hz]; [vm_compute in *; congruence|]); contradiction.
    - intro K. specialize (K 3 _ (or_introl eq_refl)). apply in_sides_within in K. cbn in Hz.
      repeat (destruct Hz as [<-|Hz]; [vm_compute in *; congruence|]); contradiction. }
  split.
  { intros z Hz. unfold decided. split.
    - intro K. exists 5. eexists. split; [right; left; reflexivity|]. apply in_sides_within. cbn in Hz.
      repeat (destruct Hz as [<-|Hz]; [vm_compute in *; congruence|]); contradiction.
    - intros [l [p [Hl K]]]. apply in_sides_within in K. cbn in Hl, Hz.
      destruct Hl as [Hl|[Hl|[]]]; injection Hl as <- <-;
        repeat (destruct Hz as [<-|Hz]; [vm_compute in *; congruence|]); contradiction. }
  split.
  { intros z Hz. cbn in Hz. repeat (destruct Hz as [<-|Hz]; [|]); try contradiction;
      (eexists; split; [eexists; split; [|split; [|reflexivity]]|]).
    all: try (match goal with |- visits ?t ?x ?m ?l =>
      let r := eval vm_compute in (predict_leaf t x m) in match r with Some ?k => unify l k end; visit_leaf end).
    all: try reflexivity.
    all: unfold decided; rewrite <- qleb_true; vm_compute; tauto. }
  split; [vm_compute; reflexivity|]. vm_compute. repeat split; discriminate.
Qed.
Print Assumptions C104_share_refuted.

(** Several trees: when every tree alone is close to [fx] on every row the result is 1, when none is, 0... *)
Theorem C104_certain_partial : forall fx tx d S data x ts q, (forall t, In t ts -> wf_tree t d = true) -> S <> [] ->
  cond_sdp_forest fx tx d S data x ts = Some (Some q) ->
  ((forall t z v, In t ts -> In z data -> leaf_value t z no_missing v -> ((v - fx) * (v - fx) <= tx)%Q) -> (q == 1)%Q) /\
  ((forall t z v, In t ts -> In z data -> leaf_value t z no_missing v -> (tx < (v - fx) * (v - fx))%Q) -> (q == 0)%Q).
Proof. exact certain_statement. Qed.
Print Assumptions C104_certain_partial.
Example C104_certain_example :
  option_map (option_map Qred) (cond_sdp_forest 3 4 2 [1] ex_rows (pp 3 4) [stump 2 3; stump 4 5]) = Some (Some 1%Q) /\
  option_map (option_map Qred) (cond_sdp_forest 3 0 2 [1] ex_rows (pp 3 4) [stump 2 4; stump 4 5]) = Some (Some 0%Q).
Proof. vm_compute. auto. Qed.
(** ... but the decision of the forest is never looked at: the mean of the trees is [fx] on every row
    and the result is 0. *)
Theorem C104_forest_refuted : exists t1 t2 d x S data fx tx q,
  wf_tree t1 d = true /\ wf_tree t2 d = true /\ 2 <= d /\ (forall s, In s S -> s < d) /\ S <> [] /\ (0 < tx)%Q /\
  (forall z v1 v2, leaf_value t1 z no_missing v1 -> leaf_value t2 z no_missing v2 -> ((v1 + v2) * (1 # 2) == fx)%Q) /\
  cond_sdp_forest fx tx d S data x [t1; t2] = Some (Some q) /\ (q == 0)%Q.
Proof.
  exists (stump 2 0), (stump 0 2), 2, (pp 1 1), [1], ex_rows, 1%Q, (1 # 2)%Q. eexists.
  split; [reflexivity|]. split; [reflexivity|]. split; [lia|]. split; [intros s [<-|[]]; lia|]. split; [discriminate|].
  split; [reflexivity|]. split.
  { intros z v1 v2 [l1 [V1 [L1 ->]]] [l2 [V2 [L2 ->]]].
    apply (visited_leaf_predicted (stump 2 0) 2 eq_refl) in V1. apply (visited_leaf_predicted (stump 0 2) 2 eq_refl) in V2.
    apply V1 in L1. apply V2 in L2. unfold predict_leaf in L1, L2. cbn in L1, L2.
    unfold next_node in L1, L2. cbn in L1, L2.
    destruct (qleb (z 0) 0); cbn in L1, L2; injection L1 as <-; injection L2 as <-; reflexivity. }
  split; [vm_compute; reflexivity|reflexivity].
Qed.
Print Assumptions C104_forest_refuted.

(** Without any column in [S], 'all' is a sum over the rows instead of a mean: a tree of which
    half of the rows are close gets 0. *)
Theorem C104_empty_refuted : exists t d x data fx tx (close : pt -> bool) q,
  wf_tree t d = true /\ 2 <= d /\ (forall z, In z data -> off_thresholds t z) /\
  (forall z, In z data -> exists v, leaf_value t z no_missing v /\ decided (close z) ((v - fx) * (v - fx) <= tx)%Q) /\
  cond_sdp_forest fx tx d [] data x [t] = Some (Some q) /\ (q == 0)%Q /\ (share (fun _ => true) close data == 1 # 2)%Q.
Proof.
  exists (stump 0 2), 2, (pp (-1) 0), [pp (-1) 0; pp 1 0], 0%Q, 1%Q, (fun z => qleb (z 0) 0). eexists.
  split; [reflexivity|]. split; [lia|]. split.
  { intros z Hz i Hi Hl. vm_compute in Hi. cbn in Hz.
    repeat (destruct Hz as [<-|Hz]; [do 3 (destruct i as [|i]; [vm_compute in *; congruence|]); lia|]); contradiction. }
  split.
  { intros z Hz. cbn in Hz. repeat (destruct Hz as [<-|Hz]; [|]); try contradiction;
      (eexists; split; [eexists; split; [|split; [|reflexivity]]|]).
    all: try (match goal with |- visits ?t ?x ?m ?l =>
      let r := eval vm_compute in (predict_leaf t x m) in match r with Some ?k => unify l k end; visit_leaf end).
    all: try reflexivity.
    all: unfold decided; rewrite <- qleb_true; vm_compute; tauto. }
  split; [vm_compute; reflexivity|]. split; reflexivity.
Qed.
Print Assumptions C104_empty_refuted.

(** The result can be a NaN although every prediction equals [fx]. *)
Theorem C104_number_refuted : exists t d x S data fx tx, wf_tree t d = true /\ 2 <= d /\ (forall s, In s S -> s < d) /\ S <> [] /\
  data <> [] /\ (0 < tx)%Q /\ (forall z v, leaf_value t z no_missing v -> (v == fx)%Q) /\
  cond_sdp_forest fx tx d S data x [t] = Some None.
Proof.
  exists (stump 0 0), 2, (pp 1 1), [1], ex_rows, 0%Q, 1%Q. split; [reflexivity|]. split; [lia|]. split; [intros s [<-|[]]; lia|].
  split; [discriminate|]. split; [discriminate|]. split; [reflexivity|]. split; [|vm_compute; reflexivity].
  intros z v [l [V [L ->]]]. destruct l as [|[|[|[|l]]]]; reflexivity.
Qed.
Print Assumptions C104_number_refuted.
(** With a single column the routine always raises. *)
Theorem C104_single_column : forall fx tx S data x ts, cond_sdp_forest fx tx 1 S data x ts = None.
Proof. exact single_column. Qed.
Print Assumptions C104_single_column.

(** ** Classification *)
(** The result, when it is a number, is the mean over the trees of the share of the rows of the
    common section of the tree that this tree puts in the class [c]; all the columns give 1... *)
Theorem C104_clf_partial : forall c d S data x ts (A same : ctree -> pt -> bool) q,
  S <> [] -> length S <> d ->
  (forall t, In t ts -> wf_tree (c_tree t) d = true /\
     (forall ls l p z, compatible (c_tree t) x S = Some ls -> In (l, p) ls -> In z data -> decided (A t z) (within p S z)) /\
     (forall z, In z data -> exists l, visits (c_tree t) z no_missing l /\ leaf_node (c_tree t) l = true /\
        2 <= length (c_val t l) /\ decided (same t z) (first_best (c_val t l) c))) ->
  cond_sdp_forest_clf c d S data x ts = Some (Some q) ->
  (q == sumf (fun t => share (A t) (same t) data) ts / Qn (length ts))%Q.
Proof. exact clf_share. Qed.
Print Assumptions C104_clf_partial.
Theorem C104_clf_full : forall c d S data x ts, length S = d -> cond_sdp_forest_clf c d S data x ts = Some (Some 1%Q).
Proof. exact clf_full. Qed.
Print Assumptions C104_clf_full.
(** two trees with two classes: column 0 at 0 *)
Definition cstump (a b : list Q) : ctree := mkC (stump 0 0) (fun l => match l with 1 => a | _ => b end).
Definition cex : list ctree := [cstump [3 # 4; 1 # 4]%Q [1 # 4; 3 # 4]%Q; cstump [1 # 8; 7 # 8]%Q [1; 0]%Q].
Example C104_clf_example :
  let A (t : ctree) (z : pt) := true in
  let same t z := if qleb (z 0) 0 then qltb (nth 1 (c_val t 1) 0%Q) (nth 0 (c_val t 1) 0%Q) else qltb (nth 1 (c_val t 2) 0%Q) (nth 0 (c_val t 2) 0%Q) in
  (forall t, In t cex -> wf_tree (c_tree t) 2 = true /\
     (forall ls l p z, compatible (c_tree t) (pp 1 1) [1] = Some ls -> In (l, p) ls -> In z ex_rows -> decided (A t z) (within p [1] z)) /\
     (forall z, In z ex_rows -> exists l, visits (c_tree t) z no_missing l /\ leaf_node (c_tree t) l = true /\
        2 <= length (c_val t l) /\ decided (same t z) (first_best (c_val t l) 0))) /\
  option_map (option_map Qred) (cond_sdp_forest_clf 0 2 [1] ex_rows (pp 1 1) cex) = Some (Some (1 # 2)%Q) /\
  option_map (option_map Qred) (cond_sdp_forest_clf 0 2 [1] ex_rows (pp 1 1) [nth 1 cex (cstump [] [])]) = Some (Some (3 # 5)%Q).
Proof.
  cbv zeta. split; [|split; vm_compute; reflexivity].
  intros t Ht. split; [destruct Ht as [<-|[<-|[]]]; reflexivity|]. split.
  - intros ls l p z E Hl Hz. unfold decided. rewrite <- in_sides_within.
    destruct Ht as [<-|[<-|[]]]; vm_compute in E; injection E as <-; cbn in Hl;
      (destruct Hl as [Hl|[Hl|[]]]; injection Hl as <- <-; split; reflexivity).
  - intros z Hz. exists (if qleb (z 0) 0 then 1 else 2).
    assert (V : visits (c_tree t) z no_missing (if qleb (z 0) 0 then 1 else 2)).
    { destruct Ht as [<-|[<-|[]]]; (eapply (walk_visits _ z no_missing 3 0 _ (vis_root _ z no_missing)));
        cbn; unfold next_node; cbn; destruct (qleb (z 0) 0); reflexivity. }
    split; [exact V|]. split; [destruct Ht as [<-|[<-|[]]], (qleb (z 0) 0); reflexivity|].
    split; [destruct Ht as [<-|[<-|[]]], (qleb (z 0) 0); cbn; lia|].
    unfold decided.
    destruct Ht as [<-|[<-|[]]], (qleb (z 0) 0); (split; intro K);
      solve [vm_compute in K; discriminate K | reflexivity
            | exfalso; destruct K as [_ [K _]]; specialize (K 1 ltac:(cbn; lia)); vm_compute in K; apply K; reflexivity
            | split; [cbn; lia|split; [intros [|[|j]] Hj; cbn in Hj; [vm_compute; discriminate|vm_compute; discriminate|lia]|intros j Hj; lia]]].
Qed.
(** ... but not the share of the rows the forest puts in the class: its mean scores prefer the class
    on every row and the result is one half. *)
Theorem C104_clf_forest_refuted : exists t1 t2 d x S data c q,
  wf_tree (c_tree t1) d = true /\ wf_tree (c_tree t2) d = true /\ (forall s, In s S -> s < d) /\ S <> [] /\ length S <> d /\ data <> [] /\
  (forall z l1 l2, visits (c_tree t1) z no_missing l1 -> leaf_node (c_tree t1) l1 = true ->
     visits (c_tree t2) z no_missing l2 -> leaf_node (c_tree t2) l2 = true ->
     first_best (map (fun k => (nth k (c_val t1 l1) 0 + nth k (c_val t2 l2) 0) * (1 # 2))%Q [0; 1]) c) /\
  cond_sdp_forest_clf c d S data x [t1; t2] = Some (Some q) /\ (q == 1 # 2)%Q.
Proof.
  exists (cstump [7 # 8; 1 # 8]%Q [7 # 8; 1 # 8]%Q), (cstump [1 # 4; 3 # 4]%Q [1 # 4; 3 # 4]%Q), 2, (pp 1 1), [1], ex_rows, 0. eexists.
  split; [reflexivity|]. split; [reflexivity|]. split; [intros s [<-|[]]; lia|]. split; [discriminate|]. split; [discriminate|].
  split; [discriminate|]. split; [|split; [vm_compute; reflexivity|reflexivity]].
  intros z l1 l2 _ _ _ _.
  assert (E1 : c_val (cstump [7 # 8; 1 # 8]%Q [7 # 8; 1 # 8]%Q) l1 = [7 # 8; 1 # 8]%Q) by (destruct l1 as [|[|l]]; reflexivity).
  assert (E2 : c_val (cstump [1 # 4; 3 # 4]%Q [1 # 4; 3 # 4]%Q) l2 = [1 # 4; 3 # 4]%Q) by (destruct l2 as [|[|l]]; reflexivity).
  rewrite E1, E2. split; [cbn; lia|]. split; [|intros j Hj; lia].
  intros [|[|j]] Hj; cbn in Hj; [vm_compute; discriminate|vm_compute; discriminate|lia].
Qed.
Print Assumptions C104_clf_forest_refuted.
(** The empty set gives 0 although every tree puts every row in the class. *)
Theorem C104_clf_empty_refuted : exists t d data c q, wf_tree (c_tree t) d = true /\ data <> [] /\
  (forall l, first_best (c_val t l) c) /\ (forall x, cond_sdp_forest_clf c d [] data x [t] = Some (Some q)) /\ (q == 0)%Q.
Proof.
  exists (cstump [1; 0]%Q [1; 0]%Q), 2, ex_rows, 0, 0%Q. split; [reflexivity|]. split; [discriminate|]. split.
  - intro l. assert (E : c_val (cstump [1; 0]%Q [1; 0]%Q) l = [1; 0]%Q) by (destruct l as [|[|l]]; reflexivity). rewrite E.
    split; [cbn; lia|]. split; [|intros j Hj; lia].
    intros [|[|j]] Hj; cbn in Hj; [vm_compute; discriminate|vm_compute; discriminate|lia].
  - split; [|reflexivity]. intro x. reflexivity.
Qed.
Print Assumptions C104_clf_empty_refuted.

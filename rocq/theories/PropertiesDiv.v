(** Property theorems C93: the divergent-set sessions.  Each is proved by a lemma of
    DivProofs.v. *)
From Verif Require Import Base GameSpec TreeModel TreeSpec PropertiesTree RfModel RfSpec PropertiesRf SearchModel SearchSpec
  ExplModel ExplSpec DivModel DivSpec DivProofs.

(** C93: the local session never fails; it reports for each observation a set settled
    for the probability of the target when the variables of the set are freed, its
    complement, that very probability, and the weights it comes from. *)
Theorem C93_local_set : forall imp d order pi stop, ranked imp d order -> 0 < d -> (0 < pi)%Q -> (pi <= 1)%Q ->
  forall M data y N depth m classifier x target down up n out k, k < n ->
  local_divergent M data y N depth m classifier d order pi stop x target down up n = Some out ->
  exists S, settled d (agnostic_space d order) pi stop
      (fun S => compute_cdp_rf M data y N depth m classifier (complement d S) (x k) (target k) (down k) (up k)) S /\
    dv_star (ds_row out k) = map Z.of_nat S /\ dv_bar (ds_row out k) = map Z.of_nat (complement d S) /\
    dv_p (ds_row out k) =
      compute_cdp_rf M data y N depth m classifier (complement d S) (x k) (target k) (down k) (up k).
Proof. exact local_session. Qed.
Print Assumptions C93_local_set.
Theorem C93_local_weights : forall imp d order pi stop, ranked imp d order -> 0 < d -> (0 < pi)%Q -> (pi <= 1)%Q ->
  forall M data y N depth m classifier x target down up n out k e, k < n ->
  local_divergent M data y N depth m classifier d order pi stop x target down up n = Some out ->
  (forall i, e i = true <-> same_decision classifier (target k) (down k) (up k) y i) ->
  let w := dv_w (ds_row out k) in
  (dv_p (ds_row out k) == total N (fun i => if e i then w i else 0))%Q /\
  (forall i, (0 <= w i)%Q) /\ (total N w <= 1)%Q /\
  (0 < F_trees M -> forall i, i < N ->
     (forall j, j < d -> ~ In (Z.of_nat j) (dv_star (ds_row out k)) -> (x k j == data i j)%Q) ->
     (total N w == 1)%Q /\ (1 / Qn N <= w i)%Q).
Proof. exact local_weights. Qed.
Print Assumptions C93_local_weights.
Theorem C93_local_defined : forall imp d order pi stop, ranked imp d order ->
  forall M data y N depth m classifier x target down up n,
  local_divergent M data y N depth m classifier d order pi stop x target down up n <> None.
Proof. exact local_defined. Qed.
Print Assumptions C93_local_defined.

(** two observations, of classes 1 and 0, with the opposite targets *)
Definition dv_x (k : nat) : pt := nth k [ex_point; ex_obs 0 9 0] ex_point.
Definition dv_target (k : nat) : Q := nth k [0; 1]%Q 0%Q.
Definition dv_zero (_ : nat) : Q := 0%Q.
Definition dv_show (N n : nat) (o : option divset) :=
  match o with
  | None => None
  | Some s => Some (map (fun j => Qred (ds_importance s j)) [0; 1; 2],
                    map (fun k => let r := ds_row s k in
                           (dv_star r, dv_bar r, Qred (dv_p r), map (fun i => Qred (dv_w r i)) (seq 0 N))) (seq 0 n))
  end.
Example C93_local_example :
  ranked (fun _ => 0%Q) 3 [0; 1; 2] /\
  (forall k i, (if qeqb (dv_target k) (ex_y i) then true else false) = true <->
     same_decision true (dv_target k) 0 0 ex_y i) /\
  dv_show 6 2 (local_divergent ex_mem ex_train ex_y 6 3 1 true 3 [0; 1; 2] (4 # 5) true dv_x dv_target dv_zero dv_zero 2)
  = Some ([1 # 2; 0; 0],
          [([0%Z], [1%Z; 2%Z], 1 # 3, [1 # 3; 1 # 3; 0; 0; 1 # 3; 0]);
           ([0%Z], [1%Z; 2%Z], 5 # 6, [1 # 6; 1 # 6; 1 # 2; 0; 1 # 6; 0])])%Q /\
  dv_show 6 2 (local_divergent ex_mem ex_train ex_y 6 3 1 true 3 [0; 1; 2] (1 # 3) true dv_x dv_target dv_zero dv_zero 2)
  = Some ([1 # 1; 0; 0],
          [([0%Z], [1%Z; 2%Z], 1 # 3, [1 # 3; 1 # 3; 0; 0; 1 # 3; 0]);
           ([0%Z], [1%Z; 2%Z], 5 # 6, [1 # 6; 1 # 6; 1 # 2; 0; 1 # 6; 0])])%Q.
Proof.
  split; [split; [reflexivity|intros i j a b _ _ _; lra]|].
  split; [intros k i; unfold same_decision; destruct (qeqb_spec (dv_target k) (ex_y i)); intuition discriminate|].
  split; vm_compute; reflexivity.
Qed.

(** the importance should count the observations whose reported set reaches the level:
    a set of all columns is counted whatever its probability *)
Theorem C93_importance_refuted : exists imp d order pi ts data y N depth m x target down up n out k j,
  ranked imp d order /\ (forall t, In t ts -> wf_tree t d = true) /\ k < n /\ n = 2 /\
  local_divergent (dense ts ex_calm) data y N depth m true d order pi false x target down up n = Some out /\
  (dv_p (ds_row out k) < pi)%Q /\ (forall k', k' < n -> k' <> k -> ~ In (Z.of_nat j) (dv_star (ds_row out k'))) /\
  (ds_importance out j == 1 # 2)%Q.
Proof.
  exists (fun _ => 0%Q), 3, [0; 1; 2], (4 # 5), ex_rf, ex_train, ex_y, 6, 3, 1, dv_x, dv_target, dv_zero, dv_zero, 2.
  destruct (local_divergent (dense ex_rf ex_calm) ex_train ex_y 6 3 1 true 3 [0; 1; 2] (4 # 5) false dv_x dv_target dv_zero dv_zero 2)
    as [out|] eqn:E; [|exfalso; revert E; apply (local_defined (fun _ => 0%Q)); split; [reflexivity|intros i j a b _ _ _; lra]].
  exists out, 0, 1. split; [split; [reflexivity|intros i j a b _ _ _; lra]|].
  split; [intros t [<-|[<-|[]]]; reflexivity|]. split; [lia|]. split; [reflexivity|]. split; [reflexivity|].
  assert (X : dv_show 6 2 (Some out) = Some ([1 # 1; 1 # 2; 1 # 2],
          [([0%Z; 1%Z; 2%Z], [], 1 # 2, [1 # 6; 1 # 6; 1 # 6; 1 # 6; 1 # 6; 1 # 6]);
           ([0%Z], [1%Z; 2%Z], 5 # 6, [1 # 6; 1 # 6; 1 # 2; 0; 1 # 6; 0])])%Q) by (rewrite <- E; vm_compute; reflexivity).
  unfold dv_show in X. cbn [map seq] in X. injection X as X1 X2 X3 X4 X5 X6.
  assert (Y : forall a b, Qred a = b -> (a == b)%Q) by (intros a b <-; symmetry; apply Qred_correct).
  repeat match goal with H : Qred _ = _ |- _ => apply Y in H end.
  split; [lra|]. split; [|lra].
  intros k' Hk Hne. assert (k' = 1) as -> by lia.
  match goal with H : dv_star (ds_row out 1) = _ |- _ => rewrite H end. cbn. lia.
Qed.
Print Assumptions C93_importance_refuted.

(** The regional session never fails; the set it reports is settled for the probability
    it searches with, and the probability it reports is that of the complement: the
    variables freed and kept are exchanged.  Full statement: [dv_p] is the probability
    of the target when the variables of [dv_star] are freed. *)
Theorem C93_regional_set_partial : forall imp d order pi stop, ranked imp d order -> 0 < d -> (0 < pi)%Q -> (pi <= 1)%Q ->
  forall M data y N depth m classifier rules target down up n out k, k < n ->
  regional_divergent M data y N depth m classifier d order pi stop rules target down up n = Some out ->
  exists S, settled d (agnostic_space d order) pi stop
      (fun S => fst (fst (compute_cdp_intv_weights M data y N depth m classifier (down k) (up k) S (target k) (rules k)))) S /\
    dv_star (ds_row out k) = map Z.of_nat S /\ dv_bar (ds_row out k) = map Z.of_nat (complement d S) /\
    dv_p (ds_row out k) = fst (fst
      (compute_cdp_intv_weights M data y N depth m classifier (down k) (up k) (complement d S) (target k) (rules k))).
Proof. exact regional_session. Qed.
Print Assumptions C93_regional_set_partial.
(** the probability reported is the weight of the targets inside the interval, but of the
    classes other than the target; the samples inside the rule on the variables of
    [dv_star] (not on the others) are weighted *)
Theorem C93_regional_weights : forall imp d order pi stop, ranked imp d order -> 0 < d -> (0 < pi)%Q -> (pi <= 1)%Q ->
  forall M data y N depth m classifier (x : nat -> pt) rules target down up n out k e, k < n ->
  regional_divergent M data y N depth m classifier d order pi stop rules target down up n = Some out ->
  (forall i, e i = true <-> same_decision classifier (target k) (down k) (up k) y i) ->
  let w := dv_w (ds_row out k) in
  (dv_p (ds_row out k) == total N (fun i => if Bool.eqb (e i) (negb classifier) then w i else 0))%Q /\
  (forall i, (0 <= w i)%Q) /\ (total N w <= 1)%Q /\
  (0 < F_trees M -> forall i, i < N ->
     (forall j, ~ (j < d /\ ~ In (Z.of_nat j) (dv_star (ds_row out k))) ->
        (fst (rules k j) <= data i j)%Q /\ (data i j <= snd (rules k j))%Q) ->
     (1 / Qn N <= w i)%Q).
Proof. exact regional_weights. Qed.
Print Assumptions C93_regional_weights.
Theorem C93_regional_defined : forall imp d order pi stop, ranked imp d order ->
  forall M data y N depth m classifier rules target down up n,
  regional_divergent M data y N depth m classifier d order pi stop rules target down up n <> None.
Proof. exact regional_defined. Qed.
Print Assumptions C93_regional_defined.

(** one split on the first variable; the rule holds its left side, the target its right side *)
Definition dv_stump : tree :=
  mkTree [1; -1; -1]%Z [2; -1; -1]%Z [2; -1; -1]%Z [0; -2; -2]%Z [2; 0; 0]%Q [0; 1; 2]%Q.
Definition dv_mem : fmem := dense [dv_stump] ex_calm.
Definition dv_train (i : nat) : pt :=
  nth i [ex_obs 1 0 0; ex_obs 3 0 0; ex_obs 4 1 0; ex_obs 5 1 0; ex_obs 6 1 0] (ex_obs 0 0 0).
Definition dv_y (i : nat) : Q := nth i [0; 1; 1; 1; 1]%Q 0%Q.
Definition dv_box (_ : nat) : rule := fun f => match f with 0 => ((- big)%Q, 2%Q) | _ => ((- big)%Q, big) end.
Definition dv_one (_ : nat) : Q := 1%Q.
Lemma dv_ranked : ranked (fun _ => 0%Q) 2 [0; 1].
Proof. split; [reflexivity|intros i j a b _ _ _; lra]. Qed.
Lemma dv_red a b : Qred a = b -> (a == b)%Q.
Proof. intros <-. symmetry. apply Qred_correct. Qed.

(** regression: the set found reaches the level, but the session reports 0 for it *)
Theorem C93_regional_probability_refuted : exists imp d order pi ts data y N depth m rules target down up n out k S,
  ranked imp d order /\ (forall t, In t ts -> wf_tree t d = true) /\ k < n /\
  regional_divergent (dense ts ex_calm) data y N depth m false d order pi true rules target down up n = Some out /\
  dv_star (ds_row out k) = map Z.of_nat S /\
  (pi <= fst (fst (compute_cdp_intv_weights (dense ts ex_calm) data y N depth m false (down k) (up k) S (target k) (rules k))))%Q /\
  (dv_p (ds_row out k) == 0)%Q.
Proof.
  exists (fun _ => 0%Q), 2, [0; 1], (4 # 5), [dv_stump], dv_train, dv_y, 5, 1, 5, dv_box, dv_zero, dv_one, dv_one, 1.
  destruct (regional_divergent (dense [dv_stump] ex_calm) dv_train dv_y 5 1 5 false 2 [0; 1] (4 # 5) true dv_box dv_zero dv_one dv_one 1)
    as [out|] eqn:E; [|exfalso; revert E; apply (regional_defined (fun _ => 0%Q)), dv_ranked].
  exists out, 0, [0]. split; [exact dv_ranked|].
  split; [intros t [<-|[]]; reflexivity|]. split; [lia|]. split; [reflexivity|].
  assert (X : dv_show 5 1 (Some out) = Some ([1; 0; 0], [([0%Z], [1%Z], 0, [1; 0; 0; 0; 0])])%Q)
    by (rewrite <- E; vm_compute; reflexivity).
  unfold dv_show in X. cbn [map seq] in X. injection X as X1 X2 X3 X4 X5 X6.
  split; [assumption|]. split; [vm_compute; discriminate|]. now apply dv_red.
Qed.
Print Assumptions C93_regional_probability_refuted.
(** classification: the session keeps a set whose variables, once freed, never lead to
    the target, and leaves out one that leads to it with the probability asked for *)
Theorem C93_regional_target_refuted : exists imp d order pi ts data y N depth m rules target n out k S S',
  ranked imp d order /\ (forall t, In t ts -> wf_tree t d = true) /\ k < n /\
  regional_divergent (dense ts ex_calm) data y N depth m true d order pi true rules target dv_zero dv_zero n = Some out /\
  dv_star (ds_row out k) = map Z.of_nat S /\ length S' = length S /\
  let reach T := total N (fun i => if qeqb (target k) (y i)
    then snd (compute_cdp_intv_weights (dense ts ex_calm) data y N depth m true 0 0 T (target k) (rules k)) i else 0)%Q in
  (reach S == 0)%Q /\ (pi <= reach S')%Q.
Proof.
  exists (fun _ => 0%Q), 2, [0; 1], (4 # 5), [dv_stump], dv_train, dv_y, 5, 1, 5, dv_box, dv_one, 1.
  destruct (regional_divergent (dense [dv_stump] ex_calm) dv_train dv_y 5 1 5 true 2 [0; 1] (4 # 5) true dv_box dv_one dv_zero dv_zero 1)
    as [out|] eqn:E; [|exfalso; revert E; apply (regional_defined (fun _ => 0%Q)), dv_ranked].
  exists out, 0, [1], [0]. split; [exact dv_ranked|].
  split; [intros t [<-|[]]; reflexivity|]. split; [lia|]. split; [reflexivity|].
  assert (X : dv_show 5 1 (Some out) = Some ([0; 1; 0], [([1%Z], [0%Z], 1 # 5, [1 # 5; 1 # 5; 1 # 5; 1 # 5; 1 # 5])])%Q)
    by (rewrite <- E; vm_compute; reflexivity).
  unfold dv_show in X. cbn [map seq] in X. injection X as X1 X2 X3 X4 X5 X6.
  split; [assumption|]. split; [reflexivity|]. cbn zeta. split; vm_compute; [reflexivity|discriminate].
Qed.
Print Assumptions C93_regional_target_refuted.
Example C93_regional_example :
  ranked (fun _ => 0%Q) 2 [0; 1] /\ 0 < F_trees dv_mem /\
  (forall i, qeqb 1 (dv_y i) = true <-> same_decision true 1 0 0 dv_y i) /\
  dv_show 5 1 (regional_divergent dv_mem dv_train dv_y 5 1 5 true 2 [0; 1] (4 # 5) true dv_box dv_one dv_zero dv_zero 1)
  = Some ([0; 1; 0], [([1%Z], [0%Z], 1 # 5, [1 # 5; 1 # 5; 1 # 5; 1 # 5; 1 # 5])])%Q /\
  dv_show 5 1 (regional_divergent dv_mem dv_train dv_y 5 1 5 false 2 [0; 1] (9 # 10) false dv_box dv_zero dv_one dv_one 1)
  = Some ([1; 1; 0], [([0%Z; 1%Z], [], 0, [1; 0; 0; 0; 0])])%Q.
Proof.
  split; [exact dv_ranked|]. split; [vm_compute; lia|].
  split; [intro i; unfold same_decision; destruct (qeqb_spec 1 (dv_y i)); intuition discriminate|].
  split; vm_compute; reflexivity.
Qed.

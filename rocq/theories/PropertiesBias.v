(** C108: the rules kept level by level and cut where a tree still holds more than [m] rows. *)
From Verif Require Import Base TreeModel PropertiesTree RfModel RfSpec RecModel BiasModel BiasSpec BiasProofs PropertiesRf.
Local Open Scope nat_scope.

(** The rule is, for every tree, the closed cell of the observation at the deepest level whose cell still holds more
    than [m] rows; the variables outside the coalition stay free; a missing rule means no level holds enough rows. *)
Theorem C108_rule : forall M data N D m Sv x, Sv <> [] ->
  match rule_biased M data N D m Sv x with
  | Some r => 0 < F_trees M /\ exists d : nat -> nat,
      (forall b, b < F_trees M -> 0 < d b <= D /\ more_than m N (cell_rows (row_of M b) Sv (d b) x data) /\
         forall e, d b < e <= D -> ~ more_than m N (cell_rows (row_of M b) Sv e x data)) /\
      (forall z, in_closed Sv r z <-> moderate Sv z /\ forall b, b < F_trees M -> closed_cell (row_of M b) Sv (d b) x z) /\
      (forall g, ~ In g Sv -> (fst (r g) == - (10000000000 # 1))%Q /\ (snd (r g) == 10000000000 # 1)%Q)
  | None => F_trees M = 0 \/ D = 0 \/ exists b, b < F_trees M /\ ~ more_than m N (cell_rows (row_of M b) Sv 1 x data)
  end.
Proof. exact rule_spec. Qed.
Print Assumptions C108_rule.
Definition ex_show (r : option rule) : option (list (Q * Q)) :=
  match r with Some r => Some (map (fun g => (Qred (fst (r g)), Qred (snd (r g)))) [0; 1; 2]) | None => None end.
Lemma ex_some {A} (o : option A) : match o with Some _ => true | None => false end = true -> exists a, o = Some a.
Proof. destruct o as [a|]; [intros _; now exists a|discriminate]. Qed.
Lemma ex_not_none {A} (o : option A) : match o with Some _ => true | None => false end = true -> o <> None.
Proof. intros H E. now rewrite E in H. Qed.
(** the last level of the second tree is given up when more than two rows are asked for *)
Example C108_rule_example :
  ex_show (rule_biased ex_mem ex_train 6 3 1 [0; 1; 2] ex_point) = Some [(1, 10000000000); (-10000000000, 3); (-10000000000, 5)]%Q /\
  ex_show (rule_biased ex_mem ex_train 6 3 2 [0; 1; 2] ex_point) = Some [(1, 10000000000); (-10000000000, 10000000000); (-10000000000, 5)]%Q.
Proof. split; vm_compute; reflexivity. Qed.

(** The call raises exactly when there is no tree, no level, or a tree whose first split leaves at most [m] rows. *)
Theorem C108_raises : forall M data N D m Sv x, Sv <> [] -> rule_biased M data N D m Sv x = None <->
  F_trees M = 0 \/ D = 0 \/ exists b, b < F_trees M /\ ~ more_than m N (cell_rows (row_of M b) Sv 1 x data).
Proof. exact raises_spec. Qed.
Print Assumptions C108_raises.
Theorem C108_empty : forall M data N D m x, rule_biased M data N D m [] x = None <-> F_trees M = 0 \/ D = 0 \/ 1 <= m.
Proof. exact empty_spec. Qed.
Print Assumptions C108_empty.
Example C108_raises_example : rule_biased ex_mem ex_train 6 3 4 [0; 2] ex_point = None /\ rule_biased ex_mem ex_train 6 3 1 [] ex_point = None /\
  rule_biased ex_mem ex_train 6 3 0 [] ex_point <> None.
Proof. split; [vm_compute; reflexivity|]. split; [vm_compute; reflexivity|]. apply ex_not_none. vm_compute. reflexivity. Qed.

(** The observation satisfies its own rule. *)
Theorem C108_contains : forall M data N D m Sv x r, Sv <> [] -> rule_biased M data N D m Sv x = Some r -> moderate Sv x ->
  in_closed Sv r x.
Proof. exact contains_spec. Qed.
Print Assumptions C108_contains.
Example C108_contains_example : rule_biased ex_mem ex_train 6 3 1 [0; 2] ex_point <> None /\ moderate [0; 2] ex_point.
Proof.
  split; [apply ex_not_none; vm_compute; reflexivity|]. intros f [<-|[<-|[]]]; split; vm_compute; discriminate.
Qed.

(** Off its lower bounds the rule keeps the points on the side of the observation at every split that was not given up.
    The full statement, for every point of the rule, is refuted below. *)
Theorem C108_cell_partial : forall M data N D m Sv x r, Sv <> [] -> rule_biased M data N D m Sv x = Some r ->
  exists d : nat -> nat, (forall b, b < F_trees M -> 0 < d b <= D) /\
  forall z, in_closed Sv r z -> (forall f, In f Sv -> ~ (z f == fst (r f))%Q) -> forall b, b < F_trees M -> same_cell (row_of M b) Sv (d b) x z.
Proof. exact cell_spec. Qed.
Print Assumptions C108_cell_partial.
Example C108_cell_example : exists r, rule_biased ex_mem ex_train 6 3 1 [0; 2] ex_point = Some r /\
  in_closed [0; 2] r (ex_obs 3 7 5) /\ forall f, In f [0; 2] -> ~ (ex_obs 3 7 5 f == fst (r f))%Q.
Proof.
  destruct (ex_some (rule_biased ex_mem ex_train 6 3 1 [0; 2] ex_point) ltac:(vm_compute; reflexivity)) as [r E].
  exists r. split; [exact E|]. assert (Hr : ex_show (Some r) = Some [(1, 10000000000); (-10000000000, 10000000000); (-10000000000, 5)]%Q) by (rewrite <- E; vm_compute; reflexivity).
  clear E. cbn [ex_show map] in Hr. injection Hr as A0 A1 A2 B0 B1 B2.
  assert (Ha : forall q q', Qred q = q' -> (q == q')%Q) by (intros q q' <-; symmetry; apply Qred_correct).
  apply Ha in A0, A1, A2, B0, B1, B2. split.
  - intros f [<-|[<-|[]]]; cbn; lra.
  - intros f [<-|[<-|[]]]; cbn; lra.
Qed.

(** A point on the threshold satisfies the rule though every tree sends it the other way. *)
Theorem C108_cell_refuted : exists M data N D m Sv x r z b, Sv <> [] /\ rule_biased M data N D m Sv x = Some r /\
  in_closed Sv r z /\ b < F_trees M /\ forall d, 0 < d -> ~ same_cell (row_of M b) Sv d x z.
Proof.
  destruct (ex_some (rule_biased ex_mem ex_train 6 3 1 [0; 2] ex_point) ltac:(vm_compute; reflexivity)) as [r E].
  exists ex_mem, ex_train, 6, 3, 1, [0; 2], ex_point, r, (ex_obs 1 3 4), 1.
  split; [discriminate|]. split; [exact E|]. split; [|split; [vm_compute; repeat constructor|]].
  - apply row_in_iff. change (match Some r with Some r => row_in r [0; 2] (ex_obs 1 3 4) | None => false end = true). rewrite <- E. vm_compute. reflexivity.
  - intros d Hd H. specialize (H 0 0%Z 0 Hd (met_root _ _ _) (conj eq_refl (or_introl eq_refl))). vm_compute in H. destruct H as [_ H].
    apply H; [discriminate|reflexivity].
Qed.
Print Assumptions C108_cell_refuted.

(** Every tree keeps more than [m] rows, the compiled rule need not. *)
Theorem C108_size_refuted : exists M data N D m Sv x r, Sv <> [] /\ rule_biased M data N D m Sv x = Some r /\
  ~ more_than m N (fun i => in_closed Sv r (data i)).
Proof.
  destruct (ex_some (rule_biased ex_mem ex_train 6 3 2 [0; 2] (ex_train 2)) ltac:(vm_compute; reflexivity)) as [r E].
  exists ex_mem, ex_train, 6, 3, 2, [0; 2], (ex_train 2), r. split; [discriminate|]. split; [exact E|].
  rewrite (more_than_iff 2 6 _ (fun i => row_in r [0; 2] (ex_train i)) (fun i => row_in_iff r [0; 2] (ex_train i))).
  change (~ match Some r with Some r => 2 < length (filter (fun i => row_in r [0; 2] (ex_train i)) (seq 0 6)) | None => False end).
  rewrite <- E. vm_compute. lia.
Qed.
Print Assumptions C108_size_refuted.

(** The probability returned with the rule is 0 for every observation ... *)
Theorem C108_sdp_zero : forall M data N D m Sv x p r, compute_sdp_rule_biased M data N D m Sv x = Some (p, r) -> p = 0%Q.
Proof. intros M data N D m Sv x p r. unfold compute_sdp_rule_biased. destruct (rule_biased M data N D m Sv x); congruence. Qed.
Print Assumptions C108_sdp_zero.
(** ... also where the same-decision probability is one. *)
Theorem C108_sdp_refuted : exists M data y N D m Sv x yx p r,
  compute_sdp_rule_biased M data N D m Sv x = Some (p, r) /\ (compute_sdp_rf M data y N D m true 0 0 Sv x yx == 1)%Q /\ (p == 0)%Q.
Proof.
  destruct (ex_some (compute_sdp_rule_biased ex_mem ex_train 6 3 1 [0; 2] ex_point) ltac:(vm_compute; reflexivity)) as [[p r] E].
  exists ex_mem, ex_train, (fun _ => 1%Q), 6, 3, 1, [0; 2], ex_point, 1%Q, p, r. split; [exact E|]. split; [vm_compute; reflexivity|].
  apply C108_sdp_zero in E. now subst.
Qed.
Print Assumptions C108_sdp_refuted.

(** The rules of the training samples are computed the same way, and one that raises makes the call raise. *)
Theorem C108_maxrule : forall M data N D m Sv x, Sv <> [] ->
  match compute_sdp_maxrule_biased M data N D m Sv x with
  | Some (p, r, l) => (p == 0)%Q /\ rule_biased M data N D m Sv x = Some r /\ length l = N /\
      forall j, j < N -> exists q, nth_error l j = Some (0%Q, q) /\ rule_biased M data N D m Sv (data j) = Some q
  | None => F_trees M = 0 \/ D = 0 \/ exists b, b < F_trees M /\
      (~ more_than m N (cell_rows (row_of M b) Sv 1 x data) \/ exists j, j < N /\ ~ more_than m N (cell_rows (row_of M b) Sv 1 (data j) data))
  end.
Proof. exact maxrule_spec. Qed.
Print Assumptions C108_maxrule.
Example C108_maxrule_example : match compute_sdp_maxrule_biased ex_mem ex_train 6 3 1 [0; 2] ex_point with
  | Some (_, _, l) => map (fun q => ex_show (Some (snd q))) (skipn 3 l) = [Some [(1, 10000000000); (-10000000000, 10000000000); (7, 10000000000)];
      Some [(1, 10000000000); (-10000000000, 10000000000); (-10000000000, 5)]; Some [(-10000000000, 1); (-10000000000, 10000000000); (5, 10000000000)]]%Q
  | None => False end.
Proof. vm_compute. reflexivity. Qed.
(** An observation with a rule gets none because of a training sample without one. *)
Theorem C108_rows_refuted : exists M data N D m Sv x, Sv <> [] /\ rule_biased M data N D m Sv x <> None /\
  compute_sdp_maxrule_biased M data N D m Sv x = None.
Proof.
  exists ex_mem, ex_train, 6, 3, 2, [0; 2], ex_point. split; [discriminate|]. split; [apply ex_not_none; vm_compute; reflexivity|]. vm_compute. reflexivity.
Qed.
Print Assumptions C108_rows_refuted.

(** The second version: only the samples with a weight get a rule, the others the rule of zeros. *)
Theorem C108_v2 : forall M data N D m Sv y classifier t x yx,
  let '(p, r, w) := compute_sdp_rule_v0_weights M data y N D m classifier t Sv x yx in
  match compute_sdp_maxrule_biased_v2 M data N D m Sv y classifier t x yx with
  | Some (p', r', w', l) => p' = p /\ r' = r /\ w' = w /\ length l = N /\
      forall j, j < N -> exists q, nth_error l j = Some (0%Q, q) /\
        (~ (w j == 0)%Q -> rule_biased M data N D m Sv (data j) = Some q) /\ ((w j == 0)%Q -> forall f, q f = (0%Q, 0%Q))
  | None => exists j, j < N /\ ~ (w j == 0)%Q /\ rule_biased M data N D m Sv (data j) = None
  end.
Proof. exact v2_spec. Qed.
Print Assumptions C108_v2.
Theorem C108_v2_contains_partial : forall M data N D m Sv y classifier t x yx p r w l j, Sv <> [] ->
  compute_sdp_maxrule_biased_v2 M data N D m Sv y classifier t x yx = Some (p, r, w, l) -> j < N -> ~ (w j == 0)%Q ->
  moderate Sv (data j) -> exists q, nth_error l j = Some (0%Q, q) /\ in_closed Sv q (data j).
Proof. exact v2_contains. Qed.
Print Assumptions C108_v2_contains_partial.
Example C108_v2_example : match compute_sdp_maxrule_biased_v2 ex_mem ex_train 6 3 1 [0; 2] ex_y true 0 ex_point 1 with
  | Some (_, _, w, l) => Qred (w 4) = (1 # 3)%Q /\ Qred (w 5) = 0%Q /\
      map (fun q => ex_show (Some (snd q))) (skipn 4 l) = [Some [(1, 10000000000); (-10000000000, 10000000000); (-10000000000, 5)]; Some [(0, 0); (0, 0); (0, 0)]]%Q
  | None => False end.
Proof. vm_compute. repeat split. Qed.
(** A training sample without weight is outside the rule returned for it. *)
Theorem C108_v2_refuted : exists M data N D m Sv y classifier t x yx p r w l j q, Sv <> [] /\
  compute_sdp_maxrule_biased_v2 M data N D m Sv y classifier t x yx = Some (p, r, w, l) /\ j < N /\ moderate Sv (data j) /\
  nth_error l j = Some (0%Q, q) /\ ~ in_closed Sv q (data j).
Proof.
  destruct (ex_some (compute_sdp_maxrule_biased_v2 ex_mem ex_train 6 3 1 [0; 2] ex_y true 0 ex_point 1) ltac:(vm_compute; reflexivity)) as [[[[p r] w] l] E].
  exists ex_mem, ex_train, 6, 3, 1, [0; 2], ex_y, true, 0%Q, ex_point, 1%Q, p, r, w, l, 5.
  assert (Hw : (snd (compute_sdp_rule_v0_weights ex_mem ex_train ex_y 6 3 1 true 0 [0%nat; 2%nat] ex_point 1) 5%nat == 0)%Q) by (vm_compute; reflexivity).
  pose proof (v2_spec ex_mem ex_train 6 3 1 [0; 2] ex_y true 0 ex_point 1) as H.
  destruct (compute_sdp_rule_v0_weights ex_mem ex_train ex_y 6 3 1 true 0 [0; 2] ex_point 1) as [[p0 r0] w0]. rewrite E in H. cbn [snd] in Hw.
  destruct H as [_ [_ [-> [_ H]]]]. destruct (H 5 ltac:(lia)) as [q [H1 [_ H2]]]. exists q.
  split; [discriminate|]. split; [exact E|]. split; [lia|]. split; [intros f [<-|[<-|[]]]; split; vm_compute; discriminate|].
  split; [exact H1|]. intro Hi. destruct (Hi 0 (or_introl eq_refl)) as [_ Hi']. rewrite (H2 Hw) in Hi'. vm_compute in Hi'. now apply Hi'.
Qed.
Print Assumptions C108_v2_refuted.

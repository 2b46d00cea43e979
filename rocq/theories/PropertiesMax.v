(** C103: the maximal rules of the agnostic explainer.  [inside] is the closed rule on
    the first [d] variables, as the search tests it; [RfSpec.in_rule] excludes the lower
    bounds, as the trees do. *)
From Verif Require Import Base TreeModel TreeSpec PropertiesTree RfModel RfSpec RulesModel RulesSpec AnnealModel AnnealSpec
  PropertiesRf PropertiesAnneal MaxModel MaxProofs.

(** two trees, for the examples: [x0 <= 1] then [x1 <= 1] on the right; [x1 <= 1] *)
Definition mx_trees : list tree :=
  [mkTree [1; -1; 3; -1; -1]%Z [2; -1; 4; -1; -1]%Z [1; -1; 3; -1; -1]%Z [0; -2; 1; -2; -2]%Z [1; 0; 1; 0; 0]%Q [0; 0; 0; 0; 0]%Q;
   mkTree [1; -1; -1]%Z [2; -1; -1]%Z [1; -1; -1]%Z [1; -2; -2]%Z [1; 0; 0]%Q [0; 0; 0]%Q].
Definition mx_mem : fmem := dense mx_trees ex_calm.
Definition mx_pt (a b : Q) : pt := fun k => match k with 0 => a | 1 => b | _ => 0%Q end.
Definition mx_train : nat -> pt := fun i => nth i [mx_pt 0 0; mx_pt 2 0; mx_pt 0 2; mx_pt 0 2; mx_pt 0 2; mx_pt 2 2] (mx_pt 0 0).
Definition mx_y : nat -> Q := fun i => nth i [1; 1; 1; 1; 1; 0]%Q 0%Q.
(** a sample on the lower bound of the rule of the observation (2, 0) *)
Definition mx_edge : nat -> pt := fun i => nth i [mx_pt 2 0; mx_pt 1 0; mx_pt 0 0] (mx_pt 0 0).
Definition mx_edge_y : nat -> Q := fun i => nth i [1; 0; 0]%Q 0%Q.

(** The training samples of the rule of the observation get a weight of at least
    [1 / N], the probability of the observation and its rule. *)
Theorem C103_own_rule : forall M data y N depth m classifier t0 t1 Sv x yx j, 0 < F_trees M -> j < N ->
  let own := max_own M data y N depth m classifier t0 t1 Sv x yx in
  RfSpec.in_rule Sv (snd (fst own)) (data j) ->
  (1 / Qn N <= snd own j)%Q /\ max_row M data y N depth m classifier t0 t1 Sv x yx j = fst own /\
  compute_sdp_rf M data y N depth m classifier t0 t1 Sv (data j) yx = fst (fst own).
Proof. exact @own_rule. Qed.
Print Assumptions C103_own_rule.
(** What is recorded for a training sample: its probability and rule if the
    observation gives it weight, zero and no bound at all otherwise. *)
Theorem C103_recorded : forall M data y N depth m classifier t0 t1 Sv x yx j,
  let own := max_own M data y N depth m classifier t0 t1 Sv x yx in
  let row := max_row M data y N depth m classifier t0 t1 Sv x yx j in
  fst (fst own) = compute_sdp_rf M data y N depth m classifier t0 t1 Sv x yx /\
  ((snd own j == 0)%Q -> row = (0%Q, rule0)) /\
  ((0 < snd own j)%Q -> fst row = compute_sdp_rf M data y N depth m classifier t0 t1 Sv (data j) yx /\
     snd row = snd (fst (compute_sdp_rule_weights M data y N depth m classifier t0 t1 Sv (data j) yx))).
Proof. exact @recorded. Qed.
Print Assumptions C103_recorded.
Example C103_own_example :
  let own := max_own mx_mem mx_train mx_y 6 2 1 true 0 0 [0; 1] (mx_pt 0 0) 1 in
  RfSpec.in_rule [0; 1] (snd (fst own)) (mx_train 0) /\ Qred (fst (fst own)) = 1%Q /\
  map (fun j => Qred (snd own j)) (seq 0 6) = [3 # 8; 1 # 4; 1 # 8; 1 # 8; 1 # 8; 0]%Q /\
  map (fun j => Qred (fst (max_row mx_mem mx_train mx_y 6 2 1 true 0 0 [0; 1] (mx_pt 0 0) 1 j))) (seq 0 6) = [1; 1; 7 # 8; 7 # 8; 7 # 8; 0]%Q /\
  Qred (compute_sdp_rf mx_mem mx_train mx_y 6 2 1 true 0 0 [0; 1] (mx_train 5) 1) = (3 # 8)%Q.
Proof. split; [intros f [<-|[<-|[]]]; vm_compute; split; congruence|]. vm_compute. auto. Qed.

(** The documented guarantee: every training sample in the maximal rule of an
    observation above the level is itself above the level.  It holds for the search by
    annealing, whatever the draws, if no training sample sits on a lower bound of the
    rule of the observation... *)
Theorem C103_annealing_partial : forall (G : Type) (rand : G -> Q * G) randint exp lg temp
    M data y N depth m classifier t0 t1 Sv x yx pi d p_best n_try batch max_iter conv g r v l,
  0 < F_trees M -> (forall f, In f Sv -> f < d) ->
  let own := snd (fst (max_own M data y N depth m classifier t0 t1 Sv x yx)) in
  (forall j f, j < N -> In f Sv -> ~ (data j f == fst (own f))%Q) ->
  (pi <= compute_sdp_rf M data y N depth m classifier t0 t1 Sv x yx)%Q ->
  max_rule_annealing M data y N depth m classifier t0 t1 Sv x yx rand randint exp lg temp pi d p_best n_try batch max_iter conv g = Some (r, v, l) ->
  wider d r own /\
  forall j, j < N -> inside d r (data j) ->
    (pi <= compute_sdp_rf M data y N depth m classifier t0 t1 Sv (data j) yx)%Q /\
    ((0 < pi)%Q -> (0 < snd (max_own M data y N depth m classifier t0 t1 Sv x yx) j)%Q).
Proof. intros. eapply max_annealing; eassumption. Qed.
Print Assumptions C103_annealing_partial.
(** ... in general, exactly if it holds for the closed rule the search starts from. *)
Theorem C103_annealing_iff_partial : forall (G : Type) (rand : G -> Q * G) randint exp lg temp
    M data y N depth m classifier t0 t1 Sv x yx pi d p_best n_try batch max_iter conv g r v l, (0 < pi)%Q ->
  max_rule_annealing M data y N depth m classifier t0 t1 Sv x yx rand randint exp lg temp pi d p_best n_try batch max_iter conv g = Some (r, v, l) ->
  let own := max_own M data y N depth m classifier t0 t1 Sv x yx in
  let good j := (0 < snd own j)%Q /\ (pi <= compute_sdp_rf M data y N depth m classifier t0 t1 Sv (data j) yx)%Q in
  (forall j, j < N -> inside d r (data j) -> good j) <-> (forall j, j < N -> inside d (snd (fst own)) (data j) -> good j).
Proof. intros. eapply max_annealing_iff; eassumption. Qed.
Print Assumptions C103_annealing_iff_partial.
(** A sample on a lower bound breaks the guarantee. *)
Theorem C103_annealing_refuted : exists (G : Type) (rand : G -> Q * G) randint exp lg temp
    ts data y N depth m Sv x yx pi d p_best n_try batch max_iter conv g r v l j,
  (forall n g, 0 < n -> fst (randint n g) < n) /\ (forall t, In t ts -> wf_tree t d = true) /\ (forall t, In t ts -> plain_leaves t) /\
  (forall f, In f Sv -> f < d) /\
  (pi <= compute_sdp_rf (dense ts ex_calm) data y N depth m true 0 0 Sv x yx)%Q /\
  max_rule_annealing (dense ts ex_calm) data y N depth m true 0 0 Sv x yx rand randint exp lg temp pi d p_best n_try batch max_iter conv g = Some (r, v, l) /\
  j < N /\ inside d r (data j) /\ (compute_sdp_rf (dense ts ex_calm) data y N depth m true 0 0 Sv (data j) yx < pi)%Q.
Proof.
  exists nat, ax_rand, ax_randint, (fun _ => 1%Q), (fun _ => 1%Q), 1%Q, mx_trees, mx_edge, mx_edge_y, 3, 2, 1, [0; 1], (mx_pt 2 0), 1%Q,
    (1 # 2)%Q, 2, 1%Q, 3, 3, 4, 9, 0.
  eexists _, _, _, 1. split; [intros n g H; cbn; apply Nat.mod_upper_bound; lia|].
  split; [intros t [<-|[<-|[]]]; reflexivity|]. split.
  { intros t [<-|[<-|[]]] l Hl Hf; vm_compute in Hl; do 5 (destruct l as [|l]; [try (vm_compute in Hf; discriminate Hf); vm_compute; auto|]); lia. }
  split; [intros f [<-|[<-|[]]]; lia|]. split; [vm_compute; discriminate|]. split; [vm_compute; reflexivity|].
  split; [lia|]. split; [|vm_compute; reflexivity].
  intros [|[|k]] Hk; [vm_compute; split; discriminate|vm_compute; split; discriminate|lia].
Qed.
Print Assumptions C103_annealing_refuted.
(** Nothing is guaranteed for observations that are not training samples. *)
Theorem C103_every_observation_refuted : exists (G : Type) (rand : G -> Q * G) randint exp lg temp
    ts data y N depth m Sv x yx pi d p_best n_try batch max_iter conv g r v l z,
  (forall n g, 0 < n -> fst (randint n g) < n) /\ (forall t, In t ts -> wf_tree t d = true) /\ (forall t, In t ts -> plain_leaves t) /\
  (forall f, In f Sv -> f < d) /\
  (forall j f, j < N -> In f Sv -> ~ (data j f == fst (snd (fst (max_own (dense ts ex_calm) data y N depth m true 0 0 Sv x yx)) f))%Q) /\
  (pi <= compute_sdp_rf (dense ts ex_calm) data y N depth m true 0 0 Sv x yx)%Q /\
  max_rule_annealing (dense ts ex_calm) data y N depth m true 0 0 Sv x yx rand randint exp lg temp pi d p_best n_try batch max_iter conv g = Some (r, v, l) /\
  (forall k, k < d -> (fst (r k) < z k < snd (r k))%Q) /\
  (compute_sdp_rf (dense ts ex_calm) data y N depth m true 0 0 Sv z yx < pi)%Q.
Proof.
  exists nat, ax_rand, ax_randint, (fun _ => 1%Q), (fun _ => 1%Q), 1%Q, mx_trees, mx_train, mx_y, 5, 2, 1, [0; 1], (mx_pt 0 0), 1%Q,
    (4 # 5)%Q, 2, 1%Q, 3, 3, 4, 9, 0.
  eexists _, _, _, (mx_pt 2 2). split; [intros n g H; cbn; apply Nat.mod_upper_bound; lia|].
  split; [intros t [<-|[<-|[]]]; reflexivity|]. split.
  { intros t [<-|[<-|[]]] l Hl Hf; vm_compute in Hl; do 5 (destruct l as [|l]; [try (vm_compute in Hf; discriminate Hf); vm_compute; auto|]); lia. }
  split; [intros f [<-|[<-|[]]]; lia|]. split.
  { intros j f Hj [<-|[<-|[]]]; do 5 (destruct j as [|j]; [vm_compute; discriminate|]); lia. }
  split; [vm_compute; discriminate|]. split; [vm_compute; reflexivity|]. split; [|vm_compute; reflexivity].
  intros [|[|k]] Hk; [vm_compute; split; reflexivity|vm_compute; split; reflexivity|lia].
Qed.
Print Assumptions C103_every_observation_refuted.
(** With at least one candidate per round and more than one variable the search always
    returns a rule; it has the largest volume of the rules evaluated, the volume being
    measured between the smallest and the largest values of the training samples. *)
Theorem C103_defined : forall (G : Type) (rand : G -> Q * G) randint exp lg temp
    M data y N depth m classifier t0 t1 Sv x yx pi d p_best n_try batch max_iter conv g,
  (forall n g, 0 < n -> fst (randint n g) < n) -> 0 < batch -> d <> 1 \/ max_iter = 0 ->
  exists r v l, max_rule_annealing M data y N depth m classifier t0 t1 Sv x yx rand randint exp lg temp pi d p_best n_try batch max_iter conv g = Some (r, v, l) /\
    In r l /\ (v == volume_rectangle d (col_max data N) (col_min data N) r)%Q /\
    forall a, In a l -> (volume_rectangle d (col_max data N) (col_min data N) a <= v)%Q.
Proof. exact @defined_best. Qed.
Print Assumptions C103_defined.
Theorem C103_extremes : forall data N k, 0 < N ->
  (forall i, i < N -> (col_min data N k <= data i k <= col_max data N k)%Q) /\
  (exists i, i < N /\ col_min data N k = data i k) /\ (exists i, i < N /\ col_max data N k = data i k).
Proof. exact col_bounds. Qed.
Print Assumptions C103_extremes.
Example C103_annealing_example :
  (forall j f, j < 6 -> In f [0; 1] -> ~ (mx_train j f == fst (snd (fst (max_own mx_mem mx_train mx_y 6 2 1 true 0 0 [0; 1]%nat (mx_pt 0 0) 1)) f))%Q) /\
  ((4 # 5) <= compute_sdp_rf mx_mem mx_train mx_y 6 2 1 true 0 0 [0; 1]%nat (mx_pt 0 0) 1)%Q /\
  option_map (fun q => (map (fst (fst q)) [0; 1], Qred (snd (fst q)), length (snd q)))
    (max_rule_annealing mx_mem mx_train mx_y 6 2 1 true 0 0 [0; 1] (mx_pt 0 0) 1 ax_rand ax_randint (fun _ => 1%Q) (fun _ => 1%Q) 1%Q
       (4 # 5) 2 1%Q 3 3 4 9 0) = Some ([(- big, 1); (- big, big)]%Q, 2%Q, 13) /\
  map (fun k => (col_min mx_train 6 k, col_max mx_train 6 k)) [0; 1] = [(0, 2); (0, 2)]%Q.
Proof.
  split; [intros j f Hj [<-|[<-|[]]]; do 6 (destruct j as [|j]; [vm_compute; discriminate|]); lia|].
  split; [vm_compute; discriminate|]. vm_compute. auto.
Qed.

(** The other search ([algo2=True]) returns a rule that contains the rule of the
    observation, with bounds of that rule or of training samples above the level... *)
Theorem C103_extend_partial : forall M data y N depth m classifier t0 t1 Sv x yx pi d,
  (forall j f, j < N -> In f Sv -> (- big < data j f <= big)%Q) ->
  let own := snd (fst (max_own M data y N depth m classifier t0 t1 Sv x yx)) in
  let row := max_row M data y N depth m classifier t0 t1 Sv x yx in
  exists r, max_rule_extend M data y N depth m classifier t0 t1 Sv x yx pi = Some r /\
    subrule d own r /\ (forall k, ~ In k Sv -> r k = rule0 k) /\
    forall k, (fst (r k) = fst (own k) \/ exists j, j < N /\ (pi <= fst (row j))%Q /\ fst (r k) = fst (snd (row j) k)) /\
              (snd (r k) = snd (own k) \/ exists j, j < N /\ (pi <= fst (row j))%Q /\ snd (r k) = snd (snd (row j) k)).
Proof. exact max_extend. Qed.
Print Assumptions C103_extend_partial.
(** ... but it may hold training samples below the level, without weight. *)
Theorem C103_extend_refuted : exists ts data y N depth m Sv x yx pi d r j,
  (forall t, In t ts -> wf_tree t d = true) /\ (forall t, In t ts -> plain_leaves t) /\ (forall f, In f Sv -> f < d) /\
  (forall j f, j < N -> In f Sv -> (- big < data j f <= big)%Q) /\
  (forall j f, j < N -> In f Sv -> ~ (data j f == fst (snd (fst (max_own (dense ts ex_calm) data y N depth m true 0 0 Sv x yx)) f))%Q) /\
  (pi <= compute_sdp_rf (dense ts ex_calm) data y N depth m true 0 0 Sv x yx)%Q /\
  max_rule_extend (dense ts ex_calm) data y N depth m true 0 0 Sv x yx pi = Some r /\
  j < N /\ (forall k, k < d -> (fst (r k) < data j k < snd (r k))%Q) /\
  (snd (max_own (dense ts ex_calm) data y N depth m true 0 0 Sv x yx) j == 0)%Q /\
  (compute_sdp_rf (dense ts ex_calm) data y N depth m true 0 0 Sv (data j) yx < pi)%Q.
Proof.
  exists mx_trees, mx_train, mx_y, 6, 2, 1, [0; 1], (mx_pt 0 0), 1%Q, (4 # 5)%Q, 2.
  eexists _, 5. split; [intros t [<-|[<-|[]]]; reflexivity|]. split.
  { intros t [<-|[<-|[]]] l Hl Hf; vm_compute in Hl; do 5 (destruct l as [|l]; [try (vm_compute in Hf; discriminate Hf); vm_compute; auto|]); lia. }
  split; [intros f [<-|[<-|[]]]; lia|]. split.
  { intros j f Hj [<-|[<-|[]]]; do 6 (destruct j as [|j]; [vm_compute; split; congruence|]); lia. }
  split. { intros j f Hj [<-|[<-|[]]]; do 6 (destruct j as [|j]; [vm_compute; discriminate|]); lia. }
  split; [vm_compute; discriminate|]. split; [vm_compute; reflexivity|]. split; [lia|]. split; [|vm_compute; auto].
  intros [|[|k]] Hk; [vm_compute; split; reflexivity|vm_compute; split; reflexivity|lia].
Qed.
Print Assumptions C103_extend_refuted.
Example C103_extend_example :
  (forall j f, j < 6 -> In f [0; 1] -> (- big < mx_train j f <= big)%Q) /\
  option_map (fun r => map r [0; 1; 2]) (max_rule_extend mx_mem mx_train mx_y 6 2 1 true 0 0 [0; 1] (mx_pt 0 0) 1 (9 # 10))
   = Some [(- big, big); (- big, 1); (- big, big)]%Q /\
  option_map (fun r => map r [0; 1; 2]) (max_rule_extend mx_mem mx_train mx_y 6 2 1 true 0 0 [0; 1] (mx_pt 0 0) 1 (4 # 5))
   = Some [(- big, big); (- big, big); (- big, big)]%Q.
Proof. split; [intros j f Hj [<-|[<-|[]]]; do 6 (destruct j as [|j]; [vm_compute; split; congruence|]); lia|]. vm_compute. auto. Qed.

(** Annealing searches: enlarging rules, sampling counterfactuals. *)
From Verif Require Import Base RfModel RulesModel RulesSpec AnnealModel AnnealSpec AnnealProofs.

(** A rule given by its first intervals, for the examples. *)
Definition ax_box (l : list (Q * Q)) : nat -> Q * Q := fun k => nth k l (-big, big)%Q.
(** A point given by its first coordinates, for the examples. *)
Definition ax_pt (l : list Q) : pt := fun k => nth k l 0%Q.
(** A generator for the examples: a counter, read modulo the range. *)
Definition ax_rand (g : nat) : Q * nat := ((1 # 2)%Q, S g).
(** Same. *)
Definition ax_randint (n g : nat) : nat * nat := (g mod n, S g).

(** C36: whatever the draws, the rule found for counterfactuals contains the
    initial one and takes its bounds from the rules given, no training sample
    enters that is in none of these rules, and its value is the largest met. *)
Theorem C36_valid_cr : forall (G : Type) (rand : G -> Q * G) randint exp lg temp value r others d N data p_best n_try batch max_iter conv g b e log,
  rules_by_annealing_cr rand randint exp lg temp value r others d N data p_best n_try batch max_iter conv g = Some (b, e, log) ->
  In b log /\ (e == value b)%Q /\ forall a, In a log ->
    (value a <= e)%Q /\ grown d r others a /\
    forall i, i < N -> inside d a (data i) -> inside d r (data i) \/ exists q, In q others /\ inside d q (data i).
Proof. exact @annealing_cr. Qed.
Print Assumptions C36_valid_cr.
(** The search for sufficient rules may return a rule holding a sample below the
    level... *)
Theorem C36_valid_refuted : exists (G : Type) (rand : G -> Q * G) randint exp lg temp value r rule_data sdp pi d N data p_best n_try batch max_iter conv g b e log i,
  (forall n g, 0 < n -> fst (randint n g) < n) /\ d <> 1 /\
  rules_by_annealing rand randint exp lg temp value r rule_data sdp pi d N data p_best n_try batch max_iter conv g = Some (b, e, log) /\
  i < N /\ inside d b (data i) /\ (sdp i < pi)%Q.
Proof.
  exists nat, ax_rand, ax_randint, (fun _ => 1%Q), (fun _ => 1%Q), 1%Q, (fun r => hi r 0 - lo r 0)%Q,
    (ax_box [(0, 1); (0, 1)])%Q, (fun _ => ax_box [(0, 2); (0, 1)])%Q, (fun i => if i =? 0 then 0 else 1)%Q, (1 # 2)%Q, 2, 2,
    (fun i => if i =? 0 then ax_pt [1 # 2; 1 # 2] else ax_pt [3 # 2; 1 # 2])%Q, 1%Q, 1, 2, 2, 5, 0.
  eexists _, _, _, 0. split; [|split; [discriminate|split; [vm_compute; reflexivity|split; [lia|split]]]].
  - intros n g H. cbn. apply Nat.mod_upper_bound. lia.
  - intros [|[|k]] Hk; [vm_compute; split; discriminate|vm_compute; split; discriminate|lia].
  - reflexivity.
Qed.
Print Assumptions C36_valid_refuted.
(** ... exactly when the initial rule does; the rest holds as above. *)
Theorem C36_valid_partial : forall (G : Type) (rand : G -> Q * G) randint exp lg temp value r rule_data sdp pi d N data p_best n_try batch max_iter conv g b e log,
  rules_by_annealing rand randint exp lg temp value r rule_data sdp pi d N data p_best n_try batch max_iter conv g = Some (b, e, log) ->
  In b log /\ (e == value b)%Q /\ forall a, In a log ->
    (value a <= e)%Q /\
    (forall others, (forall q, In q others <-> exists i, i < N /\ (pi <= sdp i)%Q /\ q = rule_data i) -> grown d r others a) /\
    ((forall i, i < N -> inside d r (data i) -> (pi <= sdp i)%Q) ->
     forall i, i < N -> inside d a (data i) -> (pi <= sdp i)%Q).
Proof. exact @annealing_full. Qed.
Print Assumptions C36_valid_partial.
Theorem C36_valid_iff_partial : forall (G : Type) (rand : G -> Q * G) randint exp lg temp value r rule_data sdp pi d N data p_best n_try batch max_iter conv g b e log,
  rules_by_annealing rand randint exp lg temp value r rule_data sdp pi d N data p_best n_try batch max_iter conv g = Some (b, e, log) ->
  (forall i, i < N -> inside d b (data i) -> (pi <= sdp i)%Q) <-> (forall i, i < N -> inside d r (data i) -> (pi <= sdp i)%Q).
Proof. exact @annealing_valid_iff. Qed.
Print Assumptions C36_valid_iff_partial.
(** The searches evaluate at most [1 + max_iter * batch] rules. *)
Theorem C36_work : forall (G : Type) (rand : G -> Q * G) randint exp lg temp value r others d N data p_best n_try batch max_iter conv g b e log,
  rules_by_annealing_cr rand randint exp lg temp value r others d N data p_best n_try batch max_iter conv g = Some (b, e, log) ->
  length log <= 1 + max_iter * batch.
Proof. exact @annealing_work. Qed.
Print Assumptions C36_work.
(** They stop before the last iteration only after more than [conv] batches without
    improvement. *)
Theorem C36_stops_cr : forall (G : Type) (rand : G -> Q * G) randint exp lg temp value r others d N data p_best n_try batch max_iter conv g b e log,
  rules_by_annealing_cr rand randint exp lg temp value r others d N data p_best n_try batch max_iter conv g = Some (b, e, log) ->
  length log = 1 + max_iter * batch \/ exists pre post, log = pre ++ post /\ In b pre /\ (conv + 1) * batch <= length post.
Proof. exact @annealing_idle_cr. Qed.
Print Assumptions C36_stops_cr.
Theorem C36_stops : forall (G : Type) (rand : G -> Q * G) randint exp lg temp value r rule_data sdp pi d N data p_best n_try batch max_iter conv g b e log,
  rules_by_annealing rand randint exp lg temp value r rule_data sdp pi d N data p_best n_try batch max_iter conv g = Some (b, e, log) ->
  length log = 1 + max_iter * batch \/ exists pre post, log = pre ++ post /\ In b pre /\ (conv + 1) * batch <= length post.
Proof. exact @annealing_idle. Qed.
Print Assumptions C36_stops.
(** A candidate drawn to keep the best is at least as wide as the current rule. *)
Theorem C36_keeps : forall (G : Type) (rand : G -> Q * G) randint d r left right p g r' g',
  generate_newrule rand randint d r left right p g = Some (r', g') -> (fst (rand g) <= p)%Q -> wider d r' r.
Proof. exact @newrule_keep. Qed.
Print Assumptions C36_keeps.
Example C36_example :
  match rules_by_annealing_cr ax_rand ax_randint (fun _ => 1%Q) (fun _ => 1%Q) 1%Q (fun r => hi r 0 - lo r 0)%Q
    (ax_box [(0, 1); (0, 1)])%Q [ax_box [(0, 2); (0, 1)]; ax_box [(0, 4); (0, 1)]]%Q 2 3
    (fun i => nth i [ax_pt [1 # 2; 1 # 2]; ax_pt [3 # 2; 1 # 2]; ax_pt [3; 5]] (ax_pt []))%Q 1%Q 3 3 4 9 0 with
  | Some (b, e, log) => map b [0; 1] = [(0, 4); (0, 1)]%Q /\ (e == 4)%Q /\ length log = 13
  | None => False
  end.
Proof. vm_compute. repeat split. Qed.

(** C76: with one variable the searches raise ([np.squeeze])... *)
Theorem C76_one_variable_refuted : exists (G : Type) (rand : G -> Q * G) randint exp lg temp value r others N data p_best n_try batch max_iter conv g,
  (forall n g, 0 < n -> fst (randint n g) < n) /\ 0 < batch /\
  rules_by_annealing_cr rand randint exp lg temp value r others 1 N data p_best n_try batch max_iter conv g = None.
Proof.
  exists nat, ax_rand, ax_randint, (fun _ => 1%Q), (fun _ => 1%Q), 1%Q, (fun r => hi r 0 - lo r 0)%Q,
    (ax_box [(0, 1)])%Q, [ax_box [(1, 2)]]%Q, 1, (fun _ => ax_pt [1 # 2])%Q, 1%Q, 3, 3, 3, 9, 0.
  split; [intros n g H; apply Nat.mod_upper_bound; lia|]. split; [lia|reflexivity].
Qed.
Print Assumptions C76_one_variable_refuted.
Theorem C76_one_variable_raises : forall (G : Type) (rand : G -> Q * G) randint exp lg temp value r others rule_data sdp pi N data p_best n_try batch max_iter conv g,
  0 < max_iter ->
  rules_by_annealing_cr rand randint exp lg temp value r others 1 N data p_best n_try batch max_iter conv g = None /\
  rules_by_annealing rand randint exp lg temp value r rule_data sdp pi 1 N data p_best n_try batch max_iter conv g = None.
Proof. exact @annealing_one. Qed.
Print Assumptions C76_one_variable_raises.
(** ... and otherwise never. *)
Theorem C76_defined_partial : forall (G : Type) (rand : G -> Q * G) randint exp lg temp,
  (forall n g, 0 < n -> fst (randint n g) < n) ->
  forall value r others rule_data sdp pi d N data p_best n_try batch max_iter conv g,
  0 < batch -> d <> 1 \/ max_iter = 0 ->
  (exists q, rules_by_annealing_cr rand randint exp lg temp value r others d N data p_best n_try batch max_iter conv g = Some q) /\
  (exists q, rules_by_annealing rand randint exp lg temp value r rule_data sdp pi d N data p_best n_try batch max_iter conv g = Some q).
Proof. exact @annealing_defined. Qed.
Print Assumptions C76_defined_partial.
Example C76_example : forall n g, 0 < n -> fst (ax_randint n g) < n.
Proof. intros n g H. apply Nat.mod_upper_bound. lia. Qed.

(** C37: every sample evaluated agrees with the observation outside the chosen
    variables; on these, when training values are available, it has one of them.
    The score returned is that of the sample returned, and the largest met. *)
Theorem C37_sampling_partial : forall (G : Type) (rand : G -> Q * G) randint exp lg temp,
  (forall n g, 0 < n -> fst (randint n g) < n) ->
  forall fallback score x S N data cond batch max_iter conv g b e log,
  (forall k, In k S -> available N data cond k) ->
  simulated_annealing rand randint exp lg temp fallback score x S N data cond batch max_iter conv g = Some (b, e, log) ->
  In b log /\ (e == score b)%Q /\
  forall p, In p log -> (score p <= e)%Q /\ (forall k, ~ In k S -> p k = x k) /\ forall k, In k S -> from_training N data cond k (p k).
Proof. exact @sa_training. Qed.
Print Assumptions C37_sampling_partial.
(** Without hypothesis on the rule: a variable with no training value inside the
    rule gets the lower bound. *)
Theorem C37_fallback_partial : forall (G : Type) (rand : G -> Q * G) randint exp lg temp,
  (forall n g, 0 < n -> fst (randint n g) < n) ->
  forall fallback score x S N data cond batch max_iter conv g b e log,
  simulated_annealing rand randint exp lg temp fallback score x S N data cond batch max_iter conv g = Some (b, e, log) ->
  In b log /\ (e == score b)%Q /\
  forall p, In p log -> (score p <= e)%Q /\ (forall k, ~ In k S -> p k = x k) /\
    forall k, In k S -> from_training N data cond k (p k) \/ (fallback = true /\ p k = fst (cond k) /\ ~ available N data cond k).
Proof. exact @sa_general. Qed.
Print Assumptions C37_fallback_partial.
(** So the values need not come from the training samples. *)
Theorem C37_training_values_refuted : exists (G : Type) (rand : G -> Q * G) randint exp lg temp score x S N data cond batch max_iter conv g b e log k,
  (forall n g, 0 < n -> fst (randint n g) < n) /\ 0 < N /\ 0 < batch /\
  simulated_annealing rand randint exp lg temp true score x S N data cond batch max_iter conv g = Some (b, e, log) /\
  In k S /\ ~ exists i, i < N /\ (b k == data i k)%Q.
Proof.
  exists nat, ax_rand, ax_randint, (fun _ => 1%Q), (fun _ => 1%Q), 1%Q, (fun p => p 0), (ax_pt [0; 0])%Q, [0; 1], 2,
    (fun i => nth i [ax_pt [1; 1]; ax_pt [2; 2]] (ax_pt []))%Q, (ax_box [(0, 3); (5, 7)])%Q, 2, 2, 1, 0.
  eexists _, _, _, 1. split; [|split; [lia|split; [lia|split; [vm_compute; reflexivity|split; [right; left; reflexivity|]]]]].
  - intros n g H. cbn. apply Nat.mod_upper_bound. lia.
  - intros [[|[|i]] [Hi E]]; [vm_compute in E; discriminate|vm_compute in E; discriminate|lia].
Qed.
Print Assumptions C37_training_values_refuted.
(** When it returns a score that is not positive, the whole budget was used. *)
Theorem C37_budget : forall (G : Type) (rand : G -> Q * G) randint exp lg temp,
  (forall n g, 0 < n -> fst (randint n g) < n) ->
  forall fallback score x S N data cond batch max_iter conv g b e log,
  simulated_annealing rand randint exp lg temp fallback score x S N data cond batch max_iter conv g = Some (b, e, log) ->
  length log <= 1 + max_iter * batch /\ ((e <= 0)%Q -> length log = 1 + max_iter * batch).
Proof. exact @sa_budget. Qed.
Print Assumptions C37_budget.
(** utils.py raises exactly when some chosen variable has no training value inside
    the rule; utils_cr.py never raises. *)
Theorem C37_raises : forall (G : Type) (rand : G -> Q * G) randint exp lg temp,
  (forall n g, 0 < n -> fst (randint n g) < n) ->
  forall fallback score x S N data cond batch max_iter conv g, 0 < batch ->
  simulated_annealing rand randint exp lg temp fallback score x S N data cond batch max_iter conv g = None <->
  fallback = false /\ exists k, In k S /\ ~ available N data cond k.
Proof. exact @sa_raises_iff. Qed.
Print Assumptions C37_raises.
Example C37_example :
  match simulated_annealing ax_rand ax_randint (fun _ => 1%Q) (fun _ => 1%Q) 1%Q false (fun p => p 0) (ax_pt [9; 9; 9])%Q [0; 2] 3
    (fun i => nth i [ax_pt [1; 1; 1]; ax_pt [2; 2; 2]; ax_pt [8; 8; 3]] (ax_pt []))%Q (ax_box [(0, 3); (5, 7); (1, 4)])%Q 2 3 5 0 with
  | Some (b, e, log) => map b [0; 1; 2] = [2; 9; 3]%Q /\ (e == 2)%Q /\ length log = 7
  | None => False
  end.
Proof. vm_compute. repeat split. Qed.

(** C72: a candidate that is worse by [- diff] should be accepted with probability
    [exp (diff / t)] only; it always is. *)
Theorem C72_metropolis_refuted : forall (exp : Q -> Q) (lg : nat -> Q) temp u z,
  (forall z, (0 <= z)%Q -> (1 <= exp z)%Q) -> (forall n, 0 < n -> (0 < lg n)%Q) -> (0 < temp)%Q ->
  (u < 1)%Q -> (z < 0)%Q -> (exp z <= u)%Q ->
  exists i diff, (diff < 0)%Q /\ (diff / (temp / lg i) == z)%Q /\ fst (accept (fun g : unit => (u, g)) exp lg temp i diff tt) = true.
Proof. exact metropolis_sign. Qed.
Print Assumptions C72_metropolis_refuted.
(** The search therefore moves to the candidate at every step. *)
Theorem C72_always_accepts_partial : forall (G : Type) (rand : G -> Q * G) exp lg temp i diff g,
  (forall z, (0 <= z)%Q -> (1 <= exp z)%Q) -> (forall n, 0 < n -> (0 < lg n)%Q) -> (0 < temp)%Q ->
  (forall g, (fst (rand g) < 1)%Q) -> fst (accept rand exp lg temp i diff g) = true.
Proof. exact @always_accepts. Qed.
Print Assumptions C72_always_accepts_partial.
Example C72_example :
  let exp := (fun z => if qleb 0 z then 1 + z else 0)%Q in
  (forall z, (0 <= z)%Q -> (1 <= exp z)%Q) /\ (exp (-1) <= 1 # 2)%Q /\ (forall g, (fst (ax_rand g) < 1)%Q).
Proof. cbv zeta. split; [|split; [vm_compute; discriminate|reflexivity]]. intros z Hz. destruct (qleb_spec 0 z); lra. Qed.

(** C73: the volume that guides the search is not monotone: a rule open on one side
    may be smaller than one it contains... *)
Theorem C73_volume_refuted : exists d mx mn a b, (forall k, k < d -> (mn k <= mx k)%Q /\ (- big < mn k)%Q /\ (mx k < big)%Q) /\
  (forall k, k < d -> (fst (a k) <= snd (a k))%Q) /\ wider d b a /\ (volume_rectangle d mx mn b < volume_rectangle d mx mn a)%Q.
Proof.
  exists 1, (fun _ => 1%Q), (fun _ => 0%Q), (ax_box [(-5, 1)])%Q, (ax_box [(- big, 1)])%Q.
  split; [intros k _; split; [discriminate|split; reflexivity]|]. split; [intros [|k] Hk; [discriminate|lia]|].
  split; [|reflexivity]. intros [|k] Hk; [split; discriminate|lia].
Qed.
Print Assumptions C73_volume_refuted.
(** ... unless finite bounds lie in the range of the data. *)
Theorem C73_volume_partial : forall d mx mn a b,
  (forall k, k < d -> (mn k <= mx k)%Q /\ (- big < mn k)%Q /\ (mx k < big)%Q) ->
  (forall k, k < d -> in_range big (mn k) (mx k) (fst (a k)) /\ in_range big (mn k) (mx k) (snd (a k)) /\
                      in_range big (mn k) (mx k) (fst (b k)) /\ in_range big (mn k) (mx k) (snd (b k))) ->
  (forall k, k < d -> (fst (a k) <= snd (a k))%Q) -> wider d b a ->
  (0 <= volume_rectangle d mx mn a)%Q /\ (volume_rectangle d mx mn a <= volume_rectangle d mx mn b)%Q.
Proof. exact volume_mono. Qed.
Print Assumptions C73_volume_partial.
(** Then the search never returns a smaller rule than the initial one. *)
Theorem C73_annealing_volume_partial : forall (G : Type) (rand : G -> Q * G) randint exp lg temp mx mn r others d N data p_best n_try batch max_iter conv g b e log,
  (forall k, k < d -> (mn k <= mx k)%Q /\ (- big < mn k)%Q /\ (mx k < big)%Q) ->
  (forall q k, q = r \/ In q others -> k < d -> in_range big (mn k) (mx k) (fst (q k)) /\ in_range big (mn k) (mx k) (snd (q k))) ->
  (forall k, k < d -> (fst (r k) <= snd (r k))%Q) ->
  rules_by_annealing_cr rand randint exp lg temp (volume_rectangle d mx mn) r others d N data p_best n_try batch max_iter conv g = Some (b, e, log) ->
  (volume_rectangle d mx mn r <= e)%Q.
Proof. exact @annealing_volume. Qed.
Print Assumptions C73_annealing_volume_partial.
Example C73_example :
  let a := ax_box [(1, 3); (- big, 3)]%Q in let b := ax_box [(1, big); (- big, 4)]%Q in
  (volume_rectangle 2 (fun _ => 4) (fun _ => 0) a == 6)%Q /\ (volume_rectangle 2 (fun _ => 4) (fun _ => 0) b == 12)%Q /\
  (forall k, k < 2 -> in_range big 0%Q 4%Q (fst (b k)) /\ in_range big 0%Q 4%Q (snd (b k))).
Proof.
  cbv zeta. split; [reflexivity|split; [reflexivity|]]. intros [|[|k]] Hk; [| |lia]; split; unfold in_range; cbn.
  - right. right. lra.
  - right. left. discriminate.
  - left. discriminate.
  - right. right. lra.
Qed.

(** C74: the density of a rule is between 0 and 1, grows with the rule, and is
    undefined exactly when all samples are bad. *)
Theorem C74_density_bounds : forall strict d N data bad r v, (forall i, i < N -> (0 <= bad i <= 1)%Q) ->
  max_dens strict d N data bad r = Some v -> (0 <= v <= 1)%Q.
Proof. exact dens_spec. Qed.
Print Assumptions C74_density_bounds.
Theorem C74_density_monotone : forall strict d N data bad a b v w, (forall i, i < N -> (0 <= bad i <= 1)%Q) -> wider d b a ->
  max_dens strict d N data bad a = Some v -> max_dens strict d N data bad b = Some w -> (v <= w)%Q.
Proof. exact dens_mono. Qed.
Print Assumptions C74_density_monotone.
Theorem C74_density_defined : forall strict d N data bad r, (forall i, i < N -> (0 <= bad i <= 1)%Q) ->
  (max_dens strict d N data bad r = None <-> forall i, i < N -> (bad i == 1)%Q).
Proof. exact dens_defined. Qed.
Print Assumptions C74_density_defined.
Theorem C74_density_is_share : forall d N data bad r v, (forall i, i < N -> bad i = 0%Q \/ bad i = 1%Q) ->
  max_dens false d N data bad r = Some v ->
  exists l m, NoDup l /\ NoDup m /\ (forall i, In i l <-> i < N /\ bad i = 0%Q) /\ (forall i, In i m <-> In i l /\ inside d r (data i)) /\
    (v == Qn (length m) / Qn (length l))%Q.
Proof. exact dens_share. Qed.
Print Assumptions C74_density_is_share.
Example C74_example : let data := (fun i => nth i [ax_pt [1]; ax_pt [2]; ax_pt [3]] (ax_pt []))%Q in
  let bad := (fun i => if i =? 2 then 1 else 0)%Q in
  match max_dens false 1 3 data bad (ax_box [(1, 1)])%Q, max_dens true 1 3 data bad (ax_box [(1, 2)])%Q with
  | Some v, Some w => (v == 1 # 2)%Q /\ (w == 1 # 2)%Q
  | _, _ => False
  end.
Proof. vm_compute. split; reflexivity. Qed.

(** C75: the leaves used for counterfactual rules, once enlarged, still contain the
    rule of every sample reaching the level, and hold no training sample outside
    the rules of such samples. *)
Theorem C75_leaves : forall (G : Type) (rand : G -> Q * G) randint exp lg temp value d n rules sdp pi order N data p_best n_try batch max_iter conv gs l,
  (forall i, In i order -> i < n) ->
  return_leaf_cnt rand randint exp lg temp value d n rules sdp pi order N data p_best n_try batch max_iter conv gs = Some l ->
  (forall b, In b l -> exists i, i < n /\ wider d b (rules i) /\ ((exists j, j < n /\ (pi <= sdp j)%Q) -> (pi <= sdp i)%Q)) /\
  (forall b j, In b l -> j < N -> inside d b (data j) ->
     exists i, i < n /\ inside d (rules i) (data j) /\ ((exists j, j < n /\ (pi <= sdp j)%Q) -> (pi <= sdp i)%Q)) /\
  (forall i, i < n -> (pi <= sdp i)%Q -> exists b, In b l /\ wider d b (rules i)).
Proof. exact @leaf_cnt_spec. Qed.
Print Assumptions C75_leaves.
Theorem C75_defined : forall (G : Type) (rand : G -> Q * G) randint exp lg temp value d n rules sdp pi order N data p_best n_try batch max_iter conv gs,
  (forall n g, 0 < n -> fst (randint n g) < n) -> 0 < batch -> d <> 1 \/ max_iter = 0 ->
  exists l, return_leaf_cnt rand randint exp lg temp value d n rules sdp pi order N data p_best n_try batch max_iter conv gs = Some l.
Proof. exact @leaf_cnt_some. Qed.
Print Assumptions C75_defined.
Example C75_example :
  match return_leaf_cnt ax_rand ax_randint (fun _ => 1%Q) (fun _ => 1%Q) 1%Q (fun r => hi r 0 - lo r 0)%Q 2 3
    (fun i => nth i [ax_box [(0, 1); (0, 1)]; ax_box [(1, 2); (0, 1)]; ax_box [(0, 9); (0, 9)]] (ax_box []))%Q
    (fun i => nth i [1; 1; 0] 0)%Q (1 # 2)%Q [0; 1; 2] 2 (fun i => nth i [ax_pt [1 # 2; 1 # 2]; ax_pt [3 # 2; 1 # 2]] (ax_pt []))%Q 1%Q 3 3 3 9 (fun i => i) with
  | Some l => map (fun b => map b [0; 1]) l = [[(0, 2); (0, 1)]; [(0, 2); (0, 1)]]%Q
  | None => False
  end.
Proof. vm_compute. reflexivity. Qed.

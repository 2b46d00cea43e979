(** C152: the samples for all test observations after the regional session of the class [CR]. *)
From Verif Require Import Base QuantSpec QuantProofs GameSpec RfModel RfSpec PropertiesRf SkModel SearchModel SearchSpec ExplSpec ApiModel ApiSpec AgnModel AgnSpec PropertiesAgn AxsModel AxsSpec AxsProofs
  PropertiesAxs BoxSpec PropertiesBox RulesSpec CrSpec CrProofs CrsModel CrsSpec CrsProofs CrsProofs2 PropertiesCrs SampModel SampSpec SampProofs PropertiesSamp AllModel.
From Verif Require CrModel RulesModel PartSpec PartProofs.
Local Open Scope nat_scope.

(** With divergent sets that are not empty, the sampling for all test observations raises as soon as one of them is in a rule (open on the left) that has a
    counterfactual of positive probability, whatever the forest, the predictions, the model and the generator: the call hands one row of bounds over in place of the rule. *)
Theorem C152_raises : forall G (rand : G -> Q * G) randint exp lg temp classifier predict model D d star rules outs iso n tests down_up batch max_iter gs i x c p v,
  (forall k, k < n -> nth k star [] <> []) ->
  i < n -> In x tests -> inside_open d (nth i rules rule0) x -> In (c, p, v) (nth i outs []) -> (0 < p)%Q ->
  run_sampling_alltests rand randint exp lg temp classifier predict model D d star rules outs iso n tests down_up batch max_iter gs = Raises.
Proof.
  intros G rand randint exp lg temp classifier predict model D d star rules outs iso n tests down_up batch max_iter gs i x c p v Hne Hi Hx Hin Hc Hp.
  unfold run_sampling_alltests. cbv zeta. destruct (negb _); [reflexivity|]. destruct tests as [|x0 r] eqn:Et; [reflexivity|]. rewrite <- Et in *.
  destruct (chosen_spec d n (fun i => nth i rules rule0) (stored outs) x i c p Hi (proj2 (stored_in outs i c p) (ex_intro _ v Hc)) Hp Hin) as (b & c' & p' & B1 & B2 & B3 & _).
  erewrite alltests_raises; [reflexivity|exact Hx|exact B1| |now apply Hne]. intro E. rewrite E in B3. destruct B3.
Qed.
Print Assumptions C152_raises.
(** When the first rule has a counterfactual (and no probability of it is negative), it raises for every list of test observations, also for those in no rule: an
    observation in no rule is given the counterfactuals of the first one. *)
Theorem C152_first_rule : forall G (rand : G -> Q * G) randint exp lg temp classifier predict model D d star rules outs iso n tests down_up batch max_iter gs,
  (forall k, k < n -> nth k star [] <> []) ->
  0 < n -> nth 0 outs [] <> [] -> (forall c p v, In (c, p, v) (nth 0 outs []) -> (0 <= p)%Q) ->
  run_sampling_alltests rand randint exp lg temp classifier predict model D d star rules outs iso n tests down_up batch max_iter gs = Raises.
Proof.
  intros G rand randint exp lg temp classifier predict model D d star rules outs iso n tests down_up batch max_iter gs Hne Hn H0 Hp.
  unfold run_sampling_alltests. cbv zeta. destruct (negb _); [reflexivity|]. destruct tests as [|x r] eqn:Et; [reflexivity|]. rewrite <- Et.
  assert (B : exists b, CrModel.chosen d n (fun i => nth i rules rule0) (stored outs) x = Some b /\ b < n /\ stored outs b <> []).
  { unfold CrModel.chosen. set (f := CrModel.test_pb d (fun i => nth i rules rule0) (stored outs) x).
    destruct (RulesModel.argmax (map f (seq 0 n))) as [b|] eqn:E; [|destruct n; [lia|discriminate]]. exists b. split; [reflexivity|].
    assert (S0 : stored outs 0 <> []) by (unfold stored; intro K; apply map_eq_nil in K; contradiction).
    assert (Hf : forall j, j < n -> nth j (map f (seq 0 n)) 0%Q = f j).
    { intros j Hj. rewrite (nth_indep _ 0%Q (f 0)) by (rewrite map_length, seq_length; lia). rewrite map_nth, seq_nth by lia. reflexivity. }
    destruct (PartProofs.argmax_first _ _ E) as (Hb & _ & Hlt). rewrite map_length, seq_length in Hb. split; [exact Hb|]. intro Eb.
    destruct b as [|b]; [contradiction|]. specialize (Hlt 0 ltac:(lia)). rewrite !Hf in Hlt by lia.
    assert (F1 : f (S b) = 0%Q) by (unfold f, CrModel.test_pb; now rewrite Eb).
    assert (F0 : (0 <= f 0%nat)%Q).
    { unfold f, CrModel.test_pb. destruct (stored outs 0) as [|e l] eqn:Es; [contradiction|]. rewrite <- Es in *.
      destruct (max_prob_spec (stored outs 0) S0) as (c0 & Hc0 & _). apply stored_in in Hc0. destruct Hc0 as (v & Hv). apply Hp in Hv.
      destruct (CrModel.in_rule_open _ _ _); cbn [Qb]; lra. }
    rewrite F1 in Hlt. lra. }
  destruct B as (b & B1 & B2 & B3). erewrite alltests_raises; [reflexivity|rewrite Et; now left|exact B1|exact B3|now apply Hne].
Qed.
Print Assumptions C152_first_rule.
(** If it returns, every sample is itself a test observation: nothing was changed.  In classification no sample is a success, and the accuracy is 0 (or a NaN without samples). *)
Theorem C152_still : forall G (rand : G -> Q * G) randint exp lg temp classifier predict model D d star rules outs iso n tests down_up batch max_iter gs o,
  run_sampling_alltests rand randint exp lg temp classifier predict model D d star rules outs iso n tests down_up batch max_iter gs = Gives o ->
  (forall a, In a (CrModel.o_draws o) -> In (CrModel.d_point a) tests /\ (classifier = true -> CrModel.d_err a = false)) /\
  (classifier = true -> forall a, CrModel.o_acc o = Some a -> (a == 0)%Q).
Proof.
  intros G rand randint exp lg temp classifier predict model D d star rules outs iso n tests down_up batch max_iter gs o. unfold run_sampling_alltests. cbv zeta.
  destruct (negb _); [discriminate|]. destruct tests as [|x0 r] eqn:Et; [discriminate|]. rewrite <- Et in *. unfold drawn_or_raises.
  destruct (CrModel.sample_alltests _ _ _ _ _ _ _ _ _ _ _ _ _ _ _ _ _ _ _ _ _ _) as [o'|] eqn:E; [|discriminate]. intro H. injection H as ->. split.
  - intros a Ha. exact (alltests_still _ _ _ _ _ _ _ _ _ _ _ _ _ _ _ _ _ _ _ _ _ _ _ _ E Ha).
  - intros Hc a Ha. exact (alltests_accuracy _ _ _ _ _ _ _ _ _ _ _ _ _ _ _ _ _ _ _ _ _ _ _ _ Hc E Ha).
Qed.
Print Assumptions C152_still.
Notation sa_all tests st outs :=
  (run_sampling_alltests cr_rand cr_randint (fun _ => (1 # 2)%Q) (fun _ => 1%Q) (1 # 2)%Q true sa_predict None cr_D 2 (v_star st) cr_rules outs (Some sa_score) 2 tests None 3 3 (fun k => k)).
Example C152_raises_example : exists st outs, cr_regional true cr_y None (2 # 5)%Q = Gives st /\ cr_run_regional st cr_y = Gives outs /\
  v_star st = [[1]; [1]] /\ answered 2 outs = [0; 1] /\ inside_open 2 (nth 0 cr_rules rule0) (ex_obs 3 1 0) /\
  (exists c p v, In (c, p, v) (nth 0 outs []) /\ (0 < p)%Q) /\ (forall c p v, In (c, p, v) (nth 0 outs []) -> (0 <= p)%Q) /\
  sa_all [ex_obs 3 1 0] st outs = Raises /\ sa_all [ex_obs 70 70 0] st outs = Raises.
Proof.
  assert (V : match cr_regional true cr_y None (2 # 5)%Q with
              | Gives st => match cr_run_regional st cr_y with Gives outs => Some (v_star st, answered 2 outs, map (fun e => Qred (snd (fst e))) (nth 0 outs [])) | _ => None end
              | _ => None end = Some ([[1]; [1]], [0; 1], [4 # 5]%Q)) by (vm_compute; reflexivity).
  destruct (cr_regional true cr_y None (2 # 5)%Q) as [st| |]; [|discriminate V|discriminate V]. exists st.
  destruct (cr_run_regional st cr_y) as [outs| |]; [|discriminate V|discriminate V]. exists outs. injection V as V1 V2 V3.
  assert (I : inside_open 2 (nth 0 cr_rules rule0) (ex_obs 3 1 0)) by (intros [|[|k]] Hk; try lia; vm_compute; split; congruence).
  destruct (nth 0 outs []) as [|[[c p] v] [|e l]] eqn:Eo; [discriminate V3| |discriminate V3]. injection V3 as V3.
  assert (P : (p == 4 # 5)%Q) by (rewrite <- (Qred_correct p), V3; reflexivity).
  assert (N : forall k, k < 2 -> nth k (v_star st) [] <> []) by (rewrite V1; intros [|[|k]] Hk; try lia; discriminate).
  assert (P0 : forall c' p' v', In (c', p', v') (nth 0 outs []) -> (0 <= p')%Q).
  { rewrite Eo. intros c' p' v' [K|[]]. injection K as _ <- _. lra. }
  split; [reflexivity|]. split; [reflexivity|]. split; [exact V1|]. split; [exact V2|]. split; [exact I|].
  split; [exists c, p, v; split; [now left|lra]|]. split; [rewrite <- Eo; exact P0|]. split.
  - apply (C152_raises nat) with (i := 0) (x := ex_obs 3 1 0) (c := c) (p := p) (v := v); [exact N|lia|now left|exact I|rewrite Eo; now left|lra].
  - apply C152_first_rule; [exact N|lia|rewrite Eo; discriminate|exact P0].
Qed.
(** The sampling of all test observations does not return a sample for an observation in a rule with a counterfactual found by the session. *)
Theorem C152_samples_refuted : exists st outs x c p v,
  cr_regional true cr_y None (2 # 5)%Q = Gives st /\ cr_run_regional st cr_y = Gives outs /\
  inside_open 2 (nth 0 cr_rules rule0) x /\ In (c, p, v) (nth 0 outs []) /\ (0 < p)%Q /\ sa_all [x] st outs = Raises.
Proof.
  destruct C152_raises_example as (st & outs & E1 & E2 & _ & _ & I & (c & p & v & H1 & H2) & _ & R & _).
  exists st, outs, (ex_obs 3 1 0), c, p, v. repeat (split; [assumption|]). exact R.
Qed.
Print Assumptions C152_samples_refuted.
(** A call that returns with a sample: the empty divergent set of a session is filled with no column, and the observation comes back. *)
Example C152_still_example :
  sa_seen (run_sampling_alltests cr_rand cr_randint (fun _ => (1 # 2)%Q) (fun _ => 1%Q) (1 # 2)%Q true sa_predict None cr_D 2 [[]; [1]] cr_rules
    [[(fun _ => (0, 10)%Q, 7 # 12, fun _ => 0)]; []]%Q (Some sa_score) 2 [ex_obs 3 1 0; ex_obs 70 70 0] None 3 3 (fun k => k)) =
  Some ([([3; 1], 4, false); ([70; 70], 140, false)], Some 0, Some 1)%Q.
Proof. vm_compute. reflexivity. Qed.

(** C148: the samples drawn after the counterfactual sessions of the class [CR], from a forest of skranger. *)
From Verif Require Import Base QuantSpec QuantProofs GameSpec RfModel RfSpec PropertiesRf SkModel SearchModel SearchSpec ExplSpec ApiModel ApiSpec AgnModel AgnSpec PropertiesAgn AxsModel AxsSpec AxsProofs
  PropertiesAxs BoxSpec PropertiesBox RulesSpec CrSpec CrProofs CrsModel CrsSpec CrsProofs CrsProofs2 PropertiesCrs SampModel SampSpec SampProofs.
From Verif Require CrModel RulesModel RulesModelProofs.
Local Open Scope nat_scope.

(** ** The local session *)

(** After [run_local_divergent_set] and [run_local_counterfactual_rules], the sampling returns one sample for each observation that has a counterfactual
    rule, in order.  The sample is the observation outside of its divergent set; on it, values of training rows inside the bounds of a most probable rule of the
    observation, or the lower bound where no row is inside.  It satisfies that rule when the leaves of the forest can be trusted.  Beside it are its isolation score,
    and whether its prediction differs from that of the observation (classification) or is in the interval of the observation (regression). *)
Theorem C148_local_samples : forall G (rand : G -> Q * G) randint exp lg temp d w es Ts stray classifier q imp order argsort D Y sched sched_w X y down up t stop pi0 st
  acc pi h sched_l sched_c gs outs predict model score batch max_iter gs2,
  trained d w es Ts D Y -> ranked imp d order -> X <> [] -> fits (length X) y -> fits (length X) down -> fits (length X) up ->
  levels_fit classifier (length X) t -> fair (length Ts) (length X) sched -> complete (S (length Ts)) (length X) sched_w -> (0 < pi0)%Q -> (pi0 <= 1)%Q ->
  sorting argsort -> (forall n, 0 < n -> complete (S (length Ts)) n (sched_l n)) -> complete (S (length Ts)) 1 sched_c ->
  (forall n g, 0 < n -> fst (randint n g) < n) -> 0 < batch ->
  run_local_divergent_set d es stray classifier q order D Y sched sched_w X y down up t stop pi0 = Gives st ->
  run_local_counterfactual_rules rand randint exp lg d es stray classifier q argsort D Y st X y down up acc pi h sched_l sched_c gs = Gives outs ->
  exists o, run_sampling_local rand randint exp lg temp classifier predict model D (v_star st) outs score X down up batch max_iter gs2 = Gives o /\
    Forall2 (fun i a =>
      let x := nth i X (fun _ => 0%Q) in let z := CrModel.d_point a in
      (exists c, likeliest (nth i outs []) c /\ moved (length D) (fun j => nth j D (fun _ => 0%Q)) (nth i (v_star st) []) c x z /\
         (trusted d stray classifier (entry y i) (entry down i) (entry up i) Ts D Y -> inside d c z)) /\
      (CrModel.d_score a == score z)%Q /\
      (CrModel.d_err a = true <-> if classifier then ~ (predict z == predict x)%Q else (entry down i <= predict z <= entry up i)%Q))
      (answered (length X) outs) (CrModel.o_draws o).
Proof.
  intros G rand randint exp lg temp d w es Ts stray classifier q imp order argsort D Y sched sched_w X y down up t stop pi0 st acc pi h sched_l sched_c gs outs predict model score batch max_iter gs2
    HT HR HX H1 H2 H3 H4 H5 H6 H7 H8 Hs Hl Hc Hr Hb Hst Hrun.
  destruct (local_divergent d w es Ts stray classifier q imp order D Y HT HR sched sched_w X y down up t stop pi0 HX H1 H2 H3 H4 H5 H6 H7 H8)
    as (st' & E & L1 & L2 & L3 & L4 & R & _). rewrite Hst in E. injection E as <-.
  rewrite (local_ones d es stray classifier q argsort D Y rand randint exp lg acc pi h sched_l sched_c gs X y st H1 L1 L2 L4 down up H2 H3) in Hrun.
  apply all_gives in Hrun. destruct Hrun as [Lo Hrun].
  destruct (local_samples_total rand randint exp lg temp classifier predict model D Hr (v_star st) outs score X down up batch max_iter gs2 L1 Lo H2 H3 HX Hb) as (o & Eo).
  exists o. split; [exact Eo|]. apply local_samples in Eo; trivial. revert Eo. apply Forall2_in_l. intros i a Hi ((c & C1 & C2) & S1). cbv zeta. split; [|exact S1].
  exists c. split; [exact C1|]. split; [exact C2|]. intro B.
  assert (Hn : i < length X) by (unfold answered in Hi; apply filter_In in Hi; destruct Hi as [Hi _]; apply in_seq in Hi; lia).
  specialize (Hrun i [] Hn). cbv beta in Hrun. destruct (R sched_w i H6 Hn) as (_ & _ & Ebar & _). rewrite Ebar in Hrun. destruct C1 as (p & v & C1 & _).
  eapply run_proper in Hrun; [|exact HT|exact Hs|exact Hl|exact Hc|exact C1|].
  - destruct Hrun as (leaf & -> & Hp). eapply moved_inside_local; [|intros k Hk; apply Hp|exact C2].
    + intros k Hk. destruct (in_dec Nat.eq_dec k (nth i (v_star st) [])); [now left|right; now apply complement_in].
    + destruct (R sched_w i H6 Hn) as (_ & Hlt & _). now apply Hlt.
  - revert B. apply trusted_ext. intro u. destruct classifier; reflexivity.
Qed.
Print Assumptions C148_local_samples.

(** for the examples: predictions, a score, the sampling of the session of PropertiesCrs.v *)
Definition sa_predict (z : pt) : Q := if Qle_bool (z 1) 2 then 1%Q else 0%Q.
Definition sa_score (z : pt) : Q := (z 0%nat + z 1%nat)%Q.
Definition sa_seen (e : ending CrModel.outcome) : option (list (list Q * Q * bool) * option Q * option Q) :=
  match e with
  | Gives o => Some (map (fun a => (map (fun k => Qred (CrModel.d_point a k)) [0; 1], Qred (CrModel.d_score a), CrModel.d_err a)) (CrModel.o_draws o),
                     option_map Qred (CrModel.o_acc o), option_map Qred (CrModel.o_cov o))
  | _ => None
  end.
Definition sa_run (st : divergent) (outs : list (list (rule * Q * (nat -> Q)))) : ending CrModel.outcome :=
  run_sampling_local cr_rand cr_randint (fun _ => (1 # 2)%Q) (fun _ => 1%Q) (1 # 2)%Q true sa_predict None cr_D (v_star st) outs sa_score cr_X None None 3 3 (fun i => i).
Lemma sa_trusted : trusted 2 ex_calm true 1 0 0 ag_Ts cr_D cr_Y.
Proof.
  split; [apply cr_safe|]. split; [exact cr_full|].
  assert (V : forallb (fun j => forallb (fun f => negb (Qle_bool (nth j cr_D (fun _ => 0%Q) f) (- big)) && Qle_bool (nth j cr_D (fun _ => 0%Q) f) big) [0; 1]) (seq 0 36) = true)
    by (vm_compute; reflexivity).
  rewrite forallb_forall in V. intros j Hj f Hf. specialize (V j ltac:(apply in_seq; change (length cr_D) with 36 in Hj; lia)). rewrite forallb_forall in V. specialize (V f Hf).
  apply andb_true_iff in V. destruct V as [V1 V2]. apply negb_true_iff in V1. apply Qle_bool_iff in V2. split; [|exact V2].
  apply Qnot_le_lt. intro K. apply Qle_bool_iff in K. congruence.
Qed.
Example C148_local_samples_example : exists st outs, cr_div false (2 # 5)%Q = Gives st /\ cr_run st (9 # 10) (2 # 5) = Gives outs /\
  answered 2 outs = [0; 1] /\ trusted 2 ex_calm true 1 0 0 ag_Ts cr_D cr_Y /\
  sa_seen (sa_run st outs) = Some ([([3; 1], 4, true); ([1; 3], 4, true)], Some 1, Some 1)%Q.
Proof.
  assert (V : match cr_div false (2 # 5)%Q with
              | Gives st => match cr_run st (9 # 10) (2 # 5) with Gives outs => Some (answered 2 outs, sa_seen (sa_run st outs)) | _ => None end
              | _ => None end = Some ([0; 1], Some ([([3; 1], 4, true); ([1; 3], 4, true)], Some 1, Some 1)%Q)) by (vm_compute; reflexivity).
  destruct (cr_div false (2 # 5)%Q) as [st| |]; [|discriminate|discriminate]. exists st.
  destruct (cr_run st (9 # 10) (2 # 5)) as [outs| |]; [|discriminate|discriminate]. exists outs. injection V as V1 V2.
  split; [reflexivity|]. split; [reflexivity|]. split; [exact V1|]. split; [exact sa_trusted|exact V2].
Qed.

(** The accuracy is the share of the successes (a NaN without samples), the coverage the share of the observations that have a counterfactual rule.  Without observations
    the call ends with an exception. *)
Theorem C148_local_figures : forall G (rand : G -> Q * G) randint exp lg temp classifier predict model D star outs score X down up batch max_iter gs,
  (forall n g, 0 < n -> fst (randint n g) < n) ->
  let run := run_sampling_local rand randint exp lg temp classifier predict model D star outs score X down up batch max_iter gs in
  (X = [] -> run = Raises) /\
  (X <> [] -> length star = length X -> length outs = length X -> fits (length X) down -> fits (length X) up -> forall o, run = Gives o ->
   (CrModel.o_acc o = None <-> answered (length X) outs = []) /\
   (forall a, CrModel.o_acc o = Some a -> (a == share CrModel.d_err (CrModel.o_draws o))%Q) /\
   (exists c, CrModel.o_cov o = Some c /\ (c == Qn (length (answered (length X) outs)) / Qn (length X))%Q)).
Proof.
  intros G rand randint exp lg temp classifier predict model D star outs score X down up batch max_iter gs Hr. cbv zeta. split.
  - intros ->. reflexivity.
  - intros HX L1 L2 H1 H2 o E. exact (local_sample_figures rand randint exp lg temp classifier predict model D Hr star outs score X down up batch max_iter gs L1 L2 H1 H2 HX o E).
Qed.
Print Assumptions C148_local_figures.
Example C148_local_figures_example :
  sa_seen (run_sampling_local cr_rand cr_randint (fun _ => (1 # 2)%Q) (fun _ => 1%Q) (1 # 2)%Q true sa_predict None cr_D [[1]; [0; 1]]
    [[]; [(fun k => if k =? 0 then (1 # 2, 1)%Q else (0, 10)%Q, 7 # 12, fun _ => 0)]]%Q sa_score cr_X None None 3 3 (fun i => i)) =
    Some ([([1; 3], 4, true)], Some 1, Some (1 # 2))%Q /\
  sa_seen (run_sampling_local cr_rand cr_randint (fun _ => (1 # 2)%Q) (fun _ => 1%Q) (1 # 2)%Q true sa_predict None cr_D [[1]; [0; 1]] [[]; []] sa_score cr_X None None 3 3 (fun i => i)) =
    Some ([], None, Some 0)%Q.
Proof. split; vm_compute; reflexivity. Qed.

(** ** The regional session *)

(** After [run_regional_divergent_set] and [run_regional_counterfactual_rules] on the observations [X] with their rules: every sample starts from a test observation
    inside one of the rules that have a counterfactual, is that observation outside of the divergent set of the rule, and has on it training values inside a most
    probable counterfactual rule (or its lower bound); it satisfies that rule when the leaves of the forest can be trusted.  There are as many samples as test
    observations in each of these rules, but at most [max_obs] for a rule. *)
Theorem C148_regional_samples : forall G (rand : G -> Q * G) randint exp lg temp d w es Ts stray classifier q imp order argsort D Y sched sched_w X rules y down_up stop pi0 st
  acc pi h sched_l sched_c gs outs predict model iso tests max_obs batch max_iter gs2 o,
  trained d w es Ts D Y -> ranked imp d order -> X <> [] -> length rules = length X -> fits (length X) y -> intervals_fit (length X) down_up ->
  fair (length Ts) (length X) sched -> complete (S (length Ts)) (length X) sched_w -> (0 < pi0)%Q -> (pi0 <= 1)%Q ->
  sorting argsort -> (forall n, 0 < n -> complete (S (length Ts)) n (sched_l n)) -> complete (S (length Ts)) 1 sched_c ->
  (forall n g, 0 < n -> fst (randint n g) < n) -> 0 < max_obs ->
  run_regional_divergent_set d es stray classifier q order D Y sched sched_w X rules y down_up stop pi0 = Gives st ->
  run_regional_counterfactual_rules rand randint exp lg d es stray classifier q argsort D Y st X rules y down_up acc pi h sched_l sched_c gs = Gives outs ->
  run_sampling_regional rand randint exp lg temp classifier predict model D d (v_star st) rules outs iso (length X) tests down_up max_obs batch max_iter gs2 = Gives o ->
  length (CrModel.o_draws o) = list_sum (map (fun i => Nat.min max_obs (within d (nth i rules rule0) tests)) (answered (length X) outs)) /\
  forall a, In a (CrModel.o_draws o) -> let z := CrModel.d_point a in
    exists i x c score, In i (answered (length X) outs) /\ In x tests /\ inside d (nth i rules rule0) x /\ iso = Some score /\ likeliest (nth i outs []) c /\
      moved (length D) (fun j => nth j D (fun _ => 0%Q)) (nth i (v_star st) []) c x z /\
      (trusted d stray classifier (entry y i) (bound down_up 0 i) (bound down_up 1 i) Ts D Y -> inside d c z) /\
      (CrModel.d_score a == score z)%Q /\
      (CrModel.d_err a = true <-> if classifier then ~ (predict z == predict x)%Q else (bound down_up 0 i <= predict z <= bound down_up 1 i)%Q).
Proof.
  intros G rand randint exp lg temp d w es Ts stray classifier q imp order argsort D Y sched sched_w X rules y down_up stop pi0 st acc pi h sched_l sched_c gs outs predict model iso tests max_obs batch max_iter gs2 o
    HT HR HX Hrl H1 Hdu H5 H6 H7 H8 Hs Hl Hc Hr Hm Hst Hrun Ho.
  destruct (regional_divergent d w es Ts stray classifier q imp order D Y HT HR sched sched_w X rules y down_up stop pi0 HX Hrl H1 Hdu H5 H6 H7 H8)
    as (st' & E & L1 & L2 & L3 & L4 & R & _). rewrite Hst in E. injection E as <-.
  rewrite (regional_ones d es stray classifier q argsort D Y rand randint exp lg acc pi h sched_l sched_c gs X y st H1 L1 L4 rules down_up Hrl Hdu) in Hrun.
  apply all_gives in Hrun. destruct Hrun as [Lo Hrun]. split; [eapply regional_sample_count; eassumption|].
  intros a Ha. cbv zeta. destruct (regional_samples rand randint exp lg temp classifier predict model D Hr (v_star st) outs d rules iso (length X) tests down_up max_obs batch max_iter gs2 L1 Lo Hrl Hdu Hm o a Ho Ha)
    as (i & x & c & score & R1 & R2 & R3 & R4 & R5 & R6 & R7). exists i, x, c, score.
  split; [exact R1|]. split; [exact R2|]. split; [exact R3|]. split; [exact R4|]. split; [exact R5|]. split; [exact R6|]. split; [|exact R7]. intro B.
  assert (Hn : i < length X) by (unfold answered in R1; apply filter_In in R1; destruct R1 as [R1 _]; apply in_seq in R1; lia).
  specialize (Hrun i [] Hn). cbv beta in Hrun. destruct R5 as (p & v & C1 & _).
  eapply run_proper in Hrun; [|exact HT|exact Hs|exact Hl|exact Hc|exact C1|].
  - destruct Hrun as (leaf & -> & Hp). eapply moved_inside_regional; [exact R3|intros k Hk; apply Hp|exact R6].
    destruct (R sched_w i H6 Hn) as (_ & Hlt & _). now apply Hlt.
  - revert B. apply trusted_ext. intro u. destruct classifier; reflexivity.
Qed.
Print Assumptions C148_regional_samples.
(** It ends with an exception exactly when no rule has a counterfactual, or when a sample is needed before any local sampling has fitted the isolation forest.  Otherwise the coverage is 1,
    or a NaN without samples. *)
Theorem C148_regional_returns : forall G (rand : G -> Q * G) randint exp lg temp classifier predict model D d star rules outs iso n tests down_up max_obs batch max_iter gs,
  (forall n g, 0 < n -> fst (randint n g) < n) -> length star = n -> length outs = n -> length rules = n -> intervals_fit n down_up -> 0 < max_obs -> 0 < batch ->
  let run := run_sampling_regional rand randint exp lg temp classifier predict model D d star rules outs iso n tests down_up max_obs batch max_iter gs in
  (run = Raises <-> answered n outs = [] \/ iso = None /\ exists i x, In i (answered n outs) /\ In x tests /\ inside d (nth i rules rule0) x) /\
  (run = Raises \/ exists o, run = Gives o /\ match CrModel.o_cov o with Some c => (c == 1)%Q /\ CrModel.o_draws o <> [] | None => CrModel.o_draws o = [] end).
Proof.
  intros G rand randint exp lg temp classifier predict model D d star rules outs iso n tests down_up max_obs batch max_iter gs Hr L1 L2 L3 Hdu Hm Hb. cbv zeta.
  destruct (regional_samples_raise rand randint exp lg temp classifier predict model D Hr star outs d rules iso n tests down_up max_obs batch max_iter gs L1 L2 L3 Hdu Hm Hb) as [K1 K2].
  split; [exact K1|]. destruct (run_sampling_regional _ _ _ _ _ _ _ _ _ _ _ _ _ _ _ _ _ _ _ _ _) as [o| |] eqn:E; [right|now left|congruence].
  exists o. split; [reflexivity|]. eapply regional_sample_figures; [exact L1|exact L2|exact L3|exact Hdu|exact Hm|exact E].
Qed.
Print Assumptions C148_regional_returns.
Definition sa_tests : list pt := [ex_obs 3 0 0; ex_obs 4 1 0; ex_obs 2 2 0; ex_obs 0 1 0; ex_obs 7 7 0].
Notation sa_regional iso st outs :=
  (run_sampling_regional cr_rand cr_randint (fun _ => (1 # 2)%Q) (fun _ => 1%Q) (1 # 2)%Q true sa_predict None cr_D 2 (v_star st) cr_rules outs iso 2 sa_tests None 2 3 3 (fun i k => i + k)).
Example C148_regional_example : exists st outs, cr_regional true cr_y None (2 # 5)%Q = Gives st /\ cr_run_regional st cr_y = Gives outs /\
  answered 2 outs = [0; 1] /\ map (fun r => within 2 r sa_tests) cr_rules = [3; 1] /\ inside 2 (nth 0 cr_rules rule0) (ex_obs 3 0 0) /\
  sa_seen (sa_regional (Some sa_score) st outs) = Some ([([3; 1], 4, false); ([4; 1], 5, false); ([0; 3], 3, true)], Some (1 # 3), Some 1)%Q /\
  sa_seen (sa_regional None st outs) = None.
Proof.
  assert (V : match cr_regional true cr_y None (2 # 5)%Q with
              | Gives st => match cr_run_regional st cr_y with Gives outs => Some (answered 2 outs, sa_seen (sa_regional (Some sa_score) st outs), sa_seen (sa_regional None st outs)) | _ => None end
              | _ => None end = Some ([0; 1], Some ([([3; 1], 4, false); ([4; 1], 5, false); ([0; 3], 3, true)], Some (1 # 3), Some 1)%Q, None)) by (vm_compute; reflexivity).
  destruct (cr_regional true cr_y None (2 # 5)%Q) as [st| |]; [|discriminate|discriminate]. exists st.
  destruct (cr_run_regional st cr_y) as [outs| |]; [|discriminate|discriminate]. exists outs. injection V as V1 V2 V3.
  split; [reflexivity|]. split; [reflexivity|]. split; [exact V1|]. split; [vm_compute; reflexivity|].
  split; [intros [|[|k]] Hk; try lia; vm_compute; split; discriminate|]. split; [exact V2|exact V3].
Qed.

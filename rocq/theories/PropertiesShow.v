(** C151: what the class [CR] prints about its rules, from a forest of skranger to the lines. *)
From Coq Require Import String.
From Verif Require Import Base QuantSpec QuantProofs GameSpec RfModel RfSpec PropertiesRf SkModel SearchModel SearchSpec ExplSpec ApiModel ApiSpec AgnModel AgnSpec PropertiesAgn AxsModel AxsSpec AxsProofs
  PropertiesAxs BoxSpec PropertiesBox RulesSpec CrSpec CrProofs CrsModel CrsSpec CrsProofs CrsProofs2 PropertiesCrs ShowModel ShowSpec ShowProofs.
Local Open Scope nat_scope.
Local Open Scope list_scope.

(** ** One rule *)

(** [print_rule] prints the output, the probability and conditions which tell, for the points without coordinate beyond 1e10, whether the rule holds. *)
Theorem C151_rule_partial : forall names d r p sdp v, length names = d -> NoDup names ->
  let '(ls, ended) := print_rule names d r p sdp v in
  ended = true /\ outputs ls = [(sdp, v)] /\ probabilities ls = [(sdp, p)] /\ describes d names (conds ls) r.
Proof.
  intros names d r p sdp v L N. rewrite print_rule_says by lia. destruct (rule_lines_read names r p sdp v) as (E1 & E2 & E3 & _).
  split; [reflexivity|]. split; [exact E2|]. split; [exact E3|]. rewrite E1. now apply rule_conds_describe.
Qed.
Print Assumptions C151_rule_partial.
Definition sh_names : list string := ["a"; "b"]%string.
Lemma sh_nodup : NoDup sh_names.
Proof. repeat constructor; cbn; intuition discriminate. Qed.
Example C151_rule_example : length sh_names = 2 /\ NoDup sh_names /\
  print_rule sh_names 2 (fun k => if k =? 0 then (- (10000000000 # 1), 10000000000 # 1)%Q else (1 # 2, 10000000000 # 1)%Q) (3 # 4) false (Some 1%Q)
  = ([Cond "b" (1 # 2) (10000000000 # 1); Blank false; Output false (Some 1%Q); Probability false (3 # 4)]%Q, true).
Proof. split; [reflexivity|]. split; [exact sh_nodup|]. vm_compute. reflexivity. Qed.
(** Beyond 1e10 the lines do not tell: a column whose sides are 1e10 is left out. *)
Theorem C151_far_refuted : exists names d r p sdp v z, length names = d /\ NoDup names /\
  let '(ls, ended) := print_rule names d r p sdp v in ended = true /\ obeys names (conds ls) z /\ ~ in_box d r z.
Proof.
  exists sh_names, 2, rule0, (1 # 2)%Q, true, None, (fun _ => 20000000000 # 1)%Q. split; [reflexivity|]. split; [exact sh_nodup|].
  cbn. split; [reflexivity|]. split; [intros c lo hi k []|]. intro H. destruct (H 0 ltac:(lia)) as [_ H2]. now apply Qle_bool_iff in H2.
Qed.
Print Assumptions C151_far_refuted.
(** With fewer names than columns nothing is raised, and the lines allow points for which the rule does not hold; with more names there is an exception. *)
Theorem C151_names_refuted : exists names d r p sdp v z, length names < d /\ NoDup names /\ common d z /\
  let '(ls, ended) := print_rule names d r p sdp v in ended = true /\ obeys names (conds ls) z /\ ~ in_box d r z.
Proof.
  exists ["a"]%string, 2, (fun _ => (0, 1))%Q, (1 # 2)%Q, true, None, (fun k => if k =? 0 then 1%Q else 5%Q). split; [cbn; lia|]. split; [repeat constructor; intros []|].
  split. { intros k _. destruct (k =? 0); split; apply Qle_bool_iff; reflexivity. }
  cbn. split; [reflexivity|]. split.
  - intros c lo hi k [E|[]] Hk. injection E as <- <- <-. destruct k as [|[|k]]; [|discriminate|discriminate]. cbn. split; apply Qle_bool_iff; reflexivity.
  - intro H. destruct (H 1 ltac:(lia)) as [_ H2]. now apply Qle_bool_iff in H2.
Qed.
Print Assumptions C151_names_refuted.
Theorem C151_many_names : forall names d r p sdp v, d < length names -> snd (print_rule names d r p sdp v) = false.
Proof. intros. now apply print_rule_halts. Qed.
Print Assumptions C151_many_names.
Example C151_many_names_example : 1 < length sh_names /\ print_rule sh_names 1 (fun _ => (0, 1)%Q) 1 true None = ([Cond "a" 0 1; Blank false]%Q, false).
Proof. split; [cbn; lia|reflexivity]. Qed.

(** ** After the local session *)

(** After [run_local_divergent_set] and [run_local_counterfactual_rules], [show_local_counterfactuals] of the same observations returns.  It prints every observation and,
    under it, every counterfactual rule of it, in order, once.  The conditions of a rule tell whether it holds, and fix the columns outside of the divergent set at the
    values of the observation; the output is the target (classification) or the mean of the targets of the rows with a weight (regression); the probability is the one of the rule and reaches the
    level, or the rule is the only one. *)
Theorem C151_local_partial : forall G (rand : G -> Q * G) randint exp lg d w es Ts stray classifier q imp order argsort D Y sched sched_w X y down up t stop pi0 st
  acc pi h sched_l sched_c gs outs names yt,
  trained d w es Ts D Y -> ranked imp d order -> X <> [] -> fits (length X) y -> fits (length X) down -> fits (length X) up ->
  levels_fit classifier (length X) t -> fair (length Ts) (length X) sched -> complete (S (length Ts)) (length X) sched_w -> (0 < pi0)%Q -> (pi0 <= 1)%Q ->
  sorting argsort -> (forall n, 0 < n -> complete (S (length Ts)) n (sched_l n)) -> complete (S (length Ts)) 1 sched_c ->
  run_local_divergent_set d es stray classifier q order D Y sched sched_w X y down up t stop pi0 = Gives st ->
  run_local_counterfactual_rules rand randint exp lg d es stray classifier q argsort D Y st X y down up acc pi h sched_l sched_c gs = Gives outs ->
  length names = d -> NoDup names -> (classifier = true -> length yt = length X) ->
  let '(ls, ended) := show_local names d classifier Y (Some outs) X yt in
  ended = true /\
  points ls = map (fun i => (i, map (nth i X (fun _ => 0%Q)) (seq 0 d))) (seq 0 (length X)) /\
  map (fun r => (q_obs r, q_rule r)) (sheet ls) = flat_map (fun i => map (fun l => (i, Some l)) (seq 0 (length (nth i outs [])))) (seq 0 (length X)) /\
  forall r, In r (sheet ls) -> exists i l c p v out,
    i < length X /\ nth_error (nth i outs []) l = Some (c, p, v) /\
    q_obs r = i /\ q_rule r = Some l /\ q_outs r = [(false, out)] /\ q_probs r = [(false, p)] /\
    describes d names (q_conds r) c /\
    (forall k s, nth_error names k = Some s -> ~ In k (nth i (v_star st) []) -> In (s, nth i X (fun _ => 0%Q) k, nth i X (fun _ => 0%Q) k) (q_conds r)) /\
    (if classifier then out = Some (nth i yt 0%Q) else mean_target Y v out) /\
    (((if classifier then pi else acc) <= p)%Q \/ length (nth i outs []) = 1).
Proof.
  intros G rand randint exp lg d w es Ts stray classifier q imp order argsort D Y sched sched_w X y down up t stop pi0 st acc pi h sched_l sched_c gs outs names yt
    HT HR HX H1 H2 H3 H4 H5 H6 H7 H8 Hs Hl Hc Hst Hrun Hn Nn Hyt.
  assert (Lo : length outs = length X) by (unfold run_local_counterfactual_rules in Hrun; cbv zeta in Hrun; now apply all_gives in Hrun).
  rewrite (show_local_says names d classifier Y Hn outs X yt Lo Hyt). split; [reflexivity|]. split.
  { rewrite local_points. exact (enumerated_map (fun i x => (i, map x (seq 0 d))) (fun _ => 0%Q) X). }
  rewrite local_sheet. split.
  { induction (seq 0 (length X)) as [|i l IH]; [reflexivity|]. cbn [flat_map]. rewrite map_app, IH. f_equal. unfold expected. rewrite map_map. cbn [counter_reading q_obs q_rule].
    rewrite <- (map_map fst (fun l => (i, Some l))), enumerated_fst. reflexivity. }
  intros r Hr. apply in_flat_map in Hr as (i & Hi & Hr). apply in_seq in Hi. unfold expected in Hr. apply in_map_iff in Hr as ([l [[c p] v]] & <- & Hin).
  apply enumerated_in in Hin. exists i, l, c, p, v, (value_of classifier Y yt i v). split; [lia|]. split; [exact Hin|].
  cbn [counter_reading q_obs q_rule q_outs q_probs q_conds fst snd].
  split; [reflexivity|]. split; [reflexivity|]. split; [reflexivity|]. split; [reflexivity|].
  destruct (C145_rules_sound G rand randint exp lg d w es Ts stray classifier q imp order argsort D Y sched sched_w X y down up t stop pi0 st acc pi h sched_l sched_c gs outs i c p v
    HT HR HX H1 H2 H3 H4 H5 H6 H7 H8 Hs Hl Hc Hst Hrun ltac:(lia) (nth_error_In _ _ Hin)) as (j & leaf & leaf0 & _ & _ & _ & _ & Hout & _ & _ & Hlev).
  split; [now apply rule_conds_describe|]. split.
  { intros k s Hk Hns. assert (k < d) by (rewrite <- Hn; apply nth_error_Some; congruence). specialize (Hout k Hns H).
    pose proof (rule_conds_shown names c k s Hk) as W. rewrite Hout in W. cbn [fst snd] in W. apply W. unfold hidden. rewrite Hout. cbn [fst snd].
    apply Bool.andb_false_iff. destruct (qleb _ _) eqn:E1; [right|now left]. apply qleb_true in E1. apply Bool.not_true_iff_false. intro E2. apply qleb_true in E2. lra. }
  split. { unfold value_of. destruct classifier; [reflexivity|apply mean_kept_mean]. }
  destruct Hlev as [Hlev| ->]; [now left|now right].
Qed.
Print Assumptions C151_local_partial.
(** for the examples: a reading with normalised numbers *)
Definition sh_norm (r : reading) : nat * option nat * list (string * Q * Q) * list (bool * option Q) * list (bool * Q) :=
  (q_obs r, q_rule r, map (fun c => (fst (fst c), Qred (snd (fst c)), Qred (snd c))) (q_conds r), map (fun o => (fst o, option_map Qred (snd o))) (q_outs r),
   map (fun p => (fst p, Qred (snd p))) (q_probs r)).
Definition sh_local_sheet : list (nat * option nat * list (string * Q * Q) * list (bool * option Q) * list (bool * Q)) :=
  [(0%nat, Some 0%nat, [("a"%string, 3, 3); ("b"%string, 0, 2)] , [(false, Some 1)], [(false, 4 # 5)]);
     (1%nat, Some 0%nat, [("a"%string, 1 # 2, 1); ("b"%string, 0, 10000000000)] , [(false, Some 1)], [(false, 7 # 12)]);
     (1%nat, Some 1%nat, [("a"%string, 1 # 2, 10000000000); ("b"%string, 0, 2)] , [(false, Some 1)], [(false, 7 # 12)])]%Q.
Example C151_local_example : exists st outs, cr_div false (2 # 5)%Q = Gives st /\ cr_run st (9 # 10) (2 # 5) = Gives outs /\
  map sh_norm (sheet (fst (show_local sh_names 2 true cr_Y (Some outs) cr_X [1; 1]%Q))) =
    sh_local_sheet.
Proof.
  assert (V : match cr_div false (2 # 5)%Q with
              | Gives st => match cr_run st (9 # 10) (2 # 5) with Gives outs => map sh_norm (sheet (fst (show_local sh_names 2 true cr_Y (Some outs) cr_X [1; 1]%Q))) | _ => [] end
              | _ => [] end =
    sh_local_sheet) by (vm_compute; reflexivity).
  destruct (cr_div false (2 # 5)%Q) as [st| |]; [|discriminate|discriminate]. destruct (cr_run st (9 # 10) (2 # 5)) as [outs| |] eqn:E; [|discriminate|discriminate].
  exists st, outs. split; [reflexivity|]. split; [exact E|exact V].
Qed.

(** The rules that are printed are those of the session, whatever observations are given: with other ones, the first observation is printed with the value 0 of a column, and under it a
    counterfactual that keeps this column at 3. *)
Theorem C151_stale_refuted : exists d w es Ts stray q imp order D Y sched sched_w X y t stop pi0 st (rand : nat -> Q * nat) randint exp lg argsort acc pi h sched_l sched_c gs outs names X' yt,
  trained d w es Ts D Y /\ ranked imp d order /\ fits (length X) y /\ fair (length Ts) (length X) sched /\ complete (S (length Ts)) (length X) sched_w /\
  run_local_divergent_set d es stray true q order D Y sched sched_w X y None None t stop pi0 = Gives st /\
  run_local_counterfactual_rules rand randint exp lg d es stray true q argsort D Y st X y None None acc pi h sched_l sched_c gs = Gives outs /\
  length X' = length X /\ length yt = length X /\ length names = d /\ NoDup names /\
  let '(ls, ended) := show_local names d true Y (Some outs) X' yt in
  ended = true /\ exists x c z, In (0, x) (points ls) /\ nth_error names 0 = Some c /\ nth_error (nth 0 (v_star st) []) 0 = Some 1 /\ ~ In 0 (nth 0 (v_star st) []) /\
    nth 0 x 1%Q = 0%Q /\ In (c, z, z) (match sheet ls with r :: _ => q_conds r | [] => [] end) /\ (z == 3)%Q.
Proof.
  destruct C151_local_example as (st & outs & E1 & E2 & _).
  exists 2, 1, ag_es, ag_Ts, ex_calm, ag_q, (fun _ => 0%Q), [0; 1], cr_D, cr_Y, (ax_sched 2 2), (ax_turns 2 2), cr_X, cr_y, T_none, false, (2 # 5)%Q, st.
  exists cr_rand, cr_randint, (fun _ => (1 # 2)%Q), (fun _ => 1%Q), argsort_up, (9 # 10)%Q, (2 # 5)%Q, cr_h, (ax_turns 2), (ax_turns 2 1), (fun i j => i + j), outs.
  exists sh_names, (rev cr_X), [1; 1]%Q.
  split; [exact cr_trained|]. split; [exact cr_ranked|]. split; [reflexivity|]. split; [apply ax_fair|]. split; [apply turns_complete|].
  split; [exact E1|]. split; [exact E2|]. split; [reflexivity|]. split; [reflexivity|]. split; [reflexivity|]. split; [exact sh_nodup|].
  assert (Lo : length outs = 2) by (pose proof E2 as E3; unfold cr_run, run_local_counterfactual_rules in E3; cbv zeta in E3; apply all_gives in E3; exact (proj1 E3)).
  rewrite (show_local_says sh_names 2 true cr_Y eq_refl outs (rev cr_X) [1; 1]%Q Lo (fun _ => eq_refl)). split; [reflexivity|].
  assert (V : match cr_div false (2 # 5)%Q with
              | Gives st => match cr_run st (9 # 10) (2 # 5) with
                            | Gives outs => (v_star st, match outs with ((c, p, v) :: _) :: _ => Some (Qred (fst (c 0)), Qred (snd (c 0))) | _ => None end) | _ => ([], None) end
              | _ => ([], None) end = ([[1]; [0; 1]], Some (3, 3)%Q)) by (vm_compute; reflexivity).
  rewrite E1, E2 in V. injection V as V1 V2. rewrite V1.
  pose proof (C145_rules_sound nat cr_rand cr_randint (fun _ => (1 # 2)%Q) (fun _ => 1%Q) 2 1 ag_es ag_Ts ex_calm true ag_q (fun _ => 0%Q) [0; 1] argsort_up cr_D cr_Y
    (ax_sched 2 2) (ax_turns 2 2) cr_X cr_y None None T_none false (2 # 5)%Q st (9 # 10)%Q (2 # 5)%Q cr_h (ax_turns 2) (ax_turns 2 1) (fun i j => i + j) outs 0) as K.
  destruct outs as [|[|[[c p] v] es] rest]; [discriminate|discriminate|].
  destruct (K c p v cr_trained cr_ranked ltac:(discriminate) eq_refl I I ltac:(now left) (proj1 (ax_fair 2 2)) (turns_complete _ _) ltac:(reflexivity) ltac:(discriminate) sorting_up
    ltac:(intros; apply turns_complete) (turns_complete _ _) E1 E2 ltac:(cbn; lia) ltac:(now left)) as (j & leaf & leaf0 & _ & _ & _ & _ & Hout & _).
  rewrite V1 in Hout. specialize (Hout 0 ltac:(cbn; intuition discriminate) ltac:(lia)).
  exists (map (ex_obs 0 0 0) (seq 0 2)), "a"%string, (ex_obs 3 3 0 0).
  split. { rewrite local_points. now left. }
  split; [reflexivity|]. split; [reflexivity|]. split; [cbn; intuition discriminate|]. split; [reflexivity|]. split; [|reflexivity].
  rewrite local_sheet. cbn [rev app cr_X length seq flat_map]. unfold expected at 1. cbn [nth enumerated length seq combine map app counter_reading q_conds fst snd].
  pose proof (rule_conds_shown sh_names c 0 "a"%string eq_refl) as W. rewrite Hout in W. apply W. unfold hidden. rewrite Hout. reflexivity.
Qed.
Print Assumptions C151_stale_refuted.

(** Before the session, for more observations than it had, or (with a rule to print) for a target that is missing, an exception ends the method. *)
Theorem C151_raises : forall names d classifier Y X yt,
  (X <> [] -> snd (show_local names d classifier Y None X yt) = false) /\
  (forall outs, length outs < length X -> snd (show_local names d classifier Y (Some outs) X yt) = false) /\
  (forall outs i, i < length X -> nth i outs [] <> [] -> classifier = true -> length yt <= i -> snd (show_local names d classifier Y (Some outs) X yt) = false).
Proof.
  intros names d classifier Y X yt.
  assert (G : forall st i, i < length X -> snd (show_counters names d classifier Y st yt i) = false -> snd (show_local names d classifier Y st X yt) = false).
  { intros st i Hi H. unfold show_local. apply (each_stop _ _ (i, nth i X (fun _ => 0%Q))); [apply enumerated_in; now apply nth_error_nth'|]. unfold andthen, say. cbn [fst snd]. exact H. }
  split; [|split].
  - intro H. destruct X as [|x r]; [contradiction|]. apply (G None 0); [cbn; lia|reflexivity].
  - intros outs H. apply (G (Some outs) (length outs) H). unfold show_counters. replace (nth_error outs (length outs)) with (@None (list (rule * Q * (nat -> Q)))); [reflexivity|].
    symmetry. now apply nth_error_None.
  - intros outs i Hi He Hc Hy. apply (G (Some outs) i Hi). unfold show_counters. destruct (Nat.lt_ge_cases i (length outs)) as [Ho|Ho]; [|rewrite nth_overflow in He by exact Ho; contradiction].
    rewrite (nth_error_nth' outs [] Ho). destruct (nth i outs []) as [|[[c p] v] es] eqn:E; [contradiction|].
    assert (S : snd (each (show_counter names d classifier Y yt i) (enumerated ((c, p, v) :: es))) = false).
    { apply (each_stop _ _ (0, (c, p, v))); [now apply enumerated_in|]. unfold show_counter. rewrite Hc.
      replace (nth_error yt i) with (@None Q) by (symmetry; now apply nth_error_None). reflexivity. }
    unfold andthen. destruct (snd (each _ _)) eqn:Es; [discriminate|exact Es].
Qed.
Print Assumptions C151_raises.
Example C151_raises_example : show_local sh_names 2 true cr_Y (Some [[]]) cr_X [1]%Q =
  ([Columns sh_names; Point 0 [3; 3]; Blank true; Blank true; Blank true; Blank false; Columns sh_names; Point 1 [0; 0]; Blank true; Blank true; Blank true]%Q, false) /\
  show_local sh_names 2 true cr_Y (Some [[(fun _ => (0, 1), 1, fun _ => 0)]])%Q (firstn 1 cr_X) [] =
  ([Columns sh_names; Point 0 [3; 3]; Blank true; Blank true; Blank true; Counter 0 0]%Q, false).
Proof. split; reflexivity. Qed.

(** ** After the regional session *)

(** [show_global_counterfactuals] after [run_regional_divergent_set] and [run_regional_counterfactual_rules] on rules with their probabilities and targets: it prints every rule with its conditions, probability and target,
    then every counterfactual of it, in order, once.  The conditions of a counterfactual tell whether it holds, and are those of the rule outside of the divergent set. *)
Theorem C151_global_partial : forall G (rand : G -> Q * G) randint exp lg d w es Ts stray classifier q argsort D Y X rules y down_up st acc pi h sched_l sched_c gs outs names sdp_rules y_rules yt,
  trained d w es Ts D Y -> length rules = length X -> fits (length X) y -> intervals_fit (length X) down_up ->
  sorting argsort -> (forall n, 0 < n -> complete (S (length Ts)) n (sched_l n)) -> complete (S (length Ts)) 1 sched_c ->
  length (v_star st) = length X -> length (v_w st) = length X ->
  run_regional_counterfactual_rules rand randint exp lg d es stray classifier q argsort D Y st X rules y down_up acc pi h sched_l sched_c gs = Gives outs ->
  length names = d -> NoDup names -> length sdp_rules = length X -> length y_rules = length X -> (classifier = true -> length yt = length X) ->
  let '(ls, ended) := show_global names d classifier Y (Some rules) sdp_rules y_rules (Some outs) yt in
  ended = true /\
  map (fun r => (q_obs r, q_rule r)) (sheet ls) = flat_map (fun i => (i, None) :: map (fun l => (i, Some l)) (seq 0 (length (nth i outs [])))) (seq 0 (length X)) /\
  (forall r, In r (sheet ls) -> q_rule r = None ->
     q_outs r = [(true, Some (nth (q_obs r) y_rules 0%Q))] /\ q_probs r = [(true, nth (q_obs r) sdp_rules 0%Q)] /\ describes d names (q_conds r) (nth (q_obs r) rules rule0)) /\
  forall r l, In r (sheet ls) -> q_rule r = Some l -> exists i c p v out,
    i < length X /\ nth_error (nth i outs []) l = Some (c, p, v) /\ q_obs r = i /\ q_outs r = [(false, out)] /\ q_probs r = [(false, p)] /\
    describes d names (q_conds r) c /\
    (forall z k, common d z -> obeys names (q_conds r) z -> k < d -> ~ In k (nth i (v_star st) []) -> (fst (nth i rules rule0 k) <= z k <= snd (nth i rules rule0 k))%Q) /\
    (if classifier then out = Some (nth i yt 0%Q) else mean_target Y v out) /\
    ((pi <= p)%Q \/ length (nth i outs []) = 1).
Proof.
  intros G rand randint exp lg d w es Ts stray classifier q argsort D Y X rules y down_up st acc pi h sched_l sched_c gs outs names sdp_rules y_rules yt
    HT Hrl H1 H2 Hs Hl Hc L1 L3 Hrun Hn Nn Ls Ly Hyt.
  assert (Lo : length outs = length X) by (unfold run_regional_counterfactual_rules in Hrun; cbv zeta in Hrun; now apply all_gives in Hrun).
  rewrite (show_global_says names d classifier Y Hn rules sdp_rules y_rules outs yt) by (rewrite ?Hrl; trivial). split; [reflexivity|].
  rewrite global_sheet. split.
  { rewrite <- Hrl, <- enumerated_fst. induction (enumerated rules) as [|a l IH]; [reflexivity|]. cbn [flat_map map]. rewrite map_app, IH. cbn [app map rule_reading q_obs q_rule]. f_equal. f_equal.
    unfold expected. rewrite map_map. cbn [counter_reading q_obs q_rule]. rewrite <- (map_map fst (fun l => (fst a, Some l))), enumerated_fst. reflexivity. }
  split.
  - intros r Hr Hq. apply in_flat_map in Hr as ([i r0] & Hi & Hr). apply enumerated_in in Hi. destruct Hr as [<-|Hr].
    + cbn [rule_reading q_outs q_probs q_conds q_obs fst snd]. split; [reflexivity|]. split; [reflexivity|]. rewrite (nth_error_nth rules i rule0 Hi). now apply rule_conds_describe.
    + unfold expected in Hr. apply in_map_iff in Hr as (lc & <- & _). discriminate.
  - intros r l Hr Hq. apply in_flat_map in Hr as ([i r0] & Hi & Hr). apply enumerated_in in Hi. assert (Hx : i < length X) by (rewrite <- Hrl; apply nth_error_Some; congruence).
    destruct Hr as [<-|Hr]; [discriminate|]. unfold expected in Hr. apply in_map_iff in Hr as ([l' [[c p] v]] & <- & Hin). cbn [counter_reading q_rule fst] in Hq. injection Hq as ->.
    apply enumerated_in in Hin. cbn [fst] in Hin. exists i, c, p, v, (value_of classifier Y yt i v). split; [exact Hx|]. split; [exact Hin|].
    cbn [counter_reading q_obs q_rule q_outs q_probs q_conds fst snd]. split; [reflexivity|]. split; [reflexivity|]. split; [reflexivity|].
    destruct (C146_rules_sound G rand randint exp lg d w es Ts stray classifier q argsort D Y X rules y down_up st acc pi h sched_l sched_c gs outs i c p v
      HT Hrl H1 H2 Hs Hl Hc L1 L3 Hrun Hx (nth_error_In _ _ Hin)) as (j & leaf & leaf0 & _ & _ & _ & _ & Hout & _ & _ & Hlev).
    split; [now apply rule_conds_describe|]. split.
    { intros z k Hz Ho Hk Hns. rewrite <- (Hout k Hns). apply (rule_conds_describe names d c Hn Nn z Hz); [exact Ho|exact Hk]. }
    split. { unfold value_of. destruct classifier; [reflexivity|apply mean_kept_mean]. }
    destruct Hlev as [Hlev| ->]; [now left|now right].
Qed.
Print Assumptions C151_global_partial.
Definition sh_reg_run (st : divergent) : ending (list (list (rule * Q * (nat -> Q)))) :=
  run_regional_counterfactual_rules cr_rand cr_randint (fun _ => (1 # 2)%Q) (fun _ => 1%Q) 2 ag_es ex_calm false ag_q argsort_up cr_D cr_Y st cr_X cr_rules None cr_du
    (9 # 10) (2 # 5) cr_h (ax_turns 2) (ax_turns 2 1) (fun i j => i + j).
Definition sh_sheet : list (nat * option nat * list (string * Q * Q) * list (bool * option Q) * list (bool * Q)) :=
  [(0%nat, None, [("a"%string, 2, 4); ("b"%string, -1, 2)] , [(true, Some 0)], [(true, 1)]);
   (0%nat, Some 0%nat, [("a"%string, 1 # 2, 1); ("b"%string, -1, 2)] , [(false, Some (1 # 2))], [(false, 7 # 12)]);
   (1%nat, None, [("a"%string, -1, 1 # 4); ("b"%string, -1, 1)] , [(true, Some 0)], [(true, 1)]);
   (1%nat, Some 0%nat, [("a"%string, 1 # 2, 1); ("b"%string, -1, 1)] , [(false, Some (1 # 2))], [(false, 7 # 12)])]%Q.
Example C151_global_example : exists st outs, cr_regional false None cr_du (2 # 5)%Q = Gives st /\ sh_reg_run st = Gives outs /\ length (v_star st) = 2 /\ length (v_w st) = 2 /\
  map sh_norm (sheet (fst (show_global sh_names 2 false cr_Y (Some cr_rules) [1; 1] [0; 0] (Some outs) [])))%Q = sh_sheet.
Proof.
  assert (V : match cr_regional false None cr_du (2 # 5)%Q with
              | Gives st => match sh_reg_run st with
                            | Gives outs => (length (v_star st), length (v_w st), map sh_norm (sheet (fst (show_global sh_names 2 false cr_Y (Some cr_rules) [1; 1] [0; 0] (Some outs) [])))%Q)
                            | _ => (0, 0, []) end
              | _ => (0, 0, []) end = (2, 2, sh_sheet)) by (vm_compute; reflexivity).
  destruct (cr_regional false None cr_du (2 # 5)%Q) as [st| |]; [|discriminate|discriminate]. destruct (sh_reg_run st) as [outs| |] eqn:E; [|discriminate|discriminate].
  exists st, outs. split; [reflexivity|]. split; [exact E|]. split; [exact (f_equal (fun v => fst (fst v)) V)|]. split; [exact (f_equal (fun v => snd (fst v)) V)|]. exact (f_equal snd V).
Qed.
(** In regression the output that is printed need not be in the interval for which the counterfactual was made: all rows with a weight count the same, also those without the target. *)
Theorem C151_output_refuted : exists d w es Ts stray q imp order D Y sched sched_w X rules y down_up stop pi0 st (rand : nat -> Q * nat) randint exp lg argsort acc pi h sched_l sched_c gs outs names sdp_rules y_rules yt,
  trained d w es Ts D Y /\ ranked imp d order /\ length rules = length X /\ intervals_fit (length X) down_up /\ fair (length Ts) (length X) sched /\ complete (S (length Ts)) (length X) sched_w /\
  run_regional_divergent_set d es stray false q order D Y sched sched_w X rules y down_up stop pi0 = Gives st /\
  run_regional_counterfactual_rules rand randint exp lg d es stray false q argsort D Y st X rules y down_up acc pi h sched_l sched_c gs = Gives outs /\
  length names = d /\ NoDup names /\ length sdp_rules = length X /\ length y_rules = length X /\
  exists r v p, In r (sheet (fst (show_global names d false Y (Some rules) sdp_rules y_rules (Some outs) yt))) /\ q_rule r = Some 0 /\
    q_outs r = [(false, Some v)] /\ q_probs r = [(false, p)] /\ (pi <= p)%Q /\ ~ (bound down_up 0 (q_obs r) <= v <= bound down_up 1 (q_obs r))%Q.
Proof.
  destruct C151_global_example as (st & outs & E1 & E2 & L1 & L2 & V).
  exists 2, 1, ag_es, ag_Ts, ex_calm, ag_q, (fun _ => 0%Q), [0; 1], cr_D, cr_Y, (ax_sched 2 2), (ax_turns 2 2), cr_X, cr_rules, None, cr_du, false, (2 # 5)%Q, st.
  exists cr_rand, cr_randint, (fun _ => (1 # 2)%Q), (fun _ => 1%Q), argsort_up, (9 # 10)%Q, (2 # 5)%Q, cr_h, (ax_turns 2), (ax_turns 2 1), (fun i j => i + j), outs.
  exists sh_names, [1; 1]%Q, [0; 0]%Q, [].
  split; [exact cr_trained|]. split; [exact cr_ranked|]. split; [reflexivity|]. split; [split; [reflexivity|intros r [<-|[<-|[]]]; cbn; lia]|]. split; [apply ax_fair|]. split; [apply turns_complete|].
  split; [exact E1|]. split; [exact E2|]. split; [reflexivity|]. split; [exact sh_nodup|]. split; [reflexivity|]. split; [reflexivity|].
  clear E1 E2 L1 L2. destruct (sheet _) as [|r0 [|r rest]]; [discriminate|discriminate|].
  assert (W : sh_norm r = nth 1 sh_sheet (sh_norm r)) by (rewrite <- V; reflexivity). unfold sh_sheet, sh_norm in W. cbn [nth] in W.
  pose proof (f_equal (fun t => fst (fst (fst (fst t)))) W) as V1. pose proof (f_equal (fun t => snd (fst (fst (fst t)))) W) as V2.
  pose proof (f_equal (fun t => snd (fst t)) W) as V4. pose proof (f_equal snd W) as V5. cbn [fst snd] in V1, V2, V4, V5. clear W.
  destruct (q_outs r) as [|[b [v|]] [|? ?]] eqn:Eo; try discriminate V4. cbn [map fst snd option_map] in V4. injection V4 as -> V4.
  destruct (q_probs r) as [|[b' p] [|? ?]] eqn:Ep; try discriminate V5. cbn [map fst snd] in V5. injection V5 as -> V5.
  exists r, v, p. split; [right; now left|]. split; [exact V2|]. split; [exact Eo|]. split; [exact Ep|].
  split; [rewrite <- (Qred_correct p), V5; apply Qle_bool_iff; reflexivity|].
  rewrite V1, <- (Qred_correct v), V4. intros [K _]. now apply Qle_bool_iff in K.
Qed.
Print Assumptions C151_output_refuted.

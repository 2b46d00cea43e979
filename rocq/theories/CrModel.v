(** Model of the counterfactual sessions of counterfactual_rules.py (class [CR]): the
    rules kept for an observation, and the samples drawn from them.  No proofs here. *)
From Verif Require Import Base RfModel RulesModel AnnealModel.

(** ** Counterfactual rules of one observation *)

(** utils_cr.py 790-809 applied to the three arrays of [return_counterfactuals]. *)
Definition prune {W} (d : nat) (w0 : W) (l : list (rule * Q * W)) : list (rule * Q * W) :=
  remove_in_wsdp_cr d (length l) (fun i => fst (fst (nth i l (rule0, 0%Q, w0))))
    (fun i => snd (fst (nth i l (rule0, 0%Q, w0)))) (fun i => snd (nth i l (rule0, 0%Q, w0))).

(** utils_cr.py 177-196, and 249-268, 527-544, 595-617: body of the loop over the
    observations.  [leaves] is the result of [return_leaf_cnt] (C75), [est] the estimator
    of [compute_cdp_cond_weights], [mk] the condition made from a leaf (C39).  [w0] only
    fills reads beyond the end, which do not happen. *)
Definition observation_rules {W} (d N : nat) (data : nat -> pt) (ind : nat -> bool) (acc_level : Q)
  (leaves : list rule) (est : rule -> Q * W) (mk : rule -> rule) (pi : Q) (w0 : W)
  : option (list (rule * Q * W)) :=
  match get_compatible_leaf d N data ind acc_level leaves with
  | None => None
  | Some suf => match return_counterfactuals est mk suf pi with
                | None => None
                | Some l => Some (prune d w0 l)
                end
  end.

(** counterfactual_rules.py 63-97: the level handed to the search of local rules; for
    regression the call reads [pi_level=acc_level]. *)
Definition local_level (classifier : bool) (acc_level pi_level : Q) : Q :=
  if classifier then pi_level else acc_level.
(** counterfactual_rules.py 63-97 ([run_local_counterfactual_rules]), one observation;
    the leaves found depend on the level. *)
Definition local_rules {W} (classifier : bool) (d N : nat) (data : nat -> pt) (ind : nat -> bool)
  (acc_level pi_level : Q) (leaves : Q -> list rule) (est : rule -> Q * W) (S_star S_bar : list nat) (x : pt) (w0 : W)
  : option (list (rule * Q * W)) :=
  let pi := local_level classifier acc_level pi_level in
  observation_rules d N data ind acc_level (leaves pi) est (cond_local S_star S_bar x) pi w0.
(** counterfactual_rules.py 182-205 ([run_regional_counterfactual_rules]), one rule. *)
Definition regional_rules {W} (d N : nat) (data : nat -> pt) (ind : nat -> bool)
  (acc_level pi_level : Q) (leaves : Q -> list rule) (est : rule -> Q * W) (S_star : list nat) (cond_s : rule) (w0 : W)
  : option (list (rule * Q * W)) :=
  observation_rules d N data ind acc_level (leaves pi_level) est (cond_regional S_star cond_s) pi_level w0.

(** ** Samples drawn from the rules *)
Section Sampling.
(** random generator and functions of [simulated_annealing] (AnnealModel),
    utils_cr.py 300-348 *)
Context {G : Type}.
(** [rand], [randint], [np.exp], [np.log], the temperature (utils_cr.py 300-348); the
    kind of explainer and its predictions (counterfactual_rules.py 125-130). *)
Variables (rand : G -> Q * G) (randint : nat -> G -> nat * G) (exp : Q -> Q) (lg : nat -> Q) (temp : Q)
  (classifier : bool) (predict : pt -> Q).

(** counterfactual_rules.py 6-7: [self.model = None] whatever is given. *)
Definition cr_model (given : option (pt -> Q)) : option (pt -> Q) := None.

(** the counterfactual of the largest probability, counterfactual_rules.py 118-120. *)
Definition best_rule (cs : list (rule * Q)) : option rule :=
  match argmax (map snd cs) with
  | Some b => option_map fst (nth_error cs b)
  | None => None
  end.

(** one sample to draw: observation, variables, rule, interval, state of the generator
    (counterfactual_rules.py 118-121). *)
Record task := mkTask { t_x : pt; t_S : list nat; t_cond : rule; t_down : Q; t_up : Q; t_g : G }.
(** one sample drawn: point, score, entry of [errs], entry of [errs_original]
    (counterfactual_rules.py 122-134). *)
Record draw := mkDraw { d_point : pt; d_score : Q; d_err : bool; d_orig : option bool }.

(** counterfactual_rules.py 125-130: the entry of [errs]. *)
Definition success (t : task) (a : pt) : bool :=
  if classifier then negb (qeqb (predict a) (predict (t_x t)))
  else qleb (t_down t) (predict a) && qleb (predict a) (t_up t).
(** counterfactual_rules.py 131-134. *)
Definition success_original (model : option (pt -> Q)) (t : task) (a : pt) : option bool :=
  match model with
  | Some f => Some (negb (qeqb (f a) (f (t_x t))))
  | None => None
  end.
(** counterfactual_rules.py 118-134: one call of [simulated_annealing] with its default
    convergence 10, then the entries; [None] is an exception. *)
Definition draw_one (score : pt -> Q) (model : option (pt -> Q)) (N : nat) (data : nat -> pt) (batch max_iter : nat)
  (t : task) : option draw :=
  match simulated_annealing rand randint exp lg temp true score (t_x t) (t_S t) N data (t_cond t) batch max_iter 10 (t_g t) with
  | Some (a, sc, _) => Some (mkDraw a sc (success t a) (success_original model t a))
  | None => None
  end.
(** counterfactual_rules.py 116-134: the loop; the first exception ends it. *)
Fixpoint draw_all (one : task -> option draw) (l : list task) : option (list draw) :=
  match l with
  | [] => Some []
  | t :: r => match one t with
              | None => None
              | Some a => option_map (cons a) (draw_all one r)
              end
  end.

(** counterfactual_rules.py 136-138, 241-243, 291-293: samples, accuracies and coverage;
    [None] in a field is a NaN.  Simplification: a coverage 0/0 is [None] whether Python
    raises (integers) or returns a NaN (numpy integers). *)
Record outcome := mkOutcome { o_draws : list draw; o_acc : option Q; o_acc_orig : option Q; o_cov : option Q }.
(** the entries of [errs_original], counterfactual_rules.py 131-134. *)
Definition originals (l : list draw) : list bool :=
  flat_map (fun a => match d_orig a with Some b => [b] | None => [] end) l.
(** [n / 0] is not a number, counterfactual_rules.py 138. *)
Definition ratio (a b : nat) : option Q := if b =? 0 then None else Some (Qn a / Qn b)%Q.
(** counterfactual_rules.py 136-138 and alike; [total] is the denominator. *)
Definition summary (total : nat) (l : list draw) : outcome :=
  mkOutcome l (mean (map (fun a => Qb (d_err a)) l)) (mean (map Qb (originals l))) (ratio (length l) total).

(** counterfactual_rules.py 116-121: the tasks of the local session, for the
    observations that have a counterfactual. *)
Definition local_tasks (n : nat) (x : nat -> pt) (S_star : nat -> list nat) (cs : nat -> list (rule * Q))
  (down up : nat -> Q) (gs : nat -> G) : list task :=
  flat_map (fun i => match best_rule (cs i) with
                     | Some c => [mkTask (x i) (S_star i) c (down i) (up i) (gs i)]
                     | None => []
                     end) (seq 0 n).
(** counterfactual_rules.py 99-138 ([run_sampling_local_counterfactuals]).  The isolation
    forest is fitted here; [score] is its decision function. *)
Definition sample_local (given : option (pt -> Q)) (score : pt -> Q) (N : nat) (data : nat -> pt) (batch max_iter : nat)
  (n : nat) (x : nat -> pt) (S_star : nat -> list nat) (cs : nat -> list (rule * Q)) (down up : nat -> Q) (gs : nat -> G)
  : option outcome :=
  option_map (summary n)
    (draw_all (draw_one score (cr_model given) N data batch max_iter) (local_tasks n x S_star cs down up gs)).

(** counterfactual_rules.py 219-220: test observations in a rule, closed bounds. *)
Definition in_tests (d : nat) (r : rule) (tests : list pt) : list pt := filter (in_rule (seq 0 d) r) tests.
(** counterfactual_rules.py 217-228: the tasks of the regional session; the state of the
    generator may differ at each draw. *)
Definition regional_tasks (d n max_obs : nat) (tests : list pt) (rules : nat -> rule) (S_star : nat -> list nat)
  (cs : nat -> list (rule * Q)) (down up : nat -> Q) (gs : nat -> nat -> G) : list task :=
  flat_map (fun i => match best_rule (cs i) with
                     | Some c => map (fun p => mkTask (snd p) (S_star i) c (down i) (up i) (gs i (fst p)))
                                     (combine (seq 0 (length tests)) (firstn max_obs (in_tests d (rules i) tests)))
                     | None => []
                     end) (seq 0 n).
(** counterfactual_rules.py 216, 221: the denominator [nb]. *)
Definition regional_nb (d n max_obs : nat) (tests : list pt) (rules : nat -> rule) (cs : nat -> list (rule * Q)) : nat :=
  fold_left (fun nb i => match cs i with
                         | [] => nb
                         | _ => nb + (let k := length (in_tests d (rules i) tests) in if k <=? max_obs then k else max_obs)
                         end) (seq 0 n) 0.
(** counterfactual_rules.py 207-243 ([run_sampling_regional_counterfactuals]).  [iso] is
    [self.isolation]: [None] before any local session, and then the first draw raises. *)
Definition sample_regional (given : option (pt -> Q)) (iso : option (pt -> Q)) (N : nat) (data : nat -> pt) (batch max_iter : nat)
  (d n max_obs : nat) (tests : list pt) (rules : nat -> rule) (S_star : nat -> list nat)
  (cs : nat -> list (rule * Q)) (down up : nat -> Q) (gs : nat -> nat -> G) : option outcome :=
  option_map (summary (regional_nb d n max_obs tests rules cs))
    (draw_all (match iso with
               | Some score => draw_one score (cr_model given) N data batch max_iter
               | None => fun _ => None
               end) (regional_tasks d n max_obs tests rules S_star cs down up gs)).

(** ** All test observations *)
(** counterfactual_rules.py 259-260: membership with an open lower bound. *)
Definition in_rule_open (d : nat) (r : rule) (x : pt) : bool :=
  forallb (fun s => qleb (x s) (hi r s) && qltb (lo r s) (x s)) (seq 0 d).
(** [np.max], counterfactual_rules.py 262. *)
Definition max_prob (cs : list (rule * Q)) : Q :=
  match argmax (map snd cs) with Some b => match nth_error cs b with Some c => snd c | None => 0%Q end | None => 0%Q end.
(** counterfactual_rules.py 258-265: [x_test_pb[i]] at one test observation. *)
Definition test_pb (d : nat) (rules : nat -> rule) (cs : nat -> list (rule * Q)) (x : pt) (i : nat) : Q :=
  match cs i with [] => 0%Q | _ => (max_prob (cs i) * Qb (in_rule_open d (rules i) x))%Q end.
(** counterfactual_rules.py 268: the rule chosen for a test observation. *)
Definition chosen (d n : nat) (rules : nat -> rule) (cs : nat -> list (rule * Q)) (x : pt) : option nat :=
  argmax (map (test_pb d rules cs x) (seq 0 n)).
(** counterfactual_rules.py 274-277: the rule is indexed once more with [0], so that the
    first bounds (a row of two numbers) are given to [simulated_annealing], where
    [cond[i, 0]] raises for the first variable (utils_cr.py 286). *)
Definition draw_row (score : pt -> Q) (model : option (pt -> Q)) (N : nat) (data : nat -> pt) (batch max_iter : nat)
  (t : task) : option draw :=
  match t_S t with [] => draw_one score model N data batch max_iter t | _ => None end.
(** counterfactual_rules.py 270-289: one test observation; [Some None]: no counterfactual;
    for regression the interval is read at the index of the observation, among [n] rules. *)
Definition alltest_one (one : task -> option draw) (d n : nat) (rules : nat -> rule) (S_star : nat -> list nat)
  (cs : nat -> list (rule * Q)) (down up : nat -> Q) (gs : nat -> G) (k : nat) (x : pt) : option (option draw) :=
  match chosen d n rules cs x with
  | None => None
  | Some b => match best_rule (cs b) with
              | None => Some None
              | Some c => if negb classifier && (n <=? k) then None
                          else option_map Some (one (mkTask x (S_star b) c (down k) (up k) (gs k)))
              end
  end.
(** counterfactual_rules.py 270-289: the loop over the test observations. *)
Fixpoint alltest_all (f : nat -> pt -> option (option draw)) (k : nat) (tests : list pt) : option (list draw) :=
  match tests with
  | [] => Some []
  | x :: r => match f k x with
              | None => None
              | Some o => option_map (fun l => match o with Some a => a :: l | None => l end) (alltest_all f (S k) r)
              end
  end.
(** counterfactual_rules.py 245-293 ([run_sampling_regional_counterfactuals_alltests]);
    with no rule, [np.argmax] of an array without rows raises. *)
Definition sample_alltests (given : option (pt -> Q)) (iso : option (pt -> Q)) (N : nat) (data : nat -> pt) (batch max_iter : nat)
  (d n : nat) (tests : list pt) (rules : nat -> rule) (S_star : nat -> list nat)
  (cs : nat -> list (rule * Q)) (down up : nat -> Q) (gs : nat -> G) : option outcome :=
  if n =? 0 then None
  else option_map (summary (length tests))
    (alltest_all (alltest_one (match iso with
                               | Some score => draw_row score (cr_model given) N data batch max_iter
                               | None => fun _ => None
                               end) d n rules S_star cs down up gs) 0 tests).
End Sampling.

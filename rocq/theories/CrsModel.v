(** Model of the sessions of counterfactual_rules.py (class [CR]) on an [ACXplainer]: the divergent sets of the observations or of
    the rules, their weights, and the counterfactual rules, from the fitted forest of skranger.  The parts are those of AgnModel.v
    (methods of the explainer), AxsModel.v (searches), AnnealModel.v (enlarged leaves), RulesModel.v and CrModel.v (rules kept).
    Exact arithmetic.  No proofs here. *)
From Verif Require Import Base SkModel RfModel RulesModel AnnealModel SearchModel ApiModel AgnModel AxsModel.
From Verif Require MaxModel ImpModel CrModel.
Local Open Scope nat_scope.

(** [min_node_size=5], the default of all methods of the explainer that are called (acv_agnosticX.py 279, 582, 682, 729, 999, 1595, 1704). *)
Definition node_size : nat := 5.
(** counterfactual_rules.py 44-49, 66-71, 153-156: an argument that is not given is an array of zeros. *)
Definition given (n : nat) (o : option (list Q)) : list Q := match o with Some l => l | None => repeat 0%Q n end.
(** What a method of the explainer gives (counterfactual_rules.py 59-61); the constructor of its object may raise. *)
Definition of_call (o : option (outcome ApiModel.result)) : ending ApiModel.result :=
  match o with Some (Returned r) => Gives r | Some (Raised _) => Raises | None => Raises | Some Stray => Strays end.
(** The pair of probabilities and weights that is unpacked (counterfactual_rules.py 59, utils_cr.py 131). *)
Definition both (r : ApiModel.result) : ending (list Q * list (nat -> Q)) :=
  match r_weights r with Some ws => Gives (r_sdp r, ws) | None => Raises end.
(** A loop that calls [f] (utils_cr.py 119-131, 177): the first exception ends it. *)
Fixpoint all_give {A B} (f : A -> ending B) (l : list A) : ending (list B) :=
  match l with [] => Gives [] | a :: r => next (f a) (fun b => next (all_give f r) (fun bs => Gives (b :: bs))) end.
(** What was given, for a call that has returned (utils_cr.py 131); the other cases are not used. *)
Definition value_of (e : ending (Q * (nat -> Q))) : Q * (nat -> Q) := match e with Gives v => v | _ => (0%Q, fun _ => 0%Q) end.

(** The parameters of the annealing, counterfactual_rules.py 64-65. *)
Record annealing := mkAnnealing { h_p_best : Q; h_n_try : nat; h_batch : nat; h_max_iter : nat; h_temp : Q; h_conv : nat }.
(** The defaults of [return_global_counterfactuals_reg], utils_cr.py 514-515. *)
Definition annealing0 : annealing := mkAnnealing (85 # 100) 100 100 100 1 100.

(** What [run_local_divergent_set] and [run_regional_divergent_set] store (counterfactual_rules.py 52-61, 160-180): the divergent set of
    each observation, the other columns, the probabilities and the weights of the training rows.  Not modelled: the importances and
    sizes, which are not read again. *)
Record divergent := mkDiv { v_star : list (list nat); v_bar : list (list nat); v_ddp : list Q; v_w : list (nat -> Q) }.
(** utils.py 820-827 ([get_active_null_coalition_list]) on the arrays of the search, as in counterfactual_rules.py 56-57, 170-171.
    Simplification: columns are natural numbers (no index that is taken is negative). *)
Definition split_sets (d : nat) (e : ImpModel.answer) : list (list nat * list nat) :=
  map (fun i => let p := active_null d (nth i (ImpModel.e_index e) []) (nth i (ImpModel.e_size e) 0) in
                (map Z.to_nat (fst p), map Z.to_nat (snd p))) (seq 0 (length (ImpModel.e_index e))).

Section Session.
(** random generator and functions of the annealing (AnnealModel.v), utils_cr.py 722-759 *)
Context {G : Type}.
(** [rand], [randint], [np.exp], [np.log] (utils_cr.py 722-759). *)
Variables (rand : G -> Q * G) (randint : nat -> G -> nat * G) (exp : Q -> Q) (lg : nat -> Q).
(** The fitted forest with [d] columns, what lies around its arrays, its quantiles, [np.argsort] of the opposite importances
    (see AxsModel.v, acv_agnosticX.py 1047-1073), [np.argsort] (utils_cr.py 42), the training rows (counterfactual_rules.py 10-13). *)
Variables (d : nat) (es : list sk) (stray : RfModel.row) (classifier : bool) (quantiles : pt -> Q * Q) (by_importance : list nat)
  (argsort : list Q -> list nat) (D : list pt) (Y : list Q).

(** counterfactual_rules.py 43-61 ([run_local_divergent_set]); [sched] and [sched_w] are the orders of the workers. *)
Definition run_local_divergent_set (sched : list nat -> list nat -> list nat) (sched_w : list nat) (X : list pt) (y down up : option (list Q))
  (t : targ) (stop : bool) (pi : Q) : ending divergent :=
  let a S := mkArgs X (given (length X) y) (given (length X) down) (given (length X) up) (S_rows S) [] in
  next (acx_importance d es stray classifier quantiles by_importance sched by_cdp (a []) D Y node_size t [[]] pi 1 stop) (fun e =>
  let sets := split_sets d e in
  next (of_call (explain d es stray classifier quantiles cdp_weights (a (map snd sets)) D Y node_size T_none sched_w)) (fun res =>
  next (both res) (fun p => Gives (mkDiv (map fst sets) (map snd sets) (fst p) (snd p))))).
(** counterfactual_rules.py 151-180 ([run_regional_divergent_set]), with the rules and observations that [run_sufficient_rules] has stored
    (140-149). *)
Definition run_regional_divergent_set (sched : list nat -> list nat -> list nat) (sched_w : list nat) (X : list pt) (rules : list rule)
  (y : option (list Q)) (down_up : option (list (list Q))) (stop : bool) (pi : Q) : ending divergent :=
  let a S := mkArgs X (given (length X) y) [] [] (S_rows S) rules in
  let t := T_matrix (match down_up with Some l => l | None => repeat [0%Q; 0%Q] (length X) end) in
  next (acx_importance d es stray classifier quantiles by_importance sched by_cdp_intv (a []) D Y node_size t [[]] pi 1 stop) (fun e =>
  let sets := split_sets d e in
  next (of_call (explain d es stray classifier quantiles cdp_intv (a (map snd sets)) D Y node_size t sched_w)) (fun res =>
  next (both res) (fun p => Gives (mkDiv (map fst sets) (map snd sets) (fst p) (snd p))))).

(** utils_cr.py 16 ([y_train[i] == y_target]) and 369 ([down <= y_train[i] <= up]): the target is reached. *)
Definition aims (yt down up v : Q) : bool := if classifier then qeqb v yt else qleb down v && qleb v up.

(** utils_cr.py 8-55 and 361-417 ([return_xy_cnt], [return_leaf_cnt] and their regression twins): the rules of the training rows with the
    target, enlarged.  Simplification: in classification all targets handed over are [y_target] itself, also those read from the
    table (utils_cr.py 21), which are equal numbers. *)
Definition target_leaves (yt down up : Q) (w : nat -> Q) (pi : Q) (h : annealing) (sched : nat -> list nat) (gs : nat -> G) : ending (list rule) :=
  let ids := return_xy_cnt (length D) w (fun i => aims yt down up (vals_of Y i)) in
  let n := length ids in
  let a := mkArgs (map (rows_of D) ids) (if classifier then repeat yt n else map (vals_of Y) ids) (repeat down n) (repeat up n)
                  (S_rows (repeat (seq 0 d) n)) [] in
  next (of_call (explain d es stray classifier quantiles (if classifier then sdp_rule else cdp_rule) a D Y node_size T_none (sched n))) (fun res =>
  match r_rules res with
  | None => Raises
  | Some ps =>
      match return_leaf_cnt rand randint exp lg (h_temp h) (volume_rectangle d (MaxModel.col_max (rows_of D) (length D)) (MaxModel.col_min (rows_of D) (length D)))
              d n (fun i => nth i ps rule0) (fun i => nth i (r_sdp res) 0%Q) pi (argsort (map Qopp (r_sdp res))) (length D) (rows_of D)
              (h_p_best h) (h_n_try h) (h_batch h) (h_max_iter h) (h_conv h) gs with
      | None => Raises
      | Some l => Gives l
      end
  end).
(** utils_cr.py 131-134 and 480-482, 211-212, 558: probability and weights of one rule; the target and the interval have one
    entry.  For the regional rules [S=[[-6]]]: no split has the column -6, so the set is empty here. *)
Definition estimate (x : pt) (yt down up : Q) (Sb : list nat) (sched : list nat) (c : rule) : ending (Q * (nat -> Q)) :=
  next (of_call (explain d es stray classifier quantiles cdp_cond (mkArgs [x] [yt] [down] [up] (S_rows [Sb]) [c]) D Y node_size T_none sched)) (fun res =>
  match r_sdp res, r_weights res with p :: _, Some (w :: _) => Gives (p, w) | _, _ => Raises end).
(** utils_cr.py 177-196, 249-268, 527-544, 595-617: one observation; [mk] makes the rule from a leaf. *)
Definition counterfactual_rules (mk : rule -> rule) (x : pt) (yt down up : Q) (Sb : list nat) (w : nat -> Q) (acc pi : Q) (h : annealing)
  (sched_l : nat -> list nat) (sched_c : list nat) (gs : nat -> G) : ending (list (rule * Q * (nat -> Q))) :=
  let ind i := aims yt down up (vals_of Y i) in
  next (target_leaves yt down up w pi h sched_l gs) (fun leaves =>
  match get_compatible_leaf d (length D) (rows_of D) ind acc leaves with
  | None => Raises
  | Some suf =>
      next (all_give (estimate x yt down up Sb sched_c) (map mk suf)) (fun _ =>
      match CrModel.observation_rules d (length D) (rows_of D) ind acc leaves (fun c => value_of (estimate x yt down up Sb sched_c c)) mk pi (fun _ => 0%Q) with
      | None => Raises
      | Some l => Gives l
      end)
  end).

(** counterfactual_rules.py 63-97 ([run_local_counterfactual_rules]) after [run_local_divergent_set]; a missing entry is an
    IndexError.  In regression the level is [acc_level] and the annealing has its defaults (86-97). *)
Definition run_local_counterfactual_rules (st : divergent) (X : list pt) (y down up : option (list Q)) (acc pi : Q) (h : annealing)
  (sched_l : nat -> list nat) (sched_c : list nat) (gs : nat -> nat -> G) : ending (list (list (rule * Q * (nat -> Q)))) :=
  let n := length X in
  let bound l i := if classifier then Some 0%Q else nth_error (given n l) i in
  all_give (fun i =>
    match nth_error (given n y) i, bound down i, bound up i, nth_error (v_star st) i, nth_error (v_bar st) i, nth_error (v_w st) i with
    | Some yt, Some dn, Some u, Some Sv, Some Sb, Some w =>
        counterfactual_rules (cond_local Sv Sb (rows_of X i)) (rows_of X i) yt dn u Sb w acc (CrModel.local_level classifier acc pi)
          (if classifier then h else annealing0) sched_l sched_c (gs i)
    | _, _, _, _, _, _ => Raises
    end) (seq 0 n).
(** counterfactual_rules.py 182-205 ([run_regional_counterfactual_rules]) after [run_regional_divergent_set]. *)
Definition run_regional_counterfactual_rules (st : divergent) (X : list pt) (rules : list rule) (y : option (list Q)) (down_up : option (list (list Q)))
  (acc pi : Q) (h : annealing) (sched_l : nat -> list nat) (sched_c : list nat) (gs : nat -> nat -> G) : ending (list (list (rule * Q * (nat -> Q)))) :=
  let n := length X in
  let du := match down_up with Some l => l | None => repeat [0%Q; 0%Q] n end in
  let bound k i := if classifier then Some 0%Q else match nth_error du i with Some r => nth_error r k | None => None end in
  all_give (fun i =>
    match nth_error (given n y) i, bound 0 i, bound 1 i, nth_error (v_star st) i, nth_error (v_w st) i, nth_error rules i with
    | Some yt, Some dn, Some u, Some Sv, Some w, Some r =>
        counterfactual_rules (cond_regional Sv r) (rows_of X i) yt dn u [] w acc pi h sched_l sched_c (gs i)
    | _, _, _, _, _, _ => Raises
    end) (seq 0 n).
End Session.

(** Model of [run_sufficient_rules] of counterfactual_rules.py (class [CR]): the sufficient explanations of the observations and the maximal
    rules for them, from the fitted forest of skranger.  The parts are those of AxsModel.v (search), ApiModel.v (compiled tables of
    [compute_sdp_maxrules]), AnnealModel.v and RulesModel.v (the two ways to enlarge a rule).  Exact arithmetic.  No proofs here. *)
From Verif Require Import Base SkModel RfModel RulesModel AnnealModel SearchModel ApiModel AgnModel AxsModel CrsModel.
From Verif Require MaxModel ImpModel.
Local Open Scope nat_scope.

(** What [run_sufficient_rules] stores and the other methods read (counterfactual_rules.py 144-149): the explanations, the other columns, the
    probabilities, the rules, the probabilities and rules of the training rows, the weights. *)
Record sufficient := mkSufficient { u_star : list (list nat); u_bar : list (list nat); u_sdp : list Q; u_rules : list rule;
  u_sdp_all : list (nat -> Q); u_rules_data : list (nat -> rule); u_w : list (nat -> Q) }.

Section Sufficient.
(** random generator and functions of the annealing (AnnealModel.v), utils.py 2126-2156 *)
Context {G : Type}.
(** [rand], [randint], [np.exp], [np.log] (utils.py 2126-2156). *)
Variables (rand : G -> Q * G) (randint : nat -> G -> nat * G) (exp : Q -> Q) (lg : nat -> Q).
(** The fitted forest with [d] columns, what lies around its arrays, its quantiles, [np.argsort] of the opposite importances
    (acv_agnosticX.py 903-905), the training rows (counterfactual_rules.py 10-13). *)
Variables (d : nat) (es : list sk) (stray : RfModel.row) (classifier : bool) (quantiles : pt -> Q * Q) (by_importance : list nat)
  (D : list pt) (Y : list Q).

(** acv_agnosticX.py 369-401: the arguments are checked, the object is built, the compiled routine (the verbose one, which has the same
    text) converts [t] and fills its tables; [scheds] are the orders of the inner loops.  A short row of [t] is read outside. *)
Definition maxrule_tables (X : list pt) (y : list Q) (Ss : list (list nat)) (t : targ) (scheds : nat -> list nat) : ending mst :=
  if negb (checked X y && checked D Y) then Raises
  else if negb (length Ss =? length X) then Raises
  else match build d es with
       | None => Raises
       | Some o =>
           match convert Matrix (acx_levels classifier quantiles X t) with
           | Returned lv =>
               match all_some (map (row_args classifier sdp_rule (mkArgs X y [] [] (S_rows Ss) []) (S_rows Ss) lv) (seq 0 (length X))) with
               | None => Strays
               | Some l => Gives (max_tables (dense (n_trees o) stray) (n_depth o) (rows_of D) (vals_of Y) (length D) node_size classifier l scheds)
               end
           | _ => Raises
           end
       end.
(** acv_agnosticX.py 403-421, utils.py 2159-2175: every rule is enlarged, by annealing or, with [algo2], by unions of rules; [gs] are the states
    of the generator at the start of each rule. *)
Definition enlarge (algo2 : bool) (Ss : list (list nat)) (tb : mst) (pi : Q) (h : annealing) (gs : nat -> G) (i : nat) : ending rule :=
  match (if algo2 then extend_partition (b_part (m_own tb)) (m_part tb) (m_sdp tb) (length D) pi (fun k => nth k Ss []) i
         else option_map (fun p => fst (fst p))
                (rules_by_annealing rand randint exp lg (h_temp h)
                   (volume_rectangle d (MaxModel.col_max (rows_of D) (length D)) (MaxModel.col_min (rows_of D) (length D)))
                   (b_part (m_own tb) i) (m_part tb i) (m_sdp tb i) pi d (length D) (rows_of D)
                   (h_p_best h) (h_n_try h) (h_batch h) (h_max_iter h) (h_conv h) (gs i))) with
  | Some r => Gives r
  | None => Raises
  end.
(** counterfactual_rules.py 132-149 ([run_sufficient_rules]). *)
Definition run_sufficient_rules (sched : list nat -> list nat -> list nat) (scheds : nat -> list nat) (X : list pt) (y : list Q) (t : targ) (pi : Q)
  (algo2 : bool) (h : annealing) (gs : nat -> G) : ending sufficient :=
  next (acx_importance d es stray classifier quantiles by_importance sched by_sdp (mkArgs X y [] [] (S_rows []) []) D Y node_size t [[]] pi 1 false) (fun e =>
  let sets := split_sets d e in let n := seq 0 (length X) in
  next (maxrule_tables X y (map fst sets) t scheds) (fun tb =>
  next (all_give (enlarge algo2 (map fst sets) tb pi h gs) n) (fun rs =>
  Gives (mkSufficient (map fst sets) (map snd sets) (map (b_sdp (m_own tb)) n) rs (map (m_sdp tb) n) (map (m_part tb) n) (map (b_w (m_own tb)) n))))).
End Sufficient.

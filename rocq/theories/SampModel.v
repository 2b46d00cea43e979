(** Model of the sampling methods of the class [CR] (counterfactual_rules.py) after the sessions of CrsModel.v: from what the session has stored to the
    samples, their successes and the coverage.  The draws are those of CrModel.v.  Exact arithmetic.  No proofs here. *)
From Verif Require Import Base RfModel ApiModel AxsModel CrsModel.
From Verif Require CrModel.
Local Open Scope nat_scope.

Section Samples.
(** random generator and functions of [simulated_annealing] (AnnealModel.v), utils_cr.py 300-348 *)
Context {G : Type}.
(** [rand], [randint], [np.exp], [np.log], the temperature (utils_cr.py 300-348); kind and predictions of the explainer (counterfactual_rules.py
    125-130); the model given to the constructor (3-6); the training rows (10). *)
Variables (rand : G -> Q * G) (randint : nat -> G -> nat * G) (exp : Q -> Q) (lg : nat -> Q) (temp : Q) (classifier : bool) (predict : pt -> Q)
  (model : option (pt -> Q)) (D : list pt).

(** The rules and probabilities stored for observation [i] (counterfactual_rules.py 117-120, 218, 225-226); the weights are not read. *)
Definition stored (outs : list (list (rule * Q * (nat -> Q)))) (i : nat) : list (rule * Q) := map fst (nth i outs []).
(** [down[i]], [up[i]] are read for regression only (counterfactual_rules.py 125-130, 232-237). *)
Definition bounds_read (l : list Q) (i : nat) : bool := classifier || (i <? length l).
(** An exception of the draws (counterfactual_rules.py 118-121). *)
Definition drawn_or_raises (o : option CrModel.outcome) : ending CrModel.outcome := match o with Some r => Gives r | None => Raises end.

(** counterfactual_rules.py 99-138 ([run_sampling_local_counterfactuals]) on the observations [X], after [run_local_divergent_set] (the sets [star])
    and [run_local_counterfactual_rules] (the rules [outs]).  [score] is the decision function of the isolation forest fitted at 108-110.  The target is
    not read.  An index beyond the end of an array that is read is an IndexError; with no observation the coverage divides by zero. *)
Definition run_sampling_local (star : list (list nat)) (outs : list (list (rule * Q * (nat -> Q)))) (score : pt -> Q) (X : list pt)
  (down up : option (list Q)) (batch max_iter : nat) (gs : nat -> G) : ending CrModel.outcome :=
  let n := length X in
  let dn := given n down in let u := given n up in
  let readable i := (i <? length outs) &&
    match nth i outs [] with [] => true | _ => (i <? length star) && bounds_read dn i && bounds_read u i end in
  if n =? 0 then Raises
  else if negb (forallb readable (seq 0 n)) then Raises
  else drawn_or_raises (CrModel.sample_local rand randint exp lg temp classifier predict model score (length D) (rows_of D) batch max_iter
         n (rows_of X) (fun i => nth i star []) (stored outs) (fun i => nth i dn 0%Q) (fun i => nth i u 0%Q) gs).

(** counterfactual_rules.py 207-243 ([run_sampling_regional_counterfactuals]) with [n] observations [self.x_rules], after
    [run_regional_divergent_set] (the sets [star] and the intervals of two columns) and [run_regional_counterfactual_rules].  [iso] is [self.isolation]
    (see CrModel.v).  If no rule has a counterfactual, the count [nb] is still the integer 0 of line 216 and the division raises; otherwise it is an
    integer of numpy and 0/0 is a NaN.  Simplification: [max_obs] is positive; [d] is the number of columns of the training rows (219-220). *)
Definition run_sampling_regional (d : nat) (star : list (list nat)) (rules : list rule) (outs : list (list (rule * Q * (nat -> Q)))) (iso : option (pt -> Q))
  (n : nat) (tests : list pt) (down_up : option (list (list Q))) (max_obs batch max_iter : nat) (gs : nat -> nat -> G) : ending CrModel.outcome :=
  let du := match down_up with Some l => l | None => repeat [0%Q; 0%Q] n end in
  let dn := map (fun r => nth 0 r 0%Q) du in let u := map (fun r => nth 1 r 0%Q) du in
  let readable i := (i <? length outs) &&
    match nth i outs [] with
    | [] => true
    | _ => (i <? length rules) &&
           match CrModel.in_tests d (nth i rules rule0) tests with [] => true | _ => (i <? length star) && bounds_read dn i && bounds_read u i end
    end in
  if negb (forallb readable (seq 0 n)) then Raises
  else if forallb (fun i => match nth i outs [] with [] => true | _ => false end) (seq 0 n) then Raises
  else drawn_or_raises (CrModel.sample_regional rand randint exp lg temp classifier predict model iso (length D) (rows_of D) batch max_iter d n max_obs tests
         (fun i => nth i rules rule0) (fun i => nth i star []) (stored outs) (fun i => nth i dn 0%Q) (fun i => nth i u 0%Q) gs).
End Samples.

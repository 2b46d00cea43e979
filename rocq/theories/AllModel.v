(** Model of [run_sampling_regional_counterfactuals_alltests] (counterfactual_rules.py 244-293) after the regional session of CrsModel.v.  The draws are
    those of CrModel.v.  Exact arithmetic.  No proofs here. *)
From Verif Require Import Base RfModel ApiModel AxsModel CrsModel SampModel.
From Verif Require CrModel.
Local Open Scope nat_scope.

(** counterfactual_rules.py 244-293 with [n] observations [self.x_rules], after [run_regional_divergent_set] (the sets [star], the intervals) and
    [run_regional_counterfactual_rules] (the rules [outs]); [iso] is [self.isolation] (see CrModel.v).  A missing entry is an IndexError (259-262, 274); without test
    observations the coverage divides by zero (293).  Simplification: a missing
    set raises even when it is that of a rule never chosen. *)
Definition run_sampling_alltests {G : Type} (rand : G -> Q * G) (randint : nat -> G -> nat * G) (exp : Q -> Q) (lg : nat -> Q) (temp : Q) (classifier : bool)
  (predict : pt -> Q) (model : option (pt -> Q)) (D : list pt) (d : nat) (star : list (list nat)) (rules : list rule) (outs : list (list (rule * Q * (nat -> Q))))
  (iso : option (pt -> Q)) (n : nat) (tests : list pt) (down_up : option (list (list Q))) (batch max_iter : nat) (gs : nat -> G) : ending CrModel.outcome :=
  let du := match down_up with Some l => l | None => repeat [0%Q; 0%Q] n end in
  let dn := map (fun r => nth 0 r 0%Q) du in let u := map (fun r => nth 1 r 0%Q) du in
  if negb ((n <=? length outs) && (n <=? length rules) && (n <=? length star)) then Raises
  else match tests with
       | [] => Raises
       | _ => drawn_or_raises (CrModel.sample_alltests rand randint exp lg temp classifier predict model iso (length D) (rows_of D) batch max_iter d n tests
                (fun i => nth i rules rule0) (fun i => nth i star []) (stored outs) (fun i => nth i dn 0%Q) (fun i => nth i u 0%Q) gs)
       end.

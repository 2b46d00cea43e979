(** Model of the maximal rules of the agnostic explainer: acv_agnosticX.py 328-423
    with cyext_acv.pyx 5325-5405.  The work of one observation is a function of that
    observation alone, so the loop over [X] is not modelled; the loop over the training
    samples is run by parallel workers, each writing its own cells. *)
From Verif Require Import Base RfModel RulesModel AnnealModel.

(** [np.max(x_train[:, k])], utils.py 2123; [N] rows, the first one is always read. *)
Definition col_max (data : nat -> pt) (N k : nat) : Q :=
  fold_left (fun a i => if qltb a (data i k) then data i k else a) (seq 1 (N - 1)) (data 0 k).
(** [np.min(x_train[:, k])], utils.py 2124. *)
Definition col_min (data : nat -> pt) (N k : nat) : Q :=
  fold_left (fun a i => if qltb (data i k) a then data i k else a) (seq 1 (N - 1)) (data 0 k).

Section Max.
Variable M : fmem.
Variable data : nat -> pt.
Variable y : nat -> Q.
Variable N : nat.
Variables (depth m : nat) (classifier : bool) (t0 t1 : Q).
Variables (Sv : list nat) (x : pt) (yx : Q).

(** cyext_acv.pyx 5348-5350: probability, rule and weights of the observation. *)
Definition max_own : Q * rule * (nat -> Q) :=
  compute_sdp_rule_weights M data y N depth m classifier t0 t1 Sv x yx.
(** cyext_acv.pyx 5352-5356: the probability and rule of training sample [j], with the
    target and the interval of the observation; the buffers of 5331-5334 and 5341 are
    left as they are for the samples without weight. *)
Definition max_row (j : nat) : Q * rule :=
  if negb (qeqb (snd max_own j) 0)
  then fst (compute_sdp_rule_weights M data y N depth m classifier t0 t1 Sv (data j) yx)
  else (0%Q, rule0).

(** acv_agnosticX.py 400-406: [algo2=False]; [d] variables, the rule, its volume and
    the rules evaluated (the last is not in the code). *)
Definition max_rule_annealing {G} (rand : G -> Q * G) randint exp lg temp (pi : Q) (d : nat) (p_best : Q)
  (n_try batch max_iter conv : nat) (g : G) : option (rule * Q * list rule) :=
  rules_by_annealing rand randint exp lg temp (volume_rectangle d (col_max data N) (col_min data N))
    (snd (fst max_own)) (fun j => snd (max_row j)) (fun j => fst (max_row j)) pi d N data p_best n_try batch max_iter conv g.
(** acv_agnosticX.py 420-421: [algo2=True]; one observation, so the tables have one row. *)
Definition max_rule_extend (pi : Q) : option rule :=
  extend_partition (fun _ => snd (fst max_own)) (fun _ j => snd (max_row j)) (fun _ j => fst (max_row j)) N pi (fun _ => Sv) 0.
End Max.

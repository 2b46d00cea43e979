(** Vocabulary for the entry points of the projected forest: complete executions of a
    parallel loop, and the answer due to one observation.  Nothing here mirrors code. *)
From Verif Require Import Base TreeModel RfModel RfSpec MaxModel ApiModel.

(** every iteration below [n] gets exactly [steps] steps, in any order *)
Definition complete (steps n : nat) (sched : list nat) : Prop :=
  (forall i, In i sched -> i < n) /\ forall i, i < n -> count_occ Nat.eq_dec sched i = steps.

(** the routines that have a conditional box, an interval, a single set *)
Definition boxed (r : routine) : Prop := In r [ddp_cond; cdp_cond; ddp_intv; cdp_intv; ddp_intv_same; cdp_intv_same].
Definition bracketed (r : routine) : Prop := In r [cdp_rf; cdp_rule; cdp_weights; cdp_cond; cdp_same].
Definition ruled (r : routine) : Prop := In r [sdp_rule; ddp_rule; cdp_rule; sdp_rule_v0].
Definition weighted (r : routine) : Prop := In r [ddp_weights; cdp_weights; ddp_cond; cdp_cond; ddp_intv; cdp_intv].
(** the routines behind the methods of [ACXplainer] that take one set per observation *)
Definition acx_routine (r : routine) : Prop :=
  In r [sdp_rf; ddp_rf; cdp_rf; exp_rf; sdp_rule; ddp_rule; cdp_rule; ddp_weights; cdp_weights; ddp_cond; cdp_cond; ddp_intv; cdp_intv].

(** probability, rule and weights due to one observation, by the estimators of RfModel *)
Definition due (M : fmem) (data : nat -> pt) (y : nat -> Q) (N depth m : nat) (classifier : bool) (r : routine)
  (x : pt) (yx down up : Q) (Sv : list nat) (box : rule) (t0 t1 : Q) : Q * rule * (nat -> Q) :=
  let plain q := (q, rule0, fun _ : nat => 0%Q) in
  match r with
  | sdp_rf | sdp_same => plain (compute_sdp_rf M data y N depth m classifier t0 t1 Sv x yx)
  | ddp_rf | ddp_same => plain (compute_ddp_rf M data y N depth m classifier t0 t1 Sv x yx)
  | cdp_rf | cdp_same => plain (compute_cdp_rf M data y N depth m classifier Sv x yx down up)
  | exp_rf => plain (compute_exp_rf M data y N depth m Sv x)
  | cdf_rf => plain (compute_cdf_rf M data y N depth m Sv x t1)
  | sdp_rf_v0 => plain (compute_sdp_rf_v0 M data y N depth m classifier t1 Sv x yx)
  | sdp_rule => compute_sdp_rule_weights M data y N depth m classifier t0 t1 Sv x yx
  | ddp_rule | ddp_weights => compute_ddp_rule_weights M data y N depth m classifier t0 t1 Sv x yx
  | cdp_rule | cdp_weights => compute_cdp_rule_weights M data y N depth m classifier Sv x yx down up
  | sdp_rule_v0 => compute_sdp_rule_v0_weights M data y N depth m classifier t1 Sv x yx
  | ddp_cond => compute_ddp_cond_weights M data y N depth m classifier t0 t1 Sv x yx box
  | cdp_cond => compute_cdp_cond_weights M data y N depth m classifier Sv x yx box down up
  | ddp_intv | ddp_intv_same => compute_ddp_intv_weights M data y N depth m classifier t0 t1 Sv yx box
  | cdp_intv | cdp_intv_same => compute_cdp_intv_weights M data y N depth m classifier t0 t1 Sv yx box
  end.

(** a result with [n] rows, row [i] being [v i]; rules and weights are returned by the
    routines that have them, and by no other *)
Definition row_by_row (r : routine) (res : result) (n : nat) (v : nat -> Q * rule * (nat -> Q)) : Prop :=
  r_sdp res = map (fun i => fst (fst (v i))) (seq 0 n) /\
  (ruled r -> r_rules res = Some (map (fun i => snd (fst (v i))) (seq 0 n))) /\
  (~ ruled r -> r_rules res = None) /\
  (weighted r -> r_weights res = Some (map (fun i => snd (v i)) (seq 0 n))) /\
  (~ weighted r -> r_weights res = None).

(** tables and targets of the same, non-zero, length *)
Definition table (X : list pt) (Y : list Q) : Prop := length X = length Y /\ X <> [].
(** the arguments of the methods with one set per observation, as documented: an entry per
    observation wherever the routine looks *)
Definition documented (r : routine) (a : args) (l : list (list nat)) : Prop :=
  g_S a = S_rows l /\ length l = length (g_X a) /\
  (bracketed r -> length (g_down a) = length (g_X a) /\ length (g_up a) = length (g_X a)) /\
  (boxed r -> length (g_cond a) = length (g_X a)).

(** the levels of each observation: none in classification, the quantiles of its own
    prediction by default, the given ones otherwise *)
Definition own_levels (classifier : bool) (quantiles : pt -> Q * Q) (X : list pt) (t : targ) (lev : nat -> Q * Q) : Prop :=
  classifier = true \/
  (t = T_none /\ forall i, i < length X -> lev i = quantiles (nth i X (fun _ => 0%Q))) \/
  (exists l, t = T_matrix l /\ length X <= length l /\
     forall i, i < length X -> exists rest, nth i l [] = fst (lev i) :: snd (lev i) :: rest).

(** two batches one after the other, for the methods with one set per observation *)
Definition joined (a b : args) : args :=
  mkArgs (g_X a ++ g_X b) (g_y a ++ g_y b) (g_down a ++ g_down b) (g_up a ++ g_up b)
    (match g_S a, g_S b with S_rows l, S_rows k => S_rows (l ++ k) | s, _ => s end) (g_cond a ++ g_cond b).
(** two results one after the other *)
Definition stacked {A} (u v : option (list A)) : option (list A) :=
  match u, v with Some l, Some k => Some (l ++ k) | _, _ => None end.

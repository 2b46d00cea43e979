(** Model of the entry points of the projected forest: the compiled loops over the
    observations (cyext_acv.pyx), run by parallel workers, and the methods of
    [ACXplainer], [ACVTree] and [ACVTreeAgnostic] that check the arguments and call
    them.  The estimator of one observation is the one of RfModel.v.  No proofs here. *)
From Verif Require Import Base TreeModel RfModel.

(** ** What a call gives *)

(** TypeError and ValueError, as raised by sklearn's [check_X_y] (acv_agnosticX.py 258-265)
    or by the conversions in front of a compiled routine (cyext_acv.pyx 5879-5881). *)
Inductive exn := EType | EValue.
(** [Stray]: a compiled loop reads outside the arrays it was given; the checks are
    switched off (cyext_acv.pyx 5799-5802), so anything can follow. *)
Inductive outcome (A : Type) := Returned (a : A) | Raised (e : exn) | Stray.
Arguments Returned {A}. Arguments Raised {A}. Arguments Stray {A}.

(** ** The parallel loops *)

(** The work of one iteration: the traversal, the quantity averaged, and whether the
    routine has a rule and weights to fill (cyext_acv.pyx 5803-5805 has neither,
    5134-5136 a rule, 5239-5242 both). *)
Record work := mkWork { w_step : row -> Z -> rfst -> rfst; w_ind : nat -> Q; w_rule : bool; w_weights : bool }.

(** State of a loop.  Shared arrays: [partition_byobs], [weights], [sdp] (cyext_acv.pyx
    5601-5607); for every iteration, the number of trees done and the local variable
    [sdp] of the estimator (5139-5142). *)
Record bst := mkB { b_pc : nat -> nat; b_acc : nat -> Q; b_part : nat -> rule; b_w : nat -> nat -> Q; b_sdp : nat -> Q }.
(** cyext_acv.pyx 5601-5607: the arrays before the loop. *)
Definition b0 : bst := mkB (fun _ => 0) (fun _ => 0%Q) (fun _ => rule0) (fun _ _ => 0%Q) (fun _ => 0%Q).

Section Loop.
Variable M : fmem.
Variable N : nat.                 (* data.shape[0] *)
Variables (depth m : nat).

(** One step of iteration [i]: its next tree, or, after the last one, the store into
    [sdp[i]] (cyext_acv.pyx 5148-5210 and 5230-5233, 5610-5613).  Simplification: a tree
    is traversed in one step; the traversal reads the shared inputs and its own rows only. *)
Definition tick (W : nat -> work) (i : nat) (s : bst) : bst :=
  if b_pc s i <? F_trees M then
    let w := W i in
    let st := run_tree (w_step w (row_of M (b_pc s i))) m depth N (if w_rule w then b_part s i else rule0) in
    mkB (upd (b_pc s) i (S (b_pc s i)))
        (upd (b_acc s) i (add_tree (F_trees M) (w_ind w) (st_in st) (b_acc s i)))
        (if w_rule w then upd (b_part s) i (st_part st) else b_part s)
        (if w_weights w then upd (b_w s) i (add_weights (F_trees M) (st_in st) (b_w s i)) else b_w s)
        (b_sdp s)
  else mkB (b_pc s) (b_acc s) (b_part s) (b_w s) (upd (b_sdp s) i (b_acc s i)).
(** [for i in prange(N, schedule='dynamic')], cyext_acv.pyx 5610: the steps of the
    iterations in the order [sched] in which the workers run them. *)
Definition run_loop (W : nat -> work) (sched : list nat) (s : bst) : bst :=
  fold_left (fun s i => tick W i s) sched s.
(** [for i in range(N)], cyext_acv.pyx 5638: one iteration after the other. *)
Definition in_order (n : nat) : list nat := flat_map (fun i => repeat i (S (F_trees M))) (seq 0 n).

(** ** The loops of the maximal rules *)

(** The arrays of the observations, and [sdp_data], [partition_byobs_data]
    (cyext_acv.pyx 5329-5345). *)
Record mst := mkM { m_own : bst; m_sdp : nat -> nat -> Q; m_part : nat -> nat -> rule }.
(** cyext_acv.pyx 5329-5345. *)
Definition m0 : mst := mkM b0 (fun _ _ => 0%Q) (fun _ _ => rule0).
(** cyext_acv.pyx 5347-5356: observation [i], then the training samples by parallel
    workers.  [all]: do not look at the weights (compute_sdp_maxrule_v0, 4808-4817). *)
Definition max_body (all : bool) (Wo : nat -> work) (Wd : nat -> nat -> work) (scheds : nat -> list nat) (s : mst) (i : nat) : mst :=
  let own := run_loop Wo (repeat i (S (F_trees M))) (m_own s) in
  let inner := fold_left (fun t j => if all || negb (qeqb (b_w own i j) 0) then tick (Wd i) j t else t) (scheds i) b0 in
  mkM own (upd (m_sdp s) i (b_sdp inner)) (upd (m_part s) i (b_part inner)).
(** cyext_acv.pyx 5347: [for i in range(N)]. *)
Definition max_loop (all : bool) (Wo : nat -> work) (Wd : nat -> nat -> work) (scheds : nat -> list nat) (n : nat) : mst :=
  fold_left (max_body all Wo Wd scheds) (seq 0 n) m0.
End Loop.

(** ** The compiled routines *)

(** The routines, cyext_acv.pyx 5879 (compute_sdp_rf), 5973, 7116, 4318, 4576 (compute_cdf_rf),
    4095 (compute_sdp_rf_v0), 5216 (compute_sdp_rule), 5488, 6861, 4762 (compute_sdp_rule_v0),
    5597 (compute_ddp_weights), 7376, 5777 (compute_ddp_cond_weights), 7015, 6589
    (compute_ddp_intv_weights), 7532, 6145 (compute_sdp_rf_same_set), 5990, 7133, 6615
    (compute_ddp_intv_same_set), 7558.  The verbose routines 5621 and 7400 have the text of
    5597 and 7376 with the sequential loop. *)
Inductive routine := sdp_rf | ddp_rf | cdp_rf | exp_rf | cdf_rf | sdp_rf_v0 | sdp_rule | ddp_rule | cdp_rule | sdp_rule_v0
  | ddp_weights | cdp_weights | ddp_cond | cdp_cond | ddp_intv | cdp_intv | sdp_same | ddp_same | cdp_same | ddp_intv_same | cdp_intv_same.

(** The last argument [t], as Python hands it over: nothing, a number, a one- or a
    two-dimensional array of doubles (acv_agnosticX.py 233 and 268-271, acv_tree.py 831). *)
Inductive targ := T_none | T_number (q : Q) | T_vector (l : list Q) | T_matrix (l : list (list Q)).
(** The argument [S]: one set per observation, or one set for all (acv_agnosticX.py 233, 1469). *)
Inductive sarg := S_rows (l : list (list nat)) | S_same (s : list nat).
(** [len(S)], acv_agnosticX.py 262. *)
Definition s_len (s : sarg) : nat := match s with S_rows l => length l | S_same l => length l end.

(** The arguments with one entry per observation: cyext_acv.pyx 7015-7018.  The routines
    without [down], [up], [cond] do not look at them. *)
Record args := mkArgs { g_X : list pt; g_y : list Q; g_down : list Q; g_up : list Q; g_S : sarg; g_cond : list rule }.
(** What one iteration is given: cyext_acv.pyx 7032-7035 ([t0], [t1] the entries read of [t[i]]). *)
Record rowargs := mkRow' { a_x : pt; a_y : Q; a_down : Q; a_up : Q; a_S : list nat; a_cond : rule; a_t0 : Q; a_t1 : Q }.

(** Does the routine take [vector[int] S] (one set)?  cyext_acv.pyx 4095, 5990, 6145, 6615, 7133, 7558. *)
Definition one_set (r : routine) : bool :=
  match r with sdp_rf_v0 | sdp_same | ddp_same | cdp_same | ddp_intv_same | cdp_intv_same => true | _ => false end.
(** Does the routine read [down[i]], [up[i]] in regression?  cyext_acv.pyx 6779, 6885, 7040, 7290
    (the [cdp_intv] routines, 7425, read [t]). *)
Definition with_interval (r : routine) : bool :=
  match r with cdp_rf | cdp_rule | cdp_weights | cdp_cond | cdp_same => true | _ => false end.
(** Does the routine read [cond[i]]?  cyext_acv.pyx 5647, 6482, 6885, 7425. *)
Definition with_box (r : routine) : bool :=
  match r with ddp_cond | cdp_cond | ddp_intv | cdp_intv | ddp_intv_same | cdp_intv_same => true | _ => false end.

(** The declared type of [t]: [double[:, :]], [double[:]] or [double] (cyext_acv.pyx 5881; 4578; 4097, 4764). *)
Inductive tform := Matrix | Vector | Number.
(** cyext_acv.pyx 4095-4097, 4576-4578, 4762-4764 and the others. *)
Definition form (r : routine) : tform :=
  match r with cdf_rf => Vector | sdp_rf_v0 | sdp_rule_v0 => Number | _ => Matrix end.
(** The values of [t] seen by a compiled routine (cyext_acv.pyx 5881, 4578, 4097). *)
Inductive levels := L_none | L_matrix (l : list (list Q)) | L_vector (l : list Q) | L_number (q : Q).
(** The conversion in front of a compiled routine: a number is no buffer (TypeError), a
    buffer must have the declared dimension (ValueError), None is accepted as an array;
    a [double] is read with [__float__], which arrays of one element have
    (cyext_acv.pyx 5881, 4578, 4097). *)
Definition convert (f : tform) (t : targ) : outcome levels :=
  match f, t with
  | Matrix, T_none | Vector, T_none => Returned L_none
  | Matrix, T_matrix l => Returned (L_matrix l)
  | Vector, T_vector l => Returned (L_vector l)
  | Matrix, T_number _ | Vector, T_number _ => Raised EType
  | Matrix, T_vector _ | Vector, T_matrix _ => Raised EValue
  | Number, T_number q | Number, T_vector [q] | Number, T_matrix [[q]] => Returned (L_number q)
  | Number, _ => Raised EType
  end.
(** [t[i][0]], [t[i][1]] (cyext_acv.pyx 5870), [t[i]] (4585 and 4568), [t] (4104 and 4087);
    None outside the array or the row. *)
Definition level_at (lv : levels) (i : nat) : option (Q * Q) :=
  match lv with
  | L_none => None
  | L_matrix l => match nth_error l i with Some (a :: b :: _) => Some (a, b) | _ => None end
  | L_vector l => match nth_error l i with Some q => Some (0%Q, q) | None => None end
  | L_number q => Some (0%Q, q)
  end.

(** cyext_acv.pyx 5883-5888 and the like: an array argument indexed by the observation; the
    entry is read only if [need]. *)
Definition entry {A} (need : bool) (l : list A) (i : nat) (d : A) : option A :=
  match nth_error l i with Some a => Some a | None => if need then None else Some d end.
(** As [entry] for two values at once (cyext_acv.pyx 5870). *)
Definition level_entry (need : bool) (lv : levels) (i : nat) : option (Q * Q) :=
  match level_at lv i with Some p => Some p | None => if need then None else Some (0%Q, 0%Q) end.
(** [vector[vector[int]]] or [vector[int]] from a Python list; the empty list is both
    (cyext_acv.pyx 5879, 6145).  None is TypeError. *)
Definition sets_of (same : bool) (s : sarg) : option sarg :=
  match same, s with
  | true, S_same _ | false, S_rows _ => Some s
  | true, S_rows [] => Some (S_same [])
  | false, S_same [] => Some (S_rows [])
  | _, _ => None
  end.
(** [S[i]] or [S], cyext_acv.pyx 5886, 6152. *)
Definition set_at (s : sarg) (i : nat) : option (list nat) :=
  match s with S_rows l => nth_error l i | S_same l => Some l end.

Section Compiled.
Variable M : fmem.
Variable data : nat -> pt.
Variable y : nat -> Q.
Variable N : nat.
Variables (depth m : nat) (classifier : bool).

(** Does the estimator read [t] of its observation?  In regression, those that count an
    interval of targets (cyext_acv.pyx 5870, 5964, 6581, 7523); the distribution function and
    the v0 routines (4568, 4087).  The expectation (4301-4310) never does. *)
Definition reads_t (r : routine) : bool :=
  match r with
  | exp_rf => false
  | cdf_rf => true
  | _ => negb classifier && negb (with_interval r)
  end.
(** Does it read its own target?  In classification (cyext_acv.pyx 5865); the v0 routines in
    both cases (4085-4087). *)
Definition reads_y (r : routine) : bool :=
  match r with exp_rf | cdf_rf => false | sdp_rf_v0 | sdp_rule_v0 => true | _ => classifier end.

(** cyext_acv.pyx 7031-7035: the arguments of iteration [i]; None if one that is read is
    missing (see [Stray]). *)
Definition row_args (r : routine) (a : args) (s : sarg) (lv : levels) (i : nat) : option rowargs :=
  match nth_error (g_X a) i, entry (reads_y r) (g_y a) i 0%Q,
        entry (with_interval r && negb classifier) (g_down a) i 0%Q, entry (with_interval r && negb classifier) (g_up a) i 0%Q,
        set_at s i, entry (with_box r) (g_cond a) i rule0, level_entry (reads_t r) lv i with
  | Some x, Some yx, Some dn, Some up, Some Sv, Some cd, Some (t0, t1) => Some (mkRow' x yx dn up Sv cd t0 t1)
  | _, _, _, _, _, _, _ => None
  end.

(** The estimator called by the routine (cyext_acv.pyx 5885, 5979, 7122, 4324, 4582, 4101,
    5229, 5501, 6874, 4777, 5610, 7389, 5791, 7029, 6603, 7546, 6151, 5996, 7139, 6629, 7572)
    on the arguments of an iteration. *)
Definition work_of (r : routine) (a : rowargs) : work :=
  let '(mkRow' x yx dn up Sv cd t0 t1) := a in
  let plain := fun R => rf_step R Sv x data in
  let ruled := fun R => rule_step R Sv x data in
  let vec := fun R => vec_step R Sv x data in
  let same := ind_same classifier yx t0 t1 y in
  let diff := ind_diff classifier yx t0 t1 y in
  let inside := ind_cdp classifier yx dn up y in
  match r with
  | sdp_rf | sdp_same => mkWork plain same false false
  | ddp_rf | ddp_same => mkWork plain diff false false
  | cdp_rf | cdp_same => mkWork plain inside false false
  | exp_rf => mkWork plain (ind_exp y) false false
  | cdf_rf => mkWork vec (ind_cdf t1 y) false false
  | sdp_rf_v0 => mkWork vec (ind_v0 classifier yx t1 y) false false
  | sdp_rule => mkWork ruled same true false
  | ddp_rule => mkWork ruled diff true false
  | cdp_rule => mkWork ruled inside true false
  | sdp_rule_v0 => mkWork vec (ind_v0 classifier yx t1 y) true false
  | ddp_weights => mkWork ruled diff true true
  | cdp_weights => mkWork ruled inside true true
  | ddp_cond => mkWork (fun R => cond_step R Sv x data cd) diff true true
  | cdp_cond => mkWork (fun R => cond_step R Sv x data cd) inside true true
  | ddp_intv | ddp_intv_same => mkWork (fun R => intv_step R Sv data cd) diff true true
  | cdp_intv | cdp_intv_same => mkWork (fun R => intv_step R Sv data cd) (ind_cdp_intv classifier yx t0 t1 y) true true
  end.

(** What the routine returns: [sdp] and, where returned, the rules or the weights
    (cyext_acv.pyx 5889, 5235, 5615, 6640). *)
Record result := mkRes { r_sdp : list Q; r_rules : option (list rule); r_weights : option (list (nat -> Q)) }.
(** cyext_acv.pyx 5235, 5507, 6881, 4782. *)
Definition gives_rules (r : routine) : bool :=
  match r with sdp_rule | ddp_rule | cdp_rule | sdp_rule_v0 => true | _ => false end.
(** cyext_acv.pyx 5615, 7395, 5796, 7037, 6608, 7551. *)
Definition gives_weights (r : routine) : bool :=
  match r with ddp_weights | cdp_weights | ddp_cond | cdp_cond | ddp_intv | cdp_intv => true | _ => false end.

(** The arguments of all iterations (cyext_acv.pyx 5882: [N = X.shape[0]]). *)
Fixpoint all_some {A} (l : list (option A)) : option (list A) :=
  match l with
  | [] => Some []
  | Some a :: q => match all_some q with Some v => Some (a :: v) | None => None end
  | None :: _ => None
  end.
(** Arguments of an iteration that does not exist (never used: cyext_acv.pyx 5885 loops below [N]). *)
Definition no_args : rowargs := mkRow' (fun _ => 0%Q) 0%Q 0%Q 0%Q [] rule0 0%Q 0%Q.

(** A compiled routine, cyext_acv.pyx 5879-5890 and the others listed at [routine]: convert
    [S] and [t], run the loop, copy the arrays out. *)
Definition compiled (r : routine) (a : args) (t : targ) (sched : list nat) : outcome result :=
  match sets_of (one_set r) (g_S a) with
  | None => Raised EType
  | Some s =>
      match convert (form r) t with
      | Raised e => Raised e
      | Stray => Stray
      | Returned lv =>
          let n := length (g_X a) in
          match all_some (map (row_args r a s lv) (seq 0 n)) with
          | None => Stray
          | Some l =>
              let f := run_loop M N depth m (fun i => work_of r (nth i l no_args)) sched b0 in
              Returned (mkRes (map (b_sdp f) (seq 0 n))
                              (if gives_rules r then Some (map (b_part f) (seq 0 n)) else None)
                              (if gives_weights r then Some (map (b_w f) (seq 0 n)) else None))
          end
      end
  end.
End Compiled.

(** ** The methods *)
Section Methods.
Variable M : fmem.
Variables (depth : nat).
(** Training samples as functions of the row (cyext_acv.pyx 5803: [data[i, .]], [y_data[i]]). *)
Definition rows_of (D : list pt) : nat -> pt := fun i => nth i D (fun _ => 0%Q).
(** cyext_acv.pyx 5803: [y_data[i]]. *)
Definition vals_of (Y : list Q) : nat -> Q := fun i => nth i Y 0%Q.

(** [check_X_y], acv_agnosticX.py 258-259: as many targets as rows, at least one row.
    Simplification: tables of finite doubles of the right width. *)
Definition checked (X : list pt) (Y : list Q) : bool := (length X =? length Y) && (0 <? length X).

(** The methods of [ACXplainer] (acv_agnosticX.py 233-278, 279-327, 424-848, 1220-1309,
    1414-1522, 1595-1703) on a fitted explainer (see ExplModel.v): [quantiles] is
    [predict_quantiles(X, quantiles=[0.05, 0.95])], row by row.  The two [same] methods
    (1499-1505, 1680-1686) do not compare the length of [S]. *)
Definition acx_levels (classifier : bool) (quantiles : pt -> Q * Q) (X : list pt) (t : targ) : targ :=
  if classifier then T_matrix (map (fun _ => [0%Q; 0%Q]) X)
  else match t with
       | T_none => T_matrix (map (fun x => [fst (quantiles x); snd (quantiles x)]) X)
       | _ => t
       end.
(** See [acx_levels]: acv_agnosticX.py 258-277. *)
Definition acx (classifier : bool) (quantiles : pt -> Q * Q) (r : routine) (a : args) (D : list pt) (Y : list Q)
  (m : nat) (t : targ) (sched : list nat) : outcome result :=
  if negb (checked (g_X a) (g_y a) && checked D Y) then Raised EValue
  else if negb (one_set r) && negb (s_len (g_S a) =? length (g_X a)) then Raised EValue
  else compiled M (rows_of D) (vals_of Y) (length D) depth m classifier r a (acx_levels classifier quantiles (g_X a) t) sched.

(** [ACVTree.compute_sdp_rf], [compute_cdf_rf], [compute_exp_rf] (acv_tree.py 856-868, 896-907,
    1070-1080): the same checks, [t] handed over as it is (20 by default). *)
Definition acv (classifier : bool) (r : routine) (a : args) (D : list pt) (Y : list Q)
  (m : nat) (t : targ) (sched : list nat) : outcome result :=
  if negb (checked (g_X a) (g_y a) && checked D Y) then Raised EValue
  else if negb (s_len (g_S a) =? length (g_X a)) then Raised EValue
  else compiled M (rows_of D) (vals_of Y) (length D) depth m classifier r a t sched.
(** [ACVTree.importance_sdp_rf] and [sufficient_expl_rf] (acv_tree.py 958-979, 1022-1044): the
    searches of SearchModel.v, here [body], behind the same conversion of [t]
    (cyext_acv.pyx 6163-6165, 6293-6295). *)
Definition acv_search {A} (a : args) (D : list pt) (Y : list Q) (t : targ) (body : levels -> A) : outcome A :=
  if negb (checked (g_X a) (g_y a) && checked D Y) then Raised EValue
  else match convert Matrix t with Returned lv => Returned (body lv) | Raised e => Raised e | Stray => Stray end.

(** The methods of [ACVTreeAgnostic] (acv_tree.py 1132-1157, 1244-1247): no check at all; a
    short [y_data] is read outside. *)
Definition agn (classifier : bool) (r : routine) (a : args) (D : list pt) (Y : list Q)
  (m : nat) (t : targ) (sched : list nat) : outcome result :=
  match compiled M (rows_of D) (vals_of Y) (length D) depth m classifier r a t sched with
  | Returned v => if length Y <? length D then Stray else Returned v
  | o => o
  end.

(** The tables of the maximal rules: [compute_sdp_maxrule] and its verbose twin
    (cyext_acv.pyx 5325-5405) as called by acv_agnosticX.py 367-396; the training sample
    [data[j]] with the target and the levels of observation [i]. *)
Definition max_tables (data : nat -> pt) (y : nat -> Q) (N m : nat) (classifier : bool) (l : list rowargs)
  (scheds : nat -> list nat) : mst :=
  let own := fun i => let a := nth i l no_args in
    mkWork (fun R => rule_step R (a_S a) (a_x a) data) (ind_same classifier (a_y a) (a_t0 a) (a_t1 a) y) true true in
  let other := fun i j => let a := nth i l no_args in
    mkWork (fun R => rule_step R (a_S a) (data j) data) (ind_same classifier (a_y a) (a_t0 a) (a_t1 a) y) true false in
  max_loop M N depth m false own other scheds (length l).
(** [compute_sdp_maxrule_v0] (cyext_acv.pyx 4787-4819): every training sample. *)
Definition max_tables_v0 (data : nat -> pt) (y : nat -> Q) (N m : nat) (classifier : bool) (l : list rowargs)
  (scheds : nat -> list nat) : mst :=
  let w := fun x i => let a := nth i l no_args in
    mkWork (fun R => vec_step R (a_S a) x data) (ind_v0 classifier (a_y a) (a_t1 a) y) true false in
  max_loop M N depth m true (fun i => w (a_x (nth i l no_args)) i) (fun i j => w (data j) i) scheds (length l).
(** [compute_sdp_maxrule_opti] (cyext_acv.pyx 5044-5080): the training samples with a weight. *)
Definition max_tables_opti (data : nat -> pt) (y : nat -> Q) (N m : nat) (classifier : bool) (l : list rowargs)
  (scheds : nat -> list nat) : mst :=
  let w := fun b x i => let a := nth i l no_args in
    mkWork (fun R => vec_step R (a_S a) x data) (ind_v0 classifier (a_y a) (a_t1 a) y) true b in
  max_loop M N depth m false (fun i => w true (a_x (nth i l no_args)) i) (fun i j => w false (data j) i) scheds (length l).
End Methods.

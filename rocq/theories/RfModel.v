(** Model of the projected-forest estimators: level-by-level traversal of all
    trees along the conditioning variables, selection of the training samples,
    probabilities, expectations, rules and sample weights. *)
From Verif Require Import Base TreeModel.

(** The arrays [features], [thresholds], [children_left], [children_right] of
    base_tree.py 545-567 as the compiled code sees them: flat memory, the entry
    of tree [b] and node [n] at offset [b * width + n].  Bounds checks and
    negative indices are switched off (cyext_acv.pyx 5799-5802), so an offset
    outside the arrays reads whatever lies there: the functions are arbitrary
    outside [0, trees * width). *)
Record fmem := mkMem {
  F_feat : Z -> Z;
  F_thr : Z -> Q;
  F_left : Z -> Z;
  F_right : Z -> Z;
  F_width : nat;
  F_trees : nat
}.

(** The same arrays with the first index fixed: [features[b, .]],
    cyext_acv.pyx 5832-5854. *)
Record row := mkRow { r_feat : Z -> Z; r_thr : Z -> Q; r_left : Z -> Z; r_right : Z -> Z }.

(** Offset of [features[b, n]] in a C-contiguous int[:, :] array,
    cyext_acv.pyx 5832. *)
Definition offset (M : fmem) (b : nat) (n : Z) : Z := (Z.of_nat b * Z.of_nat (F_width M) + n)%Z.
(** [features[b, .]] and so on, cyext_acv.pyx 5832-5854. *)
Definition row_of (M : fmem) (b : nat) : row :=
  mkRow (fun n => F_feat M (offset M b n)) (fun n => F_thr M (offset M b n))
        (fun n => F_left M (offset M b n)) (fun n => F_right M (offset M b n)).

(** [max_nodes], base_tree.py 514, 545-550 (first dimension of the arrays is the
    number of trees, the second the largest number of nodes). *)
Definition max_nodes (ts : list tree) : nat := fold_right Nat.max 0 (map nn ts).
(** Is an offset inside the arrays?  (shape of the arrays, base_tree.py 545-550) *)
Definition inside_arrays (M : fmem) (k : Z) : bool :=
  (0 <=? k)%Z && (k <? Z.of_nat (F_trees M) * Z.of_nat (F_width M))%Z.
(** base_tree.py 545-567: the padded arrays of a list of trees; [stray] is the
    memory around them. *)
Definition dense (ts : list tree) (stray : row) : fmem :=
  let w := max_nodes ts in
  let ok k := (0 <=? k)%Z && (k <? Z.of_nat (length ts) * Z.of_nat w)%Z in
  let tr k := nth (Z.to_nat (k / Z.of_nat w)) ts (mkTree [] [] [] [] [] []) in
  let no k := Z.to_nat (k mod Z.of_nat w) in
  mkMem (fun k => if ok k then nth (no k) (ft (tr k)) (-1)%Z else r_feat stray k)
        (fun k => if ok k then nth (no k) (th (tr k)) 0%Q else r_thr stray k)
        (fun k => if ok k then nth (no k) (cl (tr k)) (-1)%Z else r_left stray k)
        (fun k => if ok k then nth (no k) (cr (tr k)) (-1)%Z else r_right stray k)
        w (length ts).

(** A rule: lower and upper bound of every variable ([partition[f, 0]],
    [partition[f, 1]]), cyext_acv.pyx 5167-5181. *)
Definition rule := nat -> Q * Q.
(** 1e+10, cyext_acv.pyx 5220. *)
Definition big : Q := (10000000000 # 1)%Q.
(** cyext_acv.pyx 5220-5222: initial bounds -1e10 and 1e10. *)
Definition rule0 : rule := fun _ => ((- big)%Q, big).

(** Working variables of the traversal of one tree: [nodes_child], [in_data]
    and the rule, cyext_acv.pyx 5144-5157.  [in_data_b] is not kept: outside the
    erasing loops it equals [in_data].  [st_log] is a ghost field, the nodes
    whose entries have been read. *)
Record rfst := mkSt { st_child : list Z; st_in : list nat; st_part : rule; st_log : list Z }.

(** [std::set<int>::insert], cyext_acv.pyx 5165, 5178, 5190-5191: sets as increasing lists. *)
Fixpoint zinsert (a : Z) (l : list Z) : list Z :=
  match l with
  | [] => [a]
  | b :: r => if (a <? b)%Z then a :: l else if (a =? b)%Z then l else b :: zinsert a r
  end.

(** [std_find(S.begin(), S.end(), f) != S.end()], cyext_acv.pyx 5163; the
    conditioning set holds column numbers, a negative feature is never found. *)
Definition inS (Sv : list nat) (f : Z) : bool := (0 <=? f)%Z && memb (Z.to_nat f) Sv.

(** cyext_acv.pyx 5170-5175: erase the samples above the threshold. *)
Definition keep_left (data : nat -> pt) (f : nat) (t : Q) (l : list nat) : list nat :=
  filter (fun i => negb (qltb t (data i f))) l.
(** cyext_acv.pyx 5183-5188: erase the samples at or below the threshold. *)
Definition keep_right (data : nat -> pt) (f : nat) (t : Q) (l : list nat) : list nat :=
  filter (fun i => negb (qleb (data i f) t)) l.
(** cyext_acv.pyx 5167-5168: lower the upper bound. *)
Definition cut_hi (p : rule) (f : nat) (t : Q) : rule :=
  if qleb t (snd (p f)) then upd p f (fst (p f), t) else p.
(** cyext_acv.pyx 5180-5181: raise the lower bound. *)
Definition cut_lo (p : rule) (f : nat) (t : Q) : rule :=
  if qleb (fst (p f)) t then upd p f (t, snd (p f)) else p.

Section Step.
Variable R : row.                 (* the tree *)
Variable Sv : list nat.           (* conditioning set *)
Variable x : pt.                  (* observation *)
Variable data : nat -> pt.        (* training samples *)

(** Body of the while loop without rules: cyext_acv.pyx 5832-5854
    (single_compute_sdp_rf); the same text in single_compute_ddp_rf 5926-5948,
    single_compute_exp_rf 4271-4293 and single_compute_cdp_rf 7069-7091. *)
Definition rf_step (n : Z) (st : rfst) : rfst :=
  let f := Z.to_nat (r_feat R n) in
  let t := r_thr R n in
  if inS Sv (r_feat R n) then
    if qleb (x f) t
    then mkSt (zinsert (r_left R n) (st_child st)) (keep_left data f t (st_in st))
              (st_part st) (n :: st_log st)
    else mkSt (zinsert (r_right R n) (st_child st)) (keep_right data f t (st_in st))
              (st_part st) (n :: st_log st)
  else mkSt (zinsert (r_right R n) (zinsert (r_left R n) (st_child st))) (st_in st)
            (st_part st) (n :: st_log st).

(** Body of the while loop with rules: cyext_acv.pyx 5163-5191
    (single_compute_sdp_rule); the same text in single_compute_sdp_rule_weights
    5269-5297, single_compute_ddp_rule 5435-5463, single_compute_ddp_rule_weights
    5541-5569, single_compute_cdp_rule 6808-6836 and
    single_compute_cdp_rule_weights 7320-7348. *)
Definition rule_step (n : Z) (st : rfst) : rfst :=
  let f := Z.to_nat (r_feat R n) in
  let t := r_thr R n in
  if inS Sv (r_feat R n) then
    if qleb (x f) t
    then mkSt (zinsert (r_left R n) (st_child st)) (keep_left data f t (st_in st))
              (cut_hi (st_part st) f t) (n :: st_log st)
    else mkSt (zinsert (r_right R n) (st_child st)) (keep_right data f t (st_in st))
              (cut_lo (st_part st) f t) (n :: st_log st)
  else mkSt (zinsert (r_right R n) (zinsert (r_left R n) (st_child st))) (st_in st)
            (st_part st) (n :: st_log st).

(** Body of the loop over vectors instead of sets: cyext_acv.pyx 4715-4742
    (single_compute_sdp_rule_v0), 4996-5023 (single_compute_sdp_rule_v0_weights);
    without the rule in single_compute_sdp_rf_v0 4055-4075, single_compute_cdf_rf
    4540-4560 and single_compute_quantile_diff_rf 4454-4474.  [push_back] keeps
    duplicates; [std_remove] followed by [pop_back] deletes the single occurrence
    of a sample. *)
Definition vec_step (n : Z) (st : rfst) : rfst :=
  let f := Z.to_nat (r_feat R n) in
  let t := r_thr R n in
  if inS Sv (r_feat R n) then
    if qleb (x f) t
    then mkSt (st_child st ++ [r_left R n]) (keep_left data f t (st_in st))
              (cut_hi (st_part st) f t) (n :: st_log st)
    else mkSt (st_child st ++ [r_right R n]) (keep_right data f t (st_in st))
              (cut_lo (st_part st) f t) (n :: st_log st)
  else mkSt (st_child st ++ [r_left R n; r_right R n]) (st_in st)
            (st_part st) (n :: st_log st).

Variable cond : rule.             (* box for the other variables *)

(** The [elif] branches on the box: cyext_acv.pyx 5704-5749
    (single_compute_ddp_cond_rule_weights), 6942-6987
    (single_compute_cdp_cond_rule_weights).  The third [elif] and the final
    [else] do the same thing. *)
Definition box_step (n : Z) (st : rfst) : rfst :=
  let f := Z.to_nat (r_feat R n) in
  let t := r_thr R n in
  if (0 <=? r_feat R n)%Z && qleb (snd (cond f)) t
  then mkSt (zinsert (r_left R n) (st_child st)) (keep_left data f t (st_in st))
            (cut_hi (st_part st) f t) (n :: st_log st)
  else if (0 <=? r_feat R n)%Z && qltb t (fst (cond f))
  then mkSt (zinsert (r_right R n) (st_child st)) (keep_right data f t (st_in st))
            (cut_lo (st_part st) f t) (n :: st_log st)
  else mkSt (zinsert (r_right R n) (zinsert (r_left R n) (st_child st))) (st_in st)
            (st_part st) (n :: st_log st).

(** cyext_acv.pyx 5677-5749 (single_compute_ddp_cond_rule_weights) and
    6915-6987 (single_compute_cdp_cond_rule_weights): follow the observation on
    the conditioning variables, the box elsewhere. *)
Definition cond_step (n : Z) (st : rfst) : rfst :=
  if inS Sv (r_feat R n) then rule_step n st else box_step n st.

(** cyext_acv.pyx 6512-6561 (single_compute_ddp_intv_rule_weights) and
    7455-7504 (single_compute_cdp_intv_rule_weights): both children on the
    conditioning variables, the box elsewhere. *)
Definition intv_step (n : Z) (st : rfst) : rfst :=
  if inS Sv (r_feat R n)
  then mkSt (zinsert (r_right R n) (zinsert (r_left R n) (st_child st))) (st_in st)
            (st_part st) (n :: st_log st)
  else box_step n st.
End Step.

(** The while loop over [nodes_level], cyext_acv.pyx 5160-5195: stop as soon as
    fewer than [min_node_size] samples are left. *)
Fixpoint level_loop (step : Z -> rfst -> rfst) (m : nat) (nodes : list Z) (st : rfst) : rfst :=
  match nodes with
  | [] => st
  | n :: rest =>
      let st' := step n st in
      if length (st_in st') <? m then st' else level_loop step m rest st'
  end.

(** [for level in range(max_depth)], cyext_acv.pyx 5159-5197; [nodes_child] is
    never emptied between levels. *)
Fixpoint all_levels (step : Z -> rfst -> rfst) (m depth : nat) (nodes : list Z) (st : rfst) : rfst :=
  match depth with
  | O => st
  | S k => let st' := level_loop step m nodes st in all_levels step m k (st_child st') st'
  end.

(** Traversal of one tree from the root and all [N] samples,
    cyext_acv.pyx 5149-5197. *)
Definition run_tree (step : Z -> rfst -> rfst) (m depth N : nat) (p : rule) : rfst :=
  all_levels step m depth [0%Z] (mkSt [] (seq 0 N) p []).

(** cyext_acv.pyx 5199-5208: [sdp += (1./(n_trees*in_data.size())) * ind]. *)
Definition add_tree (T : nat) (ind : nat -> Q) (l : list nat) (acc : Q) : Q :=
  fold_left (fun a i => (a + (1 / Qn (T * length l)) * ind i)%Q) l acc.
(** cyext_acv.pyx 5309, 5315: [w[i] += 1./(n_trees*in_data.size())]. *)
Definition add_weights (T : nat) (l : list nat) (w : nat -> Q) : nat -> Q :=
  fold_left (fun v i => upd v i (v i + 1 / Qn (T * length l))%Q) l w.

Section Forest.
Variable M : fmem.
Variable step : row -> Z -> rfst -> rfst.
Variables (m depth N : nat).

(** Samples selected by tree [b], cyext_acv.pyx 5818-5860. *)
Definition selected (b : nat) : list nat := st_in (run_tree (step (row_of M b)) m depth N rule0).

(** [for b in range(n_trees)] of the routines without rules,
    cyext_acv.pyx 5817-5873. *)
Definition forest (ind : nat -> Q) : Q :=
  fold_left (fun acc b => add_tree (F_trees M) ind (selected b) acc) (seq 0 (F_trees M)) 0%Q.

(** [for b in range(n_trees)] of the routines with rules and weights; the rule
    goes on from one tree to the next, cyext_acv.pyx 5254-5318.  The routines
    without weights, 5148-5210, are the same without [w]. *)
Definition forest_rule (ind : nat -> Q) : Q * rule * (nat -> Q) :=
  fold_left (fun s b =>
      let '(acc, p, w) := s in
      let st := run_tree (step (row_of M b)) m depth N p in
      (add_tree (F_trees M) ind (st_in st) acc, st_part st, add_weights (F_trees M) (st_in st) w))
    (seq 0 (F_trees M)) (0%Q, rule0, fun _ => 0%Q).
End Forest.

Section Ind.
Variables (classifier : bool) (yx t0 t1 : Q) (y : nat -> Q).

(** cyext_acv.pyx 5862-5871: same class, or target inside [t[0], t[1]]. *)
Definition ind_same (i : nat) : Q :=
  if classifier then Qb (qeqb yx (y i)) else (Qb (qleb t0 (y i)) * Qb (qleb (y i) t1))%Q.
(** cyext_acv.pyx 5956-5965: other class, or target outside [t[0], t[1]]. *)
Definition ind_diff (i : nat) : Q :=
  if classifier then Qb (negb (qeqb yx (y i)))
  else (1 - Qb (qleb t0 (y i)) * Qb (qleb (y i) t1))%Q.
(** cyext_acv.pyx 7099-7108: same class, or [down <= y <= up] (here [t0], [t1]
    stand for [down], [up]; [t] itself is not read). *)
Definition ind_cdp (i : nat) : Q :=
  if classifier then Qb (qeqb yx (y i)) else Qb (qleb t0 (y i) && qleb (y i) t1).
(** cyext_acv.pyx 7512-7523: single_compute_cdp_intv_rule_weights counts the
    other classes, but the targets inside the interval. *)
Definition ind_cdp_intv (i : nat) : Q :=
  if classifier then Qb (negb (qeqb yx (y i)))
  else (Qb (qleb t0 (y i)) * Qb (qleb (y i) t1))%Q.
(** cyext_acv.pyx 4301-4310: the target itself, in both branches. *)
Definition ind_exp (i : nat) : Q := y i.
(** cyext_acv.pyx 4082-4087: square distance at most [t] (here [t1]). *)
Definition ind_v0 (i : nat) : Q :=
  if classifier then Qb (qeqb yx (y i)) else Qb (qleb ((yx - y i) * (yx - y i))%Q t1).
(** cyext_acv.pyx 4567-4568: target at most [t] (here [t1]). *)
Definition ind_cdf (i : nat) : Q := Qb (qleb (y i) t1).
End Ind.

Section Routines.
Variable M : fmem.
Variable data : nat -> pt.
Variable y : nat -> Q.
Variable N : nat.
Variables (depth m : nat) (classifier : bool) (t0 t1 : Q).
Variables (Sv : list nat) (x : pt) (yx : Q).

(** cyext_acv.pyx 5803-5873. *)
Definition compute_sdp_rf : Q :=
  forest M (fun R => rf_step R Sv x data) m depth N (ind_same classifier yx t0 t1 y).
(** cyext_acv.pyx 5897-5967. *)
Definition compute_ddp_rf : Q :=
  forest M (fun R => rf_step R Sv x data) m depth N (ind_diff classifier yx t0 t1 y).
(** cyext_acv.pyx 7040-7110. *)
Definition compute_cdp_rf (down up : Q) : Q :=
  forest M (fun R => rf_step R Sv x data) m depth N (ind_cdp classifier yx down up y).
(** cyext_acv.pyx 4242-4312. *)
Definition compute_exp_rf : Q :=
  forest M (fun R => rf_step R Sv x data) m depth N (ind_exp y).
(** cyext_acv.pyx 4030-4089. *)
Definition compute_sdp_rf_v0 : Q :=
  forest M (fun R => vec_step R Sv x data) m depth N (ind_v0 classifier yx t1 y).
(** cyext_acv.pyx 4515-4570. *)
Definition compute_cdf_rf (t : Q) : Q :=
  forest M (fun R => vec_step R Sv x data) m depth N (ind_cdf t y).

(** cyext_acv.pyx 5134-5210 and, with the weights, 5239-5318. *)
Definition compute_sdp_rule_weights : Q * rule * (nat -> Q) :=
  forest_rule M (fun R => rule_step R Sv x data) m depth N (ind_same classifier yx t0 t1 y).
(** cyext_acv.pyx 5406-5482 and, with the weights, 5511-5590. *)
Definition compute_ddp_rule_weights : Q * rule * (nat -> Q) :=
  forest_rule M (fun R => rule_step R Sv x data) m depth N (ind_diff classifier yx t0 t1 y).
(** cyext_acv.pyx 6779-6855 and, with the weights, 7290-7369. *)
Definition compute_cdp_rule_weights (down up : Q) : Q * rule * (nat -> Q) :=
  forest_rule M (fun R => rule_step R Sv x data) m depth N (ind_cdp classifier yx down up y).
(** cyext_acv.pyx 4689-4756 and, with the weights, 4971-5038. *)
Definition compute_sdp_rule_v0_weights : Q * rule * (nat -> Q) :=
  forest_rule M (fun R => vec_step R Sv x data) m depth N (ind_v0 classifier yx t1 y).

Variable cond : rule.
(** cyext_acv.pyx 5647-5770. *)
Definition compute_ddp_cond_weights : Q * rule * (nat -> Q) :=
  forest_rule M (fun R => cond_step R Sv x data cond) m depth N (ind_diff classifier yx t0 t1 y).
(** cyext_acv.pyx 6885-7008. *)
Definition compute_cdp_cond_weights (down up : Q) : Q * rule * (nat -> Q) :=
  forest_rule M (fun R => cond_step R Sv x data cond) m depth N (ind_cdp classifier yx down up y).
(** cyext_acv.pyx 6482-6582. *)
Definition compute_ddp_intv_weights : Q * rule * (nat -> Q) :=
  forest_rule M (fun R => intv_step R Sv data cond) m depth N (ind_diff classifier yx t0 t1 y).
(** cyext_acv.pyx 7425-7525. *)
Definition compute_cdp_intv_weights : Q * rule * (nat -> Q) :=
  forest_rule M (fun R => intv_step R Sv data cond) m depth N (ind_cdp_intv classifier yx t0 t1 y).
End Routines.

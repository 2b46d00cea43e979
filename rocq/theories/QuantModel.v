(** Model of the weighted percentile, of the projected-forest estimators that
    undo a too small step (compiled quantiles, the Python "shaff" routines) and
    of the quantiles computed from their weights. *)
From Verif Require Import Base TreeModel RfModel.

(** ** Weighted percentile, utils.py 853-924 *)

(** [np.cumsum(sorted_weights)], utils.py 911. *)
Fixpoint cumsum (acc : Q) (w : list Q) : list Q :=
  match w with [] => [] | a :: r => (acc + a)%Q :: cumsum (acc + a)%Q r end.

(** [partial_sum], utils.py 912-915: a hundred over the total times the cumulated
    weight minus half the weight. *)
Definition partial_sum (w : list Q) : list Q :=
  let cw := cumsum 0 w in
  let total := last cw 0%Q in
  map (fun p => (100 / total * (fst p - snd p / 2))%Q) (combine cw w).

(** [np.searchsorted(partial_sum, q)], utils.py 916: the number of leading
    entries below [q] (numpy's answer on an increasing array). *)
Fixpoint searchsorted (l : list Q) (q : Q) : nat :=
  match l with [] => 0 | a :: r => if qltb a q then S (searchsorted r q) else 0 end.

(** utils.py 911-924: steps 1 to 3 on the sorted samples (value, weight) of
    non-zero weight; [None] is the IndexError of line 912 on an empty sample. *)
Definition percentile_sorted (l : list (Q * Q)) (q : Q) : option Q :=
  match l with
  | [] => None
  | _ =>
      let a := map fst l in
      let ps := partial_sum (map snd l) in
      let ss := searchsorted ps q in
      if ss =? length l then Some (nth (length l - 1) a 0%Q)
      else if ss =? 0 then Some (nth 0 a 0%Q)
      else
        let start := ss - 1 in
        let fraction := ((q - nth start ps 0) / (nth (start + 1) ps 0 - nth start ps 0))%Q in
        Some (nth start a 0 + fraction * (nth (start + 1) a 0 - nth start a 0))%Q
  end.

(** [nz = weights != 0], utils.py 898-900. *)
Definition nonzero (l : list (Q * Q)) : list (Q * Q) := filter (fun p => negb (qeqb (snd p) 0)) l.

(** [a[sorter]] and [weights[sorter]] with [sorter = np.argsort(a)], utils.py
    894-896, 903-905.  [argsort] maps the values to a list of indices; numpy's
    default argsort is not stable, so it is a parameter. *)
Definition reorder (argsort : list Q -> list nat) (l : list (Q * Q)) : list (Q * Q) :=
  map (fun i => nth i l (0%Q, 0%Q)) (argsort (map fst l)).

(** utils.py 883-924 with [sorter = np.argsort(a)] given by the caller (as all
    callers in the package do, cyext_acv.pyx 4397, utils_exp.py 106).  [None]: an
    exception (q outside [0, 100], no weight).  The conversion to float32 is not
    modelled. *)
Definition weighted_percentile (argsort : list Q -> list nat) (l : list (Q * Q)) (q : Q) : option Q :=
  if qltb 100 q || qltb q 0 then None
  else percentile_sorted (nonzero (reorder argsort l)) q.
(** utils.py 883-924 without [sorter]: the zero weights go first, then the sort
    of line 903. *)
Definition weighted_percentile_unsorted (argsort : list Q -> list nat) (l : list (Q * Q)) (q : Q)
  : option Q :=
  if qltb 100 q || qltb q 0 then None
  else percentile_sorted (reorder argsort (nonzero l)) q.

(** ** Traversal that keeps the previous samples when a step leaves too few *)

(** cyext_acv.pyx 4357-4385 (single_compute_quantile_rf), utils_exp.py 82-102
    (compute_shaff_quantile): the children of the step stay, its samples are
    taken back. *)
Fixpoint undo_loop (step : Z -> rfst -> rfst) (m : nat) (nodes : list Z) (st : rfst) : rfst :=
  match nodes with
  | [] => st
  | n :: rest =>
      let st' := step n st in
      if length (st_in st') <? m
      then mkSt (st_child st') (st_in st) (st_part st) (st_log st')
      else undo_loop step m rest st'
  end.
(** cyext_acv.pyx 4357-4387, utils_exp.py 82-103: loop over the levels. *)
Fixpoint undo_levels (step : Z -> rfst -> rfst) (m depth : nat) (nodes : list Z) (st : rfst) : rfst :=
  match depth with
  | O => st
  | S k => let st' := undo_loop step m nodes st in undo_levels step m k (st_child st') st'
  end.
(** cyext_acv.pyx 4348-4387, utils_exp.py 77-103: one tree. *)
Definition undo_run (step : Z -> rfst -> rfst) (m depth N : nat) : rfst :=
  undo_levels step m depth [0%Z] (mkSt [] (seq 0 N) rule0 []).

(** The arrays of one tree as Python reads them: a negative index counts from
    the end.  utils_exp.py 84-94 ([model.trees[b].features[node]]). *)
Definition py_index (t : tree) (n : Z) : nat :=
  if (n <? 0)%Z then Z.to_nat (Z.of_nat (nn t) + n) else Z.to_nat n.
(** utils_exp.py 84-94: features, thresholds, children of [model.trees[b]]. *)
Definition py_row (t : tree) : row :=
  mkRow (fun n => nth (py_index t n) (ft t) (-1)%Z) (fun n => nth (py_index t n) (th t) 0%Q)
        (fun n => nth (py_index t n) (cl t) (-1)%Z) (fun n => nth (py_index t n) (cr t) (-1)%Z).
(** [model.trees[b]], utils_exp.py 84 (an empty tree beyond the list). *)
Definition py_rows (ts : list tree) (b : nat) : row := py_row (nth b ts (mkTree [] [] [] [] [] [])).

Section Undo.
Variable rows : nat -> row.       (* the trees *)
Variable T : nat.                 (* their number *)
Variable data : nat -> pt.
Variable y : nat -> Q.
Variables (N depth m : nat) (Sv : list nat) (x : pt).

(** [samples] of tree [b] at the end, cyext_acv.pyx 4348-4387, utils_exp.py 77-102. *)
Definition undo_selected (b : nat) : list nat :=
  st_in (undo_run (vec_step (rows b) Sv x data) m depth N).

(** cyext_acv.pyx 4389-4394: [weights[i] += samples[i] * (1/s)];
    utils_exp.py 103: [weight[samples] = 1/np.sum(samples)].  [None]: division
    by zero (the compiled code goes on with NaN). *)
Definition tree_weight (i b : nat) : option Q :=
  let s := length (undo_selected b) in
  if s =? 0 then None else Some (Qb (memb i (undo_selected b)) * (1 / Qn s))%Q.
(** cyext_acv.pyx 4396: [np.array(weights)/n_trees]; utils_exp.py 105:
    [np.mean(weights, axis=0)]. *)
Definition undo_weight (i : nat) : option Q :=
  match fold_left (fun acc b => match acc, tree_weight i b with
                                | Some a, Some w => Some (a + w)%Q | _, _ => None end)
                  (seq 0 T) (Some 0%Q) with
  | Some s => if T =? 0 then None else Some (s / Qn T)%Q
  | None => None
  end.
(** the weights of all samples: cyext_acv.pyx 4396, utils_exp.py 105. *)
Definition undo_weights : option (list Q) :=
  fold_right (fun i acc => match undo_weight i, acc with
                           | Some w, Some l => Some (w :: l) | _, _ => None end)
             (Some []) (seq 0 N).

Variable argsort : list Q -> list nat.  (* np.argsort *)
(** cyext_acv.pyx 4335-4399 (single_compute_quantile_rf) and utils_exp.py 74-108
    (compute_shaff_quantile). *)
Definition compute_quantile (q : Q) : option Q :=
  match undo_weights with
  | Some w => weighted_percentile argsort (combine (map y (seq 0 N)) w) q
  | None => None
  end.

(** utils_exp.py 184-218 (compute_shaff_sdp_clf), 270-310 (compute_shaff_sdp):
    [np.sum(weights * a)] for an indicator [a]. *)
Definition weighted_sum (a : nat -> Q) : option Q :=
  match undo_weights with
  | Some w => Some (sumf (fun p => snd p * a (fst p))%Q (combine (seq 0 N) w))
  | None => None
  end.
(** utils_exp.py 184-218. *)
Definition compute_shaff_sdp_clf (yx : Q) : option Q := weighted_sum (fun i => Qb (qeqb (y i) yx)).
(** utils_exp.py 270-310. *)
Definition compute_shaff_sdp (yx t : Q) : option Q :=
  weighted_sum (fun i => Qb (qleb ((y i - yx) * (y i - yx))%Q t)).

(** utils_exp.py 111-140 (compute_shaff_exp): mean over the trees of the mean
    target of the samples; [None]: mean of an empty array. *)
Definition compute_shaff_exp : option Q :=
  match fold_left (fun acc b => match acc with
                    | Some a => let l := undo_selected b in
                        if length l =? 0 then None else Some (a + sumf y l / Qn (length l))%Q
                    | None => None end)
                  (seq 0 T) (Some 0%Q) with
  | Some s => if T =? 0 then None else Some (s / Qn T)%Q
  | None => None
  end.
End Undo.

(** ** Quantile of the differences *)
(** cyext_acv.pyx 4427-4488 (single_compute_quantile_diff_rf): weights as in
    the vector routines, differences of the targets; samples never selected keep
    weight and difference zero. *)
Definition compute_quantile_diff (M : fmem) (data : nat -> pt) (y : nat -> Q) (N depth m : nat)
  (Sv : list nat) (x : pt) (yx : Q) (argsort : list Q -> list nat) (q : Q) : option Q :=
  let sels := map (selected M (fun R => vec_step R Sv x data) m depth N) (seq 0 (F_trees M)) in
  let w i := (sumf (fun l => if memb i l then 1 / Qn (length l) else 0) sels / Qn (F_trees M))%Q in
  let diff i := if existsb (memb i) sels then (yx - y i)%Q else 0%Q in
  weighted_percentile argsort (map (fun i => (diff i, w i)) (seq 0 N)) q.

(** Model of the value tables of binary boosted classifiers (XGBClassifier, LGBMClassifier,
    CatBoostClassifier, GradientBoostingClassifier with one output) and of the table that
    each classifier routine of ACVTree hands to the compiled code.  Leaf values are real
    numbers here, because the logistic function leaves the rationals; floating point
    rounding is not modelled. *)
From Coq Require Import List Arith Reals Lia Lra.
Import ListNotations.

(** base_tree.py 541: p = 1 / (1 + np.exp(-values)) *)
Definition logistic (v : R) : R := (1 / (1 + exp (- v)))%R.

(** base_tree.py 516: max_nodes, the number of nodes of the largest tree; a tree is the
    list of the raw values of its nodes (one output) *)
Definition max_nodes (ts : list (list R)) : nat := fold_right Nat.max 0 (map (@length R) ts).

(** base_tree.py 542: the row [1 - p, p] / num_trees of one node *)
Definition binary_row (T : nat) (v : R) : list R :=
  [((1 - logistic v) / INR T)%R; (logistic v / INR T)%R].

(** base_tree.py 533-542: values_binary, in the order of the memory of the array: tree,
    node, class; the nodes past the end of a tree stay zero *)
Definition values_binary (ts : list (list R)) : list R :=
  flat_map (fun t => flat_map (binary_row (length ts)) t ++ repeat 0%R (2 * (max_nodes ts - length t))) ts.

(** base_tree.py 551, 576: values of a model with one output, in the order of the memory *)
Definition values_raw (ts : list (list R)) : list R :=
  flat_map (fun t => t ++ repeat 0%R (max_nodes ts - length t)) ts.

(** cyext_acv.pyx 424-426, cyext_acv_nopa.pyx 418-420: values[b, n, c], read without bounds
    checks (336, 334) from an array with m nodes per tree and w classes per node; None
    beyond the end of the array *)
Definition read (m w : nat) (mem : list R) (b n c : nat) : option R :=
  nth_error mem ((b * m + n) * w + c).

(** acv_tree.py 151-341, 402-439, 528-544, 563-577, 585-590: the classifier routines *)
Inductive routine := Greedy | SearchSpace | SdpClf | SdpClfCat | Ptrees
  | GreedyNopa | SdpClfNopa | SdpClfCatNopa | Swing | SwingNopa | SwingSlow.

(** acv_tree.py 193-206, 252-264, 289-301, 326-340, 531-543: the table of probabilities for
    the boosted classes with one output, the raw values otherwise; 410, 423, 435, 566, 574,
    588: always the raw values *)
Definition takes_binary (boosted : bool) (outputs : nat) (r : routine) : bool :=
  match r with
  | Greedy | SearchSpace | SdpClf | SdpClfCat | Ptrees => boosted && (outputs =? 1)
  | GreedyNopa | SdpClfNopa | SdpClfCatNopa | Swing | SwingNopa | SwingSlow => false
  end.

(** base_tree.py 533, 551: number of columns of the table handed over *)
Definition width (boosted : bool) (outputs : nat) (r : routine) : nat :=
  if takes_binary boosted outputs r then 2 else outputs.

(** acv_tree.py 200, 410, 566: what a routine reads for class c of a binary boosted model *)
Definition looks_up (ts : list (list R)) (r : routine) (b n c : nat) : option R :=
  if takes_binary true 1 r then read (max_nodes ts) 2 (values_binary ts) b n c
  else read (max_nodes ts) 1 (values_raw ts) b n c.

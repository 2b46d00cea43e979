(** Model of the quantile methods as the array programs they are: [compute_quantile_rf] and [compute_quantile_diff_rf] with
    their work buffers (cyext_acv.pyx 4335-4514, called by acv_tree.py 1082-1096, 1249-1262), and of the methods that loop over the
    Python routines of utils_exp.py ([compute_exp_shaff], [compute_sdp_clf_shaff], [compute_sdp_shaff], [compute_quantile_shaff],
    acv_tree.py 804-830, 1290-1316).  Doubles that are not numbers are kept apart from exceptions.  No proofs here.
    Simplifications, for the whole file: exact arithmetic (also instead of float32), no integer overflow, rows of [X] and
    [data] with as many columns as the forest looks at. *)
From Verif Require Import Base TreeModel NopaModel ShapModel AxsModel RfModel QuantModel.
Local Open Scope nat_scope.

(** A double: a number, or not a number (cyext_acv.pyx 4394: an infinity times zero). *)
Definition num := option Q.
(** [a += b] (cyext_acv.pyx 4394) *)
Definition nadd (a b : num) : num := match a, b with Some p, Some q => Some (p + q)%Q | _, _ => None end.
(** [samples[i] * (1/s)] with C division (cyext_acv.pyx 4394).  [s] is the sum of the samples: where it is 0 they are all 0 and the
    product is not a number. *)
Definition share (a s : Q) : num := if qeqb s 0 then None else Some (a * (1 / s))%Q.
(** [np.array(weights)/n_trees] (cyext_acv.pyx 4396, 4488); 0/0 is not a number. *)
Definition over (T : nat) (a : num) : num :=
  match a with Some q => if T =? 0 then None else Some (q / Qn T)%Q | None => None end.

(** ** The percentile, of weights that may not be numbers *)

(** [a[sorter]], [weights[sorter]] (utils.py 894-896) *)
Definition reorder_num (argsort : list Q -> list nat) (l : list (Q * num)) : list (Q * num) :=
  map (fun i => nth i l (0%Q, Some 0%Q)) (argsort (map fst l)).
(** [weights != 0] (utils.py 898): true for what is not a number *)
Definition kept (p : Q * num) : bool := match snd p with Some w => negb (qeqb w 0) | None => true end.
(** Is the weight a number (utils.py 911-915)? *)
Definition is_num (p : Q * num) : bool := match snd p with Some _ => true | None => false end.
(** utils.py 883-924 with [sorter] given; [None] is an exception.  One weight that is not a number makes [total], and with it all of
    [partial_sum], not a number; [np.searchsorted] puts those last, hence [start = -1] (utils.py 912-920). *)
Definition percentile_num (argsort : list Q -> list nat) (l : list (Q * num)) (q : Q) : option Q :=
  if qltb 100 q || qltb q 0 then None
  else
    let k := filter kept (reorder_num argsort l) in
    if forallb is_num k then percentile_sorted (map (fun p => (fst p, match snd p with Some w => w | None => 0%Q end)) k) q
    else option_map fst (hd_error k).

(** ** [single_compute_quantile_rf] *)

Section Walk.
(** the tree, the set, the observation, the [N] training samples, [min_node_size] *)
Variables (R : row) (Sv : list nat) (x : pt) (data : nat -> pt) (N : nat) (m : Z).

(** [nodes_child], [samples], [samples_child] (cyext_acv.pyx 4346-4354) *)
Record walk := mkWalk { k_child : list Z; k_samples : nat -> Q; k_sub : nat -> Q }.
(** [for i in range(N): a[i] = g(i)] (cyext_acv.pyx 4353-4355, 4384-4385) *)
Definition store (g : nat -> Q) (a : nat -> Q) : nat -> Q := fold_left (fun a i => upd a i (g i)) (seq 0 N) a.
(** [for i in range(N): samples_child[i] = g(i); s += samples_child[i]] (cyext_acv.pyx 4364-4366, 4370-4372, 4377-4379) *)
Definition store_sum (g : nat -> Q) (a : nat -> Q) : (nat -> Q) * Q :=
  fold_left (fun st i => let a' := upd (fst st) i (g i) in (a', (snd st + a' i)%Q)) (seq 0 N) (a, 0%Q).
(** cyext_acv.pyx 4358-4379: one node; the second component is [s] *)
Definition walk_node (n : Z) (st : walk) : walk * Q :=
  let f := Z.to_nat (r_feat R n) in
  let t := r_thr R n in
  let a := k_samples st in
  if inS Sv (r_feat R n) then
    if qleb (x f) t then
      let '(sub, s) := store_sum (fun i => (a i * Qb (qleb (data i f) t))%Q) (k_sub st) in
      (mkWalk (k_child st ++ [r_left R n]) a sub, s)
    else
      let '(sub, s) := store_sum (fun i => (a i * Qb (qltb t (data i f)))%Q) (k_sub st) in
      (mkWalk (k_child st ++ [r_right R n]) a sub, s)
  else
    let '(sub, s) := store_sum a (k_sub st) in
    (mkWalk (k_child st ++ [r_left R n; r_right R n]) a sub, s).
(** cyext_acv.pyx 4357-4385: the nodes of one level; [break] when too few samples are left *)
Fixpoint walk_nodes (nodes : list Z) (st : walk) : walk :=
  match nodes with
  | [] => st
  | n :: rest =>
      let '(st', s) := walk_node n st in
      if qltb s (inject_Z m) then st'
      else walk_nodes rest (mkWalk (k_child st') (store (k_sub st') (k_samples st')) (k_sub st'))
  end.
(** cyext_acv.pyx 4356-4387: the levels *)
Fixpoint walk_levels (depth : nat) (nodes : list Z) (st : walk) : walk :=
  match depth with
  | O => st
  | S k => let st' := walk_nodes nodes st in walk_levels k (k_child st') st'
  end.
(** cyext_acv.pyx 4348-4387: one tree, on the buffers as they are *)
Definition walk_tree (depth : nat) (samples sub : nat -> Q) : walk :=
  walk_levels depth [0%Z] (mkWalk [] (store (fun _ => 1%Q) samples) (store (fun _ => 1%Q) sub)).
End Walk.

Section Quantile.
(** the arrays of the forest, the training samples and targets, [max_depth], [min_node_size] *)
Variables (M : fmem) (data : nat -> pt) (N : nat) (Y : list Q) (depth : nat) (m : Z).
(** [np.argsort] (cyext_acv.pyx 4397, 4489), [quantile] *)
Variables (argsort : list Q -> list nat) (q : Q).

(** The buffers of one observation: [weights[i, :]], [samples[i, :]], [samples_child[i, :]] (cyext_acv.pyx 4410-4416). *)
Record bufs := mkBufs { u_weights : nat -> num; u_samples : nat -> Q; u_sub : nat -> Q }.
(** cyext_acv.pyx 4347-4394: one tree *)
Definition quantile_tree (Sv : list nat) (x : pt) (st : bufs) (b : nat) : bufs :=
  let k := walk_tree (row_of M b) Sv x data N m depth (u_samples st) (u_sub st) in
  let s := fold_left (fun s i => (s + k_samples k i)%Q) (seq 0 N) 0%Q in
  mkBufs (fold_left (fun w i => upd w i (nadd (w i) (share (k_samples k i) s))) (seq 0 N) (u_weights st)) (k_samples k) (k_sub k).
(** cyext_acv.pyx 4335-4399: one observation; [None] is an exception of [weighted_percentile], also for targets of another number
    than the samples (utils.py 891-892).  Simplification: [argsort] is asked for the first [N] targets. *)
Definition quantile_one (Sv : list nat) (x : pt) (st : bufs) : option Q * bufs :=
  let st' := fold_left (quantile_tree Sv x) (seq 0 (F_trees M)) st in
  (if length Y =? N then
     percentile_num argsort (map (fun i => (nth i Y 0%Q, over (F_trees M) (u_weights st' i))) (seq 0 N)) q
   else None, st').

(** Does a [cdef double] function pass on an exception?  Before Cython 3 it is printed and the value is 0; since then it is passed on
    (cyext_acv.pyx 4335, 4427; requirements.txt 5 names no version). *)
Variable strict : bool.
(** what the loop stores (cyext_acv.pyx 4419, 4508) *)
Definition caught (r : option Q) : ending Q :=
  match r with Some v => Gives v | None => if strict then Raises else Gives 0%Q end.

(** [weights], [samples], [samples_child], one row per observation (cyext_acv.pyx 4410-4416, 4500-4505) *)
Record arrays := mkArrays { a_weights : nat -> nat -> num; a_samples : nat -> nat -> Q; a_sub : nat -> nat -> Q }.
(** [np.zeros], [np.ones] (cyext_acv.pyx 4414-4416, 4503-4505) *)
Definition fresh : arrays := mkArrays (fun _ _ => Some 0%Q) (fun _ _ => 1%Q) (fun _ _ => 1%Q).
(** cyext_acv.pyx 4418-4421: one pass; [S[i]] of a vector is not checked *)
Definition quantile_pass (Ss : list (list nat)) (st : (nat -> Q) * arrays) (ix : nat * pt) : ending ((nat -> Q) * arrays) :=
  let '(i, x) := ix in
  match nth_error Ss i with
  | None => Strays
  | Some Sv =>
      let A := snd st in
      let '(r, u) := quantile_one Sv x (mkBufs (a_weights A i) (a_samples A i) (a_sub A i)) in
      next (caught r) (fun v =>
        Gives (upd (fst st) i v, mkArrays (upd (a_weights A) i (u_weights u)) (upd (a_samples A) i (u_samples u)) (upd (a_sub A) i (u_sub u))))
  end.
(** a loop whose passes may end it (cyext_acv.pyx 4418, 4507) *)
Fixpoint passes {A B} (f : A -> B -> ending A) (l : list B) (s : A) : ending A :=
  match l with [] => Gives s | b :: r => next (f s b) (fun s' => passes f r s') end.
(** cyext_acv.pyx 4405-4422 ([compute_quantile_rf]), acv_tree.py 1082-1087, 1249-1254 *)
Definition quantile_batch (X : list pt) (Ss : list (list nat)) : ending (list Q) :=
  next (passes (quantile_pass Ss) (indexed X) (fun _ => 0%Q, fresh)) (fun st => Gives (map (fst st) (seq 0 (length X)))).

(** ** [single_compute_quantile_diff_rf] *)

(** [in_data.size() < min_node_size] compares unsigned numbers: a negative size is larger than every size (cyext_acv.pyx 4476). *)
Definition cutoff : nat := if (m <? 0)%Z then S N else Z.to_nat m.
(** cyext_acv.pyx 4481-4484: one selected sample; [y_data] is read without a check.  The state is [weights] and [local_diff]. *)
Definition diff_sample (yx : Q) (size : nat) (st : (nat -> num) * (nat -> Q)) (i : nat) : ending ((nat -> num) * (nat -> Q)) :=
  match nth_error Y i with
  | None => Strays
  | Some yi => Gives (upd (fst st) i (nadd (fst st i) (Some (1 / Qn size)%Q)), upd (snd st) i (yx - yi)%Q)
  end.
(** cyext_acv.pyx 4440-4484: one tree *)
Definition diff_tree (Sv : list nat) (x : pt) (yx : Q) (st : (nat -> num) * (nat -> Q)) (b : nat) : ending ((nat -> num) * (nat -> Q)) :=
  let l := selected M (fun R => vec_step R Sv x data) cutoff depth N b in
  passes (diff_sample yx (length l)) l st.
(** cyext_acv.pyx 4427-4488: one observation *)
Definition diff_one (Sv : list nat) (x : pt) (yx : Q) (w : nat -> num) : ending (option Q * (nat -> num)) :=
  next (passes (diff_tree Sv x yx) (seq 0 (F_trees M)) (w, fun _ => 0%Q)) (fun st =>
    Gives (percentile_num argsort (map (fun i => (snd st i, over (F_trees M) (fst st i))) (seq 0 N)) q, fst st)).
(** cyext_acv.pyx 4507-4510: one pass.  Simplification: a missing target of the observation strays also where no sample is selected. *)
Definition diff_pass (Ss : list (list nat)) (yX : list Q) (st : (nat -> Q) * arrays) (ix : nat * pt) : ending ((nat -> Q) * arrays) :=
  let '(i, x) := ix in
  match nth_error Ss i, nth_error yX i with
  | Some Sv, Some yx =>
      let A := snd st in
      next (diff_one Sv x yx (a_weights A i)) (fun rw =>
      next (caught (fst rw)) (fun v => Gives (upd (fst st) i v, mkArrays (upd (a_weights A) i (snd rw)) (a_samples A) (a_sub A))))
  | _, _ => Strays
  end.
(** cyext_acv.pyx 4494-4511 ([compute_quantile_diff_rf]), acv_tree.py 1089-1096, 1256-1262 *)
Definition diff_batch (X : list pt) (yX : list Q) (Ss : list (list nat)) : ending (list Q) :=
  next (passes (diff_pass Ss yX) (indexed X) (fun _ => 0%Q, fresh)) (fun st => Gives (map (fst st) (seq 0 (length X)))).
End Quantile.

(** ** The Python routines and the methods that loop over them *)

Section Shaff.
(** the trees, the training samples and targets, [max_depth], [min_node_size], the set.  Simplification: as many targets as samples. *)
Variables (ts : list tree) (data : nat -> pt) (N : nat) (y : nat -> Q) (depth : nat) (m : Z) (Sv : list nat).
(** [samples] of tree [b] (utils_exp.py 77-102, 114-137, 187-210, 273-296); a size below zero is as good as zero (97, 132, 205, 291) *)
Definition py_selected (x : pt) (b : nat) : list nat := undo_selected (py_rows ts) data N depth (Z.to_nat m) Sv x b.
(** [weight[samples] = 1/np.sum(samples)] (utils_exp.py 103, 211, 297): without a sample nothing is stored *)
Definition py_tree_weight (x : pt) (i b : nat) : Q :=
  let l := py_selected x b in if length l =? 0 then 0%Q else (Qb (memb i l) * (1 / Qn (length l)))%Q.
(** [np.mean(weights, axis=0)] (utils_exp.py 105, 213, 299); not a number without trees *)
Definition py_weight (x : pt) (i : nat) : num :=
  if length ts =? 0 then None else Some (fold_left (fun a b => a + py_tree_weight x i b)%Q (seq 0 (length ts)) 0%Q / Qn (length ts))%Q.
(** [np.sum(weights * a)] (utils_exp.py 215, 302) *)
Definition py_sum (x : pt) (a : nat -> Q) : num :=
  fold_left (fun s i => match s, py_weight x i with Some s, Some w => Some (s + w * a i)%Q | _, _ => None end) (seq 0 N) 
            (if length ts =? 0 then None else Some 0%Q).
(** utils_exp.py 184-216 ([compute_shaff_sdp_clf]) *)
Definition py_sdp_clf (x : pt) (yx : Q) : num := py_sum x (fun i => Qb (qeqb (y i) yx)).
(** utils_exp.py 270-303 ([compute_shaff_sdp]) *)
Definition py_sdp (x : pt) (yx t : Q) : num := py_sum x (fun i => Qb (qleb ((y i - yx) * (y i - yx))%Q t)).
(** [np.mean(Y[samples])] (utils_exp.py 138); not a number for no sample *)
Definition py_mean (l : list nat) : num := if length l =? 0 then None else Some (sumf y l / Qn (length l))%Q.
(** utils_exp.py 111-139 ([compute_shaff_exp]) *)
Definition py_exp (x : pt) : num :=
  over (length ts) (fold_left (fun a b => nadd a (py_mean (py_selected x b))) (seq 0 (length ts)) (Some 0%Q)).
(** utils_exp.py 74-108 ([compute_shaff_quantile]); [None] is an exception: without trees the weights are one number (utils.py 891) *)
Definition py_quantile (argsort : list Q -> list nat) (q : Q) (x : pt) : option Q :=
  if length ts =? 0 then None
  else percentile_num argsort (map (fun i => (y i, py_weight x i)) (seq 0 N)) q.

(** [exp[i] = value] for every row (acv_tree.py 804-808, 1290-1294); one column *)
Definition exp_shaff (X : list pt) : list num := map py_exp X.
(** a loop over the rows that stores one value per row or raises (acv_tree.py 812-814, 819-821, 826-828, 1298-1300, 1305-1307, 1312-1314) *)
Fixpoint per_row {A} (f : nat -> pt -> option A) (i : nat) (X : list pt) : ending (list A) :=
  match X with
  | [] => Gives []
  | x :: r => match f i x with None => Raises | Some v => next (per_row f (S i) r) (fun l => Gives (v :: l)) end
  end.
(** acv_tree.py 810-815, 1296-1301; [y_X[i]] may be missing *)
Definition sdp_clf_shaff (X : list pt) (yX : list Q) : ending (list num) :=
  per_row (fun i x => option_map (py_sdp_clf x) (nth_error yX i)) 0 X.
(** acv_tree.py 817-822, 1303-1308 *)
Definition sdp_shaff (X : list pt) (yX : list Q) (t : Q) : ending (list num) :=
  per_row (fun i x => option_map (fun yx => py_sdp x yx t) (nth_error yX i)) 0 X.
(** acv_tree.py 824-829, 1310-1315 *)
Definition quantile_shaff (argsort : list Q -> list nat) (q : Q) (X : list pt) : ending (list Q) :=
  per_row (fun _ x => py_quantile argsort q x) 0 X.
End Shaff.

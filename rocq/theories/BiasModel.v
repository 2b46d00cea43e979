(** Model of the rules kept level by level and cut afterwards: single_compute_sdp_rule_biased, compile_rules,
    compute_sdp_rule_biased, compute_sdp_maxrule_biased and compute_sdp_maxrule_biased_v2, cyext_acv.pyx 4826-4965,
    5085-5127.  The loop over [X] is not modelled: the work of one observation does not depend on the others. *)
From Verif Require Import Base TreeModel RfModel RecModel.
Local Open Scope nat_scope.

(** [partition[f, b, level, 0]] and [partition[f, b, level, 1]] for one tree [b], cyext_acv.pyx 4850-4857. *)
Definition layers := nat -> rule.
(** cyext_acv.pyx 4899-4900: the buffers before the call. *)
Definition layers0 : layers := fun _ => rule0.

Section Bias.
Variable R : row.
Variable Sv : list nat.
Variable x : pt.
(** Body of the loop over the nodes of a level, cyext_acv.pyx 4845-4861: [nodes_child] and the bounds. *)
Definition bias_step (level : nat) (st : list Z * layers) (n : Z) : list Z * layers :=
  let f := Z.to_nat (r_feat R n) in
  let t := r_thr R n in
  if inS Sv (r_feat R n) then
    if qleb (x f) t
    then (fst st ++ [r_left R n], upd (snd st) level (cut_hi (snd st level) f t))
    else (fst st ++ [r_right R n], upd (snd st) level (cut_lo (snd st level) f t))
  else (fst st ++ [r_left R n; r_right R n], snd st).
(** cyext_acv.pyx 4843-4863: [fuel] levels from [level]; [nodes_child] is never emptied between the levels. *)
Fixpoint bias_levels (fuel level : nat) (nodes : list Z) (st : list Z * layers) : list Z * layers :=
  match fuel with
  | O => st
  | S k => let st' := fold_left (bias_step level) nodes st in bias_levels k (S level) (fst st') st'
  end.
(** cyext_acv.pyx 4838-4863: the bounds one tree writes.  The value returned by the routine, [sdp], stays 0 (4833, 4865). *)
Definition bias_tree (depth : nat) : layers := snd (bias_levels depth 0 [0%Z] ([], layers0)).
End Bias.

(** cyext_acv.pyx 4875-4876 ([part_dn], [part_up]): the tightest bounds of the first [depth] levels. *)
Definition merge_levels (p : layers) (depth : nat) : rule :=
  fun f => (max_of (map (fun l => fst (p l f)) (seq 0 depth)), min_of (map (fun l => snd (p l f)) (seq 0 depth))).
(** cyext_acv.pyx 4877-4878: a row satisfies the bounds on [S]. *)
Definition row_in (p : rule) (Sv : list nat) (z : pt) : bool :=
  forallb (fun s => qleb (z s) (snd (p s)) && qleb (fst (p s)) (z s)) Sv.
(** cyext_acv.pyx 4877-4879 ([tn]); the product over no variable is the number 1, whose sum is 1. *)
Definition tn_of (p : rule) (Sv : list nat) (data : nat -> pt) (N : nat) : nat :=
  match Sv with [] => 1 | _ => length (filter (fun i => row_in p Sv (data i)) (seq 0 N)) end.
(** cyext_acv.pyx 4872-4880: the loop over [depth] for one tree.  None: the minimum over no level raises a ValueError. *)
Fixpoint shrink (p : layers) (Sv : list nat) (data : nat -> pt) (N m depth : nat) : option rule :=
  match depth with
  | O => None
  | S k => if m <? tn_of (merge_levels p depth) Sv data N then Some (merge_levels p depth) else shrink p Sv data N m k
  end.
(** All the trees of a loop in which each of them may raise, cyext_acv.pyx 4871-4883. *)
Fixpoint all_some {A} (l : list (option A)) : option (list A) :=
  match l with
  | [] => Some []
  | o :: r => match o, all_some r with Some a, Some q => Some (a :: q) | _, _ => None end
  end.
(** cyext_acv.pyx 4867-4888 ([compile_rules]).  None: ValueError, also for no tree (4884). *)
Definition compile_rules (ps : list layers) (Sv : list nat) (data : nat -> pt) (N m depth : nat) : option rule :=
  match all_some (map (fun p => shrink p Sv data N m depth) ps) with
  | Some (r :: rs) => Some (fun f => (max_of (map (fun q => fst (q f)) (r :: rs)), min_of (map (fun q => snd (q f)) (r :: rs))))
  | _ => None
  end.

Section Batch.
Variable M : fmem.
Variable data : nat -> pt.
Variable N : nat.
Variables (depth m : nat).
Variable Sv : list nat.
(** cyext_acv.pyx 4911-4916: [rules[i]] for the observation [x]. *)
Definition rule_biased (x : pt) : option rule :=
  compile_rules (map (fun b => bias_tree (row_of M b) Sv x depth) (seq 0 (F_trees M))) Sv data N m depth.
(** cyext_acv.pyx 4895-4919 (compute_sdp_rule_biased): the probability and the rule of one observation. *)
Definition compute_sdp_rule_biased (x : pt) : option (Q * rule) :=
  match rule_biased x with Some r => Some (0%Q, r) | None => None end.
(** cyext_acv.pyx 4926-4965 (compute_sdp_maxrule_biased): the probability and the rule of the observation, then
    those of all the training samples. *)
Definition compute_sdp_maxrule_biased (x : pt) : option (Q * rule * list (Q * rule)) :=
  match rule_biased x, all_some (map (fun j => compute_sdp_rule_biased (data j)) (seq 0 N)) with
  | Some r, Some l => Some (0%Q, r, l)
  | _, _ => None
  end.
Variable y : nat -> Q.
Variables (classifier : bool) (t : Q).
(** cyext_acv.pyx 5085-5127 (compute_sdp_maxrule_biased_v2): probability, rule and weights of the observation by the
    routine without sets (4971-5038); the samples with a weight get the rule above, the others the zeros of 5102, 5106. *)
Definition compute_sdp_maxrule_biased_v2 (x : pt) (yx : Q) : option (Q * rule * (nat -> Q) * list (Q * rule)) :=
  let '(p, r, w) := compute_sdp_rule_v0_weights M data y N depth m classifier t Sv x yx in
  match all_some (map (fun j => if negb (qeqb (w j) 0) then compute_sdp_rule_biased (data j)
                                else Some (0%Q, fun _ : nat => (0%Q, 0%Q))) (seq 0 N)) with
  | Some l => Some (p, r, w, l)
  | None => None
  end.
End Batch.

(** Model of the Shapley values that the experiments compute by enumerating the orders of arrival: linear_shap,
    linear_mar_shap and tree_shap (experiments/exp_linear.py 461-557; the same text in experiments/exp_syn.py 471-567 and
    experiments/shap_linear.py 469-565, and with other value functions in experiments/exp_linear_gmm.py 1126-1237).
    Numbers are rationals: no rounding, no NaN. *)
From Verif Require Import Base ShapModel SwingModel MvnModel.
From Coq Require Import ZArith.
Local Open Scope nat_scope.

(** itertools.permutations, experiments/exp_linear.py 482: the choices of one position, with what is left. *)
Fixpoint picks {A : Type} (l : list A) : list (A * list A) :=
  match l with
  | [] => []
  | a :: r => (a, r) :: map (fun br => (fst br, a :: snd br)) (picks r)
  end.
(** itertools.permutations, experiments/exp_linear.py 482: [n] is the length; entries are told apart by their position. *)
Fixpoint perms {A : Type} (n : nat) (l : list A) : list (list A) :=
  match n with
  | O => [[]]
  | S k => flat_map (fun ar => map (cons (fst ar)) (perms k (snd ar))) (picks l)
  end.
(** experiments/exp_linear.py 471-477: [m] is counted by subtractions, it can be negative. *)
Definition perm_m (C : list group) (d : nat) : Z :=
  if has_coal C then (fold_left (fun m c => m - Z.of_nat (length c))%Z C (Z.of_nat d) + Z.of_nat (length C))%Z
  else Z.of_nat d.
(** experiments/exp_linear.py 472-479 ([va_id]): the text of py_acv.py 401-409.  Simplification: [list(set(...))] lists the
    columns in increasing order. *)
Definition perm_ids (C : list group) (d : nat) : list item := py_items C d.
(** experiments/exp_linear.py 481-485: the sum of what the iterations add to one entry; an exception stops the loops. *)
Definition sum_opt (l : list (option Q)) : option Q :=
  fold_left (fun acc o => match acc, o with Some a, Some b => Some (a + b)%Q | _, _ => None end) l (Some 0%Q).

Section Perm.
(** the value function, experiments/exp_linear.py 485, 513, 555-556; None is an exception. *)
Variable v : list nat -> option Q.
(** experiments/exp_linear.py 484-485: what iteration [i] of the order [p] adds to [phi[j]].  A list of positions adds once to
    each of its entries; a position outside of the array is an IndexError. *)
Definition perm_term (d : nat) (p : list item) (i j : nat) : option Q :=
  match nth_error p i with
  | None => None
  | Some it =>
    match chain_l (firstn (i + 1) p), chain_l (firstn i p) with
    | Some up, Some lo =>
      match v up, v lo with
      | Some a, Some b => if forallb (fun k => k <? d) (snd it) then Some (if memb j (snd it) then a - b else 0)%Q else None
      | _, _ => None
      end
    | _, _ => None
    end
  end.
(** experiments/exp_linear.py 471-486 ([phi[j]]); [C[0]] of an empty list and the factorial of a negative number raise. *)
Definition perm_shap (C : list group) (d j : nat) : option Q :=
  match C with
  | [] => None
  | _ =>
    let ids := perm_ids C d in
    let m := perm_m C d in
    match sum_opt (flat_map (fun p => map (fun i => perm_term d p i j) (seq 0 (Z.to_nat m))) (perms (length ids) ids)) with
    | Some q => if (m <? 0)%Z then None else Some (q / Qn (fact (Z.to_nat m)))%Q
    | None => None
    end
  end.
End Perm.

(** experiments/exp_linear.py 438-459 ([mar_exp_linear_model]); the positions of [S_bar] are in the array. *)
Definition mar_exp_model (d : nat) (mean coefs x : vec) (Sv : list nat) : Q :=
  let S_bar := filter (fun i => negb (memb i Sv)) (seq 0 d) in
  let x_in := if length Sv =? d then x else write_at x S_bar (vsub mean S_bar) in
  sumf (fun i => coefs i * x_in i)%Q (seq 0 d).
(** experiments/exp_linear.py 488-514 ([linear_mar_shap]). *)
Definition linear_mar_shap (d : nat) (mean coefs x : vec) (C : list group) (j : nat) : option Q :=
  perm_shap (fun S => Some (mar_exp_model d mean coefs x S)) C d j.
(** experiments/exp_linear.py 461-486 ([linear_shap]); cond_exp_linear_model (373-396) is the text of
    experiments/exp_linear_gmm.py 183-205 without the class.  [inv] is np.linalg.inv. *)
Definition linear_shap (inv : nat -> mat -> option mat) (d : nat) (mean : vec) (cov : mat) (coefs x : vec)
  (C : list group) (j : nat) : option Q :=
  perm_shap (cond_exp_linear inv d mean cov coefs x) C d j.

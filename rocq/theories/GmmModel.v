(** Model of the exact conditional expectations of the linear model on a mixture of three Gaussian vectors,
    experiments/exp_linear_gmm.py 89-105 (linear_gmm), 125-151 (density_x_y_set), 207-269 (cond_exp_linear_gmm), and of their
    Shapley values, 1126-1161 (linear_gmm_shap).  Numbers are rationals: no rounding, no NaN; a division by zero has no value. *)
From Verif Require Import Base ShapModel SwingModel MvnModel PermModel.
Local Open Scope nat_scope.

(** The keys of the dictionaries, experiments/exp_linear_gmm.py 6-9: 'a', 'b' and 'c' (gen_data, 74-84, reads exactly these). *)
Inductive cls := Ka | Kb | Kc.
(** [self.mean.keys()], experiments/exp_linear_gmm.py 231, 237, and [self.pi.keys()], 247. *)
Definition keys : list cls := [Ka; Kb; Kc].
(** [key != ...], experiments/exp_linear_gmm.py 247. *)
Definition cls_eqb (y z : cls) : bool :=
  match y, z with Ka, Ka => true | Kb, Kb => true | Kc, Kc => true | _, _ => false end.
(** The attributes of the constructor, experiments/exp_linear_gmm.py 26-37. *)
Record gmm := { gm_d : nat; gm_cat : list nat; gm_mean : cls -> vec; gm_cov : cls -> mat; gm_coefs : cls -> vec; gm_pi : cls -> Q }.
(** [self.index_cat], experiments/exp_linear_gmm.py 30: the second assignment to a repeated key wins; None is the KeyError. *)
Definition index_cat (G : gmm) (k : nat) : option cls :=
  if k =? nth 1 (gm_cat G) 0 then Some Kb else if k =? nth 0 (gm_cat G) 0 then Some Ka else None.
(** [self.revers_dummy[str(...)]], experiments/exp_linear_gmm.py 39, 242: a list of two numbers; None is the KeyError.
    Simplification: the strings are those of floating point numbers, equal when the numbers are. *)
Definition revers_dummy (l : list Q) : option cls :=
  match l with
  | [u; v] => if qeqb u 1 && qeqb v 0 then Some Ka else if qeqb u 0 && qeqb v 1 then Some Kb
              else if qeqb u 0 && qeqb v 0 then Some Kc else None
  | _ => None
  end.

Section Gmm.
(** np.linalg.inv, utils.py 279. *)
Variable inv : nat -> mat -> option mat.
(** scipy's multivariate_normal(mean, cov).pdf(x), experiments/exp_linear_gmm.py 147-148: size, mean, covariance, point; None is an
    exception. *)
Variable pdf : nat -> vec -> mat -> vec -> option Q.

(** experiments/exp_linear_gmm.py 99-105 ([linear_gmm]); [n] is the length of the observation.  linear_regression_0 is the scalar
    product (experiments/utils.py 419-420). *)
Definition linear_gmm (G : gmm) (n : nat) (x : vec) : option Q :=
  match gm_cat G with
  | k0 :: k1 :: _ =>
    if (k0 <? n) && (k1 <? n) then
      let dot := fun y => sumf (fun i => gm_coefs G y i * x i)%Q (seq 0 (gm_d G)) in
      Some (dot Ka * Qb (qeqb (x k0) 1 && qeqb (x k1) 0) + dot Kb * Qb (qeqb (x k0) 0 && qeqb (x k1) 1)
            + dot Kc * Qb (qeqb (x k0) 0 && qeqb (x k1) 0))%Q
    else None
  | _ => None
  end.
(** experiments/exp_linear_gmm.py 138-151 ([density_x_y_set]): the indices must be below [d]. *)
Definition density (G : gmm) (x : vec) (y : cls) (Sv : list nat) : option Q :=
  match Sv with
  | [] => pdf (gm_d G) (gm_mean G y) (gm_cov G y) x
  | _ => if in_range (gm_d G) Sv then pdf (length Sv) (vsub (gm_mean G y) Sv) (msub (gm_cov G y) Sv Sv) (vsub x Sv) else None
  end.
(** experiments/exp_linear_gmm.py 183-205 ([cond_exp_linear_y_set]). *)
Definition cond_y (G : gmm) (x : vec) (y : cls) (Sv : list nat) : option Q :=
  cond_exp_linear inv (gm_d G) (gm_mean G y) (gm_cov G y) (gm_coefs G y) x Sv.
(** One turn of the loops, experiments/exp_linear_gmm.py 232-234, 252-256: what is added to the total and to the numerator. *)
Definition turn (G : gmm) (x : vec) (Sv : list nat) (y : cls) : option (Q * Q) :=
  match density G x y Sv, cond_y G x y Sv with
  | Some p, Some m => Some (gm_pi G y * p, gm_pi G y * p * m)%Q
  | _, _ => None
  end.
(** One turn of the loops without numeric variables, experiments/exp_linear_gmm.py 238, 260-261. *)
Definition turn0 (G : gmm) (x : vec) (Sv : list nat) (y : cls) : option (Q * Q) :=
  match cond_y G x y Sv with Some m => Some (gm_pi G y, gm_pi G y * m)%Q | None => None end.
(** The loops, experiments/exp_linear_gmm.py 228-238, 248-261: the total and the numerator. *)
Definition loop (f : cls -> option (Q * Q)) (l : list cls) : option (Q * Q) :=
  fold_left (fun acc y => match acc, f y with Some (p, c), Some (a, b) => Some (p + a, c + b)%Q | _, _ => None end) l (Some (0, 0)%Q).
(** A division, experiments/exp_linear_gmm.py 235, 257, 262; zero over zero and the like have no value. *)
Definition quot (o : option (Q * Q)) : option Q :=
  match o with Some (p, c) => if qeqb p 0 then None else Some (c / p)%Q | None => None end.
(** experiments/exp_linear_gmm.py 207-269 ([cond_exp_linear_gmm]); [n] is the length of the observation. *)
Definition cond_gmm (G : gmm) (n : nat) (x : vec) (S0 : list nat) : option Q :=
  if length S0 =? n then linear_gmm G n x
  else
    let cat_va := filter (fun k => memb k (gm_cat G)) S0 in
    let Sv := filter (fun k => negb (memb k (gm_cat G))) S0 in
    match cat_va with
    | [] => match Sv with
            | [] => option_map snd (loop (turn0 G x Sv) keys)
            | _ => quot (loop (turn G x Sv) keys)
            end
    | [k] =>
      if k <? n then
        match index_cat G k with
        | None => None
        | Some z =>
          if qeqb (x k) 1 then cond_y G x z Sv
          else
            let cat_sample := filter (fun y => negb (cls_eqb y z)) keys in
            match Sv with
            | [] => quot (loop (turn0 G x Sv) cat_sample)
            | _ => quot (loop (turn G x Sv) cat_sample)
            end
        end
      else None
    | _ => if in_range n cat_va then
             match revers_dummy (map x cat_va) with Some y => cond_y G x y Sv | None => None end
           else None
    end.
(** experiments/exp_linear_gmm.py 1126-1161 ([linear_gmm_shap] without Monte Carlo): the enumeration of experiments/exp_linear.py
    471-486. *)
Definition gmm_shap (G : gmm) (n : nat) (x : vec) (C : list group) (j : nat) : option Q :=
  perm_shap (cond_gmm G n x) C n j.
End Gmm.

(** Model of the Gaussian routines of utils.py 274-307: the parameters of a conditional and of a marginal distribution, and
    the samplers.  Numbers are rationals: no rounding, no NaN.  Simplification: indices are not negative. *)
From Verif Require Import Base.
Local Open Scope nat_scope.

(** A one dimensional array, such as [mean], utils.py 274; only the first entries are read. *)
Definition vec := nat -> Q.
(** A two dimensional array, such as [cov], utils.py 274. *)
Definition mat := nat -> nat -> Q.
(** The pair [mean], [cov] with its dimension, utils.py 274, 285. *)
Record gauss := { g_dim : nat; g_mean : vec; g_cov : mat }.

(** [mean[r]], utils.py 278, 292. *)
Definition vsub (m : vec) (r : list nat) : vec := fun i => m (nth i r 0).
(** [cov[r][:, c]], utils.py 278-283, 293. *)
Definition msub (A : mat) (r c : list nat) : mat := fun i j => A (nth i r 0) (nth j c 0).
(** np.matmul of two matrices with [k] columns and [k] rows, utils.py 278-283. *)
Definition mmul (k : nat) (A B : mat) : mat := fun i j => sumf (fun l => A i l * B l j)%Q (seq 0 k).
(** np.matmul of a matrix and a vector, utils.py 278. *)
Definition mvec (k : nat) (A : mat) (v : vec) : vec := fun i => sumf (fun l => A i l * v l)%Q (seq 0 k).
(** [x - mean[set]], utils.py 279: one value is spread over all the entries, other lengths must agree. *)
Definition spread (x : list Q) (k : nat) : option vec :=
  if length x =? k then Some (fun i => nth i x 0%Q)
  else if length x =? 1 then Some (fun _ => nth 0 x 0%Q) else None.
(** The indices are in the array, utils.py 278; otherwise an IndexError. *)
Definition in_range (n : nat) (l : list nat) : bool := forallb (fun i => i <? n) l.

Section Mvn.
(** np.linalg.inv, utils.py 279, 282: size and matrix; None is the LinAlgError of a singular matrix. *)
Variable inv : nat -> mat -> option mat.

(** utils.py 274-285 ([condMVN]); None is an exception. *)
Definition condMVN (n : nat) (mean : vec) (cov : mat) (set_bar set : list nat) (x : list Q) : option gauss :=
  match set with
  | [] => Some {| g_dim := n; g_mean := mean; g_cov := cov |}
  | _ =>
    if in_range n set_bar && in_range n set then
      match inv (length set) (msub cov set set), spread x (length set) with
      | Some B, Some v =>
        let W := mmul (length set) (msub cov set_bar set) B in
        Some {| g_dim := length set_bar;
                g_mean := fun i => (vsub mean set_bar i + mvec (length set) W (fun j => v j - vsub mean set j) i)%Q;
                g_cov := fun i j => (msub cov set_bar set_bar i j - mmul (length set) W (msub cov set set_bar) i j)%Q |}
      | _, _ => None
      end
    else None
  end.
(** utils.py 288-294 ([marMVN]): [set] is only compared with the empty list, the last argument is not read. *)
Definition marMVN (n : nat) (mean : vec) (cov : mat) (set_bar set : list nat) (x : list Q) : option gauss :=
  match set with
  | [] => Some {| g_dim := n; g_mean := mean; g_cov := cov |}
  | _ => if in_range n set_bar then Some {| g_dim := length set_bar; g_mean := vsub mean set_bar; g_cov := msub cov set_bar set_bar |}
         else None
  end.

(** scipy's multivariate_normal(mean, cov).rvs(N), utils.py 299, 305: the flat sample; None is an exception. *)
Variable rvs : gauss -> nat -> option (list Q).
(** np.reshape of a flat array to rows, utils.py 300, 306: None is the ValueError. *)
Definition reshape (l : list Q) (N k : nat) : option (list (list Q)) :=
  if length l =? N * k then Some (map (fun i => map (fun j => nth (i * k + j) l 0%Q) (seq 0 k)) (seq 0 N)) else None.
(** utils.py 297-300 ([sampleMVN]). *)
Definition sampleMVN (N n : nat) (mean : vec) (cov : mat) (set_bar set : list nat) (x : list Q) : option (list (list Q)) :=
  match condMVN n mean cov set_bar set x with
  | Some g => match rvs g N with Some l => reshape l N (length set_bar) | None => None end
  | None => None
  end.
(** utils.py 303-306 ([sampleMarMVN]): marMVN has five parameters (288), the call at 304 passes four, a TypeError.
    The call is modelled by the number of arguments it binds. *)
Definition mar_params : nat := 5.
(** utils.py 304. *)
Definition mar_args : nat := 4.
(** utils.py 303-306. *)
Definition sampleMarMVN (N n : nat) (mean : vec) (cov : mat) (set_bar set : list nat) : option (list (list Q)) :=
  if mar_args =? mar_params then
    match marMVN n mean cov set_bar set [] with
    | Some g => match rvs g N with Some l => reshape l N (length set_bar) | None => None end
    | None => None
    end
  else None.
End Mvn.

Section LinGmm.
Variable inv : nat -> mat -> option mat.
(** [x_in[S_bar] = mu_bar], experiments/exp_linear_gmm.py 173-175, 200-202: the entries of the list are overwritten. *)
Definition write_at (x : vec) (idx : list nat) (v : vec) : vec :=
  fold_left (fun y i => upd y (nth i idx 0) (v i)) (seq 0 (length idx)) x.
(** experiments/exp_linear_gmm.py 183-205 ([cond_exp_linear_y_set]), with the [y]-th mean, covariance and coefficients. *)
Definition cond_exp_linear (d : nat) (mean : vec) (cov : mat) (coefs : vec) (x : vec) (Sv : list nat) : option Q :=
  let S_bar := filter (fun i => negb (memb i Sv)) (seq 0 d) in
  match condMVN inv d mean cov S_bar Sv (map x Sv) with
  | Some g => let x_in := if length Sv =? d then x else write_at x S_bar (g_mean g) in
              Some (sumf (fun i => coefs i * x_in i)%Q (seq 0 d))
  | None => None
  end.
(** experiments/exp_linear_gmm.py 153-178 ([mar_exp_linear_y_set]). *)
Definition mar_exp_linear (d : nat) (mean : vec) (cov : mat) (coefs : vec) (x : vec) (Sv : list nat) : option Q :=
  let S_bar := filter (fun i => negb (memb i Sv)) (seq 0 d) in
  match marMVN d mean cov S_bar Sv (map x Sv) with
  | Some g => let x_in := if length Sv =? d then x else write_at x S_bar (g_mean g) in
              Some (sumf (fun i => coefs i * x_in i)%Q (seq 0 d))
  | None => None
  end.
End LinGmm.

(** Vocabulary for Gaussian vectors: covariances of linear combinations of the coordinates. *)
From Verif Require Import Base MvnModel.
Local Open Scope nat_scope.

(** Kronecker's symbol *)
Definition delta (i j : nat) : Q := if i =? j then 1%Q else 0%Q.
(** [B] is the inverse of [A] *)
Definition is_inverse (k : nat) (A B : mat) : Prop := forall i j, i < k -> j < k ->
  (sumf (fun l => A i l * B l j) (seq 0 k) == delta i j /\ sumf (fun l => B i l * A l j) (seq 0 k) == delta i j)%Q.
(** what np.linalg.inv returns is the inverse *)
Definition inv_sound (inv : nat -> mat -> option mat) : Prop := forall k A B, inv k A = Some B -> is_inverse k A B.
(** covariance of the combinations with coefficients [u] and [v] of [n] variables with covariance [C] *)
Definition covar (n : nat) (C : mat) (u v : vec) : Q :=
  sumf (fun i => sumf (fun j => u i * v j * C i j)%Q (seq 0 n)) (seq 0 n).
(** the combination that is the variable [b] *)
Definition coord (b : nat) : vec := delta b.
(** the combination that puts the weights [w] on the variables of the list *)
Definition comb (s : list nat) (w : vec) : vec := fun k => sumf (fun j => w j * delta (nth j s 0%nat) k)%Q (seq 0 (length s)).
(** what is left of the variable [b] once the combination is removed *)
Definition resid (b : nat) (s : list nat) (w : vec) : vec := fun k => (coord b k - comb s w k)%Q.
Definition symm (n : nat) (C : mat) : Prop := forall i j, i < n -> j < n -> (C i j == C j i)%Q.
Definition psd (n : nat) (C : mat) : Prop := forall u, (0 <= covar n C u u)%Q.
(** the same distribution *)
Definition same_gauss (g h : gauss) : Prop := g_dim g = g_dim h /\
  (forall i, i < g_dim g -> (g_mean g i == g_mean h i)%Q) /\
  (forall i j, i < g_dim g -> j < g_dim g -> (g_cov g i j == g_cov h i j)%Q).
(** the distribution of the variables of the list *)
Definition marginal (mean : vec) (cov : mat) (l : list nat) : gauss :=
  {| g_dim := length l; g_mean := fun i => mean (nth i l 0); g_cov := fun i j => cov (nth i l 0) (nth j l 0) |}.
(** the value at [y] of the quadratic form of a Gaussian density with precision matrix [P] *)
Definition energy (k : nat) (P : mat) (y : vec) : Q := covar k P y y.
(** [W] are the coefficients of the linear regression of the variables [bar] on the variables [set]: what is left of each
    variable is not correlated with the variables of [set] *)
Definition regression (n : nat) (cov : mat) (bar set : list nat) (W : mat) : Prop := forall i j, i < length bar -> j < length set ->
  (covar n cov (resid (nth i bar 0%nat) set (W i)) (coord (nth j set 0%nat)) == 0)%Q.

(** Vocabulary for the mixture: a class drawn with the given probabilities, two indicators of the class, and numeric variables. *)
From Verif Require Import Base MvnModel MvnSpec GmmModel.
Local Open Scope nat_scope.

(** the numeric variables come first, then the indicators of the classes a and b, in this order *)
Definition layout (G : gmm) (n : nat) : Prop := gm_cat G = [gm_d G; S (gm_d G)] /\ n = gm_d G + 2.
(** the indicator at position [k] of an individual of class [y] *)
Definition indicator (G : gmm) (y : cls) (k : nat) : Q :=
  if k =? gm_d G then (match y with Ka => 1 | _ => 0 end)%Q else (match y with Kb => 1 | _ => 0 end)%Q.
(** the individual of class [y] has the indicators of [x] at the positions of the set *)
Definition agrees (G : gmm) (x : vec) (S : list nat) (y : cls) : bool :=
  forallb (fun k => (k <? gm_d G) || qeqb (x k) (indicator G y k)) S.
(** the numeric variables of a set *)
Definition numeric (G : gmm) (S : list nat) : list nat := filter (fun k => k <? gm_d G) S.
(** if both indicators are in the list, the one of class a comes first *)
Definition ordered (G : gmm) (S : list nat) : Prop :=
  forall l r, S = l ++ gm_d G :: r -> ~ In (Datatypes.S (gm_d G)) l.
(** probabilities *)
Definition is_prior (G : gmm) : Prop := (forall y, 0 < gm_pi G y)%Q /\ (gm_pi G Ka + gm_pi G Kb + gm_pi G Kc == 1)%Q.
(** what is expected of a density: positive, and a function of the values of the variables, in whatever order they are listed *)
Definition pdf_pos (pdf : nat -> vec -> mat -> vec -> option Q) : Prop := forall k m C y q, pdf k m C y = Some q -> (0 < q)%Q.
Definition pdf_order (pdf : nat -> vec -> mat -> vec -> option Q) : Prop := forall S S' m C x x', Permutation S S' -> NoDup S ->
  (forall k, In k S -> (x k == x' k)%Q) -> forall q q', pdf (length S) (vsub m S) (msub C S S) (vsub x S) = Some q ->
    pdf (length S') (vsub m S') (msub C S' S') (vsub x' S') = Some q' -> (q == q')%Q.
(** [p y] is the weight of class [y] given the numeric variables of the set: the probability times the density, which is 1
    without numeric variables *)
Definition weight (pdf : nat -> vec -> mat -> vec -> option Q) (G : gmm) (x : vec) (S : list nat) (p : cls -> Q) : Prop :=
  forall y, match numeric G S with
            | [] => (p y == gm_pi G y)%Q
            | s => exists q, pdf (length s) (vsub (gm_mean G y) s) (msub (gm_cov G y) s s) (vsub x s) = Some q /\ (p y == gm_pi G y * q)%Q
            end.
(** [r] is the conditional expectation of the linear model in a Gaussian vector, given the variables of the list: the best
    linear prediction from these variables *)
Definition regressed (d : nat) (mean : vec) (cov : mat) (coefs x : vec) (s : list nat) (r : Q) : Prop :=
  exists w, (forall j, j < length s -> (covar d cov (fun k => coefs k - comb s w k) (coord (nth j s 0%nat)) == 0)%Q) /\
    (r == sumf (fun k => coefs k * mean k) (seq 0 d) + sumf (fun j => w j * (x (nth j s 0%nat) - mean (nth j s 0%nat))) (seq 0 (length s)))%Q.
(** the mean over the classes that agree with the known indicators, weighted by their conditional probabilities *)
Definition bayes (G : gmm) (x : vec) (S : list nat) (p m : cls -> Q) : Q :=
  (sumf (fun y => p y * m y) (filter (agrees G x S) keys) / sumf p (filter (agrees G x S) keys))%Q.
(** every routine returns: the densities exist and the matrices are invertible *)
Definition runs (inv : nat -> mat -> option mat) (pdf : nat -> vec -> mat -> vec -> option Q) (G : gmm) : Prop :=
  forall x y s, NoDup s -> (forall k, In k s -> k < gm_d G) ->
    cond_exp_linear inv (gm_d G) (gm_mean G y) (gm_cov G y) (gm_coefs G y) x s <> None /\
    (s <> [] -> pdf (length s) (vsub (gm_mean G y) s) (msub (gm_cov G y) s s) (vsub x s) <> None).
(** [r] is the expectation given the variables of the set: the weights and the regressions exist, and [r] is their mean *)
Definition expectation (pdf : nat -> vec -> mat -> vec -> option Q) (G : gmm) (x : vec) (S : list nat) (r : Q) : Prop :=
  (exists p m, weight pdf G x S p /\ (forall y, 0 < p y)%Q /\
     forall y, regressed (gm_d G) (gm_mean G y) (gm_cov G y) (gm_coefs G y) x (numeric G S) (m y)) /\
  forall p m, weight pdf G x S p -> (forall y, regressed (gm_d G) (gm_mean G y) (gm_cov G y) (gm_coefs G y) x (numeric G S) (m y)) ->
    (r == bayes G x S p m)%Q.
(** both indicators are in one declared group, the one of class a first *)
Definition grouped (G : gmm) (C : list (list nat)) : Prop :=
  exists l m r, In (l ++ gm_d G :: m ++ Datatypes.S (gm_d G) :: r) C.
(** the positions exist *)
Definition in_n (n : nat) (S : list nat) : Prop := forall k, In k S -> k < n.

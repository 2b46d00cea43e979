(** Model of the adaptive active-coalition Shapley routine (cyext_acv.pyx 3260-3295,
    same text in cyext_acv_nopa.pyx 1954-1989), with the two per-observation routines
    it calls.  No proofs here.  One output column, as in ShapModel. *)
From Verif Require Import Base TreeModel ShapModel AcvModel SearchModel.

(** an entry of the index arrays S_star or N_star used as a column number
    (cyext_acv.pyx 3407 and following, [X[N_star_a[s]]], [boundscheck(False)] and
    [wraparound(False)]): None stands for an access outside the arrays. *)
Definition as_col (d : nat) (z : Z) : option nat :=
  if (0 <=? z)%Z && (z <? Z.of_nat d)%Z then Some (Z.to_nat z) else None.
(** all the entries of a slice of the index arrays (cyext_acv.pyx 3282-3283). *)
Fixpoint as_cols (d : nat) (l : list Z) : option (list nat) :=
  match l with
  | [] => Some []
  | z :: r => match as_col d z, as_cols d r with Some c, Some cs => Some (c :: cs) | _, _ => None end
  end.
(** cyext_acv.pyx 3281-3290, one observation: the first [size] entries of its row of
    S_star, and the entries of its row of N_star from [size] on; all columns active
    means the plain routine.  None: access outside the arrays; [Some None]: not a
    number.  [single_shap_values_acv_leaves] (3301-3567) and [single_shap_values]
    (3573-3782) have the text of [shap_values_acv_leaves] and [shap_values_leaves_pa]
    without the loop over the observations, so the models of these are reused. *)
Definition adap_row (C : list group) (d : nat) (data : list pt) (forest : list (list leaf))
  (x : pt) (star nul : list Z) (size : nat) (j : nat) : option (option Q) :=
  if negb (size =? d) then
    match as_cols d (firstn size star), as_cols d (skipn size nul) with
    | Some s, Some n => Some (shap_values_acv C d s n data forest x j)
    | _, _ => None
    end
  else Some (Some (shap_values_leaves C d data forest x j)).
(** cyext_acv.pyx 3279-3295: entry [i, j] of the result; None also stands for a row that
    the arrays do not have (acv_tree.py 66 compares the lengths of X and S_star only). *)
Definition shap_values_acv_adap (C : list group) (d : nat) (data : list pt) (forest : list (list leaf))
  (X : list pt) (S_star N_star : list (list Z)) (size : list nat) (i j : nat) : option (option Q) :=
  match nth_error X i, nth_error S_star i, nth_error N_star i, nth_error size i with
  | Some x, Some s, Some n, Some k => adap_row C d data forest x s n k j
  | _, _, _, _ => None
  end.
(** utils.py 809-817 ([get_null_coalition]): the rows of the second result, None if some
    row raises. *)
Fixpoint get_null_coalition (d : nat) (S_star : list (list Z)) (size : list nat) : option (list (list Z)) :=
  match S_star, size with
  | s :: r, k :: ks => match null_coalition d s k, get_null_coalition d r ks with
                       | Some n, Some ns => Some (n :: ns)
                       | _, _ => None end
  | _, _ => Some []
  end.

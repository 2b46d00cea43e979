(** Model of the methods of [ACVTree] for active Shapley values with one explanation per observation
    (acv_tree.py 38-73, 362-376), from the trees of the ensemble to the array returned, with the compiled
    routines they call (cyext_acv.pyx 3258-3786, cyext_acv_nopa.pyx 1954-2478).  No proofs here.
    Simplification, for the whole file: exact arithmetic, counters that do not overflow. *)
From Verif Require Import Base TreeModel ShapModel FlatModel SkModel ArrModel EntryModel SbufModel AbufModel.

(** A table of integers handed to a method (acv_tree.py 38): a DataFrame, a list of lists, a two- or a one-dimensional
    array.  Simplification: integers, rows of the same length [cols]. *)
Inductive zarg := Z_frame (cols : nat) (rows : list (list Z)) | Z_list (cols : nat) (rows : list (list Z))
  | Z_array (dt : dtype) (cols : nat) (rows : list (list Z)) | Z_vector (dt : dtype) (l : list Z).
(** [check_array(S_star, dtype=[np.long])], acv_tree.py 64-65: a table with at least one row and one column, converted
    to [long]; the compiled routine accepts it (cyext_acv.pyx 3266). *)
Definition check_long (a : zarg) : outcome (list (list Z)) :=
  match a with
  | Z_vector _ _ => Raised EValue
  | Z_frame c r | Z_list c r | Z_array _ c r => if (length r =? 0) || (c =? 0) then Raised EValue else Returned r
  end.
(** [check_consistent_length(X, S_star)], acv_tree.py 66 *)
Definition same_length {A B} (a : list A) (b : list B) : outcome unit :=
  if length a =? length b then Returned tt else Raised EValue.
(** entries of the index arrays as columns (cyext_acv.pyx 3448, 3461, 3490).  Simplification: a negative one counts as an access
    outside the arrays also where there is no player for whom it is read. *)
Fixpoint longs (l : list Z) : option (list nat) :=
  match l with
  | [] => Some []
  | z :: r => match longs r with Some cs => if (z <? 0)%Z then None else Some (Z.to_nat z :: cs) | None => None end
  end.

Section Routine.
(** the object, [X] with [m] columns, [C] *)
Variables (h : shap_acv) (m : nat) (C : list group).
(** the three index arrays (cyext_acv.pyx 3266) *)
Variables (S_star N_star : list (list Z)) (size : list nat).
(** for every observation and tree, the order in which the leaves are treated (cyext_acv.pyx 3396, 3659) *)
Variable order : nat -> nat -> list nat.

(** cyext_acv.pyx 3281-3290: one observation.  [single_shap_values_acv_leaves] (3301-3567) is [shap_values_acv_leaves], and
    [single_shap_values] (3573-3786) is [shap_values_leaves_pa], with one row; each works on its own copy of [node_idx_trees].
    The rows of the index arrays are looked up without checks; [N_star] is not read when all columns are active. *)
Definition one_row (i : nat) (x : pt) : option (nat -> nat -> nat -> option Q) :=
  let T := o_tabs (h_acv h) in
  match nth_error size i with
  | None => None
  | Some k =>
      if k =? m then
        match shap_prog T (h_nid h) (cols (h_data h)) (points (h_data h)) (h_max h) m [x] C (order i) with
        | Some phi => Some (fun i' c j => Some (phi i' c j))
        | None => None end
      else
        match nth_error S_star i, nth_error N_star i with
        | Some s, Some n =>
            match longs (firstn k s), longs (skipn k n) with
            | Some a, Some o => active_prog T (h_nid h) (cols (h_data h)) (points (h_data h)) (h_max h) m [x] C a o (order i)
            | _, _ => None end
        | _, _ => None end
  end.
(** cyext_acv.pyx 3292-3294: [phi[i, j, k] = phi_x[j, k]] *)
Definition copy_row (phi : nat -> nat -> nat -> option Q) : list (list (option Q)) :=
  map (fun c => map (phi 0 c) (seq 0 (t_out (o_tabs (h_acv h))))) (seq 0 m).
(** cyext_acv.pyx 3280-3295: the observations one after the other *)
Definition own_rows (X : list pt) : outcome (list (list (list (option Q)))) :=
  match all_some (map (fun ix => option_map copy_row (one_row (fst ix) (snd ix))) (indexed X)) with
  | Some r => Returned r
  | None => Stray
  end.
End Routine.

(** acv_tree.py 38-73 ([ACVTree.shap_values_acv_adap]); the number of rows of [N_star] and [size] is not looked at *)
Definition acv_own (h : shap_acv) (order : nat -> nat -> list nat) (X : marg) (S_star N_star : zarg) (size : sarg) (C : list group)
  : outcome (list (list (list (option Q)))) :=
  X1 <- check_array X ;; s <- check_long S_star ;; n <- check_long N_star ;;
  x <- buffer2 X1 ;; _ <- same_length (rows x) s ;; k <- buffer1 (column_or_1d size) ;;
  own_rows h (cols x) C s n k order (points x).
(** acv_tree.py 362-376 ([shap_values_acv_adap_nopa]): cyext_acv_nopa.pyx 1954-2478 has the text of cyext_acv.pyx 3258-3786 with
    [range] for [prange] (2090, 2353) *)
Definition acv_own_nopa (h : shap_acv) (X : marg) (S_star N_star : zarg) (size : sarg) (C : list group)
  : outcome (list (list (list (option Q)))) :=
  X1 <- check_array X ;; s <- check_long S_star ;; n <- check_long N_star ;;
  x <- buffer2 (as_float X1) ;; _ <- same_length (rows x) s ;; k <- buffer1 (column_or_1d size) ;;
  own_rows h (cols x) C s n k (fun _ b => seq 0 (t_nb (o_tabs (h_acv h)) b)) (points x).

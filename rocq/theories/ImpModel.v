(** Model of the methods of [ACVTree] that search minimal sufficient explanations of classifiers
    (acv_tree.py 99-264, 402-412, 528-543), from the trees of the ensemble to the four arrays
    returned.  The compiled searches are those of ClfModel.v.  No proofs here.
    Simplification, for the whole file: exact arithmetic, counters that do not overflow, [minimal]
    is not negative. *)
From Verif Require Import Base TreeModel ShapModel FlatModel ArrModel EntryModel SbufModel SearchModel ClfModel.
From Coq Require Import NArith.

(** The leaves that the searches read in the tables: the first [leaves_nb[b]] slots of tree [b]
    (cyext_acv.pyx 2969-2971, 3013).  The features above a leaf are not read. *)
Definition leaf_table (T : tabs) : list (list cleaf) :=
  map (fun b => map (fun k => mkCleaf (t_part T b k) [] (t_val T b (t_leaf T b k))) (seq 0 (t_nb T b))) (seq 0 (t_trees T)).
(** The four arrays returned: [sdp_global / X.shape[0]], [s_star], [len_s_star], [sdp] (cyext_acv.pyx 3068). *)
Record answer := mkAnswer { e_importance : list Q; e_index : list (list Z); e_size : list nat; e_sdp : list Q }.
(** cyext_acv.pyx 3068, for [N] rows and [m] columns *)
Definition collect (m N : nat) (st : sstate) : answer :=
  mkAnswer (map (importance N st) (seq 0 m)) (map (fun k => r_star (s_rows st k)) (seq 0 N))
           (map (fun k => r_len (s_rows st k)) (seq 0 N)) (map (fun k => r_sdp (s_rows st k)) (seq 0 N)).

Section Methods.
(** the object *)
Variable h : shap_acv.
(** [self.model.predict_proba] (acv_tree.py 190) *)
Variable proba : mat -> outcome (list (list Q)).
(** order in which the pairs (tree, leaf) are treated for a set of columns (cyext_acv.pyx 2969-2971) *)
Variable sched : list nat -> list (nat * nat).
(** [node_idx.value_counts().keys()] (acv_tree.py 141-144) *)
Variable by_count : list nat -> list nat.

(** No access outside an array: the boxes have the columns of the background given to the constructor (cyext_acv.pyx 2993), one
    class per row and a column of [values] for it (3013), room for a set in [S], [s_star] and [data] (2945-2952, 3045).
    Simplification: looked at for all rows and groups before the search. *)
Definition fits (T : tabs) (x z : mat) (fX y : list nat) (va : list group) : bool :=
  (cols z <=? o_cols (h_acv h)) && (length (rows x) <=? length fX) && (length (rows z) <=? length y)
  && forallb (fun c => c <? t_out T) fX && forallb (fun s => s <? cols x) (concat va) && (length (concat va) <=? cols x).
(** The compiled searches take different enumerations: forest, background with classes, observations, their classes, number of
    observations, groups, number of columns (cyext_acv.pyx 2872-2876). *)
Notation search_fun := (nat -> list (list cleaf) -> list (pt * nat) -> (nat -> pt) -> (nat -> nat) -> nat -> list group -> option (sstate * cells)).
(** cyext_acv.pyx 2872-3068 once the arguments are converted; [C[0]] does not exist for [C = []] (2917).
    Simplification: the model takes tables of one width only, so that [predict_proba] raises when those of [X] and [data] differ. *)
Definition run_search (T : tabs) (C : list group) (groups : nat -> list group) (search : search_fun)
  (x z : mat) (fX y : list nat) : outcome answer :=
  if cols x =? cols z then
    match C with
    | [] => Stray
    | _ =>
        if fits T x z fX y (groups (cols x)) then
          match search (cols x) (leaf_table T) (combine (points z) y) (fun k => nth k (points x) (fun _ => 0%Q))
                       (fun k => nth k fX 0) (length (rows x)) (groups (cols x)) with
          | Some (st, _) => Returned (collect (cols x) (length (rows x)) st)
          | None => Stray
          end
        else Stray
    end
  else Raised EModel.
(** acv_tree.py 188-206: the arguments are checked, the classes computed *)
Definition checked_search (T : tabs) (C : list group) (groups : nat -> list group) (search : search_fun)
  (X data : marg) : outcome answer :=
  X1 <- check_array X ;; data1 <- check_array data ;;
  xm <- seen X1 ;; fX <- classes proba xm ;; zm <- seen data1 ;; y <- classes proba zm ;;
  x <- buffer2 X1 ;; z <- buffer2 data1 ;;
  run_search T C groups search x z fX y.

(** acv_tree.py 148-206 ([importance_sdp_clf_greedy]) *)
Definition acv_greedy (X data : marg) (C : list group) (pi : Q) (minimal : nat) (stop : bool) : outcome answer :=
  checked_search (table_of (h_acv h)) C (tree_groups C)
    (fun d F rws Xp f N va => clf_search v_tree true d pi F rws Xp f sched cut15 stop N va minimal) X data.
(** acv_tree.py 208-264 ([importance_sdp_clf_search]) with the columns [space] *)
Definition acv_space (X data : marg) (C : list group) (pi : Q) (minimal : nat) (space : list nat) (stop : bool) : outcome answer :=
  checked_search (table_of (h_acv h)) C (fun _ => search_groups C space)
    (fun d F rws Xp f N va => clf_search v_tree true d pi F rws Xp f sched cut15 stop N va minimal) X data.
(** acv_tree.py 140: [flat_list], the features above the leaves of all trees *)
Definition flat_list : list nat :=
  flat_map (fun b => flat_map (h_nid h b) (seq 0 (t_nb (o_tabs (h_acv h)) b))) (seq 0 (t_trees (o_tabs (h_acv h)))).
(** acv_tree.py 99-147 ([importance_sdp_clf]) *)
Definition acv_explain (X data : marg) (C : list group) (pi : Q) (minimal : nat) (stop : bool) : outcome answer :=
  X1 <- check_array X ;; data1 <- check_array data ;; xm <- seen X1 ;;
  if 10 <? cols xm then acv_space X1 data1 C pi minimal (firstn 10 (by_count flat_list)) stop
  else acv_greedy X1 data1 C pi minimal stop.
(** acv_tree.py 402-412 ([importance_sdp_clf_nopa]): always [values]; sequential, leaf after leaf *)
Definition acv_explain_nopa (X data : marg) (C : list group) (pi : Q) (minimal : nat) : outcome answer :=
  checked_search (o_tabs (h_acv h)) C (tree_groups C)
    (fun d F rws Xp f N va => clf_search_all v_tree true d pi F rws Xp f
       (fun _ => flat_map (fun b => map (pair b) (seq 0 (t_nb (o_tabs (h_acv h)) b))) (seq 0 (t_trees (o_tabs (h_acv h)))))
       cut15 true N va minimal) X data.
(** acv_tree.py 528-543 ([importance_sdp_clf_ptrees]): arguments not checked; [X] is converted, [data] is not *)
Definition acv_explain_ptrees (X data : marg) (C : list group) (pi : Q) (minimal : nat) (stop : bool) : outcome answer :=
  xm <- seen X ;; fX <- classes proba xm ;; zm <- seen data ;; y <- classes proba zm ;;
  x <- buffer2 (as_float X) ;; z <- buffer2 data ;;
  run_search (table_of (h_acv h)) C (tree_groups C)
    (fun d F rws Xp f N va => clf_search_all v_ptrees false d pi F rws Xp f sched cut15 stop N va minimal) x z fX y.
End Methods.

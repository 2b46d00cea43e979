(** Model of an [ACVTree] from the trees it is built on to what its methods return:
    the tables of the constructor (base_tree.py 513-634) and the methods for conditional
    expectations and same-decision probabilities of classifiers (acv_tree.py 266-341,
    414-437, 626-645, 692-701), with the checks and conversions of their arguments.  The
    compiled routines are the array programs of ArrModel.v.  No proofs here. *)
From Verif Require Import Base TreeModel FlatModel SkModel ArrModel.

(** ** The tables *)

(** One tree without its values, as [get_partition] sees it (base_tree.py 591-592). *)
Definition skeleton (m : mtree) : tree := mkTree (m_cl m) (m_cr m) (m_cd m) (m_ft m) (m_th m) [].
(** base_tree.py 579-580 ([leaf_idx] of one tree). *)
Definition leaf_list (m : mtree) : list nat :=
  filter (fun i => (nth i (m_cl m) (-1) <? 0)%Z) (seq 0 (length (m_ft m))).
(** base_tree.py 588-594: the box of one leaf.  Simplification: the recursion of
    [get_partition] to the parents stops after as many steps as there are nodes. *)
Definition leaf_box (m : mtree) (i : nat) : option rect :=
  option_map fst (get_partition (length (m_cl m)) (skeleton m) i whole []).
(** base_tree.py 584-599 ([partition_leaves_trees], before padding). *)
Definition boxes (ts : list mtree) : option (list (list rect)) :=
  all_some (map (fun m => all_some (map (leaf_box m) (leaf_list m))) ts).
(** no tree: default of the reads in lists of trees below (base_tree.py 558: the loop stays
    inside the list) *)
Definition no_tree : mtree := mkM [] [] [] [] [] [].
(** base_tree.py 608-609, 611: [-np.ones(...)], the padding of [partition_leaves_trees] *)
Definition padding : rect := fun _ => (Fin (-1), Fin (-1)).
(** base_tree.py 551, 567-571: [values[b, n, j]] *)
Definition raw_value (ts : list mtree) (stacked b n j : nat) : Q :=
  let r := nth n (m_vl (nth b ts no_tree)) [] in
  if 1 <? stacked then (if j =? b mod stacked then nth 0 r 0%Q else 0%Q) else nth j r 0%Q.
(** base_tree.py 533-542: [values_binary[b, n, j]]; [sig] is [1 / (1 + np.exp(-v))] *)
Definition binary_value (sig : Q -> Q) (ts : list mtree) (b n j : nat) : Q :=
  match nth_error (m_vl (nth b ts no_tree)) n with
  | Some r => let p := sig (nth 0 r 0%Q) in ((if j =? 0 then 1 - p else p) / Qn (length ts))%Q
  | None => 0%Q
  end.
(** base_tree.py 606-624: the padded tables with the values [v] in [k] columns; entries of
    [leaf_idx_trees] past the end are -1, no node, and are written as a node outside the tables *)
Definition tables (ts : list mtree) (bs : list (list rect)) (k : nat) (v : nat -> nat -> nat -> Q) : tabs :=
  mkTabs (length ts) (max_nodes ts) k (fold_right Nat.max 0 (map (fun m => length (leaf_list m)) ts))
         (fun b l => nth l (nth b bs []) padding) (fun b l => nth l (leaf_list (nth b ts no_tree)) (max_nodes ts))
         (fun b => length (leaf_list (nth b ts no_tree))) v.

(** utils.py 575, 582: [partition_leaf[features[i]]] is an IndexError beyond the columns of the data.
    Simplification: looked at for all inner nodes, also those above no leaf; no negative column. *)
Definition columns_exist (d : nat) (m : mtree) : bool :=
  forallb (fun i => (nth i (m_cl m) (-1) <? 0)%Z || ((0 <=? nth i (m_ft m) (-1)) && (nth i (m_ft m) (-1) <? Z.of_nat d))%Z)
          (seq 0 (length (m_cl m))).

(** What the methods read of the object: the number of columns of the background data given to the
    constructor, [num_outputs], whether the model is one of the six boosted classifiers, the tables with
    [values] and those with [values_binary] (base_tree.py 513-634, acv_tree.py 289-294). *)
Record acv := mkAcv { o_cols : nat; o_out : nat; o_boosted : bool; o_tabs : tabs; o_binary : tabs }.
(** base_tree.py 513-634 for the trees [ts]; None when an assertion fails, a column does not exist or there is no tree.  The
    attribute [values_binary] exists only where the methods read it (527-532 and acv_tree.py 289-294). *)
Definition construct (sig : Q -> Q) (ts : list mtree) (stacked : nat) (boosted : bool) (d : nat) : option acv :=
  match num_outputs ts stacked, boxes ts with
  | Some k, Some bs => if forallb (columns_exist d) ts then Some (mkAcv d k boosted (tables ts bs k (raw_value ts stacked)) (tables ts bs 2 (binary_value sig ts))) else None
  | _, _ => None
  end.
(** base_tree.py 20-634 for a scikit-learn model ([load_model] of SkModel.v, lines 88-300) *)
Definition construct_sk (apl : Z -> Q) (sig : Q -> Q) (m : skmodel) (d : nat) : option acv :=
  match load_model apl m with
  | Some l => construct sig (l_trees l) (l_stacked l) (match m with BoostClf _ _ _ => true | _ => false end) d
  | None => None
  end.

(** ** What a call gives *)

(** TypeError, ValueError, AttributeError (acv_tree.py 285-287, 642), and an error of the model's own
    [predict_proba] (288). *)
Inductive exn := EType | EValue | EAttribute | EModel.
(** [Stray]: a compiled routine reads outside the arrays, without checks (cyext_acv.pyx 28-30). *)
Inductive outcome (A : Type) := Returned (a : A) | Raised (e : exn) | Stray.
Arguments Returned {A}. Arguments Raised {A}. Arguments Stray {A}.
(** one statement after the other: the first error ends the method (acv_tree.py 285-289) *)
Definition andthen {A B} (o : outcome A) (f : A -> outcome B) : outcome B :=
  match o with Returned a => f a | Raised e => Raised e | Stray => Stray end.
(** written like the statements of acv_tree.py 285-289 *)
Notation "x <- a ;; b" := (andthen a (fun x => b)) (at level 61, a at next level, right associativity).

(** ** Arguments *)

(** Element types of numpy arrays (acv_tree.py 285: [np.double]; [long] of cyext_acv.pyx 32 is I64). *)
Inductive dtype := F64 | F32 | I64 | I32.
(** is it this element type?  (the comparison in front of cyext_acv.pyx 32) *)
Definition same_dtype (a b : dtype) : bool :=
  match a, b with F64, F64 | F32, F32 | I64, I64 | I32, I32 => true | _, _ => false end.
(** A table handed to a method, as Python has it: a DataFrame, a list of lists, a two- or a
    one-dimensional array (acv_tree.py 266-274).  Simplification: finite numbers, rows of the
    same length [cols]. *)
Inductive marg := M_frame (cols : nat) (rows : list (list Q)) | M_list (cols : nat) (rows : list (list Q))
  | M_array (dt : dtype) (cols : nat) (rows : list (list Q)) | M_vector (dt : dtype) (l : list Q).
(** The columns handed to a method: a list, an array, an array with one column (acv_tree.py 266, 271).
    Simplification: no negative number. *)
Inductive sarg := S_list (l : list nat) | S_array (dt : dtype) (l : list nat) | S_column (dt : dtype) (l : list nat).
(** [double[:, :]] inside a compiled routine (cyext_acv.pyx 32) *)
Record mat := mkMat { cols : nat; rows : list (list Q) }.

(** [np.array(X, dtype=np.float)], acv_tree.py 627. *)
Definition as_float (a : marg) : marg :=
  match a with
  | M_frame c r | M_list c r | M_array _ c r => M_array F64 c r
  | M_vector _ l => M_vector F64 l
  end.
(** [check_array(X, dtype=[np.double])] of scikit-learn, acv_tree.py 285-286: a table with at least one
    row and one column; converted to doubles. *)
Definition check_array (a : marg) : outcome marg :=
  match a with
  | M_vector _ _ => Raised EValue
  | M_frame c r | M_list c r | M_array _ c r =>
      if (length r =? 0) || (c =? 0) then Raised EValue else Returned (M_array F64 c r)
  end.
(** [column_or_1d(S)] of scikit-learn, acv_tree.py 287: [np.asarray] of an empty list has doubles. *)
Definition column_or_1d (a : sarg) : sarg :=
  match a with
  | S_list [] => S_array F64 []
  | S_list l => S_array I64 l
  | S_array dt l | S_column dt l => S_array dt l
  end.
(** The conversion to [double[:, :]] (cyext_acv.pyx 32): TypeError without buffer, ValueError for another
    element type or number of dimensions. *)
Definition buffer2 (a : marg) : outcome mat :=
  match a with
  | M_frame _ _ | M_list _ _ => Raised EType
  | M_vector _ _ => Raised EValue
  | M_array dt c r => if same_dtype dt F64 then Returned (mkMat c r) else Raised EValue
  end.
(** The conversion to [long[:]] (cyext_acv.pyx 32). *)
Definition buffer1 (a : sarg) : outcome (list nat) :=
  match a with
  | S_list _ => Raised EType
  | S_column _ _ => Raised EValue
  | S_array dt l => if same_dtype dt I64 then Returned l else Raised EValue
  end.
(** [X[i, s]] for the array programs (cyext_acv.pyx 63) *)
Definition points (A : mat) : list pt := map (fun r s => nth s r 0%Q) (rows A).

(** ** Conditional expectations *)

Section Methods.
(** the object *)
Variable a : acv.
(** [m = X.shape[1]] columns of the data and of the boxes are read (cyext_acv.pyx 37, 63-65).
    Simplification: too few of them count as an access outside even if there is no row or leaf to read. *)
Definition wide_enough (m : nat) (data : mat) : bool := (m <=? cols data) && (m <=? o_cols a).
(** the arrays returned, cyext_acv.pyx 48, 89 *)
Definition result {V} (n k : nat) (o : option (nat -> nat -> V)) : outcome (list (list V)) :=
  match o with Some r => Returned (map (fun i => map (r i) (seq 0 k)) (seq 0 n)) | None => Stray end.
(** the routines that the three methods call: cyext_acv.pyx 32, 172; the sequential ones have the order
    of the loops *)
Definition exp_call {V} (prog : tabs -> nat -> list pt -> list pt -> list nat -> option (nat -> nat -> V))
  (X : marg) (S : sarg) (data : marg) : outcome (list (list V)) :=
  x <- buffer2 (as_float X) ;; s <- buffer1 S ;; z <- buffer2 data ;;
  if wide_enough (cols x) z then
    result (length (rows x)) (t_out (o_tabs a)) (prog (o_tabs a) (cols x) (points x) (points z) s)
  else Stray.
(** acv_tree.py 626-628 ([ACVTree.compute_exp]); [sched] is the order of the parallel passes *)
Definition acv_exp (sched : nat -> list (nat * nat)) := exp_call (fun T m X d S => exp_prog T m X d S sched).
(** acv_tree.py 630-633 ([compute_exp_cat]) *)
Definition acv_exp_cat (sched : nat -> list (nat * nat)) := exp_call (fun T m X d S => exp_cat_prog T m X d S sched).
(** acv_tree.py 635-639 ([compute_exp_normalized]) *)
Definition acv_exp_normalized (sched : nat -> list (nat * nat)) := exp_call (fun T m X d S => norm_prog T m X d S sched).
(** acv_tree.py 692-695 ([compute_exp_nopa]) *)
Definition acv_exp_nopa := exp_call (fun T m X d S => exp_prog T m X d S (in_order T X)).
(** acv_tree.py 697-701 ([compute_exp_cat_nopa]) *)
Definition acv_exp_cat_nopa := exp_call (fun T m X d S => exp_cat_prog T m X d S (in_order T X)).
(** acv_tree.py 641-645 ([compute_exp_normalized_nopa]): [cyext_acv] has no routine of that name; the
    arguments are evaluated after the attribute. *)
Definition acv_exp_normalized_nopa (X : marg) (S : sarg) (data : marg) : outcome (list (list dbl)) := Raised EAttribute.

(** ** Same-decision probabilities *)

(** [self.model.predict_proba] (acv_tree.py 288) on the rows given; an error of the model's is [EModel] *)
Variable proba : mat -> outcome (list (list Q)).
(** index of the first greatest entry (np.argmax of one row, acv_tree.py 288) *)
Fixpoint argmax_from (i best : nat) (bv : Q) (l : list Q) : nat :=
  match l with
  | [] => best
  | v :: l' => if qltb bv v then argmax_from (S i) i v l' else argmax_from (S i) best bv l'
  end.
(** np.argmax of one row, acv_tree.py 288; it raises ValueError for an empty row. *)
Definition argmax_row (l : list Q) : option nat :=
  match l with [] => None | v :: l' => Some (argmax_from 1 0 v l') end.
(** acv_tree.py 288-289: [np.argmax(..., axis=1).astype(np.long)] *)
Definition classes (X : mat) : outcome (list nat) :=
  p <- proba X ;; match all_some (map argmax_row p) with Some c => Returned c | None => Raised EValue end.
(** a table already converted to doubles as the model sees it (acv_tree.py 288); lists and frames are handed
    over as they are by the method that does not check its data (434) *)
Definition seen (x : marg) : outcome mat :=
  match x with
  | M_frame c r | M_list c r | M_array _ c r => Returned (mkMat c r)
  | M_vector _ _ => Raised EModel
  end.
(** acv_tree.py 290-296: the table of values for the routine *)
Definition table_of : tabs := if o_boosted a && (o_out a =? 1) then o_binary a else o_tabs a.
(** the vector returned, cyext_acv.pyx 261, 335 *)
Definition vector (n : nat) (o : option (nat -> Q)) : outcome (list Q) :=
  match o with Some r => Returned (map r (seq 0 n)) | None => Stray end.
(** acv_tree.py 285-301: [checked] tells whether [data] goes through [check_array] first (427-437: not),
    [T] is the table of values handed over; nothing is read when all or none of the columns are given
    (cyext_acv.pyx 247-250, 352-355) *)
Definition sdp_call (checked : bool) (T : tabs)
  (prog : tabs -> nat -> list pt -> list pt -> list nat -> list nat -> list nat -> option (nat -> Q))
  (X : marg) (S : sarg) (data : marg) : outcome (list Q) :=
  X1 <- check_array X ;; data1 <- (if checked then check_array data else Returned data) ;;
  xm <- seen X1 ;; fX <- classes xm ;; dm <- seen data1 ;; y <- classes dm ;;
  x <- buffer2 (as_float X1) ;; s <- buffer1 (column_or_1d S) ;; z <- buffer2 data1 ;;
  if (length s =? cols x) || (length s =? 0) || wide_enough (cols x) z then
    vector (length (rows x)) (prog T (cols x) (points x) (points z) s fX y)
  else Stray.
(** acv_tree.py 266-301 ([ACVTree.compute_sdp_clf]) *)
Definition acv_sdp (sched : nat -> list (nat * nat)) :=
  sdp_call true table_of (fun T m X d S f y => sdp_clf_prog T m X d S sched f y (fun _ => t_max T)).
(** acv_tree.py 303-341 ([compute_sdp_clf_cat]) *)
Definition acv_sdp_cat (sched : nat -> list (nat * nat)) :=
  sdp_call true table_of (fun T m X d S f y => sdp_clf_cat_prog T m X d S sched f y).
(** acv_tree.py 414-425 ([compute_sdp_clf_nopa]): always [values] *)
Definition acv_sdp_nopa :=
  sdp_call true (o_tabs a) (fun T m X d S f y => sdp_clf_prog T m X d S (in_order T X) f y (t_nb T)).
(** acv_tree.py 427-437 ([compute_sdp_clf_cat_nopa]): always [values], [data] not checked *)
Definition acv_sdp_cat_nopa :=
  sdp_call false (o_tabs a) (fun T m X d S f y => sdp_clf_cat_prog T m X d S (in_order T X) f y).
End Methods.

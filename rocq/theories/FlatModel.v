(** Model of prediction on the padded arrays of an ensemble: the construction of the arrays
    (base_tree.py 513-573, 650-654) and the compiled routines that walk through them with 32 bit
    unsigned indexes and without bounds checks (cext_acv/acv_tree.h 15-59, 197-283,
    cext_acv/_cext.cc 130-233).  Exact arithmetic.  No proofs here. *)
From Verif Require Import Base TreeModel.
Local Open Scope Z_scope.

(** A block of memory of an array (cext_acv/_cext.cc 200-210, [PyArray_DATA]): number of cells and contents. *)
Record arr (A : Type) := mkArr { len : Z; get : Z -> A }.
Arguments mkArr {A}. Arguments len {A}. Arguments get {A}.
(** [a[i]] (cext_acv/acv_tree.h 202-216); None outside the block, where the behaviour of the program is
    undefined. *)
Definition rd {A} (a : arr A) (i : Z) : option A :=
  if (0 <=? i) && (i <? len a) then Some (get a i) else None.
(** Values of the type [unsigned], 32 bits (cext_acv/acv_tree.h 197-202). *)
Definition uint (z : Z) : Z := z mod 4294967296.

(** cext_acv/acv_tree.h 15-27 ([struct TreeEnsemble]), without the node weights and the depth, which
    prediction does not read. *)
Record ensemble := mkE {
  e_cl : arr Z; e_cr : arr Z; e_cd : arr Z; e_ft : arr Z; e_th : arr Q; e_vl : arr Q;
  e_off : arr Q; e_limit : Z; e_max : Z; e_out : Z }.

Section Walk.
Variable e : ensemble.
(** [X] and [X_missing], row after row, and the pointer to the current row (cext_acv/acv_tree.h 249-250,
    279-280). *)
Variables (X : arr Q) (Xm : arr bool) (row : Z).

(** cext_acv/acv_tree.h 200-217: the loop of [tree_predict] from [node]; the result is the offset added to
    [trees.values].  None: a read outside an array, or no end within the fuel. *)
Fixpoint flat_walk (fuel : nat) (offset node : Z) : option Z :=
  match fuel with
  | O => None
  | S f =>
    let pos := uint (offset + node) in
    match rd (e_ft e) pos, rd (e_cl e) pos with
    | Some fe, Some c =>
      if c <? 0 then Some (uint (pos * e_out e))
      else
        match rd Xm (row + uint fe) with
        | Some true =>
            match rd (e_cd e) pos with Some n => flat_walk f offset (uint n) | None => None end
        | Some false =>
            match rd X (row + uint fe), rd (e_th e) pos with
            | Some v, Some q =>
                if qleb v q then flat_walk f offset (uint c)
                else match rd (e_cr e) pos with Some n => flat_walk f offset (uint n) | None => None end
            | _, _ => None
            end
        | None => None
        end
    | _, _ => None
    end
  end.
(** cext_acv/acv_tree.h 197-218 ([tree_predict]): tree number [j]. *)
Definition flat_tree (fuel : nat) (j : Z) : option Z := flat_walk fuel (uint (j * e_max e)) 0.
End Walk.

(** [for (unsigned k = 0; k < n; ++k)] (cext_acv/acv_tree.h 255, 258, 263, 266): the loop stops when an
    access is outside the memory. *)
Fixpoint for_loop {St : Type} (n : nat) (body : nat -> St -> option St) (st : St) : option St :=
  match n with
  | O => Some st
  | S p => match for_loop p body st with Some st' => body p st' | None => None end
  end.

(** [out[p] += v] (cext_acv/acv_tree.h 259, 267). *)
Definition add_at (o : arr Q) (p : Z) (v : Q) : option (arr Q) :=
  match rd o p with
  | Some w => Some (mkArr (len o) (fun q => if q =? p then (w + v)%Q else get o q))
  | None => None
  end.

Section Predict.
Variable e : ensemble.
Variables (X : arr Q) (Xm : arr bool) (M : Z).
(** cext_acv/acv_tree.h 258-260 and 266-268: [row_out[k] += from[k]] for the outputs [k]. *)
Definition add_outputs (from : arr Q) (base row_out : Z) (o : arr Q) : option (arr Q) :=
  for_loop (Z.to_nat (e_out e))
    (fun k o => match rd from (base + Z.of_nat k) with
                | Some v => add_at o (row_out + Z.of_nat k) v
                | None => None
                end) o.
(** cext_acv/acv_tree.h 255-282: row [i]. *)
Definition flat_row (fuel : nat) (i : nat) (o : arr Q) : option (arr Q) :=
  let row_out := Z.of_nat i * e_out e in
  match add_outputs (e_off e) 0 row_out o with
  | Some o1 =>
      for_loop (Z.to_nat (e_limit e))
        (fun j o => match flat_tree e X Xm (Z.of_nat i * M) fuel (Z.of_nat j) with
                    | Some p => add_outputs (e_vl e) p row_out o
                    | None => None
                    end) o1
  | None => None
  end.
(** cext_acv/acv_tree.h 247-283 ([dense_tree_predict]) on [n] rows; before it,
    cext_acv/_cext.cc 193-197: an error unless there is one offset per output. *)
Definition flat_predict (fuel n : nat) (o : arr Q) : option (arr Q) :=
  if len (e_off e) =? e_out e then for_loop n (flat_row fuel) o else None.
End Predict.

(** One tree with several outputs: the arrays of SingleTree (base_tree.py 865-1100); [m_vl] has a row of outputs
    for every node. *)
Record mtree := mkM { m_cl : list Z; m_cr : list Z; m_cd : list Z; m_ft : list Z; m_th : list Q;
                      m_vl : list (list Q) }.
(** [values.shape[1]] (base_tree.py 515-516); all rows of [values] have the same length. *)
Definition width (m : mtree) : nat := length (nth 0 (m_vl m) []).
(** base_tree.py 514 ([max_nodes]). *)
Definition max_nodes (ts : list mtree) : nat := fold_right Nat.max 0%nat (map (fun m => length (m_vl m)) ts).

(** [base_offset] of a model: a number or an array (base_tree.py 651-653). *)
Inductive offset := Scalar (q : Q) | Vector (l : list Q).
(** base_tree.py 651-653 ([flatten]); an empty array fails the assertion of line 654. *)
Definition offsets (k : nat) (b : offset) : list Q :=
  match b with Scalar q => repeat q k | Vector l => l end.

Section Build.
(** [self.trees] and [self.num_stacked_models] (base_tree.py 22-34). *)
Variables (ts : list mtree) (stacked : nat).
(** base_tree.py 515-525: [self.num_outputs] after the three assertions; None when one fails. *)
Definition num_outputs : option nat :=
  match ts with
  | [] => None
  | m :: _ =>
    if forallb (fun m' => (width m' =? width m)%nat) ts then
      if (1 <? stacked)%nat then
        if (length ts mod stacked =? 0)%nat && (width m =? 1)%nat then Some stacked else None
      else Some (width m)
    else None
  end.
(** base_tree.py 545-550 and 562-566: cell [p] of an array with one line of [max_nodes] cells per tree; the unused
    cells of a line keep [dft]. *)
Definition pad {A} (dft : A) (f : mtree -> list A) (p : Z) : A :=
  let mx := Z.of_nat (max_nodes ts) in
  nth (Z.to_nat (p mod mx)) (f (nth (Z.to_nat (p / mx)) ts (mkM [] [] [] [] [] []))) dft.
(** base_tree.py 551 and 567-572: cell [p] of [values] with [k] outputs; the single output of stacked tree [i]
    is put in column [i % num_stacked_models]. *)
Definition pad_values (k : nat) (p : Z) : Q :=
  let mx := Z.of_nat (max_nodes ts) in
  let c := Z.to_nat (p mod Z.of_nat k) in
  let n := Z.to_nat ((p / Z.of_nat k) mod mx) in
  let i := Z.to_nat ((p / Z.of_nat k) / mx) in
  let r := nth n (m_vl (nth i ts (mkM [] [] [] [] [] []))) [] in
  if (1 <? stacked)%nat then (if (c =? i mod stacked)%nat then nth 0 r 0%Q else 0%Q)
  else nth c r 0%Q.
(** base_tree.py 513-573 and 650-654: the arrays given to the compiled routine, for the offset [b] and the
    limit [lim]. *)
Definition build (b : offset) (lim : nat) : option ensemble :=
  match num_outputs with
  | None => None
  | Some k =>
    let cells := Z.of_nat (length ts) * Z.of_nat (max_nodes ts) in
    if (length (offsets k b) =? k)%nat then
      Some (mkE (mkArr cells (pad (-1) m_cl)) (mkArr cells (pad (-1) m_cr)) (mkArr cells (pad (-1) m_cd))
                (mkArr cells (pad (-1) m_ft)) (mkArr cells (pad 0%Q m_th))
                (mkArr (cells * Z.of_nat k) (pad_values k))
                (mkArr (Z.of_nat k) (fun i => nth (Z.to_nat i) (offsets k b) 0%Q))
                (Z.of_nat lim) (Z.of_nat (max_nodes ts)) (Z.of_nat k))
    else None
  end.
End Build.

(** base_tree.py 730-744: a table of [n] rows and [M] columns as one block. *)
Definition table {A} (n M : nat) (f : nat -> nat -> A) : arr A :=
  mkArr (Z.of_nat n * Z.of_nat M) (fun p => f (Z.to_nat (p / Z.of_nat M)) (Z.to_nat (p mod Z.of_nat M))).
(** base_tree.py 710-776 ([predict]) on [n] rows of [M] columns: [limit] is [tree_limit], or -1 for None; the
    result is the block [output], one line of [num_outputs] cells per row. *)
Definition ensemble_predict (ts : list mtree) (stacked : nat) (b : offset) (limit : Z) (fuel : nat)
  (n M : nat) (X : nat -> pt) (miss : nat -> nat -> bool) : option (arr Q) :=
  match build ts stacked b (effective_limit limit (length ts)) with
  | Some e => flat_predict e (table n M X) (table n M miss) (Z.of_nat M) fuel n
                (mkArr (Z.of_nat n * e_out e) (fun _ => 0%Q))
  | None => None
  end.

(** What a model says about its classes, for the loaders that can hold several: [xgb_loader.num_class],
    [model.n_classes_] of a LightGBM classifier, a LightGBM or GPBoost booster trained on a number of classes, and the
    number of predictors of a round of HistGradientBoostingClassifier (base_tree.py 236-243, 323-439). *)
Inductive source := Xgboost (num_class : nat) | LgbmClassifier (n_classes : nat) | LgbmBooster (classes : nat)
                  | HistClassifier (predictors : nat).
(** [self.num_stacked_models]: base_tree.py 34, 243, 332-333, 346-347, 364-365, 377-378, 438-439; the boosters of 380-392 and
    394-406 leave it at 1. *)
Definition stacked_models (s : source) : nat :=
  match s with
  | Xgboost c => if (0 <? c)%nat then c else 1%nat
  | LgbmClassifier c => if (2 <? c)%nat then c else 1%nat
  | LgbmBooster _ => 1%nat
  | HistClassifier c => c
  end.

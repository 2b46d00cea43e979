(** Model of the object behind an [ACXplainer]: [BaseAgnosTree] builds the arrays of a forest of the package skranger
    (base_agnostree.py 22-172, 215-246), and the methods of [ACXplainer] build it before their first use and hand its
    arrays to the compiled routines (acv_agnosticX.py 225-277).  Exact arithmetic.  No proofs here. *)
From Verif Require Import Base TreeModel SkModel RfModel ApiModel.
Local Open Scope nat_scope.

(** base_agnostree.py 226-230: a split marked -2, the mark of a leaf, is a split on column 0; the loop runs over all nodes.
    The tree of skranger has the fields of one of scikit-learn ([sk], base_agnostree.py 220-232). *)
Definition mended (e : sk) (i : nat) : Z :=
  let f := nth i (sk_ft e) (-1)%Z in
  if (f =? -2)%Z && (negb (nth i (sk_cl e) (-1) =? -1)%Z || negb (nth i (sk_cr e) (-1) =? -1)%Z) then 0%Z else f.
(** base_agnostree.py 219-235 ([SingleTree]).  Simplification: of the values, the first output is kept, neither divided by
    its sum (234) nor scaled (235); no method of [ACXplainer] reads the values. *)
Definition ranger_tree (e : sk) : tree :=
  mkTree (sk_cl e) (sk_cr e) (sk_cl e) (map (mended e) (seq 0 (length (sk_ft e)))) (sk_th e)
         (map (fun r => nth 0 r 0%Q) (reshape (sk_value e))).
(** base_agnostree.py 232: [values.shape[1]]. *)
Definition outputs (e : sk) : nat := length (nth 0 (reshape (sk_value e)) []).

(** What is kept of the object (base_agnostree.py 79-90, 118-172): the trees behind the padded arrays, the number of outputs,
    the largest depth, the boxes and variables of the leaves, [max_var]. *)
Record agn := mkAgn { n_trees : list tree; n_outputs : nat; n_depth : nat; n_leaves : list (list leaf); n_max_var : nat }.

(** base_agnostree.py 118-143: the leaves of a tree; a split on a column that is not there is an IndexError (None).
    Simplification: a negative column other than the mark -2 would be counted from the end. *)
Definition known_leaves (d : nat) (t : tree) : option (list leaf) :=
  match tree_leaves t with
  | Some ls => if forallb (fun l => forallb (fun s => s <? d) (l_vars l)) ls then Some ls else None
  | None => None
  end.
(** base_agnostree.py 118-143: all trees. *)
Fixpoint each_leaves (d : nat) (ts : list tree) : option (list (list leaf)) :=
  match ts with
  | [] => Some []
  | t :: r => match known_leaves d t, each_leaves d r with Some a, Some b => Some (a :: b) | _, _ => None end
  end.
(** base_agnostree.py 133 and 153: [np.squeeze] also drops the axis of a single column; the assignment to the table of
    boxes then only fits trees with one leaf. *)
Definition boxes_fit (d : nat) (ls : list (list leaf)) : bool :=
  negb (d =? 1) || forallb (fun l => length l =? 1) ls.
(** base_agnostree.py 171: [np.max] of the depths. *)
Definition deepest (ts : list tree) : nat := fold_right Nat.max 0 (map tree_depth ts).

(** base_agnostree.py 22-172 ([BaseAgnosTree(model, d)]): None when the constructor raises: no tree (47, 57), unequal numbers
    of outputs (71-72), a column that is not there (130), the boxes of one column (153). *)
Definition build (d : nat) (es : list sk) : option agn :=
  match es with
  | [] => None
  | e :: _ =>
    if forallb (fun e' => outputs e' =? outputs e) es then
      let ts := map ranger_tree es in
      match each_leaves d ts with
      | Some ls =>
          if boxes_fit d ls then
            match max_var (map (map (fun l => length (l_vars l))) ls) with
            | Some mv => Some (mkAgn ts (outputs e) (deepest ts) ls mv)
            | None => None
            end
          else None
      | None => None
      end
    else None
  end.

Section Methods.
(** The fitted forest, [self.model.estimators_], with [self.d] columns (acv_agnosticX.py 164-166); what lies around the
    arrays in memory; [predict_quantiles] of the forest (acv_agnosticX.py 269). *)
Variables (d : nat) (es : list sk) (stray : row) (classifier : bool) (quantiles : pt -> Q * Q).
(** acv_agnosticX.py 257-277 and the other methods (see [acx]): the arguments are checked, the object is built on the first
    call ([check_is_explainer], 225-231), then its arrays go to the compiled routine.  None: the constructor of the object
    raises.  Simplification: the forest has not been fitted again after the first call (see ExplModel.v, C86). *)
Definition explain (r : routine) (a : args) (D : list pt) (Y : list Q) (m : nat) (t : targ) (sched : list nat)
  : option (outcome result) :=
  if negb (checked (g_X a) (g_y a) && checked D Y) then Some (Raised EValue)
  else if negb (one_set r) && negb (s_len (g_S a) =? length (g_X a)) then Some (Raised EValue)
  else match build d es with
       | None => None
       | Some o => Some (acx (dense (n_trees o) stray) (n_depth o) classifier quantiles r a D Y m t sched)
       end.
End Methods.

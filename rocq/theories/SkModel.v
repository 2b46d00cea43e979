(** Model of the loaders of scikit-learn and NGBoost models (base_tree.py 22-34, 84-300, 478-509), of the
    corresponding constructors of a tree (base_tree.py 865-898), of SingleTree.predict (base_tree.py 1110-1154)
    and of the trees of an isolation forest (base_tree.py 1157-1183).  Exact arithmetic: the conversion of the rows
    to 32 bit floats (base_tree.py 742-743) is left out.  No proofs here. *)
From Verif Require Import Base TreeModel FlatModel.
Local Open Scope nat_scope.

(** The fields of [sklearn.tree._tree.Tree] read by the constructor (base_tree.py 872-882) and by IsoTree (1169-1175);
    [sk_value] has, for every node, one list of cells for every output of the tree. *)
Record sk := mkSk { sk_cl : list Z; sk_cr : list Z; sk_ft : list Z; sk_th : list Q;
                    sk_value : list (list (list Q)); sk_ns : list Z }.

(** A quotient of base_tree.py 879 or 1116; None when numpy gives nan or inf. *)
Definition quot (a b : Q) : option Q := if qeqb b 0 then None else Some (a / b)%Q.
(** All entries of an array, base_tree.py 879, 1116; None as soon as one is not a number. *)
Fixpoint all_some {A} (l : list (option A)) : option (list A) :=
  match l with
  | [] => Some []
  | Some a :: r => match all_some r with Some s => Some (a :: s) | None => None end
  | None :: _ => None
  end.
(** base_tree.py 877: the outputs of a node side by side. *)
Definition reshape (v : list (list (list Q))) : list (list Q) := map (@concat Q) v.
(** base_tree.py 879: [(values.T / values.sum(1)).T]. *)
Definition normalize_rows (v : list (list Q)) : option (list (list Q)) :=
  all_some (map (fun r => all_some (map (fun a => quot a (sumf (fun b => b) r)) r)) v).
(** base_tree.py 880, 890, 901: [values * scaling]. *)
Definition scale_rows (s : Q) (v : list (list Q)) : list (list Q) := map (map (fun a => (a * s)%Q)) v.
(** base_tree.py 868-881 ([SingleTree] from a scikit-learn tree): the default children are the left ones.  None: a
    value is not a number. *)
Definition load_sk (normalize : bool) (scaling : Q) (e : sk) : option mtree :=
  match (if normalize then normalize_rows (reshape (sk_value e)) else Some (reshape (sk_value e))) with
  | Some v => Some (mkM (sk_cl e) (sk_cr e) (sk_cl e) (sk_ft e) (sk_th e) (scale_rows scaling v))
  | None => None
  end.

(** A node of a predictor of histogram boosting: the fields 0, 2, 3, 4, 5, 6 and 9 (base_tree.py 216-224). *)
Record hnode := mkH { h_value : Q; h_feature : Z; h_threshold : Q; h_missing_left : bool;
                      h_left : Z; h_right : Z; h_leaf : bool }.
(** base_tree.py 214-226 and 253-263, with the constructor of 883-890 and scaling 1. *)
Definition load_hist (nodes : list hnode) : mtree :=
  mkM (map (fun n => if h_leaf n then -1 else h_left n)%Z nodes)
      (map (fun n => if h_leaf n then -1 else h_right n)%Z nodes)
      (map (fun n => if h_leaf n then -1 else if h_missing_left n then h_left n else h_right n)%Z nodes)
      (map (fun n => if h_leaf n then -2 else h_feature n)%Z nodes)
      (map h_threshold nodes)
      (scale_rows 1 (map (fun n => [h_value n]) nodes)).

Section Iso.
(** [_average_path_length] of scikit-learn, applied to one number of samples (base_tree.py 1169). *)
Variable apl : Z -> Q.

(** base_tree.py 1167-1177 ([_recalculate_value]): the result and the column [values[:, 0]].  None: a division by
    zero, or no end within the fuel.  Simplification: a child -1 beside a child that is not -1 would be read from the
    end of the arrays; here it is node 0. *)
Fixpoint recalculate (fuel : nat) (e : sk) (i level : nat) (vals : nat -> Q) : option (Q * (nat -> Q)) :=
  match fuel with
  | O => None
  | S f =>
    let l := nth i (sk_cl e) (-1)%Z in
    let r := nth i (sk_cr e) (-1)%Z in
    let n := nth i (sk_ns e) 0%Z in
    if ((l =? -1) && (r =? -1))%Z then
      let v := (Qn level + apl n)%Q in Some ((v * inject_Z n)%Q, upd vals i v)
    else
      match recalculate f e (Z.to_nat l) (S level) vals with
      | Some (a, vals1) =>
        match recalculate f e (Z.to_nat r) (S level) vals1 with
        | Some (b, vals2) =>
          match quot (a + b) (inject_Z n) with
          | Some q => Some ((a + b)%Q, upd vals2 i q)
          | None => None
          end
        | None => None
        end
      | None => None
      end
  end.
(** base_tree.py 1183: [np.where(features >= 0, tree_features[features], features)]; the whole array is used as an index,
    also the entries -2 of the leaves.  None: IndexError. *)
Definition renumber (tf : list Z) (fs : list Z) : option (list Z) :=
  let n := Z.of_nat (length tf) in
  if forallb (fun f => (- n <=? f) && (f <? n))%Z fs
  then Some (map (fun f => if (0 <=? f)%Z then nth (Z.to_nat f) tf 0%Z else f) fs) else None.
(** base_tree.py 1162-1183 ([IsoTree]); [normalize] keeps its default, False. *)
Definition load_iso (scaling : Q) (e : sk) (tf : list Z) : option mtree :=
  match load_sk false scaling e with
  | None => None
  | Some m =>
    match recalculate (length (sk_cl e)) e 0 0 (fun i => nth 0 (nth i (m_vl m) []) 0%Q) with
    | None => None
    | Some (_, vals) =>
      match renumber tf (m_ft m) with
      | None => None
      | Some fs =>
        Some (mkM (m_cl m) (m_cr m) (m_cd m) fs (m_th m)
                (scale_rows scaling (map (fun p => vals (fst p) :: tl (snd p))
                                       (combine (seq 0 (length (m_vl m))) (m_vl m)))))
      end
    end
  end.

(** [self.model_output] (base_tree.py 211, 240-245, 489-496). *)
Inductive output := Unset | Raw | Param (k : nat).
(** base_tree.py 25: the constructor takes no such argument, so that a loader always meets None. *)
Definition model_output : output := Unset.

(** The models by branch of the constructor.  [None] for an initial estimator: its type is not supported.  [ps]: the
    rounds of predictors.  base_tree.py 88-98 and 113-137, 154-187 and 478-485, 138-145, 146-153, 188-207, 278-300, 208-232,
    233-267, 486-509, 99-105. *)
Inductive skmodel :=
| ForestReg (es : list sk) | ForestClf (es : list sk) | TreeReg (e : sk) | TreeClf (e : sk)
| BoostReg (init : option offset) (rate : Q) (es : list (list sk))
| BoostClf (init : option offset) (rate : Q) (es : list (list sk))
| HistReg (base : offset) (ps : list (list (list hnode)))
| HistClf (base : offset) (ps : list (list (list hnode)))
| Ngb (init : list Q) (rate : Q) (scalings : list Q) (es : list (list sk))
| IsoForest (es : list (sk * list Z)).

(** [self.trees] with their scalings, [self.num_stacked_models], [self.base_offset] (base_tree.py 22-34, 576). *)
Record loaded := mkL { l_trees : list mtree; l_scalings : list Q; l_stacked : nat; l_offset : offset }.

(** base_tree.py 94, 101: [1.0 / len(model.estimators_)]; None: ZeroDivisionError. *)
Definition average (n : nat) : option Q := quot 1 (Qn n).
(** [estimators_[:, 0]], [p[0]] and [trees[param_idx]] (base_tree.py 204, 216, 499); None: IndexError. *)
Definition column {A} (k : nat) (l : list (list A)) : option (list A) := all_some (map (fun r => nth_error r k) l).
(** base_tree.py 246-249: the first [k] predictors of every round, in this order; None: IndexError. *)
Definition rounds {A} (k : nat) (ps : list (list A)) : option (list A) :=
  all_some (concat (map (fun p => map (nth_error p) (seq 0 k)) ps)).
(** A list of trees with the same scaling (base_tree.py 96, 204). *)
Definition with_scaling (normalize : bool) (s : Q) (b : offset) (es : list sk) : option loaded :=
  match all_some (map (load_sk normalize s) es) with
  | Some ts => Some (mkL ts (map (fun _ => s) es) 1 b)
  | None => None
  end.

(** base_tree.py 88-300 and 478-509: the branch of the model; None: an exception, or a value that is not a number. *)
Definition load_model (m : skmodel) : option loaded :=
  match m with
  | ForestReg es =>
      match average (length es) with Some s => with_scaling false s (Scalar 0) es | None => None end
  | ForestClf es =>
      match average (length es) with Some s => with_scaling true s (Scalar 0) es | None => None end
  | TreeReg e => with_scaling false 1 (Scalar 0) [e]
  | TreeClf e => with_scaling true 1 (Scalar 0) [e]
  | BoostReg init rate es =>
      match init, column 0 es with Some b, Some c => with_scaling false rate b c | _, _ => None end
  | BoostClf init rate es =>
      if existsb (fun r => 1 <? length r) es then None
      else match init, column 0 es with Some b, Some c => with_scaling false rate b c | _, _ => None end
  | HistReg base ps =>
      match column 0 ps with
      | Some c => Some (mkL (map load_hist c) (map (fun _ => 1%Q) c) 1 base)
      | None => None
      end
  | HistClf base ps =>
      match base, model_output with
      | Vector _, Unset | Vector _, Param _ => None
      | _, _ =>
        match ps with
        | [] => None
        | r :: _ =>
          match rounds (length r) ps with
          | Some c => Some (mkL (map load_hist c) (map (fun _ => 1%Q) c) (length r) base)
          | None => None
          end
        end
      end
  | Ngb init rate scalings es =>
      match (match model_output with Raw => Some 0 | Param k => Some k | Unset => None end) with
      | Some k =>
          match column k es, nth_error init k with
          | Some c, Some b =>
              let ss := map (fun s => (- rate * s)%Q) scalings in
              match all_some (map (fun p => load_sk false (snd p) (fst p)) (combine c ss)) with
              | Some ts => Some (mkL ts (map snd (combine c ss)) 1 (Scalar b))
              | None => None
              end
          | _, _ => None
          end
      | None => None
      end
  | IsoForest es =>
      match average (length es) with
      | Some s => match all_some (map (fun p => load_iso s (fst p) (snd p)) es) with
                  | Some ts => Some (mkL ts (map (fun _ => s) es) 1 (Scalar 0))
                  | None => None
                  end
      | None => None
      end
  end.

(** base_tree.py 20-656, then [predict] (710-776) with all the trees. *)
Definition model_predict (m : skmodel) (fuel n M : nat) (X : nat -> pt) (miss : nat -> nat -> bool) : option (arr Q) :=
  match load_model m with
  | Some l => ensemble_predict (l_trees l) (l_stacked l) (l_offset l) (-1) fuel n M X miss
  | None => None
  end.
End Iso.

(** base_tree.py 1110-1154 ([SingleTree.predict]): the values divided by the scaling, no offset.  None also when a
    value is not a number. *)
Definition tree_predict (m : mtree) (scaling : Q) (fuel n M : nat) (X : nat -> pt) (miss : nat -> nat -> bool)
  : option (arr Q) :=
  match all_some (map (fun r => all_some (map (fun a => quot a scaling) r)) (m_vl m)) with
  | Some v => ensemble_predict [mkM (m_cl m) (m_cr m) (m_cd m) (m_ft m) (m_th m) v] 1 (Scalar 0) 1 fuel n M X miss
  | None => None
  end.

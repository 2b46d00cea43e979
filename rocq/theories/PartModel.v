(** Model of the pure Python same-decision probabilities: the walk over the leaves compatible
    with an observation (utils.py 590-737) and the estimates made from it (py_acv.py 297-394).
    Exact arithmetic, no missing value.  No proofs here. *)
From Verif Require Import Base TreeModel ShapModel SdpModel RulesModel.

Section Explore.
Variable t : tree.
(** [x] and [S], utils.py 668. *)
Variables (x : pt) (Sv : list nat).

(** utils.py 590-665 ([explore_partition]): the leaves appended to [compatible_leaves] with
    their [partition_leaves], from node [i] with the rectangle [p]; the fuel bounds the
    recursion, None when it is exhausted. *)
Fixpoint explore (fuel : nat) (i : nat) (p : rect) : option (list (nat * rect)) :=
  match fuel with
  | O => None
  | S f =>
    let fe := ftn t i in
    let left := explore f (Z.to_nat (clz t i)) (narrow p fe NInf (Fin (thq t i))) in
    let right := explore f (Z.to_nat (crz t i)) (narrow p fe (Fin (thq t i)) PInf) in
    if is_leaf t i then Some [(i, p)]
    else if memb fe Sv then (if qleb (x fe) (thq t i) then left else right)
    else match left, right with Some a, Some b => Some (a ++ b) | _, _ => None end
  end.
(** utils.py 714, 722-725: from the root and the whole space. *)
Definition compatible : option (list (nat * rect)) := explore (nn t) 0 whole.
End Explore.

(** utils.py 599-605: the closed sides [s] of a rectangle, [s] in [F]. *)
Definition in_sides (p : rect) (F : list nat) (z : pt) : bool :=
  forallb (fun s => q_leb_ext (z s) (snd (p s)) && ext_leb_q (fst (p s)) (z s)) F.
(** utils.py 713 ([S_bar]). *)
Definition others (d : nat) (Sv : list nat) : list nat := filter (fun i => negb (memb i Sv)) (seq 0 d).
(** 'all', 'up', 'down' (py_acv.py 317 and 355). *)
Inductive part := All | Up | Down.
(** utils.py 692-693 and 703-704: the rows of a part; [down] tells the rows of 'down', 'up' has
    the other ones, 'all' every row. *)
Definition flag (down : pt -> bool) (nm : part) (z : pt) : bool :=
  match nm with All => true | Up => negb (down z) | Down => down z end.

Section Probs.
Variables (d : nat) (Sv : list nat) (data : list pt).
(** Sum over the rows of a line of [part_final[name]] (utils.py 617-619, 625-627). *)
Definition leaf_rows (fl : pt -> bool) (p : rect) : nat :=
  length (filter (fun z => in_sides p Sv z && in_sides p (others d Sv) z && fl z) data).
(** Sum over the rows of a line of [part_final['s_name']] (utils.py 621-623, 629-631).  Without any column
    in [S], [np.prod] of the empty list is the scalar 1 and the line of 's_all' has one cell. *)
Definition side_rows (nm : part) (fl : pt -> bool) (p : rect) : nat :=
  match Sv, nm with
  | [], All => 1
  | _, _ => length (filter (fun z => in_sides p Sv z && fl z) data)
  end.
(** py_acv.py 325-327 and 363-365 ([prob]). *)
Definition prob (down : pt -> bool) (nm : part) (p : rect) : Q :=
  gdiv (Qn (leaf_rows (flag down nm) p)) (side_rows nm (flag down nm) p).
(** py_acv.py 378-384 ([prob_ij]): the lines of a leaf of each tree multiplied row by row. *)
Definition prob2 (down down' : pt -> bool) (nm : part) (p p' : rect) : Q :=
  let fl z := flag down nm z && flag down' nm z in
  gdiv (Qn (length (filter (fun z => in_sides p Sv z && in_sides p (others d Sv) z
                                     && in_sides p' Sv z && in_sides p' (others d Sv) z && fl z) data)))
       (match Sv, nm with
        | [], All => 1
        | _, _ => length (filter (fun z => in_sides p Sv z && in_sides p' Sv z && fl z) data)
        end).
End Probs.

(** py_acv.py 336 and 393: clipping.  A zero denominator gives an infinity or a NaN, and a NaN after
    the clipping (inf * 0): None. *)
Definition clip_ratio (a b : Q) : option Q :=
  if qeqb b 0 then None
  else let s := (a / b)%Q in Some (if qltb s 0 then 0 else if qltb 1 s then 1 else s)%Q.

(** The subscripts [partition_leaves[s, 1]] and [data[:, s]] of utils.py 600-605 exist: np.squeeze of the
    rectangle of a single column leaves one axis, which raises. *)
Definition subscripts_ok (d : nat) (Sv : list nat) : bool := negb (d =? 1) && forallb (fun s => s <? d) Sv.

Section Regression.
(** [fx], [tx], number of columns, [S], [data] of cond_sdp_forest, py_acv.py 339. *)
Variables (fx tx : Q) (d : nat) (Sv : list nat) (data : list pt) (x : pt).

(** utils.py 689-693: [dist <= tx] for the prediction of this tree; the values are divided by the
    scaling they were multiplied by (base_tree.py 883, 1117), hence those of the fitted tree.  The walk
    always ends on a well-formed tree. *)
Definition near (t : tree) (z : pt) : bool :=
  match predict_value t z no_missing with Some v => qleb ((v - fx) * (v - fx))%Q tx | None => false end.

(** py_acv.py 361-370: the diagonal term of tree [t] among [n]; [ls] are its compatible leaves. *)
Definition diag_mean (n : nat) (t : tree) (ls : list (nat * rect)) (nm : part) : Q :=
  (sumf (fun l => prob d Sv data (near t) nm (snd l) * (vlq t (fst l) * vlq t (fst l))) ls / (Qn n * Qn n)
   - 2 * fx * sumf (fun l => prob d Sv data (near t) nm (snd l) * vlq t (fst l)) ls / Qn n)%Q.
(** py_acv.py 374-389: the term of two different trees. *)
Definition pair_mean (n : nat) (t t' : tree) (ls ls' : list (nat * rect)) (nm : part) : Q :=
  (sumf (fun l => sumf (fun l' => prob2 d Sv data (near t) (near t') nm (snd l) (snd l')
                                  * (vlq t (fst l) * vlq t' (fst l'))) ls') ls / (Qn n * Qn n))%Q.
(** py_acv.py 357-389: [mean_forest[name]] over the pairs of trees. *)
Definition mean_part (parts : list (tree * list (nat * rect))) (nm : part) : Q :=
  let n := length parts in
  sumf (fun it => sumf (fun jt =>
      if fst it =? fst jt then diag_mean n (fst (snd it)) (snd (snd it)) nm
      else pair_mean n (fst (snd it)) (fst (snd jt)) (snd (snd it)) (snd (snd jt)) nm)
    (indexed parts)) (indexed parts).
(** py_acv.py 356-357: the partitions of all the trees. *)
Fixpoint partitions (ts : list tree) : option (list (tree * list (nat * rect))) :=
  match ts with
  | [] => Some []
  | t :: r => match compatible t x Sv, partitions r with
              | Some ls, Some ps => Some ((t, ls) :: ps)
              | _, _ => None
              end
  end.
(** py_acv.py 339-394 ([cond_sdp_forest]).  Outer None: it raises (no tree: Python's 0 / 0); inner None:
    the result is a NaN. *)
Definition cond_sdp_forest (ts : list tree) : option (option Q) :=
  match ts with
  | [] => None
  | _ =>
    if subscripts_ok d Sv then
      match partitions ts with
      | Some ps => let m := mean_part ps in Some (clip_ratio (m Up - m All)%Q (m Up - m Down)%Q)
      | None => None
      end
    else None
  end.
End Regression.

(** A tree with several outputs: the rows of [values] (base_tree.py 545-567, utils.py 695). *)
Record ctree := mkC { c_tree : tree; c_val : nat -> list Q }.

Section Classification.
(** [int(fx)], number of columns, [S], [data] of cond_sdp_forest_clf, py_acv.py 297. *)
Variables (c : nat) (d : nat) (Sv : list nat) (data : list pt) (x : pt).

(** utils.py 696-701: class of one row; a single output [v] stands for the classes [1 - v] and [v]. *)
Definition tree_class (t : ctree) (z : pt) : option nat :=
  match predict_leaf (c_tree t) z no_missing with
  | Some l => match c_val t l with [v] => argmax [(1 - v)%Q; v] | row => argmax row end
  | None => None
  end.
(** utils.py 704 ([down_tx]): another class than [int(fx)]. *)
Definition other_class (t : ctree) (z : pt) : bool :=
  match tree_class t z with Some k => negb (k =? c) | None => true end.
(** py_acv.py 325-331: column [int(fx)] of [mean_forest[name]] for one tree. *)
Definition class_mean (t : ctree) (ls : list (nat * rect)) (nm : part) : Q :=
  sumf (fun l => prob d Sv data (other_class t) nm (snd l) * nth c (c_val t (fst l)) 0)%Q ls.
(** py_acv.py 318-335: what one tree adds to [sdp].  Outer None: it raises ([s[int(fx)]] outside the outputs,
    all rows of [values] having the same length). *)
Definition tree_sdp (t : ctree) : option (option Q) :=
  match compatible (c_tree t) x Sv with
  | Some (l :: ls) =>
      if c <? length (c_val t (fst l)) then
        let m := class_mean t (l :: ls) in Some (clip_ratio (m All - m Down)%Q (m Up - m Down)%Q)
      else None
  | _ => None
  end.
(** py_acv.py 320-335: the sum over the trees; a NaN stays. *)
Fixpoint add_sdp (ts : list ctree) : option (option Q) :=
  match ts with
  | [] => Some (Some 0%Q)
  | t :: r => match tree_sdp t, add_sdp r with
              | Some (Some a), Some (Some b) => Some (Some (a + b)%Q)
              | Some _, Some _ => Some None
              | _, _ => None
              end
  end.
(** py_acv.py 297-336 ([cond_sdp_forest_clf]); same conventions as [cond_sdp_forest]. *)
Definition cond_sdp_forest_clf (ts : list ctree) : option (option Q) :=
  if length Sv =? d then Some (Some 1%Q)
  else match Sv with
       | [] => Some (Some 0%Q)
       | _ =>
         match ts with
         | [] => None
         | _ => if subscripts_ok d Sv
                then option_map (option_map (fun s => s / Qn (length ts))%Q) (add_sdp ts)
                else None
         end
       end.
End Classification.

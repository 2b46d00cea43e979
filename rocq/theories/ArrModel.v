(** Model of the compiled conditional expectations and classifier same-decision
    probabilities as the array programs they are (cyext_acv.pyx 32-453 and the
    sequential copies of cyext_acv_nopa.pyx 26-447): all rows and all output columns at
    once, the leaves taken from the padded tables of the ensemble, counters kept by
    loops, work buffers reused from tree to tree, passes of the parallel loop executed
    in any order, accesses outside an array kept apart (no proofs here).
    Simplification, for the whole file: exact arithmetic, counters that do not overflow. *)
From Verif Require Import Base TreeModel ShapModel NopaModel AcvModel SdpModel.

(** The tables of the ensemble (base_tree.py 575-654), arguments of cyext_acv.pyx 32-34:
    [t_trees] and [t_nodes], [t_out] are the shape of [values], [t_max] is
    [partition_leaves_trees.shape[1]]. *)
Record tabs := mkTabs {
  t_trees : nat; t_nodes : nat; t_out : nat; t_max : nat;
  t_part : nat -> nat -> rect;         (* partition_leaves_trees[b, leaf] *)
  t_leaf : nat -> nat -> nat;          (* leaf_idx_trees[b, leaf] *)
  t_nb : nat -> nat;                   (* leaves_nb[b] *)
  t_val : nat -> nat -> nat -> Q }.    (* values[b, node, j] *)

(** A double, as far as these routines go (cyext_acv.pyx 149: [cdivision(True)], a
    quotient of two counts that may be 0): no negative infinity arises. *)
Inductive dbl := Dnum (q : Q) | Dinf | Dnan.
(** IEEE addition on them (cyext_acv.pyx 159, 162). *)
Definition dadd (a b : dbl) : dbl :=
  match a, b with
  | Dnan, _ | _, Dnan => Dnan
  | Dinf, _ | _, Dinf => Dinf
  | Dnum p, Dnum q => Dnum (p + q)
  end.
(** [z != 0] (cyext_acv.pyx 162). *)
Definition dne0 (z : dbl) : bool := match z with Dnum q => negb (qeqb q 0) | _ => true end.
(** a number divided by [z] (cyext_acv.pyx 162); only used when [z != 0]. *)
Definition qdivd (a : Q) (z : dbl) : dbl :=
  match z with Dnum q => Dnum (a / q) | Dinf => Dnum 0 | Dnan => Dnan end.
(** [(1.*lm)/p_ss] (cyext_acv.pyx 149). *)
Definition count_div (lm p_ss : nat) : dbl :=
  if p_ss =? 0 then (if lm =? 0 then Dnan else Dinf) else Dnum (Qn lm / Qn p_ss).

(** ** Loops *)

(** [for s in ...: if test: it = it + 1] (cyext_acv.pyx 63-68, 76-78): the counter at
    the end; None when a column is outside the tables. *)
Definition count_cols (m : nat) (test : nat -> bool) (cols : list nat) : option nat :=
  ofold (fun it s => if s <? m then Some (if test s then S it else it) else None) cols 0.
(** [for j in range(data.shape[0])] with [y_pred[j]] read in the body (cyext_acv.pyx
    286-311): None when [y_pred] is too short. *)
Fixpoint rows_loop {St} (body : St -> pt -> nat -> option St) (data : list pt) (y : list nat) (st : St)
  : option St :=
  match data, y with
  | [], _ => Some st
  | z :: data', c :: y' => match body st z c with Some st' => rows_loop body data' y' st' | None => None end
  | _ :: _, [] => None
  end.
(** [a[k, i] = v] (cyext_acv.pyx 82, 315-317): a buffer indexed by the leaf number and
    the row; a cell holds everything stored at these two indexes. *)
Definition set2 {V} (a : nat -> nat -> V) (k i : nat) (v : V) : nat -> nat -> V :=
  fun k' i' => if (k' =? k) && (i' =? i) then v else a k' i'.

Section Programs.
(** the arguments of cyext_acv.pyx 32-34 *)
Variables (T : tabs) (m : nat) (X data : list pt) (Sv : list nat).
(** For every tree, the order in which the pairs (leaf, row) are treated by the threads
    of [prange] (cyext_acv.pyx 57; the passes of a leaf write to the cells of that leaf
    only, and their scalars are private to a pass).  The sequential routines
    (cyext_acv_nopa.pyx 51) have the order of the loops. *)
Variable sched : nat -> list (nat * nat).
(** cyext_acv_nopa.pyx 51-76: leaves in order, rows in order *)
Definition in_order (b : nat) : list (nat * nat) := list_prod (seq 0 (t_nb T b)) (seq 0 (length X)).

(** [values[b, leaf_idx_trees[b, k], j]] (cyext_acv.pyx 82) *)
Definition value_at (b k j : nat) : option Q :=
  if (t_leaf T b k <? t_nodes T) && (j <? t_out T) then Some (t_val T b (t_leaf T b k) j) else None.
(** cyext_acv.pyx 75-78: number of columns of [S] where [x] is outside the closed interval *)
Definition out_cl (p : rect) (x : pt) : option nat :=
  count_cols m (fun s => negb (q_leb_ext (x s) (snd (p s))) || negb (ext_leb_q (fst (p s)) (x s))) Sv.
(** cyext_acv.pyx 197-200: the same for the half-open interval *)
Definition out_ho (p : rect) (x : pt) : option nat :=
  count_cols m (fun s => negb (q_leb_ext (x s) (snd (p s))) || negb (ext_ltb_q (fst (p s)) (x s))) Sv.
(** cyext_acv.pyx 63-65: columns of the row inside the closed leaf *)
Definition in_cl (p : rect) (cols : list nat) (z : pt) : option nat :=
  count_cols m (fun s => cl_itv (p s) (z s)) cols.
(** cyext_acv.pyx 66-68: columns of the row inside the half-open leaf *)
Definition in_ho (p : rect) (cols : list nat) (z : pt) : option nat :=
  count_cols m (fun s => in_itv (p s) (z s)) cols.

(** One pass of the parallel loop for leaf [k] and row [i]: nothing outside the buffer
    (cyext_acv.pyx 57-82).  [get i] reads what the body needs of row [i]. *)
Definition visit {A V} (get : nat -> option A) (body : nat -> A -> V -> option V) (buf : nat -> nat -> V)
  (e : nat * nat) : option (nat -> nat -> V) :=
  let '(k, i) := e in
  if k <? t_max T then
    match get i with
    | None => None
    | Some x => match body k x (buf k i) with Some v => Some (set2 buf k i v) | None => None end
    end
  else None.
(** One buffer for all trees (cyext_acv.pyx 50, 55-82, 258, 268-317): its contents after the last tree *)
Definition shared_trees {A V} (get : nat -> option A) (body : nat -> nat -> A -> V -> option V) (zero : V)
  : option (nat -> nat -> V) :=
  ofold (fun buf b => ofold (visit get (body b)) (sched b) buf) (seq 0 (t_trees T)) (fun _ _ => zero).
(** Buffers with one layer per tree (cyext_acv.pyx 114, 119, 363, 374-376): tree [b] writes
    to its own *)
Definition own_trees {A V} (get : nat -> option A) (body : nat -> nat -> A -> V -> option V) (zero : V)
  : option (nat -> nat -> nat -> V) :=
  ofold (fun buf b => match ofold (visit get (body b)) (sched b) (buf b) with
                      | Some layer => Some (fun b' => if b' =? b then layer else buf b')
                      | None => None end) (seq 0 (t_trees T)) (fun _ _ _ => zero).
(** cyext_acv.pyx 84-87, 323-326: the sum over the [max_leaves] slots *)
Definition slots {V} (buf : nat -> nat -> V) (f : V -> Q) (i : nat) : Q :=
  fold_left (fun acc k => (acc + f (buf k i))%Q) (seq 0 (t_max T)) 0%Q.

(** *** compute_exp *)

(** cyext_acv.pyx 58-72: [lm] and [p_ss] *)
Definition exp_counts (p : rect) : option (nat * nat) :=
  ofold (fun c z => match in_cl p (seq 0 m) z, in_ho p Sv z with
                    | Some it, Some it_s =>
                        Some (if it =? m then S (fst c) else fst c,
                              if it_s =? length Sv then S (snd c) else snd c)
                    | _, _ => None end) data (0, 0).
(** cyext_acv.pyx 81-82: [for j in range(d): mean_forest_b[leaf_numb, i, j] += ...] *)
Definition add_values (b k lm p_ss : nat) (cell : nat -> Q) : option (nat -> Q) :=
  ofold (fun c j => if p_ss =? 0 then Some (upd c j (c j + 0)%Q)
                    else match value_at b k j with
                         | Some v => Some (upd c j (c j + Qn lm * v / Qn p_ss)%Q)
                         | None => None end) (seq 0 (t_out T)) cell.
(** cyext_acv.pyx 58-82: one leaf, one row *)
Definition exp_body (b k : nat) (x : pt) (cell : nat -> Q) : option (nat -> Q) :=
  match exp_counts (t_part T b k), out_cl (t_part T b k) x with
  | Some (lm, p_ss), Some o_all => if 0 <? o_all then Some cell else add_values b k lm p_ss cell
  | _, _ => None
  end.
(** cyext_acv.pyx 32-89 ([compute_exp]); cyext_acv_nopa.pyx 26-83 with [in_order] *)
Definition exp_prog : option (nat -> nat -> Q) :=
  match shared_trees (nth_error X) exp_body (fun _ => 0%Q) with
  | Some buf => Some (fun i j => slots buf (fun c => c j) i)
  | None => None
  end.

(** *** compute_exp_cat *)

(** cyext_acv.pyx 204-221: [lm] and [p_ss] for one observation *)
Definition exp_cat_counts (p : rect) (x : pt) : option (nat * nat) :=
  ofold (fun c z => match in_ho p (seq 0 m) z, count_cols m (fun s => qeqb (z s) (x s)) Sv with
                    | Some it, Some it_s =>
                        Some (if it_s =? length Sv
                              then (if it =? m then S (fst c) else fst c, S (snd c)) else c)
                    | _, _ => None end) data (0, 0).
(** cyext_acv.pyx 197-224: one leaf, one row *)
Definition exp_cat_body (b k : nat) (x : pt) (cell : nat -> Q) : option (nat -> Q) :=
  match out_ho (t_part T b k) x with
  | Some o_all =>
      if 0 <? o_all then Some cell
      else match exp_cat_counts (t_part T b k) x with
           | Some (lm, p_ss) => add_values b k lm p_ss cell
           | None => None end
  | None => None
  end.
(** cyext_acv.pyx 172-231 ([compute_exp_cat]); cyext_acv_nopa.pyx 166-225 with [in_order] *)
Definition exp_cat_prog : option (nat -> nat -> Q) :=
  match shared_trees (nth_error X) exp_cat_body (fun _ => 0%Q) with
  | Some buf => Some (fun i j => slots buf (fun c => c j) i)
  | None => None
  end.

(** *** compute_exp_normalized *)

(** cyext_acv.pyx 125-152: one leaf, one row; a cell holds [p_n[b, k, i]] and
    [mean_forest_b[b, k, i, .]] *)
Definition norm_body (b k : nat) (x : pt) (cell : dbl * (nat -> Q)) : option (dbl * (nat -> Q)) :=
  match exp_counts (t_part T b k), out_cl (t_part T b k) x with
  | Some (lm, p_ss), Some o_all =>
      if 0 <? o_all then Some cell
      else match add_values b k lm p_ss (snd cell) with
           | Some c => Some (dadd (fst cell) (count_div lm p_ss), c)
           | None => None end
  | _, _ => None
  end.
(** cyext_acv.pyx 157-159 ([z]) *)
Definition norm_z (buf : nat -> nat -> nat -> dbl * (nat -> Q)) (i b : nat) : dbl :=
  fold_left (fun z k => dadd z (fst (buf b k i))) (seq 0 (t_nb T b)) (Dnum 0).
(** cyext_acv.pyx 155-162: [mean_forest[i, j]] *)
Definition norm_out (buf : nat -> nat -> nat -> dbl * (nat -> Q)) (i j : nat) : dbl :=
  fold_left (fun acc b => let z := norm_z buf i b in
               fold_left (fun acc k => dadd acc (if dne0 z then qdivd (snd (buf b k i) j) z else Dnum 0))
                         (seq 0 (t_nb T b)) acc) (seq 0 (t_trees T)) (Dnum 0).
(** cyext_acv.pyx 96-165 ([compute_exp_normalized]); cyext_acv_nopa.pyx 90-159 with [in_order] *)
Definition norm_prog : option (nat -> nat -> dbl) :=
  match own_trees (nth_error X) norm_body (Dnum 0, fun _ => 0%Q) with
  | Some buf => Some (norm_out buf)
  | None => None
  end.

(** *** compute_sdp_clf_cat and compute_sdp_clf *)

(** classes given to the routine (cyext_acv.pyx 237-238, 341-342) *)
Variables (fX y_pred : list nat).
(** the counters of cyext_acv.pyx 279-284 *)
Record six := mkSix { p_ : nat; p_u : nat; p_d : nat; p_s : nat; p_su : nat; p_sd : nat }.
(** cyext_acv.pyx 279-284 *)
Definition six0 : six := mkSix 0 0 0 0 0 0.
(** cyext_acv.pyx 286-311: one background row, classifier, categorical *)
Definition cat_row (p : rect) (x : pt) (f : nat) (c : six) (z : pt) (y : nat) : option six :=
  match in_cl p (seq 0 m) z, count_cols m (fun s => qeqb (z s) (x s)) Sv with
  | Some a_it, Some b_it =>
      let lm := if a_it =? m then 1 else 0 in
      if b_it =? length Sv then
        let up := if f =? y then 1 else 0 in
        let down := if f =? y then 0 else 1 in
        Some (mkSix (p_ c + lm) (p_u c + lm * up) (p_d c + lm * down) (p_s c + 1) (p_su c + up) (p_sd c + down))
      else Some c
  | _, _ => None
  end.
(** cyext_acv.pyx 395-423: one background row, classifier *)
Definition box_row (p : rect) (x : pt) (f : nat) (c : six) (z : pt) (y : nat) : option six :=
  match in_cl p (seq 0 m) z, in_cl p Sv z with
  | Some a_it, Some b_it =>
      let lm := if a_it =? m then 1 else 0 in
      let lm_s := if b_it =? length Sv then 1 else 0 in
      if f =? y then Some (mkSix (p_ c + lm) (p_u c + lm) (p_d c) (p_s c + lm_s) (p_su c + lm_s) (p_sd c))
      else Some (mkSix (p_ c + lm) (p_u c) (p_d c + lm) (p_s c + lm_s) (p_su c) (p_sd c + lm_s))
  | _, _ => None
  end.
(** [mean_forest_b[.., i, 0..2]] and [p_n], [p_u_n], [p_d_n] (cyext_acv.pyx 363, 374-376) *)
Record cell6 := mkCell { c_a : Q; c_u : Q; c_d : Q; n_a : Q; n_u : Q; n_d : Q }.
(** np.zeros, cyext_acv.pyx 258, 363, 374-376 *)
Definition cell0 : cell6 := mkCell 0 0 0 0 0 0.
(** cyext_acv.pyx 315 ([(p * values[...]) / (p_s) if p_s != 0 else 0]) *)
Definition ratio (p : nat) (v : Q) (s : nat) : Q := if s =? 0 then 0%Q else (Qn p * v / Qn s)%Q.
(** cyext_acv.pyx 315-317, 424-430: the six additions; the routine of line 315 has no
    [p_n] arrays, which are then left at 0 *)
Definition add_cell (norm : bool) (v : Q) (c : six) (cell : cell6) : cell6 :=
  mkCell (c_a cell + ratio (p_ c) v (p_s c)) (c_u cell + ratio (p_u c) v (p_su c))
         (c_d cell + ratio (p_d c) v (p_sd c))
         (if norm then n_a cell + ratio (p_ c) 1 (p_s c) else n_a cell)
         (if norm then n_u cell + ratio (p_u c) 1 (p_su c) else n_u cell)
         (if norm then n_d cell + ratio (p_d c) 1 (p_sd c) else n_d cell).
(** cyext_acv.pyx 272-317, 383-430: one leaf, one row [x] of class [f]; [values] is not read when the
    denominators are 0 *)
Definition sdp_body (norm : bool) (row : rect -> pt -> nat -> six -> pt -> nat -> option six)
  (b k : nat) (xf : pt * nat) (cell : cell6) : option cell6 :=
  let '(x, f) := xf in
  match out_cl (t_part T b k) x with
  | Some o_all =>
      if 0 <? o_all then Some cell
      else match rows_loop (row (t_part T b k) x f) data y_pred six0, value_at b k f with
           | Some c, Some v => Some (add_cell norm v c cell)
           | Some c, None => if (p_s c =? 0) && (p_su c =? 0) && (p_sd c =? 0) then Some (add_cell norm 0 c cell) else None
           | None, _ => None end
  | None => None
  end.
(** [X[i, .]] and [fX[i]] (cyext_acv.pyx 274, 303, 315) *)
Definition get_f (i : nat) : option (pt * nat) :=
  match nth_error X i, nth_error fX i with Some x, Some f => Some (x, f) | _, _ => None end.
(** cyext_acv.pyx 319-333: [sdp[i]] *)
Definition cat_out (buf : nat -> nat -> cell6) (i : nat) : Q :=
  let ss_a := slots buf c_a i in
  let ss_u := slots buf c_u i in
  let ss_d := slots buf c_d i in
  clip (qdiv0 (ss_a - ss_d) (ss_u - ss_d)).
(** cyext_acv.pyx 237-335 ([compute_sdp_clf_cat]); cyext_acv_nopa.pyx 231-329 with [in_order] *)
Definition sdp_clf_cat_prog : option (nat -> Q) :=
  if length Sv =? m then Some (fun _ => 1%Q) else if length Sv =? 0 then Some (fun _ => 0%Q)
  else match shared_trees get_f (sdp_body false cat_row) cell0 with Some buf => Some (cat_out buf) | None => None end.

(** cyext_acv.pyx 438-444 ([n], [n_u], [n_d]) *)
Definition box_n (buf : nat -> nat -> nat -> cell6) (f : cell6 -> Q) (i b : nat) : Q :=
  fold_left (fun n k => (n + f (buf b k i))%Q) (seq 0 (t_nb T b)) 0%Q.
(** cyext_acv.pyx 433-449: one of [ss_a], [ss_u], [ss_d]; [upto b] is the bound of the
    last loop, [max_leaves] (446) or [leaves_nb[b]] (cyext_acv_nopa.pyx 440) *)
Definition box_ss (upto : nat -> nat) (buf : nat -> nat -> nat -> cell6) (f g : cell6 -> Q) (i : nat) : Q :=
  fold_left (fun ss b => let n := box_n buf g i b in
               fold_left (fun ss k => (ss + (if qeqb n 0 then 0 else f (buf b k i) / n))%Q) (seq 0 (upto b)) ss)
            (seq 0 (t_trees T)) 0%Q.
(** cyext_acv.pyx 432-450: [sdp[i]] *)
Definition box_out (upto : nat -> nat) (buf : nat -> nat -> nat -> cell6) (i : nat) : Q :=
  let ss_a := box_ss upto buf c_a n_a i in
  let ss_u := box_ss upto buf c_u n_u i in
  let ss_d := box_ss upto buf c_d n_d i in
  qdiv0 (ss_a - ss_d) (ss_u - ss_d).
(** cyext_acv.pyx 341-453 ([compute_sdp_clf]); cyext_acv_nopa.pyx 335-447 with [in_order]
    and [t_nb T] *)
Definition sdp_clf_prog (upto : nat -> nat) : option (nat -> Q) :=
  if length Sv =? m then Some (fun _ => 1%Q) else if length Sv =? 0 then Some (fun _ => 0%Q)
  else match own_trees get_f (sdp_body true box_row) cell0 with Some buf => Some (box_out upto buf) | None => None end.
End Programs.

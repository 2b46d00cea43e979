(** Model of the pure Python Shapley routines (py_acv.py 7-294, called tree by tree
    by acv_tree.py 441-471).  No proofs here.  One observation and one output
    column: the NumPy expressions repeat the same computation for every row of [x]
    and every column of [v].  Exact arithmetic, so the order of sums is immaterial. *)
From Verif Require Import Base TreeModel ShapModel SwingModel AcvModel.

(** ** Parts shared by the routines *)

(** py_acv.py 42-46 and 230-235: the coalitions having a member among the variables of the
    leaf are appended to them, one after the other. *)
Definition py_nodes (h : bool) (C : list group) (vars : list nat) : list nat :=
  if h then fold_left (fun nid c => if existsb (fun k => memb k nid) c then nid ++ c else nid) C vars
  else vars.
(** py_acv.py 50, 240 ([set(convert_list(i)).issubset(node_id)]). *)
Definition py_present (nid : list nat) (i : item) : bool :=
  forallb (fun k => memb k nid) (convert_list i).
(** py_acv.py 53-62 and 254-263 ([Sm]).  Simplification: [list(set(...))] keeps the order of
    first appearance. *)
Definition py_others (h : bool) (C : list group) (nid : list nat) (i : item) : list item :=
  let buf := nodup Nat.eq_dec (filter (fun k => negb (memb k (convert_list i))) nid) in
  let sub c := forallb (fun k => memb k buf) c in
  if h
  then map (fun k => (false, [k]))
         (filter (fun k => negb (existsb (fun c => sub c && memb k c) C)) buf)
       ++ map (fun c => (true, c)) (filter sub C)
  else map (fun k => (false, [k])) buf.
(** py_acv.py 72-74, 167-169 and 271-273 ([coef]).  scipy's comb is the
    exact binomial coefficient; it is raised to the power -1 for [l + len(S) <= d - 1] only, where
    it is not 0. *)
Definition py_coef (d k s : nat) : Q :=
  sumf (fun l => (binomialC (d - k - 1) l / binomialC (d - 1) (l + s))%Q) (seq 1 (d - k - 1)).
(** py_acv.py 89, 184, 285 ([comb(d - 1, len(S)) ** (-1)]). *)
Definition py_coef_0 (d s : nat) : Q := (1 / binomialC (d - 1) s)%Q.

(** py_acv.py 67-70, 162-165 (for [x]) and 35-36, 76-80, 275-278 (for every row): half-open tests on
    the columns [F]. *)
Definition py_in (p : rect) (F : list nat) (z : pt) : bool :=
  forallb (fun s => in_itv (p s) (z s)) F.
(** py_acv.py 76-80, 171-175 ([lm_si], [lm_s]). *)
Definition py_rows (data : list pt) (p : rect) (F : list nat) : nat := length (filter (py_in p F) data).

(** py_acv.py 65-91 and 157-186: what one subset adds, for the columns [S] of the subset [T] of [nb] items and
    the columns [i] of the player.  NumPy's division is not guarded: None for the NaN of 0/0 (the
    numerators are at most the denominators, so no infinity arises). *)
Definition py_term (m d k : nat) (data : list pt) (x : pt) (lf : leaf) (i : list nat)
  (nb : nat) (empty : bool) (S : list nat) : option Q :=
  let p := l_rect lf in
  let lm := Qn (py_rows data p (seq 0 m)) in
  match cdiv (Qb (py_in p (S ++ i) x) * lm) (Qn (py_rows data p (S ++ i))),
        (if empty then cdiv lm (Qn (length data))
         else cdiv (Qb (py_in p S x) * lm) (Qn (py_rows data p S))) with
  | Some p_si, Some p_s => Some ((py_coef_0 d nb + py_coef d k nb) * (p_si - p_s) * l_val lf)%Q
  | _, _ => None
  end.

(** entries of [va_id] that write column [j], with multiplicity ([for j in convert_list(i)],
    py_acv.py 88, 183, 249, 283, 288). *)
Definition writers {A} (cols : A -> list nat) (l : list A) (j : nat) : list A :=
  flat_map (fun i => repeat i (count_occ Nat.eq_dec (cols i) j)) l.

(** ** py_shap_values *)

(** py_acv.py 28-91: one leaf, one entry of [va_id]; None when a NaN is added. *)
Definition py_leaf (C : list group) (m : nat) (data : list pt) (x : pt) (lf : leaf) (i : item) : option Q :=
  let nid := py_nodes (has_coal C) C (l_vars lf) in
  if py_present nid i then
    let Sm := py_others (has_coal C) C nid i in
    osum (fun T => py_term m (py_m C m) (length Sm) data x lf (convert_list i)
                     (length T) (length T =? 0) (chain_d T)) (powerset Sm)
  else Some 0%Q.
(** utils.py 309-321: [chain_l] does not raise. *)
Definition chain_fine (T : list item) : bool := match chain_l T with Some _ => true | None => false end.
(** py_acv.py 67-80: no call of [chain_l] raises at one leaf. *)
Definition py_leaf_fine (C : list group) (m : nat) (lf : leaf) : bool :=
  let nid := py_nodes (has_coal C) C (l_vars lf) in
  forallb (fun i => negb (py_present nid i) ||
             forallb (fun T => chain_fine T) (powerset (py_others (has_coal C) C nid i)))
    (py_items C m).
(** py_acv.py 7-92 ([shap_values_leaves]) on one tree: column [j]. *)
Definition py_tree (C : list group) (m : nat) (data : list pt) (x : pt) (j : nat) (ls : list leaf) : option Q :=
  match osum (fun lf => osum (py_leaf C m data x lf) (writers convert_list (py_items C m) j)) ls with
  | Some s => cdiv s (Qn (py_m C m))
  | None => None
  end.
(** acv_tree.py 441-449 ([py_shap_values]): the trees are summed.  Outer None: it raises
    (ValueError of [chain_l]; UnboundLocalError on [d] for a tree without leaves, which the
    loader never builds); inner None: the cell is a NaN. *)
Definition py_shap_values (C : list group) (m : nat) (data : list pt) (forest : list (list leaf))
  (x : pt) (j : nat) : option (option Q) :=
  if forallb (fun ls => negb (length ls =? 0) && forallb (py_leaf_fine C m) ls) forest
  then Some (osum (py_tree C m data x j) forest) else None.

(** ** py_shap_valuesv2 *)

(** py_acv.py 116-124 ([va_id]). *)
Definition py2_items (C : list group) (m : nat) : list group :=
  if has_coal C then map (fun i => [i]) (filter (fun i => negb (memb i (concat C))) (seq 0 m)) ++ C
  else map (fun i => [i]) (seq 0 m).
(** py_acv.py 134-149 ([node_id]): [remove_va] holds one-element lists, so the test
    [va in remove_va] of an integer never succeeds: the list of integers it contains is empty. *)
Definition py2_nodes (C : list group) (vars : list nat) : list group :=
  if has_coal C then leaf_groups_loop [] C vars else map (fun v => [v]) vars.
(** py_acv.py 126-186: one leaf, one player. *)
Definition py2_leaf (C : list group) (m : nat) (data : list pt) (x : pt) (lf : leaf) (i : group) : option Q :=
  let nid := py2_nodes C (l_vars lf) in
  if in_dec group_eq_dec i nid then
    let Sm := remove1 i nid in
    osum (fun T => py_term m (length (py2_items C m)) (length Sm) data x lf i
                     (length T) (length (concat T) =? 0) (concat T)) (powerset Sm)
  else Some 0%Q.
(** py_acv.py 95-187 ([shap_values_leaves_v2]) on one tree. *)
Definition py2_tree (C : list group) (m : nat) (data : list pt) (x : pt) (j : nat) (ls : list leaf) : option Q :=
  match osum (fun lf => osum (py2_leaf C m data x lf) (writers (fun g => g) (py2_items C m) j)) ls with
  | Some s => cdiv s (Qn (length (py2_items C m)))
  | None => None
  end.
(** acv_tree.py 451-459 ([py_shap_valuesv2]); None when the cell is a NaN. *)
Definition py_shap_valuesv2 (C : list group) (m : nat) (data : list pt) (forest : list (list leaf))
  (x : pt) (j : nat) : option Q :=
  osum (py2_tree C m data x j) forest.

(** ** py_shap_values_acv *)

(** py_acv.py 227, 231, 259, 262 ([set(c).issubset(S_star)]). *)
Definition pya_C (C : list group) (S_star : list nat) : list group :=
  filter (fun c => forallb (fun k => memb k S_star) c) C.
(** py_acv.py 221-232 ([va_id]). *)
Definition pya_items (C : list group) (S_star : list nat) : list item :=
  if has_coal C
  then map (fun i => (false, [i])) (filter (fun i => negb (memb i (concat (pya_C C S_star)))) S_star)
       ++ map (fun c => (true, c)) (pya_C C S_star)
  else map (fun i => (false, [i])) S_star.
(** py_acv.py 222-236 ([d]). *)
Definition pya_d (C : list group) (S_star : list nat) : nat :=
  if has_coal C then length S_star - length (concat (pya_C C S_star)) + length (pya_C C S_star)
  else length S_star.
(** py_acv.py 223, 230-235 ([node_id]). *)
Definition pya_nodes (C : list group) (S_star N_star vars : list nat) : list nat :=
  py_nodes (has_coal C) (pya_C C S_star) (acv_vars N_star vars).
(** py_acv.py 241-242, 266-269: the tests on [x] have a closed lower bound. *)
Definition in_closed (p : rect) (F : list nat) (x : pt) : bool :=
  forallb (fun s => q_leb_ext (x s) (snd (p s)) && ext_leb_q (fst (p s)) (x s)) F.
(** py_acv.py 244-245, 275-278: [np.prod] of an empty list is the scalar 1, so without any column the "count"
    is 1 instead of the number of rows. *)
Definition prod_count (data : list pt) (p : rect) (F : list nat) : Q :=
  match F with [] => 1%Q | _ => Qn (py_rows data p F) end.
(** py_acv.py 240-251: an absent player.  Outer None: IndexError, [p_si] being a scalar when
    [N_star] is empty. *)
Definition pya_absent (m : nat) (N_star : list nat) (data : list pt) (x : pt) (lf : leaf) : option (option Q) :=
  let p := l_rect lf in
  let lm := Qn (py_rows data p (seq 0 m)) in
  match N_star with
  | [] => None
  | _ => Some (match cdiv (Qb (in_closed p N_star x) * lm) (prod_count data p N_star),
                     cdiv lm (Qn (length data)) with
               | Some p_si, Some p_s => Some ((p_si - p_s) * l_val lf)%Q
               | _, _ => None end)
  end.
(** py_acv.py 264-292: one subset of a present player. *)
Definition pya_term (m d k : nat) (N_star : list nat) (data : list pt) (x : pt) (lf : leaf) (i : list nat)
  (nb : nat) (S : list nat) : option Q :=
  let p := l_rect lf in
  let lm := Qn (py_rows data p (seq 0 m)) in
  let F := S ++ N_star in
  let Fi := S ++ i ++ N_star in
  match cdiv (Qb (in_closed p Fi x) * lm) (prod_count data p Fi),
        cdiv (Qb (in_closed p F x) * lm) (prod_count data p F) with
  | Some p_si, Some p_s =>
      if nb =? 0 then
        match cdiv lm (Qn (length data)) with
        | Some p_off => Some ((p_si - p_off) * l_val lf + py_coef d k nb * (p_si - p_s) * l_val lf)%Q
        | None => None
        end
      else Some ((py_coef_0 d nb + py_coef d k nb) * (p_si - p_s) * l_val lf)%Q
  | _, _ => None
  end.
(** py_acv.py 238-292: one leaf, one entry of [va_id]; outer None when it raises. *)
Definition pya_leaf (C : list group) (m : nat) (S_star N_star : list nat) (data : list pt) (x : pt)
  (lf : leaf) (i : item) : option (option Q) :=
  let nid := pya_nodes C S_star N_star (l_vars lf) in
  if py_present nid i then
    let Sm := py_others (has_coal C) (pya_C C S_star) nid i in
    if forallb (fun T => chain_fine T) (powerset Sm) then
      Some (osum (fun T => pya_term m (pya_d C S_star) (length Sm) N_star data x lf (convert_list i)
                             (length T) (chain_d T)) (powerset Sm))
    else None
  else pya_absent m N_star data x lf.
(** py_acv.py 238-292: no leaf and entry raises. *)
Definition pya_fine (C : list group) (m : nat) (S_star N_star : list nat) (data : list pt)
  (forest : list (list leaf)) (x : pt) : bool :=
  forallb (fun ls => negb (length ls =? 0) &&
    forallb (fun lf => forallb (fun i => match pya_leaf C m S_star N_star data x lf i with
                                         | Some _ => true | None => false end)
                         (pya_items C S_star)) ls) forest.
(** py_acv.py 190-294 ([shap_values_acv_leaves]) on one tree: column [j]. *)
Definition pya_tree (C : list group) (m : nat) (S_star N_star : list nat) (data : list pt) (x : pt)
  (j : nat) (ls : list leaf) : option Q :=
  let val lf i := match pya_leaf C m S_star N_star data x lf i with Some o => o | None => None end in
  match osum (fun lf => osum (val lf) (writers convert_list (pya_items C S_star) j)) ls with
  | Some s => cdiv s (Qn (pya_d C S_star))
  | None => None
  end.
(** acv_tree.py 461-471 ([py_shap_values_acv]). Outer None: it raises; inner None: a NaN. *)
Definition py_shap_values_acv (C : list group) (m : nat) (S_star N_star : list nat) (data : list pt)
  (forest : list (list leaf)) (x : pt) (j : nat) : option (option Q) :=
  if pya_fine C m S_star N_star data forest x
  then Some (osum (pya_tree C m S_star N_star data x j) forest) else None.

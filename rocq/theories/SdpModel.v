(** Model of the leaf-based conditional expectations and same-decision
    probabilities: cyext_acv.pyx 28-840 (the same functions are in
    cyext_acv_nopa.pyx), utils_exp.py 6-71 and utils_sdp.py 7-364.
    One observation [x]; the arrays over the [N] observations repeat the same
    computation.  One output column: the value of a leaf is the column
    [fX[i]] (classification) or 0 (regression) of [values].  Exact arithmetic. *)
From Verif Require Import Base TreeModel ShapModel AcvModel.

(** cyext_acv.pyx 64, 293: closed test [lo <= v <= hi]. *)
Definition cl_itv (i : ext * ext) (v : Q) : bool :=
  q_leb_ext v (snd i) && ext_leb_q (fst i) v.
(** cyext_acv.pyx 63-68, 292-294: number of columns of [F] passing the closed
    test compared with the number of columns. *)
Definition sat_cl (p : rect) (F : list nat) (x : pt) : bool :=
  length (filter (fun s => cl_itv (p s) (x s)) F) =? length F.
(** cyext_acv.pyx 75-79: no column of [S] strictly outside the closed interval
    ([o_all == 0]). *)
Definition not_out_cl (p : rect) (S : list nat) (x : pt) : bool :=
  length (filter (fun s => negb (q_leb_ext (x s) (snd (p s))) || negb (ext_leb_q (fst (p s)) (x s))) S) =? 0.

(** cyext_acv.pyx 82: [a / b if b != 0 else 0]. *)
Definition gdiv (a : Q) (b : nat) : Q := if b =? 0 then 0%Q else (a / Qn b)%Q.

(** ** Conditional expectations *)

(** cyext_acv.pyx 60-70 ([lm]): rows in the closed box. *)
Definition count_cl (m : nat) (data : list pt) (p : rect) : nat :=
  length (filter (sat_cl p (seq 0 m)) data).
(** cyext_acv.pyx 58-82: contribution of one leaf.  [p_ss] uses the half-open
    test (64), [lm] the closed one (61). *)
Definition exp_leaf (m : nat) (data : list pt) (S : list nat) (x : pt) (lf : leaf) : Q :=
  let lm := count_cl m data (l_rect lf) in
  let p_ss := count_s data (l_rect lf) S in
  if not_out_cl (l_rect lf) S x then gdiv (Qn lm * l_val lf) p_ss else 0%Q.
(** cyext_acv.pyx 28-89 ([compute_exp]).  The buffer over [leaf_numb] is summed
    at the end; exact sums make the order immaterial. *)
Definition compute_exp (m : nat) (data : list pt) (S : list nat) (forest : list (list leaf)) (x : pt) : Q :=
  sumf (fun ls => sumf (exp_leaf m data S x) ls) forest.

(** cyext_acv.pyx 149 ([p_n += (1.*lm)/p_ss]): unguarded C division. *)
Definition norm_leaf (m : nat) (data : list pt) (S : list nat) (x : pt) (lf : leaf) : option Q :=
  if not_out_cl (l_rect lf) S x
  then cdiv (Qn (count_cl m data (l_rect lf))) (Qn (count_s data (l_rect lf) S))
  else Some 0%Q.
(** cyext_acv.pyx 156-162: one tree; None when the normaliser [z] is not a number. *)
Definition exp_norm_tree (m : nat) (data : list pt) (S : list nat) (ls : list leaf) (x : pt) : option Q :=
  match osum (norm_leaf m data S x) ls with
  | None => None
  | Some z => Some (sumf (fun lf => if qeqb z 0 then 0%Q else (exp_leaf m data S x lf / z)%Q) ls)
  end.
(** cyext_acv.pyx 92-165 ([compute_exp_normalized]). *)
Definition compute_exp_normalized (m : nat) (data : list pt) (S : list nat)
  (forest : list (list leaf)) (x : pt) : option Q :=
  osum (fun ls => exp_norm_tree m data S ls x) forest.

(** cyext_acv.pyx 214-216: the row equals the observation on [S]. *)
Definition eq_on (S : list nat) (x z : pt) : bool :=
  length (filter (fun s => qeqb (z s) (x s)) S) =? length S.
(** cyext_acv.pyx 196-224: one leaf of the categorical version; half-open tests. *)
Definition exp_cat_leaf (m : nat) (data : list pt) (S : list nat) (x : pt) (lf : leaf) : Q :=
  let ms := filter (eq_on S x) data in
  if not_out (l_rect lf) S x
  then gdiv (Qn (length (filter (sat (l_rect lf) (seq 0 m)) ms)) * l_val lf) (length ms)
  else 0%Q.
(** cyext_acv.pyx 168-231 ([compute_exp_cat]). *)
Definition compute_exp_cat (m : nat) (data : list pt) (S : list nat) (forest : list (list leaf)) (x : pt) : Q :=
  sumf (fun ls => sumf (exp_cat_leaf m data S x) ls) forest.

(** utils_exp.py 17-35: one leaf of the Python version; closed tests everywhere. *)
Definition py_exp_leaf (m : nat) (data : list pt) (S : list nat) (x : pt) (lf : leaf) : Q :=
  if sat_cl (l_rect lf) S x
  then gdiv (Qn (count_cl m data (l_rect lf)) * l_val lf) (length (filter (sat_cl (l_rect lf) S) data))
  else 0%Q.
(** utils_exp.py 6-37 ([compute_exp]).  For an empty [S], np.prod of an empty
    list is the scalar 1.0 and [leaf_bool[i]] (32) raises IndexError as soon as
    there is a leaf: None. *)
Definition py_compute_exp (m : nat) (data : list pt) (S : list nat) (forest : list (list leaf)) (x : pt) : option Q :=
  match S with
  | [] => if forallb (fun ls => length ls =? 0) forest then Some 0%Q else None
  | _ => Some (sumf (fun ls => sumf (py_exp_leaf m data S x) ls) forest)
  end.

(** ** Same-decision probabilities *)

(** A background row with the flag computed from its prediction: [fX == y_pred]
    for classification (cyext_acv.pyx 303, 417), [(fX - y_pred)**2 > tX] for
    regression (cyext_acv.pyx 545, 752). *)
Notation frow := (pt * bool)%type.
(** rows with the classification flag: cyext_acv.pyx 303 ([fX[i] == y_pred[j]]). *)
Definition clf_rows (fX : nat) (rows : list (pt * nat)) : list frow :=
  map (fun r => (fst r, fX =? snd r)) rows.
(** rows with the regression flag: cyext_acv.pyx 752
    ([(fX[i] - y_pred[j]) * (fX[i] - y_pred[j]) > tX]). *)
Definition reg_rows (fX tX : Q) (rows : list (pt * Q)) : list frow :=
  map (fun r => (fst r, qltb tX ((fX - snd r) * (fX - snd r))%Q)) rows.

(** cyext_acv.pyx 279-310 ([p], [p_u], [p_d] with [inb] the membership test of
    the row): number of rows of [rows] passing [inb]. *)
Definition cnt (inb : pt -> bool) (rows : list frow) : nat :=
  length (filter (fun r => inb (fst r)) rows).
(** rows equal to [x] on [S]: cyext_acv.pyx 298-302. *)
Definition eq_rows (S : list nat) (x : pt) (rows : list frow) : list frow :=
  filter (fun r => eq_on S x (fst r)) rows.
(** flagged rows ([up]): cyext_acv.pyx 303-304. *)
Definition up_rows (rows : list frow) : list frow := filter snd rows.
(** other rows ([down]): cyext_acv.pyx 305-306. *)
Definition down_rows (rows : list frow) : list frow := filter (fun r => negb (snd r)) rows.

(** cyext_acv.pyx 328-333: the ratio limited to [0, 1]. *)
Definition clip (ss : Q) : Q :=
  if qleb ss 1 && qleb 0 ss then ss else if qltb 1 ss then 1%Q else 0%Q.
(** cyext_acv.pyx 327: guarded quotient of two doubles. *)
Definition qdiv0 (a b : Q) : Q := if qeqb b 0 then 0%Q else (a / b)%Q.

(** cyext_acv.pyx 315-317: mean over the rows [rows] (all / up / down) of one leaf,
    [p * value / p_s]. *)
Definition cat_leaf (m : nat) (S : list nat) (x : pt) (rows : list frow) (lf : leaf) : Q :=
  if not_out_cl (l_rect lf) S x
  then gdiv (Qn (cnt (sat_cl (l_rect lf) (seq 0 m)) rows) * l_val lf) (length rows)
  else 0%Q.
(** cyext_acv.pyx 320-326 ([ss_a], [ss_u], [ss_d]). *)
Definition cat_sum (m : nat) (S : list nat) (x : pt) (rows : list frow) (forest : list (list leaf)) : Q :=
  sumf (fun ls => sumf (cat_leaf m S x rows) ls) forest.
(** cyext_acv.pyx 237-335 ([compute_sdp_clf_cat]). *)
Definition compute_sdp_clf_cat (m : nat) (rows : list (pt * nat)) (fX : nat) (S : list nat)
  (forest : list (list leaf)) (x : pt) : Q :=
  if length S =? m then 1%Q else if length S =? 0 then 0%Q else
  let rs := eq_rows S x (clf_rows fX rows) in
  let ss_a := cat_sum m S x rs forest in
  let ss_u := cat_sum m S x (up_rows rs) forest in
  let ss_d := cat_sum m S x (down_rows rs) forest in
  clip (qdiv0 (ss_a - ss_d) (ss_u - ss_d)).

(** cyext_acv.pyx 424-426: mean of one leaf over the rows of its projection on [S]. *)
Definition box_leaf (m : nat) (S : list nat) (x : pt) (rows : list frow) (lf : leaf) : Q :=
  if not_out_cl (l_rect lf) S x
  then gdiv (Qn (cnt (sat_cl (l_rect lf) (seq 0 m)) rows) * l_val lf) (cnt (sat_cl (l_rect lf) S) rows)
  else 0%Q.
(** cyext_acv.pyx 428-430 ([p_n], [p_u_n], [p_d_n]). *)
Definition box_norm (m : nat) (S : list nat) (x : pt) (rows : list frow) (lf : leaf) : Q :=
  if not_out_cl (l_rect lf) S x
  then gdiv (Qn (cnt (sat_cl (l_rect lf) (seq 0 m)) rows)) (cnt (sat_cl (l_rect lf) S) rows)
  else 0%Q.
(** cyext_acv.pyx 436-449: [ss_a], [ss_u], [ss_d], normalised tree by tree. *)
Definition box_sum (m : nat) (S : list nat) (x : pt) (rows : list frow) (forest : list (list leaf)) : Q :=
  sumf (fun ls => let n := sumf (box_norm m S x rows) ls in
                  sumf (fun lf => qdiv0 (box_leaf m S x rows lf) n) ls) forest.
(** cyext_acv.pyx 341-453 ([compute_sdp_clf]): the ratio is returned as it is. *)
Definition compute_sdp_clf (m : nat) (rows : list (pt * nat)) (fX : nat) (S : list nat)
  (forest : list (list leaf)) (x : pt) : Q :=
  if length S =? m then 1%Q else if length S =? 0 then 0%Q else
  let rs := clf_rows fX rows in
  let ss_a := box_sum m S x rs forest in
  let ss_u := box_sum m S x (up_rows rs) forest in
  let ss_d := box_sum m S x (down_rows rs) forest in
  qdiv0 (ss_a - ss_d) (ss_u - ss_d).

(** utils_sdp.py 237-299 ([compute_sdp_clf_cat]): the same counts; the final line
    298 adds [sdp] inside [0, 1], 1 above, 0 below.  [fX] and the classes of
    the rows are the argmax of the predictions (249-257). *)
Definition py_sdp_clf_cat (m : nat) (rows : list (pt * nat)) (fX : nat) (S : list nat)
  (forest : list (list leaf)) (x : pt) : Q :=
  if length S =? m then 1%Q else if length S =? 0 then 0%Q else
  let rs := eq_rows S x (clf_rows fX rows) in
  let sdp := qdiv0 (cat_sum m S x rs forest - cat_sum m S x (down_rows rs) forest)
                   (cat_sum m S x (up_rows rs) forest - cat_sum m S x (down_rows rs) forest) in
  (sdp * Qb (qleb 0 sdp) * Qb (qleb sdp 1) + 1 * Qb (qltb 1 sdp) + 0 * Qb (qltb sdp 0))%Q.

(** utils_sdp.py 302-364 ([compute_sdp_clf]): not normalised per tree, limited to [0, 1] (362). *)
Definition py_sdp_clf (m : nat) (rows : list (pt * nat)) (fX : nat) (S : list nat)
  (forest : list (list leaf)) (x : pt) : Q :=
  if length S =? m then 1%Q else if length S =? 0 then 0%Q else
  let rs := clf_rows fX rows in
  let sum r := sumf (fun ls => sumf (box_leaf m S x r) ls) forest in
  let sdp := qdiv0 (sum rs - sum (down_rows rs)) (sum (up_rows rs) - sum (down_rows rs)) in
  (sdp * Qb (qleb 0 sdp) * Qb (qleb sdp 1) + 1 * Qb (qltb 1 sdp) + 0 * Qb (qltb sdp 0))%Q.

(** ** Regression *)

(** cyext_acv.pyx 768-770: diagonal term of one leaf,
    [p * v * v / p_s - 2 * fX * p * v / p_s]. *)
Definition reg_diag (m : nat) (S : list nat) (x : pt) (fX : Q) (rows : list frow) (lf : leaf) : Q :=
  if not_out_cl (l_rect lf) S x then
    let p := Qn (cnt (sat_cl (l_rect lf) (seq 0 m)) rows) in
    if length rows =? 0 then 0%Q
    else (p * l_val lf * l_val lf / Qn (length rows) - 2 * fX * p * l_val lf / Qn (length rows))%Q
  else 0%Q.
(** cyext_acv.pyx 790-835: off-diagonal term of a leaf of tree [b] and a leaf of
    tree [l]: rows in both closed boxes (792), [x] outside neither (802). *)
Definition reg_pair (m : nat) (S : list nat) (x : pt) (rows : list frow) (lb ll : leaf) : Q :=
  if not_out_cl (l_rect lb) S x && not_out_cl (l_rect ll) S x then
    gdiv (Qn (cnt (fun z => sat_cl (l_rect lb) (seq 0 m) z && sat_cl (l_rect ll) (seq 0 m) z) rows)
          * l_val lb * l_val ll) (length rows)
  else 0%Q.
(** cyext_acv.pyx 705-706: tree [b] against tree [l]. *)
Definition reg_trees (m : nat) (S : list nat) (x : pt) (fX : Q) (rows : list frow)
  (bt lt : nat * list leaf) : Q :=
  if fst bt =? fst lt then sumf (reg_diag m S x fX rows) (snd bt)
  else sumf (fun lb => sumf (reg_pair m S x rows lb) (snd lt)) (snd bt).
(** cyext_acv.pyx 703-835 ([mean_forest]). *)
Definition reg_sum (m : nat) (S : list nat) (x : pt) (fX : Q) (rows : list frow) (forest : list (list leaf)) : Q :=
  sumf (fun bt => sumf (reg_trees m S x fX rows bt) (indexed forest)) (indexed forest).
(** cyext_acv.pyx 679-840 ([compute_sdp_reg_cat]); no early return, no limit. *)
Definition compute_sdp_reg_cat (m : nat) (rows : list (pt * Q)) (fX tX : Q) (S : list nat)
  (forest : list (list leaf)) (x : pt) : Q :=
  let rs := eq_rows S x (reg_rows fX tX rows) in
  let a := reg_sum m S x fX rs forest in
  let u := reg_sum m S x fX (up_rows rs) forest in
  let d := reg_sum m S x fX (down_rows rs) forest in
  qdiv0 (u - a) (u - d).
(** utils_sdp.py 121-235 ([compute_sdp_reg_cat]): early returns and the limit to
    [0, 1] (234) around the same sums. *)
Definition py_sdp_reg_cat (m : nat) (rows : list (pt * Q)) (fX tX : Q) (S : list nat)
  (forest : list (list leaf)) (x : pt) : Q :=
  if length S =? m then 1%Q else if length S =? 0 then 0%Q else
  let sdp := compute_sdp_reg_cat m rows fX tX S forest x in
  (sdp * Qb (qleb 0 sdp) * Qb (qleb sdp 1) + 1 * Qb (qltb 1 sdp) + 0 * Qb (qltb sdp 0))%Q.

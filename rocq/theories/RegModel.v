(** Model of the leaf-based same-decision probability of regression forests,
    compute_sdp_reg of cyext_acv.pyx 464-672, of its Python version utils_sdp.py
    7-122 and of the estimates computed inside global_sdp_reg (cyext_acv.pyx
    968-1266).  No proofs here.  Exact arithmetic. *)
From Verif Require Import Base TreeModel ShapModel AcvModel SdpModel SearchModel.

(** cyext_acv.pyx 557-559: diagonal term of one leaf over the rows [rows] (all / up
    / down), [(p * v * v) / p_s - (2 * fX * p * v) / p_s if p_s != 0 else 0]. *)
Definition rb_diag (m : nat) (S : list nat) (x : pt) (fX : Q) (rows : list frow) (lf : leaf) : Q :=
  if not_out_cl (l_rect lf) S x then
    let p := Qn (cnt (sat_cl (l_rect lf) (seq 0 m)) rows) in
    let p_s := cnt (sat_cl (l_rect lf) S) rows in
    if p_s =? 0 then 0%Q else (p * l_val lf * l_val lf / Qn p_s - 2 * fX * p * l_val lf / Qn p_s)%Q
  else 0%Q.

(** cyext_acv.pyx 582-595: rows in both closed boxes, on the columns [F]. *)
Definition in_both (lb ll : leaf) (F : list nat) (z : pt) : bool :=
  sat_cl (l_rect lb) F z && sat_cl (l_rect ll) F z.
(** cyext_acv.pyx 597-628: [(p * v * v_l) / p_s if p_s != 0 else 0] for a leaf of
    each tree; [c] is [v * v_l] (622-624) or 1 (626-628). *)
Definition rb_pair (c : leaf -> leaf -> Q) (m : nat) (S : list nat) (x : pt) (rows : list frow) (lb ll : leaf) : Q :=
  if not_out_cl (l_rect lb) S x && not_out_cl (l_rect ll) S x
  then gdiv (Qn (cnt (in_both lb ll (seq 0 m)) rows) * c lb ll) (cnt (in_both lb ll S) rows)
  else 0%Q.
(** cyext_acv.pyx 622: product of the values of the two leaves. *)
Definition val2 (lb ll : leaf) : Q := (l_val lb * l_val ll)%Q.
(** cyext_acv.pyx 626: [1.*p]. *)
Definition one2 (lb ll : leaf) : Q := 1%Q.

(** cyext_acv.pyx 503-628: the cell [b, k, k'] of the arrays mean_forest_b and p_n.
    The arrays have no index for the second tree [l]: for every [l] the term of
    the leaves [k] of tree [b] and [k'] of tree [l] is added to the same cell, and
    the diagonal term of leaf [k] to the cell [b, k, k]. *)
Definition cell (diag : leaf -> Q) (pair : leaf -> leaf -> Q) (forest : list (list leaf))
  (b k : nat) (lb : leaf) (k' : nat) : Q :=
  sumf (fun lt : nat * list leaf =>
    if b =? fst lt then (if k =? k' then diag lb else 0%Q)
    else match nth_error (snd lt) k' with Some ll => pair lb ll | None => 0%Q end) (indexed forest).
(** cyext_acv.pyx 557, 622: mean_forest_b[b, k, k', i, .]. *)
Definition cell_mean (m : nat) (S : list nat) (x : pt) (fX : Q) (rows : list frow) (forest : list (list leaf))
  : nat -> nat -> leaf -> nat -> Q :=
  cell (rb_diag m S x fX rows) (rb_pair val2 m S x rows) forest.
(** cyext_acv.pyx 561, 626: p_n[b, k, k', i]. *)
Definition cell_norm (m : nat) (S : list nat) (x : pt) (rows : list frow) (forest : list (list leaf))
  : nat -> nat -> leaf -> nat -> Q :=
  cell (box_norm m S x rows) (rb_pair one2 m S x rows) forest.

(** cyext_acv.pyx 636-646: [n], the sum of p_n[b, k, k] over the leaves of tree [b]. *)
Definition tree_norm (m : nat) (S : list nat) (x : pt) (rows : list frow) (forest : list (list leaf))
  (bt : nat * list leaf) : Q :=
  sumf (fun kl => cell_norm m S x rows forest (fst bt) (fst kl) (snd kl) (fst kl)) (indexed (snd bt)).
(** cyext_acv.pyx 644: norm[b] after the observation has been treated. *)
Definition all_norms (m : nat) (S : list nat) (x : pt) (rows : list frow) (forest : list (list leaf))
  (b : nat) : Q :=
  match nth_error forest b with Some ls => tree_norm m S x rows forest (b, ls) | None => 0%Q end.

(** cyext_acv.pyx 647-650: the diagonal terms of tree [b]. *)
Definition diag_part (m : nat) (S : list nat) (x : pt) (fX : Q) (rows : list frow) (forest : list (list leaf))
  (bt : nat * list leaf) : Q :=
  sumf (fun kl => qdiv0 (cell_mean m S x fX rows forest (fst bt) (fst kl) (snd kl) (fst kl))
                        (tree_norm m S x rows forest bt)) (indexed (snd bt)).
(** cyext_acv.pyx 651-667: tree [b] against tree [l] with [nb] the value of norm[b]. *)
Definition cross_part (m : nat) (S : list nat) (x : pt) (fX : Q) (rows : list frow) (forest : list (list leaf))
  (nb : Q) (bt lt : nat * list leaf) : Q :=
  sumf (fun kl =>
    let n := sumf (cell_norm m S x rows forest (fst bt) (fst kl) (snd kl)) (seq 0 (length (snd lt))) in
    sumf (fun k' => if qeqb (n * nb) 0 then 0%Q
                    else (cell_norm m S x rows forest (fst bt) (fst kl) (snd kl) (fst kl) / nb
                          * (cell_mean m S x fX rows forest (fst bt) (fst kl) (snd kl) k' / n))%Q)
         (seq 0 (length (snd lt)))) (indexed (snd bt)).
(** cyext_acv.pyx 629-667: [ss_a] (or [ss_u], [ss_d]) of one observation.  norm[b] is
    assigned when [l == b] is reached: for [l < b] it still holds the value [old]
    left by the previous observation, zero before the first (488-490). *)
Definition rb_sum (m : nat) (S : list nat) (x : pt) (fX : Q) (rows : list frow) (forest : list (list leaf))
  (old : nat -> Q) : Q :=
  sumf (fun bt => sumf (fun lt =>
    if fst bt =? fst lt then diag_part m S x fX rows forest bt
    else cross_part m S x fX rows forest
           (if fst lt <? fst bt then old (fst bt) else tree_norm m S x rows forest bt) bt lt)
    (indexed forest)) (indexed forest).

(** norm, norm_u, norm_d, cyext_acv.pyx 488-490. *)
Record norms := mkNorms { n_a : nat -> Q; n_u : nat -> Q; n_d : nat -> Q }.
(** cyext_acv.pyx 488-490: [np.zeros]. *)
Definition norms0 : norms := mkNorms (fun _ => 0%Q) (fun _ => 0%Q) (fun _ => 0%Q).

(** cyext_acv.pyx 629-670: the estimate of one observation [o = (x, f(x))] given the columns
    [S], with the normalisers left by the previous one; [sdp[i]] and the new normalisers. *)
Definition reg_eval (m : nat) (rows : list (pt * Q)) (tX : Q) (forest : list (list leaf))
  (old : norms) (S : list nat) (o : pt * Q) : Q * norms :=
  let rs := reg_rows (snd o) tX rows in
  let a := rb_sum m S (fst o) (snd o) rs forest (n_a old) in
  let u := rb_sum m S (fst o) (snd o) (up_rows rs) forest (n_u old) in
  let d := rb_sum m S (fst o) (snd o) (down_rows rs) forest (n_d old) in
  (qdiv0 (u - a) (u - d),
   mkNorms (all_norms m S (fst o) rs forest) (all_norms m S (fst o) (up_rows rs) forest)
           (all_norms m S (fst o) (down_rows rs) forest)).
(** cyext_acv.pyx 629-672 and 1051-1238: estimates made one after the other, each for a
    set of columns and an observation; the normalisers are never reset. *)
Fixpoint reg_evals (m : nat) (rows : list (pt * Q)) (tX : Q) (forest : list (list leaf))
  (old : norms) (es : list (list nat * (pt * Q))) : list Q :=
  match es with
  | [] => []
  | e :: r => let vn := reg_eval m rows tX forest old (fst e) (snd e) in
              fst vn :: reg_evals m rows tX forest (snd vn) r
  end.
(** cyext_acv.pyx 464-672 ([compute_sdp_reg]): one set of columns, the batch [obs]
    of observations with their predictions. *)
Definition compute_sdp_reg (m : nat) (rows : list (pt * Q)) (tX : Q) (S : list nat)
  (forest : list (list leaf)) (obs : list (pt * Q)) : list Q :=
  reg_evals m rows tX forest norms0 (map (fun o => (S, o)) obs).

(** cyext_acv.pyx 1025-1031 and 1051-1238: the estimates [ss] made inside global_sdp_reg;
    [m] has been replaced by the number of groups (1031), so only the columns below that
    number are tested at 1088-1094 and 1153-1159. *)
Definition search_reg_evals (C : list group) (d : nat) (rows : list (pt * Q)) (tX : Q)
  (forest : list (list leaf)) (es : list (list nat * (pt * Q))) : list Q :=
  reg_evals (length (tree_groups C d)) rows tX forest norms0 es.

(** utils_sdp.py 16-116: mean_forest[i, .] of the Python version: no normalisation,
    one term per pair of trees. *)
Definition py_reg_sum (m : nat) (S : list nat) (x : pt) (fX : Q) (rows : list frow) (forest : list (list leaf)) : Q :=
  sumf (fun bt => sumf (fun lt : nat * list leaf =>
    if fst bt =? fst lt then sumf (rb_diag m S x fX rows) (snd bt)
    else sumf (fun lb => sumf (rb_pair val2 m S x rows lb) (snd lt)) (snd bt))
    (indexed forest)) (indexed forest).
(** utils_sdp.py 7-122 ([compute_sdp_reg]), one observation; [fX] is its prediction. *)
Definition py_sdp_reg (m : nat) (rows : list (pt * Q)) (fX tX : Q) (S : list nat)
  (forest : list (list leaf)) (x : pt) : Q :=
  if length S =? m then 1%Q else if length S =? 0 then 0%Q else
  let rs := reg_rows fX tX rows in
  let a := py_reg_sum m S x fX rs forest in
  let u := py_reg_sum m S x fX (up_rows rs) forest in
  let d := py_reg_sum m S x fX (down_rows rs) forest in
  let sdp := qdiv0 (u - a) (u - d) in
  (sdp * Qb (qleb 0 sdp) * Qb (qleb sdp 1) + 1 * Qb (qltb 1 sdp) + 0 * Qb (qltb sdp 0))%Q.

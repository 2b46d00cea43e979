(** Model of the swing decompositions of the thresholded same-decision
    probability (cyext_acv.pyx 2026-2630, py_acv.py 397-500), of the reference
    Shapley values computed by enumeration (py_acv.py 652-727) and of the helpers
    [chain_l], [convert_list], [powerset] of utils.py.  No proofs here.
    One observation; the arrays over the N observations repeat the computation. *)
From Verif Require Import Base TreeModel ShapModel AcvModel SdpModel.

(** ** Accumulators *)

(** phi[i, a], swings[i, a, 0..1], swings_prop[i, a, 0..2] of one observation and
    one column, cyext_acv.pyx 2136-2156. *)
Record swing := mkSwing
  { sw_phi : Q; sw_pos : Q; sw_neg : Q; n_pos : nat; n_neg : nat; n_null : nat }.
(** the arrays are allocated with np.zeros, cyext_acv.pyx 2137-2156. *)
Definition swing0 : swing := mkSwing 0 0 0 0 0 0.
(** cyext_acv.pyx 2229-2241: one update of the six cells of a column, [d] being
    [v_plus - v_minus] and [w] the weight. *)
Definition bump (m : nat) (w d : Q) (s : swing) : swing :=
  mkSwing (sw_phi s + w * d)
          (sw_pos s + (Qb (qltb 0 d) * d * w) / Qn m)
          (sw_neg s + (Qb (qltb d 0) * d * w) / Qn m)
          (n_pos s + if qltb 0 d then 1 else 0)
          (n_neg s + if qltb d 0 then 1 else 0)
          (n_null s + if qeqb d 0 then 1 else 0).
(** cyext_acv.pyx 2207-2241: the counter loop of one player, whose columns are
    [cols]; column [j] is updated once per occurrence in [cols]
    ([for j in range(len_va_id[va])]). *)
Definition player_loop {A : Type} (m : nat) (cols : group) (coals : list (list A))
  (D : list A -> Q) (j : nat) (s : swing) : swing :=
  fold_left (fun s T => Nat.iter (count_occ Nat.eq_dec cols j)
                          (bump m (1 / binomialC (m - 1) (length T)) (D T)) s) coals s.
(** cyext_acv.pyx 2198-2243: the loop over the players, then [phi / m]. *)
Definition sv_loop {A B : Type} (m : nat) (players : list B) (cols : B -> group)
  (coals : B -> list (list A)) (D : B -> list A -> Q) (j : nat) : swing :=
  let s := fold_left (fun s i => player_loop m (cols i) (coals i) (D i) j s) players swing0 in
  mkSwing (sw_phi s / Qn m) (sw_pos s) (sw_neg s) (n_pos s) (n_neg s) (n_null s).

(** ** The compiled version *)

(** cyext_acv.pyx 2199-2200 ([Sm]): the players without entry [va]. *)
Definition drop_nth {A : Type} (va : nat) (l : list A) : list A := firstn va l ++ skipn (S va) l.
(** cyext_acv.pyx 2196-2217: the coalitions enumerated for entry [va]. *)
Definition sv_coals (ids : list group) (va : nat) : list (list group) :=
  map (fun c => pick c (drop_nth va ids)) (seq 0 (2 ^ (length ids - 1))).
(** cyext_acv.pyx 2121-2243 and 2510-2630, with the difference [v_plus - v_minus]
    of a coalition (its columns) and a player (its columns) left open. *)
Definition sv_with (D : list nat -> group -> Q) (C : list group) (m : nat) (j : nat) : swing :=
  let ids := va_ids C m in
  sv_loop (length ids) (seq 0 (length ids)) (fun va => nth va ids []) (sv_coals ids)
    (fun va T => D (concat T) (nth va ids [])) j.
(** cyext_acv.pyx 2218-2227: the difference of two calls of a value function. *)
Definition call_twice (v : list nat -> Q) (S : list nat) (va : group) : Q := v (S ++ va) - v S.
(** cyext_acv.pyx 2121-2243 ([swing_sv_clf]; acv_tree.py 585 [swing_sv_clf_slow])
    for a value function [v]. *)
Definition swing_sv (v : list nat -> Q) : list group -> nat -> nat -> swing := sv_with (call_twice v).

(** cyext_acv.pyx 2046-2105 ([mean_forest[i, 0..2]]): not normalised per tree. *)
Definition swing_mean (m : nat) (S : list nat) (x : pt) (rows : list frow) (forest : list (list leaf)) : Q :=
  sumf (fun ls => sumf (box_leaf m S x rows) ls) forest.
(** cyext_acv.pyx 2026-2113 ([compute_sdp_swing]). *)
Definition compute_sdp_swing (m : nat) (rows : list (pt * nat)) (fX : nat) (thr : Q)
  (forest : list (list leaf)) (x : pt) (S : list nat) : Q :=
  if length S =? m then 1%Q else if length S =? 0 then 0%Q else
  let rs := clf_rows fX rows in
  let a := swing_mean m S x rs forest in
  let u := swing_mean m S x (up_rows rs) forest in
  let d := swing_mean m S x (down_rows rs) forest in
  if qleb thr (qdiv0 (a - d) (u - d)) then 1%Q else 0%Q.
(** cyext_acv.pyx 2121-2243 ([swing_sv_clf]). *)
Definition swing_sv_clf (m : nat) (rows : list (pt * nat)) (fX : nat) (thr : Q)
  (forest : list (list leaf)) (x : pt) : list group -> nat -> swing :=
  fun C j => swing_sv (compute_sdp_swing m rows fX thr forest x) C m j.

(** ** The version that computes the difference directly *)

(** cyext_acv.pyx 2298-2313: the leaf is skipped unless the observation is inside
    on [S] (closed test) and on the player (half-open test); [csm] is then 1. *)
Definition diff_used (S : list nat) (va : group) (x : pt) (lf : leaf) : bool :=
  not_out_cl (l_rect lf) S x && not_out (l_rect lf) va x.
(** cyext_acv.pyx 2330-2378: [p], [p_s] and [p_s_m] over one list of rows (all, up
    or down). *)
Definition p_all (m : nat) (rows : list frow) (lf : leaf) : nat :=
  cnt (sat_cl (l_rect lf) (seq 0 m)) rows.
(** [p_s], cyext_acv.pyx 2346-2349. *)
Definition p_of (S : list nat) (rows : list frow) (lf : leaf) : nat := cnt (sat_cl (l_rect lf) S) rows.
(** [p_s_m], cyext_acv.pyx 2351-2359. *)
Definition p_of_m (S : list nat) (va : group) (rows : list frow) (lf : leaf) : nat :=
  cnt (fun z => sat_cl (l_rect lf) S z && not_out (l_rect lf) va z) rows.
(** cyext_acv.pyx 2375-2381: [mean_forest] and [p_n] of one leaf. *)
Definition d_mean (m : nat) (S : list nat) (va : group) (x : pt) (rows : list frow) (lf : leaf) : Q :=
  if diff_used S va x lf then gdiv (Qn (p_all m rows lf) * l_val lf) (p_of S rows lf) else 0%Q.
(** [p_n], cyext_acv.pyx 2379-2381. *)
Definition d_norm (m : nat) (S : list nat) (va : group) (x : pt) (rows : list frow) (lf : leaf) : Q :=
  if diff_used S va x lf then gdiv (Qn (p_all m rows lf)) (p_of S rows lf) else 0%Q.
(** [mean_forest_m], cyext_acv.pyx 2383-2385. *)
Definition d_mean_m (m : nat) (S : list nat) (va : group) (x : pt) (rows : list frow) (lf : leaf) : Q :=
  if diff_used S va x lf then gdiv (Qn (p_all m rows lf) * l_val lf) (p_of_m S va rows lf) else 0%Q.
(** [p_n_m], cyext_acv.pyx 2387-2389. *)
Definition d_norm_m (m : nat) (S : list nat) (va : group) (x : pt) (rows : list frow) (lf : leaf) : Q :=
  if diff_used S va x lf then gdiv (Qn (p_all m rows lf)) (p_of_m S va rows lf) else 0%Q.

(** cyext_acv.pyx 2419-2421: [ss += mean / n if n != 0 else 0], one tree.  The
    leaves beyond the tree's own (2457, 2482: [range(max_leaves)]) have a zero
    mean and add [0 / n = 0]. *)
Definition d_tree (m : nat) (S : list nat) (va : group) (x : pt) (rows : list frow) (ls : list leaf) : Q :=
  let n := sumf (d_norm m S va x rows) ls in
  sumf (fun lf => qdiv0 (d_mean m S va x rows lf) n) ls.
(** cyext_acv.pyx 2423-2425: the quotient by [n_m], guarded by the test [guard] on
    another variable; None when it is 0 / 0 (the means vanish with [n_m]). *)
Definition d_tree_m (guard : list leaf -> bool) (m : nat) (S : list nat) (va : group) (x : pt)
  (rows : list frow) (ls : list leaf) : option Q :=
  if guard ls then
    let n_m := sumf (d_norm_m m S va x rows) ls in
    osum (fun lf => cdiv (d_mean_m m S va x rows lf) n_m) ls
  else Some 0%Q.
(** cyext_acv.pyx 2423: the test used there, [n != 0]. *)
Definition guard_n (m : nat) (S : list nat) (va : group) (x : pt) (rows : list frow) (ls : list leaf) : bool :=
  negb (qeqb (sumf (d_norm m S va x rows) ls) 0).
(** [ss_a], [ss_u], [ss_d], cyext_acv.pyx 2395-2421. *)
Definition d_sum (m : nat) (S : list nat) (va : group) (x : pt) (rows : list frow)
  (forest : list (list leaf)) : Q := sumf (d_tree m S va x rows) forest.
(** [ss_a_m], [ss_u_m], [ss_d_m], cyext_acv.pyx 2395-2425. *)
Definition d_sum_m (guard : list leaf -> bool) (m : nat) (S : list nat) (va : group) (x : pt)
  (rows : list frow) (forest : list (list leaf)) : option Q := osum (d_tree_m guard m S va x rows) forest.
(** cyext_acv.pyx 2427-2428: the ratio, None for a NaN; 0 for a zero denominator whatever the numerator. *)
Definition d_ratio (a u d : option Q) : option Q :=
  match u, d with
  | Some u, Some d => if qeqb (u - d) 0 then Some 0%Q else option_map (fun a => (a - d) / (u - d))%Q a
  | _, _ => None
  end.
(** cyext_acv.pyx 2431-2438: the four comparisons; with a NaN all of them are false
    and [sdp[i]] keeps its initial 0. *)
Definition d_compare (thr : Q) (ss : Q) (ss_m : option Q) : Q :=
  match ss_m with
  | None => 0%Q
  | Some b => if qltb ss thr then if qltb b thr then 0%Q else 1%Q
              else if qltb b thr then (-1)%Q else 0%Q
  end.
(** cyext_acv.pyx 2252-2505 ([compute_sdp_swing_diff]).  For an empty [S] (2439-2468)
    the tests are on [n], [n_u], [n_d], which no statement has assigned: [stray]
    gives the outcome of the three tests, whatever it is.  The loop there runs
    over [max_leaves] leaves; the extra ones add 0 / n_m, 0 unless n_m is 0, in
    which case the own leaves already make the sum a NaN (a tree has a leaf). *)
Definition compute_sdp_swing_diff (stray : bool * bool * bool) (m : nat) (rows : list (pt * nat))
  (fX : nat) (thr : Q) (forest : list (list leaf)) (x : pt) (S : list nat) (va : group) : Q :=
  let rs := clf_rows fX rows in
  let us := up_rows rs in
  let ds := down_rows rs in
  let ss := qdiv0 (d_sum m S va x rs forest - d_sum m S va x ds forest)
                  (d_sum m S va x us forest - d_sum m S va x ds forest) in
  if length S =? 0 then
    let '(sn, su, sd) := stray in
    d_compare thr 0
      (d_ratio (d_sum_m (fun _ => sn) m S va x rs forest) (d_sum_m (fun _ => su) m S va x us forest)
               (d_sum_m (fun _ => sd) m S va x ds forest))
  else if length S + length va =? m then d_compare thr ss (Some 1%Q)
  else d_compare thr ss
      (d_ratio (d_sum_m (guard_n m S va x rs) m S va x rs forest)
               (d_sum_m (guard_n m S va x us) m S va x us forest)
               (d_sum_m (guard_n m S va x ds) m S va x ds forest)).
(** cyext_acv.pyx 2510-2630 ([swing_sv_clf_direct]; acv_tree.py 563 [swing_sv_clf]). *)
Definition swing_sv_clf_direct (stray : bool * bool * bool) (m : nat) (rows : list (pt * nat))
  (fX : nat) (thr : Q) (forest : list (list leaf)) (x : pt) : list group -> nat -> swing :=
  fun C j => sv_with (compute_sdp_swing_diff stray m rows fX thr forest x) C m j.

(** ** The Python versions *)

(** An entry of [va_id] (py_acv.py 401-409): a bare column, or a coalition given as
    a list ([true]). *)
Notation item := (bool * list nat)%type.
(** utils.py 324-328 ([convert_list]). *)
Definition convert_list (i : item) : list nat := snd i.
(** utils.py 309-321 ([chain_l] of a tuple): a list of at most one element raises
    ValueError (None). *)
Fixpoint chain_l (l : list item) : option (list nat) :=
  match l with
  | [] => Some []
  | (is_list, g) :: r =>
      if is_list && (length g <=? 1) then None
      else option_map (app g) (chain_l r)
  end.
(** itertools.combinations, utils.py 561. *)
Fixpoint combos {A : Type} (size : nat) (l : list A) : list (list A) :=
  match size, l with
  | O, _ => [[]]
  | S _, [] => []
  | S k, a :: r => map (cons a) (combos k r) ++ combos size r
  end.
(** utils.py 559-561 ([powerset]): by increasing size. *)
Definition powerset {A : Type} (l : list A) : list (list A) :=
  flat_map (fun r => combos r l) (seq 0 (S (length l))).
(** py_acv.py 404-409 ([va_id]).  Simplification: [list(set(...))] lists the columns
    in increasing order. *)
Definition py_items (C : list group) (m : nat) : list item :=
  if has_coal C
  then map (fun i => (false, [i])) (filter (fun i => negb (memb i (concat C))) (seq 0 m))
       ++ map (fun c => (true, c)) C
  else map (fun i => (false, [i])) (seq 0 m).
(** py_acv.py 403-408 ([m]). *)
Definition py_m (C : list group) (m : nat) : nat :=
  if has_coal C then m - length (concat C) + length C else m.
(** py_acv.py 417-426 ([Sm]). *)
Definition py_sm (C : list group) (m : nat) (i : item) : list item :=
  let buf := filter (fun k => negb (memb k (convert_list i))) (seq 0 m) in
  let sub c := forallb (fun k => memb k buf) c in
  if has_coal C
  then map (fun k => (false, [k]))
         (filter (fun k => negb (existsb (fun c => sub c && memb k c) C)) buf)
       ++ map (fun c => (true, c)) (filter sub C)
  else map (fun k => (false, [k])) buf.
(** [chain_l] when it does not raise, utils.py 309-321. *)
Definition chain_d (l : list item) : list nat := match chain_l l with Some r => r | None => [] end.
(** no call of [chain_l] raises, py_acv.py 428-431. *)
Definition py_fine (C : list group) (m : nat) : bool :=
  forallb (fun i => forallb (fun T => match chain_l T with Some _ => true | None => false end)
                      (powerset (py_sm C m i))) (py_items C m).
(** py_acv.py 397-447 ([swing_tree_shap]) for a value function [v]; None when it raises.
    scipy's comb is the exact binomial coefficient. *)
Definition py_swing (v : list nat -> Q) (C : list group) (m : nat) (j : nat) : option swing :=
  if py_fine C m then
    Some (sv_loop (py_m C m) (py_items C m) convert_list (fun i => powerset (py_sm C m i))
            (fun i T => call_twice v (chain_d T) (convert_list i)) j)
  else None.
(** py_acv.py 450-500 ([swing_tree_shap_clf]): the value function is thresholded. *)
Definition py_swing_clf (v : list nat -> Q) (thr : Q) : list group -> nat -> nat -> option swing :=
  py_swing (fun S => Qb (qleb thr (v S))).
(** py_acv.py 652-727 ([shap_values_leaves_notoptimized] with compute_exp_normalized and
    [shap_values_discrete_notoptimized] with compute_exp_cat): the same loops, only
    [phi] is kept; one output column. *)
Definition py_shap (v : list nat -> Q) (C : list group) (m : nat) (j : nat) : option Q :=
  option_map sw_phi (py_swing v C m j).
(** py_acv.py 691-727. *)
Definition shap_values_discrete_notoptimized (m : nat) (data : list pt) (forest : list (list leaf)) (x : pt)
  (C : list group) (j : nat) : option Q :=
  py_shap (fun S => compute_exp_cat m data S forest x) C m j.
(** a value that is a number, cyext_acv.pyx 148 (unguarded division). *)
Definition is_num (o : option Q) : bool := match o with Some _ => true | None => false end.
(** the number itself, cyext_acv.pyx 148; the default is never used below. *)
Definition num (o : option Q) : Q := match o with Some q => q | None => 0%Q end.
(** py_acv.py 652-688.  Outer None: it raises; inner None: the cell is a NaN because one of
    the values added to it is. *)
Definition shap_values_leaves_notoptimized (m : nat) (data : list pt) (forest : list (list leaf)) (x : pt)
  (C : list group) (j : nat) : option (option Q) :=
  let v S := compute_exp_normalized m data S forest x in
  let numbers :=
    forallb (fun i => negb (memb j (convert_list i)) ||
              forallb (fun T => is_num (v (chain_d T ++ convert_list i)) && is_num (v (chain_d T)))
                (powerset (py_sm C m i))) (py_items C m) in
  option_map (fun q => if numbers then Some q else None) (py_shap (fun S => num (v S)) C m j).

(** Model of the normalized leaf-based Shapley routines:
    cyext_acv.pyx 1492-1749 ([shap_values_leaves_normalized]),
    cyext_acv_cache.pyx 410-635 and 640-796 (the same from counts computed
    once), cyext_acv_nopa.pyx 2833-3222 (the same two without threads) and the
    methods of acv_tree.py 647-692 with base_tree.py 638-648.
    Players, coalitions, counts and coefficients are those of ShapModel.v: the
    code repeats them (cyext_acv.pyx 1544-1569, 1595-1641, 1674-1679).
    One output column and one observation; exact arithmetic. *)
From Verif Require Import Base TreeModel ShapModel.

(** ** The normaliser *)

(** What the loop over [leaf_n] reads for one leaf: is the observation inside,
    rows in the leaf, rows in its projection (cyext_acv.pyx 1643-1671,
    1709-1728). *)
Notation entry := (bool * (nat * nat))%type.
(** cyext_acv.pyx 1704, 1729, 1730: [n = n + (c*lm_n)/lm if lm != 0 else 0]; the
    conditional expression covers the whole right-hand side. *)
Definition norm_step (n : Q) (e : entry) : Q :=
  let '(c, (lmn, l)) := e in
  if l =? 0 then 0%Q else (n + Qb c * Qn lmn / Qn l)%Q.
(** cyext_acv.pyx 1681-1682, 1709-1730 ([n_s], [n_si]): the loop over the leaves
    of the tree. *)
Definition norm_sum (es : list entry) : Q := fold_left norm_step es 0%Q.
(** cyext_acv.pyx 1706, 1732, 1733:
    [(c * lm)/(l * n) if n*l != 0 else 0]. *)
Definition prob_norm (c : bool) (lm l : nat) (n : Q) : Q :=
  if qeqb (n * Qn l) 0 then 0%Q else (Qb c * Qn lm / (Qn l * n))%Q.

(** cyext_acv.pyx 1674-1737: increment for one leaf, player and counter, given
    the membership flags and counts of the leaf itself ([own_s], [own_si]) and
    of every leaf of its tree. *)
Definition norm_term_with (N m : nat) (own_s own_si : entry) (es esi : list entry) (val : Q)
  (gs : list group) (counter : nat) : Q :=
  let T := pick counter gs in
  let p_s := if length (concat T) =? 0 then (Qn (fst (snd own_s)) / Qn N)%Q
             else prob_norm (fst own_s) (fst (snd own_s)) (snd (snd own_s)) (norm_sum es) in
  let p_si := prob_norm (fst own_si) (fst (snd own_si)) (snd (snd own_si)) (norm_sum esi) in
  ((coef_0 m (length T) + coef m (length gs) (length T)) * (p_si - p_s) * val)%Q.

(** ** Counts taken from the data *)

(** cyext_acv.pyx 1643-1662, 1709-1720 ([cs], [lm_n], [lm_s] of one leaf for the
    columns [F] of the coalition). *)
Definition entry_s (m : nat) (data : list pt) (F : list nat) (x : pt) (lf : leaf) : entry :=
  (sat (l_rect lf) F x, (count_leaf m data (l_rect lf), count_s data (l_rect lf) F)).
(** cyext_acv.pyx 1664-1671, 1720-1727 ([csi], [lm_n], [lm_si] of one leaf). *)
Definition entry_si (m : nat) (data : list pt) (F : list nat) (va : group) (x : pt) (lf : leaf) : entry :=
  (sat (l_rect lf) F x && not_out (l_rect lf) va x,
   (count_leaf m data (l_rect lf), count_si data (l_rect lf) F va)).
(** cyext_acv.pyx 1632-1737: one leaf, player and counter; [ls] lists the leaves
    of the tree. *)
Definition norm_term (m : nat) (data : list pt) (x : pt) (ls : list leaf) (lf : leaf) (va : group)
  (gs : list group) (counter : nat) : Q :=
  let F := concat (pick counter gs) in
  norm_term_with (length data) m (entry_s m data F x lf) (entry_si m data F va x lf)
    (map (entry_s m data F x) ls) (map (entry_si m data F va x) ls) (l_val lf) gs counter.
(** cyext_acv.pyx 1620-1737: all counters of one leaf and player. *)
Definition norm_leaf_player (C : list group) (m : nat) (data : list pt) (x : pt) (ls : list leaf)
  (lf : leaf) (va : group) : Q :=
  match others C m lf va with
  | None => 0%Q
  | Some gs => sumf (norm_term m data x ls lf va gs) (seq 0 (2 ^ length gs))
  end.
(** cyext_acv.pyx 1492-1746 ([shap_values_leaves_normalized]), column [j]. *)
Definition shap_values_leaves_normalized (C : list group) (m : nat) (data : list pt)
  (forest : list (list leaf)) (x : pt) (j : nat) : Q :=
  (sumf (fun ls => sumf (fun lf =>
     sumf (fun va => Qn (count_occ Nat.eq_dec va j) * norm_leaf_player C m data x ls lf va)
          (va_ids C m)) ls) forest / Qn m)%Q.

(** ** Cached variant *)

(** cyext_acv_cache.pyx 573, 603: [lo <= v < hi], the ends of the interval
    exchanged with respect to the counts (764, 770). *)
Definition in_itv_lo (i : ext * ext) (v : Q) : bool :=
  negb (ext_leb_q (snd i) v) && ext_leb_q (fst i) v.
(** cyext_acv_cache.pyx 572-576, 602-606: all columns of [F] pass that test. *)
Definition sat_lo (p : rect) (F : list nat) (x : pt) : bool :=
  length (filter (fun s => in_itv_lo (p s) (x s)) F) =? length F.
(** cyext_acv_cache.pyx 578-586, 608-616: no column of [va] with
    [v >= hi or v < lo]. *)
Definition not_out_lo (p : rect) (va : group) (x : pt) : bool :=
  length (filter (fun s => ext_leb_q (snd (p s)) (x s) || negb (ext_leb_q (fst (p s)) (x s))) va) =? 0.

(** the three arrays returned by cyext_acv_cache.pyx 640-796: tree, player, leaf,
    other leaf, counter. *)
Record ncache := mkNCache {
  n_lm : nat -> nat -> nat -> nat -> nat -> nat;
  n_lms : nat -> nat -> nat -> nat -> nat -> nat;
  n_lmsi : nat -> nat -> nat -> nat -> nat -> nat
}.
(** cyext_acv_cache.pyx 640-796 ([leaves_cache_normalized]); entries never
    written keep the zero of np.zeros. *)
Definition leaves_cache_normalized (C : list group) (m : nat) (data : list pt)
  (forest : list (list leaf)) : ncache :=
  let lf b k := nth k (nth b forest []) dummy_leaf in
  let va i := nth i (va_ids C m) [] in
  let guard b i k k' c (n : list nat -> rect -> nat) :=
    match others C m (lf b k) (va i) with
    | None => 0
    | Some gs => if c <? 2 ^ length gs then n (concat (pick c gs)) (l_rect (lf b k')) else 0
    end in
  mkNCache (fun b i k k' c => guard b i k k' c (fun _ p => count_leaf m data p))
           (fun b i k k' c => guard b i k k' c (fun F p => count_s data p F))
           (fun b i k k' c => guard b i k k' c (fun F p => count_si data p F (va i))).

(** cyext_acv_cache.pyx 566-597, 599-626 ([cs_n], [csi_n] and the stored counts)
    for leaf [k'] of the tree. *)
Definition entry_s_cache (ca : ncache) (b i k c : nat) (F : list nat) (x : pt) (kl : nat * leaf) : entry :=
  (sat_lo (l_rect (snd kl)) F x, (n_lm ca b i k (fst kl) c, n_lms ca b i k (fst kl) c)).
(** cyext_acv_cache.pyx 578-588, 608-619: the same with the player. *)
Definition entry_si_cache (ca : ncache) (b i k c : nat) (F : list nat) (va : group) (x : pt)
  (kl : nat * leaf) : entry :=
  (sat_lo (l_rect (snd kl)) F x && not_out_lo (l_rect (snd kl)) va x,
   (n_lm ca b i k (fst kl) c, n_lmsi ca b i k (fst kl) c)).
(** cyext_acv_cache.pyx 534-626: one leaf, one player. *)
Definition norm_leaf_player_cache (ca : ncache) (b i k : nat) (C : list group) (m N : nat) (x : pt)
  (ls : list leaf) (lf : leaf) (va : group) : Q :=
  match others C m lf va with
  | None => 0%Q
  | Some gs => sumf (fun c =>
      let F := concat (pick c gs) in
      norm_term_with N m (entry_s_cache ca b i k c F x (k, lf)) (entry_si_cache ca b i k c F va x (k, lf))
        (map (entry_s_cache ca b i k c F x) (indexed ls))
        (map (entry_si_cache ca b i k c F va x) (indexed ls)) (l_val lf) gs c)
      (seq 0 (2 ^ length gs))
  end.
(** cyext_acv_cache.pyx 410-635 ([shap_values_leaves_normalized_cache]). *)
Definition shap_values_leaves_normalized_cache (ca : ncache) (C : list group) (m N : nat)
  (forest : list (list leaf)) (x : pt) (j : nat) : Q :=
  (sumf (fun bt => sumf (fun kl =>
     sumf (fun iv => Qn (count_occ Nat.eq_dec (snd iv) j)
                     * norm_leaf_player_cache ca (fst bt) (fst iv) (fst kl) C m N x (snd bt) (snd kl) (snd iv))
          (indexed (va_ids C m))) (indexed (snd bt))) (indexed forest) / Qn m)%Q.

(** ** The methods of the explainer *)

(** base_tree.py 638-648: the attributes [lm_n], [lm_s_n], [lm_si_n] exist only
    when both flags are set; they hold the counts for the coalitions given to
    the constructor. *)
Definition stored_counts (cache cache_normalized : bool) (C0 : list group) (m : nat) (data : list pt)
  (forest : list (list leaf)) : option ncache :=
  if cache && cache_normalized then Some (leaves_cache_normalized C0 m data forest) else None.
(** acv_tree.py 664-670 ([shap_values_normalized]): the direct routine without
    [cache_normalized], else the cached one (647-653); None is the
    AttributeError for the missing arrays. *)
Definition api_normalized (cache cache_normalized : bool) (C0 C : list group) (m : nat) (data : list pt)
  (forest : list (list leaf)) (x : pt) (j : nat) : option Q :=
  if cache_normalized then
    match stored_counts cache cache_normalized C0 m data forest with
    | Some ca => Some (shap_values_leaves_normalized_cache ca C m (length data) forest x j)
    | None => None
    end
  else Some (shap_values_leaves_normalized C m data forest x j).

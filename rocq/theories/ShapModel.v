(** Model of the leaf-based Shapley routines of cyext_acv.pyx,
    cyext_acv_nopa.pyx and cyext_acv_cache.pyx (no proofs here).
    One output column: the innermost loop over [i2] (cyext_acv.pyx 1476)
    repeats the same computation for every column of [values]. *)
From Verif Require Import Base TreeModel.

(** ** Binomial coefficients *)

(** cyext_acv.pyx 4012-4022 ([for j in range(1, nterms + 1)]: multiply, then
    floor-divide).  Simplification: exact integers instead of doubles. *)
Fixpoint comb_loop (M j k : nat) (val : nat) : nat :=
  match k with
  | O => val
  | S k' => comb_loop M (S j) k' (val * (M - j) / j)
  end.
(** cyext_acv.pyx 4000-4024 ([_comb_int_long]); the ULONG_MAX guard is dropped. *)
Definition comb_int_long (N k : nat) : nat :=
  if N <? k then 0 else comb_loop (N + 1) 1 (Nat.min k (N - k)) 1.
(** cyext_acv.pyx 3994-3998 ([binomialC]): a zero result falls through the
    [if] and the C function returns 0. *)
Definition binomialC (N k : nat) : Q := Qn (comb_int_long N k).

(** ** Players *)
(** vector[long], cyext_acv.pyx 1302. *)
Notation group := (list nat).
(** vector equality used by std::find / std::remove, cyext_acv.pyx 1404. *)
Definition group_eq_dec : forall a b : group, {a = b} + {a <> b} := list_eq_dec Nat.eq_dec.

(** std::remove(begin, end, g) followed by pop_back() (cyext_acv.pyx
    1338-1339, 1391-1392, 1407-1408).  Simplification: for pairwise distinct
    entries this deletes the one entry equal to [g]; modelled as deleting the
    first one. *)
Fixpoint remove1 (g : group) (gs : list group) : list group :=
  match gs with
  | [] => []
  | h :: r => if group_eq_dec h g then r else h :: remove1 g r
  end.

(** cyext_acv.pyx 1323 ([C[0].size() != 0]).  [C = []], where [C[0]] is out of
    range, is never passed: the API default is [[[]]]. *)
Definition has_coal (C : list group) : bool :=
  match C with (_ :: _) :: _ => true | _ => false end.

(** cyext_acv.pyx 1329-1341: the player list when coalitions are given. *)
Fixpoint va_loop (coal_va : list nat) (C_buff : list group) (is_ : list nat) : list group :=
  match is_ with
  | [] => []
  | i :: r =>
      if memb i coal_va then
        match find (memb i) C_buff with
        | Some g => g :: va_loop coal_va (remove1 g C_buff) r
        | None => va_loop coal_va C_buff r
        end
      else [i] :: va_loop coal_va C_buff r
  end.
(** cyext_acv.pyx 1323-1345 ([va_id]). *)
Definition va_ids (C : list group) (m : nat) : list group :=
  if has_coal C then va_loop (concat C) C (seq 0 m) else map (fun i => [i]) (seq 0 m).
(** cyext_acv.pyx 1330-1331 ([remove_va]). *)
Definition remove_va (C : list group) (m : nat) : list nat :=
  filter (fun i => negb (memb i (concat C))) (seq 0 m).

(** cyext_acv.pyx 1370-1393: players met by the variables of one leaf. *)
Fixpoint leaf_groups_loop (rva : list nat) (C_b : list group) (vars : list nat) : list group :=
  match vars with
  | [] => []
  | v :: r =>
      if memb v rva then [v] :: leaf_groups_loop rva C_b r
      else match find (memb v) C_b with
           | Some g => g :: leaf_groups_loop rva (remove1 g C_b) r
           | None => leaf_groups_loop rva C_b r
           end
  end.
(** cyext_acv.pyx 1370-1399 ([node_id[leaf_numb]]). *)
Definition leaf_groups (C : list group) (m : nat) (vars : list nat) : list group :=
  if has_coal C then leaf_groups_loop (remove_va C m) C vars else map (fun v => [v]) vars.

(** ** Counts *)

(** cyext_acv.pyx 1427-1433: all columns of [F] inside the rectangle (the code
    counts the satisfied columns and compares with [S_size]). *)
Definition sat (p : rect) (F : list nat) (x : pt) : bool :=
  length (filter (fun s => in_itv (p s) (x s)) F) =? length F.
(** cyext_acv.pyx 1436-1440: no column of [va] outside the rectangle
    ([nv_bool == 0]). *)
Definition not_out (p : rect) (va : group) (x : pt) : bool :=
  length (filter (fun s => negb (q_leb_ext (x s) (snd (p s))) || negb (ext_ltb_q (fst (p s)) (x s))) va) =? 0.

(** cyext_acv.pyx 1361-1368 ([lm]). *)
Definition count_leaf (m : nat) (data : list pt) (p : rect) : nat :=
  length (filter (in_rect m p) data).
(** cyext_acv.pyx 1424-1434 ([lm_s]). *)
Definition count_s (data : list pt) (p : rect) (F : list nat) : nat :=
  length (filter (sat p F) data).
(** cyext_acv.pyx 1434-1443 ([lm_si]). *)
Definition count_si (data : list pt) (p : rect) (F : list nat) (va : group) : nat :=
  length (filter (fun x => sat p F x && not_out p va x) data).

(** ** Coefficients *)

(** cyext_acv.pyx 1463-1465: the conditional expression covers the whole
    right-hand side. *)
Definition coef_step (m k s : nat) (coef : Q) (l : nat) : Q :=
  if qeqb (binomialC (m - 1) (l + s)) 0 then 0%Q
  else (coef + 1 * binomialC (m - k - 1) l / binomialC (m - 1) (l + s))%Q.
(** cyext_acv.pyx 1463-1465 ([for l in range(1, m - set_size)]). *)
Definition coef (m k s : nat) : Q := fold_left (coef_step m k s) (seq 1 (m - k - 1)) 0%Q.
(** cyext_acv.pyx 1467. *)
Definition coef_0 (m s : nat) : Q :=
  if qeqb (binomialC (m - 1) s) 0 then 0%Q else (1 / binomialC (m - 1) s)%Q.

(** ** One leaf, one player, one coalition *)

(** cyext_acv.pyx 1415-1421: groups whose bit is set in the counter. *)
Fixpoint pick_from (ci counter : nat) (gs : list group) : list group :=
  match gs with
  | [] => []
  | g :: r => if Nat.testbit counter ci then g :: pick_from (S ci) counter r
              else pick_from (S ci) counter r
  end.
(** cyext_acv.pyx 1415-1421, from bit 0. *)
Definition pick (counter : nat) (gs : list group) : list group := pick_from 0 counter gs.

(** cyext_acv.pyx 1469-1473: plug-in probabilities of the leaf without and with
    the player, from the three counts. *)
Definition prob_s (N : nat) (F : list nat) (cs : bool) (lm lms : nat) : Q :=
  if length F =? 0 then (Qn lm / Qn N)%Q
  else if lms =? 0 then 0%Q else (Qb cs * Qn lm / Qn lms)%Q.
(** cyext_acv.pyx 1473 ([p_si]). *)
Definition prob_si (csi : bool) (lm lmsi : nat) : Q :=
  if lmsi =? 0 then 0%Q else (Qb csi * Qn lm / Qn lmsi)%Q.

(** cyext_acv.pyx 1412-1477: increment written for one leaf, player and
    counter, given the three counts. *)
Definition term_with (lm lms lmsi : nat) (N m : nat) (x : pt) (lf : leaf) (va : group)
  (gs : list group) (counter : nat) : Q :=
  let T := pick counter gs in
  let F := concat T in
  let cs := sat (l_rect lf) F x in
  let csi := cs && not_out (l_rect lf) va x in
  ((coef_0 m (length T) + coef m (length gs) (length T))
   * (prob_si csi lm lmsi - prob_s N F cs lm lms) * l_val lf)%Q.

(** cyext_acv.pyx 1359-1477: same, with the counts taken from the data. *)
Definition term (m : nat) (data : list pt) (x : pt) (lf : leaf) (va : group)
  (gs : list group) (counter : nat) : Q :=
  let F := concat (pick counter gs) in
  term_with (count_leaf m data (l_rect lf)) (count_s data (l_rect lf) F)
    (count_si data (l_rect lf) F va) (length data) m x lf va gs counter.

(** cyext_acv.pyx 1402-1410: the other players of the leaf, or None when the
    player is not among them (the [continue]). *)
Definition others (C : list group) (m : nat) (lf : leaf) (va : group) : option (list group) :=
  let ns := leaf_groups C m (l_vars lf) in
  if in_dec group_eq_dec va ns then Some (remove1 va ns) else None.

(** cyext_acv.pyx 1402-1477: all counters of one leaf and player. *)
Definition leaf_player (C : list group) (m : nat) (data : list pt) (x : pt) (lf : leaf)
  (va : group) : Q :=
  match others C m lf va with
  | None => 0%Q
  | Some gs => sumf (term m data x lf va gs) (seq 0 (2 ^ length gs))
  end.

(** cyext_acv.pyx 1475-1484: column [j] gets the increments of every player that
    lists it, summed over leaves and trees, divided by the number of columns.
    Simplification: exact arithmetic, so the order of the sums is immaterial. *)
Definition shap_values_leaves (C : list group) (m : nat) (data : list pt)
  (forest : list (list leaf)) (x : pt) (j : nat) : Q :=
  (sumf (fun ls => sumf (fun lf =>
     sumf (fun va => Qn (count_occ Nat.eq_dec va j) * leaf_player C m data x lf va)
          (va_ids C m)) ls) forest / Qn m)%Q.

(** ** Cached variant *)
(** the three arrays returned by cyext_acv_cache.pyx 59-215 *)
Record cache := mkCache {
  c_lm : nat -> nat -> nat;                       (* tree, leaf *)
  c_lms : nat -> nat -> nat -> nat -> nat;        (* tree, player, leaf, counter *)
  c_lmsi : nat -> nat -> nat -> nat -> nat
}.
(** filler for indices outside the loops of cyext_acv_cache.pyx 136-138; never read by the theorems *)
Definition dummy_leaf : leaf := mkLeaf whole [] 0%Q.
(** cyext_acv_cache.pyx 59-213 ([leaves_cache]): the counts, for every tree,
    leaf, player and counter; entries never written keep the zero of np.zeros. *)
Definition leaves_cache (C : list group) (m : nat) (data : list pt) (forest : list (list leaf)) : cache :=
  let lf b k := nth k (nth b forest []) dummy_leaf in
  let va i := nth i (va_ids C m) [] in
  let guard b i k c (n : list nat -> nat) :=
    match others C m (lf b k) (va i) with
    | None => 0
    | Some gs => if c <? 2 ^ length gs then n (concat (pick c gs)) else 0
    end in
  mkCache (fun b k => count_leaf m data (l_rect (lf b k)))
          (fun b i k c => guard b i k c (count_s data (l_rect (lf b k))))
          (fun b i k c => guard b i k c (fun F => count_si data (l_rect (lf b k)) F (va i))).

(** cyext_acv_cache.pyx 300-390 ([shap_values_leaves_cache]): one leaf, one player. *)
Definition leaf_player_cache (ca : cache) (b i k : nat) (C : list group) (m N : nat)
  (x : pt) (lf : leaf) (va : group) : Q :=
  match others C m lf va with
  | None => 0%Q
  | Some gs => sumf (fun c => term_with (c_lm ca b k) (c_lms ca b i k c) (c_lmsi ca b i k c)
                                N m x lf va gs c) (seq 0 (2 ^ length gs))
  end.
(** pairs (index, element) of [enumerate]: the loop variables [b], [leaf_numb],
    [va] of cyext_acv_cache.pyx 298-345. *)
Definition indexed {A} (l : list A) : list (nat * A) := combine (seq 0 (length l)) l.
(** cyext_acv_cache.pyx 219-405 ([shap_values_leaves_cache]). *)
Definition shap_values_leaves_cache (ca : cache) (C : list group) (m N : nat)
  (forest : list (list leaf)) (x : pt) (j : nat) : Q :=
  (sumf (fun bt => sumf (fun kl =>
     sumf (fun iv => Qn (count_occ Nat.eq_dec (snd iv) j)
                     * leaf_player_cache ca (fst bt) (fst iv) (fst kl) C m N x (snd kl) (snd iv))
          (indexed (va_ids C m))) (indexed (snd bt))) (indexed forest) / Qn m)%Q.

(** base_tree.py 579-624 ([partition_leaves_trees], [node_idx_trees]): the leaves
    of every tree of the ensemble, tree by tree. *)
Fixpoint forest_leaves (ts : list tree) : option (list (list leaf)) :=
  match ts with
  | [] => Some []
  | t :: r => match tree_leaves t, forest_leaves r with
              | Some ls, Some f => Some (ls :: f)
              | _, _ => None end
  end.

(** Model of the compiled active Shapley routines as the array programs they are
    (cyext_acv.pyx 1755-2020 and cyext_acv_nopa.pyx 1707-1947): all rows and outputs at once,
    leaves from the padded tables, work buffers with one cell per leaf and counter, leaves
    treated in any order, non-numbers in the arrays, accesses outside an array kept apart; and of
    the methods that call them (acv_tree.py 74-98, 352-361), from the trees of the ensemble.
    No proofs here.
    Simplification, for the whole file: exact arithmetic, counters that do not overflow. *)
From Verif Require Import Base TreeModel ShapModel NopaModel AcvModel FlatModel SkModel ArrModel EntryModel SbufModel.

(** [a += b] on doubles (cyext_acv.pyx 1926): None is the non-number, which stays; no infinity arises, the
    numerators of 1923 and 1999-2000 are 0 where the denominators are. *)
Definition oadd (a b : option Q) : option Q :=
  match a, b with Some p, Some q => Some (p + q)%Q | _, _ => None end.
(** cyext_acv.pyx 1855-1857: std::remove of one number from a vector in which it was found, then pop_back; std::remove
    moves the other numbers to the front and leaves the cells behind them as they were *)
Definition drop_long (n : nat) (a : list nat) : list nat :=
  if find_pos (Nat.eqb n) a <? length a then
    let kept := filter (fun v => negb (v =? n)) a in removelast (kept ++ skipn (length kept) a)
  else a.

Section Programs.
(** The arguments of cyext_acv.pyx 1755-1763: the tables, [node_idx_trees], [data] with [D] columns,
    [scaling], [X] with [m] columns, [C], [S_star], [N_star]. *)
Variables (T : tabs) (nid : nat -> nat -> list nat) (D : nat) (data : list pt) (scaling m : nat) (X : list pt) (C : list group)
  (S_star N_star : list nat).

(** cyext_acv.pyx 1815-1833 ([va_id]) *)
Definition active_players : list group :=
  if has_coal C then snd (fold_left (va_step (concat C)) S_star (C, [])) else map (fun i => [i]) S_star.
(** cyext_acv.pyx 1820-1821 ([remove_va]) *)
Definition active_single : list nat :=
  filter (fun i => negb (find_pos (Nat.eqb i) (concat C) <? length (concat C))) S_star.
(** cyext_acv.pyx 1835: [m] from here on *)
Definition n_players : nat := length active_players.
(** cyext_acv.pyx 1853-1857, 1868-1894 ([node_id[leaf_numb]]).  [node_idx_trees] is the routine's own copy, and a leaf is
    treated once. *)
Definition active_groups (vars : list nat) : list group :=
  let vars' := fold_left (fun a n => drop_long n a) N_star vars in
  if has_coal C then snd (fold_left (leaf_step active_single) vars' (C, []))
  else fold_left (fun acc v => acc ++ [[v]]) vars' [].

(** values of one row, column and output: [phi], [phi_n] of one leaf, or one slot of [phi_b] (cyext_acv.pyx 1773-1780) *)
Notation nblock := (nat -> nat -> nat -> option Q).
(** [phi_n[..., i, c, j] += q] (cyext_acv.pyx 1926) *)
Definition nadd (a : nblock) (i c j : nat) (q : option Q) : nblock :=
  fun i' c' j' => if (i' =? i) && (c' =? c) && (j' =? j) then oadd (a i' c' j') q else a i' c' j'.
(** cyext_acv.pyx 1924-1926, 2002-2011: one row, all columns of the player, all outputs; [amount] of the leaf value *)
Definition put_row (b k : nat) (va : group) (i : nat) (amount : Q -> option Q) (a : nblock) : option nblock :=
  ofold (fun a c => if c <? m then
      ofold (fun a j => match value_at T b k j with
                        | Some v => Some (nadd a i c j (amount v))
                        | None => None end) (seq 0 (t_out T)) a
    else None) va a.
(** cyext_acv.pyx 1909-1926, 1968-2011: all rows *)
Definition put_rows (b k : nat) (va : group) (amount : pt -> Q -> option Q) (a : nblock) : option nblock :=
  ofold (fun a ix => put_row b k va (fst ix) (amount (snd ix)) a) (indexed X) a.

(** cyext_acv.pyx 1909-1926: what one row gets when the player is not at the leaf *)
Definition absent_amount (p : rect) (lm : nat) (x : pt) (v : Q) : option Q :=
  match cdiv (Qn lm) (Qn (length data)), cdiv (Qb (sat p N_star x) * Qn lm) (Qn (count_s data p N_star)) with
  | Some p_s, Some p_si => Some ((p_si - p_s) * v)%Q
  | _, _ => None
  end.
(** cyext_acv.pyx 1899-1926: the player is not at the leaf; the columns of [N_star] are read in the data and the rows *)
Definition absent_rows (b k : nat) (va : group) (lm : nat) (a : nblock) : option nblock :=
  if cols_exist D m N_star then put_rows b k va (absent_amount (t_part T b k) lm) a else None.
(** cyext_acv.pyx 1968-2011: what one row gets when it is; [F] is read back from [S] *)
Definition present_amount (p : rect) (va : group) (F : list nat) (S_size set_size va_size lm : nat) (x : pt) (v : Q) : option Q :=
  let cs := sat p F x in
  let csi := cs && not_out p va x in
  let c := coef n_players set_size va_size in
  match cdiv (Qb cs * Qn lm) (Qn (count_s data p F)), cdiv (Qb csi * Qn lm) (Qn (count_si data p F va)) with
  | Some p_s, Some p_si =>
      if S_size =? 0 then
        match cdiv (Qn lm) (Qn (length data)) with
        | Some p_off => Some ((p_si - p_off) * v + c * (p_si - p_s) * v)%Q
        | None => None
        end
      else Some ((coef_0 n_players va_size + c) * (p_si - p_s) * v)%Q
  | _, _ => None
  end.
(** cyext_acv.pyx 1951-2011.  [va]'s columns are read for the rows that are in the box over [F].  Simplification:
    looked at in any case. *)
Definition present_rows (b k : nat) (va : group) (F : list nat) (S_size set_size va_size lm : nat) (a : nblock) : option nblock :=
  if cols_exist D m F && cols_exist D m va then
    put_rows b k va (present_amount (t_part T b k) va F S_size set_size va_size lm) a
  else None.
(** cyext_acv.pyx 1936-1949: the coalition, then the null columns, written into one line of [S] *)
Definition fill_both (counter : nat) (gs : list group) (S_ : list nat) : option (list nat * nat * nat) :=
  match fill 0 counter gs S_ 0 0 with
  | Some (S', S_size, va_size) =>
      match ofold put_group N_star (S', S_size) with
      | Some (S'', _) => Some (S'', S_size, va_size)
      | None => None end
  | None => None
  end.
(** cyext_acv.pyx 1953-1954, 1977-1978: [S[0 .. S_size + len_n_star)] *)
Definition read_both (S_ : list nat) (S_size : nat) : list nat := map (fun s => nth s S_ 0) (seq 0 (S_size + length N_star)).

(** ** The parallel routine *)

(** The arrays [S] (player, counter, leaf), [phi_n] (leaf) and [phi_b] (leaf, counter), cyext_acv.pyx 1776-1783; [lm_s],
    [lm_si] and [lm_star] are set to 0 before they are used (1899, 1945-1946). *)
Record awork := mkAwork { aw_S : nat -> nat -> nat -> list nat; aw_n : nat -> nblock; aw_b : nat -> nat -> nblock }.
(** cyext_acv.pyx 1935-2011: one counter; the arrays have [2**scaling] cells in that direction (1776, 1783, 1839-1840) *)
Definition active_counter (b k lm v : nat) (va : group) (gs : list group) (st : awork) (c : nat) : option awork :=
  if c <? 2 ^ scaling then
    match fill_both c gs (aw_S st v c k) with
    | None => None
    | Some (S', S_size, va_size) =>
        match present_rows b k va (read_both S' S_size) S_size (length gs) va_size lm (aw_b st k c) with
        | Some a => Some (mkAwork (set3 (aw_S st) v c k S') (aw_n st) (set2 (aw_b st) k c a))
        | None => None end
    end
  else None.
(** cyext_acv.pyx 1896-2011: one player; [node_id_va] and [S] have as many cells in that direction as [X] has columns
    (1783, 1808) *)
Definition active_player (b k lm : nat) (gs0 : list group) (st : awork) (v_va : nat * group) : option awork :=
  let '(v, va) := v_va in
  if v <? m then
    match others_at va gs0 with
    | Some gs => ofold (active_counter b k lm v va gs) (seq 0 (2 ^ length gs)) st
    | None => match absent_rows b k va lm (aw_n st k) with
              | Some a => Some (mkAwork (aw_S st) (setf (aw_n st) k a) (aw_b st))
              | None => None end
    end
  else None.
(** cyext_acv.pyx 1853-2011: one pass of the parallel loop.  Passes for different leaves touch different cells and
    have their scalars to themselves, so whole passes in some order stand for any interleaving (C11). *)
Definition active_leaf (b : nat) (st : awork) (k : nat) : option awork :=
  if k <? t_max T then
    ofold (active_player b k (count_leaf D data (t_part T b k)) (active_groups (nid b k))) (indexed active_players) st
  else None.
(** cyext_acv.pyx 1844-1850: the columns of the data are cleared *)
Definition active_clear (st : awork) : awork :=
  let clear (a : nblock) : nblock := fun i c j => if c <? D then Some 0%Q else a i c j in
  mkAwork (aw_S st) (fun k => clear (aw_n st k)) (fun k cc => clear (aw_b st k cc)).
(** cyext_acv.pyx 2013-2019: the columns of the data are added up *)
Definition active_reduce (st : awork) (phi : nblock) : nblock := fun i c j =>
  if c <? D then
    fold_left (fun acc k => fold_left (fun acc cc => oadd acc (aw_b st k cc i c j)) (seq 0 (2 ^ scaling)) (oadd acc (aw_n st k i c j)))
              (seq 0 (t_max T)) (phi i c j)
  else phi i c j.
(** For every tree, the order in which the leaves are treated by the threads of [prange] (cyext_acv.pyx 1852). *)
Variable order : nat -> list nat.
(** cyext_acv.pyx 1843-2019: one tree *)
Definition active_tree (s : awork * nblock) (b : nat) : option (awork * nblock) :=
  match ofold (active_leaf b) (order b) (active_clear (fst s)) with
  | Some st => Some (st, active_reduce st (snd s))
  | None => None
  end.
(** [np.asarray(phi)/m] (cyext_acv.pyx 2020) *)
Definition over_players (phi : nblock) : nblock := fun i c j =>
  match phi i c j with Some s => cdiv s (Qn n_players) | None => None end.
(** cyext_acv.pyx 1755-2020 ([shap_values_acv_leaves]); [C[0]] does not exist for [C = []] (1815); the loops over the columns of
    the data (1845, 2014) leave arrays that are narrower *)
Definition active_prog : option nblock :=
  match C with
  | [] => None
  | _ => if D <=? m then
           match ofold active_tree (seq 0 (t_trees T))
                   (mkAwork (fun _ _ _ => repeat 0 m) (fun _ _ _ _ => Some 0%Q) (fun _ _ _ _ _ => Some 0%Q), fun _ _ _ => Some 0%Q) with
           | Some (_, phi) => Some (over_players phi)
           | None => None end
         else None
  end.

(** ** The sequential routine *)

(** cyext_acv_nopa.pyx 1869-1945: one counter; the state is [S] and [phi] *)
Definition active_counter_seq (b k lm : nat) (va : group) (gs : list group) (st : list nat * nblock) (c : nat) : option (list nat * nblock) :=
  match fill_both c gs (fst st) with
  | None => None
  | Some (S', S_size, va_size) =>
      match present_rows b k va (read_both S' S_size) S_size (length gs) va_size lm (snd st) with
      | Some a => Some (S', a)
      | None => None end
  end.
(** cyext_acv_nopa.pyx 1830-1945: one player *)
Definition active_player_seq (b k lm : nat) (gs0 : list group) (st : list nat * nblock) (v_va : nat * group) : option (list nat * nblock) :=
  let '(v, va) := v_va in
  if v <? m then
    match others_at va gs0 with
    | Some gs => ofold (active_counter_seq b k lm va gs) (seq 0 (2 ^ length gs)) st
    | None => match absent_rows b k va lm (snd st) with
              | Some a => Some (fst st, a)
              | None => None end
    end
  else None.
(** cyext_acv_nopa.pyx 1786-1945: one leaf; the vectors indexed by the leaf have [max_leaves] cells (1736-1751) *)
Definition active_leaf_seq (b : nat) (st : list nat * nblock) (k : nat) : option (list nat * nblock) :=
  if k <? t_max T then
    ofold (active_player_seq b k (count_leaf D data (t_part T b k)) (active_groups (nid b k))) (indexed active_players) st
  else None.
(** cyext_acv_nopa.pyx 1707-1947 ([shap_values_acv_leaves_nopa]) *)
Definition active_seq_prog : option nblock :=
  match C with
  | [] => None
  | _ => match ofold (fun st b => ofold (active_leaf_seq b) (seq 0 (t_nb T b)) st) (seq 0 (t_trees T)) (repeat 0 m, fun _ _ _ => Some 0%Q) with
         | Some (_, phi) => Some (over_players phi)
         | None => None end
  end.
End Programs.

(** ** The methods *)

(** the array returned: rows, columns, outputs (cyext_acv.pyx 1773, 2020) *)
Definition ncube (n m k : nat) (o : option (nat -> nat -> nat -> option Q)) : outcome (list (list (list (option Q)))) :=
  match o with
  | Some r => Returned (map (fun i => map (fun c => map (r i c) (seq 0 k)) (seq 0 m)) (seq 0 n))
  | None => Stray
  end.
(** acv_tree.py 74-98 ([ACVTree.shap_values_acv]); [S_star] and [N_star] reach the compiled routine as they are *)
Definition acv_active (h : shap_acv) (order : nat -> list nat) (X : marg) (S_star N_star : sarg) (C : list group)
  : outcome (list (list (list (option Q)))) :=
  X1 <- check_array X ;; x <- buffer2 X1 ;; s <- buffer1 S_star ;; n <- buffer1 N_star ;;
  ncube (length (rows x)) (cols x) (t_out (o_tabs (h_acv h)))
    (active_prog (o_tabs (h_acv h)) (h_nid h) (cols (h_data h)) (points (h_data h)) (h_max h) (cols x) (points x) C s n order).
(** acv_tree.py 352-361 ([shap_values_acv_nopa]) *)
Definition acv_active_nopa (h : shap_acv) (X : marg) (S_star N_star : sarg) (C : list group)
  : outcome (list (list (list (option Q)))) :=
  X1 <- check_array X ;; x <- buffer2 (as_float X1) ;; s <- buffer1 S_star ;; n <- buffer1 N_star ;;
  ncube (length (rows x)) (cols x) (t_out (o_tabs (h_acv h)))
    (active_seq_prog (o_tabs (h_acv h)) (h_nid h) (cols (h_data h)) (points (h_data h)) (cols x) (points x) C s n).

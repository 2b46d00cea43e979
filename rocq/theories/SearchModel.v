(** Model of the searches of minimal sufficient explanations (global_sdp_*,
    global_ddp_*, global_cdp_*, importance_msdp_clf_search), of the list of all
    sufficient explanations, and of the helpers that post-process them.
    No proofs here.  The probability estimator is a parameter [P]. *)
From Verif Require Import Base ShapModel AcvModel.
From Coq Require Import NArith.

(** ** Groups and candidate sets *)

(** cyext_acv.pyx 6201-6213 ([va_id] from a search space): free variables of the
    space first, then every coalition that meets it. *)
Definition search_groups (C : list group) (space : list nat) : list group :=
  if has_coal C
  then map (fun i => [i]) (filter (fun i => negb (memb i (concat C))) space)
       ++ filter (existsb (fun c => memb c space)) C
  else map (fun i => [i]) space.
(** cyext_acv.pyx 892-896 and 2917-2921 ([va_id] of the tree-based searches). *)
Definition tree_groups (C : list group) (m : nat) : list group :=
  if has_coal C
  then map (fun i => [i]) (filter (fun i => negb (memb i (concat C))) (seq 0 m)) ++ C
  else map (fun i => [i]) (seq 0 m).

(** itertools.combinations(va_id, size), cyext_acv.pyx 6220: sub-lists of the
    given length, in lexicographic order of positions. *)
Fixpoint combinations (size : nat) (l : list group) : list (list group) :=
  match size, l with
  | O, _ => [[]]
  | S _, [] => []
  | S k, a :: r => map (cons a) (combinations k r) ++ combinations size r
  end.

(** cyext_acv.pyx 6216-6225 ([power]): one list of candidate sets per size,
    cut off once [limit] sets (2**15 there, 2**25 in 2695) have been produced. *)
Fixpoint power_loop (limit : N) (va : list group) (sizes : list nat) (max_size : N)
  : list (list (list nat)) :=
  match sizes with
  | [] => []
  | size :: r =>
      let power_b := map (@concat nat) (combinations size va) in
      let max_size' := (max_size + N.of_nat (length power_b))%N in
      power_b :: if (limit <=? max_size')%N then [] else power_loop limit va r max_size'
  end.
(** cyext_acv.pyx 6216-6225 ([lo] = 0) and 2924-2933 ([lo] = minimal):
    sizes [lo..m]. *)
Definition power (limit : N) (va : list group) (lo : nat) : list (list (list nat)) :=
  power_loop limit va (seq lo (S (length va) - lo)) 0.
(** 2**15, cyext_acv.pyx 6224. *)
Definition cut15 : N := 32768.
(** 2**25, cyext_acv.pyx 2700. *)
Definition cut25 : N := 33554432.

(** ** One row *)

(** sdp[k], len_s_star[k], s_star[k, :], cyext_acv.pyx 6175-6230. *)
Record row := mkRow { r_sdp : Q; r_len : nat; r_star : list Z }.
(** cyext_acv.pyx 6175, 6186 and 6228-6229: initial values. *)
Definition row0 (d : nat) : row := mkRow 0 0 (repeat (-1)%Z d).

(** cyext_acv.pyx 6262-6263: the first [S_size] entries are overwritten. *)
Definition write_star (S : list nat) (star : list Z) : list Z :=
  map Z.of_nat S ++ skipn (length S) star.
(** cyext_acv.pyx 6270-6271: entries from [len] on are set to -1. *)
Definition clear_star (len d : nat) (star : list Z) : list Z :=
  firstn len star ++ repeat (-1)%Z (d - len).

(** The searches differ in a few places only:
    - [v_mask]: estimates are computed on the selected rows and matched by
      position (6252-6259) instead of being read at the index of the row (937);
    - [v_need]: a set is recorded only if it also reaches the level (3227, 2847);
    - [v_full]: a set of all columns gets probability 1 (6265-6271; absent in 2847-2851);
    - [v_clean]: the tail of the index row is cleared when the row is done
      (3241-3242, 2857-2858, utils_sdp.py 471-472);
    - [v_half]: size test of the early stop (6284; [S_size >= X.shape[1]/2]). *)
Record variant := mkVariant { v_mask : bool; v_need : bool; v_full : bool; v_clean : bool;
                              v_half : nat -> nat -> bool }.
(** [S_size >= X.shape[1]/2] with C integer division, cyext_acv.pyx 6284. *)
Definition half_int (size d : nat) : bool := d / 2 <=? size.
(** [S_size >= X.shape[1] / 2] with Python's true division, utils_sdp.py 480. *)
Definition half_true (size d : nat) : bool := d <=? 2 * size.
(** global_sdp_rf (cyext_acv.pyx 6163-6287) and, with other value functions, global_sdp_rf_v0 (cyext_acv.pyx 4113-4237),
    global_ddp_rf, global_cdp_rf, global_ddp_intv (cyext_acv.pyx 6641-6774), global_cdp_intv (cyext_acv.pyx 7584-7717). *)
Definition v_rf : variant := mkVariant true false true false half_int.
(** cyext_acv.pyx 846-957 (global_sdp_reg_cat), 968-1265 (global_sdp_reg), 2872-3068
    (global_sdp_clf), 3787-3990 (global_sdp_clf_approx). *)
Definition v_tree : variant := mkVariant false false true false half_int.
(** global_sdp_clf_ptrees, cyext_acv.pyx 3075-3254: no size test (3251). *)
Definition v_ptrees : variant := mkVariant false true true true (fun _ _ => false).
(** global_sdp_reg_cpp_pa_coal, cyext_acv.pyx 2637-2867. *)
Definition v_coal : variant := mkVariant false true false true half_int.
(** importance_msdp_clf_search, utils_sdp.py 395-484; importance_msdp_reg_search, utils_sdp.py 513-604, is the same text
    with another value function. *)
Definition v_msdp : variant := mkVariant false false true true half_true.

Section Search.
Variable v : variant.
(** number of columns X.shape[1], cyext_acv.pyx 6265 *)
Variable d : nat.
(** requested level [pi_level], cyext_acv.pyx 6274 *)
Variable pi : Q.
(** [P k S]: estimate for row [k] given the columns [S] (the calls at cyext_acv.pyx
    6252, 937, 3217); nothing is assumed about it. *)
Variable P : nat -> list nat -> Q.

(** cyext_acv.pyx 6258-6271: update of one row by the estimate of one set. *)
Definition update_row (S : list nat) (p : Q) (r : row) : row :=
  let r1 := if qleb (r_sdp r) p && (negb (v_need v) || qleb pi p)
            then mkRow p (length S) (write_star S (r_star r)) else r in
  if v_full v && (length S =? d)
  then mkRow 1 (length S) (clear_star (length S) d (write_star S (r_star r1)))
  else r1.

(** rows still searched [R], the row arrays and [sdp_global] (as a function of the
    index written), cyext_acv.pyx 6189-6196. *)
Record sstate := mkState { s_rows : nat -> row; s_R : list nat; s_glob : Z -> nat }.

(** cyext_acv.pyx 6243-6256: the estimates of the rows still searched.  With
    [v_mask] they are computed for the rows selected by the boolean mask, in
    increasing order. *)
Definition estimates (N : nat) (R : list nat) (S : list nat) : list Q :=
  if v_mask v then map (fun k => P k S) (filter (fun k => memb k R) (seq 0 N))
  else map (fun k => P k S) R.

(** cyext_acv.pyx 6235-6271: one candidate set, all rows still searched.
    Simplification: [R_buf] is a copy of [R] here. *)
Definition one_set (N : nat) (R : list nat) (rows : nat -> row) (S : list nat) : nat -> row :=
  fold_left (fun rw ip => upd rw (fst ip) (update_row S (snd ip) (rw (fst ip))))
            (combine R (estimates N R S)) rows.

(** std::remove(R.begin(), R.end(), k): elements different from [k] are moved to
    the front, the tail keeps its old contents (cyext_acv.pyx 6281). *)
Definition std_remove (k : nat) (R : list nat) : list nat :=
  let keep := filter (fun j => negb (j =? k)) R in keep ++ skipn (length keep) R.
(** R.pop_back(), cyext_acv.pyx 6282. *)
Definition pop_back (R : list nat) : list nat := removelast R.

(** cyext_acv.pyx 6273-6277: counts of the variables of one finished row. *)
Definition count_row (r : row) (g : Z -> nat) : Z -> nat :=
  fold_left (fun g i => fun z => if (z =? i)%Z then S (g z) else g z) (firstn (r_len r) (r_star r)) g.

(** cyext_acv.pyx 6235-6282: all candidate sets of one size, then the rows that
    reach the level are counted and removed. *)
Definition one_level (N : nat) (sets : list (list nat)) (st : sstate) : sstate :=
  let R := s_R st in
  let rows := fold_left (one_set N R) sets (s_rows st) in
  let done := filter (fun k => qleb pi (r_sdp (rows k))) R in
  let rows' := if v_clean v
               then fold_left (fun rw k => upd rw k (mkRow (r_sdp (rw k)) (r_len (rw k))
                                 (clear_star (r_len (rw k)) d (r_star (rw k))))) done rows
               else rows in
  mkState rows'
          (fold_left (fun R' k => pop_back (std_remove k R')) done R)
          (fold_left (fun g k => count_row (rows' k) g) done (s_glob st)).

(** cyext_acv.pyx 6239: [S_size] after the loop over the sets of one size. *)
Definition last_size (sets : list (list nat)) : nat := length (last sets []).

(** cyext_acv.pyx 6233-6285: loop over the indices of [power]; None stands for a
    read beyond the enumerated sizes ([power_cpp[s_0]]). *)
Fixpoint search_loop (stop : bool) (N : nat) (pw : list (list (list nat))) (idx : list nat)
  (st : sstate) : option sstate :=
  match idx with
  | [] => Some st
  | s_0 :: r =>
      match nth_error pw s_0 with
      | None => None
      | Some sets =>
          let st' := one_level N sets st in
          if ((length (s_R st') =? 0) || v_half v (last_size sets) d) && stop
          then Some st' else search_loop stop N pw r st'
      end
  end.

(** cyext_acv.pyx 6175-6230: initial arrays. *)
Definition state0 (N : nat) : sstate := mkState (fun _ => row0 d) (seq 0 N) (fun _ => 0).

(** cyext_acv.pyx 6163-6287 ([global_sdp_rf]) and the searches of the same shape:
    [power] of all sizes, loop over [range(minimal, m + 1)]. *)
Definition search (limit : N) (stop : bool) (N : nat) (va : list group) (minimal : nat) : option sstate :=
  search_loop stop N (power limit va 0) (seq minimal (S (length va) - minimal)) (state0 N).
(** cyext_acv.pyx 2872-3068 ([global_sdp_clf]) and 3787-3990: [power] of the sizes
    from [minimal] on, loop over [range(len(power))]. *)
Definition search_clf (limit : N) (stop : bool) (N : nat) (va : list group) (minimal : nat) : option sstate :=
  let pw := power limit va minimal in
  search_loop stop N pw (seq 0 (length pw)) (state0 N).
End Search.

(** cyext_acv.pyx 6287: [sdp_global / X.shape[0]]. *)
Definition importance (N : nat) (st : sstate) (j : nat) : Q := (Qn (s_glob st (Z.of_nat j)) / Qn N)%Q.

(** list.remove: first occurrence, None for the ValueError (cyext_acv.pyx 6087-6088). *)
Fixpoint py_remove (x : nat) (l : list nat) : option (list nat) :=
  match l with
  | [] => None
  | a :: r => if a =? x then Some r
              else match py_remove x r with Some r' => Some (a :: r') | None => None end
  end.
(** cyext_acv.pyx 6085-6091 ([S_bar]): the columns outside the candidate set. *)
Fixpoint bar_loop (S : list nat) (l : list nat) : option (list nat) :=
  match S with
  | [] => Some l
  | a :: r => match py_remove a l with Some l' => bar_loop r l' | None => None end
  end.
(** cyext_acv.pyx 6085-6091. *)
Definition s_bar (d : nat) (S : list nat) : option (list nat) := bar_loop S (seq 0 d).
(** cyext_acv.pyx 6085-6107 and 7228-7253: the estimator of the divergent searches,
    evaluated on the complement; the ValueError branch (value 0 here) is shown
    unreachable. *)
Definition on_complement (d : nat) (Pd : nat -> list nat -> Q) (k : nat) (S : list nat) : Q :=
  match s_bar d S with Some Sb => Pd k Sb | None => 0%Q end.

(** ** All sufficient explanations *)

(** cyext_acv.pyx 6366-6373: a listed set (possibly the sentinel [-1]) is contained
    in the candidate set. *)
Definition listed_in (S : list nat) (L : list Z) : bool :=
  length (filter (fun z => existsb (fun s => Z.eqb (Z.of_nat s) z) S) L) =? length L.
(** cyext_acv.pyx 6345-6346: the lists of one row start with a sentinel. *)
Record suff := mkSuff { f_sets : list (list Z); f_sdp : list Q }.
(** cyext_acv.pyx 6345-6346. *)
Definition suff0 : suff := mkSuff [[(-1)%Z]] [(-1)%Q].
(** cyext_acv.pyx 6362-6381: one candidate set, one row. *)
Definition suff_step (pi : Q) (p : Q) (S : list nat) (f : suff) : suff :=
  if qleb pi p && negb (existsb (listed_in S) (f_sets f))
  then mkSuff (f_sets f ++ [map Z.of_nat S]) (f_sdp f ++ [p]) else f.
(** cyext_acv.pyx 6348-6381 for one row: all sizes from [minimal] to [m]; None
    stands for a read beyond the enumerated sizes.  Simplification: rows do not
    interact, so each row is modelled on its own. *)
Fixpoint suff_loop (pi : Q) (P : list nat -> Q) (pw : list (list (list nat))) (idx : list nat)
  (f : suff) : option suff :=
  match idx with
  | [] => Some f
  | s_0 :: r => match nth_error pw s_0 with
                | None => None
                | Some sets => suff_loop pi P pw r (fold_left (fun f S => suff_step pi (P S) S f) sets f)
                end
  end.
(** cyext_acv.pyx 6293-6381 ([sufficient_expl_rf]; same text in 4594-4683 and, with
    the divergent estimator, 6388-6475), one row. *)
Definition sufficient_expl (pi : Q) (P : list nat -> Q) (va : list group) (minimal : nat) : option suff :=
  suff_loop pi P (power cut15 va 0) (seq minimal (S (length va) - minimal)) suff0.
(** acv_agnosticX.py 1145-1146: the sentinels are dropped. *)
Definition strip_suff (f : suff) : suff := mkSuff (tl (f_sets f)) (tl (f_sdp f)).
(** acv_agnosticX.py 1145-1147: what [sufficient_expl_rf] returns for all rows. *)
Definition api_sufficient (fs : list suff) : list (list (list Z)) * list (list Q) :=
  (map (fun f => tl (f_sets f)) fs, map (fun f => tl (f_sdp f)) fs).
(** acv_agnosticX.py 1217-1218: what [sufficient_cxpl_rf] returns for all rows; the
    slice is taken on the list of rows ([cdp_expl[1:]]). *)
Definition api_sufficient_cxpl (fs : list suff) : list (list (list Z)) * list (list Q) :=
  (map (fun f => tl (f_sets f)) fs, tl (map f_sdp fs)).
(** cyext_acv.pyx 6375-6383 ([sdp_global / K]) over the rows [fs]: each set pushed
    adds one to [K] and to every variable it lists; None is the division 0/0.
    Simplification: counted from the final lists instead of accumulated on the way. *)
Definition suff_global (fs : list suff) (j : nat) : option Q :=
  cdiv (sumf (fun f => sumf (fun L => Qn (count_occ Z.eq_dec L (Z.of_nat j))) (f_sets (strip_suff f))) fs)
       (sumf (fun f => Qn (length (f_sets (strip_suff f)))) fs).

(** ** Post-processing *)

(** utils.py 820-827 ([get_active_null_coalition_list]), one row; a Python set
    difference is modelled by a filter (the order is not used by the theorems). *)
Definition active_null (d : nat) (star : list Z) (len : nat) : list Z * list Z :=
  let act := firstn len star in
  (act, filter (fun z => negb (existsb (Z.eqb z) act)) (map Z.of_nat (seq 0 d))).
(** utils.py 809-817 ([get_null_coalition]), one row: all entries of the index row
    count; numpy broadcasts a one-element right-hand side; None is the shape error
    of the assignment. *)
Definition null_coalition (d : nat) (star : list Z) (len : nat) : option (list Z) :=
  let nul := filter (fun z => negb (existsb (Z.eqb z) star)) (map Z.of_nat (seq 0 d)) in
  if length nul =? d - len then Some (repeat (-1)%Z len ++ nul)
  else match nul with [z] => Some (repeat (-1)%Z len ++ repeat z (d - len)) | _ => None end.

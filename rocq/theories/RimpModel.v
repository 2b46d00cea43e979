(** Model of the methods [importance_sdp_reg] and [importance_sdp_reg_nopa] of [ACVTree]
    (acv_tree.py 600-607, 617-624), from the trees of the ensemble and its offset to the arrays
    returned.  The compiled search (cyext_acv.pyx 968-1266) keeps the normalisers of the last
    estimate (1020-1023), so that the search passes them from one estimate to the next.  No proofs here.
    Simplifications: as in RcatModel.v. *)
From Verif Require Import Base TreeModel ShapModel FlatModel ArrModel EntryModel SdpModel RegModel SearchModel ImpModel RcatModel.
From Coq Require Import NArith.

Section Search.
(** what an estimate leaves behind for the next one: [norm], [norm_u], [norm_d] (cyext_acv.pyx 1020-1023) *)
Variable T : Type.
(** the differences between the searches, as in SearchModel.v (cyext_acv.pyx 1239-1251) *)
Variable v : variant.
(** number of columns [X.shape[1]] (cyext_acv.pyx 1245) *)
Variable d : nat.
(** requested level [pi_level] (cyext_acv.pyx 1254) *)
Variable pi : Q.
(** the estimate of row [k] given the columns, after another one (cyext_acv.pyx 1197-1238) *)
Variable E : T -> nat -> list nat -> Q * T.

(** cyext_acv.pyx 1197-1251: one observation of [R_buf] *)
Definition kept_row (S : list nat) (tr : T * (nat -> row)) (k : nat) : T * (nat -> row) :=
  let vn := E (fst tr) k S in (snd vn, upd (snd tr) k (update_row v d pi S (fst vn) (snd tr k))).
(** cyext_acv.pyx 1053-1251: one candidate set, the rows still searched one after the other *)
Definition kept_set (R : list nat) (tr : T * (nat -> row)) (S : list nat) : T * (nat -> row) :=
  fold_left (kept_row S) R tr.
(** cyext_acv.pyx 1052-1261: all sets of one size, then the rows at the level are counted and removed *)
Definition kept_level (sets : list (list nat)) (ts : T * sstate) : T * sstate :=
  let R := s_R (snd ts) in
  let tr := fold_left (kept_set R) sets (fst ts, s_rows (snd ts)) in
  let done := filter (fun k => qleb pi (r_sdp (snd tr k))) R in
  (fst tr, mkState (snd tr) (fold_left (fun R' k => pop_back (std_remove k R')) done R)
                   (fold_left (fun g k => count_row (snd tr k) g) done (s_glob (snd ts)))).
(** cyext_acv.pyx 1051-1264; None stands for a read beyond the enumerated sizes *)
Fixpoint kept_loop (stop : bool) (pw : list (list (list nat))) (idx : list nat) (ts : T * sstate) : option sstate :=
  match idx with
  | [] => Some (snd ts)
  | s_0 :: r =>
      match nth_error pw s_0 with
      | None => None
      | Some sets =>
          let ts' := kept_level sets ts in
          if ((length (s_R (snd ts')) =? 0) || v_half v (last_size sets) d) && stop
          then Some (snd ts') else kept_loop stop pw r ts'
      end
  end.
(** cyext_acv.pyx 1032-1264, starting with [t0] (1020-1023) *)
Definition kept_search (t0 : T) (limit : N) (stop : bool) (n : nat) (va : list group) (minimal : nat) : option sstate :=
  kept_loop stop (power limit va 0) (seq minimal (S (length va) - minimal)) (t0, state0 d n).
End Search.

(** cyext_acv.pyx 968-1266 ([global_sdp_reg]): [m] has become the number of groups (1031), only the columns below it are tested
    when the rows of a leaf are counted (1088-1090, 1153-1155) *)
Definition global_sdp_reg (d : nat) (rws : list (pt * Q)) (tX : Q) (F : list (list leaf)) (obs : list (pt * Q))
  (C : list group) (pi : Q) (minimal : nat) (stop : bool) : option sstate :=
  let va := tree_groups C d in
  kept_search norms v_tree d pi
    (fun old k S => reg_eval (length va) rws tX F old S (nth k obs (fun _ => 0%Q, 0%Q)))
    norms0 cut15 stop (length obs) va minimal.

Section Methods.
(** the object *)
Variable o : reg_acv.
(** acv_tree.py 600-607 ([importance_sdp_reg]); [C[0]] does not exist for [C = []] (cyext_acv.pyx 1025), and a set needs room
    in [S] and [s_star] (1045, 1049, 1054, 1243). *)
Definition acv_reg_search (X : marg) (tX : Q) (data : marg) (C : list group) (pi : Q) (minimal : nat) (stop : bool) : outcome answer :=
  pX <- predict o X ;; pY <- predict o data ;;
  x <- buffer2 (as_float X) ;; fX <- buffer_y pX ;; y <- buffer_y pY ;; z <- buffer2 data ;;
  match C with
  | [] => Stray
  | _ =>
      let va := tree_groups C (cols x) in
      if wide_enough (r_acv o) (cols x) z && forallb (fun s => s <? cols x) (concat va) && (length (concat va) <=? cols x) then
        match global_sdp_reg (cols x) (combine (points z) y) tX (reg_leaves (o_tabs (r_acv o))) (combine (points x) fX) C pi minimal stop with
        | Some st => Returned (collect (cols x) (length (rows x)) st)
        | None => Stray
        end
      else Stray
  end.
(** acv_tree.py 617-624 ([importance_sdp_reg_nopa]), cyext_acv_nopa.pyx 962-1260: no argument [stop], the early stop is always on *)
Definition acv_reg_search_nopa (X : marg) (tX : Q) (data : marg) (C : list group) (pi : Q) (minimal : nat) : outcome answer :=
  acv_reg_search X tX data C pi minimal true.
End Methods.

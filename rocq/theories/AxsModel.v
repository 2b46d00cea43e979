(** Model of the methods of [ACXplainer] that search minimal explanations: [importance_sdp_rf], [importance_ddp_rf],
    [importance_cdp_rf], [importance_ddp_intv], [importance_cdp_intv] (acv_agnosticX.py 849-1073, 1523-1594, 1704-1775), from the
    fitted forest of skranger to the four arrays returned.  The compiled searches call the estimators of one set
    (ApiModel.v) on the rows that are still searched.  Exact arithmetic.  No proofs here. *)
From Verif Require Import Base TreeModel SkModel SearchModel RfModel ApiModel AgnModel.
From Verif Require ExplModel ImpModel.
From Coq Require Import NArith.
Local Open Scope nat_scope.

(** What a call gives: a value, an exception (acv_agnosticX.py 1577-1581, cyext_acv.pyx 6643-6645, 6683), or an access outside an array
    (cyext_acv.pyx 6637-6640).  Simplification: exceptions of all kinds are one. *)
Inductive ending (A : Type) := Gives (a : A) | Raises | Strays.
Arguments Gives {A}. Arguments Raises {A}. Arguments Strays {A}.
(** one step after the other (cyext_acv.pyx 6724-6772) *)
Definition next {A B} (e : ending A) (f : A -> ending B) : ending B :=
  match e with Gives a => f a | Raises => Raises | Strays => Strays end.

(** The five methods (acv_agnosticX.py 849, 925, 999, 1523, 1704). *)
Inductive kind := by_sdp | by_ddp | by_cdp | by_ddp_intv | by_cdp_intv.
(** The estimator of one set that the search calls (cyext_acv.pyx 6252, 6101, 7246, 6744, 7687). *)
Definition same_of (kd : kind) : routine :=
  match kd with by_sdp => sdp_same | by_ddp => ddp_same | by_cdp => cdp_same | by_ddp_intv => ddp_intv_same | by_cdp_intv => cdp_intv_same end.
(** Is the estimator called for the columns outside the set ([S_bar], cyext_acv.pyx 6088-6093, 7233-7238)? *)
Definition on_bar (kd : kind) : bool := match kd with by_ddp | by_cdp => true | _ => false end.

(** [arr[np.array(in_data, dtype=bool)]] for an array of [N] entries (cyext_acv.pyx 6744-6747); another length is an IndexError (None). *)
Definition select {A} (N : nat) (R : list nat) (l : list A) : option (list A) :=
  if length l =? N then Some (map snd (filter (fun ia => memb (fst ia) R) (combine (seq 0 N) l))) else None.
(** As [select] for an array that only some routines have (cyext_acv.pyx 7246-7248, 6747). *)
Definition select_if {A} (has : bool) (N : nat) (R : list nat) (l : list A) : option (list A) := if has then select N R l else Some [].

Section Compiled.
(** the arrays of the object, its depth, [classifier] *)
Variables (M : fmem) (depth : nat) (classifier : bool) (kd : kind).
(** the observations with their targets, intervals, boxes and levels; the background; [min_node_size] *)
Variables (a : args) (tl : list (list Q)) (D : list pt) (Y : list Q) (m : nat).
(** number of columns, [pi_level] *)
Variables (d : nat) (pi : Q).
(** order in which the workers treat the rows [R] for the set [S] (cyext_acv.pyx 6628, 6995, 6151) *)
Variable sched : list nat -> list nat -> list nat.
(** number of observations (cyext_acv.pyx 6647) *)
Notation N := (length (g_X a)).

(** cyext_acv.pyx 6731-6747 (and 6085-6104, 6240-6256, 7230-7250, 7674-7690): the estimates of one set of columns, on the rows
    selected by the mask; a column that is twice in the set is a ValueError of [remove] (6090). *)
Definition one_call (R S : list nat) : ending (list Q) :=
  match (if on_bar kd then s_bar d S else Some S) with
  | None => Raises
  | Some Sv =>
      match select N R (g_X a), select N R (g_y a), select_if (with_interval (same_of kd)) N R (g_down a),
            select_if (with_interval (same_of kd)) N R (g_up a), select_if (with_box (same_of kd)) N R (g_cond a), select N R tl with
      | Some X', Some y', Some dn', Some up', Some cd', Some t' =>
          match compiled M (rows_of D) (vals_of Y) (length D) depth m classifier (same_of kd)
                         (mkArgs X' y' dn' up' (S_same Sv) cd') (T_matrix t') (sched R S) with
          | Returned res => Gives (r_sdp res)
          | Raised _ => Raises
          | Stray => Strays
          end
      | _, _, _, _, _, _ => Raises
      end
  end.
(** cyext_acv.pyx 6724-6763: one candidate set, all rows still searched; [sdp_ba[i]] is read for every position [i] of [R]. *)
Definition one_set (R : list nat) (rows : nat -> SearchModel.row) (S : list nat) : ending (nat -> SearchModel.row) :=
  next (one_call R S) (fun l =>
    if length l <? length R then Strays
    else Gives (fold_left (fun rw ip => upd rw (fst ip) (update_row v_rf d pi S (snd ip) (rw (fst ip)))) (combine R l) rows)).
(** cyext_acv.pyx 6723-6773: all candidate sets of one size, then the rows that reach the level are counted and removed. *)
Definition one_level (sets : list (list nat)) (st : sstate) : ending sstate :=
  let R := s_R st in
  next (fold_left (fun e S => next e (fun rows => one_set R rows S)) sets (Gives (s_rows st))) (fun rows =>
    let done := filter (fun k => qleb pi (SearchModel.r_sdp (rows k))) R in
    Gives (mkState rows (fold_left (fun R' k => pop_back (std_remove k R')) done R)
                   (fold_left (fun g k => count_row (rows k) g) done (s_glob st)))).
(** cyext_acv.pyx 6722-6776: the sizes one after the other; [power_cpp[s_0]] beyond the sizes enumerated is an access outside. *)
Fixpoint levels_loop (stop : bool) (pw : list (list (list nat))) (idx : list nat) (st : sstate) : ending sstate :=
  match idx with
  | [] => Gives st
  | s_0 :: r =>
      match nth_error pw s_0 with
      | None => Strays
      | Some sets =>
          next (one_level sets st) (fun st' =>
            if ((length (s_R st') =? 0) || half_int (last_size sets) d) && stop then Gives st' else levels_loop stop pw r st')
      end
  end.
(** Room for the sets in [S], [s_star] and [sdp_global] (cyext_acv.pyx 6725-6727, 6755, 6768). *)
Definition room (va : list (list nat)) : bool := forallb (fun s => s <? d) (concat va) && (length (concat va) <=? d).
(** cyext_acv.pyx 6641-6778 (and 6008-6133, 6163-6287, 7151-7280, 7584-7717): [C[0]] does not exist for an empty list (6686). *)
Definition global_search (C : list (list nat)) (minimal : nat) (stop : bool) (space : list nat) : ending ImpModel.answer :=
  match C with
  | [] => Raises
  | _ =>
      let va := search_groups C space in
      if room va then
        next (levels_loop stop (power cut15 va 0) (seq minimal (S (length va) - minimal)) (state0 d N)) (fun st =>
          Gives (ImpModel.collect d N st))
      else Strays
  end.
End Compiled.

Section Methods.
(** The fitted forest with [d] columns, what lies around the arrays, [predict_quantiles], [np.argsort] of the opposite importances
    (acv_agnosticX.py 1582-1584), the schedules of the workers. *)
Variables (d : nat) (es : list sk) (stray : RfModel.row) (classifier : bool) (quantiles : pt -> Q * Q) (by_importance : list nat)
  (sched : list nat -> list nat -> list nat).
(** acv_agnosticX.py 1577-1594 (and 897-924, 973-998, 1047-1073, 1758-1775): the arguments are checked, the object is built, at most
    ten columns are searched.  Simplification: tables of [d] columns, the forest has not been fitted again (see ExplModel.v). *)
Definition acx_importance (kd : kind) (a : args) (D : list pt) (Y : list Q) (m : nat) (t : targ) (C : list (list nat)) (pi : Q) (minimal : nat) (stop : bool)
  : ending ImpModel.answer :=
  if negb (checked (g_X a) (g_y a) && checked D Y) then Raises
  else match build d es with
       | None => Raises
       | Some o =>
           match convert Matrix (acx_levels classifier quantiles (g_X a) t) with
           | Returned (L_matrix tl) =>
               global_search (dense (n_trees o) stray) (n_depth o) classifier kd a tl D Y m d pi sched C minimal stop
                             (ExplModel.agnostic_space d by_importance)
           | _ => Raises
           end
       end.
End Methods.

(** Model of [sufficient_expl_rf] and [sufficient_cxpl_rf] of [ACXplainer] (acv_agnosticX.py 1074-1218): all the minimal sufficient
    sets, from the fitted forest of skranger to the lists returned.  The compiled loops (cyext_acv.pyx 6293-6475) call the
    estimator of one set (ApiModel.v) on all rows.  Exact arithmetic.  No proofs here. *)
From Verif Require Import Base TreeModel SkModel AcvModel SearchModel RfModel ApiModel AgnModel AxsModel.
From Verif Require ExplModel.
Local Open Scope nat_scope.

(** What is filled in on the way: the lists of each row, [sdp_global], [K] (cyext_acv.pyx 6302-6308, 6345-6346). *)
Record found := mkFound { u_rows : nat -> suff; u_glob : nat -> nat; u_K : nat }.
(** cyext_acv.pyx 6302-6308, 6345-6346: the lists start with a sentinel. *)
Definition found0 : found := mkFound (fun _ => suff0) (fun _ => 0) 0.
(** The lists returned; an importance is None when it is 0/0, a NaN (cyext_acv.pyx 6381, acv_agnosticX.py 1145-1147). *)
Record report := mkRep { p_sets : list (list (list Z)); p_sdp : list (list Q); p_global : list (option Q) }.

Section Compiled.
(** the arrays of the object, its depth, [classifier]; is it [sufficient_cxpl_rf]? *)
Variables (M : fmem) (depth : nat) (classifier divergent : bool).
(** the observations, their targets and levels; the background; [min_node_size] *)
Variables (X : list pt) (y : list Q) (tl : list (list Q)) (D : list pt) (Y : list Q) (m : nat).
(** number of columns, [pi_level] *)
Variables (d : nat) (pi : Q).
(** order in which the workers treat the rows for the set [S] (cyext_acv.pyx 6151, 5998) *)
Variable sched : list nat -> list nat.

(** The estimator called: [compute_sdp_rf_same_set] (cyext_acv.pyx 6357), [compute_ddp_rf_same_set] (6452). *)
Definition estimator : routine := if divergent then ddp_same else sdp_same.
(** cyext_acv.pyx 6350-6358 (6445-6453): the estimates of one set for all rows; the set itself is passed in both versions. *)
Definition every_row (S : list nat) : ending (list Q) :=
  match compiled M (rows_of D) (vals_of Y) (length D) depth m classifier estimator (mkArgs X y [] [] (S_same S) []) (T_matrix tl) (sched S) with
  | Returned res => Gives (ApiModel.r_sdp res)
  | Raised _ => Raises
  | Stray => Strays
  end.
(** cyext_acv.pyx 6360-6379: row [i] with estimate [p]; the set is pushed unless a listed one is contained in it. *)
Definition treat (S : list nat) (st : found) (ip : nat * Q) : found :=
  let f := u_rows st (fst ip) in
  if qleb pi (snd ip) && negb (existsb (listed_in S) (f_sets f))
  then mkFound (upd (u_rows st) (fst ip) (mkSuff (f_sets f ++ [map Z.of_nat S]) (f_sdp f ++ [snd ip])))
               (fold_left (fun g s => upd g s (g s + 1)) S (u_glob st)) (u_K st + 1)
  else st.
(** cyext_acv.pyx 6349-6379: one candidate set. *)
Definition one_candidate (S : list nat) (st : found) : ending found :=
  next (every_row S) (fun l => if length l <? length X then Strays else Gives (fold_left (treat S) (combine (seq 0 (length X)) l) st)).
(** cyext_acv.pyx 6348-6379: the sizes one after the other; a size that was not enumerated is an access outside. *)
Fixpoint sizes_loop (pw : list (list (list nat))) (idx : list nat) (st : found) : ending found :=
  match idx with
  | [] => Gives st
  | s_0 :: r =>
      match nth_error pw s_0 with
      | None => Strays
      | Some sets => next (fold_left (fun e S => next e (one_candidate S)) sets (Gives st)) (sizes_loop pw r)
      end
  end.
(** cyext_acv.pyx 6293-6381, 6388-6475: the groups, the sets, the loop; [stop] is not read.  [room] as in AxsModel.v. *)
Definition all_sufficient (C : list (list nat)) (minimal : nat) (space : list nat) : ending found :=
  match C with
  | [] => Raises
  | _ =>
      let va := search_groups C space in
      if room d va then sizes_loop (power cut15 va 0) (seq minimal (S (length va) - minimal)) found0 else Strays
  end.
(** acv_agnosticX.py 1145-1147: the sentinels of the sets and of the probabilities are dropped; 1217-1218: [cdp_expl[1:]] drops the
    first row instead. *)
Definition report_of (st : found) : report :=
  let rows := map (u_rows st) (seq 0 (length X)) in
  mkRep (map (fun f => List.tl (f_sets f)) rows)
        (if divergent then List.tl (map f_sdp rows) else map (fun f => List.tl (f_sdp f)) rows)
        (map (fun j => cdiv (Qn (u_glob st j)) (Qn (u_K st))) (seq 0 d)).
End Compiled.

Section Methods.
(** The fitted forest with [d] columns, what lies around the arrays, [predict_quantiles], [np.argsort] of the opposite importances
    (acv_agnosticX.py 1120-1121), the schedules of the workers. *)
Variables (d : nat) (es : list sk) (stray : RfModel.row) (classifier : bool) (quantiles : pt -> Q * Q) (by_importance : list nat)
  (sched : list nat -> list nat).
(** acv_agnosticX.py 1114-1147 and 1189-1218.  Simplifications as in [acx_importance] (AxsModel.v). *)
Definition acx_sufficient (divergent : bool) (X : list pt) (y : list Q) (D : list pt) (Y : list Q) (m : nat) (t : targ) (C : list (list nat)) (pi : Q)
  (minimal : nat) : ending report :=
  if negb (checked X y && checked D Y) then Raises
  else match build d es with
       | None => Raises
       | Some o =>
           match convert Matrix (acx_levels classifier quantiles X t) with
           | Returned (L_matrix tl) =>
               next (all_sufficient (dense (n_trees o) stray) (n_depth o) classifier divergent X y tl D Y m d pi sched C minimal
                                    (ExplModel.agnostic_space d by_importance))
                    (fun st => Gives (report_of divergent X d st))
           | _ => Raises
           end
       end.
End Methods.

(** Model of the marginal same-decision probability (utils_sdp.py 366-510), of the
    local explanatory importance (acv_agnosticX.py 1311-1340, acv_tree.py 1281-1288)
    and of the recursive clusters of sufficient variables and the importances built
    on them (py_acv.py 503-649).  No proofs here. *)
From Verif Require Import Base ShapModel SwingModel.

(** ** Marginal same-decision probability *)

(** utils_sdp.py 371: [data[:, S] = x[S]], one row.  Simplification: the background
    array has the same dtype as [x], so the assignment does not truncate. *)
Definition fixed (S : list nat) (x z : pt) : pt := fun i => if memb i S then x i else z i.
(** np.mean of a list of booleans: a NaN (None) for an empty one; utils_sdp.py 376. *)
Definition mean_bool (l : list bool) : option Q :=
  match l with [] => None | _ => Some (Qn (length (filter (fun b => b) l)) / Qn (length l))%Q end.
Section Msdp.
(** the predictions of the model, any type with an equality test *)
Context {Y : Type}.
(** model.predict on one row; an arbitrary function *)
Variable predict : pt -> Y.
(** utils_sdp.py 366-378 with the comparison of two predictions left open; [d] is
    [x.shape[0]]. *)
Definition single_msdp_with (same : Y -> Y -> bool) (d : nat) (S : list nat) (rows : list pt) (x : pt) : option Q :=
  if length S =? d then Some 1%Q
  else mean_bool (map (fun z => same (predict (fixed S x z)) (predict x)) rows).
(** utils_sdp.py 388-392 ([msdp]): one value per observation. *)
Definition msdp_with (same : Y -> Y -> bool) (d : nat) (X : list pt) (S : list nat) (rows : list pt) : list (option Q) :=
  map (single_msdp_with same d S rows) X.
End Msdp.
(** utils_sdp.py 366-378 ([single_msdp]): [y_pred == fx]; classes are numbers. *)
Definition single_msdp (predict : pt -> nat) : nat -> list nat -> list pt -> pt -> option Q :=
  single_msdp_with predict Nat.eqb.
(** utils_sdp.py 388-392 ([msdp]). *)
Definition msdp (predict : pt -> nat) : nat -> list pt -> list nat -> list pt -> list (option Q) :=
  msdp_with predict Nat.eqb.
(** utils_sdp.py 493: [np.abs(y_pred - fx) <= threshold]. *)
Definition close (threshold : Q) (a b : Q) : bool :=
  qleb (if qltb (a - b) 0 then - (a - b) else a - b)%Q threshold.
(** utils_sdp.py 486-496 ([single_msdp_reg]). *)
Definition single_msdp_reg (predict : pt -> Q) (threshold : Q) : nat -> list nat -> list pt -> pt -> option Q :=
  single_msdp_with predict (close threshold).

(** ** Local explanatory importance *)

(** acv_agnosticX.py 1325-1331 ([compute_local_sdp_one]; acv_tree.py 1281-1288): the
    array, None when a column is out of range (IndexError).  Columns are natural
    numbers. *)
Definition compute_local_sdp_one (d : nat) (coals : list (list nat)) : option (nat -> Q) :=
  let flat := concat coals in
  if forallb (fun k => k <? d) flat
  then Some (fun j => if memb j flat then (Qn (count_occ Nat.eq_dec flat j) / Qn (length coals))%Q else 0%Q)
  else None.
(** acv_agnosticX.py 1333-1339: the loop with [nb_obs] and [lximp]. *)
Fixpoint local_sdp_loop (d : nat) (all : list (list (list nat))) (nb : nat) (acc : nat -> Q)
  : option (nat * (nat -> Q)) :=
  match all with
  | [] => Some (nb, acc)
  | coals :: r =>
      if length coals =? 0 then local_sdp_loop d r (nb - 1) acc
      else match compute_local_sdp_one d coals with
           | None => None
           | Some f => local_sdp_loop d r nb (fun j => (acc j + f j)%Q)
           end
  end.
(** acv_agnosticX.py 1311-1340 ([compute_local_sdp]).  Outer None: it raises; inner None: the
    array of NaN obtained by dividing zeros by zero. *)
Definition compute_local_sdp (d : nat) (all : list (list (list nat))) : option (option (nat -> Q)) :=
  match local_sdp_loop d all (length all) (fun _ => 0%Q) with
  | None => None
  | Some (nb, acc) => Some (if nb =? 0 then None else Some (fun j => (acc j / Qn nb)%Q))
  end.

(** ** Clusters of sufficient variables *)

(** [set(c).issubset(l)], py_acv.py 531, 535. *)
Definition subset (c l : list nat) : bool := forallb (fun k => memb k l) c.
(** py_acv.py 526-537 ([va_id]).  Simplification: [list(set(va_id) - set(c))] keeps
    the order of [va_id]. *)
Definition ls_items (C : list (list nat)) (index : list nat) : list item :=
  if has_coal C
  then map (fun i => (false, [i]))
         (fold_left (fun va c => if subset c va then filter (fun k => negb (memb k c)) va else va) C index)
       ++ map (fun c => (true, c)) (filter (fun c => subset c index) C)
  else map (fun i => (false, [i])) index.
Section Clusters.
(** cond_func(x, threshold, S, data)[0] of py_acv.py 552, as a function of the
    threshold and [S]; arbitrary. *)
Variable P : Q -> list nat -> Q.
Variables (proba decay : Q) (C : list (list nat)).
(** i_best[size] and c_best[size], py_acv.py 540; None is [-np.inf]. *)
Notation best := (option (Q * list nat)).
(** py_acv.py 550-560: one candidate; [C_off] holds the empty tuple only (525), and
    None is the exception of [chain_l]. *)
Definition ls_candidate (thr : Q) (b : best) (c : list item) : option best :=
  match c with
  | [] => Some b
  | _ => match chain_l c with
         | None => None
         | Some cols =>
             let value := P thr cols in
             Some (if qleb proba value && match b with None => true | Some (i_best, _) => qleb i_best value end
                   then Some (value, cols) else b)
         end
  end.
(** py_acv.py 549-560: all the candidates of one size. *)
Fixpoint ls_size (thr : Q) (b : best) (cs : list (list item)) : option best :=
  match cs with
  | [] => Some b
  | c :: r => match ls_candidate thr b c with None => None | Some b' => ls_size thr b' r end
  end.
(** py_acv.py 548-570: the loop over the sizes; returns [final_coal], the threshold
    and [find].  [c] of line 568 is the last candidate of the size. *)
Fixpoint ls_loop (items : list item) (sizes : list nat) (thr : Q) (final : list (list nat)) (found : bool)
  : option (list (list nat) * Q * bool) :=
  match sizes with
  | [] => Some (final, thr, found)
  | size :: r =>
      match ls_size thr None (combos size items) with
      | None => None
      | Some (Some (_, cols)) => Some (final ++ [cols], (thr * decay)%Q, true)
      | Some None =>
          match chain_l (last (combos size items) []), chain_l items with
          | Some lc, Some whole =>
              if length lc =? length items then ls_loop items r thr (final ++ [whole]) true
              else ls_loop items r thr final found
          | Some lc, None =>
              if length lc =? length items then None else ls_loop items r thr final found
          | None, _ => None
          end
      end
  end.
(** list.remove of every element, py_acv.py 573-574; ValueError (None) if one is absent. *)
Fixpoint remove_all (l : list nat) (index : list nat) : option (list nat) :=
  match l with
  | [] => Some index
  | a :: r => if memb a index
              then remove_all r (let fix rem i := match i with
                                                  | [] => []
                                                  | b :: t => if b =? a then t else b :: rem t
                                                  end in rem index)
              else None
  end.
(** py_acv.py 503-578 ([local_sdp]).  The result is the content of [final_coal] when the
    call returns; None: it raises, or the fuel (recursion depth) is exhausted.  When
    nothing is found (line 572 false) the function ends there. *)
Fixpoint local_sdp (fuel : nat) (thr : Q) (index : list nat) (final : list (list nat))
  : option (list (list nat)) :=
  match fuel with
  | O => None
  | S fuel' =>
      let items := ls_items C index in
      if length items =? 0 then Some final
      else match ls_loop items (seq 0 (S (length items))) thr final false with
           | None => None
           | Some (final', thr', found) =>
               if found then
                 match remove_all (last final' []) index with
                 | None => None
                 | Some index' => local_sdp fuel' thr' index' final'
                 end
               else Some final'
           end
  end.
End Clusters.
(** py_acv.py 503-578 called as in 613-618: all the columns, empty [final_coal]. *)
Definition clusters_of (P : Q -> list nat -> Q) (proba decay : Q) (C : list (list nat)) (thr : Q) (d : nat)
  : option (list (list nat)) := local_sdp P proba decay C (S d) thr (seq 0 d) [].

(** py_acv.py 620-639: contribution of one row to the count of column [j]; [P'] is the
    probability on the data (line 621). *)
Definition row_count (P' : list nat -> Q) (pi_level : Q) (j : nat) (clusters : list (list nat)) : nat :=
  count_occ Nat.eq_dec (concat (filter (fun c => qleb pi_level (P' c)) clusters)) j.
(** py_acv.py 581-649 ([global_sdp_importance], [sdp_importance_variable_count]) for the rows
    given by their probability functions (background, data); None when it raises. *)
Fixpoint variable_count_loop (n : nat) (rows : list ((Q -> list nat -> Q) * (list nat -> Q))) (proba decay : Q)
  (C : list (list nat)) (thr pi_level : Q) (d j : nat) (acc : Q) : option Q :=
  match rows with
  | [] => Some acc
  | (P, P') :: r =>
      match clusters_of P proba decay C thr d with
      | None => None
      | Some cl => variable_count_loop n r proba decay C thr pi_level d j
                     (acc + Qn (row_count P' pi_level j cl) * (1 / Qn n))%Q
      end
  end.
(** py_acv.py 606-639. *)
Definition global_variable_count (rows : list ((Q -> list nat -> Q) * (list nat -> Q))) (proba decay : Q)
  (C : list (list nat)) (thr pi_level : Q) (d j : nat) : option Q :=
  variable_count_loop (length rows) rows proba decay C thr pi_level d j 0.

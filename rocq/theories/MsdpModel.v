(** Model of the searches of marginal sufficient explanations, [importance_msdp_clf_search] and
    [importance_msdp_reg_search] (utils_sdp.py 395-484, 513-603), with the methods that call them:
    [ACVTree] (acv_tree.py 731-802), [ACVTreeAgnostic] (acv_tree.py 1107-1131), [ACXplainer]
    (acv_agnosticX.py 1349-1374).  The statements are followed one by one; the values are the marginal
    probabilities of LocalModel.v.  None stands for the IndexError that Python raises.  No proofs here.
    Simplifications, for the whole file: exact arithmetic, [minimal] is not negative, the background has the
    columns of [X] and its type, the model answers row by row without raising. *)
From Verif Require Import Base ShapModel SwingModel LocalModel SearchModel.
From Coq Require Import NArith.

(** A for loop whose body may raise (utils_sdp.py 562-600). *)
Fixpoint attempt {A B} (f : A -> B -> option A) (l : list B) (a : A) : option A :=
  match l with
  | [] => Some a
  | x :: r => match f a x with None => None | Some a' => attempt f r a' end
  end.

Section Program.
(** the predictions of the model (utils_sdp.py 367, 487) *)
Context {Y : Type}.
(** [model.predict] on one row (utils_sdp.py 367, 487) *)
Variable predict : pt -> Y.
(** the comparison of two predictions (utils_sdp.py 376, 494) *)
Variable same : Y -> Y -> bool.
(** [X.shape[1]] (utils_sdp.py 515) *)
Variable d : nat.
(** [rg_data] (utils_sdp.py 513) *)
Variable data : list pt.
(** the rows of [X] (utils_sdp.py 513) *)
Variable X : list pt.
(** [pi_level] (utils_sdp.py 513) *)
Variable pi : Q.

(** utils_sdp.py 506-510 ([msdp_reg]; [msdp], 388-392): every row of [X], also those no longer searched; [x[S]] needs the columns
    [S] (489-490) *)
Definition values (S : list nat) : option (list (option Q)) :=
  if (length X =? 0) || forallb (fun s => s <? d) S then Some (msdp_with predict same d X S data) else None.

(** The variables of the search: the arrays [sdp], [len_s_star], [s_star] (row by row, as in SearchModel.v), [sdp_global] (as
    there, a function of the index written), the list [R], the arrays [R_buf] and [S], the numbers [N] and [S_size]
    (utils_sdp.py 514-525, 559-560, 567-571). *)
Record vars := mkVars { p_rows : nat -> row; p_glob : Z -> nat; p_R : list nat; p_buf : list nat; p_S : list nat;
                        p_N : nat; p_size : nat }.
(** utils_sdp.py 514-525, 559-560 *)
Definition vars0 : vars :=
  mkVars (fun _ => row0 d) (fun _ => 0) (seq 0 (length X)) (repeat 0 (length X)) (repeat 0 d) (length X) 0.
(** Assignment of the first entries of an array (utils_sdp.py 564-565, 570-571); an entry beyond the end is an IndexError. *)
Definition put (l a : list nat) : option (list nat) :=
  if length l <=? length a then Some (l ++ skipn (length l) a) else None.

(** utils_sdp.py 576-586: one observation, with [S[:S_size]] and the entry of [sdp_b]; a NaN is not [>=] *)
Definition look (cols : list nat) (p : option Q) (r : row) : row :=
  let r1 := match p with
            | Some q => if qleb (r_sdp r) q then mkRow q (length cols) (write_star cols (r_star r)) else r
            | None => r
            end in
  if length cols =? d then mkRow 1 (length cols) (write_star cols (r_star r1)) else r1.
(** utils_sdp.py 564-586: one candidate set, the rows of [R_buf] *)
Definition try_set (a : vars) (cand : list nat) : option vars :=
  match put cand (p_S a), put (p_R a) (p_buf a) with
  | Some S', Some buf =>
      let size := length cand in
      let n := length (p_R a) in
      match values (firstn size S') with
      | Some sdp_b =>
          Some (mkVars (fold_left (fun rw i => let k := nth i buf 0 in
                                               upd rw k (look (firstn size S') (nth k sdp_b None) (rw k))) (seq 0 n) (p_rows a))
                       (p_glob a) (p_R a) buf S' n size)
      | None => None
      end
  | _, _ => None
  end.
(** utils_sdp.py 588-594: the rows of [R_buf] at the level are written down in [r], their indices cleared and counted *)
Definition settle (a : vars) (w : (nat -> row) * (Z -> nat) * list nat) (i : nat) : (nat -> row) * (Z -> nat) * list nat :=
  let rw := fst (fst w) in
  let k := nth i (p_buf a) 0 in
  if qleb pi (r_sdp (rw k)) then
    let r' := mkRow (r_sdp (rw k)) (r_len (rw k)) (clear_star (r_len (rw k)) d (r_star (rw k))) in
    (upd rw k r', count_row r' (snd (fst w)), snd w ++ [nth i (p_R a) 0])
  else w.
(** utils_sdp.py 563-597: all sets of one size, then [R.remove] of the rows written down *)
Definition try_size (a : vars) (sets : list (list nat)) : option vars :=
  match attempt try_set sets a with
  | Some b =>
      let w := fold_left (settle b) (seq 0 (p_N b)) (p_rows b, p_glob b, []) in
      match attempt (fun R k => py_remove k R) (snd w) (p_R b) with
      | Some R' => Some (mkVars (fst (fst w)) (snd (fst w)) R' (p_buf b) (p_S b) (p_N b) (p_size b))
      | None => None
      end
  | None => None
  end.
(** utils_sdp.py 562-600: the loop over the sizes *)
Fixpoint try_sizes (stop : bool) (pw : list (list (list nat))) (idx : list nat) (a : vars) : option vars :=
  match idx with
  | [] => Some a
  | s_0 :: r =>
      match nth_error pw s_0 with
      | None => None
      | Some sets =>
          match try_size a sets with
          | None => None
          | Some b => if ((length (p_R b) =? 0) || half_true (p_size b) d) && stop then Some b else try_sizes stop pw r b
          end
      end
  end.
(** The four arrays returned (utils_sdp.py 602-603): the importances are NaN when there is no observation. *)
Record found := mkFound { m_importance : list (option Q); m_index : list (list Z); m_size : list nat; m_sdp : list Q }.
(** utils_sdp.py 602-603 *)
Definition give (a : vars) : found :=
  let N := length X in
  mkFound (map (fun j => if N =? 0 then None else Some (Qn (p_glob a (Z.of_nat j)) / Qn N)%Q) (seq 0 d))
          (map (fun k => r_star (p_rows a k)) (seq 0 N)) (map (fun k => r_len (p_rows a k)) (seq 0 N))
          (map (fun k => r_sdp (p_rows a k)) (seq 0 N)).
(** utils_sdp.py 527-530: all columns, or those given *)
Definition space_of (space : option (list nat)) : list nat := match space with Some l => l | None => seq 0 d end.
(** utils_sdp.py 513-603: [C[0]] does not exist for [C = []] (532) *)
Definition msdp_search (C : list group) (minimal : nat) (space : option (list nat)) (stop : bool) : option found :=
  match C with
  | [] => None
  | _ => let va := search_groups C (space_of space) in
         match try_sizes stop (power cut15 va 0) (seq minimal (S (length va) - minimal)) vars0 with
         | Some a => Some (give a)
         | None => None
         end
  end.
End Program.

(** ** The methods *)

(** [importance_msdp_clf_search] (utils_sdp.py 395-484; acv_tree.py 1106-1114, acv_agnosticX.py 1349-1357): the decisions of the
    model are compared with [==] *)
Definition any_clf (model : pt -> nat) (d : nat) (X data : list pt) (C : list group) (minimal : nat) (pi : Q)
  (space : option (list nat)) (stop : bool) : option found :=
  msdp_search model Nat.eqb d data X pi C minimal space stop.
(** [importance_msdp_reg_search] (utils_sdp.py 513-603; acv_tree.py 1123-1130, acv_agnosticX.py 1366-1373): the distance of the
    predictions is compared with the threshold *)
Definition any_reg (model : pt -> Q) (d : nat) (X data : list pt) (C : list group) (minimal : nat) (pi threshold : Q)
  (space : option (list nat)) (stop : bool) : option found :=
  msdp_search model (close threshold) d data X pi C minimal space stop.

Section Tree.
(** [self.node_idx_trees]: the columns above each leaf of each tree (base_tree.py 585-604) *)
Variable nodes : list (list (list nat)).
(** [node_idx.value_counts().keys()] (acv_tree.py 750-752) *)
Variable by_count : list nat -> list nat.
(** [flat_list] (acv_tree.py 748, 792) *)
Definition above_leaves : list nat := concat (concat nodes).
(** the columns searched by [importance_msdp_clf] and [importance_msdp_reg]: the 15 most frequent ones when there are more than 15
    (acv_tree.py 747-758, 791-802) *)
Definition searched (d : nat) : option (list nat) := if 15 <? d then Some (firstn 15 (by_count above_leaves)) else None.
(** acv_tree.py 740-744, 780-785: [self.model] unless a model is given *)
Definition chosen {M} (own : M) (model : option M) : M := match model with Some f => f | None => own end.
(** acv_tree.py 746-758 ([importance_msdp_clf]) *)
Definition tree_clf (own : pt -> nat) (model : option (pt -> nat)) (d : nat) (X data : list pt) (C : list group) (minimal : nat)
  (pi : Q) (stop : bool) : option found :=
  any_clf (chosen own model) d X data C minimal pi (searched d) stop.
(** acv_tree.py 787-802 ([importance_msdp_reg]) *)
Definition tree_reg (own : pt -> Q) (model : option (pt -> Q)) (d : nat) (X data : list pt) (C : list group) (minimal : nat)
  (pi threshold : Q) (stop : bool) : option found :=
  any_reg (chosen own model) d X data C minimal pi threshold (searched d) stop.
End Tree.

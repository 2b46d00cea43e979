(** Model of the active-coalition Shapley routine (cyext_acv.pyx 1755-2020, same
    text in cyext_acv_nopa.pyx 1707-1947) and of the parallel slots of
    shap_values_leaves_pa.  No proofs here.  One output column, as in ShapModel. *)
From Verif Require Import Base TreeModel ShapModel.

(** C double division [a / b] of cyext_acv.pyx 1923, 1999-2000 under
    [cdivision(True)]: no guard; None stands for the non-number obtained when the
    denominator is 0. *)
Definition cdiv (a b : Q) : option Q := if qeqb b 0 then None else Some (a / b)%Q.

(** cyext_acv.pyx 1815-1833 ([va_id]): players made of the active variables. *)
Definition acv_va_ids (C : list group) (S_star : list nat) : list group :=
  if has_coal C then va_loop (concat C) C S_star else map (fun i => [i]) S_star.
(** cyext_acv.pyx 1820-1821 ([remove_va]); only filled when coalitions are given. *)
Definition acv_remove_va (C : list group) (S_star : list nat) : list nat :=
  filter (fun i => negb (memb i (concat C))) S_star.
(** cyext_acv.pyx 1854-1857: the null variables are removed from the variables
    of the leaf.  Simplification: std::remove followed by one pop_back is
    modelled as deleting every occurrence; the variables of a leaf are distinct. *)
Definition acv_vars (N_star vars : list nat) : list nat :=
  filter (fun v => negb (memb v N_star)) vars.
(** cyext_acv.pyx 1868-1894 ([node_id[leaf_numb]]). *)
Definition acv_leaf_groups (C : list group) (S_star N_star : list nat) (vars : list nat) : list group :=
  if has_coal C then leaf_groups_loop (acv_remove_va C S_star) C (acv_vars N_star vars)
  else map (fun v => [v]) (acv_vars N_star vars).

(** cyext_acv.pyx 1898-1927: player absent from the leaf; only the empty
    coalition matters. *)
Definition acv_absent (d : nat) (N_star : list nat) (data : list pt) (x : pt) (lf : leaf) : option Q :=
  let p := l_rect lf in
  let lm := count_leaf d data p in
  match cdiv (Qn lm) (Qn (length data)), cdiv (Qb (sat p N_star x) * Qn lm) (Qn (count_s data p N_star)) with
  | Some p_s, Some p_si => Some ((p_si - p_s) * l_val lf)%Q
  | _, _ => None
  end.

(** cyext_acv.pyx 1935-2011: increment of one counter for a player of the leaf.
    [p_s] and [p_si] are computed before the test on [S_size]; in the branch
    [S_size != 0] both enter the product, in the other one [p_s] is multiplied
    by [coef]: a non-number in either makes the result a non-number. *)
Definition acv_term (d m : nat) (N_star : list nat) (data : list pt) (x : pt) (lf : leaf)
  (va : group) (gs : list group) (counter : nat) : option Q :=
  let p := l_rect lf in
  let lm := count_leaf d data p in
  let T := pick counter gs in
  let F := concat T ++ N_star in
  let cs := sat p F x in
  let csi := cs && not_out p va x in
  let c := coef m (length gs) (length T) in
  match cdiv (Qb cs * Qn lm) (Qn (count_s data p F)), cdiv (Qb csi * Qn lm) (Qn (count_si data p F va)) with
  | Some p_s, Some p_si =>
      if length (concat T) =? 0 then
        match cdiv (Qn lm) (Qn (length data)) with
        | Some p_off => Some ((p_si - p_off) * l_val lf + c * (p_si - p_s) * l_val lf)%Q
        | None => None
        end
      else Some ((coef_0 m (length T) + c) * (p_si - p_s) * l_val lf)%Q
  | _, _ => None
  end.

(** the [+=] accumulations of cyext_acv.pyx 2005-2019: a non-number is absorbing.
    Simplification: exact sums, so their order is immaterial. *)
Fixpoint osum {A} (f : A -> option Q) (l : list A) : option Q :=
  match l with
  | [] => Some 0%Q
  | a :: r => match f a, osum f r with
              | Some u, Some v => Some (u + v)%Q
              | _, _ => None end
  end.

(** cyext_acv.pyx 1896-2011: one leaf, one player. *)
Definition acv_leaf_player (C : list group) (d m : nat) (S_star N_star : list nat) (data : list pt)
  (x : pt) (lf : leaf) (va : group) : option Q :=
  let ns := acv_leaf_groups C S_star N_star (l_vars lf) in
  if in_dec group_eq_dec va ns then
    let gs := remove1 va ns in
    osum (acv_term d m N_star data x lf va gs) (seq 0 (2 ^ length gs))
  else acv_absent d N_star data x lf.

(** cyext_acv.pyx 1755-2020: column [j] of the result; [d] columns, and [m] is
    reassigned to the number of players (1835). *)
Definition shap_values_acv (C : list group) (d : nat) (S_star N_star : list nat) (data : list pt)
  (forest : list (list leaf)) (x : pt) (j : nat) : option Q :=
  let P := acv_va_ids C S_star in
  let m := length P in
  match osum (fun ls => osum (fun lf => osum (acv_leaf_player C d m S_star N_star data x lf)
                 (flat_map (fun va => repeat va (count_occ Nat.eq_dec va j)) P)) ls) forest with
  | Some s => cdiv s (Qn m)
  | None => None
  end.

(** ** Slots of the parallel loop *)

(** Memory owned by one iteration (leaf) of the prange: its slots
    [phi_b[leaf_numb, counter, i, j, i2]] for a fixed [i], [i2]
    (cyext_acv.pyx 1293) and the temporary that holds the value loaded by a [+=]. *)
Record local (V : Type) := mkLocal { slot : nat -> nat -> V; reg : V }.
Arguments mkLocal {V} _ _.
Arguments slot {V} _ _ _.
Arguments reg {V} _.

(** machine steps of [phi_b[leaf_numb, counter, i, j, i2] += delta]
    (cyext_acv.pyx 1476): a load, then an addition and a store. *)
Inductive instr (V : Type) :=
  | Load (counter j : nat)
  | AddStore (counter j : nat) (delta : V).
Arguments Load {V} _ _.
Arguments AddStore {V} _ _ _.

Section Slots.
Variable V : Type.
Variable add : V -> V -> V.
(** cyext_acv.pyx 1476: effect of one machine step; [add] is the addition of the
    number type, about which nothing is assumed (floating point included). *)
Definition run_instr (o : instr V) (s : local V) : local V :=
  match o with
  | Load c j => mkLocal (slot s) (slot s c j)
  | AddStore c j dl =>
      mkLocal (fun c' j' => if (c' =? c) && (j' =? j) then add (reg s) dl else slot s c' j') (reg s)
  end.
(** cyext_acv.pyx 1361-1476: the shared memory is indexed by the leaf; a step of
    leaf [k] reads and writes the entries of index [k] only. *)
Definition run_step (st : nat -> local V) (ko : nat * instr V) : nat -> local V :=
  fun k => if k =? fst ko then run_instr (snd ko) (st k) else st k.
(** a complete execution of the prange of cyext_acv.pyx 1360: steps in the order
    in which they happen. *)
Definition run (st : nat -> local V) (l : list (nat * instr V)) : nat -> local V :=
  fold_left run_step l st.
(** cyext_acv.pyx 1400-1476: the steps of the iteration of one leaf, with the
    increments [delta va counter] computed from read-only inputs. *)
Definition leaf_program (C : list group) (m : nat) (lf : leaf) (delta : group -> nat -> V) : list (instr V) :=
  flat_map (fun va =>
    match others C m lf va with
    | None => []
    | Some gs => flat_map (fun c => flat_map (fun j => [Load c j; AddStore c j (delta va c)]) va)
                          (seq 0 (2 ^ length gs))
    end) (va_ids C m).
(** cyext_acv.pyx 1353-1358: slots are reset to zero before the leaves of a tree. *)
Definition zero_slots (zero : V) : nat -> local V := fun _ => mkLocal (fun _ _ => zero) zero.
(** cyext_acv.pyx 1478-1483: sequential reduction of the slots of column [j]. *)
Definition reduce_slots (zero : V) (st : nat -> local V) (max_leaves cap j : nat) (phi : V) : V :=
  fold_left (fun acc kc => add acc (slot (st (fst kc)) (snd kc) j))
    (list_prod (seq 0 max_leaves) (seq 0 cap)) phi.
(** cyext_acv.pyx 1352-1485 before the division by [m]: trees one after the
    other, slots reset before each; [scheds] gives the order in which the steps
    of the leaves of each tree happen. *)
Definition trees_slots (zero : V) (scheds : list (list (nat * instr V))) (max_leaves cap j : nat) : V :=
  fold_left (fun phi l => reduce_slots zero (run (zero_slots zero) l) max_leaves cap j phi) scheds zero.
End Slots.
Arguments run_instr {V} add o s.
Arguments run_step {V} add st ko.
Arguments run {V} add st l.
Arguments leaf_program {V} C m lf delta.
Arguments zero_slots {V} zero.
Arguments trees_slots {V} add zero scheds max_leaves cap j.
Arguments reduce_slots {V} add zero st max_leaves cap j phi.

(** cyext_acv.pyx 1410-1476: the increment of one player and counter, computed
    from read-only inputs (nothing is written when the player is not in the leaf). *)
Definition slot_delta (C : list group) (m : nat) (data : list pt) (x : pt) (lf : leaf)
  (va : group) (counter : nat) : Q :=
  match others C m lf va with Some gs => term m data x lf va gs counter | None => 0%Q end.
(** cyext_acv.pyx 1360: iteration [k] of the prange over the leaves of one tree. *)
Definition tree_programs {V} (C : list group) (m : nat) (ls : list leaf)
  (delta : leaf -> group -> nat -> V) (k : nat) : list (instr V) :=
  match nth_error ls k with Some lf => leaf_program C m lf (delta lf) | None => [] end.

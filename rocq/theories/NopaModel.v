(** Model of the sequential leaf-based Shapley routine of cyext_acv_nopa.pyx
    as the array program it is: the groups are deleted with std::remove and
    pop_back, the working vectors are indexed by the leaf number and reused
    from tree to tree, the coalition is written into one buffer of [m] cells
    without bounds checks, and the answers of all rows are accumulated in place
    (no proofs here). *)
From Verif Require Import Base TreeModel ShapModel.

(** a loop whose body may write outside an array: [None] as soon as one pass
    does (cyext_acv_nopa.pyx 1499-1502: bounds checks are switched off) *)
Fixpoint ofold {A B} (f : B -> A -> option B) (l : list A) (s : B) : option B :=
  match l with
  | [] => Some s
  | a :: r => match f s a with Some s' => ofold f r s' | None => None end
  end.

(** ** Vectors of groups *)

(** [a[k] = v] for a position inside the vector (cyext_acv_nopa.pyx 1566-1567,
    the assignments made by std::remove) *)
Fixpoint set_nth {A} (k : nat) (v : A) (a : list A) : list A :=
  match a, k with
  | [], _ => []
  | _ :: r, O => v :: r
  | e :: r, S k' => e :: set_nth k' v r
  end.
(** std::find: first position with the property, the length if there is none
    (cyext_acv_nopa.pyx 13-15, 1564, 1624) *)
Fixpoint find_pos {A} (f : A -> bool) (a : list A) : nat :=
  match a with
  | [] => 0
  | e :: r => if f e then 0 else S (find_pos f r)
  end.
(** second half of std::remove (cyext_acv_nopa.pyx 13-15): from position [i]
    on, every entry different from the value is moved to position [res].  The
    value is passed by reference: [val] reads it from the vector as it is at
    that moment.  A group that has been moved away is left empty, as libstdc++
    does. *)
Fixpoint remove_pass (val : list group -> group) (k i res : nat) (a : list group) : list group :=
  match k with
  | O => a
  | S k' =>
      let e := nth i a [] in
      if group_eq_dec e (val a) then remove_pass val k' (S i) res a
      else remove_pass val k' (S i) (S res) (set_nth i [] (set_nth res e a))
  end.
(** std::remove: nothing is done when the value does not occur
    (cyext_acv_nopa.pyx 13-15, 1566, 1611, 1627).  The iterator it returns is
    dropped by the callers. *)
Definition std_remove (val : list group -> group) (a : list group) : list group :=
  let k0 := find_pos (fun e => if group_eq_dec e (val a) then true else false) a in
  if k0 <? length a then remove_pass val (length a - S k0) (S k0) k0 a else a.
(** std::remove of the entry at [ci] of the same vector, then pop_back
    (cyext_acv_nopa.pyx 1566-1567, 1611-1612): the value is a reference into
    the vector that is being rearranged. *)
Definition drop_at (ci : nat) (a : list group) : list group :=
  removelast (std_remove (fun b => nth ci b []) a).
(** std::remove of a group stored elsewhere, then pop_back
    (cyext_acv_nopa.pyx 1627-1628) *)
Definition drop_value (v : group) (a : list group) : list group :=
  removelast (std_remove (fun _ => v) a).

(** ** Players *)

(** cyext_acv_nopa.pyx 1557-1568: one column [i]; the state is [C_buff] and
    [va_id] *)
Definition va_step (coal_va : list nat) (s : list group * list group) (i : nat)
  : list group * list group :=
  let '(C_buff, va_id) := s in
  if negb (find_pos (Nat.eqb i) coal_va <? length coal_va) then (C_buff, va_id ++ [[i]])
  else
    let ci := find_pos (fun g => find_pos (Nat.eqb i) g <? length g) C_buff in
    if ci <? length C_buff then (drop_at ci C_buff, va_id ++ [nth ci C_buff []])
    else (C_buff, va_id).
(** cyext_acv_nopa.pyx 1551-1573 ([va_id]) *)
Definition va_id_arr (C : list group) (m : nat) : list group :=
  if has_coal C then snd (fold_left (va_step (concat C)) (seq 0 m) (C, []))
  else map (fun i => [i]) (seq 0 m).
(** cyext_acv_nopa.pyx 1558-1559 ([remove_va]) *)
Definition remove_va_arr (C : list group) (m : nat) : list nat :=
  filter (fun i => negb (find_pos (Nat.eqb i) (concat C) <? length (concat C))) (seq 0 m).

(** cyext_acv_nopa.pyx 1595-1613: one variable [v] of the leaf; the state is
    [C_b[leaf_numb]] and [node_id_v2[leaf_numb]] *)
Definition leaf_step (rva : list nat) (s : list group * list group) (v : nat)
  : list group * list group :=
  let '(C_b, v2) := s in
  if find_pos (Nat.eqb v) rva <? length rva then (C_b, v2 ++ [[v]])
  else
    let ci := find_pos (fun g => find_pos (fun c => Nat.eqb c v) g <? length g) C_b in
    if ci <? length C_b then (drop_at ci C_b, v2 ++ [nth ci C_b []])
    else (C_b, v2).

(** ** The buffer [S] *)

(** cyext_acv_nopa.pyx 1639: [S[S_size] = v]; outside the buffer: [None] *)
Definition put (S : list nat) (k v : nat) : option (list nat) :=
  if k <? length S then Some (set_nth k v S) else None.
(** cyext_acv_nopa.pyx 1638-1640: one group is appended; the state is [S] and
    [S_size] *)
Definition put_group (s : list nat * nat) (v : nat) : option (list nat * nat) :=
  match put (fst s) (snd s) v with
  | Some S' => Some (S', S (snd s))
  | None => None
  end.
(** cyext_acv_nopa.pyx 1634-1641: the groups whose bit is set; the state is
    [S], [S_size] and [va_size].  Simplification: [1 << ci] does not overflow. *)
Fixpoint fill (ci counter : nat) (gs : list group) (S_ : list nat) (S_size va_size : nat)
  : option (list nat * nat * nat) :=
  match gs with
  | [] => Some (S_, S_size, va_size)
  | g :: r =>
      if Nat.testbit counter ci then
        match ofold put_group g (S_, S_size) with
        | Some (S', k') => fill (S ci) counter r S' k' (S va_size)
        | None => None
        end
      else fill (S ci) counter r S_ S_size va_size
  end.

(** ** The routine *)

(** the arrays that live through the whole call (cyext_acv_nopa.pyx 1520-1545):
    [phi] (row, column), [S], and the vectors indexed by the leaf number.  [Sm]
    is never used. *)
Record nst := mkNst {
  n_phi : nat -> nat -> Q;
  n_S : list nat;
  n_v2 : nat -> list group;
  n_Cb : nat -> list group;
  n_id : nat -> list group;
  n_va : nat -> nat -> list group
}.

(** [a[k] = v] on a vector of vectors (cyext_acv_nopa.pyx 1594, 1614, 1623) *)
Definition setf {A} (f : nat -> A) (k : nat) (v : A) : nat -> A :=
  fun i => if i =? k then v else f i.
(** cyext_acv_nopa.pyx 1698: [phi[i, c] += q]; one output column *)
Definition phi_add (i : nat) (q : Q) (phi : nat -> nat -> Q) (c : nat) : nat -> nat -> Q :=
  fun i' c' => if (i' =? i) && (c' =? c) then (phi i' c' + q)%Q else phi i' c'.

Section Routine.
  (** the arguments of cyext_acv_nopa.pyx 1503-1511; [rows] is [X] *)
  Variables (C : list group) (m : nat) (data : list pt) (rows : list pt).

  (** cyext_acv_nopa.pyx 1663-1698: one row [i] of [X], given the coalition
      read back from [S], the sizes and the three counts *)
  Definition row_step (lf : leaf) (va : group) (F : list nat) (set_size va_size lm lms lmsi : nat)
    (phi : nat -> nat -> Q) (ix : nat * pt) : nat -> nat -> Q :=
    let '(i, x) := ix in
    let cs := sat (l_rect lf) F x in
    let csi := cs && not_out (l_rect lf) va x in
    let q := ((coef_0 m va_size + coef m set_size va_size)
              * (prob_si csi lm lmsi - prob_s (length data) F cs lm lms) * l_val lf)%Q in
    fold_left (phi_add i q) va phi.

  (** cyext_acv_nopa.pyx 1634-1698: one counter.  [S[0 .. S_size)] is read
      back from the buffer. *)
  Definition counter_step (lf : leaf) (va : group) (gs : list group) (lm : nat)
    (st : nst) (counter : nat) : option nst :=
    match fill 0 counter gs (n_S st) 0 0 with
    | None => None
    | Some (S', S_size, va_size) =>
        let F := map (fun s => nth s S' 0) (seq 0 S_size) in
        let lms := count_s data (l_rect lf) F in
        let lmsi := count_si data (l_rect lf) F va in
        Some (mkNst (fold_left (row_step lf va F (length gs) va_size lm lms lmsi)
                               (indexed rows) (n_phi st))
                    S' (n_v2 st) (n_Cb st) (n_id st) (n_va st))
    end.

  (** cyext_acv_nopa.pyx 1622-1698: one player [va] of index [v] at leaf number
      [k] *)
  Definition player_step (lf : leaf) (k lm : nat) (st : nst) (v_va : nat * group) : option nst :=
    let '(v, va) := v_va in
    let a := n_id st k in
    let st1 := mkNst (n_phi st) (n_S st) (n_v2 st) (n_Cb st) (n_id st)
                     (setf (n_va st) v (setf (n_va st v) k a)) in
    if find_pos (fun g => if group_eq_dec g va then true else false) (n_va st1 v k)
       <? length (n_va st1 v k) then
      let a' := drop_value va (n_va st1 v k) in
      let st2 := mkNst (n_phi st) (n_S st) (n_v2 st) (n_Cb st) (n_id st)
                       (setf (n_va st1) v (setf (n_va st1 v) k a')) in
      let gs := n_va st2 v k in
      ofold (counter_step lf va gs lm) (seq 0 (2 ^ length gs)) st2
    else Some st1.

  (** cyext_acv_nopa.pyx 1583-1619: [node_id_v2], [C_b] and [node_id] of leaf
      number [k], overwriting what an earlier tree left there *)
  Definition leaf_vectors (lf : leaf) (k : nat) (st : nst) : nst :=
    let v2 := setf (n_v2 st) k [] in
    if has_coal C then
      let Cb := setf (n_Cb st) k C in
      let '(c, v) := fold_left (leaf_step (remove_va_arr C m)) (l_vars lf) (Cb k, v2 k) in
      let v2' := setf v2 k v in
      mkNst (n_phi st) (n_S st) v2' (setf Cb k c) (setf (n_id st) k (v2' k)) (n_va st)
    else
      let id0 := setf (n_id st) k [] in
      mkNst (n_phi st) (n_S st) v2 (n_Cb st)
            (setf id0 k (fold_left (fun acc v => acc ++ [[v]]) (l_vars lf) (id0 k))) (n_va st).

  (** cyext_acv_nopa.pyx 1582-1698: one leaf *)
  Definition leaf_body (st : nst) (k_lf : nat * leaf) : option nst :=
    let '(k, lf) := k_lf in
    let st1 := leaf_vectors lf k st in
    ofold (player_step lf k (count_leaf m data (l_rect lf))) (indexed (va_id_arr C m)) st1.

  (** cyext_acv_nopa.pyx 1580-1698: the trees, from given contents of the work
      arrays *)
  Definition nopa_from (forest : list (list leaf)) (st : nst) : option nst :=
    ofold (fun st ls => ofold leaf_body (indexed ls) st) forest st.

  (** cyext_acv_nopa.pyx 1520-1545: the arrays as they are created *)
  Definition nst0 : nst :=
    mkNst (fun _ _ => 0%Q) (repeat 0 m) (fun _ => []) (fun _ => []) (fun _ => []) (fun _ _ => []).

  (** cyext_acv_nopa.pyx 1503-1700 ([shap_values_leaves_nopa]) *)
  Definition shap_values_leaves_nopa (forest : list (list leaf)) : option (nat -> nat -> Q) :=
    match nopa_from forest nst0 with
    | Some st => Some (fun i j => (n_phi st i j / Qn m)%Q)
    | None => None
    end.
End Routine.

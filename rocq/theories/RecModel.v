(** Model of the helpers that merge rectangles or enclose them in a larger one, utils.py 559-561, 1102-1300.
    Simplification: [S] is [list(range(d))], as in all the calls (1239, 1278, 1315); a rectangle has [d] rows.
    No proofs here. *)
From Verif Require Import Base SwingModel.
Local Open Scope nat_scope.

(** The rows [rec[k, 0]], [rec[k, 1]] of a rectangle, utils.py 1108-1122. *)
Definition rec := list (Q * Q).
(** [rec[k, 0]], utils.py 1108. *)
Definition blo (r : rec) (k : nat) : Q := fst (nth k r (0, 0)%Q).
(** [rec[k, 1]], utils.py 1108. *)
Definition bhi (r : rec) (k : nat) : Q := snd (nth k r (0, 0)%Q).
(** utils.py 1112, 1138, 1176: [rec_b[k, 0] <= rec_a[k, 0] and rec_b[k, 1] >= rec_a[k, 1]]. *)
Definition covers (a b : rec) (k : nat) : bool := qleb (blo b k) (blo a k) && qleb (bhi a k) (bhi b k).
(** utils.py 1109-1114, 1120-1125 ([add]). *)
Definition others (d : nat) (a b : rec) (k : nat) : bool := forallb (fun l => (k =? l) || covers a b l) (seq 0 d).
(** utils.py 1102-1129 ([find_nbor_r]): the pairs of [axs] and [dim]; [true] is the side 1. *)
Definition find_nbor_r (d : nat) (a b : rec) : list (nat * bool) :=
  flat_map (fun k =>
    if qeqb (blo a k) (bhi b k) then (if others d a b k then [(k, false)] else [])
    else if qeqb (bhi a k) (blo b k) then (if others d a b k then [(k, true)] else []) else []) (seq 0 d).
(** [rec_a[k, dim] = v], utils.py 1142. *)
Definition set_side (r : rec) (p : nat * bool) (v : Q) : rec :=
  map (fun i => if i =? fst p then (if snd p then (blo r i, v) else (v, bhi r i)) else nth i r (0, 0)%Q) (seq 0 (length r)).
(** utils.py 1151-1164 ([rec_remain]) for one subset [T] of the other axes; None: [merge] is False. *)
Fixpoint remain (a b : rec) (axs T : list nat) (ks : list nat) : option rec :=
  match ks with
  | [] => Some []
  | k :: r =>
    match (if memb k axs then Some (blo b k, bhi b k)
           else if memb k T then (if qeqb (blo b k) (blo a k) then None else Some (blo b k, blo a k))
           else (if qeqb (bhi b k) (bhi a k) then None else Some (bhi a k, bhi b k))),
          remain a b axs T r with
    | Some p, Some q => Some (p :: q)
    | _, _ => None
    end
  end.
(** utils.py 1132-1168 ([extend_rec_r]): the union and the parts of [b] left over. *)
Definition extend_rec_r (d : nat) (a b : rec) (ax : list (nat * bool)) : rec * list rec :=
  let axs := map fst ax in
  let a' := if existsb (fun k => negb (memb k axs) && negb (covers a b k)) (seq 0 d) then a
            else fold_left (fun r p => set_side r p (if snd p then bhi b (fst p) else blo b (fst p))) ax a in
  (a', flat_map (fun T => match remain a' b axs T (seq 0 d) with Some r => [r] | None => [] end)
                (powerset (filter (fun k => negb (memb k axs)) (seq 0 d)))).
(** utils.py 1171-1179 ([is_subset]) for two rectangles. *)
Definition is_subset (a b : rec) : bool := forallb (covers a b) (seq 0 (length a)).
(** utils.py 1182-1192 ([find_mergable]): the first rectangle of the list touching [a], with the union and the parts. *)
Fixpoint find_mergable (d : nat) (a : rec) (l : list rec) : option (rec * rec * list rec) :=
  match l with
  | [] => None
  | b :: r => match find_nbor_r d a b with
              | [] => find_mergable d a r
              | ax => Some (b, fst (extend_rec_r d a b ax), snd (extend_rec_r d a b ax))
              end
  end.
(** One entry of [np.allclose], default tolerances, utils.py 1197. *)
Definition close_num (u v : Q) : bool := qleb (Qabs (u - v)) ((1 # 100000000) + (1 # 100000) * Qabs v).
(** [np.allclose(r, rule)], utils.py 1197. *)
Definition close (d : nat) (r b : rec) : bool :=
  forallb (fun k => close_num (blo r k) (blo b k) && close_num (bhi r k) (bhi b k)) (seq 0 d).
(** utils.py 1195-1199 ([remove_rule]). *)
Fixpoint remove_rule (d : nat) (b : rec) (l : list rec) : list rec :=
  match l with
  | [] => []
  | r :: t => if close d r b then t else r :: remove_rule d b t
  end.

Section Merge.
(** The effect of the call of [random.shuffle] in a step, utils.py 1222, 1231. *)
Variable shuffle : nat -> list rec -> list rec.
(** utils.py 1208-1233: the loop, [fuel] steps being left; [i] and [rule_size].  None: IndexError (1211). *)
Fixpoint merge_loop (fuel d : nat) (p : rec) (l : list rec) (i size : nat) : option (list rec) :=
  match fuel with
  | O => Some l
  | S f =>
    if size <? i then Some l
    else match l with
    | [] => None
    | a :: _ =>
      match find_mergable d a l with
      | Some (b, u, parts) =>
          if is_subset p b then merge_loop f d p (shuffle i (remove_rule d a l) ++ [a]) (S i) size
          else merge_loop f d p (shuffle i (remove_rule d b (remove_rule d a l)) ++ u :: parts) (S i) (S size + length parts)
      | None => merge_loop f d p (shuffle i (remove_rule d a l) ++ [a]) (S i) size
      end
    end
  end.
(** utils.py 1204. *)
Definition max_step : nat := Z.to_nat 5000.
(** utils.py 1202-1234 ([return_largest_rectangle]). *)
Definition return_largest_rectangle (p : rec) (l : list rec) : option (list rec) :=
  merge_loop (S max_step) (length p) p l 0 (length l).
(** [rule[S]], utils.py 1237-1238, 1276-1277; a rule gives a pair for every column. *)
Definition project (S : list nat) (r : nat -> Q * Q) : rec := map r S.
(** utils.py 1240-1243: the first rectangle of the list that contains [p], or else the last one; None: NameError. *)
Fixpoint first_superset (p : rec) (l : list rec) : option rec :=
  match l with
  | [] => None
  | [r] => Some r
  | r :: t => if is_subset p r then Some r else first_superset p t
  end.
(** utils.py 1236-1243 ([return_best]). *)
Definition return_best (rule : nat -> Q * Q) (rules : list (nat -> Q * Q)) (S : list nat) : option (rec * list rec) :=
  match return_largest_rectangle (project S rule) (map (project S) rules) with
  | Some l => match first_superset (project S rule) l with Some r => Some (r, l) | None => None end
  | None => None
  end.
End Merge.

(** utils.py 1257-1260: some rectangle of [adj] touches [r]. *)
Definition touched (d : nat) (adj : list rec) (r : rec) : bool :=
  existsb (fun a => match find_nbor_r d a r with [] => false | _ => true end) adj.
(** utils.py 1252-1264 ([return_adjacent_rec]): the result, and [rule_sets], which the call changes.  The loop goes over
    the positions of a list that gets shorter meanwhile.  None: out of fuel. *)
Fixpoint return_adjacent_rec (fuel d : nat) (adj l : list rec) : option (list rec * list rec) :=
  match fuel with
  | O => None
  | S f =>
    (fix scan (n j : nat) (adj l : list rec) : option (list rec * list rec) :=
       match nth_error l j with
       | None => Some (adj, l)
       | Some r =>
         match n with
         | O => None
         | S n' =>
           if touched d adj r then
             match return_adjacent_rec f d (adj ++ [r]) (remove_rule d r l) with
             | Some (adj', l') => scan n' (S j) adj' l'
             | None => None
             end
           else scan n' (S j) adj l
         end
       end) (length l) 0 adj l
  end.
(** [np.min] of a non-empty list, utils.py 1269. *)
Definition min_of (l : list Q) : Q := match l with [] => 0%Q | a :: r => fold_left (fun m v => if qltb v m then v else m) r a end.
(** [np.max] of a non-empty list, utils.py 1270. *)
Definition max_of (l : list Q) : Q := match l with [] => 0%Q | a :: r => fold_left (fun m v => if qltb m v then v else m) r a end.
(** utils.py 1267-1272 ([overapprox_rectangle]). *)
Definition overapprox_rectangle (d : nat) (adj : list rec) : rec :=
  map (fun k => (min_of (map (fun r => blo r k) adj), max_of (map (fun r => bhi r k) adj))) (seq 0 d).
(** utils.py 1275-1279 ([overapprox_rule]). *)
Definition overapprox_rule (rule : nat -> Q * Q) (rules : list (nat -> Q * Q)) (S : list nat) : option rec :=
  let d := length S in
  match return_adjacent_rec (1 + length rules) d [map rule S] (map (fun r => map r S) rules) with
  | Some (adj, _) => Some (overapprox_rectangle d adj)
  | None => None
  end.

(** utils.py 1282-1300 ([return_edges]): for every subset of the axes, one corner of every rectangle. *)
Definition return_edges (d : nat) (recs : list rec) : list (list Q) :=
  flat_map (fun T => map (fun r => map (fun k => if memb k T then bhi r k else blo r k) (seq 0 d)) recs) (powerset (seq 0 d)).

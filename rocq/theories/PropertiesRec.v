(** C107: merging rectangles that touch, and enclosing them in a larger one.  [shuffle] is what random.shuffle does in
    every step: any reordering. *)
From Verif Require Import Base RecModel RecSpec RecProofs.
From Coq Require Import Permutation.
Local Open Scope nat_scope.

(** Merging never covers a point that was not covered, and leaves no flat rectangle. *)
Theorem C107_merge : forall shuffle p l d, (forall i l, Permutation (shuffle i l) l) -> length p = d -> l <> [] ->
  (forall r, In r l -> proper d r) ->
  exists l', return_largest_rectangle shuffle p l = Some l' /\ l' <> [] /\ (forall r, In r l' -> proper d r) /\
    forall x, union l' x -> union l x.
Proof. exact merge_sound. Qed.
Print Assumptions C107_merge.

(** With at most two axes, and numbers that differ by more than the tolerances of numpy, no covered point is lost. *)
Theorem C107_merge_plane_partial : forall shuffle p l d, (forall i l, Permutation (shuffle i l) l) -> length p = d -> l <> [] ->
  (forall r, In r l -> proper d r) -> apart d l -> d <= 2 ->
  exists l', return_largest_rectangle shuffle p l = Some l' /\ forall x, union l' x <-> union l x.
Proof. exact merge_plane. Qed.
Print Assumptions C107_merge_plane_partial.

(** The best rectangle lies in what was covered; it contains the given rule when one of the rules did. *)
Theorem C107_best_partial : forall shuffle rule rules S, (forall i l, Permutation (shuffle i l) l) -> rules <> [] ->
  (forall r, In r rules -> proper (length S) (map r S)) ->
  exists r l, return_best shuffle rule rules S = Some (r, l) /\
    (forall x, within r x -> union (map (fun r => map r S) rules) x) /\
    (apart (length S) (map (fun r => map r S) rules) -> (exists r, In r rules /\ part_of (map rule S) (map r S)) ->
     part_of (map rule S) r).
Proof. exact best_spec. Qed.
Print Assumptions C107_best_partial.

(** The over-approximation contains the rule, and each of its sides is a side of the rule or of a rectangle reached from
    it; it is the smallest rectangle around all that is reached when the numbers differ by more than the tolerances. *)
Theorem C107_overapprox_partial : forall rule rules S, exists box, overapprox_rule rule rules S = Some box /\ length box = length S /\
  part_of (map rule S) box /\
  (forall k, k < length S -> exists r, (r = map rule S \/ reached (length S) (map rule S) (map (fun r => map r S) rules) r) /\ (lower box k == lower r k)%Q) /\
  (forall k, k < length S -> exists r, (r = map rule S \/ reached (length S) (map rule S) (map (fun r => map r S) rules) r) /\ (upper box k == upper r k)%Q) /\
  (apart (length S) (map (fun r => map r S) rules) -> encloses (length S) (map rule S) (map (fun r => map r S) rules) box).
Proof. exact overapprox_spec. Qed.
Print Assumptions C107_overapprox_partial.

(** The points given to the search of holes are the corners of the rectangles. *)
Theorem C107_edges : forall d recs c, In c (return_edges d recs) <-> exists r, In r recs /\ corner d r c.
Proof. exact edges_spec. Qed.
Print Assumptions C107_edges.

(** ** Concrete cases *)
Definition rot (i : nat) (l : list rec) : list rec := match l with [] => [] | a :: r => r ++ [a] end.
Lemma rot_perm : forall i l, Permutation (rot i l) l.
Proof. intros i [|a l]; [constructor|]. apply Permutation_sym, Permutation_cons_append. Qed.
(** two rectangles side by side, the second one taller *)
Definition left_rec : rec := [(1, 2); (1, 2)]%Q.
Definition right_rec : rec := [(2, 3); (0, 3)]%Q.
Example C107_merge_example :
  return_largest_rectangle rot left_rec [left_rec; right_rec] = Some [[(2, 3); (0, 1)]; [(2, 3); (2, 3)]; [(1, 3); (1, 2)]]%Q /\
  (forall r, In r [left_rec; right_rec] -> proper 2 r) /\ apart 2 [left_rec; right_rec].
Proof.
  split; [vm_compute; reflexivity|]. split.
  - intros r [<-|[<-|[]]]; (split; [reflexivity|]); intros [|[|k]] Hk; try lia; reflexivity.
  - apply apart_check. vm_compute. reflexivity.
Qed.
(** the rule looks at the columns 4 and 2 *)
Definition rule_of (a : rec) (k : nat) : Q * Q := if k =? 4 then nth 0 a (0, 0)%Q else nth 1 a (0, 0)%Q.
Example C107_best_example :
  option_map fst (return_best rot (rule_of left_rec) [rule_of left_rec; rule_of right_rec] [4; 2]) = Some [(1, 3); (1, 2)]%Q /\
  part_of (map (rule_of left_rec) [4; 2]) (map (rule_of left_rec) [4; 2]).
Proof. split; [vm_compute; reflexivity|]. apply is_subset_iff. vm_compute. reflexivity. Qed.
Example C107_overapprox_example :
  overapprox_rule (rule_of left_rec) [rule_of [(3, 4); (0, 5)]%Q; rule_of right_rec; rule_of [(7, 8); (0, 9)]%Q] [4; 2] = Some [(1, 4); (0, 5)]%Q /\
  reached 2 left_rec [right_rec; [(3, 4); (0, 5)]%Q] [(3, 4); (0, 5)]%Q.
Proof.
  split; [vm_compute; reflexivity|]. apply reached_next with right_rec; [apply reached_first; [now left|]|right; now left|];
    apply nbor_touching; vm_compute; discriminate.
Qed.
Example C107_edges_example : return_edges 2 [left_rec; right_rec] = [[1; 1]; [2; 0]; [2; 1]; [3; 0]; [1; 2]; [2; 3]; [2; 2]; [3; 3]]%Q.
Proof. vm_compute. reflexivity. Qed.

(** ** What does not hold *)
(** With three axes a part of the second rectangle is lost. *)
Theorem C107_merge_refuted : exists p l l' x, (forall r, In r l -> proper 3 r) /\ apart 3 l /\
  return_largest_rectangle rot p l = Some l' /\ union l x /\ ~ union l' x.
Proof.
  exists [(1, 2); (1, 2); (1, 2)]%Q, [[(1, 2); (1, 2); (1, 2)]; [(2, 3); (0, 3); (0, 3)]]%Q. eexists.
  exists (fun k => nth k [5 # 2; 3 # 2; 1 # 2] 0%Q). split.
  { intros r [<-|[<-|[]]]; (split; [reflexivity|]); intros [|[|[|k]]] Hk; try lia; reflexivity. }
  split; [apply apart_check; vm_compute; reflexivity|]. split; [vm_compute; reflexivity|]. split.
  - exists [(2, 3); (0, 3); (0, 3)]%Q. split; [right; now left|]. intros [|[|[|k]]] Hk; cbn in Hk; try lia; split; vm_compute; congruence.
  - apply outside_check. vm_compute. reflexivity.
Qed.
Print Assumptions C107_merge_refuted.

(** A rectangle nearly equal to the merged one is removed in its place: the result does not contain the rule. *)
Theorem C107_best_refuted : exists rule rules S r l, (forall r, In r rules -> proper (length S) (map r S)) /\
  (exists r, In r rules /\ part_of (map rule S) (map r S)) /\
  return_best rot rule rules S = Some (r, l) /\ forall q, In q l -> ~ part_of (map rule S) q.
Proof.
  set (e := (1000001 # 1000000)%Q).
  exists (rule_of [(1 # 2, e); (0, 2)]%Q), [rule_of [(1, 3); (0, 1)]%Q; rule_of [(0, e); (0, 2)]%Q; rule_of [(0, 1); (0, 2)]%Q], [4; 2].
  do 2 eexists. split.
  { intros r [<-|[<-|[<-|[]]]]; (split; [reflexivity|]); intros [|[|k]] Hk; cbn in Hk; try lia; reflexivity. }
  split; [exists (rule_of [(0, e); (0, 2)]%Q); split; [right; now left|]; apply is_subset_iff; vm_compute; reflexivity|].
  split; [vm_compute; reflexivity|]. apply no_superset_check. vm_compute. reflexivity.
Qed.
Print Assumptions C107_best_refuted.

(** For the same reason a reached rectangle may stick out of the over-approximation. *)
Theorem C107_overapprox_refuted : exists rule rules S box r, overapprox_rule rule rules S = Some box /\
  reached (length S) (map rule S) (map (fun r => map r S) rules) r /\ ~ part_of r box.
Proof.
  set (e := (1000001 # 1000000)%Q). set (f := (2000001 # 1000000)%Q).
  exists (fun _ => (0, 1)%Q), [fun _ => (e, f); fun _ => (1, 2)%Q; fun _ => (1, e)%Q], [0]. eexists. exists [(e, f)].
  split; [vm_compute; reflexivity|]. split.
  - apply reached_next with [(1, e)%Q]; [apply reached_first; [right; right; now left|]|now left|]; apply nbor_touching; vm_compute; discriminate.
  - intro H. apply is_subset_iff in H. vm_compute in H. discriminate.
Qed.
Print Assumptions C107_overapprox_refuted.

(** Property theorems C100: the probabilities used by the searches of explanations of
    tree-based classifiers.  Each is proved by a lemma of ClfProofs.v. *)
From Verif Require Import Base TreeModel TreeSpec TreeProofs ShapModel ShapSpec ShapProofs AcvModel SdpModel SdpSpec SdpProofs
  GameSpec SearchModel SearchSpec SearchProofs ClfModel ClfSpec ClfProofs PropertiesTree PropertiesShap PropertiesReg PropertiesSearch.
From Coq Require Import NArith.

(** the leaves of a tree with the probabilities of two classes *)
Definition two_class (t : tree) : list cleaf :=
  map (fun lf => mkCleaf (l_rect lf) (l_vars lf) (fun c => if c =? 1 then l_val lf else (1 - l_val lf)%Q)) (rleaves t).
Definition cF : list (list cleaf) := [two_class (rt 1 (1 # 4) (3 # 4) (1 # 2)); two_class (st 0 1)].
Definition crows : list (pt * nat) :=
  [(row 2 2 0, 1); (row 0 0 0, 0); (row 2 0 0, 1); (row 0 2 0, 1); (row 0 0 0, 0)].
Definition cX (k : nat) : pt := nth k [row 2 0 0; row 0 0 0; row 2 2 0] (row 0 0 0).
Definition cfX (k : nat) : nat := nth k [1; 0; 1] 0.
(** the leaves from the last tree to the first for a set of one column, in order otherwise *)
Definition csched (S : list nat) : list (nat * nat) :=
  if length S =? 1 then [(1, 1); (0, 2); (1, 0); (0, 0); (0, 1)] else [(0, 0); (0, 1); (0, 2); (1, 0); (1, 1)].
Lemma csched_ok : treats_all cF csched.
Proof.
  intro S. unfold csched. assert (E : forall b l, (exists ls, nth_error cF b = Some ls /\ l < length ls) <->
    (b = 0 /\ l < 3) \/ (b = 1 /\ l < 2)).
  { intros b l. split.
    - intros [ls [H Hl]]. destruct b as [|[|b]]; cbn in H; [injection H as <-; left; now split|
        injection H as <-; right; now split|destruct b; discriminate].
    - intros [[-> H]|[-> H]]; eexists; split; try reflexivity; exact H. }
  destruct (length S =? 1); (split; [repeat constructor; cbn; intuition discriminate|]);
    intros b l; rewrite E; cbn; split; intro H.
  - repeat (destruct H as [H|H]; [injection H as <- <-; lia|]). destruct H.
  - assert (G : b = 0 /\ (l = 0 \/ l = 1 \/ l = 2) \/ b = 1 /\ (l = 0 \/ l = 1)) by lia.
    destruct G as [[-> [->|[->| ->]]]|[-> [->| ->]]]; auto 8.
  - repeat (destruct H as [H|H]; [injection H as <- <-; lia|]). destruct H.
  - assert (G : b = 0 /\ (l = 0 \/ l = 1 \/ l = 2) \/ b = 1 /\ (l = 0 \/ l = 1)) by lia.
    destruct G as [[-> [->|[->| ->]]]|[-> [->| ->]]]; auto 8.
Qed.

(** C100, full claim: the probabilities that global_sdp_clf, global_sdp_clf_approx,
    global_sdp_clf_nopa and global_sdp_clf_ptrees compare with the level are those compute_sdp_clf
    returns for the same columns and observation, whatever the order of the threads.  True of the
    first three for sets of at least one group: the search with its work arrays is the search with
    compute_sdp_clf *)
Theorem C100_search_partial : forall d pi F rows X fX va lo sched limit stop N,
  groups_ok d va -> 1 <= lo -> treats_all F sched ->
  option_map fst (clf_search v_tree true d pi F rows X fX sched limit stop N va lo)
  = search_clf v_tree d pi (documented d F rows X fX) limit stop N va lo.
Proof. intros d pi F rows X fX va lo sched limit stop N H1 H2. exact (search_clf_documented d pi F rows X fX va lo H1 H2 sched limit stop N). Qed.
Print Assumptions C100_search_partial.
Theorem C100_search_nopa_partial : forall d pi F rows X fX va lo sched limit N,
  groups_ok d va -> 1 <= lo -> treats_all F sched ->
  option_map fst (clf_search_all v_tree true d pi F rows X fX sched limit true N va lo)
  = search v_tree d pi (documented d F rows X fX) limit true N va lo.
Proof. intros d pi F rows X fX va lo sched limit N H1 H2. exact (search_all_documented d pi F rows X fX va lo H1 H2 sched limit true N). Qed.
Print Assumptions C100_search_nopa_partial.
(** hence what is reported is minimal and sufficient for compute_sdp_clf *)
Theorem C100_found_partial : forall d pi F rows X fX va lo sched limit stop N st ce k,
  groups_ok d va -> 1 <= lo -> treats_all F sched -> (0 < pi)%Q -> (pi <= 1)%Q -> k < N ->
  clf_search v_tree true d pi F rows X fX sched limit stop N va lo = Some (st, ce) -> (pi <= r_sdp (s_rows st k))%Q ->
  shows_minimal va lo pi (documented d F rows X fX k) (s_rows st k).
Proof. intros d pi F rows X fX va lo sched limit stop N st ce k H1 H2. exact (clf_found d pi F rows X fX va lo H1 H2 sched limit stop N st ce k). Qed.
Print Assumptions C100_found_partial.
Theorem C100_found_nopa_partial : forall d pi F rows X fX va lo sched limit N st ce k,
  groups_ok d va -> 1 <= lo -> treats_all F sched -> (0 < pi)%Q -> (pi <= 1)%Q -> k < N ->
  clf_search_all v_tree true d pi F rows X fX sched limit true N va lo = Some (st, ce) -> (pi <= r_sdp (s_rows st k))%Q ->
  shows_minimal va lo pi (documented d F rows X fX k) (s_rows st k).
Proof. intros d pi F rows X fX va lo sched limit N st ce k H1 H2. exact (clf_found_all d pi F rows X fX va lo H1 H2 sched limit true N st ce k). Qed.
Print Assumptions C100_found_nopa_partial.
Theorem C100_not_found_partial : forall d pi F rows X fX va lo sched N st ce k,
  groups_ok d va -> 1 <= lo -> treats_all F sched -> (0 < pi)%Q -> (pi <= 1)%Q -> k < N -> length va <= 15 ->
  clf_search v_tree true d pi F rows X fX sched cut15 false N va lo = Some (st, ce) -> (r_sdp (s_rows st k) < pi)%Q ->
  forall T, In T (subs va) -> lo <= length T -> (documented d F rows X fX k (concat T) < pi)%Q.
Proof. intros d pi F rows X fX va lo sched N st ce k H1 H2. exact (clf_not_found d pi F rows X fX va lo H1 H2 sched N st ce k). Qed.
Print Assumptions C100_not_found_partial.
(** all searches give the same answer for every order of the threads *)
Theorem C100_schedules : forall v norm d pi F rows X fX va lo sched sched' limit stop N, v_mask v = false ->
  treats_all F sched -> treats_all F sched' ->
  option_map fst (clf_search v norm d pi F rows X fX sched limit stop N va lo)
  = option_map fst (clf_search v norm d pi F rows X fX sched' limit stop N va lo) /\
  option_map fst (clf_search_all v norm d pi F rows X fX sched limit stop N va lo)
  = option_map fst (clf_search_all v norm d pi F rows X fX sched' limit stop N va lo).
Proof. exact clf_schedules. Qed.
Print Assumptions C100_schedules.
Theorem C100_defined : forall v norm d pi F rows X fX va lo sched limit stop N, v_mask v = false -> treats_all F sched ->
  clf_search v norm d pi F rows X fX sched limit stop N va lo <> None.
Proof. exact clf_defined. Qed.
Print Assumptions C100_defined.
(** global_sdp_clf_ptrees uses, before limitation to [0, 1], the probability of the Python
    routine, which is not divided by the weights of the trees *)
Theorem C100_ptrees : forall d pi F rows X fX va lo sched limit stop N, treats_all F sched ->
  exists P, option_map fst (clf_search_all v_ptrees false d pi F rows X fX sched limit stop N va lo)
            = search v_ptrees d pi P limit stop N va lo /\
    forall k S, S <> [] -> length S <> d ->
      (clip (P k S) == py_sdp_clf d rows (fX k) S (class_forest (fX k) F) (X k))%Q.
Proof. exact ptrees_python. Qed.
Print Assumptions C100_ptrees.
Example C100_example :
  treats_all cF csched /\ groups_ok 2 (tree_groups [[]] 2) /\
  show 3 (option_map fst (clf_search v_tree true 2 (9 # 10) cF crows cX cfX csched cut15 false 3 (tree_groups [[]] 2) 1))
    = Some [(1%Q, (2, [0; 1]%Z)); (1%Q, (2, [0; 1]%Z)); (245 # 253, (1, [1; -1]%Z))] /\
  map (fun S => map (fun k => Qred (documented 2 cF crows cX cfX k S)) [0; 1; 2]) [[0]; [1]; [0; 1]]
    = [[123 # 155; 2 # 5; 123 # 155]; [10 # 21; 11 # 21; 245 # 253]; [1; 1; 1]]%Q.
Proof. split; [exact csched_ok|]. split; [apply single_groups_ok|]. vm_compute. auto. Qed.

(** false for [minimal = 0]: the empty set is given the frequency of the class, compute_sdp_clf
    gives it 0; the search reports an empty explanation *)
Theorem C100_empty_refuted : exists d pi F rows X fX sched st ce,
  treats_all F sched /\ (0 < pi)%Q /\ (pi <= 1)%Q /\
  clf_search v_tree true d pi F rows X fX sched cut15 true 1 (tree_groups [[]] d) 0 = Some (st, ce) /\
  (pi <= r_sdp (s_rows st 0%nat))%Q /\ reported (s_rows st 0) = [] /\ (documented d F rows X fX 0 [] < pi)%Q.
Proof.
  exists 2, (1 # 2)%Q, cF, crows, cX, cfX, csched.
  destruct (clf_search v_tree true 2 (1 # 2) cF crows cX cfX csched cut15 true 1 (tree_groups [[]] 2) 0) as [[s c]|] eqn:E;
    [|exfalso; revert E; vm_compute; discriminate].
  exists s, c. split; [exact csched_ok|]. split; [reflexivity|]. split; [discriminate|]. split; [reflexivity|].
  assert (G : option_map (fun sc => (Qred (r_sdp (s_rows (fst sc) 0)), reported (s_rows (fst sc) 0))) (Some (s, c)) = Some ((3 # 5)%Q, [])).
  { rewrite <- E. vm_compute. reflexivity. }
  cbn in G. injection G as G1 G2. split; [|split; [exact G2|reflexivity]].
  rewrite <- (Qred_correct (r_sdp (s_rows s 0))), G1. discriminate.
Qed.
Print Assumptions C100_empty_refuted.
(** false of global_sdp_clf_ptrees: the set it reports does not reach the level for
    compute_sdp_clf, and the probability reported exceeds 1 *)
Theorem C100_ptrees_refuted : exists d pi F rows X fX sched st ce k,
  treats_all F sched /\ (0 < pi)%Q /\ (pi <= 1)%Q /\
  clf_search_all v_ptrees false d pi F rows X fX sched cut15 true 3 (tree_groups [[]] d) 1 = Some (st, ce) /\
  (1 < r_sdp (s_rows st k))%Q /\ reported (s_rows st k) = [1]%Z /\ (documented d F rows X fX k [1%nat] < pi)%Q.
Proof.
  exists 2, (49 # 50)%Q, cF, crows, cX, cfX, csched.
  destruct (clf_search_all v_ptrees false 2 (49 # 50) cF crows cX cfX csched cut15 true 3 (tree_groups [[]] 2) 1) as [[s c]|] eqn:E;
    [|exfalso; revert E; vm_compute; discriminate].
  exists s, c, 2. split; [exact csched_ok|]. split; [reflexivity|]. split; [discriminate|]. split; [reflexivity|].
  assert (G : option_map (fun sc => (Qred (r_sdp (s_rows (fst sc) 2)), reported (s_rows (fst sc) 2))) (Some (s, c)) = Some ((69 # 65)%Q, [1%Z])).
  { rewrite <- E. vm_compute. reflexivity. }
  cbn in G. injection G as G1 G2. split; [|split; [exact G2|reflexivity]].
  rewrite <- (Qred_correct (r_sdp (s_rows s 2))), G1. reflexivity.
Qed.
Print Assumptions C100_ptrees_refuted.

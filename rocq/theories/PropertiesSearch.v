(** Property theorems C18-C24, C50, C53, C54: searches of minimal sufficient
    explanations.  Each is proved by a lemma of SearchProofs.v. *)
From Verif Require Import Base GameSpec ShapModel AcvModel SearchModel SearchSpec SearchProofs.
From Coq Require Import NArith.

(** concrete estimators over 4 columns: with the coalition {1, 2}, row 0 is
    explained by it, row 1 needs columns 0 and 3, row 2 needs everything *)
Definition ex_P (k : nat) (S : list nat) : Q :=
  match k with
  | 0 => if memb 1 S && memb 2 S then (19 # 20) else (1 # 2)
  | 1 => if memb 0 S && memb 3 S then 1 else (3 # 5)
  | _ => (1 # 5)
  end.
Definition ex_va : list (list nat) := search_groups [[1; 2]] [3; 0; 1; 2].
Definition ex_va1 : list (list nat) := search_groups [[]] [3; 0; 1; 2].
Lemma ex_va_ok : groups_ok 4 ex_va.
Proof.
  apply search_groups_ok;
    try (repeat constructor; cbn; intuition discriminate);
    try (intros x H; cbn in H; intuition lia).
Qed.
Lemma ex_va1_ok : groups_ok 4 ex_va1.
Proof.
  apply search_groups_ok;
    try (repeat constructor; cbn; intuition discriminate);
    try (intros x H; cbn in H; intuition lia).
Qed.
(** rows of the final state, with reduced probabilities *)
Definition show (N : nat) (o : option sstate) : option (list (Q * (nat * list Z))) :=
  match o with
  | None => None
  | Some st => Some (map (fun k => (Qred (r_sdp (s_rows st k)), (r_len (s_rows st k), r_star (s_rows st k)))) (seq 0 N))
  end.

(** C18: a row reported at or above the level is explained by a minimal
    sufficient set; for every variant of the search. *)
Theorem C18_found_is_minimal_sufficient : forall v d pi P limit stop N va lo st k,
  groups_ok d va -> (0 < pi)%Q -> (pi <= 1)%Q -> k < N ->
  search v d pi P limit stop N va lo = Some st -> (pi <= r_sdp (s_rows st k))%Q ->
  exists T, minimal_sufficient d va lo pi (P k) T (r_sdp (s_rows st k)) /\
    reported (s_rows st k) = map Z.of_nat (concat T) /\ r_len (s_rows st k) = length (concat T).
Proof. exact search_found. Qed.
Print Assumptions C18_found_is_minimal_sufficient.
Theorem C18_found_is_minimal_sufficient_clf : forall v d pi P limit stop N va lo st k,
  groups_ok d va -> (0 < pi)%Q -> (pi <= 1)%Q -> k < N ->
  search_clf v d pi P limit stop N va lo = Some st -> (pi <= r_sdp (s_rows st k))%Q ->
  exists T, minimal_sufficient d va lo pi (P k) T (r_sdp (s_rows st k)) /\
    reported (s_rows st k) = map Z.of_nat (concat T) /\ r_len (s_rows st k) = length (concat T).
Proof. exact search_clf_found. Qed.
Print Assumptions C18_found_is_minimal_sufficient_clf.
(** conversely a row reported below the level has no sufficient candidate of
    the visited sizes: all sizes without early stop; with it, the sizes up to the
    first one whose last candidate covers half of the columns *)
Theorem C18_not_found : forall v d pi P limit stop N va lo st k,
  groups_ok d va -> (0 < pi)%Q -> (pi <= 1)%Q -> k < N ->
  search v d pi P limit stop N va lo = Some st -> (r_sdp (s_rows st k) < pi)%Q ->
  forall T, In T (subs va) -> lo <= length T ->
  (stop = true -> forall s, lo <= s < length T -> v_half v (length (concat (skipn (length va - s) va))) d = false) ->
  (P k (concat T) < pi)%Q.
Proof. exact search_not_found. Qed.
Print Assumptions C18_not_found.
Theorem C18_not_found_clf : forall v d pi P stop N va lo st k,
  groups_ok d va -> (0 < pi)%Q -> (pi <= 1)%Q -> k < N -> length va <= 15 ->
  search_clf v d pi P cut15 stop N va lo = Some st -> (r_sdp (s_rows st k) < pi)%Q ->
  forall T, In T (subs va) -> lo <= length T ->
  (stop = true -> forall s, lo <= s < length T -> v_half v (length (concat (skipn (length va - s) va))) d = false) ->
  (P k (concat T) < pi)%Q.
Proof. exact search_clf_not_found. Qed.
Print Assumptions C18_not_found_clf.
(** with single variables the early stop never hides a sufficient set of at most
    half of the columns *)
Theorem C18_not_found_half : forall v d pi P limit stop N va lo st k,
  v = v_rf \/ v = v_tree \/ v = v_coal ->
  groups_ok d va -> (forall g, In g va -> length g = 1) -> (0 < pi)%Q -> (pi <= 1)%Q -> k < N ->
  search v d pi P limit stop N va lo = Some st -> (r_sdp (s_rows st k) < pi)%Q ->
  forall T, In T (subs va) -> lo <= length T -> length T <= Nat.max lo (d / 2) -> (P k (concat T) < pi)%Q.
Proof. exact search_not_found_half. Qed.
Print Assumptions C18_not_found_half.
Example C18_example :
  groups_ok 4 ex_va /\ groups_ok 4 ex_va1 /\ ex_va = [[3]; [0]; [1; 2]] /\
  show 3 (search v_rf 4 (9 # 10) ex_P cut15 false 3 ex_va 1)
    = Some [(19 # 20, (2, [1; 2; -1; -1]%Z)); (1%Q, (2, [3; 0; -1; -1]%Z)); (1%Q, (4, [3; 0; 1; 2]%Z))] /\
  show 3 (search v_rf 4 (9 # 10) ex_P cut15 true 3 ex_va 1)
    = Some [(19 # 20, (2, [1; 2; -1; -1]%Z)); (3 # 5, (2, [1; 2; -1; -1]%Z)); (1 # 5, (2, [1; 2; -1; -1]%Z))] /\
  show 3 (search_clf v_tree 4 (9 # 10) ex_P cut15 true 3 ex_va1 1)
    = Some [(19 # 20, (2, [1; 2; -1; -1]%Z)); (1%Q, (2, [3; 0; -1; -1]%Z)); (1 # 5, (2, [1; 2; -1; -1]%Z))].
Proof. split; [exact ex_va_ok|]. split; [exact ex_va1_ok|]. vm_compute. auto. Qed.

(** C19: the row of an observation is the one of a search on that observation
    alone, hence does not depend on the other rows of the batch nor on their order. *)
Theorem C19_row_by_row : forall v d pi P limit stop N va lo st k, (0 < pi)%Q -> k < N ->
  search v d pi P limit stop N va lo = Some st ->
  exists st1, search v d pi (fun _ => P k) limit stop 1 va lo = Some st1 /\ s_rows st1 0 = s_rows st k.
Proof. exact search_one_row. Qed.
Print Assumptions C19_row_by_row.
Theorem C19_row_by_row_clf : forall v d pi P limit stop N va lo st k, (0 < pi)%Q -> k < N ->
  search_clf v d pi P limit stop N va lo = Some st ->
  exists st1, search_clf v d pi (fun _ => P k) limit stop 1 va lo = Some st1 /\ s_rows st1 0 = s_rows st k.
Proof. exact search_clf_one_row. Qed.
Print Assumptions C19_row_by_row_clf.
Example C19_example :
  show 1 (search v_rf 4 (9 # 10) (fun _ => ex_P 1) cut15 true 1 ex_va1 1) = Some [(1%Q, (2, [3; 0; -1; -1]%Z))] /\
  show 2 (search v_rf 4 (9 # 10) ex_P cut15 true 2 ex_va1 1)
    = Some [(19 # 20, (2, [1; 2; -1; -1]%Z)); (1%Q, (2, [3; 0; -1; -1]%Z))].
Proof. vm_compute. auto. Qed.

(** C20: global importance *)
Theorem C20_importance_is_frequency : forall v d pi P limit stop N va lo st j,
  groups_ok d va -> (0 < pi)%Q -> (pi <= 1)%Q -> 0 < N ->
  search v d pi P limit stop N va lo = Some st ->
  (importance N st j == Qn (length (filter (fun k => explains pi (s_rows st k) j) (seq 0 N))) / Qn N)%Q /\
  (0 <= importance N st j <= 1)%Q.
Proof. exact search_importance. Qed.
Print Assumptions C20_importance_is_frequency.
Theorem C20_importance_is_frequency_clf : forall v d pi P limit stop N va lo st j,
  groups_ok d va -> (0 < pi)%Q -> (pi <= 1)%Q -> 0 < N ->
  search_clf v d pi P limit stop N va lo = Some st ->
  (importance N st j == Qn (length (filter (fun k => explains pi (s_rows st k) j) (seq 0 N))) / Qn N)%Q /\
  (0 <= importance N st j <= 1)%Q.
Proof. exact search_clf_importance. Qed.
Print Assumptions C20_importance_is_frequency_clf.
Example C20_example :
  match search v_rf 4 (9 # 10) ex_P cut15 false 3 ex_va 1 with
  | None => False
  | Some st => map (fun j => Qred (importance 3 st j)) [0; 1; 2; 3] = [2 # 3; 2 # 3; 2 # 3; 2 # 3]
  end /\
  match search v_rf 4 (9 # 10) ex_P cut15 true 3 ex_va1 1 with
  | None => False
  | Some st => map (fun j => Qred (importance 3 st j)) [0; 1; 2; 3] = [1 # 3; 1 # 3; 1 # 3; 1 # 3]
  end.
Proof. vm_compute. auto. Qed.

(** C21: the index row lists the explanation, for single variables (found or
    not) and, with coalitions, for the searches that clear the tail of finished rows *)
Theorem C21_index_row_partial : forall v d pi P limit stop N va lo st k,
  groups_ok d va -> (0 < pi)%Q -> (pi <= 1)%Q -> k < N ->
  search v d pi P limit stop N va lo = Some st ->
  (forall g, In g va -> length g = 1) \/
  ((v = v_ptrees \/ v = v_coal \/ v = v_msdp) /\ (pi <= r_sdp (s_rows st k))%Q) ->
  listed (s_rows st k) = reported (s_rows st k) /\ r_len (s_rows st k) = length (listed (s_rows st k)) /\
  length (r_star (s_rows st k)) = d.
Proof. exact search_index_row. Qed.
Print Assumptions C21_index_row_partial.
Theorem C21_index_row_clf_partial : forall v d pi P limit stop N va lo st k,
  groups_ok d va -> (0 < pi)%Q -> k < N ->
  search_clf v d pi P limit stop N va lo = Some st -> (forall g, In g va -> length g = 1) ->
  listed (s_rows st k) = reported (s_rows st k) /\ r_len (s_rows st k) = length (listed (s_rows st k)) /\
  length (r_star (s_rows st k)) = d.
Proof. exact search_clf_index_row. Qed.
Print Assumptions C21_index_row_clf_partial.
(** false with coalitions for the forest and tree searches: a smaller set
    written over a larger one leaves its tail behind *)
Theorem C21_index_row_refuted : exists C space P st,
  groups_ok 6 (search_groups C space) /\
  search v_rf 6 (9 # 10) P cut15 true 1 (search_groups C space) 1 = Some st /\
  (9 # 10 <= r_sdp (s_rows st 0%nat))%Q /\
  reported (s_rows st 0) = [3; 4]%Z /\ listed (s_rows st 0) = [3; 4; 2]%Z.
Proof. exact stale_rf. Qed.
Print Assumptions C21_index_row_refuted.
Theorem C21_index_row_tree_refuted : exists C P st,
  groups_ok 6 (tree_groups C 6) /\
  search v_tree 6 (9 # 10) P cut15 true 1 (tree_groups C 6) 1 = Some st /\
  (9 # 10 <= r_sdp (s_rows st 0%nat))%Q /\
  reported (s_rows st 0) = [3; 4]%Z /\ listed (s_rows st 0) = [3; 4; 2]%Z.
Proof. exact stale_tree. Qed.
Print Assumptions C21_index_row_tree_refuted.
Example C21_example :
  show 3 (search v_coal 4 (9 # 10) ex_P cut25 false 3 (rev ex_va) 1)
    = Some [(19 # 20, (2, [1; 2; -1; -1]%Z)); (1%Q, (2, [0; 3; -1; -1]%Z)); (0%Q, (0, [-1; -1; -1; -1]%Z))] /\
  (forall g, In g ex_va1 -> length g = 1) /\
  show 3 (search v_rf 4 (9 # 10) ex_P cut15 true 3 ex_va1 1)
    = Some [(19 # 20, (2, [1; 2; -1; -1]%Z)); (1%Q, (2, [3; 0; -1; -1]%Z)); (1 # 5, (2, [1; 2; -1; -1]%Z))].
Proof.
  split; [vm_compute; reflexivity|]. split; [intros g H; cbn in H; intuition (subst; reflexivity)|].
  vm_compute. reflexivity.
Qed.

(** C22: up to 15 groups the enumeration lists, at index [s], every choice of [s]
    groups exactly once, and no search reads beyond it *)
Theorem C22_enumeration_partial : forall d va s, groups_ok d va -> length va <= 15 -> s <= length va ->
  exists sets, nth_error (power cut15 va 0) s = Some sets /\ NoDup sets /\
    forall S, In S sets <-> exists T, In T (subs va) /\ length T = s /\ concat T = S.
Proof. exact power_exact. Qed.
Print Assumptions C22_enumeration_partial.
Theorem C22_in_bounds_partial : forall v d pi P stop N va lo, length va <= 15 ->
  search v d pi P cut15 stop N va lo <> None.
Proof. exact search_some. Qed.
Print Assumptions C22_in_bounds_partial.
Theorem C22_in_bounds_clf : forall v d pi P limit stop N va lo,
  search_clf v d pi P limit stop N va lo <> None.
Proof. exact search_clf_some. Qed.
Print Assumptions C22_in_bounds_clf.
(** with 17 columns the enumeration stops after size 7 and the search reads size 8,
    even with the early stop; with 16 columns without it *)
Theorem C22_in_bounds_refuted : exists d P pi, groups_ok d (tree_groups [[]] d) /\
  (0 < pi)%Q /\ (pi <= 1)%Q /\ search v_tree d pi P cut15 true 1 (tree_groups [[]] d) 1 = None.
Proof. exact truncated_17. Qed.
Print Assumptions C22_in_bounds_refuted.
Theorem C22_in_bounds_no_stop_refuted : exists d P pi, groups_ok d (tree_groups [[]] d) /\ d = 16 /\
  (0 < pi)%Q /\ (pi <= 1)%Q /\ search v_tree d pi P cut15 false 1 (tree_groups [[]] d) 1 = None.
Proof. exact truncated_16. Qed.
Print Assumptions C22_in_bounds_no_stop_refuted.
(** the searches that only visit the enumerated sizes stay in bounds but miss
    sufficient sets *)
Theorem C22_complete_clf_refuted : exists d P pi st T, groups_ok d (tree_groups [[]] d) /\
  search_clf v_tree d pi P cut15 false 1 (tree_groups [[]] d) 1 = Some st /\
  In T (subs (tree_groups [[]] d)) /\ 1 <= length T /\
  (r_sdp (s_rows st 0%nat) < pi)%Q /\ (pi <= P 0%nat (concat T))%Q.
Proof. exact incomplete_clf. Qed.
Print Assumptions C22_complete_clf_refuted.
Example C22_example :
  power cut15 ex_va 0 = [[[]]; [[3]; [0]; [1; 2]]; [[3; 0]; [3; 1; 2]; [0; 1; 2]]; [[3; 0; 1; 2]]] /\ length ex_va <= 15.
Proof. split; [vm_compute; reflexivity|cbn; lia]. Qed.

(** C23: the list of all sufficient explanations *)
Theorem C23_all_minimal_sufficient : forall pi P d va lo, groups_ok d va -> length va <= 15 ->
  exists f, sufficient_expl pi P va lo = Some f /\
    minimal_family va lo pi P (f_sets (strip_suff f)) /\
    length (f_sdp (strip_suff f)) = length (f_sets (strip_suff f)) /\
    (forall i S, nth_error (f_sets (strip_suff f)) i = Some (map Z.of_nat S) ->
       nth_error (f_sdp (strip_suff f)) i = Some (P S)).
Proof. exact sufficient_expl_family. Qed.
Print Assumptions C23_all_minimal_sufficient.
Example C23_example :
  (forall P, P = (fun S => if memb 3 S then 1 else if memb 0 S && memb 1 S then (19 # 20) else 0)%Q ->
   match sufficient_expl (9 # 10) P ex_va1 1 with
   | None => False
   | Some f => f_sets (strip_suff f) = [[3]; [0; 1]]%Z /\ f_sdp (strip_suff f) = [1%Q; 19 # 20]
   end).
Proof. intros P ->. vm_compute. auto. Qed.

(** C24: active and null variables *)
Theorem C24_active_null_partition : forall d star len,
  NoDup (firstn len star) -> (forall z, In z (firstn len star) -> (0 <= z < Z.of_nat d)%Z) ->
  Permutation (fst (active_null d star len) ++ snd (active_null d star len)) (map Z.of_nat (seq 0 d)).
Proof. exact active_null_perm. Qed.
Print Assumptions C24_active_null_partition.
(** every row found by a search meets the hypotheses above *)
Theorem C24_search_rows_partition : forall v d pi P limit stop N va lo st k,
  groups_ok d va -> (0 < pi)%Q -> (pi <= 1)%Q -> k < N ->
  search v d pi P limit stop N va lo = Some st -> (pi <= r_sdp (s_rows st k))%Q ->
  let an := active_null d (r_star (s_rows st k)) (r_len (s_rows st k)) in
  Permutation (fst an ++ snd an) (map Z.of_nat (seq 0 d)).
Proof. exact search_active_null. Qed.
Print Assumptions C24_search_rows_partition.
Theorem C24_null_coalition_partial : forall d S, NoDup S -> (forall x, In x S -> x < d) ->
  let star := map Z.of_nat S ++ repeat (-1)%Z (d - length S) in
  exists nul, null_coalition d star (length S) = Some (repeat (-1)%Z (length S) ++ nul) /\
    Permutation (map Z.of_nat S ++ nul) (map Z.of_nat (seq 0 d)).
Proof. exact null_coalition_neat. Qed.
Print Assumptions C24_null_coalition_partial.
(** get_null_coalition raises on the stale rows of C21 *)
Theorem C24_null_coalition_refuted : exists C space P st,
  groups_ok 6 (search_groups C space) /\
  search v_rf 6 (9 # 10) P cut15 true 1 (search_groups C space) 1 = Some st /\
  (9 # 10 <= r_sdp (s_rows st 0%nat))%Q /\
  null_coalition 6 (r_star (s_rows st 0)) (r_len (s_rows st 0)) = None.
Proof. exact null_coalition_stale. Qed.
Print Assumptions C24_null_coalition_refuted.
Example C24_example :
  active_null 4 [3; 0; -1; -1]%Z 2 = ([3; 0]%Z, [1; 2]%Z) /\
  null_coalition 4 [3; 0; -1; -1]%Z 2 = Some [-1; -1; 1; 2]%Z.
Proof. vm_compute. auto. Qed.

(** C50: the divergent searches *)
Theorem C50_divergent_set_minimal : forall d pi Pd limit stop N va lo st k,
  groups_ok d va -> (0 < pi)%Q -> (pi <= 1)%Q -> k < N ->
  search v_rf d pi (on_complement d Pd) limit stop N va lo = Some st -> (pi <= r_sdp (s_rows st k))%Q ->
  exists T, minimal_sufficient d va lo pi (fun S => Pd k (complement d S)) T (r_sdp (s_rows st k)) /\
     reported (s_rows st k) = map Z.of_nat (concat T) /\ r_len (s_rows st k) = length (concat T).
Proof. exact search_complement. Qed.
Print Assumptions C50_divergent_set_minimal.
Theorem C50_no_exception : forall d va T, groups_ok d va -> In T (subs va) ->
  s_bar d (concat T) = Some (complement d (concat T)).
Proof. exact s_bar_candidates. Qed.
Print Assumptions C50_no_exception.
Example C50_example :
  (forall Pd, Pd = (fun (_ : nat) S => if memb 1 S || memb 2 S then 0 else 1)%Q ->
  show 1 (search v_rf 4 (9 # 10) (on_complement 4 Pd) cut15 true 1 ex_va1 1) = Some [(1%Q, (2, [1; 2; -1; -1]%Z))] /\
  complement 4 [1; 2] = [0; 3]).
Proof. intros Pd ->. vm_compute. auto. Qed.

(** C53: the global importance of the list of all sufficient explanations *)
Theorem C53_suff_global_partial : forall d pi (P : nat -> list nat -> Q) va lo fs j,
  groups_ok d va -> length va <= 15 ->
  (forall k f, nth_error fs k = Some f -> sufficient_expl pi (P k) va lo = Some f) ->
  (exists f, In f fs /\ f_sets (strip_suff f) <> []) ->
  exists g, suff_global fs j = Some g /\
    (g == Qn (length (filter (existsb (Z.eqb (Z.of_nat j))) (concat (fst (api_sufficient fs)))))
          / Qn (length (concat (fst (api_sufficient fs)))))%Q /\ (0 <= g <= 1)%Q.
Proof. exact suff_global_frequency. Qed.
Print Assumptions C53_suff_global_partial.
(** no explanation at all: 0/0 *)
Theorem C53_suff_global_refuted : exists P f,
  sufficient_expl (9 # 10) P ex_va1 1 = Some f /\ suff_global [f] 0 = None.
Proof. exact (ex_intro _ (fun _ => 0%Q) (ex_intro _ suff0 (conj eq_refl eq_refl))). Qed.
Print Assumptions C53_suff_global_refuted.
Example C53_example :
  match sufficient_expl (9 # 10) (ex_P 0) ex_va1 1, sufficient_expl (9 # 10) (ex_P 1) ex_va1 1 with
  | Some f, Some g => map (fun j => option_map Qred (suff_global [f; g] j)) [0; 1; 2; 3]
                      = map Some [1 # 2; 1 # 2; 1 # 2; 1 # 2] /\ api_sufficient [f; g] = ([[[1; 2]%Z]; [[3; 0]%Z]], [[19 # 20]; [1%Q]])
  | _, _ => False
  end.
Proof. vm_compute. auto. Qed.

(** C54: the answers returned to the user list sets and probabilities in step *)
Theorem C54_api_aligned_partial : forall d pi (P : nat -> list nat -> Q) va lo fs,
  groups_ok d va -> length va <= 15 ->
  (forall k f, nth_error fs k = Some f -> sufficient_expl pi (P k) va lo = Some f) ->
  aligned P (api_sufficient fs).
Proof. exact api_sufficient_aligned. Qed.
Print Assumptions C54_api_aligned_partial.
(** the counterfactual version slices the list of rows instead *)
Theorem C54_api_aligned_cxpl_refuted : exists f,
  sufficient_expl (9 # 10) (ex_P 0) ex_va1 1 = Some f /\ ~ aligned ex_P (api_sufficient_cxpl [f]).
Proof. exact (cxpl_not_aligned (9 # 10) (ex_P 0) ex_P ex_va1 1 eq_refl). Qed.
Print Assumptions C54_api_aligned_cxpl_refuted.

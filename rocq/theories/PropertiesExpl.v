(** Property theorems C86-C88: the objects that carry the explanations.  Each is proved
    by a lemma of ExplProofs.v. *)
From Verif Require Import Base GameSpec TreeModel ShapModel ShapSpec ShapProofs SearchModel SearchSpec SearchProofs
  PropertiesTree PropertiesShap ExplModel ExplSpec ExplProofs.
From Coq Require Import NArith.

(** C86: which forest the explanations use, after any sequence of calls. *)
Theorem C86_unfitted : forall F R cls (h : list (op F R)), last_fit h = None ->
  ask cls h Explain = Unfitted /\ ask cls h Predict = Unfitted.
Proof. exact life_unfitted. Qed.
Print Assumptions C86_unfitted.
Theorem C86_first_explanation : forall F R cls (h : list (op F R)) f d,
  last_fit h = Some (f, d) -> never_explained h ->
  ask cls h Explain = Used f d (if cls then None else Some f).
Proof. exact life_first. Qed.
Print Assumptions C86_first_explanation.
(** from the first explanation on the forest used stays the one fitted before it, while
    the default levels of regression come from the last fit *)
Theorem C86_later_explanations : forall F R cls (h h1 h2 : list (op F R)) f d g e,
  first_explained h h1 h2 -> last_fit h1 = Some (f, d) -> last_fit h = Some (g, e) ->
  ask cls h Explain = Used f d (if cls then None else Some g).
Proof. exact life_later. Qed.
Print Assumptions C86_later_explanations.
(** the full statement, "explanations use the last fitted forest", holds when nothing is
    fitted after the first explanation *)
Theorem C86_current_partial : forall F R cls (h : list (op F R)) f d, last_fit h = Some (f, d) ->
  (forall h1 h2, first_explained h h1 h2 -> forall f d, ~ In (Fit f d) h2) ->
  ask cls h Explain = Used f d (if cls then None else Some f).
Proof. exact life_current. Qed.
Print Assumptions C86_current_partial.
Theorem C86_current_refuted : exists (h : list (op nat nat)) f d g e, last_fit h = Some (f, d) /\
  ask true h Explain = Used g e None /\ g <> f /\ e <> d.
Proof.
  exact (ex_intro _ [Fit 1 4; Explain; Fit 2 5] (ex_intro _ 2 (ex_intro _ 5 (ex_intro _ 1 (ex_intro _ 4
    (conj eq_refl (conj eq_refl (conj (Nat.lt_neq 1 2 (le_n 2)) (Nat.lt_neq 4 5 (le_n 5)))))))))).
Qed.
Print Assumptions C86_current_refuted.
Theorem C86_levels_refuted : exists (h : list (op nat nat)) f d g,
  ask false h Explain = Used f d (Some g) /\ f <> g.
Proof.
  exact (ex_intro _ [Fit 1 4; Explain; Fit 2 5] (ex_intro _ 1 (ex_intro _ 4 (ex_intro _ 2
    (conj eq_refl (Nat.lt_neq 1 2 (le_n 2))))))).
Qed.
Print Assumptions C86_levels_refuted.
(** predictions and global rules follow the last fit *)
Theorem C86_predict : forall F R cls (h : list (op F R)),
  ask cls h Predict = match last_fit h with Some (f, _) => Predicted f | None => Unfitted end.
Proof. exact life_predict. Qed.
Print Assumptions C86_predict.
Theorem C86_global_rules : forall F R cls (h : list (op F R)),
  ask cls h PredictRules = match last_rules h with Some r => Ruled r | None => Unfitted end.
Proof. exact life_rules. Qed.
Print Assumptions C86_global_rules.
Example C86_example :
  let h := [Explain; Fit 1 4; Predict; Fit 2 5; Explain; FitRules 7; Explain] : list (op nat nat) in
  last_fit h = Some (2, 5) /\ first_explained h [Explain; Fit 1 4; Predict; Fit 2 5] [FitRules 7; Explain] /\
  ask false h Explain = Used 2 5 (Some 2) /\ ask true h Explain = Used 2 5 None /\
  ask true h PredictRules = Ruled 7 /\ ask true [Explain] Explain = (Unfitted : answer nat nat) /\
  ask true (h ++ [Fit 3 5]) Explain = Used 2 5 None /\ ask true (h ++ [Fit 3 5]) Predict = Predicted 3.
Proof.
  cbv zeta. split; [reflexivity|]. split; [|repeat split].
  split; [reflexivity|]. split; [discriminate|].
  intros h1 h2 E. destruct h1 as [|? [|? [|? [|? [|? h1]]]]]; try discriminate; reflexivity.
Qed.

(** C87: the columns the searches look at. *)
Theorem C87_space : forall imp d order, ranked imp d order ->
  NoDup (agnostic_space d order) /\ length (agnostic_space d order) = Nat.min 10 d /\
  (forall x, In x (agnostic_space d order) -> x < d) /\
  (d <= 10 -> agnostic_space d order = seq 0 d) /\
  (10 < d -> forall a b, In a (agnostic_space d order) -> b < d -> ~ In b (agnostic_space d order) ->
     (imp b <= imp a)%Q).
Proof. exact space_choice. Qed.
Print Assumptions C87_space.
Theorem C87_space_tree : forall flat d order C, counted flat order -> C = [[]] -> 10 < d ->
  exists sp, tree_space_groups d order C = map (fun i => [i]) sp /\ NoDup sp /\
    length sp = Nat.min 10 (length order) /\ (forall x, In x sp -> In x flat) /\
    (forall a b, In a sp -> ~ In b sp -> count_occ Nat.eq_dec flat b <= count_occ Nat.eq_dec flat a).
Proof. exact space_choice_tree. Qed.
Print Assumptions C87_space_tree.
(** the enumeration cut of C22 is never met through these calls *)
Theorem C87_defined : forall imp d order C pi P stop N minimal, ranked imp d order -> coal_ok C d ->
  agnostic_search d order C pi P stop N minimal <> None.
Proof. exact agnostic_defined. Qed.
Print Assumptions C87_defined.
(** found and not found, with respect to the groups met by the chosen columns *)
Theorem C87_found_partial : forall imp d order C pi P stop N minimal st k,
  ranked imp d order -> coal_ok C d -> (0 < pi)%Q -> (pi <= 1)%Q -> k < N ->
  agnostic_search d order C pi P stop N minimal = Some st -> (pi <= r_sdp (s_rows st k))%Q ->
  exists T, minimal_sufficient d (search_groups C (agnostic_space d order)) minimal pi (P k) T (r_sdp (s_rows st k)) /\
    reported (s_rows st k) = map Z.of_nat (concat T) /\ r_len (s_rows st k) = length (concat T).
Proof. exact agnostic_found. Qed.
Print Assumptions C87_found_partial.
Theorem C87_not_found_partial : forall imp d order C pi P N minimal st k,
  ranked imp d order -> coal_ok C d -> (0 < pi)%Q -> (pi <= 1)%Q -> k < N ->
  agnostic_search d order C pi P false N minimal = Some st -> (r_sdp (s_rows st k) < pi)%Q ->
  forall T, In T (subs (search_groups C (agnostic_space d order))) -> minimal <= length T -> (P k (concat T) < pi)%Q.
Proof. exact agnostic_not_found. Qed.
Print Assumptions C87_not_found_partial.
Theorem C87_tree_found_partial : forall flat d order C pi P stop N minimal st k,
  counted flat order -> (forall x, In x flat -> x < d) -> coal_ok C d -> (0 < pi)%Q -> (pi <= 1)%Q -> k < N ->
  tree_search d order C pi P stop N minimal = Some st -> (pi <= r_sdp (s_rows st k))%Q ->
  exists T, minimal_sufficient d (tree_space_groups d order C) minimal pi (P k) T (r_sdp (s_rows st k)) /\
    reported (s_rows st k) = map Z.of_nat (concat T) /\ r_len (s_rows st k) = length (concat T).
Proof. exact tree_api_found. Qed.
Print Assumptions C87_tree_found_partial.
Theorem C87_tree_not_found_partial : forall flat d order C pi P N minimal st k,
  counted flat order -> (forall x, In x flat -> x < d) -> coal_ok C d -> (0 < pi)%Q -> (pi <= 1)%Q -> k < N ->
  tree_search d order C pi P false N minimal = Some st -> (r_sdp (s_rows st k) < pi)%Q ->
  forall T, In T (subs (tree_space_groups d order C)) -> minimal <= length T -> (P k (concat T) < pi)%Q.
Proof. exact tree_api_not_found. Qed.
Print Assumptions C87_tree_not_found_partial.

Definition ex_imp (i : nat) : Q := Qn (20 - i).
Lemma ex_ranked : ranked ex_imp 11 (seq 0 11).
Proof.
  split; [apply Permutation_refl|]. intros i j a b Hij Ha Hb.
  assert (Hs : forall n x, nth_error (seq 0 11) n = Some x -> x = n).
  { intros n x H. assert (Hn : n < 11) by (rewrite <- (seq_length 11 0); apply nth_error_Some; congruence).
    apply (nth_error_nth _ _ 0) in H. rewrite seq_nth in H by exact Hn. lia. }
  rewrite (Hs _ _ Ha), (Hs _ _ Hb). unfold ex_imp. apply Qn_le. lia.
Qed.
(** with eleven columns the explanation reported may be larger than needed, and a
    sufficient one may be missed altogether *)
Theorem C87_minimal_refuted : exists imp order (P : nat -> list nat -> Q) st, ranked imp 11 order /\
  agnostic_search 11 order [[]] (9 # 10) P false 1 1 = Some st /\ (9 # 10 <= r_sdp (s_rows st 0%nat))%Q /\
  reported (s_rows st 0) = [0; 1]%Z /\ (9 # 10 <= P 0%nat [10%nat])%Q.
Proof.
  exists ex_imp, (seq 0 11),
    (fun _ S => if memb 10 S then 1 else if memb 0 S && memb 1 S then (19 # 20) else (1 # 2))%Q.
  eexists. split; [exact ex_ranked|]. split; [vm_compute; reflexivity|]. 
  split; [vm_compute; discriminate|]. split; [vm_compute; reflexivity|vm_compute; discriminate].
Qed.
Print Assumptions C87_minimal_refuted.
Theorem C87_complete_refuted : exists imp order (P : nat -> list nat -> Q) st, ranked imp 11 order /\
  agnostic_search 11 order [[]] (9 # 10) P false 1 1 = Some st /\ (r_sdp (s_rows st 0%nat) < 9 # 10)%Q /\
  (9 # 10 <= P 0%nat [10%nat])%Q.
Proof.
  exists ex_imp, (seq 0 11), (fun _ S => if memb 10 S then 1 else (1 # 2))%Q.
  eexists. split; [exact ex_ranked|]. split; [vm_compute; reflexivity|]. split; [vm_compute; reflexivity|vm_compute; discriminate].
Qed.
Print Assumptions C87_complete_refuted.
Example C87_example :
  ranked ex_imp 11 (seq 0 11) /\ coal_ok [[3; 10]] 11 /\
  search_groups [[3; 10]] (agnostic_space 11 (seq 0 11)) = [[0]; [1]; [2]; [4]; [5]; [6]; [7]; [8]; [9]; [3; 10]] /\
  tree_space_groups 12 [11; 4; 0] [[4; 5]; [6; 7]] = [[11]; [0]; [4; 5]] /\
  tree_space_groups 4 [3; 0] [[1; 2]] = [[0]; [3]; [1; 2]] /\
  counted [4; 11; 0; 11; 4; 11] [11; 4; 0].
Proof.
  split; [exact ex_ranked|]. split.
  { split; [repeat constructor; cbn; intuition discriminate|]. split; [intros x H; cbn in H; intuition lia|right; cbn; intuition discriminate]. }
  split; [reflexivity|]. split; [reflexivity|]. split; [reflexivity|].
  split; [repeat constructor; cbn; intuition discriminate|]. split; [intros v; cbn; intuition|].
  intros i j a b Hij Ha Hb.
  destruct i as [|[|[|i]]]; destruct j as [|[|[|j]]]; cbn in Ha, Hb; try lia; try discriminate;
    try (injection Ha as <-; injection Hb as <-; vm_compute; lia);
    match goal with H : nth_error [] ?n = _ |- _ => destruct n; discriminate end.
Qed.

(** C88: Shapley values of [ACVTree.shap_values], with or without the cache.  The full
    statement, "the cache does not change the values", holds for the coalitions given to the
    constructor. *)
Theorem C88_cache_partial : forall cache_on C m data forest x j,
  (api_shap_values cache_on C C m data forest x j == api_shap_values false [] C m data forest x j)%Q.
Proof. exact api_cache_same. Qed.
Print Assumptions C88_cache_partial.
Theorem C88_cache_refuted : exists C0 C m data forest x j,
  coalitions_ok C m /\ forest_ok m forest /\ data <> [] /\ C0 = [[]] /\
  ~ (api_shap_values true C0 C m data forest x j == api_shap_values false C0 C m data forest x j)%Q.
Proof.
  exists [[]], ex_C, 3, ex_data, ex_forest, ex_x, 1.
  split; [exact ex_C_ok|]. split; [exact ex_forest_ok|]. split; [discriminate|]. split; [reflexivity|].
  vm_compute. discriminate.
Qed.
Print Assumptions C88_cache_refuted.
Example C88_example :
  map (fun j => Qred (api_shap_values true ex_C ex_C 3 ex_data ex_forest ex_x j)) [0; 1; 2]
  = map (fun j => Qred (api_shap_values false [[]] ex_C 3 ex_data ex_forest ex_x j)) [0; 1; 2] /\
  map (fun j => Qred (api_shap_values true [[]] ex_C 3 ex_data ex_forest ex_x j)) [0; 1; 2]
  <> map (fun j => Qred (api_shap_values false [[]] ex_C 3 ex_data ex_forest ex_x j)) [0; 1; 2] /\
  (* neither the values of the constructor's coalitions nor those of the call's *)
  map (fun j => Qred (api_shap_values true [[]] ex_C 3 ex_data ex_forest ex_x j)) [0; 1; 2] = [20 # 3; -26 # 3; 20 # 3]%Q /\
  map (fun j => Qred (api_shap_values true [[]] [[]] 3 ex_data ex_forest ex_x j)) [0; 1; 2] = [227 # 18; -107 # 9; -49 # 18]%Q.
Proof. vm_compute. split; [reflexivity|split; [discriminate|split; reflexivity]]. Qed.

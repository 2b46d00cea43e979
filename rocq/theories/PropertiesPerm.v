(** C111: the Shapley values that the experiments compute by enumerating the orders of arrival. *)
From Verif Require Import Base GameSpec ShapSpec ShapModel SwingModel MvnModel MvnSpec PermModel PermSpec PermProofs PropertiesMvn.
Local Open Scope nat_scope.

(** ** Concrete cases *)
Definition pm_groups : list group := [[0; 2]].
Definition pm_players : list group := [[1]; [0; 2]].
Lemma pm_ok : coalitions_ok pm_groups 3 /\ sized pm_groups /\ is_players pm_groups 3 pm_players.
Proof.
  split; [|split].
  - split; [repeat constructor; cbn; intuition discriminate|]. split; [|exact I]. intros i Hi. cbn in Hi. lia.
  - split; [discriminate|]. right. intros c [<-|[]]. cbn. lia.
  - split; [repeat constructor; cbn; intuition discriminate|]. intro g. split.
    + intros [<-|[<-|[]]]; [right; exists 1; cbn; intuition (lia || discriminate)|left; split; [now left|discriminate]].
    + intros [[[<-|[]] _]|[i [Hi [Hn ->]]]]; [right; now left|]. left. cbn in Hn.
      destruct i as [|[|[|i]]]; [tauto|reflexivity|tauto|lia].
Qed.
Definition pm_cov : mat := fun i j => nth j (nth i [[2; 1]; [1; 1]]%Q []) 0%Q.
Definition pm_x : vec := fun i => nth i [3; 5]%Q 0%Q.
Definition pm_coefs : vec := fun i => nth i [1; 0]%Q 0%Q.
Definition pm_zero : vec := fun _ => 0%Q.
Definition pm_none : list group := [[]].
Lemma pm_none_ok d : coalitions_ok pm_none d /\ sized pm_none.
Proof. split; [|split; [discriminate|now left]]. split; [constructor|]. split; [intros i []|reflexivity]. Qed.
Lemma pm_pairs : is_players pm_none 2 [[0]; [1]].
Proof.
  split; [repeat constructor; cbn; intuition discriminate|]. intro g. split.
  - intros [<-|[<-|[]]]; right; [exists 0|exists 1]; cbn; intuition lia.
  - intros [[[<-|[]] Hn]|[i [Hi [_ ->]]]]; [congruence|]. destruct i as [|[|i]]; [now left|right; now left|lia].
Qed.
Lemma pm_cases (S : list nat) : NoDup S -> (forall k, In k S -> k < 2) -> In S [[]; [0]; [1]; [0; 1]; [1; 0]].
Proof.
  intros Hd Hr. assert (HL : length S <= 2).
  { change 2 with (length (seq 0 2)). apply NoDup_incl_length; [exact Hd|]. intros k Hk. apply in_seq. specialize (Hr k Hk). lia. }
  destruct S as [|a [|b [|c S]]]; [now left| | |cbn in HL; lia].
  - specialize (Hr a (or_introl eq_refl)). destruct a as [|[|a]]; [right; now left|right; right; now left|lia].
  - pose proof (Hr a (or_introl eq_refl)). pose proof (Hr b (or_intror (or_introl eq_refl))).
    inversion Hd as [|? ? Hn _]; subst. assert (a <> b) by (intro; subst; apply Hn; now left).
    destruct a as [|[|a]]; destruct b as [|[|b]]; try lia; cbn; tauto.
Qed.
Lemma pm_total (S : list nat) : NoDup S -> (forall k, In k S -> k < 2) -> cond_exp_linear ex_inv 2 pm_zero pm_cov pm_coefs pm_x S <> None.
Proof.
  intros Hd Hr H. pose proof (pm_cases S Hd Hr) as Hc.
  assert (G : forallb (fun S => match cond_exp_linear ex_inv 2 pm_zero pm_cov pm_coefs pm_x S with Some _ => true | None => false end)
    [[]; [0]; [1]; [0; 1]; [1; 0]] = true) by (vm_compute; reflexivity).
  rewrite forallb_forall in G. apply G in Hc. rewrite H in Hc. discriminate.
Qed.
Definition pm_diag : mat := fun i j => nth j (nth i [[2; 0]; [0; 3]]%Q []) 0%Q.
Lemma pm_diag_total (S : list nat) : NoDup S -> (forall k, In k S -> k < 2) -> cond_exp_linear ex_inv 2 pm_zero pm_diag pm_coefs pm_x S <> None.
Proof.
  intros Hd Hr H. pose proof (pm_cases S Hd Hr) as Hc.
  assert (G : forallb (fun S => match cond_exp_linear ex_inv 2 pm_zero pm_diag pm_coefs pm_x S with Some _ => true | None => false end)
    [[]; [0]; [1]; [0; 1]; [1; 0]] = true) by (vm_compute; reflexivity).
  rewrite forallb_forall in G. apply G in Hc. rewrite H in Hc. discriminate.
Qed.

(** ** Any value function *)
(** The average over the orders of arrival is the Shapley value of the group of the variable. *)
Theorem C111_shapley : forall v C d, coalitions_ok C d -> sized C -> set_function d v ->
  forall P j g, is_players C d P -> In g P -> In j g ->
  exists r, perm_shap v C d j = Some r /\ (r == shapley gdec P (fun T => the (v (concat T))) g)%Q.
Proof. exact perm_is_shapley. Qed.
Print Assumptions C111_shapley.
Theorem C111_efficiency : forall v C d, coalitions_ok C d -> sized C -> set_function d v ->
  forall P rep, is_players C d P -> (forall g, In g P -> In (rep g) g) ->
  (sumf (fun g => the (perm_shap v C d (rep g))) P == the (v (seq 0 d)) - the (v []))%Q.
Proof. exact perm_efficiency. Qed.
Print Assumptions C111_efficiency.
(** the library's own enumeration gives the same numbers *)
Theorem C111_library : forall v C d j, is_game v -> coalitions_ok C d -> sized C -> j < d ->
  exists r q, perm_shap (fun S => Some (v S)) C d j = Some r /\ py_shap v C d j = Some q /\ (r == q)%Q.
Proof. exact perm_library. Qed.
Print Assumptions C111_library.
(** the game that counts the pairs of variables *)
Definition pm_pairs_game (S : list nat) : Q := Qn (length S * length S).
Lemma pm_pairs_is_game : is_game pm_pairs_game.
Proof. intros T U HP. unfold pm_pairs_game. rewrite (Permutation_length HP). reflexivity. Qed.
Example C111_shapley_example : coalitions_ok pm_groups 3 /\ sized pm_groups /\ is_players pm_groups 3 pm_players /\
  is_game pm_pairs_game /\ set_function 3 (fun S => Some (pm_pairs_game S)) /\
  map (fun j => option_map Qred (perm_shap (fun S => Some (pm_pairs_game S)) pm_groups 3 j)) [0; 1; 2] = [Some 6%Q; Some 3%Q; Some 6%Q] /\
  map (fun j => option_map Qred (py_shap pm_pairs_game pm_groups 3 j)) [0; 1; 2] = [Some 6%Q; Some 3%Q; Some 6%Q].
Proof.
  split; [apply pm_ok|]. split; [apply pm_ok|]. split; [apply pm_ok|]. split; [exact pm_pairs_is_game|]. split.
  - intros S S' _ _ HP. eexists _, _. split; [reflexivity|]. split; [reflexivity|]. now apply pm_pairs_is_game.
  - vm_compute. auto.
Qed.
(** Exactly the groups of one variable, or an empty list of groups, raise. *)
Theorem C111_raises : forall v C d, coalitions_ok C d -> set_function d v -> 0 < d ->
  ((forall j, perm_shap v C d j = None) <-> ~ sized C).
Proof. exact perm_raises. Qed.
Print Assumptions C111_raises.
Theorem C111_single_refuted : exists v C d j, coalitions_ok C d /\ set_function d v /\ j < d /\ perm_shap v C d j = None.
Proof.
  exists (fun _ => Some 0%Q), [[1]], 2, 0. split.
  - split; [repeat constructor; intros []|]. split; [|exact I]. intros i [<-|[]]. lia.
  - split; [|split; [lia|vm_compute; reflexivity]]. intros S S' _ _ _. exists 0%Q, 0%Q. split; [reflexivity|]. split; reflexivity.
Qed.
Print Assumptions C111_single_refuted.

(** ** Linear models *)
(** The interventional values: the coefficient times the distance to the mean, added over the group. *)
Theorem C111_marginal : forall d mean coefs x C P g j, coalitions_ok C d -> sized C -> is_players C d P -> In g P -> In j g ->
  exists r, linear_mar_shap d mean coefs x C j = Some r /\ (r == sumf (fun k => coefs k * (x k - mean k)) g)%Q.
Proof. exact mar_closed. Qed.
Print Assumptions C111_marginal.
Example C111_marginal_example : coalitions_ok pm_groups 3 /\ sized pm_groups /\ is_players pm_groups 3 pm_players /\
  map (fun j => option_map Qred (linear_mar_shap 3 ex_mean (fun i => nth i [2; 3; 5]%Q 0%Q) (fun _ => 7%Q) pm_groups j)) [0; 1; 2] =
  [Some 32%Q; Some 15%Q; Some 32%Q].
Proof. split; [apply pm_ok|]. split; [apply pm_ok|]. split; [apply pm_ok|]. vm_compute. reflexivity. Qed.
(** The observational values are the Shapley values of the conditional expectations. *)
Theorem C111_conditional : forall inv d mean cov coefs x C P j g, inv_sound inv ->
  (forall S, NoDup S -> (forall k, In k S -> k < d) -> cond_exp_linear inv d mean cov coefs x S <> None) ->
  coalitions_ok C d -> sized C -> is_players C d P -> In g P -> In j g ->
  exists r, linear_shap inv d mean cov coefs x C j = Some r /\
    (r == shapley gdec P (fun T => the (cond_exp_linear inv d mean cov coefs x (concat T))) g)%Q.
Proof. exact linear_is_shapley. Qed.
Print Assumptions C111_conditional.
Theorem C111_sum_partial : forall inv d mean cov coefs x C P rep, inv_sound inv ->
  (forall S, NoDup S -> (forall k, In k S -> k < d) -> cond_exp_linear inv d mean cov coefs x S <> None) ->
  coalitions_ok C d -> sized C -> is_players C d P -> (forall g, In g P -> In (rep g) g) ->
  (sumf (fun g => the (linear_shap inv d mean cov coefs x C (rep g))) P == sumf (fun k => coefs k * (x k - mean k)) (seq 0 d))%Q.
Proof. exact linear_efficiency. Qed.
Print Assumptions C111_sum_partial.
Example C111_conditional_example : inv_sound ex_inv /\
  (forall S, NoDup S -> (forall k, In k S -> k < 2) -> cond_exp_linear ex_inv 2 pm_zero pm_cov pm_coefs pm_x S <> None) /\
  coalitions_ok pm_none 2 /\ sized pm_none /\ is_players pm_none 2 [[0]; [1]] /\
  map (fun j => option_map Qred (linear_shap ex_inv 2 pm_zero pm_cov pm_coefs pm_x pm_none j)) [0; 1] = [Some (1 # 2)%Q; Some (5 # 2)%Q].
Proof.
  split; [exact ex_inv_sound|]. split; [exact pm_total|]. split; [exact (proj1 (pm_none_ok 2))|].
  split; [exact (proj2 (pm_none_ok 2))|]. split; [exact pm_pairs|]. vm_compute. reflexivity.
Qed.
(** Without correlations they are the interventional values. *)
Theorem C111_uncorrelated : forall inv d mean cov coefs x C P g j, uncorrelated d cov ->
  (forall S, NoDup S -> (forall k, In k S -> k < d) -> cond_exp_linear inv d mean cov coefs x S <> None) ->
  coalitions_ok C d -> sized C -> is_players C d P -> In g P -> In j g ->
  exists r, linear_shap inv d mean cov coefs x C j = Some r /\ (r == sumf (fun k => coefs k * (x k - mean k)) g)%Q.
Proof. exact uncorrelated_same. Qed.
Print Assumptions C111_uncorrelated.
Example C111_uncorrelated_example : uncorrelated 2 pm_diag /\
  (forall S, NoDup S -> (forall k, In k S -> k < 2) -> cond_exp_linear ex_inv 2 pm_zero pm_diag pm_coefs pm_x S <> None) /\
  map (fun j => option_map Qred (linear_shap ex_inv 2 pm_zero pm_diag pm_coefs pm_x pm_none j)) [0; 1] = [Some 3%Q; Some 0%Q].
Proof.
  split; [|split; [exact pm_diag_total|vm_compute; reflexivity]].
  intros i j Hi Hj Hn. destruct i as [|[|i]]; destruct j as [|[|j]]; try lia; reflexivity.
Qed.
(** With correlations a variable that the model does not use gets a value. *)
Theorem C111_unused_refuted : exists inv d mean cov coefs x j r, inv_sound inv /\ symm d cov /\ psd d cov /\ j < d /\ coefs j = 0%Q /\
  linear_shap inv d mean cov coefs x [[]] j = Some r /\ ~ (r == 0)%Q.
Proof.
  exists ex_inv, 2, pm_zero, pm_cov, pm_coefs, pm_x, 1. eexists. split; [exact ex_inv_sound|]. split.
  { intros i j Hi Hj. destruct i as [|[|i]]; destruct j as [|[|j]]; try lia; reflexivity. }
  split.
  { intro u. assert (E : (covar 2 pm_cov u u == (u 0%nat + u 1%nat) * (u 0%nat + u 1%nat) + u 0%nat * u 0%nat)%Q).
    { unfold covar. cbn [seq sumf pm_cov nth]. ring. }
    rewrite E. assert (Hs : forall a, (0 <= a * a)%Q) by (intro a; nra).
    pose proof (Hs (u 0)). pose proof (Hs (u 0%nat + u 1%nat)%Q). lra. }
  split; [lia|]. split; [reflexivity|]. split; [vm_compute; reflexivity|]. vm_compute. discriminate.
Qed.
Print Assumptions C111_unused_refuted.
(** Every member of a group gets the value of the group: the entries do not add up to the difference between the prediction
    and its mean. *)
Theorem C111_sum_refuted : exists d mean coefs x C, coalitions_ok C d /\ sized C /\
  ~ (sumf (fun j => the (linear_mar_shap d mean coefs x C j)) (seq 0 d) == sumf (fun k => coefs k * (x k - mean k)) (seq 0 d))%Q.
Proof.
  exists 3, pm_zero, (fun _ => 1%Q), (fun _ => 1%Q), pm_groups. split; [apply pm_ok|]. split; [apply pm_ok|].
  vm_compute. discriminate.
Qed.
Print Assumptions C111_sum_refuted.
(** Overlapping groups are accepted, and the number of players is wrong: a variable gets more than all the variables together. *)
Theorem C111_overlap_refuted : exists d mean coefs x C j r, (forall c, In c C -> 2 <= length c /\ NoDup c /\ forall k, In k c -> k < d) /\
  (forall k, 0 <= coefs k * (x k - mean k))%Q /\
  linear_mar_shap d mean coefs x C j = Some r /\ (sumf (fun k => coefs k * (x k - mean k)) (seq 0 d) < r)%Q.
Proof.
  exists 3, pm_zero, (fun _ => 1%Q), (fun _ => 1%Q), [[0; 1]; [1; 2]], 1. eexists. split.
  { intros c [<-|[<-|[]]]; (split; [cbn; lia|]); (split; [repeat constructor; cbn; intuition discriminate|]); cbn; intros k Hk; lia. }
  split; [intro k; discriminate|]. split; [vm_compute; reflexivity|]. vm_compute. reflexivity.
Qed.
Print Assumptions C111_overlap_refuted.

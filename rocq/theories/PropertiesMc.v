(** C113: the Monte Carlo expectations on a mixture of Gaussian vectors and on a single one. *)
From Verif Require Import Base MvnModel MvnSpec MvnProofs PermSpec GmmModel GmmSpec GmmProofs McModel McSpec McProofs PropertiesMvn PropertiesPerm PropertiesGmm.
Local Open Scope nat_scope.

(** ** Concrete generators *)
(** the draws have exactly the frequencies asked for, if that is possible *)
Definition mc_choice (classes : list cls) (p : list Q) (N : nat) : option (list cls) :=
  let c := fun i => Z.to_nat (Qnum (Qred (Qn N * nth i p 0)%Q)) in
  let draws := flat_map (fun i => repeat (nth i classes Ka) (c i)) (seq 0 (length classes)) in
  if (length draws =? N) && forallb (fun i => qeqb (Qn (c i)) (Qn N * nth i p 0)%Q) (seq 0 (length classes)) then Some draws else None.
Lemma mc_choice_ok : choice_ok mc_choice.
Proof.
  intros classes p N draws H. unfold mc_choice in H. cbv zeta in H. match type of H with (if ?b then _ else _) = _ => destruct b eqn:E; [|discriminate] end.
  injection H as <-. apply andb_prop in E. destruct E as [E _]. apply Nat.eqb_eq in E. split; [exact E|].
  intros y Hy. apply in_flat_map in Hy. destruct Hy as [i [Hi K]]. apply repeat_spec in K. subst y. apply in_seq in Hi. apply nth_In. lia.
Qed.
Lemma count_app y a b : count_cls y (a ++ b) = count_cls y a + count_cls y b.
Proof. unfold count_cls. now rewrite filter_app, app_length. Qed.
Lemma count_repeat y z m : count_cls y (repeat z m) = if cls_eqb y z then m else 0.
Proof. unfold count_cls. induction m as [|m IH]; [now destruct (cls_eqb y z)|]. cbn [repeat filter]. destruct (cls_eqb y z); cbn [length]; lia. Qed.
Lemma mc_choice_exact : choice_exact mc_choice.
Proof.
  intros classes p N draws Hd H i Hi. unfold mc_choice in H. cbv zeta in H. set (c := fun i => Z.to_nat (Qnum (Qred (Qn N * nth i p 0)%Q))) in H.
  match type of H with (if ?b then _ else _) = _ => destruct b eqn:E; [|discriminate] end.
  injection H as <-. apply andb_prop in E. destruct E as [_ E]. rewrite forallb_forall in E. specialize (E i ltac:(apply in_seq; lia)). cbv beta in E.
  assert (K : (Qn (c i) == Qn N * nth i p 0)%Q) by (pose proof (qeqb_spec (Qn (c i)) (Qn N * nth i p 0)%Q) as K; unfold c in K; rewrite E in K; inversion K; assumption). rewrite <- K. clear K E.
  assert (G : forall l, NoDup l -> (forall j, In j l -> j < length classes) ->
    count_cls (nth i classes Ka) (flat_map (fun i => repeat (nth i classes Ka) (c i)) l) = if memb i l then c i else 0).
  { induction l as [|j l IH]; intros Hl Hb; [reflexivity|]. cbn [flat_map]. inversion Hl; subst. rewrite count_app, count_repeat, IH by (try assumption; intros k Hk; apply Hb; now right).
    assert (Em : memb i (j :: l) = (i =? j) || memb i l) by reflexivity. rewrite Em.
    destruct (cls_eqb_spec (nth i classes Ka) (nth j classes Ka)) as [Ee|Ee].
    - assert (i = j) by (apply (proj1 (NoDup_nth classes Ka) Hd); [exact Hi|apply Hb; now left|exact Ee]). subst j. rewrite Nat.eqb_refl. cbn [orb].
      apply memb_false in H1. rewrite H1. lia.
    - destruct (Nat.eqb_spec i j) as [->|]; [congruence|]. reflexivity. }
  rewrite G; [|apply seq_NoDup|intros j Hj; apply in_seq in Hj; lia].
  assert (M : memb i (seq 0 (length classes)) = true) by (apply memb_true, in_seq; lia). rewrite M. reflexivity.
Qed.
(** a sample with the exact mean *)
Definition mc_rvs (g : gauss) (N : nat) : option (list Q) := Some (map (fun q => Qred (g_mean g (q mod g_dim g))) (seq 0 (N * g_dim g))).
Lemma mc_rvs_ok : rvs_ok mc_rvs.
Proof. intros g N l H. injection H as <-. now rewrite map_length, seq_length. Qed.
Lemma mc_rvs_exact : rvs_exact mc_rvs.
Proof.
  intros g N l H j Hj. injection H as <-. rewrite (sumf_ext _ (fun _ => g_mean g j)), sumf_const, seq_length; [reflexivity|]. intros i Hi. apply in_seq in Hi.
  set (F := fun q => Qred (g_mean g (q mod g_dim g))). rewrite (nth_indep _ _ (F 0)) by (rewrite map_length, seq_length; nia). rewrite map_nth, seq_nth by nia.
  unfold F. rewrite Qred_correct. cbn [Nat.add]. rewrite Nat.add_comm, Nat.mod_add, Nat.mod_small by lia. reflexivity.
Qed.
(** a generator that always returns *)
Definition mc_first (classes : list cls) (p : list Q) (N : nat) : option (list cls) := match classes with [] => None | y :: _ => Some (repeat y N) end.
Lemma mc_first_ok : choice_ok mc_first.
Proof.
  intros [|y l] p N draws H; [discriminate|]. injection H as <-. split; [apply repeat_length|]. intros z Hz. apply repeat_spec in Hz. subst. now left.
Qed.
Definition lin4 : vec -> option Q := linear_gmm mx 4.
Definition mx_e : vec := fun i => nth i [1; 0; 1; 0]%Q 0%Q.
Lemma lin4_reads : reads 4 lin4. Proof. exact (linear_reads mx 4 mx_layout). Qed.
Lemma nodup_check (T : list nat) : forallb (fun i => negb (memb (nth i T 0) (firstn i T))) (seq 0 (length T)) = true -> NoDup T.
Proof.
  intro H. rewrite forallb_forall in H. apply (NoDup_nth T 0). assert (G : forall i j, i < j -> j < length T -> nth i T 0 <> nth j T 0).
  { intros i j Hij Hj K. specialize (H j ltac:(apply in_seq; lia)). apply negb_true_iff, memb_false in H. apply H. rewrite <- K, <- (firstn_skipn j T) at 1.
    rewrite app_nth1 by (rewrite firstn_length; lia). apply nth_In. rewrite firstn_length. lia. }
  intros i j Hi Hj E. destruct (Nat.lt_trichotomy i j) as [K|[K|K]]; [elim (G i j K Hj E)|exact K|elim (G j i K Hi); now symmetry].
Qed.
Ltac decided := repeat split; first [apply nodup_check; reflexivity | intros k Hk; cbn in Hk; lia | vm_compute; first [reflexivity | discriminate | lia]].

(** ** The order of the columns *)
(** The columns sorted by name are the columns in order exactly when there are at most ten. *)
Theorem C113_names : forall n, sorted_names (seq 0 n) = seq 0 n <-> n <= 10.
Proof. exact names_order. Qed.
Print Assumptions C113_names.
Example C113_names_example : sorted_names (seq 0 4) = [0; 1; 2; 3] /\ sorted_names (seq 0 12) = [0; 1; 10; 11; 2; 3; 4; 5; 6; 7; 8; 9].
Proof. split; reflexivity. Qed.

(** ** The marginal version *)
(** Full statement: the value is the mean of the model over the rows, with the known variables of the observation.  It needs at
    most ten variables. *)
Theorem C113_marginal_partial : forall f G n x T rg r, reads n f -> layout G n -> n <= 10 -> NoDup T -> in_n n T ->
  (forall row, In row rg -> length row = n) -> mar_mc f G n x T rg = Some r ->
  (r * Qn (length rg) == sumf (fun row => the (f (mixed x T row))) rg)%Q.
Proof. exact marginal_spec. Qed.
Print Assumptions C113_marginal_partial.
Example C113_marginal_example : NoDup [3; 0] /\ in_n 4 [3; 0] /\
  mx_num (mar_mc lin4 mx 4 mx_a [3; 0] [[1; 2; 1; 0]; [7; 8; 0; 1]; [0; 4; 0; 0]]%Q) = Some (17 # 3)%Q.
Proof. decided. Qed.
Definition wide_mix : gmm :=
  {| gm_d := 9; gm_cat := [9; 10]; gm_mean := fun _ _ => 0%Q; gm_cov := fun _ _ _ => 0%Q; gm_coefs := fun _ _ => 0%Q; gm_pi := fun _ => 1%Q |}.
Theorem C113_marginal_refuted : exists f G n x T rg r, reads n f /\ layout G n /\ NoDup T /\ in_n n T /\
  (forall row, In row rg -> length row = n) /\ mar_mc f G n x T rg = Some r /\
  ~ (r * Qn (length rg) == sumf (fun row => the (f (mixed x T row))) rg)%Q.
Proof.
  exists (fun v => Some (v 2)), wide_mix, 11, (fun _ => 0%Q), [0], [map Qn (seq 0 11)], (Qn 10).
  split; [intros u v H; apply H; lia|]. split; [split; reflexivity|]. split; [repeat constructor; intros []|]. split; [intros k [<-|[]]; lia|].
  split; [intros row [<-|[]]; reflexivity|]. split; [vm_compute; reflexivity|]. vm_compute. discriminate.
Qed.
Print Assumptions C113_marginal_refuted.

(** ** The conditional version *)
(** Full statement: the value is the mean of the model over draws of the class, with its probability given the known variables,
    and of the unknown numeric variables in this class.  It needs at most ten variables, the indicators in order, and if all the
    numeric variables are known these in order. *)
Theorem C113_conditional_partial : forall inv pdf rvs choice f G n, layout G n -> is_prior G -> pdf_pos pdf -> runs inv pdf G ->
  forall x T N r, reads n f -> choice_ok choice -> n <= 10 -> NoDup T -> in_n n T -> ordered G T -> (exists y, agrees G x T y = true) ->
  length (numeric G T) <> gm_d G -> cond_mc inv pdf rvs choice f G n x T N = Some r ->
  exists prob draws rows, choice (filter (agrees G x T) keys) prob N = Some draws /\
    (forall p, weight pdf G x T p -> forall i, i < length (filter (agrees G x T) keys) ->
       (nth i prob 0 == p (nth i (filter (agrees G x T) keys) Ka) / sumf p (filter (agrees G x T) keys))%Q) /\
    (forall y, agrees G x T y = true -> (count_cls y draws = 0 -> rows y = []) /\
       (0 < count_cls y draws -> sampleMVN inv rvs (count_cls y draws) (gm_d G) (gm_mean G y) (gm_cov G y)
          (filter (fun k => negb (memb k T)) (seq 0 (gm_d G))) (numeric G T) (map x (numeric G T)) = Some (rows y))) /\
    0 < N /\ (forall y row, agrees G x T y = true -> In row (rows y) -> f (point G x T y row) <> None) /\
    (r * Qn N == sumf (fun y => sumf (fun row => the (f (point G x T y row))) (rows y)) (filter (agrees G x T) keys))%Q.
Proof. exact mc_cond. Qed.
Print Assumptions C113_conditional_partial.
Theorem C113_known_partial : forall inv pdf rvs choice f G n, layout G n -> is_prior G -> pdf_pos pdf -> runs inv pdf G ->
  forall x T N r y0, reads n f -> choice_ok choice -> 0 < gm_d G -> NoDup T -> in_n n T -> agrees G x [gm_d G; S (gm_d G)] y0 = true ->
  numeric G T = seq 0 (gm_d G) -> cond_mc inv pdf rvs choice f G n x T N = Some r ->
  exists draws, draws <> [] /\
    ((exists prob, choice (filter (agrees G x T) keys) prob N = Some draws /\
      forall p, weight pdf G x T p -> forall i, i < length (filter (agrees G x T) keys) ->
       (nth i prob 0 == p (nth i (filter (agrees G x T) keys) Ka) / sumf p (filter (agrees G x T) keys))%Q) \/
     filter (agrees G x T) keys = [y0] /\ draws = [y0]) /\
    (forall y, In y draws -> f (point G x T y []) <> None) /\
    (r * Qn (length draws) == sumf (fun y => the (f (point G x T y []))) draws)%Q.
Proof. exact mc_known. Qed.
Print Assumptions C113_known_partial.
Example C113_conditional_example : choice_ok mc_choice /\ reads 4 lin4 /\ ordered mx [2; 1; 3] /\ ordered mx [3; 0] /\
  numeric mx [0; 3; 1] = seq 0 2 /\ agrees mx mx_a [2; 3] Ka = true /\
  map (fun TN => mx_num (cond_mc ex_inv mx_pdf mc_rvs mc_choice lin4 mx 4 mx_a (fst TN) (snd TN)))
    [([], 4); ([0], 5); ([3], 3); ([3; 0], 6); ([2; 1], 7); ([2; 1; 3], 2); ([0; 1; 2; 3], 1)] =
    [Some (3 # 2); Some (47 # 10); Some (4 # 3); Some (23 # 6); Some 10; Some 10; Some 8]%Q /\
  mx_num (cond_mc ex_inv mx_pdf mc_rvs mc_choice lin4 mx 4 mx_e [0; 1] 11) = Some (15 # 11)%Q /\
  mx_num (cond_mc ex_inv mx_pdf mc_rvs mc_choice lin4 mx 4 mx_e [0; 3; 1] 5) = Some (3 # 5)%Q.
Proof.
  split; [exact mc_choice_ok|]. split; [exact lin4_reads|]. split; [exact (proj1 (proj2 (proj2 (proj2 (proj2 (proj2 C112_bayes_example))))))|].
  split; [apply mx_ordered; left; cbn; lia|]. decided.
Qed.
(** If the generators and the model always return, so does the estimate. *)
Theorem C113_returns : forall inv pdf rvs choice f G n, layout G n -> is_prior G -> pdf_pos pdf -> runs inv pdf G ->
  forall x T N y0, choice_ok choice -> rvs_ok rvs ->
  (forall classes prob M, classes <> [] -> length prob = length classes -> choice classes prob M <> None) ->
  (forall g M, 0 < M -> rvs g M <> None) -> (forall v, f v <> None) -> 0 < N -> 0 < gm_d G -> NoDup T -> in_n n T -> ordered G T ->
  agrees G x [gm_d G; S (gm_d G)] y0 = true -> cond_mc inv pdf rvs choice f G n x T N <> None.
Proof. exact mc_returns. Qed.
Print Assumptions C113_returns.
Example C113_returns_example : choice_ok mc_first /\ rvs_ok mc_rvs /\
  (forall classes prob M, classes <> [] -> length prob = length classes -> mc_first classes prob M <> None) /\
  (forall g M, 0 < M -> mc_rvs g M <> None) /\ (forall v, lin4 v <> None) /\ ordered mx [0; 2] /\
  mx_num (cond_mc ex_inv mx_pdf mc_rvs mc_first lin4 mx 4 mx_c [0; 2] 3) = Some 6%Q.
Proof.
  split; [exact mc_first_ok|]. split; [exact mc_rvs_ok|]. split; [intros [|y l] p M H _; [congruence|discriminate]|]. split; [discriminate|]. split; [discriminate|].
  split; [apply mx_ordered; right; cbn; lia|vm_compute; reflexivity].
Qed.
(** With draws whose frequencies and means are exact, the estimate for the linear model is its conditional expectation. *)
Theorem C113_exact_partial : forall inv pdf rvs choice G n, layout G n -> inv_sound inv -> is_prior G -> pdf_pos pdf -> runs inv pdf G ->
  forall x T N r y0, choice_ok choice -> choice_exact choice -> rvs_exact rvs -> n <= 10 -> 0 < gm_d G -> NoDup T -> in_n n T -> ordered G T ->
  agrees G x [gm_d G; S (gm_d G)] y0 = true -> (length (numeric G T) = gm_d G -> numeric G T = seq 0 (gm_d G)) ->
  cond_mc inv pdf rvs choice (linear_gmm G n) G n x T N = Some r -> expectation pdf G x T r.
Proof. exact ideal_spec. Qed.
Print Assumptions C113_exact_partial.
Example C113_exact_example : choice_exact mc_choice /\ rvs_exact mc_rvs /\
  map (fun TN => mx_num (cond_mc ex_inv mx_pdf mc_rvs mc_choice lin4 mx 4 mx_e (fst TN) (snd TN))) [([0; 1], 11); ([0; 3; 1], 5); ([2], 3)] =
  map (fun T => mx_num (cond_gmm ex_inv mx_pdf mx 4 mx_e T)) [[0; 1]; [0; 3; 1]; [2]].
Proof. split; [exact mc_choice_exact|]. split; [exact mc_rvs_exact|vm_compute; reflexivity]. Qed.
(** When all the numeric variables are known, their values are taken in the order of the list. *)
Theorem C113_order_refuted : exists inv pdf rvs choice G n x T N r q, layout G n /\ inv_sound inv /\ is_prior G /\ pdf_pos pdf /\ runs inv pdf G /\
  choice_ok choice /\ choice_exact choice /\ rvs_exact rvs /\ NoDup T /\ in_n n T /\ ordered G T /\
  cond_mc inv pdf rvs choice (linear_gmm G n) G n x T N = Some r /\ cond_gmm inv pdf G n x T = Some q /\ expectation pdf G x T q /\ ~ (r == q)%Q.
Proof.
  exists ex_inv, mx_pdf, mc_rvs, mc_choice, mx, 4, mx_e, [1; 0], 11.
  destruct (C112_bayes_partial ex_inv mx_pdf mx 4 ex_inv_sound mx_layout mx_prior mx_pos mx_runs mx_e [1; 0]) as [q [Eq Hq]].
  - apply nodup_check; reflexivity.
  - intros k Hk. cbn in Hk. lia.
  - left. apply mx_ordered. left. cbn. lia.
  - exists Ka. reflexivity.
  - destruct (cond_mc ex_inv mx_pdf mc_rvs mc_choice (linear_gmm mx 4) mx 4 mx_e [1; 0] 11) as [r|] eqn:Er; [|vm_compute in Er; discriminate].
    exists r, q. split; [exact mx_layout|]. split; [exact ex_inv_sound|]. split; [exact mx_prior|]. split; [exact mx_pos|]. split; [exact mx_runs|].
    split; [exact mc_choice_ok|]. split; [exact mc_choice_exact|]. split; [exact mc_rvs_exact|]. split; [apply nodup_check; reflexivity|]. split; [intros k Hk; cbn in Hk; lia|].
    split; [apply mx_ordered; left; cbn; lia|]. split; [reflexivity|]. split; [exact Eq|]. split; [exact Hq|].
    vm_compute in Er, Eq. injection Er as <-. injection Eq as <-. vm_compute. discriminate.
Qed.
Print Assumptions C113_order_refuted.

(** ** A single Gaussian vector *)
(** The estimate of the other experiment has no such limits: the known variables are those of the observation, the others
    those of the sample, in order. *)
Theorem C113_single : forall f d x T rows r, reads d f -> NoDup T -> (forall k, In k T -> k < d) -> length T <> d ->
  mc_single f d x T (Some rows) = Some r ->
  rows <> [] /\ (r * Qn (length rows) == sumf (fun row => the (f (fun k => if memb k T then x k else nth (rank T k) row 0%Q))) rows)%Q.
Proof. exact single_spec. Qed.
Print Assumptions C113_single.
Theorem C113_single_known : forall f d x T rows r, length T = d -> mc_single f d x T rows = Some r -> exists q, f x = Some q /\ (r == q)%Q.
Proof. exact single_full. Qed.
Print Assumptions C113_single_known.
Example C113_single_example : reads 12 (fun v => Some (v 2%nat + 10 * v 11%nat + 100 * v 5%nat)%Q) /\ NoDup [11; 0; 2] /\
  mc_single (fun v => Some (v 2%nat + 10 * v 11%nat + 100 * v 5%nat)%Q) 12 (fun k => Qn k) [11; 0; 2] (Some [map (fun k => Qn (20 + k)) (seq 0 9)]) = Some 2412%Q /\
  rank [11; 0; 2] 5 = 3.
Proof.
  split; [|decided]. intros u v H. cbn [same]. rewrite (H 2), (H 11), (H 5) by lia. reflexivity.
Qed.

(** C112: the exact conditional expectations of the linear model on a mixture of Gaussian vectors, and their Shapley values. *)
From Verif Require Import Base GameSpec ShapSpec ShapModel SwingModel MvnModel MvnSpec MvnProofs PermModel PermSpec PermProofs GmmModel GmmSpec GmmProofs PropertiesMvn PropertiesPerm.
Local Open Scope nat_scope.

(** ** A concrete mixture *)
Definition mx : gmm :=
  {| gm_d := 2; gm_cat := [2; 3];
     gm_mean := fun y i => match y with Ka => nth i [0; 0] 0 | Kb => nth i [1; 0] 0 | Kc => nth i [0; 2] 0 end%Q;
     gm_cov := fun _ => pm_cov;
     gm_coefs := fun y i => match y with Ka => nth i [1; 1] 0 | Kb => nth i [2; 0] 0 | Kc => nth i [0; 1] 0 end%Q;
     gm_pi := fun y => match y with Ka => 1 # 4 | Kb => 1 # 4 | Kc => 1 # 2 end%Q |}.
(** a density: larger near the mean *)
Definition mx_pdf (k : nat) (m : vec) (C : mat) (y : vec) : option Q :=
  Some (/ (1 + sumf (fun i => (y i - m i) * (y i - m i)) (seq 0 k)))%Q.
Definition mx_a : vec := fun i => nth i [3; 5; 1; 0]%Q 0%Q.
Definition mx_c : vec := fun i => nth i [3; 5; 0; 0]%Q 0%Q.
Lemma mx_layout : layout mx 4. Proof. split; reflexivity. Qed.
Lemma mx_prior : is_prior mx. Proof. split; [intros []; reflexivity|reflexivity]. Qed.
Lemma mx_den k (f : nat -> Q) : (0 < 1 + sumf (fun i => f i * f i) (seq 0 k))%Q.
Proof. assert (H : (0 <= sumf (fun i => f i * f i) (seq 0 k))%Q) by (apply sumf_nonneg; intros i _; nra). lra. Qed.
Lemma mx_pos : pdf_pos mx_pdf.
Proof. intros k m C y q H. injection H as <-. apply Qinv_lt_0_compat. exact (mx_den k (fun i => y i - m i)%Q). Qed.
Lemma mx_order : pdf_order mx_pdf.
Proof.
  intros s s' m C x x' HP _ Hx q q' H H'. injection H as <-. injection H' as <-.
  assert (E : (sumf (fun i => (vsub x s i - vsub m s i) * (vsub x s i - vsub m s i)) (seq 0 (length s)) ==
    sumf (fun i => (vsub x' s' i - vsub m s' i) * (vsub x' s' i - vsub m s' i)) (seq 0 (length s')))%Q); [|rewrite E; reflexivity].
  pose proof (sum_positions (fun k => (x k - m k) * (x k - m k))%Q s) as E1. pose proof (sum_positions (fun k => (x' k - m k) * (x' k - m k))%Q s') as E2.
  etransitivity; [symmetry; exact E1|]. etransitivity; [|exact E2]. rewrite <- (sumf_perm _ _ _ HP). apply sumf_ext. intros k Hk. rewrite (Hx k Hk). reflexivity.
Qed.
Lemma mx_runs : runs ex_inv mx_pdf mx.
Proof.
  intros x y s Hd Hr. split; [|intros _; discriminate]. intro H. pose proof (pm_cases s Hd Hr) as Hc.
  assert (F : forallb (fun s => match cond_exp_linear ex_inv 2 (gm_mean mx y) (gm_cov mx y) (gm_coefs mx y) x s with Some _ => true | None => false end)
    [[]; [0]; [1]; [0; 1]; [1; 0]] = true) by (destruct y; vm_compute; reflexivity).
  rewrite forallb_forall in F. apply F in Hc. change (gm_d mx) with 2 in H. rewrite H in Hc. discriminate.
Qed.
Lemma mx_ordered (T : list nat) : ~ In 2 T \/ ~ In 3 T -> ordered mx T.
Proof.
  intros H l r E K. change (gm_d mx) with 2 in *. subst T. destruct H as [H|H]; apply H; apply in_or_app; [right; now left|now left].
Qed.
Definition mx_num (o : option Q) : option Q := option_map Qred o.

(** ** Expectations *)
(** The value is the mean over the classes that agree with the known indicators, weighted by their probabilities given the
    known numeric variables, of the regressions on these variables. *)
Theorem C112_bayes_partial : forall inv pdf G n, inv_sound inv -> layout G n -> is_prior G -> pdf_pos pdf -> runs inv pdf G ->
  forall x T, NoDup T -> in_n n T -> (ordered G T \/ (x (gm_d G) == x (S (gm_d G)))%Q) -> (exists y, agrees G x T y = true) ->
  exists r, cond_gmm inv pdf G n x T = Some r /\ expectation pdf G x T r.
Proof. exact gmm_bayes. Qed.
Print Assumptions C112_bayes_partial.
(** It is between the values of these classes. *)
Theorem C112_between : forall inv pdf G n, inv_sound inv -> layout G n -> is_prior G -> pdf_pos pdf -> runs inv pdf G ->
  forall x T r lo hi, NoDup T -> in_n n T -> (ordered G T \/ (x (gm_d G) == x (S (gm_d G)))%Q) -> (exists y, agrees G x T y = true) ->
  cond_gmm inv pdf G n x T = Some r ->
  (forall y m, agrees G x T y = true -> regressed (gm_d G) (gm_mean G y) (gm_cov G y) (gm_coefs G y) x (numeric G T) m -> lo <= m <= hi)%Q ->
  (lo <= r <= hi)%Q.
Proof. exact gmm_between. Qed.
Print Assumptions C112_between.
Example C112_bayes_example : inv_sound ex_inv /\ layout mx 4 /\ is_prior mx /\ pdf_pos mx_pdf /\ runs ex_inv mx_pdf mx /\
  ordered mx [2; 1; 3] /\ agrees mx mx_a [2; 1; 3] Ka = true /\ agrees mx mx_a [3; 0] Kc = true /\
  map (fun T => mx_num (cond_gmm ex_inv mx_pdf mx 4 mx_a T)) [[]; [0]; [3]; [3; 0]; [2; 1]; [2; 1; 3]; [0; 1; 2; 3]] =
    [Some (3 # 2); Some (47 # 10); Some (4 # 3); Some (23 # 6); Some 10; Some 10; Some 8]%Q.
Proof.
  split; [exact ex_inv_sound|]. split; [exact mx_layout|]. split; [exact mx_prior|]. split; [exact mx_pos|]. split; [exact mx_runs|].
  split; [|vm_compute; auto]. intros l r E. change (gm_d mx) with 2 in *. destruct l as [|a [|b [|c l]]]; try (intros []; fail); cbn in E; injection E; intros; subst; try discriminate.
  exfalso. destruct l; discriminate.
Qed.
(** With all the variables it is the prediction, with none the mean. *)
Theorem C112_prediction : forall inv pdf G n, layout G n ->
  forall x T y, NoDup T -> in_n n T -> length T = n -> agrees G x T y = true ->
  exists r, cond_gmm inv pdf G n x T = Some r /\ (r == sumf (fun i => gm_coefs G y i * x i) (seq 0 (gm_d G)))%Q.
Proof. exact gmm_prediction. Qed.
Print Assumptions C112_prediction.
Theorem C112_mean : forall inv pdf G n, layout G n -> is_prior G -> pdf_pos pdf -> runs inv pdf G ->
  forall x, exists r, cond_gmm inv pdf G n x [] = Some r /\
  (r == sumf (fun y => gm_pi G y * sumf (fun i => gm_coefs G y i * gm_mean G y i) (seq 0 (gm_d G))) keys)%Q.
Proof. exact gmm_nothing. Qed.
Print Assumptions C112_mean.
(** Total expectation: the value before an indicator is known is the mean of the two values it gives. *)
Theorem C112_total : forall inv pdf G n, inv_sound inv -> layout G n -> is_prior G -> pdf_pos pdf -> runs inv pdf G -> pdf_order pdf ->
  forall x T k z p, NoDup T -> (forall i, In i T -> i < gm_d G) -> (k = gm_d G /\ z = Ka) \/ (k = S (gm_d G) /\ z = Kb) ->
  weight pdf G x T p ->
  exists r r1 r0, cond_gmm inv pdf G n x T = Some r /\ cond_gmm inv pdf G n (upd x k 1%Q) (k :: T) = Some r1 /\
    cond_gmm inv pdf G n (upd x k 0%Q) (k :: T) = Some r0 /\
    (r * sumf p keys == p z * r1 + (sumf p keys - p z) * r0)%Q.
Proof. exact gmm_total. Qed.
Print Assumptions C112_total.
Example C112_total_example : pdf_order mx_pdf /\
  weight mx_pdf mx mx_a [0] (fun y => match y with Ka => 1 # 40 | Kb => 1 # 20 | Kc => 1 # 20 end)%Q /\
  map (fun xT => mx_num (cond_gmm ex_inv mx_pdf mx 4 (fst xT) (snd xT)))
    [(mx_a, [0]); (upd mx_a 3 1%Q, [3; 0]); (upd mx_a 3 0%Q, [3; 0])] = [Some (47 # 10); Some 6; Some (23 # 6)]%Q.
Proof.
  split; [exact mx_order|]. split; [|vm_compute; reflexivity]. intros []; (eexists; split; [reflexivity|]); vm_compute; reflexivity.
Qed.

(** ** Order of the variables *)
Theorem C112_order_partial : forall inv pdf G n, inv_sound inv -> layout G n -> is_prior G -> pdf_pos pdf -> runs inv pdf G -> pdf_order pdf ->
  forall x T T', NoDup T -> in_n n T -> Permutation T T' -> (ordered G T /\ ordered G T' \/ (x (gm_d G) == x (S (gm_d G)))%Q) ->
  (exists y, agrees G x T y = true) ->
  exists r r', cond_gmm inv pdf G n x T = Some r /\ cond_gmm inv pdf G n x T' = Some r' /\ (r == r')%Q.
Proof. exact gmm_order. Qed.
Print Assumptions C112_order_partial.
(** The indicators listed in the other order stand for the other class. *)
Theorem C112_order_refuted : exists inv pdf G n x T T' y r r', inv_sound inv /\ layout G n /\ is_prior G /\ pdf_pos pdf /\ runs inv pdf G /\ pdf_order pdf /\
  NoDup T /\ in_n n T /\ Permutation T T' /\ agrees G x T y = true /\
  cond_gmm inv pdf G n x T = Some r /\ cond_gmm inv pdf G n x T' = Some r' /\ ~ (r == r')%Q.
Proof.
  exists ex_inv, mx_pdf, mx, 4, mx_a, [2; 3; 0], [3; 2; 0], Ka. eexists _, _.
  split; [exact ex_inv_sound|]. split; [exact mx_layout|]. split; [exact mx_prior|]. split; [exact mx_pos|]. split; [exact mx_runs|]. split; [exact mx_order|].
  split; [repeat constructor; cbn; intuition discriminate|]. split; [intros k Hk; cbn in Hk; lia|]. split; [constructor|].
  split; [reflexivity|]. split; [vm_compute; reflexivity|]. split; [vm_compute; reflexivity|]. vm_compute. discriminate.
Qed.
Print Assumptions C112_order_refuted.

(** ** Shapley values *)
(** With both indicators in one group, or for an observation of class c, they are the Shapley values of the expectations. *)
Theorem C112_shapley_partial : forall inv pdf G n, inv_sound inv -> layout G n -> is_prior G -> pdf_pos pdf -> pdf_order pdf -> runs inv pdf G ->
  forall x y0, agrees G x [gm_d G; S (gm_d G)] y0 = true ->
  forall C P j g E, coalitions_ok C n -> sized C -> grouped G C \/ y0 = Kc -> is_players C n P -> In g P -> In j g ->
  (forall T, NoDup T -> in_n n T -> expectation pdf G x T (E T)) ->
  exists r, gmm_shap inv pdf G n x C j = Some r /\ (r == shapley gdec P (fun U => E (concat U)) g)%Q.
Proof. exact gmm_shapley. Qed.
Print Assumptions C112_shapley_partial.
Theorem C112_sum : forall inv pdf G n, inv_sound inv -> layout G n -> is_prior G -> pdf_pos pdf -> pdf_order pdf -> runs inv pdf G ->
  forall x y0, agrees G x [gm_d G; S (gm_d G)] y0 = true ->
  forall C P rep, coalitions_ok C n -> sized C -> grouped G C -> is_players C n P -> (forall g, In g P -> In (rep g) g) ->
  (sumf (fun g => the (gmm_shap inv pdf G n x C (rep g))) P ==
   sumf (fun i => gm_coefs G y0 i * x i) (seq 0 (gm_d G)) - sumf (fun y => gm_pi G y * sumf (fun i => gm_coefs G y i * gm_mean G y i) (seq 0 (gm_d G))) keys)%Q.
Proof. exact gmm_efficiency. Qed.
Print Assumptions C112_sum.
Definition mx_groups : list group := [[2; 3]].
Definition mx_players : list group := [[0]; [1]; [2; 3]].
Definition mx_best (x : vec) (T : list nat) : Q := the (best ex_inv mx_pdf mx 4 x T).
Lemma mx_best_ok x y : agrees mx x [2; 3] y = true -> forall T, NoDup T -> in_n 4 T -> expectation mx_pdf mx x T (mx_best x T).
Proof.
  intros Hy T Hd Hr. destruct (best_value ex_inv mx_pdf mx 4 ex_inv_sound mx_layout mx_prior mx_pos mx_order mx_runs x y Hy T Hd Hr) as [q [E Hq]].
  unfold mx_best. rewrite E. exact Hq.
Qed.
Lemma mx_groups_ok : coalitions_ok mx_groups 4 /\ sized mx_groups /\ grouped mx mx_groups /\ is_players mx_groups 4 mx_players.
Proof.
  split; [|split; [|split]].
  - split; [repeat constructor; cbn; intuition discriminate|]. split; [|exact I]. intros i Hi. cbn in Hi. lia.
  - split; [discriminate|]. right. intros c [<-|[]]. cbn. lia.
  - exists [], [], []. now left.
  - split; [repeat constructor; cbn; intuition discriminate|]. intro g. split.
    + intros [<-|[<-|[<-|[]]]]; [right; exists 0|right; exists 1|left]; cbn; intuition (lia || discriminate).
    + intros [[[<-|[]] _]|[i [Hi [Hn ->]]]]; [right; right; now left|]. cbn in Hn.
      destruct i as [|[|[|[|i]]]]; [now left|right; now left|tauto|tauto|lia].
Qed.
Example C112_shapley_example : pdf_order mx_pdf /\ agrees mx mx_a [2; 3] Ka = true /\ agrees mx mx_c [2; 3] Kc = true /\
  coalitions_ok mx_groups 4 /\ sized mx_groups /\ grouped mx mx_groups /\ is_players mx_groups 4 mx_players /\
  (forall T, NoDup T -> in_n 4 T -> expectation mx_pdf mx mx_a T (mx_best mx_a T)) /\
  (sumf (fun g => the (gmm_shap ex_inv mx_pdf mx 4 mx_a mx_groups (hd 0%nat g))) mx_players == 8 - (3 # 2))%Q.
Proof.
  split; [exact mx_order|]. split; [reflexivity|]. split; [reflexivity|].
  split; [apply mx_groups_ok|]. split; [apply mx_groups_ok|]. split; [apply mx_groups_ok|]. split; [apply mx_groups_ok|].
  split; [exact (mx_best_ok mx_a Ka eq_refl)|]. vm_compute. reflexivity.
Qed.
(** Without the group they are not: half of the orders confuse the classes. *)
Lemma mx_singles : is_players [[]] 4 [[0]; [1]; [2]; [3]].
Proof.
  split; [repeat constructor; cbn; intuition discriminate|]. intro g. split.
  - intros [<-|[<-|[<-|[<-|[]]]]]; right; [exists 0|exists 1|exists 2|exists 3]; cbn; intuition lia.
  - intros [[[<-|[]] Hn]|[i [Hi [_ ->]]]]; [congruence|]. destruct i as [|[|[|[|i]]]]; cbn; intuition lia.
Qed.
Theorem C112_shapley_refuted : exists inv pdf G n x y0 C P j g E r, inv_sound inv /\ layout G n /\ is_prior G /\ pdf_pos pdf /\ pdf_order pdf /\ runs inv pdf G /\
  agrees G x [gm_d G; S (gm_d G)] y0 = true /\ coalitions_ok C n /\ sized C /\ is_players C n P /\ In g P /\ In j g /\
  (forall T, NoDup T -> in_n n T -> expectation pdf G x T (E T)) /\
  gmm_shap inv pdf G n x C j = Some r /\ ~ (r == shapley gdec P (fun U => E (concat U)) g)%Q.
Proof.
  exists ex_inv, mx_pdf, mx, 4, mx_a, Ka, [[]], [[0]; [1]; [2]; [3]], 2, [2], (mx_best mx_a). eexists.
  split; [exact ex_inv_sound|]. split; [exact mx_layout|]. split; [exact mx_prior|]. split; [exact mx_pos|]. split; [exact mx_order|]. split; [exact mx_runs|].
  split; [reflexivity|]. split; [exact (proj1 (pm_none_ok 4))|]. split; [exact (proj2 (pm_none_ok 4))|]. split; [exact mx_singles|].
  split; [cbn; tauto|]. split; [now left|]. split; [exact (mx_best_ok mx_a Ka eq_refl)|].
  split; [vm_compute; reflexivity|]. vm_compute. discriminate.
Qed.
Print Assumptions C112_shapley_refuted.
(** Indicators of no class: one of them alone has a value, both together raise, and all the variables give 0. *)
Theorem C112_no_class_refuted : exists inv pdf G n x r, inv_sound inv /\ layout G n /\ is_prior G /\ pdf_pos pdf /\ pdf_order pdf /\ runs inv pdf G /\
  (forall y, agrees G x (seq 0 n) y = false) /\ cond_gmm inv pdf G n x [gm_d G] = Some r /\
  cond_gmm inv pdf G n x [gm_d G; S (gm_d G)] = None /\ exists q, cond_gmm inv pdf G n x (seq 0 n) = Some q /\ (q == 0)%Q.
Proof.
  exists ex_inv, mx_pdf, mx, 4, (upd mx_a 3 1%Q). eexists.
  split; [exact ex_inv_sound|]. split; [exact mx_layout|]. split; [exact mx_prior|]. split; [exact mx_pos|]. split; [exact mx_order|]. split; [exact mx_runs|].
  split; [intros []; reflexivity|]. split; [vm_compute; reflexivity|]. split; [vm_compute; reflexivity|]. eexists. split; [vm_compute; reflexivity|]. vm_compute. reflexivity.
Qed.
Print Assumptions C112_no_class_refuted.

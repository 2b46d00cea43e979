(** Property theorems C89-C92: the counterfactual sessions of the class [CR].  Each is
    proved by a lemma of CrProofs.v. *)
From Verif Require Import Base RfModel RulesModel RulesSpec RulesModelProofs AnnealModel AnnealSpec AnnealProofs PropertiesAnneal
  CrModel CrSpec CrProofs.

(** C89: every rule kept for an observation is a compatible leaf on the variables of
    [S_star] and the observation elsewhere, with its own probability; it reaches the level
    unless no compatible leaf does, and then it is the most probable... *)
Theorem C89_local_sound : forall W cls d N data ind acc_level pi_level leaves (est : rule -> Q * W) S_star S_bar x w0 out c p w,
  local_rules cls d N data ind acc_level pi_level leaves est S_star S_bar x w0 = Some out -> In (c, p, w) out ->
  let pi := if cls then pi_level else acc_level in
  exists suf leaf leaf0, get_compatible_leaf d N data ind acc_level (leaves pi) = Some suf /\ In leaf suf /\
    In leaf0 (leaves pi) /\ near (1 # 200) leaf leaf0 /\
    (forall k, In k S_star -> c k = leaf k) /\ (forall k, ~ In k S_star -> In k S_bar -> c k = (x k, x k)) /\ est c = (p, w) /\
    ((pi <= p)%Q \/ forall l, In l suf -> (fst (est (cond_local S_star S_bar x l)) < pi)%Q /\ (fst (est (cond_local S_star S_bar x l)) <= p)%Q).
Proof. exact local_sound. Qed.
Print Assumptions C89_local_sound.
(** ... and the same for a regional rule. *)
Theorem C89_regional_sound : forall W d N data ind acc_level pi_level leaves (est : rule -> Q * W) S_star cond_s w0 out c p w,
  regional_rules d N data ind acc_level pi_level leaves est S_star cond_s w0 = Some out -> In (c, p, w) out ->
  exists suf leaf leaf0, get_compatible_leaf d N data ind acc_level (leaves pi_level) = Some suf /\ In leaf suf /\
    In leaf0 (leaves pi_level) /\ near (1 # 200) leaf leaf0 /\
    (forall k, In k S_star -> c k = leaf k) /\ (forall k, ~ In k S_star -> c k = cond_s k) /\ est c = (p, w) /\
    ((pi_level <= p)%Q \/ forall l, In l suf -> (fst (est (cond_regional S_star cond_s l)) < pi_level)%Q /\ (fst (est (cond_regional S_star cond_s l)) <= p)%Q).
Proof. exact regional_sound. Qed.
Print Assumptions C89_regional_sound.
(** No rule kept contains another one. *)
Theorem C89_local_antichain : forall W cls d N data ind acc_level pi_level leaves (est : rule -> Q * W) S_star S_bar x w0 out i j e f,
  local_rules cls d N data ind acc_level pi_level leaves est S_star S_bar x w0 = Some out ->
  nth_error out i = Some e -> nth_error out j = Some f -> i <> j -> ~ wider d (fst (fst e)) (fst (fst f)).
Proof. exact local_antichain. Qed.
Print Assumptions C89_local_antichain.
Theorem C89_regional_antichain : forall W d N data ind acc_level pi_level leaves (est : rule -> Q * W) S_star cond_s w0 out i j e f,
  regional_rules d N data ind acc_level pi_level leaves est S_star cond_s w0 = Some out ->
  nth_error out i = Some e -> nth_error out j = Some f -> i <> j -> ~ wider d (fst (fst e)) (fst (fst f)).
Proof. exact regional_antichain. Qed.
Print Assumptions C89_regional_antichain.
(** The search raises exactly when it is given no leaf. *)
Theorem C89_defined : forall W (cls : bool) d N data ind acc_level pi_level (leaves : Q -> list rule) (est : rule -> Q * W) S_star S_bar x cond_s w0,
  (local_rules cls d N data ind acc_level pi_level leaves est S_star S_bar x w0 = None <-> leaves (if cls then pi_level else acc_level) = []) /\
  (regional_rules d N data ind acc_level pi_level leaves est S_star cond_s w0 = None <-> leaves pi_level = []).
Proof. exact rules_defined. Qed.
Print Assumptions C89_defined.
(** When the conditions are pairwise different, some rule is kept, and each condition that
    reaches the level contains a rule kept... *)
Theorem C89_local_complete_partial : forall W (cls : bool) d N data ind acc_level pi_level leaves (est : rule -> Q * W) S_star S_bar x (w0 : W) suf out,
  let pi := if cls then pi_level else acc_level in
  get_compatible_leaf d N data ind acc_level (leaves pi) = Some suf ->
  ForallOrdPairs (fun a b => ~ same_rule d (cond_local S_star S_bar x a) (cond_local S_star S_bar x b)) suf ->
  local_rules cls d N data ind acc_level pi_level leaves est S_star S_bar x w0 = Some out ->
  out <> [] /\ forall leaf, In leaf suf -> (pi <= fst (est (cond_local S_star S_bar x leaf)))%Q ->
    exists c p w, In (c, p, w) out /\ wider d (cond_local S_star S_bar x leaf) c.
Proof. exact local_complete. Qed.
Print Assumptions C89_local_complete_partial.
Theorem C89_regional_complete_partial : forall W d N data ind acc_level pi_level leaves (est : rule -> Q * W) S_star cond_s w0 suf out,
  get_compatible_leaf d N data ind acc_level (leaves pi_level) = Some suf ->
  ForallOrdPairs (fun a b => ~ same_rule d (cond_regional S_star cond_s a) (cond_regional S_star cond_s b)) suf ->
  regional_rules d N data ind acc_level pi_level leaves est S_star cond_s w0 = Some out ->
  out <> [] /\ forall leaf, In leaf suf -> (pi_level <= fst (est (cond_regional S_star cond_s leaf)))%Q ->
    exists c p w, In (c, p, w) out /\ wider d (cond_regional S_star cond_s leaf) c.
Proof. exact regional_complete. Qed.
Print Assumptions C89_regional_complete_partial.

(** For the examples: the value of an option that is not [None]. *)
Definition take {A} (d : A) (o : option A) : A := match o with Some a => a | None => d end.
Lemma take_some {A} (d : A) o : (match o with Some _ => true | None => false end) = true -> o = Some (take d o).
Proof. destruct o; [reflexivity|discriminate]. Qed.
(** The examples: two columns, a rule on the first one. *)
Definition cr_leaves (l : list (list (Q * Q))) : Q -> list rule := fun _ => map ax_box l.
(** Same: the probability of a condition grows with its width. *)
Definition cr_est (r : rule) : Q * nat := (((snd (r 0%nat) - fst (r 0%nat)) * (1 # 3))%Q, 7).
(** Same: two training samples of the target, one in each leaf. *)
Definition cr_data (i : nat) : pt := nth i [ax_pt [5 # 2; 1 # 2]; ax_pt [5 # 2; 5 # 2]]%Q (ax_pt []).
(** Same: what can be printed of a result. *)
Definition cr_show (o : option (list (rule * Q * nat))) :=
  option_map (map (fun e => (map (fun k => (Qred (fst (fst (fst e) k)), Qred (snd (fst (fst e) k)))) [0; 1], Qred (snd (fst e))))) o.
Example C89_example :
  let go cls acc pi l := cr_show (local_rules cls 2 2 cr_data (fun _ => true) acc pi (cr_leaves l) cr_est [0] [1] (ax_pt [9; 9]%Q) 0) in
  go true (9 # 10)%Q (1 # 10)%Q [[(2, 3); (0, 1)]; [(2, 4); (2, 3)]]%Q = Some [([(2, 3); (9, 9)], 1 # 3)]%Q /\
  go true (9 # 10)%Q (1 # 2)%Q [[(2, 3); (0, 1)]; [(2, 4); (2, 3)]]%Q = Some [([(2, 4); (9, 9)], 2 # 3)]%Q /\
  go true (9 # 10)%Q 1%Q [[(2, 3); (0, 1)]; [(2, 4); (2, 3)]]%Q = Some [([(2, 4); (9, 9)], 2 # 3)]%Q /\
  go true (9 # 10)%Q (1 # 10)%Q [[(1, 3); (0, 1)]; [(2, 5); (2, 3)]]%Q = Some [([(1, 3); (9, 9)], 2 # 3); ([(2, 5); (9, 9)], 1)]%Q /\
  go true (9 # 10)%Q (1 # 10)%Q []%Q = None /\
  cr_show (regional_rules 2 2 cr_data (fun _ => true) (9 # 10)%Q (1 # 10)%Q (cr_leaves [[(1, 3); (0, 1)]; [(2, 5); (2, 3)]]%Q) cr_est [0]
    (ax_box [(8, 9); (7, 8)])%Q 0) = Some [([(1, 3); (7, 8)], 2 # 3); ([(2, 5); (7, 8)], 1)]%Q.
Proof. vm_compute. repeat split; reflexivity. Qed.
(** ... but two leaves with the same bounds on [S_star] delete each other, so that an
    observation with counterfactuals is left with none... *)
Theorem C89_nonempty_refuted : exists d N data ind acc_level pi_level leaves (est : rule -> Q * nat) S_star S_bar x w0,
  local_rules true d N data ind acc_level pi_level leaves est S_star S_bar x w0 = Some [] /\
  exists suf leaf, get_compatible_leaf d N data ind acc_level (leaves pi_level) = Some suf /\ In leaf suf /\
    (pi_level <= fst (est (cond_local S_star S_bar x leaf)))%Q.
Proof.
  exists 2, 2, cr_data, (fun _ => true), (9 # 10)%Q, (1 # 10)%Q, (cr_leaves [[(2, 3); (0, 1)]; [(2, 3); (2, 3)]]%Q), cr_est, [0], [1], (ax_pt [9; 9]%Q), 0.
  split; [vm_compute; reflexivity|].
  eexists _, (nth 0 _ rule0). split; [apply (take_some []); vm_compute; reflexivity|].
  split; [apply nth_In; vm_compute; lia|]. vm_compute. discriminate.
Qed.
Print Assumptions C89_nonempty_refuted.
(** ... a condition that contains another one is deleted even when it is the more
    probable one... *)
Theorem C89_best_refuted : exists d N data ind acc_level pi_level leaves (est : rule -> Q * nat) S_star S_bar x w0 out,
  local_rules true d N data ind acc_level pi_level leaves est S_star S_bar x w0 = Some out /\
  exists suf leaf, get_compatible_leaf d N data ind acc_level (leaves pi_level) = Some suf /\ In leaf suf /\
    (pi_level <= fst (est (cond_local S_star S_bar x leaf)))%Q /\
    forall c p w, In (c, p, w) out -> (p < fst (est (cond_local S_star S_bar x leaf)))%Q.
Proof.
  exists 2, 2, cr_data, (fun _ => true), (9 # 10)%Q, (1 # 10)%Q, (cr_leaves [[(2, 3); (0, 1)]; [(2, 4); (2, 3)]]%Q), cr_est, [0], [1], (ax_pt [9; 9]%Q), 0.
  eexists. split; [apply (take_some []); vm_compute; reflexivity|].
  eexists _, (nth 1 _ rule0). split; [apply (take_some []); vm_compute; reflexivity|].
  split; [apply nth_In; vm_compute; lia|]. split; [vm_compute; discriminate|].
  intros c p w H. apply (in_map (fun e => snd (fst e))) in H. cbn [fst snd] in H. revert H.
  match goal with |- In p ?l -> _ => let v := eval vm_compute in l in change l with v end.
  intros [<-|[]]. vm_compute. reflexivity.
Qed.
Print Assumptions C89_best_refuted.
(** ... and for regression the probability level asked for is ignored. *)
Theorem C89_level_refuted : exists d N data ind acc_level pi_level leaves (est : rule -> Q * nat) S_star S_bar x w0 out c p w c' p' w',
  local_rules false d N data ind acc_level pi_level leaves est S_star S_bar x w0 = Some out /\
  In (c, p, w) out /\ (p < pi_level)%Q /\ In (c', p', w') out /\ (pi_level <= p')%Q.
Proof.
  exists 2, 2, cr_data, (fun _ => true), (1 # 10)%Q, (9 # 10)%Q, (cr_leaves [[(1, 3); (0, 1)]; [(2, 5); (2, 3)]]%Q), cr_est, [0], [1], (ax_pt [9; 9]%Q), 0.
  eexists. match goal with |- exists c p w c' p' w', ?X = Some ?o /\ _ => pose (l := o) end.
  exists (fst (fst (nth 0 l (rule0, 0%Q, 0)))), (snd (fst (nth 0 l (rule0, 0%Q, 0)))), (snd (nth 0 l (rule0, 0%Q, 0))).
  exists (fst (fst (nth 1 l (rule0, 0%Q, 0)))), (snd (fst (nth 1 l (rule0, 0%Q, 0)))), (snd (nth 1 l (rule0, 0%Q, 0))).
  split; [apply (take_some []); vm_compute; reflexivity|]. rewrite <- !surjective_pairing.
  split; [apply nth_In; vm_compute; lia|]. split; [vm_compute; reflexivity|].
  split; [apply nth_In; vm_compute; lia|]. vm_compute. discriminate.
Qed.
Print Assumptions C89_level_refuted.

(** C90: the local session draws one sample for each observation that has a
    counterfactual, moved along its most probable one; it reports its isolation score and
    whether the prediction changed (classification) or is in the interval. *)
Theorem C90_draws : forall (G : Type) (rand : G -> Q * G) randint exp lg temp classifier predict,
  (forall n g, 0 < n -> fst (randint n g) < n) ->
  forall given score N data batch max_iter n x S_star cs down up gs o,
  sample_local rand randint exp lg temp classifier predict given score N data batch max_iter n x S_star cs down up gs = Some o ->
  Forall2 (fun i a => (exists c, most_probable (cs i) c /\ moved N data (S_star i) c (x i) (d_point a)) /\
                      (d_score a == score (d_point a))%Q /\
                      (d_err a = true <-> if classifier then ~ (predict (d_point a) == predict (x i))%Q
                                          else (down i <= predict (d_point a) <= up i)%Q)) (with_rules n cs) (o_draws o).
Proof. exact @local_draws. Qed.
Print Assumptions C90_draws.
(** The samples satisfy the counterfactual rule they come from. *)
Theorem C90_inside : forall (G : Type) (rand : G -> Q * G) randint exp lg temp classifier predict,
  (forall n g, 0 < n -> fst (randint n g) < n) ->
  forall given score N data batch max_iter d n x S_star cs down up gs o,
  (forall i c p, i < n -> In (c, p) (cs i) -> proper (S_star i) c /\
     forall k, k < d -> ~ In k (S_star i) -> (fst (c k) <= x i k <= snd (c k))%Q) ->
  sample_local rand randint exp lg temp classifier predict given score N data batch max_iter n x S_star cs down up gs = Some o ->
  Forall2 (fun i a => exists c p, In (c, p) (cs i) /\ inside d c (d_point a)) (with_rules n cs) (o_draws o).
Proof. exact @local_inside. Qed.
Print Assumptions C90_inside.
(** The accuracy is the share of successes (undefined without any sample), the coverage
    the share of the observations with a counterfactual. *)
Theorem C90_figures : forall (G : Type) (rand : G -> Q * G) randint exp lg temp classifier predict,
  (forall n g, 0 < n -> fst (randint n g) < n) ->
  forall given score N data batch max_iter n x S_star cs down up gs o, 0 < n ->
  sample_local rand randint exp lg temp classifier predict given score N data batch max_iter n x S_star cs down up gs = Some o ->
  (o_acc o = None <-> with_rules n cs = []) /\
  (forall q, o_acc o = Some q -> (q == share d_err (o_draws o))%Q) /\
  (exists c, o_cov o = Some c /\ (c == Qn (length (with_rules n cs)) / Qn n)%Q).
Proof. exact @local_figures. Qed.
Print Assumptions C90_figures.
(** It never raises. *)
Theorem C90_total : forall (G : Type) (rand : G -> Q * G) randint exp lg temp classifier predict,
  (forall n g, 0 < n -> fst (randint n g) < n) ->
  forall given score N data batch max_iter n x S_star cs down up gs, 0 < batch ->
  sample_local rand randint exp lg temp classifier predict given score N data batch max_iter n x S_star cs down up gs <> None.
Proof. exact @local_some. Qed.
Print Assumptions C90_total.
(** With two classes a full accuracy means that every sample reaches its target... *)
Theorem C90_target_partial : forall (G : Type) (rand : G -> Q * G) randint exp lg temp classifier (predict : pt -> Q),
  (forall n g, 0 < n -> fst (randint n g) < n) ->
  forall given score N data batch max_iter n x S_star cs down up gs o target q,
  classifier = true -> (forall a b c, predict a == predict b \/ predict a == predict c \/ predict b == predict c)%Q ->
  (forall i, i < n -> ~ (target i == predict (x i))%Q) -> (forall i, i < n -> exists a, (predict a == target i)%Q) ->
  sample_local rand randint exp lg temp classifier predict given score N data batch max_iter n x S_star cs down up gs = Some o ->
  o_acc o = Some q -> (q == 1)%Q ->
  Forall2 (fun i a => predict (d_point a) == target i)%Q (with_rules n cs) (o_draws o).
Proof. exact @local_target. Qed.
Print Assumptions C90_target_partial.

(** The examples: three classes, by the first column. *)
Definition cr_predict (p : pt) : Q := if qleb (p 0) 1 then 0%Q else if qleb (p 0) 2 then 1%Q else 2%Q.
(** Same: training samples, one per class. *)
Definition cr_train (i : nat) : pt := nth i [ax_pt [1 # 2; 0]; ax_pt [3 # 2; 0]; ax_pt [5 # 2; 0]]%Q (ax_pt []).
(** Same: the counterfactuals of two observations; the second one has none. *)
Definition cr_rules (i : nat) : list (rule * Q) := nth i [[(ax_box [(1, 2); (9, 9)], 1 # 2); (ax_box [(2, 3); (9, 9)], 9 # 10)]]%Q [].
Example C90_example :
  let go cls down up := sample_local ax_rand ax_randint (fun _ => 1%Q) (fun _ => 1%Q) 1%Q cls cr_predict None (fun p => p 0) 3 cr_train 2 3
                   2 (fun _ => ax_pt [1 # 2; 9]%Q) (fun _ => [0]) cr_rules (fun _ => down) (fun _ => up) (fun i => i) in
  option_map (fun o => (map (fun a => (map (fun k => Qred (d_point a k)) [0; 1], d_err a)) (o_draws o),
     option_map Qred (o_acc o), o_acc_orig o, option_map Qred (o_cov o))) (go true 0%Q 0%Q)
    = Some ([([5 # 2; 9]%Q, true)], Some 1%Q, None, Some (1 # 2)%Q) /\
  option_map (fun o => map d_err (o_draws o)) (go false 0%Q 0%Q) = Some [false] /\
  option_map (fun o => map d_err (o_draws o)) (go false 2%Q 2%Q) = Some [true].
Proof. vm_compute. repeat split; reflexivity. Qed.
(** ... but with three classes the target is not looked at: full accuracy and coverage,
    and no sample predicted as asked... *)
Theorem C90_target_refuted : exists (rand : nat -> Q * nat) randint exp lg temp (predict : pt -> Q) given score N data batch max_iter n x S_star cs down up gs o target q c,
  (forall n g, 0 < n -> fst (randint n g) < n) /\ (forall i, i < n -> ~ (target i == predict (x i))%Q) /\
  (forall i, i < n -> exists a, (predict a == target i)%Q) /\
  sample_local rand randint exp lg temp true predict given score N data batch max_iter n x S_star cs down up gs = Some o /\
  o_acc o = Some q /\ (q == 1)%Q /\ o_cov o = Some c /\ (c == 1)%Q /\
  forall a i, In a (o_draws o) -> ~ (predict (d_point a) == target i)%Q.
Proof.
  exists ax_rand, ax_randint, (fun _ => 1%Q), (fun _ => 1%Q), 1%Q, cr_predict, None, (fun p => p 0), 3, cr_train, 2, 3,
    1, (fun _ => ax_pt [1 # 2; 9]%Q), (fun _ => [0]), cr_rules, (fun _ => 0%Q), (fun _ => 0%Q), (fun i => i).
  eexists _, (fun _ => 1%Q), _, _. split; [intros n g H; apply Nat.mod_upper_bound; lia|]. split; [intros i _; vm_compute; discriminate|].
  split; [intros i _; exists (ax_pt [3 # 2]%Q); vm_compute; reflexivity|].
  split; [vm_compute; reflexivity|]. split; [vm_compute; reflexivity|]. split; [vm_compute; reflexivity|].
  split; [vm_compute; reflexivity|]. split; [vm_compute; reflexivity|].
  intros a i [<-|[]]. vm_compute. discriminate.
Qed.
Print Assumptions C90_target_refuted.
(** ... and the accuracy for the original model is never computed: the model given is
    dropped by the constructor. *)
Theorem C90_original_never : forall (G : Type) (rand : G -> Q * G) randint exp lg temp classifier predict,
  (forall n g, 0 < n -> fst (randint n g) < n) ->
  forall given score N data batch max_iter n x S_star cs down up gs o,
  sample_local rand randint exp lg temp classifier predict given score N data batch max_iter n x S_star cs down up gs = Some o -> o_acc_orig o = None.
Proof. exact @local_original. Qed.
Print Assumptions C90_original_never.
Theorem C90_original_refuted : exists (rand : nat -> Q * nat) randint exp lg temp (predict model : pt -> Q) score N data batch max_iter n x S_star cs down up gs o,
  (forall n g, 0 < n -> fst (randint n g) < n) /\
  sample_local rand randint exp lg temp true predict (Some model) score N data batch max_iter n x S_star cs down up gs = Some o /\
  o_draws o <> [] /\ o_acc_orig o = None.
Proof.
  exists ax_rand, ax_randint, (fun _ => 1%Q), (fun _ => 1%Q), 1%Q, cr_predict, cr_predict, (fun p => p 0), 3, cr_train, 2, 3,
    1, (fun _ => ax_pt [1 # 2; 9]%Q), (fun _ => [0]), cr_rules, (fun _ => 0%Q), (fun _ => 0%Q), (fun i => i).
  eexists. split; [intros n g H; apply Nat.mod_upper_bound; lia|]. split; [vm_compute; reflexivity|]. split; [discriminate|reflexivity].
Qed.
Print Assumptions C90_original_refuted.

(** C91: every sample of the regional session starts from a test observation of a rule and
    follows the most probable counterfactual of that rule... *)
Theorem C91_draws : forall (G : Type) (rand : G -> Q * G) randint exp lg temp classifier predict,
  (forall n g, 0 < n -> fst (randint n g) < n) ->
  forall given iso N data batch max_iter d n max_obs tests rules S_star cs down up gs o a,
  sample_regional rand randint exp lg temp classifier predict given iso N data batch max_iter d n max_obs tests rules S_star cs down up gs = Some o ->
  In a (o_draws o) ->
  exists i x c score, i < n /\ In x tests /\ inside d (rules i) x /\ iso = Some score /\ most_probable (cs i) c /\
    moved N data (S_star i) c x (d_point a) /\ (d_score a == score (d_point a))%Q /\
    (d_err a = true <-> if classifier then ~ (predict (d_point a) == predict x)%Q else (down i <= predict (d_point a) <= up i)%Q).
Proof. exact @regional_draws. Qed.
Print Assumptions C91_draws.
(** ... and satisfies it. *)
Theorem C91_inside : forall (G : Type) (rand : G -> Q * G) randint exp lg temp classifier predict,
  (forall n g, 0 < n -> fst (randint n g) < n) ->
  forall given iso N data batch max_iter d n max_obs tests rules S_star cs down up gs o a,
  (forall i c p, i < n -> In (c, p) (cs i) -> proper (S_star i) c /\ forall k, k < d -> ~ In k (S_star i) -> c k = rules i k) ->
  sample_regional rand randint exp lg temp classifier predict given iso N data batch max_iter d n max_obs tests rules S_star cs down up gs = Some o ->
  In a (o_draws o) -> exists i c p, i < n /\ In (c, p) (cs i) /\ inside d c (d_point a).
Proof. exact @regional_inside. Qed.
Print Assumptions C91_inside.
(** It raises exactly when a sample is needed before any local session: the isolation
    forest is fitted there only. *)
Theorem C91_raises : forall (G : Type) (rand : G -> Q * G) randint exp lg temp classifier predict,
  (forall n g, 0 < n -> fst (randint n g) < n) ->
  forall given iso N data batch max_iter d n max_obs tests rules S_star cs down up gs, 0 < batch -> 0 < max_obs ->
  sample_regional rand randint exp lg temp classifier predict given iso N data batch max_iter d n max_obs tests rules S_star cs down up gs = None <->
  iso = None /\ exists i x, i < n /\ cs i <> [] /\ In x tests /\ inside d (rules i) x.
Proof. exact @regional_raises. Qed.
Print Assumptions C91_raises.
(** The coverage reported is 1 whenever it is defined... *)
Theorem C91_coverage_partial : forall (G : Type) (rand : G -> Q * G) randint exp lg temp classifier predict,
  forall given iso N data batch max_iter d n max_obs tests rules S_star cs down up gs o,
  sample_regional rand randint exp lg temp classifier predict given iso N data batch max_iter d n max_obs tests rules S_star cs down up gs = Some o ->
  match o_cov o with Some c => (c == 1)%Q /\ o_draws o <> [] | None => o_draws o = [] end.
Proof. exact @regional_coverage. Qed.
Print Assumptions C91_coverage_partial.
Example C91_example :
  let go iso tests := sample_regional ax_rand ax_randint (fun _ => 1%Q) (fun _ => 1%Q) 1%Q true cr_predict None iso 3 cr_train 2 3
                   2 2 2 tests (fun i => ax_box [(Qn i, Qn (S i)); (9, 10)]%Q) (fun _ => [0]) cr_rules (fun _ => 0%Q) (fun _ => 0%Q) (fun i k => i + k) in
  let sh := option_map (fun o => (map (fun a => (map (fun k => Qred (d_point a k)) [0; 1], d_err a)) (o_draws o), option_map Qred (o_acc o), option_map Qred (o_cov o))) in
  sh (go (Some (fun p => p 0)) [ax_pt [3 # 2; 9]; ax_pt [1 # 2; 9]; ax_pt [1 # 3; 10]; ax_pt [1 # 3; 9]]%Q)
    = Some ([([5 # 2; 9]%Q, true); ([5 # 2; 10]%Q, true)], Some 1%Q, Some 1%Q) /\
  sh (go None [ax_pt [3 # 2; 9]; ax_pt [1 # 2; 9]]%Q) = None /\
  sh (go None [ax_pt [3 # 2; 9]]%Q) = Some ([], None, None).
Proof. vm_compute. repeat split; reflexivity. Qed.
(** ... so it says nothing of the observations left without counterfactual. *)
Theorem C91_coverage_refuted : exists (rand : nat -> Q * nat) randint exp lg temp (predict : pt -> Q) given iso N data batch max_iter d n max_obs tests rules S_star cs down up gs o c,
  (forall n g, 0 < n -> fst (randint n g) < n) /\
  sample_regional rand randint exp lg temp true predict given iso N data batch max_iter d n max_obs tests rules S_star cs down up gs = Some o /\
  o_cov o = Some c /\ (c == 1)%Q /\ length (o_draws o) < length tests /\ length tests <= max_obs /\
  (forall x, In x tests -> exists i, i < n /\ inside d (rules i) x) /\
  exists x, In x tests /\ forall i, i < n -> inside d (rules i) x -> cs i = [].
Proof.
  exists ax_rand, ax_randint, (fun _ => 1%Q), (fun _ => 1%Q), 1%Q, cr_predict, None, (Some (fun p => p 0)), 3, cr_train, 2, 3,
    2, 2, 2, [ax_pt [3 # 2; 9]; ax_pt [1 # 2; 9]]%Q, (fun i => ax_box [(Qn i, Qn (S i)); (9, 10)]%Q), (fun _ => [0]), cr_rules, (fun _ => 0%Q), (fun _ => 0%Q), (fun i k => i + k).
  eexists _, _. split; [intros n g H; apply Nat.mod_upper_bound; lia|]. split; [vm_compute; reflexivity|].
  split; [vm_compute; reflexivity|]. split; [vm_compute; reflexivity|]. split; [vm_compute; lia|]. split; [vm_compute; lia|]. split.
  - intros x [<-|[<-|[]]]; [exists 1|exists 0]; (split; [lia|]); intros [|[|k]] Hk; try lia; vm_compute; split; discriminate.
  - exists (ax_pt [3 # 2; 9]%Q). split; [now left|]. intros [|[|i]] Hi Hin; [|reflexivity|lia].
    exfalso. destruct (Hin 0 ltac:(lia)) as [_ H]. vm_compute in H. now apply H.
Qed.
Print Assumptions C91_coverage_refuted.
Theorem C91_original_never : forall (G : Type) (rand : G -> Q * G) randint exp lg temp classifier predict,
  (forall n g, 0 < n -> fst (randint n g) < n) ->
  forall given iso N data batch max_iter d n max_obs tests rules S_star cs down up gs o,
  sample_regional rand randint exp lg temp classifier predict given iso N data batch max_iter d n max_obs tests rules S_star cs down up gs = Some o ->
  o_acc_orig o = None.
Proof. exact @regional_original. Qed.
Print Assumptions C91_original_never.

(** C92: sampling for every test observation.  The rule chosen holds the observation and
    has the most probable counterfactual, provided some rule with a counterfactual of
    positive probability holds it... *)
Theorem C92_choice_partial : forall d n rules cs x i c p, i < n -> In (c, p) (cs i) -> (0 < p)%Q -> inside_open d (rules i) x ->
  exists b c' p', chosen d n rules cs x = Some b /\ b < n /\ In (c', p') (cs b) /\ (p <= p')%Q /\ inside_open d (rules b) x.
Proof. exact chosen_spec. Qed.
Print Assumptions C92_choice_partial.
(** ... otherwise it is the first rule, which need not hold the observation. *)
Theorem C92_choice_refuted : exists d n rules cs x b, chosen d n rules cs x = Some b /\ cs b <> [] /\ ~ inside d (rules b) x.
Proof.
  exists 1, 2, (fun i => ax_box [(Qn i, Qn (S i))]%Q), (fun _ => cr_rules 0), (ax_pt [5]%Q), 0. split; [reflexivity|]. split; [discriminate|].
  intros H. destruct (H 0 ltac:(lia)) as [_ H1]. vm_compute in H1. now apply H1.
Qed.
Print Assumptions C92_choice_refuted.
(** The session raises as soon as the rule chosen has a counterfactual that changes a
    variable... *)
Theorem C92_raises : forall (G : Type) (rand : G -> Q * G) randint exp lg temp classifier predict,
  forall given iso N data batch max_iter d n tests rules S_star cs down up gs x b,
  In x tests -> chosen d n rules cs x = Some b -> cs b <> [] -> S_star b <> [] ->
  sample_alltests rand randint exp lg temp classifier predict given iso N data batch max_iter d n tests rules S_star cs down up gs = None.
Proof. exact @alltests_raises. Qed.
Print Assumptions C92_raises.
(** ... and when it does not, every sample drawn is a test observation, so that for
    classification the accuracy is 0. *)
Theorem C92_still : forall (G : Type) (rand : G -> Q * G) randint exp lg temp classifier predict,
  forall given iso N data batch max_iter d n tests rules S_star cs down up gs o a,
  sample_alltests rand randint exp lg temp classifier predict given iso N data batch max_iter d n tests rules S_star cs down up gs = Some o ->
  In a (o_draws o) -> In (d_point a) tests /\ (classifier = true -> d_err a = false).
Proof. exact @alltests_still. Qed.
Print Assumptions C92_still.
Theorem C92_accuracy : forall (G : Type) (rand : G -> Q * G) randint exp lg temp classifier predict,
  forall given iso N data batch max_iter d n tests rules S_star cs down up gs o q,
  classifier = true ->
  sample_alltests rand randint exp lg temp classifier predict given iso N data batch max_iter d n tests rules S_star cs down up gs = Some o ->
  o_acc o = Some q -> (q == 0)%Q.
Proof. exact @alltests_accuracy. Qed.
Print Assumptions C92_accuracy.
(** So an observation held by a rule whose counterfactual changes its class gets none. *)
Theorem C92_session_refuted : exists (rand : nat -> Q * nat) randint exp lg temp (predict : pt -> Q) given iso N data batch max_iter d n tests rules S_star cs down up gs,
  (forall n g, 0 < n -> fst (randint n g) < n) /\ 0 < batch /\ iso <> None /\ tests <> [] /\
  (forall x, In x tests -> exists i, i < n /\ inside_open d (rules i) x /\ exists c p, In (c, p) (cs i) /\ (0 < p)%Q /\
     exists k, k < N /\ inside d c (data k) /\ ~ (predict (data k) == predict x)%Q) /\
  sample_alltests rand randint exp lg temp true predict given iso N data batch max_iter d n tests rules S_star cs down up gs = None.
Proof.
  exists ax_rand, ax_randint, (fun _ => 1%Q), (fun _ => 1%Q), 1%Q, cr_predict, None, (Some (fun p => p 0)), 3, cr_train, 2, 3,
    2, 1, [ax_pt [1 # 2; 9]]%Q, (fun i => ax_box [(0, 1); (8, 10)]%Q), (fun _ => [0]),
    (fun _ => [(ax_box [(2, 3); (0, 9)], 9 # 10)])%Q, (fun _ => 0%Q), (fun _ => 0%Q), (fun i => i).
  split; [intros n g H; apply Nat.mod_upper_bound; lia|]. split; [lia|]. split; [discriminate|]. split; [discriminate|]. split.
  - intros x [<-|[]]. exists 0. split; [lia|]. split; [intros [|[|k]] Hk; try lia; vm_compute; split; [reflexivity|discriminate|reflexivity|discriminate]|].
    eexists _, _. split; [left; reflexivity|]. split; [reflexivity|]. exists 2. split; [lia|]. split; [|vm_compute; discriminate].
    intros [|[|k]] Hk; try lia; vm_compute; split; discriminate.
  - vm_compute. reflexivity.
Qed.
Print Assumptions C92_session_refuted.
Example C92_example :
  let go Sv tests := sample_alltests ax_rand ax_randint (fun _ => 1%Q) (fun _ => 1%Q) 1%Q true cr_predict None (Some (fun p => p 0)) 3 cr_train 2 3
                   2 2 tests (fun i => ax_box [(Qn i, Qn (S i)); (8, 10)]%Q) (fun _ => Sv) cr_rules (fun _ => 0%Q) (fun _ => 0%Q) (fun i => i) in
  let sh := option_map (fun o => (map (fun a => (map (fun k => Qred (d_point a k)) [0; 1], d_err a)) (o_draws o), option_map Qred (o_acc o), option_map Qred (o_cov o))) in
  sh (go [0] [ax_pt [3 # 2; 9]; ax_pt [1 # 2; 9]]%Q) = None /\
  sh (go [] [ax_pt [3 # 2; 9]; ax_pt [1 # 2; 9]]%Q) = Some ([([3 # 2; 9]%Q, false); ([1 # 2; 9]%Q, false)], Some 0%Q, Some 1%Q) /\
  chosen 2 2 (fun i => ax_box [(Qn i, Qn (S i)); (8, 10)]%Q) (fun i => cr_rules (1 - i)) (ax_pt [3 # 2; 9]%Q) = Some 1 /\
  chosen 2 3 (fun i => ax_box [(0, Qn (S i)); (8, 10)]%Q) (fun i => [(ax_box [], Qn i)]) (ax_pt [3 # 2; 9]%Q) = Some 2.
Proof. vm_compute. repeat split; reflexivity. Qed.

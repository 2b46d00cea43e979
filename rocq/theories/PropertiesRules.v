(** Rules: enlarging, removing redundant ones, metrics, prediction,
    counterfactual rules. *)
From Verif Require Import Base RfModel RulesModel RulesSpec RulesProofs RulesModelProofs.

(** A rule given by its first intervals, for the examples. *)
Definition ex_box (l : list (Q * Q)) : nat -> Q * Q := fun k => nth k l (-big, big)%Q.
(** A point given by its first coordinates, for the examples. *)
Definition ex_pt (l : list Q) : pt := fun k => nth k l 0%Q.

(** C34: the merge of two neighbouring rectangles does not always cover the
    second one... *)
Theorem C34_union_covers_refuted : exists a b Sv d x, proper Sv a /\ proper Sv b /\
  let u := extend_rec a b Sv (find_nbor a b Sv) in
  ~ same_rule d u a /\ inside d b x /\ ~ inside d u x.
Proof.
  exists (ex_box [(0, 1); (0, 1)])%Q, (ex_box [(1, 2); (0, 3)])%Q, [0; 1], 2, (ex_pt [3 # 2; 2])%Q.
  split; [intros k [<-|[<-|[]]]; cbn; lra|]. split; [intros k [<-|[<-|[]]]; cbn; lra|].
  intro u. split; [|split].
  - intro H. specialize (H 0 ltac:(lia)). vm_compute in H. destruct H as [_ H]. discriminate.
  - intros [|[|k]] Hk; [cbn; lra|cbn; lra|lia].
  - intro H. specialize (H 1 ltac:(lia)). vm_compute in H. destruct H as [_ H]. now apply H.
Qed.
Print Assumptions C34_union_covers_refuted.
(** ... but contains the first, and also the second when the second lies within
    the first on the variables where they do not touch (unless nothing was merged). *)
Theorem C34_union_covers_partial : forall a b Sv d, proper Sv a -> proper Sv b ->
  (forall k, k < d -> ~ (In k Sv /\ touch a b k) -> (fst (a k) <= fst (b k))%Q /\ (snd (b k) <= snd (a k))%Q) ->
  let u := extend_rec a b Sv (find_nbor a b Sv) in
  subrule d a u /\ (u = a \/ subrule d b u).
Proof. exact union_covers. Qed.
Print Assumptions C34_union_covers_partial.
Example C34_example :
  let a := ex_box [(0, 1); (0, 3)]%Q in let b := ex_box [(1, 2); (0, 2)]%Q in
  let u := extend_rec a b [0; 1] (find_nbor a b [0; 1]) in
  proper [0; 1] a /\ proper [0; 1] b /\ touch a b 0 /\ ~ touch a b 1 /\ map u [0; 1; 2] = [(0, 2); (0, 3); (- big, big)]%Q.
Proof.
  repeat split.
  - intros k [<-|[<-|[]]]; cbn; lra.
  - intros k [<-|[<-|[]]]; cbn; lra.
  - right. reflexivity.
  - intros [H|H]; discriminate H.
Qed.

(** C66: the merge may add points of neither rectangle... *)
Theorem C66_union_only_refuted : exists a b Sv d x, proper Sv a /\ proper Sv b /\
  inside d (extend_rec a b Sv (find_nbor a b Sv)) x /\ ~ inside d a x /\ ~ inside d b x.
Proof.
  exists (ex_box [(0, 1); (0, 2)])%Q, (ex_box [(1, 2); (0, 1)])%Q, [0; 1], 2, (ex_pt [3 # 2; 3 # 2])%Q.
  split; [intros k [<-|[<-|[]]]; cbn; lra|]. split; [intros k [<-|[<-|[]]]; cbn; lra|].
  split; [|split].
  - intros [|[|k]] Hk; [vm_compute; split; discriminate|vm_compute; split; discriminate|lia].
  - intro H. specialize (H 0 ltac:(lia)). cbn in H. lra.
  - intro H. specialize (H 1 ltac:(lia)). cbn in H. lra.
Qed.
Print Assumptions C66_union_only_refuted.
(** ... but not when they touch on one variable and the second is as wide as the
    first on the others. *)
Theorem C66_union_only_partial : forall a b Sv d k0 s, find_nbor a b Sv = [(k0, s)] ->
  (forall k, k < d -> k <> k0 -> (fst (b k) <= fst (a k))%Q /\ (snd (a k) <= snd (b k))%Q) ->
  forall x, inside d (extend_rec a b Sv (find_nbor a b Sv)) x -> inside d a x \/ inside d b x.
Proof. exact union_only. Qed.
Print Assumptions C66_union_only_partial.
Example C66_example :
  let a := ex_box [(0, 1); (0, 1)]%Q in let b := ex_box [(1, 2); (0, 3)]%Q in
  find_nbor a b [0; 1] = [(0, true)] /\
  map (extend_rec a b [0; 1] (find_nbor a b [0; 1])) [0; 1] = [(0, 2); (0, 1)]%Q.
Proof. split; reflexivity. Qed.

(** C35: the enlarged rule is defined (the recursion ends), contains the rule,
    differs only on the conditioning set, and every bound is that of the rule or
    of the rule of a sample that reaches the level. *)
Theorem C35_extended_rule : forall rules rules_data sdp_all M pi Ss i d,
  (forall j, j < M -> proper (Ss i) (rules_data i j)) ->
  exists r, extend_partition rules rules_data sdp_all M pi Ss i = Some r /\ subrule d (rules i) r /\
    (forall k, ~ In k (Ss i) -> r k = rules i k) /\
    forall k, (fst (r k) = fst (rules i k) \/ exists j, j < M /\ (pi <= sdp_all i j)%Q /\ fst (r k) = fst (rules_data i j k)) /\
              (snd (r k) = snd (rules i k) \/ exists j, j < M /\ (pi <= sdp_all i j)%Q /\ snd (r k) = snd (rules_data i j k)).
Proof. exact extended_partition. Qed.
Print Assumptions C35_extended_rule.
Example C35_example :
  let rules := fun _ : nat => ex_box [(0, 1); (0, 1)]%Q in
  let rd := fun _ j => nth j [ex_box [(3, 4); (0, 1)]; ex_box [(1, 2); (0, 1)]; ex_box [(2, 3); (0, 1)]; ex_box [(4, 9); (0, 1)]]%Q rule0 in
  let p := fun _ j => nth j [9 # 10; 1; 19 # 20; 1 # 2]%Q 0%Q in
  option_map (fun r => map r [0; 1]) (extend_partition rules rd p 4 (9 # 10) (fun _ => [0]) 0) = Some [(0, 4); (0, 1)]%Q.
Proof. vm_compute. reflexivity. Qed.

(** C38: removing contained rules loses no point, keeps only given rules, once
    each. *)
Theorem C38_remove_covers : forall d n ra i, i < n -> exists r, In r (remove_in d n ra) /\ wider d r (ra i).
Proof. exact remove_in_covers. Qed.
Print Assumptions C38_remove_covers.
Theorem C38_remove_points : forall d n ra x,
  (exists i, i < n /\ inside d (ra i) x) <-> (exists r, In r (remove_in d n ra) /\ inside d r x).
Proof. exact remove_in_points. Qed.
Print Assumptions C38_remove_points.
Theorem C38_remove_members : forall d n ra r, In r (remove_in d n ra) -> exists i, i < n /\ r = ra i.
Proof. exact remove_in_members. Qed.
Print Assumptions C38_remove_members.
Theorem C38_remove_distinct : forall d n ra i j r0, i < j -> j < length (remove_in d n ra) ->
  ~ same_rule d (nth i (remove_in d n ra) r0) (nth j (remove_in d n ra) r0).
Proof. exact remove_in_distinct. Qed.
Print Assumptions C38_remove_distinct.
(** The version with probabilities and weights deletes the larger rule, and both
    of two equal rules. *)
Theorem C38_delete_refuted :
  (exists d n ra sa (wa : nat -> Q) i x, i < n /\ inside d (ra i) x /\
     forall e, In e (remove_in_wsdp_cr d n ra sa wa) -> ~ inside d (fst (fst e)) x) /\
  (exists d n ra sa (wa : nat -> Q), 0 < n /\ remove_in_wsdp_cr d n ra sa wa = []).
Proof.
  split.
  - exists 1, 2, (fun i => nth i [ex_box [(0, 1)]; ex_box [(0, 2)]] rule0)%Q, (fun _ => 1%Q), (fun _ => 1%Q), 1, (ex_pt [3 # 2])%Q.
    split; [lia|]. split; [intros [|k] Hk; [cbn; lra|lia]|].
    intros e [<-|[]] H. specialize (H 0 ltac:(lia)). cbn in H. lra.
  - exists 1, 2, (fun i => ex_box [(0, 1)])%Q, (fun _ => 1%Q), (fun _ => 1%Q). split; [lia|reflexivity].
Qed.
Print Assumptions C38_delete_refuted.
(** What it does: it keeps, with their own probabilities and weights, exactly the
    rules that contain no other rule. *)
Theorem C38_delete_partial : forall W d n ra sa (wa : nat -> W),
  exists keep, remove_in_wsdp_cr d n ra sa wa = map (fun i => (ra i, sa i, wa i)) keep /\ NoDup keep /\
    forall j, In j keep <-> j < n /\ forall i, i < n -> i <> j -> ~ wider d (ra j) (ra i).
Proof. exact @wsdp_cr_exact. Qed.
Print Assumptions C38_delete_partial.
(** Without equal rules, every rule contains a kept one. *)
Theorem C38_delete_minimal_partial : forall d n (ra : nat -> rule),
  (forall i j, i < n -> j < n -> i <> j -> wider d (ra i) (ra j) -> wider d (ra j) (ra i) -> False) ->
  forall i, i < n -> exists j, j < n /\ wider d (ra i) (ra j) /\ forall k, k < n -> k <> j -> ~ wider d (ra j) (ra k).
Proof. exact minimal_exists. Qed.
Print Assumptions C38_delete_minimal_partial.
Example C38_example :
  let ra := fun i => nth i [ex_box [(0, 1)]; ex_box [(2, 5)]; ex_box [(3, 4)]; ex_box [(0, 1)]]%Q rule0 in
  map (fun r => map r [0]) (remove_in 1 4 ra) = [[(0, 1)]; [(2, 5)]]%Q /\
  map (fun e => (map (fst (fst e)) [0], snd (fst e))) (remove_in_wsdp_cr 1 3 ra (fun i => Qn i) (fun _ => 0%Q))
    = [([(0, 1)], Qn 0); ([(3, 4)], Qn 2)]%Q /\
  (forall i j, i < 3 -> j < 3 -> i <> j -> wider 1 (ra i) (ra j) -> wider 1 (ra j) (ra i) -> False).
Proof.
  intro ra. split; [vm_compute; reflexivity|]. split; [vm_compute; reflexivity|].
  intros [|[|[|i]]] [|[|[|j]]] Hi Hj Hn H1 H2; try lia;
    specialize (H1 0 ltac:(lia)); specialize (H2 0 ltac:(lia)); cbn in H1, H2; lra.
Qed.

(** C67: the kept rules are pairwise incomparable, and are exactly the maximal
    given rules. *)
Theorem C67_antichain : forall d n ra r s, In r (remove_in d n ra) -> In s (remove_in d n ra) ->
  wider d r s -> same_rule d r s.
Proof. exact remove_in_antichain. Qed.
Print Assumptions C67_antichain.
Theorem C67_maximal : forall d n ra i, i < n ->
  ((exists r, In r (remove_in d n ra) /\ same_rule d r (ra i)) <->
   forall j, j < n -> wider d (ra j) (ra i) -> same_rule d (ra j) (ra i)).
Proof. exact remove_in_exact. Qed.
Print Assumptions C67_maximal.
Example C67_example :
  let ra := fun i => nth i [ex_box [(0, 1)]; ex_box [(0, 3)]; ex_box [(0, 2)]; ex_box [(2, 4)]; ex_box [(3, 4)]]%Q rule0 in
  map (fun r => map r [0]) (remove_in 1 5 ra) = [[(0, 3)]; [(2, 4)]]%Q.
Proof. vm_compute. reflexivity. Qed.

(** C68: the rules and the probabilities are sorted separately, so they no longer
    correspond... *)
Theorem C68_pairing_refuted :
  (exists d n ra k, k < length (fst (remove_in_wsdp d n ra)) /\
     forall i, i < n -> same_rule d (nth k (fst (remove_in_wsdp d n ra)) rule0) (fst (ra i)) ->
       ~ (nth k (snd (remove_in_wsdp d n ra)) 0 == snd (ra i))%Q) /\
  (exists d n ra, length (fst (remove_in_wsdp d n ra)) <> length (snd (remove_in_wsdp d n ra))) /\
  (exists d (est : rule -> Q * unit) mk leaves pi k,
     let (rs, ps) := return_counterfactuals_v1 d est mk leaves pi in
     k < length rs /\ ~ (nth k ps 0 == fst (est (nth k rs rule0)))%Q).
Proof.
  split; [|split].
  - exists 1, 2, (fun i => nth i [(ex_box [(0, 1)], 9 # 10); (ex_box [(2, 3)], 8 # 10)] (rule0, 0))%Q, 0.
    split; [vm_compute; lia|]. intros [|[|i]] Hi H; [vm_compute; discriminate| |lia].
    specialize (H 0 ltac:(lia)). vm_compute in H. destruct H; discriminate.
  - exists 1, 2, (fun i => nth i [(ex_box [(0, 1)], 1); (ex_box [(2, 3)], 1)] (rule0, 0))%Q. vm_compute. discriminate.
  - exists 1, (fun r => ((if qltb (fst (r 0%nat)) 1 then 1 else 9 # 10)%Q, tt)), (fun r => r),
      [ex_box [(0, 1)]; ex_box [(2, 3)]]%Q, (9 # 10)%Q, 0. vm_compute. split; [lia|discriminate].
Qed.
Print Assumptions C68_pairing_refuted.
(** ... but the rules are those of [remove_in], and the probabilities are
    probabilities of given rules. *)
Theorem C68_pairing_partial : forall d n ra,
  fst (remove_in_wsdp d n ra) = remove_in d n (fun i => fst (ra i)) /\
  forall q, In q (snd (remove_in_wsdp d n ra)) -> exists i, i < n /\ q = snd (ra i).
Proof. intros d n ra. exact (conj (wsdp_rules d n ra) (wsdp_probs d n ra)). Qed.
Print Assumptions C68_pairing_partial.
(** When all rules have the same probability there is nothing to confuse: the only
    probability kept is that one. *)
Theorem C68_constant_partial : forall d n ra p, 0 < n -> (forall i, i < n -> snd (ra i) = p) ->
  snd (remove_in_wsdp d n ra) = [p].
Proof. exact wsdp_constant. Qed.
Print Assumptions C68_constant_partial.
Example C68_example :
  let ra := fun i => nth i [(ex_box [(0, 1)], 9 # 10); (ex_box [(0, 3)], 19 # 20); (ex_box [(4, 5)], 9 # 10)]%Q (rule0, 0%Q) in
  map (fun r => map r [0]) (fst (remove_in_wsdp 1 3 ra)) = [[(0, 3)]; [(4, 5)]]%Q /\
  snd (remove_in_wsdp 1 3 ra) = [9 # 10; 19 # 20]%Q.
Proof. vm_compute. split; reflexivity. Qed.

(** C39: the condition built from a leaf has the leaf's bounds on the changed
    variables, the observation's value on the fixed ones, and is free elsewhere. *)
Theorem C39_condition : forall S_star S_bar x leaf k,
  (In k S_star -> cond_local S_star S_bar x leaf k = leaf k) /\
  (~ In k S_star -> In k S_bar -> cond_local S_star S_bar x leaf k = (x k, x k)) /\
  (~ In k S_star -> ~ In k S_bar -> cond_local S_star S_bar x leaf k = ((- (10000000000 # 1))%Q, 10000000000 # 1)).
Proof. exact cond_local_spec. Qed.
Print Assumptions C39_condition.
Theorem C39_condition_regional : forall S_star cond_s leaf k,
  cond_regional S_star cond_s leaf k = if memb k S_star then leaf k else cond_s k.
Proof. exact cond_regional_spec. Qed.
Print Assumptions C39_condition_regional.
(** The returned conditions are exactly those whose estimate reaches the level,
    with their estimates; if there is none, the single best one; the search is
    undefined only without leaves. *)
Theorem C39_counterfactuals : forall W (est : rule -> Q * W) mk leaves pi,
  (return_counterfactuals est mk leaves pi = None <-> leaves = []) /\
  forall out, return_counterfactuals est mk leaves pi = Some out ->
    (exists leaf, In leaf leaves /\ (pi <= fst (est (mk leaf)))%Q /\
       forall c p w, In (c, p, w) out <-> exists leaf, In leaf leaves /\ (pi <= fst (est (mk leaf)))%Q /\ c = mk leaf /\ (p, w) = est c) \/
    (exists leaf, In leaf leaves /\ (forall l, In l leaves -> (fst (est (mk l)) < pi)%Q /\ (fst (est (mk l)) <= fst (est (mk leaf)))%Q) /\
       out = [(mk leaf, fst (est (mk leaf)), snd (est (mk leaf)))]).
Proof. exact @counterfactuals_spec. Qed.
Print Assumptions C39_counterfactuals.
Example C39_example :
  let est := fun r : rule => (if qltb (fst (r 1%nat)) 4 then (fst (r 1%nat) / 4)%Q else 0%Q, tt) in
  let mk := cond_local [1] [0; 2] (ex_pt [7; 8; 9]%Q) in
  let leaves := [ex_box [(5, 6); (1, 2)]; ex_box [(5, 6); (3, 4)]; ex_box [(5, 6); (2, 3)]]%Q in
  option_map (map (fun e => (map (fst (fst e)) [0; 1; 2; 3], Qred (snd (fst e))))) (return_counterfactuals est mk leaves (1 # 2))
    = Some [([(7, 7); (3, 4); (9, 9); (- big, big)], 3 # 4); ([(7, 7); (2, 3); (9, 9); (- big, big)], 1 # 2)]%Q /\
  option_map (map (fun e => (map (fst (fst e)) [0; 1; 2; 3], Qred (snd (fst e))))) (return_counterfactuals est mk leaves (9 # 10))
    = Some [([(7, 7); (3, 4); (9, 9); (- big, big)], 3 # 4)]%Q.
Proof. vm_compute. split; reflexivity. Qed.

(** C71: the samples used for counterfactuals have the target, are exactly those
    of positive weight if there is one, and exist as soon as one sample has the
    target. *)
Theorem C71_samples_have_target : forall N w ind i, In i (return_xy_cnt N w ind) -> i < N /\ ind i = true.
Proof. exact return_xy_spec. Qed.
Print Assumptions C71_samples_have_target.
Theorem C71_samples_exact : forall N w ind j, j < N -> ~ (w j == 0)%Q -> ind j = true ->
  forall i, In i (return_xy_cnt N w ind) <-> i < N /\ ~ (w i == 0)%Q /\ ind i = true.
Proof. exact return_xy_exact. Qed.
Print Assumptions C71_samples_exact.
Theorem C71_samples_exist : forall N w ind j, j < N -> ind j = true -> return_xy_cnt N w ind <> [].
Proof. exact return_xy_some. Qed.
Print Assumptions C71_samples_exist.
Example C71_example :
  return_xy_cnt 5 (fun i => nth i [1; 0; 1; 1; 0]%Q 0%Q) (fun i => Nat.ltb 0 i) = [2; 3] /\
  return_xy_cnt 5 (fun i => nth i [1; 0; 0; 0; 0]%Q 0%Q) (fun i => Nat.ltb 2 i) = [3; 4].
Proof. split; reflexivity. Qed.

(** C40: coverage is the share of the samples inside the rule, for a rule on at
    least one variable... *)
Theorem C40_coverage_partial : forall data y N Sv r l c, lists_covered N data Sv r l -> Sv <> [] -> 0 < N ->
  (m_cov (rule_metrics c data y N Sv r) == Qn (length l) / Qn N)%Q /\
  (0 <= m_cov (rule_metrics c data y N Sv r) <= 1)%Q.
Proof. exact metrics_coverage. Qed.
Print Assumptions C40_coverage_partial.
(** ... but not for a rule on none, which every sample satisfies. *)
Theorem C40_coverage_refuted : exists data y N Sv r l c, lists_covered N data Sv r l /\ 0 < N /\
  ~ (m_cov (rule_metrics c data y N Sv r) == Qn (length l) / Qn N)%Q.
Proof.
  exists (fun _ _ => 0%Q), (fun _ => 0%Q), 2, [], rule0, [0; 1], true. split; [|split; [lia|vm_compute; discriminate]].
  split; [repeat constructor; cbn; intuition discriminate|]. intro i. split.
  - intros [<-|[<-|[]]]; (split; [lia|intros s []]).
  - intros [H _]. cbn. lia.
Qed.
Print Assumptions C40_coverage_refuted.
(** The accuracy of a classification rule is the share of covered samples whose
    label is the rule's output; it is undefined without covered samples. *)
Theorem C40_accuracy : forall data y N Sv r l, lists_covered N data Sv r l ->
  (l <> [] -> exists o a, m_out (rule_metrics true data y N Sv r) = Some o /\
     m_acc (rule_metrics true data y N Sv r) = Some a /\ (o = 0%Q \/ o = 1%Q) /\
     (a == share (fun i => qeqb (y i) o) l)%Q /\ (0 <= a <= 1)%Q) /\
  (l = [] -> m_acc (rule_metrics true data y N Sv r) = None).
Proof. exact metrics_accuracy. Qed.
Print Assumptions C40_accuracy.
(** For labels 0 and 1 the output is a most frequent label... *)
Theorem C40_majority_partial : forall data y N Sv r l, lists_covered N data Sv r l -> l <> [] ->
  (forall i, In i l -> (y i == 0)%Q \/ (y i == 1)%Q) ->
  exists o, m_out (rule_metrics true data y N Sv r) = Some o /\
    forall v, (share (fun i => qeqb (y i) v) l <= share (fun i => qeqb (y i) o) l)%Q.
Proof. exact metrics_majority. Qed.
Print Assumptions C40_majority_partial.
(** ... but not for other labels. *)
Theorem C40_majority_refuted : exists data y N Sv r l, lists_covered N data Sv r l /\ l <> [] /\
  exists o v, m_out (rule_metrics true data y N Sv r) = Some o /\
    (share (fun i => qeqb (y i) o) l < share (fun i => qeqb (y i) v) l)%Q.
Proof.
  exists (fun _ _ => 0%Q), (fun _ => 2%Q), 2, [0], rule0, [0; 1]. split; [|split; [discriminate|]].
  - split; [repeat constructor; cbn; intuition discriminate|]. intro i. split.
    + intros [<-|[<-|[]]]; (split; [lia|intros s [<-|[]]; vm_compute; split; discriminate]).
    + intros [H _]. cbn. lia.
  - exists 1%Q, 2%Q. split; [reflexivity|]. vm_compute. reflexivity.
Qed.
Print Assumptions C40_majority_refuted.
(** In regression the output is the constant with the least mean squared error on
    the covered samples, and the reported accuracy and variance are that error. *)
Theorem C40_regression : forall data y N Sv r l, lists_covered N data Sv r l -> l <> [] ->
  exists o a v, m_out (rule_metrics false data y N Sv r) = Some o /\
    m_acc (rule_metrics false data y N Sv r) = Some a /\ m_var (rule_metrics false data y N Sv r) = Some v /\
    (o == sumf y l / Qn (length l))%Q /\ (a == mse y l o)%Q /\ (v == a)%Q /\ (0 <= a)%Q /\
    forall c, (mse y l o <= mse y l c)%Q.
Proof. exact metrics_regression. Qed.
Print Assumptions C40_regression.
Example C40_example :
  let data := fun i => ex_pt [nth i [1; 2; 3; 4; 5]%Q 0%Q] in
  let y := fun i => nth i [0; 1; 1; 0; 1]%Q 0%Q in
  let r := ex_box [(2, 4)]%Q in
  lists_covered 5 data [0] r [1; 2; 3] /\
  (let m := rule_metrics true data y 5 [0] r in
   Qred (m_cov m) = (3 # 5)%Q /\ option_map Qred (m_acc m) = Some (2 # 3)%Q /\ m_out m = Some 1%Q) /\
  (let m := rule_metrics false data y 5 [0] r in
   option_map Qred (m_out m) = Some (2 # 3)%Q /\ option_map Qred (m_acc m) = Some (2 # 9)%Q).
Proof.
  cbv zeta. split; [|vm_compute; repeat split; reflexivity].
  split; [repeat constructor; cbn; intuition discriminate|].
  intro i. split.
  - intros [<-|[<-|[<-|[]]]]; (split; [lia|intros s [<-|[]]; cbn; lra]).
  - intros [H1 H2]. specialize (H2 0 (or_introl eq_refl)). cbn in H2.
    destruct i as [|[|[|[|[|i]]]]]; cbn in *; try lia; try (exfalso; lra); auto.
Qed.

(** C41: an answer comes from a rule that contains the sample and is accurate
    enough, the most accurate among those with enough coverage... *)
Theorem C41_answers_partial : forall n rules cov acc Ss min_cov min_acc x i,
  global_rules_model n rules cov acc Ss min_cov min_acc x = Answers i ->
  (i < n /\ covered (Ss i) (rules i) x) /\ exists a, acc i = Some a /\ (min_acc <= a)%Q /\
    (forall j, j < n /\ covered (Ss j) (rules j) x -> (min_cov <= cov j)%Q -> exists b, acc j = Some b /\ (b <= a)%Q) /\
    exists j b, (j < n /\ covered (Ss j) (rules j) x) /\ (min_cov <= cov j)%Q /\ acc j = Some b /\ (b == a)%Q.
Proof. exact clf_answers. Qed.
Print Assumptions C41_answers_partial.
(** ... but the rule itself may miss the coverage threshold: among equal
    accuracies the first rule is taken without looking at its coverage. *)
Theorem C41_coverage_refuted : exists n rules cov acc Ss min_cov min_acc x i,
  global_rules_model n rules cov acc Ss min_cov min_acc x = Answers i /\ (cov i < min_cov)%Q.
Proof.
  exists 2, (fun _ => rule0), (fun i => nth i [1 # 10; 1 # 2]%Q 0%Q), (fun _ => Some (9 # 10)%Q), (fun _ => [0]),
    (3 # 10)%Q, (8 # 10)%Q, (ex_pt [1])%Q, 0. split; [vm_compute; reflexivity|]. cbn. lra.
Qed.
Print Assumptions C41_coverage_refuted.
(** It is respected when the rules containing the sample have distinct accuracies. *)
Theorem C41_coverage_partial : forall n rules cov acc Ss min_cov min_acc x i,
  (forall j k a b, j < n /\ covered (Ss j) (rules j) x -> k < n /\ covered (Ss k) (rules k) x ->
     acc j = Some a -> acc k = Some b -> (a == b)%Q -> j = k) ->
  global_rules_model n rules cov acc Ss min_cov min_acc x = Answers i -> (min_cov <= cov i)%Q.
Proof. exact clf_coverage. Qed.
Print Assumptions C41_coverage_partial.
(** It does not always abstain when no rule qualifies: it raises exactly when
    rules contain the sample but none has enough coverage. *)
Theorem C41_abstains_refuted : exists n rules cov acc Ss min_cov min_acc x,
  global_rules_model n rules cov acc Ss min_cov min_acc x = Raises.
Proof.
  exists 1, (fun _ => rule0), (fun _ => 1 # 10)%Q, (fun _ => Some 1%Q), (fun _ => [0]), (1 # 2)%Q, (1 # 2)%Q, (ex_pt [1])%Q.
  vm_compute. reflexivity.
Qed.
Print Assumptions C41_abstains_refuted.
Theorem C41_raises_partial : forall n rules cov acc Ss min_cov min_acc x,
  global_rules_model n rules cov acc Ss min_cov min_acc x = Raises <->
  (exists i, i < n /\ covered (Ss i) (rules i) x) /\
  forall i, i < n /\ covered (Ss i) (rules i) x -> ~ (min_cov <= cov i)%Q.
Proof. exact clf_raises. Qed.
Print Assumptions C41_raises_partial.
(** With known accuracies it abstains exactly when no rule contains the sample or
    some reach the coverage but none of them the accuracy. *)
Theorem C41_abstains_partial : forall n rules cov acc Ss min_cov min_acc x,
  (forall i, i < n /\ covered (Ss i) (rules i) x -> acc i <> None) ->
  (global_rules_model n rules cov acc Ss min_cov min_acc x = Abstains <->
   (forall i, ~ (i < n /\ covered (Ss i) (rules i) x)) \/
   (exists i, (i < n /\ covered (Ss i) (rules i) x) /\ (min_cov <= cov i)%Q) /\
   forall i a, i < n /\ covered (Ss i) (rules i) x -> (min_cov <= cov i)%Q -> acc i = Some a -> ~ (min_acc <= a)%Q).
Proof. exact clf_abstains. Qed.
Print Assumptions C41_abstains_partial.
(** One undefined accuracy among the rules with enough coverage silences it. *)
Theorem C41_undefined_accuracy : forall n rules cov acc Ss min_cov min_acc x i,
  i < n /\ covered (Ss i) (rules i) x -> (min_cov <= cov i)%Q -> acc i = None ->
  global_rules_model n rules cov acc Ss min_cov min_acc x = Abstains.
Proof. exact clf_nan. Qed.
Print Assumptions C41_undefined_accuracy.
(** The regression predictor: same, with the least error. *)
Theorem C41_regression_partial : forall n rules cov err Ss min_cov max_err x,
  (forall i, global_rules_model_reg n rules cov err Ss min_cov max_err x = Answers i ->
     (i < n /\ covered (Ss i) (rules i) x) /\ exists a, err i = Some a /\ (a <= max_err)%Q /\
       (forall j, j < n /\ covered (Ss j) (rules j) x -> (min_cov <= cov j)%Q -> exists b, err j = Some b /\ (a <= b)%Q) /\
       exists j b, (j < n /\ covered (Ss j) (rules j) x) /\ (min_cov <= cov j)%Q /\ err j = Some b /\ (b == a)%Q) /\
  (global_rules_model_reg n rules cov err Ss min_cov max_err x = Raises <->
     (exists i, i < n /\ covered (Ss i) (rules i) x) /\
     forall i, i < n /\ covered (Ss i) (rules i) x -> ~ (min_cov <= cov i)%Q) /\
  ((forall i, i < n /\ covered (Ss i) (rules i) x -> err i <> None) ->
   (global_rules_model_reg n rules cov err Ss min_cov max_err x = Abstains <->
    (forall i, ~ (i < n /\ covered (Ss i) (rules i) x)) \/
    (exists i, (i < n /\ covered (Ss i) (rules i) x) /\ (min_cov <= cov i)%Q) /\
    forall i a, i < n /\ covered (Ss i) (rules i) x -> (min_cov <= cov i)%Q -> err i = Some a -> ~ (a <= max_err)%Q)).
Proof. exact reg_predict. Qed.
Print Assumptions C41_regression_partial.
Example C41_example :
  let rules := fun i => nth i [ex_box [(0, 5)]; ex_box [(1, 2)]; ex_box [(1, 4)]; ex_box [(7, 8)]]%Q rule0 in
  let cov := fun i => nth i [1 # 2; 1 # 10; 3 # 10; 1]%Q 0%Q in
  let acc := fun i => nth i [Some (8 # 10); Some 1; Some (9 # 10); Some 1]%Q None in
  let go c a := map (fun x => global_rules_model 4 rules cov acc (fun _ => [0]) c a (ex_pt [x])) [3 # 2; 6; 5]%Q in
  go (3 # 10)%Q (8 # 10)%Q = [Answers 2; Abstains; Answers 0] /\
  go (3 # 10)%Q (85 # 100)%Q = [Answers 2; Abstains; Abstains] /\
  go (6 # 10)%Q (8 # 10)%Q = [Raises; Abstains; Raises] /\
  map (fun x => global_rules_model_reg 4 rules cov acc (fun _ => [0]) (3 # 10) (85 # 100) (ex_pt [x])) [3 # 2; 15 # 2]%Q
    = [Answers 0; Abstains].
Proof. vm_compute. repeat split; reflexivity. Qed.

(** C69: compatible leaves.  The leaves compared are rounded versions of maximal
    given ones; those accurate enough are returned, else one of them, and the most
    accurate one if every rounded leaf still holds a sample... *)
Theorem C69_compatible_partial : forall d N data ind level leaves,
  (get_compatible_leaf d N data ind level leaves = None <-> leaves = []) /\
  forall out, get_compatible_leaf d N data ind level leaves = Some out ->
  exists parts, 
    (forall p, In p parts -> exists leaf, In leaf leaves /\ near (1 # 200) p leaf) /\
    (forall leaf, In leaf leaves -> exists p, In p parts /\ forall k, k < d ->
       (fst (p k) <= fst (leaf k) + (1 # 200))%Q /\ (snd (leaf k) - (1 # 200) <= snd (p k))%Q) /\
    ((out <> [] /\ forall r, In r out <-> In r parts /\ exists a, accuracy d N data ind r a /\ (level <= a)%Q) \/
     ((forall r a, In r parts -> accuracy d N data ind r a -> (a < level)%Q) /\
      exists r, out = [r] /\ In r parts /\
        ((forall p, In p parts -> exists i, i < N /\ inside d p (data i)) ->
         exists a, accuracy d N data ind r a /\ forall p b, In p parts -> accuracy d N data ind p b -> (b <= a)%Q))).
Proof. exact compatible_all. Qed.
Print Assumptions C69_compatible_partial.
(** ... but rounding may empty a leaf, whose undefined accuracy then wins over the
    accuracy of a leaf with samples. *)
Theorem C69_best_leaf_refuted : exists d N data ind level leaves r,
  (forall leaf, In leaf leaves -> exists i, i < N /\ inside d leaf (data i)) /\
  get_compatible_leaf d N data ind level leaves = Some [r] /\ (forall i, i < N -> ~ inside d r (data i)) /\
  exists leaf a, In leaf leaves /\ accuracy d N data ind leaf a /\ (0 < a)%Q.
Proof.
  set (data := fun i => ex_pt [nth i [2 # 1000; 3 # 2; 16 # 10]%Q 0%Q]).
  set (leaves := [ex_box [(1 # 1000, 4 # 1000)]; ex_box [(1, 2)]]%Q). set (ind := fun i => Nat.eqb i 1).
  exists 1, 3, data, ind, (9 # 10)%Q, leaves, (round_rule (ex_box [(1 # 1000, 4 # 1000)]%Q)).
  split; [|split; [|split]].
  - intros leaf [<-|[<-|[]]]; [exists 0|exists 1]; (split; [lia|]); intros [|k] Hk; try lia; cbn; lra.
  - reflexivity.
  - intros [|[|[|i]]] Hi H; try lia; specialize (H 0 ltac:(lia)); vm_compute in H; destruct H as [_ H]; now apply H.
  - exists (ex_box [(1, 2)]%Q). eexists. split; [right; now left|]. split.
    + apply (proj1 (leaf_acc_spec 1 3 data ind (ex_box [(1, 2)]%Q))). vm_compute. reflexivity.
    + vm_compute. reflexivity.
Qed.
Print Assumptions C69_best_leaf_refuted.
Example C69_example :
  let data := fun i => ex_pt [nth i [1 # 2; 3 # 2; 16 # 10; 28 # 10]%Q 0%Q] in
  let leaves := [ex_box [(0, 1)]; ex_box [(1, 2)]; ex_box [(12 # 10, 18 # 10)]; ex_box [(5 # 2, 3)]]%Q in
  let go level := option_map (map (fun r => map (fun k => (Qred (fst (r k)), Qred (snd (r k)))) [0]))
     (get_compatible_leaf 1 4 data (fun i => Nat.eqb i 1 || Nat.eqb i 3) level leaves) in
  go (1 # 2)%Q = Some [[(1, 2)]; [(5 # 2, 3)]]%Q /\ go 1%Q = Some [[(5 # 2, 3)]]%Q /\ go 2%Q = Some [[(5 # 2, 3)]]%Q.
Proof. vm_compute. repeat split; reflexivity. Qed.

(** C70: frequencies lie in [1/n, 1] and are the share of equal rules unless
    different rules are close... *)
Theorem C70_frequency : forall d n rules i, i < n -> (1 / Qn n <= rules_frequency d n rules i <= 1)%Q.
Proof. exact frequency_bounds. Qed.
Print Assumptions C70_frequency.
Theorem C70_frequency_exact : forall d n rules i l, i < n ->
  (forall j, j < n -> allclose d (rules j) (rules i) = true -> same_rule d (rules j) (rules i)) ->
  NoDup l -> (forall j, In j l <-> j < n /\ same_rule d (rules j) (rules i)) ->
  (rules_frequency d n rules i == Qn (length l) / Qn n)%Q.
Proof. exact frequency_exact. Qed.
Print Assumptions C70_frequency_exact.
(** "Close" is relative: up to a hundred-thousandth of the second rule's bounds. *)
Theorem C70_close : forall d a b, allclose d a b = true <-> forall k, k < d ->
  (Qabs (fst (a k) - fst (b k)) <= (1 # 100000000) + (1 # 100000) * Qabs (fst (b k)))%Q /\
  (Qabs (snd (a k) - snd (b k)) <= (1 # 100000000) + (1 # 100000) * Qabs (snd (b k)))%Q.
Proof. exact allclose_spec. Qed.
Print Assumptions C70_close.
(** ... each distinct rule appears and is reported with the output of the first
    rule close to it... *)
Theorem C70_outputs_partial : forall B d n rules (outputs : nat -> B),
  (forall i, i < n -> exists u o, In (u, o) (unique_rules d n rules outputs) /\ same_rule d (rules i) u) /\
  forall u o, In (u, o) (unique_rules d n rules outputs) ->
  exists j, j < n /\ o = Some (outputs j) /\ allclose d u (rules j) = true /\
    (forall k, k < j -> allclose d u (rules k) = false) /\ exists i, i < n /\ u = rules i.
Proof. exact unique_rules_all_spec. Qed.
Print Assumptions C70_outputs_partial.
(** ... which need not be its own. *)
Theorem C70_own_output_refuted : exists d n rules (outputs : nat -> Q) u o,
  In (u, o) (unique_rules d n rules outputs) /\ forall j, j < n -> same_rule d u (rules j) -> o <> Some (outputs j).
Proof.
  exists 1, 2, (fun i => nth i [ex_box [(0, 100000)]; ex_box [(0, 200001 # 2)]]%Q rule0), (fun i => nth i [0; 1]%Q 0%Q),
    (ex_box [(0, 200001 # 2)]%Q), (Some 0%Q). split; [vm_compute; auto|].
  intros [|[|j]] Hj H; [|discriminate|lia]. specialize (H 0 ltac:(lia)). vm_compute in H. destruct H; discriminate.
Qed.
Print Assumptions C70_own_output_refuted.
Example C70_example :
  let rules := fun i => nth i [ex_box [(0, 1)]; ex_box [(0, 2)]; ex_box [(0, 1)]; ex_box [(-1, 2)]]%Q rule0 in
  map (fun i => Qred (rules_frequency 1 4 rules i)) (seq 0 4) = [1 # 2; 1 # 4; 1 # 2; 1 # 4]%Q /\
  map (fun e => (map (fst e) [0], snd e)) (unique_rules 1 4 rules (fun i => i))
   = [([(-1, 2)%Q], Some 3); ([(0, 1)%Q], Some 0); ([(0, 2)%Q], Some 1)].
Proof. vm_compute. split; reflexivity. Qed.

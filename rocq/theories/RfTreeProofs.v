(** The projected-forest traversal on the padded arrays of real trees. *)
From Verif Require Import Base TreeModel TreeSpec TreeProofs RfModel RfSpec RfProofs.

(** * One row that stores a tree *)
Section OneTree.
Variable t : tree.
Variable d : nat.
Hypothesis Hwf : wf_tree t d = true.
Hypothesis Hpl : plain_leaves t.
Variable R : row.
Variable Sv : list nat.
Definition stores : Prop := forall i, i < nn t ->
  r_feat R (Z.of_nat i) = nth i (ft t) (-1)%Z /\ r_thr R (Z.of_nat i) = thq t i /\
  r_left R (Z.of_nat i) = clz t i /\ r_right R (Z.of_nat i) = crz t i.
Definition dead_end : Prop :=
  (forall f, ~ splits_on R Sv (-1) f) /\ r_left R (-1) = (-1)%Z /\ r_right R (-1) = (-1)%Z.
Hypothesis Hst : stores.
Hypothesis Hde : dead_end.

Lemma internal_feat i : i < nn t -> leaf_node t i = false -> r_feat R (Z.of_nat i) = Z.of_nat (ftn t i).
Proof.
  intros Hi Hl. destruct (Hst i Hi) as [-> _]. pose proof (wf_node_at t d Hwf i Hi) as H. unfold wf_node in H.
  unfold leaf_node in Hl. rewrite Hl in H. rewrite !andb_true_iff in H.
  destruct H as [[[_ H] _] _]. apply Z.leb_le in H. unfold ftn. lia.
Qed.
Lemma internal_splits i f : i < nn t -> leaf_node t i = false ->
  splits_on R Sv (Z.of_nat i) f <-> f = ftn t i /\ In f Sv.
Proof.
  intros Hi Hl. unfold splits_on. rewrite (internal_feat i Hi Hl). split; intros [A B]; (split; [|exact B]); [lia|now subst].
Qed.
Lemma leaf_splits i f : i < nn t -> leaf_node t i = true -> ~ splits_on R Sv (Z.of_nat i) f.
Proof.
  intros Hi Hl [A _]. destruct (Hst i Hi) as [E _]. destruct (Hpl i Hi Hl) as [_ [_ H]]. lia.
Qed.
Lemma child_left i : i < nn t -> leaf_node t i = false ->
  r_left R (Z.of_nat i) = Z.of_nat (Z.to_nat (clz t i)) /\ i < Z.to_nat (clz t i) < nn t.
Proof.
  intros Hi Hl. destruct (Hst i Hi) as [_ [_ [-> _]]]. destruct (wf_internal t d Hwf i Hi Hl) as [H _]. lia.
Qed.
Lemma child_right i : i < nn t -> leaf_node t i = false ->
  r_right R (Z.of_nat i) = Z.of_nat (Z.to_nat (crz t i)) /\ i < Z.to_nat (crz t i) < nn t.
Proof.
  intros Hi Hl. destruct (Hst i Hi) as [_ [_ [_ ->]]]. destruct (wf_internal t d Hwf i Hi Hl) as [_ [H _]]. lia.
Qed.
Lemma leaf_children i : i < nn t -> leaf_node t i = true ->
  r_left R (Z.of_nat i) = (-1)%Z /\ r_right R (Z.of_nat i) = (-1)%Z.
Proof.
  intros Hi Hl. destruct (Hst i Hi) as [_ [_ [-> ->]]]. destruct (Hpl i Hi Hl) as [A [B _]]. now split.
Qed.
Lemma reached_lt x i : reached t Sv x i -> i < nn t.
Proof.
  induction 1 as [|i H IH Hl _|i H IH Hl _]; [apply (wf_pos t d Hwf)| |];
    destruct (wf_internal t d Hwf i IH Hl) as [A [B _]]; lia.
Qed.

Lemma dp_snoc_left k i j : down_path t k i j -> leaf_node t j = false -> j < nn t ->
  Z.to_nat (clz t j) < nn t -> down_path t (S k) i (Z.to_nat (clz t j)).
Proof.
  induction 1 as [i Hi|k i j Hi Hl H IH|k i j Hi Hl H IH]; intros Hj Hjn Hc.
  - apply dp_left; auto. now constructor.
  - apply dp_left; auto.
  - apply dp_right; auto.
Qed.
Lemma dp_snoc_right k i j : down_path t k i j -> leaf_node t j = false -> j < nn t ->
  Z.to_nat (crz t j) < nn t -> down_path t (S k) i (Z.to_nat (crz t j)).
Proof.
  induction 1 as [i Hi|k i j Hi Hl H IH|k i j Hi Hl H IH]; intros Hj Hjn Hc.
  - apply dp_right; auto. now constructor.
  - apply dp_left; auto.
  - apply dp_right; auto.
Qed.

(** nodes met are reached nodes, or -1 below a leaf *)
Lemma met_real x k n : met R Sv x k n ->
  (exists i, n = Z.of_nat i /\ i < nn t /\ reached t Sv x i /\ down_path t k 0 i) \/
  (n = (-1)%Z /\ exists k' l, k' < k /\ l < nn t /\ leaf_node t l = true /\ reached t Sv x l /\ down_path t k' 0 l).
Proof.
  induction 1 as [|k n f H IH Hs Hx|k n f H IH Hs Hx|k n H IH Hs|k n H IH Hs].
  - left. exists 0. split; [reflexivity|]. pose proof (wf_pos t d Hwf). split; [assumption|]. split; [constructor|now constructor].
  - destruct IH as [[i [-> [Hi [Hr Hd]]]]|[-> _]].
    + destruct (leaf_node t i) eqn:El; [exfalso; now apply (leaf_splits i f Hi El)|].
      apply internal_splits in Hs; [|exact Hi|exact El]. destruct Hs as [-> Hf].
      destruct (child_left i Hi El) as [-> Hc]. left. exists (Z.to_nat (clz t i)). split; [reflexivity|]. split; [lia|].
      split; [apply rch_left; auto; intros _; destruct (Hst i Hi) as [_ [<- _]]; exact Hx|].
      apply dp_snoc_left; auto. lia.
    + exfalso. now apply (proj1 Hde f).
  - destruct IH as [[i [-> [Hi [Hr Hd]]]]|[-> _]].
    + destruct (leaf_node t i) eqn:El; [exfalso; now apply (leaf_splits i f Hi El)|].
      apply internal_splits in Hs; [|exact Hi|exact El]. destruct Hs as [-> Hf].
      destruct (child_right i Hi El) as [-> Hc]. left. exists (Z.to_nat (crz t i)). split; [reflexivity|]. split; [lia|].
      split; [apply rch_right; auto; intros _; destruct (Hst i Hi) as [_ [<- _]]; exact Hx|].
      apply dp_snoc_right; auto. lia.
    + exfalso. now apply (proj1 Hde f).
  - destruct IH as [[i [-> [Hi [Hr Hd]]]]|[-> [k' [l [Hk Hl]]]]].
    + destruct (leaf_node t i) eqn:El.
      * right. split; [apply (leaf_children i Hi El)|]. exists k, i. auto.
      * destruct (child_left i Hi El) as [-> Hc]. left. exists (Z.to_nat (clz t i)). split; [reflexivity|]. split; [lia|].
        split; [apply rch_left; auto|apply dp_snoc_left; auto; lia].
        intro Hf. exfalso. apply (Hs (ftn t i)). apply internal_splits; auto.
    + right. split; [apply (proj2 Hde)|]. exists k', l. split; [lia|exact Hl].
  - destruct IH as [[i [-> [Hi [Hr Hd]]]]|[-> [k' [l [Hk Hl]]]]].
    + destruct (leaf_node t i) eqn:El.
      * right. split; [apply (leaf_children i Hi El)|]. exists k, i. auto.
      * destruct (child_right i Hi El) as [-> Hc]. left. exists (Z.to_nat (crz t i)). split; [reflexivity|]. split; [lia|].
        split; [apply rch_right; auto|apply dp_snoc_right; auto; lia].
        intro Hf. exfalso. apply (Hs (ftn t i)). apply internal_splits; auto.
    + right. split; [apply (proj2 Hde)|]. exists k', l. split; [lia|exact Hl].
Qed.

(** without any assumption on what lies at -1 *)
Lemma met_weak x k n : met R Sv x k n ->
  (exists i, n = Z.of_nat i /\ i < nn t /\ reached t Sv x i /\ down_path t k 0 i) \/
  (exists k' l, k' < k /\ l < nn t /\ leaf_node t l = true /\ reached t Sv x l /\ down_path t k' 0 l).
Proof.
  induction 1 as [|k n f H IH Hs Hx|k n f H IH Hs Hx|k n H IH Hs|k n H IH Hs].
  - left. exists 0. split; [reflexivity|]. pose proof (wf_pos t d Hwf). split; [assumption|]. split; [constructor|now constructor].
  - destruct IH as [[i [-> [Hi [Hr Hd]]]]|[k' [l [Hk Hl]]]]; [|right; exists k', l; split; [lia|exact Hl]].
    destruct (leaf_node t i) eqn:El; [exfalso; now apply (leaf_splits i f Hi El)|].
    apply internal_splits in Hs; [|exact Hi|exact El]. destruct Hs as [-> Hf].
    destruct (child_left i Hi El) as [-> Hc]. left. exists (Z.to_nat (clz t i)). split; [reflexivity|]. split; [lia|].
    split; [apply rch_left; auto; intros _; destruct (Hst i Hi) as [_ [<- _]]; exact Hx|].
    apply dp_snoc_left; auto. lia.
  - destruct IH as [[i [-> [Hi [Hr Hd]]]]|[k' [l [Hk Hl]]]]; [|right; exists k', l; split; [lia|exact Hl]].
    destruct (leaf_node t i) eqn:El; [exfalso; now apply (leaf_splits i f Hi El)|].
    apply internal_splits in Hs; [|exact Hi|exact El]. destruct Hs as [-> Hf].
    destruct (child_right i Hi El) as [-> Hc]. left. exists (Z.to_nat (crz t i)). split; [reflexivity|]. split; [lia|].
    split; [apply rch_right; auto; intros _; destruct (Hst i Hi) as [_ [<- _]]; exact Hx|].
    apply dp_snoc_right; auto. lia.
  - destruct IH as [[i [-> [Hi [Hr Hd]]]]|[k' [l [Hk Hl]]]]; [|right; exists k', l; split; [lia|exact Hl]].
    destruct (leaf_node t i) eqn:El; [right; exists k, i; auto|].
    destruct (child_left i Hi El) as [-> Hc]. left. exists (Z.to_nat (clz t i)). split; [reflexivity|]. split; [lia|].
    split; [apply rch_left; auto|apply dp_snoc_left; auto; lia].
    intro Hf. exfalso. apply (Hs (ftn t i)). apply internal_splits; auto.
  - destruct IH as [[i [-> [Hi [Hr Hd]]]]|[k' [l [Hk Hl]]]]; [|right; exists k', l; split; [lia|exact Hl]].
    destruct (leaf_node t i) eqn:El; [right; exists k, i; auto|].
    destruct (child_right i Hi El) as [-> Hc]. left. exists (Z.to_nat (crz t i)). split; [reflexivity|]. split; [lia|].
    split; [apply rch_right; auto|apply dp_snoc_right; auto; lia].
    intro Hf. exfalso. apply (Hs (ftn t i)). apply internal_splits; auto.
Qed.

Lemma in_dec_Sv f : {In f Sv} + {~ In f Sv}.
Proof. apply (in_dec Nat.eq_dec). Qed.

Lemma reached_met x i : reached t Sv x i -> exists k, down_path t k 0 i /\ met R Sv x k (Z.of_nat i).
Proof.
  induction 1 as [|i H IH Hl Hf|i H IH Hl Hf].
  - exists 0. split; [constructor; apply (wf_pos t d Hwf)|constructor].
  - destruct IH as [k [Hd Hm]]. pose proof (reached_lt x i H) as Hi. destruct (child_left i Hi Hl) as [E Hc].
    exists (S k). split; [apply dp_snoc_left; auto; lia|]. rewrite <- E.
    destruct (in_dec_Sv (ftn t i)) as [Hin|Hin].
    + apply (met_left R Sv x k _ (ftn t i)); auto; [apply internal_splits; auto|].
      destruct (Hst i Hi) as [_ [-> _]]. auto.
    + apply met_free_left; auto. intros f Hs. apply internal_splits in Hs; auto. destruct Hs as [-> Hs]. auto.
  - destruct IH as [k [Hd Hm]]. pose proof (reached_lt x i H) as Hi. destruct (child_right i Hi Hl) as [E Hc].
    exists (S k). split; [apply dp_snoc_right; auto; lia|]. rewrite <- E.
    destruct (in_dec_Sv (ftn t i)) as [Hin|Hin].
    + apply (met_right R Sv x k _ (ftn t i)); auto; [apply internal_splits; auto|].
      destruct (Hst i Hi) as [_ [-> _]]. auto.
    + apply met_free_right; auto. intros f Hs. apply internal_splits in Hs; auto. destruct Hs as [-> Hs]. auto.
Qed.

(** same sides at every split on [Sv] reached *)
Definition same_sides (x z : pt) : Prop := forall i, reached t Sv x i -> leaf_node t i = false ->
  In (ftn t i) Sv -> ((x (ftn t i) <= thq t i)%Q <-> (z (ftn t i) <= thq t i)%Q).

Lemma cell_sides depth x z : tree_depth t <= depth -> same_cell R Sv depth x z <-> same_sides x z.
Proof.
  intro Hd. split.
  - intros H i Hr Hl Hf. destruct (reached_met x i Hr) as [k [Hp Hm]]. pose proof (reached_lt x i Hr) as Hi.
    destruct (Hst i Hi) as [_ [<- _]]. apply (H k (Z.of_nat i)); auto; [|apply internal_splits; auto].
    destruct (child_left i Hi Hl) as [_ Hc].
    assert (down_path t (S k) 0 (Z.to_nat (clz t i))) as Hs by (apply dp_snoc_left; auto; lia).
    apply (proj1 (tree_depth_exact t d Hwf)) in Hs. lia.
  - intros H k n f Hk Hm Hs. apply met_real in Hm. destruct Hm as [[i [-> [Hi [Hr Hp]]]]|[-> _]].
    + destruct (leaf_node t i) eqn:El; [exfalso; now apply (leaf_splits i f Hi El)|].
      apply internal_splits in Hs; auto. destruct Hs as [-> Hf]. destruct (Hst i Hi) as [_ [-> _]]. now apply H.
    + exfalso. now apply (proj1 Hde f).
Qed.

Lemma sides_reached x z : same_sides x z -> forall i, reached t Sv x i <-> reached t Sv z i.
Proof.
  intros H i. split.
  - induction 1 as [|i Hr IH Hl Hf|i Hr IH Hl Hf]; [constructor| |].
    + apply rch_left; auto. intro Hin. apply (H i); auto.
    + apply rch_right; auto. intro Hin. apply Qnot_le_lt. intro C. apply (H i) in C; auto. specialize (Hf Hin). lra.
  - induction 1 as [|i Hr IH Hl Hf|i Hr IH Hl Hf]; [constructor| |].
    + apply rch_left; auto. intro Hin. apply (H i); auto.
    + apply rch_right; auto. intro Hin. apply Qnot_le_lt. intro C. apply (H i) in C; auto. specialize (Hf Hin). lra.
Qed.

Lemma one_parent i j : i < nn t -> j < nn t -> leaf_node t i = false -> leaf_node t j = false ->
  (clz t i = clz t j -> i = j) /\ (crz t i = crz t j -> i = j) /\ clz t i <> crz t j.
Proof.
  intros Hi Hj Li Lj.
  destruct (wf_internal t d Hwf i Hi Li) as [A [B _]]. destruct (wf_internal t d Hwf j Hj Lj) as [A' [B' _]].
  assert (P : forall c, 0 < c < nn t -> (In i (where_eq (cl t) c) -> In j (where_eq (cl t) c) -> i = j) /\
      (In i (where_eq (cr t) c) -> In j (where_eq (cr t) c) -> i = j) /\
      ~ (In i (where_eq (cl t) c) /\ In j (where_eq (cr t) c))).
  { intros c Hc. destruct (parent_cases t d Hwf c Hc) as [[p [E1 E2]]|[p [E1 E2]]]; rewrite E1, E2; cbn; intuition congruence. }
  split; [|split].
  - intro E. apply (proj1 (P (Z.to_nat (clz t i)) ltac:(lia))); apply in_where_cl; split; auto; lia.
  - intro E. apply (proj1 (proj2 (P (Z.to_nat (crz t i)) ltac:(lia)))); apply (in_where_cr t d Hwf); split; auto; lia.
  - intro E. apply (proj2 (proj2 (P (Z.to_nat (clz t i)) ltac:(lia)))). split; [apply in_where_cl|apply (in_where_cr t d Hwf)]; split; auto; lia.
Qed.

Lemma reached_parent_left w i : i < nn t -> leaf_node t i = false -> reached t Sv w (Z.to_nat (clz t i)) ->
  reached t Sv w i /\ (In (ftn t i) Sv -> (w (ftn t i) <= thq t i)%Q).
Proof.
  intros Hi Hl H. remember (Z.to_nat (clz t i)) as c eqn:Ec. destruct (wf_internal t d Hwf i Hi Hl) as [A [B _]].
  destruct H as [|j Hr Lj Hf|j Hr Lj Hf]; [lia| |]; pose proof (reached_lt w j Hr) as Hj;
    destruct (wf_internal t d Hwf j Hj Lj) as [A' [B' _]].
  - assert (j = i) by (apply (proj1 (one_parent j i Hj Hi Lj Hl)); lia). subst j. auto.
  - exfalso. apply (proj2 (proj2 (one_parent i j Hi Hj Hl Lj))). lia.
Qed.
Lemma reached_parent_right w i : i < nn t -> leaf_node t i = false -> reached t Sv w (Z.to_nat (crz t i)) ->
  reached t Sv w i /\ (In (ftn t i) Sv -> (thq t i < w (ftn t i))%Q).
Proof.
  intros Hi Hl H. remember (Z.to_nat (crz t i)) as c eqn:Ec. destruct (wf_internal t d Hwf i Hi Hl) as [A [B _]].
  destruct H as [|j Hr Lj Hf|j Hr Lj Hf]; [lia| |]; pose proof (reached_lt w j Hr) as Hj;
    destruct (wf_internal t d Hwf j Hj Lj) as [A' [B' _]].
  - exfalso. apply (proj2 (proj2 (one_parent j i Hj Hi Lj Hl))). lia.
  - assert (j = i) by (apply (proj1 (proj2 (one_parent j i Hj Hi Lj Hl))); lia). subst j. auto.
Qed.

(** below a reached node lies a reached leaf, reached only through the node *)
Lemma leaf_below x : forall k j, nn t - j <= k -> reached t Sv x j ->
  exists l, l < nn t /\ leaf_node t l = true /\ reached t Sv x l /\ (forall w, reached t Sv w l -> reached t Sv w j).
Proof.
  induction k as [|k IH]; intros j Hk Hr; pose proof (reached_lt x j Hr) as Hj; [lia|].
  destruct (leaf_node t j) eqn:El; [exists j; auto|].
  destruct (wf_internal t d Hwf j Hj El) as [A [B _]].
  destruct (in_dec_Sv (ftn t j)) as [Hin|Hin].
  - destruct (Qlt_le_dec (thq t j) (x (ftn t j))) as [C|C].
    + destruct (IH (Z.to_nat (crz t j))) as [l [H1 [H2 [H3 H4]]]]; [lia|apply rch_right; auto|].
      exists l. repeat split; auto. intros w Hw. apply H4 in Hw. now apply reached_parent_right in Hw.
    + destruct (IH (Z.to_nat (clz t j))) as [l [H1 [H2 [H3 H4]]]]; [lia|apply rch_left; auto|].
      exists l. repeat split; auto. intros w Hw. apply H4 in Hw. now apply reached_parent_left in Hw.
  - destruct (IH (Z.to_nat (clz t j))) as [l [H1 [H2 [H3 H4]]]]; [lia|apply rch_left; auto; tauto|].
    exists l. repeat split; auto. intros w Hw. apply H4 in Hw. now apply reached_parent_left in Hw.
Qed.

Lemma sides_leaves x z : same_sides x z <-> same_leaves t Sv x z.
Proof.
  split.
  - intros H l _ _. now apply sides_reached.
  - intros H i Hr Hl Hf. pose proof (reached_lt x i Hr) as Hi.
    destruct (Qlt_le_dec (thq t i) (x (ftn t i))) as [C|C].
    + destruct (leaf_below x (nn t - Z.to_nat (crz t i)) (Z.to_nat (crz t i))) as [l [H1 [H2 [H3 H4]]]];
        [lia|apply rch_right; auto|].
      apply (H l H1 H2) in H3. apply H4 in H3. apply reached_parent_right in H3; auto.
      destruct H3 as [_ H3]. specialize (H3 Hf). split; intro; lra.
    + destruct (leaf_below x (nn t - Z.to_nat (clz t i)) (Z.to_nat (clz t i))) as [l [H1 [H2 [H3 H4]]]];
        [lia|apply rch_left; auto|].
      apply (H l H1 H2) in H3. apply H4 in H3. apply reached_parent_left in H3; auto.
      destruct H3 as [_ H3]. specialize (H3 Hf). tauto.
Qed.

Lemma cell_leaves depth x z : tree_depth t <= depth -> same_cell R Sv depth x z <-> same_leaves t Sv x z.
Proof. intro H. rewrite (cell_sides depth x z H). apply sides_leaves. Qed.

(** all split variables known: the leaf of the observation *)
Lemma reached_visits x : (forall i, i < nn t -> leaf_node t i = false -> In (ftn t i) Sv) ->
  forall i, reached t Sv x i <-> visits t x no_missing i.
Proof.
  intros HS i. split.
  - induction 1 as [|i Hr IH Hl Hf|i Hr IH Hl Hf]; [constructor| |]; pose proof (reached_lt x i Hr) as Hi;
      apply (vis_step t x no_missing i); auto.
    + apply dec_left; [reflexivity|]. auto.
    + apply dec_right; [reflexivity|]. auto.
  - induction 1 as [|i j Hr IH Hl Hd]; [constructor|]. destruct Hd as [Hd|_ Hd|_ Hd]; [discriminate| |].
    + apply rch_left; auto.
    + apply rch_right; auto.
Qed.
Lemma full_leaves x z : (forall i, i < nn t -> leaf_node t i = false -> In (ftn t i) Sv) ->
  same_leaves t Sv x z <-> predict_leaf t x no_missing = predict_leaf t z no_missing.
Proof.
  intro HS.
  destruct (predict_leaf_total t d Hwf x no_missing) as [lx [Ex [Ix Vx]]].
  destruct (predict_leaf_total t d Hwf z no_missing) as [lz [Ez [Iz Vz]]].
  pose proof (visits_lt t d Hwf x no_missing lx Vx) as Lx.
  assert (Fx : leaf_node t lx = true) by (apply (visited_leaf_predicted t d Hwf x no_missing lx Vx); exact Ex).
  split.
  - intro H. assert (V : reached t Sv z lx) by (apply (H lx Lx Fx); now apply reached_visits).
    apply reached_visits in V; auto. apply (visited_leaf_predicted t d Hwf z no_missing lx V) in Fx. congruence.
  - intros E l Hl Ll. rewrite !reached_visits by assumption.
    split; intro V; pose proof (proj1 (visited_leaf_predicted t d Hwf _ no_missing l V) Ll) as P.
    + assert (l = lz) by congruence. now subst.
    + assert (l = lx) by congruence. now subst.
Qed.
End OneTree.

(** * The padded arrays *)
Section Dense.
Variable ts : list tree.
Variable stray : row.
Variable d : nat.
Hypothesis Hwf : forall t, In t ts -> wf_tree t d = true.
Hypothesis Hpl : forall t, In t ts -> plain_leaves t.

Definition t0' : tree := mkTree [] [] [] [] [] [].
Lemma nn_le_max t : In t ts -> nn t <= max_nodes ts.
Proof.
  unfold max_nodes. induction ts as [|a l IH]; [intros []|]. cbn. intros [->|H]; [lia|].
  specialize (IH (fun t Ht => Hwf t (or_intror Ht)) (fun t Ht => Hpl t (or_intror Ht)) H). lia.
Qed.

Lemma dense_in b n : b < length ts -> (0 <= n < Z.of_nat (max_nodes ts))%Z ->
  inside_arrays (dense ts stray) (offset (dense ts stray) b n) = true /\
  (offset (dense ts stray) b n / Z.of_nat (max_nodes ts) = Z.of_nat b)%Z /\
  (offset (dense ts stray) b n mod Z.of_nat (max_nodes ts) = n)%Z.
Proof.
  intros Hb Hn. unfold inside_arrays, offset. cbn [F_width F_trees dense].
  set (W := max_nodes ts) in *. split; [|split].
  - apply andb_true_iff. split; [apply Z.leb_le; nia|apply Z.ltb_lt; nia].
  - rewrite Z.add_comm, Z.div_add by lia. rewrite Z.div_small by lia. lia.
  - rewrite Z.add_comm, Z.mod_add by lia. apply Z.mod_small. lia.
Qed.

Lemma dense_row b n : b < length ts -> (0 <= n < Z.of_nat (max_nodes ts))%Z ->
  let t := nth b ts t0' in let i := Z.to_nat n in
  r_feat (row_of (dense ts stray) b) n = nth i (ft t) (-1)%Z /\
  r_thr (row_of (dense ts stray) b) n = nth i (th t) 0%Q /\
  r_left (row_of (dense ts stray) b) n = nth i (cl t) (-1)%Z /\
  r_right (row_of (dense ts stray) b) n = nth i (cr t) (-1)%Z.
Proof.
  intros Hb Hn t i. destruct (dense_in b n Hb Hn) as [H1 [H2 H3]].
  unfold inside_arrays in H1. cbn [F_width F_trees dense] in H1.
  cbn [row_of r_feat r_thr r_left r_right dense F_feat F_thr F_left F_right].
  rewrite H1, H2, H3, Nat2Z.id. auto.
Qed.

Lemma dense_stores b : b < length ts -> stores (nth b ts t0') (row_of (dense ts stray) b).
Proof.
  intros Hb i Hi. assert (Hin : In (nth b ts t0') ts) by now apply nth_In. pose proof (nn_le_max _ Hin).
  destruct (dense_row b (Z.of_nat i) Hb ltac:(lia)) as [A [B [C D]]]. rewrite Nat2Z.id in *. auto.
Qed.

Lemma last_is_leaf t : In t ts -> leaf_node t (nn t - 1) = true.
Proof.
  intro Ht. specialize (Hwf t Ht). pose proof (wf_pos t d Hwf). destruct (leaf_node t (nn t - 1)) eqn:E; [reflexivity|].
  destruct (wf_internal t d Hwf (nn t - 1) ltac:(lia) E) as [A _]. lia.
Qed.

Lemma offset_minus b : 0 < b -> 0 < max_nodes ts ->
  offset (dense ts stray) b (-1) = offset (dense ts stray) (b - 1) (Z.of_nat (max_nodes ts - 1)).
Proof. intros Hb HW. unfold offset. cbn [F_width dense]. nia. Qed.

Lemma dense_minus b : 0 < b < length ts ->
  (r_feat (row_of (dense ts stray) b) (-1) < 0)%Z /\
  r_left (row_of (dense ts stray) b) (-1) = (-1)%Z /\ r_right (row_of (dense ts stray) b) (-1) = (-1)%Z.
Proof.
  intro Hb. set (t := nth (b - 1) ts t0'). assert (Hin : In t ts) by (apply nth_In; lia).
  pose proof (nn_le_max t Hin) as Hle. pose proof (Hwf t Hin) as Hw. pose proof (wf_pos t d Hw) as Hp.
  set (W := max_nodes ts) in *.
  destruct (dense_row (b - 1) (Z.of_nat (W - 1)) ltac:(lia) ltac:(fold W; lia)) as [A [_ [C D]]].
  rewrite Nat2Z.id in *. fold t in A, C, D.
  cbn [row_of r_feat r_left r_right] in A, C, D |- *.
  rewrite offset_minus by (fold W; lia). fold W. rewrite A, C, D.
  destruct (Nat.eq_dec (nn t) W) as [E|E].
  - pose proof (last_is_leaf t Hin) as Hl. rewrite E in Hl.
    destruct (Hpl t Hin (W - 1) ltac:(lia) Hl) as [H1 [H2 H3]]. auto.
  - assert (L : length (cr t) = nn t /\ length (ft t) = nn t).
    { unfold wf_tree in Hw. rewrite !andb_true_iff, !Nat.eqb_eq in Hw. tauto. }
    destruct L as [L1 L2]. rewrite !nth_overflow; [split; [lia|auto]| | |]; try lia. unfold nn in *. lia.
Qed.

Lemma dense_dead b Sv : b < length ts -> 0 < b \/ harmless stray Sv ->
  dead_end (row_of (dense ts stray) b) Sv.
Proof.
  intros Hb H. destruct b as [|b].
  - destruct H as [H|H]; [lia|]. unfold dead_end, harmless, splits_on in *.
    cbn [row_of r_feat r_thr r_left r_right dense F_feat F_thr F_left F_right].
    unfold offset. cbn [F_width dense]. replace (Z.of_nat 0 * Z.of_nat (max_nodes ts) + -1)%Z with (-1)%Z by lia.
    cbn [Z.leb Z.compare andb]. exact H.
  - destruct (dense_minus (S b) ltac:(lia)) as [A [B C]]. split; [|auto]. intros f [Hf _]. lia.
Qed.
End Dense.

Section ForestTrees.
Variable ts : list tree.
Variable stray : row.
Variable d : nat.
Hypothesis Hwf : forall t, In t ts -> wf_tree t d = true.
Hypothesis Hpl : forall t, In t ts -> plain_leaves t.
Variable data : nat -> pt.
Variable N : nat.
Variables (depth m : nat) (Sv : list nat) (x : pt).
Variable b : nat.
Hypothesis Hb : b < length ts.
Hypothesis Hsafe : 0 < b \/ harmless stray Sv.
Notation M := (dense ts stray).
Notation t := (nth b ts t0').

Lemma forest_cell z : tree_depth t <= depth -> same_cell (row_of M b) Sv depth x z <-> same_leaves t Sv x z.
Proof.
  assert (Hin : In t ts) by now apply nth_In.
  apply (cell_leaves t d (Hwf t Hin) (Hpl t Hin) (row_of M b) Sv (dense_stores ts stray d Hwf Hpl b Hb)
          (dense_dead ts stray d Hwf Hpl b Sv Hb Hsafe)).
Qed.

Lemma selected_leaves : tree_depth t <= depth ->
  (forall i, i < N -> same_leaves t Sv x (data i) ->
     In i (selected M (fun R => rf_step R Sv x data) m depth N b)) /\
  (m <= length (selected M (fun R => rf_step R Sv x data) m depth N b) ->
   forall i, In i (selected M (fun R => rf_step R Sv x data) m depth N b) <->
     i < N /\ same_leaves t Sv x (data i)).
Proof.
  intro Hd.
  assert (E : selected M (fun R => rf_step R Sv x data) m depth N b = sel M (rls data Sv x) m depth N b).
  { symmetry. apply (sel_rule_rf M data N depth m Sv x b). }
  rewrite E. split.
  - intros i Hi Hs. apply (sel_cell M data N depth m Sv x b i Hi). now apply forest_cell.
  - intros Hm i. rewrite (sel_cell_iff M data N depth m Sv x b Hm i). now rewrite (forest_cell (data i) Hd).
Qed.

End ForestTrees.

(** reads *)
Lemma reads_inside ts stray d data N depth m Sv x b n :
  (forall t, In t ts -> wf_tree t d = true) -> (forall t, In t ts -> plain_leaves t) -> b < length ts ->
  In n (st_log (run_tree (rf_step (row_of (dense ts stray) b) Sv x data) m depth N rule0)) ->
  0 < b \/ (let t := nth b ts t0' in forall l k, l < nn t -> leaf_node t l = true -> reached t Sv x l ->
             down_path t k 0 l -> depth <= S k) ->
  inside_arrays (dense ts stray) (offset (dense ts stray) b n) = true.
Proof.
  intros Hwf Hpl Hb Hn Hc. set (M := dense ts stray) in *. set (t := nth b ts t0') in *.
  assert (Hin : In t ts) by now apply nth_In.
  apply (log_sound M data false zinsert zinsert_in (dec_obs Sv x) (rfs data Sv x) (Hrf data Sv x) m depth N b n) in Hn.
  destruct Hn as [k [Hk Hm]]. apply met_gmet in Hm.
  pose proof (nn_le_max ts d Hwf Hpl t Hin) as Hle.
  destruct Hc as [Hc|Hc].
  - apply (met_real t d (Hwf t Hin) (Hpl t Hin) (row_of M b) Sv (dense_stores ts stray d Hwf Hpl b Hb)
          (dense_dead ts stray d Hwf Hpl b Sv Hb (or_introl Hc))) in Hm.
    destruct Hm as [[i [-> [Hi _]]]|[-> _]].
    + apply dense_in; [exact Hb|]. lia.
    + pose proof (wf_pos t d (Hwf t Hin)). unfold M. rewrite offset_minus by lia. apply dense_in; lia.
  - apply (met_weak t d (Hwf t Hin) (Hpl t Hin) (row_of M b) Sv (dense_stores ts stray d Hwf Hpl b Hb)) in Hm.
    destruct Hm as [[i [-> [Hi _]]]|[k' [l [Hk' [Hl [Ll [Rl Dl]]]]]]].
    + apply dense_in; [exact Hb|]. lia.
    + specialize (Hc l k' Hl Ll Rl Dl). lia.
Qed.

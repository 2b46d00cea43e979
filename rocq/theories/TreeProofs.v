(** Lemmas about array trees, prediction and leaf rectangles. *)
From Verif Require Import Base TreeModel TreeSpec.

Section Wf.
Variable t : tree.
Variable d : nat.
Hypothesis Hwf : wf_tree t d = true.

Lemma wf_pos : 0 < nn t.
Proof.
  unfold wf_tree in Hwf. rewrite !andb_true_iff in Hwf.
  destruct Hwf as [[[[[[[H _] _] _] _] _] _] _]. now apply Nat.ltb_lt in H.
Qed.

Lemma wf_len_cr : length (cr t) = nn t.
Proof.
  unfold wf_tree in Hwf. rewrite !andb_true_iff in Hwf.
  destruct Hwf as [[[[[[[_ H] _] _] _] _] _] _]. now apply Nat.eqb_eq in H.
Qed.

Lemma wf_node_at i : i < nn t -> wf_node t d i = true.
Proof.
  intro Hi. unfold wf_tree in Hwf. rewrite !andb_true_iff in Hwf.
  destruct Hwf as [[_ H] _]. rewrite forallb_forall in H. apply H.
  apply in_seq. lia.
Qed.

Lemma wf_parent_count j : 0 < j < nn t ->
  length (where_eq (cl t) j) + length (where_eq (cr t) j) = 1.
Proof.
  intro Hj. unfold wf_tree in Hwf. rewrite !andb_true_iff in Hwf.
  destruct Hwf as [_ H]. rewrite forallb_forall in H.
  apply Nat.eqb_eq. apply H. apply in_seq. lia.
Qed.

Lemma wf_leaf i : i < nn t -> is_leaf t i = true -> (crz t i < 0)%Z.
Proof.
  intros Hi Hl. pose proof (wf_node_at i Hi) as H. unfold wf_node in H.
  unfold is_leaf in Hl. rewrite Hl in H. now apply Z.ltb_lt in H.
Qed.

Lemma wf_internal i : i < nn t -> is_leaf t i = false ->
  (Z.of_nat i < clz t i < Z.of_nat (nn t))%Z /\
  (Z.of_nat i < crz t i < Z.of_nat (nn t))%Z /\
  clz t i <> crz t i /\
  ftn t i < d /\ (cdz t i = clz t i \/ cdz t i = crz t i).
Proof.
  intros Hi Hl. pose proof (wf_node_at i Hi) as H. unfold wf_node in H.
  unfold is_leaf in Hl. rewrite Hl in H. rewrite !andb_true_iff in H.
  destruct H as [[[[[[[H1 H2] H3] H4] H5] H6] H7] H8].
  apply Z.ltb_lt in H1, H2, H3, H4, H7. apply Z.leb_le in H6.
  apply negb_true_iff in H5. apply Z.eqb_neq in H5.
  apply orb_true_iff in H8. rewrite !Z.eqb_eq in H8.
  repeat split; trivial. unfold ftn. lia.
Qed.

Lemma in_where_cl i j : In i (where_eq (cl t) j) <-> i < nn t /\ clz t i = Z.of_nat j.
Proof.
  unfold where_eq. rewrite filter_In, in_seq, Z.eqb_eq. unfold nn, clz. split; intros; lia.
Qed.
Lemma in_where_cr i j : In i (where_eq (cr t) j) <-> i < nn t /\ crz t i = Z.of_nat j.
Proof.
  unfold where_eq. rewrite filter_In, in_seq, Z.eqb_eq, wf_len_cr. unfold crz. split; intros; lia.
Qed.

(** the unique parent of a non-root node, with the side *)
Lemma parent_cases j : 0 < j < nn t ->
  (exists i, where_eq (cr t) j = [i] /\ where_eq (cl t) j = []) \/
  (exists i, where_eq (cr t) j = [] /\ where_eq (cl t) j = [i]).
Proof.
  intro Hj. pose proof (wf_parent_count j Hj) as H.
  destruct (where_eq (cl t) j) as [|a [|b l]] eqn:El;
  destruct (where_eq (cr t) j) as [|a' [|b' l']] eqn:Er; cbn in H; try lia.
  - left. eauto.
  - right. eauto.
Qed.

Lemma root_no_parent : where_eq (cl t) 0 = [] /\ where_eq (cr t) 0 = [].
Proof.
  split.
  - destruct (where_eq (cl t) 0) as [|a l] eqn:E; [reflexivity|].
    assert (Hin : In a (where_eq (cl t) 0)) by (rewrite E; now left).
    apply in_where_cl in Hin. destruct Hin as [Ha Hc].
    destruct (is_leaf t a) eqn:El.
    + unfold is_leaf in El. apply Z.ltb_lt in El. lia.
    + destruct (wf_internal a Ha El) as [H _]. lia.
  - destruct (where_eq (cr t) 0) as [|a l] eqn:E; [reflexivity|].
    assert (Hin : In a (where_eq (cr t) 0)) by (rewrite E; now left).
    apply in_where_cr in Hin. destruct Hin as [Ha Hc].
    destruct (is_leaf t a) eqn:El.
    + pose proof (wf_leaf a Ha El). lia.
    + destruct (wf_internal a Ha El) as [_ [H _]]. lia.
Qed.

Lemma next_lt x miss i : i < nn t -> is_leaf t i = false ->
  i < next_node t x miss i < nn t.
Proof.
  intros Hi Hl. destruct (wf_internal i Hi Hl) as [H1 [H2 [_ [_ H5]]]].
  unfold next_node. destruct (miss (ftn t i)).
  - destruct H5 as [E|E]; rewrite E; lia.
  - destruct (qleb _ _); lia.
Qed.

Lemma walk_total x miss f i : i < nn t -> nn t - i <= f ->
  exists l, walk f t x miss i = Some l /\ l < nn t /\ is_leaf t l = true.
Proof.
  revert i. induction f as [|f IH]; intros i Hi Hf; [lia|].
  cbn [walk]. destruct (is_leaf t i) eqn:El.
  - exists i. auto.
  - pose proof (next_lt x miss i Hi El). apply IH; lia.
Qed.

Lemma walk_mono x miss f i l : walk f t x miss i = Some l ->
  forall g, f <= g -> walk g t x miss i = Some l.
Proof.
  revert i. induction f as [|f IH]; intros i H g Hg; [discriminate|].
  destruct g as [|g]; [lia|]. cbn [walk] in *.
  destruct (is_leaf t i); [trivial|]. apply IH; [trivial|lia].
Qed.

Lemma walk_det x miss f g i l l' :
  walk f t x miss i = Some l -> walk g t x miss i = Some l' -> l = l'.
Proof.
  intros H H'.
  apply walk_mono with (g := Nat.max f g) in H; [|lia].
  apply walk_mono with (g := Nat.max f g) in H'; [|lia]. congruence.
Qed.

Lemma decides_next x miss i j : decides t x miss i j <-> j = next_node t x miss i.
Proof.
  unfold next_node. split.
  - intros [H|H K|H K]; rewrite H; [reflexivity| |];
    destruct (qleb_spec (x (ftn t i)) (thq t i)); try reflexivity; exfalso; lra.
  - intros ->. destruct (miss (ftn t i)) eqn:E; [now constructor|].
    destruct (qleb_spec (x (ftn t i)) (thq t i)); [now constructor|].
    apply dec_right; [trivial|]. now apply Qnot_le_lt.
Qed.
Lemma vis_next x miss i : visits t x miss i -> is_leaf t i = false -> visits t x miss (next_node t x miss i).
Proof. intros H Hl. apply (vis_step t x miss i); [trivial|exact Hl|]. now apply decides_next. Qed.
Lemma visits_inv x miss j : visits t x miss j ->
  j = 0 \/ exists i, visits t x miss i /\ is_leaf t i = false /\ next_node t x miss i = j.
Proof.
  intros [|i k Hi Hl Hd]; [now left|right]. exists i. split; [trivial|]. split; [exact Hl|].
  symmetry. now apply decides_next.
Qed.
Lemma visits_next_ind x miss (P : nat -> Prop) : P 0 ->
  (forall i, visits t x miss i -> P i -> is_leaf t i = false -> P (next_node t x miss i)) ->
  forall i, visits t x miss i -> P i.
Proof.
  intros H0 Hs i Hi. induction Hi as [|i j Hi IH Hl Hd]; [trivial|].
  apply decides_next in Hd. subst j. now apply Hs.
Qed.

Lemma visits_lt x miss i : visits t x miss i -> i < nn t.
Proof.
  revert i. apply visits_next_ind; [apply wf_pos|]. intros i H IH Hl.
  pose proof (next_lt x miss i IH Hl). lia.
Qed.

Lemma visits_walk x miss i : visits t x miss i -> forall f l,
  walk f t x miss i = Some l -> exists g, walk g t x miss 0 = Some l.
Proof.
  revert i. apply (visits_next_ind x miss (fun i => forall f l, walk f t x miss i = Some l ->
    exists g, walk g t x miss 0 = Some l)); [intros f l Hw; eauto|].
  intros i H IH Hl f l Hw.
  apply (IH (S f)). cbn [walk]. now rewrite Hl.
Qed.

Lemma walk_visits x miss f i l : visits t x miss i -> walk f t x miss i = Some l ->
  visits t x miss l.
Proof.
  revert i. induction f as [|f IH]; intros i Hv H; [discriminate|].
  cbn [walk] in H. destruct (is_leaf t i) eqn:El.
  - injection H as <-. trivial.
  - apply IH in H; [trivial|]. now apply vis_next.
Qed.

Lemma visited_leaf_predicted x miss l :
  visits t x miss l -> is_leaf t l = true <-> predict_leaf t x miss = Some l.
Proof.
  intro Hv. split; intro H.
  - destruct (visits_walk x miss l Hv 1 l) as [g Hg]; [cbn; now rewrite H|].
    unfold predict_leaf.
    destruct (walk_total x miss (nn t) 0) as [l' [H1 [H2 H3]]]; [apply wf_pos|lia|].
    rewrite H1. f_equal. eapply walk_det; eauto.
  - unfold predict_leaf in H.
    destruct (walk_total x miss (nn t) 0) as [l' [H1 [H2 H3]]]; [apply wf_pos|lia|].
    congruence.
Qed.

Lemma predict_leaf_total x miss :
  exists l, predict_leaf t x miss = Some l /\ In l (leaf_idx t) /\ visits t x miss l.
Proof.
  destruct (walk_total x miss (nn t) 0) as [l [H1 [H2 H3]]]; [apply wf_pos|lia|].
  exists l. split; [exact H1|]. split.
  - unfold leaf_idx. apply filter_In. split; [apply in_seq; lia|trivial].
  - eapply walk_visits; [apply vis_root|exact H1].
Qed.

(** ** The rectangle built by get_partition *)

Lemma in_itv_narrow p f lo hi s v :
  in_itv (narrow p f lo hi s) v =
  in_itv (p s) v && (if Nat.eqb s f then ext_ltb_q lo v && q_leb_ext v hi else true).
Proof.
  unfold narrow, upd. destruct (Nat.eqb_spec s f) as [->|Hn].
  - unfold in_itv. cbn [fst snd]. rewrite ext_max_ltb, ext_min_leb.
    destruct (ext_ltb_q (fst (p f)) v), (q_leb_ext v (snd (p f))),
      (ext_ltb_q lo v), (q_leb_ext v hi); reflexivity.
  - now rewrite andb_true_r.
Qed.

Lemma in_rect_narrow p f lo hi x : f < d ->
  in_rect d (narrow p f lo hi) x =
  in_rect d p x && (ext_ltb_q lo (x f) && q_leb_ext (x f) hi).
Proof.
  intro Hf. unfold in_rect.
  assert (G : forall l, In f l ->
    forallb (fun s => in_itv (narrow p f lo hi s) (x s)) l =
    forallb (fun s => in_itv (p s) (x s)) l && (ext_ltb_q lo (x f) && q_leb_ext (x f) hi)).
  { assert (G0 : forall l, ~ In f l ->
      forallb (fun s => in_itv (narrow p f lo hi s) (x s)) l =
      forallb (fun s => in_itv (p s) (x s)) l).
    { intros l Hl. apply forallb_ext_in. intros s Hs. rewrite in_itv_narrow.
      destruct (Nat.eqb_spec s f) as [->|]; [contradiction|]. now rewrite andb_true_r. }
    induction l as [|s l IH]; [contradiction|]. intros [E|Hin]; cbn [forallb].
    - subst s. rewrite in_itv_narrow, Nat.eqb_refl.
      destruct (in_dec Nat.eq_dec f l) as [Hi|Hi].
      + rewrite (IH Hi).
        destruct (in_itv (p f) (x f)), (forallb (fun s => in_itv (p s) (x s)) l),
          (ext_ltb_q lo (x f)), (q_leb_ext (x f) hi); reflexivity.
      + rewrite (G0 l Hi).
        destruct (in_itv (p f) (x f)), (forallb (fun s => in_itv (p s) (x s)) l),
          (ext_ltb_q lo (x f)), (q_leb_ext (x f) hi); reflexivity.
    - rewrite (IH Hin), in_itv_narrow.
      destruct (Nat.eqb_spec s f) as [->|].
      + destruct (in_itv (p f) (x f)), (forallb (fun s => in_itv (p s) (x s)) l),
          (ext_ltb_q lo (x f)), (q_leb_ext (x f) hi); reflexivity.
      + rewrite andb_true_r, andb_assoc. reflexivity. }
  apply G. apply in_seq. lia.
Qed.

(** upward chain: parents of a node with the side taken *)
Lemma get_partition_spec x f i part nid :
  i < nn t -> i < f ->
  exists p' nid', get_partition f t i part nid = Some (p', nid ++ nid') /\
    (in_rect d p' x = true <-> in_rect d part x = true /\ visits t x no_missing i).
Proof.
  revert i part nid. induction f as [|f IH]; intros i part nid Hi Hf; [lia|].
  cbn [get_partition].
  destruct (Nat.eq_dec i 0) as [->|Hi0].
  - destruct root_no_parent as [-> ->]. exists part, [].
    rewrite app_nil_r. split; [reflexivity|].
    split; [intro H; split; [trivial|constructor]|tauto].
  - destruct (parent_cases i) as [[r [Er El]]|[l [Er El]]]; [lia| |].
    + rewrite Er, ?El. cbv iota beta.
      assert (Hr : In r (where_eq (cr t) i)) by (rewrite Er; now left).
      apply in_where_cr in Hr. destruct Hr as [Hr Hc].
      assert (Hlf : is_leaf t r = false).
      { destruct (is_leaf t r) eqn:E; [|reflexivity]. pose proof (wf_leaf r Hr E). lia. }
      destruct (wf_internal r Hr Hlf) as [H1 [H2 [H3 [H4 _]]]].
      destruct (IH r (narrow part (ftn t r) (Fin (thq t r)) PInf) (nid ++ [ftn t r]) Hr ltac:(lia))
        as [p' [nid' [Hp Hm]]].
      exists p', (ftn t r :: nid'). rewrite Hp, <- app_assoc. split; [reflexivity|].
      rewrite Hm, in_rect_narrow by exact H4. cbn [ext_ltb_q q_leb_ext].
      rewrite andb_true_r, andb_true_iff, qltb_true.
      split.
      * intros [[Ha Hb] Hv]. split; [trivial|].
        replace i with (next_node t x no_missing r).
        { now apply vis_next. }
        unfold next_node, no_missing. destruct (qleb_spec (x (ftn t r)) (thq t r)); [lra|].
        rewrite Hc. lia.
      * intros [Ha Hv]. destruct (visits_inv x no_missing i Hv) as [Hz|[j [Hj [Hjl Hz]]]]; [lia|].
        assert (Hjn : j < nn t) by (eapply visits_lt; eassumption).
        destruct (wf_internal j Hjn Hjl) as [J1 [J2 [J3 _]]].
        unfold next_node, no_missing in Hz.
        destruct (qleb_spec (x (ftn t j)) (thq t j)) as [Hle|Hgt].
        -- assert (Hin : In j (where_eq (cl t) i)) by (apply in_where_cl; lia).
           rewrite El in Hin. contradiction.
        -- assert (Hin : In j (where_eq (cr t) i)) by (apply in_where_cr; lia).
           rewrite Er in Hin. destruct Hin as [E|[]]. subst j.
           split; [split; [trivial|lra]|trivial].
    + rewrite Er, ?El. cbv iota beta.
      assert (Hr : In l (where_eq (cl t) i)) by (rewrite El; now left).
      apply in_where_cl in Hr. destruct Hr as [Hr Hc].
      assert (Hlf : is_leaf t l = false).
      { unfold is_leaf. apply Z.ltb_ge. lia. }
      destruct (wf_internal l Hr Hlf) as [H1 [H2 [H3 [H4 _]]]].
      destruct (IH l (narrow part (ftn t l) NInf (Fin (thq t l))) (nid ++ [ftn t l]) Hr ltac:(lia))
        as [p' [nid' [Hp Hm]]].
      exists p', (ftn t l :: nid'). rewrite Hp, <- app_assoc. split; [reflexivity|].
      rewrite Hm, in_rect_narrow by exact H4. cbn [ext_ltb_q q_leb_ext].
      rewrite andb_true_l, andb_true_iff, qleb_true.
      split.
      * intros [[Ha Hb] Hv]. split; [trivial|].
        replace i with (next_node t x no_missing l).
        { now apply vis_next. }
        unfold next_node, no_missing. destruct (qleb_spec (x (ftn t l)) (thq t l)); [|lra].
        rewrite Hc. lia.
      * intros [Ha Hv]. destruct (visits_inv x no_missing i Hv) as [Hz|[j [Hj [Hjl Hz]]]]; [lia|].
        assert (Hjn : j < nn t) by (eapply visits_lt; eassumption).
        destruct (wf_internal j Hjn Hjl) as [J1 [J2 [J3 _]]].
        unfold next_node, no_missing in Hz.
        destruct (qleb_spec (x (ftn t j)) (thq t j)) as [Hle|Hgt].
        -- assert (Hin : In j (where_eq (cl t) i)) by (apply in_where_cl; lia).
           rewrite El in Hin. destruct Hin as [E|[]]. subst j.
           split; [split; [trivial|lra]|trivial].
        -- assert (Hin : In j (where_eq (cr t) i)) by (apply in_where_cr; lia).
           rewrite Er in Hin. contradiction.
Qed.

Lemma in_rect_whole x : in_rect d whole x = true.
Proof. unfold in_rect. apply forallb_forall. reflexivity. Qed.

Lemma get_partition_leaf x i : i < nn t ->
  exists p nid, get_partition (nn t) t i whole [] = Some (p, nid) /\
    (in_rect d p x = true <-> visits t x no_missing i).
Proof.
  intro Hi. destruct (get_partition_spec x (nn t) i whole [] Hi Hi) as [p [nid [H1 H2]]].
  exists p, nid. split; [exact H1|]. rewrite H2, in_rect_whole. tauto.
Qed.

(** ** C01 *)
Lemma leaf_rectangles_tile x :
  exists l, In l (leaf_idx t) /\ predict_leaf t x no_missing = Some l /\
    forall i, In i (leaf_idx t) ->
      exists lf, leaf_of t i = Some lf /\ (in_rect d (l_rect lf) x = true <-> i = l).
Proof.
  destruct (predict_leaf_total x no_missing) as [l [Hp [Hin Hv]]].
  exists l. split; [trivial|]. split; [trivial|].
  intros i Hi. unfold leaf_idx in Hi. apply filter_In in Hi. destruct Hi as [Hs Hl].
  apply in_seq in Hs.
  destruct (get_partition_leaf x i ltac:(lia)) as [p [nid [E Hm]]].
  unfold leaf_of. rewrite E. eexists. split; [reflexivity|]. cbn [l_rect].
  rewrite Hm. split.
  - intro Hvi. apply (visited_leaf_predicted x no_missing i Hvi) in Hl. congruence.
  - intros ->. exact Hv.
Qed.

(** ** C02 : variables of a leaf *)
Lemma get_partition_vars f i part nid p nid2 :
  i < nn t -> i < f -> get_partition f t i part nid = Some (p, nid2) ->
  exists nid', nid2 = nid ++ nid' /\
    (forall s, In s nid' <-> above t s i) /\
    (forall s, ~ In s nid' -> p s = part s).
Proof.
  revert i part nid. induction f as [|f IH]; intros i part nid Hi Hf H; [lia|].
  cbn [get_partition] in H.
  destruct (Nat.eq_dec i 0) as [->|Hi0].
  - destruct root_no_parent as [El Er]. rewrite El, Er in H. injection H as <- <-.
    exists []. rewrite app_nil_r. split; [reflexivity|]. split; [|reflexivity].
    intro s. split; [contradiction|]. intro Ha.
    inversion Ha as [a b c A1 A2 A3|a b c A1 A2 A3|a b c A1 A2 A3|a b c A1 A2 A3]; subst.
    + assert (In a (where_eq (cl t) 0)) by (apply in_where_cl; lia). rewrite El in *. contradiction.
    + assert (In a (where_eq (cr t) 0)) by (apply in_where_cr; lia). rewrite Er in *. contradiction.
    + assert (In a (where_eq (cl t) 0)) by (apply in_where_cl; lia). rewrite El in *. contradiction.
    + assert (In a (where_eq (cr t) 0)) by (apply in_where_cr; lia). rewrite Er in *. contradiction.
  - destruct (parent_cases i) as [[r [Er El]]|[r [Er El]]]; [lia| |]; rewrite Er, ?El in H; cbv iota beta in H.
    + assert (Hr : In r (where_eq (cr t) i)) by (rewrite Er; now left).
      apply in_where_cr in Hr. destruct Hr as [Hr Hc].
      assert (Hlf : is_leaf t r = false).
      { destruct (is_leaf t r) eqn:E; [|reflexivity]. pose proof (wf_leaf r Hr E). lia. }
      destruct (wf_internal r Hr Hlf) as [H1 [H2 [H3 [H4 _]]]].
      apply IH in H; [|trivial|lia]. destruct H as [nid' [E1 [E2 E3]]].
      exists (ftn t r :: nid'). rewrite <- app_assoc in E1. split; [exact E1|]. split.
      * intro s. cbn. rewrite E2. split.
        -- intros [E|E]; [eapply ab_right; eauto|eapply ab_up_right; eauto].
        -- intro Ha. inversion Ha as [a b c A1 A2 A3 A4|a b c A1 A2 A3 A4|a b c A1 A2 A3 A4|a b c A1 A2 A3 A4]; subst.
           ++ assert (In a (where_eq (cl t) i)) by (apply in_where_cl; lia). rewrite El in *. contradiction.
           ++ assert (Hin : In a (where_eq (cr t) i)) by (apply in_where_cr; lia).
              rewrite Er in Hin. destruct Hin as [<-|[]]. now left.
           ++ assert (In a (where_eq (cl t) i)) by (apply in_where_cl; lia). rewrite El in *. contradiction.
           ++ assert (Hin : In a (where_eq (cr t) i)) by (apply in_where_cr; lia).
              rewrite Er in Hin. destruct Hin as [<-|[]]. now right.
      * intros s Hs. cbn in Hs. rewrite E3 by tauto. unfold narrow. apply upd_other. intro; apply Hs; left; congruence.
    + assert (Hr : In r (where_eq (cl t) i)) by (rewrite El; now left).
      apply in_where_cl in Hr. destruct Hr as [Hr Hc].
      assert (Hlf : is_leaf t r = false).
      { unfold is_leaf. apply Z.ltb_ge. lia. }
      destruct (wf_internal r Hr Hlf) as [H1 [H2 [H3 [H4 _]]]].
      apply IH in H; [|trivial|lia]. destruct H as [nid' [E1 [E2 E3]]].
      exists (ftn t r :: nid'). rewrite <- app_assoc in E1. split; [exact E1|]. split.
      * intro s. cbn. rewrite E2. split.
        -- intros [E|E]; [eapply ab_left; eauto|eapply ab_up_left; eauto].
        -- intro Ha. inversion Ha as [a b c A1 A2 A3 A4|a b c A1 A2 A3 A4|a b c A1 A2 A3 A4|a b c A1 A2 A3 A4]; subst.
           ++ assert (Hin : In a (where_eq (cl t) i)) by (apply in_where_cl; lia).
              rewrite El in Hin. destruct Hin as [<-|[]]. now left.
           ++ assert (In a (where_eq (cr t) i)) by (apply in_where_cr; lia). rewrite Er in *. contradiction.
           ++ assert (Hin : In a (where_eq (cl t) i)) by (apply in_where_cl; lia).
              rewrite El in Hin. destruct Hin as [<-|[]]. now right.
           ++ assert (In a (where_eq (cr t) i)) by (apply in_where_cr; lia). rewrite Er in *. contradiction.
      * intros s Hs. cbn in Hs. rewrite E3 by tauto. unfold narrow. apply upd_other. intro; apply Hs; left; congruence.
Qed.

Lemma above_lt s i : above t s i -> s < d.
Proof.
  induction 1 as [i j f H1 H2 H3 H4|i j f H1 H2 H3 H4|i j f H1 H2 H3 H4 IH|i j f H1 H2 H3 H4 IH];
  trivial; subst; now destruct (wf_internal i H1 H2) as [_ [_ [_ [H _]]]].
Qed.

Lemma leaf_vars_exact i lf : In i (leaf_idx t) -> leaf_of t i = Some lf ->
  NoDup (l_vars lf) /\
  (forall s, In s (l_vars lf) <-> above t s i) /\
  (forall s, In s (l_vars lf) -> s < d) /\
  (forall s, ~ In s (l_vars lf) -> l_rect lf s = (NInf, PInf)) /\
  l_val lf = vlq t i.
Proof.
  intros Hi H. unfold leaf_idx in Hi. apply filter_In in Hi. destruct Hi as [Hs _].
  apply in_seq in Hs. unfold leaf_of in H.
  destruct (get_partition (nn t) t i whole []) as [[p nid]|] eqn:E; [|discriminate].
  injection H as <-. cbn [l_vars l_rect l_val].
  apply get_partition_vars in E; [|lia|lia]. destruct E as [nid' [E1 [E2 E3]]].
  cbn in E1. subst nid'. split; [apply NoDup_nodup|]. split; [|split; [|split]].
  - intro s. rewrite nodup_In. apply E2.
  - intros s Hin. rewrite nodup_In, E2 in Hin. now apply above_lt in Hin.
  - intros s Hin. rewrite nodup_In in Hin. rewrite E3 by trivial. reflexivity.
  - reflexivity.
Qed.

Lemma leaf_membership_local i lf x z : In i (leaf_idx t) -> leaf_of t i = Some lf ->
  (forall s, In s (l_vars lf) -> (x s == z s)%Q) ->
  in_rect d (l_rect lf) x = in_rect d (l_rect lf) z.
Proof.
  intros Hi H Hx. destruct (leaf_vars_exact i lf Hi H) as [_ [_ [_ [Hu _]]]].
  unfold in_rect. apply forallb_ext_in. intros s _.
  destruct (in_dec Nat.eq_dec s (l_vars lf)) as [Hs|Hs].
  - specialize (Hx s Hs). unfold in_itv, ext_ltb_q, q_leb_ext.
    destruct (l_rect lf s) as [[|a|] [|b|]]; cbn; rewrite ?Hx; reflexivity.
  - rewrite (Hu s Hs). reflexivity.
Qed.

End Wf.

(** ** C03 *)
Lemma add_trees_app ts us x miss acc :
  add_trees (ts ++ us) x miss acc =
  match add_trees ts x miss acc with Some a => add_trees us x miss a | None => None end.
Proof.
  revert acc. induction ts as [|t ts IH]; intro acc; cbn; [reflexivity|].
  destruct (predict_value t x miss); [apply IH|reflexivity].
Qed.

Lemma add_trees_sum ts x miss acc d :
  forallb (fun t => wf_tree t d) ts = true ->
  exists vs r, Forall2 (fun t v => predict_value t x miss = Some v) ts vs /\
    add_trees ts x miss acc = Some r /\ (r == acc + sumf (fun v => v) vs)%Q.
Proof.
  revert acc. induction ts as [|t ts IH]; intros acc H; cbn in *.
  - exists [], acc. split; [constructor|]. split; [reflexivity|]. cbn. lra.
  - apply andb_true_iff in H. destruct H as [Ht H].
    destruct (predict_leaf_total t d Ht x miss) as [l [Hl _]].
    assert (Hpv : predict_value t x miss = Some (vlq t l)) by (unfold predict_value; now rewrite Hl).
    rewrite Hpv.
    destruct (IH (acc + vlq t l)%Q H) as [vs [r [H1 [H2 H3]]]].
    exists (vlq t l :: vs), r. split; [|split].
    + constructor; trivial.
    + trivial.
    + cbn. rewrite H3. lra.
Qed.

Lemma forallb_firstn {A} (f : A -> bool) k l : forallb f l = true -> forallb f (firstn k l) = true.
Proof.
  revert k; induction l as [|a l IH]; intros [|k]; cbn; trivial.
  rewrite !andb_true_iff. intros [H1 H2]. split; [trivial|now apply IH].
Qed.
Lemma forallb_skipn {A} (f : A -> bool) k l : forallb f l = true -> forallb f (skipn k l) = true.
Proof.
  revert k; induction l as [|a l IH]; intros [|k]; cbn; trivial.
  rewrite !andb_true_iff. intros [H1 H2]. now apply IH.
Qed.

Lemma dense_predict_sum ts limit off x miss d :
  forallb (fun t => wf_tree t d) ts = true ->
  exists vs r,
    Forall2 (fun t v => predict_value t x miss = Some v) (firstn limit ts) vs /\
    dense_tree_predict ts limit off x miss = Some r /\
    (r == off + sumf (fun v => v) vs)%Q.
Proof.
  intro H. destruct (add_trees_sum (firstn limit ts) x miss (0 + off) d) as [vs [r [H1 [H2 H3]]]].
  - now apply forallb_firstn.
  - exists vs, r. split; [trivial|]. split; [trivial|]. rewrite H3. lra.
Qed.

Lemma firstn_skipn_split {A} (l : list A) j k : j <= k ->
  firstn k l = firstn j l ++ firstn (k - j) (skipn j l).
Proof.
  revert l k. induction j as [|j IH]; intros l k H; cbn; [now rewrite Nat.sub_0_r|].
  destruct k as [|k]; [lia|]. destruct l as [|a l]; cbn; [now rewrite firstn_nil|].
  f_equal. apply IH. lia.
Qed.

Lemma dense_predict_increment ts j k off x miss d :
  forallb (fun t => wf_tree t d) ts = true -> j <= k ->
  exists vs rj rk,
    Forall2 (fun t v => predict_value t x miss = Some v) (firstn (k - j) (skipn j ts)) vs /\
    dense_tree_predict ts j off x miss = Some rj /\
    dense_tree_predict ts k off x miss = Some rk /\
    (rk == rj + sumf (fun v => v) vs)%Q.
Proof.
  intros H Hjk. unfold dense_tree_predict. rewrite (firstn_skipn_split ts j k Hjk), add_trees_app.
  destruct (add_trees_sum (firstn j ts) x miss (0 + off) d) as [vj [rj [_ [E _]]]];
    [now apply forallb_firstn|].
  rewrite E.
  destruct (add_trees_sum (firstn (k - j) (skipn j ts)) x miss rj d) as [vs [rk [H1 [H2 H3]]]];
    [now apply forallb_firstn, forallb_skipn|].
  exists vs, rj, rk. auto.
Qed.

(** ** C04 *)
Section Weights.
Variable t : tree.
Variable d : nat.
Hypothesis Hwf : wf_tree t d = true.

(** nodes met from [i] on with given fuel *)
Fixpoint path (fuel : nat) (x : pt) (miss : nat -> bool) (i : nat) : list nat :=
  match fuel with
  | O => []
  | S f => i :: (if is_leaf t i then [] else path f x miss (next_node t x miss i))
  end.

Lemma path_ge fuel x miss i j : i < nn t -> In j (path fuel x miss i) -> i <= j.
Proof.
  revert i. induction fuel as [|f IH]; intros i Hi H; [contradiction|].
  cbn in H. destruct H as [->|H]; [lia|].
  destruct (is_leaf t i) eqn:El; [contradiction|].
  pose proof (next_lt t d Hwf x miss i Hi El). apply IH in H; lia.
Qed.

Lemma path_nodup fuel x miss i : i < nn t -> NoDup (path fuel x miss i).
Proof.
  revert i. induction fuel as [|f IH]; intros i Hi; cbn; [constructor|].
  constructor.
  - destruct (is_leaf t i) eqn:El; [intros []|]. intro H.
    pose proof (next_lt t d Hwf x miss i Hi El). apply path_ge in H; lia.
  - destruct (is_leaf t i) eqn:El; [constructor|].
    pose proof (next_lt t d Hwf x miss i Hi El). apply IH. lia.
Qed.

Lemma update_walk_path fuel x miss i w j : i < nn t ->
  (update_walk fuel t x miss i w j == w j + Qb (memb j (path fuel x miss i)))%Q.
Proof.
  revert i w. induction fuel as [|f IH]; intros i w Hi; cbn [update_walk path].
  - cbn. lra.
  - destruct (is_leaf t i) eqn:El.
    + unfold memb; cbn [existsb]. unfold upd. destruct (Nat.eqb_spec j i) as [->|Hn]; cbn [orb Qb]; lra.
    + pose proof (next_lt t d Hwf x miss i Hi El). rewrite IH by lia.
      cbn [memb existsb]. fold (memb j (path f x miss (next_node t x miss i))).
      unfold upd. destruct (Nat.eqb_spec j i) as [->|Hn]; cbn [orb].
      * assert (E : memb i (path f x miss (next_node t x miss i)) = false).
        { apply memb_false. intro Hin. apply path_ge in Hin; lia. }
        rewrite E. unfold Qb. lra.
      * reflexivity.
Qed.

Lemma path_visits x miss fuel i j : visits t x miss i ->
  In j (path fuel x miss i) -> visits t x miss j.
Proof.
  revert i. induction fuel as [|f IH]; intros i Hv H; [contradiction|].
  cbn in H. destruct H as [->|H]; [trivial|].
  destruct (is_leaf t i) eqn:El; [contradiction|].
  eapply IH; [|eassumption]. now apply vis_next.
Qed.

Lemma path_closed x miss fuel i : i < nn t -> nn t - i <= fuel -> forall j,
  In j (path fuel x miss i) -> is_leaf t j = false ->
  In (next_node t x miss j) (path fuel x miss i).
Proof.
  revert i. induction fuel as [|f IH]; intros i Hi Hf j H Hl; [lia|].
  cbn in *. destruct H as [->|H].
  - rewrite Hl. right. pose proof (next_lt t d Hwf x miss j Hi Hl).
    destruct f as [|f]; [lia|]. cbn. now left.
  - destruct (is_leaf t i) eqn:El; [contradiction|].
    right. pose proof (next_lt t d Hwf x miss i Hi El). apply IH; trivial; lia.
Qed.

Lemma visits_path x miss j : visits t x miss j -> In j (path (nn t) x miss 0).
Proof.
  pose proof (wf_pos t d Hwf) as Hp.
  revert j. apply visits_next_ind; [|intros i H IH Hl].
  - destruct (nn t); [lia|]. now left.
  - apply path_closed; trivial. lia.
Qed.

Lemma update_weights_path rows w j :
  (update_weights t rows w j ==
   w j + Qn (length (filter (fun r => memb j (path (nn t) (fst r) (snd r) 0)) rows)))%Q.
Proof.
  revert w. induction rows as [|[x miss] rows IH]; intro w; cbn [update_weights filter].
  - cbn [length]. rewrite Qn_0. lra.
  - rewrite IH, update_walk_path by apply (wf_pos t d Hwf). cbn [fst snd].
    destruct (memb j (path (nn t) x miss 0)); cbn [Qb length]; rewrite ?Qn_S; lra.
Qed.

(** decidable visiting test used in the statement *)
Definition visitsb (x : pt) (miss : nat -> bool) (j : nat) : bool :=
  memb j (path (nn t) x miss 0).
Lemma visitsb_spec x miss j : visitsb x miss j = true <-> visits t x miss j.
Proof.
  unfold visitsb. rewrite memb_true. split.
  - apply path_visits. constructor.
  - apply visits_path.
Qed.

Lemma visits_children x miss i : i < nn t -> is_leaf t i = false ->
  (Qb (visitsb x miss i) ==
   Qb (visitsb x miss (Z.to_nat (clz t i))) + Qb (visitsb x miss (Z.to_nat (crz t i))))%Q.
Proof.
  intros Hi Hl. destruct (wf_internal t d Hwf i Hi Hl) as [H1 [H2 [H3 [H4 H5]]]].
  assert (Hback : forall j, (j = Z.to_nat (clz t i) \/ j = Z.to_nat (crz t i)) ->
     visits t x miss j -> visits t x miss i /\ next_node t x miss i = j).
  { intros j Hj Hv. destruct (visits_inv t x miss j Hv) as [Hz|[a [Ha [Hal Hz]]]]; [lia|].
    assert (Han : a < nn t) by (eapply visits_lt; eassumption).
    destruct (wf_internal t d Hwf a Han Hal) as [A1 [A2 [A3 [A4 A5]]]].
    assert (Ea : a = i).
    { assert (Hpa : In a (where_eq (cl t) j) \/ In a (where_eq (cr t) j)).
      { unfold next_node in Hz. destruct (miss (ftn t a)).
        - destruct A5 as [E|E]; rewrite E in Hz;
          [left; apply in_where_cl|right; apply (in_where_cr t d Hwf)]; lia.
        - destruct (qleb (x (ftn t a)) (thq t a));
          [left; apply in_where_cl|right; apply (in_where_cr t d Hwf)]; lia. }
      assert (Hpi : In i (where_eq (cl t) j) \/ In i (where_eq (cr t) j)).
      { destruct Hj as [Hj|Hj]; [left; apply in_where_cl|right; apply (in_where_cr t d Hwf)]; lia. }
      destruct (parent_cases t d Hwf j) as [[r [Er El]]|[r [Er El]]]; [lia| |];
      rewrite Er, El in *; cbn in *; intuition congruence. }
    subst a. split; trivial. }
  assert (Hcase : next_node t x miss i = Z.to_nat (clz t i) \/
                  next_node t x miss i = Z.to_nat (crz t i)).
  { unfold next_node. destruct (miss (ftn t i)).
    - destruct H5 as [E|E]; rewrite E; auto.
    - destruct (qleb _ _); auto. }
  destruct (visitsb x miss i) eqn:Ei.
  - apply visitsb_spec in Ei.
    assert (Hn : visits t x miss (next_node t x miss i)) by now apply vis_next.
    destruct Hcase as [E|E]; rewrite E in Hn; apply visitsb_spec in Hn; rewrite Hn.
    + destruct (visitsb x miss (Z.to_nat (crz t i))) eqn:Er; [|cbn; lra].
      apply visitsb_spec in Er. apply Hback in Er; [|now right]. lia.
    + destruct (visitsb x miss (Z.to_nat (clz t i))) eqn:Er; [|cbn; lra].
      apply visitsb_spec in Er. apply Hback in Er; [|now left]. lia.
  - destruct (visitsb x miss (Z.to_nat (clz t i))) eqn:E1.
    + apply visitsb_spec in E1. apply Hback in E1; [|now left]. destruct E1 as [E1 _].
      apply visitsb_spec in E1. congruence.
    + destruct (visitsb x miss (Z.to_nat (crz t i))) eqn:E2; [|cbn; lra].
      apply visitsb_spec in E2. apply Hback in E2; [|now right]. destruct E2 as [E2 _].
      apply visitsb_spec in E2. congruence.
Qed.

Lemma update_weights_count rows w j :
  (update_weights t rows w j ==
   w j + Qn (length (filter (fun r => visitsb (fst r) (snd r) j) rows)))%Q.
Proof. apply update_weights_path. Qed.

Lemma update_weights_balance rows w i : i < nn t -> is_leaf t i = false ->
  (update_weights t rows w i - w i ==
   (update_weights t rows w (Z.to_nat (clz t i)) - w (Z.to_nat (clz t i))) +
   (update_weights t rows w (Z.to_nat (crz t i)) - w (Z.to_nat (crz t i))))%Q.
Proof.
  intros Hi Hl. rewrite !update_weights_count.
  assert (G : forall j, (w j + Qn (length (filter (fun r => visitsb (fst r) (snd r) j) rows)) - w j
            == sumf (fun r => Qb (visitsb (fst r) (snd r) j)) rows)%Q).
  { intro j. rewrite (sumf_count (fun r => visitsb (fst r) (snd r) j)). lra. }
  rewrite !G, <- sumf_plus. apply sumf_ext. intros [x miss] _. cbn [fst snd].
  now apply visits_children.
Qed.

Lemma update_weights_root rows w :
  (update_weights t rows w 0%nat - w 0%nat == Qn (length rows))%Q.
Proof.
  rewrite update_weights_count.
  assert (E : filter (fun r => visitsb (fst r) (snd r) 0) rows = rows).
  { induction rows as [|r rows IH]; cbn [filter]; [reflexivity|].
    assert (H : visitsb (fst r) (snd r) 0 = true) by (apply visitsb_spec; constructor).
    rewrite H, IH. reflexivity. }
  rewrite E. lra.
Qed.
End Weights.

(** ** C48 : depth *)
Section Depth.
Variable t : tree.
Variable d : nat.
Hypothesis Hwf : wf_tree t d = true.

Lemma leaf_iff_cr i : i < nn t -> (0 <=? crz t i)%Z = negb (is_leaf t i).
Proof.
  intro Hi. destruct (is_leaf t i) eqn:E.
  - pose proof (wf_leaf t d Hwf i Hi E). cbn. apply Z.leb_gt. lia.
  - destruct (wf_internal t d Hwf i Hi E) as [_ [H _]]. cbn. apply Z.leb_le. lia.
Qed.

Lemma depth_upper f i : i < nn t -> nn t - i <= f -> forall k j,
  down_path t k i j -> k <= depth_below f t i.
Proof.
  revert i. induction f as [|f IH]; intros i Hi Hf k j H; [lia|].
  cbn [depth_below]. rewrite leaf_iff_cr by trivial.
  destruct H as [i H|k i j H Hl Hp|k i j H Hl Hp]; [lia| |].
  - change (is_leaf t i = false) in Hl. rewrite Hl. cbn [negb]. destruct (wf_internal t d Hwf i Hi Hl) as [H1 [H2 _]].
    apply IH in Hp; lia.
  - change (is_leaf t i = false) in Hl. rewrite Hl. cbn [negb]. destruct (wf_internal t d Hwf i Hi Hl) as [H1 [H2 _]].
    apply IH in Hp; lia.
Qed.

Lemma depth_attained f i : i < nn t -> nn t - i <= f ->
  exists j, down_path t (depth_below f t i) i j /\ is_leaf t j = true.
Proof.
  revert i. induction f as [|f IH]; intros i Hi Hf; [lia|].
  cbn [depth_below]. rewrite leaf_iff_cr by trivial.
  destruct (is_leaf t i) eqn:El; cbn [negb].
  - exists i. split; [now constructor|trivial].
  - destruct (wf_internal t d Hwf i Hi El) as [H1 [H2 _]].
    destruct (Nat.max_spec (depth_below f t (Z.to_nat (clz t i)))
                           (depth_below f t (Z.to_nat (crz t i)))) as [[_ E]|[_ E]]; rewrite E.
    + destruct (IH (Z.to_nat (crz t i)) ltac:(lia) ltac:(lia)) as [j [Hj Hl]].
      exists j. split; [now apply dp_right|trivial].
    + destruct (IH (Z.to_nat (clz t i)) ltac:(lia) ltac:(lia)) as [j [Hj Hl]].
      exists j. split; [now apply dp_left|trivial].
Qed.

Lemma tree_depth_exact :
  (forall k j, down_path t k 0 j -> k <= tree_depth t) /\
  (exists j, down_path t (tree_depth t) 0 j /\ is_leaf t j = true).
Proof.
  pose proof (wf_pos t d Hwf). split.
  - intros k j. apply depth_upper; lia.
  - apply depth_attained; lia.
Qed.
End Depth.

(** ** C05 *)
Lemma fold_max_ge l a : a <= fold_left Nat.max l a /\ forall b, In b l -> b <= fold_left Nat.max l a.
Proof.
  revert a. induction l as [|c l IH]; intro a; cbn.
  - split; [lia|contradiction].
  - destruct (IH (Nat.max a c)) as [H1 H2]. split; [lia|].
    intros b [->|Hb]; [lia|auto].
Qed.

Lemma max_var_last_tree sizes mv b :
  max_var sizes = Some mv -> In b (last sizes []) -> b <= mv.
Proof.
  unfold max_var, last_list. destruct (last sizes []) as [|a r]; [discriminate|].
  intros H Hb. injection H as <-. destruct (fold_max_ge r a) as [H1 H2].
  destruct Hb as [->|Hb]; auto.
Qed.

Lemma max_var_covers_partial sizes mv :
  max_var sizes = Some mv ->
  (exists b, In b (last sizes []) /\ forall l c, In l sizes -> In c l -> c <= b) ->
  forall l c, In l sizes -> In c l -> c <= mv.
Proof.
  intros H [b [Hb Hmax]] l c Hl Hc.
  pose proof (max_var_last_tree sizes mv b H Hb). specialize (Hmax l c Hl Hc). lia.
Qed.

(** ** Statement-level lemmas *)
Lemma in_itv_spec i v : in_itv i v = true <-> above_lo (fst i) v /\ below_hi (snd i) v.
Proof.
  unfold in_itv. rewrite andb_true_iff. destruct i as [[|a|] [|b|]]; cbn;
  rewrite ?qltb_true, ?qleb_true; intuition congruence.
Qed.
Lemma in_rect_Inside d p x : in_rect d p x = true <-> Inside d p x.
Proof.
  unfold in_rect, Inside. rewrite forallb_forall. split; intros H s Hs.
  - apply in_itv_spec, H, in_seq. lia.
  - apply in_itv_spec, H. apply in_seq in Hs. lia.
Qed.

Lemma leaves_from_nth t is_ ls : leaves_from t is_ = Some ls ->
  length ls = length is_ /\
  forall k, match nth_error is_ k with
            | Some i => leaf_of t i = nth_error ls k
            | None => nth_error ls k = None end.
Proof.
  revert ls. induction is_ as [|i r IH]; intros ls H; cbn in H.
  - injection H as <-. split; [reflexivity|]. intros [|k]; reflexivity.
  - destruct (leaf_of t i) eqn:E; [|discriminate].
    destruct (leaves_from t r) as [ls'|]; [|discriminate]. injection H as <-.
    destruct (IH ls' eq_refl) as [H1 H2]. split; [cbn; lia|].
    intros [|k]; cbn; [trivial|apply H2].
Qed.

Lemma tree_leaves_total t d : wf_tree t d = true -> exists ls, tree_leaves t = Some ls.
Proof.
  intro Hwf. unfold tree_leaves.
  assert (G : forall l, (forall i, In i l -> In i (leaf_idx t)) -> exists ls, leaves_from t l = Some ls).
  { induction l as [|i l IH]; intro H; cbn; [eauto|].
    destruct (leaf_rectangles_tile t d Hwf (fun _ => 0%Q)) as [? [_ [_ Hl]]].
    destruct (Hl i) as [lf [-> _]]; [apply H; now left|].
    destruct IH as [ls ->]; [intros; apply H; now right|]. eauto. }
  now apply G.
Qed.

Lemma leaf_idx_nodup t : NoDup (leaf_idx t).
Proof. apply NoDup_filter, seq_NoDup. Qed.

Lemma tiling t d : wf_tree t d = true ->
  exists ls, tree_leaves t = Some ls /\ length ls = length (leaf_idx t) /\
  forall x, exists k l lf,
    nth_error (leaf_idx t) k = Some l /\ predict_leaf t x no_missing = Some l /\
    nth_error ls k = Some lf /\ Inside d (l_rect lf) x /\ l_val lf = vlq t l /\
    forall k' lf', nth_error ls k' = Some lf' -> Inside d (l_rect lf') x -> k' = k.
Proof.
  intro Hwf. destruct (tree_leaves_total t d Hwf) as [ls Hls]. exists ls. split; [trivial|].
  destruct (leaves_from_nth t (leaf_idx t) ls Hls) as [Hlen Hnth]. split; [trivial|].
  intro x. destruct (leaf_rectangles_tile t d Hwf x) as [l [Hin [Hp Hall]]].
  destruct (In_nth_error _ _ Hin) as [k Hk].
  destruct (Hall l Hin) as [lf [Hlf Hmem]].
  pose proof (Hnth k) as Hn. rewrite Hk, Hlf in Hn.
  exists k, l, lf. split; [trivial|]. split; [trivial|]. split; [now symmetry|]. split.
  - apply in_rect_Inside. now apply Hmem.
  - split.
    + now destruct (leaf_vars_exact t d Hwf l lf Hin Hlf) as [_ [_ [_ [_ H]]]].
    + intros k' lf' Hk' Hins. pose proof (Hnth k') as Hn'.
      destruct (nth_error (leaf_idx t) k') as [i|] eqn:Ei; [|congruence].
      assert (Hi : In i (leaf_idx t)) by (eapply nth_error_In; eassumption).
      destruct (Hall i Hi) as [lf'' [E Hm]].
      assert (lf'' = lf') by congruence. subst lf''.
      apply in_rect_Inside, Hm in Hins. subst i.
      pose proof (leaf_idx_nodup t) as Hnd. rewrite NoDup_nth_error in Hnd.
      apply Hnd; [|congruence]. apply nth_error_Some. congruence.
Qed.

Lemma leaf_vars_statement t d : wf_tree t d = true ->
  forall i lf, In i (leaf_idx t) -> leaf_of t i = Some lf ->
  NoDup (l_vars lf) /\
  (forall s, In s (l_vars lf) <-> above t s i) /\
  (forall s, In s (l_vars lf) -> s < d) /\
  (forall s, ~ In s (l_vars lf) -> l_rect lf s = (NInf, PInf)) /\
  (forall x z, (forall s, In s (l_vars lf) -> (x s == z s)%Q) ->
     (Inside d (l_rect lf) x <-> Inside d (l_rect lf) z)).
Proof.
  intros Hwf i lf Hi Hl. destruct (leaf_vars_exact t d Hwf i lf Hi Hl) as [H1 [H2 [H3 [H4 H5]]]].
  do 4 (split; [trivial|]). intros x z Hx.
  rewrite <- !in_rect_Inside. erewrite (leaf_membership_local t d Hwf i lf x z Hi Hl Hx). reflexivity.
Qed.

Lemma predict_value_leaf t d x miss v : wf_tree t d = true ->
  predict_value t x miss = Some v <-> leaf_value t x miss v.
Proof.
  intro Hwf. unfold predict_value, leaf_value. split.
  - destruct (predict_leaf_total t d Hwf x miss) as [l [Hl [Hin Hv]]]. rewrite Hl.
    intro E. injection E as <-. exists l. unfold leaf_idx in Hin. apply filter_In in Hin. tauto.
  - intros [l [Hv [Hl ->]]]. apply (visited_leaf_predicted t d Hwf x miss l Hv) in Hl.
    now rewrite Hl.
Qed.

Lemma predict_values_leaf ts d x miss vs : forallb (fun t => wf_tree t d) ts = true ->
  Forall2 (fun t v => predict_value t x miss = Some v) ts vs ->
  Forall2 (fun t v => leaf_value t x miss v) ts vs.
Proof.
  intros H F. induction F as [|t v ts vs Hv F IH]; [constructor|].
  cbn in H. apply andb_true_iff in H. destruct H as [H1 H2].
  constructor; [now apply (predict_value_leaf t d)|auto].
Qed.

Lemma leaf_value_total t d x miss : wf_tree t d = true -> exists v, leaf_value t x miss v.
Proof.
  intro H. destruct (predict_leaf_total t d H x miss) as [l [Hl _]].
  exists (vlq t l). apply (predict_value_leaf t d x miss _ H). unfold predict_value. now rewrite Hl.
Qed.
Lemma leaf_value_unique t d x miss v v' : wf_tree t d = true ->
  leaf_value t x miss v -> leaf_value t x miss v' -> v = v'.
Proof. intro H. rewrite <- !(predict_value_leaf t d x miss _ H). congruence. Qed.

Lemma limit_statement ts d limit off x miss :
  forallb (fun t => wf_tree t d) ts = true ->
  exists vs r,
    Forall2 (fun t v => leaf_value t x miss v)
      (if ((limit <? 0) || (Z.of_nat (length ts) <? limit))%Z then ts
       else firstn (Z.to_nat limit) ts) vs /\
    base_predict ts limit off x miss = Some r /\ (r == off + sumf (fun v => v) vs)%Q.
Proof.
  intro H. unfold base_predict, effective_limit.
  destruct ((limit <? 0) || (Z.of_nat (length ts) <? limit))%Z.
  - destruct (dense_predict_sum ts (length ts) off x miss d H) as [vs [r [H1 [H2 H3]]]].
    rewrite firstn_all in H1. exists vs, r. split; [|auto]. eapply predict_values_leaf; eassumption.
  - destruct (dense_predict_sum ts (Z.to_nat limit) off x miss d H) as [vs [r [H1 [H2 H3]]]].
    exists vs, r. split; [|auto]. eapply (predict_values_leaf _ d); [|eassumption]. now apply forallb_firstn.
Qed.

Lemma increment_statement ts d j k off x miss :
  forallb (fun t => wf_tree t d) ts = true -> j <= k ->
  exists vs rj rk,
    Forall2 (fun t v => leaf_value t x miss v) (firstn (k - j) (skipn j ts)) vs /\
    dense_tree_predict ts j off x miss = Some rj /\
    dense_tree_predict ts k off x miss = Some rk /\
    (rk == rj + sumf (fun v => v) vs)%Q.
Proof.
  intros H Hjk. destruct (dense_predict_increment ts j k off x miss d H Hjk)
    as [vs [rj [rk [H1 [H2 [H3 H4]]]]]].
  exists vs, rj, rk. split; [|auto]. eapply (predict_values_leaf _ d); [|eassumption].
  now apply forallb_firstn, forallb_skipn.
Qed.

Lemma single_statement ts d j off x miss t :
  forallb (fun t => wf_tree t d) ts = true -> nth_error ts j = Some t ->
  exists v r, leaf_value t x miss v /\
    single_tree_predict ts j off x miss = Some r /\ (r == off + v)%Q.
Proof.
  intros H Hj. assert (Ht : wf_tree t d = true).
  { rewrite forallb_forall in H. apply H. eapply nth_error_In; eassumption. }
  destruct (leaf_value_total t d x miss Ht) as [v Hv].
  exists v. unfold single_tree_predict. rewrite Hj.
  rewrite (proj2 (predict_value_leaf t d x miss v Ht) Hv).
  exists (0 + off + v)%Q. split; [trivial|]. split; [reflexivity|]. lra.
Qed.

Lemma weights_statement t d rows w :
  wf_tree t d = true ->
  exists vis : pt * (nat -> bool) -> nat -> bool,
    (forall r j, vis r j = true <-> visits t (fst r) (snd r) j) /\
    (forall j, (update_weights t rows w j == w j + Qn (length (filter (fun r => vis r j) rows)))%Q).
Proof.
  intro H. exists (fun r j => visitsb t (fst r) (snd r) j). split.
  - intros r j. apply (visitsb_spec t d H).
  - intro j. apply (update_weights_count t d H).
Qed.

Lemma ensemble_max_var_partial_lemma ts mv :
  ensemble_max_var ts = Some mv ->
  (exists t lf ls, last ts t = t /\ In t ts /\ tree_leaves t = Some ls /\ In lf ls /\
     forall t' ls' lf', In t' ts -> tree_leaves t' = Some ls' -> In lf' ls' ->
       length (l_vars lf') <= length (l_vars lf)) ->
  forall t' ls' lf', In t' ts -> tree_leaves t' = Some ls' -> In lf' ls' ->
    length (l_vars lf') <= mv.
Proof.
  unfold ensemble_max_var. intros H [t [lf [ls [Hlast [Hin [Hls [Hlf Hmax]]]]]]] t' ls' lf' H1 H2 H3.
  specialize (Hmax t' ls' lf' H1 H2 H3).
  assert (In (length (l_vars lf)) (last (map leaf_sizes ts) [])).
  { assert (E : last (map leaf_sizes ts) [] = leaf_sizes t).
    { clear - Hlast Hin. induction ts as [|a ts IH]; [contradiction|].
      destruct ts as [|b ts].
      - cbn in *. now subst.
      - change (last (map leaf_sizes (b :: ts)) [] = leaf_sizes t).
        apply IH.
        + exact Hlast.
        + change (last (b :: ts) t = t) in Hlast. rewrite <- Hlast.
          clear. revert b. induction ts as [|c ts IH]; intro b; [now left|].
          right. apply IH. }
    rewrite E. unfold leaf_sizes. rewrite Hls. apply in_map_iff. eauto. }
  pose proof (max_var_last_tree _ _ _ H H0). lia.
Qed.

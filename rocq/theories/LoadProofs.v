(** Proofs about the trees built from dumps. *)
From Verif Require Import Base TreeModel TreeSpec TreeProofs LoadModel LoadSpec.

(** ** Numbered trees *)

Inductive ntree : Type :=
| NLeaf (id : nat) (v : Q)
| NNode (id f : nat) (t : Q) (dl : bool) (l r : ntree).
Definition nid (v : ntree) : nat := match v with NLeaf i _ => i | NNode i _ _ _ _ _ => i end.
Fixpoint nsub (v : ntree) : list ntree :=
  v :: match v with NLeaf _ _ => [] | NNode _ _ _ _ l r => nsub l ++ nsub r end.
Fixpoint nfollow (v : ntree) (x : pt) (miss : nat -> bool) : Q :=
  match v with
  | NLeaf _ q => q
  | NNode _ f t dl l r => if (if miss f then dl else qleb (x f) t) then nfollow l x miss else nfollow r x miss
  end.
Fixpoint ndepth (v : ntree) : nat :=
  match v with NLeaf _ _ => 0 | NNode _ _ _ _ l r => S (Nat.max (ndepth l) (ndepth r)) end.
Fixpoint nordered (v : ntree) : Prop :=
  match v with
  | NLeaf _ _ => True
  | NNode i _ _ _ l r => i < nid l /\ i < nid r /\ nordered l /\ nordered r
  end.
Fixpoint nfeatures (d : nat) (v : ntree) : Prop :=
  match v with
  | NLeaf _ _ => True
  | NNode _ f _ _ l r => f < d /\ nfeatures d l /\ nfeatures d r
  end.

(** the arrays show a node of the numbered tree *)
Definition shows (t : tree) (v : ntree) : Prop :=
  match v with
  | NLeaf i q => (clz t i < 0)%Z /\ (crz t i < 0)%Z /\ (vlq t i == q)%Q
  | NNode i f th0 dl l r =>
      clz t i = Z.of_nat (nid l) /\ crz t i = Z.of_nat (nid r) /\
      cdz t i = Z.of_nat (nid (if dl then l else r)) /\ nth i (ft t) (-1)%Z = Z.of_nat f /\ thq t i = th0
  end.

Lemma nsub_head v : In v (nsub v).
Proof. destruct v; now left. Qed.
Lemma ndepth_size v : ndepth v < length (nsub v).
Proof.
  induction v as [i q|i f t dl l IHl r IHr]; cbn [ndepth nsub length]; [lia|]. rewrite app_length. lia.
Qed.

Lemma nwalk t x miss : forall v fuel, ndepth v < fuel -> (forall u, In u (nsub v) -> shows t u) ->
  exists k, walk fuel t x miss (nid v) = Some k /\ (vlq t k == nfollow v x miss)%Q.
Proof.
  induction v as [i q|i f th0 dl l IHl r IHr]; intros fuel Hf H.
  - destruct fuel as [|fuel]; [lia|]. destruct (H _ (or_introl eq_refl)) as [H1 [_ H2]]. exists i. cbn [walk nid].
    unfold is_leaf. rewrite (proj2 (Z.ltb_lt _ _) H1). split; [reflexivity|exact H2].
  - destruct fuel as [|fuel]; [lia|]. cbn [ndepth] in Hf.
    destruct (H _ (or_introl eq_refl)) as [H1 [H2 [H3 [H4 H5]]]].
    assert (Hl : forall u, In u (nsub l) -> shows t u) by (intros u Hu; apply H; right; apply in_or_app; now left).
    assert (Hr : forall u, In u (nsub r) -> shows t u) by (intros u Hu; apply H; right; apply in_or_app; now right).
    destruct (IHl fuel ltac:(lia) Hl) as [kl [Wl Vl]]. destruct (IHr fuel ltac:(lia) Hr) as [kr [Wr Vr]].
    cbn [walk nid nfollow]. unfold is_leaf. rewrite H1.
    destruct (Z.ltb_spec (Z.of_nat (nid l)) 0) as [K|_]; [lia|].
    unfold next_node, ftn. rewrite H4, Nat2Z.id, H5, H3, H1, H2.
    destruct (miss f).
    + destruct dl; rewrite Nat2Z.id; eauto.
    + destruct (qleb (x f) th0); rewrite Nat2Z.id; eauto.
Qed.

Lemma npredict t x miss v : nid v = 0 -> (forall u, In u (nsub v) -> shows t u) ->
  NoDup (map nid (nsub v)) -> (forall u, In u (nsub v) -> nid u < nn t) ->
  exists q, predict_value t x miss = Some q /\ (q == nfollow v x miss)%Q.
Proof.
  intros H0 H Hn Hb. unfold predict_value, predict_leaf.
  destruct (nwalk t x miss v (nn t)) as [k [W V]].
  - apply Nat.lt_le_trans with (length (nsub v)); [apply ndepth_size|].
    rewrite <- (map_length nid). rewrite <- (seq_length (nn t) 0). apply NoDup_incl_length; [exact Hn|].
    intros i Hi. apply in_map_iff in Hi. destruct Hi as [u [<- Hu]]. apply in_seq. specialize (Hb u Hu). lia.
  - exact H.
  - rewrite H0 in W. rewrite W. eauto.
Qed.

(** children of all the nodes: every vertex but the root, once *)
Definition kids (v : ntree) : list nat := match v with NLeaf _ _ => [] | NNode _ _ _ _ l r => [nid l; nid r] end.
Lemma kids_perm v : Permutation (nid v :: flat_map kids (nsub v)) (map nid (nsub v)).
Proof.
  induction v as [i q|i f t dl l IHl r IHr]; [reflexivity|].
  cbn [nsub flat_map kids map nid app]. apply perm_skip. rewrite flat_map_app, map_app.
  transitivity ((nid l :: flat_map kids (nsub l)) ++ (nid r :: flat_map kids (nsub r))); [|now rewrite IHl, IHr].
  cbn [app]. apply perm_skip. apply Permutation_middle.
Qed.

Lemma filter_map_comm {A B} (f : B -> bool) (g : A -> B) l : filter f (map g l) = map g (filter (fun a => f (g a)) l).
Proof. induction l as [|a l IH]; [reflexivity|]. cbn. destruct (f (g a)); cbn; now rewrite IH. Qed.
Lemma filter_len_perm {A} (f : A -> bool) l l' : Permutation l l' -> length (filter f l) = length (filter f l').
Proof.
  induction 1; cbn; try lia.
  - destruct (f x); cbn; lia.
  - destruct (f y), (f x); cbn; lia.
Qed.

Lemma parents_count t d v : (forall u, In u (nsub v) -> shows t u) -> length (cr t) = nn t ->
  Permutation (map nid (nsub v)) (seq 0 (nn t)) -> nordered v -> nfeatures d v ->
  forall j, length (where_eq (cl t) j) + length (where_eq (cr t) j) = count_occ Nat.eq_dec (flat_map kids (nsub v)) j.
Proof.
  intros H HL HP _ _ j. unfold where_eq. rewrite HL. fold (nn t).
  rewrite <- (filter_len_perm _ _ _ HP), (filter_len_perm (fun i => (nth i (cr t) (-1) =? Z.of_nat j)%Z) _ _ (Permutation_sym HP)).
  rewrite !filter_map_comm, !map_length. revert H. generalize (nsub v). induction l as [|u l IH]; intro H; [reflexivity|].
  cbn [filter flat_map]. rewrite count_occ_app, <- IH by (intros; apply H; now right).
  specialize (H u (or_introl eq_refl)). destruct u as [i q|i f t0 dl a b]; cbn [nid kids count_occ] in *.
  - destruct H as [H1 [H2 _]]. unfold clz in H1. unfold crz in H2.
    destruct (Z.eqb_spec (nth i (cl t) (-1)%Z) (Z.of_nat j)); [lia|].
    destruct (Z.eqb_spec (nth i (cr t) (-1)%Z) (Z.of_nat j)); lia.
  - destruct H as [H1 [H2 _]]. unfold clz in H1. unfold crz in H2. rewrite H1, H2.
    destruct (Nat.eq_dec (nid a) j), (Nat.eq_dec (nid b) j),
      (Z.eqb_spec (Z.of_nat (nid a)) (Z.of_nat j)), (Z.eqb_spec (Z.of_nat (nid b)) (Z.of_nat j)); cbn [length]; lia.
Qed.

Lemma nordered_sub v u : nordered v -> In u (nsub v) -> nordered u.
Proof.
  induction v as [i q|i f t dl l IHl r IHr]; intros H Hu; cbn [nsub] in Hu.
  - destruct Hu as [<-|[]]. exact H.
  - destruct Hu as [<-|Hu]; [exact H|]. destruct H as [_ [_ [Hl Hr]]]. apply in_app_iff in Hu. tauto.
Qed.
Lemma nfeatures_sub d v u : nfeatures d v -> In u (nsub v) -> nfeatures d u.
Proof.
  induction v as [i q|i f t dl l IHl r IHr]; intros H Hu; cbn [nsub] in Hu.
  - destruct Hu as [<-|[]]. exact H.
  - destruct Hu as [<-|Hu]; [exact H|]. destruct H as [_ [Hl Hr]]. apply in_app_iff in Hu. tauto.
Qed.
Lemma nsub_trans v u w : In u (nsub v) -> In w (nsub u) -> In w (nsub v).
Proof.
  induction v as [i q|i f t dl l IHl r IHr]; intros Hu Hw; cbn [nsub] in Hu.
  - destruct Hu as [<-|[]]. exact Hw.
  - destruct Hu as [<-|Hu]; [exact Hw|]. cbn [nsub]. right. apply in_app_iff in Hu. apply in_app_iff. tauto.
Qed.

Lemma nwf t d v : length (cr t) = nn t -> length (cd t) = nn t -> length (ft t) = nn t -> length (th t) = nn t ->
  length (vl t) = nn t -> (forall u, In u (nsub v) -> shows t u) ->
  nid v = 0 -> Permutation (map nid (nsub v)) (seq 0 (nn t)) -> nordered v -> nfeatures d v ->
  wf_tree t d = true.
Proof.
  intros L1 L2 L3 L4 L5 H H0 HP Ho Hf.
  assert (Hnd : NoDup (map nid (nsub v))) by (apply (Permutation_NoDup (Permutation_sym HP)), seq_NoDup).
  assert (Hlt : forall u, In u (nsub v) -> nid u < nn t).
  { intros u Hu. assert (K : In (nid u) (seq 0 (nn t))) by (apply (Permutation_in _ HP); now apply in_map).
    apply in_seq in K. lia. }
  assert (Hpos : 0 < nn t) by (specialize (Hlt v (nsub_head v)); lia).
  unfold wf_tree. rewrite L1, L2, L3, L4, L5, Nat.eqb_refl. rewrite (proj2 (Nat.ltb_lt 0 (nn t)) Hpos). cbn [andb].
  apply andb_true_iff. split.
  - apply forallb_forall. intros i Hi. apply (Permutation_in _ (Permutation_sym HP)) in Hi.
    apply in_map_iff in Hi. destruct Hi as [u [<- Hu]]. pose proof (H u Hu) as S. pose proof (nordered_sub _ _ Ho Hu) as O.
    pose proof (nfeatures_sub _ _ _ Hf Hu) as F. unfold wf_node. destruct u as [i q|i f t0 dl a b]; cbn [nid shows nordered nfeatures] in *.
    + destruct S as [S1 [S2 _]]. rewrite (proj2 (Z.ltb_lt _ _) S1). now apply Z.ltb_lt.
    + destruct S as [S1 [S2 [S3 [S4 _]]]]. rewrite S1, S2, S3, S4.
      destruct (Z.ltb_spec (Z.of_nat (nid a)) 0) as [K|_]; [lia|].
      assert (Ia : In a (nsub v)) by (apply (nsub_trans v _ _ Hu); cbn [nsub]; right; apply in_or_app; left; apply nsub_head).
      assert (Ib : In b (nsub v)) by (apply (nsub_trans v _ _ Hu); cbn [nsub]; right; apply in_or_app; right; apply nsub_head).
      pose proof (Hlt a Ia). pose proof (Hlt b Ib).
      assert (Hab : nid a <> nid b).
      { (* the two children are distinct vertices *)
        pose proof (kids_perm v) as K. apply Permutation_sym in K. apply (Permutation_NoDup K) in Hnd.
        inversion Hnd as [|? ? _ Hk]; subst. clear -Hk Hu. intro E.
        assert (G : forall l, In (NNode i f t0 dl a b) l -> NoDup (flat_map kids l) -> False).
        { induction l as [|u l IH]; intros Hin Hn; [destruct Hin|]. cbn [flat_map] in Hn.
          destruct Hin as [->|Hin].
          - cbn [kids app] in Hn. inversion Hn as [|? ? Hx _]; subst. apply Hx. left. now rewrite E.
          - apply IH; [exact Hin|]. clear -Hn. induction (kids u) as [|k ks IHk]; [exact Hn|].
            cbn [app] in Hn. inversion Hn; subst. auto. }
        exact (G _ Hu Hk). }
      repeat (apply andb_true_iff; split); try (apply Z.ltb_lt; lia); try (apply Z.leb_le; lia).
      * apply negb_true_iff, Z.eqb_neq. lia.
      * apply orb_true_iff. destruct dl; [left|right]; apply Z.eqb_refl.
  - apply forallb_forall. intros j Hj. apply in_seq in Hj. apply Nat.eqb_eq.
    rewrite (parents_count t d v H L1 HP Ho Hf j).
    assert (C : count_occ Nat.eq_dec (nid v :: flat_map kids (nsub v)) j = 1).
    { rewrite (proj1 (Permutation_count_occ Nat.eq_dec _ _) (kids_perm v) j).
      rewrite (proj1 (Permutation_count_occ Nat.eq_dec _ _) HP j).
      apply (NoDup_count_occ' Nat.eq_dec); [apply seq_NoDup|]. apply in_seq. lia. }
    cbn [count_occ] in C. rewrite H0 in C. destruct (Nat.eq_dec 0 j); [lia|exact C].
Qed.

(** ** Finished arrays *)

Lemma nth_tab {A} (f : nat -> A) n i x : i < n -> nth i (map f (seq 0 n)) x = f i.
Proof.
  intro H. rewrite (nth_indep _ x (f 0)) by (rewrite map_length, seq_length; exact H).
  rewrite map_nth, seq_nth; [reflexivity|exact H].
Qed.
Lemma finish_cells n s a i : i < n ->
  clz (finish n s a) i = a_cl a i /\ crz (finish n s a) i = a_cr a i /\ cdz (finish n s a) i = a_cd a i /\
  nth i (ft (finish n s a)) (-1)%Z = a_ft a i /\ thq (finish n s a) i = a_th a i /\ vlq (finish n s a) i = (a_vl a i * s)%Q.
Proof.
  intro H. unfold clz, crz, cdz, thq, vlq, finish. cbn [cl cr cd ft th vl].
  repeat split; now rewrite nth_tab.
Qed.
Lemma finish_lengths n s a : let t := finish n s a in
  nn t = n /\ length (cr t) = nn t /\ length (cd t) = nn t /\ length (ft t) = nn t /\ length (th t) = nn t /\ length (vl t) = nn t.
Proof. cbn. unfold nn. cbn. rewrite !map_length, !seq_length. repeat split. Qed.

(** agreement of two arrays at an index *)
Definition same_at (a b : arrays) (i : nat) : Prop :=
  a_cl a i = a_cl b i /\ a_cr a i = a_cr b i /\ a_cd a i = a_cd b i /\ a_ft a i = a_ft b i /\
  a_th a i = a_th b i /\ a_vl a i = a_vl b i /\ a_w a i = a_w b i.
Lemma same_refl a i : same_at a a i.
Proof. repeat split. Qed.
Lemma same_trans a b c i : same_at a b i -> same_at b c i -> same_at a c i.
Proof. unfold same_at. intuition congruence. Qed.
Lemma put_other a i l r dd f t v w j : j <> i -> same_at (put a i l r dd f t v w) a j.
Proof. intro H. unfold same_at, put. cbn. rewrite !upd_other by exact H. repeat split. Qed.

(** ** LightGBM *)

Section Lgb.
Variables (np : nat) (scaling : Q).
Definition lgb_cell (a : arrays) (v : lgb) : Prop :=
  match v with
  | LLeaf i q c => same_at a (put a (i + np) (-1) (-1) (-1) (-1) (-1) q c) (i + np)
  | LNode i f t dl q c l r =>
      same_at a (put a i (Z.of_nat (lgb_id np l)) (Z.of_nat (lgb_id np r))
        (if dl then Z.of_nat (lgb_id np l) else Z.of_nat (lgb_id np r)) (Z.of_nat f) t q c) i
  end.
Lemma put_put_same a b i l r dd f t v w : same_at (put a i l r dd f t v w) (put b i l r dd f t v w) i.
Proof. unfold same_at, put. cbn. rewrite !upd_same. repeat split. Qed.
Lemma lgb_cell_put a b v : same_at a b (lgb_id np v) -> lgb_cell b v -> lgb_cell a v.
Proof using.
  destruct v as [i q c|i f t dl q c l r]; cbn [lgb_id lgb_cell]; intros H1 H2;
    (eapply same_trans; [exact H1|]; eapply same_trans; [exact H2|]; apply put_put_same).
Qed.

Lemma lgb_sub_head v : In v (lgb_sub v).
Proof. destruct v; now left. Qed.

Lemma lgb_loop_ok : forall fuel queue a visited,
  list_sum (map lgb_size queue) < fuel ->
  NoDup (map (lgb_id np) (flat_map lgb_sub queue)) ->
  (forall v, In v (flat_map lgb_sub queue) -> lgb_id np v < 2 * np + 1) ->
  (forall i f t dl q c l r, In (LNode i f t dl q c l r) (flat_map lgb_sub queue) -> ~ In i visited) ->
  exists a', lgb_loop fuel np a visited queue = Some a' /\
    (forall v, In v (flat_map lgb_sub queue) -> lgb_cell a' v) /\
    (forall i, ~ In i (map (lgb_id np) (flat_map lgb_sub queue)) -> same_at a' a i).
Proof using.
  induction fuel as [|fuel IH]; intros queue a visited Hf Hn Hb Hv; [lia|].
  destruct queue as [|v queue].
  { exists a. split; [reflexivity|]. split; [intros v []|]. intros i _. apply same_refl. }
  cbn [lgb_loop]. destruct v as [i q c|i f t dl q c l r].
  - assert (Hi : i + np < 2 * np + 1) by (apply (Hb (LLeaf i q c)); now left).
    rewrite (proj2 (Nat.ltb_lt _ _) Hi). cbn [flat_map lgb_sub app map] in Hn, Hb, Hv |- *.
    inversion Hn as [|? ? Hni Hn']; subst.
    destruct (IH queue (put a (i + np) (-1) (-1) (-1) (-1) (-1) q c) visited) as [a' [E [H1 H2]]].
    + cbn [map list_sum lgb_size fold_right] in Hf. unfold list_sum in *. lia.
    + exact Hn'.
    + intros v Hv'. apply Hb. now right.
    + intros. eapply Hv. right. eauto.
    + exists a'. split; [exact E|]. cbn [lgb_id] in Hni. split.
      * intros v [<-|Hv']; [|auto]. cbn [lgb_cell].
        eapply same_trans; [apply H2; exact Hni|]. apply put_put_same.
      * intros j Hj. eapply same_trans; [apply H2; intro; apply Hj; now right|]. apply put_other.
        intros ->. apply Hj. now left.
  - assert (Hi : i < 2 * np + 1) by (apply (Hb (LNode i f t dl q c l r)); now left).
    assert (Hvi : memb i visited = false) by (apply memb_false; eapply Hv; now left).
    rewrite Hvi, (proj2 (Nat.ltb_lt _ _) Hi). cbn zeta.
    assert (HP : Permutation (flat_map lgb_sub (queue ++ [l; r])) ((lgb_sub l ++ lgb_sub r) ++ flat_map lgb_sub queue)).
    { rewrite flat_map_app. cbn [flat_map]. rewrite app_nil_r. apply Permutation_app_comm. }
    cbn [flat_map lgb_sub app map] in Hn, Hb, Hv |- *.
    inversion Hn as [|? ? Hni Hn']; subst. cbn [lgb_id] in Hni.
    destruct (IH (queue ++ [l; r]) (put a i (Z.of_nat (lgb_id np l)) (Z.of_nat (lgb_id np r))
        (if dl then Z.of_nat (lgb_id np l) else Z.of_nat (lgb_id np r)) (Z.of_nat f) t q c) (visited ++ [i])) as [a' [E [H1 H2]]].
    + rewrite map_app, list_sum_app. cbn [map list_sum lgb_size fold_right] in *. unfold list_sum in *. cbn in *. lia.
    + eapply Permutation_NoDup; [|exact Hn']. apply Permutation_map. now symmetry.
    + intros v Hv'. apply Hb. right. now apply (Permutation_in _ HP).
    + intros i' f' t' dl' q' c' l' r' Hin K. apply (Permutation_in _ HP) in Hin. apply in_app_iff in K.
      destruct K as [K|[<-|[]]]; [eapply Hv; [right; exact Hin|exact K]|].
      apply Hni. apply in_map_iff. eexists. split; [|exact Hin]. reflexivity.
    + exists a'. split; [exact E|].
      assert (HM : forall j, In j (map (lgb_id np) (flat_map lgb_sub (queue ++ [l; r]))) <->
        In j (map (lgb_id np) ((lgb_sub l ++ lgb_sub r) ++ flat_map lgb_sub queue))).
      { intro j. split; apply Permutation_in; apply Permutation_map; [exact HP|now symmetry]. }
      split.
      * intros v [<-|Hv']; [|apply H1; apply (Permutation_in _ (Permutation_sym HP)); exact Hv']. cbn [lgb_cell].
        eapply same_trans; [apply H2; rewrite HM; exact Hni|]. apply put_put_same.
      * intros j Hj. eapply same_trans; [apply H2; rewrite HM; intro; apply Hj; now right|]. apply put_other.
        intros ->. apply Hj. now left.
Qed.

Fixpoint lgb_nt (v : lgb) : ntree :=
  match v with
  | LLeaf i q _ => NLeaf (i + np) (q * scaling)
  | LNode i f t dl _ _ l r => NNode i f t dl (lgb_nt l) (lgb_nt r)
  end.
Lemma lgb_nt_id v : nid (lgb_nt v) = lgb_id np v.
Proof using. now destruct v. Qed.
Lemma lgb_nt_sub v : nsub (lgb_nt v) = map lgb_nt (lgb_sub v).
Proof using.
  induction v as [i q c|i f t dl q c l IHl r IHr]; [reflexivity|].
  cbn [lgb_nt nsub lgb_sub map]. now rewrite IHl, IHr, map_app.
Qed.
Lemma lgb_nt_follow v x miss : (nfollow (lgb_nt v) x miss == lgb_follow v x miss * scaling)%Q.
Proof using.
  induction v as [i q c|i f t dl q c l IHl r IHr]; cbn; [reflexivity|].
  destruct (if miss f then dl else qleb (x f) t); assumption.
Qed.
Lemma lgb_nt_features d v : lgb_features d v -> nfeatures d (lgb_nt v).
Proof using. induction v; cbn; intuition. Qed.
Lemma lgb_sub_ids v : Permutation (map (lgb_id np) (lgb_sub v)) (lgb_splits v ++ map (fun i => i + np) (lgb_leaves v)).
Proof using.
  induction v as [i q c|i f t dl q c l IHl r IHr]; [reflexivity|].
  cbn [lgb_sub map lgb_splits lgb_leaves lgb_id app]. apply perm_skip. rewrite !map_app, IHl, IHr, <- !app_assoc.
  apply Permutation_app_head. rewrite !app_assoc. apply Permutation_app_tail. apply Permutation_app_comm.
Qed.
Lemma lgb_shows n a v : n = 2 * np + 1 -> lgb_id np v < n -> lgb_cell a v -> shows (finish n scaling a) (lgb_nt v).
Proof using.
  intros Hn Hlt H. destruct (finish_cells n scaling a (lgb_id np v) Hlt) as [E1 [E2 [E3 [E4 [E5 E6]]]]].
  destruct v as [i q c|i f t dl q c l r]; cbn [lgb_id lgb_cell lgb_nt shows] in *; destruct H as [H1 [H2 [H3 [H4 [H5 [H6 _]]]]]];
    unfold put in *; cbn [a_cl a_cr a_cd a_ft a_th a_vl] in *; rewrite upd_same in H1; rewrite upd_same in H2;
    rewrite upd_same in H3; rewrite upd_same in H4; rewrite upd_same in H5; rewrite upd_same in H6.
  - rewrite E1, E2, E6, H1, H2, H6. split; [lia|]. split; [lia|reflexivity].
  - rewrite E1, E2, E3, E4, E5, H1, H2, H3, H4, H5, !lgb_nt_id. repeat split. destruct dl; now rewrite lgb_nt_id.
Qed.
Lemma lgb_nt_ordered v : lgb_ordered v -> (forall i, In i (lgb_splits v) -> i < np) -> nordered (lgb_nt v).
Proof using.
  induction v as [i q c|i f t dl q c l IHl r IHr]; intros Ho Hs; [exact I|].
  cbn [lgb_nt nordered]. destruct Ho as [O1 [O2 [O3 O4]]]. rewrite !lgb_nt_id.
  assert (i < np) by (apply Hs; now left).
  split; [destruct l; cbn [lgb_id]; lia|]. split; [destruct r; cbn [lgb_id]; lia|].
  split; [apply IHl|apply IHr]; trivial; intros j Hj; apply Hs; right; apply in_or_app; tauto.
Qed.
End Lgb.

Lemma seq_shift_by n k s : map (fun i => i + k) (seq s n) = seq (k + s) n.
Proof. revert s. induction n as [|n IH]; intro s; [reflexivity|]. cbn. rewrite IH. f_equal; [lia|]. f_equal. lia. Qed.

Theorem load_lgb_ok n junk scaling v : lgb_ok n v ->
  exists t w, load_lgb n junk scaling v = Some (t, w) /\ nn t = 2 * n - 1 /\
  (forall x miss, exists q, predict_value t x miss = Some q /\ (q == lgb_follow v x miss * scaling)%Q) /\
  (forall i q c, In (LLeaf i q c) (lgb_sub v) -> w (i + (n - 1)) = c) /\
  (forall i f t0 dl q c l r, In (LNode i f t0 dl q c l r) (lgb_sub v) -> w i = c) /\
  (lgb_ordered v -> forall d, lgb_features d v -> wf_tree t d = true).
Proof.
  intros [Hs [Hl Hr]]. set (np := n - 1).
  assert (Hn : 0 < n).
  { destruct n; [|lia]. cbn in Hl. apply Permutation_sym, Permutation_nil in Hl. clear -Hl. exfalso.
    induction v as [|i f t dl q c l IHl r IHr]; cbn in Hl; [discriminate|]. apply app_eq_nil in Hl. tauto. }
  assert (HP : Permutation (map (lgb_id np) (lgb_sub v)) (seq 0 (2 * np + 1))).
  { rewrite lgb_sub_ids, Hs. rewrite (Permutation_map (fun i => i + np) Hl).
    rewrite seq_shift_by, Nat.add_0_r. replace (2 * np + 1) with (np + n) by (unfold np; lia). now rewrite seq_app. }
  assert (Hlt : forall u, In u (lgb_sub v) -> lgb_id np u < 2 * np + 1).
  { intros u Hu. assert (K : In (lgb_id np u) (seq 0 (2 * np + 1))) by (apply (Permutation_in _ HP); now apply in_map).
    apply in_seq in K. lia. }
  assert (Hnd : NoDup (map (lgb_id np) (lgb_sub v))) by (apply (Permutation_NoDup (Permutation_sym HP)), seq_NoDup).
  destruct (lgb_loop_ok np (S (lgb_size v)) [v] junk []) as [a [E [Hc _]]].
  - cbn. lia.
  - cbn [flat_map]. now rewrite app_nil_r.
  - cbn [flat_map]. rewrite app_nil_r. exact Hlt.
  - intros i f t dl q c l r _ [].
  - cbn [flat_map] in Hc. rewrite app_nil_r in Hc.
    exists (finish (2 * np + 1) scaling a), (a_w a). unfold load_lgb. fold np. rewrite E.
    destruct (finish_lengths (2 * np + 1) scaling a) as [L0 [L1 [L2 [L3 [L4 L5]]]]].
    assert (Hshow : forall u, In u (nsub (lgb_nt np scaling v)) -> shows (finish (2 * np + 1) scaling a) u).
    { intros u Hu. rewrite lgb_nt_sub in Hu. apply in_map_iff in Hu. destruct Hu as [w [<- Hw]].
      apply (lgb_shows np scaling (2 * np + 1)); auto. }
    assert (Hids : map nid (nsub (lgb_nt np scaling v)) = map (lgb_id np) (lgb_sub v)).
    { rewrite lgb_nt_sub, map_map. apply map_ext. intro. apply lgb_nt_id. }
    assert (Hroot : nid (lgb_nt np scaling v) = 0).
    { rewrite lgb_nt_id. destruct v as [i q c|]; [|exact Hr]. cbn [lgb_id lgb_leaves lgb_splits] in *.
      apply Permutation_length in Hs as Hs'. rewrite seq_length in Hs'. cbn in Hs'.
      apply Permutation_length in Hl as Hl'. rewrite seq_length in Hl'. cbn in Hl'.
      replace n with 1 in Hl by lia. apply Permutation_length_1_inv in Hl. cbn in Hl. inversion Hl. unfold np. lia. }
    repeat split.
    + rewrite L0. unfold np. lia.
    + intros x miss. destruct (npredict (finish (2 * np + 1) scaling a) x miss (lgb_nt np scaling v) Hroot Hshow) as [q [Q1 Q2]].
      * now rewrite Hids.
      * intros u Hu. rewrite L0. rewrite lgb_nt_sub in Hu. apply in_map_iff in Hu. destruct Hu as [w [<- Hw]].
        rewrite lgb_nt_id. auto.
      * exists q. split; [exact Q1|]. rewrite Q2. apply lgb_nt_follow.
    + intros i q c Hin. specialize (Hc _ Hin). cbn [lgb_cell] in Hc. destruct Hc as [_ [_ [_ [_ [_ [_ Hw]]]]]].
      rewrite Hw. unfold put. cbn. apply upd_same.
    + intros i f t0 dl q c l r Hin. specialize (Hc _ Hin). cbn [lgb_cell] in Hc. destruct Hc as [_ [_ [_ [_ [_ [_ Hw]]]]]].
      rewrite Hw. unfold put. cbn. apply upd_same.
    + intros Ho d Hf. apply (nwf _ d (lgb_nt np scaling v)); auto.
      * rewrite Hids, L0. exact HP.
      * apply lgb_nt_ordered; [exact Ho|]. intros i Hi. apply (Permutation_in _ Hs) in Hi. apply in_seq in Hi. unfold np. lia.
      * now apply lgb_nt_features.
Qed.

(** ** XGBoost JSON *)

Section Xjs.
Variable scaling : Q.
Fixpoint xjs_nt (v : xjs) : ntree :=
  match v with
  | XLeaf i q _ => NLeaf i (q * scaling)
  | XNode i s t y n m _ l r =>
      if y =? xjs_id l then NNode i s t (m =? y) (xjs_nt l) (xjs_nt r) else NNode i s t (m =? y) (xjs_nt r) (xjs_nt l)
  end.
Lemma xjs_nt_id v : nid (xjs_nt v) = xjs_id v.
Proof using. destruct v as [|i s t y n m c l r]; [reflexivity|]. cbn. now destruct (y =? xjs_id l). Qed.
Lemma xjs_nt_sub v : Permutation (nsub (xjs_nt v)) (map xjs_nt (xjs_sub v)).
Proof using.
  induction v as [i q c|i s t y n m c l IHl r IHr]; [reflexivity|].
  cbn [xjs_sub map]. rewrite map_app, <- IHl, <- IHr. cbn [xjs_nt].
  destruct (y =? xjs_id l); cbn [nsub]; apply perm_skip; [reflexivity|apply Permutation_app_comm].
Qed.
Definition xjs_cell (a a' : arrays) (v : xjs) : Prop :=
  match v with
  | XLeaf i q c => a_cl a' i = a_cl a i /\ a_cr a' i = a_cr a i /\ a_vl a' i = (q * scaling)%Q /\ a_w a' i = c
  | XNode i s t y n m c l r =>
      a_cl a' i = Z.of_nat y /\ a_cr a' i = Z.of_nat n /\ a_cd a' i = Z.of_nat m /\ a_ft a' i = Z.of_nat s /\
      a_th a' i = t /\ a_w a' i = c
  end.
Lemma NoDup_app_inv {A} (l l' : list A) : NoDup (l ++ l') -> NoDup l /\ NoDup l' /\ (forall x, In x l -> In x l' -> False).
Proof using.
  induction l as [|a l IH]; intro H; cbn in *.
  - split; [constructor|]. split; [exact H|]. intros x [].
  - inversion H; subst. destruct (IH H3) as [H4 [H5 H6]]. rewrite in_app_iff in H2. split; [constructor; tauto|].
    split; [exact H5|]. intros x [->|Hx] Hx'; [tauto|]. eauto.
Qed.
Lemma xjs_extract_ok : forall v a, NoDup (map xjs_id (xjs_sub v)) ->
  (forall i, ~ In i (map xjs_id (xjs_sub v)) -> same_at (xjs_extract v scaling a) a i) /\
  (forall u, In u (xjs_sub v) -> xjs_cell a (xjs_extract v scaling a) u).
Proof using.
  induction v as [i q c|i s t y n m c l IHl r IHr]; intros a Hn.
  - cbn [xjs_extract xjs_sub map] in *. split.
    + intros j Hj. assert (j <> i) by (intros ->; apply Hj; now left). unfold same_at. cbn.
      rewrite !upd_other by assumption. repeat split.
    + intros u [<-|[]]. cbn. rewrite !upd_same. repeat split.
  - cbn [xjs_extract xjs_sub map] in *. inversion Hn as [|? ? Hi Hn']; subst. cbn [xjs_id] in Hi.
    rewrite map_app in *. destruct (NoDup_app_inv _ _ Hn') as [Hl [Hr Hd]].
    set (a1 := mkArrays _ _ _ _ _ _ _).
    destruct (IHl a1 Hl) as [L1 L2]. destruct (IHr (xjs_extract l scaling a1) Hr) as [R1 R2].
    rewrite in_app_iff in Hi.
    assert (Hinit : forall j, j <> i -> same_at a1 a j).
    { intros j Hj. unfold same_at, a1. cbn. rewrite !upd_other by assumption. repeat split. }
    split.
    + intros j Hj. cbn [In] in Hj. rewrite in_app_iff in Hj. eapply same_trans; [apply R1; tauto|].
      eapply same_trans; [apply L1; tauto|]. apply Hinit. intros ->. apply Hj. now left.
    + intros u [<-|Hu].
      * assert (K : same_at (xjs_extract r scaling (xjs_extract l scaling a1)) a1 i).
        { eapply same_trans; [apply R1|apply L1]; tauto. }
        unfold same_at in K. cbn [xjs_cell]. destruct K as [-> [-> [-> [-> [-> [_ ->]]]]]]. unfold a1. cbn.
        rewrite !upd_same. repeat split.
      * apply in_app_iff in Hu. destruct Hu as [Hu|Hu].
        { assert (Hid : In (xjs_id u) (map xjs_id (xjs_sub l))) by (now apply in_map).
          specialize (L2 u Hu). assert (K := R1 (xjs_id u) (fun H => Hd _ Hid H)).
          assert (Hne : xjs_id u <> i) by (intros E; rewrite E in Hid; tauto). specialize (Hinit _ Hne).
          unfold same_at in K, Hinit. destruct u; cbn [xjs_cell xjs_id] in *; intuition congruence. }
        { assert (Hid : In (xjs_id u) (map xjs_id (xjs_sub r))) by (now apply in_map).
          specialize (R2 u Hu). assert (K := L1 (xjs_id u) (fun H => Hd _ H Hid)).
          assert (Hne : xjs_id u <> i) by (intros E; rewrite E in Hid; tauto). specialize (Hinit _ Hne).
          unfold same_at in K, Hinit. destruct u; cbn [xjs_cell xjs_id] in *; intuition congruence. }
Qed.
Lemma xjs_names_sub v u : xjs_names v -> In u (xjs_sub v) -> xjs_names u.
Proof using.
  induction v as [i q c|i s t y n m c l IHl r IHr]; intros H Hu; cbn [xjs_sub] in Hu.
  - destruct Hu as [<-|[]]. exact H.
  - destruct Hu as [<-|Hu]; [exact H|]. destruct H as [_ [_ [Hl Hr]]]. apply in_app_iff in Hu. tauto.
Qed.
Lemma xjs_max_ge v u : In u (xjs_sub v) -> xjs_id u <= xjs_max v.
Proof using.
  induction v as [i q c|i s t y n m c l IHl r IHr]; intros Hu; cbn [xjs_sub xjs_max] in *.
  - destruct Hu as [<-|[]]. cbn. lia.
  - destruct Hu as [<-|Hu]; [cbn; lia|]. apply in_app_iff in Hu. destruct Hu as [Hu|Hu]; [specialize (IHl Hu)|specialize (IHr Hu)]; lia.
Qed.
Lemma xjs_shows n a0 a v : (forall i, a_cl a0 i = (-1)%Z) -> (forall i, a_cr a0 i = (-1)%Z) -> xjs_id v < n ->
  xjs_names v -> xjs_cell a0 a v -> shows (finish n 1 a) (xjs_nt v).
Proof using.
  intros I1 I2 Hlt Hnm H. destruct (finish_cells n 1 a (xjs_id v) Hlt) as [E1 [E2 [E3 [E4 [E5 E6]]]]].
  destruct v as [i q c|i s t y no m c l r]; cbn [xjs_id xjs_cell xjs_nt xjs_names] in *.
  - destruct H as [H1 [H2 [H3 _]]]. cbn [shows]. rewrite E1, E2, E6, H1, H2, H3, I1, I2. split; [lia|]. split; [lia|]. field.
  - destruct H as [H1 [H2 [H3 [H4 [H5 _]]]]]. destruct Hnm as [Hy [Hm _]].
    destruct (Nat.eqb_spec y (xjs_id l)); cbn [shows]; rewrite E1, E2, E3, E4, E5, H1, H2, H3, H4, H5, !xjs_nt_id;
      destruct (Nat.eqb_spec m y); rewrite ?xjs_nt_id; repeat split; f_equal; lia.
Qed.
Lemma xjs_nt_follow v x miss : NoDup (map xjs_id (xjs_sub v)) -> xjs_names v ->
  (nfollow (xjs_nt v) x miss == xjs_follow qleb v x miss * scaling)%Q.
Proof using.
  induction v as [i q c|i s t y n m c l IHl r IHr]; intros Hn H; [cbn; reflexivity|].
  cbn [xjs_sub map] in Hn. inversion Hn as [|? ? _ Hn']; subst. rewrite map_app in Hn'.
  destruct (NoDup_app_inv _ _ Hn') as [Nl [Nr Hd]]. destruct H as [Hy [Hm [Hl Hr]]].
  specialize (IHl Nl Hl). specialize (IHr Nr Hr).
  assert (Hne : xjs_id l <> xjs_id r).
  { intro E. apply (Hd (xjs_id l)); [|rewrite E]; apply in_map; [destruct l|destruct r]; now left. }
  cbn [xjs_nt xjs_follow]. unfold xjs_name.
  destruct (Nat.eqb_spec y (xjs_id l)) as [e|e]; cbn [nfollow].
  - assert (Hnn : n = xjs_id r) by lia.
    destruct (miss s); [|destruct (qleb (x s) t)].
    + destruct (Nat.eqb_spec m y), (Nat.eqb_spec m (xjs_id l)); try (exfalso; lia); assumption.
    + destruct (Nat.eqb_spec y (xjs_id l)); [assumption|exfalso; lia].
    + destruct (Nat.eqb_spec n (xjs_id l)); [exfalso; lia|assumption].
  - assert (Hnn : n = xjs_id l /\ y = xjs_id r) by lia.
    destruct (miss s); [|destruct (qleb (x s) t)].
    + destruct (Nat.eqb_spec m y), (Nat.eqb_spec m (xjs_id l)); try (exfalso; lia); assumption.
    + destruct (Nat.eqb_spec y (xjs_id l)); [exfalso; lia|assumption].
    + destruct (Nat.eqb_spec n (xjs_id l)); [assumption|exfalso; lia].
Qed.
Lemma xjs_nt_ordered v : xjs_ordered v -> nordered (xjs_nt v).
Proof using.
  induction v as [|i s t y n m c l IHl r IHr]; [exact (fun _ => I)|]. intros [H1 [H2 [H3 H4]]]. cbn [xjs_nt].
  destruct (y =? xjs_id l); cbn [nordered]; rewrite !xjs_nt_id; tauto.
Qed.
Lemma xjs_nt_features d v : xjs_features d v -> nfeatures d (xjs_nt v).
Proof using.
  induction v as [|i s t y n m c l IHl r IHr]; [exact (fun _ => I)|]. intros [H1 [H2 H3]]. cbn [xjs_nt].
  destruct (y =? xjs_id l); cbn [nfeatures]; tauto.
Qed.
End Xjs.

Theorem load_xjs_ok junk scaling v : xjs_ok v -> let (t, w) := load_xjs junk scaling v in
  (forall x miss, exists q, predict_value t x miss = Some q /\ (q == xjs_follow qleb v x miss * scaling)%Q) /\
  (forall u, In u (xjs_sub v) -> w (xjs_id u) = match u with XLeaf _ _ c => c | XNode _ _ _ _ _ _ c _ _ => c end) /\
  (Permutation (map xjs_id (xjs_sub v)) (seq 0 (length (xjs_sub v))) -> xjs_ordered v -> forall d, xjs_features d v ->
   nn t = length (xjs_sub v) /\ wf_tree t d = true).
Proof.
  intros [Hn [H0 Hnm]]. unfold load_xjs. set (a0 := mkArrays _ _ _ _ _ _ _). set (a := xjs_extract v scaling a0).
  destruct (xjs_extract_ok scaling v a0 Hn) as [_ Hc]. fold a in Hc.
  set (t := finish (xjs_max v + 1) 1 a).
  assert (Hlt : forall u, In u (xjs_sub v) -> xjs_id u < xjs_max v + 1).
  { intros u Hu. pose proof (xjs_max_ge v u Hu). lia. }
  destruct (finish_lengths (xjs_max v + 1) 1 a) as [L0 [L1 [L2 [L3 [L4 L5]]]]]. fold t in L0, L1, L2, L3, L4, L5.
  pose proof (xjs_nt_sub scaling v) as Hsub.
  assert (Hshow : forall u, In u (nsub (xjs_nt scaling v)) -> shows t u).
  { intros u Hu. apply (Permutation_in _ Hsub) in Hu. apply in_map_iff in Hu. destruct Hu as [w [<- Hw]].
    apply (xjs_shows scaling _ a0); auto. exact (xjs_names_sub v w Hnm Hw). }
  assert (Hids : Permutation (map nid (nsub (xjs_nt scaling v))) (map xjs_id (xjs_sub v))).
  { rewrite (Permutation_map nid Hsub), map_map. erewrite map_ext; [reflexivity|]. intro. apply xjs_nt_id. }
  assert (Hroot : nid (xjs_nt scaling v) = 0) by (rewrite xjs_nt_id; exact H0).
  split; [|split].
  - intros x miss. destruct (npredict t x miss (xjs_nt scaling v) Hroot Hshow) as [q [Q1 Q2]].
    + apply (Permutation_NoDup (Permutation_sym Hids)), Hn.
    + intros u Hu. rewrite L0. apply (Permutation_in _ Hsub) in Hu. apply in_map_iff in Hu. destruct Hu as [w [<- Hw]].
      rewrite xjs_nt_id. auto.
    + exists q. split; [exact Q1|]. rewrite Q2. apply xjs_nt_follow; assumption.
  - intros u Hu. specialize (Hc u Hu). destruct u; cbn [xjs_cell xjs_id] in *; tauto.
  - intros HP Ho d Hf.
    assert (Hm : xjs_max v + 1 = length (xjs_sub v)).
    { (* the largest number is the last of the permutation *)
      assert (A : In (xjs_max v) (map xjs_id (xjs_sub v))).
      { clear. induction v as [i q c|i s t y n m c l IHl r IHr]; [now left|]. cbn [xjs_max xjs_sub map xjs_id].
        rewrite map_app. destruct (Nat.max_spec i (Nat.max (xjs_max l) (xjs_max r))) as [[_ ->]|[_ ->]]; [|now left].
        right. apply in_or_app. destruct (Nat.max_spec (xjs_max l) (xjs_max r)) as [[_ ->]|[_ ->]]; tauto. }
      apply (Permutation_in _ HP) in A. apply in_seq in A.
      assert (B : In (length (xjs_sub v) - 1) (map xjs_id (xjs_sub v))).
      { apply (Permutation_in _ (Permutation_sym HP)). apply in_seq. lia. }
      apply in_map_iff in B. destruct B as [u [B1 B2]]. specialize (Hlt u B2). lia. }
    split; [now rewrite L0|]. apply (nwf _ d (xjs_nt scaling v)); auto.
    + rewrite Hids, L0, Hm. exact HP.
    + now apply xjs_nt_ordered.
    + now apply xjs_nt_features.
Qed.

Lemma xjs_off_follow v x miss : xjs_off v x -> xjs_follow qltb v x miss = xjs_follow qleb v x miss.
Proof.
  induction v as [i q c|i s t y n m c l IHl r IHr]; [reflexivity|]. intros [H1 [H2 H3]]. cbn [xjs_follow].
  rewrite IHl, IHr by assumption. unfold xjs_name.
  destruct (qltb_spec (x s) t) as [A|A], (qleb_spec (x s) t) as [B|B]; try reflexivity; exfalso; [lra|].
  apply H1. lra.
Qed.

(** ** pyspark *)

Fixpoint spk_size (v : spk) : nat := match v with SLeaf _ _ => 1 | SNode _ _ _ _ l r => S (spk_size l + spk_size r) end.
Lemma spk_num_size v : forall s, spk_num v s = s + spk_size v.
Proof. induction v as [q c|f t q c l IHl r IHr]; intro s; cbn [spk_num spk_size]; [lia|]. rewrite IHl, IHr. lia. Qed.
Lemma spk_nodes_size v : length (spk_nodes v) = spk_size v.
Proof. induction v as [q c|f t q c l IHl r IHr]; cbn [spk_nodes spk_size length]; [reflexivity|]. rewrite app_length. lia. Qed.

Section Spk.
Variable scaling : Q.
Fixpoint spk_nt (k : nat) (v : spk) : ntree :=
  match v with
  | SLeaf q _ => NLeaf k (q * scaling)
  | SNode f t _ _ l r => NNode k f t true (spk_nt (k + 1) l) (spk_nt (k + 1 + spk_size l) r)
  end.
Lemma spk_nt_id k v : nid (spk_nt k v) = k.
Proof using. now destruct v. Qed.
Lemma spk_nt_ids : forall v k, map nid (nsub (spk_nt k v)) = seq k (spk_size v).
Proof using.
  induction v as [q c|f t q c l IHl r IHr]; intro k; [reflexivity|].
  cbn [spk_nt nsub map nid spk_size seq]. rewrite map_app, IHl, IHr, seq_app. f_equal. f_equal; f_equal; lia.
Qed.
Lemma spk_nt_ordered : forall v k, nordered (spk_nt k v).
Proof using.
  induction v as [q c|f t q c l IHl r IHr]; intro k; [exact I|]. cbn [spk_nt nordered]. rewrite !spk_nt_id.
  split; [lia|]. split; [lia|]. auto.
Qed.
Lemma spk_nt_features d : forall v k, spk_features d v -> nfeatures d (spk_nt k v).
Proof using. induction v as [q c|f t q c l IHl r IHr]; intros k; [exact (fun _ => I)|]. intros [H1 [H2 H3]]. cbn. auto. Qed.
Lemma spk_nt_follow x miss : (forall f, miss f = false) -> forall v k, (nfollow (spk_nt k v) x miss == spk_follow v x * scaling)%Q.
Proof using.
  intros Hm. induction v as [q c|f t q c l IHl r IHr]; intros k; cbn; [reflexivity|]. rewrite Hm. destruct (qleb (x f) t); auto.
Qed.

(** what the building leaves in the arrays *)
Definition spk_shown (a a' : arrays) (u : ntree) : Prop :=
  match u with
  | NLeaf i q => a_cl a' i = a_cl a i /\ a_cr a' i = a_cr a i /\ (a_vl a' i * scaling = q)%Q
  | NNode i f t _ l r => a_cl a' i = Z.of_nat (nid l) /\ a_cr a' i = Z.of_nat (nid r) /\ a_ft a' i = Z.of_nat f /\ a_th a' i = t
  end.
Lemma spk_shown_change a1 a1' a2 a2' u : same_at a1 a1' (nid u) -> same_at a2 a2' (nid u) ->
  spk_shown a1 a2 u -> spk_shown a1' a2' u.
Proof using. unfold same_at. destruct u; cbn [nid spk_shown]; intuition congruence. Qed.
Lemma same_sym a b i : same_at a b i -> same_at b a i.
Proof using. unfold same_at. intuition congruence. Qed.

Lemma spk_build_ok : forall v k a, let (a', last) := spk_build k v a in
  last + 1 = k + spk_size v /\
  (forall i, (i < k \/ k + spk_size v <= i) -> same_at a' a i) /\
  (forall u, In u (nsub (spk_nt k v)) -> spk_shown a a' u) /\
  (forall j u, nth_error (spk_nodes v) j = Some u -> a_w a' (k + j) = spk_count u).
Proof using.
  induction v as [q c|f t q c l IHl r IHr]; intros k a.
  - cbn [spk_build spk_size]. split; [lia|]. split; [|split].
    + intros i Hi. unfold same_at. cbn. rewrite !upd_other by lia. repeat split.
    + cbn [spk_nt nsub]. intros u [<-|[]]. cbn. rewrite upd_same. repeat split.
    + intros j u Hj. destruct j as [|j]; [|destruct j; discriminate]. inversion Hj; subst. cbn. rewrite Nat.add_0_r. apply upd_same.
  - cbn [spk_build]. set (a1 := mkArrays (upd (a_cl a) k _) _ _ _ _ _ _).
    specialize (IHl (k + 1) a1). destruct (spk_build (k + 1) l a1) as [a2 idx]. destruct IHl as [L0 [L1 [L2 L3]]].
    set (a3 := mkArrays (a_cl a2) _ _ _ _ _ _).
    specialize (IHr (idx + 1) a3). destruct (spk_build (idx + 1) r a3) as [a4 last]. destruct IHr as [R0 [R1 [R2 R3]]].
    cbn [spk_size].
    assert (K1 : forall i, i <> k -> same_at a1 a i).
    { intros i Hi. unfold same_at, a1. cbn. rewrite !upd_other by exact Hi. repeat split. }
    assert (K3 : forall i, i <> k -> same_at a3 a2 i).
    { intros i Hi. unfold same_at, a3. cbn. rewrite !upd_other by exact Hi. repeat split. }
    assert (Bl : forall u, In u (nsub (spk_nt (k + 1) l)) -> k + 1 <= nid u < idx + 1).
    { intros u Hu. assert (In (nid u) (seq (k + 1) (spk_size l))) as HI by (rewrite <- spk_nt_ids; now apply in_map).
      apply in_seq in HI. lia. }
    assert (Br : forall u, In u (nsub (spk_nt (idx + 1) r)) -> idx + 1 <= nid u).
    { intros u Hu. assert (In (nid u) (seq (idx + 1) (spk_size r))) as HI by (rewrite <- spk_nt_ids; now apply in_map).
      apply in_seq in HI. lia. }
    split; [lia|]. split; [|split].
    + intros i Hi. eapply same_trans; [apply R1; lia|]. eapply same_trans; [apply K3; lia|]. eapply same_trans; [apply L1; lia|].
      apply K1. lia.
    + cbn [spk_nt nsub]. replace (k + 1 + spk_size l) with (idx + 1) by lia. intros u [<-|Hu].
      * cbn [spk_shown]. rewrite !spk_nt_id. destruct (R1 k ltac:(lia)) as [-> [-> [_ [-> [-> _]]]]].
        unfold a3. cbn. destruct (L1 k ltac:(lia)) as [-> [_ [_ [-> [-> _]]]]]. unfold a1. cbn. rewrite !upd_same. repeat split.
      * apply in_app_iff in Hu. destruct Hu as [Hu|Hu].
        { specialize (Bl u Hu). eapply spk_shown_change; [| |exact (L2 u Hu)].
          - apply K1. lia.
          - apply same_sym. eapply same_trans; [apply R1; lia|]. apply K3. lia. }
        { specialize (Br u Hu). eapply spk_shown_change; [| |exact (R2 u Hu)].
          - eapply same_trans; [apply K3; lia|]. eapply same_trans; [apply L1; lia|]. apply K1. lia.
          - apply same_refl. }
    + intros j u Hj. destruct j as [|j]; cbn [spk_nodes nth_error] in Hj.
      * inversion Hj; subst. rewrite Nat.add_0_r. destruct (R1 k ltac:(lia)) as [_ [_ [_ [_ [_ [_ ->]]]]]]. unfold a3. cbn.
        destruct (L1 k ltac:(lia)) as [_ [_ [_ [_ [_ [_ ->]]]]]]. unfold a1. cbn. apply upd_same.
      * pose proof (spk_nodes_size l) as Hs. destruct (Nat.lt_ge_cases j (spk_size l)) as [Hlt|Hge].
        { rewrite nth_error_app1 in Hj by lia. specialize (L3 j u Hj).
          replace (k + S j) with (k + 1 + j) by lia. destruct (R1 (k + 1 + j) ltac:(lia)) as [_ [_ [_ [_ [_ [_ ->]]]]]].
          destruct (K3 (k + 1 + j) ltac:(lia)) as [_ [_ [_ [_ [_ [_ ->]]]]]]. exact L3. }
        { rewrite nth_error_app2 in Hj by lia. specialize (R3 _ u Hj). rewrite <- R3. f_equal. lia. }
Qed.
End Spk.

Theorem load_spk_ok scaling v : let (t, w) := load_spk scaling v in
  nn t = length (spk_nodes v) /\
  (forall x miss, (forall f, miss f = false) -> exists q, predict_value t x miss = Some q /\ (q == spk_follow v x * scaling)%Q) /\
  (forall i u, nth_error (spk_nodes v) i = Some u -> w i = spk_count u) /\
  (forall d, spk_features d v -> wf_tree t d = true).
Proof.
  unfold load_spk. set (a0 := mkArrays (fun _ => (-2)%Z) _ _ _ _ _ _).
  pose proof (spk_build_ok scaling v 0 a0) as H. destruct (spk_build 0 v a0) as [a last]. cbn [fst].
  destruct H as [_ [_ [H2 H3]]]. rewrite spk_num_size, Nat.add_0_l.
  set (b := mkArrays (a_cl a) (a_cr a) (a_cl a) _ _ _ _). set (t := finish (spk_size v) scaling b).
  destruct (finish_lengths (spk_size v) scaling b) as [L0 [L1 [L2 [L3 [L4 L5]]]]]. fold t in L0, L1, L2, L3, L4, L5.
  assert (Hlt : forall u, In u (nsub (spk_nt scaling 0 v)) -> nid u < spk_size v).
  { intros u Hu. assert (HI : In (nid u) (seq 0 (spk_size v))) by (rewrite <- (spk_nt_ids scaling); now apply in_map).
    apply in_seq in HI. lia. }
  assert (Hsub : forall v k, forall u, In u (nsub (spk_nt scaling k v)) -> match u with NNode _ _ _ dl _ _ => dl = true | _ => True end).
  { clear. induction v as [q c|f t q c l IHl r IHr]; intros k u Hu; cbn [spk_nt nsub] in Hu.
    - destruct Hu as [<-|[]]. exact I.
    - destruct Hu as [<-|Hu]; [reflexivity|]. apply in_app_iff in Hu. destruct Hu as [Hu|Hu]; [exact (IHl _ _ Hu)|exact (IHr _ _ Hu)]. }
  assert (Hshow : forall u, In u (nsub (spk_nt scaling 0 v)) -> shows t u).
  { intros u Hu. specialize (H2 u Hu). specialize (Hsub v 0 u Hu).
    destruct (finish_cells (spk_size v) scaling b (nid u) (Hlt u Hu)) as [E1 [E2 [E3 [E4 [E5 E6]]]]].
    fold t in E1, E2, E3, E4, E5, E6. unfold b in E1, E2, E3, E4, E5, E6. cbn [a_cl a_cr a_cd a_ft a_th a_vl] in E1, E2, E3, E4, E5, E6.
    destruct u as [i q|i f th0 dl l r]; cbn [spk_shown nid shows] in *.
    - destruct H2 as [G1 [G2 G3]]. rewrite E1, E2, E6, G1, G2, G3. unfold a0. cbn. split; [lia|]. split; [lia|reflexivity].
    - destruct H2 as [F1 [F2 [F3 F4]]]. subst dl. rewrite E1, E2, E3, E4, E5. auto. }
  rewrite L0, spk_nodes_size. split; [reflexivity|]. split; [|split].
  - intros x miss Hm. destruct (npredict t x miss (spk_nt scaling 0 v) (spk_nt_id scaling 0 v) Hshow) as [q [Q1 Q2]].
    + rewrite spk_nt_ids. apply seq_NoDup.
    + rewrite L0. exact Hlt.
    + exists q. split; [exact Q1|]. rewrite Q2. now apply spk_nt_follow.
  - intros i u Hu. exact (H3 i u Hu).
  - intros d Hf. apply (nwf _ d (spk_nt scaling 0 v)); auto.
    + apply spk_nt_id.
    + rewrite spk_nt_ids, L0. reflexivity.
    + apply spk_nt_ordered.
    + now apply spk_nt_features.
Qed.

(** ** CatBoost *)

Section Heap.
Variable g : nat -> Q.
(** heap of the splits [l] (root first), rooted at [i] *)
Fixpoint cb_nt (l : list (nat * Q)) (i : nat) : ntree :=
  match l with
  | [] => NLeaf i (g i)
  | (f, b) :: r => NNode i f b true (cb_nt r (2 * i + 1)) (cb_nt r (2 * i + 2))
  end.
Lemma cb_nt_id l i : nid (cb_nt l i) = i.
Proof using. now destruct l as [|[f b] l]. Qed.
Lemma cb_nt_size l : forall i, length (nsub (cb_nt l i)) + 1 = 2 ^ (length l + 1).
Proof using.
  induction l as [|[f b] l IH]; intro i; [reflexivity|]. cbn [cb_nt nsub length Nat.add]. rewrite app_length.
  rewrite Nat.pow_succ_r'. pose proof (IH (2 * i + 1)). pose proof (IH (2 * i + 2)). lia.
Qed.
(** vertices below [i] *)
Lemma cb_nt_where l : forall i u, In u (nsub (cb_nt l i)) ->
  exists m, m <= length l /\ (i + 1) * 2 ^ m <= nid u + 1 < (i + 2) * 2 ^ m.
Proof using.
  induction l as [|[f b] l IH]; intros i u Hu; cbn [cb_nt nsub] in Hu.
  - destruct Hu as [<-|[]]. exists 0. cbn. lia.
  - destruct Hu as [<-|Hu]; [exists 0; cbn; lia|]. apply in_app_iff in Hu. cbn [length].
    destruct Hu as [Hu|Hu]; destruct (IH _ _ Hu) as [m [Hm H]]; exists (S m); rewrite Nat.pow_succ_r'; (split; [lia|]); nia.
Qed.
Lemma cb_nt_nodup l : forall i, NoDup (map nid (nsub (cb_nt l i))).
Proof using.
  induction l as [|[f b] l IH]; intro i; cbn [cb_nt nsub map nid]; [repeat constructor; intros []|].
  constructor.
  - rewrite in_map_iff. intros [u [E Hu]]. apply in_app_iff in Hu.
    destruct Hu as [Hu|Hu]; destruct (cb_nt_where _ _ _ Hu) as [m [Hm H]]; pose proof (Nat.pow_nonzero 2 m ltac:(lia)); nia.
  - rewrite map_app.
    assert (D : forall x, In x (map nid (nsub (cb_nt l (2 * i + 1)))) -> In x (map nid (nsub (cb_nt l (2 * i + 2)))) -> False).
    { intros x H1 H2. apply in_map_iff in H1, H2. destruct H1 as [u [<- Hu]], H2 as [w [E Hw]].
      destruct (cb_nt_where _ _ _ Hu) as [m [_ H]], (cb_nt_where _ _ _ Hw) as [m' [_ H']]. rewrite E in H'.
      destruct (Nat.lt_trichotomy m m') as [K|[K|K]].
      - assert (2 ^ m <= 2 ^ m') by (apply Nat.pow_le_mono_r; lia). nia.
      - subst. lia.
      - assert (2 * 2 ^ m' <= 2 ^ m) by (rewrite <- Nat.pow_succ_r'; apply Nat.pow_le_mono_r; lia). nia. }
    pose proof (IH (2 * i + 1)) as N1. pose proof (IH (2 * i + 2)) as N2. revert N1 N2 D.
    generalize (map nid (nsub (cb_nt l (2 * i + 1)))) (map nid (nsub (cb_nt l (2 * i + 2)))). clear.
    induction l as [|a l IH]; intros l2 N1 N2 D; [exact N2|]. inversion N1; subst. cbn. constructor.
    + rewrite in_app_iff. intros [K|K]; [tauto|]. exact (D a (or_introl eq_refl) K).
    + apply IH; trivial. intros x Hx. apply D. now right.
Qed.
Lemma cb_nt_perm l : Permutation (map nid (nsub (cb_nt l 0))) (seq 0 (2 ^ (length l + 1) - 1)).
Proof using.
  pose proof (cb_nt_size l 0) as Hs. apply NoDup_Permutation_bis.
  - apply cb_nt_nodup.
  - rewrite seq_length, map_length. lia.
  - intros x Hx. apply in_map_iff in Hx. destruct Hx as [u [<- Hu]]. apply in_seq.
    destruct (cb_nt_where _ _ _ Hu) as [m [Hm H]]. assert (2 ^ m <= 2 ^ length l) by (apply Nat.pow_le_mono_r; lia).
    rewrite Nat.add_1_r, Nat.pow_succ_r' in *. lia.
Qed.
Lemma cb_nt_ordered l : forall i, nordered (cb_nt l i).
Proof using.
  induction l as [|[f b] l IH]; intro i; [exact I|]. cbn [cb_nt nordered]. rewrite !cb_nt_id. split; [lia|]. split; [lia|]. auto.
Qed.
Lemma cb_nt_features d l : (forall p, In p l -> fst p < d) -> forall i, nfeatures d (cb_nt l i).
Proof using.
  induction l as [|[f b] l IH]; intros H i; [exact I|]. cbn [cb_nt nfeatures]. split; [apply (H (f, b)); now left|].
  split; apply IH; intros; apply H; now right.
Qed.
(** the position reached: bits from the root, highest first *)
Fixpoint bits (acc : nat) (l : list bool) : nat := match l with [] => acc | a :: r => bits (2 * acc + (if a then 1 else 0)) r end.
Lemma cb_nt_follow x miss l : (forall f, miss f = false) -> forall c j,
  nfollow (cb_nt l (2 ^ c - 1 + j)) x miss =
  g (2 ^ (c + length l) - 1 + bits j (map (fun p => qltb (snd p) (x (fst p))) l)).
Proof using.
  intros Hm. induction l as [|[f b] l IH]; intros c j; [cbn; now rewrite Nat.add_0_r|].
  cbn [cb_nt nfollow length map bits fst snd]. rewrite Hm.
  assert (P : 2 ^ c <> 0) by (apply Nat.pow_nonzero; lia).
  replace (c + S (length l)) with (S c + length l) by lia.
  destruct (qleb_spec (x f) b) as [A|A], (qltb_spec b (x f)) as [B|B]; try (exfalso; lra).
  - rewrite <- IH. f_equal. f_equal. rewrite Nat.pow_succ_r'. lia.
  - rewrite <- IH. f_equal. f_equal. rewrite Nat.pow_succ_r'. lia.
Qed.
End Heap.

Lemma bits_snoc acc l a : bits acc (l ++ [a]) = 2 * bits acc l + (if a then 1 else 0).
Proof. revert acc. induction l as [|b l IH]; intro acc; [reflexivity|]. cbn [app bits]. now rewrite IH. Qed.
Lemma bits_rev l : bits 0 (rev l) = cb_leaf l.
Proof. induction l as [|a l IH]; [reflexivity|]. cbn [rev cb_leaf]. rewrite bits_snoc, IH. lia. Qed.
Lemma cb_leaf_lt l : cb_leaf l < 2 ^ length l.
Proof. induction l as [|a l IH]; cbn [cb_leaf length]; [cbn; lia|]. rewrite Nat.pow_succ_r'. destruct a; lia. Qed.

Lemma unravel_len {A} (l : list A) : forall c, length (unravel c l) + 2 ^ c = 2 ^ (c + length l).
Proof.
  induction l as [|a l IH]; intro c; cbn [unravel length]; [now rewrite Nat.add_0_r|].
  rewrite app_length, repeat_length. replace (c + S (length l)) with (S c + length l) by lia. rewrite <- IH.
  rewrite Nat.pow_succ_r'. lia.
Qed.
Lemma nth_repeat_lt {A} (a x : A) n : forall i, i < n -> nth i (repeat a n) x = a.
Proof. induction n as [|n IH]; intros i H; [lia|]. destruct i; cbn; [reflexivity|]. apply IH. lia. Qed.
Lemma unravel_nth {A} (l : list A) x : forall c c' j, c' < length l -> j < 2 ^ (c + c') ->
  nth (2 ^ (c + c') - 2 ^ c + j) (unravel c l) x = nth c' l x.
Proof.
  induction l as [|a l IH]; intros c c' j Hc Hj; [cbn in Hc; lia|]. cbn [unravel].
  destruct c' as [|c'].
  - rewrite Nat.add_0_r in *. rewrite app_nth1 by (rewrite repeat_length; lia). cbn. apply nth_repeat_lt. lia.
  - assert (P : 2 ^ c <> 0) by (apply Nat.pow_nonzero; lia).
    replace (c + S c') with (S c + c') in * by lia. pose proof (Nat.pow_le_mono_r 2 (S c) (S c + c') ltac:(lia) ltac:(lia)) as G.
    rewrite Nat.pow_succ_r' in G.
    rewrite app_nth2; rewrite repeat_length; [|lia].
    replace (2 ^ (S c + c') - 2 ^ c + j - 2 ^ c) with (2 ^ (S c + c') - 2 ^ S c + j) by (rewrite (Nat.pow_succ_r' 2 c); lia).
    cbn in Hc. rewrite IH by (try assumption; lia). reflexivity.
Qed.

Section Cb.
Variables (splits : list cbsplit) (values weights : list Q).
Hypothesis Hv : length values = 2 ^ length splits.
Let D := length splits.
Let t := fst (load_cb splits values weights).
Let g := fun i => nth i (vl t) 0%Q.
Let l := rev (map (fun s => (cb_feature s, cb_border s)) splits).

Lemma cb_D : length l = D.
Proof using. unfold l, D. now rewrite rev_length, map_length. Qed.
Lemma cb_nn : nn t = 2 ^ (D + 1) - 1.
Proof using Hv.
  clear -Hv. unfold t, nn, load_cb. cbn [fst cl]. rewrite app_length, map_length, seq_length, repeat_length, Hv. fold D.
  rewrite Nat.add_1_r, Nat.pow_succ_r'. pose proof (Nat.pow_nonzero 2 D ltac:(lia)). lia.
Qed.
Lemma cb_lens : length (cr t) = nn t /\ length (cd t) = nn t /\ length (ft t) = nn t /\ length (th t) = nn t /\ length (vl t) = nn t.
Proof using Hv.
  rewrite cb_nn. unfold t, load_cb. cbn [fst cr cd ft th vl]. rewrite map_length, !app_length, !map_length, !seq_length, !repeat_length.
  pose proof (unravel_len (rev (map (fun s => Z.of_nat (cb_feature s)) splits)) 0) as U1.
  pose proof (unravel_len (rev (map cb_border splits)) 0) as U2. rewrite rev_length, map_length in U1, U2. fold D in U1, U2.
  cbn [Nat.pow Nat.add] in U1, U2. rewrite Hv. fold D.
  rewrite Nat.add_1_r, Nat.pow_succ_r'. pose proof (Nat.pow_nonzero 2 D ltac:(lia)). lia.
Qed.
Lemma cb_inner c j : c < D -> j < 2 ^ c -> let i := 2 ^ c - 1 + j in
  clz t i = Z.of_nat (2 * i + 1) /\ crz t i = Z.of_nat (2 * i + 2) /\ cdz t i = Z.of_nat (2 * i + 1) /\
  nth i (ft t) (-1)%Z = Z.of_nat (fst (nth c l (0, 0%Q))) /\ thq t i = snd (nth c l (0, 0%Q)).
Proof using Hv.
  intros Hc Hj i.
  assert (Hi : i < 2 ^ D - 1).
  { unfold i. pose proof (Nat.pow_le_mono_r 2 (S c) D ltac:(lia) ltac:(lia)) as G. rewrite Nat.pow_succ_r' in G. lia. }
  pose proof (Nat.pow_nonzero 2 c ltac:(lia)) as P.
  unfold clz, crz, cdz, thq, t, load_cb. cbn [fst cl cr cd ft th]. rewrite Hv. fold D.
  assert (K : forall s (f : nat -> Z) r, nth i (map f (seq s (2 ^ D - 1)) ++ r) (-1)%Z = f (s + i)).
  { intros s f r. rewrite app_nth1 by (rewrite map_length, seq_length; lia).
    rewrite (nth_indep _ (-1)%Z (f 0)) by (rewrite map_length, seq_length; lia). rewrite map_nth, seq_nth by lia. reflexivity. }
  rewrite !K. repeat split; [f_equal; lia|f_equal; lia|f_equal; lia| |].
  - pose proof (unravel_len (rev (map (fun s => Z.of_nat (cb_feature s)) splits)) 0) as U. rewrite rev_length, map_length in U. fold D in U. cbn [Nat.pow Nat.add] in U.
    rewrite app_nth1 by lia.
    pose proof (unravel_nth (rev (map (fun s => Z.of_nat (cb_feature s)) splits)) (-1)%Z 0 c j) as UN. cbn [Nat.add] in UN.
    change (2 ^ 0) with 1 in UN. fold i in UN. rewrite UN; [|rewrite rev_length, map_length; exact Hc|exact Hj].
    unfold l. rewrite <- map_rev. rewrite <- map_rev.
    rewrite (nth_indep _ (-1)%Z (Z.of_nat (cb_feature (FloatFeature 0 0)))) by (rewrite map_length, rev_length; exact Hc).
    rewrite (map_nth (fun s => Z.of_nat (cb_feature s))).
    now rewrite (map_nth (fun s => (cb_feature s, cb_border s)) (rev splits) (FloatFeature 0 0) c : nth c _ (0, 0%Q) = _).
  - pose proof (unravel_len (rev (map cb_border splits)) 0) as U. rewrite rev_length, map_length in U. fold D in U. cbn [Nat.pow Nat.add] in U.
    rewrite app_nth1 by lia.
    pose proof (unravel_nth (rev (map cb_border splits)) 0%Q 0 c j) as UN. cbn [Nat.add] in UN.
    change (2 ^ 0) with 1 in UN. fold i in UN. rewrite UN; [|rewrite rev_length, map_length; exact Hc|exact Hj].
    unfold l. rewrite <- map_rev. rewrite <- map_rev.
    rewrite (nth_indep _ 0%Q (cb_border (FloatFeature 0 0))) by (rewrite map_length, rev_length; exact Hc).
    rewrite (map_nth cb_border).
    now rewrite (map_nth (fun s => (cb_feature s, cb_border s)) (rev splits) (FloatFeature 0 0) c : nth c _ (0, 0%Q) = _).
Qed.
Lemma cb_outer j : j < 2 ^ D -> let i := 2 ^ D - 1 + j in (clz t i < 0)%Z /\ (crz t i < 0)%Z /\ (g i == nth j values 0)%Q.
Proof using Hv.
  intros Hj i. unfold clz, crz, g, t, load_cb. cbn [fst cl cr vl]. rewrite Hv. fold D.
  assert (K : forall (a : list Z), length a = 2 ^ D - 1 -> nth i (a ++ repeat (-1)%Z (2 ^ D)) (-1)%Z = (-1)%Z).
  { intros a Ha. rewrite app_nth2 by (unfold i; lia). apply nth_repeat_lt. unfold i. lia. }
  rewrite !K by (rewrite map_length, seq_length; reflexivity). split; [lia|]. split; [lia|].
  change 0%Q with ((fun v => v * 1)%Q 0%Q) at 2. 
  rewrite (nth_indep _ 0%Q ((fun v => v * 1)%Q 0%Q)) by (rewrite map_length, app_length, repeat_length, Hv; fold D; unfold i; lia).
  rewrite (map_nth (fun v => v * 1)%Q). rewrite app_nth2 by (rewrite repeat_length; unfold i; lia). rewrite repeat_length.
  replace (i - (2 ^ D - 1)) with j by (unfold i; lia). field.
Qed.
Lemma cb_shows : forall r c j, (forall k, k < length r -> nth (c + k) l (0, 0%Q) = nth k r (0, 0%Q)) -> c + length r = D -> j < 2 ^ c ->
  forall u, In u (nsub (cb_nt g r (2 ^ c - 1 + j))) -> shows t u.
Proof using Hv.
  induction r as [|[f b] r IH]; intros c j Hr Hc Hj u Hu; cbn [cb_nt nsub] in Hu.
  - destruct Hu as [<-|[]]. cbn [length] in Hc. rewrite Nat.add_0_r in Hc. subst c. destruct (cb_outer j Hj) as [O1 [O2 _]].
    cbn [shows]. split; [exact O1|]. split; [exact O2|]. unfold vlq, g. reflexivity.
  - cbn [length] in Hc. destruct Hu as [<-|Hu].
    + cbn [shows]. rewrite !cb_nt_id. destruct (cb_inner c j ltac:(lia) Hj) as [I1 [I2 [I3 [I4 I5]]]].
      specialize (Hr 0 ltac:(cbn; lia)). rewrite Nat.add_0_r in Hr. rewrite Hr in I4, I5. repeat split; trivial.
    + pose proof (Nat.pow_nonzero 2 c ltac:(lia)) as P.
      assert (E1 : 2 * (2 ^ c - 1 + j) + 1 = 2 ^ S c - 1 + 2 * j) by (rewrite Nat.pow_succ_r'; lia).
      assert (E2 : 2 * (2 ^ c - 1 + j) + 2 = 2 ^ S c - 1 + (2 * j + 1)) by (rewrite Nat.pow_succ_r'; lia).
      rewrite E1, E2 in Hu.
      assert (Hr' : forall k, k < length r -> nth (S c + k) l (0, 0%Q) = nth k r (0, 0%Q)).
      { intros k Hk. specialize (Hr (S k) ltac:(cbn; lia)). rewrite Nat.add_succ_r in Hr. exact Hr. }
      apply in_app_iff in Hu. destruct Hu as [Hu|Hu];
        eapply IH; try exact Hu; trivial; try lia; rewrite Nat.pow_succ_r'; lia.
Qed.
Lemma cb_all_show u : In u (nsub (cb_nt g l 0)) -> shows t u.
Proof using Hv. intro Hu. apply (cb_shows l 0 0); [intros; reflexivity|apply cb_D|cbn; lia|exact Hu]. Qed.

Lemma cb_predict x miss : (forall f, miss f = false) -> (forall s, In s splits -> is_float s) ->
  exists q, predict_value t x miss = Some q /\ (q == nth (cb_leaf (map (cb_answer x) splits)) values 0)%Q.
Proof using Hv.
  intros Hm Hfl. destruct (npredict t x miss (cb_nt g l 0)) as [q [Q1 Q2]].
  - apply cb_nt_id.
  - exact cb_all_show.
  - apply cb_nt_nodup.
  - intros u Hu. rewrite cb_nn. assert (HI : In (nid u) (seq 0 (2 ^ (length l + 1) - 1))).
    { apply (Permutation_in _ (cb_nt_perm g l)). now apply in_map. }
    rewrite cb_D in HI. apply in_seq in HI. lia.
  - exists q. split; [exact Q1|]. rewrite Q2.
    pose proof (cb_nt_follow g x miss l Hm 0 0) as F. cbn [Nat.pow Nat.sub Nat.add] in F. rewrite F. clear F.
    rewrite cb_D. unfold l. rewrite map_rev, map_map. cbn [fst snd]. rewrite bits_rev.
    assert (E : map (fun s => qltb (cb_border s) (x (cb_feature s))) splits = map (cb_answer x) splits).
    { apply map_ext_in. intros s Hs. specialize (Hfl s Hs). destruct s; [reflexivity|destruct Hfl|destruct Hfl]. }
    rewrite E. pose proof (cb_leaf_lt (map (cb_answer x) splits)) as Lt. rewrite map_length in Lt. fold D in Lt.
    exact (proj2 (proj2 (cb_outer _ Lt))).
Qed.
Lemma cb_wf d : (forall s, In s splits -> cb_feature s < d) -> wf_tree t d = true.
Proof using Hv.
  intro Hf. destruct cb_lens as [L1 [L2 [L3 [L4 L5]]]]. apply (nwf t d (cb_nt g l 0)); trivial.
  - exact cb_all_show.
  - apply cb_nt_id.
  - rewrite cb_nn, <- cb_D. apply cb_nt_perm.
  - apply cb_nt_ordered.
  - apply cb_nt_features. intros p Hp. unfold l in Hp. apply in_rev in Hp. apply in_map_iff in Hp. destruct Hp as [s [<- Hs]]. cbn. auto.
Qed.
End Cb.

(** weights of the inner nodes *)
Lemma block_split w lo a b : (block w lo (a + b) == block w lo a + block w (lo + a) b)%Q.
Proof. unfold block. rewrite seq_app. now rewrite sumf_app. Qed.
Section CbW.
Variables (w : list Q) (D : nat).
Hypothesis Hw : length w = 2 ^ D.
Definition cb_right (l : nat -> Q) (i : nat) : Prop :=
  forall c m j, c + m = D -> j < 2 ^ c -> i = 2 ^ c - 1 + j -> (l i == block w (j * 2 ^ m) (2 ^ m))%Q.
Lemma cb_right_step l i : 0 < i -> i < 2 ^ D - 1 -> cb_right l (2 * i + 1) -> cb_right l (2 * i + 2) ->
  cb_right (upd l i (Qplus (l (2 * i + 1)) (l (2 * i + 2)))) i.
Proof using.
  clear Hw.
  intros H0 Hi H1 H2 c m j Hc Hj E. rewrite upd_same. pose proof (Nat.pow_nonzero 2 c ltac:(lia)) as P.
  destruct m as [|m]; [rewrite Nat.add_0_r in Hc; subst c; lia|].
  rewrite (H1 (S c) m (2 * j)); [|lia|rewrite Nat.pow_succ_r'; lia|rewrite Nat.pow_succ_r'; lia].
  rewrite (H2 (S c) m (2 * j + 1)); [|lia|rewrite Nat.pow_succ_r'; lia|rewrite Nat.pow_succ_r'; lia].
  rewrite (Nat.pow_succ_r' 2 m). replace (2 * 2 ^ m) with (2 ^ m + 2 ^ m) by lia. rewrite block_split.
  replace (j * (2 ^ m + 2 ^ m)) with (2 * j * 2 ^ m) by lia. replace (2 * j * 2 ^ m + 2 ^ m) with ((2 * j + 1) * 2 ^ m) by lia. reflexivity.
Qed.
Lemma cb_weights_ok : forall k l, (k = 0 \/ k < 2 ^ D - 1) -> (forall i, i = 0 \/ k < i -> cb_right l i) ->
  forall i, cb_right (cb_weights k l) i.
Proof using.
  clear Hw.
  induction k as [|k IH]; intros l Hk H i.
  - cbn. apply H. lia.
  - cbn [cb_weights]. apply IH; [lia|]. intros i' Hi'. destruct (Nat.eq_dec i' (S k)) as [->|Hne].
    + apply cb_right_step; [lia|lia|apply H; lia|apply H; lia].
    + assert (K : cb_right l i') by (apply H; lia). intros c m j Hc Hj E. rewrite upd_other by exact Hne. exact (K c m j Hc Hj E).
Qed.
Lemma cb_weight_ok c m j : c + m = D -> j < 2 ^ c -> (cb_weight w (2 ^ c - 1 + j) == block w (j * 2 ^ m) (2 ^ m))%Q.
Proof using Hw.
  intros Hc Hj. unfold cb_weight. rewrite Hw. eapply cb_weights_ok; [| |exact Hc|exact Hj|reflexivity].
  - pose proof (Nat.pow_nonzero 2 D ltac:(lia)). lia.
  - clear c m j Hc Hj. intros i Hi c m j Hc Hj E. pose proof (Nat.pow_nonzero 2 c ltac:(lia)) as P.
    destruct Hi as [->|Hi].
    + rewrite upd_same. assert (c = 0).
      { destruct c as [|c]; [reflexivity|]. rewrite Nat.pow_succ_r' in E. pose proof (Nat.pow_nonzero 2 c ltac:(lia)). lia. }
      subst c. cbn in Hj. assert (j = 0) by lia. subst j. cbn in Hc. subst m. cbn [Nat.mul]. unfold block.
      rewrite <- Hw. clear. induction w as [|a l IH]; [reflexivity|]. cbn [length seq sumf]. rewrite <- seq_shift.
      rewrite sumf_map. cbn [nth]. now rewrite IH.
    + assert (c = D).
      { destruct (Nat.eq_dec c D) as [e|e]; [exact e|]. pose proof (Nat.pow_le_mono_r 2 (S c) D ltac:(lia) ltac:(lia)) as G.
        rewrite Nat.pow_succ_r' in G. lia. }
      subst c. assert (m = 0) by lia. subst m. rewrite upd_other by lia. rewrite app_nth2 by (rewrite repeat_length; lia).
      rewrite repeat_length. unfold block. cbn [Nat.pow seq sumf]. rewrite Nat.mul_1_r.
      replace (i - (2 ^ D - 1)) with j by lia. lra.
Qed.
End CbW.

Theorem load_cb_ok splits values weights : length values = 2 ^ length splits -> length weights = 2 ^ length splits ->
  let (t, w) := load_cb splits values weights in
  nn t = 2 ^ (length splits + 1) - 1 /\
  ((forall s, In s splits -> is_float s) -> forall x miss, (forall f, miss f = false) ->
     exists q, predict_value t x miss = Some q /\ (q == nth (cb_leaf (map (cb_answer x) splits)) values 0)%Q) /\
  (forall c m j, c + m = length splits -> j < 2 ^ c -> (w (2 ^ c - 1 + j)%nat == block weights (j * 2 ^ m) (2 ^ m))%Q) /\
  (forall d, (forall s, In s splits -> cb_feature s < d) -> wf_tree t d = true).
Proof.
  intros Hv Hw. unfold load_cb. cbn zeta. split; [exact (cb_nn splits values weights Hv)|]. split; [|split].
  - intros Hf x miss Hm. exact (cb_predict splits values weights Hv x miss Hm Hf).
  - exact (cb_weight_ok weights (length splits) Hw).
  - exact (cb_wf splits values weights Hv).
Qed.

(** ** The statements of PropertiesLoad.v *)

Lemma lgb_loads n junk scaling v : lgb_ok n v ->
  exists t w, load_lgb n junk scaling v = Some (t, w) /\ nn t = 2 * n - 1.
Proof. intro H. destruct (load_lgb_ok n junk scaling v H) as [t [w [E [N _]]]]. eauto. Qed.
Lemma lgb_facts n junk scaling v t w : lgb_ok n v -> load_lgb n junk scaling v = Some (t, w) ->
  (forall x miss, exists q, predict_value t x miss = Some q /\ (q == lgb_follow v x miss * scaling)%Q) /\
  ((forall i q c, In (LLeaf i q c) (lgb_sub v) -> w (i + (n - 1)) = c) /\
  (forall i f t0 dl q c l r, In (LNode i f t0 dl q c l r) (lgb_sub v) -> w i = c)) /\
  (lgb_ordered v -> forall d, lgb_features d v -> wf_tree t d = true).
Proof.
  intros H E. destruct (load_lgb_ok n junk scaling v H) as [t' [w' [E' [_ [A [B [C D]]]]]]].
  rewrite E in E'. inversion E'; subst. tauto.
Qed.
Lemma lgb_predicts n junk scaling v t w : lgb_ok n v -> load_lgb n junk scaling v = Some (t, w) ->
  forall x miss, exists q, predict_value t x miss = Some q /\ (q == lgb_follow v x miss * scaling)%Q.
Proof. intros H E. exact (proj1 (lgb_facts n junk scaling v t w H E)). Qed.
Lemma lgb_weights n junk scaling v t w : lgb_ok n v -> load_lgb n junk scaling v = Some (t, w) ->
  (forall i q c, In (LLeaf i q c) (lgb_sub v) -> w (i + (n - 1)) = c) /\
  (forall i f t0 dl q c l r, In (LNode i f t0 dl q c l r) (lgb_sub v) -> w i = c).
Proof. intros H E. exact (proj1 (proj2 (lgb_facts n junk scaling v t w H E))). Qed.
Lemma lgb_well_formed n junk scaling v t w d : lgb_ok n v -> load_lgb n junk scaling v = Some (t, w) ->
  lgb_ordered v -> lgb_features d v -> wf_tree t d = true.
Proof. intros H E O F. exact (proj2 (proj2 (lgb_facts n junk scaling v t w H E)) O d F). Qed.

Lemma xjs_computes junk scaling v x miss : xjs_ok v ->
  exists q, predict_value (fst (load_xjs junk scaling v)) x miss = Some q /\ (q == xjs_follow qleb v x miss * scaling)%Q.
Proof.
  intro H. pose proof (load_xjs_ok junk scaling v H) as K. destruct (load_xjs junk scaling v) as [t w]. exact (proj1 K x miss).
Qed.
Lemma xjs_predicts junk scaling v x miss : xjs_ok v -> xjs_off v x ->
  exists q, predict_value (fst (load_xjs junk scaling v)) x miss = Some q /\ (q == xjs_follow qltb v x miss * scaling)%Q.
Proof. intros H O. rewrite (xjs_off_follow v x miss O). now apply xjs_computes. Qed.
Lemma xjs_weights junk scaling v u : xjs_ok v -> In u (xjs_sub v) ->
  snd (load_xjs junk scaling v) (xjs_id u) = match u with XLeaf _ _ c => c | XNode _ _ _ _ _ _ c _ _ => c end.
Proof.
  intros H. pose proof (load_xjs_ok junk scaling v H) as K. destruct (load_xjs junk scaling v) as [t w]. exact (proj1 (proj2 K) u).
Qed.
Lemma xjs_well_formed junk scaling v d : xjs_ok v ->
  Permutation (map xjs_id (xjs_sub v)) (seq 0 (length (xjs_sub v))) -> xjs_ordered v -> xjs_features d v ->
  nn (fst (load_xjs junk scaling v)) = length (xjs_sub v) /\ wf_tree (fst (load_xjs junk scaling v)) d = true.
Proof.
  intros H P O F. pose proof (load_xjs_ok junk scaling v H) as K. destruct (load_xjs junk scaling v) as [t w].
  exact (proj2 (proj2 K) P O d F).
Qed.
Lemma xjs_tie : exists junk scaling v x miss, xjs_ok v /\
  exists q, predict_value (fst (load_xjs junk scaling v)) x miss = Some q /\ ~ (q == xjs_follow qltb v x miss * scaling)%Q.
Proof.
  exists (fun _ => 0%Q), 1%Q, (XNode 0 0 (1#2) 1 2 1 10 (XLeaf 1 3 4) (XLeaf 2 7 6)), (fun _ => (1#2)%Q), (fun _ => false).
  split.
  - split; [|cbn; intuition]. cbn. repeat constructor; cbn; lia.
  - eexists. split; [reflexivity|]. vm_compute. discriminate.
Qed.

Lemma spk_predicts scaling v x miss : (forall f, miss f = false) ->
  exists q, predict_value (fst (load_spk scaling v)) x miss = Some q /\ (q == spk_follow v x * scaling)%Q.
Proof.
  pose proof (load_spk_ok scaling v) as K. destruct (load_spk scaling v) as [t w]. exact (proj1 (proj2 K) x miss).
Qed.
Lemma spk_weights scaling v : nn (fst (load_spk scaling v)) = length (spk_nodes v) /\
  forall i u, nth_error (spk_nodes v) i = Some u -> snd (load_spk scaling v) i = spk_count u.
Proof. pose proof (load_spk_ok scaling v) as K. destruct (load_spk scaling v) as [t w]. cbn [fst snd]. tauto. Qed.
Lemma spk_well_formed scaling v d : spk_features d v -> wf_tree (fst (load_spk scaling v)) d = true.
Proof.
  pose proof (load_spk_ok scaling v) as K. destruct (load_spk scaling v) as [t w]. exact (proj2 (proj2 (proj2 K)) d).
Qed.

Lemma cb_leaf_reached splits values weights x miss :
  length values = 2 ^ length splits -> (forall s, In s splits -> is_float s) -> (forall f, miss f = false) ->
  exists q, predict_value (fst (load_cb splits values weights)) x miss = Some q /\
            (q == nth (cb_leaf (map (cb_answer x) splits)) values 0)%Q.
Proof. intros Hv Hf Hm. exact (cb_predict splits values weights Hv x miss Hm Hf). Qed.
Lemma cb_weights_of_nodes splits values weights c m j : length weights = 2 ^ length splits ->
  c + m = length splits -> j < 2 ^ c ->
  (snd (load_cb splits values weights) (2 ^ c - 1 + j)%nat == block weights (j * 2 ^ m) (2 ^ m))%Q.
Proof. intro Hw. exact (cb_weight_ok weights (length splits) Hw c m j). Qed.
Lemma cb_well_formed splits values weights d : length values = 2 ^ length splits ->
  (forall s, In s splits -> cb_feature s < d) ->
  nn (fst (load_cb splits values weights)) = 2 ^ (length splits + 1) - 1 /\
  wf_tree (fst (load_cb splits values weights)) d = true.
Proof. intros Hv Hf. split; [exact (cb_nn splits values weights Hv)|exact (cb_wf splits values weights Hv d Hf)]. Qed.
Lemma cb_category : exists splits values weights x miss,
  length values = 2 ^ length splits /\ length weights = 2 ^ length splits /\ (forall f, miss f = false) /\
  exists q, predict_value (fst (load_cb splits values weights)) x miss = Some q /\
            ~ (q == nth (cb_leaf (map (cb_answer x) splits)) values 0)%Q.
Proof.
  exists [OneHotFeature 0 2], [5%Q; 6%Q], [1%Q; 1%Q], (fun _ => 2%Q), (fun _ => false).
  repeat (split; [reflexivity|]). eexists. split; [reflexivity|]. vm_compute. discriminate.
Qed.

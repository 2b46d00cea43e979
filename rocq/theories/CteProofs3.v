(** Lemmas about the estimators made from boxes: the interventional and the exact ones. *)
From Verif Require Import Base TreeModel TreeSpec TreeProofs ShapModel SdpModel RulesModel RulesModelProofs PartModel PartSpec PartProofs
  RebModel RebProofs MvnModel GmmModel McModel SwingModel PermModel CteModel CteSpec CteProofs CteProofs2.
Local Open Scope nat_scope.

(** ** Bounds *)
Lemma ext_eq_lo a b : (forall v, ext_ltb_q a v = ext_ltb_q b v) -> ext_eq a b.
Proof.
  intro H. destruct a as [|p|], b as [|q|]; cbn in *; trivial.
  - specialize (H q). destruct (qltb_spec q q); [lra|discriminate].
  - specialize (H 0%Q). discriminate.
  - specialize (H p). destruct (qltb_spec p p); [lra|discriminate].
  - destruct (Qlt_le_dec p q) as [C|C].
    + specialize (H q). destruct (qltb_spec p q); [|lra]. destruct (qltb_spec q q); [lra|discriminate].
    + destruct (Qlt_le_dec q p) as [C'|C']; [|lra]. specialize (H p). destruct (qltb_spec q p); [|lra]. destruct (qltb_spec p p); [lra|discriminate].
  - specialize (H (p + 1)%Q). destruct (qltb_spec p (p + 1)); [discriminate|lra].
  - specialize (H 0%Q). discriminate.
  - specialize (H (q + 1)%Q). destruct (qltb_spec q (q + 1)); [discriminate|lra].
Qed.
Lemma ext_eq_hi a b : (forall v, q_leb_ext v a = q_leb_ext v b) -> ext_eq a b.
Proof.
  intro H. destruct a as [|p|], b as [|q|]; cbn in *; trivial.
  - specialize (H q). destruct (qleb_spec q q); [discriminate|lra].
  - specialize (H 0%Q). discriminate.
  - specialize (H p). destruct (qleb_spec p p); [discriminate|lra].
  - pose proof (H p) as H1. pose proof (H q) as H2. destruct (qleb_spec p p); [|lra]. destruct (qleb_spec q q); [|lra].
    destruct (qleb_spec p q); [|discriminate]. destruct (qleb_spec q p); [lra|discriminate].
  - specialize (H (p + 1)%Q). destruct (qleb_spec (p + 1) p); [lra|discriminate].
  - specialize (H 0%Q). discriminate.
  - specialize (H (q + 1)%Q). destruct (qleb_spec (q + 1) q); [lra|discriminate].
Qed.
Definition sides_eq (p q : rect) : Prop := forall s, ext_eq (fst (p s)) (fst (q s)) /\ ext_eq (snd (p s)) (snd (q s)).
Lemma in_sides_eq p q F z : sides_eq p q -> in_sides p F z = in_sides q F z.
Proof.
  intro H. apply forallb_ext_in. intros s _. destruct (H s) as [H1 H2]. f_equal.
  - destruct (snd (p s)), (snd (q s)); cbn in *; try contradiction; trivial. apply eq_true_iff_eq. rewrite !qleb_true, H2. reflexivity.
  - destruct (fst (p s)), (fst (q s)); cbn in *; try contradiction; trivial. apply eq_true_iff_eq. rewrite !qleb_true, H1. reflexivity.
Qed.
Lemma section_eq data p q F : sides_eq p q -> section data F p = section data F q.
Proof. intro H. unfold section. destruct F; [reflexivity|]. f_equal. apply filter_ext_in'. intros z _. now apply in_sides_eq. Qed.

Section Boxes.
Variables (t : tree) (d : nat).
Hypothesis Hwf : wf_tree t d = true.
Hypothesis Hsk : sk_tree t.

Lemma boxes_reb f : forall i part, boxes t f i part = get_partition_tree f t i part.
Proof. induction f as [|f IH]; intros i part; [reflexivity|]. cbn [boxes get_partition_tree]. destruct (where_eq (cr t) i); [destruct (where_eq (cl t) i); trivial|apply IH]. Qed.
Lemma reb_first f : forall i part q, (forall g, exists r, part g = (NInf, PInf) :: r) -> get_partition_tree f t i part = Some q -> forall g, exists r, q g = (NInf, PInf) :: r.
Proof.
  induction f as [|f IH]; intros i part q H E; [discriminate|]. cbn [get_partition_tree] in E.
  assert (U : forall k a, forall g, exists r, upd part k (part k ++ [a]) g = (NInf, PInf) :: r).
  { intros k a g. unfold upd. destruct (Nat.eqb_spec g k) as [->|]; [|apply H]. destruct (H k) as [r ->]. cbn. eauto. }
  destruct (where_eq (cr t) i) as [|r rs]; [destruct (where_eq (cl t) i) as [|l ls]|].
  - injection E as <-. exact H.
  - apply (IH _ _ _ (U _ _) E).
  - apply (IH _ _ _ (U _ _) E).
Qed.
Lemma fold_final r : fold_itv ((NInf, PInf) :: r) = (fold_left ext_max (map fst r) NInf, fold_left ext_min (map snd r) PInf).
Proof.
  unfold fold_itv. cbn [fold_left fst snd ext_max ext_min]. f_equal.
  - generalize NInf. induction r as [|a r IH]; intro e; [reflexivity|]. cbn. apply IH.
  - generalize PInf. induction r as [|a r IH]; intro e; [reflexivity|]. cbn. apply IH.
Qed.
Lemma final_box_partition i p nid : get_partition (nn t) t i whole [] = Some (p, nid) -> exists q, final_box t i = Some q /\ forall s, q s = p s.
Proof.
  intro E. pose proof (partition_sim t (nn t) i parts0 whole [] ltac:(discriminate) ltac:(reflexivity)) as H. rewrite E in H.
  unfold final_box. rewrite boxes_reb. change (fun _ : nat => [(NInf, PInf)]) with parts0.
  destruct (get_partition_tree (nn t) t i parts0) as [q|] eqn:Eq; [|contradiction]. cbn [option_map]. eexists. split; [reflexivity|].
  intro s. rewrite <- H. destruct (reb_first _ _ _ _ (fun g => ex_intro _ [] eq_refl) Eq s) as [r Er]. unfold final_partition. rewrite Er. apply fold_final.
Qed.

Definition Inv (i : nat) (p : rect) : Prop := forall f P nid, i < f -> exists p' nid', get_partition f t i P nid = Some (p', nid') /\
  forall s v, ext_ltb_q (fst (p' s)) v = ext_ltb_q (fst (P s)) v && ext_ltb_q (fst (p s)) v /\
              q_leb_ext v (snd (p' s)) = q_leb_ext v (snd (P s)) && q_leb_ext v (snd (p s)).
Lemma inv_root : Inv 0 whole.
Proof.
  intros f P nid Hf. destruct f as [|f]; [lia|]. cbn [get_partition]. destruct (root_no_parent t d Hwf) as [-> ->]. eexists _, _. split; [reflexivity|].
  intros s v. cbn. now rewrite !andb_true_r.
Qed.
Lemma narrow_lo p k lo hi s v : ext_ltb_q (fst (narrow p k lo hi s)) v = ext_ltb_q (fst (p s)) v && (if s =? k then ext_ltb_q lo v else true).
Proof. unfold narrow, upd. destruct (Nat.eqb_spec s k) as [->|]; [cbn [fst]; apply ext_max_ltb|now rewrite andb_true_r]. Qed.
Lemma narrow_hi p k lo hi s v : q_leb_ext v (snd (narrow p k lo hi s)) = q_leb_ext v (snd (p s)) && (if s =? k then q_leb_ext v hi else true).
Proof. unfold narrow, upd. destruct (Nat.eqb_spec s k) as [->|]; [cbn [snd]; apply ext_min_leb|now rewrite andb_true_r]. Qed.
Lemma inv_left i p : i < nn t -> is_leaf t i = false -> Inv i p -> Inv (Z.to_nat (clz t i)) (narrow p (ftn t i) NInf (Fin (thq t i))).
Proof.
  intros Hi El H f P nid Hf. destruct (wf_internal t d Hwf i Hi El) as [A [B _]]. destruct f as [|f]; [lia|]. cbn [get_partition].
  assert (Hin : In i (where_eq (cl t) (Z.to_nat (clz t i)))) by (apply in_where_cl; lia).
  destruct (parent_cases t d Hwf (Z.to_nat (clz t i)) ltac:(lia)) as [[r [Er El']]|[l [Er El']]]; [rewrite El' in Hin; contradiction|].
  rewrite El' in Hin. destruct Hin as [->|[]]. rewrite Er, El'. cbv iota beta.
  destruct (H f (narrow P (ftn t i) NInf (Fin (thq t i))) (nid ++ [ftn t i]) ltac:(lia)) as [p' [nid' [E K]]]. exists p', nid'. split; [exact E|].
  intros s v. destruct (K s v) as [K1 K2]. rewrite K1, K2, !narrow_lo, !narrow_hi. split.
  - destruct (ext_ltb_q (fst (P s)) v), (ext_ltb_q (fst (p s)) v), (s =? ftn t i); reflexivity.
  - destruct (q_leb_ext v (snd (P s))), (q_leb_ext v (snd (p s))), (s =? ftn t i), (q_leb_ext v (Fin (thq t i))); reflexivity.
Qed.
Lemma inv_right i p : i < nn t -> is_leaf t i = false -> Inv i p -> Inv (Z.to_nat (crz t i)) (narrow p (ftn t i) (Fin (thq t i)) PInf).
Proof.
  intros Hi El H f P nid Hf. destruct (wf_internal t d Hwf i Hi El) as [A [B _]]. destruct f as [|f]; [lia|]. cbn [get_partition].
  assert (Hin : In i (where_eq (cr t) (Z.to_nat (crz t i)))) by (apply (in_where_cr t d Hwf); lia).
  destruct (parent_cases t d Hwf (Z.to_nat (crz t i)) ltac:(lia)) as [[r [Er El']]|[l [Er El']]]; [|rewrite Er in Hin; contradiction].
  rewrite Er in Hin. destruct Hin as [->|[]]. rewrite Er, ?El'. cbv iota beta.
  destruct (H f (narrow P (ftn t i) (Fin (thq t i)) PInf) (nid ++ [ftn t i]) ltac:(lia)) as [p' [nid' [E K]]]. exists p', nid'. split; [exact E|].
  intros s v. destruct (K s v) as [K1 K2]. rewrite K1, K2, !narrow_lo, !narrow_hi. split.
  - destruct (ext_ltb_q (fst (P s)) v), (ext_ltb_q (fst (p s)) v), (s =? ftn t i), (ext_ltb_q (Fin (thq t i)) v); reflexivity.
  - destruct (q_leb_ext v (snd (P s))), (q_leb_ext v (snd (p s))), (s =? ftn t i); reflexivity.
Qed.
Section Given.
Variables (x : pt) (Sv : list nat).
Lemma explore_inv : forall f i p ls, i < nn t -> explore t x Sv f i p = Some ls -> Inv i p -> forall l q, In (l, q) ls -> Inv l q.
Proof.
  apply (explore_ind t d Hwf x Sv (fun f i p ls => Inv i p -> forall l q, In (l, q) ls -> Inv l q)).
  - intros f i p Hi El H l q [E|[]]. injection E as <- <-. exact H.
  - intros f i p a Hi El _ _ _ IH H. apply IH. now apply inv_left.
  - intros f i p a Hi El _ _ _ IH H. apply IH. now apply inv_right.
  - intros f i p a b Hi El _ _ _ IH IH' H l q Hl. apply in_app_iff in Hl. destruct Hl as [Hl|Hl]; [apply (IH (inv_left i p Hi El H) l q Hl)|apply (IH' (inv_right i p Hi El H) l q Hl)].
Qed.
Lemma explore_unsplit s : (forall i, i < nn t -> is_leaf t i = false -> ftn t i <> s) ->
  forall f i p ls, i < nn t -> explore t x Sv f i p = Some ls -> forall l q, In (l, q) ls -> q s = p s.
Proof.
  intro Hs. assert (N : forall i p lo hi, i < nn t -> is_leaf t i = false -> narrow p (ftn t i) lo hi s = p s).
  { intros i p lo hi Hi El. unfold narrow. apply upd_other. intro C. apply (Hs i Hi El). now symmetry. }
  apply (explore_ind t d Hwf x Sv (fun f i p ls => forall l q, In (l, q) ls -> q s = p s)).
  - intros f i p Hi El l q [E|[]]. now injection E as <- <-.
  - intros f i p a Hi El _ _ _ IH l q Hl. rewrite (IH l q Hl). now apply N.
  - intros f i p a Hi El _ _ _ IH l q Hl. rewrite (IH l q Hl). now apply N.
  - intros f i p a b Hi El _ _ _ IH IH' l q Hl. apply in_app_iff in Hl. destruct Hl as [Hl|Hl]; [rewrite (IH l q Hl)|rewrite (IH' l q Hl)]; now apply N.
Qed.
Variable ls : list (nat * rect).
Hypothesis E : compatible t x Sv = Some ls.
Lemma final_box_eq l p : In (l, p) ls -> exists q, final_box t l = Some q /\ sides_eq q p.
Proof.
  intro Hl. pose proof (wf_pos t d Hwf) as H0. pose proof (explore_inv _ _ _ _ H0 E inv_root l p Hl) as H.
  destruct (compat_leaf t d Hwf x Sv ls E) as [_ [L _]]. destruct (L l) as [Hn _]; [now apply (in_map fst) in Hl|].
  destruct (H (nn t) whole [] Hn) as [p' [nid [E1 K]]]. destruct (final_box_partition l p' nid E1) as [q [E2 K2]]. exists q. split; [exact E2|].
  intro s. rewrite K2. split; [apply ext_eq_lo|apply ext_eq_hi]; intro v; destruct (K s v) as [K3 K4]; [exact K3|exact K4].
Qed.
Lemma final_boxes_eq ms : (forall l, In l ms -> In l (map fst ls)) -> exists ps, final_boxes t ms = Some ps /\ map fst ps = ms /\
  forall l q, In (l, q) ps -> final_box t l = Some q /\ exists p, In (l, p) ls /\ sides_eq q p.
Proof.
  induction ms as [|l ms IH]; intro H; [exists []; repeat split; contradiction|].
  destruct (IH (fun k Hk => H k (or_intror Hk))) as [ps [E1 [E2 E3]]].
  assert (Hl : In l (map fst ls)) by (apply H; now left). apply in_map_iff in Hl. destruct Hl as [[l' p] [<- Hl]]. cbn [fst] in *.
  destruct (final_box_eq l' p Hl) as [q [Eq Sq]]. cbn [final_boxes]. rewrite Eq, E1. exists ((l', q) :: ps). split; [reflexivity|]. split; [cbn; now rewrite E2|].
  intros k r [C|C]; [injection C as <- <-; split; [exact Eq|]; exists p; auto|now apply E3].
Qed.
Lemma sum_boxes (f : nat * rect -> Q) ms ps : (forall l p q, sides_eq q p -> (f (l, q) == f (l, p))%Q) -> Permutation ms (map fst ls) -> final_boxes t ms = Some ps ->
  (sumf f ps == sumf f ls)%Q.
Proof.
  intros Hf HP Ep. set (gg := fun l => match final_box t l with Some q => f (l, q) | None => 0%Q end).
  destruct (final_boxes_eq ms ltac:(intros l Hl; eapply Permutation_in; eauto)) as [ps' [E1 [E2 E3]]]. rewrite Ep in E1. injection E1 as <-.
  transitivity (sumf gg (map fst ps)).
  - rewrite sumf_map. apply sumf_ext. intros [l q] Hl. unfold gg. cbn [fst]. destruct (E3 l q Hl) as [-> _]. reflexivity.
  - rewrite E2, (sumf_perm gg ms (map fst ls) HP), sumf_map. apply sumf_ext. intros [l p] Hl. unfold gg. cbn [fst].
    destruct (final_box_eq l p Hl) as [q [-> Hq]]. now apply Hf.
Qed.
Lemma two_boxes : exists ms ps, marked_leaves t x Sv = Some ms /\ final_boxes t ms = Some ps /\ Permutation ms (map fst ls) /\
  map fst ps = ms /\ forall l q, In (l, q) ps -> exists p, In (l, p) ls /\ sides_eq q p.
Proof.
  destruct (marked_leaves_perm t d Hwf Hsk x Sv ls E) as [ms [Em HP]].
  destruct (final_boxes_eq ms ltac:(intros l Hl; eapply Permutation_in; eauto)) as [ps [E1 [E2 E3]]]. exists ms, ps. repeat split; trivial. intros l q Hl. now apply (E3 l q).
Qed.

(** ** Interventional *)
Section Intv.
Variables (idx : list nat) (data : list pt).
Lemma shares_boxes ms ps : Permutation ms (map fst ls) -> final_boxes t ms = Some ps ->
  match shares t Sv idx data ls, shares t Sv idx data ps with Some q, Some r => (q == r)%Q | None, None => True | _, _ => False end.
Proof.
  intros HP Ep. unfold shares. destruct data as [|z0 zs] eqn:Ed; [exact I|]. rewrite <- Ed in *. symmetry.
  apply (sum_boxes (fun lp => Qn (section data (rest Sv idx) (snd lp)) / Qn (length data) * vlq t (fst lp))%Q ms ps); trivial.
  intros l p q Hs. cbn [fst snd]. now rewrite (section_eq data q p (rest Sv idx) Hs).
Qed.
Hypothesis HS : forall s, In s Sv -> s < d.
Hypothesis Hidx : forall k, In k idx -> k < d.
Hypothesis Hsplit : forall i, i < nn t -> is_leaf t i = false -> In (ftn t i) Sv \/ In (ftn t i) idx.
Hypothesis Hrest : exists k, In k idx /\ ~ In k Sv.
Hypothesis Hoff : forall z, In z data -> off_thresholds t z.
Hypothesis Hne : data <> [].
Lemma splice_in k z : In k Sv -> splice Sv x z k = x k.
Proof. unfold splice. destruct (in_dec Nat.eq_dec k Sv); tauto. Qed.
Lemma splice_out k z : ~ In k Sv -> splice Sv x z k = z k.
Proof. unfold splice. destruct (in_dec Nat.eq_dec k Sv); tauto. Qed.
Lemma splice_vis l p z : In (l, p) ls -> vis t l (splice Sv x z) = true <-> Inside d p (splice Sv x z).
Proof.
  intro Hl. rewrite (vis_spec t d Hwf). destruct (leaves_statement t d x Sv Hwf) as [ls' [E' [_ [_ [H _]]]]]. rewrite E in E'. injection E' as <-.
  destruct (H l p Hl) as [_ H']. now rewrite H'.
Qed.
Lemma side_x l p s : In (l, p) ls -> In s Sv -> above_lo (fst (p s)) (x s) /\ below_hi (snd (p s)) (x s).
Proof.
  intros Hl Hs. destruct (leaves_statement t d x Sv Hwf) as [ls' [E' [_ [_ [H _]]]]]. rewrite E in E'. injection E' as <-.
  destruct (H l p Hl) as [H1 _]. exact (H1 s Hs).
Qed.
Lemma rest_in k : In k (rest Sv idx) <-> In k idx /\ ~ In k Sv.
Proof. unfold rest. rewrite filter_In, negb_true_iff, memb_false. reflexivity. Qed.
Lemma rest_vis l p z : In (l, p) ls -> off_thresholds t z -> in_sides p (rest Sv idx) z = vis t l (splice Sv x z).
Proof.
  intros Hl Hz. pose proof (wf_pos t d Hwf) as H0. apply eq_true_iff_eq. rewrite (splice_vis l p z Hl). rewrite itv_closed.
  2:{ intros s a Ha K. destruct (explore_bounds t d Hwf x Sv _ _ _ _ H0 E) with (l := l) (q := p) (s := s) (a := a) as [k [K1 [K2 [<- K4]]]]; trivial.
      { intros ? ? C. discriminate C. }
      apply (Hz k K1 K2). now rewrite K4. }
  rewrite forallb_forall. split.
  - intros H s Hs. destruct (in_dec Nat.eq_dec s Sv) as [HsS|HsS]; [rewrite (splice_in s z HsS); now apply (side_x l)|]. rewrite (splice_out s z HsS).
    destruct (in_dec Nat.eq_dec s idx) as [Hsi|Hsi]; [apply in_itv_spec, H, rest_in; auto|].
    rewrite (explore_unsplit s) with (p := whole) (f := nn t) (i := 0) (ls := ls) (l := l); trivial; [cbn; auto|].
    intros i Hi El C. destruct (Hsplit i Hi El) as [K|K]; rewrite C in K; contradiction.
  - intros H s Hs. apply rest_in in Hs. destruct Hs as [Hs1 Hs2]. apply in_itv_spec. specialize (H s (Hidx s Hs1)). now rewrite (splice_out s z Hs2) in H.
Qed.
Lemma splice_leaf z : memb (leaf_at t (splice Sv x z)) (map fst ls) = true.
Proof.
  apply memb_true. pose proof (wf_pos t d Hwf) as H0.
  destruct (explore_complete t d Hwf x Sv (splice Sv x z)) with (f := nn t) (i := 0) (p := whole) (ls := ls) as [l [q [Hl W]]]; trivial.
  { intros s Hs. rewrite (splice_in s z Hs). reflexivity. }
  unfold leaf_at, predict_leaf. rewrite W. now apply (in_map fst) in Hl.
Qed.
Lemma shares_mean : exists q, shares t Sv idx data ls = Some q /\ mean_pred t (map (splice Sv x) data) q.
Proof.
  unfold shares. destruct data as [|z0 zs] eqn:Ed; [contradiction|]. rewrite <- Ed in *. eexists. split; [reflexivity|].
  apply (mean_over_val t d Hwf); [rewrite Ed; discriminate|]. rewrite map_length.
  assert (N : ~ (Qn (length data) == 0)%Q) by (apply Qn_neq0; rewrite Ed; discriminate).
  rewrite (sumf_ext _ (fun lp => / Qn (length data) * (Qn (length (filter (vis t (fst lp)) (map (splice Sv x) data))) * vlq t (fst lp)))%Q).
  2:{ intros [l p] Hl. cbn [fst snd]. assert (Es : section data (rest Sv idx) p = length (filter (vis t l) (map (splice Sv x) data))).
      { rewrite section_filter. 2:{ destruct Hrest as [k Hk]. apply rest_in in Hk. intro C. rewrite C in Hk. contradiction. }
        clear Ed N. induction data as [|z r IH]; [reflexivity|]. cbn [filter map].
        rewrite (rest_vis l p z Hl) by (apply Hoff; now left).
        assert (IHr : length (filter (in_sides p (rest Sv idx)) r) = length (filter (vis t l) (map (splice Sv x) r))).
        { destruct r as [|z' r']; [reflexivity|]. apply IH; [intros y Hy; apply Hoff; now right|discriminate]. }
        destruct (vis t l (splice Sv x z)); cbn [length]; now rewrite IHr. }
      rewrite Es. unfold Qdiv. ring. }
  rewrite sumf_scal.
  destruct (compat_leaf t d Hwf x Sv ls E) as [ND [L _]].
  pose proof (rows_of_leaves t d Hwf (map fst ls) (map (splice Sv x) data) (vlq t) ND (fun l Hl => proj2 (L l Hl))) as K.
  rewrite sumf_map in K. rewrite K. rewrite (sumf_ext _ (fun z => val t z)); [field; exact N|].
  intros z Hz. apply in_map_iff in Hz. destruct Hz as [z' [<- _]]. rewrite splice_leaf. unfold val. cbn [Qb]. ring.
Qed.
End Intv.

(** ** Exact *)
Section Exact.
Variables (pcmvnorm : list nat -> list nat -> list Q -> list ext -> list ext -> option Q) (Ex : (pt -> Q) -> Q).
Hypothesis HE : mean_law Ex.
Hypothesis Hgiv : gives_boxes pcmvnorm (PartModel.others d Sv) Sv x Ex.
Hypothesis HS : forall s, In s Sv -> s < d.
Lemma others_in k : In k (PartModel.others d Sv) <-> k < d /\ ~ In k Sv.
Proof. unfold PartModel.others. rewrite filter_In, in_seq, negb_true_iff, memb_false. split; intros [A B]; (split; [lia|exact B]). Qed.
Lemma box_side p q z : sides_eq q p -> in_box (PartModel.others d Sv) (map (fun s => fst (q s)) (PartModel.others d Sv)) (map (fun s => snd (q s)) (PartModel.others d Sv)) z <->
  forall s, s < d -> ~ In s Sv -> above_lo (fst (p s)) (z s) /\ below_hi (snd (p s)) (z s).
Proof.
  intro Hq. assert (T : forall s v, (above_lo (fst (q s)) v /\ below_hi (snd (q s)) v) <-> (above_lo (fst (p s)) v /\ below_hi (snd (p s)) v)).
  { intros s v. destruct (Hq s) as [H1 H2]. destruct (fst (q s)), (fst (p s)); cbn in *; try contradiction; destruct (snd (q s)), (snd (p s)); cbn in *; try contradiction; try tauto;
      rewrite ?H1, ?H2; tauto. }
  unfold in_box. set (O := PartModel.others d Sv).
  assert (NL : forall k, k < length O -> nth k (map (fun s => fst (q s)) O) NInf = fst (q (nth k O 0)) /\ nth k (map (fun s => snd (q s)) O) PInf = snd (q (nth k O 0))).
  { intros k Hk. split.
    - rewrite (nth_indep _ NInf (fst (q 0))) by now rewrite map_length. apply (map_nth (fun s => fst (q s))).
    - rewrite (nth_indep _ PInf (snd (q 0))) by now rewrite map_length. apply (map_nth (fun s => snd (q s))). }
  split.
  - intros H s Hs Hn. assert (Hin : In s O) by (apply others_in; auto). apply (In_nth _ _ 0) in Hin. destruct Hin as [k [Hk <-]].
    specialize (H k Hk). destruct (NL k Hk) as [N1 N2]. rewrite N1, N2 in H. now apply T.
  - intros H k Hk. destruct (NL k Hk) as [N1 N2]. rewrite N1, N2. apply T. assert (Hin : In (nth k O 0) O) by now apply nth_In.
    apply others_in in Hin. now apply H.
Qed.
Lemma box_prob_vis l p q : In (l, p) ls -> sides_eq q p -> exists r, box_prob x Sv d pcmvnorm q = Some r /\ (r == Ex (fun z => Qb (vis t l (splice Sv x z))))%Q.
Proof.
  intros Hl Hq. unfold box_prob. apply Hgiv; [apply map_length|apply map_length|]. intro z. unfold decided. rewrite (splice_vis l p z Hl), (box_side p q z Hq).
  unfold Inside. split.
  - intros H s Hs Hn. specialize (H s Hs). now rewrite (splice_out s z Hn) in H.
  - intros H s Hs. destruct (in_dec Nat.eq_dec s Sv) as [Hi|Hi]; [rewrite (splice_in s z Hi); now apply (side_x l)|rewrite (splice_out s z Hi); now apply H].
Qed.
Lemma prob_sum_vis qs : (forall l q, In (l, q) qs -> exists p, In (l, p) ls /\ sides_eq q p) ->
  exists r, prob_sum t x Sv d pcmvnorm qs = Some r /\ (r == sumf (fun l => Ex (fun z => Qb (vis t l (splice Sv x z))) * vlq t l) (map fst qs))%Q.
Proof.
  induction qs as [|[l q] qs IH]; intro H; [exists 0%Q; split; reflexivity|].
  destruct IH as [r [E1 E2]]; [intros k q' Hk; apply H; now right|].
  destruct (H l q (or_introl eq_refl)) as [p [Hp Hs]]. destruct (box_prob_vis l p q Hp Hs) as [r' [E3 E4]].
  cbn [prob_sum]. rewrite E3, E1. eexists. split; [reflexivity|]. cbn [map sumf fst]. now rewrite E2, E4.
Qed.
Lemma E_sum {A} (f : A -> pt -> Q) l : (Ex (fun z => sumf (fun a => f a z) l) == sumf (fun a => Ex (f a)) l)%Q.
Proof.
  destruct HE as [H1 [H2 [H3 _]]]. induction l as [|a l IH].
  - cbn. rewrite (H1 (fun _ => 0%Q) (fun z => 0 * 0)%Q) by (intros; ring). rewrite H3. ring.
  - cbn [sumf]. rewrite <- IH, <- H2. apply H1. intros; cbn [sumf]; reflexivity.
Qed.
Lemma E_leaves ms : Permutation ms (map fst ls) ->
  (sumf (fun l => Ex (fun z => Qb (vis t l (splice Sv x z))) * vlq t l) ms == Ex (fun z => val t (splice Sv x z)))%Q.
Proof.
  intro HP. rewrite (sumf_perm _ _ _ HP). destruct HE as [H1 [H2 [H3 _]]].
  rewrite (sumf_ext _ (fun l => Ex (fun z => vlq t l * Qb (vis t l (splice Sv x z)))%Q)) by (intros l _; rewrite H3; ring).
  rewrite <- E_sum. apply H1. intro z. destruct (compat_leaf t d Hwf x Sv ls E) as [ND [L _]].
  rewrite (sumf_single _ (map fst ls) (leaf_at t (splice Sv x z)) ND).
  - rewrite (vis_leaf t d Hwf _ _) by (apply L, memb_true, splice_leaf). rewrite Nat.eqb_refl. unfold val. cbn [Qb]. ring.
  - apply memb_true, splice_leaf.
  - intros l Hl Hn. rewrite (vis_leaf t d Hwf _ _) by (now apply L). destruct (Nat.eqb_spec l (leaf_at t (splice Sv x z))); [contradiction|]. cbn [Qb]. ring.
Qed.
Lemma sides_refl p : sides_eq p p.
Proof. intro s. split; [destruct (fst (p s))|destruct (snd (p s))]; cbn; trivial; reflexivity. Qed.
Lemma exact_both : length Sv <> d -> d <> 1 -> exists q r, exp_exact t x Sv d pcmvnorm = Some q /\ exp_exact_v1 t x Sv d pcmvnorm = Some r /\
  (q == Ex (fun z => val t (splice Sv x z)))%Q /\ (r == q)%Q.
Proof.
  intros Hl Hd. unfold exp_exact, exp_exact_v1. destruct (Nat.eqb_spec (length Sv) d); [contradiction|]. destruct (Nat.eqb_spec d 1); [contradiction|].
  rewrite (all_parts_compatible t d Hwf Hsk), E. destruct two_boxes as [ms [ps [-> [-> [HP [Em Hps]]]]]].
  destruct (prob_sum_vis ls) as [q [-> Eq]]; [intros l p Hp; exists p; split; [exact Hp|apply sides_refl]|].
  destruct (prob_sum_vis ps Hps) as [r [-> Er]]. exists q, r. split; [reflexivity|]. split; [reflexivity|].
  rewrite Eq, Er, Em, (E_leaves ms HP), (E_leaves (map fst ls) (Permutation_refl _)). split; reflexivity.
Qed.
End Exact.
End Given.
End Boxes.

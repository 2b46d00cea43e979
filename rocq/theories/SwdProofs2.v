(** Proofs about the swing values computed from the differences, from the trees of an [ACVTree]. *)
From Verif Require Import Base TreeModel TreeSpec TreeProofs GameSpec GameProofs ShapModel ShapSpec ShapProofs NopaModel NopaProofs AcvModel SdpModel SdpSpec SdpProofs
  FlatModel FlatSpec SkModel SkSpec ArrModel ArrSpec ArrProofs ArrProofs3 SwingModel SwingSpec SwingProofs ExplSpec EntryModel EntrySpec EntryProofs EntryProofs2 EntryProofs3 SbufModel SbufSpec SbufProofs SbufProofs2
  ImpModel ImpSpec ImpProofs2 SwgModel SwgSpec SwgProofs SwgProofs2 SwdModel SwdSpec SwdProofs.
Local Open Scope nat_scope.

(** ** The loops for any difference *)
Section Additive.
Variables (pi : swing -> Q) (inc : nat -> Q -> Q -> Q).
Hypothesis Hadd : additive pi inc.
Theorem with_pi D C m P g j : (forall S S', Permutation S S' -> (D S g == D S' g)%Q) -> coalitions_ok C m -> is_players C m P -> In g P -> In j g ->
  let ids := va_ids C m in
  (pi (sv_raw (length ids) (seq 0 (length ids)) (fun va => nth va ids []) (sv_coals ids) (fun va T => D (concat T) (nth va ids [])) j) ==
   sumf (fun T => inc (length P) (1 / binomialC (length P - 1) (length T)) (D (concat T) g)) (rivals P g))%Q.
Proof.
  intros HG HC HP Hg Hj ids. rewrite (raw_pi pi inc Hadd).
  pose proof (va_ids_players C m HC) as HV. fold ids in HV.
  assert (Hgi : In g ids) by (apply HV; apply HP in Hg; exact Hg).
  destruct (In_nth ids g [] Hgi) as [k [Hk Ek]].
  rewrite (sumf_single _ _ k).
  - rewrite Ek, (count_one C m P g j HC HP Hg Hj). change (Qn 1) with 1%Q. rewrite Qmult_1_l.
    unfold sv_coals. rewrite sumf_map.
    assert (EL : length ids - 1 = length (drop_nth k ids)).
    { rewrite (drop_nth_remove ids k []) by (trivial; apply HV). rewrite Ek.
      pose proof (remove_length gdec g ids (proj1 HV) Hgi). lia. }
    replace (2 ^ (length ids - 1)) with (2 ^ length (drop_nth k ids)) by (now rewrite <- EL).
    rewrite (pick_subs (fun T => inc (length ids) (1 / binomialC (length ids - 1) (length T)) (D (concat T) g))).
    rewrite (drop_nth_remove ids k []) by (trivial; apply HV). rewrite Ek.
    assert (HP' : Permutation ids P) by (eapply players_perm; eassumption).
    rewrite (Permutation_length HP').
    unfold rivals. apply sumf_subs_perm; [|exact (remove_perm gdec g _ _ HP')].
    intros T U HTU. rewrite (Permutation_length HTU). destruct Hadd as [_ [H _]]. apply H. apply HG. now apply concat_perm.
  - apply seq_NoDup.
  - apply in_seq. lia.
  - intros h Hh Hne. apply in_seq in Hh. cbn [Nat.add] in Hh.
    assert (E : count_occ Nat.eq_dec (nth h ids []) j = 0).
    { apply count_occ_not_In. intro Hjh. apply Hne.
      assert (E2 : nth h ids [] = g) by (refine (player_unique C m _ (nth h ids []) g j HC HV _ Hgi Hjh Hj); apply nth_In; lia).
      apply (NoDup_nth ids []); [apply HV|lia|exact Hk|]. now rewrite E2, Ek. }
    rewrite E, Qn_0. ring.
Qed.
End Additive.
Theorem with_parts D C m P g j : (forall S S', Permutation S S' -> (D S g == D S' g)%Q) -> coalitions_ok C m -> is_players C m P -> In g P -> In j g ->
  let s := sv_with D C m j in swing_parts (fun S => D S g) P g (sw_phi s) (sw_pos s) (sw_neg s) (n_pos s) (n_neg s) (n_null s).
Proof.
  intros HG HC HP Hg Hj. pose proof (proj1 HP) as Hnd.
  assert (EL : length (va_ids C m) = length P).
  { apply Permutation_length. eapply players_perm; [|exact HP]. now apply va_ids_players. }
  pose proof (fun pi inc (H : additive pi inc) => with_pi pi inc H D C m P g j HG HC HP Hg Hj) as K.
  cbn zeta in K |- *.
  unfold swing_parts, sv_with, sv_loop. cbn [sw_phi sw_pos sw_neg n_pos n_neg n_null].
  match goal with |- context [fold_left ?f ?l ?s] =>
    change (fold_left f l s) with (sv_raw (length (va_ids C m)) (seq 0 (length (va_ids C m)))
      (fun va => nth va (va_ids C m) []) (sv_coals (va_ids C m))
      (fun va T => D (concat T) (nth va (va_ids C m) [])) j) end.
  assert (W : forall T : list group, In T (rivals P g) -> (1 / binomialC (length P - 1) (length T) / Qn (length P) == weight (length P) (length T))%Q)
    by (intros T HT; exact (wt_weight P g Hnd Hg T HT)).

  repeat split.
  - rewrite (K _ _ add_phi), EL. unfold Qdiv at 1. rewrite <- sumf_scal_r. apply sumf_ext. intros T HT. unfold inc_phi. rewrite <- (W T HT). unfold Qdiv. ring.
  - rewrite (K _ _ add_pos), sumf_filter. apply sumf_ext. intros T HT. unfold inc_pos. destruct (qltb 0 _); cbn [Qb]; [rewrite <- (W T HT)|]; unfold Qdiv; ring.
  - rewrite (K _ _ add_neg), sumf_filter. apply sumf_ext. intros T HT. unfold inc_neg. destruct (qltb _ 0); cbn [Qb]; [rewrite <- (W T HT)|]; unfold Qdiv; ring.
  - apply Qn_inj. rewrite (K _ _ add_npos), <- sumf_count. reflexivity.
  - apply Qn_inj. rewrite (K _ _ add_nneg), <- sumf_count. reflexivity.
  - apply Qn_inj. rewrite (K _ _ add_null), <- sumf_count. reflexivity.
Qed.

(** ** The difference *)
Section Change.
Variables (d : nat) (forest : list (list leaf)) (x : pt) (S : list nat) (g : group).
Hypothesis Hx : off_boundary forest x.
Hypothesis HS : forall s, In s (S ++ g) -> s < d.
Variable rs : list frow.
Hypothesis Hr : forall r, In r rs -> off_boundary forest (fst r).
Notation rows := (map fst rs).
Notation kept ls := (filter (fun lf => sat_on (l_rect lf) (S ++ g) x) ls).
Notation pall lf := (rows_in rows (l_rect lf) (seq 0 d)).
Notation share F lf := (Qn (pall lf) / Qn (rows_in rows (l_rect lf) F))%Q.

Lemma sat_on_app p F G z : sat_on p (F ++ G) z = sat_on p F z && sat_on p G z.
Proof. unfold sat_on. apply forallb_app. Qed.
Lemma used_kept ls lf : In ls forest -> In lf ls -> diff_used S g x lf = sat_on (l_rect lf) (S ++ g) x.
Proof. intros H1 H2. unfold diff_used. now rewrite not_out_cl_sat, (sat_cl_off forest x ls lf S Hx H1 H2), not_out_sat, sat_on_app. Qed.
Lemma of_all ls lf : In ls forest -> In lf ls -> p_all d rs lf = pall lf.
Proof. intros H1 H2. unfold p_all. now apply (cnt_rows_in forest ls lf). Qed.
Lemma of_one ls lf : In ls forest -> In lf ls -> p_of S rs lf = rows_in rows (l_rect lf) S.
Proof. intros H1 H2. unfold p_of. now apply (cnt_rows_in forest ls lf). Qed.
Lemma of_two ls lf : In ls forest -> In lf ls -> p_of_m S g rs lf = rows_in rows (l_rect lf) (S ++ g).
Proof.
  intros H1 H2. unfold p_of_m, cnt, rows_in. clear -Hr H1 H2. induction rs as [|r l IH]; [reflexivity|]. cbn [filter map].
  rewrite (sat_cl_off forest (fst r) ls lf S (Hr r (or_introl eq_refl)) H1 H2), not_out_sat, <- sat_on_app.
  destruct (sat_on (l_rect lf) (S ++ g) (fst r)); cbn [length]; rewrite IH; trivial; intros; apply Hr; now right.
Qed.
Lemma gdiv_share (a b : nat) v : (gdiv (Qn a * v) b == Qn a / Qn b * v)%Q.
Proof. unfold gdiv. destruct b as [|b]; cbn [Nat.eqb]; [change (Qn 0) with 0%Q; unfold Qdiv; change (/ 0)%Q with 0%Q; ring|unfold Qdiv; ring]. Qed.
Lemma gdiv_share1 (a b : nat) : (gdiv (Qn a) b == Qn a / Qn b)%Q.
Proof. unfold gdiv. destruct b as [|b]; cbn [Nat.eqb]; [change (Qn 0) with 0%Q; unfold Qdiv; change (/ 0)%Q with 0%Q; ring|reflexivity]. Qed.
Lemma sum_kept (h : leaf -> Q) (k : leaf -> Q) ls : In ls forest -> (forall lf, In lf ls -> (h lf == if sat_on (l_rect lf) (S ++ g) x then k lf else 0)%Q) ->
  (sumf h ls == sumf k (kept ls))%Q.
Proof. intros _ H. rewrite sumf_filter. apply sumf_ext. intros lf Hl. rewrite (H lf Hl). destruct (sat_on _ _ _); reflexivity. Qed.
Lemma norm_one ls : In ls forest -> (sumf (d_norm d S g x rs) ls == sumf (fun lf => share S lf) (kept ls))%Q.
Proof.
  intro H. apply sum_kept; [exact H|]. intros lf Hl. unfold d_norm. rewrite (used_kept ls lf H Hl), (of_all ls lf H Hl), (of_one ls lf H Hl).
  destruct (sat_on _ _ _); [apply gdiv_share1|reflexivity].
Qed.
Lemma norm_two ls : In ls forest -> (sumf (d_norm_m d S g x rs) ls == sumf (fun lf => share (S ++ g) lf) (kept ls))%Q.
Proof.
  intro H. apply sum_kept; [exact H|]. intros lf Hl. unfold d_norm_m. rewrite (used_kept ls lf H Hl), (of_all ls lf H Hl), (of_two ls lf H Hl).
  destruct (sat_on _ _ _); [apply gdiv_share1|reflexivity].
Qed.
Lemma mean_one ls : In ls forest -> (sumf (d_mean d S g x rs) ls == sumf (fun lf => share S lf * l_val lf) (kept ls))%Q.
Proof.
  intro H. apply sum_kept; [exact H|]. intros lf Hl. unfold d_mean. rewrite (used_kept ls lf H Hl), (of_all ls lf H Hl), (of_one ls lf H Hl).
  destruct (sat_on _ _ _); [apply gdiv_share|reflexivity].
Qed.
Lemma mean_two ls : In ls forest -> (sumf (d_mean_m d S g x rs) ls == sumf (fun lf => share (S ++ g) lf * l_val lf) (kept ls))%Q.
Proof.
  intro H. apply sum_kept; [exact H|]. intros lf Hl. unfold d_mean_m. rewrite (used_kept ls lf H Hl), (of_all ls lf H Hl), (of_two ls lf H Hl).
  destruct (sat_on _ _ _); [apply gdiv_share|reflexivity].
Qed.
(** no share is lost *)
Lemma share_nonneg F lf : (0 <= share F lf)%Q.
Proof. apply Qdiv_nn; apply Qn_nonneg. Qed.
Lemma all_in_some p F : (forall s, In s F -> s < d) -> rows_in rows p (seq 0 d) <= rows_in rows p F.
Proof.
  intro H. unfold rows_in. assert (K : forall z, sat_on p (seq 0 d) z = true -> sat_on p F z = true).
  { intros z Hz. unfold sat_on in *. rewrite forallb_forall in *. intros s Hs. apply Hz, in_seq. specialize (H s Hs). lia. }
  generalize rows. intro l. induction l as [|z l IH]; [reflexivity|]. cbn [filter]. specialize (K z).
  destruct (sat_on p (seq 0 d) z); [rewrite (K eq_refl); cbn [length]; lia|]. destruct (sat_on p F z); cbn [length]; lia.
Qed.
Lemma share_zero F lf : (forall s, In s F -> s < d) -> ((share F lf == 0)%Q <-> pall lf = 0).
Proof.
  intro H. pose proof (all_in_some (l_rect lf) F H) as L. split.
  - intro E. destruct (pall lf) as [|a] eqn:Ea; [reflexivity|]. exfalso.
    assert (0 < Qn (Datatypes.S a) / Qn (rows_in rows (l_rect lf) F))%Q; [|lra].
    apply Qlt_shift_div_l; [|rewrite Qmult_0_l]; unfold Qn, Qlt; cbn; lia.
  - intros ->. change (Qn 0) with 0%Q. unfold Qdiv. ring.
Qed.
Lemma total_zero F ls : (forall s, In s F -> s < d) -> ((sumf (fun lf => share F lf) (kept ls) == 0)%Q <-> forall lf, In lf (kept ls) -> pall lf = 0).
Proof.
  intro H. generalize (kept ls). intro l. induction l as [|lf l IH]; [split; [easy|reflexivity]|]. rewrite sumf_cons.
  assert (N : (0 <= sumf (fun lf => share F lf) l)%Q) by (apply sumf_nonneg; intros; apply share_nonneg). pose proof (share_nonneg F lf) as N1. split.
  - intros E lf' [<-|Hin]; [apply (share_zero F); [exact H|lra]|apply IH; [lra|exact Hin]].
  - intro K. rewrite (proj2 (share_zero F lf H) (K lf (or_introl eq_refl))), (proj2 IH); [reflexivity|]. intros; apply K; now right.
Qed.
Lemma inS s : In s S -> s < d. Proof. intro. apply HS, in_or_app. now left. Qed.
Lemma sum_div0 (h : leaf -> Q) n ls : (sumf (fun lf => qdiv0 (h lf) n) ls == sumf h ls / n)%Q.
Proof.
  unfold qdiv0. destruct (qeqb_spec n 0) as [e|e].
  - rewrite e. unfold Qdiv. change (/ 0)%Q with 0%Q. rewrite Qmult_0_r. induction ls as [|a l IH]; [reflexivity|]. rewrite sumf_cons, IH. ring.
  - unfold Qdiv. now rewrite sumf_scal_r.
Qed.
Lemma tree_one ls : In ls forest -> (d_tree d S g x rs ls == kept_mean d rows x (S ++ g) S ls)%Q.
Proof. intro H. unfold d_tree, kept_mean. cbv zeta. now rewrite sum_div0, (mean_one ls H), (norm_one ls H). Qed.
Lemma osum_some (h : leaf -> Q) n ls : ~ (n == 0)%Q -> exists q, osum (fun lf => cdiv (h lf) n) ls = Some q /\ (q == sumf h ls / n)%Q.
Proof.
  intro Hn. unfold cdiv. destruct (qeqb_spec n 0) as [e|_]; [contradiction|]. induction ls as [|a l (q & E & P)].
  - exists 0%Q. split; [reflexivity|]. unfold Qdiv. rewrite sumf_nil. ring.
  - cbn [osum]. rewrite E. eexists. split; [reflexivity|]. rewrite P, sumf_cons. unfold Qdiv. ring.
Qed.
Lemma tree_two ls : In ls forest -> exists q, d_tree_m (guard_n d S g x rs) d S g x rs ls = Some q /\ (q == kept_mean d rows x (S ++ g) (S ++ g) ls)%Q.
Proof.
  intro H. unfold d_tree_m, guard_n, kept_mean. cbv zeta. pose proof (norm_one ls H) as N1. pose proof (norm_two ls H) as N2.
  destruct (qeqb_spec (sumf (d_norm d S g x rs) ls) 0) as [e|e]; cbn [negb].
  - exists 0%Q. split; [reflexivity|]. rewrite N1 in e. assert (Z : (sumf (fun lf => share (S ++ g) lf) (kept ls) == 0)%Q)
      by (apply (total_zero (S ++ g) ls HS); apply (total_zero S ls inS); exact e).
    rewrite Z. generalize (sumf (fun lf => share (S ++ g) lf * l_val lf)%Q (kept ls)). intro q. unfold Qdiv. change (/ 0)%Q with 0%Q. ring.
  - destruct (osum_some (d_mean_m d S g x rs) (sumf (d_norm_m d S g x rs) ls) ls) as (q & E & P).
    { rewrite N2. intro Z. apply e. rewrite N1. apply (total_zero S ls inS). apply (total_zero (S ++ g) ls HS). exact Z. }
    exists q. split; [exact E|]. now rewrite P, (mean_two ls H), N2.
Qed.
Lemma forest_one : (d_sum d S g x rs forest == sumf (kept_mean d rows x (S ++ g) S) forest)%Q.
Proof. unfold d_sum. apply sumf_ext. intros ls H. now apply tree_one. Qed.
Lemma forest_two : exists q, d_sum_m (guard_n d S g x rs) d S g x rs forest = Some q /\ (q == sumf (kept_mean d rows x (S ++ g) (S ++ g)) forest)%Q.
Proof.
  unfold d_sum_m. assert (K : incl forest forest) by apply incl_refl. revert K. generalize forest at 1 3 4. intro l. induction l as [|ls l IH]; intro K.
  - exists 0%Q. split; reflexivity.
  - destruct (tree_two ls (K ls (or_introl eq_refl))) as (q & E & P). destruct IH as (q' & E' & P'); [intros a Ha; apply K; now right|].
    exists (q + q')%Q. cbn [osum]. rewrite E, E'. split; [reflexivity|]. rewrite sumf_cons, P, P'. reflexivity.
Qed.
End Change.
(** ** Order of the columns *)
Lemma sumf_eq {A} (f h : A -> Q) l : (forall a, f a = h a) -> sumf f l = sumf h l.
Proof. intro H. induction l as [|a l IH]; [reflexivity|]. now rewrite !sumf_cons, H, IH. Qed.
Lemma osum_eq {A} (f h : A -> option Q) l : (forall a, f a = h a) -> osum f l = osum h l.
Proof. intro H. induction l as [|a l IH]; [reflexivity|]. cbn [osum]. now rewrite H, IH. Qed.
Section Order.
Variables (m : nat) (S S' : list nat) (va : group) (x : pt).
Hypothesis HP : Permutation S S'.
Lemma used_perm lf : diff_used S va x lf = diff_used S' va x lf.
Proof. unfold diff_used. now rewrite (not_out_cl_perm _ _ _ _ HP). Qed.
Lemma cnt_eq (p q : pt -> bool) (rs : list frow) : (forall z, p z = q z) -> cnt p rs = cnt q rs.
Proof. intro H. unfold cnt. induction rs as [|r l IH]; [reflexivity|]. cbn [filter]. rewrite H. destruct (q (fst r)); cbn [length]; now rewrite IH. Qed.
Lemma of_perm (rs : list frow) lf : p_of S rs lf = p_of S' rs lf.
Proof. apply cnt_eq. intro z. now apply sat_cl_perm. Qed.
Lemma of_m_perm (rs : list frow) lf : p_of_m S va rs lf = p_of_m S' va rs lf.
Proof. apply cnt_eq. intro z. now rewrite (sat_cl_perm _ _ _ _ HP). Qed.
Lemma norm_perm (rs : list frow) ls : sumf (d_norm m S va x rs) ls = sumf (d_norm m S' va x rs) ls.
Proof. apply sumf_eq. intro lf. unfold d_norm. now rewrite used_perm, of_perm. Qed.
Lemma norm_m_perm (rs : list frow) ls : sumf (d_norm_m m S va x rs) ls = sumf (d_norm_m m S' va x rs) ls.
Proof. apply sumf_eq. intro lf. unfold d_norm_m. now rewrite used_perm, of_m_perm. Qed.
Lemma sum_perm (rs : list frow) forest : d_sum m S va x rs forest = d_sum m S' va x rs forest.
Proof. apply sumf_eq. intro ls. unfold d_tree. cbv zeta. rewrite norm_perm. apply sumf_eq. intro lf. unfold d_mean. now rewrite used_perm, of_perm. Qed.
Lemma sum_m_perm guard guard' (rs : list frow) forest : (forall ls, guard ls = guard' ls) -> d_sum_m guard m S va x rs forest = d_sum_m guard' m S' va x rs forest.
Proof.
  intro H. apply osum_eq. intro ls. unfold d_tree_m. cbv zeta. rewrite H, norm_m_perm. destruct (guard' ls); [|reflexivity].
  apply osum_eq. intro lf. unfold d_mean_m. now rewrite used_perm, of_m_perm.
Qed.
Lemma diff_perm stray rows f thr forest : compute_sdp_swing_diff stray m rows f thr forest x S va = compute_sdp_swing_diff stray m rows f thr forest x S' va.
Proof.
  assert (G : forall (rs : list frow) ls, guard_n m S va x rs ls = guard_n m S' va x rs ls) by (intros; unfold guard_n; now rewrite norm_perm).
  unfold compute_sdp_swing_diff. cbv zeta. rewrite (Permutation_length HP), !sum_perm. destruct stray as [[sn su] sd].
  rewrite (sum_m_perm (fun _ => sn) (fun _ => sn)), (sum_m_perm (fun _ => su) (fun _ => su)), (sum_m_perm (fun _ => sd) (fun _ => sd)) by reflexivity.
  now rewrite !(sum_m_perm _ _ _ _ (G _)).
Qed.
End Order.

(** ** The change of the level *)
Lemma compare_level thr ss q : (d_compare thr ss (Some q) == Qb (qleb thr q) - Qb (qleb thr ss))%Q.
Proof.
  unfold d_compare. destruct (qltb_spec ss thr) as [a|a], (qltb_spec q thr) as [b|b], (qleb_spec thr q) as [c|c], (qleb_spec thr ss) as [e|e];
    cbn [Qb]; try reflexivity; exfalso; lra.
Qed.
Lemma qdiv0_is a b : (qdiv0 a b == a / b)%Q.
Proof. unfold qdiv0. destruct (qeqb_spec b 0) as [e|_]; [rewrite e; unfold Qdiv; change (/ 0)%Q with 0%Q; ring|reflexivity]. Qed.
Lemma ratio_some a u e : d_ratio (Some a) (Some u) (Some e) = Some (qdiv0 (a - e) (u - e)).
Proof. unfold d_ratio, qdiv0. destruct (qeqb (u - e) 0); reflexivity. Qed.
Lemma diff_change stray d rows f thr forest x g : off_boundary forest x -> (forall r, In r rows -> off_boundary forest (fst r)) ->
  level_change d rows f thr forest x g (fun S => compute_sdp_swing_diff stray d rows f thr forest x S g).
Proof.
  intros Hx Hr. assert (Hoff : forall r, In r (clf_rows f rows) -> off_boundary forest (fst r)).
  { intros r Hin. apply in_map_iff in Hin. destruct Hin as [r' [<- Hin]]. exact (Hr r' Hin). }
  assert (Hu : forall r, In r (up_rows (clf_rows f rows)) -> off_boundary forest (fst r)) by (intros r H; apply Hoff; now apply filter_In in H).
  assert (Hd : forall r, In r (down_rows (clf_rows f rows)) -> off_boundary forest (fst r)) by (intros r H; apply Hoff; now apply filter_In in H).
  destruct (clf_split f rows) as [E1 [E2 E3]]. split; [|split].
  - intros S HS0 HS. unfold compute_sdp_swing_diff. cbv zeta.
    pose proof (forest_one d forest x S g Hx (clf_rows f rows) Hoff) as A1. rewrite E1 in A1.
    pose proof (forest_one d forest x S g Hx (up_rows (clf_rows f rows)) Hu) as A2. rewrite E2 in A2.
    pose proof (forest_one d forest x S g Hx (down_rows (clf_rows f rows)) Hd) as A3. rewrite E3 in A3.
    destruct (forest_two d forest x S g Hx HS (clf_rows f rows) Hoff) as (a & B1 & C1). rewrite E1 in C1.
    destruct (forest_two d forest x S g Hx HS (up_rows (clf_rows f rows)) Hu) as (u & B2 & C2). rewrite E2 in C2.
    destruct (forest_two d forest x S g Hx HS (down_rows (clf_rows f rows)) Hd) as (e & B3 & C3). rewrite E3 in C3.
    assert (R1 : (qdiv0 (d_sum d S g x (clf_rows f rows) forest - d_sum d S g x (down_rows (clf_rows f rows)) forest)
      (d_sum d S g x (up_rows (clf_rows f rows)) forest - d_sum d S g x (down_rows (clf_rows f rows)) forest) == explained d rows f forest x (S ++ g) S)%Q)
      by (rewrite qdiv0_is, A1, A2, A3; reflexivity).
    assert (R2 : (qdiv0 (a - e) (u - e) == explained d rows f forest x (S ++ g) (S ++ g))%Q) by (rewrite qdiv0_is, C1, C2, C3; reflexivity).
    destruct (Nat.eqb_spec (length S) 0) as [n|_]; [lia|]. rewrite app_length.
    rewrite (SwingProofs.qleb_eq thr thr _ _ (Qeq_refl thr) (Qeq_sym _ _ R1)).
    destruct (length S + length g =? d); [apply compare_level|].
    rewrite B1, B2, B3, ratio_some. rewrite (SwingProofs.qleb_eq thr thr _ _ (Qeq_refl thr) (Qeq_sym _ _ R2)). apply compare_level.
  - exact (direct_range stray d rows f thr forest x [] g).
  - intro Ht. unfold compute_sdp_swing_diff. cbv zeta. cbn [length Nat.eqb]. destruct stray as [[sn su] sd].
    unfold d_compare. destruct (d_ratio _ _ _) as [q|]; [|discriminate]. destruct (qltb_spec 0 thr); [|contradiction]. destruct (qltb q thr); discriminate.
Qed.
(** the weights of the sets of other players *)
Lemma weights_sum (P : list group) g : NoDup P -> In g P -> (sumf (fun T : list group => weight (length P) (length T)) (rivals P g) == 1)%Q.
Proof.
  intros HP Hg. pose (v := fun T : list group => if in_dec gdec g T then 1%Q else 0%Q).
  assert (Hv : is_game v).
  { intros T U H. unfold v. destruct (in_dec gdec g T) as [i|i], (in_dec gdec g U) as [j|j]; try reflexivity; exfalso; [apply j|apply i];
      [exact (Permutation_in _ H i)|exact (Permutation_in _ (Permutation_sym H) j)]. }
  pose proof (shapley_efficiency gdec P v HP Hv) as E. rewrite (sumf_single _ _ g) in E; [|exact HP|exact Hg|].
  - assert (V : (v P - v [] == 1)%Q) by (unfold v; destruct (in_dec gdec g P) as [_|n]; [destruct (in_dec gdec g []) as [[]|_]; reflexivity|contradiction]).
    rewrite V in E. rewrite <- E. unfold shapley, rivals. apply sumf_ext. intros T HT.
    assert (Hn : ~ In g T) by (intro Hin; exact (remove_In gdec P g (subs_incl _ _ HT g Hin))).
    unfold v. destruct (in_dec gdec g (g :: T)) as [_|n]; [|exfalso; apply n; now left]. destruct (in_dec gdec g T); [contradiction|]. ring.
  - intros i Hi Hne. apply shapley_null. intro T. unfold v. destruct (in_dec gdec g (i :: T)) as [[e|a]|a], (in_dec gdec g T) as [b|b]; try reflexivity; try congruence; try contradiction.
    exfalso. apply a. now right.
Qed.

(** ** The object *)
Section Object.
Variables (listed : list nat -> list nat) (sig : Q -> Q) (ts : list mtree) (stacked : nat) (boosted : bool) (d w k : nat) (h : shap_acv)
  (proba : mat -> outcome (list (list Q))) (X : marg) (xs zs : list (list Q)) (fX ys : list nat) (C : list (list nat)).
Notation data := (M_array F64 d zs).
Hypothesis HE : explainable listed sig ts stacked boosted d w k h proba X data xs zs fX ys C.
Notation a := (h_acv h).
Notation T := (o_tabs (h_acv h)).
Notation rws := (combine (map point zs) ys).
Notation N := (length xs).
Lemma d_ok : ensemble_ok ts stacked d w k. Proof. apply HE. Qed.
Lemma d_con : construct sig ts stacked boosted d = Some a. Proof. exact (e_con _ _ _ _ _ _ _ _ _ _ _ _ _ _ _ _ _ HE). Qed.
Lemma d_C : coalitions_ok C d. Proof. apply coal_ok_coalitions. apply HE. Qed.
Lemma d_tabs : tabs_ok T. Proof. exact (a_tabs sig ts stacked boosted d w k a d_ok d_con). Qed.
Lemma d_trees : t_trees T = length ts.
Proof. exact (proj2 (e_trees _ _ _ _ _ _ _ _ _ _ _ _ _ _ _ _ _ HE)). Qed.
Lemma d_nb b : b < length ts -> t_nb T b = leaf_count (nth b ts no_tree).
Proof. exact (fun Hb => proj2 (e_nb _ _ _ _ _ _ _ _ _ _ _ _ _ _ _ _ _ HE b Hb)). Qed.
Lemma d_leaf b : b < t_trees T -> 0 < t_nb T b.
Proof.
  rewrite d_trees. intro Hb. rewrite (d_nb b Hb). assert (Hw : well_formed d w (nth b ts no_tree)) by (apply (proj1 (proj2 d_ok)); now apply nth_In).
  pose proof (SbufProofs2.some_leaf d w _ Hw) as Hl. rewrite <- (leaf_list_count d w _ Hw). destruct (leaf_list _); [congruence|cbn; lia].
Qed.
Lemma d_order order : all_pairs ts N order -> any_order T (length (map point xs)) order.
Proof.
  intros Ho b Hb. rewrite map_length. rewrite d_trees in Hb. rewrite (d_nb b Hb). apply Ho. now apply nth_error_nth'.
Qed.
Lemma direct_form order adding junk stray C' thr : acv_direct h proba order adding junk stray X data C' thr =
  result N d (direct_prog d d N C'
    (fun va c Sv g => diff_call T d (map point xs) (map point zs) fX ys thr true Sv g (order va c) (stray g)) adding junk).
Proof.
  unfold acv_direct. destruct (seen_table d X xs ltac:(apply HE)) as [E1 E2]. rewrite E1. cbn [andthen].
  rewrite (proj1 (classes_spec _ _ _ _ _ (e_fX _ _ _ _ _ _ _ _ _ _ _ _ _ _ _ _ _ HE))). cbn [andthen seen].
  rewrite (proj1 (classes_spec _ _ _ _ _ (e_ys _ _ _ _ _ _ _ _ _ _ _ _ _ _ _ _ _ HE))). cbn [andthen]. rewrite E2. cbn [andthen buffer2 same_dtype cols rows].
  unfold wide_enough. cbn [cols]. rewrite (e_cols _ _ _ _ _ _ _ _ _ _ _ _ _ _ _ _ _ HE), Nat.leb_refl. reflexivity.
Qed.
Hypothesis Hk : forall f, In f fX -> f < k.
Definition change_of (stray : group -> bool * bool * bool) (thr : Q) (i : nat) (S : list nat) (g : group) : Q :=
  compute_sdp_swing_diff (stray g) d rws (nth i fX 0) thr (forest_at T (vars ts) (nth i fX 0)) (nth i (map point xs) (fun _ => 0%Q)) S g.
Lemma direct_cells order adding junk stray thr : pass_orders ts N order adding ->
  acv_direct h proba order adding junk stray X data C thr =
  Returned (map (fun i => map (fun c => sv_with (change_of stray thr i) C d c) (seq 0 d)) (seq 0 N)).
Proof.
  intros [Ho Ha]. rewrite direct_form. destruct (s_classes listed sig ts stacked boosted d w k h proba X xs zs fX ys C HE Hk) as (L1 & L2 & B).
  destruct (direct_prog_ok d d N C (fun va c Sv g => diff_call T d (map point xs) (map point zs) fX ys thr true Sv g (order va c) (stray g)) adding junk
    (fun i _ _ S g => change_of stray thr i S g) d_C (le_n d)) as (r & E & P).
  - intros va c Sv g _ _ HS Hg.
    destruct (diff_call_ok T d (map point xs) (map point zs) fX ys thr Sv g (order va c) (stray g) (vars ts) d_tabs d_leaf (d_order _ (Ho va c)) HS Hg) as (v & Ev & Pv);
      [rewrite map_length; lia|rewrite map_length; lia|exact B|].
    exists v. split; [exact Ev|]. intros i Hi. apply Pv; apply nth_error_nth'; [rewrite map_length; exact Hi|lia].
  - exact Ha.
  - exact (e_Cne _ _ _ _ _ _ _ _ _ _ _ _ _ _ _ _ _ HE).
  - rewrite E. unfold result. f_equal. apply map_ext_in. intros i Hi. apply in_seq in Hi. apply map_ext. intro c. rewrite P by lia.
    apply (direct_cell_sv d C (fun i _ _ S g => change_of stray thr i S g) (change_of stray thr) i c). reflexivity.
Qed.
Lemma direct_entries order adding junk stray thr (P : list Q -> nat -> (nat -> swing) -> Prop) : pass_orders ts N order adding ->
  (forall i x f, nth_error xs i = Some x -> nth_error fX i = Some f -> P x f (sv_with (change_of stray thr i) C d)) ->
  swing_entries (acv_direct h proba order adding junk stray X data C thr) xs fX d P.
Proof.
  intros Ho HP. eexists. split; [exact (direct_cells order adding junk stray thr Ho)|]. split; [now rewrite map_length, seq_length|].
  intros i x f Hx Hf. assert (Hi : i < N) by (apply nth_error_Some; congruence).
  eexists. exists (sv_with (change_of stray thr i) C d). split; [|split; [|split; [|exact (HP i x f Hx Hf)]]].
  - exact (cell_seq _ N i Hi).
  - now rewrite map_length, seq_length.
  - intros c Hc. exact (cell_seq _ d c Hc).
Qed.
Lemma change_at stray thr i x f : nth_error xs i = Some x -> nth_error fX i = Some f ->
  change_of stray thr i = fun S g => compute_sdp_swing_diff (stray g) d rws f thr (forest_at T (vars ts) f) (point x) S g.
Proof.
  intros Hx Hf. unfold change_of. rewrite (nth_error_nth _ _ 0 Hf). rewrite (nth_error_nth (map point xs) i (fun _ => 0%Q) (x := point x)); [reflexivity|].
  rewrite nth_error_map, Hx. reflexivity.
Qed.
Lemma change_perm stray thr i S S' g : Permutation S S' -> (change_of stray thr i S g == change_of stray thr i S' g)%Q.
Proof. intro H. unfold change_of. now rewrite (diff_perm d S S' g _ H). Qed.
(** the six results of every column *)
Theorem direct_values order adding junk stray thr : pass_orders ts N order adding ->
  swing_entries (acv_direct h proba order adding junk stray X data C thr) xs fX d (fun x f r =>
    exists forest D, forest_leaves (shared (raw_share stacked) ts f) = Some forest /\
      (off_thresholds ts x -> (forall z, In z zs -> off_thresholds ts z) -> forall g, level_change d rws f thr forest (point x) g (fun S => D S g)) /\
      forall P g c, is_players C d P -> In g P -> In c g ->
        swing_parts (fun S => D S g) P g (sw_phi (r c)) (sw_pos (r c)) (sw_neg (r c)) (n_pos (r c)) (n_neg (r c)) (n_null (r c))).
Proof.
  intro Ho. apply (direct_entries order adding junk stray thr _ Ho). intros i x f Hx Hf.
  exists (forest_at T (vars ts) f), (change_of stray thr i).
  split; [exact (a_forest sig ts stacked boosted d w k a d_ok d_con f)|]. split.
  - intros Hox Hoz g. rewrite (change_at stray thr i x f Hx Hf). apply diff_change.
    + now apply (off_points listed sig ts stacked boosted d w k h proba X xs zs fX ys C HE).
    + intros [p q] Hr. cbn [fst]. apply in_combine_l in Hr. apply in_map_iff in Hr. destruct Hr as (z & <- & Hz).
      now apply (off_points listed sig ts stacked boosted d w k h proba X xs zs fX ys C HE), Hoz.
  - intros P g c HP Hg Hc. apply (with_parts (change_of stray thr i) C d P g c); trivial; [intros; now apply change_perm|exact d_C].
Qed.
(** sums and bounds *)
Theorem direct_accounts order adding junk stray thr P : pass_orders ts N order adding -> is_players C d P ->
  swing_entries (acv_direct h proba order adding junk stray X data C thr) xs fX d (fun x f r =>
    forall c, c < d -> (sw_pos (r c) + sw_neg (r c) == sw_phi (r c))%Q /\ (0 <= sw_pos (r c) <= 1)%Q /\ (-(1) <= sw_neg (r c) <= 0)%Q /\
      n_pos (r c) + n_neg (r c) + n_null (r c) = 2 ^ (length P - 1)).
Proof.
  intros Ho HP. apply (direct_entries order adding junk stray thr _ Ho). intros i x f Hx Hf c Hc.
  destruct (player_exists C d P c HP Hc) as (g & Hg & Hcg).
  destruct (sv_with_sums (change_of stray thr i) C d P g c d_C HP Hg Hcg) as (S1 & S2 & S3 & S4).
  destruct (with_parts (change_of stray thr i) C d P g c ltac:(intros; now apply change_perm) d_C HP Hg Hcg) as (_ & Q2 & Q3 & _).
  assert (W : (sumf (fun T : list group => weight (length P) (length T)) (rivals P g) == 1)%Q) by (apply weights_sum; [apply HP|exact Hg]).
  assert (V : forall S, (change_of stray thr i S g = 0 \/ change_of stray thr i S g = 1 \/ change_of stray thr i S g = -1)%Q) by (intro; apply direct_range).
  assert (NN : forall n j, (0 <= weight n j)%Q) by (intros; apply weight_nonneg).
  split; [exact S1|]. split; [split; [exact S2|]|split; [split; [|exact S3]|exact S4]].
  - rewrite Q2, sumf_filter, <- W. apply sumf_le. intros T0 _. specialize (NN (length P) (length T0)). destruct (V (concat T0)) as [->|[->| ->]]; cbn; lra.
  - rewrite Q3, sumf_filter. assert (K : (sumf (fun T : list group => -(1) * weight (length P) (length T)) (rivals P g) == -(1))%Q) by (rewrite sumf_scal, W; reflexivity).
    rewrite <- K. apply sumf_le. intros T0 _. specialize (NN (length P) (length T0)). destruct (V (concat T0)) as [->|[->| ->]]; cbn; lra.
Qed.
Theorem direct_orders order adding junk order' adding' junk' stray thr : pass_orders ts N order adding -> pass_orders ts N order' adding' ->
  acv_direct h proba order adding junk stray X data C thr = acv_direct h proba order' adding' junk' stray X data C thr.
Proof. intros H H'. now rewrite (direct_cells order adding junk stray thr H), (direct_cells order' adding' junk' stray thr H'). Qed.
Theorem direct_nopa order adding junk junk' stray thr : pass_orders ts N order adding ->
  acv_direct_nopa h proba junk' stray X data C thr = acv_direct h proba order adding junk stray X data C thr.
Proof.
  intro H. unfold acv_direct_nopa.
  destruct (seen_table d X xs ltac:(apply HE)) as [E1 _]. rewrite E1. cbn [andthen rows].
  apply direct_orders; [|exact H]. split; [|intros; apply Permutation_refl].
  intros va c b m Hm. unfold in_order. assert (Hb : b < length ts) by (apply nth_error_Some; congruence).
  rewrite (d_nb b Hb), (nth_error_nth _ _ no_tree Hm). unfold points. cbn [rows]. rewrite map_length. apply Permutation_refl.
Qed.
End Object.
(** arguments *)
Lemma direct_unchecked listed sig ts stacked boosted d w k h proba X data xs zs fX ys C :
  explainable listed sig ts stacked boosted d w k h proba X data xs zs fX ys C -> forall order adding junk stray C' thr,
  ((data = M_frame d zs \/ data = M_list d zs) -> acv_direct h proba order adding junk stray X data C' thr = Raised EType) /\
  (forall dt, data = M_array dt d zs -> dt <> F64 -> acv_direct h proba order adding junk stray X data C' thr = Raised EValue) /\
  (data = M_array F64 d zs -> acv_direct h proba order adding junk stray X data [] thr = Stray).
Proof.
  intros HE order adding junk stray C' thr.
  assert (K : forall C0, exists R, acv_direct h proba order adding junk stray X data C0 thr = (z <- buffer2 data ;; R z) /\
    forall z, C0 = [] -> R z = Stray).
  { intro C0. unfold acv_direct.
    assert (ES : forall Y ys0, is_table Y d ys0 -> seen Y = Returned (mkMat d ys0)) by (intros Y ys0 [->|[->|[dt ->]]]; reflexivity).
    rewrite (ES X xs) by apply HE. rewrite (ES data zs) by apply HE. cbn [andthen].
    rewrite (proj1 (classes_spec _ _ _ _ _ (e_fX _ _ _ _ _ _ _ _ _ _ _ _ _ _ _ _ _ HE))). cbn [andthen].
    rewrite (proj1 (classes_spec _ _ _ _ _ (e_ys _ _ _ _ _ _ _ _ _ _ _ _ _ _ _ _ _ HE))). cbn [andthen].
    assert (EB : buffer2 (as_float X) = Returned (mkMat d xs)) by (destruct (e_X _ _ _ _ _ _ _ _ _ _ _ _ _ _ _ _ _ HE) as [->|[->|[dt ->]]]; reflexivity).
    rewrite EB. cbn [andthen]. eexists. split; [reflexivity|]. intros z ->. reflexivity. }
  split; [|split].
  - intro H. destruct (K C') as (R & -> & _). destruct H as [->| ->]; reflexivity.
  - intros dt -> Hd. destruct (K C') as (R & -> & _). cbn [buffer2]. destruct dt; try reflexivity. congruence.
  - intros ->. destruct (K []) as (R & -> & HR). cbn [buffer2 same_dtype andthen]. now apply HR.
Qed.

(** Proofs about the methods with boxes, from the trees. *)
From Verif Require Import Base TreeModel TreeSpec TreeProofs GameSpec RfModel RfSpec RfProofs RfTreeProofs SkModel SearchModel SearchSpec SearchProofs ExplModel ExplSpec
  ApiModel ApiSpec ApiProofs AgnModel AgnSpec AgnProofs AxsModel AxsSpec AxsProofs BoxSpec.
From Verif Require ImpModel ImpSpec ImpProofs2.
Local Open Scope nat_scope.

(** ** The walk of the compiled loops and the tree *)
Section Walk.
Variables (R : RfModel.row) (data : nat -> pt) (dec : Z -> option bool) (i : nat).
Fixpoint fine (f : nat) (n : Z) : Prop :=
  match f with
  | 0 => True
  | S f' => ok R data dec i n = true /\ (dec n <> Some false -> fine f' (r_left R n)) /\ (dec n <> Some true -> fine f' (r_right R n))
  end.
Lemma survives_fine depth : survives R data dec depth i <-> fine depth 0%Z.
Proof.
  split.
  - intro H. assert (G : forall f k n, k + f = depth -> gmet R dec k n -> fine f n).
    { induction f as [|f IH]; intros k n E Hm; [exact I|]. cbn [fine]. split; [apply (H k n); [lia|exact Hm]|].
      split; intro Hd; apply (IH (S k)); try lia; apply (gm_next R dec k n); trivial; [left|right]; auto. }
    apply (G depth 0); [lia|constructor].
  - intro H. assert (G : forall k n, gmet R dec k n -> k <= depth -> fine (depth - k) n).
    { induction 1 as [|k n c Hm IH Hn]; intro Hk; [now rewrite Nat.sub_0_r|]. specialize (IH ltac:(lia)).
      replace (depth - k) with (S (depth - S k)) in IH by lia. destruct IH as (_ & L & K). destruct Hn as [[-> Hd]|[-> Hd]]; auto. }
    intros k n Hk Hm. specialize (G k n Hm ltac:(lia)). replace (depth - k) with (S (depth - S k)) in G by lia. apply G.
Qed.
Definition still : Prop := (r_feat R (-1) < 0)%Z /\ r_left R (-1) = (-1)%Z /\ r_right R (-1) = (-1)%Z.
Variable g : guide.
Hypothesis Hg : forall n c, r_feat R n = Z.of_nat c -> dec n = g c (r_thr R n).
Hypothesis Hn : forall n, (r_feat R n < 0)%Z -> dec n = None.
Lemma fine_still f : still -> fine f (-1)%Z.
Proof.
  intros (A & B & C). induction f as [|f IH]; [exact I|]. cbn [fine]. rewrite B, C. unfold ok. rewrite (Hn _ A). auto.
Qed.
Variables (d w : nat) (e : sk) (T : rtree).
Hypothesis He : holds d w e T.
Hypothesis Hst : stores (ranger_tree e) R.
Lemma fine_follows T' : forall n f, written e n T' -> height T' <= f -> still \/ bushy (f - 1) T' ->
  (fine f (Z.of_nat n) <-> follows g T' (data i) = true).
Proof.
  induction T' as [|c q l IHl r IHr]; intros n f Hw Hh Hs; pose proof (written_lt _ _ _ Hw) as Hi; change (length (sk_cl e)) with (nn (ranger_tree e)) in Hi;
    destruct (Hst n Hi) as (S1 & S2 & S3 & S4).
  - cbn [follows]. split; [reflexivity|]. intros _. destruct f as [|f]; [exact I|].
    destruct (leaf_written d w e T He n Leaf Hw) as [[_ A] B]. destruct (B (A eq_refl)) as (B1 & B2 & B3).
    assert (Hd : dec (Z.of_nat n) = None). { apply Hn. rewrite S1, (ft_at d w e T He n Hi), B3. lia. }
    cbn [fine]. unfold ok. rewrite Hd, S3, S4, B1, B2. split; [reflexivity|].
    destruct Hs as [Hs|Hs]; [split; intros _; now apply fine_still|].
    destruct f as [|f]; [split; intros; exact I|]. replace (S (S f) - 1) with (S f) in Hs by lia. destruct Hs.
  - cbn [height] in Hh. destruct f as [|f]; [lia|]. replace (S f - 1) with f in Hs by lia.
    destruct (fork_written d w e T He n c q l r Hw) as (a & b & E1 & E2 & _ & _ & _ & E3 & E4 & Wl & Wr).
    assert (Hd : dec (Z.of_nat n) = g c q). { rewrite (Hg _ c); [|now rewrite S1, E4]. now rewrite S2, E3. }
    assert (Ec : gf R (Z.of_nat n) = c). { unfold gf. rewrite S1, E4. apply Nat2Z.id. }
    assert (Hsl : still \/ bushy (f - 1) l) by (destruct Hs as [Hs|Hs]; [now left|right]; destruct f as [|k]; [exact I|]; cbn [bushy] in Hs; replace (S k - 1) with k by lia; apply Hs).
    assert (Hsr : still \/ bushy (f - 1) r) by (destruct Hs as [Hs|Hs]; [now left|right]; destruct f as [|k]; [exact I|]; cbn [bushy] in Hs; replace (S k - 1) with k by lia; apply Hs).
    pose proof (IHl a f Wl ltac:(lia) Hsl) as IL. pose proof (IHr b f Wr ltac:(lia) Hsr) as IR.
    cbn [fine follows]. unfold ok. rewrite Hd, Ec, S2, E3, S3, S4, E1, E2. destruct (g c q) as [[]|].
    + destruct (Qlt_le_dec q (data i c)) as [L|L].
      * split; [intros (K & _); apply qleb_true in K; lra|discriminate].
      * rewrite <- IL. split; [intros (_ & K & _); apply K; discriminate|]. intro K. split; [now apply qleb_true|]. split; [intros _; exact K|congruence].
    + destruct (Qlt_le_dec q (data i c)) as [L|L].
      * rewrite <- IR. split; [intros (_ & _ & K); apply K; discriminate|]. intro K. split; [now apply qltb_true|]. split; [congruence|intros _; exact K].
      * split; [intros (K & _); apply qltb_true in K; lra|discriminate].
    + rewrite andb_true_iff, <- IL, <- IR. split; [intros (_ & A & B); split; [apply A|apply B]; discriminate|]. intros [A B]. split; [reflexivity|]. split; intros _; assumption.
Qed.
End Walk.

Lemma follows_ext g g' T z : (forall c t, g c t = g' c t) -> follows g T z = follows g' T z.
Proof. intro H. induction T as [|c t l IHl r IHr]; [reflexivity|]. cbn [follows]. rewrite H, IHl, IHr. reflexivity. Qed.

(** ** One observation *)
Section Obs.
Variables (d w : nat) (es : list sk) (Ts : list rtree) (stray : RfModel.row).
Hypothesis HF : Forall2 (holds d w) es Ts.
Variables (D : list pt) (m : nat).
Variables (g : guide) (dec : RfModel.row -> Z -> option bool) (step : RfModel.row -> Z -> rfst -> rfst).
Notation ts := (map ranger_tree es).
Notation M := (dense ts stray).
Notation data := (fun j => nth j D (fun _ => 0%Q)).
Notation N := (length D).
Notation depth := (tallest Ts).
Hypothesis Hstep : forall R n s, step R n s = gstep R data true zinsert (dec R) n s.
Hypothesis Hg : forall R n c, r_feat R n = Z.of_nat c -> dec R n = g c (r_thr R n).
Hypothesis Hn : forall R n, (r_feat R n < 0)%Z -> dec R n = None.
Hypothesis Hcalm : calm stray Ts.

Lemma survives_follows b j : b < length Ts -> (survives (row_of M b) data (dec (row_of M b)) depth j <-> follows g (nth b Ts Leaf) (data j) = true).
Proof.
  intro Hb. destruct (holds_at d w es Ts HF b Hb) as (e & Ee & He). rewrite survives_fine.
  assert (Hb' : b < length ts) by (rewrite map_length, (len_Ts d w es Ts HF); exact Hb).
  pose proof (dense_stores ts stray d (wf_all d w es Ts HF) (plain_all d w es Ts HF) b Hb') as Hst. rewrite Ee in Hst.
  apply (fine_follows (row_of M b) data (dec (row_of M b)) j g (Hg (row_of M b)) (Hn (row_of M b)) d w e _ He Hst (nth b Ts Leaf) 0 depth).
  - apply (h_root d w e _ He).
  - apply height_tallest. now apply nth_In.
  - destruct b as [|b].
    + destruct Hcalm as [(A & B & C)|A]; [left|right; exact A]. unfold still. cbn [row_of r_feat r_thr r_left r_right dense F_feat F_thr F_left F_right].
      unfold offset. cbn [F_width dense]. replace (Z.of_nat 0 * Z.of_nat (max_nodes ts) + -1)%Z with (-1)%Z by lia. cbn [Z.leb Z.compare andb]. auto.
    + left. apply (dense_minus ts stray d (wf_all d w es Ts HF) (plain_all d w es Ts HF)). lia.
Qed.
Hypothesis Hm : forall T, In T Ts -> m <= length (companions g T D).
Notation sl := (sel M step m depth N).
Lemma sel_companions b : b < length Ts -> sl b = companions g (nth b Ts Leaf) D.
Proof.
  intro Hb. assert (Hle : m <= length (sl b)).
  { eapply Nat.le_trans; [exact (Hm _ (nth_In Ts Leaf Hb))|]. apply NoDup_incl_length; [apply NoDup_filter, seq_NoDup|].
    intros j Hj. unfold companions in Hj. apply filter_In in Hj. destruct Hj as [Hj Hj2]. apply in_seq in Hj.
    apply (sel_superset M data true zinsert zinsert_in dec step Hstep); [lia|]. now apply survives_follows. }
  assert (Hf : exists p, sl b = filter p (seq 0 N)).
  { unfold sel, selected. rewrite (run_g M data true zinsert dec step Hstep). eexists. apply run_in. }
  destruct Hf as [p Hp]. pose proof (sel_exact M data true zinsert zinsert_in dec step Hstep m depth N b Hle) as Hiff. rewrite Hp in Hiff |- *.
  unfold companions. apply (filter_seq_eq data). intro j. etransitivity; [apply Hiff|]. rewrite filter_In, in_seq, (survives_follows b j Hb). intuition lia.
Qed.
Lemma box_mean ind : (forest M step m depth N ind == mean_over (fun T => mean_over ind (companions g T D)) Ts)%Q.
Proof.
  pose proof (len_trees d w es Ts stray HF) as LT.
  unfold forest. assert (G : forall trees acc, (forall b, In b trees -> b < length Ts) ->
    (fold_left (fun acc b => add_tree (F_trees M) ind (selected M step m depth N b) acc) trees acc ==
     acc + sumf (fun b => mean_over ind (companions g (nth b Ts Leaf) D) / Qn (length Ts)) trees)%Q).
  { induction trees as [|b trees IH]; intros acc Hb; [cbn; ring|]. cbn [fold_left]. rewrite IH by (intros; apply Hb; now right).
    rewrite add_tree_mean, sumf_cons, LT. change (selected M step m depth N b) with (sl b). rewrite (sel_companions b) by (apply Hb; now left). ring. }
  rewrite G by (intros b Hb; apply in_seq in Hb; rewrite LT in Hb; lia). rewrite LT.
  unfold mean_over at 2. unfold Qdiv at 1 2. rewrite sumf_scal_r, (sum_nth (fun T => mean_over ind (companions g T D)) Ts Leaf). ring.
Qed.
Lemma box_weights j : j < N -> (fw M step m depth N j ==
  mean_over (fun T => if follows g T (data j) then 1 / Qn (length (companions g T D)) else 0) Ts)%Q.
Proof.
  intro Hj. unfold fw, weight. rewrite (len_trees d w es Ts stray HF). unfold mean_over, Qdiv at 1. rewrite (sum_nth _ Ts Leaf), <- sumf_scal_r. apply sumf_ext.
  intros b Hb. apply in_seq in Hb. unfold wt. rewrite (sel_companions b) by lia.
  assert (E : memb j (companions g (nth b Ts Leaf) D) = follows g (nth b Ts Leaf) (data j)).
  { destruct (follows g (nth b Ts Leaf) (data j)) eqn:Et.
    - apply memb_true. unfold companions. apply filter_In. split; [apply in_seq; lia|exact Et].
    - apply memb_false. unfold companions. rewrite filter_In. intros [_ K]. congruence. }
  rewrite E. destruct (follows g (nth b Ts Leaf) (data j)) eqn:Et; [|ring].
  assert (Hl : length (companions g (nth b Ts Leaf) D) <> 0).
  { apply memb_true in E. destruct (companions g (nth b Ts Leaf) D); [destruct E|discriminate]. }
  rewrite Qn_mult. field. split; (apply Qn_neq0; lia).
Qed.
End Obs.

(** ** The guides *)
Lemma box_dec box R n c : r_feat R n = Z.of_nat c -> dec_box box R n = box_guide box c (r_thr R n).
Proof.
  intro E. unfold dec_box, box_guide, gf. rewrite E, Nat2Z.id. rewrite (proj2 (Z.leb_le 0 (Z.of_nat c))) by lia. cbn [andb].
  destruct (qleb_spec (snd (box c)) (r_thr R n)) as [A|A]; destruct (Qlt_le_dec (r_thr R n) (snd (box c))) as [B|B]; try (exfalso; lra); [reflexivity|].
  destruct (qltb_spec (r_thr R n) (fst (box c))) as [A2|A2]; destruct (Qlt_le_dec (r_thr R n) (fst (box c))) as [B2|B2]; try (exfalso; lra); reflexivity.
Qed.
Lemma inS_in Sv c : inS Sv (Z.of_nat c) = if in_dec Nat.eq_dec c Sv then true else false.
Proof.
  unfold inS. rewrite (proj2 (Z.leb_le 0 (Z.of_nat c))) by lia. rewrite Nat2Z.id. cbn [andb].
  destruct (in_dec Nat.eq_dec c Sv) as [H|H]; [now apply memb_true|now apply memb_false].
Qed.
Lemma inS_neg Sv f : (f < 0)%Z -> inS Sv f = false.
Proof. intro H. unfold inS. rewrite (proj2 (Z.leb_gt 0 f)) by lia. reflexivity. Qed.
Lemma dec_box_neg box R n : (r_feat R n < 0)%Z -> dec_box box R n = None.
Proof. intro H. unfold dec_box. rewrite (proj2 (Z.leb_gt 0 (r_feat R n))) by lia. reflexivity. Qed.
Lemma cond_dec Sv x box R n c : r_feat R n = Z.of_nat c -> dec_cond Sv x box R n = cond_guide Sv x box c (r_thr R n).
Proof.
  intro E. unfold dec_cond, dec_obs, cond_guide. rewrite <- (box_dec box R n c E), E, inS_in. destruct (in_dec Nat.eq_dec c Sv); [|reflexivity].
  unfold gf. rewrite E, Nat2Z.id. destruct (qleb_spec (x c) (r_thr R n)), (Qlt_le_dec (r_thr R n) (x c)); try (exfalso; lra); reflexivity.
Qed.
Lemma intv_dec Sv box R n c : r_feat R n = Z.of_nat c -> dec_intv Sv box R n = intv_guide Sv box c (r_thr R n).
Proof. intro E. unfold dec_intv, intv_guide. rewrite <- (box_dec box R n c E), E, inS_in. destruct (in_dec Nat.eq_dec c Sv); reflexivity. Qed.
Lemma cond_neg Sv x box R n : (r_feat R n < 0)%Z -> dec_cond Sv x box R n = None.
Proof. intro H. unfold dec_cond. rewrite (inS_neg _ _ H). now apply dec_box_neg. Qed.
Lemma intv_neg Sv box R n : (r_feat R n < 0)%Z -> dec_intv Sv box R n = None.
Proof. intro H. unfold dec_intv. rewrite (inS_neg _ _ H). now apply dec_box_neg. Qed.

(** what is averaged *)
Lemma av_diff classifier yx t0 t1 Y j : (ind_diff classifier yx t0 t1 (fun j => nth j Y 0) j == if agrees classifier yx t0 t1 (nth j Y 0) then 0 else 1)%Q.
Proof. unfold ind_diff, agrees. destruct classifier; unfold qeqb, qleb; [destruct (Qeq_bool _ _)|destruct (Qle_bool t0 _), (Qle_bool _ t1)]; reflexivity. Qed.
Lemma av_cdp classifier yx dn up Y j : (ind_cdp classifier yx dn up (fun j => nth j Y 0) j == if agrees classifier yx dn up (nth j Y 0) then 1 else 0)%Q.
Proof. unfold ind_cdp, agrees. destruct classifier; unfold qeqb, qleb; [destruct (Qeq_bool _ _)|destruct (Qle_bool dn _), (Qle_bool _ up)]; reflexivity. Qed.
Lemma av_intv classifier yx t0 t1 Y j : (ind_cdp_intv classifier yx t0 t1 (fun j => nth j Y 0) j ==
  if classifier then (if Qeq_bool yx (nth j Y 0) then 0 else 1) else (if agrees false yx t0 t1 (nth j Y 0) then 1 else 0))%Q.
Proof. unfold ind_cdp_intv, agrees. destruct classifier; unfold qeqb, qleb; [destruct (Qeq_bool _ _)|destruct (Qle_bool t0 _), (Qle_bool _ t1)]; reflexivity. Qed.

Section Due.
Variables (d w : nat) (es : list sk) (Ts : list rtree) (stray : RfModel.row) (classifier : bool).
Hypothesis HF : Forall2 (holds d w) es Ts.
Variables (r : routine) (D : list pt) (Y : list Q) (m : nat).
Hypothesis Hr : boxed r.
Hypothesis Hc : calm stray Ts.
Notation M := (dense (map ranger_tree es) stray).
Lemma box_due x yx down up Sv box t0 t1 : (forall T, In T Ts -> m <= length (companions (walked r Sv x box) T D)) ->
  let v := due M (fun j => nth j D (fun _ => 0%Q)) (fun j => nth j Y 0%Q) (length D) (tallest Ts) m classifier r x yx down up Sv box t0 t1 in
  (fst (fst v) == mean_over (fun T => mean_over (fun j => averaged r classifier yx t0 t1 down up (nth j Y 0)) (companions (walked r Sv x box) T D)) Ts)%Q /\
  forall j, j < length D -> (snd v j ==
     mean_over (fun T => if follows (walked r Sv x box) T (nth j D (fun _ => 0%Q)) then 1 / Qn (length (companions (walked r Sv x box) T D)) else 0) Ts)%Q.
Proof.
  intro Hm. cbv zeta. set (data := fun j => nth j D (fun _ => 0%Q)).
  assert (CV : walked r Sv x box = cond_guide Sv x box -> forall ind f, (forall j, (ind j == f j)%Q) ->
    let v := forest_rule M (fun R => cond_step R Sv x data box) m (tallest Ts) (length D) ind in
    (fst (fst v) == mean_over (fun T => mean_over f (companions (walked r Sv x box) T D)) Ts)%Q /\
    forall j, j < length D -> (snd v j ==
      mean_over (fun T => if follows (walked r Sv x box) T (data j) then 1 / Qn (length (companions (walked r Sv x box) T D)) else 0) Ts)%Q).
  { intros E ind f Hf. rewrite E in *. cbv zeta.
    assert (Hs := fun R n s => cond_step_g Sv x data box R n s).
    split; [|intros j Hj].
    - rewrite (forest_rule_prob M data true zinsert (dec_cond Sv x box) _ Hs).
      rewrite (box_mean d w es Ts stray HF D m (cond_guide Sv x box) (dec_cond Sv x box) _ Hs (cond_dec Sv x box) (cond_neg Sv x box) Hc Hm).
      apply mean_ext. intro T. apply mean_ext. exact Hf.
    - rewrite (forest_rule_weights M data true zinsert (dec_cond Sv x box) _ Hs).
      exact (box_weights d w es Ts stray HF D m (cond_guide Sv x box) (dec_cond Sv x box) _ Hs (cond_dec Sv x box) (cond_neg Sv x box) Hc Hm j Hj). }
  assert (IV : walked r Sv x box = intv_guide Sv box -> forall ind f, (forall j, (ind j == f j)%Q) ->
    let v := forest_rule M (fun R => intv_step R Sv data box) m (tallest Ts) (length D) ind in
    (fst (fst v) == mean_over (fun T => mean_over f (companions (walked r Sv x box) T D)) Ts)%Q /\
    forall j, j < length D -> (snd v j ==
      mean_over (fun T => if follows (walked r Sv x box) T (data j) then 1 / Qn (length (companions (walked r Sv x box) T D)) else 0) Ts)%Q).
  { intros E ind f Hf. rewrite E in *. cbv zeta.
    assert (Hs := fun R n s => intv_step_g Sv data box R n s).
    split; [|intros j Hj].
    - rewrite (forest_rule_prob M data true zinsert (dec_intv Sv box) _ Hs).
      rewrite (box_mean d w es Ts stray HF D m (intv_guide Sv box) (dec_intv Sv box) _ Hs (intv_dec Sv box) (intv_neg Sv box) Hc Hm).
      apply mean_ext. intro T. apply mean_ext. exact Hf.
    - rewrite (forest_rule_weights M data true zinsert (dec_intv Sv box) _ Hs).
      exact (box_weights d w es Ts stray HF D m (intv_guide Sv box) (dec_intv Sv box) _ Hs (intv_dec Sv box) (intv_neg Sv box) Hc Hm j Hj). }
  unfold boxed in Hr. cbn [In] in Hr. destruct Hr as [E|[E|[E|[E|[E|[E|[]]]]]]]; rewrite <- E in *; cbn [due averaged];
    unfold compute_ddp_cond_weights, compute_cdp_cond_weights, compute_ddp_intv_weights, compute_cdp_intv_weights.
  - apply CV; [reflexivity|]. intro j. apply av_diff.
  - apply CV; [reflexivity|]. intro j. apply av_cdp.
  - apply IV; [reflexivity|]. intro j. apply av_diff.
  - apply IV; [reflexivity|]. intro j. apply av_intv.
  - apply IV; [reflexivity|]. intro j. apply av_diff.
  - apply IV; [reflexivity|]. intro j. apply av_intv.
Qed.
End Due.

Section Call.
Variables (d w : nat) (es : list sk) (Ts : list rtree) (stray : RfModel.row) (classifier : bool) (q : pt -> Q * Q).
Hypothesis Hne : es <> [].
Hypothesis HF : Forall2 (holds d w) es Ts.
Hypothesis Hd : d <> 1.
Variables (r : routine) (a : args) (D : list pt) (Y : list Q) (m : nat) (t : targ) (sched : list nat) (lev : nat -> Q * Q).
Notation X i := (nth i (g_X a) (fun _ => 0%Q)).
Notation G i := (walked r (set_at (g_S a) i) (X i) (nth i (g_cond a) rule0)).
Lemma well_boxed : well_called r a -> boxed r.
Proof. unfold well_called, boxed. destruct r; intro H; try (apply H); cbn; tauto. Qed.
Lemma box_rows : well_called r a -> table (g_X a) (g_y a) -> table D Y -> own_levels classifier q (g_X a) t lev ->
  complete (S (length Ts)) (length (g_X a)) sched -> calm stray Ts -> plenty r m a D Ts ->
  exists res, explain d es stray classifier q r a D Y m t sched = Some (Returned res) /\
    length (ApiModel.r_sdp res) = length (g_X a) /\
    (forall i, i < length (g_X a) -> (nth i (ApiModel.r_sdp res) 0 ==
       mean_over (fun T => mean_over (fun j => averaged r classifier (nth i (g_y a) 0) (fst (lev i)) (snd (lev i)) (nth i (g_down a) 0) (nth i (g_up a) 0) (nth j Y 0))
                                     (companions (G i) T D)) Ts)%Q) /\
    (weighted r -> exists ws, r_weights res = Some ws /\ length ws = length (g_X a) /\ forall i j, i < length (g_X a) -> j < length D ->
       (nth i ws (fun _ => 0) j ==
        mean_over (fun T => if follows (G i) T (nth j D (fun _ => 0)) then 1 / Qn (length (companions (G i) T D)) else 0) Ts)%Q).
Proof.
  intros Hw Ht1 Ht2 Hlev Hco Hcalm Hpl. pose proof (well_boxed Hw) as Hb.
  set (M := dense (map ranger_tree es) stray).
  assert (HT : F_trees M = length Ts) by exact (len_trees d w es Ts stray HF). rewrite <- HT in Hco.
  assert (F : forall res dn up, (forall i, averaged r classifier (nth i (g_y a) 0%Q) (fst (lev i)) (snd (lev i)) (dn i) (up i)
                                     = averaged r classifier (nth i (g_y a) 0%Q) (fst (lev i)) (snd (lev i)) (nth i (g_down a) 0%Q) (nth i (g_up a) 0%Q)) ->
    explain d es stray classifier q r a D Y m t sched = Some (Returned res) ->
    row_by_row r res (length (g_X a)) (fun i =>
      due M (fun j => nth j D (fun _ => 0%Q)) (fun j => nth j Y 0%Q) (length D) (tallest Ts) m classifier r
        (X i) (nth i (g_y a) 0%Q) (dn i) (up i) (set_at (g_S a) i) (nth i (g_cond a) rule0) (fst (lev i)) (snd (lev i))) ->
    exists res, explain d es stray classifier q r a D Y m t sched = Some (Returned res) /\
    length (ApiModel.r_sdp res) = length (g_X a) /\
    (forall i, i < length (g_X a) -> (nth i (ApiModel.r_sdp res) 0 ==
       mean_over (fun T => mean_over (fun j => averaged r classifier (nth i (g_y a) 0) (fst (lev i)) (snd (lev i)) (nth i (g_down a) 0) (nth i (g_up a) 0) (nth j Y 0))
                                     (companions (G i) T D)) Ts)%Q) /\
    (weighted r -> exists ws, r_weights res = Some ws /\ length ws = length (g_X a) /\ forall i j, i < length (g_X a) -> j < length D ->
       (nth i ws (fun _ => 0) j ==
        mean_over (fun T => if follows (G i) T (nth j D (fun _ => 0)) then 1 / Qn (length (companions (G i) T D)) else 0) Ts)%Q)).
  { intros res dn up Eav E (R1 & _ & _ & R4 & _). exists res. split; [exact E|]. rewrite R1, map_length, seq_length. split; [reflexivity|].
    assert (P := fun i Hi => box_due d w es Ts stray classifier HF r D Y m Hb Hcalm (X i) (nth i (g_y a) 0%Q) (dn i) (up i) (set_at (g_S a) i) (nth i (g_cond a) rule0)
                (fst (lev i)) (snd (lev i)) (fun T => Hpl i T Hi)). fold M in P. split.
    - intros i Hi. rewrite nth_map_seq by exact Hi. destruct (P i Hi) as [P1 _]. rewrite Eav in P1. exact P1.
    - intro W. eexists. split; [exact (R4 W)|]. rewrite map_length, seq_length. split; [reflexivity|]. intros i j Hi Hj. rewrite nth_map_seq by exact Hi. exact (proj2 (P i Hi) j Hj). }
  assert (Cases : (r = ddp_intv_same \/ r = cdp_intv_same) \/ acx_routine r /\ exists l, documented r a l).
  { unfold well_called in Hw. unfold boxed in Hb. cbn [In] in Hb. destruct Hb as [E|[E|[E|[E|[E|[E|[]]]]]]]; rewrite <- E in *; try (left; now auto);
      right; (split; [unfold acx_routine; cbn [In]; tauto|now apply Hw]). }
  destruct Cases as [Hs|(Ha & l & Hdoc)].
  - assert (Hw' : (exists s, g_S a = S_same s) /\ length (g_cond a) = length (g_X a)) by (destruct Hs as [E|E]; rewrite E in Hw; exact Hw).
    destruct Hw' as ((s & Es) & Hbl).
    destruct (acx_same_rows M (tallest Ts) classifier q r a s D Y m t sched lev Hs Ht1 Ht2 Es Hbl Hlev Hco) as (res & E & R).
    apply (F res (fun _ => 0%Q) (fun _ => 0%Q)).
    + intro i. destruct Hs as [-> | ->]; reflexivity.
    + destruct (build_ok d w es Ts Hne HF (or_introl Hd)) as (o & E1 & E2 & _ & E3). unfold explain.
      rewrite (proj2 (checked_spec _ _) Ht1), (proj2 (checked_spec _ _) Ht2). cbn [andb negb].
      replace (ApiModel.one_set r) with true by (destruct Hs as [-> | ->]; reflexivity). cbn [andb negb]. rewrite E1, E2, E3. f_equal. exact E.
    + rewrite Es. exact R.
  - destruct (acx_rows M (tallest Ts) classifier q r a l D Y m t sched lev Ha Ht1 Ht2 Hdoc Hlev Hco) as (res & E & R).
    apply (F res (fun i => nth i (g_down a) 0%Q) (fun i => nth i (g_up a) 0%Q)).
    + reflexivity.
    + rewrite (explain_acx d w es Ts stray classifier q Hne HF (or_introl Hd) r a l D Y m t sched Ht1 Ht2 Hdoc). f_equal. exact E.
    + destruct Hdoc as (Es & _). rewrite Es. exact R.
Qed.
End Call.

(** ** Rows that are always kept, and two boxes *)
Lemma box_inside box c t z : (fst (box c) <= z c)%Q -> (z c <= snd (box c))%Q ->
  (box_guide box c t = Some true -> (z c <= t)%Q) /\ (box_guide box c t = Some false -> (t < z c)%Q).
Proof.
  intros A B. unfold box_guide. destruct (Qlt_le_dec t (snd (box c))); [destruct (Qlt_le_dec t (fst (box c)))|]; split; intro K; try discriminate; lra.
Qed.
Lemma inside_follows g T z : (forall c t, (g c t = Some true -> (z c <= t)%Q) /\ (g c t = Some false -> (t < z c)%Q)) -> follows g T z = true.
Proof.
  intro H. induction T as [|c t l IHl r IHr]; [reflexivity|]. cbn [follows]. destruct (H c t) as [A B]. destruct (g c t) as [[]|].
  - specialize (A eq_refl). destruct (Qlt_le_dec t (z c)); [exfalso; lra|exact IHl].
  - specialize (B eq_refl). destruct (Qlt_le_dec t (z c)); [exact IHr|exfalso; lra].
  - now rewrite IHl, IHr.
Qed.
Lemma compatible_follows Sv x box T z : agree_on Sv x z -> in_box Sv box z ->
  follows (cond_guide Sv x box) T z = true.
Proof.
  intros HA HB. apply inside_follows. intros c t. unfold cond_guide. destruct (in_dec Nat.eq_dec c Sv) as [Hin|Hin].
  - specialize (HA c Hin). destruct (Qlt_le_dec t (x c)); split; intro K; try discriminate; lra.
  - destruct (HB c Hin). now apply box_inside.
Qed.
Lemma boxed_follows Sv box T z : in_box Sv box z -> follows (intv_guide Sv box) T z = true.
Proof.
  intro HB. apply inside_follows. intros c t. unfold intv_guide. destruct (in_dec Nat.eq_dec c Sv) as [Hin|Hin]; [split; discriminate|].
  destruct (HB c Hin). now apply box_inside.
Qed.
Lemma wide_follows Sv x box T z : (forall c t, In (c, t) (cuts T) -> ~ In c Sv -> (fst (box c) <= t < snd (box c))%Q) ->
  follows (cond_guide Sv x box) T z = together Sv T x z /\ follows (intv_guide Sv box) T z = true.
Proof.
  induction T as [|c t l IHl r IHr]; intro H; [split; reflexivity|].
  destruct IHl as [L1 L2]; [intros; apply H; trivial; cbn [cuts]; right; apply in_or_app; now left|].
  destruct IHr as [R1 R2]; [intros; apply H; trivial; cbn [cuts]; right; apply in_or_app; now right|].
  cbn [follows together]. unfold cond_guide at 1, intv_guide at 1. destruct (in_dec Nat.eq_dec c Sv) as [Hin|Hin].
  - rewrite L2, R2. split; [|reflexivity]. destruct (Qlt_le_dec t (x c)), (Qlt_le_dec t (z c)); trivial.
  - destruct (H c t (or_introl eq_refl) Hin) as [A B]. unfold box_guide. destruct (Qlt_le_dec t (snd (box c))); [|exfalso; lra].
    destruct (Qlt_le_dec t (fst (box c))); [exfalso; lra|]. now rewrite L1, R1, L2, R2.
Qed.
Lemma point_follows Sv x box T z : (forall c, In c (columns T) -> ~ In c Sv -> fst (box c) = x c /\ snd (box c) = x c) ->
  (follows (cond_guide Sv x box) T z = true <-> way T x = way T z).
Proof.
  induction T as [|c t l IHl r IHr]; intro H; [split; reflexivity|]. cbn [follows way columns] in *.
  assert (Hl : forall c, In c (columns l) -> ~ In c Sv -> fst (box c) = x c /\ snd (box c) = x c) by (intros; apply H; trivial; right; apply in_or_app; now left).
  assert (Hr : forall c, In c (columns r) -> ~ In c Sv -> fst (box c) = x c /\ snd (box c) = x c) by (intros; apply H; trivial; right; apply in_or_app; now right).
  specialize (IHl Hl). specialize (IHr Hr).
  assert (E : cond_guide Sv x box c t = if Qlt_le_dec t (x c) then Some false else Some true).
  { unfold cond_guide. destruct (in_dec Nat.eq_dec c Sv) as [Hin|Hin]; [reflexivity|]. destruct (H c (or_introl eq_refl) Hin) as [A B].
    unfold box_guide. rewrite A, B. destruct (Qlt_le_dec t (x c)); [destruct (Qlt_le_dec t (x c)); [reflexivity|exfalso; lra]|reflexivity]. }
  rewrite E. destruct (Qlt_le_dec t (x c)), (Qlt_le_dec t (z c)); try (split; intro K; discriminate K).
  - rewrite IHr. split; intro K; [now rewrite K|now injection K].
  - rewrite IHl. split; intro K; [now rewrite K|now injection K].
Qed.

(** ** The searches with boxes *)
Lemma search_values d w es Ts stray classifier q imp order sched kd a D Y t C m pi minimal stop e k :
  searchable d w es Ts classifier imp order sched kd a D Y t C -> (0 < pi)%Q -> (pi <= 1)%Q ->
  kd = by_ddp_intv \/ kd = by_cdp_intv ->
  acx_importance d es stray classifier q order sched kd a D Y m t C pi minimal stop = Gives e -> k < length (g_X a) ->
  (pi <= nth k (ImpModel.e_sdp e) 0)%Q -> calm stray Ts ->
  exists S, NoDup S /\ (forall s, In s S -> s < d) /\ reported (ImpSpec.row_of e k) = map Z.of_nat S /\
    (length S < d -> (forall T, In T Ts -> m <= length (companions (intv_guide S (nth k (g_cond a) rule0)) T D)) ->
     (nth k (ImpModel.e_sdp e) 0 ==
      mean_over (fun T => mean_over (fun j => averaged (method kd) classifier (nth k (g_y a) 0) (fst (levels_at q (g_X a) t k)) (snd (levels_at q (g_X a) t k))
                                                0 0 (nth j Y 0))
                                    (companions (intv_guide S (nth k (g_cond a) rule0)) T D)) Ts)%Q).
Proof.
  intros HE H0 H1 Hkd Hrun Hk Hp Hcalm.
  destruct (importance_state d w es Ts stray classifier q imp order sched kd a D Y t C m HE pi minimal stop H0) as (st & Hs & E). rewrite E in Hrun. injection Hrun as <-.
  assert (Er := ImpProofs2.row_collect d (length (g_X a)) st k Hk).
  destruct (h_va d w es Ts classifier imp order sched kd a D Y t C HE) as [G _].
  assert (Es : nth k (ImpModel.e_sdp (ImpModel.collect d (length (g_X a)) st)) 0%Q = SearchModel.r_sdp (s_rows st k)) by (rewrite <- Er; reflexivity).
  rewrite Es in *. rewrite Er.
  destruct (search_found v_rf d pi _ cut15 stop _ _ minimal st k G H0 H1 Hk Hs Hp) as (T & (HT & _ & _ & A4 & _) & HR & HL).
  destruct (subs_groups_ok d _ T G HT) as (B1 & B2 & _). exists (concat T). split; [exact B1|]. split; [exact B2|]. split; [exact HR|].
  intros L1 L3. destruct A4 as [A4|[A4 _]]; [|lia]. rewrite A4. unfold prob. destruct HE as (Hne & HF & Hd & _).
  assert (Hb : boxed (method kd)) by (destruct Hkd as [-> | ->]; cbn; tauto).
  assert (Ew : forall x box, walked (method kd) (concat T) x box = intv_guide (concat T) box) by (intros; destruct Hkd as [-> | ->]; reflexivity).
  replace (asked kd d (concat T)) with (concat T) by (destruct Hkd as [-> | ->]; reflexivity).
  match goal with |- context [due _ _ _ _ _ _ _ _ ?x ?yx ?dn ?up _ ?bx ?t0 ?t1] =>
    destruct (box_due d w es Ts stray classifier HF (method kd) D Y m Hb Hcalm x yx dn up (concat T) bx t0 t1) as [P _] end.
  - intros T' HT'. rewrite Ew. now apply L3.
  - rewrite Ew in P. rewrite P. apply mean_ext. intro T'. apply mean_ext. intro j. destruct Hkd as [-> | ->]; reflexivity.
Qed.

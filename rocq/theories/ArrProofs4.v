(** Proofs about the array programs together: orders of the loops, lists of columns. *)
From Verif Require Import Base TreeModel TreeSpec GameSpec ShapModel ShapProofs NopaModel NopaProofs AcvModel AcvProofs
  SdpModel SdpSpec SdpProofs ArrModel ArrSpec ArrProofs ArrProofs2 ArrProofs3.

Lemma in_order_any T X : any_order T (length X) (in_order T X).
Proof. intros b _. apply Permutation_refl. Qed.

(** ** The counts written out *)
Lemma compute_exp_plain m data Sv forest x : (compute_exp m data Sv forest x == plain_sum m data Sv x forest)%Q.
Proof.
  unfold compute_exp, plain_sum. apply sumf_ext. intros ls _. apply sumf_ext. intros lf _.
  unfold exp_leaf.
  assert (E1 : not_out_cl (l_rect lf) Sv x = forallb (fun s => ext_leb_q (fst (l_rect lf s)) (x s) &&
                 q_leb_ext (x s) (snd (l_rect lf s))) Sv).
  { rewrite not_out_cl_sat, sat_cl_forallb. apply forallb_ext_in. intros s _. unfold cl_itv. apply andb_comm. }
  assert (E2 : count_cl m data (l_rect lf) = rows_closed data (l_rect lf) (seq 0 m)).
  { unfold count_cl, rows_closed. f_equal. apply filter_ext. intro z. rewrite sat_cl_forallb.
    apply forallb_ext_in. intros s _. unfold cl_itv. apply andb_comm. }
  assert (E3 : count_s data (l_rect lf) Sv = rows_half data (l_rect lf) Sv).
  { unfold count_s, rows_half. f_equal. apply filter_ext. intro z. unfold sat. rewrite count_all. reflexivity. }
  rewrite E1, E2, E3. unfold gdiv. destruct (forallb _ _); reflexivity.
Qed.

(** ** Lists with the same columns *)
Lemma forallb_same (f : nat -> bool) l l' : same_cols l l' -> forallb f l = forallb f l'.
Proof.
  intro H. destruct (forallb f l) eqn:E; symmetry.
  - apply forallb_forall. intros s Hs. rewrite forallb_forall in E. apply E. now apply H.
  - destruct (forallb f l') eqn:E'; [|trivial]. rewrite <- E. symmetry. apply forallb_forall. intros s Hs.
    rewrite forallb_forall in E'. apply E'. now apply H.
Qed.
Lemma sat_same p l l' z : same_cols l l' -> sat p l z = sat p l' z.
Proof. intro H. unfold sat. rewrite !count_all. now apply forallb_same. Qed.
Lemma sat_cl_same p l l' z : same_cols l l' -> sat_cl p l z = sat_cl p l' z.
Proof. intro H. rewrite !sat_cl_forallb. now apply forallb_same. Qed.
Lemma not_out_cl_same p l l' z : same_cols l l' -> not_out_cl p l z = not_out_cl p l' z.
Proof. intro H. rewrite !not_out_cl_sat. now apply sat_cl_same. Qed.
Lemma not_out_same p l l' z : same_cols l l' -> not_out p l z = not_out p l' z.
Proof. intro H. rewrite !not_out_sat. unfold ShapSpec.sat_on; now apply forallb_same. Qed.
Lemma eq_on_cols l l' x z : same_cols l l' -> eq_on l x z = eq_on l' x z.
Proof. intro H. unfold eq_on. rewrite !count_all. now apply forallb_same. Qed.

Lemma exp_same m data l l' forest x : same_cols l l' ->
  (compute_exp m data l forest x == compute_exp m data l' forest x)%Q.
Proof.
  intro H. unfold compute_exp. apply sumf_ext. intros ls _. apply sumf_ext. intros lf _. unfold exp_leaf, count_s.
  rewrite (not_out_cl_same _ l l' x H). rewrite (filter_ext _ (sat (l_rect lf) l')); [reflexivity|].
  intro z. now apply sat_same.
Qed.
Lemma exp_cat_same m data l l' forest x : same_cols l l' ->
  (compute_exp_cat m data l forest x == compute_exp_cat m data l' forest x)%Q.
Proof.
  intro H. unfold compute_exp_cat. apply sumf_ext. intros ls _. apply sumf_ext. intros lf _. unfold exp_cat_leaf.
  rewrite (not_out_same _ l l' x H). rewrite (filter_ext (eq_on l x) (eq_on l' x)); [reflexivity|].
  intro z. now apply eq_on_cols.
Qed.
Lemma tree_norm_same m data l l' x ls : same_cols l l' ->
  (tree_norm m data l x ls == tree_norm m data l' x ls)%Q.
Proof.
  intro H. unfold tree_norm, no_share.
  assert (R : forall p, rows_half data p l = rows_half data p l').
  { intro p. unfold rows_half. f_equal. apply filter_ext. intro z. now apply forallb_same. }
  assert (E : existsb (fun lf => forallb (fun s => ext_leb_q (fst (l_rect lf s)) (x s) && q_leb_ext (x s) (snd (l_rect lf s))) l
                       && (rows_half data (l_rect lf) l =? 0)) ls
            = existsb (fun lf => forallb (fun s => ext_leb_q (fst (l_rect lf s)) (x s) && q_leb_ext (x s) (snd (l_rect lf s))) l'
                       && (rows_half data (l_rect lf) l' =? 0)) ls).
  { induction ls as [|lf ls IH]; cbn; [trivial|]. rewrite IH, R. f_equal. f_equal. now apply forallb_same. }
  cbv zeta.
  match goal with |- ((if ?a then _ else _) == (if ?b then _ else _))%Q => replace b with a by exact E; destruct a; [reflexivity|] end. match goal with |- (?a / ?b == ?c / ?d)%Q => cut (a == c /\ b == d)%Q; [intros [-> ->]; reflexivity|] end.
  split; apply sumf_ext; intros lf _; rewrite R; rewrite (forallb_same _ l l' H); reflexivity.
Qed.
Lemma nodup_same_len l l' : NoDup l -> NoDup l' -> same_cols l l' -> length l = length l'.
Proof.
  intros H1 H2 H. apply Permutation_length. apply NoDup_Permutation; trivial.
Qed.
Lemma sdp_cat_same m rows f l l' forest x : length l = length l' -> same_cols l l' ->
  (compute_sdp_clf_cat m rows f l forest x == compute_sdp_clf_cat m rows f l' forest x)%Q.
Proof.
  intros Hl H. unfold compute_sdp_clf_cat. rewrite Hl. destruct (length l' =? m); [reflexivity|].
  destruct (length l' =? 0); [reflexivity|]. cbv zeta.
  assert (E : eq_rows l x (clf_rows f rows) = eq_rows l' x (clf_rows f rows)).
  { unfold eq_rows. apply filter_ext. intro r. now apply eq_on_cols. }
  rewrite E. assert (G : forall rs, (cat_sum m l x rs forest == cat_sum m l' x rs forest)%Q).
  { intro rs. unfold cat_sum. apply sumf_ext. intros ls _. apply sumf_ext. intros lf _. unfold cat_leaf.
    now rewrite (not_out_cl_same _ l l' x H). }
  apply clip_mor. apply qdiv0_comp; rewrite !G; reflexivity.
Qed.
Lemma sdp_same m rows f l l' forest x : length l = length l' -> same_cols l l' ->
  (compute_sdp_clf m rows f l forest x == compute_sdp_clf m rows f l' forest x)%Q.
Proof.
  intros Hl H. unfold compute_sdp_clf. rewrite Hl. destruct (length l' =? m); [reflexivity|].
  destruct (length l' =? 0); [reflexivity|]. cbv zeta.
  assert (C : forall rs p, cnt (sat_cl p l) rs = cnt (sat_cl p l') rs).
  { intros rs p. unfold cnt. f_equal. apply filter_ext. intro r. now apply sat_cl_same. }
  assert (G : forall rs, (box_sum m l x rs forest == box_sum m l' x rs forest)%Q).
  { intro rs. unfold box_sum. cbv zeta. apply sumf_ext. intros ls _.
    assert (N : (sumf (box_norm m l x rs) ls == sumf (box_norm m l' x rs) ls)%Q).
    { apply sumf_ext. intros lf _. unfold box_norm. now rewrite (not_out_cl_same _ l l' x H), C. }
    apply sumf_ext. intros lf _. apply qdiv0_comp; [|exact N]. unfold box_leaf.
    now rewrite (not_out_cl_same _ l l' x H), C. }
  apply qdiv0_comp; rewrite !G; reflexivity.
Qed.

(** ** The programs *)
Section Two.
Variables (T : tabs) (m : nat) (X X' data : list pt) (Sv Sv' : list nat) (sched sched' : nat -> list (nat * nat)).
Hypothesis Tok : tabs_ok T.
Hypothesis Sok : any_order T (length X) sched.
Hypothesis Sok' : any_order T (length X') sched'.
Hypothesis SvOk : forall s, In s Sv -> s < m.
Hypothesis Same : same_cols Sv Sv'.

Lemma svok' : forall s, In s Sv' -> s < m.
Proof. intros s Hs. apply SvOk. now apply Same. Qed.

Lemma exp_two : exists res res',
  exp_prog T m X data Sv sched = Some res /\ exp_prog T m X' data Sv' sched' = Some res' /\
  forall i i' x j, nth_error X i = Some x -> nth_error X' i' = Some x -> j < t_out T -> (res i j == res' i' j)%Q.
Proof.
  destruct (exp_prog_ok T m X data Sv sched (fun _ _ => []) Tok Sok SvOk) as [res [E H]].
  destruct (exp_prog_ok T m X' data Sv' sched' (fun _ _ => []) Tok Sok' svok') as [res' [E' H']].
  exists res, res'. repeat split; auto. intros i i' x j Hx Hx' Hj.
  rewrite (H i x j Hx Hj), (H' i' x j Hx' Hj). now apply exp_same.
Qed.
Lemma exp_cat_two : exists res res',
  exp_cat_prog T m X data Sv sched = Some res /\ exp_cat_prog T m X' data Sv' sched' = Some res' /\
  forall i i' x j, nth_error X i = Some x -> nth_error X' i' = Some x -> j < t_out T -> (res i j == res' i' j)%Q.
Proof.
  destruct (exp_cat_prog_ok T m X data Sv sched (fun _ _ => []) Tok Sok SvOk) as [res [E H]].
  destruct (exp_cat_prog_ok T m X' data Sv' sched' (fun _ _ => []) Tok Sok' svok') as [res' [E' H']].
  exists res, res'. repeat split; auto. intros i i' x j Hx Hx' Hj.
  rewrite (H i x j Hx Hj), (H' i' x j Hx' Hj). now apply exp_cat_same.
Qed.
Lemma meets_same p x : meets p Sv x <-> meets p Sv' x.
Proof. split; intros H s Hs; apply H; now apply Same. Qed.
Lemma dbl_cases (d : dbl) : d = Dnan \/ d <> Dnan.
Proof. destruct d; [right; discriminate|right; discriminate|now left]. Qed.
Lemma norm_two : exists res res',
  norm_prog T m X data Sv sched = Some res /\ norm_prog T m X' data Sv' sched' = Some res' /\
  forall i i' x j, nth_error X i = Some x -> nth_error X' i' = Some x -> j < t_out T -> same_dbl (res i j) (res' i' j).
Proof.
  destruct (norm_prog_ok T m X data Sv sched (fun _ _ => []) Tok Sok SvOk) as [res [E H]].
  destruct (norm_prog_ok T m X' data Sv' sched' (fun _ _ => []) Tok Sok' svok') as [res' [E' H']].
  exists res, res'. repeat split; auto. intros i i' x j Hx Hx' Hj.
  destruct (H i x j Hx Hj) as [_ [H2 H3]]. destruct (H' i' x j Hx' Hj) as [_ [H2' H3']].
  assert (Heq : res i j = Dnan <-> res' i' j = Dnan).
  { rewrite H2, H2'. split; intros [b [k [K1 [K2 [K3 [K4 K5]]]]]]; exists b, k;
      (split; [exact K1|]); (split; [exact K2|]); (split; [|split; [exact K4|]]).
    - now apply meets_same.
    - rewrite <- K5. unfold rows_half. f_equal. apply filter_ext. intro z. apply forallb_same.
      intro s; symmetry; apply Same.
    - now apply meets_same.
    - rewrite <- K5. unfold rows_half. f_equal. apply filter_ext. intro z. now apply forallb_same. }
  destruct (dbl_cases (res i j)) as [D|D].
  - left. split; [exact D|now apply Heq].
  - right. eexists. split; [exact (H3 D)|]. destruct H3' as [r [Er Hr]].
    { intro K. apply D. now apply Heq. }
    exists r. split; [exact Er|]. rewrite Hr. apply sumf_ext. intros ls _. apply tree_norm_same.
    intro s; symmetry; apply Same.
Qed.

Variables (fX fX' y_pred : list nat).
Hypothesis Yok : length data <= length y_pred.
Hypothesis Fok : length X <= length fX.
Hypothesis Fok' : length X' <= length fX'.
Hypothesis Cok : forall f, In f fX -> f < t_out T.
Hypothesis Cok' : forall f, In f fX' -> f < t_out T.
Hypothesis Len : length Sv = length Sv'.
Lemma sdp_cat_two : exists res res',
  sdp_clf_cat_prog T m X data Sv sched fX y_pred = Some res /\
  sdp_clf_cat_prog T m X' data Sv' sched' fX' y_pred = Some res' /\
  forall i i' x f, nth_error X i = Some x -> nth_error fX i = Some f ->
    nth_error X' i' = Some x -> nth_error fX' i' = Some f -> (res i == res' i')%Q.
Proof.
  destruct (sdp_clf_cat_prog_ok T m X data Sv sched (fun _ _ => []) fX y_pred Tok Sok SvOk Yok Fok Cok) as [res [E H]].
  destruct (sdp_clf_cat_prog_ok T m X' data Sv' sched' (fun _ _ => []) fX' y_pred Tok Sok' svok' Yok Fok' Cok') as [res' [E' H']].
  exists res, res'. repeat split; auto. intros i i' x f Hx Hf Hx' Hf'.
  rewrite (H i x f Hx Hf), (H' i' x f Hx' Hf'). now apply sdp_cat_same.
Qed.
Variables upto upto' : nat -> nat.
Hypothesis Uok : forall b, b < t_trees T -> t_nb T b <= upto b.
Hypothesis Uok' : forall b, b < t_trees T -> t_nb T b <= upto' b.
Lemma sdp_two : exists res res',
  sdp_clf_prog T m X data Sv sched fX y_pred upto = Some res /\
  sdp_clf_prog T m X' data Sv' sched' fX' y_pred upto' = Some res' /\
  forall i i' x f, nth_error X i = Some x -> nth_error fX i = Some f ->
    nth_error X' i' = Some x -> nth_error fX' i' = Some f -> (res i == res' i')%Q.
Proof.
  destruct (sdp_clf_prog_ok T m X data Sv sched (fun _ _ => []) fX y_pred Tok Sok SvOk Yok Fok Cok upto Uok) as [res [E H]].
  destruct (sdp_clf_prog_ok T m X' data Sv' sched' (fun _ _ => []) fX' y_pred Tok Sok' svok' Yok Fok' Cok' upto' Uok') as [res' [E' H']].
  exists res, res'. repeat split; auto. intros i i' x f Hx Hf Hx' Hf'.
  rewrite (H i x f Hx Hf), (H' i' x f Hx' Hf'). now apply sdp_same.
Qed.
End Two.

Lemma exp_prog_plain T m X data Sv sched vars : tabs_ok T -> any_order T (length X) sched ->
  (forall s, In s Sv -> s < m) ->
  exists res, exp_prog T m X data Sv sched = Some res /\
  forall i x j, nth_error X i = Some x -> j < t_out T ->
    (res i j == plain_sum m data Sv x (forest_at T vars j))%Q.
Proof.
  intros H1 H2 H3. destruct (exp_prog_ok T m X data Sv sched vars H1 H2 H3) as [res [E H]].
  exists res. split; [exact E|]. intros i x j Hx Hj. rewrite (H i x j Hx Hj). apply compute_exp_plain.
Qed.
Lemma exp_cat_prog_mean T m X data Sv sched vars ts : tabs_ok T -> any_order T (length X) sched ->
  (forall s, In s Sv -> s < m) -> forallb (fun t => wf_tree t m) ts = true ->
  exists res, exp_cat_prog T m X data Sv sched = Some res /\
  forall i x j off rs, nth_error X i = Some x -> j < t_out T ->
    forest_leaves ts = Some (forest_at T vars j) ->
    Forall2 (fun z r => dense_tree_predict ts (length ts) off z no_missing = Some r)
            (filter (same_on Sv x) data) rs -> rs <> [] ->
    (res i j == sumf (fun r => r) rs / Qn (length rs) - off)%Q.
Proof.
  intros H1 H2 H3 Hw. destruct (exp_cat_prog_ok T m X data Sv sched vars H1 H2 H3) as [res [E H]].
  exists res. split; [exact E|]. intros i x j off rs Hx Hj Hf Hr Hn. rewrite (H i x j Hx Hj).
  eapply exp_cat_predictions; eassumption.
Qed.
Lemma sdp_clf_cat_prog_freq T m X data Sv sched vars fX y_pred : tabs_ok T -> any_order T (length X) sched ->
  (forall s, In s Sv -> s < m) -> length data <= length y_pred -> length X <= length fX ->
  (forall f, In f fX -> f < t_out T) ->
  exists res, sdp_clf_cat_prog T m X data Sv sched fX y_pred = Some res /\
  forall i x f, nth_error X i = Some x -> nth_error fX i = Some f ->
    (0 <= res i <= 1)%Q /\
    (0 < length Sv -> length Sv < m ->
     let ms := filter (fun r => same_on Sv x (fst r)) (combine data y_pred) in
     ms <> [] ->
     ~ (mean (fun r => closed_value m (forest_at T vars f) (fst r)) (filter (fun r => snd r =? f) ms) ==
        mean (fun r => closed_value m (forest_at T vars f) (fst r)) (filter (fun r => negb (snd r =? f)) ms))%Q ->
     (res i == Qn (length (filter (fun r => snd r =? f) ms)) / Qn (length ms))%Q).
Proof.
  intros H1 H2 H3 H4 H5 H6. destruct (sdp_clf_cat_prog_ok T m X data Sv sched vars fX y_pred H1 H2 H3 H4 H5 H6) as [res [E H]].
  exists res. split; [exact E|]. intros i x f Hx Hf. assert (R := H i x f Hx Hf). split.
  - rewrite R. apply sdp_clf_cat_prob.
  - intros L1 L2 ms Hn Hd. rewrite R. now apply sdp_clf_cat_exact.
Qed.

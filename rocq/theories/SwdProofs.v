(** Proofs about the swing values computed from the differences, as an array program. *)
From Verif Require Import Base TreeModel TreeSpec TreeProofs GameSpec GameProofs ShapModel ShapSpec ShapProofs NopaModel NopaProofs AcvModel SdpModel SdpSpec SdpProofs
  FlatModel ArrModel ArrSpec ArrProofs ArrProofs3 SwingModel SwingSpec SwingProofs EntryModel SbufModel SbufProofs SwgModel SwgProofs SwdModel.
Local Open Scope nat_scope.

(** ** Numbers or nothing *)
Definition oeq (a b : option Q) : Prop := match a, b with Some p, Some q => (p == q)%Q | None, None => True | _, _ => False end.
Lemma oeq_refl a : oeq a a. Proof. destruct a; cbn; [reflexivity|exact I]. Qed.
Lemma oeq_trans a b c : oeq a b -> oeq b c -> oeq a c.
Proof. destruct a, b, c; cbn; try tauto. intros -> ->. reflexivity. Qed.
Lemma oadd_comp a a' b b' : oeq a a' -> oeq b b' -> oeq (oadd a b) (oadd a' b').
Proof. destruct a, a', b, b'; cbn; try tauto. intros -> ->. reflexivity. Qed.
Lemma oadd_assoc a b c : oeq (oadd (oadd a b) c) (oadd a (oadd b c)).
Proof. destruct a, b, c; cbn; try exact I. ring. Qed.
Lemma oadd_0 a : oeq (oadd (Some 0%Q) a) a.
Proof. destruct a; cbn; [ring|exact I]. Qed.
Lemma oadd_0r a : oeq (oadd a (Some 0%Q)) a.
Proof. destruct a; cbn; [ring|exact I]. Qed.
Lemma osum_cons {A} (f : A -> option Q) a l : osum f (a :: l) = oadd (f a) (osum f l).
Proof. cbn. destruct (f a), (osum f l); reflexivity. Qed.
Lemma osum_ext {A} (f g : A -> option Q) l : (forall a, In a l -> oeq (f a) (g a)) -> oeq (osum f l) (osum g l).
Proof.
  induction l as [|a l IH]; intro H; [cbn; reflexivity|]. rewrite !osum_cons. apply oadd_comp; [apply H; now left|apply IH; intros; apply H; now right].
Qed.
Lemma osum_map {A B} (g : A -> B) (f : B -> option Q) l : osum f (map g l) = osum (fun a => f (g a)) l.
Proof. induction l as [|a l IH]; [reflexivity|]. cbn [map]. now rewrite !osum_cons, IH. Qed.
Lemma osum_app {A} (f : A -> option Q) l l' : oeq (osum f (l ++ l')) (oadd (osum f l) (osum f l')).
Proof.
  induction l as [|a l IH]; cbn [app].
  - change (osum f []) with (Some 0%Q). destruct (osum f l'); cbn; [ring|exact I].
  - rewrite !osum_cons. eapply oeq_trans; [apply oadd_comp; [apply oeq_refl|exact IH]|].
    destruct (f a), (osum f l), (osum f l'); cbn; try exact I. ring.
Qed.
Lemma osum_none {A} (f : A -> option Q) l a : In a l -> f a = None -> osum f l = None.
Proof.
  induction l as [|b l IH]; intros Hi H; [contradiction|]. rewrite osum_cons. destruct Hi as [->|Hi]; [now rewrite H|]. rewrite (IH Hi H). destruct (f b); reflexivity.
Qed.
Lemma osum_zero {A} (f : A -> option Q) l : (forall a, In a l -> oeq (f a) (Some 0%Q)) -> oeq (osum f l) (Some 0%Q).
Proof.
  intro H. induction l as [|a l IH]; [cbn; reflexivity|]. rewrite osum_cons. eapply oeq_trans; [apply oadd_comp; [apply H; now left|apply IH; intros; apply H; now right]|].
  cbn. reflexivity.
Qed.
Lemma fold_oadd {A} (f : A -> option Q) l : forall q, oeq (fold_left (fun ss k => oadd ss (f k)) l q) (oadd q (osum f l)).
Proof.
  induction l as [|a l IH]; intro q; cbn [fold_left].
  - destruct q; cbn; [ring|exact I].
  - rewrite osum_cons. eapply oeq_trans; [apply IH|apply oadd_assoc].
Qed.
Lemma fold_comp {A} (f : A -> option Q) l : forall q q', oeq q q' -> oeq (fold_left (fun ss k => oadd ss (f k)) l q) (fold_left (fun ss k => oadd ss (f k)) l q').
Proof. induction l as [|a l IH]; intros q q' H; cbn [fold_left]; [exact H|]. apply IH, oadd_comp; [exact H|apply oeq_refl]. Qed.
Lemma fold_oadd2 {A B} (f : A -> B -> option Q) (ks : A -> list B) l : forall q,
  oeq (fold_left (fun ss b => fold_left (fun ss k => oadd ss (f b k)) (ks b) ss) l q) (oadd q (osum (fun b => osum (f b) (ks b)) l)).
Proof.
  induction l as [|b l IH]; intro q; cbn [fold_left].
  - destruct q; cbn; [ring|exact I].
  - rewrite osum_cons. eapply oeq_trans; [apply IH|]. eapply oeq_trans; [apply oadd_comp; [apply fold_oadd|apply oeq_refl]|]. apply oadd_assoc.
Qed.
Lemma qeqb_comp a b : (a == b)%Q -> qeqb a 0 = qeqb b 0.
Proof. intro H. destruct (qeqb_spec a 0) as [e|e], (qeqb_spec b 0) as [e'|e']; try reflexivity; exfalso; [apply e'; now rewrite <- H|apply e; now rewrite H]. Qed.
Lemma cdiv_comp a a' b b' : (a == a')%Q -> (b == b')%Q -> oeq (cdiv a b) (cdiv a' b').
Proof. intros Ha Hb. unfold cdiv. rewrite (qeqb_comp b b' Hb). destruct (qeqb b' 0); cbn; [exact I|]. now rewrite Ha, Hb. Qed.
Lemma ratio_comp a a' u u' d d' : oeq a a' -> oeq u u' -> oeq d d' -> oeq (d_ratio a u d) (d_ratio a' u' d').
Proof.
  intros Ha Hu Hd. destruct u as [u|], u' as [u'|]; try contradiction; [|exact I]. destruct d as [d|], d' as [d'|]; try contradiction; [|exact I].
  unfold d_ratio. cbn [oeq] in Hu, Hd. assert (E : (u - d == u' - d')%Q) by now rewrite Hu, Hd. rewrite (qeqb_comp _ _ E). destruct (qeqb (u' - d') 0); [reflexivity|].
  destruct a as [a|], a' as [a'|]; try contradiction; [|exact I]. cbn [oeq option_map] in *. now rewrite Ha, E, Hd.
Qed.
Lemma qltb_comp a a' b : (a == a')%Q -> qltb a b = qltb a' b.
Proof. intro H. destruct (qltb_spec a b) as [l|l], (qltb_spec a' b) as [l'|l']; try reflexivity; exfalso; [apply l'; now rewrite <- H|apply l; now rewrite H]. Qed.
Lemma compare_comp thr s s' b b' : (s == s')%Q -> oeq b b' -> d_compare thr s b = d_compare thr s' b'.
Proof.
  intros Hs. destruct b, b'; cbn; try tauto. intro Hb. now rewrite (qltb_comp s s' thr Hs), (qltb_comp q q0 thr Hb).
Qed.

(** ** The rows *)
Lemma rows_pair {A B} (b0 : A * B -> pt -> nat -> option (A * B)) (b1 : A -> pt -> nat -> option A) (b2 : B -> pt -> nat -> option B) :
  (forall c z y u v, b1 (fst c) z y = Some u -> b2 (snd c) z y = Some v -> b0 c z y = Some (u, v)) ->
  forall d y c u v, rows_loop b1 d y (fst c) = Some u -> rows_loop b2 d y (snd c) = Some v -> rows_loop b0 d y c = Some (u, v).
Proof.
  intro H. induction d as [|z d IH]; intros [|w y] c u v; cbn [rows_loop]; try discriminate.
  - intros E1 E2. injection E1 as <-. injection E2 as <-. destruct c; reflexivity.
  - intros E1 E2. injection E1 as <-. injection E2 as <-. destruct c; reflexivity.
  - destruct (b1 (fst c) z w) as [u'|] eqn:E1; [|discriminate]. destruct (b2 (snd c) z w) as [v'|] eqn:E2; [|discriminate].
    rewrite (H c z w u' v' E1 E2). intros. apply IH; assumption.
Qed.

Section Diff.
Variables (T : tabs) (m : nat) (X data : list pt) (fX y_pred : list nat) (thr : Q) (Sv : list nat) (va : group)
  (order : nat -> list (nat * nat)) (stray : bool * bool * bool).
Variable vars : nat -> nat -> list nat.
Hypothesis Tok : tabs_ok T.
Hypothesis Nok : forall b, b < t_trees T -> 0 < t_nb T b.
Hypothesis Sok : any_order T (length X) order.
Hypothesis SvOk : forall s, In s Sv -> s < m.
Hypothesis VaOk : forall s, In s va -> s < m.
Hypothesis Yok : length data <= length y_pred.
Hypothesis Fok : length X <= length fX.
Hypothesis Cok : forall f, In f fX -> f < t_out T.
Notation rws := (combine data y_pred).
Notation body := (diff_body T m data y_pred Sv va).
Notation inA p := (sat_cl p (seq 0 m)).
Notation inM p := (fun z => sat_cl p Sv z && not_out p va z).

Lemma diff_loop p f : rows_loop (diff_row m Sv va p f) data y_pred (six0, six0)
  = Some (six_of (inA p) (sat_cl p Sv) (clf_rows f rws), six_of (inA p) (inM p) (clf_rows f rws)).
Proof.
  assert (E1 : rows_loop (box_row m Sv p (fun _ => 0%Q) f) data y_pred six0 = Some (six_of (inA p) (sat_cl p Sv) (clf_rows f rws)))
    by exact (box_loop m X data Sv fX y_pred SvOk Yok Fok p (fun _ => 0%Q) f).
  pose (second := fun (c : six) (z : pt) (y : nat) => Some (six_add c (six_of (inA p) (inM p) [(z, f =? y)]))).
  assert (E2 : rows_loop second data y_pred six0 = Some (six_of (inA p) (inM p) (clf_rows f rws))).
  { rewrite (rows_sum X data fX y_pred Yok Fok (inA p) (inM p) (fun _ => true) f second); [|reflexivity|exact Yok]. rewrite (six_0 X data fX y_pred Yok Fok). do 2 f_equal. apply filter_all. auto. }
  apply (rows_pair _ (box_row m Sv p (fun _ => 0%Q) f) second); [|exact E1|exact E2].
  intros c z y u v. unfold box_row, second, diff_row. destruct (in_cl_m m p z) as [n [-> Hn]]. destruct (in_cl_sat m p Sv z SvOk) as [n' [-> Hn']].
  rewrite Hn, Hn'. destruct (out_ho_not m va VaOk p z) as [o [-> Ho]].
  intros Eu Ev. injection Ev as <-. rewrite six_cons.
  assert (Eo : (o =? 0) = not_out p va z) by (destruct o; cbn in Ho |- *; destruct (not_out p va z); try reflexivity; discriminate).
  rewrite Eo. unfold count_row.
  destruct (sat_cl p Sv z) eqn:ES; destruct (f =? y) eqn:Ef; injection Eu as <-; do 2 f_equal; apply six_eq; cbn [p_ p_u p_d p_s p_su p_sd six_add six_of cnt up_rows down_rows filter length];
    destruct (sat_cl p (seq 0 m) z), (not_out p va z); cbn; lia.
Qed.
(** one pass *)
Definition met (b k : nat) (x : pt) (f : nat) : bool := diff_used Sv va x (leaf_at T vars f b k).
Lemma diff_run b k x f c : b < t_trees T -> k < t_nb T b -> f < t_out T ->
  body b k (x, f) c <> None /\
  ArrProofs3.adds true (six_of (inA (t_part T b k)) (sat_cl (t_part T b k) Sv) (clf_rows f rws)) (t_val T b (t_leaf T b k) f) (met b k x f) (fst c) (fst (run (body b) k (x, f) c)) /\
  ArrProofs3.adds true (six_of (inA (t_part T b k)) (inM (t_part T b k)) (clf_rows f rws)) (t_val T b (t_leaf T b k) f) (met b k x f) (snd c) (snd (run (body b) k (x, f) c)).
Proof.
  intros Hb Hk Hf. unfold run, diff_body, met, diff_used. cbn [l_rect leaf_at].
  destruct (out_cl_not m Sv SvOk (t_part T b k) x) as [o [-> ->]].
  destruct (not_out_cl (t_part T b k) Sv x); cbn [negb andb].
  - destruct (out_ho_not m va VaOk (t_part T b k) x) as [o' [-> ->]]. destruct (not_out (t_part T b k) va x); cbn [negb].
    + rewrite diff_loop. unfold value_at. assert (Hl := leaf_ok T Tok b k Hb Hk).
      destruct (Nat.ltb_spec (t_leaf T b k) (t_nodes T)); [|lia]. destruct (Nat.ltb_spec f (t_out T)); [|lia].
      cbn [andb fst snd]. split; [discriminate|]. unfold ArrProofs3.adds, add_cell. cbn [c_a c_u c_d n_a n_u n_d].
      repeat split; (rewrite ratio_one || rewrite ratio_gdiv); reflexivity.
    + split; [discriminate|]. unfold ArrProofs3.adds. repeat split; ring.
  - split; [discriminate|]. unfold ArrProofs3.adds. repeat split; ring.
Qed.
Section Out.
Variables (buf : nat -> nat -> nat -> cell6 * cell6) (i : nat) (x : pt) (f : nat).
Hypothesis Hf : f < t_out T.
Hypothesis Hin : forall b k, b < t_trees T -> k < t_nb T b -> buf b k i = run (body b) k (x, f) (cell0, cell0).
Hypothesis Hout : forall b k, b < t_trees T -> t_nb T b <= k -> buf b k i = (cell0, cell0).
Notation one := (fun b k i => fst (buf b k i)).
Notation two := (fun b k i => snd (buf b k i)).
Notation lf b k := (leaf_at T vars f b k).
Notation rs := (clf_rows f rws).
(** the number kept for a list of rows *)
Definition holds (g h : cell6 -> Q) (rows : list frow) : Prop :=
  forall b k, b < t_trees T -> k < t_nb T b ->
    ((g (fst (buf b k i)) == d_mean m Sv va x rows (lf b k)) /\ (h (fst (buf b k i)) == d_norm m Sv va x rows (lf b k)) /\
     (g (snd (buf b k i)) == d_mean_m m Sv va x rows (lf b k)) /\ (h (snd (buf b k i)) == d_norm_m m Sv va x rows (lf b k)))%Q.
Lemma cells_hold : holds c_a n_a rs /\ holds c_u n_u (up_rows rs) /\ holds c_d n_d (down_rows rs).
Proof.
  assert (K : forall b k, b < t_trees T -> k < t_nb T b -> _) by (intros b k Hb Hk; exact (proj2 (diff_run b k x f (cell0, cell0) Hb Hk Hf))).
  repeat split; rewrite (Hin b k H H0); destruct (K b k H H0) as [(A1 & A2 & A3 & A4) (B1 & B2 & B3 & B4)];
    destruct (A4 eq_refl) as (A5 & A6 & A7); destruct (B4 eq_refl) as (B5 & B6 & B7); cbn [fst snd cell0 c_a c_u c_d n_a n_u n_d] in *;
    first [rewrite A1|rewrite A2|rewrite A3|rewrite A5|rewrite A6|rewrite A7|rewrite B1|rewrite B2|rewrite B3|rewrite B5|rewrite B6|rewrite B7];
    rewrite Qplus_0_l; reflexivity.
Qed.
Section One.
Variables (g h : cell6 -> Q) (rows : list frow).
Hypothesis H : holds g h rows.
Hypothesis H0 : (g cell0 == 0)%Q.
Lemma n_one b : b < t_trees T -> (box_n T one h i b == sumf (d_norm m Sv va x rows) (map (leaf_at T vars f b) (seq 0 (t_nb T b))))%Q.
Proof. intro Hb. unfold box_n. rewrite sum_fold, Qplus_0_l, sumf_map. apply sumf_ext. intros k Hk. apply in_seq in Hk. apply H; lia. Qed.
Lemma n_two b : b < t_trees T -> (box_n T two h i b == sumf (d_norm_m m Sv va x rows) (map (leaf_at T vars f b) (seq 0 (t_nb T b))))%Q.
Proof. intro Hb. unfold box_n. rewrite sum_fold, Qplus_0_l, sumf_map. apply sumf_ext. intros k Hk. apply in_seq in Hk. apply H; lia. Qed.
Lemma ss_one upto : (forall b, b < t_trees T -> t_nb T b <= upto b) -> (box_ss T upto one g h i == d_sum m Sv va x rows (forest_at T vars f))%Q.
Proof.
  intro Uok. unfold box_ss, d_sum, forest_at. cbv zeta. rewrite sumf_map.
  assert (G : forall bs q, (fold_left (fun ss b => fold_left (fun ss k => ss +
        (if qeqb (box_n T one h i b) 0 then 0 else g (fst (buf b k i)) / box_n T one h i b)) (seq 0 (upto b)) ss) bs q
      == q + sumf (fun b => sumf (fun k => if qeqb (box_n T one h i b) 0 then 0 else g (fst (buf b k i)) / box_n T one h i b) (seq 0 (upto b))) bs)%Q).
  { induction bs as [|b bs IH]; intro q; cbn [fold_left sumf]; [ring|]. rewrite IH, sum_fold. ring. }
  rewrite G, Qplus_0_l. apply sumf_ext. intros b Hb. apply in_seq in Hb. unfold d_tree. rewrite (sumf_map (leaf_at T vars f b) (fun l => qdiv0 (d_mean m Sv va x rows l) _)).
  rewrite <- (sum_upto (t_nb T b) (upto b)) by (apply Uok; lia). apply sumf_ext. intros k _.
  assert (En := n_one b ltac:(lia)). destruct (Nat.ltb_spec k (t_nb T b)) as [L|L].
  - rewrite <- (SwingProofs.qdiv0_comp (g (fst (buf b k i))) _ (box_n T one h i b) _ (proj1 (H b k ltac:(lia) L)) En). reflexivity.
  - destruct (qeqb _ 0); [reflexivity|]. rewrite (Hout b k ltac:(lia) L). cbn [fst]. rewrite H0. unfold Qdiv. ring.
Qed.
Lemma ss_two guard upto (gd : list leaf -> bool) : (forall b, b < t_trees T -> t_nb T b <= upto b) ->
  (forall b, b < t_trees T -> guard b = gd (map (leaf_at T vars f b) (seq 0 (t_nb T b)))) ->
  oeq (diff_ss T guard upto two g h i) (d_sum_m gd m Sv va x rows (forest_at T vars f)).
Proof.
  intros Uok Hg. unfold diff_ss, d_sum_m, forest_at. cbv zeta. rewrite osum_map.
  eapply oeq_trans; [apply fold_oadd2|]. eapply oeq_trans; [apply oadd_0|]. apply osum_ext. intros b Hb. apply in_seq in Hb.
  unfold d_tree_m. rewrite <- (Hg b ltac:(lia)). assert (En := n_two b ltac:(lia)).
  replace (upto b) with (t_nb T b + (upto b - t_nb T b)) by (specialize (Uok b ltac:(lia)); lia). rewrite seq_app. cbn [Nat.add].
  eapply oeq_trans; [apply osum_app|]. destruct (guard b).
  - rewrite (osum_map (leaf_at T vars f b) (fun l => cdiv (d_mean_m m Sv va x rows l) _)).
    set (nn := sumf (d_norm_m m Sv va x rows) _) in *.
    assert (EA : oeq (osum (fun k => cdiv (g (snd (buf b k i))) (box_n T two h i b)) (seq 0 (t_nb T b))) (osum (fun k => cdiv (d_mean_m m Sv va x rows (lf b k)) nn) (seq 0 (t_nb T b)))).
    { apply osum_ext. intros k Hk. apply in_seq in Hk. apply cdiv_comp; [apply H; lia|exact En]. }
    destruct (qeqb_spec nn 0) as [e|e].
    + assert (N1 : osum (fun k => cdiv (g (snd (buf b k i))) (box_n T two h i b)) (seq 0 (t_nb T b)) = None).
      { apply (osum_none _ _ 0); [apply in_seq; specialize (Nok b ltac:(lia)); lia|]. unfold cdiv. rewrite (qeqb_comp _ _ En).
        destruct (qeqb_spec nn 0); [reflexivity|contradiction]. }
      rewrite N1 in EA |- *. cbn [oadd]. exact EA.
    + eapply oeq_trans; [apply oadd_comp; [exact EA|apply osum_zero]|apply oadd_0r].
      intros k Hk. apply in_seq in Hk. rewrite (Hout b k ltac:(lia) ltac:(lia)). cbn [snd]. unfold cdiv. rewrite (qeqb_comp _ _ En).
      destruct (qeqb_spec nn 0); [contradiction|]. cbn. rewrite H0. unfold Qdiv. ring.
  - eapply oeq_trans; [apply oadd_comp; apply osum_zero; intros; cbn; reflexivity|]. cbn. reflexivity.
Qed.
End One.
Lemma diff_out_ok : diff_out T m thr Sv va stray buf i = compute_sdp_swing_diff stray m rws f thr (forest_at T vars f) x Sv va.
Proof.
  destruct cells_hold as (Ha & Hu & Hd). unfold diff_out, compute_sdp_swing_diff.
  assert (Max : forall b, b < t_trees T -> t_nb T b <= t_max T) by (intros b Hb; apply (Tok b Hb)).
  assert (Le : forall b, b < t_trees T -> t_nb T b <= t_nb T b) by (intros; lia).
  assert (R : forall upto, (forall b, b < t_trees T -> t_nb T b <= upto b) ->
    (qdiv0 (box_ss T upto one c_a n_a i - box_ss T upto one c_d n_d i) (box_ss T upto one c_u n_u i - box_ss T upto one c_d n_d i) ==
     qdiv0 (d_sum m Sv va x rs (forest_at T vars f) - d_sum m Sv va x (down_rows rs) (forest_at T vars f))
           (d_sum m Sv va x (up_rows rs) (forest_at T vars f) - d_sum m Sv va x (down_rows rs) (forest_at T vars f)))%Q).
  { intros upto U. apply SwingProofs.qdiv0_comp; rewrite ?(ss_one c_a n_a rs Ha (Qeq_refl _) upto U), ?(ss_one c_u n_u _ Hu (Qeq_refl _) upto U), ?(ss_one c_d n_d _ Hd (Qeq_refl _) upto U); reflexivity. }
  destruct (length Sv =? 0) eqn:E0; cbn [negb andb].
  - destruct stray as [[sn su] sd]. apply compare_comp; [reflexivity|].
    apply ratio_comp; apply ss_two; trivial; reflexivity.
  - destruct (length Sv + length va =? m); cbn [negb].
    + apply compare_comp; [apply R; exact Max|apply oeq_refl].
    + apply compare_comp; [apply R; exact Le|].
      apply ratio_comp; apply ss_two; trivial; try reflexivity; intros b Hb; unfold guard_n; f_equal; apply qeqb_comp;
        [exact (n_one c_a n_a _ Ha b Hb)|exact (n_one c_u n_u _ Hu b Hb)|exact (n_one c_d n_d _ Hd b Hb)].
Qed.
End Out.
Theorem diff_call_ok : exists v, diff_call T m X data fX y_pred thr true Sv va order stray = Some v /\
  forall i x f, nth_error X i = Some x -> nth_error fX i = Some f ->
    v i = compute_sdp_swing_diff stray m rws f thr (forest_at T vars f) x Sv va.
Proof.
  unfold diff_call.
  destruct (own_ok T (get_f X fX) (length X) (get_f_ok X data fX y_pred Yok Fok) order body (cell0, cell0) Tok Sok) as [buf [E P]].
  { intros b k i [x f] c Hb Hk _ Hg. apply (get_f_inv T X fX Cok) in Hg. apply diff_run; trivial. apply Hg. }
  rewrite E. eexists. split; [reflexivity|]. intros i x f Hx Hf. cbn beta.
  assert (Hi : i < length X) by (apply nth_error_Some; rewrite Hx; discriminate).
  assert (Hg : get_f X fX i = Some (x, f)) by (unfold get_f; now rewrite Hx, Hf).
  assert (Hc : f < t_out T) by (apply Cok; eapply nth_error_In; exact Hf).
  apply diff_out_ok; [exact Hc| |].
  - intros b k Hb Hk. rewrite (P b k i (x, f) Hb Hi Hg). destruct (Nat.ltb_spec k (t_nb T b)); [reflexivity|lia].
  - intros b k Hb Hk. rewrite (P b k i (x, f) Hb Hi Hg). destruct (Nat.ltb_spec k (t_nb T b)); [lia|reflexivity].
Qed.
End Diff.

(** ** The routine *)
Section Routine.
Variables (m D N : nat) (C : list group) (diff : nat -> nat -> list nat -> group -> option (nat -> Q)) (adding : nat -> nat -> list nat) (junk : groups_buf).
Variable V : nat -> nat -> nat -> list nat -> group -> Q.
Hypothesis HC : coalitions_ok C m.
Hypothesis HD : m <= D.
Notation ids := (va_ids C m).
Notation np := (length (va_ids C m)).
Hypothesis Hdiff : forall va c Sv g, va < np -> c < 2 ^ (np - 1) -> (forall s, In s Sv -> s < m) -> (forall s, In s g -> s < m) -> exists v, diff va c Sv g = Some v /\ forall i, i < N -> v i = V i va c Sv g.
Hypothesis Hadd : forall va c, Permutation (adding va c) (seq 0 N).
Lemma direct_rows_spec w v cols : (forall c, In c cols -> c < m) -> forall order out, NoDup order -> (forall i, In i order -> i < N) ->
  exists out', direct_rows m N np w v cols order out = Some out' /\
    (forall i c, In i order -> out' i c = Nat.iter (count_occ Nat.eq_dec cols c) (bump np w (v i)) (out i c)) /\
    forall i c, ~ In i order -> out' i c = out i c.
Proof.
  intro Hc. unfold direct_rows. induction order as [|i0 order IH]; intros out Hn Ho; cbn [ofold].
  - exists out. split; [reflexivity|]. split; [intros i c []|reflexivity].
  - inversion Hn as [|? ? Hi Hl]; subst. rewrite (proj2 (Nat.ltb_lt _ _) (Ho i0 (or_introl eq_refl))).
    destruct (add_spec m C w (v i0) i0 cols out Hc) as (o1 & E1 & P1). rewrite E1.
    destruct (IH o1 Hl) as (o2 & E2 & P2 & P3); [intros; apply Ho; now right|]. exists o2. split; [exact E2|]. split.
    + intros i c [<-|Hin].
      * rewrite P3 by exact Hi. rewrite P1, Nat.eqb_refl. reflexivity.
      * rewrite P2 by exact Hin. rewrite P1. destruct (Nat.eqb_spec i i0); [congruence|reflexivity].
    + intros i c Hin. rewrite P3 by (intro; apply Hin; now right). rewrite P1. destruct (Nat.eqb_spec i i0); [exfalso; apply Hin; now left|reflexivity].
Qed.
Section Player.
Variables (va : nat) (idb : groups_buf).
Hypothesis Hva : va < np.
Hypothesis Hid : forall i, i < np -> read_group idb i = nth i ids [].
Notation others := (drop_nth va ids).
Notation player := (nth va ids []).
Definition dstep (i : nat) (j : nat) (s : swing) (c : nat) : swing :=
  Nat.iter (count_occ Nat.eq_dec player j) (bump np (1 / binomialC (np - 1) (length (pick c others))) (V i va c (concat (pick c others)) player)) s.
Lemma direct_counter_spec c st : c < 2 ^ (np - 1) -> length (w_S st) = m -> map (read_group (w_sm st)) (seq 0 (np - 1)) = others ->
  exists st', direct_counter m N diff adding np va idb st c = Some st' /\ length (w_S st') = m /\ w_sm st' = w_sm st /\
    forall i j, i < N -> w_out st' i j = dstep i j (w_out st i j) c.
Proof.
  intros Hc HS Hsm. unfold direct_counter. rewrite Hsm, (Hid va Hva).
  pose proof (pick_from_length 0 c others) as HL. fold (pick c others) in HL. pose proof (others_room m D C HC HD va Hva) as HR.
  destruct (fill_spec c others 0 (w_S st) 0 0) as (S1 & E1 & L1 & F1); [fold (pick c others); lia|].
  cbn [Nat.add firstn app] in E1, F1. fold (pick c others) in E1, F1. rewrite E1.
  rewrite !read_back by lia. rewrite F1.
  assert (In1 : forall s, In s (concat (pick c others)) -> s < m).
  { intros s Hs. apply in_concat in Hs. destruct Hs as (g & Hg & Hs). apply SbufProofs.pick_in in Hg. exact (ids_lt m C HC g s (others_in m C junk va Hva g Hg) Hs). }
  assert (In2 : forall s, In s player -> s < m) by (intros s Hs; exact (ids_lt m C HC _ s (player_in m C va Hva) Hs)).
  destruct (Hdiff va c (concat (pick c others)) player Hva Hc In1 In2) as (v & Ev & Pv). rewrite Ev.
  destruct (direct_rows_spec (1 / binomialC (np - 1) (length (pick c others)))%Q v player In2 (adding va c) (w_out st)) as (out & Eo & Po & _).
  - apply (Permutation_NoDup (Permutation_sym (Hadd va c))), seq_NoDup.
  - intros i Hi. apply (Permutation_in _ (Hadd va c)), in_seq in Hi. lia.
  - rewrite Eo. eexists. split; [reflexivity|]. cbn [w_S w_sm w_out]. split; [lia|]. split; [reflexivity|].
    intros i j Hi. rewrite Po by (apply (Permutation_in _ (Permutation_sym (Hadd va c))), in_seq; lia).
    unfold dstep. rewrite (Pv i Hi). reflexivity.
Qed.
Lemma direct_counters_spec : forall cs st, (forall c, In c cs -> c < 2 ^ (np - 1)) -> length (w_S st) = m -> map (read_group (w_sm st)) (seq 0 (np - 1)) = others ->
  exists st', ofold (direct_counter m N diff adding np va idb) cs st = Some st' /\ length (w_S st') = m /\
    forall i j, i < N -> w_out st' i j = fold_left (dstep i j) cs (w_out st i j).
Proof.
  induction cs as [|c cs IH]; intros st Hcs HS Hsm; cbn [ofold map fold_left].
  - exists st. split; [reflexivity|]. split; [exact HS|reflexivity].
  - destruct (direct_counter_spec c st (Hcs c (or_introl eq_refl)) HS Hsm) as (s1 & E1 & L1 & M1 & P1). rewrite E1.
    destruct (IH s1) as (s2 & E2 & L2 & P2); [intros; apply Hcs; now right|exact L1|now rewrite M1|]. exists s2. split; [exact E2|]. split; [exact L2|].
    intros i j Hi. rewrite (P2 i j Hi), (P1 i j Hi). reflexivity.
Qed.
Lemma direct_player_spec st : length (w_S st) = m ->
  exists st', direct_player m D N diff adding ids idb st va = Some st' /\ length (w_S st') = m /\
    forall i j, i < N -> w_out st' i j = fold_left (dstep i j) (seq 0 (2 ^ (np - 1))) (w_out st i j).
Proof.
  intro HS. unfold direct_player.
  destruct (write_groups_spec D others (w_sm st)) as (sm & E & P).
  { rewrite (others_length m D C HD va Hva). pose proof (ids_len m C HC). lia. }
  { intros g Hg. apply (ids_group m D C HC HD). now apply (others_in m C junk va Hva). }
  rewrite E.
  destruct (direct_counters_spec (seq 0 (2 ^ (np - 1))) (mkW (w_S st) sm (w_out st))) as (s' & E' & L' & P').
  { intros c Hc. apply in_seq in Hc. lia. }
  { exact HS. }
  { cbn [w_sm]. rewrite <- (others_length m D C HD va Hva). now apply read_groups. }
  exists s'. split; [exact E'|]. split; [exact L'|]. exact P'.
Qed.
End Player.
(** what the loops leave in one cell *)
Definition direct_cell (i j : nat) : swing :=
  over_players np (fold_left (fun s va => fold_left (dstep va i j) (seq 0 (2 ^ (np - 1))) s) (seq 0 np) swing0).
(** the same with the differences as a function of the players *)
Lemma direct_cell_sv (F : nat -> list nat -> group -> Q) i j : (forall va c S g, V i va c S g = F i S g) -> direct_cell i j = sv_with (F i) C m j.
Proof.
  intro H. unfold direct_cell, sv_with, sv_loop, over_players. cbv zeta.
  assert (G : forall vas s,
    fold_left (fun s va => fold_left (dstep va i j) (seq 0 (2 ^ (np - 1))) s) vas s =
    fold_left (fun s va => player_loop np (nth va ids []) (sv_coals ids va) (fun T => F i (concat T) (nth va ids [])) j s) vas s).
  { induction vas as [|va vas IH]; intros s; [reflexivity|]. cbn [fold_left]. rewrite IH. f_equal.
    unfold player_loop, sv_coals. generalize (seq 0 (2 ^ (np - 1))). intro cs. revert s. induction cs as [|c cs IHc]; intros s; [reflexivity|]. cbn [fold_left map].
    rewrite IHc. f_equal. unfold dstep. now rewrite H. }
  now rewrite G.
Qed.
Theorem direct_prog_ok : C <> [] -> exists r, direct_prog m D N C diff adding junk = Some r /\
  forall i j, i < N -> r i j = direct_cell i j.
Proof.
  intro Hne. unfold direct_prog. rewrite (va_id_arr_eq C m HC).
  assert (EC : forall {B} (x y : B), match C with [] => x | _ => y end = y) by (intros; destruct C; [contradiction|reflexivity]). rewrite EC.
  destruct (write_groups_spec D ids junk) as (idb & E & P); [pose proof (ids_len m C HC); lia|exact (ids_group m D C HC HD)|]. rewrite E.
  assert (G : forall vas st, (forall va, In va vas -> va < np) -> length (w_S st) = m ->
    exists st', ofold (direct_player m D N diff adding ids idb) vas st = Some st' /\
      forall i j, i < N -> w_out st' i j = fold_left (fun s va => fold_left (dstep va i j) (seq 0 (2 ^ (np - 1))) s) vas (w_out st i j)).
  { induction vas as [|va vas IH]; intros st Hv HS; cbn [ofold fold_left].
    - exists st. split; reflexivity.
    - destruct (direct_player_spec va idb (Hv va (or_introl eq_refl)) P st HS) as (s1 & E1 & L1 & P1). rewrite E1.
      destruct (IH s1) as (s2 & E2 & P2); [intros; apply Hv; now right|exact L1|]. exists s2. split; [exact E2|].
      intros i j Hi. rewrite (P2 i j Hi), (P1 i j Hi). reflexivity. }
  destruct (G (seq 0 np) (mkW (repeat 0 m) (fun _ _ => 0, fun _ => 0) (fun _ _ => swing0))) as (st & Es & Ps).
  { intros va Hv. apply in_seq in Hv. lia. }
  { apply repeat_length. }
  rewrite Es. cbn [option_map]. eexists. split; [reflexivity|]. intros i j Hi. cbn beta. rewrite (Ps i j Hi). reflexivity.
Qed.
End Routine.

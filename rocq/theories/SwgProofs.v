(** Proofs about the swing values as an array program. *)
From Verif Require Import Base TreeModel TreeSpec TreeProofs GameSpec GameProofs ShapModel ShapSpec ShapProofs NopaModel NopaProofs AcvModel SdpModel SdpSpec SdpProofs
  FlatModel ArrModel ArrSpec ArrProofs ArrProofs3 SwingModel SwingSpec SwingProofs EntryModel SbufModel SbufProofs SwgModel.
Local Open Scope nat_scope.

(** ** Loops over the observations *)
Lemma set1_same {V} (a : nat -> V) i v : set1 a i v i = v.
Proof. unfold set1. now rewrite Nat.eqb_refl. Qed.
Lemma set1_other {V} (a : nat -> V) i v j : j <> i -> set1 a i v j = a j.
Proof. intro H. unfold set1. destruct (Nat.eqb_spec j i); [contradiction|reflexivity]. Qed.
(** each observation once, its own cell only *)
Lemma own_cells {V} (g : nat -> V -> option V) : forall l (a : nat -> V), NoDup l -> (forall i, In i l -> exists v, g i (a i) = Some v) ->
  exists a', ofold (fun a i => match g i (a i) with Some v => Some (set1 a i v) | None => None end) l a = Some a' /\
    (forall i, In i l -> g i (a i) = Some (a' i)) /\ forall i, ~ In i l -> a' i = a i.
Proof.
  induction l as [|i l IH]; intros a Hn Hg; cbn [ofold].
  - exists a. split; [reflexivity|]. split; [intros i []|reflexivity].
  - inversion Hn as [|i' l' Hi Hl]; subst. destruct (Hg i (or_introl eq_refl)) as [v E]. rewrite E.
    assert (K : forall j, In j l -> set1 a i v j = a j) by (intros j Hj; apply set1_other; congruence).
    destruct (IH (set1 a i v) Hl) as (a' & E1 & E2 & E3).
    { intros j Hj. rewrite (K j Hj). apply Hg. now right. }
    exists a'. split; [exact E1|]. split.
    + intros j [<-|Hj]; [rewrite (E3 i Hi), set1_same; exact E|]. rewrite <- (K j Hj). now apply E2.
    + intros j Hj. rewrite E3 by (intro; apply Hj; now right). apply set1_other. intros ->. apply Hj. now left.
Qed.

(** ** The thresholded probability *)
Section Prob.
Variables (T : tabs) (m : nat) (X data : list pt) (fX y_pred : list nat) (thr : Q) (rowing : list nat -> nat -> nat -> list nat).
Variable vars : nat -> nat -> list nat.
Hypothesis Tok : tabs_ok T.
Hypothesis Yok : length data <= length y_pred.
Hypothesis Fok : length X <= length fX.
Hypothesis Cok : forall f, In f fX -> f < t_out T.
Hypothesis Rok : forall Sv b k, Permutation (rowing Sv b k) (seq 0 (length X)).
Notation N := (length X).
Notation body Sv := (sdp_body T m data Sv y_pred false (box_row m Sv)).
Notation rws := (combine data y_pred).
Section Set_.
Variable Sv : list nat.
Hypothesis SvOk : forall s, In s Sv -> s < m.

Lemma body_some b k i xf c : b < t_trees T -> k < t_nb T b -> get_f X fX i = Some xf ->
  body Sv b k xf c = Some (run (body Sv b) k xf c).
Proof.
  intros Hb Hk Hg. destruct xf as [x f].
  assert (Hf : f < t_out T).
  { unfold get_f in Hg. destruct (nth_error X i); [|discriminate]. destruct (nth_error fX i) eqn:E; [|discriminate]. injection Hg as _ <-. apply Cok. eapply nth_error_In; exact E. }
  pose proof (proj1 (sdp_body_run T m X data Sv fX y_pred Tok SvOk Yok Fok false (box_row m Sv) _ _ _ b k x f c (box_loop m X data Sv fX y_pred SvOk Yok Fok (t_part T b k) x f) Hb Hk Hf)) as H.
  unfold run. destruct (body Sv b k (x, f) c); [reflexivity|congruence].
Qed.
Lemma leaf_pass b k mf : b < t_trees T -> k < t_nb T b ->
  exists mf', swing_leaf T m X data fX y_pred rowing Sv b mf k = Some mf' /\
    forall i xf, get_f X fX i = Some xf -> mf' i = run (body Sv b) k xf (mf i).
Proof.
  intros Hb Hk. unfold swing_leaf. replace (k <? t_max T) with true by (symmetry; apply Nat.ltb_lt; destruct (Tok b Hb); lia).
  assert (Gi : forall i, i < N -> exists xf, get_f X fX i = Some xf) by (intros i Hi; exact (get_f_ok X data fX y_pred Yok Fok i Hi)).
  destruct (own_cells (fun i c => match get_f X fX i with Some xf => body Sv b k xf c | None => None end) (rowing Sv b k) mf) as (mf' & E1 & E2 & _).
  - apply (Permutation_NoDup (Permutation_sym (Rok Sv b k))), seq_NoDup.
  - intros i Hi. apply (Permutation_in _ (Rok Sv b k)), in_seq in Hi. destruct (Gi i ltac:(lia)) as [xf E]. rewrite E.
    eexists. apply (body_some b k i xf); trivial.
  - exists mf'. split.
    + rewrite <- E1. apply ofold_ext. intros a i _. unfold swing_pass. destruct (get_f X fX i); reflexivity.
    + intros i xf Hg. assert (Hi : In i (rowing Sv b k)).
      { apply (Permutation_in _ (Permutation_sym (Rok Sv b k))), in_seq. unfold get_f in Hg.
        assert (nth_error X i <> None) by (destruct (nth_error X i); [discriminate|discriminate Hg]). apply nth_error_Some in H. lia. }
      specialize (E2 i Hi). rewrite Hg in E2. rewrite (body_some b k i xf (mf i) Hb Hk Hg) in E2. congruence.
Qed.
(** the cell of an observation after some leaves and trees *)
Definition after_leaves (xf : pt * nat) (b : nat) (ks : list nat) (c : cell6) : cell6 := fold_left (fun c k => run (body Sv b) k xf c) ks c.
Definition after_trees (xf : pt * nat) (bs : list nat) (c : cell6) : cell6 := fold_left (fun c b => after_leaves xf b (seq 0 (t_nb T b)) c) bs c.
Lemma leaves_pass b : b < t_trees T -> forall ks mf, (forall k, In k ks -> k < t_nb T b) ->
  exists mf', ofold (swing_leaf T m X data fX y_pred rowing Sv b) ks mf = Some mf' /\
    forall i xf, get_f X fX i = Some xf -> mf' i = after_leaves xf b ks (mf i).
Proof.
  intros Hb. induction ks as [|k ks IH]; intros mf Hks; cbn [ofold].
  - exists mf. split; reflexivity.
  - destruct (leaf_pass b k mf Hb (Hks k (or_introl eq_refl))) as (m1 & E1 & P1). rewrite E1.
    destruct (IH m1) as (m2 & E2 & P2); [intros; apply Hks; now right|]. exists m2. split; [exact E2|].
    intros i xf Hg. rewrite (P2 i xf Hg), (P1 i xf Hg). reflexivity.
Qed.
Lemma forest_pass : exists mf, swing_forest T m X data fX y_pred rowing Sv = Some mf /\
  forall i xf, get_f X fX i = Some xf -> mf i = after_trees xf (seq 0 (t_trees T)) cell0.
Proof.
  unfold swing_forest.
  assert (G : forall bs mf, (forall b, In b bs -> b < t_trees T) -> exists mf', ofold (fun mf b => ofold (swing_leaf T m X data fX y_pred rowing Sv b) (seq 0 (t_nb T b)) mf) bs mf = Some mf' /\
    forall i xf, get_f X fX i = Some xf -> mf' i = after_trees xf bs (mf i)).
  { induction bs as [|b bs IH]; intros mf Hbs; cbn [ofold].
    - exists mf. split; reflexivity.
    - destruct (leaves_pass b (Hbs b (or_introl eq_refl)) (seq 0 (t_nb T b)) mf) as (m1 & E1 & P1); [intros k Hk; apply in_seq in Hk; lia|]. rewrite E1.
      destruct (IH m1) as (m2 & E2 & P2); [intros; apply Hbs; now right|]. exists m2. split; [exact E2|].
      intros i xf Hg. rewrite (P2 i xf Hg), (P1 i xf Hg). reflexivity. }
  apply G. intros b Hb. apply in_seq in Hb. lia.
Qed.
Lemma cell_sum (g : cell6 -> Q) (pick : list frow -> list frow) x f : f < t_out T ->
  (g cell0 == 0)%Q ->
  (forall b k c, b < t_trees T -> k < t_nb T b ->
     (g (run (body Sv b) k (x, f) c) == g c + box_leaf m Sv x (pick (clf_rows f rws)) (leaf_at T vars f b k))%Q) ->
  (g (after_trees (x, f) (seq 0 (t_trees T)) cell0) == swing_mean m Sv x (pick (clf_rows f rws)) (forest_at T vars f))%Q.
Proof.
  intros Hf H0 Hs. unfold swing_mean. rewrite sumf_forest.
  assert (G : forall bs c, (forall b, In b bs -> b < t_trees T) ->
    (g (after_trees (x, f) bs c) == g c + sumf (fun b => sumf (fun k => box_leaf m Sv x (pick (clf_rows f rws)) (leaf_at T vars f b k)) (seq 0 (t_nb T b))) bs)%Q).
  { induction bs as [|b bs IH]; intros c Hbs; cbn [after_trees fold_left sumf]; [ring|]. fold (after_trees (x, f) bs).
    unfold after_trees in IH |- *. rewrite IH by (intros; apply Hbs; now right).
    assert (L : forall ks c, (forall k, In k ks -> k < t_nb T b) ->
      (g (after_leaves (x, f) b ks c) == g c + sumf (fun k => box_leaf m Sv x (pick (clf_rows f rws)) (leaf_at T vars f b k)) ks)%Q).
    { induction ks as [|k ks IHk]; intros c0 Hks; cbn [after_leaves fold_left sumf]; [ring|]. unfold after_leaves in IHk. rewrite IHk by (intros; apply Hks; now right).
      rewrite Hs; [ring|apply Hbs; now left|apply Hks; now left]. }
    rewrite L by (intros k Hk; apply in_seq in Hk; lia). ring. }
  rewrite G, H0; [ring|]. intros b Hb. apply in_seq in Hb. lia.
Qed.
Lemma call_ok : exists v, swing_call T m X data fX y_pred thr true rowing Sv = Some v /\
  forall i x f, nth_error X i = Some x -> nth_error fX i = Some f ->
    v i = compute_sdp_swing m rws f thr (forest_at T vars f) x Sv.
Proof.
  unfold swing_call, compute_sdp_swing. destruct (length Sv =? m); [eexists; split; reflexivity|].
  destruct (length Sv =? 0); [eexists; split; reflexivity|].
  destruct forest_pass as (mf & E & P). rewrite E. eexists. split; [reflexivity|].
  intros i x f Hx Hf. assert (Hg : get_f X fX i = Some (x, f)) by (unfold get_f; now rewrite Hx, Hf).
  assert (Hc : f < t_out T) by (apply Cok; eapply nth_error_In; exact Hf).
  cbn beta. rewrite (P i _ Hg). unfold swing_level.
  assert (B : forall b k c, b < t_trees T -> k < t_nb T b -> _) by
    (intros b k c Hb Hk; exact (proj2 (sdp_body_run T m X data Sv fX y_pred Tok SvOk Yok Fok false (box_row m Sv) _ _ _ b k x f c
       (box_loop m X data Sv fX y_pred SvOk Yok Fok (t_part T b k) x f) Hb Hk Hc))).
  assert (EA := cell_sum c_a (fun r => r) x f Hc (Qeq_refl _) (fun b k c Hb Hk => proj1 (B b k c Hb Hk))).
  assert (EU := cell_sum c_u up_rows x f Hc (Qeq_refl _) (fun b k c Hb Hk => proj1 (proj2 (B b k c Hb Hk)))).
  assert (ED := cell_sum c_d down_rows x f Hc (Qeq_refl _) (fun b k c Hb Hk => proj1 (proj2 (proj2 (B b k c Hb Hk))))).
  assert (ER : (qdiv0 (c_a (after_trees (x, f) (seq 0 (t_trees T)) cell0) - c_d (after_trees (x, f) (seq 0 (t_trees T)) cell0))
      (c_u (after_trees (x, f) (seq 0 (t_trees T)) cell0) - c_d (after_trees (x, f) (seq 0 (t_trees T)) cell0)) ==
    qdiv0 (swing_mean m Sv x (clf_rows f rws) (forest_at T vars f) - swing_mean m Sv x (down_rows (clf_rows f rws)) (forest_at T vars f))
      (swing_mean m Sv x (up_rows (clf_rows f rws)) (forest_at T vars f) - swing_mean m Sv x (down_rows (clf_rows f rws)) (forest_at T vars f)))%Q).
  { apply SwingProofs.qdiv0_comp; rewrite ?EA, ?EU, ?ED; reflexivity. }
  rewrite (SwingProofs.qleb_eq thr thr _ _ (Qeq_refl _) ER). reflexivity.
Qed.
End Set_.
End Prob.

(** ** The buffers of columns *)
Lemma write_row_from D i g : i < D -> forall o a, o + length g <= D ->
  exists a', ofold (fun a jv => if (i <? D) && (fst jv <? D) then Some (set2 a i (fst jv) (snd jv)) else None) (combine (seq o (length g)) g) a = Some a' /\
    (forall j, j < length g -> a' i (o + j) = nth j g 0) /\ (forall j, j < o -> a' i j = a i j) /\ forall i' j, i' <> i -> a' i' j = a i' j.
Proof.
  intro Hi. induction g as [|v g IH]; intros o a Ho; cbn [length seq combine ofold fst snd] in *.
  - exists a. repeat split; intros; try lia; reflexivity.
  - assert (Eb : (i <? D) && (o <? D) = true) by (apply andb_true_iff; split; apply Nat.ltb_lt; lia). rewrite Eb.
    destruct (IH (S o) (set2 a i o v)) as (a' & E & P1 & P2 & P3); [lia|]. exists a'. split; [exact E|]. split; [|split].
    + intros [|j] Hj; cbn [nth].
      * rewrite Nat.add_0_r. rewrite P2 by lia. unfold set2. now rewrite !Nat.eqb_refl.
      * replace (o + S j) with (S o + j) by lia. apply P1. lia.
    + intros j Hj. rewrite P2 by lia. unfold set2. destruct (Nat.eqb_spec j o); [lia|]. now rewrite andb_false_r.
    + intros i' j Hn. rewrite P3 by exact Hn. unfold set2. destruct (Nat.eqb_spec i' i); [contradiction|reflexivity].
Qed.
Lemma write_groups_from D gs : (forall g, In g gs -> length g <= D) -> forall o s, o + length gs <= D ->
  exists s', ofold (fun s ig => let '(i, g) := ig in
      if i <? D then match write_row D i g (fst s) with Some a => Some (a, set1 (snd s) i (length g)) | None => None end else None)
      (combine (seq o (length gs)) gs) s = Some s' /\
    (forall i, i < length gs -> read_group s' (o + i) = nth i gs []) /\ forall i, i < o -> read_group s' i = read_group s i.
Proof.
  induction gs as [|g gs IH]; intros Hg o s Ho; cbn [length seq combine ofold] in *.
  - exists s. split; [reflexivity|]. split; intros; [lia|reflexivity].
  - rewrite (proj2 (Nat.ltb_lt o D)) by lia.
    destruct (write_row_from D o g ltac:(lia) 0 (fst s)) as (a & E & P1 & _ & P3); [cbn; apply Hg; now left|].
    unfold write_row, indexed. rewrite E.
    destruct (IH (fun g' H => Hg g' (or_intror H)) (S o) (a, set1 (snd s) o (length g))) as (s' & E' & Q1 & Q2); [lia|].
    exists s'. split; [exact E'|]. split.
    + intros [|i] Hi; cbn [nth].
      * rewrite Nat.add_0_r. rewrite Q2 by lia. unfold read_group. cbn [fst snd]. rewrite set1_same.
        apply nth_ext with (d := 0) (d' := 0); [now rewrite map_length, seq_length|].
        intros j Hj. rewrite map_length, seq_length in Hj.
        rewrite (nth_indep _ 0 (a o 0)) by (now rewrite map_length, seq_length). rewrite (map_nth (a o)), seq_nth by exact Hj. cbn [Nat.add]. exact (P1 j Hj).
      * replace (o + S i) with (S o + i) by lia. apply Q1. lia.
    + intros i Hi. rewrite Q2 by lia. unfold read_group. cbn [fst snd]. rewrite set1_other by lia. apply map_ext. intro j. apply P3. lia.
Qed.
Lemma write_groups_spec D gs s : length gs <= D -> (forall g, In g gs -> length g <= D) ->
  exists s', write_groups D gs s = Some s' /\ forall i, i < length gs -> read_group s' i = nth i gs [].
Proof. intros H1 H2. destruct (write_groups_from D gs H2 0 s H1) as (s' & E & P & _). exists s'. split; [exact E|exact P]. Qed.
Lemma read_groups s gs : (forall i, i < length gs -> read_group s i = nth i gs []) -> map (read_group s) (seq 0 (length gs)) = gs.
Proof.
  intro H. apply nth_ext with (d := []) (d' := []); [now rewrite map_length, seq_length|]. intros i Hi. rewrite map_length, seq_length in Hi.
  rewrite (nth_indep _ [] (read_group s 0)) by (now rewrite map_length, seq_length). rewrite map_nth, seq_nth by exact Hi. now apply H.
Qed.

(** ** The routine *)
Section Routine.
Variables (m D N : nat) (C : list group) (call : list nat -> option (nat -> Q)) (adding : nat -> nat -> list nat) (junk : groups_buf).
Variable V : nat -> list nat -> Q.
Hypothesis HC : coalitions_ok C m.
Hypothesis HD : m <= D.
Hypothesis Hcall : forall Sv, (forall s, In s Sv -> s < m) -> exists v, call Sv = Some v /\ forall i, i < N -> v i = V i Sv.
Hypothesis Hadd : forall va c, Permutation (adding va c) (seq 0 N).
Notation ids := (va_ids C m).
Notation np := (length (va_ids C m)).
Lemma ids_ok : is_players C m ids. Proof. exact (va_ids_players C m HC). Qed.
Lemma ids_concat : length (concat ids) = m. Proof. exact (players_concat C m ids HC ids_ok). Qed.
Lemma ids_len : np <= m. Proof. exact (players_length C m ids HC ids_ok). Qed.
Lemma ids_lt g s : In g ids -> In s g -> s < m. Proof. intros Hg Hs. exact (player_bound C m ids g s HC ids_ok Hg Hs). Qed.
Lemma length_in_concat {A} (l : list (list A)) g : In g l -> length g <= length (concat l).
Proof. induction l as [|a l IH]; [intros []|]. cbn [concat]. rewrite app_length. intros [->|H]; [lia|specialize (IH H); lia]. Qed.
Lemma ids_group g : In g ids -> length g <= D.
Proof. intro H. pose proof (length_in_concat _ _ H). rewrite ids_concat in H0. lia. Qed.

(** the additions for one observation *)
Lemma add_spec w dd i : forall cols out, (forall c, In c cols -> c < m) ->
  exists out', swing_add m np w dd i cols out = Some out' /\
    forall i' c, out' i' c = if i' =? i then Nat.iter (count_occ Nat.eq_dec cols c) (bump np w dd) (out i c) else out i' c.
Proof.
  unfold swing_add. induction cols as [|c0 cols IH]; intros out Hc; cbn [ofold].
  - exists out. split; [reflexivity|]. intros i' c. cbn. destruct (Nat.eqb_spec i' i) as [->|]; reflexivity.
  - rewrite (proj2 (Nat.ltb_lt _ _) (Hc c0 (or_introl eq_refl))).
    destruct (IH (set2 out i c0 (bump np w dd (out i c0)))) as (out' & E & P); [intros; apply Hc; now right|].
    exists out'. split; [exact E|]. intros i' c. rewrite P. destruct (Nat.eqb_spec i' i) as [->|Hn].
    + unfold set2. rewrite Nat.eqb_refl. cbn [andb count_occ]. destruct (Nat.eq_dec c0 c) as [->|Hne].
      * rewrite Nat.eqb_refl. change (Nat.iter (S ?n) ?f ?x) with (f (Nat.iter n f x)).
        induction (count_occ Nat.eq_dec cols c) as [|n IHn]; [reflexivity|]. change (Nat.iter (S ?n) ?f ?x) with (f (Nat.iter n f x)). now rewrite IHn.
      * destruct (Nat.eqb_spec c c0); [congruence|reflexivity].
    + unfold set2. destruct (Nat.eqb_spec i' i); [contradiction|reflexivity].
Qed.
Lemma rows_spec w vp vm cols : (forall c, In c cols -> c < m) -> forall order out, NoDup order -> (forall i, In i order -> i < N) ->
  exists out', swing_rows m N np w vp vm cols order out = Some out' /\
    (forall i c, In i order -> out' i c = Nat.iter (count_occ Nat.eq_dec cols c) (bump np w (vp i - vm i)%Q) (out i c)) /\
    forall i c, ~ In i order -> out' i c = out i c.
Proof.
  intro Hc. unfold swing_rows. induction order as [|i0 order IH]; intros out Hn Ho; cbn [ofold].
  - exists out. split; [reflexivity|]. split; [intros i c []|reflexivity].
  - inversion Hn as [|? ? Hi Hl]; subst. rewrite (proj2 (Nat.ltb_lt _ _) (Ho i0 (or_introl eq_refl))).
    destruct (add_spec w (vp i0 - vm i0)%Q i0 cols out Hc) as (o1 & E1 & P1). rewrite E1.
    destruct (IH o1 Hl) as (o2 & E2 & P2 & P3); [intros; apply Ho; now right|]. exists o2. split; [exact E2|]. split.
    + intros i c [<-|Hin].
      * rewrite P3 by exact Hi. rewrite P1, Nat.eqb_refl. reflexivity.
      * rewrite P2 by exact Hin. rewrite P1. destruct (Nat.eqb_spec i i0); [congruence|reflexivity].
    + intros i c Hin. rewrite P3 by (intro; apply Hin; now right). rewrite P1. destruct (Nat.eqb_spec i i0); [exfalso; apply Hin; now left|reflexivity].
Qed.
Section Player.
Variables (va : nat) (idb : groups_buf).
Hypothesis Hva : va < np.
Hypothesis Hid : forall i, i < np -> read_group idb i = nth i ids [].
Notation others := (drop_nth va ids).
Notation player := (nth va ids []).
Lemma others_split : exists l1 l2, ids = l1 ++ player :: l2 /\ others = l1 ++ l2.
Proof.
  destruct (nth_split ids [] Hva) as (l1 & l2 & E & L). exists l1, l2. split; [exact E|].
  set (g := nth va ids []) in *. clearbody g. rewrite E, <- L. apply drop_nth_split.
Qed.
Lemma others_length : length others = np - 1.
Proof. destruct others_split as (l1 & l2 & E & ->). rewrite E, !app_length. cbn [length]. lia. Qed.
Lemma others_in g : In g others -> In g ids.
Proof. destruct others_split as (l1 & l2 & E & ->). rewrite E, !in_app_iff. cbn [In]. tauto. Qed.
Lemma others_room : length (concat others) + length player = m.
Proof.
  pose proof ids_concat as H. destruct others_split as (l1 & l2 & E & Eo). rewrite Eo. rewrite E in H at 1.
  rewrite concat_app in *. cbn [concat] in H. rewrite !app_length in *. lia.
Qed.
Lemma player_in : In player ids. Proof. apply nth_In. exact Hva. Qed.
Definition step (i : nat) (cols : group) (c : nat) (s : swing) (Tm : list group) : swing :=
  Nat.iter (count_occ Nat.eq_dec cols c) (bump np (1 / binomialC (np - 1) (length Tm)) (call_twice (V i) (concat Tm) cols)) s.
Lemma counter_spec c st : length (w_S st) = m -> map (read_group (w_sm st)) (seq 0 (np - 1)) = others ->
  exists st', swing_counter m N call adding np va idb st c = Some st' /\ length (w_S st') = m /\ w_sm st' = w_sm st /\
    forall i j, i < N -> w_out st' i j = step i player j (w_out st i j) (pick c others).
Proof.
  intros HS Hsm. unfold swing_counter. rewrite Hsm, (Hid va Hva).
  pose proof (pick_from_length 0 c others) as HL. fold (pick c others) in HL. pose proof others_room as HR.
  destruct (fill_spec c others 0 (w_S st) 0 0) as (S1 & E1 & L1 & F1); [fold (pick c others); lia|].
  cbn [Nat.add firstn app] in E1, F1. fold (pick c others) in E1, F1. rewrite E1.
  destruct (put_group_spec player S1 (length (concat (pick c others)))) as (S2 & E2 & L2 & F2); [lia|]. rewrite E2.
  rewrite !read_back by lia. rewrite F2, F1.
  assert (F3 : firstn (length (concat (pick c others))) S2 = concat (pick c others)).
  { rewrite <- F1 at 2.
    assert (K : firstn (length (concat (pick c others))) (firstn (length (concat (pick c others)) + length player) S2) = firstn (length (concat (pick c others))) S2)
      by (rewrite firstn_firstn; f_equal; lia).
    rewrite <- K, F2, firstn_app, firstn_firstn, firstn_length. rewrite Nat.min_id.
    replace (length (concat (pick c others)) - Nat.min (length (concat (pick c others))) (length S1)) with 0 by lia. cbn [firstn]. apply app_nil_r. }
  rewrite F3.
  assert (In1 : forall s, In s (concat (pick c others)) -> s < m).
  { intros s Hs. apply in_concat in Hs. destruct Hs as (g & Hg & Hs). apply SbufProofs.pick_in in Hg. exact (ids_lt g s (others_in g Hg) Hs). }
  destruct (Hcall (concat (pick c others) ++ player)) as (vp & Ep & Pp).
  { intros s Hs. apply in_app_iff in Hs. destruct Hs as [Hs|Hs]; [now apply In1|exact (ids_lt _ s player_in Hs)]. }
  destruct (Hcall (concat (pick c others)) In1) as (vm & Em & Pm).
  rewrite Ep, Em.
  destruct (rows_spec (1 / binomialC (np - 1) (length (pick c others)))%Q vp vm player (fun s Hs => ids_lt _ s player_in Hs) (adding va c) (w_out st)) as (out & Eo & Po & _).
  - apply (Permutation_NoDup (Permutation_sym (Hadd va c))), seq_NoDup.
  - intros i Hi. apply (Permutation_in _ (Hadd va c)), in_seq in Hi. lia.
  - rewrite Eo. eexists. split; [reflexivity|]. cbn [w_S w_sm w_out]. split; [lia|]. split; [reflexivity|].
    intros i j Hi. rewrite Po by (apply (Permutation_in _ (Permutation_sym (Hadd va c))), in_seq; lia).
    unfold step, call_twice. rewrite (Pp i Hi), (Pm i Hi). reflexivity.
Qed.
Lemma counters_spec : forall cs st, length (w_S st) = m -> map (read_group (w_sm st)) (seq 0 (np - 1)) = others ->
  exists st', ofold (swing_counter m N call adding np va idb) cs st = Some st' /\ length (w_S st') = m /\
    forall i j, i < N -> w_out st' i j = fold_left (step i player j) (map (fun c => pick c others) cs) (w_out st i j).
Proof.
  induction cs as [|c cs IH]; intros st HS Hsm; cbn [ofold map fold_left].
  - exists st. split; [reflexivity|]. split; [exact HS|reflexivity].
  - destruct (counter_spec c st HS Hsm) as (s1 & E1 & L1 & M1 & P1). rewrite E1.
    destruct (IH s1 L1) as (s2 & E2 & L2 & P2); [now rewrite M1|]. exists s2. split; [exact E2|]. split; [exact L2|].
    intros i j Hi. rewrite (P2 i j Hi), (P1 i j Hi). reflexivity.
Qed.
Lemma player_spec st : length (w_S st) = m ->
  exists st', swing_player m D N call adding ids idb st va = Some st' /\ length (w_S st') = m /\
    forall i j, i < N -> w_out st' i j =
      player_loop np player (sv_coals ids va) (fun Tm => call_twice (V i) (concat Tm) player) j (w_out st i j).
Proof.
  intro HS. unfold swing_player.
  destruct (write_groups_spec D others (w_sm st)) as (sm & E & P).
  { rewrite others_length. pose proof ids_len. lia. }
  { intros g Hg. apply ids_group. now apply others_in. }
  rewrite E. rewrite <- others_length in *.
  destruct (counters_spec (seq 0 (2 ^ (np - 1))) (mkW (w_S st) sm (w_out st)) HS) as (s' & E' & L' & P').
  { cbn [w_sm]. rewrite <- others_length. now apply read_groups. }
  rewrite others_length. exists s'. split; [exact E'|]. split; [exact L'|]. exact P'.
Qed.
End Player.
Theorem prog_ok : C <> [] -> exists r, swing_prog m D N C call adding junk = Some r /\
  forall i j, i < N -> r i j = swing_sv (V i) C m j.
Proof.
  intro Hne. unfold swing_prog. rewrite (va_id_arr_eq C m HC).
  assert (EC : forall {B} (x y : B), match C with [] => x | _ => y end = y) by (intros; destruct C; [contradiction|reflexivity]). rewrite EC.
  destruct (write_groups_spec D ids junk) as (idb & E & P); [pose proof ids_len; lia|exact ids_group|]. rewrite E.
  assert (G : forall vas st, (forall va, In va vas -> va < np) -> length (w_S st) = m ->
    exists st', ofold (swing_player m D N call adding ids idb) vas st = Some st' /\
      forall i j, i < N -> w_out st' i j = fold_left (fun s va => player_loop np (nth va ids []) (sv_coals ids va)
        (fun Tm => call_twice (V i) (concat Tm) (nth va ids [])) j s) vas (w_out st i j)).
  { induction vas as [|va vas IH]; intros st Hv HS; cbn [ofold fold_left].
    - exists st. split; reflexivity.
    - destruct (player_spec va idb (Hv va (or_introl eq_refl)) P st HS) as (s1 & E1 & L1 & P1). rewrite E1.
      destruct (IH s1) as (s2 & E2 & P2); [intros; apply Hv; now right|exact L1|]. exists s2. split; [exact E2|].
      intros i j Hi. rewrite (P2 i j Hi), (P1 i j Hi). reflexivity. }
  destruct (G (seq 0 np) (mkW (repeat 0 m) (fun _ _ => 0, fun _ => 0) (fun _ _ => swing0))) as (st & Es & Ps).
  { intros va Hv. apply in_seq in Hv. lia. }
  { apply repeat_length. }
  rewrite Es. cbn [option_map]. eexists. split; [reflexivity|]. intros i j Hi. cbn beta. rewrite (Ps i j Hi). reflexivity.
Qed.
End Routine.

(** Proofs about the active Shapley array programs: what is in the array returned. *)
From Verif Require Import Base TreeModel TreeSpec TreeProofs GameSpec GameProofs ShapModel ShapSpec ShapProofs NopaModel NopaProofs AcvModel AcvSpec AcvProofs
  FlatModel SkModel ArrModel ArrSpec EntryModel SbufModel SbufProofs AbufModel AbufProofs.
Local Open Scope nat_scope.

Section Run.
Variables (T : tabs) (nid : nat -> nat -> list nat) (D : nat) (data : list pt) (scaling m : nat) (X : list pt) (C : list group) (S_star N_star : list nat).
Notation value_of b k j := (t_val T b (t_leaf T b k) j).
Notation P := (acv_va_ids C S_star).
Hypothesis HC : coalitions_ok C D.
Hypothesis HDm : D <= m.
Hypothesis HS : NoDup S_star.
Hypothesis HSm : forall i, In i S_star -> i < m.
Hypothesis HN : NoDup N_star.
Hypothesis HND : forall i, In i N_star -> i < D.
Hypothesis HPN : forall g i, In g P -> In i g -> ~ In i N_star.

Lemma HP : is_players_of C S_star P.
Proof. now apply (acv_va_ids_players C D). Qed.
Lemma HSN i : In i S_star -> ~ In i N_star.
Proof.
  intros Hi. destruct (in_dec Nat.eq_dec i (concat C)) as [Hc|Hc].
  - apply in_concat in Hc. destruct Hc as (g & Hg & Hig). apply (HPN g); [|exact Hig]. apply HP. left. eauto.
  - apply (HPN [i]); [|now left]. apply HP. right. eauto.
Qed.
Lemma players_eq : active_players C S_star = P.
Proof.
  unfold active_players, acv_va_ids. destruct (has_coal C); [|reflexivity]. rewrite (va_fold _ _ C C []) by (trivial; apply HC). reflexivity.
Qed.
Lemma n_eq : n_players C S_star = length P.
Proof. unfold n_players. now rewrite players_eq. Qed.
Lemma groups_eq vars : NoDup vars -> active_groups C S_star N_star vars = acv_leaf_groups C S_star N_star vars.
Proof.
  intro Hd. unfold active_groups, acv_leaf_groups. cbv zeta. rewrite (drop_all N_star vars Hd). destruct (has_coal C).
  - rewrite (leaf_fold _ _ C C []) by (trivial; apply HC). cbn [app]. f_equal. unfold active_single, acv_remove_va. apply filter_ext_in'. intros i _. now rewrite find_pos_memb.
  - now rewrite push_all.
Qed.
Lemma player_cols g i : In g P -> In i g -> i < m.
Proof.
  intros Hg Hi. apply HP in Hg. destruct Hg as [[Hg _]|(s & Hs & _ & ->)].
  - assert (i < D) by (apply HC; eapply in_concat_of; eassumption). lia.
  - destruct Hi as [<-|[]]. now apply HSm.
Qed.
Lemma players_NoDup L : NoDup L -> incl L P -> NoDup (concat L).
Proof.
  induction L as [|g L IH]; intros Hd Hi; cbn; [constructor|].
  inversion Hd as [|? ? Hng Hd']; subst. assert (Hg : In g P) by (apply Hi; now left).
  assert (IHL : NoDup (concat L)) by (apply IH; [trivial|intros a Ha; apply Hi; now right]).
  pose proof (player_of_NoDup C D S_star P g HC HP Hg) as Hgd.
  assert (Hdisj : forall a, In a g -> ~ In a (concat L)).
  { intros a Ha Hc. apply in_concat in Hc. destruct Hc as [h [Hh Hah]].
    assert (g = h) by (eapply (player_of_unique C D S_star P); eauto using HP; apply Hi; now right). subst h. contradiction. }
  clear - IHL Hgd Hdisj. induction Hgd as [|a g Hna Hg IH]; [trivial|]. cbn. constructor.
  - intro H. apply in_app_or in H. destruct H as [H|H]; [contradiction|]. eapply Hdisj; [now left|eassumption].
  - apply IH. intros b Hb. apply Hdisj. now right.
Qed.
Lemma player_ne g : In g P -> g <> [].
Proof. intro Hg. apply HP in Hg. destruct Hg as [[_ (i & _ & Hi)]|(i & _ & _ & ->)]; [intros ->; contradiction|discriminate]. Qed.
Lemma n_le : length P <= m.
Proof.
  transitivity (length (concat P)).
  - pose proof player_ne as H. revert H. generalize P. induction l as [|g l IH]; intro H; [cbn; lia|]. cbn. rewrite app_length.
    assert (g <> []) by (apply H; now left). assert (length l <= length (concat l)) by (apply IH; intros; apply H; now right). destruct g; [congruence|cbn; lia].
  - transitivity (length (seq 0 m)); [|now rewrite seq_length]. apply NoDup_incl_length; [apply players_NoDup; [apply HP|apply incl_refl]|].
    intros a Ha. apply in_concat in Ha. destruct Ha as (g & Hg & Ha). apply in_seq. pose proof (player_cols g a Hg Ha). lia.
Qed.

(** what one player adds *)
Definition nadds (va : group) (q : pt -> nat -> option Q) : nblock := fun i c j =>
  if j <? t_out T then times (count_occ Nat.eq_dec va c) (nrow X (fun x => q x j) i) else Some 0%Q.
Lemma nadds_ext va q q' i c j : (forall x j, oeq (q x j) (q' x j)) -> oeq (nadds va q i c j) (nadds va q' i c j).
Proof. intro H. unfold nadds. destruct (j <? t_out T); [|reflexivity]. apply times_proper, nrow_ext. intro; apply H. Qed.
Lemma nadds_osum {A} (f : A -> pt -> nat -> option Q) va l i c j :
  oeq (osum (fun cc => nadds va (f cc) i c j) l) (nadds va (fun x j => osum (fun cc => f cc x j) l) i c j).
Proof.
  unfold nadds. destruct (j <? t_out T); [|apply osum_zero; reflexivity]. rewrite times_osum. apply times_proper. apply nrow_osum.
Qed.
Lemma put_row_spec b k va i amount a : t_leaf T b k < t_nodes T -> (forall c, In c va -> c < m) ->
  exists a', put_row T m b k va i amount a = Some a' /\ forall i' c' j', oeq (a' i' c' j') (oadd (a i' c' j')
    (if i' =? i then times (count_occ Nat.eq_dec va c') (if j' <? t_out T then amount (value_of b k j') else Some 0%Q) else Some 0%Q)).
Proof.
  intros Hl Hva. unfold put_row.
  destruct (ofold_nadd (fun a => a) (fun _ => True)
    (fun a c => if c <? m then ofold (fun a j => match value_at T b k j with Some v => Some (nadd a i c j (amount v)) | None => None end) (seq 0 (t_out T)) a else None)
    (fun c i' c' j' => if (i' =? i) && (c' =? c) then (if j' <? t_out T then amount (value_of b k j') else Some 0%Q) else Some 0%Q) va)
    with (st := a) as [a' [E [_ Pr]]]; trivial.
  - intros a0 c Hc _. rewrite (proj2 (Nat.ltb_lt _ _) (Hva c Hc)).
    destruct (ofold_nadd (fun a => a) (fun _ => True)
      (fun a j => match value_at T b k j with Some v => Some (nadd a i c j (amount v)) | None => None end)
      (fun j i' c' j' => if (i' =? i) && (c' =? c) && (j' =? j) then amount (value_of b k j') else Some 0%Q) (seq 0 (t_out T)))
      with (st := a0) as [a1 [E1 [_ P1]]]; trivial.
    + intros a2 j Hj _. apply in_seq in Hj. unfold value_at.
      assert (E2 : ((t_leaf T b k <? t_nodes T) && (j <? t_out T))%bool = true).
      { apply andb_true_iff. split; apply Nat.ltb_lt; lia. }
      rewrite E2. eexists. split; [reflexivity|]. split; [trivial|]. intros i' c' j'. unfold nadd.
      destruct ((i' =? i) && (c' =? c) && (j' =? j)) eqn:E3; [|now rewrite oadd_0_r].
      apply andb_true_iff in E3. destruct E3 as [_ E3]. apply Nat.eqb_eq in E3. subst j'. reflexivity.
    + exists a1. split; [exact E1|]. split; [trivial|]. intros i' c' j'. rewrite P1.
      apply oadd_proper; [reflexivity|]. destruct ((i' =? i) && (c' =? c)) eqn:E3; cbn [andb].
      * destruct (Nat.ltb_spec j' (t_out T)) as [L|L].
        -- rewrite <- (osum_one (t_out T) j' (amount (value_of b k j')) L) at 1. apply osum_ext. intros j _. now rewrite (Nat.eqb_sym j j').
        -- apply osum_zero. intros j Hj. apply in_seq in Hj. destruct (Nat.eqb_spec j' j); [lia|reflexivity].
      * apply osum_zero. reflexivity.
  - exists a'. split; [exact E|]. intros i' c' j'. rewrite Pr. apply oadd_proper; [reflexivity|].
    destruct (i' =? i); cbn [andb]; [apply osum_occ|apply osum_zero; reflexivity].
Qed.
Lemma put_rows_spec b k va amount a : t_leaf T b k < t_nodes T -> (forall c, In c va -> c < m) ->
  exists a', put_rows T m X b k va amount a = Some a' /\ forall i c j, oeq (a' i c j) (oadd (a i c j)
    (nadds va (fun x j => amount x (value_of b k j)) i c j)).
Proof.
  intros Hl Hva. unfold put_rows.
  destruct (ofold_nadd (fun a => a) (fun _ => True) (fun a ix => put_row T m b k va (fst ix) (amount (snd ix)) a)
    (fun ix i c j => if i =? fst ix then times (count_occ Nat.eq_dec va c) (if j <? t_out T then amount (snd ix) (value_of b k j) else Some 0%Q) else Some 0%Q) (indexed X))
    with (st := a) as [a' [E [_ Pr]]]; trivial.
  - intros a0 ix _ _. destruct (put_row_spec b k va (fst ix) (amount (snd ix)) a0 Hl Hva) as [a1 [E1 P1]].
    exists a1. split; [exact E1|]. split; [trivial|exact P1].
  - exists a'. split; [exact E|]. intros i c j. rewrite Pr. apply oadd_proper; [reflexivity|]. unfold nadds.
    destruct (j <? t_out T).
    + rewrite (pick_row (fun x => times (count_occ Nat.eq_dec va c) (amount x (value_of b k j))) X i). apply nrow_times.
    + apply osum_zero. intros ix _. destruct (i =? fst ix); [apply times_zero|reflexivity].
Qed.

(** everything that is in the slots *)
Definition ntotal (st : awork) : nblock := fun i c j =>
  osum (fun k => oadd (aw_n st k i c j) (osum (fun cc => aw_b st k cc i c j) (seq 0 (2 ^ scaling)))) (seq 0 (t_max T)).
Definition okn (st : awork) : Prop := forall v c k, length (aw_S st v c k) = m.
Lemma ntotal_b st S' k cc a i c j q : k < t_max T -> cc < 2 ^ scaling -> oeq (a i c j) (oadd (aw_b st k cc i c j) q) ->
  oeq (ntotal (mkAwork S' (aw_n st) (set2 (aw_b st) k cc a)) i c j) (oadd (ntotal st i c j) q).
Proof.
  intros Hk Hc Ha. unfold ntotal. cbn [aw_n aw_b].
  rewrite <- (osum_one (t_max T) k q Hk), <- osum_plus. apply osum_ext. intros k' _. rewrite <- oadd_assoc. apply oadd_proper; [reflexivity|].
  destruct (Nat.eqb_spec k' k) as [->|E].
  - rewrite <- (osum_one (2 ^ scaling) cc q Hc), <- osum_plus. apply osum_ext. intros c' _.
    unfold set2. rewrite Nat.eqb_refl. cbn [andb]. destruct (Nat.eqb_spec c' cc) as [->|]; [exact Ha|now rewrite oadd_0_r].
  - rewrite oadd_0_r. apply osum_ext. intros c' _. unfold set2. destruct (Nat.eqb_spec k' k); [congruence|reflexivity].
Qed.
Lemma ntotal_n st S' k a i c j q : k < t_max T -> oeq (a i c j) (oadd (aw_n st k i c j) q) ->
  oeq (ntotal (mkAwork S' (setf (aw_n st) k a) (aw_b st)) i c j) (oadd (ntotal st i c j) q).
Proof.
  intros Hk Ha. unfold ntotal. cbn [aw_n aw_b].
  rewrite <- (osum_one (t_max T) k q Hk), <- osum_plus. apply osum_ext. intros k' _. unfold setf.
  destruct (Nat.eqb_spec k' k) as [->|E]; [|now rewrite oadd_0_r]. rewrite Ha, <- !oadd_assoc. apply oadd_proper; [reflexivity|apply oadd_comm].
Qed.

Section Leaf.
Variables (b k : nat).
Hypothesis Hmax : k < t_max T.
Hypothesis Hleaf : t_leaf T b k < t_nodes T.
Hypothesis Hok : ShapSpec.leaf_ok D (leaf_at T nid 0 b k).
Hypothesis Hcov : forall s, In s (nid b k) -> In s S_star \/ In s N_star.
Notation lf j := (leaf_at T nid j b k).
Notation lm := (count_leaf D data (t_part T b k)).
Notation gs0 := (acv_leaf_groups C S_star N_star (nid b k)).
Notation term x j va gs cc := (acv_term D (length P) N_star data x (lf j) va gs cc).
Notation worth_of x j va := (acv_leaf_player C D (length P) S_star N_star data x (lf j) va).

Lemma groups_facts : NoDup gs0 /\ forall g, In g gs0 -> In g P /\ forall s, In s g -> s < D.
Proof.
  destruct (acv_groups_touch C D S_star N_star P (lf 0) HC HP Hok Hcov HSN) as [Hn Hp]. cbn [l_vars leaf_at] in *.
  split; [exact Hn|]. intros g Hg. apply (Permutation_in g Hp), filter_In in Hg. destruct Hg as [Hg Ht]. split; [exact Hg|].
  intros s Hs. apply HP in Hg. destruct Hg as [[Hg _]|(i & _ & _ & ->)].
  - apply HC. eapply in_concat_of; eassumption.
  - apply existsb_exists in Ht. destruct Ht as (s' & Hs' & Hv). destruct Hs as [<-|[]]. destruct Hs' as [<-|[]].
    apply memb_true, filter_In in Hv. destruct Hok as (_ & H2 & _). apply H2, Hv.
Qed.
Lemma gs0_eq : active_groups C S_star N_star (nid b k) = gs0.
Proof. apply groups_eq. apply Hok. Qed.
Lemma others_eq va : others_at va gs0 = if in_dec group_eq_dec va gs0 then Some (remove1 va gs0) else None.
Proof. apply others_at_spec; [apply groups_facts|]. intros g Hg. apply player_ne. now apply groups_facts. Qed.
Lemma cols_of l : (forall s, In s l -> s < D) -> cols_exist D m l = true.
Proof. intro H. apply forallb_forall. intros s Hs. specialize (H s Hs). apply andb_true_iff. split; apply Nat.ltb_lt; lia. Qed.
Lemma pick_within va cc g : In g (pick cc (remove1 va gs0)) -> In g gs0.
Proof. intro H. apply SbufProofs.pick_in in H. eapply remove1_incl. exact H. Qed.
Lemma room_S va cc : length (concat (pick cc (remove1 va gs0))) + length N_star <= m.
Proof.
  destruct groups_facts as [Hn Hg].
  assert (length (concat gs0) + length N_star <= D).
  { rewrite <- app_length. transitivity (length (seq 0 D)); [|now rewrite seq_length]. apply NoDup_incl_length.
    - assert (H1 : NoDup (concat gs0)) by (apply players_NoDup; [exact Hn|intros g Hg'; now apply Hg]).
      assert (H2 : forall a, In a (concat gs0) -> ~ In a N_star).
      { intros a Ha. apply in_concat in Ha. destruct Ha as (g & Hg' & Ha). apply (HPN g); [now apply Hg|exact Ha]. }
      revert H1 H2. generalize (concat gs0). clear - HN. induction l as [|a l IH]; intros H1 H2; [exact HN|]. cbn. inversion H1; subst. constructor.
      + rewrite in_app_iff. intros [H|H]; [contradiction|]. apply (H2 a); [now left|exact H].
      + apply IH; [assumption|]. intros; apply H2; now right.
    - intros a Ha. apply in_seq. split; [lia|]. cbn. apply in_app_or in Ha. destruct Ha as [Ha|Ha]; [|now apply HND].
      apply in_concat in Ha. destruct Ha as (g & Hg' & Ha). now apply (proj2 (Hg g Hg')). }
  assert (length (concat (pick cc (remove1 va gs0))) <= length (concat (remove1 va gs0))) by apply pick_from_length.
  assert (length (concat (remove1 va gs0)) <= length (concat gs0)).
  { clear. generalize gs0. induction l as [|g l IH]; [cbn; lia|]. cbn [remove1]. destruct (group_eq_dec g va); cbn [concat]; rewrite ?app_length; lia. }
  lia.
Qed.
Lemma filled_both va cc S0 : length S0 = m -> let gs := remove1 va gs0 in
  exists S', fill_both N_star cc gs S0 = Some (S', length (concat (pick cc gs)), length (pick cc gs)) /\ length S' = m /\
    read_both N_star S' (length (concat (pick cc gs))) = concat (pick cc gs) ++ N_star.
Proof.
  intros HS0 gs. pose proof (room_S va cc) as Hr. fold gs in Hr. unfold fill_both.
  destruct (fill_spec cc gs 0 S0 0 0) as [S1 [E1 [E2 E3]]]; [cbn [Nat.add]; unfold pick in Hr; lia|]. cbn [Nat.add] in *. rewrite E1.
  fold (pick cc gs) in *. destruct (put_group_spec N_star S1 (length (concat (pick cc gs)))) as [S2 [F1 [F2 F3]]]; [lia|]. rewrite F1.
  exists S2. split; [reflexivity|]. split; [congruence|]. unfold read_both. rewrite read_back by lia. rewrite F3, E3. reflexivity.
Qed.
Lemma present_spec va cc S0 a : In va gs0 -> length S0 = m -> let gs := remove1 va gs0 in
  exists S' a', fill_both N_star cc gs S0 = Some (S', length (concat (pick cc gs)), length (pick cc gs)) /\ length S' = m /\
    present_rows T D data m X C S_star b k va (read_both N_star S' (length (concat (pick cc gs)))) (length (concat (pick cc gs))) (length gs) (length (pick cc gs)) lm a = Some a' /\
    forall i c j, oeq (a' i c j) (oadd (a i c j) (nadds va (fun x j => term x j va gs cc) i c j)).
Proof.
  intros Hva HS0 gs. destruct (filled_both va cc S0 HS0) as [S' [E1 [E2 E3]]]. fold gs in E1, E3. exists S'.
  destruct groups_facts as [_ Hg]. rewrite E3.
  assert (H1 : cols_exist D m (concat (pick cc gs) ++ N_star) = true).
  { apply cols_of. intros s Hs. apply in_app_or in Hs. destruct Hs as [Hs|Hs]; [|now apply HND].
    apply in_concat in Hs. destruct Hs as (g & Hg' & Hs). apply (proj2 (Hg g (pick_within va cc g Hg'))). exact Hs. }
  assert (H2 : cols_exist D m va = true) by (apply cols_of; now apply Hg).
  unfold present_rows. rewrite H1, H2. cbn [andb].
  destruct (put_rows_spec b k va (present_amount data C S_star (t_part T b k) va (concat (pick cc gs) ++ N_star) (length (concat (pick cc gs))) (length gs) (length (pick cc gs)) lm) a Hleaf)
    as [a' [E4 P4]]; [intros c Hc; apply (player_cols va); [now apply Hg|exact Hc]|].
  exists a'. split; [exact E1|]. split; [exact E2|]. split; [exact E4|]. intros i c j. rewrite P4. apply oadd_proper; [reflexivity|].
  apply nadds_ext. intros x j'. unfold present_amount. rewrite n_eq. reflexivity.
Qed.
Lemma absent_spec va a : In va P -> exists a', absent_rows T D data m X N_star b k va lm a = Some a' /\
  forall i c j, oeq (a' i c j) (oadd (a i c j) (nadds va (fun x j => acv_absent D N_star data x (lf j)) i c j)).
Proof.
  intro Hva. unfold absent_rows. rewrite (cols_of N_star HND).
  destruct (put_rows_spec b k va (absent_amount data N_star (t_part T b k) lm) a Hleaf) as [a' [E P1]]; [intros c; now apply player_cols|].
  exists a'. split; [exact E|]. intros i c j. rewrite P1. reflexivity.
Qed.
Lemma player_parts va i c j : oeq (nadds va (fun x j => worth_of x j va) i c j)
  (if in_dec group_eq_dec va gs0 then osum (fun cc => nadds va (fun x j => term x j va (remove1 va gs0) cc) i c j) (seq 0 (2 ^ length (remove1 va gs0)))
   else nadds va (fun x j => acv_absent D N_star data x (lf j)) i c j).
Proof.
  destruct (in_dec group_eq_dec va gs0) as [Hi|Hi].
  - rewrite nadds_osum. apply nadds_ext. intros x j'. unfold acv_leaf_player. cbn [l_vars leaf_at]. destruct (in_dec group_eq_dec va gs0); [reflexivity|contradiction].
  - apply nadds_ext. intros x j'. unfold acv_leaf_player. cbn [l_vars leaf_at]. destruct (in_dec group_eq_dec va gs0); [contradiction|reflexivity].
Qed.
Lemma index_in v va : In (v, va) (indexed P) -> v < m /\ In va P.
Proof.
  intro H. unfold indexed in H. split; [|now apply in_combine_r in H]. apply in_combine_l, in_seq in H. pose proof n_le. lia.
Qed.
Definition leaf_amount (c : nat) (x : pt) (j : nat) : option Q :=
  osum (fun va => worth_of x j va) (flat_map (fun va => repeat va (count_occ Nat.eq_dec va c)) P).
Lemma osum_indexed (f : group -> option Q) l : forall s, osum (fun p : nat * group => f (snd p)) (combine (seq s (length l)) l) = osum f l.
Proof. induction l as [|a l IH]; intro s; [reflexivity|]. cbn [length seq combine]. rewrite !osum_cons, IH. reflexivity. Qed.
Lemma all_players i c j : oeq (osum (fun p : nat * group => nadds (snd p) (fun x j => worth_of x j (snd p)) i c j) (indexed P))
  (if j <? t_out T then nrow X (fun x => leaf_amount c x j) i else Some 0%Q).
Proof.
  unfold indexed. rewrite (osum_indexed (fun va => nadds va (fun x j => worth_of x j va) i c j)). unfold nadds.
  destruct (j <? t_out T); [|apply osum_zero; reflexivity].
  transitivity (osum (fun va => nrow X (fun x => times (count_occ Nat.eq_dec va c) (worth_of x j va)) i) P).
  { apply osum_ext. intros va _. symmetry. apply nrow_times. }
  rewrite nrow_osum. apply nrow_ext. intro x. unfold leaf_amount. rewrite osum_flat_map. apply osum_ext. intros va _. now rewrite times_repeat.
Qed.
Lemma remove1_length va : In va gs0 -> S (length (remove1 va gs0)) = length gs0.
Proof.
  generalize gs0. induction l as [|g l IH]; intros Hi; [contradiction|]. cbn [remove1].
  destruct (group_eq_dec g va) as [|E]; [reflexivity|]. destruct Hi as [|Hi]; [contradiction|]. cbn [length]. rewrite <- (IH Hi). reflexivity.
Qed.
Lemma active_leaf_spec st : length gs0 <= S scaling -> okn st ->
  exists st', active_leaf T nid D data scaling m X C S_star N_star b st k = Some st' /\ okn st' /\
    forall i c j, oeq (ntotal st' i c j) (oadd (ntotal st i c j) (if j <? t_out T then nrow X (fun x => leaf_amount c x j) i else Some 0%Q)).
Proof.
  intros Hfit Hst. unfold active_leaf. rewrite (proj2 (Nat.ltb_lt _ _) Hmax), gs0_eq, players_eq.
  destruct (ofold_nadd ntotal okn (active_player T D data scaling m X C S_star N_star b k lm gs0)
    (fun p i c j => nadds (snd p) (fun x j => worth_of x j (snd p)) i c j) (indexed P)) with (st := st) as [st' [E [O Pr]]]; trivial.
  - intros s [v va] Hv Hs. destruct (index_in v va Hv) as [Hvm Hva]. unfold active_player. rewrite (proj2 (Nat.ltb_lt _ _) Hvm), others_eq. cbn [snd].
    destruct (in_dec group_eq_dec va gs0) as [Hi|Hi] eqn:Ei.
    + destruct (ofold_nadd ntotal okn (active_counter T D data scaling m X C S_star N_star b k lm v va (remove1 va gs0))
        (fun cc i c j => nadds va (fun x j => term x j va (remove1 va gs0) cc) i c j) (seq 0 (2 ^ length (remove1 va gs0)))) with (st := s) as [s' [E1 [O1 P1]]]; trivial.
      * intros s0 cc Hcc Hs0. apply in_seq in Hcc. unfold active_counter.
        assert (Hlt : cc < 2 ^ scaling).
        { pose proof (remove1_length va Hi). assert (2 ^ length (remove1 va gs0) <= 2 ^ scaling) by (apply Nat.pow_le_mono_r; lia). lia. }
        rewrite (proj2 (Nat.ltb_lt _ _) Hlt).
        destruct (present_spec va cc (aw_S s0 v cc k) (aw_b s0 k cc) Hi (Hs0 v cc k)) as (S' & a' & F1 & F2 & F3 & F4).
        rewrite F1, F3. eexists. split; [reflexivity|]. split.
        -- intros v' c' k'. cbn [aw_S]. unfold set3. destruct ((v' =? v) && (c' =? cc) && (k' =? k)); [exact F2|apply Hs0].
        -- intros i c j. apply ntotal_b; trivial.
      * exists s'. split; [exact E1|]. split; [exact O1|]. intros i c j. rewrite P1, player_parts, Ei. reflexivity.
    + destruct (absent_spec va (aw_n s k) Hva) as (a' & F1 & F2). rewrite F1. eexists. split; [reflexivity|]. split; [exact Hs|].
      intros i c j. rewrite player_parts, Ei. now apply ntotal_n.
  - exists st'. split; [exact E|]. split; [exact O|]. intros i c j. rewrite Pr, all_players. reflexivity.
Qed.
Lemma active_leaf_stray st : S scaling < length gs0 -> active_leaf T nid D data scaling m X C S_star N_star b st k = None.
Proof.
  intro Hlt. unfold active_leaf. rewrite (proj2 (Nat.ltb_lt _ _) Hmax), gs0_eq, players_eq.
  destruct gs0 as [|va r] eqn:Eg; [cbn in Hlt; lia|]. rewrite <- Eg in *. assert (Hva : In va gs0) by (rewrite Eg; now left).
  pose proof (proj1 (proj2 groups_facts va Hva)) as HvP. destruct (In_nth_error _ _ HvP) as [v Hv].
  assert (Hi : In (v, va) (indexed P)).
  { unfold indexed. apply (nth_error_In _ v). clear - Hv.
    assert (G : forall (l : list group) s v va, nth_error l v = Some va -> nth_error (combine (seq s (length l)) l) v = Some (s + v, va)).
    { induction l as [|a l IH]; intros s v' va' H; [destruct v'; discriminate|]. destruct v' as [|v']; cbn in *.
      - injection H as <-. now rewrite Nat.add_0_r.
      - rewrite (IH (S s) v' va' H). do 2 f_equal. lia. }
    exact (G _ 0 _ _ Hv). }
  apply (ofold_stuck _ _ (v, va) Hi). intro s. unfold active_player. rewrite (proj2 (Nat.ltb_lt _ _) (proj1 (index_in v va Hi))), others_eq.
  destruct (in_dec group_eq_dec va gs0) as [_|]; [|contradiction]. pose proof (remove1_length va Hva).
  apply (ofold_stuck _ _ (2 ^ scaling)).
  - apply in_seq. split; [lia|]. cbn [Nat.add]. apply Nat.pow_lt_mono_r; lia.
  - intro s'. unfold active_counter. now rewrite Nat.ltb_irrefl.
Qed.
Lemma active_leaf_seq_spec st : length (fst st) = m ->
  exists st', active_leaf_seq T nid D data m X C S_star N_star b st k = Some st' /\ length (fst st') = m /\
    forall i c j, oeq (snd st' i c j) (oadd (snd st i c j) (if j <? t_out T then nrow X (fun x => leaf_amount c x j) i else Some 0%Q)).
Proof.
  intros Hst. unfold active_leaf_seq. rewrite (proj2 (Nat.ltb_lt _ _) Hmax), gs0_eq, players_eq.
  destruct (ofold_nadd (@snd (list nat) nblock) (fun st => length (fst st) = m) (active_player_seq T D data m X C S_star N_star b k lm gs0)
    (fun p i c j => nadds (snd p) (fun x j => worth_of x j (snd p)) i c j) (indexed P)) with (st := st) as [st' [E [O Pr]]]; trivial.
  - intros s [v va] Hv Hs. destruct (index_in v va Hv) as [Hvm Hva]. unfold active_player_seq. rewrite (proj2 (Nat.ltb_lt _ _) Hvm), others_eq. cbn [snd].
    destruct (in_dec group_eq_dec va gs0) as [Hi|Hi] eqn:Ei.
    + destruct (ofold_nadd (@snd (list nat) nblock) (fun st => length (fst st) = m) (active_counter_seq T D data m X C S_star N_star b k lm va (remove1 va gs0))
        (fun cc i c j => nadds va (fun x j => term x j va (remove1 va gs0) cc) i c j) (seq 0 (2 ^ length (remove1 va gs0)))) with (st := s) as [s' [E1 [O1 P1]]]; trivial.
      * intros s0 cc _ Hs0. unfold active_counter_seq.
        destruct (present_spec va cc (fst s0) (snd s0) Hi Hs0) as (S' & a' & F1 & F2 & F3 & F4).
        rewrite F1, F3. eexists. split; [reflexivity|]. split; [exact F2|exact F4].
      * exists s'. split; [exact E1|]. split; [exact O1|]. intros i c j. rewrite P1, player_parts, Ei. reflexivity.
    + destruct (absent_spec va (snd s) Hva) as (a' & F1 & F2). rewrite F1. eexists. split; [reflexivity|]. split; [exact Hs|].
      intros i c j. rewrite player_parts, Ei. apply F2.
  - exists st'. split; [exact E|]. split; [exact O|]. intros i c j. rewrite Pr, all_players. reflexivity.
Qed.
End Leaf.

(** ** All trees *)
Hypothesis Htabs : tabs_ok T.
Hypothesis Hforest : forall b k, b < t_trees T -> k < t_nb T b -> ShapSpec.leaf_ok D (leaf_at T nid 0 b k).
Hypothesis Hcover : forall b k s, b < t_trees T -> k < t_nb T b -> In s (nid b k) -> In s S_star \/ In s N_star.
Definition all_fit_n : Prop := forall b k, b < t_trees T -> k < t_nb T b -> length (acv_leaf_groups C S_star N_star (nid b k)) <= S scaling.
Notation tree_amount b i c j :=
  (if j <? t_out T then nrow X (fun x => osum (fun k => leaf_amount b k c x j) (seq 0 (t_nb T b))) i else Some 0%Q).

Lemma C_ne : C <> [] -> forall (A : Type) (a b : A), match C with [] => a | _ :: _ => b end = b.
Proof. intros H A a b. destruct C; [congruence|reflexivity]. Qed.
Lemma tree_osum b l i c j : Permutation l (seq 0 (t_nb T b)) ->
  oeq (osum (fun k => if j <? t_out T then nrow X (fun x => leaf_amount b k c x j) i else Some 0%Q) l) (tree_amount b i c j).
Proof.
  intro H. rewrite (osum_perm _ _ _ H). destruct (j <? t_out T); [apply nrow_osum|apply osum_zero; reflexivity].
Qed.
Lemma active_tree_spec order s b : all_fit_n -> every_leaf T order -> b < t_trees T -> okn (fst s) ->
  exists s', active_tree T nid D data scaling m X C S_star N_star order s b = Some s' /\ okn (fst s') /\
    forall i c j, oeq (snd s' i c j) (oadd (snd s i c j) (if c <? D then tree_amount b i c j else Some 0%Q)).
Proof.
  intros Hfit Hord Hb Hs. unfold active_tree.
  destruct (ofold_nadd ntotal okn (active_leaf T nid D data scaling m X C S_star N_star b)
    (fun k i c j => if j <? t_out T then nrow X (fun x => leaf_amount b k c x j) i else Some 0%Q) (order b))
    with (st := active_clear D (fst s)) as [st [E [O Pr]]].
  - intros st k Hk Hst. apply (Permutation_in _ (Hord b Hb)), in_seq in Hk. destruct (Htabs b Hb) as [H1 H2].
    apply active_leaf_spec; [lia|apply H2; lia|apply Hforest; lia|intro s'; apply Hcover; lia|apply Hfit; lia|exact Hst].
  - exact Hs.
  - rewrite E. eexists. split; [reflexivity|]. split; [exact O|]. intros i c j. cbn [snd]. unfold active_reduce.
    destruct (c <? D) eqn:Ec; [|now rewrite oadd_0_r].
    rewrite (fold_oadd2 (fun k => aw_n st k i c j) (fun k cc => aw_b st k cc i c j)). apply oadd_proper; [reflexivity|].
    change (oeq (ntotal st i c j) (tree_amount b i c j)). rewrite Pr, (tree_osum b (order b) i c j (Hord b Hb)).
    assert (Z : oeq (ntotal (active_clear D (fst s)) i c j) (Some 0%Q)).
    { unfold ntotal, active_clear. cbv zeta. cbn [aw_n aw_b]. rewrite Ec. apply osum_zero. intros k _. rewrite oadd_0_l. apply osum_zero. reflexivity. }
    rewrite Z. apply oadd_0_l.
Qed.
Lemma over_proper a a' : oeq a a' -> oeq (match a with Some s => cdiv s (Qn (n_players C S_star)) | None => None end)
  (match a' with Some s => cdiv s (Qn (length P)) | None => None end).
Proof.
  rewrite n_eq. destruct a as [a|], a' as [a'|]; cbn; trivial; try contradiction. intro H. unfold cdiv. destruct (qeqb (Qn (length P)) 0); cbn; [trivial|]. now rewrite H.
Qed.
Notation value x j c := (shap_values_acv C D S_star N_star data (forest_at T nid j) x c).
Lemma trees_value phi i x c j : nth_error X i = Some x -> j < t_out T ->
  oeq (phi i c j) (osum (fun b => tree_amount b i c j) (seq 0 (t_trees T))) ->
  oeq (over_players C S_star phi i c j) (value x j c).
Proof.
  intros Hx Hj Hphi. unfold over_players, shap_values_acv. cbv zeta. apply over_proper. rewrite Hphi. unfold forest_at. rewrite osum_map.
  apply osum_ext. intros b _. rewrite (proj2 (Nat.ltb_lt _ _) Hj), osum_map. unfold nrow. rewrite Hx. reflexivity.
Qed.
Theorem active_prog_values order : C <> [] -> all_fit_n -> every_leaf T order ->
  exists phi, active_prog T nid D data scaling m X C S_star N_star order = Some phi /\
    forall i x c j, nth_error X i = Some x -> j < t_out T ->
      oeq (phi i c j) (if c <? D then value x j c else cdiv 0 (Qn (length P))).
Proof.
  intros Hne Hfit Hord. unfold active_prog. rewrite (C_ne Hne), (proj2 (Nat.leb_le _ _) HDm).
  destruct (ofold_nadd (@snd awork nblock) (fun s => okn (fst s)) (active_tree T nid D data scaling m X C S_star N_star order)
    (fun b i c j => if c <? D then tree_amount b i c j else Some 0%Q) (seq 0 (t_trees T)))
    with (st := (mkAwork (fun _ _ _ => repeat 0 m) (fun _ _ _ _ => Some 0%Q) (fun _ _ _ _ _ => Some 0%Q), (fun _ _ _ => Some 0%Q) : nblock)) as [[st phi] [E [_ Pr]]].
  - intros s b Hb Hs. apply in_seq in Hb. apply active_tree_spec; trivial. lia.
  - intros v c k. apply repeat_length.
  - rewrite E. eexists. split; [reflexivity|]. intros i x c j Hx Hj. cbn [snd] in Pr. specialize (Pr i c j). destruct (c <? D) eqn:Ec.
    + apply (trees_value phi i x c j Hx Hj). rewrite Pr. apply oadd_0_l.
    + unfold over_players. apply (over_proper _ (Some 0%Q)). rewrite Pr, oadd_0_l. apply osum_zero. reflexivity.
Qed.
Theorem active_prog_stray order b k : b < t_trees T -> k < t_nb T b -> S scaling < length (acv_leaf_groups C S_star N_star (nid b k)) ->
  every_leaf T order -> active_prog T nid D data scaling m X C S_star N_star order = None.
Proof.
  intros Hb Hk Hlt Hord. unfold active_prog. destruct C as [|g0 C0] eqn:EC; [reflexivity|]. rewrite <- EC in *. destruct (D <=? m); [|reflexivity].
  rewrite (ofold_stuck _ _ b); [reflexivity|apply in_seq; lia|]. intro s. unfold active_tree.
  rewrite (ofold_stuck _ _ k); [reflexivity| |].
  - apply (Permutation_in _ (Permutation_sym (Hord b Hb))), in_seq. lia.
  - intro s'. destruct (Htabs b Hb) as [H1 H2]. apply active_leaf_stray; [lia|apply H2; lia|apply Hforest; lia|intro; apply Hcover; lia|exact Hlt].
Qed.
Theorem active_seq_values : C <> [] -> exists phi, active_seq_prog T nid D data m X C S_star N_star = Some phi /\
    forall i x c j, nth_error X i = Some x -> j < t_out T -> oeq (phi i c j) (value x j c).
Proof.
  intros Hne. unfold active_seq_prog. rewrite (C_ne Hne).
  destruct (ofold_nadd (@snd (list nat) nblock) (fun s => length (fst s) = m) (fun st b => ofold (active_leaf_seq T nid D data m X C S_star N_star b) (seq 0 (t_nb T b)) st)
    (fun b i c j => tree_amount b i c j) (seq 0 (t_trees T)))
    with (st := (repeat 0 m, (fun _ _ _ => Some 0%Q) : nblock)) as [[st phi] [E [_ Pr]]].
  - intros s b Hb Hs. apply in_seq in Hb.
    destruct (ofold_nadd (@snd (list nat) nblock) (fun s => length (fst s) = m) (active_leaf_seq T nid D data m X C S_star N_star b)
      (fun k i c j => if j <? t_out T then nrow X (fun x => leaf_amount b k c x j) i else Some 0%Q) (seq 0 (t_nb T b))) with (st := s) as [s' [E1 [O1 P1]]]; trivial.
    + intros s0 k Hk Hs0. apply in_seq in Hk. destruct (Htabs b ltac:(lia)) as [H1 H2].
      apply active_leaf_seq_spec; [lia|apply H2; lia|apply Hforest; lia|intro; apply Hcover; lia|exact Hs0].
    + exists s'. split; [exact E1|]. split; [exact O1|]. intros i c j. rewrite P1, (tree_osum b _ i c j (Permutation_refl _)). reflexivity.
  - apply repeat_length.
  - rewrite E. eexists. split; [reflexivity|]. intros i x c j Hx Hj. cbn [snd] in Pr. apply (trees_value phi i x c j Hx Hj). rewrite Pr. apply oadd_0_l.
Qed.
End Run.

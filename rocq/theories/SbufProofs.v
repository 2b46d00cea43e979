(** Proofs about the Shapley array programs. *)
From Verif Require Import Base TreeModel TreeSpec TreeProofs GameSpec GameProofs ShapModel ShapSpec ShapProofs NopaModel NopaProofs
  FlatModel SkModel ArrModel ArrSpec EntryModel SbufModel.
Local Open Scope Q_scope.

(** ** Loops that add *)
Notation block := (nat -> nat -> nat -> Q).
Lemma ofold_add {St A} (M : St -> block) (ok : St -> Prop) (f : St -> A -> option St) (Dl : A -> block) l :
  (forall st a, In a l -> ok st -> exists st', f st a = Some st' /\ ok st' /\
     forall i c j, M st' i c j == M st i c j + Dl a i c j) ->
  forall st, ok st -> exists st', ofold f l st = Some st' /\ ok st' /\
     forall i c j, M st' i c j == M st i c j + sumf (fun a => Dl a i c j) l.
Proof.
  induction l as [|a l IH]; intros H st Hok; cbn [ofold].
  - exists st. split; [trivial|]. split; [trivial|]. intros i c j. cbn. ring.
  - destruct (H st a (or_introl eq_refl) Hok) as [s1 [E1 [O1 P1]]]. rewrite E1.
    destruct (IH (fun st b Hb => H st b (or_intror Hb)) s1 O1) as [s2 [E2 [O2 P2]]].
    exists s2. split; [trivial|]. split; [trivial|]. intros i c j. rewrite P2, P1. cbn. ring.
Qed.
Lemma ofold_stuck {St A} (f : St -> A -> option St) l a : In a l -> (forall s, f s a = None) -> forall s, ofold f l s = None.
Proof.
  induction l as [|a' l IH]; intros Hin H s; [destruct Hin|]. cbn [ofold]. destruct Hin as [->|Hin].
  - now rewrite H.
  - destruct (f s a'); auto.
Qed.
Lemma fold_plus (f : nat -> Q) l : forall a, fold_left (fun acc k => acc + f k) l a == a + sumf f l.
Proof. induction l as [|k l IH]; intro a; cbn; [ring|]. rewrite IH. ring. Qed.
Lemma fold_plus2 (f : nat -> nat -> Q) l' l : forall a,
  fold_left (fun acc k => fold_left (fun acc c => acc + f k c) l' acc) l a == a + sumf (fun k => sumf (f k) l') l.
Proof.
  induction l as [|k l IH]; intro a; cbn [fold_left]; [cbn; ring|]. rewrite IH, fold_plus. cbn. ring.
Qed.
Lemma sumf_one (f : nat -> Q) n k q : (k < n)%nat -> sumf (fun i => if (i =? k)%nat then q else 0) (seq 0 n) == q.
Proof.
  intro H. assert (G : forall l, NoDup l -> sumf (fun i => if (i =? k)%nat then q else 0) l == if in_dec Nat.eq_dec k l then q else 0).
  { induction l as [|a l IH]; intro Hd; [reflexivity|]. inversion Hd as [|? ? Hn Hd']; subst. rewrite sumf_cons, (IH Hd').
    destruct (in_dec Nat.eq_dec k l) as [Hi|Hi]; destruct (in_dec Nat.eq_dec k (a :: l)) as [Hi'|Hi'].
    - destruct (Nat.eqb_spec a k) as [->|]; [contradiction|ring].
    - exfalso. apply Hi'. now right.
    - destruct Hi' as [->|Hi']; [|contradiction]. rewrite Nat.eqb_refl. ring.
    - destruct (Nat.eqb_spec a k) as [->|]; [exfalso; apply Hi'; now left|ring]. }
  rewrite (G _ (seq_NoDup n 0)). destruct (in_dec Nat.eq_dec k (seq 0 n)) as [|Hn]; [reflexivity|].
  exfalso. apply Hn. apply in_seq. lia.
Qed.

Lemma sumf_occ va c q : sumf (fun a => if (c =? a)%nat then q else 0) va == Qn (count_occ Nat.eq_dec va c) * q.
Proof.
  induction va as [|a va IH]; [cbn; unfold Qn; cbn; ring|]. rewrite sumf_cons, IH. cbn [count_occ].
  destruct (Nat.eq_dec a c) as [->|E]; [rewrite Nat.eqb_refl, Qn_S; ring|].
  destruct (Nat.eqb_spec c a) as [->|]; [congruence|ring].
Qed.

Section Run.
Variables (T : tabs) (nid : nat -> nat -> list nat) (D : nat) (data : list pt) (scaling m : nat) (X : list pt) (C : list group).
Notation value_of b k j := (t_val T b (t_leaf T b k) j).
Hypothesis HC : coalitions_ok C m.
Hypothesis HCD : forall i, In i (concat C) -> (i < D)%nat.
Hypothesis HDm : (D <= m)%nat.

Lemma add_row_spec b k va i w a : (t_leaf T b k < t_nodes T)%nat ->
  exists a', add_row T b k va i w a = Some a' /\ forall i' c' j', a' i' c' j' == a i' c' j' +
    (if (i' =? i)%nat then Qn (count_occ Nat.eq_dec va c') * (if (j' <? t_out T)%nat then w * value_of b k j' else 0) else 0).
Proof.
  intro Hl. unfold add_row.
  destruct (ofold_add (fun a => a) (fun _ => True)
    (fun a c => ofold (fun a j => match value_at T b k j with Some v => Some (add3 a i c j (w * v)) | None => None end) (seq 0 (t_out T)) a)
    (fun c i' c' j' => if (i' =? i)%nat && (c' =? c)%nat then (if (j' <? t_out T)%nat then w * value_of b k j' else 0) else 0) va)
    with (st := a) as [a' [E [_ P]]]; trivial.
  - intros a0 c _ _.
    destruct (ofold_add (fun a => a) (fun _ => True)
      (fun a j => match value_at T b k j with Some v => Some (add3 a i c j (w * v)) | None => None end)
      (fun j i' c' j' => if (i' =? i)%nat && (c' =? c)%nat && (j' =? j)%nat then w * value_of b k j' else 0) (seq 0 (t_out T)))
      with (st := a0) as [a1 [E1 [_ P1]]]; trivial.
    + intros a2 j Hj _. apply in_seq in Hj. unfold value_at.
      assert (E2 : ((t_leaf T b k <? t_nodes T) && (j <? t_out T))%nat%bool = true).
      { apply andb_true_iff. split; apply Nat.ltb_lt; lia. }
      rewrite E2. eexists. split; [reflexivity|]. split; [trivial|]. intros i' c' j'. unfold add3.
      destruct ((i' =? i)%nat && (c' =? c)%nat && (j' =? j)%nat) eqn:E3; [|ring].
      apply andb_true_iff in E3. destruct E3 as [_ E3]. apply Nat.eqb_eq in E3. subst j'. ring.
    + exists a1. split; [exact E1|]. split; [trivial|]. intros i' c' j'. rewrite P1.
      apply Qplus_comp; [reflexivity|]. destruct ((i' =? i)%nat && (c' =? c)%nat) eqn:E3; cbn [andb].
      * destruct (Nat.ltb_spec j' (t_out T)) as [L|L].
        -- transitivity (sumf (fun j => if (j =? j')%nat then w * value_of b k j' else 0) (seq 0 (t_out T))); [|now apply (sumf_one (fun _ => 0))].
           apply sumf_ext. intros j _. rewrite (Nat.eqb_sym j j'). reflexivity.
        -- assert (Z : sumf (fun j => if (j' =? j)%nat then w * value_of b k j' else 0) (seq 0 (t_out T)) == sumf (fun _ => 0) (seq 0 (t_out T))).
           { apply sumf_ext. intros j Hj. apply in_seq in Hj. destruct (Nat.eqb_spec j' j); [lia|reflexivity]. }
           rewrite Z. clear. induction (seq 0 (t_out T)); cbn; [reflexivity|]. rewrite IHl. ring.
      * clear. induction (seq 0 (t_out T)); cbn; [reflexivity|]. rewrite IHl. ring.
  - exists a'. split; [exact E|]. intros i' c' j'. rewrite P. apply Qplus_comp; [reflexivity|].
    set (q := if (j' <? t_out T)%nat then w * value_of b k j' else 0). clearbody q.
    destruct (i' =? i)%nat; cbn [andb].
    + apply sumf_occ.
    + apply sumf_zero. reflexivity.
Qed.

Lemma add_rows_spec b k va F ns vs lm a : (t_leaf T b k < t_nodes T)%nat -> cols_exist D m F = true -> cols_exist D m va = true ->
  exists a', add_rows T D data m X b k va F ns vs lm a = Some a' /\ forall i c j, a' i c j == a i c j +
    (if (j <? t_out T)%nat then Qn (count_occ Nat.eq_dec va c) *
       at_row X (fun x => row_weight data m (t_part T b k) va F ns vs lm x * value_of b k j) i else 0).
Proof.
  intros Hl HF Hva. unfold add_rows. rewrite HF, Hva. cbn [andb].
  destruct (ofold_add (fun a => a) (fun _ => True)
    (fun a ix => add_row T b k va (fst ix) (row_weight data m (t_part T b k) va F ns vs lm (snd ix)) a)
    (fun ix i c j => if (i =? fst ix)%nat then Qn (count_occ Nat.eq_dec va c) * (if (j <? t_out T)%nat
        then row_weight data m (t_part T b k) va F ns vs lm (snd ix) * value_of b k j else 0) else 0) (indexed X))
    with (st := a) as [a' [E [_ P]]]; trivial.
  - intros a0 ix _ _. destruct (add_row_spec b k va (fst ix) (row_weight data m (t_part T b k) va F ns vs lm (snd ix)) a0 Hl) as [a1 [E1 P1]].
    exists a1. split; [exact E1|]. split; [trivial|exact P1].
  - exists a'. split; [exact E|]. intros i c j. rewrite P. apply Qplus_comp; [reflexivity|].
    destruct (j <? t_out T)%nat.
    + rewrite <- (row_pick_indexed (fun x => row_weight data m (t_part T b k) va F ns vs lm x * value_of b k j) X i).
      unfold row_pick. rewrite <- sumf_scal. apply sumf_ext. intros ix _. destruct (i =? fst ix)%nat; ring.
    + apply sumf_zero. intros ix _. destruct (i =? fst ix)%nat; ring.
Qed.

(** ** One leaf *)
Lemma leaf_players_eq vars : leaf_players m C vars = leaf_groups C m vars.
Proof.
  unfold leaf_players, leaf_groups. destruct (has_coal C).
  - rewrite (leaf_fold _ vars C C []) by (trivial; apply HC). cbn [app]. now rewrite remove_va_arr_eq.
  - now rewrite push_all.
Qed.
Lemma others_at_eq lf va : leaf_ok m lf -> others_at va (leaf_groups C m (l_vars lf)) = others C m lf va.
Proof.
  intro Hlf. unfold others_at, others. set (gs0 := leaf_groups C m (l_vars lf)).
  pose proof (va_ids_players C m HC) as HP. destruct (leaf_groups_touch C m _ lf HC HP Hlf) as [Hn Hp]. fold gs0 in Hn, Hp.
  destruct (in_dec group_eq_dec va gs0) as [Hi|Hi].
  - assert (Hpos : (find_pos (fun g => if group_eq_dec g va then true else false) gs0 <? length gs0)%nat = true).
    { clear - Hi. apply Nat.ltb_lt. revert Hi. generalize gs0. induction gs1 as [|g gs1 IH]; [contradiction|].
      cbn. intros [->|H]; [destruct (group_eq_dec va va); [lia|congruence]|].
      destruct (group_eq_dec g va); [lia|]. specialize (IH H). lia. }
    rewrite Hpos. f_equal. apply drop_value_spec; trivial. intros g Hg.
    apply (Permutation_in g Hp), filter_In in Hg. now apply (player_ne C m HC).
  - assert (Hpos : (find_pos (fun g => if group_eq_dec g va then true else false) gs0 <? length gs0)%nat = false).
    { clear - Hi. apply Nat.ltb_ge. revert Hi. generalize gs0. induction gs1 as [|g gs1 IH]; cbn; [lia|].
      intro H. destruct (group_eq_dec g va); [exfalso; auto|]. assert (~ In va gs1) by auto.
      specialize (IH H0). lia. }
    now rewrite Hpos.
Qed.
(** the columns of the players at a leaf are columns of the data *)
Lemma leaf_group_cols lf g s : leaf_ok D lf -> In g (leaf_groups C m (l_vars lf)) -> In s g -> (s < D)%nat.
Proof.
  intros Hlf Hg Hs. assert (Hlf' : leaf_ok m lf).
  { destruct Hlf as (H1 & H2 & H3). split; [exact H1|]. split; [|exact H3]. intros v Hv. specialize (H2 v Hv). lia. }
  pose proof (va_ids_players C m HC) as HP. destruct (leaf_groups_touch C m _ lf HC HP Hlf') as [_ Hp].
  apply (Permutation_in g Hp), filter_In in Hg. destruct Hg as [Hg Ht]. apply HP in Hg. destruct Hg as [[Hg _]|[i [_ [_ ->]]]].
  - apply HCD. eapply in_concat_of; eassumption.
  - apply touches_true in Ht. destruct Ht as (s' & [->|[]] & Hs'). destruct Hs as [->|[]]. now apply Hlf.
Qed.
Lemma pick_in counter gs : forall ci g, In g (pick_from ci counter gs) -> In g gs.
Proof.
  induction gs as [|h gs IH]; intros ci g; cbn; [trivial|]. destruct (Nat.testbit counter ci); cbn; [intros [->|H]; [now left|]|intro H]; right; eapply IH; eassumption.
Qed.
Lemma leaf_wide lf : leaf_ok D lf -> leaf_ok m lf /\ count_leaf D data (l_rect lf) = count_leaf m data (l_rect lf).
Proof.
  intro H. split.
  - destruct H as (H1 & H2 & H3). split; [exact H1|]. split; [|exact H3]. intros v Hv. specialize (H2 v Hv). lia.
  - rewrite !count_leaf_rows. symmetry. apply rows_in_wider; [exact H|exact HDm].
Qed.

(** everything that is in the slots *)
Definition total (st : work) : block := fun i c j => sumf (fun k => sumf (fun cc => w_phi st k cc i c j) (seq 0 (2 ^ scaling))) (seq 0 (t_max T)).
Definition okw (st : work) : Prop := forall v c k, length (w_S st v c k) = m.
Lemma total_set st S' k cc a i c j : (k < t_max T)%nat -> (cc < 2 ^ scaling)%nat ->
  total (mkWork S' (set2 (w_phi st) k cc a)) i c j == total st i c j + (a i c j - w_phi st k cc i c j).
Proof.
  intros Hk Hc. unfold total. cbn [w_phi].
  rewrite <- (sumf_one (fun _ => 0) (t_max T) k (a i c j - w_phi st k cc i c j) Hk), <- sumf_plus. apply sumf_ext. intros k' _.
  destruct (Nat.eqb_spec k' k) as [->|E].
  - rewrite <- (sumf_one (fun _ => 0) (2 ^ scaling) cc (a i c j - w_phi st k cc i c j) Hc), <- sumf_plus. apply sumf_ext. intros c' _.
    unfold set2. rewrite Nat.eqb_refl. cbn [andb]. destruct (Nat.eqb_spec c' cc) as [->|]; ring.
  - rewrite Qplus_0_r. apply sumf_ext. intros c' _. unfold set2. destruct (Nat.eqb_spec k' k); [congruence|reflexivity].
Qed.

Section Leaf.
Variables (b k : nat).
Hypothesis Hmax : (k < t_max T)%nat.
Hypothesis Hleaf : (t_leaf T b k < t_nodes T)%nat.
Hypothesis Hok : leaf_ok D (leaf_at T nid 0 b k).
Notation lf j := (leaf_at T nid j b k).
Notation lm := (count_leaf D data (t_part T b k)).
Notation gs0 := (leaf_groups C m (nid b k)).

Lemma ok_j j : leaf_ok D (lf j).
Proof. exact Hok. Qed.
Lemma inside_cols g : In g gs0 -> cols_exist D m g = true.
Proof.
  intro Hg. apply forallb_forall. intros s Hs. pose proof (leaf_group_cols (lf 0) g s Hok Hg Hs).
  apply andb_true_iff. split; apply Nat.ltb_lt; lia.
Qed.
Lemma weight_is_term va gs cc x j : others C m (lf 0) va = Some gs ->
  row_weight data m (t_part T b k) va (concat (pick cc gs)) (length gs) (length (pick cc gs)) lm x * value_of b k j
  == term m data x (lf j) va gs cc.
Proof.
  intros _. unfold row_weight, term, term_with. cbn [l_rect l_val leaf_at].
  pose proof (proj2 (leaf_wide (lf 0) Hok)) as E. cbn [l_rect leaf_at] in E. rewrite E. reflexivity.
Qed.
(** what counter [cc] of player [va] adds *)
Definition adds (va : group) (q : pt -> nat -> Q) : block := fun i c j =>
  if (j <? t_out T)%nat then Qn (count_occ Nat.eq_dec va c) * at_row X (fun x => q x j) i else 0.
Lemma at_row_ext f g i : (forall x, f x == g x) -> at_row X f i == at_row X g i.
Proof. intro H. unfold at_row. destruct (nth_error X i); [apply H|reflexivity]. Qed.
Lemma filled va gs S0 cc : others C m (lf 0) va = Some gs -> length S0 = m ->
  exists S', fill 0 cc gs S0 0 0 = Some (S', length (concat (pick cc gs)), length (pick cc gs)) /\ length S' = m /\
    map (fun s => nth s S' 0%nat) (seq 0 (length (concat (pick cc gs)))) = concat (pick cc gs).
Proof.
  intros Ho HS. pose proof (others_fit C m HC (lf 0) (proj1 (leaf_wide (lf 0) Hok)) gs va Ho) as Hle.
  pose proof (pick_from_length 0 cc gs) as Hp. destruct (fill_spec cc gs 0 S0 0 0) as [S' [E1 [E2 E3]]]; [cbn; lia|].
  exists S'. cbn [Nat.add] in *. split; [exact E1|]. split; [congruence|]. rewrite read_back by (unfold pick; lia). exact E3.
Qed.
Lemma others_in va gs : others C m (lf 0) va = Some gs -> In va gs0 /\ forall g, In g gs -> In g gs0.
Proof.
  unfold others. cbn [l_vars leaf_at]. destruct (in_dec group_eq_dec va gs0) as [Hi|]; [|discriminate]. intro E. injection E as <-.
  split; [exact Hi|]. intros g Hg. eapply remove1_incl. exact Hg.
Qed.
Lemma rows_added va gs cc S0 a : others C m (lf 0) va = Some gs -> length S0 = m ->
  exists S' a', fill 0 cc gs S0 0 0 = Some (S', length (concat (pick cc gs)), length (pick cc gs)) /\ length S' = m /\
    add_rows T D data m X b k va (map (fun s => nth s S' 0%nat) (seq 0 (length (concat (pick cc gs))))) (length gs) (length (pick cc gs)) lm a = Some a' /\
    forall i c j, a' i c j == a i c j + adds va (fun x j => term m data x (lf j) va gs cc) i c j.
Proof.
  intros Ho HS. destruct (filled va gs S0 cc Ho HS) as [S' [E1 [E2 E3]]].
  destruct (others_in va gs Ho) as [Hva Hgs].
  destruct (add_rows_spec b k va (concat (pick cc gs)) (length gs) (length (pick cc gs)) lm a Hleaf) as [a' [E4 P4]].
  - apply forallb_forall. intros s Hs. apply in_concat in Hs. destruct Hs as (g & Hg & Hs). apply pick_in in Hg.
    pose proof (inside_cols g (Hgs g Hg)) as Hc. unfold cols_exist in Hc. rewrite forallb_forall in Hc. now apply Hc.
  - now apply inside_cols.
  - exists S', a'. split; [exact E1|]. split; [exact E2|]. split; [rewrite E3; exact E4|]. intros i c j. rewrite P4. unfold adds.
    destruct (j <? t_out T)%nat; [|reflexivity].
    rewrite (at_row_ext _ _ i (fun x => weight_is_term va gs cc x j Ho)). reflexivity.
Qed.
(** all counters of one player *)
Lemma adds_sum {A} (f : A -> pt -> nat -> Q) va l i c j :
  sumf (fun cc => adds va (f cc) i c j) l == adds va (fun x j => sumf (fun cc => f cc x j) l) i c j.
Proof.
  unfold adds. destruct (j <? t_out T)%nat; [|apply sumf_zero; reflexivity].
  rewrite sumf_scal, at_row_sum. reflexivity.
Qed.
Lemma counter_pass_spec v va gs st cc : others C m (lf 0) va = Some gs -> (cc < 2 ^ scaling)%nat -> okw st ->
  exists st', counter_pass T D data scaling m X b k lm v va gs st cc = Some st' /\ okw st' /\
    forall i c j, total st' i c j == total st i c j + adds va (fun x j => term m data x (lf j) va gs cc) i c j.
Proof.
  intros Ho Hcc Hst. unfold counter_pass. rewrite (proj2 (Nat.ltb_lt _ _) Hcc).
  destruct (rows_added va gs cc (w_S st v cc k) (w_phi st k cc) Ho (Hst v cc k)) as (S' & a' & E1 & E2 & E3 & P).
  rewrite E1, E3. eexists. split; [reflexivity|]. split.
  - intros v' c' k'. cbn [w_S]. unfold set3. destruct ((v' =? v)%nat && (c' =? cc)%nat && (k' =? k)%nat); [exact E2|apply Hst].
  - intros i c j. rewrite (total_set st _ k cc a' i c j Hmax Hcc), P. ring.
Qed.
Lemma player_total va i c j :
  adds va (fun x j => leaf_player C m data x (lf j) va) i c j ==
  match others C m (lf 0) va with
  | Some gs => sumf (fun cc => adds va (fun x j => term m data x (lf j) va gs cc) i c j) (seq 0 (2 ^ length gs))
  | None => 0 end.
Proof.
  destruct (others C m (lf 0) va) as [gs|] eqn:Ho.
  - rewrite adds_sum. unfold adds. destruct (j <? t_out T)%nat; [|reflexivity]. apply Qmult_comp; [reflexivity|]. apply at_row_ext.
    intro x. unfold leaf_player. change (others C m (lf j) va) with (others C m (lf 0) va). rewrite Ho. reflexivity.
  - unfold adds. destruct (j <? t_out T)%nat; [|reflexivity].
    assert (Z : at_row X (fun x => leaf_player C m data x (lf j) va) i == 0).
    { unfold at_row. destruct (nth_error X i); [|reflexivity]. unfold leaf_player. change (others C m (lf j) va) with (others C m (lf 0) va). rewrite Ho. reflexivity. }
    rewrite Z. ring.
Qed.
Lemma player_index v va : In (v, va) (indexed (va_ids C m)) -> (v < m)%nat.
Proof.
  intro H. unfold indexed in H. apply in_combine_l in H. apply in_seq in H.
  pose proof (players_length C m _ HC (va_ids_players C m HC)). lia.
Qed.
(** enough slots for the counters of every player *)
Definition fits : Prop := (length gs0 <= S scaling)%nat.
Lemma others_length va gs : others C m (lf 0) va = Some gs -> S (length gs) = length gs0.
Proof.
  unfold others. cbn [l_vars leaf_at]. destruct (in_dec group_eq_dec va gs0) as [Hi|]; [|discriminate]. intro E. injection E as <-.
  revert Hi. generalize gs0. intro l. induction l as [|g l IH]; intros Hi; [contradiction|]. cbn [remove1].
  destruct (group_eq_dec g va) as [|E]; [reflexivity|]. destruct Hi as [|Hi]; [contradiction|]. cbn [length]. rewrite <- (IH Hi). reflexivity.
Qed.
Lemma leaf_pass_spec st : fits -> okw st ->
  exists st', leaf_pass T nid D data scaling m X C b st k = Some st' /\ okw st' /\
    forall i c j, total st' i c j == total st i c j
      + (if (j <? t_out T)%nat then at_row X (fun x => leaf_total C m data x (lf j) c) i else 0).
Proof.
  intros Hfit Hst. unfold leaf_pass. rewrite (proj2 (Nat.ltb_lt _ _) Hmax), leaf_players_eq, (va_id_arr_eq C m HC).
  destruct (ofold_add total okw (player_pass T D data scaling m X b k lm gs0)
    (fun p i c j => adds (snd p) (fun x j => leaf_player C m data x (lf j) (snd p)) i c j) (indexed (va_ids C m)))
    with (st := st) as [st' [E [O P]]]; trivial.
  - intros s [v va] Hv Hs. unfold player_pass. rewrite (proj2 (Nat.ltb_lt _ _) (player_index v va Hv)).
    change (nid b k) with (l_vars (lf 0)). rewrite (others_at_eq (lf 0) va (proj1 (leaf_wide (lf 0) Hok))). cbn [snd].
    destruct (others C m (lf 0) va) as [gs|] eqn:Ho.
    + destruct (ofold_add total okw (counter_pass T D data scaling m X b k lm v va gs)
        (fun cc i c j => adds va (fun x j => term m data x (lf j) va gs cc) i c j) (seq 0 (2 ^ length gs)))
        with (st := s) as [s' [E1 [O1 P1]]]; trivial.
      * intros s0 cc Hcc Hs0. apply counter_pass_spec; trivial. apply in_seq in Hcc.
        pose proof (others_length va gs Ho) as El. unfold fits in Hfit.
        assert ((2 ^ length gs <= 2 ^ scaling)%nat) by (apply Nat.pow_le_mono_r; lia). lia.
      * exists s'. split; [exact E1|]. split; [exact O1|]. intros i c j. rewrite P1, player_total, Ho. reflexivity.
    + exists s. split; [reflexivity|]. split; [exact Hs|]. intros i c j. rewrite player_total, Ho. ring.
  - exists st'. split; [exact E|]. split; [exact O|]. intros i c j. rewrite P. apply Qplus_comp; [reflexivity|].
    unfold indexed. rewrite (sumf_snd (fun va => adds va (fun x j => leaf_player C m data x (lf j) va) i c j)).
    unfold adds. destruct (j <? t_out T)%nat; [|apply sumf_zero; reflexivity].
    unfold leaf_total. rewrite <- at_row_sum. apply sumf_ext. intros va _. unfold at_row. destruct (nth_error X i); ring.
Qed.
(** too few slots *)
Lemma leaf_pass_stray st : (S scaling < length gs0)%nat -> leaf_pass T nid D data scaling m X C b st k = None.
Proof.
  intro Hlt. unfold leaf_pass. rewrite (proj2 (Nat.ltb_lt _ _) Hmax), leaf_players_eq, (va_id_arr_eq C m HC).
  destruct gs0 as [|va r] eqn:Eg; [cbn in Hlt; lia|]. rewrite <- Eg in *.
  assert (Hva : In va gs0) by (rewrite Eg; now left).
  assert (Ho : exists gs, others C m (lf 0) va = Some gs).
  { unfold others. cbn [l_vars leaf_at]. destruct (in_dec group_eq_dec va gs0); [eexists; reflexivity|contradiction]. }
  destruct Ho as [gs Ho]. pose proof (others_length va gs Ho) as El.
  assert (HP : In va (va_ids C m)).
  { destruct (leaf_groups_touch C m _ (lf 0) HC (va_ids_players C m HC) (proj1 (leaf_wide (lf 0) Hok))) as [_ Hp].
    apply (Permutation_in va Hp), filter_In in Hva. apply Hva. }
  destruct (In_nth_error _ _ HP) as [v Hv].
  assert (Hi : In (v, va) (indexed (va_ids C m))).
  { unfold indexed. apply (nth_error_In _ v). clear - Hv.
    assert (G : forall (l : list group) s v va, nth_error l v = Some va -> nth_error (combine (seq s (length l)) l) v = Some ((s + v)%nat, va)).
    { induction l as [|a l IH]; intros s v' va' H; [destruct v'; discriminate|]. destruct v' as [|v']; cbn in *.
      - injection H as <-. now rewrite Nat.add_0_r.
      - rewrite (IH (S s) v' va' H). do 2 f_equal. lia. }
    pose proof (G _ 0%nat _ _ Hv) as G1. exact G1. }
  apply (ofold_stuck _ _ (v, va) Hi). intro s. unfold player_pass. rewrite (proj2 (Nat.ltb_lt _ _) (player_index v va Hi)).
  change (nid b k) with (l_vars (lf 0)). rewrite (others_at_eq (lf 0) va (proj1 (leaf_wide (lf 0) Hok))), Ho.
  apply (ofold_stuck _ _ (2 ^ scaling)%nat).
  - apply in_seq. split; [lia|]. cbn [Nat.add]. apply Nat.pow_lt_mono_r; lia.
  - intro s'. unfold counter_pass. now rewrite Nat.ltb_irrefl.
Qed.
Lemma leaf_seq_spec st : length (fst st) = m ->
  exists st', leaf_seq T nid D data m X C b st k = Some st' /\ length (fst st') = m /\
    forall i c j, snd st' i c j == snd st i c j
      + (if (j <? t_out T)%nat then at_row X (fun x => leaf_total C m data x (lf j) c) i else 0).
Proof.
  intros Hst. unfold leaf_seq. rewrite (proj2 (Nat.ltb_lt _ _) Hmax), leaf_players_eq, (va_id_arr_eq C m HC).
  destruct (ofold_add (@snd (list nat) block) (fun st => length (fst st) = m) (player_seq T D data m X b k lm gs0)
    (fun p i c j => adds (snd p) (fun x j => leaf_player C m data x (lf j) (snd p)) i c j) (indexed (va_ids C m)))
    with (st := st) as [st' [E [O P]]]; trivial.
  - intros s [v va] Hv Hs. unfold player_seq. rewrite (proj2 (Nat.ltb_lt _ _) (player_index v va Hv)).
    change (nid b k) with (l_vars (lf 0)). rewrite (others_at_eq (lf 0) va (proj1 (leaf_wide (lf 0) Hok))). cbn [snd].
    destruct (others C m (lf 0) va) as [gs|] eqn:Ho.
    + destruct (ofold_add (@snd (list nat) block) (fun st => length (fst st) = m) (counter_seq T D data m X b k lm va gs)
        (fun cc i c j => adds va (fun x j => term m data x (lf j) va gs cc) i c j) (seq 0 (2 ^ length gs)))
        with (st := s) as [s' [E1 [O1 P1]]]; trivial.
      * intros s0 cc _ Hs0. unfold counter_seq.
        destruct (rows_added va gs cc (fst s0) (snd s0) Ho Hs0) as (S' & a' & F1 & F2 & F3 & F4).
        rewrite F1, F3. eexists. split; [reflexivity|]. split; [exact F2|exact F4].
      * exists s'. split; [exact E1|]. split; [exact O1|]. intros i c j. rewrite P1, player_total, Ho. reflexivity.
    + exists s. split; [reflexivity|]. split; [exact Hs|]. intros i c j. rewrite player_total, Ho. ring.
  - exists st'. split; [exact E|]. split; [exact O|]. intros i c j. rewrite P. apply Qplus_comp; [reflexivity|].
    unfold indexed. rewrite (sumf_snd (fun va => adds va (fun x j => leaf_player C m data x (lf j) va) i c j)).
    unfold adds. destruct (j <? t_out T)%nat; [|apply sumf_zero; reflexivity].
    unfold leaf_total. rewrite <- at_row_sum. apply sumf_ext. intros va _. unfold at_row. destruct (nth_error X i); ring.
Qed.
End Leaf.

(** ** All trees *)
Hypothesis Htabs : tabs_ok T.
Hypothesis Hforest : forall b k, (b < t_trees T)%nat -> (k < t_nb T b)%nat -> leaf_ok D (leaf_at T nid 0 b k).
Definition all_fit : Prop := forall b k, (b < t_trees T)%nat -> (k < t_nb T b)%nat -> (length (leaf_groups C m (nid b k)) <= S scaling)%nat.
Definition every_leaf (order : nat -> list nat) : Prop := forall b, (b < t_trees T)%nat -> Permutation (order b) (seq 0 (t_nb T b)).
Notation tree_total b i c j :=
  (if (j <? t_out T)%nat then at_row X (fun x => sumf (fun k => leaf_total C m data x (leaf_at T nid j b k) c) (seq 0 (t_nb T b))) i else 0).

Lemma C_ne : C <> [] -> forall (A : Type) (a b : A), match C with [] => a | _ :: _ => b end = b.
Proof. intros H A a b. destruct C; [congruence|reflexivity]. Qed.
Lemma tree_sum b l i c j : Permutation l (seq 0 (t_nb T b)) ->
  sumf (fun k => if (j <? t_out T)%nat then at_row X (fun x => leaf_total C m data x (leaf_at T nid j b k) c) i else 0) l == tree_total b i c j.
Proof.
  intro H. rewrite (sumf_perm _ _ _ H). destruct (j <? t_out T)%nat; [apply at_row_sum|apply sumf_zero; reflexivity].
Qed.
Lemma tree_pass_spec order s b : all_fit -> every_leaf order -> (b < t_trees T)%nat -> okw (fst s) ->
  exists s', tree_pass T nid D data scaling m X C order s b = Some s' /\ okw (fst s') /\
    forall i c j, snd s' i c j == snd s i c j + tree_total b i c j.
Proof.
  intros Hfit Hord Hb Hs. unfold tree_pass.
  destruct (ofold_add total okw (leaf_pass T nid D data scaling m X C b)
    (fun k i c j => if (j <? t_out T)%nat then at_row X (fun x => leaf_total C m data x (leaf_at T nid j b k) c) i else 0) (order b))
    with (st := mkWork (w_S (fst s)) (fun _ _ _ _ _ => 0)) as [st [E [O P]]].
  - intros st k Hk Hst. apply (Permutation_in _ (Hord b Hb)), in_seq in Hk. destruct (Htabs b Hb) as [H1 H2].
    apply leaf_pass_spec; [lia|apply H2; lia|apply Hforest; lia|apply Hfit; lia|exact Hst].
  - exact Hs.
  - rewrite E. eexists. split; [reflexivity|]. split; [exact O|]. intros i c j. cbn [snd]. unfold reduce.
    rewrite (fold_plus2 (fun k cc => w_phi st k cc i c j)). apply Qplus_comp; [reflexivity|].
    change (total st i c j == tree_total b i c j). rewrite P. rewrite (tree_sum b (order b) i c j (Hord b Hb)).
    assert (Z : total (mkWork (w_S (fst s)) (fun _ _ _ _ _ => 0)) i c j == 0).
    { unfold total. apply sumf_zero. intros k _. apply sumf_zero. reflexivity. }
    rewrite Z. ring.
Qed.
Lemma trees_total i x c j : nth_error X i = Some x -> (j < t_out T)%nat ->
  sumf (fun b => tree_total b i c j) (seq 0 (t_trees T)) / Qn m == shap_values_leaves C m data (forest_at T nid j) x c.
Proof.
  intros Hx Hj. unfold shap_values_leaves, forest_at. rewrite sumf_map. apply Qmult_comp; [|reflexivity]. apply sumf_ext. intros b _.
  rewrite (proj2 (Nat.ltb_lt _ _) Hj), sumf_map. unfold at_row. rewrite Hx. reflexivity.
Qed.
Theorem shap_prog_values order : C <> [] -> all_fit -> every_leaf order ->
  exists phi, shap_prog T nid D data scaling m X C order = Some phi /\
    forall i x c j, nth_error X i = Some x -> (j < t_out T)%nat -> phi i c j == shap_values_leaves C m data (forest_at T nid j) x c.
Proof.
  intros Hne Hfit Hord. unfold shap_prog. rewrite (C_ne Hne).
  destruct (ofold_add (@snd work block) (fun s => okw (fst s)) (tree_pass T nid D data scaling m X C order)
    (fun b i c j => tree_total b i c j) (seq 0 (t_trees T)))
    with (st := (mkWork (fun _ _ _ => repeat 0%nat m) (fun _ _ _ _ _ => 0), (fun _ _ _ => 0) : block)) as [[st phi] [E [_ P]]].
  - intros s b Hb Hs. apply in_seq in Hb. apply tree_pass_spec; trivial. lia.
  - intros v c k. apply repeat_length.
  - rewrite E. eexists. split; [reflexivity|]. intros i x c j Hx Hj. cbn beta. cbn [snd] in P. rewrite P.
    rewrite <- (trees_total i x c j Hx Hj). unfold Qdiv. ring.
Qed.
Theorem shap_prog_stray order b k : (b < t_trees T)%nat -> (k < t_nb T b)%nat -> (S scaling < length (leaf_groups C m (nid b k)))%nat ->
  every_leaf order -> shap_prog T nid D data scaling m X C order = None.
Proof.
  intros Hb Hk Hlt Hord. unfold shap_prog. destruct C as [|g0 C0] eqn:EC; [reflexivity|]. rewrite <- EC in *.
  rewrite (ofold_stuck _ _ b); [reflexivity|apply in_seq; lia|]. intro s. unfold tree_pass.
  rewrite (ofold_stuck _ _ k); [reflexivity| |].
  - apply (Permutation_in _ (Permutation_sym (Hord b Hb))), in_seq. lia.
  - intro s'. destruct (Htabs b Hb) as [H1 H2]. apply leaf_pass_stray; [lia|apply H2; lia|apply Hforest; lia|exact Hlt].
Qed.
Theorem shap_seq_values : C <> [] -> exists phi, shap_seq_prog T nid D data m X C = Some phi /\
    forall i x c j, nth_error X i = Some x -> (j < t_out T)%nat -> phi i c j == shap_values_leaves C m data (forest_at T nid j) x c.
Proof.
  intros Hne. unfold shap_seq_prog. rewrite (C_ne Hne).
  destruct (ofold_add (@snd (list nat) block) (fun s => length (fst s) = m) (fun st b => ofold (leaf_seq T nid D data m X C b) (seq 0 (t_nb T b)) st)
    (fun b i c j => tree_total b i c j) (seq 0 (t_trees T)))
    with (st := (repeat 0%nat m, (fun _ _ _ => 0) : block)) as [[st phi] [E [_ P]]].
  - intros s b Hb Hs. apply in_seq in Hb.
    destruct (ofold_add (@snd (list nat) block) (fun s => length (fst s) = m) (leaf_seq T nid D data m X C b)
      (fun k i c j => if (j <? t_out T)%nat then at_row X (fun x => leaf_total C m data x (leaf_at T nid j b k) c) i else 0) (seq 0 (t_nb T b)))
      with (st := s) as [s' [E1 [O1 P1]]]; trivial.
    + intros st k Hk Hst. apply in_seq in Hk. destruct (Htabs b ltac:(lia)) as [H1 H2].
      apply leaf_seq_spec; [lia|apply H2; lia|apply Hforest; lia|exact Hst].
    + exists s'. split; [exact E1|]. split; [exact O1|]. intros i c j. rewrite P1, (tree_sum b _ i c j (Permutation_refl _)). reflexivity.
  - apply repeat_length.
  - rewrite E. eexists. split; [reflexivity|]. intros i x c j Hx Hj. cbn beta. cbn [snd] in P. rewrite P.
    rewrite <- (trees_total i x c j Hx Hj). unfold Qdiv. ring.
Qed.
End Run.

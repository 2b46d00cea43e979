(** Proofs about the estimates made inside the searches of explanations of tree-based
    classifiers. *)
From Verif Require Import Base TreeModel ShapModel AcvModel SdpModel SdpSpec SdpProofs GameSpec SearchModel SearchSpec
  SearchProofs ClfModel ClfSpec.
From Coq Require Import NArith Permutation.

Lemma sumf_eq {A} (f g : A -> Q) l : (forall a, In a l -> f a = g a) -> sumf f l = sumf g l.
Proof.
  induction l as [|a l IH]; intro H; [reflexivity|]. rewrite !sumf_cons, H by now left.
  rewrite IH; [reflexivity|]. intros b Hb. apply H. now right.
Qed.
Lemma zero_plus q : (0 + q)%Q = q.
Proof.
  destruct q as [n e]. unfold Qplus. cbn [Qnum Qden]. rewrite Z.mul_1_r. reflexivity.
Qed.

(** *** Cells *)
Lemma set_cell_same b l k j q ce : set_cell b l k j q ce b l k j = q.
Proof. unfold set_cell. now rewrite !Nat.eqb_refl. Qed.
Lemma set_cell_other b l k j q ce b' l' k' j' : (b', l', k', j') <> (b, l, k, j) ->
  set_cell b l k j q ce b' l' k' j' = ce b' l' k' j'.
Proof.
  intro H. unfold set_cell. destruct (Nat.eqb_spec b' b), (Nat.eqb_spec l' l), (Nat.eqb_spec k' k), (Nat.eqb_spec j' j);
    cbn [andb]; try reflexivity. subst. congruence.
Qed.

(** a sequence of steps each of which leaves a cell alone *)
Lemma fold_keep {A} (f : cells -> A -> cells) b l k j : forall L ce,
  (forall ce a, In a L -> f ce a b l k j = ce b l k j) -> fold_left f L ce b l k j = ce b l k j.
Proof.
  induction L as [|a L IH]; intros ce H; cbn [fold_left]; [reflexivity|].
  rewrite IH; [apply H; now left|]. intros ce' a' Ha. apply H. now right.
Qed.
(** exactly one of the steps acts on a cell *)
Lemma fold_once {A} (f : cells -> A -> cells) b l k j a : forall L ce, NoDup L -> In a L ->
  (forall ce a', In a' L -> a' <> a -> f ce a' b l k j = ce b l k j) ->
  exists ce', ce' b l k j = ce b l k j /\ fold_left f L ce b l k j = f ce' a b l k j.
Proof.
  induction L as [|x L IH]; intros ce Hn Hi H; [destruct Hi|]. inversion Hn; subst. cbn [fold_left].
  destruct Hi as [->|Hi].
  - exists ce. split; [reflexivity|]. apply fold_keep. intros ce' a' Ha. apply H; [now right|].
    intros ->. contradiction.
  - destruct (IH (f ce x) H3 Hi) as [ce' [E1 E2]].
    { intros ce' a' Ha. apply H. now right. }
    exists ce'. split; [|exact E2]. rewrite E1. apply H; [now left|]. intros ->. contradiction.
Qed.

(** resetting steps: whatever comes before, a resetting step followed by steps that keep or
    reset gives zero *)
Lemma fold_reset {A} (f : cells -> A -> cells) b l k j a : forall L ce, In a L ->
  (forall ce, f ce a b l k j = 0%Q) ->
  (forall ce a', In a' L -> f ce a' b l k j = ce b l k j \/ f ce a' b l k j = 0%Q) ->
  fold_left f L ce b l k j = 0%Q.
Proof.
  induction L as [|x L IH]; intros ce Hi H0 H; [destruct Hi|]. cbn [fold_left].
  assert (Z : forall ce', ce' b l k j = 0%Q -> fold_left f L ce' b l k j = 0%Q).
  { clear - H. assert (H' : forall ce a', In a' L -> f ce a' b l k j = ce b l k j \/ f ce a' b l k j = 0%Q)
      by (intros; apply H; now right). clear H. revert H'.
    induction L as [|y L IH]; intros H ce' E; cbn [fold_left]; [exact E|]. apply IH.
    - intros ce a' Ha. apply H. now right.
    - destruct (H ce' y (or_introl eq_refl)) as [->| ->]; [exact E|reflexivity]. }
  destruct Hi as [->|Hi]; [apply Z, H0|].
  apply IH; [exact Hi|exact H0|]. intros ce' a' Ha. apply H. now right.
Qed.

Lemma in_indexed {A} (l : list A) b a : In (b, a) (indexed l) <-> nth_error l b = Some a.
Proof.
  unfold indexed. assert (G : forall s, In (b, a) (combine (seq s (length l)) l) <-> s <= b /\ nth_error l (b - s) = Some a).
  { induction l as [|x l IH]; intro s; cbn [length seq combine].
    - split; [intros []|]. intros [_ H]. destruct (b - s); discriminate.
    - cbn [In]. rewrite IH. split.
      + intros [E|[H1 H2]]; [injection E as -> ->; split; [lia|]; now rewrite Nat.sub_diag|].
        split; [lia|]. replace (b - s) with (S (b - S s)) by lia. exact H2.
      + intros [H1 H2]. destruct (Nat.eq_dec s b) as [->|Hne].
        * rewrite Nat.sub_diag in H2. cbn in H2. injection H2 as ->. now left.
        * right. split; [lia|]. replace (b - s) with (S (b - S s)) in H2 by lia. exact H2. }
  rewrite G, Nat.sub_0_r. split; [intros [_ H]; exact H|intro H; split; [lia|exact H]].
Qed.

Section Fill.
Variable F : list (list cleaf).

(** the pairs (tree, leaf) of the forest *)
Definition cell_pairs : list (nat * nat) :=
  concat (map (fun bt : nat * list cleaf => map (fun l => (fst bt, l)) (seq 0 (length (snd bt)))) (indexed F)).

Lemma clear_zero R ce b l k j ls : nth_error F b = Some ls -> l < length ls -> In k R -> j < 6 ->
  clear_cells F R ce b l k j = 0%Q.
Proof.
  intros Hb Hl Hk Hj. unfold clear_cells.
  assert (G4 : forall b' l' k' ce,
     fold_left (fun ce j => set_cell b' l' k' j 0%Q ce) (seq 0 6) ce b l k j = ce b l k j \/
     fold_left (fun ce j => set_cell b' l' k' j 0%Q ce) (seq 0 6) ce b l k j = 0%Q).
  { intros b' l' k' ce'. destruct (Nat.eq_dec b b'), (Nat.eq_dec l l'), (Nat.eq_dec k k'); subst;
      try (left; apply fold_keep; intros; apply set_cell_other; congruence).
    right. apply fold_reset with (a := j); [apply in_seq; lia|intro; apply set_cell_same|].
    intros ce0 a' _. unfold set_cell. destruct (_ && _); auto. }
  assert (Gk : forall {A} (f : cells -> A -> cells) L ce,
     (forall ce a, f ce a b l k j = ce b l k j \/ f ce a b l k j = 0%Q) ->
     fold_left f L ce b l k j = ce b l k j \/ fold_left f L ce b l k j = 0%Q).
  { intros A f. induction L as [|a L IH]; intros ce' H; cbn [fold_left]; [now left|].
    destruct (IH (f ce' a) H) as [E|E]; rewrite E; [apply H|now right]. }
  apply fold_reset with (a := (b, ls)); [now apply in_indexed| |].
  - intro ce1. cbn [fst snd]. apply fold_reset with (a := l); [apply in_seq; lia| |].
    + intro ce2. apply fold_reset with (a := k); [exact Hk| |].
      * intro ce3. apply fold_reset with (a := j); [apply in_seq; lia|intro; apply set_cell_same|].
        intros ce4 a' _. unfold set_cell. destruct (_ && _); auto.
      * intros ce3 a' _. apply G4.
    + intros ce2 a' _. apply Gk. intros; apply G4.
  - intros ce1 a' _. apply Gk. intros. apply Gk. intros. apply G4.
Qed.

Variable d : nat.
Variable rows : list (pt * nat).
Variable X : nat -> pt.
Variable fX : nat -> nat.
Variable sched : list nat -> list (nat * nat).
Hypothesis sched_ok : forall S, Permutation (sched S) cell_pairs.

Lemma indexed_NoDup {A} (l : list A) : NoDup (map fst (indexed l)).
Proof. rewrite indexed_fst. apply seq_NoDup. Qed.
Lemma in_cell_pairs b l : In (b, l) cell_pairs <-> exists ls, nth_error F b = Some ls /\ l < length ls.
Proof.
  unfold cell_pairs. rewrite in_concat. split.
  - intros [L [HL Hi]]. apply in_map_iff in HL. destruct HL as [[b' ls] [<- Hb]]. cbn [fst snd] in Hi.
    apply in_map_iff in Hi. destruct Hi as [l' [E Hl]]. injection E as <- <-. apply in_seq in Hl.
    exists ls. split; [now apply in_indexed|lia].
  - intros [ls [Hb Hl]]. exists (map (fun l => (b, l)) (seq 0 (length ls))). split.
    + apply in_map_iff. exists (b, ls). split; [reflexivity|now apply in_indexed].
    + apply in_map_iff. exists l. split; [reflexivity|]. apply in_seq. lia.
Qed.
Lemma cell_pairs_NoDup : NoDup cell_pairs.
Proof.
  unfold cell_pairs. pose proof (indexed_NoDup F) as H. revert H.
  generalize (indexed F) as I. induction I as [|[b ls] I IH]; intro H; cbn [map concat]; [constructor|].
  cbn [map fst] in H. inversion H; subst. apply NoDup_app_intro; [|now apply IH|].
  - cbn [fst snd]. apply FinFun.Injective_map_NoDup; [|apply seq_NoDup]. intros x y E. now injection E.
  - intros [b' l'] Ha Hc. apply in_map_iff in Ha. destruct Ha as [l1 [E _]]. cbn [fst] in E. injection E as <- <-.
    apply in_concat in Hc. destruct Hc as [L [HL Hi]]. apply in_map_iff in HL. destruct HL as [[b2 ls2] [<- Hb]].
    apply in_map_iff in Hi. destruct Hi as [l2 [E2 _]]. cbn [fst] in E2. injection E2 as -> ->.
    match goal with Hx : ~ In b _ |- _ => apply Hx end. apply in_map_iff. now exists (b, ls2).
Qed.

(** contents of a cell after the loops *)
Definition cell_val (S : list nat) (k b l j : nat) : Q :=
  match nth_error F b with
  | Some ls => match nth_error ls l with
               | Some lf => if not_out_cl (c_rect lf) S (X k)
                            then leaf_term d S (clf_rows (fX k) rows) (fX k) lf j else 0%Q
               | None => 0%Q
               end
  | None => 0%Q
  end.

Lemma fill_leaf_other S R b l lf ce b' l' k j : (b', l') <> (b, l) ->
  fill_leaf d rows X fX S R b l lf ce b' l' k j = ce b' l' k j.
Proof.
  intro H. unfold fill_leaf. apply fold_keep. intros ce1 k' _. destruct (not_out_cl _ _ _); [|reflexivity].
  apply fold_keep. intros ce2 j' _. unfold add_cell. apply set_cell_other. congruence.
Qed.
Lemma fill_leaf_same S R b l lf ce k j : NoDup R -> In k R -> j < 6 -> ce b l k j = 0%Q ->
  fill_leaf d rows X fX S R b l lf ce b l k j
  = if not_out_cl (c_rect lf) S (X k) then leaf_term d S (clf_rows (fX k) rows) (fX k) lf j else 0%Q.
Proof.
  intros Hn Hk Hj H0. unfold fill_leaf.
  match goal with |- fold_left ?f R ce b l k j = _ => destruct (fold_once f b l k j k R ce Hn Hk) as [ce1 [E1 E2]] end.
  { intros ce1 k' _ Hne. destruct (not_out_cl _ _ _); [|reflexivity].
    apply fold_keep. intros ce2 j' _. unfold add_cell. apply set_cell_other. congruence. }
  rewrite E2. destruct (not_out_cl _ _ _); [|now rewrite E1].
  match goal with |- fold_left ?f (seq 0 6) ce1 b l k j = _ =>
    destruct (fold_once f b l k j j (seq 0 6) ce1 (seq_NoDup _ _)) as [ce2 [E3 E4]] end.
  { apply in_seq. lia. }
  { intros ce2 j' _ Hne. unfold add_cell. apply set_cell_other. congruence. }
  rewrite E4. unfold add_cell. rewrite set_cell_same, E3, E1, H0. apply zero_plus.
Qed.

Lemma fill_spec S R ce b l k j ls : NoDup R -> In k R -> j < 6 ->
  nth_error F b = Some ls -> l < length ls -> ce b l k j = 0%Q ->
  fill_cells d F rows X fX sched S R ce b l k j = cell_val S k b l j.
Proof.
  intros Hn Hk Hj Hb Hl H0. unfold fill_cells.
  match goal with |- fold_left ?f _ ce b l k j = _ => destruct (fold_once f b l k j (b, l) (sched S) ce) as [ce1 [E1 E2]] end.
  { apply (Permutation_NoDup (Permutation_sym (sched_ok S))), cell_pairs_NoDup. }
  { apply (Permutation_in _ (Permutation_sym (sched_ok S))). apply in_cell_pairs. now exists ls. }
  { intros ce1 [b' l'] _ Hne. cbn [fst snd]. destruct (nth_error F b'); [|reflexivity].
    destruct (nth_error l0 l'); [|reflexivity]. apply fill_leaf_other. congruence. }
  rewrite E2. cbn [fst snd]. unfold cell_val. rewrite Hb.
  destruct (nth_error ls l) as [lf|] eqn:El; [|apply nth_error_None in El; lia].
  apply fill_leaf_same; try assumption. now rewrite E1.
Qed.

Variable norm : bool.
Lemma ss_of_eq ce ce' k j : j < 3 ->
  (forall b l j ls, nth_error F b = Some ls -> l < length ls -> j < 6 -> ce b l k j = ce' b l k j) ->
  ss_of norm F ce k j = ss_of norm F ce' k j.
Proof.
  intros Hj H. unfold ss_of. apply sumf_eq. intros [b ls] Hb. apply in_indexed in Hb. cbn [fst snd].
  assert (En : sumf (fun l => ce b l k (3 + j)) (seq 0 (length ls)) = sumf (fun l => ce' b l k (3 + j)) (seq 0 (length ls))).
  { apply sumf_eq. intros l Hl. apply in_seq in Hl. apply (H b l (3 + j) ls); [exact Hb|lia|lia]. }
  cbn zeta. rewrite En. apply sumf_eq. intros l Hl. apply in_seq in Hl.
  rewrite (H b l j ls) by (assumption || lia). reflexivity.
Qed.
Lemma est_of_eq ce ce' k :
  (forall b l j ls, nth_error F b = Some ls -> l < length ls -> j < 6 -> ce b l k j = ce' b l k j) ->
  est_of norm F ce k = est_of norm F ce' k.
Proof.
  intro H. unfold est_of. rewrite (ss_of_eq ce ce' k 0), (ss_of_eq ce ce' k 1), (ss_of_eq ce ce' k 2) by (lia || exact H).
  reflexivity.
Qed.

(** the estimate, as a function of the row and of the set of columns only *)
Definition clf_est (k : nat) (S : list nat) : Q := est_of norm F (fun b l k j => cell_val S k b l j) k.

Variable v : variant.
Variable pi : Q.
Hypothesis v_nomask : v_mask v = false.

Lemma clf_set_rows R rc S N : NoDup R ->
  fst (clf_set v norm d pi F rows X fX sched R rc S) = one_set v d pi clf_est N R (fst rc) S.
Proof.
  intro Hn. unfold clf_set, one_set. cbn [fst]. unfold estimates. rewrite v_nomask.
  set (ce := fill_cells d F rows X fX sched S R (clear_cells F R (snd rc))).
  assert (E : forall k, In k R -> est_of norm F ce k = clf_est k S).
  { intros k Hk. unfold clf_est. apply est_of_eq. intros b l j ls Hb Hl Hj. unfold ce.
    apply (fill_spec S R _ b l k j ls Hn Hk Hj Hb Hl). now apply clear_zero with (ls := ls). }
  clear Hn. generalize (fst rc) as rw. revert E. clear. clearbody ce.
  induction R as [|k R IH]; intros E rw; cbn [fold_left map combine]; [reflexivity|].
  cbn [fst snd]. rewrite E by now left. apply IH. intros k' Hk. apply E. now right.
Qed.
Lemma clf_sets_rows R N sets : NoDup R -> forall rc,
  fst (fold_left (clf_set v norm d pi F rows X fX sched R) sets rc)
  = fold_left (one_set v d pi clf_est N R) sets (fst rc).
Proof.
  intro Hn. induction sets as [|S sets IH]; intro rc; cbn [fold_left]; [reflexivity|].
  rewrite IH, (clf_set_rows R rc S N Hn). reflexivity.
Qed.
Lemma clf_level_state N sets sc : NoDup (s_R (fst sc)) ->
  fst (clf_level v norm d pi F rows X fX sched sets sc) = one_level v d pi clf_est N sets (fst sc) /\
  NoDup (s_R (fst (clf_level v norm d pi F rows X fX sched sets sc))).
Proof.
  intro Hn. destruct sc as [st ce]. cbn [fst snd] in *. split.
  - unfold clf_level, one_level. cbn [fst snd].
    rewrite (clf_sets_rows (s_R st) N sets Hn (s_rows st, ce)). reflexivity.
  - unfold clf_level. cbn [fst snd s_R].
    erewrite remove_all; [|exact Hn|reflexivity]. now apply NoDup_filter'.
Qed.
Lemma clf_loop_state N stop pw idx : forall sc, NoDup (s_R (fst sc)) ->
  option_map fst (clf_loop v norm d pi F rows X fX sched stop pw idx sc)
  = search_loop v d pi clf_est stop N pw idx (fst sc).
Proof.
  induction idx as [|s0 idx IH]; intros sc Hn; cbn [clf_loop search_loop]; [reflexivity|].
  destruct (nth_error pw s0) as [sets|]; [|reflexivity].
  destruct (clf_level_state N sets sc Hn) as [E1 E2]. cbn zeta. rewrite E1.
  destruct (_ && stop); [cbn [option_map]; now rewrite E1|]. rewrite IH by exact E2. now rewrite E1.
Qed.
Lemma clf_search_refines limit stop N va minimal :
  option_map fst (clf_search v norm d pi F rows X fX sched limit stop N va minimal)
  = search_clf v d pi clf_est limit stop N va minimal.
Proof.
  unfold clf_search, search_clf. cbn zeta. rewrite (clf_loop_state N); [reflexivity|]. cbn. apply seq_NoDup.
Qed.
Lemma clf_search_all_refines limit stop N va minimal :
  option_map fst (clf_search_all v norm d pi F rows X fX sched limit stop N va minimal)
  = search v d pi clf_est limit stop N va minimal.
Proof.
  unfold clf_search_all, search. rewrite (clf_loop_state N); [reflexivity|]. cbn. apply seq_NoDup.
Qed.
End Fill.

(** *** The estimate is the documented probability *)
Lemma times_one q : (q * 1)%Q = q.
Proof. destruct q as [n e]. unfold Qmult. cbn [Qnum Qden]. now rewrite Z.mul_1_r, Pos.mul_1_r. Qed.
Lemma sumf_nth {A} (f : nat -> Q) (g : A -> Q) ls :
  (forall l a, nth_error ls l = Some a -> f l = g a) -> sumf f (seq 0 (length ls)) = sumf g ls.
Proof.
  assert (G : forall s, (forall l a, nth_error ls l = Some a -> f (s + l) = g a) -> sumf f (seq s (length ls)) = sumf g ls).
  { induction ls as [|a ls IH]; intros s H; cbn [length seq]; [reflexivity|]. rewrite !sumf_cons.
    rewrite <- (H 0 a eq_refl), Nat.add_0_r. rewrite IH; [reflexivity|].
    intros l b Hb. rewrite <- (H (S l) b Hb). f_equal. lia. }
  apply (G 0).
Qed.
Lemma sumf_indexed {A} (h : nat -> A -> Q) (g : A -> Q) l :
  (forall b a, nth_error l b = Some a -> h b a = g a) -> sumf (fun bt => h (fst bt) (snd bt)) (indexed l) = sumf g l.
Proof.
  intro H. rewrite (sumf_eq _ (fun bt => g (snd bt))).
  - rewrite <- (indexed_snd l) at 2. induction (indexed l) as [|[b a] I IH]; [reflexivity|].
    cbn [map]. rewrite !sumf_cons, IH. reflexivity.
  - intros [b a] Hb. apply in_indexed in Hb. cbn [fst snd]. now apply H.
Qed.
Lemma sumf_map_eq {A B} (f : B -> Q) (g : A -> B) l : sumf f (map g l) = sumf (fun a => f (g a)) l.
Proof. induction l as [|a l IH]; [reflexivity|]. cbn [map]. now rewrite !sumf_cons, IH. Qed.

Lemma part_mod j rs : j < 3 -> part ((3 + j) mod 3) rs = part j rs /\ part (j mod 3) rs = part j rs.
Proof. intro H. destruct j as [|[|[|j]]]; [split; reflexivity..|lia]. Qed.

Section Documented.
Variable F : list (list cleaf).
Variable d : nat.
Variable rows : list (pt * nat).
Variable X : nat -> pt.
Variable fX : nat -> nat.
Notation rs k := (clf_rows (fX k) rows).
Notation cv := (cell_val F d rows X fX).

Lemma cell_mean_val S k b l j ls lf : j < 3 -> nth_error F b = Some ls -> nth_error ls l = Some lf ->
  cv S k b l j = box_leaf d S (X k) (part j (rs k)) (class_leaf (fX k) lf).
Proof.
  intros Hj Hb Hl. unfold cell_val. rewrite Hb, Hl. unfold box_leaf, leaf_term. cbn [class_leaf l_rect l_val].
  destruct (not_out_cl _ _ _); [|reflexivity]. destruct (part_mod j (rs k) Hj) as [_ ->].
  destruct (Nat.ltb_spec j 3); [reflexivity|lia].
Qed.
Lemma cell_norm_val S k b l j ls lf : j < 3 -> nth_error F b = Some ls -> nth_error ls l = Some lf ->
  cv S k b l (3 + j) = box_norm d S (X k) (part j (rs k)) (class_leaf (fX k) lf).
Proof.
  intros Hj Hb Hl. unfold cell_val. rewrite Hb, Hl. unfold box_norm, leaf_term. cbn [class_leaf l_rect l_val].
  destruct (not_out_cl _ _ _); [|reflexivity]. destruct (part_mod j (rs k) Hj) as [-> _].
  destruct (Nat.ltb_spec (3 + j) 3); [lia|]. now rewrite times_one.
Qed.
Lemma ss_norm S k j : j < 3 ->
  ss_of true F (fun b l k j => cv S k b l j) k j = box_sum d S (X k) (part j (rs k)) (class_forest (fX k) F).
Proof.
  intro Hj. unfold ss_of, box_sum, class_forest. rewrite sumf_map_eq.
  apply (sumf_indexed (fun b ls => let n := sumf (fun l => cv S k b l (3 + j)) (seq 0 (length ls)) in
     sumf (fun l => qdiv0 (cv S k b l j) n) (seq 0 (length ls)))).
  intros b ls Hb. cbn zeta. rewrite !sumf_map_eq.
  rewrite (sumf_nth (fun l => cv S k b l (3 + j)) (fun lf => box_norm d S (X k) (part j (rs k)) (class_leaf (fX k) lf)) ls).
  2:{ intros l lf Hl. now apply cell_norm_val with (ls := ls). }
  apply sumf_nth. intros l lf Hl. now rewrite (cell_mean_val S k b l j ls lf Hj Hb Hl).
Qed.
Lemma ss_plain S k j : j < 3 ->
  ss_of false F (fun b l k j => cv S k b l j) k j
  = sumf (fun ls => sumf (box_leaf d S (X k) (part j (rs k))) ls) (class_forest (fX k) F).
Proof.
  intro Hj. unfold ss_of, class_forest. rewrite sumf_map_eq.
  apply (sumf_indexed (fun b ls => sumf (fun l => cv S k b l j) (seq 0 (length ls)))).
  intros b ls Hb. rewrite !sumf_map_eq. apply sumf_nth. intros l lf Hl.
  now apply cell_mean_val with (ls := ls).
Qed.
Lemma est_documented k S : S <> [] -> length S <> d ->
  clf_est F d rows X fX true k S = compute_sdp_clf d rows (fX k) S (class_forest (fX k) F) (X k).
Proof.
  intros H1 H2. unfold clf_est, est_of, compute_sdp_clf. rewrite !ss_norm by lia.
  destruct (Nat.eqb_spec (length S) d); [contradiction|]. destruct S; [contradiction|]. reflexivity.
Qed.
Lemma est_plain_documented k S : S <> [] -> length S <> d ->
  (clip (clf_est F d rows X fX false k S) == py_sdp_clf d rows (fX k) S (class_forest (fX k) F) (X k))%Q.
Proof.
  intros H1 H2. unfold clf_est, est_of, py_sdp_clf. rewrite !ss_plain by lia.
  destruct (Nat.eqb_spec (length S) d); [contradiction|]. destruct S as [|s S]; [contradiction|].
  cbn zeta. symmetry. apply py_clip.
Qed.
End Documented.

(** *** The searches *)
Lemma treats_perm F sched : treats_all F sched -> forall S, Permutation (sched S) (cell_pairs F).
Proof.
  intros H S. destruct (H S) as [H1 H2]. apply NoDup_Permutation; [exact H1|apply cell_pairs_NoDup|].
  intros [b l]. rewrite H2. symmetry. apply in_cell_pairs.
Qed.
Lemma subs_nonempty d va T : groups_ok d va -> In T (subs va) -> 1 <= length T -> concat T <> [].
Proof.
  intros Hok HT Hl E. pose proof (subs_groups_ok d va T Hok HT) as [_ [_ Hn]].
  destruct T as [|g T]; [cbn in Hl; lia|]. cbn in E. apply app_eq_nil in E. destruct E as [-> _]. apply Hn. now left.
Qed.

(** the search only depends on the estimates of the sets it visits, and not on those of
    a set of all columns *)
Section Ext.
Variable v : variant.
Variable d : nat.
Variable pi : Q.
Variables P P' : nat -> list nat -> Q.
Definition same_est (S : list nat) : Prop := (forall k, P k S = P' k S) \/ (v_full v = true /\ length S = d).

Lemma update_full S p p' r : v_full v = true -> length S = d -> update_row v d pi S p r = update_row v d pi S p' r.
Proof.
  intros Hv Hl. unfold update_row. rewrite Hv, Hl, Nat.eqb_refl. cbn [andb].
  assert (E : forall star, clear_star d d (write_star S star) = map Z.of_nat S).
  { intro star. unfold clear_star. rewrite Nat.sub_diag, <- Hl at 1. rewrite write_star_first. apply app_nil_r. }
  now rewrite !E.
Qed.
Lemma one_set_ext N R rw S : same_est S -> one_set v d pi P N R rw S = one_set v d pi P' N R rw S.
Proof.
  intros [H|[Hv Hl]]; unfold one_set.
  - assert (E : estimates v P N R S = estimates v P' N R S).
    { unfold estimates. destruct (v_mask v); apply map_ext; intro; apply H. }
    now rewrite E.
  - assert (E : exists l, estimates v P N R S = map (fun k => P k S) l /\ estimates v P' N R S = map (fun k => P' k S) l).
    { unfold estimates. destruct (v_mask v); eauto. }
    destruct E as [l [-> ->]]. revert l rw. induction R as [|k R IH]; intros [|k' l] rw; cbn [map combine fold_left]; try reflexivity.
    cbn [fst snd]. rewrite (update_full S (P k' S) (P' k' S) (rw k) Hv Hl). apply IH.
Qed.
Lemma one_level_ext N sets st : (forall S, In S sets -> same_est S) ->
  one_level v d pi P N sets st = one_level v d pi P' N sets st.
Proof.
  intro H. unfold one_level. cbn zeta.
  assert (E : forall rw, fold_left (one_set v d pi P N (s_R st)) sets rw = fold_left (one_set v d pi P' N (s_R st)) sets rw).
  { induction sets as [|S sets IH]; intro rw; cbn [fold_left]; [reflexivity|].
    rewrite one_set_ext by (apply H; now left). apply IH. intros S' HS. apply H. now right. }
  now rewrite E.
Qed.
Lemma loop_ext stop N pw idx : (forall s sets S, In s idx -> nth_error pw s = Some sets -> In S sets -> same_est S) ->
  forall st, search_loop v d pi P stop N pw idx st = search_loop v d pi P' stop N pw idx st.
Proof.
  induction idx as [|s0 idx IH]; intros H st; cbn [search_loop]; [reflexivity|].
  destruct (nth_error pw s0) as [sets|] eqn:En; [|reflexivity].
  rewrite (one_level_ext N sets st) by (intros S HS; apply (H s0 sets S); [now left|exact En|exact HS]).
  cbn zeta. destruct (_ && stop); [reflexivity|]. apply IH. intros s sets' S Hs. apply H. now right.
Qed.
End Ext.

Section Found.
Variable d : nat.
Variable pi : Q.
Variable F : list (list cleaf).
Variable rows : list (pt * nat).
Variable X : nat -> pt.
Variable fX : nat -> nat.
Variable va : list (list nat).
Variable lo : nat.
Hypothesis Hok : groups_ok d va.
Hypothesis Hlo : 1 <= lo.
Notation doc := (documented d F rows X fX).
Notation est := (clf_est F d rows X fX true).

Lemma level_same s S : lo <= s -> In S (level va s) -> same_est v_tree d est doc S.
Proof.
  intros Hs HS. apply in_level in HS. destruct HS as [T [HT [Hl <-]]].
  destruct (Nat.eq_dec (length (concat T)) d) as [E|E]; [now right|]. left. intro k.
  apply est_documented; [|exact E]. apply (subs_nonempty d va T Hok HT). lia.
Qed.
Lemma search_clf_documented sched limit stop N : treats_all F sched ->
  option_map fst (clf_search v_tree true d pi F rows X fX sched limit stop N va lo)
  = search_clf v_tree d pi doc limit stop N va lo.
Proof.
  intro Hs. rewrite clf_search_refines by (reflexivity || now apply treats_perm).
  unfold search_clf. apply loop_ext. intros s sets S _ Hn HS. apply power_nth in Hn.
  destruct Hn as [_ ->]. apply (level_same (lo + s)); [lia|exact HS].
Qed.
Lemma search_all_documented sched limit stop N : treats_all F sched ->
  option_map fst (clf_search_all v_tree true d pi F rows X fX sched limit stop N va lo)
  = search v_tree d pi doc limit stop N va lo.
Proof.
  intro Hs. rewrite clf_search_all_refines by (reflexivity || now apply treats_perm).
  unfold search. apply loop_ext. intros s sets S Hi Hn HS. apply in_seq in Hi. apply power_nth in Hn.
  destruct Hn as [_ ->]. apply (level_same s); [lia|exact HS].
Qed.

Lemma doc_full k S : length S = d -> doc k S = 1%Q.
Proof. intro H. unfold documented, compute_sdp_clf. now rewrite H, Nat.eqb_refl. Qed.
Lemma found_shows k r T : minimal_sufficient d va lo pi (doc k) T (r_sdp r) ->
  reported r = map Z.of_nat (concat T) -> r_len r = length (concat T) ->
  shows_minimal va lo pi (doc k) r.
Proof.
  intros [H1 [H2 [H3 [H4 [H5 H6]]]]] H7 H8. exists T.
  assert (Es : (r_sdp r == doc k (concat T))%Q).
  { destruct H4 as [H4|[E H4]]; [exact H4|]. now rewrite (doc_full k _ E). }
  repeat split; try assumption. intros T' HT' HL.
  destruct (list_eq_dec (list_eq_dec Nat.eq_dec) T' T) as [->|Hne]; [|now apply H6].
  rewrite Es. apply Qle_refl.
Qed.
Lemma clf_found sched limit stop N st ce k : treats_all F sched -> (0 < pi)%Q -> (pi <= 1)%Q -> k < N ->
  clf_search v_tree true d pi F rows X fX sched limit stop N va lo = Some (st, ce) -> (pi <= r_sdp (s_rows st k))%Q ->
  shows_minimal va lo pi (doc k) (s_rows st k).
Proof.
  intros Hs H0 H1 Hk H Hf. pose proof (search_clf_documented sched limit stop N Hs) as E. rewrite H in E. symmetry in E.
  cbn in E. destruct (search_clf_found _ _ _ _ _ _ _ _ _ _ _ Hok H0 H1 Hk E Hf) as [T [A [B C]]].
  now apply found_shows with (T := T).
Qed.
Lemma clf_found_all sched limit stop N st ce k : treats_all F sched -> (0 < pi)%Q -> (pi <= 1)%Q -> k < N ->
  clf_search_all v_tree true d pi F rows X fX sched limit stop N va lo = Some (st, ce) -> (pi <= r_sdp (s_rows st k))%Q ->
  shows_minimal va lo pi (doc k) (s_rows st k).
Proof.
  intros Hs H0 H1 Hk H Hf. pose proof (search_all_documented sched limit stop N Hs) as E. rewrite H in E. symmetry in E.
  cbn in E. destruct (search_found _ _ _ _ _ _ _ _ _ _ _ Hok H0 H1 Hk E Hf) as [T [A [B C]]].
  now apply found_shows with (T := T).
Qed.
Lemma clf_not_found sched N st ce k : treats_all F sched -> (0 < pi)%Q -> (pi <= 1)%Q -> k < N -> length va <= 15 ->
  clf_search v_tree true d pi F rows X fX sched cut15 false N va lo = Some (st, ce) -> (r_sdp (s_rows st k) < pi)%Q ->
  forall T, In T (subs va) -> lo <= length T -> (doc k (concat T) < pi)%Q.
Proof.
  intros Hs H0 H1 Hk Hl H Hf T HT HTl. pose proof (search_clf_documented sched cut15 false N Hs) as E. rewrite H in E. symmetry in E.
  cbn in E. apply (search_clf_not_found _ _ _ _ _ _ _ _ _ _ Hok H0 H1 Hk Hl E Hf T HT HTl). discriminate.
Qed.
End Found.

Lemma ptrees_python d pi F rows X fX va lo sched limit stop N : treats_all F sched ->
  exists P, option_map fst (clf_search_all v_ptrees false d pi F rows X fX sched limit stop N va lo)
            = search v_ptrees d pi P limit stop N va lo /\
    forall k S, S <> [] -> length S <> d ->
      (clip (P k S) == py_sdp_clf d rows (fX k) S (class_forest (fX k) F) (X k))%Q.
Proof.
  intro Hs. exists (clf_est F d rows X fX false). split.
  - apply clf_search_all_refines; [now apply treats_perm|reflexivity].
  - intros k S. apply est_plain_documented.
Qed.
Lemma clf_schedules v norm d pi F rows X fX va lo sched sched' limit stop N : v_mask v = false ->
  treats_all F sched -> treats_all F sched' ->
  option_map fst (clf_search v norm d pi F rows X fX sched limit stop N va lo)
  = option_map fst (clf_search v norm d pi F rows X fX sched' limit stop N va lo) /\
  option_map fst (clf_search_all v norm d pi F rows X fX sched limit stop N va lo)
  = option_map fst (clf_search_all v norm d pi F rows X fX sched' limit stop N va lo).
Proof.
  intros Hv H1 H2. rewrite !clf_search_refines, !clf_search_all_refines by (assumption || now apply treats_perm).
  split; reflexivity.
Qed.
Lemma clf_defined v norm d pi F rows X fX va lo sched limit stop N : v_mask v = false -> treats_all F sched ->
  clf_search v norm d pi F rows X fX sched limit stop N va lo <> None.
Proof.
  intros Hv Hs E. pose proof (clf_search_refines F d rows X fX sched (treats_perm F sched Hs) norm v pi Hv limit stop N va lo) as H.
  rewrite E in H. cbn in H. symmetry in H. now apply search_clf_some in H.
Qed.

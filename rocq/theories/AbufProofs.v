(** Proofs about the active Shapley array programs. *)
From Verif Require Import Base TreeModel TreeSpec TreeProofs GameSpec GameProofs ShapModel ShapSpec ShapProofs NopaModel NopaProofs AcvModel AcvSpec AcvProofs
  FlatModel SkModel ArrModel ArrSpec EntryModel SbufModel SbufProofs AbufModel.
Local Open Scope nat_scope.

(** ** Numbers and the non-number *)
Definition oeq (a b : option Q) : Prop :=
  match a, b with Some p, Some q => (p == q)%Q | None, None => True | _, _ => False end.
#[global] Instance oeq_equiv : Equivalence oeq.
Proof.
  split.
  - intros [a|]; cbn; [reflexivity|trivial].
  - intros [a|] [b|]; cbn; trivial. now symmetry.
  - intros [a|] [b|] [c|]; cbn; trivial; try contradiction. intros; etransitivity; eassumption.
Qed.
#[global] Instance oadd_proper : Proper (oeq ==> oeq ==> oeq) oadd.
Proof.
  intros [a|] [b|] H [c|] [e|] K; cbn in *; trivial; try contradiction. now rewrite H, K.
Qed.
Lemma oadd_comm a b : oeq (oadd a b) (oadd b a).
Proof. destruct a, b; cbn; trivial. ring. Qed.
Lemma oadd_assoc a b c : oeq (oadd a (oadd b c)) (oadd (oadd a b) c).
Proof. destruct a, b, c; cbn; trivial. ring. Qed.
Lemma oadd_0_l a : oeq (oadd (Some 0%Q) a) a.
Proof. destruct a; cbn; trivial. ring. Qed.
Lemma oadd_0_r a : oeq (oadd a (Some 0%Q)) a.
Proof. rewrite oadd_comm. apply oadd_0_l. Qed.
Lemma oadd_swap a b c : oeq (oadd a (oadd b c)) (oadd b (oadd a c)).
Proof. rewrite !oadd_assoc. now rewrite (oadd_comm a b). Qed.
Lemma osum_cons {A} (f : A -> option Q) a l : osum f (a :: l) = oadd (f a) (osum f l).
Proof. reflexivity. Qed.
Lemma osum_ext {A} (f g : A -> option Q) l : (forall a, In a l -> oeq (f a) (g a)) -> oeq (osum f l) (osum g l).
Proof.
  induction l as [|a l IH]; intro H; [reflexivity|]. rewrite !osum_cons. rewrite (H a (or_introl eq_refl)).
  rewrite IH; [reflexivity|]. intros; apply H; now right.
Qed.
Lemma osum_zero {A} (f : A -> option Q) l : (forall a, In a l -> oeq (f a) (Some 0%Q)) -> oeq (osum f l) (Some 0%Q).
Proof.
  induction l as [|a l IH]; intro H; [reflexivity|]. rewrite osum_cons, (H a (or_introl eq_refl)), oadd_0_l. apply IH. intros; apply H; now right.
Qed.
Lemma osum_app {A} (f : A -> option Q) l l' : oeq (osum f (l ++ l')) (oadd (osum f l) (osum f l')).
Proof.
  induction l as [|a l IH]; cbn [app]; [now rewrite oadd_0_l|]. rewrite !osum_cons, IH. apply oadd_assoc.
Qed.
Lemma osum_plus {A} (f g : A -> option Q) l : oeq (osum (fun a => oadd (f a) (g a)) l) (oadd (osum f l) (osum g l)).
Proof.
  induction l as [|a l IH]; [cbn; ring|]. rewrite !osum_cons, IH. rewrite <- !oadd_assoc. now rewrite (oadd_swap (g a)).
Qed.
Lemma osum_perm {A} (f : A -> option Q) l l' : Permutation l l' -> oeq (osum f l) (osum f l').
Proof.
  induction 1 as [|a l l' _ IH|a b l|l1 l2 l3 _ IH1 _ IH2]; [reflexivity| | |etransitivity; eassumption].
  - rewrite !osum_cons. now rewrite IH.
  - rewrite !osum_cons. apply oadd_swap.
Qed.
Lemma osum_map {A B} (f : B -> option Q) (g : A -> B) l : osum f (map g l) = osum (fun a => f (g a)) l.
Proof. induction l as [|a l IH]; [reflexivity|]. cbn [map]. now rewrite !osum_cons, IH. Qed.
Lemma osum_flat_map {A B} (f : B -> option Q) (g : A -> list B) l : oeq (osum f (flat_map g l)) (osum (fun a => osum f (g a)) l).
Proof. induction l as [|a l IH]; [reflexivity|]. cbn [flat_map]. rewrite osum_app, osum_cons, IH. reflexivity. Qed.
Lemma osum_one n k q : k < n -> oeq (osum (fun i => if i =? k then q else Some 0%Q) (seq 0 n)) q.
Proof.
  intro H. assert (G : forall l, NoDup l -> oeq (osum (fun i => if i =? k then q else Some 0%Q) l) (if in_dec Nat.eq_dec k l then q else Some 0%Q)).
  { induction l as [|a l IH]; intro Hd; [reflexivity|]. inversion Hd as [|? ? Hn Hd']; subst. rewrite osum_cons, (IH Hd').
    destruct (in_dec Nat.eq_dec k l) as [Hi|Hi]; destruct (in_dec Nat.eq_dec k (a :: l)) as [Hi'|Hi'].
    - destruct (Nat.eqb_spec a k) as [->|]; [contradiction|apply oadd_0_l].
    - exfalso. apply Hi'. now right.
    - destruct Hi' as [->|Hi']; [|contradiction]. rewrite Nat.eqb_refl. apply oadd_0_r.
    - destruct (Nat.eqb_spec a k) as [->|]; [exfalso; apply Hi'; now left|apply oadd_0_l]. }
  rewrite (G _ (seq_NoDup n 0)). destruct (in_dec Nat.eq_dec k (seq 0 n)) as [|Hn]; [reflexivity|].
  exfalso. apply Hn. apply in_seq. lia.
Qed.
(** the same amount several times *)
Fixpoint times (n : nat) (q : option Q) : option Q := match n with 0 => Some 0%Q | S n => oadd q (times n q) end.
#[global] Instance times_proper n : Proper (oeq ==> oeq) (times n).
Proof. intros a b H. induction n; cbn [times]; [reflexivity|]. now apply oadd_proper. Qed.
Lemma times_plus n a b : oeq (times n (oadd a b)) (oadd (times n a) (times n b)).
Proof. induction n as [|n IH]; cbn [times]; [cbn; ring|]. rewrite IH, <- !oadd_assoc. now rewrite (oadd_swap b). Qed.
Lemma times_zero n : oeq (times n (Some 0%Q)) (Some 0%Q).
Proof. induction n; cbn [times]; [reflexivity|]. now rewrite IHn, oadd_0_l. Qed.
Lemma times_osum {A} n (f : A -> option Q) l : oeq (osum (fun a => times n (f a)) l) (times n (osum f l)).
Proof.
  induction l as [|a l IH]; [symmetry; apply times_zero|]. rewrite !osum_cons, IH. symmetry. apply times_plus.
Qed.
Lemma times_repeat {A} n (f : A -> option Q) a : osum f (repeat a n) = times n (f a).
Proof. induction n; cbn [repeat times]; [reflexivity|]. now rewrite osum_cons, IHn. Qed.
Lemma osum_occ va c q : oeq (osum (fun a => if c =? a then q else Some 0%Q) va) (times (count_occ Nat.eq_dec va c) q).
Proof.
  induction va as [|a va IH]; [reflexivity|]. rewrite osum_cons, IH. cbn [count_occ].
  destruct (Nat.eq_dec a c) as [->|E]; [rewrite Nat.eqb_refl; reflexivity|].
  destruct (Nat.eqb_spec c a) as [->|]; [congruence|apply oadd_0_l].
Qed.
Lemma fold_oadd (f : nat -> option Q) l : forall a, oeq (fold_left (fun acc k => oadd acc (f k)) l a) (oadd a (osum f l)).
Proof. induction l as [|k l IH]; intro a; cbn [fold_left]; [now rewrite oadd_0_r|]. rewrite IH, osum_cons. symmetry. apply oadd_assoc. Qed.
Lemma fold_oadd2 (g : nat -> option Q) (f : nat -> nat -> option Q) l' l : forall a,
  oeq (fold_left (fun acc k => fold_left (fun acc c => oadd acc (f k c)) l' (oadd acc (g k))) l a)
      (oadd a (osum (fun k => oadd (g k) (osum (f k) l')) l)).
Proof.
  induction l as [|k l IH]; intro a; cbn [fold_left]; [now rewrite oadd_0_r|]. rewrite IH, fold_oadd, osum_cons. rewrite <- !oadd_assoc. reflexivity.
Qed.

(** ** Loops that add *)
Notation nblock := (nat -> nat -> nat -> option Q).
Lemma ofold_nadd {St A} (M : St -> nblock) (ok : St -> Prop) (f : St -> A -> option St) (Dl : A -> nblock) l :
  (forall st a, In a l -> ok st -> exists st', f st a = Some st' /\ ok st' /\
     forall i c j, oeq (M st' i c j) (oadd (M st i c j) (Dl a i c j))) ->
  forall st, ok st -> exists st', ofold f l st = Some st' /\ ok st' /\
     forall i c j, oeq (M st' i c j) (oadd (M st i c j) (osum (fun a => Dl a i c j) l)).
Proof.
  induction l as [|a l IH]; intros H st Hok; cbn [ofold].
  - exists st. split; [trivial|]. split; [trivial|]. intros i c j. now rewrite oadd_0_r.
  - destruct (H st a (or_introl eq_refl) Hok) as [s1 [E1 [O1 P1]]]. rewrite E1.
    destruct (IH (fun st b Hb => H st b (or_intror Hb)) s1 O1) as [s2 [E2 [O2 P2]]].
    exists s2. split; [trivial|]. split; [trivial|]. intros i c j. rewrite P2, P1, osum_cons. symmetry. apply oadd_assoc.
Qed.
Definition nrow (X : list pt) (f : pt -> option Q) (i : nat) : option Q := match nth_error X i with Some x => f x | None => Some 0%Q end.
Lemma nrow_ext X f g i : (forall x, oeq (f x) (g x)) -> oeq (nrow X f i) (nrow X g i).
Proof. intro H. unfold nrow. destruct (nth_error X i); [apply H|reflexivity]. Qed.
Lemma nrow_osum {A} X (f : A -> pt -> option Q) l i : oeq (osum (fun a => nrow X (f a) i) l) (nrow X (fun x => osum (fun a => f a x) l) i).
Proof. unfold nrow. destruct (nth_error X i); [reflexivity|]. apply osum_zero. reflexivity. Qed.
Lemma nrow_times n X f i : oeq (nrow X (fun x => times n (f x)) i) (times n (nrow X f i)).
Proof. unfold nrow. destruct (nth_error X i); [reflexivity|]. symmetry. apply times_zero. Qed.
Lemma pick_row f X i : oeq (osum (fun ix : nat * pt => if i =? fst ix then f (snd ix) else Some 0%Q) (indexed X)) (nrow X f i).
Proof.
  unfold indexed.
  assert (G : forall X s, oeq (osum (fun ix : nat * pt => if i =? fst ix then f (snd ix) else Some 0%Q) (combine (seq s (length X)) X))
    (if i <? s then Some 0%Q else nrow X f (i - s))).
  { clear X. induction X as [|x X IH]; intro s; cbn [length seq combine].
    - cbn [osum]. destruct (i <? s); [reflexivity|]. unfold nrow. destruct (i - s); reflexivity.
    - rewrite osum_cons, (IH (S s)). cbn [fst snd]. destruct (Nat.eqb_spec i s) as [->|E].
      + rewrite (proj2 (Nat.ltb_lt s (S s)) ltac:(lia)), Nat.ltb_irrefl, Nat.sub_diag. unfold nrow. cbn [nth_error]. apply oadd_0_r.
      + rewrite oadd_0_l. destruct (Nat.ltb_spec i s) as [L|L].
        * rewrite (proj2 (Nat.ltb_lt i (S s)) ltac:(lia)). reflexivity.
        * destruct (Nat.ltb_spec i (S s)) as [L'|L']; [lia|]. replace (i - s) with (S (i - S s)) by lia. reflexivity. }
  rewrite (G X 0). cbn [Nat.ltb Nat.leb]. now rewrite Nat.sub_0_r.
Qed.

(** ** Vectors *)
Lemma drop_long_spec n a : NoDup a -> drop_long n a = filter (fun v => negb (v =? n)) a.
Proof.
  intro Hd. unfold drop_long. rewrite find_pos_memb. destruct (memb_spec n a) as [Hi|Hi].
  - set (kept := filter (fun v => negb (v =? n)) a).
    assert (Hl : length a = S (length kept)).
    { unfold kept. clear kept. induction Hd as [|b a Hn Hd IH]; [destruct Hi|]. cbn [filter length]. destruct (Nat.eqb_spec b n) as [->|E]; cbn [negb].
      - f_equal. clear - Hn. induction a as [|c a IH]; [reflexivity|]. cbn. destruct (Nat.eqb_spec c n) as [->|]; cbn [negb].
        + exfalso. apply Hn. now left.
        + cbn. f_equal. apply IH. intro. apply Hn. now right.
      - destruct Hi as [->|Hi]; [congruence|]. cbn [length]. now rewrite (IH Hi). }
    assert (Hs : exists e, skipn (length kept) a = [e]).
    { pose proof (skipn_length (length kept) a) as K. rewrite Hl in K. destruct (skipn (length kept) a) as [|e [|e' r]]; cbn [length] in K; [lia|eauto|lia]. }
    destruct Hs as [e ->]. apply removelast_snoc.
  - symmetry. apply filter_every. intros v Hv. destruct (Nat.eqb_spec v n) as [->|]; [contradiction|reflexivity].
Qed.
Lemma drop_all N : forall vars, NoDup vars -> fold_left (fun a n => drop_long n a) N vars = acv_vars N vars.
Proof.
  induction N as [|n N IH]; intros vars Hd; cbn [fold_left].
  - unfold acv_vars. symmetry. apply filter_every. reflexivity.
  - rewrite (drop_long_spec n vars Hd), IH by (now apply NoDup_filter). unfold acv_vars. clear. induction vars as [|v vars IH]; [reflexivity|].
    cbn [filter]. destruct (Nat.eqb_spec v n) as [->|E]; cbn [negb].
    + replace (memb n (n :: N)) with true; [exact IH|]. symmetry. apply memb_true. now left.
    + cbn [filter]. rewrite IH. replace (memb v (n :: N)) with (memb v N); [reflexivity|]. apply eq_iff_eq_true. rewrite !memb_true. cbn [In]. intuition congruence.
Qed.
Lemma others_at_spec va gs : NoDup gs -> (forall g, In g gs -> g <> []) ->
  others_at va gs = if in_dec group_eq_dec va gs then Some (remove1 va gs) else None.
Proof.
  intros Hn Hne. unfold others_at. destruct (in_dec group_eq_dec va gs) as [Hi|Hi].
  - assert (Hpos : (find_pos (fun g => if group_eq_dec g va then true else false) gs <? length gs) = true).
    { clear - Hi. apply Nat.ltb_lt. revert Hi. induction gs as [|g gs1 IH]; [contradiction|].
      cbn. intros [->|H]; [destruct (group_eq_dec va va); [lia|congruence]|].
      destruct (group_eq_dec g va); [lia|]. specialize (IH H). lia. }
    rewrite Hpos. f_equal. now apply drop_value_spec.
  - assert (Hpos : (find_pos (fun g => if group_eq_dec g va then true else false) gs <? length gs) = false).
    { clear - Hi. apply Nat.ltb_ge. revert Hi. induction gs as [|g gs1 IH]; cbn; [lia|].
      intro H. destruct (group_eq_dec g va); [exfalso; auto|]. assert (~ In va gs1) by auto. specialize (IH H0). lia. }
    now rewrite Hpos.
Qed.

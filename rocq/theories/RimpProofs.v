(** Lemmas about the search that passes the normalisers on. *)
From Verif Require Import Base ShapModel AcvModel SearchModel SearchSpec SearchProofs RimpModel.
From Coq Require Import NArith.
Local Open Scope nat_scope.

Section S.
Variable T : Type.
Variable v : variant.
Hypothesis Vm : v_mask v = false.
Hypothesis Vc : v_clean v = false.
Variables (d : nat) (pi : Q).
Variable E : T -> nat -> list nat -> Q * T.
Notation kept_set := (kept_set T v d pi E).
Notation kept_level := (kept_level T v d pi E).

Definition agree (P f : nat -> list nat -> Q) (sets : list (list nat)) : Prop := forall k S, In S sets -> P k S = f k S.

Lemma set_trace n S : forall R t rows, NoDup R -> exists f : nat -> Q, forall P : nat -> list nat -> Q, (forall k, P k S = f k) ->
  snd (kept_set R (t, rows) S) = one_set v d pi P n R rows S.
Proof.
  unfold kept_set, RimpModel.kept_set. induction R as [|k R IH]; intros t rows HR.
  - exists (fun _ => 0%Q). intros P _. unfold one_set. reflexivity.
  - inversion HR as [|? ? Hk HR']; subst. cbn [fold_left]. unfold kept_row at 2. cbn [fst snd].
    destruct (IH (snd (E t k S)) (upd rows k (update_row v d pi S (fst (E t k S)) (rows k))) HR') as [f Hf].
    exists (fun j => if j =? k then fst (E t k S) else f j). intros P HP.
    rewrite (Hf (fun j S' => if j =? k then f j else P j S')).
    + unfold one_set, estimates. rewrite Vm. cbn [map combine fold_left fst snd]. rewrite (HP k), Nat.eqb_refl.
      replace (map (fun j => if j =? k then f j else P j S) R) with (map (fun j => P j S) R); [reflexivity|].
      apply map_ext_in. intros j Hj. destruct (Nat.eqb_spec j k) as [->|]; [contradiction|reflexivity].
    + intro j. destruct (Nat.eqb_spec j k) as [->|N]; [reflexivity|]. rewrite HP. destruct (Nat.eqb_spec j k); [contradiction|reflexivity].
Qed.
Lemma one_set_P n R rows S P P' : (forall k, P k S = P' k S) -> one_set v d pi P n R rows S = one_set v d pi P' n R rows S.
Proof. intro H. unfold one_set, estimates. rewrite Vm. f_equal. f_equal. apply map_ext. intro k. apply H. Qed.

Lemma sets_trace n R : NoDup R -> forall sets t rows, NoDup sets -> exists f, forall P, agree P f sets ->
  snd (fold_left (kept_set R) sets (t, rows)) = fold_left (one_set v d pi P n R) sets rows.
Proof.
  intro HR. induction sets as [|S sets IH]; intros t rows HS.
  - exists (fun _ _ => 0%Q). reflexivity.
  - inversion HS as [|? ? Hn HS']; subst. cbn [fold_left].
    destruct (set_trace n S R t rows HR) as [f1 H1]. destruct (kept_set R (t, rows) S) as [t' rows'] eqn:Ek. cbn [snd] in H1.
    destruct (IH t' rows' HS') as [f2 H2].
    exists (fun k S' => if list_eq_dec Nat.eq_dec S' S then f1 k else f2 k S'). intros P HP.
    rewrite (H2 P).
    + rewrite (H1 P); [reflexivity|]. intro k. rewrite (HP k S (or_introl eq_refl)). destruct (list_eq_dec Nat.eq_dec S S); [reflexivity|congruence].
    + intros k S' HS'in. rewrite (HP k S' (or_intror HS'in)). destruct (list_eq_dec Nat.eq_dec S' S) as [->|]; [contradiction|reflexivity].
Qed.
Lemma level_trace n sets t st : NoDup (s_R st) -> NoDup sets -> exists f, forall P, agree P f sets ->
  snd (kept_level sets (t, st)) = one_level v d pi P n sets st.
Proof.
  intros HR HS. destruct (sets_trace n (s_R st) HR sets t (s_rows st) HS) as [f Hf]. exists f. intros P HP.
  unfold kept_level, RimpModel.kept_level, one_level. rewrite Vc. cbn [fst snd]. rewrite (Hf P HP). reflexivity.
Qed.

Definition apart (pw : list (list (list nat))) : Prop :=
  (forall i sets, nth_error pw i = Some sets -> NoDup sets) /\
  (forall i j si sj S, nth_error pw i = Some si -> nth_error pw j = Some sj -> In S si -> In S sj -> i = j).
Lemma loop_trace n stop pw : apart pw -> forall idx t st, NoDup idx -> ok_state pi n st ->
  exists f, forall P, (forall i sets, In i idx -> nth_error pw i = Some sets -> agree P f sets) ->
  kept_loop T v d pi E stop pw idx (t, st) = search_loop v d pi P stop n pw idx st.
Proof.
  intros [A1 A2]. induction idx as [|i idx IH]; intros t st Hi Hok; [exists (fun _ _ => 0%Q); reflexivity|].
  inversion Hi as [|? ? Hni Hi']; subst. cbn [kept_loop search_loop].
  destruct (nth_error pw i) as [sets|] eqn:En; [|exists (fun _ _ => 0%Q); reflexivity].
  assert (HR : NoDup (s_R st)) by (rewrite Hok; apply NoDup_filter', seq_NoDup).
  destruct (level_trace n sets t st HR (A1 i sets En)) as [f1 H1]. destruct (kept_level sets (t, st)) as [t' st'] eqn:Ek. cbn [snd] in H1 |- *.
  assert (Hok' : ok_state pi n st') by (rewrite (H1 f1 (fun k S _ => eq_refl)); now apply one_level_ok).
  destruct (IH t' st' Hi' Hok') as [f2 H2].
  exists (fun k S => if in_dec (list_eq_dec Nat.eq_dec) S sets then f1 k S else f2 k S). intros P HP.
  rewrite <- (H1 P).
  - destruct (_ && stop); [reflexivity|]. apply H2. intros j sj Hj Ej k S HS. rewrite (HP j sj (or_intror Hj) Ej k S HS).
    destruct (in_dec _ S sets) as [K|K]; [|reflexivity]. rewrite (A2 i j sets sj S En Ej K HS) in Hni. contradiction.
  - intros k S HS. rewrite (HP i sets (or_introl eq_refl) En k S HS). destruct (in_dec _ S sets) as [K|K]; [reflexivity|contradiction].
Qed.

(** every search that passes something on is a search with fixed estimates *)
Lemma search_trace t0 limit stop n va lo : groups_ok d va -> (0 < pi)%Q ->
  exists P, kept_search T v d pi E t0 limit stop n va lo = search v d pi P limit stop n va lo.
Proof.
  intros Hva Hpi. assert (A : apart (power limit va 0)).
  { split.
    - intros i sets Hs. apply power_nth in Hs. destruct Hs as [_ ->]. eapply level_NoDup. exact Hva.
    - intros i j si sj S Hi Hj Si Sj. apply power_nth in Hi. apply power_nth in Hj. destruct Hi as [_ ->]. destruct Hj as [_ ->].
      apply in_level in Si. apply in_level in Sj. destruct Si as (Ti & I1 & I2 & I3). destruct Sj as (Tj & J1 & J2 & J3).
      assert (Ti = Tj) by (eapply concat_inj; [exact Hva|exact I1|exact J1|congruence]). subst Tj. lia. }
  destruct (loop_trace n stop (power limit va 0) A (seq lo (S (length va) - lo)) t0 (state0 d n) (seq_NoDup _ _) (state0_ok d pi n Hpi)) as [f Hf].
  exists f. unfold kept_search, search. apply Hf. intros i sets _ _ k S _. reflexivity.
Qed.

(** estimates that do not depend on those before *)
Variable P : nat -> list nat -> Q.
Hypothesis HE : forall t k S, fst (E t k S) = P k S.
Lemma set_fixed n S : forall R t rows, snd (kept_set R (t, rows) S) = one_set v d pi P n R rows S.
Proof.
  unfold kept_set, RimpModel.kept_set. induction R as [|k R IH]; intros t rows; [reflexivity|].
  cbn [fold_left]. unfold kept_row at 2. cbn [fst snd]. rewrite IH. unfold one_set, estimates. rewrite Vm. cbn [map combine fold_left fst snd]. now rewrite HE.
Qed.
Lemma sets_fixed n R : forall sets t rows, snd (fold_left (kept_set R) sets (t, rows)) = fold_left (one_set v d pi P n R) sets rows.
Proof.
  induction sets as [|S sets IH]; intros t rows; [reflexivity|]. cbn [fold_left]. rewrite <- (set_fixed n S R t rows).
  destruct (kept_set R (t, rows) S) as [t' rows']. apply IH.
Qed.
Lemma loop_fixed n stop pw : forall idx t st, kept_loop T v d pi E stop pw idx (t, st) = search_loop v d pi P stop n pw idx st.
Proof.
  induction idx as [|i idx IH]; intros t st; [reflexivity|]. cbn [kept_loop search_loop]. destruct (nth_error pw i) as [sets|]; [|reflexivity].
  assert (H : snd (kept_level sets (t, st)) = one_level v d pi P n sets st).
  { unfold kept_level, RimpModel.kept_level, one_level. rewrite Vc. cbn [fst snd]. now rewrite sets_fixed with (n := n). }
  destruct (kept_level sets (t, st)) as [t' st']. cbn [snd] in H |- *. rewrite <- H. destruct (_ && stop); [reflexivity|]. apply IH.
Qed.
Lemma search_fixed t0 limit stop n va lo : kept_search T v d pi E t0 limit stop n va lo = search v d pi P limit stop n va lo.
Proof. apply loop_fixed. Qed.
End S.

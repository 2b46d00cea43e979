(** Shared vocabulary: exact rationals standing for the [double]s of the code,
    finite sums, interval bounds with explicit infinities, list tools.
    Nothing in this file models a function of /repo; it only provides the
    number domain and data types used by the model files. *)
From Coq Require Export List Arith ZArith QArith Lia Lqa Bool Permutation.
From Coq Require Export Qabs Qminmax.
Export ListNotations.
Open Scope nat_scope.

(** * Rational comparisons as booleans *)
Definition qleb (a b : Q) : bool := Qle_bool a b.
Definition qltb (a b : Q) : bool := negb (Qle_bool b a).
Definition qeqb (a b : Q) : bool := Qeq_bool a b.

Lemma qleb_spec a b : reflect (a <= b)%Q (qleb a b).
Proof.
  unfold qleb. destruct (Qle_bool a b) eqn:E; constructor.
  - now apply Qle_bool_iff.
  - intro H. apply Qle_bool_iff in H. congruence.
Qed.

Lemma qltb_spec a b : reflect (a < b)%Q (qltb a b).
Proof.
  unfold qltb. destruct (Qle_bool b a) eqn:E; constructor.
  - apply Qle_bool_iff in E. now apply Qle_not_lt.
  - apply Qnot_le_lt. intro H. apply Qle_bool_iff in H. congruence.
Qed.

Lemma qeqb_spec a b : reflect (a == b)%Q (qeqb a b).
Proof.
  unfold qeqb. destruct (Qeq_bool a b) eqn:E; constructor.
  - now apply Qeq_bool_iff.
  - intro H. apply Qeq_bool_iff in H. congruence.
Qed.

Lemma qleb_true a b : qleb a b = true <-> (a <= b)%Q.
Proof. destruct (qleb_spec a b); intuition congruence. Qed.
Lemma qleb_false a b : qleb a b = false <-> (b < a)%Q.
Proof.
  destruct (qleb_spec a b) as [H|H]; split; intro K; try congruence.
  - exfalso. lra.
  - now apply Qnot_le_lt.
Qed.
Lemma qltb_true a b : qltb a b = true <-> (a < b)%Q.
Proof. destruct (qltb_spec a b); intuition congruence. Qed.
Lemma qltb_false a b : qltb a b = false <-> (b <= a)%Q.
Proof.
  destruct (qltb_spec a b) as [H|H]; split; intro K; try congruence.
  - exfalso. lra.
  - now apply Qnot_lt_le.
Qed.

Add Parametric Morphism : qleb with signature Qeq ==> Qeq ==> eq as qleb_mor.
Proof.
  intros a a' Ha b b' Hb. destruct (qleb_spec a b), (qleb_spec a' b'); trivial;
  exfalso; lra.
Qed.
Add Parametric Morphism : qltb with signature Qeq ==> Qeq ==> eq as qltb_mor.
Proof.
  intros a a' Ha b b' Hb. destruct (qltb_spec a b), (qltb_spec a' b'); trivial;
  exfalso; lra.
Qed.
Add Parametric Morphism : qeqb with signature Qeq ==> Qeq ==> eq as qeqb_mor.
Proof.
  intros a a' Ha b b' Hb. destruct (qeqb_spec a b), (qeqb_spec a' b'); trivial;
  exfalso; lra.
Qed.

(** nat as a rational *)
Definition Qn (n : nat) : Q := inject_Z (Z.of_nat n).
(** boolean indicator *)
Definition Qb (b : bool) : Q := if b then 1 else 0.

Lemma Qn_S n : (Qn (S n) == 1 + Qn n)%Q.
Proof.
  unfold Qn. rewrite Nat2Z.inj_succ, <- Z.add_1_l, inject_Z_plus. reflexivity.
Qed.
Lemma Qn_0 : (Qn 0 == 0)%Q. Proof. reflexivity. Qed.
Lemma Qn_plus a b : (Qn (a + b) == Qn a + Qn b)%Q.
Proof. unfold Qn. now rewrite Nat2Z.inj_add, inject_Z_plus. Qed.
Lemma Qn_mult a b : (Qn (a * b) == Qn a * Qn b)%Q.
Proof. unfold Qn. now rewrite Nat2Z.inj_mul, inject_Z_mult. Qed.
Lemma Qn_nonneg n : (0 <= Qn n)%Q.
Proof. unfold Qn. rewrite <- (Zle_Qle 0). lia. Qed.
Lemma Qn_le a b : (a <= b)%nat <-> (Qn a <= Qn b)%Q.
Proof. unfold Qn. rewrite <- Zle_Qle. lia. Qed.
Lemma Qn_lt a b : (a < b)%nat <-> (Qn a < Qn b)%Q.
Proof. unfold Qn. rewrite <- Zlt_Qlt. lia. Qed.
Lemma Qn_pos n : (0 < n)%nat <-> (0 < Qn n)%Q.
Proof. rewrite (Qn_lt 0 n). reflexivity. Qed.
Lemma Qn_inj a b : (Qn a == Qn b)%Q -> a = b.
Proof. unfold Qn. rewrite inject_Z_injective. lia. Qed.
Lemma Qn_neq0 n : n <> 0 -> ~ (Qn n == 0)%Q.
Proof. intros H E. apply H. now apply Qn_inj. Qed.
Lemma Qn_minus a b : (b <= a)%nat -> (Qn (a - b) == Qn a - Qn b)%Q.
Proof.
  intro H. assert (E : (Qn (a - b + b) == Qn (a - b) + Qn b)%Q) by apply Qn_plus.
  replace (a - b + b) with a in E by lia. lra.
Qed.

Lemma Qb_bounds b : (0 <= Qb b <= 1)%Q.
Proof. destruct b; unfold Qb; lra. Qed.

(** * Sums *)
Section Sums.
Context {A : Type}.
Implicit Types (f g : A -> Q) (l : list A).

Fixpoint sumf f l : Q :=
  match l with [] => 0%Q | a :: r => (f a + sumf f r)%Q end.

Lemma sumf_nil f : sumf f [] = 0%Q. Proof. reflexivity. Qed.
Lemma sumf_cons f a l : sumf f (a :: l) = (f a + sumf f l)%Q.
Proof. reflexivity. Qed.

Lemma sumf_ext f g l :
  (forall a, In a l -> (f a == g a)%Q) -> (sumf f l == sumf g l)%Q.
Proof.
  induction l as [|a l IH]; cbn; intro H; [reflexivity|].
  rewrite IH by (intros; apply H; now right). rewrite (H a); [reflexivity|now left].
Qed.

Lemma sumf_app f l l' : (sumf f (l ++ l') == sumf f l + sumf f l')%Q.
Proof. induction l as [|a l IH]; cbn; [lra|rewrite IH; lra]. Qed.

Lemma sumf_plus f g l :
  (sumf (fun a => f a + g a) l == sumf f l + sumf g l)%Q.
Proof. induction l as [|a l IH]; cbn; [lra|rewrite IH; lra]. Qed.

Lemma sumf_minus f g l :
  (sumf (fun a => f a - g a) l == sumf f l - sumf g l)%Q.
Proof. induction l as [|a l IH]; cbn; [lra|rewrite IH; lra]. Qed.

Lemma sumf_scal c f l : (sumf (fun a => c * f a) l == c * sumf f l)%Q.
Proof. induction l as [|a l IH]; cbn; [lra|rewrite IH; lra]. Qed.

Lemma sumf_scal_r c f l : (sumf (fun a => f a * c) l == sumf f l * c)%Q.
Proof. induction l as [|a l IH]; cbn; [lra|rewrite IH; lra]. Qed.

Lemma sumf_const c l : (sumf (fun _ => c) l == Qn (length l) * c)%Q.
Proof.
  induction l as [|a l IH]; cbn [sumf length]; [rewrite Qn_0; lra|].
  rewrite IH, Qn_S. lra.
Qed.

Lemma sumf_zero f l : (forall a, In a l -> (f a == 0)%Q) -> (sumf f l == 0)%Q.
Proof.
  intro H. rewrite (sumf_ext f (fun _ => 0%Q)) by exact H.
  rewrite sumf_const. lra.
Qed.

Lemma sumf_nonneg f l : (forall a, In a l -> (0 <= f a)%Q) -> (0 <= sumf f l)%Q.
Proof.
  induction l as [|a l IH]; cbn; intro H; [lra|].
  assert (0 <= f a)%Q by (apply H; now left).
  assert (0 <= sumf f l)%Q by (apply IH; intros; apply H; now right). lra.
Qed.

Lemma sumf_le f g l :
  (forall a, In a l -> (f a <= g a)%Q) -> (sumf f l <= sumf g l)%Q.
Proof.
  induction l as [|a l IH]; cbn; intro H; [lra|].
  assert (f a <= g a)%Q by (apply H; now left).
  assert (sumf f l <= sumf g l)%Q by (apply IH; intros; apply H; now right). lra.
Qed.

Lemma sumf_ge_term f l a :
  (forall b, In b l -> (0 <= f b)%Q) -> In a l -> (f a <= sumf f l)%Q.
Proof.
  induction l as [|b l IH]; cbn; intros Hn Hi0; [contradiction|destruct Hi0 as [E|Hi]].
  - subst. assert (0 <= sumf f l)%Q by (apply sumf_nonneg; intros; apply Hn; now right). lra.
  - assert (0 <= f b)%Q by (apply Hn; now left).
    assert (f a <= sumf f l)%Q by (apply IH; [intros; apply Hn; now right|trivial]). lra.
Qed.

Lemma sumf_filter p f l :
  (sumf f (filter p l) == sumf (fun a => if p a then f a else 0) l)%Q.
Proof.
  induction l as [|a l IH]; cbn; [reflexivity|].
  destruct (p a); cbn; rewrite IH; lra.
Qed.

Lemma sumf_perm f l l' : Permutation l l' -> (sumf f l == sumf f l')%Q.
Proof. induction 1; cbn; try lra. Qed.

Lemma sumf_split p f l :
  (sumf f l == sumf f (filter p l) + sumf f (filter (fun a => negb (p a)) l))%Q.
Proof.
  induction l as [|a l IH]; cbn; [lra|].
  destruct (p a); cbn; rewrite IH; lra.
Qed.

Lemma sumf_count p l :
  (sumf (fun a => Qb (p a)) l == Qn (length (filter p l)))%Q.
Proof.
  induction l as [|a l IH]; cbn [sumf filter]; [reflexivity|].
  destruct (p a); cbn [Qb length]; rewrite IH, ?Qn_S; lra.
Qed.

Lemma sumf_single f l a :
  NoDup l -> In a l -> (forall b, In b l -> b <> a -> (f b == 0)%Q) ->
  (sumf f l == f a)%Q.
Proof.
  induction l as [|b l IH]; cbn; intros Hd Hi Hz; [contradiction|].
  inversion Hd as [|? ? Hnb Hd']; subst.
  destruct Hi as [E|Hi].
  - subst. rewrite sumf_zero; [lra|].
    intros c Hc. apply Hz; [now right|]. intro; subst; contradiction.
  - rewrite IH; trivial.
    + rewrite (Hz b); [lra|now left|]. intro; subst; contradiction.
    + intros; apply Hz; trivial. now right.
Qed.
End Sums.

Lemma sumf_map {A B} (h : A -> B) f l :
  (sumf f (map h l) == sumf (fun a => f (h a)) l)%Q.
Proof. induction l as [|a l IH]; cbn; [lra|rewrite IH; lra]. Qed.

Lemma sumf_flat_map {A B} (h : A -> list B) f l :
  (sumf f (flat_map h l) == sumf (fun a => sumf f (h a)) l)%Q.
Proof. induction l as [|a l IH]; cbn; [lra|rewrite sumf_app, IH; lra]. Qed.

Lemma sumf_swap {A B} (f : A -> B -> Q) (l : list A) (l' : list B) :
  (sumf (fun a => sumf (fun b => f a b) l') l ==
   sumf (fun b => sumf (fun a => f a b) l) l')%Q.
Proof.
  induction l as [|a l IH]; cbn.
  - rewrite sumf_zero; [reflexivity|]. intros; reflexivity.
  - rewrite IH. rewrite <- sumf_plus. reflexivity.
Qed.

Lemma Qmult_le_compat_pos_l a b c : (0 <= c -> a <= b -> c * a <= c * b)%Q.
Proof. intros Hc H. rewrite !(Qmult_comm c). now apply Qmult_le_compat_r. Qed.

(** quotient with an explicit non-zero test *)
Lemma Qdiv_le_1 a b : (0 <= a -> a <= b -> 0 < b -> a / b <= 1)%Q.
Proof.
  intros Ha Hab Hb. apply Qle_shift_div_r; [trivial|]. lra.
Qed.
Lemma Qdiv_nonneg a b : (0 <= a -> 0 < b -> 0 <= a / b)%Q.
Proof. intros Ha Hb. apply Qle_shift_div_l; [trivial|]. lra. Qed.

(** * Bounds of intervals *)
Inductive ext : Type := NInf | Fin (q : Q) | PInf.

Definition ext_ltb_q (e : ext) (x : Q) : bool :=    (* e < x *)
  match e with NInf => true | Fin a => qltb a x | PInf => false end.
Definition ext_leb_q (e : ext) (x : Q) : bool :=    (* e <= x *)
  match e with NInf => true | Fin a => qleb a x | PInf => false end.
Definition q_leb_ext (x : Q) (e : ext) : bool :=    (* x <= e *)
  match e with NInf => false | Fin a => qleb x a | PInf => true end.

(** np.max / np.min of two bounds *)
Definition ext_max (a b : ext) : ext :=
  match a, b with
  | PInf, _ => PInf | _, PInf => PInf
  | NInf, y => y | x, NInf => x
  | Fin x, Fin y => if qleb x y then Fin y else Fin x
  end.
Definition ext_min (a b : ext) : ext :=
  match a, b with
  | NInf, _ => NInf | _, NInf => NInf
  | PInf, y => y | x, PInf => x
  | Fin x, Fin y => if qleb x y then Fin x else Fin y
  end.

Lemma ext_max_ltb a b x :
  ext_ltb_q (ext_max a b) x = ext_ltb_q a x && ext_ltb_q b x.
Proof.
  destruct a as [|a|], b as [|b|]; cbn; rewrite ?andb_true_r, ?andb_false_r; trivial.
  destruct (qleb_spec a b); cbn;
  destruct (qltb_spec a x), (qltb_spec b x); cbn; trivial; exfalso; lra.
Qed.
Lemma ext_min_leb a b x :
  q_leb_ext x (ext_min a b) = q_leb_ext x a && q_leb_ext x b.
Proof.
  destruct a as [|a|], b as [|b|]; cbn; rewrite ?andb_true_r, ?andb_false_r; trivial.
  destruct (qleb_spec a b); cbn;
  destruct (qleb_spec x a), (qleb_spec x b); cbn; trivial; exfalso; lra.
Qed.

(** An observation (one table row): column index -> value. *)
Definition pt := nat -> Q.
(** A hyper-rectangle: column index -> (lower bound, upper bound). *)
Definition rect := nat -> ext * ext.

Definition upd {A} (f : nat -> A) (i : nat) (v : A) : nat -> A :=
  fun j => if Nat.eqb j i then v else f j.
Lemma upd_same {A} (f : nat -> A) i v : upd f i v i = v.
Proof. unfold upd. now rewrite Nat.eqb_refl. Qed.
Lemma upd_other {A} (f : nat -> A) i j v : j <> i -> upd f i v j = f j.
Proof. unfold upd. destruct (Nat.eqb_spec j i); congruence. Qed.

Definition memb (i : nat) (l : list nat) : bool := existsb (Nat.eqb i) l.
Lemma memb_spec i l : reflect (In i l) (memb i l).
Proof.
  unfold memb. destruct (existsb (Nat.eqb i) l) eqn:E; constructor.
  - apply existsb_exists in E. destruct E as [j [Hj E]]. apply Nat.eqb_eq in E. now subst.
  - intro H. assert (existsb (Nat.eqb i) l = true); [|congruence].
    apply existsb_exists. exists i. split; [trivial|apply Nat.eqb_refl].
Qed.
Lemma memb_true i l : memb i l = true <-> In i l.
Proof. destruct (memb_spec i l); intuition congruence. Qed.
Lemma memb_false i l : memb i l = false <-> ~ In i l.
Proof. destruct (memb_spec i l); intuition congruence. Qed.

Lemma forallb_ext_in {A} (f g : A -> bool) l :
  (forall a, In a l -> f a = g a) -> forallb f l = forallb g l.
Proof.
  induction l as [|a l IH]; cbn; intro H; [reflexivity|].
  rewrite IH by (intros; apply H; now right). rewrite (H a); [reflexivity|now left].
Qed.
Lemma filter_ext_in' {A} (f g : A -> bool) l :
  (forall a, In a l -> f a = g a) -> filter f l = filter g l.
Proof.
  induction l as [|a l IH]; cbn; intro H; [reflexivity|].
  rewrite IH by (intros; apply H; now right). rewrite (H a); [reflexivity|now left].
Qed.
Lemma forallb_app' {A} (f : A -> bool) l l' :
  forallb f (l ++ l') = forallb f l && forallb f l'.
Proof. induction l as [|a l IH]; cbn; [reflexivity|rewrite IH, andb_assoc; reflexivity]. Qed.

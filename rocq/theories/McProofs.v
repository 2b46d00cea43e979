(** Proofs about McModel. *)
From Verif Require Import Base GameSpec ShapSpec SearchProofs MvnModel MvnSpec MvnProofs PermSpec GmmModel GmmSpec GmmProofs McModel McSpec.
From Coq Require Import Sorted.
Local Open Scope nat_scope.

(** ** Names *)
Definition nle (i j : nat) : Prop := str_leb (digits i) (digits j) = true.
Lemma str_total s t : str_leb s t = true \/ str_leb t s = true.
Proof.
  revert t. induction s as [|a s IH]; intro t; [now left|]. destruct t as [|b t]; [now right|]. cbn [str_leb].
  destruct (Nat.ltb_spec a b); [now left|]. destruct (Nat.ltb_spec b a); [now right|]. apply IH.
Qed.
Lemma insert_perm i l : Permutation (insert_name i l) (i :: l).
Proof.
  induction l as [|j l IH]; [reflexivity|]. cbn [insert_name]. destruct (str_leb (digits i) (digits j)); [reflexivity|].
  rewrite IH. constructor.
Qed.
Lemma sorted_perm l : Permutation (sorted_names l) l.
Proof. induction l as [|i l IH]; [reflexivity|]. unfold sorted_names in *. cbn [fold_right]. rewrite insert_perm. now constructor. Qed.
Lemma insert_sorted i l : Sorted nle l -> Sorted nle (insert_name i l).
Proof.
  induction 1 as [|j l Hs IH Hh]; cbn [insert_name]; [repeat constructor|].
  destruct (str_leb (digits i) (digits j)) eqn:E.
  - constructor; [now constructor|]. constructor. exact E.
  - constructor; [exact IH|]. destruct (str_total (digits i) (digits j)) as [K|K]; [congruence|].
    destruct l as [|k l]; cbn [insert_name]; [constructor; exact K|]. inversion Hh; subst.
    destruct (str_leb (digits i) (digits k)); constructor; assumption.
Qed.
Lemma sorted_sorted l : Sorted nle (sorted_names l).
Proof. induction l as [|i l IH]; [constructor|]. now apply insert_sorted. Qed.
Lemma digits_small i : i < 10 -> digits i = [i].
Proof. intro H. unfold digits. cbn [digits_fuel]. destruct (Nat.ltb_spec i 10); [reflexivity|lia]. Qed.
Lemma nle_small i j : i < 10 -> j < 10 -> nle i j <-> i <= j.
Proof.
  intros Hi Hj. unfold nle. rewrite !digits_small by assumption. cbn [str_leb].
  destruct (Nat.ltb_spec i j); [split; [lia|reflexivity]|]. destruct (Nat.ltb_spec j i); [split; [discriminate|lia]|]. split; [lia|reflexivity].
Qed.
Lemma sorted_seq l : forall a n, Sorted le l -> Permutation l (seq a n) -> l = seq a n.
Proof.
  induction l as [|b l IH]; intros a n Hs HP.
  - apply Permutation_nil in HP. now rewrite HP.
  - assert (Ha : StronglySorted le (b :: l)) by (apply Sorted_StronglySorted; [intros x y z; lia|exact Hs]).
    inversion Ha as [|? ? _ Hall]; subst. rewrite Forall_forall in Hall.
    destruct n as [|n]; [apply Permutation_sym, Permutation_nil in HP; discriminate|]. cbn [seq] in *.
    assert (Hb : In b (a :: seq (S a) n)) by (apply (Permutation_in b HP); now left).
    assert (Hin : In a (b :: l)) by (apply (Permutation_in a (Permutation_sym HP)); now left).
    assert (E : b = a).
    { destruct Hin as [E|Hin]; [exact E|]. specialize (Hall a Hin). destruct Hb as [E|Hb]; [now symmetry|]. apply in_seq in Hb. lia. }
    subst b. f_equal. inversion Hs; subst. apply IH; [assumption|]. now apply Permutation_cons_inv in HP.
Qed.
Lemma sorted_names_small l n : n <= 10 -> Permutation l (seq 0 n) -> sorted_names l = seq 0 n.
Proof.
  intros Hn HP. assert (HP' : Permutation (sorted_names l) (seq 0 n)) by (now rewrite sorted_perm).
  apply sorted_seq; [|exact HP']. pose proof (sorted_sorted l) as Hs.
  assert (Hb : forall i, In i (sorted_names l) -> i < 10) by (intros i Hi; apply (Permutation_in i HP'), in_seq in Hi; lia).
  clear HP HP'. induction Hs as [|i m Hs IH Hh]; [constructor|]. constructor; [apply IH; intros j Hj; apply Hb; now right|].
  destruct m as [|j m]; [constructor|]. constructor. inversion Hh; subst. apply nle_small; [apply Hb; now left|apply Hb; right; now left|assumption].
Qed.
Theorem names_order n : sorted_names (seq 0 n) = seq 0 n <-> n <= 10.
Proof.
  split; [|intro H; now apply sorted_names_small].
  intro E. destruct (Nat.le_gt_cases n 10) as [|H]; [assumption|exfalso].
  pose proof (sorted_sorted (seq 0 n)) as Hs. rewrite E in Hs.
  assert (E' : seq 0 n = seq 0 9 ++ 9 :: 10 :: seq 11 (n - 11)).
  { pose proof (seq_app 9 (2 + (n - 11)) 0) as K. replace (9 + (2 + (n - 11))) with n in K by lia. exact K. }
  rewrite E' in Hs. clear -Hs. induction (seq 0 9) as [|a l IH].
  - cbn [app] in Hs. inversion Hs as [|? ? _ Hh]; subst. inversion Hh as [|? ? K]; subst. vm_compute in K. discriminate.
  - cbn [app] in Hs. inversion Hs; subst. now apply IH.
Qed.

(** ** Tables *)
Lemma get_set k j c t : get_col k (set_col j c t) = if j =? k then c else get_col k t.
Proof.
  induction t as [|[i u] t IH]; cbn [set_col get_col].
  - destruct (j =? k); reflexivity.
  - destruct (Nat.eqb_spec i j) as [->|Hn]; cbn [get_col].
    + destruct (j =? k); reflexivity.
    + rewrite IH. destruct (Nat.eqb_spec i k) as [->|]; [|reflexivity]. destruct (Nat.eqb_spec j k); [congruence|reflexivity].
Qed.
Lemma get_fold x N S t k : get_col k (fold_left (fun t k => set_col k (repeat (x k) N) t) S t) = if memb k S then repeat (x k) N else get_col k t.
Proof.
  revert t. induction S as [|s S IH]; intro t; [reflexivity|]. cbn [fold_left]. rewrite IH, get_set.
  assert (E : memb k (s :: S) = (s =? k) || memb k S). { unfold memb. cbn [existsb]. f_equal. apply Nat.eqb_sym. }
  rewrite E. destruct (memb k S) eqn:M; [now rewrite orb_true_r|]. rewrite orb_false_r. destruct (Nat.eqb_spec s k) as [->|]; reflexivity.
Qed.
Lemma names_set k c t : forall j, In j (map fst (set_col k c t)) <-> j = k \/ In j (map fst t).
Proof.
  intro j. induction t as [|[i u] t IH]; cbn [set_col map fst].
  - cbn. intuition.
  - destruct (Nat.eqb_spec i k) as [->|Hn]; cbn [map fst In]; [intuition|]. rewrite IH. intuition.
Qed.
Lemma nodup_set k c t : NoDup (map fst t) -> NoDup (map fst (set_col k c t)).
Proof.
  induction t as [|[i u] t IH]; cbn [set_col map fst]; intro H.
  - repeat constructor. intros [].
  - inversion H as [|? ? Hn Hd]; subst. destruct (Nat.eqb_spec i k) as [->|Hne]; cbn [map fst]; [exact H|].
    constructor; [|now apply IH]. intro K. apply names_set in K. destruct K as [->|K]; [congruence|contradiction].
Qed.
Lemma names_fold x N S t : NoDup (map fst t) ->
  NoDup (map fst (fold_left (fun t k => set_col k (repeat (x k) N) t) S t)) /\
  forall j, In j (map fst (fold_left (fun t k => set_col k (repeat (x k) N) t) S t)) <-> In j S \/ In j (map fst t).
Proof.
  revert t. induction S as [|s S IH]; intros t Hd; cbn [fold_left]; [split; [exact Hd|]; intro j; cbn; tauto|].
  destruct (IH (set_col s (repeat (x s) N) t) (nodup_set s _ t Hd)) as [A B]. split; [exact A|]. intro j. rewrite B, names_set. cbn [In]. intuition.
Qed.
Lemma frame_some names rg : (forall r, In r rg -> length r = length names) -> frame names rg =
  Some (map (fun j => (nth j names 0, map (fun r => nth j r 0%Q) rg)) (seq 0 (length names))).
Proof.
  intro H. unfold frame. assert (E : forallb (fun r => length r =? length names) rg = true); [|now rewrite E].
  apply forallb_forall. intros r Hr. apply Nat.eqb_eq. now apply H.
Qed.
Lemma frame_names names (rg : list (list Q)) : map fst (map (fun j => (nth j names 0, map (fun r => nth j r 0%Q) rg)) (seq 0 (length names))) = names.
Proof.
  rewrite map_map. cbn [fst]. clear. assert (H : forall l, map (fun j => nth j l 0) (seq 0 (length l)) = l).
  { induction l as [|a l IH]; [reflexivity|]. cbn [length seq map nth]. f_equal. rewrite <- seq_shift, map_map. exact IH. }
  apply H.
Qed.
Lemma frame_col names (rg : list (list Q)) p : NoDup names -> p < length names ->
  get_col (nth p names 0) (map (fun j => (nth j names 0, map (fun r => nth j r 0%Q) rg)) (seq 0 (length names))) = map (fun r => nth p r 0%Q) rg.
Proof.
  intros Hd Hp. assert (G : forall l, NoDup l -> (forall j, In j l -> j < length names) -> In p l ->
    get_col (nth p names 0) (map (fun j => (nth j names 0, map (fun r => nth j r 0%Q) rg)) l) = map (fun r => nth p r 0%Q) rg).
  { induction l as [|j l IH]; intros Hl Hb Hi; [contradiction|]. cbn [map get_col]. destruct (Nat.eqb_spec (nth j names 0) (nth p names 0)) as [E|Hn].
    - assert (j = p) by (apply (proj1 (NoDup_nth names 0) Hd); [apply Hb; now left|exact Hp|exact E]). now subst.
    - inversion Hl; subst. apply IH; [assumption|intros k Hk; apply Hb; now right|]. destruct Hi as [->|Hi]; [congruence|exact Hi]. }
  apply G; [apply seq_NoDup|intros j Hj; apply in_seq in Hj; lia|apply in_seq; lia].
Qed.
(** the rows that the model receives *)
Lemma filled_spec names rg Sv x n : NoDup names -> (forall r, In r rg -> length r = length names) ->
  (forall j, j < n <-> In j Sv \/ In j names) -> n <= 10 ->
  exists rows, filled_rows names rg Sv x = Some rows /\ length rows = length rg /\
    forall i d0, i < length rg -> forall j, j < n ->
      (In j Sv -> nth i rows d0 j = x j) /\
      (~ In j Sv -> forall p, p < length names -> nth p names 0 = j -> nth i rows d0 j = nth p (nth i rg []) 0%Q).
Proof.
  intros Hd Hl Hj Hn. unfold filled_rows. rewrite (frame_some names rg Hl). eexists. split; [reflexivity|].
  split; [now rewrite map_length, seq_length|]. intros i d0 Hi j Hjn.
  set (t := map (fun j => (nth j names 0, map (fun r => nth j r 0%Q) rg)) (seq 0 (length names))).
  assert (Et : map fst t = names) by apply frame_names.
  destruct (names_fold x (length rg) Sv t) as [A B]; [now rewrite Et|].
  assert (Eo : sorted_names (map fst (fold_left (fun t k => set_col k (repeat (x k) (length rg)) t) Sv t)) = seq 0 n).
  { apply sorted_names_small; [exact Hn|]. apply NoDup_Permutation; [exact A|apply seq_NoDup|]. intro k. rewrite B, Et, in_seq, <- Hj. lia. }
  set (F := fun i0 j0 : nat => nth i0 (get_col (nth j0 (sorted_names (map fst (fold_left (fun t k => set_col k (repeat (x k) (length rg)) t) Sv t))) 0) (fold_left (fun t k => set_col k (repeat (x k) (length rg)) t) Sv t)) 0%Q).
  change (nth i _ d0) with (nth i (map F (seq 0 (length rg))) d0).
  rewrite (nth_indep _ d0 (F 0)) by (now rewrite map_length, seq_length).
  rewrite map_nth, seq_nth by exact Hi. cbn [Nat.add]. unfold F. rewrite Eo, seq_nth by exact Hjn. cbn [Nat.add]. rewrite get_fold. split.
  - intro K. apply memb_true in K. rewrite K.
    clear -Hi. revert i Hi. induction (length rg) as [|m IH]; intros i Hi; [lia|]. destruct i; [reflexivity|]. cbn. apply IH. lia.
  - intros K p Hp Ep. apply memb_false in K. rewrite K, <- Ep. unfold t. rewrite frame_col by assumption.
    rewrite (nth_indep _ 0%Q ((fun r => nth p r 0%Q) [])) by (now rewrite map_length). exact (map_nth (fun r => nth p r 0%Q) rg [] i).
Qed.

(** ** Means *)
Lemma mean_some f rows r : mean_of f rows = Some r -> rows <> [] /\ (forall v, In v rows -> f v <> None) /\
  (r * Qn (length rows) == sumf (fun v => the (f v)) rows)%Q.
Proof.
  unfold mean_of. intro H.
  assert (G : forall l s, fold_right (fun r acc => match f r, acc with Some a, Some b => Some (a + b)%Q | _, _ => None end) (Some 0%Q) l = Some s ->
    (forall v, In v l -> f v <> None) /\ (s == sumf (fun v => the (f v)) l)%Q).
  { induction l as [|a l IH]; cbn [fold_right sumf]; intros s Hs.
    - injection Hs as <-. split; [intros v []|reflexivity].
    - destruct (f a) as [q|] eqn:E; [|discriminate]. destruct (fold_right _ _ l) as [b|] eqn:El; [|discriminate].
      injection Hs as <-. destruct (IH b eq_refl) as [A B]. split.
      + intros v [<-|Hv]; [congruence|now apply A].
      + rewrite B. reflexivity. }
  destruct (fold_right _ _ rows) as [s|] eqn:E; [|discriminate]. destruct (Nat.eqb_spec (length rows) 0) as [|Hn]; [discriminate|].
  injection H as <-. destruct (G rows s E) as [A B]. split; [intro K; rewrite K in Hn; now apply Hn|]. split; [exact A|].
  rewrite B. assert (Hp : (0 < Qn (length rows))%Q) by (apply Qn_pos; lia). field. lra.
Qed.
Lemma mean_one f v r : mean_of f [v] = Some r -> exists q, f v = Some q /\ (r == q)%Q.
Proof.
  intro H. apply mean_some in H. destruct H as [_ [A B]]. destruct (f v) as [q|] eqn:E; [|elim (A v (or_introl eq_refl)); exact E].
  exists q. split; [reflexivity|]. cbn [length sumf] in B. rewrite E in B. cbn [the] in B. rewrite Qn_S, Qn_0 in B. lra.
Qed.
Lemma sum_nth {A} (F : A -> Q) l d0 : (sumf F l == sumf (fun i => F (nth i l d0)) (seq 0 (length l)))%Q.
Proof.
  induction l as [|a l IH]; [reflexivity|]. cbn [length seq sumf nth]. rewrite IH, <- seq_shift, sumf_map. reflexivity.
Qed.
(** a mean over rows that are, one by one, what is wanted *)
Lemma mean_rows {A} f n rows r (L : list A) (pt : A -> vec) a0 : reads n f -> mean_of f rows = Some r -> length rows = length L ->
  (forall i, i < length L -> forall k, k < n -> (nth i rows (fun _ => 0%Q) k == pt (nth i L a0) k)%Q) ->
  L <> [] /\ (forall a, In a L -> f (pt a) <> None) /\ (r * Qn (length L) == sumf (fun a => the (f (pt a))) L)%Q.
Proof.
  intros Hf Hr Hl Hp. destruct (mean_some f rows r Hr) as [A1 [A2 A3]].
  assert (Hs : forall i, i < length L -> same (f (nth i rows (fun _ => 0%Q))) (f (pt (nth i L a0)))) by (intros i Hi; apply Hf; intros k Hk; now apply Hp).
  split; [intros ->; destruct rows; [congruence|discriminate]|]. split.
  - intros a Ha K. destruct (In_nth L a a0 Ha) as [i [Hi E]]. specialize (Hs i Hi). rewrite E, K in Hs.
    destruct (f (nth i rows (fun _ => 0%Q))) eqn:Ef; [exact Hs|]. apply (A2 (nth i rows (fun _ => 0%Q))); [apply nth_In; lia|exact Ef].
  - rewrite <- Hl, A3, (sum_nth (fun v => the (f v)) rows (fun _ => 0%Q)), (sum_nth (fun a => the (f (pt a))) L a0), Hl. apply Sm_ext. intros i Hi.
    specialize (Hs i Hi). destruct (f (nth i rows (fun _ => 0%Q))), (f (pt (nth i L a0))); cbn in *; try contradiction; [exact Hs|reflexivity].
Qed.

(** ** A single Gaussian vector *)
Lemma rest_rank d T k : k < d -> ~ In k T -> rank T k < length (rest d T) /\ nth (rank T k) (rest d T) 0 = k.
Proof.
  intros Hk Ht. unfold rest, rank. replace d with (k + S (d - S k)) by lia. rewrite seq_app, filter_app. cbn [Nat.add seq filter].
  apply memb_false in Ht. rewrite Ht. cbn [negb]. rewrite app_length. cbn [length]. split; [lia|]. rewrite app_nth2 by lia. now rewrite Nat.sub_diag.
Qed.
Theorem single_spec f d x T rows r : reads d f -> NoDup T -> (forall k, In k T -> k < d) -> length T <> d ->
  mc_single f d x T (Some rows) = Some r ->
  rows <> [] /\ (r * Qn (length rows) == sumf (fun row => the (f (fun k => if memb k T then x k else nth (rank T k) row 0%Q))) rows)%Q.
Proof.
  intros Hf Hd Hr Hl H. unfold mc_single in H. destruct (Nat.eqb_spec (length T) d) as [|_]; [contradiction|].
  fold (rest d T) in H. pose proof (mean_rows f d (map (assign_row x T (rest d T)) rows) r rows (fun row k => if memb k T then x k else nth (rank T k) row 0%Q) [] Hf H) as K.
  destruct K as [K1 [_ K2]]; [apply map_length| |split; assumption].
  intros i Hi k Hk. rewrite (nth_indep _ _ (assign_row x T (rest d T) [])) by (now rewrite map_length). rewrite map_nth. unfold assign_row.
  assert (HrN : NoDup (rest d T)) by apply rest_NoDup.
  destruct (memb k T) eqn:E.
  - apply memb_true in E. rewrite write_at_other by (intro K; apply rest_In in K; tauto). destruct (In_nth T k 0 E) as [p [Hp Ep]]. rewrite <- Ep, write_at_nth by assumption. reflexivity.
  - apply memb_false in E. destruct (rest_rank d T k Hk E) as [R1 R2]. rewrite <- R2 at 1. rewrite write_at_nth by assumption. reflexivity.
Qed.
Theorem single_full f d x T rows r : length T = d -> mc_single f d x T rows = Some r -> exists q, f x = Some q /\ (r == q)%Q.
Proof. intros Hl H. unfold mc_single in H. rewrite Hl, Nat.eqb_refl in H. now apply mean_one in H. Qed.

(** ** The marginal version *)
Theorem marginal_spec f G n x T rg r : reads n f -> layout G n -> n <= 10 -> NoDup T -> in_n n T -> (forall row, In row rg -> length row = n) ->
  mar_mc f G n x T rg = Some r -> (r * Qn (length rg) == sumf (fun row => the (f (mixed x T row))) rg)%Q.
Proof.
  intros Hf HL Hn Hd Hr Hrg H. unfold mar_mc in H. destruct (Nat.eqb_spec (length T) n) as [Hl|Hl].
  - apply mean_one in H. destruct H as [q [Hq Er]]. rewrite Er.
    rewrite (sumf_ext _ (fun _ => q)).
    + clear. induction rg as [|a l IH]; [cbn [length sumf]; rewrite Qn_0; ring|]. cbn [length sumf]. rewrite Qn_S, <- IH. ring.
    + intros row _. assert (Hs : same (f (mixed x T row)) (f x)).
      { apply Hf. intros k Hk. unfold mixed. assert (E : In k T); [|apply memb_true in E; rewrite E; reflexivity].
        apply (NoDup_length_incl (l' := seq 0 n) Hd); [rewrite seq_length; lia| |apply in_seq; lia]. intros i Hi. apply in_seq. apply Hr in Hi. lia. }
      rewrite Hq in Hs. destruct (f (mixed x T row)); cbn in *; [exact Hs|contradiction].
  - assert (En : seq 0 (gm_d G) ++ gm_cat G = seq 0 n). { destruct HL as [-> ->]. now rewrite seq_app. }
    rewrite En in H. destruct (filled_spec (seq 0 n) rg T x n) as [rows [E [E1 E2]]].
    + apply seq_NoDup.
    + intros row K. rewrite seq_length. now apply Hrg.
    + intro j. rewrite in_seq. split; [lia|]. intros [K|K]; [now apply Hr|lia].
    + exact Hn.
    + rewrite E in H. destruct (mean_rows f n rows r rg (mixed x T) [] Hf H E1) as [_ [_ K]]; [|exact K].
      intros i Hi k Hk. destruct (E2 i (fun _ => 0%Q) Hi k Hk) as [A B]. unfold mixed. destruct (memb k T) eqn:M.
      * apply memb_true in M. now rewrite A.
      * apply memb_false in M. rewrite (B M k); [reflexivity|rewrite seq_length; exact Hk|rewrite seq_nth; [reflexivity|exact Hk]].
Qed.

(** ** Counting classes *)
Lemma cls_eqb_spec y z : reflect (y = z) (cls_eqb y z).
Proof. destruct y, z; constructor; congruence. Qed.
Lemma count_sum classes draws (F : cls -> Q) : NoDup classes -> (forall y, In y draws -> In y classes) ->
  (sumf F draws == sumf (fun y => Qn (count_cls y draws) * F y) classes)%Q.
Proof.
  intro Hd. induction draws as [|z draws IH]; intro Hi.
  - cbn [sumf]. rewrite sumf_zero; [reflexivity|]. intros y _. unfold count_cls. cbn [filter length]. rewrite Qn_0. ring.
  - cbn [sumf]. rewrite IH by (intros y Hy; apply Hi; now right).
    rewrite (sumf_ext (fun y => Qn (count_cls y (z :: draws)) * F y)%Q (fun y => (if cls_eqb y z then F y else 0) + Qn (count_cls y draws) * F y)%Q).
    + rewrite sumf_plus. assert (E : (sumf (fun y => if cls_eqb y z then F y else 0%Q) classes == F z)%Q); [|rewrite E; reflexivity].
      specialize (Hi z (or_introl eq_refl)). clear -Hd Hi. induction classes as [|y l IH]; [contradiction|]. inversion Hd; subst. cbn [sumf].
      destruct (cls_eqb_spec y z) as [->|Hn].
      * rewrite sumf_zero; [ring|]. intros y Hy. destruct (cls_eqb_spec y z) as [->|]; [contradiction|reflexivity].
      * destruct Hi as [->|Hi]; [congruence|]. rewrite IH by assumption. ring.
    + intros y _. unfold count_cls. cbn [filter]. destruct (cls_eqb y z); cbn [length]; [rewrite Qn_S|]; ring.
Qed.
Lemma count_total classes draws : NoDup classes -> (forall y, In y draws -> In y classes) ->
  list_sum (map (fun y => count_cls y draws) classes) = length draws.
Proof.
  intros Hd Hi. apply Qn_inj. pose proof (count_sum classes draws (fun _ => 1%Q) Hd Hi) as E.
  assert (E1 : forall l : list cls, (sumf (fun _ => 1%Q) l == Qn (length l))%Q).
  { induction l as [|a l IH]; [reflexivity|]. cbn [sumf length]. rewrite IH, Qn_S. reflexivity. }
  rewrite E1 in E. rewrite E. clear. induction classes as [|y l IH]; [reflexivity|]. change (list_sum (map (fun y => count_cls y draws) (y :: l))) with (count_cls y draws + list_sum (map (fun y => count_cls y draws) l)).
  rewrite Qn_plus, IH. cbn [sumf]. ring.
Qed.
Lemma keys_NoDup : NoDup keys.
Proof. repeat constructor; cbn; intuition discriminate. Qed.
Lemma reshape_spec l N k rows : reshape l N k = Some rows -> length rows = N /\ (forall row, In row rows -> length row = k) /\ length l = N * k /\
  forall i, i < N -> nth i rows [] = map (fun j => nth (i * k + j) l 0%Q) (seq 0 k).
Proof.
  unfold reshape. destruct (Nat.eqb_spec (length l) (N * k)) as [E|]; [|discriminate]. intro H. injection H as <-.
  split; [now rewrite map_length, seq_length|]. split.
  - intros row Hr. apply in_map_iff in Hr. destruct Hr as [i [<- _]]. now rewrite map_length, seq_length.
  - split; [exact E|]. intros i Hi. set (F := fun i => map (fun j => nth (i * k + j) l 0%Q) (seq 0 k)).
    change (nth i (map F (seq 0 N)) [] = F i). rewrite (nth_indep _ [] (F 0)) by (now rewrite map_length, seq_length). rewrite map_nth, seq_nth by exact Hi. reflexivity.
Qed.
Lemma sample_shape inv rvs N n mean cov bar set x rows : sampleMVN inv rvs N n mean cov bar set x = Some rows ->
  length rows = N /\ forall row, In row rows -> length row = length bar.
Proof.
  unfold sampleMVN. destruct (condMVN _ _ _ _ _ _ _) as [g|]; [|discriminate]. destruct (rvs g N) as [l|]; [|discriminate]. intro H.
  apply reshape_spec in H. tauto.
Qed.

Lemma tiles_length x s draws classes : length (tiles x s draws classes) = list_sum (map (fun y => count_cls y draws) classes).
Proof.
  induction classes as [|y l IH]; [reflexivity|]. change (list_sum (map (fun y => count_cls y draws) (y :: l))) with (count_cls y draws + list_sum (map (fun y => count_cls y draws) l)).
  rewrite <- IH. unfold tiles. cbn [flat_map]. rewrite app_length, repeat_length. reflexivity.
Qed.
Section Cond.
Variable inv : nat -> mat -> option mat.
Variable pdf : nat -> vec -> mat -> vec -> option Q.
Variable rvs : gauss -> nat -> option (list Q).
Variable choice : list cls -> list Q -> nat -> option (list cls).
Variable f : vec -> option Q.
Variables (G : gmm) (n : nat).
Hypothesis HL : layout G n.
Let d := gm_d G.

Lemma mixture_spec x s draws classes rg : mixture_rows inv rvs G x s draws classes = Some rg ->
  exists rows, (forall y, In y classes -> (count_cls y draws = 0 -> rows y = []) /\ (0 < count_cls y draws -> class_rows inv rvs G x s y (count_cls y draws) = Some (rows y))) /\
    rg = flat_map (fun y => map (fun row => row ++ dummy y) (rows y)) classes.
Proof using.
  clear. intro H. exists (fun y => if count_cls y draws =? 0 then [] else match class_rows inv rvs G x s y (count_cls y draws) with Some a => a | None => [] end).
  revert rg H. induction classes as [|y l IH]; intros rg H; cbn [mixture_rows] in H.
  - injection H as <-. split; [intros y []|reflexivity].
  - destruct (Nat.eqb_spec (count_cls y draws) 0) as [E|E].
    + destruct (IH rg H) as [A B]. split.
      * intros z [<-|Hz]; [|now apply A]. rewrite E. cbn. split; [reflexivity|lia].
      * cbn [flat_map]. rewrite E. cbn [Nat.eqb map app]. exact B.
    + destruct (class_rows inv rvs G x s y (count_cls y draws)) as [a|] eqn:Ea; [|discriminate].
      destruct (mixture_rows inv rvs G x s draws l) as [b|] eqn:Eb; [|discriminate]. injection H as <-. destruct (IH b eq_refl) as [A B]. split.
      * intros z [<-|Hz]; [|now apply A]. destruct (Nat.eqb_spec (count_cls y draws) 0); [lia|]. split; [lia|]. intros _. rewrite Ea. reflexivity.
      * cbn [flat_map]. destruct (Nat.eqb_spec (count_cls y draws) 0); [lia|]. rewrite Ea, <- B. reflexivity.
Qed.
Lemma rest_numeric T : rest d (numeric G T) = rest d T.
Proof using G.
  clear HL. unfold rest. apply filter_ext_in'. intros k Hk. apply in_seq in Hk. f_equal. destruct (memb k T) eqn:E.
  - apply memb_true in E. apply memb_true. apply filter_In. split; [exact E|]. apply Nat.ltb_lt. fold d. lia.
  - apply memb_false in E. apply memb_false. intro K. apply filter_In in K. exact (E (proj1 K)).
Qed.
Lemma memb_numeric T k : k < d -> memb k (numeric G T) = memb k T.
Proof using G.
  clear HL. intro Hk. destruct (memb k T) eqn:E.
  - apply memb_true in E. apply memb_true. apply filter_In. split; [exact E|]. apply Nat.ltb_lt. exact Hk.
  - apply memb_false in E. apply memb_false. intro K. apply filter_In in K. exact (E (proj1 K)).
Qed.
Lemma dummy_indicator y p : p < 2 -> nth p (dummy y) 0%Q = indicator G y (d + p).
Proof using G.
  clear HL. intro Hp. unfold indicator. fold d. destruct p as [|[|p]]; [| |lia].
  - rewrite Nat.add_0_r, Nat.eqb_refl. destruct y; reflexivity.
  - destruct (Nat.eqb_spec (d + 1) d); [lia|]. destruct y; reflexivity.
Qed.
(** the value of the branches that sample the unknown numeric variables *)
Lemma mix_spec x T classes prob N r : reads n f -> choice_ok choice -> n <= 10 -> NoDup T -> in_n n T -> NoDup classes ->
  mc_mix inv rvs choice f G x (numeric G T) classes prob N = Some r ->
  exists draws rows, choice classes prob N = Some draws /\
    (forall y, In y classes -> (count_cls y draws = 0 -> rows y = []) /\
       (0 < count_cls y draws -> sampleMVN inv rvs (count_cls y draws) d (gm_mean G y) (gm_cov G y) (rest d T) (numeric G T) (map x (numeric G T)) = Some (rows y))) /\
    0 < N /\ (forall y row, In y classes -> In row (rows y) -> f (point G x T y row) <> None) /\
    (r * Qn N == sumf (fun y => sumf (fun row => the (f (point G x T y row))) (rows y)) classes)%Q.
Proof.
  intros Hf Hc Hn Hd Hr Hcl H. unfold mc_mix in H. destruct (choice classes prob N) as [draws|] eqn:Ec; [|discriminate].
  destruct (mixture_rows inv rvs G x (numeric G T) draws classes) as [rg|] eqn:Em; [|discriminate].
  destruct (mixture_spec _ _ _ _ _ Em) as [rows [A B]]. clear Em. fold d in H. fold (rest d (numeric G T)) in H.
  destruct (Nat.eqb_spec (length rg) 0) as [|Hrg]; [discriminate|].
  assert (A' : forall y, In y classes -> (count_cls y draws = 0 -> rows y = []) /\
       (0 < count_cls y draws -> sampleMVN inv rvs (count_cls y draws) d (gm_mean G y) (gm_cov G y) (rest d T) (numeric G T) (map x (numeric G T)) = Some (rows y))).
  { intros y Hy. destruct (A y Hy) as [A1 A2]. split; [exact A1|]. intro K. apply A2 in K. unfold class_rows in K. fold d in K. fold (rest d (numeric G T)) in K.
    rewrite rest_numeric in K. exact K. }
  clear A. exists draws, rows. split; [reflexivity|]. split; [exact A'|].
  assert (Hrow : forall y, In y classes -> length (rows y) = count_cls y draws /\ forall row, In row (rows y) -> length row = length (rest d T)).
  { intros y Hy. destruct (A' y Hy) as [A1 A2]. destruct (Nat.eq_dec (count_cls y draws) 0) as [E|E].
    - rewrite (A1 E), E. split; [reflexivity|intros row []].
    - apply (sample_shape inv rvs _ _ _ _ _ _ _ _ (A2 ltac:(lia))). }
  set (L := flat_map (fun y => map (fun row => (y, row)) (rows y)) classes).
  assert (HLen : length L = N).
  { destruct (Hc _ _ _ _ Ec) as [<- Hin]. rewrite <- (count_total classes draws Hcl Hin). unfold L. clear -Hrow. revert Hrow. induction classes as [|y l IH]; intro Hrow; [reflexivity|].
    cbn [flat_map map]. rewrite app_length, map_length, IH by (intros z Hz; apply Hrow; now right). rewrite (proj1 (Hrow y (or_introl eq_refl))). reflexivity. }
  assert (Erg : rg = map (fun p => snd p ++ dummy (fst p)) L).
  { rewrite B. unfold L. clear. induction classes as [|y l IH]; [reflexivity|]. cbn [flat_map]. rewrite map_app, map_map. cbn [fst snd]. now rewrite <- IH. }
  assert (HinL : forall y row, In (y, row) L <-> In y classes /\ In row (rows y)).
  { intros y row. unfold L. rewrite in_flat_map. split.
    - intros [z [Hz K]]. apply in_map_iff in K. destruct K as [row' [K1 K2]]. injection K1 as <- <-. tauto.
    - intros [K1 K2]. exists y. split; [exact K1|]. apply in_map_iff. now exists row. }
  rewrite rest_numeric in H.
  destruct (filled_spec (rest d T ++ gm_cat G) rg (numeric G T) x n) as [V [EV [EV1 EV2]]].
  - rewrite (proj1 HL). fold d. apply NoDup_app_intro; [apply rest_NoDup|repeat constructor; cbn; lia|]. intros k K1 K2. apply rest_In in K1. cbn in K2. lia.
  - intros row K. rewrite Erg in K. apply in_map_iff in K. destruct K as [[y row'] [<- K]]. apply HinL in K. cbn [fst snd]. rewrite !app_length, (proj2 (Hrow y (proj1 K)) row' (proj2 K)), (proj1 HL). destruct y; reflexivity.
  - intro j. rewrite in_app_iff, rest_In, (proj1 HL). fold d. pose proof (proj2 HL) as En. fold d in En. cbn [In]. unfold numeric. rewrite filter_In. fold d. destruct (Nat.ltb_spec j d) as [K|K].
    + split; [|lia]. intros _. destruct (in_dec Nat.eq_dec j T); tauto.
    + split; [lia|]. intros [[_ K']|[[K' _]|K']]; [discriminate|lia|lia].
  - exact Hn.
  - rewrite EV in H. assert (Elr : length rg = length L) by (rewrite Erg; apply map_length).
    destruct (mean_rows f n V r L (fun p => point G x T (fst p) (snd p)) (Ka, []) Hf H) as [K1 [K2 K3]].
    + now rewrite EV1.
    + intros i Hi k Hk. destruct (EV2 i (fun _ => 0%Q) ltac:(lia) k Hk) as [E1 E2].
      assert (Hnth : nth i rg [] = snd (nth i L (Ka, [])) ++ dummy (fst (nth i L (Ka, [])))).
      { rewrite Erg. rewrite (nth_indep _ [] ((fun p => snd p ++ dummy (fst p)) (Ka, []))) by (now rewrite map_length). apply (map_nth (fun p => snd p ++ dummy (fst p))). }
      assert (HiL : In (nth i L (Ka, [])) L) by (now apply nth_In). destruct (nth i L (Ka, [])) as [y row]. cbn [fst snd] in *. apply HinL in HiL.
      pose proof (proj2 (Hrow y (proj1 HiL)) row (proj2 HiL)) as Hlr.
      unfold point. fold d. destruct (Nat.ltb_spec k d) as [Kd|Kd].
      * destruct (memb k T) eqn:M.
        -- rewrite E1; [reflexivity|]. apply memb_true. now rewrite memb_numeric.
        -- destruct (rest_rank d T k Kd) as [R1 R2]; [now apply memb_false|].
           rewrite (E2 ltac:(apply memb_false; now rewrite memb_numeric) (rank T k)).
           ++ rewrite Hnth, app_nth1 by lia. reflexivity.
           ++ rewrite app_length. lia.
           ++ now rewrite app_nth1.
      * pose proof (proj2 HL) as En. fold d in En. rewrite (E2 ltac:(intro K; apply numeric_lt in K; fold d in K; lia) (length (rest d T) + (k - d))).
        -- rewrite Hnth, app_nth2 by lia. replace (length (rest d T) + (k - d) - length row) with (k - d) by lia. rewrite dummy_indicator by lia. replace (d + (k - d)) with k by lia. reflexivity.
        -- rewrite app_length, (proj1 HL). cbn [length]. lia.
        -- rewrite app_nth2 by lia. replace (length (rest d T) + (k - d) - length (rest d T)) with (k - d) by lia. rewrite (proj1 HL). fold d.
           destruct (k - d) as [|[|q]] eqn:Ek; cbn [nth]; lia.
    + rewrite HLen in K3. split; [destruct L; [congruence|cbn in HLen; lia]|]. split.
      * intros y row Hy Hrw. apply (K2 (y, row)). apply HinL. tauto.
      * rewrite K3. unfold L. rewrite sumf_flat_map. apply sumf_ext. intros y _. rewrite sumf_map. reflexivity.
Qed.

Hypothesis Hpi : is_prior G.
Hypothesis Hpos : pdf_pos pdf.
Hypothesis Hrun : runs inv pdf G.

(** the probabilities of the classes of a list *)
Definition probs (x : vec) (T : list nat) (classes : list cls) (prob : list Q) : Prop := length prob = length classes /\
  forall i, i < length classes -> (nth i prob 0 == Pv pdf G x T (nth i classes Ka) / sumf (Pv pdf G x T) classes)%Q.
Lemma probs_map x T classes (F : cls -> Q) : (forall y, In y classes -> F y == Pv pdf G x T y / sumf (Pv pdf G x T) classes)%Q ->
  probs x T classes (map F classes).
Proof using.
  clear. intro H. split; [apply map_length|]. intros i Hi. rewrite (nth_indep _ 0%Q (F Ka)) by (now rewrite map_length). rewrite map_nth. apply H. now apply nth_In.
Qed.
Lemma weights_some x T classes : NoDup T -> numeric G T <> [] -> weights pdf G x (numeric G T) classes = Some (map (Pv pdf G x T) classes).
Proof.
  intros Hd Hne. induction classes as [|y l IH]; [reflexivity|]. cbn [weights map]. rewrite IH. unfold density, Pv.
  destruct (Hrun x y (numeric G T)) as [_ H]; [now apply numeric_NoDup|intros k Hk; now apply numeric_lt in Hk|]. specialize (H Hne).
  assert (Er : in_range (gm_d G) (numeric G T) = true). { apply forallb_forall. intros k Hk. apply Nat.ltb_lt. now apply numeric_lt in Hk. }
  destruct (numeric G T) as [|s0 s] eqn:En; [congruence|]. rewrite Er.
  destruct (pdf (length (s0 :: s)) (vsub (gm_mean G y) (s0 :: s)) (msub (gm_cov G y) (s0 :: s) (s0 :: s)) (vsub x (s0 :: s))) as [q|]; [reflexivity|congruence].
Qed.
Lemma normal_some x T classes : NoDup T -> classes <> [] ->
  exists prob, normal (map (Pv pdf G x T) classes) = Some prob /\ probs x T classes prob.
Proof.
  intros Hd Hne. unfold normal. pose proof (sum_pos inv pdf G Hpi Hpos Hrun x T classes Hd Hne) as Hp.
  assert (E : (sumf (fun p => p) (map (Pv pdf G x T) classes) == sumf (Pv pdf G x T) classes)%Q) by (rewrite sumf_map; reflexivity).
  destruct (qeqb_spec (sumf (fun p => p) (map (Pv pdf G x T) classes)) 0) as [K|_]; [lra|]. eexists. split; [reflexivity|]. rewrite map_map.
  apply probs_map. intros y _. rewrite E. reflexivity.
Qed.
Lemma probs_one x T y : NoDup T -> probs x T [y] [1%Q].
Proof.
  intro Hd. pose proof (Pv_pos inv pdf G Hpi Hpos Hrun x T y Hd) as Hp. split; [reflexivity|]. intros i Hi. cbn in Hi. destruct i; [|lia]. cbn [nth sumf]. field. lra.
Qed.
(** the branch and the probabilities *)
Lemma dispatch x T N : NoDup T -> in_n n T -> ordered G T -> (exists y, agrees G x T y = true) -> length (numeric G T) <> d ->
  exists prob, probs x T (filter (agrees G x T) keys) prob /\
    cond_mc inv pdf rvs choice f G n x T N = mc_mix inv rvs choice f G x (numeric G T) (filter (agrees G x T) keys) prob N.
Proof.
  intros Hd Hr Ho [y0 Hy] Hnf. pose proof (agrees_spec G n HL x T y0 Hr) as Ha. destruct (proj1 Ha Hy) as [A1 A2]. clear Ha. fold d in A1, A2.
  assert (Hf : filter (agrees G x T) keys = filter (fun y => (if memb d T then qeqb (x d) (indicator G y d) else true) &&
     (if memb (S d) T then qeqb (x (S d)) (indicator G y (S d)) else true)) keys).
  { apply filter_ext. intro y. now apply agrees_bool with (n := n). }
  rewrite Hf. clear Hf. unfold indicator in A1, A2 |- *. fold d in A1, A2 |- *. rewrite Nat.eqb_refl in *.
  assert (Esd : (S d =? d) = false) by (apply Nat.eqb_neq; lia). rewrite Esd in *.
  unfold cond_mc. rewrite (numeric_eq G n HL T Hr). change (filter (fun k => memb k (gm_cat G)) T) with (cats G T). fold d. cbv zeta.
  destruct (Nat.eqb_spec (length (numeric G T)) d) as [|_]; [contradiction|]. cbn [negb].
  assert (HM : forall k, k = d \/ k = S d -> memb k T = memb k (cats G T)).
  { intros k Hk. destruct (memb k T) eqn:E.
    - apply memb_true in E. symmetry. apply memb_true. apply (cats_In G n HL). split; [exact E|]. exact Hk.
    - symmetry. apply memb_false. intro K. apply (cats_In G n HL) in K. apply memb_false in E. tauto. }
  rewrite (HM d (or_introl eq_refl)), (HM (S d) (or_intror eq_refl)).
  assert (HIn : forall k, In k (cats G T) -> In k T) by (intros k Hk; now apply (cats_In G n HL) in Hk). clear HM.
  pose proof (proj2 HL) as Hn. fold d in Hn.
  assert (HW : forall l, l <> [] -> exists prob, probs x T l prob /\
    (match (match numeric G T with [] => Some (map (gm_pi G) l) | _ => weights pdf G x (numeric G T) l end) with
     | Some w => match normal w with Some p => mc_mix inv rvs choice f G x (numeric G T) l p N | None => None end
     | None => None end) = mc_mix inv rvs choice f G x (numeric G T) l prob N).
  { intros l Hl. destruct (normal_some x T l Hd Hl) as [prob [E1 E2]]. exists prob. split; [exact E2|].
    destruct (numeric G T) as [|s0 s] eqn:En.
    - assert (Ew : map (gm_pi G) l = map (Pv pdf G x T) l) by (apply map_ext; intro y; unfold Pv; now rewrite En). rewrite Ew, E1. reflexivity.
    - rewrite <- En, (weights_some x T l Hd) by congruence. rewrite E1. reflexivity. }
  destruct (cats_cases G n HL T Hd) as [E|[E|[E|[E|E]]]]; fold d in E; rewrite E in *.
  - cbn [memb existsb andb]. match goal with |- context [filter ?g keys] => change (filter g keys) with keys end.
    destruct (numeric G T) as [|s0 s] eqn:En.
    + exists (map (gm_pi G) keys). split; [|reflexivity]. apply probs_map. intros y _. unfold Pv. rewrite En. cbn [sumf keys].
      assert (K : (gm_pi G Ka + (gm_pi G Kb + (gm_pi G Kc + 0)) == 1)%Q) by (pose proof (proj2 Hpi); lra). rewrite K. field.
    + apply HW. discriminate.
  - specialize (A1 (HIn d (or_introl eq_refl))).
    destruct (Nat.ltb_spec d n) as [_|]; [|lia].
    assert (Ei : index_cat G d = Some Ka). { unfold index_cat. rewrite (proj1 HL). cbn [nth]. fold d. rewrite Nat.eqb_refl. destruct (Nat.eqb_spec d (S d)); [lia|reflexivity]. }
    rewrite Ei. assert (Em : memb d [d] = true) by (apply memb_true; now left). assert (Em' : memb (S d) [d] = false) by (apply memb_false; cbn; lia).
    rewrite Em, Em'. unfold keys. cbn [filter]. rewrite !(qeqb_ext _ _ _ A1).
    destruct y0; cbn -[sumf d Qdiv Qmult mc_mix normal weights probs Pv]; [exists [1%Q]; split; [now apply probs_one|reflexivity]| |]; apply HW; discriminate.
  - specialize (A2 (HIn (S d) (or_introl eq_refl))).
    destruct (Nat.ltb_spec (S d) n) as [_|]; [|lia].
    assert (Ei : index_cat G (S d) = Some Kb). { unfold index_cat. rewrite (proj1 HL). cbn [nth]. fold d. rewrite Nat.eqb_refl. reflexivity. }
    rewrite Ei. assert (Em : memb (S d) [S d] = true) by (apply memb_true; now left). assert (Em' : memb d [S d] = false) by (apply memb_false; cbn; lia).
    rewrite Em, Em'. unfold keys. cbn [filter]. rewrite !(qeqb_ext _ _ _ A2).
    destruct y0; cbn -[sumf d Qdiv Qmult mc_mix normal weights probs Pv]; [|exists [1%Q]; split; [now apply probs_one|reflexivity]|]; apply HW; discriminate.
  - specialize (A1 (HIn d (or_introl eq_refl))). specialize (A2 (HIn (S d) (or_intror (or_introl eq_refl)))).
    assert (Em : memb d [d; S d] = true) by (apply memb_true; now left). assert (Em' : memb (S d) [d; S d] = true) by (apply memb_true; right; now left).
    assert (Er : in_range n [d; S d] = true). { unfold in_range. cbn [forallb]. destruct (Nat.ltb_spec d n), (Nat.ltb_spec (S d) n); (reflexivity || lia). }
    rewrite Em, Em', Er. cbn [map revers_dummy]. unfold keys. cbn [filter]. rewrite !(qeqb_ext _ _ _ A1), !(qeqb_ext _ _ _ A2).
    destruct y0; cbn -[sumf d Qdiv Qmult mc_mix normal weights probs Pv]; (exists [1%Q]; split; [now apply probs_one|reflexivity]).
  - elim (cats_ordered G n HL T Ho); exact E.
Qed.
Lemma filter_keys_NoDup g : NoDup (filter g keys). Proof using. clear. apply NoDup_filter, keys_NoDup. Qed.
Lemma classes_ne x T : (exists y, agrees G x T y = true) -> filter (agrees G x T) keys <> [].
Proof using.
  clear. intros [y Hy] K. assert (I : In y (filter (agrees G x T) keys)) by (apply filter_In; split; [destruct y; cbn; tauto|exact Hy]). rewrite K in I. exact I.
Qed.
Lemma probs_weight x T classes prob p : probs x T classes prob -> weight pdf G x T p ->
  forall i, i < length classes -> (nth i prob 0 == p (nth i classes Ka) / sumf p classes)%Q.
Proof using.
  clear. intros [_ H] Hw i Hi. rewrite (H i Hi). pose proof (weight_unique pdf G x T p Hw) as E. rewrite (E (nth i classes Ka)).
  rewrite (sumf_ext p (Pv pdf G x T)) by (intros y _; apply E). reflexivity.
Qed.
Theorem mc_cond x T N r : reads n f -> choice_ok choice -> n <= 10 -> NoDup T -> in_n n T -> ordered G T -> (exists y, agrees G x T y = true) ->
  length (numeric G T) <> d -> cond_mc inv pdf rvs choice f G n x T N = Some r ->
  exists prob draws rows, choice (filter (agrees G x T) keys) prob N = Some draws /\
    (forall p, weight pdf G x T p -> forall i, i < length (filter (agrees G x T) keys) ->
       (nth i prob 0 == p (nth i (filter (agrees G x T) keys) Ka) / sumf p (filter (agrees G x T) keys))%Q) /\
    (forall y, agrees G x T y = true -> (count_cls y draws = 0 -> rows y = []) /\
       (0 < count_cls y draws -> sampleMVN inv rvs (count_cls y draws) d (gm_mean G y) (gm_cov G y) (filter (fun k => negb (memb k T)) (seq 0 d)) (numeric G T) (map x (numeric G T)) = Some (rows y))) /\
    0 < N /\ (forall y row, agrees G x T y = true -> In row (rows y) -> f (point G x T y row) <> None) /\
    (r * Qn N == sumf (fun y => sumf (fun row => the (f (point G x T y row))) (rows y)) (filter (agrees G x T) keys))%Q.
Proof.
  intros Hf Hc Hn Hd Hr Ho Hy Hnf H. destruct (dispatch x T N Hd Hr Ho Hy Hnf) as [prob [HP E]]. rewrite E in H.
  destruct (mix_spec x T _ prob N r Hf Hc Hn Hd Hr (filter_keys_NoDup _) H) as [draws [rows [B1 [B2 [B3 [B4 B5]]]]]].
  assert (HI : forall y, agrees G x T y = true -> In y (filter (agrees G x T) keys)) by (intros y K; apply filter_In; split; [destruct y; cbn; tauto|exact K]).
  exists prob, draws, rows. split; [exact B1|]. split; [intros p Hw i Hi; now apply probs_weight with (x := x) (T := T)|]. split; [|split; [exact B3|split; [|exact B5]]].
  - intros y K. exact (B2 y (HI y K)).
  - intros y row K. apply B4. now apply HI.
Qed.

(** ** All the numeric variables are known *)
Lemma tiles_spec x T classes draws r : reads n f -> numeric G T = seq 0 d -> NoDup classes -> (forall y, In y draws -> In y classes) ->
  mean_of f (tiles x (numeric G T) draws classes) = Some r ->
  (r * Qn (length draws) == sumf (fun y => the (f (point G x T y []))) draws)%Q /\ draws <> [] /\ forall y, In y draws -> f (point G x T y []) <> None.
Proof.
  intros Hf Hs Hcl Hin H. set (L := flat_map (fun y => repeat y (count_cls y draws)) classes).
  assert (HL1 : length L = length draws).
  { rewrite <- (count_total classes draws Hcl Hin). unfold L. clear. induction classes as [|y l IH]; [reflexivity|]. cbn [flat_map map]. rewrite app_length, repeat_length, IH. reflexivity. }
  assert (HL2 : tiles x (numeric G T) draws classes = map (fun y j => nth j (map x (numeric G T) ++ dummy y) 0%Q) L).
  { unfold tiles, L. clear. induction classes as [|y l IH]; [reflexivity|]. cbn [flat_map]. rewrite map_app, <- IH. f_equal.
    induction (count_cls y draws) as [|m IHm]; [reflexivity|]. cbn [repeat map]. now rewrite <- IHm. }
  assert (HL3 : forall F, (sumf F L == sumf F draws)%Q).
  { intro F. rewrite (count_sum classes draws F Hcl Hin). unfold L. rewrite sumf_flat_map. apply sumf_ext. intros y _. clear. induction (count_cls y draws) as [|m IHm].
    - rewrite Qn_0. cbn [repeat sumf]. ring.
    - cbn [repeat sumf]. rewrite IHm, Qn_S. ring. }
  rewrite HL2 in H. destruct (mean_rows f n _ r L (fun y => point G x T y []) Ka Hf H) as [K1 [K2 K3]]; [apply map_length| |].
  - intros i Hi k Hk. set (F := fun (y : cls) (j : nat) => nth j (map x (numeric G T) ++ dummy y) 0%Q).
    rewrite (nth_indep _ _ (F Ka)) by (now rewrite map_length). rewrite map_nth. unfold F. rewrite Hs. unfold point. fold d. pose proof (proj2 HL) as En. fold d in En. destruct (Nat.ltb_spec k d) as [Kd|Kd].
    + assert (M : memb k T = true). { rewrite <- memb_numeric by exact Kd. rewrite Hs. apply memb_true. apply in_seq. lia. } rewrite M.
      rewrite app_nth1 by (rewrite map_length, seq_length; exact Kd). rewrite (nth_indep _ _ (x 0)) by (rewrite map_length, seq_length; exact Kd). rewrite map_nth, seq_nth by exact Kd. reflexivity.
    + rewrite app_nth2; rewrite map_length, seq_length; [|exact Kd]. rewrite dummy_indicator by lia. replace (d + (k - d)) with k by lia. reflexivity.
  - rewrite HL1, (HL3 (fun y => the (f (point G x T y [])))) in K3. split; [exact K3|]. split; [intros ->; destruct L; [congruence|discriminate]|].
    intros y Hy. apply K2. unfold L. apply in_flat_map. exists y. split; [now apply Hin|].
    assert (0 < count_cls y draws). { unfold count_cls. assert (I : In y (filter (cls_eqb y) draws)) by (apply filter_In; split; [exact Hy|destruct y; reflexivity]). destruct (filter (cls_eqb y) draws); [contradiction|cbn; lia]. }
    destruct (count_cls y draws); [lia|now left].
Qed.
Lemma full_dispatch x T N y0 : NoDup T -> in_n n T -> agrees G x [d; S d] y0 = true -> length (numeric G T) = d -> numeric G T <> [] ->
  (exists prob, probs x T (filter (agrees G x T) keys) prob /\
    cond_mc inv pdf rvs choice f G n x T N = match choice (filter (agrees G x T) keys) prob N with Some draws => mean_of f (tiles x (numeric G T) draws (filter (agrees G x T) keys)) | None => None end) \/
  (filter (agrees G x T) keys = [y0] /\ cond_mc inv pdf rvs choice f G n x T N = mean_of f [x]).
Proof.
  intros Hd Hr Hy Hl Hne. pose proof (proj2 HL) as Hn. fold d in Hn.
  assert (HrD : in_n n [d; S d]) by (intros k [<-|[<-|[]]]; lia).
  destruct (proj1 (agrees_spec G n HL x [d; S d] y0 HrD) Hy) as [A1 A2]. fold d in A1, A2. specialize (A1 (or_introl eq_refl)). specialize (A2 (or_intror (or_introl eq_refl))).
  assert (Hf : filter (agrees G x T) keys = filter (fun y => (if memb d T then qeqb (x d) (indicator G y d) else true) &&
     (if memb (S d) T then qeqb (x (S d)) (indicator G y (S d)) else true)) keys).
  { apply filter_ext. intro y. now apply agrees_bool with (n := n). }
  rewrite Hf. clear Hf. unfold indicator in A1, A2 |- *. fold d in A1, A2 |- *. rewrite Nat.eqb_refl in *.
  assert (Esd : (S d =? d) = false) by (apply Nat.eqb_neq; lia). rewrite Esd in *.
  unfold cond_mc. rewrite (numeric_eq G n HL T Hr). change (filter (fun k => memb k (gm_cat G)) T) with (cats G T). fold d. cbv zeta.
  rewrite Hl, Nat.eqb_refl. cbn [negb].
  assert (HM : forall k, k = d \/ k = S d -> memb k T = memb k (cats G T)).
  { intros k Hk. destruct (memb k T) eqn:E.
    - apply memb_true in E. symmetry. apply memb_true. apply (cats_In G n HL). split; [exact E|]. exact Hk.
    - symmetry. apply memb_false. intro K. apply (cats_In G n HL) in K. apply memb_false in E. tauto. }
  rewrite (HM d (or_introl eq_refl)), (HM (S d) (or_intror eq_refl)).
  assert (HlenT : length T = d + length (cats G T)). { rewrite (Permutation_length (parts_perm G n HL T Hr)), app_length, Hl. reflexivity. }
  clear HM. rewrite HlenT, Hn.
  assert (HW : forall l, l <> [] -> exists prob, probs x T l prob /\ mc_tiles pdf choice f G x (numeric G T) l N =
    match choice l prob N with Some draws => mean_of f (tiles x (numeric G T) draws l) | None => None end).
  { intros l Hln. unfold mc_tiles. rewrite (weights_some x T l Hd Hne). destruct (normal_some x T l Hd Hln) as [prob [E1 E2]]. rewrite E1. exists prob. split; [exact E2|reflexivity]. }
  assert (HB : forall l, l = [d; S d] \/ l = [S d; d] -> memb d l = true /\ memb (S d) l = true).
  { intros l [-> | ->]; split; apply memb_true; cbn; tauto. }
  destruct (cats_cases G n HL T Hd) as [E|[E|[E|[E|E]]]]; fold d in E; rewrite E in *; cbn [length].
  - destruct (Nat.eqb_spec (d + 0) (d + 2)); [lia|]. left. cbn [memb existsb andb]. match goal with |- context [filter ?g keys] => change (filter g keys) with keys end.
    apply HW. discriminate.
  - destruct (Nat.eqb_spec (d + 1) (d + 2)); [lia|]. destruct (Nat.ltb_spec d (d + 2)) as [_|]; [|lia].
    assert (Ei : index_cat G d = Some Ka). { unfold index_cat. rewrite (proj1 HL). cbn [nth]. fold d. rewrite Nat.eqb_refl. destruct (Nat.eqb_spec d (S d)); [lia|reflexivity]. }
    rewrite Ei. assert (Em : memb d [d] = true) by (apply memb_true; now left). assert (Em' : memb (S d) [d] = false) by (apply memb_false; cbn; lia).
    rewrite Em, Em'. unfold keys. cbn [filter]. rewrite !(qeqb_ext _ _ _ A1).
    destruct y0; cbn -[sumf d Qdiv Qmult mc_tiles normal weights probs Pv tiles mean_of]; [right; split; reflexivity| |]; left; apply HW; discriminate.
  - destruct (Nat.eqb_spec (d + 1) (d + 2)); [lia|]. destruct (Nat.ltb_spec (S d) (d + 2)) as [_|]; [|lia].
    assert (Ei : index_cat G (S d) = Some Kb). { unfold index_cat. rewrite (proj1 HL). cbn [nth]. fold d. rewrite Nat.eqb_refl. reflexivity. }
    rewrite Ei. assert (Em : memb (S d) [S d] = true) by (apply memb_true; now left). assert (Em' : memb d [S d] = false) by (apply memb_false; cbn; lia).
    rewrite Em, Em'. unfold keys. cbn [filter]. rewrite !(qeqb_ext _ _ _ A2).
    destruct y0; cbn -[sumf d Qdiv Qmult mc_tiles normal weights probs Pv tiles mean_of]; [|right; split; reflexivity|]; left; apply HW; discriminate.
  - rewrite Nat.eqb_refl. right. destruct (HB [d; S d] (or_introl eq_refl)) as [-> ->]. unfold keys. cbn [filter]. rewrite !(qeqb_ext _ _ _ A1), !(qeqb_ext _ _ _ A2).
    split; [|reflexivity]. destruct y0; reflexivity.
  - rewrite Nat.eqb_refl. right. destruct (HB [S d; d] (or_intror eq_refl)) as [-> ->]. unfold keys. cbn [filter]. rewrite !(qeqb_ext _ _ _ A1), !(qeqb_ext _ _ _ A2).
    split; [|reflexivity]. destruct y0; reflexivity.
Qed.
Theorem mc_known x T N r y0 : reads n f -> choice_ok choice -> 0 < d -> NoDup T -> in_n n T -> agrees G x [d; S d] y0 = true -> numeric G T = seq 0 d ->
  cond_mc inv pdf rvs choice f G n x T N = Some r ->
  exists draws, draws <> [] /\
    ((exists prob, choice (filter (agrees G x T) keys) prob N = Some draws /\
      forall p, weight pdf G x T p -> forall i, i < length (filter (agrees G x T) keys) ->
       (nth i prob 0 == p (nth i (filter (agrees G x T) keys) Ka) / sumf p (filter (agrees G x T) keys))%Q) \/
     filter (agrees G x T) keys = [y0] /\ draws = [y0]) /\
    (forall y, In y draws -> f (point G x T y []) <> None) /\
    (r * Qn (length draws) == sumf (fun y => the (f (point G x T y []))) draws)%Q.
Proof.
  intros Hf Hc Hd0 Hd Hr Hy Hs H. assert (Hl : length (numeric G T) = d) by (rewrite Hs; apply seq_length).
  assert (Hne : numeric G T <> []) by (intro K; rewrite K in Hl; cbn in Hl; lia).
  destruct (full_dispatch x T N y0 Hd Hr Hy Hl Hne) as [[prob [HP E]]|[E1 E2]].
  - rewrite E in H. destruct (choice (filter (agrees G x T) keys) prob N) as [draws|] eqn:Ec; [|discriminate]. destruct (Hc _ _ _ _ Ec) as [_ Hin].
    destruct (tiles_spec x T _ draws r Hf Hs (filter_keys_NoDup _) Hin H) as [B1 [B2 B3]]. exists draws. split; [exact B2|]. split.
    + left. exists prob. split; [exact Ec|]. intros p Hw i Hi. now apply probs_weight with (x := x) (T := T).
    + split; [exact B3|exact B1].
  - rewrite E2 in H. apply mean_one in H. destruct H as [q [Hq Er]]. exists [y0]. split; [discriminate|]. split; [right; split; [exact E1|reflexivity]|].
    assert (Hsame : same (f (point G x T y0 [])) (f x)).
    { apply Hf. intros k Hk. unfold point. fold d. pose proof (proj2 HL) as Hn. fold d in Hn. destruct (Nat.ltb_spec k d) as [Kd|Kd].
      - assert (M : memb k T = true). { rewrite <- memb_numeric by exact Kd. rewrite Hs. apply memb_true. apply in_seq. lia. } rewrite M. reflexivity.
      - unfold agrees in Hy. rewrite forallb_forall in Hy. assert (Ik : In k [d; S d]) by (cbn; lia). apply Hy in Ik. fold d in Ik. destruct (Nat.ltb_spec k d); [lia|].
        cbn [orb] in Ik. destruct (qeqb_spec (x k) (indicator G y0 k)) as [K|]; [|discriminate]. now symmetry. }
    rewrite Hq in Hsame. split.
    + intros y [<-|[]] K. rewrite K in Hsame. exact Hsame.
    + cbn [length sumf]. rewrite Qn_S, Qn_0, Er. destruct (f (point G x T y0 [])); cbn in *; [rewrite Hsame; ring|contradiction].
Qed.

(** ** A value is returned *)
Lemma cond_dim mean cov s v g : condMVN inv d mean cov (rest d s) s v = Some g -> g_dim g = length (rest d s).
Proof using G.
  clear. intro H. unfold condMVN in H. destruct s as [|s0 s]; [injection H as <-; rewrite rest_nil, seq_length; reflexivity|].
  destruct (in_range d (rest d (s0 :: s)) && in_range d (s0 :: s)); [|discriminate]. destruct (inv _ _); [|discriminate]. destruct (spread _ _); [|discriminate]. injection H as <-. reflexivity.
Qed.
Lemma cond_exists x T y : NoDup T -> exists g, condMVN inv d (gm_mean G y) (gm_cov G y) (rest d (numeric G T)) (numeric G T) (map x (numeric G T)) = Some g.
Proof.
  intro Hd. destruct (Hrun x y (numeric G T)) as [H _]; [now apply numeric_NoDup|intros k Hk; now apply numeric_lt in Hk|].
  unfold cond_exp_linear in H. fold d in H. fold (rest d (numeric G T)) in H. destruct (condMVN _ _ _ _ _ _ _) as [g|]; [now exists g|congruence].
Qed.
Lemma mean_total rows : (forall v, f v <> None) -> rows <> [] -> mean_of f rows <> None.
Proof using.
  clear. intros Hf Hr. unfold mean_of. assert (E : exists s, fold_right (fun r acc => match f r, acc with Some a, Some b => Some (a + b)%Q | _, _ => None end) (Some 0%Q) rows = Some s).
  { clear Hr. induction rows as [|v l [s IH]]; [now exists 0%Q|]. cbn [fold_right]. rewrite IH. specialize (Hf v). destruct (f v); [eexists; reflexivity|congruence]. }
  destruct E as [s ->]. destruct (Nat.eqb_spec (length rows) 0); [destruct rows; [congruence|discriminate]|discriminate].
Qed.
Theorem mc_returns x T N y0 : choice_ok choice -> rvs_ok rvs -> (forall classes prob M, classes <> [] -> length prob = length classes -> choice classes prob M <> None) ->
  (forall g M, 0 < M -> rvs g M <> None) -> (forall v, f v <> None) -> 0 < N -> 0 < d -> NoDup T -> in_n n T -> ordered G T -> agrees G x [d; S d] y0 = true ->
  cond_mc inv pdf rvs choice f G n x T N <> None.
Proof.
  intros Hc Hrv Tc Tr Tf HN Hd0 Hd Hr Ho Hy0.
  assert (HyT : agrees G x T y0 = true).
  { unfold agrees in *. rewrite forallb_forall in *. intros k Hk. destruct (Nat.ltb_spec k (gm_d G)) as [|K]; [reflexivity|]. specialize (Hr k Hk). rewrite (proj2 HL) in Hr. fold d in K, Hr.
    assert (I : In k [d; S d]) by (cbn; lia). apply Hy0 in I. fold d in I. destruct (Nat.ltb_spec k d); [lia|exact I]. }
  pose proof (classes_ne x T (ex_intro _ y0 HyT)) as Hne. destruct (Nat.eq_dec (length (numeric G T)) d) as [Hl|Hl].
  - assert (Hn0 : numeric G T <> []) by (intro K; rewrite K in Hl; cbn in Hl; lia).
    destruct (full_dispatch x T N y0 Hd Hr Hy0 Hl Hn0) as [[prob [[HP _] E]]|[_ E]]; rewrite E; [|now apply mean_total].
    specialize (Tc (filter (agrees G x T) keys) prob N Hne HP). destruct (choice (filter (agrees G x T) keys) prob N) as [draws|] eqn:Ec; [|congruence]. destruct (Hc _ _ _ _ Ec) as [Hlen Hin].
    apply mean_total; [exact Tf|]. intro K. apply (f_equal (@length vec)) in K. cbn [length] in K.
    assert (El : length (tiles x (numeric G T) draws (filter (agrees G x T) keys)) = length draws).
    { rewrite <- (count_total (filter (agrees G x T) keys) draws (filter_keys_NoDup _) Hin). apply tiles_length. }
    lia.
  - destruct (dispatch x T N Hd Hr Ho (ex_intro _ y0 HyT) Hl) as [prob [[HP _] E]]. rewrite E. unfold mc_mix.
    specialize (Tc (filter (agrees G x T) keys) prob N Hne HP). destruct (choice (filter (agrees G x T) keys) prob N) as [draws|] eqn:Ec; [|congruence]. destruct (Hc _ _ _ _ Ec) as [Hlen Hin].
    assert (HR : forall y c, 0 < c -> exists a, class_rows inv rvs G x (numeric G T) y c = Some a /\ length a = c /\ forall row, In row a -> length row = length (rest d (numeric G T))).
    { intros y c Hc0. unfold class_rows. fold d. fold (rest d (numeric G T)). unfold sampleMVN. destruct (cond_exists x T y Hd) as [g Eg]. rewrite Eg. pose proof (cond_dim _ _ _ _ _ Eg) as Edim.
      specialize (Tr g c Hc0). destruct (rvs g c) as [l|] eqn:El; [|congruence]. pose proof (Hrv _ _ _ El) as Ell. rewrite Edim in Ell.
      destruct (reshape l c (length (rest d (numeric G T)))) as [a|] eqn:Ea.
      - exists a. split; [reflexivity|]. apply reshape_spec in Ea. tauto.
      - unfold reshape in Ea. rewrite Ell, Nat.eqb_refl in Ea. discriminate. }
    assert (HM : forall classes, exists rg, mixture_rows inv rvs G x (numeric G T) draws classes = Some rg /\ length rg = list_sum (map (fun y => count_cls y draws) classes) /\
      forall row, In row rg -> length row = length (rest d (numeric G T)) + 2).
    { induction classes as [|y l [rg [E1 [E2 E3]]]]; [exists []; split; [reflexivity|]; split; [reflexivity|intros row []]|]. cbn [mixture_rows]. rewrite E1.
      change (list_sum (map (fun y => count_cls y draws) (y :: l))) with (count_cls y draws + list_sum (map (fun y => count_cls y draws) l)).
      destruct (Nat.eqb_spec (count_cls y draws) 0) as [E0|E0]; [exists rg; rewrite E0; auto|].
      destruct (HR y (count_cls y draws) ltac:(lia)) as [a [Ea [La Ra]]]. rewrite Ea. eexists. split; [reflexivity|]. split; [rewrite app_length, map_length; lia|].
      intros row K. apply in_app_or in K. destruct K as [K|K]; [|now apply E3]. apply in_map_iff in K. destruct K as [row' [<- K]]. rewrite app_length, (Ra row' K). destruct y; reflexivity. }
    destruct (HM (filter (agrees G x T) keys)) as [rg [E1 [E2 E3]]]. rewrite E1. rewrite (count_total _ draws (filter_keys_NoDup _) Hin), Hlen in E2. rewrite E2.
    destruct (Nat.eqb_spec N 0); [lia|]. unfold filled_rows. fold d. fold (rest d (numeric G T)). rewrite frame_some.
    + apply mean_total; [exact Tf|]. intro K. apply (f_equal (@length vec)) in K. rewrite map_length, seq_length in K. cbn in K. lia.
    + intros row K. rewrite (E3 row K), app_length, (proj1 HL). reflexivity.
Qed.
End Cond.

(** ** Samples with the exact frequencies and means *)
Section Ideal.
Variable inv : nat -> mat -> option mat.
Variable pdf : nat -> vec -> mat -> vec -> option Q.
Variable rvs : gauss -> nat -> option (list Q).
Variable choice : list cls -> list Q -> nat -> option (list cls).
Variables (G : gmm) (n : nat).
Hypothesis HL : layout G n.
Hypothesis Hinv : inv_sound inv.
Hypothesis Hpi : is_prior G.
Hypothesis Hpos : pdf_pos pdf.
Hypothesis Hrun : runs inv pdf G.
Let d := gm_d G.
Let dot (y : cls) (v : vec) : Q := sumf (fun i => gm_coefs G y i * v i)%Q (seq 0 d).

Lemma linear_reads : reads n (linear_gmm G n).
Proof.
  intros u v H. unfold linear_gmm. rewrite (proj1 HL). fold d. pose proof (proj2 HL) as Hn. fold d in Hn.
  destruct (Nat.ltb_spec d n) as [_|]; [|lia]. destruct (Nat.ltb_spec (S d) n) as [_|]; [|lia]. cbn [andb same].
  rewrite !(qeqb_ext _ _ _ (H d ltac:(lia))), !(qeqb_ext _ _ _ (H (S d) ltac:(lia))).
  assert (E : forall y, (sumf (fun i => gm_coefs G y i * u i) (seq 0 d) == sumf (fun i => gm_coefs G y i * v i) (seq 0 d))%Q).
  { intro y. apply Sm_ext. intros i Hi. rewrite (H i ltac:(lia)). reflexivity. }
  rewrite !E. reflexivity.
Qed.
Lemma linear_point x T y row : exists q, linear_gmm G n (point G x T y row) = Some q /\ (q == dot y (point G x T y row))%Q.
Proof.
  unfold linear_gmm. rewrite (proj1 HL). fold d. pose proof (proj2 HL) as Hn. fold d in Hn.
  destruct (Nat.ltb_spec d n) as [_|]; [|lia]. destruct (Nat.ltb_spec (S d) n) as [_|]; [|lia]. cbn [andb].
  assert (E1 : point G x T y row d = indicator G y d). { unfold point. fold d. destruct (Nat.ltb_spec d d); [lia|reflexivity]. }
  assert (E2 : point G x T y row (S d) = indicator G y (S d)). { unfold point. fold d. destruct (Nat.ltb_spec (S d) d); [lia|reflexivity]. }
  eexists. split; [reflexivity|]. rewrite E1, E2. rewrite (indicator_d G y : indicator G y d = _), (indicator_Sd G y : indicator G y (S d) = _). unfold dot.
  set (P := point G x T y row). destruct y; cbn [qeqb]; unfold Qb; cbn -[sumf seq Qmult Qplus]; lra.
Qed.
Lemma class_sum x T y c rows : rvs_exact rvs -> NoDup T -> 
  sampleMVN inv rvs c d (gm_mean G y) (gm_cov G y) (rest d T) (numeric G T) (map x (numeric G T)) = Some rows ->
  (sumf (fun row => dot y (point G x T y row)) rows == Qn c * Mv inv G x T y)%Q.
Proof.
  intros He Hd H. pose proof (sample_shape _ _ _ _ _ _ _ _ _ _ H) as [Hlen _]. unfold sampleMVN in H.
  assert (En : rest d (numeric G T) = rest d T) by apply rest_numeric.
  destruct (condMVN inv d (gm_mean G y) (gm_cov G y) (rest d T) (numeric G T) (map x (numeric G T))) as [g|] eqn:Eg; [|discriminate].
  destruct (rvs g c) as [l|] eqn:El; [|discriminate]. apply reshape_spec in H. destruct H as [_ [_ [_ Hnth]]].
  assert (Edim : g_dim g = length (rest d T)). { rewrite <- En in Eg |- *. now apply cond_dim in Eg. }
  assert (Hcol : forall j, j < length (rest d T) -> (sumf (fun row => nth j row 0) rows == Qn c * g_mean g j)%Q).
  { intros j Hj. rewrite <- Edim in Hj. rewrite <- (He g c l El j Hj). rewrite (sum_nth (fun row => nth j row 0%Q) rows []), Hlen. apply Sm_ext. intros i Hi.
    rewrite (Hnth i Hi). rewrite Edim in *. set (F := fun j => nth (i * length (rest d T) + j) l 0%Q). change (nth j (map F (seq 0 (length (rest d T)))) 0 == F j)%Q.
    rewrite (nth_indep _ _ (F 0)) by (now rewrite map_length, seq_length). rewrite map_nth, seq_nth by exact Hj. reflexivity. }
  assert (EM : (Mv inv G x T y == sumf (fun k => gm_coefs G y k * (if memb k T then x k else g_mean g (rank T k))) (seq 0 d))%Q).
  { pose proof (Mv_some inv pdf G Hrun x T y Hd) as E. unfold cond_y, cond_exp_linear in E. fold d in E. fold (rest d (numeric G T)) in E. rewrite En, Eg in E. cbv zeta in E. injection E as E.
    rewrite <- E. apply Sm_ext. intros k Hk. destruct (Nat.eqb_spec (length (numeric G T)) d) as [Hf|Hf].
    - assert (I : In k (numeric G T)). { apply (NoDup_length_incl (l' := seq 0 d) (numeric_NoDup G T Hd)); [rewrite seq_length; lia| |apply in_seq; lia]. intros i Hi. apply numeric_lt in Hi. apply in_seq. fold d in Hi. lia. }
      apply filter_In in I. destruct I as [I _]. apply memb_true in I. rewrite I. reflexivity.
    - destruct (memb k T) eqn:M.
      + apply memb_true in M. rewrite write_at_other by (intro K; apply rest_In in K; tauto). reflexivity.
      + apply memb_false in M. destruct (rest_rank d T k Hk M) as [R1 R2]. rewrite <- R2 at 2. rewrite write_at_nth by (try assumption; apply rest_NoDup). reflexivity. }
  rewrite EM. unfold dot. rewrite sumf_swap, <- sumf_scal. apply Sm_ext. intros k Hk. rewrite sumf_scal.
  destruct (memb k T) eqn:M.
  - assert (E : (sumf (fun row => point G x T y row k) rows == Qn c * x k)%Q); [|rewrite E; ring].
    rewrite (sumf_ext _ (fun _ => x k)), sumf_const, Hlen by (intros row _; unfold point; fold d; destruct (Nat.ltb_spec k d); [rewrite M; reflexivity|lia]). ring.
  - assert (E : (sumf (fun row => point G x T y row k) rows == Qn c * g_mean g (rank T k))%Q); [|rewrite E; ring].
    rewrite (sumf_ext _ (fun row => nth (rank T k) row 0%Q)) by (intros row _; unfold point; fold d; destruct (Nat.ltb_spec k d); [rewrite M; reflexivity|lia]).
    apply Hcol. apply memb_false in M. now apply rest_rank.
Qed.
Theorem ideal_spec x T N r y0 : choice_ok choice -> choice_exact choice -> rvs_exact rvs -> n <= 10 -> 0 < d -> NoDup T -> in_n n T -> ordered G T ->
  agrees G x [d; S d] y0 = true -> (length (numeric G T) = d -> numeric G T = seq 0 d) ->
  cond_mc inv pdf rvs choice (linear_gmm G n) G n x T N = Some r -> expectation pdf G x T r.
Proof.
  intros Hc Hce Hre Hn Hd0 Hd Hr Ho Hy Hs H. apply (bayes_expectation inv pdf G Hinv Hpi Hpos Hrun x T r Hd). unfold bayes.
  set (classes := filter (agrees G x T) keys) in *.
  assert (HyT : agrees G x T y0 = true).
  { unfold agrees in *. rewrite forallb_forall in *. intros k Hk. destruct (Nat.ltb_spec k (gm_d G)) as [|K]; [reflexivity|]. specialize (Hr k Hk). rewrite (proj2 HL) in Hr. fold d in K, Hr.
    assert (I : In k [d; S d]) by (cbn; lia). apply Hy in I. fold d in I. destruct (Nat.ltb_spec k d); [lia|exact I]. }
  pose proof (sum_pos inv pdf G Hpi Hpos Hrun x T classes Hd (classes_ne G x T (ex_intro _ y0 HyT))) as Hp.
  assert (Hfin : forall M (cnt : cls -> Q), 0 < M -> (forall y, In y classes -> (cnt y == Qn M * (Pv pdf G x T y / sumf (Pv pdf G x T) classes))%Q) ->
    (r * Qn M == sumf (fun y => cnt y * Mv inv G x T y) classes)%Q ->
    (r == sumf (fun y => Pv pdf G x T y * Mv inv G x T y) classes / sumf (Pv pdf G x T) classes)%Q).
  { intros M cnt HM Hcnt HE. rewrite (sumf_ext _ (fun y => (Qn M / sumf (Pv pdf G x T) classes) * (Pv pdf G x T y * Mv inv G x T y))%Q) in HE by (intros y Hy'; rewrite (Hcnt y Hy'); field; lra).
    rewrite sumf_scal in HE. apply Qn_pos in HM. apply (Qmult_inj_r _ _ (Qn M)); [lra|]. rewrite HE. field. lra. }
  assert (Hpr : forall prob draws, probs pdf G x T classes prob -> choice classes prob N = Some draws -> forall y, In y classes ->
    (Qn (count_cls y draws) == Qn N * (Pv pdf G x T y / sumf (Pv pdf G x T) classes))%Q).
  { intros prob draws HP Ec y Hy'. destruct (In_nth classes y Ka Hy') as [i [Hi Ei]]. pose proof (Hce _ _ _ _ (filter_keys_NoDup _) Ec i Hi) as K. fold classes in K. rewrite Ei in K. rewrite K, (proj2 HP i Hi), Ei. reflexivity. }
  destruct (Nat.eq_dec (length (numeric G T)) d) as [Hl|Hl].
  - assert (Hne : numeric G T <> []) by (intro K; rewrite K in Hl; cbn in Hl; lia). specialize (Hs Hl).
    destruct (full_dispatch inv pdf rvs choice (linear_gmm G n) G n HL Hpi Hpos Hrun x T N y0 Hd Hr Hy Hl Hne) as [[prob [HP E]]|[E1 E2]].
    + fold classes in HP, E. rewrite E in H. destruct (choice classes prob N) as [draws|] eqn:Ec; [|discriminate]. destruct (Hc _ _ _ _ Ec) as [Hlen Hin].
      destruct (tiles_spec (linear_gmm G n) G n HL x T classes draws r linear_reads Hs (filter_keys_NoDup _) Hin H) as [B1 [B2 _]].
      apply (Hfin N (fun y => Qn (count_cls y draws))); [destruct draws; [congruence|cbn in Hlen; lia]|exact (Hpr prob draws HP Ec)|].
      rewrite <- Hlen at 1. rewrite B1. rewrite (count_sum classes draws _ (filter_keys_NoDup _) Hin). apply sumf_ext. intros y _.
      destruct (linear_point x T y []) as [q [Eq Hq]]. rewrite Eq. cbn [the]. rewrite Hq, (full_Mv inv pdf G Hrun x T y Hd Hl). unfold dot. fold d.
      rewrite (Sm_ext d (fun i => gm_coefs G y i * point G x T y [] i)%Q (fun i => gm_coefs G y i * x i)%Q); [reflexivity|].
      intros k Hk. unfold point. fold d. destruct (Nat.ltb_spec k d); [|lia]. assert (M : memb k T = true). { rewrite <- (memb_numeric G T k Hk), Hs. apply memb_true. apply in_seq. lia. } rewrite M. reflexivity.
    + fold classes in E1. rewrite E2 in H. apply mean_one in H. destruct H as [q [Eq Er]]. rewrite E1, (one_class inv pdf G Hpi Hpos Hrun x T y0 Hd), (full_Mv inv pdf G Hrun x T y0 Hd Hl), Er.
      fold d. assert (HrD : in_n n [d; S d]) by (pose proof (proj2 HL) as K; fold d in K; intros k [<-|[<-|[]]]; lia).
      destruct (proj1 (agrees_spec G n HL x [d; S d] y0 HrD) Hy) as [A1 A2]. fold d in A1, A2. specialize (A1 (or_introl eq_refl)). specialize (A2 (or_intror (or_introl eq_refl))).
      unfold linear_gmm in Eq. rewrite (proj1 HL) in Eq. fold d in Eq. destruct ((d <? n) && (S d <? n)); [|discriminate]. injection Eq as <-.
      rewrite !(qeqb_ext _ _ _ A1), !(qeqb_ext _ _ _ A2). rewrite (indicator_d G y0 : indicator G y0 d = _), (indicator_Sd G y0 : indicator G y0 (S d) = _). destruct y0; unfold Qb; cbn -[sumf seq Qmult Qplus d]; lra.
  - destruct (dispatch inv pdf rvs choice (linear_gmm G n) G n HL Hpi Hpos Hrun x T N Hd Hr Ho (ex_intro _ y0 HyT) Hl) as [prob [HP E]]. rewrite E in H. fold classes in H, HP.
    destruct (mix_spec inv pdf rvs choice (linear_gmm G n) G n HL x T classes prob N r linear_reads Hc Hn Hd Hr (filter_keys_NoDup _) H) as [draws [rows [Ec [B2 [B3 [_ B5]]]]]].
    apply (Hfin N (fun y => Qn (count_cls y draws)) B3 (Hpr prob draws HP Ec)). rewrite B5. apply sumf_ext. intros y Hy'. destruct (B2 y Hy') as [C1 C2].
    destruct (Nat.eq_dec (count_cls y draws) 0) as [E0|E0].
    + rewrite (C1 E0), E0, Qn_0. cbn [sumf]. ring.
    + rewrite <- (class_sum x T y _ (rows y) Hre Hd (C2 ltac:(lia))). apply sumf_ext. intros row _. destruct (linear_point x T y row) as [q [Eq Hq]]. rewrite Eq. exact Hq.
Qed.
End Ideal.

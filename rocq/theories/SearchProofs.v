(** Lemmas about the search loops. *)
From Verif Require Import Base GameSpec GameProofs ShapModel AcvModel SearchModel SearchSpec.
From Coq Require Import NArith.

(** ** Sub-lists and combinations *)

Lemma combinations_spec size l : forall T,
  In T (combinations size l) <-> In T (subs l) /\ length T = size.
Proof.
  revert size. induction l as [|a l IH]; intros [|k] T; cbn [combinations subs].
  - split; [intros [<-|[]]; split; [now left|reflexivity]|intros [[<-|[]] _]; now left].
  - split; [intros []|intros [[<-|[]] H]; discriminate].
  - split.
    + intros [<-|[]]. split; [|reflexivity]. apply in_or_app. left. apply subs_nil.
    + intros [_ H]. destruct T; [now left|discriminate].
  - rewrite in_app_iff, in_map_iff, in_app_iff, in_map_iff. split.
    + intros [[U [<- H]]|H].
      * apply IH in H. destruct H as [H H']. split; [right; eauto|cbn; now rewrite H'].
      * apply IH in H. destruct H as [H H']. split; [now left|trivial].
    + intros [[H|[U [<- H]]] HT].
      * right. apply IH. now split.
      * left. exists U. split; [trivial|]. apply IH. split; [trivial|]. now injection HT.
Qed.

Lemma combinations_nonempty size l : size <= length l -> combinations size l <> [].
Proof.
  revert size. induction l as [|a l IH]; intros [|k] H; cbn in *; try congruence; [lia|].
  intro E. apply app_eq_nil in E. destruct E as [E _]. apply map_eq_nil in E.
  apply (IH k); [lia|trivial].
Qed.

Lemma NoDup_app_intro {A} (l l' : list A) :
  NoDup l -> NoDup l' -> (forall x, In x l -> ~ In x l') -> NoDup (l ++ l').
Proof.
  induction 1 as [|a l Ha Hl IH]; intros Hl' Hd; cbn; [trivial|].
  constructor.
  - rewrite in_app_iff. intros [H|H]; [now apply Ha|]. apply (Hd a); [now left|trivial].
  - apply IH; [trivial|]. intros x Hx. apply Hd. now right.
Qed.
Lemma NoDup_map_in {A B} (f : A -> B) l :
  (forall x y, In x l -> In y l -> f x = f y -> x = y) -> NoDup l -> NoDup (map f l).
Proof.
  intros Hinj Hn. induction Hn as [|a l Ha Hl IH]; cbn; constructor.
  - rewrite in_map_iff. intros [y [Hy Hiy]]. apply Ha.
    rewrite (Hinj a y); [trivial|now left|now right|now symmetry].
  - apply IH. intros x y Hx Hy. apply Hinj; now right.
Qed.

Lemma combinations_NoDup size l : NoDup l -> NoDup (combinations size l).
Proof.
  intro Hl. revert size. induction Hl as [|a l Ha Hl IH]; intros [|k]; cbn [combinations].
  - constructor; [easy|constructor].
  - constructor.
  - constructor; [easy|constructor].
  - apply NoDup_app_intro; [|apply IH|].
    + apply NoDup_map_in; [|apply IH]. intros x y _ _ H. now injection H.
    + intros T H HT. apply in_map_iff in H. destruct H as [U [<- _]].
      apply combinations_spec in HT. destruct HT as [HT _]. apply subs_incl in HT.
      apply Ha, HT. now left.
Qed.

Lemma groups_NoDup d va : groups_ok d va -> NoDup va.
Proof.
  intros [Hn [_ He]]. induction va as [|g va IH]; [constructor|].
  cbn in Hn. constructor.
  - intro Hi. destruct g as [|x g]; [apply He; now left|].
    apply NoDup_remove_2 in Hn || idtac.
    cbn in Hn. inversion Hn as [|? ? Hx _]; subst. apply Hx. apply in_or_app. right.
    apply in_concat. exists (x :: g). split; [trivial|now left].
  - apply IH; [|intro; apply He; now right].
    clear -Hn. induction g as [|a g IHg]; [trivial|]. cbn in Hn. inversion Hn. auto.
Qed.
Lemma groups_tail d g va : groups_ok d (g :: va) -> groups_ok d va.
Proof.
  intros [Hn [Hd He]]. split; [|split].
  - cbn in Hn. clear -Hn. induction g as [|a g IHg]; [trivial|]. cbn in Hn. inversion Hn. auto.
  - intros x Hx. apply Hd. cbn. apply in_or_app. now right.
  - intro H. apply He. now right.
Qed.
Lemma groups_head_disjoint d g va x : groups_ok d (g :: va) -> In x g -> ~ In x (concat va).
Proof.
  intros [Hn _] Hx Hc. cbn in Hn. clear -Hn Hx Hc.
  induction g as [|a g IH]; [easy|]. cbn in Hn. inversion Hn as [|? ? Ha Hn']; subst.
  destruct Hx as [->|Hx]; [|auto]. apply Ha. apply in_or_app. now right.
Qed.
Lemma subs_concat_incl (va T : list (list nat)) : In T (subs va) -> incl (concat T) (concat va).
Proof.
  intros H x Hx. apply in_concat in Hx. destruct Hx as [g [Hg Hx]].
  apply in_concat. exists g. split; [|trivial]. now apply (subs_incl _ _ H).
Qed.
Lemma subs_groups_ok d va T : groups_ok d va -> In T (subs va) -> groups_ok d T.
Proof.
  revert T. induction va as [|g va IH]; intros T Hok HT.
  - destruct HT as [<-|[]]. trivial.
  - cbn in HT. apply in_app_or in HT. destruct HT as [HT|HT].
    + apply IH; [now apply groups_tail in Hok|trivial].
    + apply in_map_iff in HT. destruct HT as [U [<- HU]].
      pose proof (groups_tail _ _ _ Hok) as Ht.
      destruct (IH U Ht HU) as [H1 [H2 H3]]. destruct Hok as [Hn [Hd He]]. split; [|split].
      * cbn. apply NoDup_app_intro; [|trivial|].
        -- cbn in Hn. clear -Hn. induction g as [|a g IHg]; [constructor|]. cbn in Hn.
           inversion Hn as [|? ? Ha Hn']; subst. constructor; [|auto].
           intro H. apply Ha, in_or_app. now left.
        -- intros x Hx Hc. apply subs_concat_incl in HU. apply HU in Hc.
           now apply (groups_head_disjoint d g va x (conj Hn (conj Hd He))) in Hc.
      * intros x Hx. cbn in Hx. apply in_app_or in Hx. destruct Hx as [Hx|Hx]; [|auto].
        apply Hd. cbn. apply in_or_app. now left.
      * intros [->|H]; [|auto]. apply He. now left.
Qed.
(** a sub-list whose columns contain those of another one contains its groups *)
Lemma subs_concat_sub d va T U : groups_ok d va -> In T (subs va) -> In U (subs va) ->
  incl (concat T) (concat U) -> In T (subs U).
Proof.
  revert T U. induction va as [|g va IH]; intros T U Hok HT HU Hi.
  - destruct HT as [<-|[]]. apply subs_nil.
  - pose proof (groups_tail _ _ _ Hok) as Ht.
    assert (Hne : exists x, In x g).
    { destruct Hok as [_ [_ He]]. destruct g as [|x g]; [exfalso; apply He; now left|]. exists x. now left. }
    cbn in HT, HU. apply in_app_or in HT. apply in_app_or in HU.
    destruct HT as [HT|HT], HU as [HU|HU].
    + now apply IH.
    + apply in_map_iff in HU. destruct HU as [U' [<- HU]]. cbn. apply in_or_app. left.
      apply IH; try trivial. intros x Hx.
      pose proof (Hi x Hx) as Hx'. cbn in Hx'. apply in_app_or in Hx'. destruct Hx' as [Hg|Hg]; [|trivial].
      exfalso. apply (groups_head_disjoint d g va x Hok Hg). now apply (subs_concat_incl _ _ HT).
    + apply in_map_iff in HT. destruct HT as [T' [<- HT]]. destruct Hne as [x Hx].
      exfalso. apply (groups_head_disjoint d g va x Hok Hx). apply (subs_concat_incl _ _ HU).
      apply Hi. cbn. apply in_or_app. now left.
    + apply in_map_iff in HT. destruct HT as [T' [<- HT]].
      apply in_map_iff in HU. destruct HU as [U' [<- HU]].
      cbn. apply in_or_app. right. apply in_map. apply IH; try trivial.
      intros y Hy. assert (Hy' : In y (concat (g :: U'))) by (apply Hi; cbn; apply in_or_app; now right).
      cbn in Hy'. apply in_app_or in Hy'. destruct Hy' as [Hg|Hg]; [|trivial].
      exfalso. apply (groups_head_disjoint d g va y Hok Hg). now apply (subs_concat_incl _ _ HT).
Qed.
Lemma subs_same_length (U T : list (list nat)) : In T (subs U) -> length T = length U -> T = U.
Proof.
  revert T. induction U as [|g U IH]; intros T HT Hl.
  - destruct HT as [<-|[]]. reflexivity.
  - cbn in HT. apply in_app_or in HT. destruct HT as [HT|HT].
    + apply subs_length in HT. cbn in Hl. lia.
    + apply in_map_iff in HT. destruct HT as [T' [<- HT]]. f_equal. apply IH; [trivial|]. now injection Hl.
Qed.
Lemma concat_inj d va T U : groups_ok d va -> In T (subs va) -> In U (subs va) ->
  concat T = concat U -> T = U.
Proof.
  intros Hok HT HU E.
  assert (H1 : In T (subs U)) by (eapply subs_concat_sub; eauto; rewrite E; apply incl_refl).
  assert (H2 : In U (subs T)) by (eapply subs_concat_sub; eauto; rewrite E; apply incl_refl).
  apply subs_same_length; [trivial|]. apply subs_length in H1. apply subs_length in H2. lia.
Qed.
Lemma full_is_all d va T : groups_ok d va -> In T (subs va) -> length (concat T) = d -> T = va.
Proof.
  intros Hok HT Hl. apply subs_same_length; [trivial|].
  assert (Hi : incl (seq 0 d) (concat T)).
  { destruct (subs_groups_ok d va T Hok HT) as [Hn [Hd _]].
    apply NoDup_length_incl; [trivial|rewrite seq_length; lia|].
    intros x Hx. apply in_seq. apply Hd in Hx. lia. }
  assert (H : In va (subs T)).
  { eapply subs_concat_sub; eauto; [apply subs_all|]. intros x Hx. apply Hi. apply in_seq.
    destruct Hok as [_ [Hd _]]. apply Hd in Hx. lia. }
  apply subs_length in H. apply subs_length in HT. lia.
Qed.
Lemma concat_length_le d va T : groups_ok d va -> In T (subs va) -> length (concat T) <= d.
Proof.
  intros Hok HT. destruct (subs_groups_ok d va T Hok HT) as [Hn [Hd _]].
  rewrite <- (seq_length d 0). apply NoDup_incl_length; [trivial|].
  intros x Hx. apply in_seq. apply Hd in Hx. lia.
Qed.

(** ** The enumeration *)

Definition level (va : list group) (s : nat) : list (list nat) := map (@concat nat) (combinations s va).
Lemma in_level va s S : In S (level va s) <-> exists T, In T (subs va) /\ length T = s /\ concat T = S.
Proof.
  unfold level. rewrite in_map_iff. split.
  - intros [T [<- H]]. apply combinations_spec in H. exists T. tauto.
  - intros [T [H1 [H2 H3]]]. exists T. split; [trivial|]. now apply combinations_spec.
Qed.
Lemma level_NoDup d va s : groups_ok d va -> NoDup (level va s).
Proof.
  intro Hok. apply NoDup_map_in.
  - intros x y Hx Hy E. apply combinations_spec in Hx. apply combinations_spec in Hy.
    eapply concat_inj; eauto; tauto.
  - apply combinations_NoDup. eapply groups_NoDup; eauto.
Qed.

Lemma power_loop_nth limit va sizes ms i sets :
  nth_error (power_loop limit va sizes ms) i = Some sets ->
  exists s, nth_error sizes i = Some s /\ sets = level va s.
Proof.
  revert ms i. induction sizes as [|s sizes IH]; intros ms i H; [destruct i; discriminate|].
  cbn [power_loop] in H. destruct i as [|i].
  - exists s. cbn in *. split; [trivial|]. now injection H as <-.
  - cbn [nth_error] in *. destruct (limit <=? _)%N; [destruct i; discriminate|]. eapply IH; eauto.
Qed.
Lemma nth_error_seq lo n i : nth_error (seq lo n) i = if i <? n then Some (lo + i) else None.
Proof.
  revert lo i. induction n as [|n IH]; intros lo i; cbn [seq].
  - destruct i; reflexivity.
  - destruct i as [|i]; cbn [nth_error].
    + cbn. now rewrite Nat.add_0_r.
    + rewrite IH. change (S i <? S n) with (i <? n). destruct (i <? n); [f_equal; lia|reflexivity].
Qed.
Lemma power_nth limit va lo i sets : nth_error (power limit va lo) i = Some sets ->
  lo + i <= length va /\ sets = level va (lo + i).
Proof.
  intro H. apply power_loop_nth in H. destruct H as [s [Hs ->]].
  rewrite nth_error_seq in Hs. destruct (i <? S (length va) - lo) eqn:E; [|discriminate].
  apply Nat.ltb_lt in E. injection Hs as <-. split; [lia|reflexivity].
Qed.

(** number of combinations *)
Fixpoint count_upto (n : nat) (va : list group) : nat :=
  match n with O => 0 | S k => count_upto k va + length (combinations k va) end.
Lemma combinations_big s l : length l < s -> combinations s l = [].
Proof.
  revert s. induction l as [|a l IH]; intros [|k] H; cbn in *; try lia; [reflexivity|].
  rewrite !IH by lia. reflexivity.
Qed.
Lemma count_upto_cons n a l : count_upto (S n) (a :: l) = count_upto (S n) l + count_upto n l.
Proof.
  induction n as [|n IH]; [destruct l; reflexivity|].
  change (count_upto (S (S n)) (a :: l)) with (count_upto (S n) (a :: l) + length (combinations (S n) (a :: l))).
  rewrite IH. cbn [combinations]. rewrite app_length, map_length. cbn [count_upto]. lia.
Qed.
Lemma count_upto_all l n : length l < n -> count_upto n l = 2 ^ length l.
Proof.
  revert n. induction l as [|a l IH]; intros [|n] H; [cbn in H; lia| |cbn in H; lia|].
  - clear H. induction n as [|n IHn]; [reflexivity|].
    change (count_upto (S n) [] + 0 = 1). rewrite IHn. reflexivity.
  - cbn in H. rewrite count_upto_cons. rewrite !IH by lia. cbn. lia.
Qed.
Lemma count_upto_lt l n : n <= length l -> count_upto n l < 2 ^ length l.
Proof.
  intro H. rewrite <- (count_upto_all l (S (length l))) by lia.
  assert (Hm : forall k, n <= k -> k <= length l -> count_upto n l < count_upto (S k) l).
  { intros k Hk. induction Hk as [|k Hk IH]; intro Hkl.
    - cbn [count_upto]. pose proof (combinations_nonempty n l Hkl).
      destruct (combinations n l); [congruence|cbn; lia].
    - cbn [count_upto] in *. specialize (IH ltac:(lia)). lia. }
  apply Hm; lia.
Qed.

Lemma power_loop_complete limit va n lo ms :
  (forall k, k < n -> (ms + N.of_nat (count_upto (lo + S k) va - count_upto lo va) < limit)%N) ->
  power_loop limit va (seq lo (S n)) ms = map (level va) (seq lo (S n)).
Proof.
  revert lo ms. induction n as [|n IH]; intros lo ms H.
  - cbn. destruct (limit <=? _)%N; reflexivity.
  - cbn [seq power_loop map]. fold (level va lo). f_equal.
    assert (Hc : forall j, count_upto (S lo + j) va >= count_upto (S lo) va).
    { induction j as [|j IHj]; [rewrite Nat.add_0_r; lia|]. rewrite Nat.add_succ_r. cbn [count_upto Nat.add] in *. lia. }
    assert (Hl : length (level va lo) = length (combinations lo va)) by (unfold level; apply map_length).
    pose proof (H 0 ltac:(lia)) as H0. replace (lo + 1) with (S lo) in H0 by lia.
    cbn [count_upto] in H0.
    destruct (N.leb_spec limit (ms + N.of_nat (length (level va lo)))) as [Hle|_].
    { exfalso. rewrite Hl in Hle. lia. }
    apply (IH (S lo)). intros k Hk. specialize (H (S k) ltac:(lia)).
    rewrite Hl. replace (lo + S (S k)) with (S lo + S k) in H by lia.
    pose proof (Hc (S k)) as Hck. cbn [count_upto] in Hck |- *. lia.
Qed.
Lemma power_complete va lo : length va <= 15 -> lo <= length va ->
  power cut15 va lo = map (level va) (seq lo (S (length va) - lo)).
Proof.
  intros H Hlo. unfold power. replace (S (length va) - lo) with (S (length va - lo)) by lia.
  apply power_loop_complete. intros k Hk.
  pose proof (count_upto_lt va (lo + S k) ltac:(lia)) as Hlt.
  assert (Hp : (N.of_nat (2 ^ length va) <= cut15)%N).
  { apply N.le_trans with (N.of_nat (2 ^ 15)); [|vm_compute; discriminate].
    assert (2 ^ length va <= 2 ^ 15) by (apply Nat.pow_le_mono_r; lia). lia. }
  lia.
Qed.

(** ** One level *)

Lemma combine_map_fold {B} (g : nat -> Q) (f : nat -> Q -> B -> B) (l : list nat) (rw : nat -> B) : NoDup l ->
  forall k, fold_left (fun rw ip => upd rw (fst ip) (f (fst ip) (snd ip) (rw (fst ip)))) (combine l (map g l)) rw k
  = if memb k l then f k (g k) (rw k) else rw k.
Proof.
  intro Hn. revert rw. induction Hn as [|a l Ha Hn IH]; intros rw k; [reflexivity|].
  cbn [map combine fold_left fst snd]. rewrite IH. cbn [memb existsb].
  destruct (Nat.eqb_spec k a) as [->|Hk].
  - cbn [orb]. destruct (memb_spec a l); [contradiction|]. now rewrite upd_same.
  - cbn [orb]. rewrite upd_other by trivial. reflexivity.
Qed.
Lemma fold_upd {B} (f : B -> B) (l : list nat) (rw : nat -> B) : NoDup l ->
  forall k, fold_left (fun rw k => upd rw k (f (rw k))) l rw k = if memb k l then f (rw k) else rw k.
Proof.
  intro Hn. revert rw. induction Hn as [|a l Ha Hn IH]; intros rw k; [reflexivity|].
  cbn [fold_left]. rewrite IH. cbn [memb existsb].
  destruct (Nat.eqb_spec k a) as [->|Hk]; cbn [orb].
  - destruct (memb_spec a l); [contradiction|]. now rewrite upd_same.
  - now rewrite upd_other by trivial.
Qed.

Lemma filter_filter {A} (p q : A -> bool) l : filter p (filter q l) = filter (fun x => q x && p x) l.
Proof. induction l as [|a l IH]; [reflexivity|]. cbn. destruct (q a); cbn; rewrite IH; reflexivity. Qed.
Lemma filter_true {A} (p : A -> bool) l : (forall x, In x l -> p x = true) -> filter p l = l.
Proof.
  induction l as [|a l IH]; intro H; [reflexivity|]. cbn. rewrite H by now left.
  f_equal. apply IH. intros x Hx. apply H. now right.
Qed.
Lemma memb_filter p l k : memb k (filter p l) = memb k l && p k.
Proof.
  destruct (memb_spec k (filter p l)) as [H|H].
  - apply filter_In in H. destruct H as [H1 H2]. apply memb_true in H1. now rewrite H1, H2.
  - destruct (memb_spec k l) as [H1|H1]; [|reflexivity]. destruct (p k) eqn:E; [|reflexivity].
    exfalso. apply H, filter_In. now split.
Qed.
Lemma filter_length_le {A} (f : A -> bool) l : length (filter f l) <= length l.
Proof. induction l as [|a l IH]; cbn; [lia|]. destruct (f a); cbn; lia. Qed.
Lemma NoDup_filter' {A} (p : A -> bool) l : NoDup l -> NoDup (filter p l).
Proof. apply NoDup_filter. Qed.

(** removing the finished rows *)
Lemma filter_neq_length k l : NoDup l -> In k l ->
  S (length (filter (fun j => negb (j =? k)) l)) = length l.
Proof.
  induction 1 as [|a l Ha Hl IH]; intro Hk; [easy|]. cbn [filter length].
  destruct (Nat.eqb_spec a k) as [->|E]; cbn [negb].
  - f_equal. f_equal. apply filter_true. intros x Hx.
    destruct (Nat.eqb_spec x k) as [->|]; [contradiction|reflexivity].
  - cbn [length]. destruct Hk as [->|Hk]; [congruence|]. now rewrite IH.
Qed.
Lemma pop_remove k l : NoDup l -> In k l ->
  pop_back (std_remove k l) = filter (fun j => negb (j =? k)) l.
Proof.
  intros Hn Hk. unfold pop_back, std_remove. cbn zeta.
  pose proof (filter_neq_length k l Hn Hk) as Hl.
  set (f := filter _ l) in *.
  assert (H1 : length (skipn (length f) l) = 1) by (rewrite skipn_length; lia).
  destruct (skipn (length f) l) as [|x [|y t]]; cbn in H1; try lia.
  apply removelast_last.
Qed.
Lemma remove_all (p : nat -> bool) l : NoDup l -> forall done, done = filter p l ->
  fold_left (fun R' k => pop_back (std_remove k R')) done l = filter (fun k => negb (p k)) l.
Proof.
  intros Hn done Hd.
  assert (Hg : forall dn R, NoDup dn -> NoDup R -> incl dn R ->
     fold_left (fun R' k => pop_back (std_remove k R')) dn R = filter (fun j => negb (memb j dn)) R).
  { induction dn as [|k dn IH]; intros R Hdn HR Hi.
    - cbn. symmetry. apply filter_true. reflexivity.
    - cbn [fold_left]. inversion Hdn as [|? ? Hk Hdn']; subst.
      rewrite pop_remove; [|trivial|apply Hi; now left].
      rewrite IH; [|trivial|now apply NoDup_filter'|].
      + rewrite filter_filter. apply filter_ext_in'. intros x _. cbn [memb existsb].
        destruct (x =? k); reflexivity.
      + intros x Hx. apply filter_In. split; [apply Hi; now right|].
        destruct (Nat.eqb_spec x k) as [->|]; [contradiction|reflexivity]. }
  rewrite Hg; subst done.
  - apply filter_ext_in'. intros x Hx. rewrite memb_filter. apply memb_true in Hx. now rewrite Hx.
  - now apply NoDup_filter'.
  - trivial.
  - intros x Hx. now apply filter_In in Hx.
Qed.

Section S.
Variable v : variant.
Variable d : nat.
Variable pi : Q.
Variable P : nat -> list nat -> Q.
Notation update_row := (update_row v d pi).
Notation one_set := (one_set v d pi P).
Notation one_level := (one_level v d pi P).

(** effect of one level on one row *)
Definition row_sets (k : nat) (sets : list (list nat)) (r : row) : row :=
  fold_left (fun r S => update_row S (P k S) r) sets r.
Definition tidy_row (r : row) : row :=
  if v_clean v && qleb pi (r_sdp r)
  then mkRow (r_sdp r) (r_len r) (clear_star (r_len r) d (r_star r)) else r.
Definition row_level (k : nat) (r : row) (sets : list (list nat)) : row :=
  if qleb pi (r_sdp r) then r else tidy_row (row_sets k sets r).
Definition row_run (k : nat) (L : list (list (list nat))) : row := fold_left (row_level k) L (row0 d).

Lemma tidy_sdp r : r_sdp (tidy_row r) = r_sdp r.
Proof. unfold tidy_row. now destruct (_ && _). Qed.

Definition undone (N : nat) (rows : nat -> row) : list nat :=
  filter (fun k => negb (qleb pi (r_sdp (rows k)))) (seq 0 N).

Lemma one_set_spec N rows0 rows S k :
  one_set N (undone N rows0) rows S k
  = if memb k (undone N rows0) then update_row S (P k S) (rows k) else rows k.
Proof.
  unfold one_set, SearchModel.one_set.
  assert (E : estimates v P N (undone N rows0) S = map (fun k => P k S) (undone N rows0)).
  { unfold estimates. destruct (v_mask v); [|reflexivity]. f_equal. unfold undone.
    apply filter_ext_in'. intros x Hx. rewrite memb_filter. apply memb_true in Hx. now rewrite Hx. }
  rewrite E.
  apply (combine_map_fold (fun k => P k S) (fun _ p r => update_row S p r)).
  apply NoDup_filter', seq_NoDup.
Qed.
Lemma sets_spec N rows0 sets rows k :
  fold_left (one_set N (undone N rows0)) sets rows k
  = if memb k (undone N rows0) then row_sets k sets (rows k) else rows k.
Proof.
  revert rows. induction sets as [|S sets IH]; intro rows; cbn [fold_left row_sets].
  - now destruct (memb _ _).
  - rewrite IH, one_set_spec. unfold row_sets. cbn [fold_left]. now destruct (memb _ _).
Qed.

Definition ok_state (N : nat) (st : sstate) : Prop := s_R st = undone N (s_rows st).

Lemma one_level_rows N sets st : ok_state N st -> forall k, k < N ->
  s_rows (one_level N sets st) k = row_level k (s_rows st k) sets.
Proof.
  intros Hok k Hk. unfold one_level, SearchModel.one_level. cbn zeta. cbn [s_rows]. rewrite Hok.
  set (rows := fold_left (one_set N (undone N (s_rows st))) sets (s_rows st)).
  assert (Hrows : forall j, rows j = if memb j (undone N (s_rows st)) then row_sets j sets (s_rows st j)
                                     else s_rows st j).
  { intro j. apply sets_spec. }
  assert (Hm : memb k (undone N (s_rows st)) = negb (qleb pi (r_sdp (s_rows st k)))).
  { unfold undone. rewrite memb_filter. assert (H : In k (seq 0 N)) by (apply in_seq; lia).
    apply memb_true in H. now rewrite H. }
  unfold row_level.
  destruct (v_clean v) eqn:Ev.
  - rewrite (fold_upd (fun r => mkRow (r_sdp r) (r_len r) (clear_star (r_len r) d (r_star r))) _ rows)
      by (apply NoDup_filter', NoDup_filter', seq_NoDup).
    rewrite memb_filter, Hm, Hrows, Hm.
    destruct (qleb pi (r_sdp (s_rows st k))); cbn [negb andb]; [reflexivity|].
    unfold tidy_row. now rewrite Ev.
  - rewrite Hrows, Hm.
    destruct (qleb pi (r_sdp (s_rows st k))); cbn [negb]; [reflexivity|].
    unfold tidy_row. now rewrite Ev.
Qed.

Lemma one_level_ok N sets st : ok_state N st -> ok_state N (one_level N sets st).
Proof.
  intro Hok. unfold ok_state.
  assert (Hr := one_level_rows N sets st Hok).
  unfold undone. rewrite (filter_ext_in' _ (fun k => negb (qleb pi (r_sdp (row_level k (s_rows st k) sets))))).
  2:{ intros k Hk. apply in_seq in Hk. rewrite Hr by lia. reflexivity. }
  clear Hr. unfold one_level, SearchModel.one_level. cbn zeta. cbn [s_R]. rewrite Hok.
  erewrite remove_all; [|apply NoDup_filter', seq_NoDup|reflexivity].
  assert (Hu : forall p, filter p (undone N (s_rows st)) =
     filter (fun k => negb (qleb pi (r_sdp (s_rows st k))) && p k) (seq 0 N)).
  { intro p. apply filter_filter. }
  rewrite Hu. apply filter_ext_in'. intros k Hk. rewrite Hok, sets_spec. unfold undone. rewrite memb_filter. apply memb_true in Hk. rewrite Hk.
  cbn [andb]. unfold row_level. destruct (qleb pi (r_sdp (s_rows st k))) eqn:E; cbn [negb andb].
  - now rewrite E.
  - now rewrite tidy_sdp.
Qed.

Lemma state0_ok N : (0 < pi)%Q -> ok_state N (state0 d N).
Proof.
  intro H. unfold ok_state, undone, state0. cbn. symmetry. apply filter_true. intros k _.
  destruct (qleb_spec pi 0); [lra|reflexivity].
Qed.

Definition levels (N : nat) (L : list (list (list nat))) (st : sstate) : sstate :=
  fold_left (fun st sets => one_level N sets st) L st.
Lemma levels_ok N L st : ok_state N st -> ok_state N (levels N L st).
Proof. revert st. induction L as [|s L IH]; intros st H; cbn; [trivial|]. apply IH. now apply one_level_ok. Qed.
Lemma levels_rows N L st : ok_state N st -> forall k, k < N ->
  s_rows (levels N L st) k = fold_left (row_level k) L (s_rows st k).
Proof.
  revert st. induction L as [|s L IH]; intros st H k Hk; [reflexivity|].
  change (s_rows (levels N L (one_level N s st)) k
          = fold_left (row_level k) L (row_level k (s_rows st k) s)).
  rewrite IH by (trivial; now apply one_level_ok). f_equal. now apply one_level_rows.
Qed.

(** the levels actually visited *)
Lemma search_loop_levels stop N pw idx st st' :
  search_loop v d pi P stop N pw idx st = Some st' ->
  exists L, length L <= length idx /\
    (forall i sets, nth_error L i = Some sets ->
       exists s0, nth_error idx i = Some s0 /\ nth_error pw s0 = Some sets) /\
    st' = levels N L st /\
    (length L < length idx -> stop = true /\ L <> [] /\
       (s_R st' = [] \/ v_half v (last_size (last L [])) d = true)).
Proof.
  revert st. induction idx as [|s0 idx IH]; intros st H; cbn [search_loop] in H.
  - injection H as <-. exists []. cbn. repeat split; try lia. intros [|i]; discriminate.
  - destruct (nth_error pw s0) as [sets|] eqn:En; [|discriminate].
    destruct (((length (s_R (one_level N sets st)) =? 0) || v_half v (last_size sets) d) && stop) eqn:Es.
    + injection H as <-. exists [sets]. cbn. apply andb_prop in Es. destruct Es as [Es ->].
      repeat split; try lia; try discriminate.
      * intros [|i] s H; [|destruct i; discriminate]. injection H as <-. exists s0. now split.
      * apply orb_prop in Es. destruct Es as [Es|Es]; [left|now right].
        apply Nat.eqb_eq in Es. now apply length_zero_iff_nil in Es.
    + apply IH in H. destruct H as [L [H1 [H3 [H4 H5]]]].
      exists (sets :: L). cbn [length]. split; [lia|]. split; [|split].
      * intros [|i] s Hs; [cbn in Hs; injection Hs as <-; exists s0; now split|]. exact (H3 i s Hs).
      * exact H4.
      * intro Hn. destruct (H5 ltac:(lia)) as [H6 [H7 H8]]. split; [trivial|]. split; [discriminate|].
        destruct L as [|l0 L]; [congruence|]. exact H8.
Qed.

(** *** What a level does to a row *)

Lemma write_star_first S star : firstn (length S) (write_star S star) = map Z.of_nat S.
Proof.
  unfold write_star. rewrite <- (map_length Z.of_nat S) at 1. rewrite firstn_app, Nat.sub_diag, firstn_O, app_nil_r.
  apply firstn_all.
Qed.
Lemma clear_star_first len star : len <= length star \/ True -> firstn len (clear_star len d star) = firstn len star
  \/ length star < len.
Proof.
  intros _. unfold clear_star. destruct (le_lt_dec len (length star)) as [H|H]; [left|now right].
  rewrite firstn_app, firstn_firstn, Nat.min_id. rewrite firstn_length, Nat.min_l by trivial.
  rewrite Nat.sub_diag, firstn_O. apply app_nil_r.
Qed.

Definition full_alone (sets : list (list nat)) : Prop :=
  forall S, In S sets -> length S = d -> sets = [S].

Lemma write_star_length S star : length S <= length star -> length (write_star S star) = length star.
Proof. intro H. unfold write_star. rewrite app_length, map_length, skipn_length. lia. Qed.
Lemma clear_star_length len star : length star = d -> len <= d -> length (clear_star len d star) = d.
Proof. intros H1 H2. unfold clear_star. rewrite app_length, firstn_length, repeat_length. lia. Qed.

(** rows keep index rows of [d] entries *)
Definition sized (r : row) : Prop := length (r_star r) = d /\ r_len r <= d.
Lemma row0_sized : sized (row0 d).
Proof. split; [apply repeat_length|apply Nat.le_0_l]. Qed.
Lemma update_sized S p r : length S <= d -> sized r -> sized (update_row S p r).
Proof.
  intros HS [H1 H2]. unfold update_row, SearchModel.update_row. cbn zeta.
  set (r1 := if qleb (r_sdp r) p && (negb (v_need v) || qleb pi p) then _ else r).
  assert (H : sized r1).
  { subst r1. destruct (_ && _); [|now split]. split; cbn; [|trivial]. rewrite write_star_length; lia. }
  clearbody r1. destruct (_ && _); [|trivial]. split; cbn; [|trivial].
  apply clear_star_length; [|trivial]. destruct H as [H _]. rewrite write_star_length; lia.
Qed.
Lemma tidy_sized r : sized r -> sized (tidy_row r).
Proof.
  intros [H1 H2]. unfold tidy_row. destruct (_ && _); [|now split]. split; cbn; [|trivial].
  now apply clear_star_length.
Qed.
Lemma row_sets_sized k sets r : (forall S, In S sets -> length S <= d) -> sized r -> sized (row_sets k sets r).
Proof.
  revert r. induction sets as [|S sets IH]; intros r Hs Hr; [trivial|]. cbn.
  apply IH; [intros; apply Hs; now right|]. apply update_sized; [apply Hs; now left|trivial].
Qed.
Lemma row_level_sized k r sets : (forall S, In S sets -> length S <= d) -> sized r -> sized (row_level k r sets).
Proof. intros Hs Hr. unfold row_level. destruct (qleb _ _); [trivial|]. now apply tidy_sized, row_sets_sized. Qed.

Lemma tidy_reported r : sized r -> reported (tidy_row r) = reported r.
Proof.
  intros [H1 H2]. unfold tidy_row, reported. destruct (_ && _); [|reflexivity]. cbn.
  destruct (clear_star_first (r_len r) (r_star r) (or_intror I)) as [H|H]; [trivial|lia].
Qed.
Lemma tidy_len r : r_len (tidy_row r) = r_len r.
Proof. unfold tidy_row. now destruct (_ && _). Qed.

(** recorded: the row shows the set [S] with its probability *)
Definition shows (k : nat) (S : list nat) (r : row) : Prop :=
  reported r = map Z.of_nat S /\ r_len r = length S /\
  (r_sdp r = P k S \/ (length S = d /\ r_sdp r = 1%Q)).

Lemma update_plain S p r : length S <> d ->
  update_row S p r = (if qleb (r_sdp r) p && (negb (v_need v) || qleb pi p)
                      then mkRow p (length S) (write_star S (r_star r)) else r).
Proof.
  intro H. unfold update_row, SearchModel.update_row. cbn zeta. apply Nat.eqb_neq in H. rewrite H.
  now rewrite andb_false_r.
Qed.

Lemma row_sets_app k a b r : row_sets k (a ++ b) r = row_sets k b (row_sets k a r).
Proof. apply fold_left_app. Qed.

Lemma sets_result k sets r : (pi <= 1)%Q -> (r_sdp r < pi)%Q -> sized r ->
  full_alone sets -> (forall S, In S sets -> length S <= d) ->
  let r' := row_sets k sets r in
  ((r_sdp r' < pi)%Q -> forall S, In S sets -> (P k S < pi)%Q) /\
  ((pi <= r_sdp r')%Q -> exists S, In S sets /\ shows k S r' /\
      forall S', In S' sets -> S' <> S -> (P k S' <= r_sdp r')%Q).
Proof.
  intros Hpi Hr Hsz Hfa Hle r'. subst r'.
  destruct (in_dec Nat.eq_dec d (map (@length nat) sets)) as [Hd|Hd].
  - (* the set of all columns *)
    apply in_map_iff in Hd. destruct Hd as [S [HS Hin]]. rewrite (Hfa S Hin HS) in *.
    cbn [row_sets fold_left]. unfold update_row, SearchModel.update_row. cbn zeta.
    rewrite HS, Nat.eqb_refl, andb_true_r.
    set (c := qleb (r_sdp r) (P k S) && (negb (v_need v) || qleb pi (P k S))).
    assert (Hc : c = false -> (P k S < pi)%Q).
    { subst c. intro E. apply andb_false_iff in E. destruct E as [E|E].
      - apply qleb_false in E. lra.
      - apply orb_false_iff in E. destruct E as [_ E]. now apply qleb_false in E. }
    destruct (v_full v); cbn [andb].
    + (* probability 1 *)
      cbn [r_sdp]. split; [intro; lra|]. intros _. exists S. split; [now left|]. split.
      * unfold shows, reported. cbn [r_star r_len r_sdp]. split; [|split; [now rewrite HS|right; now split]].
        match goal with |- firstn d (clear_star _ _ ?s) = _ => set (st := s) end.
        destruct (clear_star_first d st (or_intror I)) as [H|H].
        -- rewrite H. subst st. rewrite <- HS. rewrite HS at 1. rewrite <- HS. apply write_star_first.
        -- exfalso. subst st. unfold write_star in H. rewrite app_length, map_length in H. lia.
      * intros S' [<-|[]] HS'. congruence.
    + destruct c eqn:E; cbn [r_sdp].
      * split.
        -- intros H S' [<-|[]]. trivial.
        -- intros _. exists S. split; [now left|]. split.
           ++ unfold shows, reported. cbn [r_star r_len r_sdp]. split; [|split; [now rewrite HS|now left]].
              rewrite <- HS. apply write_star_first.
           ++ intros S' [<-|[]] HS'. congruence.
      * split; [|intro; lra]. intros _ S' [<-|[]]. now apply Hc.
  - (* ordinary level *)
    assert (Hne : forall S, In S sets -> length S <> d).
    { intros S HS E. apply Hd. rewrite <- E. now apply in_map. }
    clear Hfa Hd.
    assert (Hinv : (forall S, In S sets -> (P k S <= r_sdp (row_sets k sets r))%Q \/ (P k S < pi)%Q) /\
                   (r_sdp r <= r_sdp (row_sets k sets r))%Q /\
                   (row_sets k sets r = r \/ exists S, In S sets /\ shows k S (row_sets k sets r))).
    { induction sets as [|S sets IH] using rev_ind; [split; [easy|split; [cbn; lra|now left]]|].
      destruct IH as [I1 [I2 I3]].
      { intros; apply Hle, in_or_app; now left. } { intros; apply Hne, in_or_app; now left. }
      rewrite row_sets_app. set (r1 := row_sets k sets r) in *.
      cbn [row_sets fold_left]. rewrite update_plain by (apply Hne, in_or_app; right; now left).
      destruct (qleb (r_sdp r1) (P k S) && (negb (v_need v) || qleb pi (P k S))) eqn:E; cbn [r_sdp].
      - apply andb_prop in E. destruct E as [E _]. apply qleb_true in E. split; [|split; [lra|]].
        + intros S' HS'. apply in_app_or in HS'. destruct HS' as [HS'|[<-|[]]]; [|left; lra].
          destruct (I1 S' HS'); [left; lra|now right].
        + right. exists S. split; [apply in_or_app; right; now left|]. unfold shows, reported. cbn [r_star r_len r_sdp].
          split; [apply write_star_first|]. split; [reflexivity|now left].
      - split; [|split; [lra|]].
        + intros S' HS'. apply in_app_or in HS'. destruct HS' as [HS'|[<-|[]]]; [now apply I1|].
          apply andb_false_iff in E. destruct E as [E|E].
          * apply qleb_false in E. left. lra.
          * apply orb_false_iff in E. destruct E as [_ E]. apply qleb_false in E. now right.
        + destruct I3 as [I3|[S' [I3 I4]]]; [now left|]. right. exists S'. split; [apply in_or_app; now left|trivial]. }
    destruct Hinv as [I1 [I2 I3]]. split.
    + intros H S HS. destruct (I1 S HS); lra.
    + intro H. destruct I3 as [I3|[S [I3 I4]]]; [rewrite I3 in H; lra|].
      exists S. split; [trivial|]. split; [trivial|]. intros S' HS' _. destruct (I1 S' HS'); lra.
Qed.

Lemma shows_tidy k S r : sized r -> shows k S r -> shows k S (tidy_row r).
Proof.
  intros Hs [H1 [H2 H3]]. unfold shows. rewrite tidy_reported by trivial. rewrite tidy_len, tidy_sdp. now split.
Qed.

Lemma run_result k L : (0 < pi)%Q -> (pi <= 1)%Q ->
  (forall sets, In sets L -> full_alone sets) ->
  (forall sets S, In sets L -> In S sets -> length S <= d) ->
  sized (row_run k L) /\
  ((r_sdp (row_run k L) < pi)%Q -> forall sets S, In sets L -> In S sets -> (P k S < pi)%Q) /\
  ((pi <= r_sdp (row_run k L))%Q -> exists i sets S, nth_error L i = Some sets /\ In S sets /\
     shows k S (row_run k L) /\
     (forall S', In S' sets -> S' <> S -> (P k S' <= r_sdp (row_run k L))%Q) /\
     (forall j sets' S', j < i -> nth_error L j = Some sets' -> In S' sets' -> (P k S' < pi)%Q)).
Proof.
  intros Hp0 Hp1. induction L as [|sets L IH] using rev_ind; intros Hfa Hle.
  - cbn. split; [apply row0_sized|]. split; [easy|]. intro H. exfalso. cbn in H. lra.
  - destruct IH as [I0 [I1 I2]].
    { intros; apply Hfa, in_or_app; now left. } { intros s S H H'. apply (Hle s); [apply in_or_app; now left|trivial]. }
    assert (Hsets : In sets (L ++ [sets])) by (apply in_or_app; right; now left).
    unfold row_run in *. rewrite fold_left_app. cbn [fold_left]. set (r := fold_left (row_level k) L (row0 d)) in *.
    assert (Hsz : sized (row_level k r sets)).
    { apply row_level_sized; [|trivial]. intros S HS. now apply (Hle sets). }
    split; [trivial|].
    unfold row_level in *. destruct (qleb pi (r_sdp r)) eqn:E.
    + apply qleb_true in E. split; [intro; lra|]. intros _.
      destruct (I2 E) as [i [st [S [H1 [H2 [H3 [H4 H5]]]]]]].
      assert (Hi : i < length L) by (apply nth_error_Some; congruence).
      exists i, st, S. split; [now rewrite nth_error_app1 by lia|]. split; [trivial|]. split; [trivial|].
      split; [trivial|]. intros j s' S' Hj Hn. rewrite nth_error_app1 in Hn by lia. now apply (H5 j).
    + apply qleb_false in E. rewrite tidy_sdp in *.
      destruct (sets_result k sets r Hp1 E I0 (Hfa sets Hsets) (fun S => Hle sets S Hsets)) as [R1 R2].
      split.
      * intros H s S Hs HS. apply in_app_or in Hs. destruct Hs as [Hs|[<-|[]]].
        -- now apply (I1 E s).
        -- now apply R1.
      * intro H. destruct (R2 H) as [S [H1 [H2 H3]]]. exists (length L), sets, S.
        split; [rewrite nth_error_app2, Nat.sub_diag by lia; reflexivity|]. split; [trivial|].
        split; [apply shows_tidy; [|trivial]; apply row_sets_sized; [intros; now apply (Hle sets)|trivial]|].
        split; [trivial|]. intros j s' S' Hj Hn. rewrite nth_error_app1 in Hn by lia.
        intro HS'. apply (I1 E s'); [now apply nth_error_In in Hn|trivial].
Qed.

Lemma found_stable k L r : qleb pi (r_sdp r) = true -> fold_left (row_level k) L r = r.
Proof. intro H. induction L as [|s L IH]; [reflexivity|]. cbn. unfold row_level at 2. now rewrite H. Qed.
End S.

(** ** The visited levels *)

Lemma list_as_map {A} (f : nat -> A) (L : list A) :
  (forall i x, nth_error L i = Some x -> x = f i) -> L = map f (seq 0 (length L)).
Proof.
  revert f. induction L as [|a L IH]; intros f H; [reflexivity|]. cbn [length seq map]. f_equal.
  - exact (H 0 a eq_refl).
  - rewrite <- seq_shift, map_map. apply IH. intros i x Hx. exact (H (S i) x Hx).
Qed.
Lemma map_seq_shift {A} (f : nat -> A) lo n : map (fun i => f (lo + i)) (seq 0 n) = map f (seq lo n).
Proof.
  revert lo. induction n as [|n IH]; intro lo; [reflexivity|]. cbn [seq map]. f_equal; [f_equal; lia|].
  rewrite <- IH, <- seq_shift, map_map. apply map_ext. intro i. f_equal. lia.
Qed.

Lemma last_combination s (l : list group) : s <= length l -> last (combinations s l) [] = skipn (length l - s) l.
Proof.
  revert s. induction l as [|a l IH]; intros [|k] H.
  - reflexivity.
  - cbn in H. lia.
  - cbn [combinations last]. rewrite Nat.sub_0_r. symmetry. apply skipn_all.
  - cbn [combinations length Nat.sub]. cbn [length] in H.
    destruct (le_lt_dec (S k) (length l)) as [Hk|Hk].
    + assert (Hn := combinations_nonempty (S k) l Hk).
      assert (E : forall (A : Type) (x y : list A) dd, y <> [] -> last (x ++ y) dd = last y dd).
      { clear. intros A x y dd Hy. induction x as [|b x IHx]; [reflexivity|]. cbn.
        destruct (x ++ y) eqn:E; [|trivial]. apply app_eq_nil in E. now destruct E. }
      rewrite E by trivial. rewrite (IH (S k) Hk).
      replace (length l - k) with (S (length l - S k)) by lia. reflexivity.
    + rewrite (combinations_big (S k) l) by lia. rewrite app_nil_r.
      replace (length l - k) with 0 by lia. cbn [skipn].
      assert (Ek : k = length l) by lia.
      assert (E : forall (x : list (list group)), x <> [] -> last (map (cons a) x) [] = a :: last x []).
      { clear. induction x as [|b x IHx]; intro Hx; [easy|]. destruct x as [|c x]; [reflexivity|].
        change (last (map (cons a) (b :: c :: x)) []) with (last (map (cons a) (c :: x)) []).
        rewrite IHx by discriminate. reflexivity. }
      rewrite E by (apply combinations_nonempty; lia). rewrite IH by lia.
      f_equal. replace (length l - k) with 0 by lia. reflexivity.
Qed.
Lemma last_map {A B} (f : A -> B) l x : last (map f l) (f x) = f (last l x).
Proof.
  induction l as [|a l IH]; [reflexivity|]. destruct l as [|b l]; [reflexivity|]. exact IH.
Qed.
Lemma last_size_level va s : s <= length va -> last_size (level va s) = length (concat (skipn (length va - s) va)).
Proof.
  intro H. unfold last_size, level. f_equal.
  rewrite <- (last_combination s va H). exact (last_map (@concat nat) (combinations s va) []).
Qed.

Lemma level_full_alone d va s : groups_ok d va -> full_alone d (level va s).
Proof.
  intros Hok S HS Hd. apply in_level in HS. destruct HS as [T [HT [Hs HS]]].
  assert (ET : T = va) by (eapply full_is_all; eauto; congruence). subst T S.
  destruct (level va s) as [|a [|b l]] eqn:E.
  - exfalso. assert (H : In (concat va) (level va s)) by (apply in_level; exists va; auto). rewrite E in H. destruct H.
  - f_equal. assert (H : In a (level va s)) by (rewrite E; now left).
    apply in_level in H. destruct H as [U [HU [Hl <-]]]. f_equal. apply subs_same_length; congruence.
  - exfalso. pose proof (level_NoDup d va s Hok) as Hn. rewrite E in Hn.
    assert (Ha : In a (level va s)) by (rewrite E; now left).
    assert (Hb : In b (level va s)) by (rewrite E; right; now left).
    apply in_level in Ha. destruct Ha as [U [HU [Hl Ea]]].
    apply in_level in Hb. destruct Hb as [U' [HU' [Hl' Eb]]].
    assert (U = va) by (apply subs_same_length; congruence).
    assert (U' = va) by (apply subs_same_length; congruence).
    subst U U' a b. inversion Hn as [|? ? H _]. apply H. now left.
Qed.
Lemma level_le d va s S : groups_ok d va -> In S (level va s) -> length S <= d.
Proof.
  intros Hok H. apply in_level in H. destruct H as [T [HT [_ <-]]]. now apply (concat_length_le d va).
Qed.

Section T.
Variable v : variant.
Variable d : nat.
Variable pi : Q.
Variable P : nat -> list nat -> Q.

Lemma visits stop N va lo pw idx st :
  (forall i s0 sets, nth_error idx i = Some s0 -> nth_error pw s0 = Some sets ->
      lo + i <= length va /\ sets = level va (lo + i)) ->
  search_loop v d pi P stop N pw idx (state0 d N) = Some st ->
  exists n, st = levels v d pi P N (map (level va) (seq lo n)) (state0 d N) /\ n <= length idx /\
    (forall i, i < n -> lo + i <= length va) /\
    (n < length idx -> stop = true /\ 0 < n /\
       (s_R st = [] \/ v_half v (last_size (level va (lo + n - 1))) d = true)).
Proof.
  intros Hpw H. apply search_loop_levels in H. destruct H as [L [H1 [H2 [H3 H4]]]].
  assert (HL : L = map (level va) (seq lo (length L))).
  { rewrite <- map_seq_shift. apply list_as_map. intros i x Hx. destruct (H2 i x Hx) as [s0 [E1 E2]].
    now apply (Hpw i s0). }
  exists (length L). rewrite <- HL. split; [trivial|]. split; [trivial|]. split.
  - intros i Hi. apply nth_error_Some in Hi. destruct (nth_error L i) as [x|] eqn:E; [|congruence].
    destruct (H2 i x E) as [s0 [E1 E2]]. now apply (Hpw i s0 x).
  - intro Hn. destruct (H4 Hn) as [E1 [E2 E3]]. split; [trivial|]. split; [destruct L; [congruence|cbn; lia]|].
    destruct E3 as [E3|E3]; [now left|right].
    rewrite HL in E3. set (n := length L) in *. destruct n as [|n']; [destruct L; [congruence|discriminate]|].
    rewrite seq_S, map_app in E3. cbn [map] in E3. rewrite last_last in E3.
    replace (lo + S n' - 1) with (lo + n') by lia. trivial.
Qed.

Lemma search_visits limit stop N va lo st :
  search v d pi P limit stop N va lo = Some st ->
  exists n, st = levels v d pi P N (map (level va) (seq lo n)) (state0 d N) /\ n <= S (length va) - lo /\
    (forall i, i < n -> lo + i <= length va) /\
    (n < S (length va) - lo -> stop = true /\ 0 < n /\
       (s_R st = [] \/ v_half v (last_size (level va (lo + n - 1))) d = true)).
Proof.
  intro H. unfold search in H. apply (visits _ _ va lo) in H.
  - destruct H as [n H]. exists n. now rewrite seq_length in H.
  - intros i s0 sets Hi Hs. rewrite nth_error_seq in Hi. destruct (_ <? _); [|discriminate].
    injection Hi as <-. apply power_nth in Hs. exact Hs.
Qed.
Lemma search_clf_visits limit stop N va lo st :
  search_clf v d pi P limit stop N va lo = Some st ->
  exists n, st = levels v d pi P N (map (level va) (seq lo n)) (state0 d N) /\ n <= length (power limit va lo) /\
    (forall i, i < n -> lo + i <= length va) /\
    (n < length (power limit va lo) -> stop = true /\ 0 < n /\
       (s_R st = [] \/ v_half v (last_size (level va (lo + n - 1))) d = true)).
Proof.
  intro H. unfold search_clf in H. cbn zeta in H. apply (visits _ _ va lo) in H.
  - destruct H as [n H]. exists n. now rewrite seq_length in H.
  - intros i s0 sets Hi Hs. rewrite nth_error_seq in Hi. destruct (_ <? _); [|discriminate].
    injection Hi as <-. apply power_nth in Hs. exact Hs.
Qed.

(** ** Found rows (C18) *)

Definition found_spec (va : list group) (lo : nat) (f : list nat -> Q) (r : row) : Prop :=
  exists T, minimal_sufficient d va lo pi f T (r_sdp r) /\
            reported r = map Z.of_nat (concat T) /\ r_len r = length (concat T).

Lemma levels_found N va lo n st k : groups_ok d va -> (0 < pi)%Q -> (pi <= 1)%Q -> k < N ->
  st = levels v d pi P N (map (level va) (seq lo n)) (state0 d N) ->
  sized d (s_rows st k) /\
  ((pi <= r_sdp (s_rows st k))%Q -> found_spec va lo (P k) (s_rows st k)) /\
  ((r_sdp (s_rows st k) < pi)%Q -> forall T, In T (subs va) -> lo <= length T < lo + n -> (P k (concat T) < pi)%Q).
Proof.
  intros Hok Hp0 Hp1 Hk ->. rewrite levels_rows by (trivial; now apply state0_ok).
  change (s_rows (state0 d N) k) with (row0 d).
  assert (Hin : forall sets, In sets (map (level va) (seq lo n)) -> exists s, lo <= s < lo + n /\ sets = level va s).
  { intros sets H. apply in_map_iff in H. destruct H as [s [<- H]]. apply in_seq in H. exists s. split; [lia|trivial]. }
  destruct (run_result v d pi P k (map (level va) (seq lo n)) Hp0 Hp1) as [R0 [R1 R2]].
  { intros sets H. apply Hin in H. destruct H as [s [_ ->]]. now apply (level_full_alone d va). }
  { intros sets S H HS. apply Hin in H. destruct H as [s [_ ->]]. now apply (level_le d va s). }
  fold (row_run v d pi P k (map (level va) (seq lo n))).
  set (r := row_run v d pi P k (map (level va) (seq lo n))) in *.
  split; [trivial|]. split.
  - intro H. destruct (R2 H) as [i [sets [S [E1 [E2 [E3 [E4 E5]]]]]]].
    rewrite nth_error_map, nth_error_seq in E1. destruct (i <? n) eqn:Hi; [|discriminate].
    apply Nat.ltb_lt in Hi. cbn in E1. injection E1 as <-.
    apply in_level in E2. destruct E2 as [T [HT [Hl <-]]]. destruct E3 as [E31 [E32 E33]].
    exists T. split; [|now split]. unfold minimal_sufficient.
    split; [trivial|]. split; [lia|]. split; [trivial|]. split; [|split].
    + destruct E33 as [->|[Hd ->]]; [left; reflexivity|right; split; [trivial|reflexivity]].
    + intros T' HT' Hl'. apply (E5 (length T' - lo) (level va (length T'))).
      * lia.
      * rewrite nth_error_map, nth_error_seq. destruct (Nat.ltb_spec (length T' - lo) n); [|lia].
        cbn. do 2 f_equal. lia.
      * apply in_level. now exists T'.
    + intros T' HT' Hl' Hne. apply E4.
      * apply in_level. exists T'. split; [trivial|]. split; [lia|reflexivity].
      * intro E. apply Hne. eapply concat_inj; eauto.
  - intros H T HT Hl. apply (R1 H (level va (length T))).
    + apply in_map, in_seq. lia.
    + apply in_level. now exists T.
Qed.

Lemma search_found limit stop N va lo st k : groups_ok d va -> (0 < pi)%Q -> (pi <= 1)%Q -> k < N ->
  search v d pi P limit stop N va lo = Some st -> (pi <= r_sdp (s_rows st k))%Q ->
  found_spec va lo (P k) (s_rows st k).
Proof.
  intros Hok H0 H1 Hk H. apply search_visits in H. destruct H as [n [H _]].
  now apply (levels_found N va lo n).
Qed.
Lemma search_clf_found limit stop N va lo st k : groups_ok d va -> (0 < pi)%Q -> (pi <= 1)%Q -> k < N ->
  search_clf v d pi P limit stop N va lo = Some st -> (pi <= r_sdp (s_rows st k))%Q ->
  found_spec va lo (P k) (s_rows st k).
Proof.
  intros Hok H0 H1 Hk H. apply search_clf_visits in H. destruct H as [n [H _]].
  now apply (levels_found N va lo n).
Qed.

(** a row that is not found stays in [R] *)
Lemma unfound_in_R N st k : ok_state pi N st -> k < N -> (r_sdp (s_rows st k) < pi)%Q -> s_R st <> [].
Proof.
  intros Hok Hk H E. rewrite Hok in E. assert (Hi : In k (undone pi N (s_rows st))).
  { apply filter_In. split; [apply in_seq; lia|]. destruct (qleb_spec pi (r_sdp (s_rows st k))); [lra|reflexivity]. }
  rewrite E in Hi. destruct Hi.
Qed.

Lemma not_found_gen stop N va lo n total st k : groups_ok d va -> (0 < pi)%Q -> (pi <= 1)%Q -> k < N ->
  st = levels v d pi P N (map (level va) (seq lo n)) (state0 d N) ->
  n <= total -> total = S (length va) - lo ->
  (n < total -> stop = true /\ 0 < n /\ (s_R st = [] \/ v_half v (last_size (level va (lo + n - 1))) d = true)) ->
  (r_sdp (s_rows st k) < pi)%Q ->
  forall T, In T (subs va) -> lo <= length T ->
  (stop = true -> forall s, lo <= s < length T -> v_half v (length (concat (skipn (length va - s) va))) d = false) ->
  (P k (concat T) < pi)%Q.
Proof.
  intros Hok H0 H1 Hk Hst Hn Htot Hstop Hu T HT Hlo Hhalf.
  destruct (levels_found N va lo n st k Hok H0 H1 Hk Hst) as [_ [_ HU]].
  apply HU; [trivial|trivial|]. split; [trivial|].
  pose proof (subs_length _ _ HT) as HlT.
  destruct (le_lt_dec (lo + n) (length T)) as [Hle|]; [|trivial]. exfalso.
  destruct (Hstop ltac:(lia)) as [E1 [E2 E3]]. destruct E3 as [E3|E3].
  - apply (unfound_in_R N st k); trivial. subst st. apply levels_ok. now apply state0_ok.
  - rewrite last_size_level in E3 by lia. rewrite Hhalf in E3 by (trivial; lia). discriminate.
Qed.

Lemma search_not_found limit stop N va lo st k : groups_ok d va -> (0 < pi)%Q -> (pi <= 1)%Q -> k < N ->
  search v d pi P limit stop N va lo = Some st -> (r_sdp (s_rows st k) < pi)%Q ->
  forall T, In T (subs va) -> lo <= length T ->
  (stop = true -> forall s, lo <= s < length T -> v_half v (length (concat (skipn (length va - s) va))) d = false) ->
  (P k (concat T) < pi)%Q.
Proof.
  intros Hok H0 H1 Hk H Hu. apply search_visits in H. destruct H as [n [H [Hn [_ Hs]]]].
  now apply (not_found_gen stop N va lo n (S (length va) - lo) st k).
Qed.
Lemma search_clf_not_found stop N va lo st k : groups_ok d va -> (0 < pi)%Q -> (pi <= 1)%Q -> k < N ->
  length va <= 15 ->
  search_clf v d pi P cut15 stop N va lo = Some st -> (r_sdp (s_rows st k) < pi)%Q ->
  forall T, In T (subs va) -> lo <= length T ->
  (stop = true -> forall s, lo <= s < length T -> v_half v (length (concat (skipn (length va - s) va))) d = false) ->
  (P k (concat T) < pi)%Q.
Proof.
  intros Hok H0 H1 Hk Hm H Hu T HT Hlo. apply search_clf_visits in H. destruct H as [n [H [Hn [_ Hs]]]].
  pose proof (subs_length _ _ HT) as HlT.
  assert (E : length (power cut15 va lo) = S (length va) - lo).
  { rewrite power_complete by lia. now rewrite map_length, seq_length. }
  rewrite E in *. now apply (not_found_gen stop N va lo n (S (length va) - lo) st k).
Qed.

(** ** No read out of bounds (C22) *)

Lemma search_loop_some stop N pw idx st :
  (forall s, In s idx -> nth_error pw s <> None) -> search_loop v d pi P stop N pw idx st <> None.
Proof.
  revert st. induction idx as [|s idx IH]; intros st H; cbn [search_loop]; [discriminate|].
  destruct (nth_error pw s) as [sets|] eqn:E; [|exfalso; apply (H s); [now left|trivial]].
  destruct (_ && _); [discriminate|]. apply IH. intros x Hx. apply H. now right.
Qed.
Lemma search_some stop N va lo : length va <= 15 -> search v d pi P cut15 stop N va lo <> None.
Proof.
  intro H. apply search_loop_some. intros s Hs. apply in_seq in Hs. apply nth_error_Some.
  rewrite power_complete by lia. rewrite map_length, seq_length. lia.
Qed.
Lemma search_clf_some limit stop N va lo : search_clf v d pi P limit stop N va lo <> None.
Proof.
  apply search_loop_some. intros s Hs. apply in_seq in Hs. apply nth_error_Some. lia.
Qed.
End T.

(** ** One row at a time (C19) *)

Section Lock.
Variable v : variant.
Variable d : nat.
Variable pi : Q.
Variable P : nat -> list nat -> Q.

Lemma row_sets_P P1 P2 k k' sets r : (forall S, P1 k S = P2 k' S) ->
  row_sets v d pi P1 k sets r = row_sets v d pi P2 k' sets r.
Proof.
  intro H. unfold row_sets. revert r. induction sets as [|S sets IH]; intro r; [reflexivity|].
  cbn. rewrite H. apply IH.
Qed.
Lemma row_level_P P1 P2 k k' sets r : (forall S, P1 k S = P2 k' S) ->
  row_level v d pi P1 k r sets = row_level v d pi P2 k' r sets.
Proof. intro H. unfold row_level. now rewrite (row_sets_P P1 P2 k k') by trivial. Qed.

Lemma R_empty_found N st k : ok_state pi N st -> k < N -> s_R st = [] -> (pi <= r_sdp (s_rows st k))%Q.
Proof.
  intros Hok Hk E. destruct (Qlt_le_dec (r_sdp (s_rows st k)) pi) as [H|H]; [|trivial].
  exfalso. now apply (unfound_in_R pi N st k).
Qed.
Lemma found_R_single st : ok_state pi 1 st -> (pi <= r_sdp (s_rows st 0))%Q -> s_R st = [].
Proof.
  intros Hok H. rewrite Hok. unfold undone. cbn. destruct (qleb_spec pi (r_sdp (s_rows st 0))); [reflexivity|contradiction].
Qed.

Lemma loop_found_stable stop N pw idx st st' k : ok_state pi N st -> k < N ->
  (pi <= r_sdp (s_rows st k))%Q ->
  search_loop v d pi P stop N pw idx st = Some st' -> s_rows st' k = s_rows st k.
Proof.
  intros Hok Hk Hf H. apply search_loop_levels in H. destruct H as [L [_ [_ [-> _]]]].
  rewrite levels_rows by trivial. apply found_stable.
  destruct (qleb_spec pi (r_sdp (s_rows st k))); [reflexivity|contradiction].
Qed.

Lemma lockstep stop N k pw idx st st1 st' : k < N -> ok_state pi N st -> ok_state pi 1 st1 ->
  s_rows st k = s_rows st1 0 ->
  search_loop v d pi P stop N pw idx st = Some st' ->
  exists st1', search_loop v d pi (fun _ => P k) stop 1 pw idx st1 = Some st1' /\ s_rows st1' 0 = s_rows st' k.
Proof.
  intro Hk. revert st st1. induction idx as [|s0 idx IH]; intros st st1 Hok Hok1 Hr H; cbn [search_loop] in *.
  - injection H as <-. exists st1. now split.
  - destruct (nth_error pw s0) as [sets|] eqn:E; [|discriminate].
    set (s2 := one_level v d pi P N sets st) in *. set (s3 := one_level v d pi (fun _ => P k) 1 sets st1).
    assert (Ho2 : ok_state pi N s2) by now apply one_level_ok.
    assert (Ho3 : ok_state pi 1 s3) by now apply one_level_ok.
    assert (Hr' : s_rows s2 k = s_rows s3 0).
    { unfold s2, s3. rewrite !one_level_rows by (trivial; lia). rewrite Hr. now apply row_level_P. }
    destruct stop; [rewrite andb_true_r in *|rewrite andb_false_r in *; now apply (IH s2)].
    destruct (v_half v (last_size sets) d); [rewrite !orb_true_r in *|rewrite !orb_false_r in *].
    + injection H as <-. exists s3. now split.
    + destruct (length (s_R s3) =? 0) eqn:E3.
      * exists s3. split; [reflexivity|]. apply Nat.eqb_eq, length_zero_iff_nil in E3.
        assert (Hf := R_empty_found 1 s3 0 Ho3 ltac:(lia) E3). rewrite <- Hr' in *.
        destruct (length (s_R s2) =? 0); [injection H as <-; reflexivity|].
        symmetry. eapply loop_found_stable; eauto.
      * destruct (length (s_R s2) =? 0) eqn:E2; [|now apply (IH s2)].
        exfalso. apply Nat.eqb_eq, length_zero_iff_nil in E2.
        assert (Hf := R_empty_found N s2 k Ho2 Hk E2). rewrite Hr' in Hf. apply found_R_single in Hf; [|trivial].
        rewrite Hf in E3. discriminate.
Qed.
Lemma search_one_row limit stop N va lo st k : (0 < pi)%Q -> k < N ->
  search v d pi P limit stop N va lo = Some st ->
  exists st1, search v d pi (fun _ => P k) limit stop 1 va lo = Some st1 /\ s_rows st1 0 = s_rows st k.
Proof.
  intros H0 Hk H. apply (lockstep stop N k _ _ (state0 d N) (state0 d 1)); try trivial; now apply state0_ok.
Qed.
Lemma search_clf_one_row limit stop N va lo st k : (0 < pi)%Q -> k < N ->
  search_clf v d pi P limit stop N va lo = Some st ->
  exists st1, search_clf v d pi (fun _ => P k) limit stop 1 va lo = Some st1 /\ s_rows st1 0 = s_rows st k.
Proof.
  intros H0 Hk H. apply (lockstep stop N k _ _ (state0 d N) (state0 d 1)); try trivial; now apply state0_ok.
Qed.
End Lock.

(** ** Global importance (C20) *)

Lemma count_row_spec r g z : count_row r g z = g z + count_occ Z.eq_dec (reported r) z.
Proof.
  unfold count_row, reported. revert g. induction (firstn (r_len r) (r_star r)) as [|a l IH]; intro g; cbn; [lia|].
  rewrite IH. destruct (Z.eq_dec a z) as [->|Hn].
  - rewrite Z.eqb_refl. lia.
  - destruct (Z.eqb_spec z a); [congruence|]. lia.
Qed.
Lemma count_rows_spec (rows : nat -> row) l g z :
  fold_left (fun g k => count_row (rows k) g) l g z
  = g z + list_sum (map (fun k => count_occ Z.eq_dec (reported (rows k)) z) l).
Proof.
  revert g. induction l as [|k l IH]; intro g; cbn [fold_left map list_sum fold_right]; [lia|].
  rewrite IH, count_row_spec. unfold list_sum. lia.
Qed.
Lemma list_sum_filter {A} (p : A -> bool) (f : A -> nat) l :
  list_sum (map f (filter p l)) = list_sum (map (fun k => if p k then f k else 0) l).
Proof. induction l as [|a l IH]; [reflexivity|]. cbn. destruct (p a); cbn; unfold list_sum in *; now rewrite IH. Qed.
Lemma list_sum_plus {A} (f g : A -> nat) l :
  list_sum (map f l) + list_sum (map g l) = list_sum (map (fun k => f k + g k) l).
Proof. induction l as [|a l IH]; [reflexivity|]. cbn. unfold list_sum in *. lia. Qed.
Lemma map_ext_in' {A B} (f g : A -> B) l : (forall x, In x l -> f x = g x) -> map f l = map g l.
Proof. apply map_ext_in. Qed.

Section Glob.
Variable v : variant.
Variable d : nat.
Variable pi : Q.
Variable P : nat -> list nat -> Q.

(** counts over the rows found so far *)
Definition glob_ok (N : nat) (st : sstate) : Prop := forall z,
  s_glob st z = list_sum (map (fun k => count_occ Z.eq_dec (reported (s_rows st k)) z)
                              (filter (fun k => qleb pi (r_sdp (s_rows st k))) (seq 0 N))).

Lemma one_level_glob N sets st : ok_state pi N st -> glob_ok N st -> glob_ok N (one_level v d pi P N sets st).
Proof.
  intros Hok Hg z. assert (Hr := one_level_rows v d pi P N sets st Hok).
  assert (HR := one_level_ok v d pi P N sets st Hok).
  set (st' := one_level v d pi P N sets st) in *.
  set (done := filter (fun k => qleb pi (r_sdp (fold_left (one_set v d pi P N (s_R st)) sets (s_rows st) k))) (s_R st)).
  assert (Hgl : s_glob st' z = s_glob st z + list_sum (map (fun k => count_occ Z.eq_dec (reported (s_rows st' k)) z) done)).
  { change (s_glob st') with (fold_left (fun g k => count_row (s_rows st' k) g) done (s_glob st)).
    apply count_rows_spec. }
  rewrite Hgl, Hg. clear Hgl.
  assert (Hd : done = filter (fun k => negb (qleb pi (r_sdp (s_rows st k))) && qleb pi (r_sdp (s_rows st' k))) (seq 0 N)).
  { subst done. pose proof Hok as Hok'. red in Hok'. rewrite Hok'.
    transitivity (filter (fun k => qleb pi (r_sdp (fold_left (one_set v d pi P N (undone pi N (s_rows st))) sets (s_rows st) k)))
                   (filter (fun k => negb (qleb pi (r_sdp (s_rows st k)))) (seq 0 N))); [reflexivity|].
    rewrite filter_filter. apply filter_ext_in'. intros k Hk.
    rewrite sets_spec. rewrite Hr by (apply in_seq in Hk; lia). unfold undone. rewrite memb_filter.
    apply memb_true in Hk. rewrite Hk. cbn [andb]. unfold row_level.
    destruct (qleb pi (r_sdp (s_rows st k))) eqn:E; cbn [negb]; [reflexivity|]. now rewrite tidy_sdp. }
  rewrite Hd, !list_sum_filter, list_sum_plus. f_equal. apply map_ext_in'. intros k Hk. apply in_seq in Hk.
  rewrite !Hr by lia. unfold row_level at 1 2 3.
  destruct (qleb pi (r_sdp (s_rows st k))) eqn:E; cbn [negb andb]; [rewrite !E; unfold row_level; rewrite ?E; lia|].
  unfold row_level. rewrite E. lia.
Qed.
Lemma levels_glob N L st : ok_state pi N st -> glob_ok N st -> glob_ok N (levels v d pi P N L st).
Proof.
  revert st. induction L as [|s L IH]; intros st H Hg; [trivial|].
  change (glob_ok N (levels v d pi P N L (one_level v d pi P N s st))).
  apply IH; [now apply one_level_ok|now apply one_level_glob].
Qed.
Lemma state0_glob N : (0 < pi)%Q -> glob_ok N (state0 d N).
Proof.
  intros H z. cbn [state0 s_glob s_rows]. rewrite (filter_ext_in' _ (fun _ => false)).
  - now induction (seq 0 N).
  - intros k _. cbn. destruct (qleb_spec pi 0); [lra|reflexivity].
Qed.
End Glob.

Lemma count_occ_01 (l : list Z) z : NoDup l -> count_occ Z.eq_dec l z = if existsb (Z.eqb z) l then 1 else 0.
Proof.
  intro Hn. destruct (existsb (Z.eqb z) l) eqn:E.
  - apply existsb_exists in E. destruct E as [y [Hy E]]. apply Z.eqb_eq in E. subst y.
    now apply NoDup_count_occ'.
  - apply count_occ_not_In. intro H. assert (X : existsb (Z.eqb z) l = true).
    { apply existsb_exists. exists z. split; [trivial|apply Z.eqb_refl]. } congruence.
Qed.
Lemma list_sum_ones {A} (p q : A -> bool) l :
  list_sum (map (fun k => if p k then 1 else 0) (filter q l)) = length (filter (fun k => q k && p k) l).
Proof.
  induction l as [|a l IH]; [reflexivity|]. cbn. destruct (q a); cbn; [|exact IH].
  destruct (p a); cbn; rewrite <- IH; reflexivity.
Qed.

Lemma glob_frequency d pi N va lo (f : nat -> list nat -> Q) st j : groups_ok d va -> 0 < N ->
  glob_ok pi N st ->
  (forall k, k < N -> (pi <= r_sdp (s_rows st k))%Q -> found_spec d pi va lo (f k) (s_rows st k)) ->
  (importance N st j == Qn (length (filter (fun k => explains pi (s_rows st k) j) (seq 0 N))) / Qn N)%Q /\
  (0 <= importance N st j <= 1)%Q.
Proof.
  intros Hok HN Hg Hf.
  assert (E : s_glob st (Z.of_nat j) = length (filter (fun k => explains pi (s_rows st k) j) (seq 0 N))).
  { rewrite Hg. unfold explains. rewrite <- list_sum_ones. f_equal. apply map_ext_in'. intros k Hk.
    apply filter_In in Hk. destruct Hk as [Hk Hp]. apply in_seq in Hk. apply qleb_true in Hp.
    apply count_occ_01. destruct (Hf k ltac:(lia) Hp) as [T [[HT _] [-> _]]].
    apply NoDup_map_in; [intros; lia|]. now destruct (subs_groups_ok d va T Hok HT). }
  unfold importance. rewrite E. split; [reflexivity|].
  assert (Hle : length (filter (fun k => explains pi (s_rows st k) j) (seq 0 N)) <= N).
  { rewrite <- (seq_length N 0) at 2. apply filter_length_le. }
  assert (HQ : (0 < Qn N)%Q) by (unfold Qn, Qlt; cbn; lia).
  split.
  - apply Qle_shift_div_l; [trivial|]. rewrite Qmult_0_l. unfold Qn, Qle; cbn; lia.
  - apply Qle_shift_div_r; [trivial|]. rewrite Qmult_1_l. unfold Qn, Qle; cbn; lia.
Qed.

Section Imp.
Variable v : variant.
Variable d : nat.
Variable pi : Q.
Variable P : nat -> list nat -> Q.
Lemma search_importance limit stop N va lo st j : groups_ok d va -> (0 < pi)%Q -> (pi <= 1)%Q -> 0 < N ->
  search v d pi P limit stop N va lo = Some st ->
  (importance N st j == Qn (length (filter (fun k => explains pi (s_rows st k) j) (seq 0 N))) / Qn N)%Q /\
  (0 <= importance N st j <= 1)%Q.
Proof.
  intros Hok H0 H1 HN H. apply (glob_frequency d pi N va lo P); trivial.
  - apply search_visits in H. destruct H as [n [-> _]]. apply levels_glob; [now apply state0_ok|now apply state0_glob].
  - intros k Hk Hf. eapply search_found; eauto.
Qed.
Lemma search_clf_importance limit stop N va lo st j : groups_ok d va -> (0 < pi)%Q -> (pi <= 1)%Q -> 0 < N ->
  search_clf v d pi P limit stop N va lo = Some st ->
  (importance N st j == Qn (length (filter (fun k => explains pi (s_rows st k) j) (seq 0 N))) / Qn N)%Q /\
  (0 <= importance N st j <= 1)%Q.
Proof.
  intros Hok H0 H1 HN H. apply (glob_frequency d pi N va lo P); trivial.
  - apply search_clf_visits in H. destruct H as [n [-> _]]. apply levels_glob; [now apply state0_ok|now apply state0_glob].
  - intros k Hk Hf. eapply search_clf_found; eauto.
Qed.

(** ** Index rows (C21) *)

(** the index row lists a set, then -1 *)
Definition neat (r : row) : Prop := exists S, r_star r = map Z.of_nat S ++ repeat (-1)%Z (d - length S) /\
  r_len r = length S /\ length S <= d.
Lemma neat_listed r : neat r -> listed r = reported r /\ r_len r = length (listed r) /\ length (r_star r) = d.
Proof.
  intros [S [H1 [H2 H3]]]. unfold listed, reported. rewrite H1, H2, filter_app.
  assert (E1 : filter (fun z => (0 <=? z)%Z) (map Z.of_nat S) = map Z.of_nat S).
  { apply filter_true. intros z Hz. apply in_map_iff in Hz. destruct Hz as [n [<- _]]. apply Z.leb_le. lia. }
  assert (E2 : filter (fun z => (0 <=? z)%Z) (repeat (-1)%Z (d - length S)) = []).
  { clear. induction (d - length S); cbn; [reflexivity|trivial]. }
  rewrite E1, E2, app_nil_r. rewrite <- (map_length Z.of_nat S) at 1. rewrite firstn_app, Nat.sub_diag, firstn_all.
  cbn. rewrite app_nil_r. repeat split; try now rewrite map_length.
  rewrite app_length, map_length, repeat_length. lia.
Qed.
Lemma row0_neat : neat (row0 d).
Proof. exists []. cbn. rewrite Nat.sub_0_r. repeat split. lia. Qed.
Lemma skipn_repeat {A} (x : A) n k : skipn k (repeat x n) = repeat x (n - k).
Proof. revert n. induction k as [|k IH]; intros [|n]; cbn; try reflexivity. apply IH. Qed.
Lemma neat_write S r : neat r -> r_len r <= length S -> length S <= d ->
  write_star S (r_star r) = map Z.of_nat S ++ repeat (-1)%Z (d - length S).
Proof.
  intros [S0 [H1 [H2 H3]]] Hl Hd. unfold write_star. f_equal. rewrite H1, skipn_app, map_length.
  rewrite skipn_all2 by (rewrite map_length; lia). cbn. rewrite skipn_repeat. f_equal. lia.
Qed.
Lemma neat_clear r : neat r -> clear_star (r_len r) d (r_star r) = r_star r.
Proof.
  intros [S [H1 [H2 H3]]]. unfold clear_star. rewrite H1, H2. f_equal.
  rewrite <- (map_length Z.of_nat S) at 1. rewrite firstn_app, Nat.sub_diag, firstn_all. cbn. apply app_nil_r.
Qed.
Lemma neat_update S p r : neat r -> r_len r <= length S -> length S <= d ->
  neat (update_row v d pi S p r) /\ r_len (update_row v d pi S p r) <= length S.
Proof.
  intros Hn Hl Hd. unfold update_row. cbn zeta.
  set (r1 := if qleb (r_sdp r) p && (negb (v_need v) || qleb pi p)
            then mkRow p (length S) (write_star S (r_star r)) else r).
  assert (H : neat r1 /\ r_len r1 <= length S).
  { subst r1. destruct (_ && _); [|now split]. split; [|cbn; lia]. exists S. cbn.
    split; [now apply neat_write|now split]. }
  clearbody r1. destruct (_ && _); [|trivial]. destruct H as [H H']. split; [|cbn; lia].
  exists S. cbn. split; [|now split]. rewrite (neat_write S r1) by trivial. unfold clear_star. f_equal.
  rewrite <- (map_length Z.of_nat S) at 1. rewrite firstn_app, Nat.sub_diag, firstn_all. cbn. apply app_nil_r.
Qed.
Lemma neat_sets k s sets r : (forall S, In S sets -> length S = s) -> s <= d -> neat r -> r_len r <= s ->
  neat (row_sets v d pi P k sets r) /\ r_len (row_sets v d pi P k sets r) <= s.
Proof.
  intros Hs Hd. revert r. induction sets as [|S sets IH]; intros r Hn Hl; [now split|]. cbn.
  assert (HS : length S = s) by (apply Hs; now left).
  destruct (neat_update S (P k S) r Hn) as [E1 E2]; try lia.
  apply IH; [intros; apply Hs; now right|trivial|lia].
Qed.
Lemma neat_tidy r : neat r -> neat (tidy_row v d pi r).
Proof.
  intro H. unfold tidy_row. destruct (_ && _); [|trivial]. rewrite neat_clear by trivial.
  destruct H as [S H]. exists S. exact H.
Qed.
Lemma level_single va s S : (forall g, In g va -> length g = 1) -> In S (level va s) -> length S = s.
Proof.
  intros H1 H. apply in_level in H. destruct H as [T [HT [<- <-]]]. apply subs_incl in HT.
  clear -HT H1. induction T as [|g T IH]; [reflexivity|]. cbn. rewrite app_length, IH.
  - rewrite H1 by (apply HT; now left). reflexivity.
  - intros x Hx. apply HT. now right.
Qed.
Lemma neat_run va lo n k : groups_ok d va -> (forall g, In g va -> length g = 1) ->
  (forall i, i < n -> lo + i <= length va) ->
  neat (row_run v d pi P k (map (level va) (seq lo n))) /\
  r_len (row_run v d pi P k (map (level va) (seq lo n))) <= lo + n - 1.
Proof.
  intros Hok H1. induction n as [|n IH]; intro Hn.
  - cbn. split; [apply row0_neat|lia].
  - destruct IH as [E1 E2]; [intros i Hi; apply Hn; lia|].
    rewrite seq_S, map_app. unfold row_run in *. rewrite fold_left_app. cbn [map fold_left].
    set (r := fold_left _ _ (row0 d)) in *. unfold row_level.
    destruct (qleb pi (r_sdp r)); [split; [trivial|lia]|].
    assert (Hd : lo + n <= d).
    { assert (Hl : lo + n <= length va) by (apply Hn; lia).
      pose proof (concat_length_le d va va Hok (subs_all va)) as Hc.
      assert (length (concat va) = length va); [|lia].
      apply (level_single va); [trivial|]. apply in_level. exists va. split; [apply subs_all|now split]. }
    destruct (neat_sets k (lo + n) (level va (lo + n)) r) as [E3 E4]; try trivial; try lia.
    { intros S HS. now apply (level_single va). }
    split; [now apply neat_tidy|]. rewrite tidy_len. lia.
Qed.
Lemma search_neat limit stop N va lo st k : groups_ok d va -> (forall g, In g va -> length g = 1) ->
  (0 < pi)%Q -> k < N -> search v d pi P limit stop N va lo = Some st -> neat (s_rows st k).
Proof.
  intros Hok H1 H0 Hk H. apply search_visits in H. destruct H as [n [-> [_ [Hn _]]]].
  rewrite levels_rows by (trivial; now apply state0_ok). now apply neat_run.
Qed.
Lemma search_clf_neat limit stop N va lo st k : groups_ok d va -> (forall g, In g va -> length g = 1) ->
  (0 < pi)%Q -> k < N -> search_clf v d pi P limit stop N va lo = Some st -> neat (s_rows st k).
Proof.
  intros Hok H1 H0 Hk H. apply search_clf_visits in H. destruct H as [n [-> [_ [Hn _]]]].
  rewrite levels_rows by (trivial; now apply state0_ok). now apply neat_run.
Qed.

(** clean variants *)
Lemma clean_run k L : v_clean v = true -> (0 < pi)%Q ->
  (pi <= r_sdp (row_run v d pi P k L))%Q ->
  exists star, r_star (row_run v d pi P k L) = clear_star (r_len (row_run v d pi P k L)) d star.
Proof.
  intros Hc H0. induction L as [|s L IH] using rev_ind.
  - cbn. lra.
  - unfold row_run in *. rewrite fold_left_app. cbn [fold_left]. set (r := fold_left _ L (row0 d)) in *.
    unfold row_level. destruct (qleb pi (r_sdp r)) eqn:E.
    + intros H. now apply IH.
    + intro H. rewrite tidy_sdp in H. unfold tidy_row.
      set (r' := row_sets v d pi P k s r) in *. rewrite Hc.
      destruct (qleb_spec pi (r_sdp r')); [|contradiction]. cbn. exists (r_star r'). reflexivity.
Qed.
Lemma levels_clean N va lo n st k : v_clean v = true -> groups_ok d va -> (0 < pi)%Q -> (pi <= 1)%Q -> k < N ->
  st = levels v d pi P N (map (level va) (seq lo n)) (state0 d N) ->
  (pi <= r_sdp (s_rows st k))%Q -> neat (s_rows st k).
Proof.
  intros Hc Hok H0 H1 Hk Hst Hf. destruct (levels_found v d pi P N va lo n st k Hok H0 H1 Hk Hst) as [Hs [HF _]].
  destruct (HF Hf) as [T [[HT _] [E1 E2]]].
  assert (Hcl : exists star, r_star (s_rows st k) = clear_star (r_len (s_rows st k)) d star).
  { subst st. rewrite levels_rows in * by (trivial; now apply state0_ok). now apply clean_run. }
  destruct Hcl as [star Hstar]. exists (concat T).
  assert (Hle : length (concat T) <= d) by now apply (concat_length_le d va).
  split; [|now split]. unfold reported in E1. rewrite Hstar in *. rewrite E2 in *. unfold clear_star in *.
  assert (Hlen : length (firstn (length (concat T)) star) = length (concat T)).
  { assert (Hl : length (map Z.of_nat (concat T)) = length (concat T)) by apply map_length. rewrite <- E1 in Hl.
    destruct Hs as [Hs _]. rewrite Hstar in Hs. rewrite app_length, repeat_length in Hs. lia. }
  f_equal. rewrite <- E1. rewrite firstn_app, Hlen, Nat.sub_diag, firstn_O, app_nil_r. rewrite firstn_firstn, Nat.min_id.
  reflexivity.
Qed.
Lemma search_clean limit stop N va lo st k : v_clean v = true -> groups_ok d va -> (0 < pi)%Q -> (pi <= 1)%Q -> k < N ->
  search v d pi P limit stop N va lo = Some st -> (pi <= r_sdp (s_rows st k))%Q -> neat (s_rows st k).
Proof.
  intros Hc Hok H0 H1 Hk H. apply search_visits in H. destruct H as [n [H _]]. now apply (levels_clean N va lo n).
Qed.
End Imp.

(** ** Enumeration (C22) *)

Lemma power_exact d va s : groups_ok d va -> length va <= 15 -> s <= length va ->
  exists sets, nth_error (power cut15 va 0) s = Some sets /\ NoDup sets /\
    forall S, In S sets <-> exists T, In T (subs va) /\ length T = s /\ concat T = S.
Proof.
  intros Hok Hm Hs. rewrite power_complete by lia. rewrite Nat.sub_0_r, nth_error_map, nth_error_seq.
  destruct (Nat.ltb_spec s (S (length va))); [|lia]. cbn [option_map]. exists (level va (0 + s)).
  split; [reflexivity|]. split; [now apply (level_NoDup d)|]. intro S. apply in_level.
Qed.

(** ** All sufficient explanations (C23) *)

Lemma listed_in_spec S l : listed_in S l = true <-> incl l (map Z.of_nat S).
Proof.
  unfold listed_in. rewrite Nat.eqb_eq. split.
  - intros H z Hz. assert (E : filter (fun z => existsb (fun s => (Z.of_nat s =? z)%Z) S) l = l).
    { revert H. clear Hz. induction l as [|a l IH]; [reflexivity|]. cbn.
      destruct (existsb _ S) eqn:E; cbn; intro H.
      - f_equal. apply IH. lia.
      - pose proof (filter_length_le (fun z => existsb (fun s => (Z.of_nat s =? z)%Z) S) l). lia. }
    rewrite <- E in Hz. apply filter_In in Hz. destruct Hz as [_ Hz]. apply existsb_exists in Hz.
    destruct Hz as [s [Hs Hz]]. apply Z.eqb_eq in Hz. subst z. now apply in_map.
  - intro H. rewrite filter_true; [reflexivity|]. intros z Hz. apply H in Hz. apply in_map_iff in Hz.
    destruct Hz as [s [<- Hs]]. apply existsb_exists. exists s. split; [trivial|apply Z.eqb_refl].
Qed.
Lemma incl_map_of_nat (S S' : list nat) : incl (map Z.of_nat S) (map Z.of_nat S') <-> incl S S'.
Proof.
  split; intros H x Hx.
  - assert (Hz : In (Z.of_nat x) (map Z.of_nat S')) by (apply H; now apply in_map).
    apply in_map_iff in Hz. destruct Hz as [y [E Hy]]. assert (y = x) by lia. now subst.
  - apply in_map_iff in Hx. destruct Hx as [y [<- Hy]]. apply in_map. now apply H.
Qed.

Section Suff.
Variable pi : Q.
Variable P : list nat -> Q.

Definition suff_inv (D : list (list nat)) (f : suff) : Prop := exists Ss,
  f_sets f = [(-1)%Z] :: map (map Z.of_nat) Ss /\ f_sdp f = (-1)%Q :: map P Ss /\
  incl Ss D /\ (forall S, In S Ss -> (pi <= P S)%Q) /\
  (forall i j S S', nth_error Ss i = Some S -> nth_error Ss j = Some S' -> incl S S' -> i = j) /\
  (forall S, In S D -> (pi <= P S)%Q -> exists S', In S' Ss /\ incl S' S).

Lemma suff_inv_step D S f : suff_inv D f -> (forall S', In S' D -> incl S S' -> incl S' S) ->
  suff_inv (D ++ [S]) (suff_step pi (P S) S f).
Proof.
  intros [Ss [H1 [H2 [H3 [H4 [H5 H6]]]]]] Hord. unfold suff_step.
  assert (Hex : existsb (listed_in S) (f_sets f) = true <-> exists S', In S' Ss /\ incl S' S).
  { rewrite existsb_exists, H1. split.
    - intros [l [[<-|Hl] E]].
      + apply listed_in_spec in E. specialize (E (-1)%Z (or_introl eq_refl)). apply in_map_iff in E.
        destruct E as [s [E _]]. lia.
      + apply in_map_iff in Hl. destruct Hl as [S' [<- HS']]. apply listed_in_spec in E.
        exists S'. split; [trivial|]. now apply incl_map_of_nat.
    - intros [S' [HS' Hi]]. exists (map Z.of_nat S'). split; [right; now apply in_map|].
      apply listed_in_spec. now apply incl_map_of_nat. }
  destruct (qleb_spec pi (P S)) as [Hp|Hp]; [destruct (existsb (listed_in S) (f_sets f)) eqn:E|]; cbn [negb andb].
  - exists Ss. repeat (split; [trivial; try (intros x Hx; apply in_or_app; left; now apply H3)|]).
    intros S' HS' Hp'. apply in_app_or in HS'. destruct HS' as [HS'|[<-|[]]]; [now apply H6|]. now apply Hex.
  - exists (Ss ++ [S]). cbn [f_sets f_sdp]. rewrite H1, H2, !map_app. split; [reflexivity|]. split; [reflexivity|].
    assert (Hno : forall S', In S' Ss -> ~ incl S' S).
    { intros S' HS' Hi. assert (X : false = true) by (apply Hex; now exists S'). discriminate. }
    assert (Hno' : forall S', In S' Ss -> ~ incl S S').
    { intros S' HS' Hi. apply (Hno S' HS'). apply Hord; [now apply H3|trivial]. }
    split; [apply incl_app_app; [trivial|apply incl_refl]|]. split; [|split].
    + intros S' HS'. apply in_app_or in HS'. destruct HS' as [HS'|[<-|[]]]; [now apply H4|trivial].
    + intros i j A B Hi Hj Hin.
      destruct (Nat.lt_ge_cases i (length Ss)) as [Li|Li], (Nat.lt_ge_cases j (length Ss)) as [Lj|Lj].
      * rewrite nth_error_app1 in Hi, Hj by trivial. eapply H5; eauto.
      * rewrite nth_error_app1 in Hi by trivial. rewrite nth_error_app2 in Hj by trivial.
        apply nth_error_In in Hi. apply nth_error_In in Hj. destruct Hj as [<-|[]]. now apply Hno in Hi.
      * rewrite nth_error_app2 in Hi by trivial. rewrite nth_error_app1 in Hj by trivial.
        apply nth_error_In in Hi. apply nth_error_In in Hj. destruct Hi as [<-|[]]. now apply Hno' in Hj.
      * assert (X : nth_error (Ss ++ [S]) i <> None) by congruence. apply nth_error_Some in X.
        assert (Y : nth_error (Ss ++ [S]) j <> None) by congruence. apply nth_error_Some in Y.
        rewrite app_length in X, Y. cbn in X, Y. lia.
    + intros S' HS' Hp'. apply in_app_or in HS'. destruct HS' as [HS'|[<-|[]]].
      * destruct (H6 S' HS' Hp') as [S2 [E1 E2]]. exists S2. split; [apply in_or_app; now left|trivial].
      * exists S. split; [apply in_or_app; right; now left|apply incl_refl].
  - exists Ss. repeat (split; [trivial; try (intros x Hx; apply in_or_app; left; now apply H3)|]).
    intros S' HS' Hp'. apply in_app_or in HS'. destruct HS' as [HS'|[<-|[]]]; [now apply H6|contradiction].
Qed.
Lemma suff_inv_sets D sets f : suff_inv D f ->
  (forall S S', In S sets -> In S' (D ++ sets) -> incl S S' -> incl S' S) ->
  suff_inv (D ++ sets) (fold_left (fun f S => suff_step pi (P S) S f) sets f).
Proof.
  revert D f. induction sets as [|S sets IH]; intros D f Hi Ho; cbn [fold_left].
  - now rewrite app_nil_r.
  - replace (D ++ S :: sets) with ((D ++ [S]) ++ sets) by now rewrite <- app_assoc.
    apply IH.
    + apply suff_inv_step; [trivial|]. intros S' HS'. apply Ho; [now left|apply in_or_app; now left].
    + intros A B HA HB. apply Ho; [now right|]. rewrite <- app_assoc in HB. exact HB.
Qed.

Lemma suff_loop_inv d va n lo f f' D : groups_ok d va -> length va <= 15 -> lo + n <= S (length va) ->
  suff_inv D f -> (forall S, In S D -> exists s, s < lo /\ In S (level va s)) ->
  suff_loop pi P (power cut15 va 0) (seq lo n) f = Some f' ->
  exists D', suff_inv D' f' /\
    (forall S, In S D' <-> In S D \/ exists s, lo <= s < lo + n /\ In S (level va s)).
Proof.
  intros Hok Hm. revert lo f D. induction n as [|n IH]; intros lo f D Hn Hi HD H; cbn [seq suff_loop] in H.
  - injection H as <-. exists D. split; [trivial|]. intro S. split; [now left|]. intros [HS|[s [Hs _]]]; [trivial|lia].
  - destruct (nth_error (power cut15 va 0) lo) as [sets|] eqn:E; [|discriminate].
    apply power_nth in E. destruct E as [_ ->]. cbn [Nat.add] in *.
    apply (IH (S lo) _ (D ++ level va lo)) in H.
    + destruct H as [D' [H1 H2]]. exists D'. split; [trivial|]. intro S0. rewrite H2, in_app_iff. split.
      * intros [[HS|HS]|[s [Hs HS]]]; [now left|right; exists lo; split; [lia|trivial]|right; exists s; split; [lia|trivial]].
      * intros [HS|[s [Hs HS]]]; [now do 2 left|]. destruct (Nat.eq_dec s lo) as [->|]; [left; now right|].
        right. exists s. split; [lia|trivial].
    + lia.
    + apply suff_inv_sets; [trivial|]. intros S0 S' HS HS' Hin.
      assert (HS'' : exists s', s' <= lo /\ In S' (level va s')).
      { apply in_app_or in HS'. destruct HS' as [HS'|HS']; [|exists lo; split; [lia|trivial]].
        destruct (HD S' HS') as [s [Hs Hs']]. exists s. split; [lia|trivial]. }
      destruct HS'' as [s' [Hs' HS'']]. apply in_level in HS. destruct HS as [T [HT [Hl <-]]].
      apply in_level in HS''. destruct HS'' as [T' [HT' [Hl' <-]]].
      assert (HTT : In T (subs T')) by (eapply subs_concat_sub; eauto).
      pose proof (subs_length _ _ HTT). assert (T = T') by (apply subs_same_length; [trivial|lia]).
      subst T'. apply incl_refl.
    + intros S0 HS. apply in_app_or in HS. destruct HS as [HS|HS]; [|exists lo; split; [lia|trivial]].
      destruct (HD S0 HS) as [s [Hs Hs']]. exists s. split; [lia|trivial].
Qed.
Lemma suff_loop_some pw idx f : (forall s, In s idx -> nth_error pw s <> None) -> suff_loop pi P pw idx f <> None.
Proof.
  revert f. induction idx as [|s idx IH]; intros f H; cbn [suff_loop]; [discriminate|].
  destruct (nth_error pw s) eqn:E; [|exfalso; apply (H s); [now left|trivial]].
  apply IH. intros x Hx. apply H. now right.
Qed.

Lemma sufficient_expl_family d va lo : groups_ok d va -> length va <= 15 ->
  exists f, sufficient_expl pi P va lo = Some f /\
    minimal_family va lo pi P (f_sets (strip_suff f)) /\
    length (f_sdp (strip_suff f)) = length (f_sets (strip_suff f)) /\
    (forall i S, nth_error (f_sets (strip_suff f)) i = Some (map Z.of_nat S) ->
       nth_error (f_sdp (strip_suff f)) i = Some (P S)).
Proof.
  intros Hok Hm. destruct (sufficient_expl pi P va lo) as [f|] eqn:E.
  2:{ exfalso. revert E. apply suff_loop_some. intros s Hs. apply in_seq in Hs. apply nth_error_Some.
      rewrite power_complete by lia. rewrite map_length, seq_length. lia. }
  exists f. split; [reflexivity|].
  assert (HI : exists D, suff_inv D f /\ forall S, In S D <-> exists s, lo <= s <= length va /\ In S (level va s)).
  { unfold sufficient_expl in E. destruct (le_lt_dec lo (length va)) as [Hlo|Hlo].
    - apply (suff_loop_inv d va _ lo _ _ []) in E; try trivial; try lia; [|..|easy].
      + destruct E as [D [H1 H2]]. exists D. split; [trivial|]. intro S. rewrite H2. split.
        * intros [[]|[s [Hs HS]]]. exists s. split; [lia|trivial].
        * intros [s [Hs HS]]. right. exists s. split; [lia|trivial].
      + exists []. cbn. repeat split; try easy. intros i j S S' Hi. destruct i; discriminate.
    - replace (S (length va) - lo) with 0 in E by lia. cbn in E. injection E as <-. exists []. split.
      + exists []. cbn. repeat split; try easy. intros i j S S' Hi. destruct i; discriminate.
      + intro S. split; [easy|]. intros [s [Hs _]]. lia. }
  destruct HI as [D [[Ss [H1 [H2 [H3 [H4 [H5 H6]]]]]] HD]].
  unfold strip_suff. cbn [f_sets f_sdp]. rewrite H1, H2. cbn [tl]. split; [|split].
  - split; [|split].
    + intros l Hl. apply in_map_iff in Hl. destruct Hl as [S [<- HS]].
      assert (HSD := H3 S HS). apply HD in HSD. destruct HSD as [s [Hs HSD]]. apply in_level in HSD.
      destruct HSD as [T [HT [Hlen <-]]]. exists T. split; [trivial|]. split; [lia|]. split; [now apply H4|reflexivity].
    + intros i j l l' Hi Hj Hin. rewrite nth_error_map in Hi, Hj.
      destruct (nth_error Ss i) as [A|] eqn:EA; [|discriminate]. destruct (nth_error Ss j) as [B|] eqn:EB; [|discriminate].
      cbn in Hi, Hj. injection Hi as <-. injection Hj as <-. apply (H5 i j A B); trivial. now apply incl_map_of_nat.
    + intros T HT Hlo Hp. destruct (H6 (concat T)) as [S' [HS' Hin]]; [|trivial|].
      * apply HD. exists (length T). split; [split; [trivial|now apply subs_length]|]. apply in_level. now exists T.
      * exists (map Z.of_nat S'). split; [now apply in_map|]. now apply incl_map_of_nat.
  - now rewrite !map_length.
  - intros i T Hi. rewrite nth_error_map in *. destruct (nth_error Ss i) as [S|] eqn:ES; [|discriminate].
    cbn in *. injection Hi as Hi. f_equal. f_equal.
    clear -Hi. revert T Hi. induction S as [|a S IH]; intros [|b l] H; cbn in H; try discriminate; [reflexivity|].
    injection H as H H'. f_equal; [lia|now apply IH].
Qed.
End Suff.

(** ** Active and null variables (C24) *)

Lemma active_null_perm d star len :
  NoDup (firstn len star) -> (forall z, In z (firstn len star) -> (0 <= z < Z.of_nat d)%Z) ->
  Permutation (fst (active_null d star len) ++ snd (active_null d star len)) (map Z.of_nat (seq 0 d)).
Proof.
  intros Hn Hb. cbn. set (act := firstn len star) in *.
  apply NoDup_Permutation.
  - apply NoDup_app_intro; [trivial|apply NoDup_filter', NoDup_map_in; [intros; lia|apply seq_NoDup]|].
    intros z Hz Hf. apply filter_In in Hf. destruct Hf as [_ Hf]. apply negb_true_iff in Hf.
    assert (X : existsb (Z.eqb z) act = true) by (apply existsb_exists; exists z; split; [trivial|apply Z.eqb_refl]).
    congruence.
  - apply NoDup_map_in; [intros; lia|apply seq_NoDup].
  - intro z. rewrite in_app_iff, filter_In. split.
    + intros [Hz|[Hz _]]; [|trivial]. apply Hb in Hz. apply in_map_iff. exists (Z.to_nat z). split; [lia|]. apply in_seq. lia.
    + intro Hz. destruct (existsb (Z.eqb z) act) eqn:E; [left|right; now split].
      apply existsb_exists in E. destruct E as [y [Hy E]]. apply Z.eqb_eq in E. now subst y.
Qed.
Lemma null_coalition_neat d S : NoDup S -> (forall x, In x S -> x < d) ->
  let star := map Z.of_nat S ++ repeat (-1)%Z (d - length S) in
  exists nul, null_coalition d star (length S) = Some (repeat (-1)%Z (length S) ++ nul) /\
    Permutation (map Z.of_nat S ++ nul) (map Z.of_nat (seq 0 d)).
Proof.
  intros Hn Hb star. unfold null_coalition. cbn zeta.
  assert (Hf : firstn (length S) star = map Z.of_nat S).
  { subst star. rewrite <- (map_length Z.of_nat S) at 1. rewrite firstn_app, Nat.sub_diag, firstn_all. cbn. apply app_nil_r. }
  assert (E : filter (fun z => negb (existsb (Z.eqb z) star)) (map Z.of_nat (seq 0 d))
              = filter (fun z => negb (existsb (Z.eqb z) (map Z.of_nat S))) (map Z.of_nat (seq 0 d))).
  { apply filter_ext_in'. intros z Hz. apply in_map_iff in Hz. destruct Hz as [x [<- _]]. f_equal.
    subst star. rewrite existsb_app.
    destruct (existsb (Z.eqb (Z.of_nat x)) (repeat (-1)%Z (d - length S))) eqn:H; [|apply orb_false_r].
    apply existsb_exists in H. destruct H as [y [Hy E]]. apply repeat_spec in Hy. apply Z.eqb_eq in E. lia. }
  rewrite E. set (nul := filter _ (map Z.of_nat (seq 0 d))).
  assert (HP : Permutation (map Z.of_nat S ++ nul) (map Z.of_nat (seq 0 d))).
  { pose proof (active_null_perm d star (length S)) as H. cbn in H. rewrite Hf in H. apply H.
    - apply NoDup_map_in; [intros; lia|trivial].
    - intros z Hz. apply in_map_iff in Hz. destruct Hz as [x [<- Hx]]. apply Hb in Hx. lia. }
  assert (Hl : length nul = d - length S).
  { apply Permutation_length in HP. rewrite app_length, !map_length, seq_length in HP. lia. }
  rewrite Hl, Nat.eqb_refl. now exists nul.
Qed.

(** ** Complements (C50) *)

Lemma py_remove_in x l : In x l -> NoDup l -> py_remove x l = Some (filter (fun y => negb (y =? x)) l).
Proof.
  intros Hx Hn. induction Hn as [|a l Ha Hn IH]; [easy|]. cbn. destruct (Nat.eqb_spec a x) as [->|E].
  - cbn. f_equal. symmetry. apply filter_true. intros y Hy. destruct (Nat.eqb_spec y x) as [->|]; [contradiction|reflexivity].
  - cbn. destruct Hx as [->|Hx]; [congruence|]. now rewrite IH.
Qed.
Lemma bar_loop_spec S l : NoDup S -> NoDup l -> incl S l ->
  bar_loop S l = Some (filter (fun y => negb (memb y S)) l).
Proof.
  intro Hn. revert l. induction Hn as [|a S Ha Hn IH]; intros l Hl Hi; cbn [bar_loop].
  - f_equal. symmetry. now apply filter_true.
  - rewrite py_remove_in by (trivial; apply Hi; now left). rewrite IH.
    + f_equal. rewrite filter_filter. apply filter_ext_in'. intros x _. cbn. now destruct (x =? a).
    + now apply NoDup_filter'.
    + intros x Hx. apply filter_In. split; [apply Hi; now right|].
      destruct (Nat.eqb_spec x a) as [->|]; [contradiction|reflexivity].
Qed.
Lemma s_bar_spec d S : NoDup S -> (forall x, In x S -> x < d) -> s_bar d S = Some (complement d S).
Proof.
  intros Hn Hb. unfold s_bar. rewrite bar_loop_spec; [|trivial|apply seq_NoDup|].
  - f_equal. apply filter_ext_in'. intros x _.
    destruct (in_dec Nat.eq_dec x S) as [H|H]; destruct (memb_spec x S); try reflexivity; contradiction.
  - intros x Hx. apply in_seq. apply Hb in Hx. lia.
Qed.
Lemma on_complement_spec d va T Pd k : groups_ok d va -> In T (subs va) ->
  on_complement d Pd k (concat T) = Pd k (complement d (concat T)).
Proof.
  intros Hok HT. destruct (subs_groups_ok d va T Hok HT) as [Hn [Hb _]].
  unfold on_complement. now rewrite s_bar_spec by trivial.
Qed.
Lemma search_complement d pi Pd limit stop N va lo st k : groups_ok d va -> (0 < pi)%Q -> (pi <= 1)%Q -> k < N ->
  search v_rf d pi (on_complement d Pd) limit stop N va lo = Some st -> (pi <= r_sdp (s_rows st k))%Q ->
  exists T, minimal_sufficient d va lo pi (fun S => Pd k (complement d S)) T (r_sdp (s_rows st k)) /\
     reported (s_rows st k) = map Z.of_nat (concat T) /\ r_len (s_rows st k) = length (concat T).
Proof.
  intros Hok H0 H1 Hk H Hf. destruct (search_found _ _ _ _ _ _ _ _ _ _ _ Hok H0 H1 Hk H Hf) as [T [HT HR]].
  exists T. split; [|trivial]. destruct HT as [E1 [E2 [E3 [E4 [E5 E6]]]]].
  split; [trivial|]. split; [trivial|]. split; [trivial|]. split; [|split].
  - now rewrite <- (on_complement_spec d va T Pd k).
  - intros T' HT' Hl. rewrite <- (on_complement_spec d va T' Pd k) by trivial. now apply E5.
  - intros T' HT' Hl Hne. rewrite <- (on_complement_spec d va T' Pd k) by trivial. now apply E6.
Qed.

(** groups built from a search space and from the columns *)
Lemma search_groups_ok d C space : NoDup space -> (forall x, In x space -> x < d) ->
  NoDup (concat C) -> (forall x, In x (concat C) -> x < d) -> (has_coal C = true -> ~ In [] C) ->
  groups_ok d (search_groups C space).
Proof.
  intros Hs Hd HC HCd He.
  assert (Hsing : forall l, concat (map (fun i : nat => [i]) l) = l).
  { induction l as [|a l IH]; [reflexivity|]. cbn. now rewrite IH. }
  assert (Hnil : forall l, ~ In [] (map (fun i : nat => [i]) l)).
  { intros l H. apply in_map_iff in H. destruct H as [x [H _]]. discriminate. }
  unfold search_groups. destruct (has_coal C) eqn:Hcoal.
  2:{ split; [|split]; rewrite ?Hsing; trivial; apply Hnil. }
  set (F := filter (existsb (fun c => memb c space)) C).
  assert (HFC : incl (concat F) (concat C)).
  { intros x Hx. apply in_concat in Hx. destruct Hx as [g [Hg Hx]]. apply filter_In in Hg. apply in_concat. exists g. tauto. }
  assert (HF : NoDup (concat F)).
  { subst F. clear -HC. induction C as [|g C IH]; [constructor|]. cbn in *.
    assert (Hg : NoDup g /\ NoDup (concat C) /\ forall x, In x g -> ~ In x (concat C)).
    { clear IH. induction g as [|a g IHg]; cbn in HC; [split; [constructor|split; [trivial|easy]]|].
      inversion HC as [|? ? Ha Hn]; subst. destruct (IHg Hn) as [A [B D]]. split; [constructor; [|trivial]|split; [trivial|]].
      - intro H. apply Ha, in_or_app. now left.
      - intros x [<-|Hx]; [intro H; apply Ha, in_or_app; now right|now apply D]. }
    destruct Hg as [A [B D]]. destruct (existsb _ g); [|now apply IH]. cbn. apply NoDup_app_intro; [trivial|now apply IH|].
    intros x Hx Hc. apply (D x Hx). apply in_concat in Hc. destruct Hc as [h [Hh Hx']]. apply filter_In in Hh.
    apply in_concat. exists h. tauto. }
  split; [|split].
  - rewrite concat_app, Hsing. apply NoDup_app_intro; [now apply NoDup_filter'|trivial|].
    intros x Hx Hc. apply filter_In in Hx. destruct Hx as [_ Hx]. apply negb_true_iff in Hx.
    apply HFC, memb_true in Hc. congruence.
  - intros x Hx. rewrite concat_app, Hsing in Hx. apply in_app_or in Hx. destruct Hx as [Hx|Hx].
    + apply filter_In in Hx. now apply Hd.
    + now apply HCd, HFC.
  - intro H. apply in_app_or in H. destruct H as [H|H]; [now apply Hnil in H|].
    apply filter_In in H. now apply He.
Qed.

Lemma tree_groups_ok C m : NoDup (concat C) -> (forall x, In x (concat C) -> x < m) ->
  (has_coal C = true -> ~ In [] C) -> groups_ok m (tree_groups C m).
Proof.
  intros HC HCd He.
  assert (Hsing : forall l, concat (map (fun i : nat => [i]) l) = l).
  { induction l as [|a l IH]; [reflexivity|]. cbn. now rewrite IH. }
  assert (Hnil : forall l, ~ In [] (map (fun i : nat => [i]) l)).
  { intros l H. apply in_map_iff in H. destruct H as [x [H _]]. discriminate. }
  unfold tree_groups. destruct (has_coal C) eqn:Hcoal.
  2:{ split; [|split]; rewrite ?Hsing; [apply seq_NoDup|intros x Hx; apply in_seq in Hx; lia|apply Hnil]. }
  split; [|split].
  - rewrite concat_app, Hsing. apply NoDup_app_intro; [apply NoDup_filter', seq_NoDup|trivial|].
    intros x Hx Hc. apply filter_In in Hx. destruct Hx as [_ Hx]. apply negb_true_iff in Hx.
    apply memb_true in Hc. congruence.
  - intros x Hx. rewrite concat_app, Hsing in Hx. apply in_app_or in Hx. destruct Hx as [Hx|Hx].
    + apply filter_In in Hx. destruct Hx as [Hx _]. apply in_seq in Hx. lia.
    + now apply HCd.
  - intro H. apply in_app_or in H. destruct H as [H|H]; [now apply Hnil in H|]. now apply He.
Qed.

(** the early stop with single variables *)
Lemma search_not_found_half v d pi P limit stop N va lo st k : v = v_rf \/ v = v_tree \/ v = v_coal ->
  groups_ok d va -> (forall g, In g va -> length g = 1) -> (0 < pi)%Q -> (pi <= 1)%Q -> k < N ->
  search v d pi P limit stop N va lo = Some st -> (r_sdp (s_rows st k) < pi)%Q ->
  forall T, In T (subs va) -> lo <= length T -> length T <= Nat.max lo (d / 2) -> (P k (concat T) < pi)%Q.
Proof.
  intros Hv' Hok H1 H0 Hp Hk H Hu T HT Hlo Hmax.
  assert (Hv : v_half v = half_int) by (destruct Hv' as [->|[->| ->]]; reflexivity).
  apply (search_not_found v d pi P limit stop N va lo st k); trivial. intros _ s Hs. rewrite Hv.
  pose proof (subs_length _ _ HT) as HlT.
  assert (E : length (concat (skipn (length va - s) va)) = s).
  { rewrite <- last_size_level by lia. unfold last_size.
    apply (level_single va s); [trivial|]. assert (Hne := combinations_nonempty s va ltac:(lia)).
    assert (Hl : level va s <> []) by (intro E; apply Hne; now apply map_eq_nil in E).
    apply (exists_last) in Hl. destruct Hl as [l [a ->]]. rewrite last_last. apply in_or_app. right. now left. }
  rewrite E. unfold half_int. apply Nat.leb_gt. lia.
Qed.

(** frequencies over all the listed explanations (C53) *)
Lemma Qn_lt0 n : 0 < n -> (0 < Qn n)%Q.
Proof. intro H. unfold Qn, Qlt; cbn; lia. Qed.
Lemma frac01 a b : a <= b -> 0 < b -> (0 <= Qn a / Qn b <= 1)%Q.
Proof.
  intros H Hb. apply Qn_lt0 in Hb. split.
  - apply Qle_shift_div_l; [trivial|]. rewrite Qmult_0_l. unfold Qn, Qle; cbn; lia.
  - apply Qle_shift_div_r; [trivial|]. rewrite Qmult_1_l. unfold Qn, Qle; cbn; lia.
Qed.
Lemma sumf_Qn {A} (f : A -> nat) l : (sumf (fun a => Qn (f a)) l == Qn (list_sum (map f l)))%Q.
Proof.
  induction l as [|a l IH]; [reflexivity|]. cbn [sumf map list_sum fold_right]. fold (list_sum (map f l)).
  rewrite IH. unfold Qn. rewrite Nat2Z.inj_add, inject_Z_plus. reflexivity.
Qed.
Lemma suff_global_frequency d pi (P : nat -> list nat -> Q) va lo fs j :
  groups_ok d va -> length va <= 15 ->
  (forall k f, nth_error fs k = Some f -> sufficient_expl pi (P k) va lo = Some f) ->
  (exists f, In f fs /\ f_sets (strip_suff f) <> []) ->
  exists g, suff_global fs j = Some g /\
    (g == Qn (length (filter (existsb (Z.eqb (Z.of_nat j))) (concat (fst (api_sufficient fs)))))
          / Qn (length (concat (fst (api_sufficient fs)))))%Q /\ (0 <= g <= 1)%Q.
Proof.
  intros Hok Hm Hfs [f0 [Hf0 Hne]]. set (L := concat (fst (api_sufficient fs))).
  assert (HL : forall l, In l L -> NoDup l).
  { intros l Hl. apply in_concat in Hl. destruct Hl as [Ls [H1 H2]]. apply in_map_iff in H1.
    destruct H1 as [f [<- Hf]]. apply In_nth_error in Hf. destruct Hf as [k Hf]. apply Hfs in Hf.
    destruct (sufficient_expl_family pi (P k) d va lo Hok Hm) as [f' [E [[HF _] _]]].
    rewrite Hf in E. injection E as <-. destruct (HF l H2) as [T [HT [_ [_ ->]]]].
    apply NoDup_map_in; [intros; lia|]. now destruct (subs_groups_ok d va T Hok HT). }
  assert (E1 : (sumf (fun f => sumf (fun l => Qn (count_occ Z.eq_dec l (Z.of_nat j))) (f_sets (strip_suff f))) fs
               == Qn (length (filter (existsb (Z.eqb (Z.of_nat j))) L)))%Q).
  { transitivity (sumf (fun l => Qn (count_occ Z.eq_dec l (Z.of_nat j))) L).
    - subst L. clear. induction fs as [|f fs IH]; [reflexivity|].
      cbn [api_sufficient fst map concat sumf] in *. rewrite sumf_app, IH. reflexivity.
    - rewrite sumf_Qn. clear -HL. induction L as [|l L IH]; [reflexivity|].
      assert (E : list_sum (map (fun a => count_occ Z.eq_dec a (Z.of_nat j)) (l :: L))
                  = length (filter (existsb (Z.eqb (Z.of_nat j))) (l :: L))); [|now rewrite E].
      clear IH. induction (l :: L) as [|a A IH]; [reflexivity|]. cbn [map list_sum fold_right filter].
      fold (list_sum (map (fun a => count_occ Z.eq_dec a (Z.of_nat j)) A)).
      rewrite count_occ_01 by (apply HL; now left).
      rewrite IH by (intros; apply HL; now right). destruct (existsb _ a); reflexivity. }
  assert (E2 : (sumf (fun f => Qn (length (f_sets (strip_suff f)))) fs == Qn (length L))%Q).
  { subst L. clear. induction fs as [|f fs IH]; [reflexivity|].
    cbn [api_sufficient fst map concat sumf] in *. rewrite IH. rewrite app_length. unfold Qn.
    rewrite Nat2Z.inj_add, inject_Z_plus. reflexivity. }
  assert (Hpos : 0 < length L).
  { destruct (f_sets (strip_suff f0)) as [|l0 r0] eqn:E0; [congruence|].
    assert (Hi : In l0 L). { apply in_concat. exists (f_sets (strip_suff f0)).
      split; [apply in_map_iff; exists f0; now split|rewrite E0; now left]. }
    destruct L; [destruct Hi|cbn; lia]. }
  unfold suff_global, cdiv. destruct (qeqb_spec (sumf (fun f => Qn (length (f_sets (strip_suff f)))) fs) 0) as [Hz|Hz].
  { exfalso. rewrite E2 in Hz. apply Qn_lt0 in Hpos. rewrite Hz in Hpos. now apply Qlt_irrefl in Hpos. }
  eexists. split; [reflexivity|]. rewrite E1, E2. split; [reflexivity|].
  apply frac01; [apply filter_length_le|trivial].
Qed.
Lemma api_sufficient_aligned d pi (P : nat -> list nat -> Q) va lo fs :
  groups_ok d va -> length va <= 15 ->
  (forall k f, nth_error fs k = Some f -> sufficient_expl pi (P k) va lo = Some f) ->
  aligned P (api_sufficient fs).
Proof.
  intros Hok Hm Hfs. split; [cbn; now rewrite !map_length|].
  intros k sets ps H1 H2. cbn in H1, H2. rewrite nth_error_map in H1, H2.
  destruct (nth_error fs k) as [f|] eqn:E; [|discriminate]. cbn in H1, H2. injection H1 as <-. injection H2 as <-.
  apply Hfs in E. destruct (sufficient_expl_family pi (P k) d va lo Hok Hm) as [f' [E' [_ [HA HB]]]].
  rewrite E in E'. injection E' as <-. split; [exact HA|exact HB].
Qed.

(** ** Combined statements *)

Lemma search_index_row v d pi P limit stop N va lo st k :
  groups_ok d va -> (0 < pi)%Q -> (pi <= 1)%Q -> k < N ->
  search v d pi P limit stop N va lo = Some st ->
  (forall g, In g va -> length g = 1) \/
  ((v = v_ptrees \/ v = v_coal \/ v = v_msdp) /\ (pi <= r_sdp (s_rows st k))%Q) ->
  listed (s_rows st k) = reported (s_rows st k) /\ r_len (s_rows st k) = length (listed (s_rows st k)) /\
  length (r_star (s_rows st k)) = d.
Proof.
  intros Hok H0 H1 Hk H [Hs|[Hv Hf]]; apply (neat_listed d).
  - eapply search_neat; eauto.
  - assert (Hc : v_clean v = true) by (destruct Hv as [->|[->| ->]]; reflexivity).
    eapply search_clean; eauto.
Qed.
Lemma search_clf_index_row v d pi P limit stop N va lo st k :
  groups_ok d va -> (0 < pi)%Q -> k < N ->
  search_clf v d pi P limit stop N va lo = Some st -> (forall g, In g va -> length g = 1) ->
  listed (s_rows st k) = reported (s_rows st k) /\ r_len (s_rows st k) = length (listed (s_rows st k)) /\
  length (r_star (s_rows st k)) = d.
Proof. intros Hok H0 Hk H Hs. apply (neat_listed d). eapply search_clf_neat; eauto. Qed.
Lemma search_active_null v d pi P limit stop N va lo st k :
  groups_ok d va -> (0 < pi)%Q -> (pi <= 1)%Q -> k < N ->
  search v d pi P limit stop N va lo = Some st -> (pi <= r_sdp (s_rows st k))%Q ->
  let an := active_null d (r_star (s_rows st k)) (r_len (s_rows st k)) in
  Permutation (fst an ++ snd an) (map Z.of_nat (seq 0 d)).
Proof.
  intros Hok H0 H1 Hk H Hf. destruct (search_found _ _ _ _ _ _ _ _ _ _ _ Hok H0 H1 Hk H Hf) as [T [[HT _] [HR _]]].
  destruct (subs_groups_ok d va T Hok HT) as [Hn [Hb _]].
  apply active_null_perm; fold (reported (s_rows st k)); rewrite HR.
  - apply NoDup_map_in; [intros; lia|trivial].
  - intros z Hz. apply in_map_iff in Hz. destruct Hz as [x [<- Hx]]. apply Hb in Hx. lia.
Qed.
Lemma s_bar_candidates d va T : groups_ok d va -> In T (subs va) ->
  s_bar d (concat T) = Some (complement d (concat T)).
Proof. intros Hok HT. destruct (subs_groups_ok d va T Hok HT) as [Hn [Hb _]]. now apply s_bar_spec. Qed.

(** ** Witnesses *)

Definition stale_P (k : nat) (S : list nat) : Q :=
  if memb 3 S then 1%Q else if memb 0 S then (1 # 2) else 0%Q.
Lemma stale_groups_ok : groups_ok 6 (search_groups [[0; 1; 2]; [3; 4]] [0; 1; 2; 3; 4]).
Proof.
  apply search_groups_ok;
    try (repeat constructor; cbn; intuition discriminate);
    try (intros x H; cbn in H; intuition lia).
Qed.
Lemma stale_rf : exists C space P st,
  groups_ok 6 (search_groups C space) /\
  search v_rf 6 (9 # 10) P cut15 true 1 (search_groups C space) 1 = Some st /\
  (9 # 10 <= r_sdp (s_rows st 0%nat))%Q /\
  reported (s_rows st 0) = [3; 4]%Z /\ listed (s_rows st 0) = [3; 4; 2]%Z.
Proof.
  exists [[0; 1; 2]; [3; 4]], [0; 1; 2; 3; 4], stale_P. eexists.
  split; [exact stale_groups_ok|]. split; [reflexivity|]. vm_compute. repeat split; discriminate.
Qed.
Lemma stale_tree : exists C P st,
  groups_ok 6 (tree_groups C 6) /\
  search v_tree 6 (9 # 10) P cut15 true 1 (tree_groups C 6) 1 = Some st /\
  (9 # 10 <= r_sdp (s_rows st 0%nat))%Q /\
  reported (s_rows st 0) = [3; 4]%Z /\ listed (s_rows st 0) = [3; 4; 2]%Z.
Proof.
  exists [[0; 1; 2]; [3; 4]], stale_P. eexists. split.
  { apply tree_groups_ok.
    - repeat constructor; cbn; intuition discriminate.
    - intros x H; cbn in H; intuition lia.
    - intros _ H; cbn in H; intuition discriminate. }
  split; [reflexivity|]. vm_compute. repeat split; discriminate.
Qed.
Lemma null_coalition_stale : exists C space P st,
  groups_ok 6 (search_groups C space) /\
  search v_rf 6 (9 # 10) P cut15 true 1 (search_groups C space) 1 = Some st /\
  (9 # 10 <= r_sdp (s_rows st 0%nat))%Q /\
  null_coalition 6 (r_star (s_rows st 0)) (r_len (s_rows st 0)) = None.
Proof.
  exists [[0; 1; 2]; [3; 4]], [0; 1; 2; 3; 4], stale_P. eexists.
  split; [exact stale_groups_ok|]. split; [reflexivity|]. vm_compute. repeat split; discriminate.
Qed.
Lemma single_groups_ok d : groups_ok d (tree_groups [[]] d).
Proof. apply tree_groups_ok; [constructor|easy|easy]. Qed.
Lemma truncated_17 : exists d P pi, groups_ok d (tree_groups [[]] d) /\
  (0 < pi)%Q /\ (pi <= 1)%Q /\ search v_tree d pi P cut15 true 1 (tree_groups [[]] d) 1 = None.
Proof.
  exists 17, (fun _ _ => 0%Q), (9 # 10). split; [apply single_groups_ok|].
  split; [reflexivity|]. split; [discriminate|]. vm_compute. reflexivity.
Qed.
Lemma truncated_16 : exists d P pi, groups_ok d (tree_groups [[]] d) /\ d = 16 /\
  (0 < pi)%Q /\ (pi <= 1)%Q /\ search v_tree d pi P cut15 false 1 (tree_groups [[]] d) 1 = None.
Proof.
  exists 16, (fun _ _ => 0%Q), (9 # 10). split; [apply single_groups_ok|].
  split; [reflexivity|]. split; [reflexivity|]. split; [discriminate|]. vm_compute. reflexivity.
Qed.
Definition big_P (k : nat) (S : list nat) : Q := if length S <=? 8 then 0%Q else 1%Q.
Lemma incomplete_check : match search_clf v_tree 16 (9 # 10) big_P cut15 false 1 (tree_groups [[]] 16) 1 with
  | Some st => qltb (r_sdp (s_rows st 0)) (9 # 10) | None => false end = true.
Proof. vm_compute. reflexivity. Qed.
Lemma incomplete_clf : exists d P pi st T, groups_ok d (tree_groups [[]] d) /\
  search_clf v_tree d pi P cut15 false 1 (tree_groups [[]] d) 1 = Some st /\
  In T (subs (tree_groups [[]] d)) /\ 1 <= length T /\
  (r_sdp (s_rows st 0%nat) < pi)%Q /\ (pi <= P 0%nat (concat T))%Q.
Proof.
  exists 16, big_P, (9 # 10). pose proof incomplete_check as H.
  destruct (search_clf v_tree 16 (9 # 10) big_P cut15 false 1 (tree_groups [[]] 16) 1) as [st|]; [|discriminate].
  exists st, (tree_groups [[]] 16). split; [apply single_groups_ok|]. split; [reflexivity|].
  split; [apply subs_all|]. split; [cbn; lia|]. split; [|vm_compute; discriminate].
  destruct (qltb_spec (r_sdp (s_rows st 0)) (9 # 10)); [trivial|discriminate].
Qed.
Lemma cxpl_not_aligned pi P0 P va lo :
  (match sufficient_expl pi P0 va lo with Some _ => true | None => false end) = true ->
  exists f, sufficient_expl pi P0 va lo = Some f /\ ~ aligned P (api_sufficient_cxpl [f]).
Proof.
  destruct (sufficient_expl pi P0 va lo) as [f|]; [intros _|discriminate].
  exists f. split; [reflexivity|]. intros [H _]. cbn in H. discriminate.
Qed.

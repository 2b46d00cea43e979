(** Proofs about the merging of rectangles. *)
From Verif Require Import Base SwingModel SwingProofs RecModel RecSpec.
From Coq Require Import Permutation.
Local Open Scope nat_scope.

Lemma flat_map_one {A B} (f : A -> list B) l k : NoDup l -> In k l -> (forall j, In j l -> j <> k -> f j = []) -> flat_map f l = f k.
Proof.
  induction l as [|a l IH]; intros Hn Hk H; [contradiction|]. inversion Hn; subst. cbn.
  destruct Hk as [E|Hk].
  - subst a. assert (flat_map f l = []) as ->; [|apply app_nil_r].
    clear IH Hn H3. induction l as [|b l IH]; [reflexivity|]. cbn. rewrite (H b); [|right; now left|intro E; subst; apply H2; now left].
    apply IH; [intro; apply H2; now right|]. intros j Hj Hjk. apply H; [|exact Hjk]. destruct Hj as [Hj|Hj]; [now left|right; now right].
  - rewrite (H a); [|now left|intro E; subst; contradiction]. cbn. apply IH; [exact H3|exact Hk|]. intros j Hj. apply H. now right.
Qed.
Lemma flat_map_nonempty {A B} (f : A -> list B) l : flat_map f l <> [] -> exists k, In k l /\ f k <> [].
Proof.
  induction l as [|a l IH]; cbn; [easy|]. destruct (f a) eqn:E; cbn; intro H.
  - destruct (IH H) as [k [Hk Hf]]. exists k. split; [now right|exact Hf].
  - exists a. split; [now left|]. rewrite E. discriminate.
Qed.

Lemma covers_iff a b k : covers a b k = true <-> ((lower b k <= lower a k)%Q /\ (upper a k <= upper b k)%Q).
Proof. unfold covers. rewrite Bool.andb_true_iff. unfold blo, bhi, lower, upper. destruct (qleb_spec (fst (nth k b (0,0)%Q)) (fst (nth k a (0,0)%Q))), (qleb_spec (snd (nth k a (0,0)%Q)) (snd (nth k b (0,0)%Q))); intuition (try discriminate; try lra). Qed.
Lemma others_iff d a b k : others d a b k = true <-> forall l, l < d -> l <> k -> (lower b l <= lower a l)%Q /\ (upper a l <= upper b l)%Q.
Proof.
  unfold others. rewrite forallb_forall. split.
  - intros H l Hl Hk. specialize (H l). rewrite Bool.orb_true_iff in H. destruct H as [H|H]; [apply in_seq; lia|apply Nat.eqb_eq in H; congruence|now apply covers_iff].
  - intros H l Hl. apply in_seq in Hl. apply Bool.orb_true_iff. destruct (Nat.eqb_spec k l) as [E|E]; [now left|]. right. apply covers_iff. apply H; [lia|congruence].
Qed.

(** what [find_nbor_r] reports on axis [k] *)
Definition nbor_at d a b k : list (nat * bool) :=
  if qeqb (blo a k) (bhi b k) then (if others d a b k then [(k, false)] else [])
  else if qeqb (bhi a k) (blo b k) then (if others d a b k then [(k, true)] else []) else [].
Lemma nbor_at_spec d a b k : nbor_at d a b k <> [] -> others d a b k = true /\ exists s, nbor_at d a b k = [(k, s)] /\
  (if s then (upper a k == lower b k)%Q else (lower a k == upper b k)%Q).
Proof.
  unfold nbor_at. destruct (qeqb_spec (blo a k) (bhi b k)) as [E|E].
  - destruct (others d a b k); [|easy]. intros _. split; [reflexivity|]. now exists false.
  - destruct (qeqb_spec (bhi a k) (blo b k)) as [E2|E2]; [|easy]. destruct (others d a b k); [|easy]. intros _. split; [reflexivity|]. now exists true.
Qed.
Lemma nbor_touching d a b : find_nbor_r d a b <> [] <-> touching d a b.
Proof.
  unfold find_nbor_r. fold (nbor_at d a b). split.
  - intro H. apply flat_map_nonempty in H. destruct H as [k [Hk H]]. apply in_seq in Hk. apply (nbor_at_spec d a b k) in H.
    destruct H as [Ho [s [_ Hs]]]. exists k. split; [lia|]. split; [destruct s; [now right|now left]|]. now apply others_iff.
  - intros [k [Hk [Ht Ho]]] H. apply others_iff in Ho.
    assert (Hn : nbor_at d a b k = []).
    { destruct (nbor_at d a b k) as [|q t] eqn:E; [reflexivity|]. exfalso.
      assert (In q (flat_map (nbor_at d a b) (seq 0 d))) as Hq by (apply in_flat_map; exists k; split; [apply in_seq; lia|rewrite E; now left]).
      change (flat_map (nbor_at d a b) (seq 0 d) = []) in H. rewrite H in Hq. contradiction. }
    unfold nbor_at in Hn. rewrite Ho in Hn. destruct (qeqb_spec (blo a k) (bhi b k)) as [E|E]; [discriminate|].
    destruct (qeqb_spec (bhi a k) (blo b k)) as [E2|E2]; [discriminate|]. destruct Ht as [Ht|Ht]; [now apply E|now apply E2].
Qed.

Lemma set_side_length r p v : length (set_side r p v) = length r.
Proof. unfold set_side. now rewrite map_length, seq_length. Qed.
Lemma set_side_nth r p v i : i < length r -> nth i (set_side r p v) (0, 0)%Q =
  if i =? fst p then (if snd p then (blo r i, v) else (v, bhi r i)) else nth i r (0, 0)%Q.
Proof.
  intro Hi. unfold set_side. set (f := fun i => _). rewrite (nth_indep _ (0,0)%Q (f 0)) by now rewrite map_length, seq_length.
  rewrite map_nth, seq_nth by exact Hi. reflexivity.
Qed.

Lemma lower_map (f : nat -> Q * Q) n j : j < n -> lower (map f (seq 0 n)) j = fst (f j).
Proof.
  intro H. unfold lower. rewrite (nth_indep _ (0,0)%Q (f 0)) by now rewrite map_length, seq_length.
  now rewrite map_nth, seq_nth by exact H.
Qed.
Lemma upper_map (f : nat -> Q * Q) n j : j < n -> upper (map f (seq 0 n)) j = snd (f j).
Proof.
  intro H. unfold upper. rewrite (nth_indep _ (0,0)%Q (f 0)) by now rewrite map_length, seq_length.
  now rewrite map_nth, seq_nth by exact H.
Qed.
Section Step.
Variable d : nat.
Variable V : nat -> Q -> Prop.
(** proper, with numbers of [V] *)
Definition good (r : list (Q * Q)) : Prop :=
  length r = d /\ forall k, k < d -> (lower r k < upper r k)%Q /\ V k (lower r k) /\ V k (upper r k).

(** the rectangle after the merge *)
Definition grown (a b : rec) (k : nat) (s : bool) : rec := set_side a (k, s) (if s then bhi b k else blo b k).
(** a merge on axis [k], side [s] *)
Definition meets (a b : rec) (k : nat) (s : bool) : Prop :=
  k < d /\ (if s then (upper a k == lower b k)%Q else (lower a k == upper b k)%Q) /\
  forall l, l < d -> l <> k -> (lower b l <= lower a l)%Q /\ (upper a l <= upper b l)%Q.
Definition left_over (u b : rec) (k : nat) : list rec :=
  flat_map (fun T => match remain u b [k] T (seq 0 d) with Some r => [r] | None => [] end)
           (powerset (filter (fun j => negb (memb j [k])) (seq 0 d))).

Lemma nbor_single a b : good a -> find_nbor_r d a b <> [] -> exists k s, find_nbor_r d a b = [(k, s)] /\ meets a b k s.
Proof.
  intros [Hl Ha] H. unfold find_nbor_r in *. fold (nbor_at d a b) in *.
  destruct (flat_map_nonempty _ _ H) as [k [Hk Hn]]. pose proof Hk as Hk'. apply in_seq in Hk'.
  assert (Hone : forall j, In j (seq 0 d) -> j <> k -> nbor_at d a b j = []).
  { intros j Hj Hjk. destruct (nbor_at d a b j) as [|q t] eqn:E; [reflexivity|]. exfalso. apply in_seq in Hj.
    destruct (nbor_at_spec d a b j) as [Hoj [s [_ Hs]]]; [rewrite E; discriminate|].
    destruct (nbor_at_spec d a b k) as [Hok _]; [exact Hn|].
    pose proof (proj1 (others_iff d a b k) Hok j ltac:(lia) Hjk) as [Hc1 Hc2].
    destruct (Ha j ltac:(lia)) as [Hp _]. destruct s; lra. }
  change (flat_map (nbor_at d a b) (seq 0 d) <> []) in H.
  destruct (nbor_at_spec d a b k Hn) as [Ho [s [Es Hs]]].
  exists k, s. split.
  - rewrite (flat_map_one _ _ k (seq_NoDup _ _) Hk Hone). exact Es.
  - split; [lia|]. split; [exact Hs|]. now apply others_iff.
Qed.
Lemma extend_single a b k s : length a = d -> meets a b k s -> extend_rec_r d a b [(k, s)] = (grown a b k s, left_over (grown a b k s) b k).
Proof using. clear V.
  intros Hl [Hk [Ht Ho]]. unfold extend_rec_r. cbn [map fst]. 
  assert (existsb (fun j => negb (memb j [k]) && negb (covers a b j)) (seq 0 d) = false) as ->.
  { destruct (existsb _ _) eqn:E; [|reflexivity]. apply existsb_exists in E. destruct E as [j [Hj E]]. apply in_seq in Hj.
    apply andb_prop in E. destruct E as [E1 E2]. exfalso.
    assert (j <> k). { intro; subst. apply Bool.negb_true_iff in E1. apply memb_false in E1. apply E1. now left. }
    assert (covers a b j = true) by (apply covers_iff, Ho; [lia|assumption]). rewrite H0 in E2. discriminate. }
  reflexivity.
Qed.
Lemma grown_sides a b k s i : length a = d -> meets a b k s -> i < d ->
  (lower (grown a b k s) i = if (i =? k) && negb s then lower b k else lower a i) /\
  (upper (grown a b k s) i = if (i =? k) && s then upper b k else upper a i).
Proof using. clear V.
  intros Hl [Hk _] Hi. unfold grown, lower, upper. rewrite set_side_nth by lia. cbn [fst snd].
  destruct (Nat.eqb_spec i k) as [E|E]; [|split; reflexivity]. subst. destruct s; split; reflexivity.
Qed.
Lemma grown_good a b k s : good a -> good b -> meets a b k s -> good (grown a b k s).
Proof.
  intros [La Ha] [Lb Hb] Hm. split; [unfold grown; now rewrite set_side_length|]. intros i Hi.
  destruct (grown_sides a b k s i La Hm Hi) as [-> ->]. destruct Hm as [Hk [Ht _]].
  destruct (Ha i Hi) as [H1 [H2 H3]]. destruct (Hb k Hk) as [H4 [H5 H6]].
  destruct (Nat.eqb_spec i k) as [E|E]; cbn; [subst|now repeat split]. destruct s; cbn; repeat split; auto; lra.
Qed.
Lemma grown_sound a b k s x : good a -> good b -> meets a b k s -> within (grown a b k s) x -> within a x \/ within b x.
Proof.
  intros [La Ha] [Lb Hb] Hm Hx. pose proof (proj1 Hm) as Hk.
  assert (Hg : forall i, i < d -> (lower (grown a b k s) i < x i)%Q /\ (x i <= upper (grown a b k s) i)%Q) by (intros i Hi; apply Hx; unfold grown; rewrite set_side_length; lia).
  assert (Hoth : forall i, i < d -> i <> k -> (lower a i < x i)%Q /\ (x i <= upper a i)%Q).
  { intros i Hi Hik. specialize (Hg i Hi). destruct (grown_sides a b k s i La Hm Hi) as [E1 E2]. rewrite E1, E2 in Hg.
    destruct (Nat.eqb_spec i k); [contradiction|]. exact Hg. }
  pose proof (Hg k Hk) as Hgk. destruct (grown_sides a b k s k La Hm Hk) as [E1 E2]. rewrite E1, E2 in Hgk. rewrite Nat.eqb_refl in Hgk. cbn in Hgk.
  destruct Hm as [_ [Ht Ho]].
  assert (Hdec : ((lower a k < x k)%Q /\ (x k <= upper a k)%Q) \/ ((lower b k < x k)%Q /\ (x k <= upper b k)%Q)).
  { destruct s; cbn in Hgk.
    - destruct (Qlt_le_dec (upper a k) (x k)); [right|left]; lra.
    - destruct (Qlt_le_dec (lower a k) (x k)); [left|right]; lra. }
  destruct Hdec as [Hd|Hd]; [left|right]; intros i Hi.
  - destruct (Nat.eq_dec i k) as [E|E]; [now subst|]. apply Hoth; [lia|exact E].
  - destruct (Nat.eq_dec i k) as [E|E]; [now subst|]. specialize (Ho i ltac:(lia) E). specialize (Hoth i ltac:(lia) E). lra.
Qed.
Lemma grown_larger a b k s : good a -> good b -> meets a b k s -> part_of a (grown a b k s).
Proof.
  intros [La Ha] [Lb Hb] Hm i Hi. rewrite La in Hi. destruct (grown_sides a b k s i La Hm Hi) as [-> ->].
  destruct Hm as [Hk [Ht _]]. destruct (Hb k Hk) as [H4 _]. destruct (Nat.eqb_spec i k) as [E|E]; cbn; [subst|lra]. destruct s; cbn; lra.
Qed.

Lemma remain_spec u b axs T ks r : remain u b axs T ks = Some r -> length r = length ks /\ forall i, i < length ks ->
  let k := nth i ks 0 in nth i r (0,0)%Q =
    (if memb k axs then (lower b k, upper b k) else if memb k T then (lower b k, lower u k) else (upper u k, upper b k)) /\
  (memb k axs = false -> if memb k T then ~ (lower b k == lower u k)%Q else ~ (upper b k == upper u k)%Q).
Proof.
  revert r. induction ks as [|k ks IH]; cbn [remain]; intros r H; [injection H as <-; split; [reflexivity|cbn; lia]|].
  destruct (if memb k axs then _ else _) as [p|] eqn:E; [|discriminate].
  destruct (remain u b axs T ks) as [q|]; [|discriminate]. injection H as <-. destruct (IH q eq_refl) as [Hl Hq].
  split; [cbn; now rewrite Hl|]. intros [|i] Hi; [|apply Hq; cbn in Hi; lia]. cbn.
  unfold blo, bhi in E. fold (lower b k) (lower u k) (upper b k) (upper u k) in E.
  destruct (memb k axs); [injection E as <-; split; [reflexivity|discriminate]|].
  destruct (memb k T).
  - destruct (qeqb_spec (lower b k) (lower u k)) as [N|N]; [discriminate|]. injection E as <-. split; [reflexivity|now intros _].
  - destruct (qeqb_spec (upper b k) (upper u k)) as [N|N]; [discriminate|]. injection E as <-. split; [reflexivity|now intros _].
Qed.
Lemma part_spec a b k s r : good a -> good b -> meets a b k s -> In r (left_over (grown a b k s) b k) ->
  good r /\ part_of r b.
Proof.
  intros Ga Gb Hm Hr. pose proof Ga as [La Ha]. pose proof Gb as [Lb Hb]. unfold left_over in Hr. apply in_flat_map in Hr. destruct Hr as [T [_ Hr]].
  destruct (remain _ b [k] T (seq 0 d)) as [q|] eqn:E; [|contradiction]. destruct Hr as [Hr|[]]. subst q.
  apply remain_spec in E. destruct E as [Hl Hq]. rewrite seq_length in *. 
  assert (Hrow : forall i, i < d -> ((lower b i <= lower r i)%Q /\ (upper r i <= upper b i)%Q) /\ (lower r i < upper r i)%Q /\ V i (lower r i) /\ V i (upper r i)).
  { intros i Hi. specialize (Hq i Hi). rewrite seq_nth in Hq by exact Hi. cbn [Nat.add] in Hq. destruct Hq as [Hq Hne].
    destruct (Hb i Hi) as [B1 [B2 B3]]. destruct (Ha i Hi) as [A1 [A2 A3]].
    assert (Eg := grown_sides a b k s i La Hm Hi). destruct Hm as [Hk [Ht Ho]].
    destruct (memb i [k]) eqn:Em.
    - assert (El : lower r i = lower b i) by (unfold lower at 1; now rewrite Hq).
      assert (Eu : upper r i = upper b i) by (unfold upper at 1; now rewrite Hq).
      rewrite El, Eu. repeat split; auto; lra.
    - apply memb_false in Em. assert (Hik : i <> k) by (intro; subst; apply Em; now left).
      specialize (Hne eq_refl). destruct Eg as [E1 E2]. destruct (Nat.eqb_spec i k); [contradiction|]. cbn in E1, E2.
      rewrite E1 in *. rewrite E2 in *. destruct (Ho i Hi Hik) as [O1 O2].
      destruct (memb i T).
      + assert (El : lower r i = lower b i) by (unfold lower at 1; now rewrite Hq).
        assert (Eu : upper r i = lower a i) by (unfold upper at 1; now rewrite Hq).
        rewrite El, Eu. split; [split; lra|]. split; [|split; assumption].
        destruct (Qlt_le_dec (lower b i) (lower a i)) as [Q1|Q1]; [exact Q1|]. exfalso. apply Hne. lra.
      + assert (El : lower r i = upper a i) by (unfold lower at 1; now rewrite Hq).
        assert (Eu : upper r i = upper b i) by (unfold upper at 1; now rewrite Hq).
        rewrite El, Eu. split; [split; lra|]. split; [|split; assumption].
        destruct (Qlt_le_dec (upper a i) (upper b i)) as [Q1|Q1]; [exact Q1|]. exfalso. apply Hne. lra. }
  split.
  - split; [exact Hl|]. intros i Hi. apply Hrow. exact Hi.
  - intros i Hi. apply Hrow. lia.
Qed.
Lemma part_of_within a b x : length a = length b -> part_of a b -> within a x -> within b x.
Proof using. clear V. intros Hl H Hx i Hi. specialize (H i ltac:(lia)). specialize (Hx i ltac:(lia)). lra. Qed.

(** with at most two axes nothing of [b] is lost *)
Lemma plane_cover a b k s x : d <= 2 -> good a -> good b -> meets a b k s -> within b x ->
  within (grown a b k s) x \/ exists r, In r (left_over (grown a b k s) b k) /\ within r x.
Proof.
  intros Hd Ga Gb Hm Hx. pose proof Ga as [La Ha]. pose proof Gb as [Lb Hb]. pose proof Hm as [Hk [Ht Ho]].
  assert (Hb' : forall i, i < d -> (lower b i < x i)%Q /\ (x i <= upper b i)%Q) by (intros i Hi; apply Hx; lia).
  assert (Hgk : (lower (grown a b k s) k < x k)%Q /\ (x k <= upper (grown a b k s) k)%Q).
  { destruct (grown_sides a b k s k La Hm Hk) as [-> ->]. rewrite Nat.eqb_refl. specialize (Hb' k Hk). destruct (Ha k Hk) as [A1 _].
    destruct s; cbn; lra. }
  assert (Lg : length (grown a b k s) = d) by (unfold grown; now rewrite set_side_length).
  assert (Hcase : (forall i, i < d -> i <> k -> (lower a i < x i)%Q /\ (x i <= upper a i)%Q) \/
                  exists i, i < d /\ i <> k /\ ((x i <= lower a i)%Q \/ (upper a i < x i)%Q)).
  { assert (He : forall n, n <= d -> (forall i, i < n -> i <> k -> (lower a i < x i)%Q /\ (x i <= upper a i)%Q) \/
                  exists i, i < d /\ i <> k /\ ((x i <= lower a i)%Q \/ (upper a i < x i)%Q)).
    { induction n as [|n IH]; intro Hn; [left; lia|]. destruct (IH ltac:(lia)) as [IH'|IH']; [|now right].
      destruct (Nat.eq_dec n k) as [E|E].
      - left. intros i Hi Hik. apply IH'; lia.
      - destruct (Qlt_le_dec (lower a n) (x n)) as [Q1|Q1]; [|right; exists n; repeat split; [lia|exact E|now left]].
        destruct (Qlt_le_dec (upper a n) (x n)) as [Q2|Q2]; [right; exists n; repeat split; [lia|exact E|now right]|].
        left. intros i Hi Hik. destruct (Nat.eq_dec i n) as [E2|E2]; [now subst|]. apply IH'; lia. }
    exact (He d (le_n d)). }
  destruct Hcase as [Hin|[i [Hi [Hik Hout]]]].
  - left. intros i Hi. rewrite Lg in Hi. destruct (Nat.eq_dec i k) as [E|E]; [now subst|].
    destruct (grown_sides a b k s i La Hm Hi) as [-> ->]. destruct (Nat.eqb_spec i k); [contradiction|]. cbn. now apply Hin.
  - right. assert (Ed : d = 2) by lia.
    destruct (grown_sides a b k s i La Hm Hi) as [E1 E2]. destruct (Nat.eqb_spec i k) as [|_]; [contradiction|]. cbn in E1, E2.
    specialize (Ho i Hi Hik). pose proof (Hb' i Hi) as Hbi. pose proof (Hb' k Hk) as Hbk.
    set (u := grown a b k s) in *. clearbody u.
    set (T := match Qlt_le_dec (upper a i) (x i) with left _ => [] | right _ => [i] end).
    assert (HT : In T (powerset (filter (fun j => negb (memb j [k])) (seq 0 d)))).
    { subst T. rewrite Ed. destruct (Qlt_le_dec (upper a i) (x i)); destruct k as [|[|k]]; try lia; destruct i as [|[|i]]; try lia; cbn; auto. }
    exists (map (fun j => if j =? k then (lower b k, upper b k) else
               match Qlt_le_dec (upper a i) (x i) with left _ => (upper u i, upper b i) | right _ => (lower b i, lower u i) end) (seq 0 d)).
    split.
    + unfold left_over. apply in_flat_map. exists T. split; [exact HT|]. subst T. rewrite Ed.
      assert (Hrem : forall T', (memb i T' = true -> (x i <= lower a i)%Q) -> (memb i T' = false -> (upper a i < x i)%Q) ->
        remain u b [k] T' (seq 0 2) = Some (map (fun j => if j =? k then (lower b k, upper b k) else if memb i T' then (lower b i, lower u i) else (upper u i, upper b i)) (seq 0 2))).
      { intros T' H1 H2. assert (Hnb : forall j, j < 2 -> j <> k -> j = i) by lia.
        assert (Hrow : forall j, j < 2 -> (if memb j [k] then Some (blo b j, bhi b j)
           else if memb j T' then (if qeqb (blo b j) (blo u j) then None else Some (blo b j, blo u j))
           else (if qeqb (bhi b j) (bhi u j) then None else Some (bhi u j, bhi b j))) =
           Some (if j =? k then (lower b k, upper b k) else if memb i T' then (lower b i, lower u i) else (upper u i, upper b i))).
        { intros j Hj. destruct (Nat.eqb_spec j k) as [E|E].
          - subst. cbn. rewrite Nat.eqb_refl. reflexivity.
          - rewrite (Hnb j Hj E) in *. assert (memb i [k] = false) as -> by (apply memb_false; intros [F|[]]; congruence).
            destruct (memb i T') eqn:Em.
            + destruct (qeqb_spec (blo b i) (blo u i)) as [N|N]; [|reflexivity]. exfalso. specialize (H1 eq_refl).
              change (lower b i == lower u i)%Q in N. rewrite E1 in N. lra.
            + destruct (qeqb_spec (bhi b i) (bhi u i)) as [N|N]; [|reflexivity]. exfalso. specialize (H2 eq_refl).
              change (upper b i == upper u i)%Q in N. rewrite E2 in N. lra. }
        cbn [seq remain map]. rewrite (Hrow 0) by lia. rewrite (Hrow 1) by lia. reflexivity. }
      destruct (Qlt_le_dec (upper a i) (x i)) as [Q1|Q1].
      * rewrite (Hrem []); [now left|discriminate|now intros _].
      * rewrite (Hrem [i]); cbn; rewrite Nat.eqb_refl; cbn; [now left| |discriminate]. intros _. destruct Hout as [Hout|Hout]; lra.
    + intros j Hj. rewrite map_length, seq_length in Hj. rewrite lower_map, upper_map by exact Hj.
      destruct (Nat.eqb_spec j k) as [E|E]; [subst; exact Hbk|]. assert (j = i) by lia. subst j.
      destruct (Qlt_le_dec (upper a i) (x i)) as [Q1|Q1]; cbn; [rewrite E2; lra|rewrite E1; destruct Hout as [Hout|Hout]; lra].
Qed.

Lemma mergable_spec a l b u parts : good a -> find_mergable d a l = Some (b, u, parts) ->
  In b l /\ exists k s, meets a b k s /\ u = grown a b k s /\ parts = left_over u b k.
Proof.
  intros Ga. induction l as [|c l IH]; cbn [find_mergable]; [discriminate|]. intro H.
  destruct (find_nbor_r d a c) as [|q ax] eqn:E.
  - destruct (IH H) as [Hin Hx]. split; [now right|exact Hx].
  - assert (Hne : find_nbor_r d a c <> []) by (rewrite E; discriminate).
    destruct (nbor_single a c Ga Hne) as [k [s [Es Hm]]]. rewrite Es in E. rewrite <- E in H. clear E Hne.
    rewrite (extend_single a c k s (proj1 Ga) Hm) in H. cbn [fst snd] in H. injection H as <- <- <-.
    split; [now left|]. exists k, s. split; [exact Hm|]. split; reflexivity.
Qed.

Lemma close_num_iff u v : close_num u v = true <-> near u v.
Proof using. clear V. unfold close_num, near. destruct (qleb_spec (Qabs (u - v)) ((1 # 100000000) + (1 # 100000) * Qabs v)); intuition; try discriminate; try lra. Qed.
Lemma near_refl u : near u u.
Proof using. clear V. unfold near. assert (u - u == 0)%Q as -> by ring. pose proof (Qabs_nonneg u). change (Qabs 0) with 0%Q. lra. Qed.
Lemma close_refl a : close d a a = true.
Proof using. clear V. unfold close. apply forallb_forall. intros k _. apply andb_true_intro. split; apply close_num_iff, near_refl. Qed.
Lemma remove_head a l : remove_rule d a (a :: l) = l.
Proof using. clear V. cbn. now rewrite close_refl. Qed.
Lemma remove_incl b l : incl (remove_rule d b l) l.
Proof using. clear V.
  induction l as [|r l IH]; cbn; [easy|]. destruct (close d r b); intros y Hy; [now right|]. destruct Hy as [Hy|Hy]; [now left|right; now apply IH].
Qed.
Lemma remove_length b l : In b l -> S (length (remove_rule d b l)) = length l.
Proof using. clear V.
  induction l as [|r l IH]; [easy|]. intros [E|H]; cbn.
  - subst. now rewrite close_refl.
  - destruct (close d r b); [reflexivity|]. cbn. now rewrite (IH H).
Qed.
(** the same sides *)
Definition same (a b : list (Q * Q)) : Prop := forall k, k < d -> (lower a k == lower b k)%Q /\ (upper a k == upper b k)%Q.
Definition Sep : Prop := forall k u v, k < d -> V k u -> V k v -> near u v -> (u == v)%Q.
Definition named (r : list (Q * Q)) : Prop := length r = d /\ forall k, k < d -> V k (lower r k) /\ V k (upper r k).
Lemma good_named r : good r -> named r.
Proof. intros [L H]. split; [exact L|]. intros k Hk. apply H. exact Hk. Qed.
Lemma remove_other b l r : Sep -> named b -> Forall named l -> In r l -> In r (remove_rule d b l) \/ same r b.
Proof.
  intros HS [Lb Gb] Hl. induction Hl as [|q l [Lq Gq] Hl IH]; [easy|]. cbn. intro Hr.
  destruct (close d q b) eqn:E.
  - destruct Hr as [Hr|Hr]; [|now left]. subst q. right. unfold close in E. rewrite forallb_forall in E.
    intros k Hk. specialize (E k ltac:(apply in_seq; lia)). apply andb_prop in E. destruct E as [E1 E2].
    apply close_num_iff in E1, E2. destruct (Gq k Hk) as [V1 V2]. destruct (Gb k Hk) as [V3 V4].
    split; [exact (HS k _ _ Hk V1 V3 E1)|exact (HS k _ _ Hk V2 V4 E2)].
  - destruct Hr as [Hr|Hr]; [left; now left|]. destruct (IH Hr) as [H|H]; [left; now right|now right].
Qed.
Lemma same_within a b x : length a = d -> length b = d -> same a b -> within a x -> within b x.
Proof using. clear V. intros La Lb H Hx k Hk. specialize (H k ltac:(lia)). specialize (Hx k ltac:(lia)). lra. Qed.
Lemma same_part p a b : length p = d -> same a b -> part_of p a -> part_of p b.
Proof using. clear V. intros Lp H Hp k Hk. specialize (H k ltac:(lia)). specialize (Hp k Hk). lra. Qed.
Lemma part_trans p a b : length p = length a -> part_of p a -> part_of a b -> part_of p b.
Proof using. clear V. intros L H1 H2 k Hk. specialize (H1 k Hk). specialize (H2 k ltac:(lia)). lra. Qed.
Lemma is_subset_iff p b : is_subset p b = true <-> part_of p b.
Proof using. clear V.
  unfold is_subset, part_of. rewrite forallb_forall. split; intros H k Hk.
  - apply covers_iff, H. apply in_seq. lia.
  - apply covers_iff, H. apply in_seq in Hk. lia.
Qed.

Section Loop.
Variable shuffle : nat -> list rec -> list rec.
Hypothesis shuffled : forall i l, Permutation (shuffle i l) l.
Variable p : rec.
Hypothesis plen : length p = d.
(** what the list keeps through the loop *)
Definition keeps (l l' : list rec) : Prop :=
  Forall good l' /\ l' <> [] /\ (forall x, union l' x -> union l x) /\
  (Sep -> (exists r, In r l /\ part_of p r) -> exists r, In r l' /\ part_of p r) /\
  (Sep -> d <= 2 -> forall x, union l x -> union l' x).
Lemma keeps_trans l1 l2 l3 : keeps l1 l2 -> keeps l2 l3 -> keeps l1 l3.
Proof. unfold keeps. intuition. Qed.
Lemma keeps_perm l l' : Forall good l -> l <> [] -> Permutation l l' -> keeps l l'.
Proof.
  intros Hg Hn HP. split; [now apply (Permutation_Forall HP)|]. split.
  { intro; subst l'. apply Permutation_sym, Permutation_nil in HP. contradiction. }
  assert (Hi : forall r, In r l <-> In r l') by (intro r; split; apply Permutation_in; [exact HP|now apply Permutation_sym]).
  split; [intros x [r [Hr Hx]]; exists r; split; [now apply Hi|exact Hx]|].
  split; [intros _ [r [Hr Hx]]; exists r; split; [now apply Hi|exact Hx]|].
  intros _ _ x [r [Hr Hx]]. exists r. split; [now apply Hi|exact Hx].
Qed.
Lemma keeps_rotate a l i : Forall good (a :: l) -> keeps (a :: l) (shuffle i (remove_rule d a (a :: l)) ++ [a]).
Proof.
  intro Hg. rewrite remove_head. apply keeps_perm; [exact Hg|discriminate|].
  apply Permutation_trans with (a :: shuffle i l); [now apply perm_skip, Permutation_sym|].
  apply Permutation_cons_append.
Qed.
Lemma keeps_merge a l i b u parts : Forall good (a :: l) -> find_mergable d a (a :: l) = Some (b, u, parts) -> is_subset p b = false ->
  keeps (a :: l) (shuffle i (remove_rule d b (remove_rule d a (a :: l))) ++ u :: parts).
Proof.
  intros Hg Hf Hp. rewrite remove_head. inversion Hg as [|? ? Ga Hl]; subst.
  destruct (mergable_spec a (a :: l) b u parts Ga Hf) as [Hin [k [s [Hm [Eu Ep]]]]].
  assert (Hbl : In b l).
  { destruct Hin as [E|H]; [|exact H]. subst b. exfalso. destruct Ga as [_ Ga]. destruct Hm as [Hk [Ht _]]. destruct (Ga k Hk) as [Q1 _]. destruct s; lra. }
  assert (Gb : good b) by now apply (proj1 (Forall_forall _ _) Hl).
  assert (Nl : Forall named l) by (revert Hl; apply Forall_impl; exact good_named).
  assert (Gu : good u) by (subst u; now apply grown_good).
  assert (Gp : forall r, In r parts -> good r /\ part_of r b) by (intros r Hr; subst parts u; now apply (part_spec a b k s)).
  assert (Hsh : forall r, In r (shuffle i (remove_rule d b l)) <-> In r (remove_rule d b l)) by (intro r; split; apply Permutation_in; [apply shuffled|apply Permutation_sym, shuffled]).
  split; [|split; [|split; [|split]]].
  - apply Forall_app. split; [|constructor; [exact Gu|apply Forall_forall; intros r Hr; now apply Gp]].
    apply Forall_forall. intros r Hr. apply Hsh in Hr. apply remove_incl in Hr. now apply (proj1 (Forall_forall _ _) Hl).
  - destruct (shuffle i (remove_rule d b l)); discriminate.
  - intros x [r [Hr Hx]]. apply in_app_iff in Hr. destruct Hr as [Hr|[Hr|Hr]].
    + apply Hsh in Hr. apply remove_incl in Hr. exists r. split; [now right|exact Hx].
    + subst r u. destruct (grown_sound a b k s x Ga Gb Hm Hx) as [H|H]; [exists a; split; [now left|exact H]|exists b; split; [now right|exact H]].
    + destruct (Gp r Hr) as [Gr Hpr]. exists b. split; [now right|]. apply (part_of_within r b x); [|exact Hpr|exact Hx]. destruct Gr, Gb. congruence.
  - intros HS [r [Hr Hpr]]. destruct Hr as [E|Hr].
    + subst r. exists u. split; [apply in_app_iff; right; now left|]. subst u. apply (part_trans p a); [destruct Ga; congruence|exact Hpr|now apply grown_larger].
    + destruct (remove_other b l r HS (good_named b Gb) Nl Hr) as [H|H].
      * exists r. split; [apply in_app_iff; left; now apply Hsh|exact Hpr].
      * exfalso. apply (same_part p r b plen H) in Hpr. apply is_subset_iff in Hpr. congruence.
  - intros HS Hd x [r [Hr Hx]]. destruct Hr as [E|Hr].
    + subst r. exists u. split; [apply in_app_iff; right; now left|]. apply (part_of_within a u x); [destruct Ga, Gu; congruence| |exact Hx]. subst u. now apply grown_larger.
    + destruct (remove_other b l r HS (good_named b Gb) Nl Hr) as [H|H].
      * exists r. split; [apply in_app_iff; left; now apply Hsh|exact Hx].
      * apply (same_within r b x) in Hx; [|now apply (proj1 (Forall_forall _ _) Hl)|apply Gb|exact H].
        destruct (plane_cover a b k s x Hd Ga Gb Hm Hx) as [Hc|[q [Hq Hc]]].
        -- exists u. split; [apply in_app_iff; right; now left|]. now subst u.
        -- exists q. split; [apply in_app_iff; right; right; now subst parts u|exact Hc].
Qed.
Lemma loop_keeps fuel l i size : Forall good l -> l <> [] -> exists l', merge_loop shuffle fuel d p l i size = Some l' /\ keeps l l'.
Proof.
  revert l i size. induction fuel as [|f IH]; intros l i size Hg Hn; cbn [merge_loop].
  - exists l. split; [reflexivity|]. now apply keeps_perm.
  - destruct (size <? i); [exists l; split; [reflexivity|now apply keeps_perm]|].
    destruct l as [|a l]; [contradiction|].
    assert (Hrec : forall l2 i2 s2, keeps (a :: l) l2 -> exists l', merge_loop shuffle f d p l2 i2 s2 = Some l' /\ keeps (a :: l) l').
    { intros l2 i2 s2 Hk. destruct (IH l2 i2 s2) as [l' [E Hk2]]; [apply Hk|apply Hk|]. exists l'. split; [exact E|]. exact (keeps_trans _ _ _ Hk Hk2). }
    destruct (find_mergable d a (a :: l)) as [[[b u] parts]|] eqn:Ef.
    + destruct (is_subset p b) eqn:Es; apply Hrec; [now apply keeps_rotate|now apply keeps_merge].
    + apply Hrec. now apply keeps_rotate.
Qed.
End Loop.
End Step.

(** ** Entry points of the merge *)
Lemma good_proper d V r : good d V r -> proper d r.
Proof. intros [L H]. split; [exact L|]. intros k Hk. now apply H. Qed.
Lemma proper_good d l : (forall r, In r l -> proper d r) -> Forall (good d (on_axis l)) l.
Proof.
  intro H. apply Forall_forall. intros r Hr. destruct (H r Hr) as [L P]. split; [exact L|]. intros k Hk.
  split; [now apply P|]. split; exists r; (split; [exact Hr|]); [now left|now right].
Qed.
Theorem merge_spec shuffle p l d : (forall i l, Permutation (shuffle i l) l) -> length p = d -> l <> [] ->
  (forall r, In r l -> proper d r) ->
  exists l', return_largest_rectangle shuffle p l = Some l' /\ (forall r, In r l' -> proper d r) /\ l' <> [] /\
    (forall x, union l' x -> union l x) /\
    (apart d l -> (exists r, In r l /\ part_of p r) -> exists r, In r l' /\ part_of p r) /\
    (apart d l -> d <= 2 -> forall x, union l x -> union l' x).
Proof.
  intros Hs Hp Hn Hl. destruct (loop_keeps d (on_axis l) shuffle Hs p Hp (S max_step) l 0 (length l) (proper_good d l Hl) Hn) as [l' [E H]].
  exists l'. split; [unfold return_largest_rectangle; now rewrite Hp|]. destruct H as [H1 [H2 [H3 [H4 H5]]]].
  split; [intros r Hr; apply (good_proper d (on_axis l)); now apply (proj1 (Forall_forall _ _) H1)|].
  split; [exact H2|]. split; [exact H3|]. split; [exact H4|exact H5].
Qed.
Theorem merge_sound shuffle p l d : (forall i l, Permutation (shuffle i l) l) -> length p = d -> l <> [] ->
  (forall r, In r l -> proper d r) ->
  exists l', return_largest_rectangle shuffle p l = Some l' /\ l' <> [] /\ (forall r, In r l' -> proper d r) /\
    forall x, union l' x -> union l x.
Proof.
  intros Hs Hp Hn Hl. destruct (merge_spec shuffle p l d Hs Hp Hn Hl) as [l' [E [H1 [H2 [H3 _]]]]].
  exists l'. split; [exact E|]. split; [exact H2|]. split; [exact H1|exact H3].
Qed.
Theorem merge_plane shuffle p l d : (forall i l, Permutation (shuffle i l) l) -> length p = d -> l <> [] ->
  (forall r, In r l -> proper d r) -> apart d l -> d <= 2 ->
  exists l', return_largest_rectangle shuffle p l = Some l' /\ forall x, union l' x <-> union l x.
Proof.
  intros Hs Hp Hn Hl Ha Hd. destruct (merge_spec shuffle p l d Hs Hp Hn Hl) as [l' [E [_ [_ [H3 [_ H5]]]]]].
  exists l'. split; [exact E|]. intro x. split; [apply H3|now apply H5].
Qed.
Lemma first_superset_spec p l : (exists r, In r l /\ part_of p r) -> exists r, first_superset p l = Some r /\ In r l /\ part_of p r.
Proof.
  induction l as [|a l IH]; intros [r [Hr Hp]]; [contradiction|]. cbn [first_superset].
  destruct l as [|b l].
  - destruct Hr as [E|[]]. subst. exists r. split; [reflexivity|]. split; [now left|exact Hp].
  - destruct (is_subset p a) eqn:E.
    + exists a. split; [reflexivity|]. split; [now left|now apply is_subset_iff].
    + destruct Hr as [Ea|Hr]; [subst; apply is_subset_iff in Hp; congruence|].
      destruct IH as [q [Eq [Hq Hpq]]]; [now exists r|]. exists q. split; [exact Eq|]. split; [now right|exact Hpq].
Qed.
Lemma first_superset_in p l : l <> [] -> exists r, first_superset p l = Some r /\ In r l.
Proof.
  induction l as [|a l IH]; intro Hn; [contradiction|]. cbn [first_superset]. destruct l as [|b l].
  - exists a. split; [reflexivity|now left].
  - destruct (is_subset p a); [exists a; split; [reflexivity|now left]|].
    destruct IH as [q [Eq Hq]]; [discriminate|]. exists q. split; [exact Eq|now right].
Qed.
Theorem best_spec shuffle rule rules S : (forall i l, Permutation (shuffle i l) l) -> rules <> [] ->
  (forall r, In r rules -> proper (length S) (map r S)) ->
  exists r l, return_best shuffle rule rules S = Some (r, l) /\ (forall x, within r x -> union (map (fun r => map r S) rules) x) /\
    (apart (length S) (map (fun r => map r S) rules) -> (exists r, In r rules /\ part_of (map rule S) (map r S)) ->
     part_of (map rule S) r).
Proof.
  intros Hs Hn Hp. unfold return_best.
  destruct (merge_spec shuffle (project S rule) (map (project S) rules) (length S) Hs) as [l [E [Hpr [Hne [H3 [H4 _]]]]]].
  - unfold project. now rewrite map_length.
  - intro H. apply map_eq_nil in H. contradiction.
  - intros r Hr. apply in_map_iff in Hr. destruct Hr as [q [<- Hq]]. now apply Hp.
  - rewrite E. destruct (first_superset_in (project S rule) l Hne) as [r [Er Hr]]. rewrite Er. exists r, l. split; [reflexivity|].
    split; [intros x Hx; apply H3; now exists r|]. intros Ha [q [Hq Hpq]].
    destruct (first_superset_spec (project S rule) l) as [r' [Er' [_ Hr']]].
    + apply (H4 Ha). exists (project S q). split; [now apply in_map|exact Hpq].
    + rewrite Er in Er'. injection Er' as <-. exact Hr'.
Qed.

(** ** The rectangle around the reached ones *)
Lemma touched_iff d adj r : touched d adj r = true <-> exists a, In a adj /\ touching d a r.
Proof.
  unfold touched. rewrite existsb_exists. split; intros [a [Ha H]]; exists a; (split; [exact Ha|]).
  - apply nbor_touching. intro E. rewrite E in H. discriminate.
  - apply nbor_touching in H. destruct (find_nbor_r d a r); [now destruct H|reflexivity].
Qed.
(** the loop over the positions *)
Fixpoint scan (f d n j : nat) (adj l : list rec) : option (list rec * list rec) :=
  match nth_error l j with
  | None => Some (adj, l)
  | Some r =>
    match n with
    | O => None
    | S n' =>
      if touched d adj r then
        match return_adjacent_rec f d (adj ++ [r]) (remove_rule d r l) with
        | Some (adj', l') => scan f d n' (S j) adj' l'
        | None => None
        end
      else scan f d n' (S j) adj l
    end
  end.
Lemma adjacent_scan f d adj l : return_adjacent_rec (S f) d adj l = scan f d (length l) 0 adj l.
Proof.
  cbn [return_adjacent_rec]. generalize (length l). generalize 0. intros j n. revert j adj l.
  induction n as [|n IH]; intros j adj l; [reflexivity|]. cbn [scan].
  destruct (nth_error l j) as [r|]; [|reflexivity]. destruct (touched d adj r); [|apply IH].
  destruct (return_adjacent_rec f d (adj ++ [r]) (remove_rule d r l)) as [[adj' l']|]; [apply IH|reflexivity].
Qed.
Section Reach.
Variable d : nat.
Variable V : nat -> Q -> Prop.
(** nothing left touches *)
Definition closed (adj l : list rec) : Prop := forall r, In r l -> touched d adj r = false.
(** outcome of a call *)
Definition outcome (adj l adj' l' : list rec) : Prop :=
  closed adj' l' /\ incl adj adj' /\ incl l' l /\ length l' <= length l /\
  (forall P : rec -> Prop, (forall a, In a adj -> P a) -> (forall a r, P a -> In r l -> touching d a r -> P r) -> forall q, In q adj' -> P q) /\
  (exists new, adj' = adj ++ new) /\
  (Sep d V -> Forall (named d V) l -> forall r, In r l -> In r l' \/ exists q, In q adj' /\ same d r q).
Lemma scan_closed f n j adj l : closed adj l -> length l <= j + n -> scan f d n j adj l = Some (adj, l).
Proof.
  intro Hc. revert j. induction n as [|n IH]; intros j Hn; cbn [scan]; destruct (nth_error l j) as [r|] eqn:E; try reflexivity.
  - assert (j < length l) by (apply nth_error_Some; congruence). lia.
  - rewrite (Hc r) by now apply nth_error_In in E. apply IH. lia.
Qed.
Lemma scan_spec f : (forall adj l, length l < f -> exists adj' l', return_adjacent_rec f d adj l = Some (adj', l') /\ outcome adj l adj' l') ->
  forall n j adj l, length l < S f -> length l <= j + n -> (forall i r, i < j -> nth_error l i = Some r -> touched d adj r = false) ->
  exists adj' l', scan f d n j adj l = Some (adj', l') /\ outcome adj l adj' l'.
Proof.
  intros IHf. induction n as [|n IH]; intros j adj l Hl Hn Hpre; cbn [scan]; destruct (nth_error l j) as [r|] eqn:E.
  2, 4: exists adj, l; split; [reflexivity|]; split;
    [intros r Hr; apply In_nth_error in Hr; destruct Hr as [i Hi]; apply (Hpre i r); [|exact Hi];
     apply nth_error_None in E; assert (i < length l) by (apply nth_error_Some; congruence); lia|];
    split; [apply incl_refl|]; split; [apply incl_refl|]; split; [lia|]; split; [intros P H1 _ q Hq; now apply H1|];
    split; [exists []; now rewrite app_nil_r|]; intros _ _ r Hr; now left.
  - assert (j < length l) by (apply nth_error_Some; congruence). lia.
  - assert (Hin : In r l) by now apply nth_error_In in E.
    destruct (touched d adj r) eqn:Et.
    + pose proof (remove_length d r l Hin) as Hrl.
      destruct (IHf (adj ++ [r]) (remove_rule d r l) ltac:(lia)) as [adj2 [l2 [E2 Ho]]]. rewrite E2.
      destruct Ho as [Hc [Hi1 [Hi2 [Hlen [HP [[new Hnew] Hsep]]]]]].
      exists adj2, l2. split; [apply scan_closed; [exact Hc|lia]|].
      split; [exact Hc|]. split; [intros a Ha; apply Hi1, in_app_iff; now left|].
      split; [intros a Ha; apply (remove_incl d r l), Hi2, Ha|]. split; [lia|]. split; [|split].
      * intros P H1 H2 q Hq. apply (HP P); [|intros a b Pa Hb Ht; apply (H2 a b Pa); [now apply (remove_incl d r l)|exact Ht]|exact Hq].
        intros a Ha. apply in_app_iff in Ha. destruct Ha as [Ha|[Ha|[]]]; [now apply H1|]. subst a.
        apply touched_iff in Et. destruct Et as [a [Ha Ht]]. apply (H2 a r (H1 a Ha) Hin Ht).
      * exists ([r] ++ new). rewrite Hnew. now rewrite app_assoc.
      * intros HS Hnm q Hq. assert (Hnr : named d V r) by now apply (proj1 (Forall_forall _ _) Hnm).
        destruct (remove_other d V r l q HS Hnr Hnm Hq) as [H|H].
        -- apply Hsep; [exact HS| |exact H]. apply Forall_forall. intros b Hb. apply (proj1 (Forall_forall _ _) Hnm). now apply (remove_incl d r l).
        -- right. exists r. split; [apply Hi1, in_app_iff; right; now left|exact H].
    + apply IH; [exact Hl|lia|]. intros i q Hi Hq. destruct (Nat.eq_dec i j) as [->|Hne]; [congruence|]. apply (Hpre i q); [lia|exact Hq].
Qed.
Lemma adjacent_spec f : forall adj l, length l < f -> exists adj' l', return_adjacent_rec f d adj l = Some (adj', l') /\ outcome adj l adj' l'.
Proof.
  induction f as [|f IH]; intros adj l Hl; [lia|]. rewrite adjacent_scan. apply scan_spec; [exact IH|exact Hl|lia|]. intros; lia.
Qed.
End Reach.

Lemma touching_same d a a' b b' : same d a a' -> same d b b' -> touching d a b -> touching d a' b'.
Proof.
  intros Ha Hb [k [Hk [Ht Ho]]]. exists k. split; [exact Hk|]. split.
  - specialize (Ha k Hk). specialize (Hb k Hk). destruct Ht as [Ht|Ht]; [left|right]; lra.
  - intros l Hl Hlk. specialize (Ho l Hl Hlk). specialize (Ha l Hl). specialize (Hb l Hl). lra.
Qed.
Lemma same_refl d a : same d a a.
Proof. intros k _. split; reflexivity. Qed.
Lemma same_trans d a b c : same d a b -> same d b c -> same d a c.
Proof. intros H1 H2 k Hk. specialize (H1 k Hk). specialize (H2 k Hk). lra. Qed.

Lemma min_of_spec l : l <> [] -> (forall v, In v l -> (min_of l <= v)%Q) /\ In (min_of l) l.
Proof.
  destruct l as [|a l]; [easy|]. intros _. cbn [min_of].
  assert (H : forall l a, (forall v, v = a \/ In v l -> (fold_left (fun m v => if qltb v m then v else m) l a <= v)%Q) /\
     (fold_left (fun m v => if qltb v m then v else m) l a = a \/ In (fold_left (fun m v => if qltb v m then v else m) l a) l)).
  { clear. induction l as [|b l IH]; intro a; cbn [fold_left].
    - split; [intros v [->|[]]; lra|now left].
    - destruct (qltb_spec b a) as [Q1|Q1].
      + destruct (IH b) as [H1 H2]. pose proof (H1 b (or_introl eq_refl)) as H3. split.
        * intros v [Hv|[Hv|Hv]]; [subst; lra|subst; lra|apply H1; now right].
        * right. destruct H2 as [H2|H2]; [left; now rewrite H2|now right].
      + apply Qnot_lt_le in Q1. destruct (IH a) as [H1 H2]. pose proof (H1 a (or_introl eq_refl)) as H3. split.
        * intros v [Hv|[Hv|Hv]]; [subst; lra|subst; lra|apply H1; now right].
        * destruct H2 as [H2|H2]; [now left|right; now right]. }
  destruct (H l a) as [H1 H2]. split; [intros v [Hv|Hv]; apply H1; [now left|now right]|].
  destruct H2 as [H2|H2]; [left; now rewrite H2|now right].
Qed.
Lemma max_of_spec l : l <> [] -> (forall v, In v l -> (v <= max_of l)%Q) /\ In (max_of l) l.
Proof.
  destruct l as [|a l]; [easy|]. intros _. cbn [max_of].
  assert (H : forall l a, (forall v, v = a \/ In v l -> (v <= fold_left (fun m v => if qltb m v then v else m) l a)%Q) /\
     (fold_left (fun m v => if qltb m v then v else m) l a = a \/ In (fold_left (fun m v => if qltb m v then v else m) l a) l)).
  { clear. induction l as [|b l IH]; intro a; cbn [fold_left].
    - split; [intros v [->|[]]; lra|now left].
    - destruct (qltb_spec a b) as [Q1|Q1].
      + destruct (IH b) as [H1 H2]. pose proof (H1 b (or_introl eq_refl)) as H3. split.
        * intros v [Hv|[Hv|Hv]]; [subst; lra|subst; lra|apply H1; now right].
        * right. destruct H2 as [H2|H2]; [left; now rewrite H2|now right].
      + apply Qnot_lt_le in Q1. destruct (IH a) as [H1 H2]. pose proof (H1 a (or_introl eq_refl)) as H3. split.
        * intros v [Hv|[Hv|Hv]]; [subst; lra|subst; lra|apply H1; now right].
        * destruct H2 as [H2|H2]; [now left|right; now right]. }
  destruct (H l a) as [H1 H2]. split; [intros v [Hv|Hv]; apply H1; [now left|now right]|].
  destruct H2 as [H2|H2]; [left; now rewrite H2|now right].
Qed.

Theorem overapprox_spec rule rules S : exists box, overapprox_rule rule rules S = Some box /\ length box = length S /\
  part_of (map rule S) box /\
  (forall k, k < length S -> exists r, (r = map rule S \/ reached (length S) (map rule S) (map (fun r => map r S) rules) r) /\ (lower box k == lower r k)%Q) /\
  (forall k, k < length S -> exists r, (r = map rule S \/ reached (length S) (map rule S) (map (fun r => map r S) rules) r) /\ (upper box k == upper r k)%Q) /\
  (apart (length S) (map (fun r => map r S) rules) -> encloses (length S) (map rule S) (map (fun r => map r S) rules) box).
Proof.
  unfold overapprox_rule. set (d := length S). set (p := map rule S). set (l := map (fun r => map r S) rules).
  assert (Hlen : @length rec l = length rules) by (unfold l; apply map_length).
  destruct (adjacent_spec d (on_axis l) (1 + length rules) [p] l ltac:(lia)) as [adj [l' [E Ho]]]. rewrite E.
  exists (overapprox_rectangle d adj). split; [reflexivity|]. unfold overapprox_rectangle.
  split; [now rewrite map_length, seq_length|].
  destruct Ho as [Hc [Hi1 [Hi2 [_ [HP [_ Hsep]]]]]].
  assert (Hin : forall q, In q adj -> q = p \/ reached d p l q).
  { apply HP; [intros a [Ha|[]]; now left|]. intros a r [Ha|Ha] Hr Ht; right; [subst; now apply reached_first|now apply (reached_next d p l a)]. }
  assert (Hp : In p adj) by (apply Hi1; now left).
  assert (Hne : forall f : rec -> Q, map f adj <> []) by (intros f H; apply map_eq_nil in H; subst; contradiction).
  assert (Hb : forall k q, k < d -> In q adj -> (min_of (map (fun r => blo r k) adj) <= lower q k)%Q /\ (upper q k <= max_of (map (fun r => bhi r k) adj))%Q).
  { intros k q Hk Hq. split.
    - apply (proj1 (min_of_spec _ (Hne _))). apply in_map_iff. now exists q.
    - apply (proj1 (max_of_spec _ (Hne _))). apply in_map_iff. now exists q. }
  assert (Hlo : forall k, k < d -> exists r, (r = p \/ reached d p l r) /\ (min_of (map (fun r => blo r k) adj) == lower r k)%Q).
  { intros k Hk. pose proof (proj2 (min_of_spec _ (Hne (fun r => blo r k)))) as H. apply in_map_iff in H. destruct H as [q [Eq Hq]].
    exists q. split; [now apply Hin|]. rewrite <- Eq. reflexivity. }
  assert (Hhi : forall k, k < d -> exists r, (r = p \/ reached d p l r) /\ (max_of (map (fun r => bhi r k) adj) == upper r k)%Q).
  { intros k Hk. pose proof (proj2 (max_of_spec _ (Hne (fun r => bhi r k)))) as H. apply in_map_iff in H. destruct H as [q [Eq Hq]].
    exists q. split; [now apply Hin|]. rewrite <- Eq. reflexivity. }
  split; [|split; [|split]].
  - intros k Hk. assert (k < d) by (unfold p in Hk; now rewrite map_length in Hk). rewrite lower_map, upper_map by assumption. cbn. now apply Hb.
  - intros k Hk. rewrite lower_map by exact Hk. cbn. now apply Hlo.
  - intros k Hk. rewrite upper_map by exact Hk. cbn. now apply Hhi.
  - intro Ha. split; [now rewrite map_length, seq_length|]. intros k Hk. rewrite lower_map, upper_map by exact Hk. cbn [fst snd].
    split; [|split; [now apply Hlo|now apply Hhi]].
    assert (Hnm : Forall (named d (on_axis l)) l).
    { apply Forall_forall. intros r Hr. split.
      - apply in_map_iff in Hr. destruct Hr as [q [<- _]]. now rewrite map_length.
      - intros i Hi. split; exists r; (split; [exact Hr|]); [now left|now right]. }
    assert (Hcov : forall r, r = p \/ reached d p l r -> exists q, In q adj /\ same d r q).
    { assert (Hstep : forall a r, (exists q, In q adj /\ same d a q) -> In r l -> touching d a r -> exists q, In q adj /\ same d r q).
      { intros a r [q [Hq Hs]] Hr Ht. destruct (Hsep Ha Hnm r Hr) as [H|H]; [|exact H].
        exfalso. specialize (Hc r H). assert (touched d adj r = true) by (apply touched_iff; exists q; split; [exact Hq|exact (touching_same d a q r r Hs (same_refl d r) Ht)]). congruence. }
      intros r [Hr|Hr]; [subst; exists p; split; [exact Hp|apply same_refl]|].
      induction Hr as [r Hr Ht|q r _ IH Hr Ht]; [apply (Hstep p r); [exists p; split; [exact Hp|apply same_refl]|exact Hr|exact Ht]|now apply (Hstep q r)]. }
    intros r Hr. destruct (Hcov r Hr) as [q [Hq Hs]]. specialize (Hb k q Hk Hq). specialize (Hs k Hk). lra.
Qed.

(** ** Corners *)
Lemma combos_all {A} (l : list A) f : In (filter f l) (combos (length (filter f l)) l).
Proof.
  induction l as [|a l IH]; cbn; [now left|]. destruct (f a); cbn.
  - apply in_app_iff. left. now apply in_map.
  - destruct (length (filter f l)) eqn:E; cbn; [destruct (filter f l); [now left|discriminate]|]. apply in_app_iff. right. exact IH.
Qed.
Lemma filter_in_powerset {A} (l : list A) f : In (filter f l) (powerset l).
Proof.
  unfold powerset. apply in_flat_map. exists (length (filter f l)). split; [|apply combos_all].
  apply in_seq. assert (length (filter f l) <= length l); [|lia].
  induction l as [|a l IH]; cbn; [lia|]. destruct (f a); cbn; lia.
Qed.
Theorem edges_spec d recs c : In c (return_edges d recs) <-> exists r, In r recs /\ corner d r c.
Proof.
  unfold return_edges. rewrite in_flat_map. split.
  - intros [T [_ H]]. apply in_map_iff in H. destruct H as [r [<- Hr]]. exists r. split; [exact Hr|].
    split; [now rewrite map_length, seq_length|]. intros k Hk.
    set (f := fun k : nat => _). rewrite (nth_indep _ 0%Q (f 0)) by now rewrite map_length, seq_length.
    rewrite map_nth, seq_nth by exact Hk. unfold f. cbn [Nat.add]. destruct (memb k T); [now right|now left].
  - intros [r [Hr [Hl Hc]]].
    assert (Hdec : forall k, k < d -> {nth k c 0%Q = lower r k} + {nth k c 0%Q = upper r k}).
    { intros k Hk. assert (Dq : forall a b : Q, {a = b} + {a <> b}) by (decide equality; [apply Pos.eq_dec|apply Z.eq_dec]).
      destruct (Dq (nth k c 0%Q) (lower r k)) as [E|E]; [now left|right]. destruct (Hc k Hk) as [H|H]; [contradiction|exact H]. }
    assert (Hf : exists f : nat -> bool, forall k, k < d -> nth k c 0%Q = if f k then upper r k else lower r k).
    { exists (fun k => match lt_dec k d with left H => match Hdec k H with left _ => false | right _ => true end | right _ => false end).
      intros k Hk. destruct (lt_dec k d) as [H|H]; [|contradiction]. now destruct (Hdec k H). }
    destruct Hf as [f Hf]. exists (filter f (seq 0 d)). split; [apply filter_in_powerset|].
    apply in_map_iff. exists r. split; [|exact Hr].
    apply nth_ext with 0%Q 0%Q; [now rewrite map_length, seq_length|]. rewrite map_length, seq_length. intros k Hk.
    set (g := fun k : nat => _). rewrite (nth_indep _ 0%Q (g 0)) by now rewrite map_length, seq_length.
    rewrite map_nth, seq_nth by exact Hk. unfold g. cbn [Nat.add]. rewrite (Hf k Hk).
    assert (memb k (filter f (seq 0 d)) = f k) as ->; [|reflexivity].
    destruct (f k) eqn:E; [apply memb_true|apply memb_false]; rewrite filter_In, in_seq; [split; [lia|exact E]|intros [_ F]; congruence].
Qed.

(** for the examples: a point outside all the rectangles of a list *)
Lemma outside_check l x : forallb (fun r => existsb (fun k => qleb (x k) (lower r k) || qltb (upper r k) (x k)) (seq 0 (length r))) l = true -> ~ union l x.
Proof.
  rewrite forallb_forall. intros H [r [Hr Hx]]. specialize (H r Hr). apply existsb_exists in H. destruct H as [k [Hk H]]. apply in_seq in Hk.
  specialize (Hx k ltac:(lia)). destruct (qleb_spec (x k) (lower r k)), (qltb_spec (upper r k) (x k)); cbn in H; try discriminate; lra.
Qed.
(** for the examples: a rectangle containing no other of a list *)
Lemma no_superset_check p l : forallb (fun r => negb (is_subset p r)) l = true -> forall r, In r l -> ~ part_of p r.
Proof.
  rewrite forallb_forall. intros H r Hr Hp. specialize (H r Hr). apply is_subset_iff in Hp. rewrite Hp in H. discriminate.
Qed.
(** for the examples: numbers of an axis far from each other *)
Lemma apart_check d l : forallb (fun k => forallb (fun u => forallb (fun v => negb (close_num u v) || qeqb u v)
    (flat_map (fun r => [lower r k; upper r k]) l)) (flat_map (fun r => [lower r k; upper r k]) l)) (seq 0 d) = true -> apart d l.
Proof.
  rewrite forallb_forall. intros H k u v Hk [r [Hr Hu]] [q [Hq Hv]] Hn. specialize (H k ltac:(apply in_seq; lia)). rewrite forallb_forall in H.
  assert (Hu' : In u (flat_map (fun r => [lower r k; upper r k]) l)) by (apply in_flat_map; exists r; split; [exact Hr|destruct Hu as [->| ->]; [now left|right; now left]]).
  assert (Hv' : In v (flat_map (fun r => [lower r k; upper r k]) l)) by (apply in_flat_map; exists q; split; [exact Hq|destruct Hv as [->| ->]; [now left|right; now left]]).
  specialize (H u Hu'). rewrite forallb_forall in H. specialize (H v Hv'). apply close_num_iff in Hn. rewrite Hn in H. cbn in H.
  destruct (qeqb_spec u v); [assumption|discriminate].
Qed.

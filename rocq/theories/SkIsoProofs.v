(** Proofs about the trees of an isolation forest. *)
From Verif Require Import Base TreeModel TreeSpec TreeProofs FlatModel FlatSpec FlatProofs SkModel SkSpec SkProofs.
Local Open Scope nat_scope.

Section Paths.
Variables (t : tree) (d : nat).
Hypothesis Hwf : wf_tree t d = true.

Lemma children_of i : i < nn t -> leaf_node t i = false ->
  i < Z.to_nat (clz t i) < nn t /\ i < Z.to_nat (crz t i) < nn t /\ Z.to_nat (clz t i) <> Z.to_nat (crz t i) /\
  (0 <= clz t i)%Z /\ (0 <= crz t i)%Z.
Proof.
  intros Hi Hl. destruct (wf_internal t d Hwf i Hi Hl) as (H1 & H2 & H3 & _).
  repeat split; try lia.
Qed.
Lemma down_lt k i j : down_path t k i j -> i <= j < nn t.
Proof.
  induction 1 as [i Hi|k i j Hi Hl H IH|k i j Hi Hl H IH]; [lia| |];
    destruct (children_of i Hi Hl) as (H1 & H2 & _); lia.
Qed.
Lemma down_snoc k i j : down_path t (S k) i j -> exists p, down_path t k i p /\ leaf_node t p = false /\
  (j = Z.to_nat (clz t p) \/ j = Z.to_nat (crz t p)).
Proof.
  revert i. induction k as [|k IH]; intros i H; inversion H as [|k' i' j' Hi Hl Hp|k' i' j' Hi Hl Hp]; subst.
  - inversion Hp; subst. exists i. split; [now constructor|]. split; [exact Hl|now left].
  - inversion Hp; subst. exists i. split; [now constructor|]. split; [exact Hl|now right].
  - destruct (IH _ Hp) as (p & H1 & H2 & H3). exists p. split; [now apply dp_left|]. split; assumption.
  - destruct (IH _ Hp) as (p & H1 & H2 & H3). exists p. split; [now apply dp_right|]. split; assumption.
Qed.
Lemma down_step k i p j : down_path t k i p -> leaf_node t p = false -> j < nn t ->
  j = Z.to_nat (clz t p) \/ j = Z.to_nat (crz t p) -> down_path t (S k) i j.
Proof.
  intros H Hl Hj He. induction H as [i Hi|k i q Hi Hl' H IH|k i q Hi Hl' H IH].
  - destruct He as [->|He]; [apply dp_left; try assumption; now constructor|]. subst j.
    apply dp_right; try assumption. now constructor.
  - apply dp_left; try assumption. now apply IH.
  - apply dp_right; try assumption. now apply IH.
Qed.
Lemma parent_unique p q j : p < nn t -> q < nn t -> leaf_node t p = false -> leaf_node t q = false ->
  j = Z.to_nat (clz t p) \/ j = Z.to_nat (crz t p) -> j = Z.to_nat (clz t q) \/ j = Z.to_nat (crz t q) -> p = q.
Proof.
  intros Hp Hq Lp Lq Jp Jq. destruct (children_of p Hp Lp) as (P1 & P2 & _ & P3 & P4).
  destruct (children_of q Hq Lq) as (Q1 & Q2 & _ & Q3 & Q4).
  assert (Hj : 0 < j < nn t) by lia.
  destruct (parent_cases t d Hwf j Hj) as [[i [E1 E2]]|[i [E1 E2]]].
  - assert (forall x, x < nn t -> (0 <= clz t x)%Z -> (0 <= crz t x)%Z -> j = Z.to_nat (clz t x) \/ j = Z.to_nat (crz t x) -> x = i) as K.
    { intros x Hx C1 C2 [E|E].
      - assert (In x (where_eq (cl t) j)) as Hin by (apply (in_where_cl t d Hwf) || apply in_where_cl; split; [exact Hx|lia]).
        rewrite E2 in Hin. contradiction.
      - assert (In x (where_eq (cr t) j)) as Hin by (apply (in_where_cr t d Hwf) || apply in_where_cr; split; [exact Hx|lia]).
        rewrite E1 in Hin. destruct Hin as [->|[]]. reflexivity. }
    rewrite (K p Hp P3 P4 Jp), (K q Hq Q3 Q4 Jq). reflexivity.
  - assert (forall x, x < nn t -> (0 <= clz t x)%Z -> (0 <= crz t x)%Z -> j = Z.to_nat (clz t x) \/ j = Z.to_nat (crz t x) -> x = i) as K.
    { intros x Hx C1 C2 [E|E].
      - assert (In x (where_eq (cl t) j)) as Hin by (apply (in_where_cl t d Hwf) || apply in_where_cl; split; [exact Hx|lia]).
        rewrite E2 in Hin. destruct Hin as [->|[]]. reflexivity.
      - assert (In x (where_eq (cr t) j)) as Hin by (apply (in_where_cr t d Hwf) || apply in_where_cr; split; [exact Hx|lia]).
        rewrite E1 in Hin. contradiction. }
    rewrite (K p Hp P3 P4 Jp), (K q Hq Q3 Q4 Jq). reflexivity.
Qed.
Lemma meet j : forall k k' a b, down_path t k a j -> down_path t k' b j ->
  (exists m, down_path t m a b) \/ (exists m, down_path t m b a).
Proof.
  induction j as [j IH] using lt_wf_ind. intros k k' a b H H'.
  destruct k as [|k]; [inversion H; subst; right; exists k'; exact H'|].
  destruct k' as [|k']; [inversion H'; subst; left; exists (S k); exact H|].
  apply down_snoc in H as (p & P1 & P2 & P3). apply down_snoc in H' as (q & Q1 & Q2 & Q3).
  pose proof (down_lt _ _ _ P1) as Lp. pose proof (down_lt _ _ _ Q1) as Lq.
  assert (p = q) as <- by (apply (parent_unique p q j); try assumption; lia).
  apply (IH p) with (k := k) (k' := k'); try assumption.
  destruct (children_of p (proj2 Lp) P2) as (C1 & C2 & _). lia.
Qed.
Lemma siblings_disjoint c k k' j : c < nn t -> leaf_node t c = false ->
  down_path t k (Z.to_nat (clz t c)) j -> down_path t k' (Z.to_nat (crz t c)) j -> False.
Proof.
  intros Hc Hl H H'. destruct (children_of c Hc Hl) as (C1 & C2 & C3 & _).
  assert (K : forall a b m, a <> b -> c < a -> (b = Z.to_nat (clz t c) \/ b = Z.to_nat (crz t c)) -> down_path t m a b -> False).
  { intros a b m Hab Ha Hb Hm. destruct m as [|m]; [inversion Hm; subst; now apply Hab|].
    apply down_snoc in Hm as (p & P1 & P2 & P3). pose proof (down_lt _ _ _ P1) as Lp.
    assert (p = c) as -> by (apply (parent_unique p c b); try assumption; lia). lia. }
  destruct (meet j _ _ _ _ H H') as [[m Hm]|[m Hm]].
  - apply (K _ _ m) in Hm; try assumption; [lia|now right].
  - apply (K _ _ m) in Hm; try assumption; [congruence|lia|now left].
Qed.
Lemma visits_down z miss l : visits t z miss l -> exists k, down_path t k 0 l.
Proof.
  intro H. pose proof (fun i => visits_lt t d Hwf z miss i) as Hlt. induction H as [|i j H [k IH] Hl Hd].
  - exists 0. constructor. exact (wf_pos t d Hwf).
  - exists (S k). pose proof (Hlt i H) as Hi. destruct (children_of i Hi Hl) as (C1 & C2 & _).
    destruct (wf_internal t d Hwf i Hi Hl) as (_ & _ & _ & _ & Hdf).
    destruct Hd as [Hm|Hm Hx|Hm Hx].
    + apply (down_step k 0 i); try assumption; destruct Hdf as [E|E]; rewrite E; try lia; auto.
    + apply (down_step k 0 i); try assumption; [lia|now left].
    + apply (down_step k 0 i); try assumption; [lia|now right].
Qed.
End Paths.

Section Recalculate.
Variables (apl : Z -> Q) (e : sk) (d : nat).
Let t := splits e.
Hypothesis Hwf : wf_tree t d = true.
Hypothesis Hmark : marked e.
Hypothesis Hpos : forall i, i < length (sk_cl e) -> (0 < nth i (sk_ns e) 0)%Z.
Let ns (i : nat) : Q := inject_Z (nth i (sk_ns e) 0%Z).
Let lc (i : nat) : nat := Z.to_nat (clz t i).
Let rc (i : nat) : nat := Z.to_nat (crz t i).

Lemma ns_pos i : i < nn t -> (0 < ns i)%Q.
Proof.
  intro H. unfold ns. change 0%Q with (inject_Z 0). rewrite <- Zlt_Qlt. apply Hpos. exact H.
Qed.

Definition good (level i : nat) (vals : nat -> Q) : Prop :=
  (forall k j, down_path t k i j -> leaf_node t j = true -> (vals j == Qn (level + k) + apl (nth j (sk_ns e) 0%Z))%Q) /\
  (forall k j, down_path t k i j -> leaf_node t j = false ->
     (vals j == (vals (lc j) * ns (lc j) + vals (rc j) * ns (rc j)) / ns j)%Q).

Lemma recalculate_spec fuel : forall i level vals, i < nn t -> nn t - i <= fuel ->
  exists a vals', recalculate apl fuel e i level vals = Some (a, vals') /\ (a == vals' i * ns i)%Q /\ good level i vals' /\
    (forall j, (forall k, ~ down_path t k i j) -> vals' j = vals j).
Proof.
  induction fuel as [|f IH]; intros i level vals Hi Hf; [lia|]. cbn [recalculate].
  destruct (leaf_node t i) eqn:El.
  - destruct (Hmark i Hi El) as (M1 & M2 & _).
    assert (Hir : i < length (sk_cr e)) by (pose proof (wf_len_cr t d Hwf) as E; unfold t in *; cbn [splits cr] in E; lia).
    rewrite (nth_indep _ (-1)%Z 0%Z) by exact Hi. rewrite (nth_indep (sk_cr e) (-1)%Z 0%Z) by exact Hir.
    rewrite M1, M2. cbn [Z.eqb andb Pos.eqb].
    do 2 eexists. split; [reflexivity|]. split; [|split].
    + rewrite upd_same. reflexivity.
    + split; intros k j Hd Hl.
      * inversion Hd as [|k' i' j' H1 H2 H3|k' i' j' H1 H2 H3]; subst; [|congruence|congruence].
        rewrite upd_same, Nat.add_0_r. reflexivity.
      * inversion Hd as [|k' i' j' H1 H2 H3|k' i' j' H1 H2 H3]; subst; congruence.
    + intros j Hj. rewrite upd_other; [reflexivity|]. intro E. subst j. apply (Hj 0). now constructor.
  - destruct (children_of t d Hwf i Hi El) as (C1 & C2 & C3 & C4 & C5).
    change (nth i (sk_cl e) (-1)%Z) with (clz t i). change (nth i (sk_cr e) (-1)%Z) with (crz t i).
    replace (clz t i =? -1)%Z with false by (symmetry; apply Z.eqb_neq; lia). cbn [andb].
    fold (lc i). fold (rc i).
    destruct (IH (lc i) (S level) vals) as (a & v1 & E1 & A1 & G1 & F1); [unfold lc; lia|unfold lc; lia|].
    rewrite E1.
    destruct (IH (rc i) (S level) v1) as (b & v2 & E2 & A2 & G2 & F2); [unfold rc; lia|unfold rc; lia|].
    rewrite E2. pose proof (ns_pos i Hi) as Hn. rewrite quot_some by (fold (ns i); lra). fold (ns i).
    do 2 eexists. split; [reflexivity|].
    (* what the second call keeps *)
    assert (Keep : forall k j, down_path t k (lc i) j -> v2 j = v1 j).
    { intros k j Hj. apply F2. intros k' Hj'. eapply (siblings_disjoint t d Hwf i); eassumption. }
    assert (Low : forall k j, down_path t k (lc i) j -> j <> i).
    { intros k j Hj. pose proof (down_lt t d Hwf _ _ _ Hj). unfold lc in *. lia. }
    assert (Rig : forall k j, down_path t k (rc i) j -> j <> i).
    { intros k j Hj. pose proof (down_lt t d Hwf _ _ _ Hj). unfold rc in *. lia. }
    assert (Li : down_path t 0 (lc i) (lc i)) by (constructor; unfold lc; lia).
    assert (Ri : down_path t 0 (rc i) (rc i)) by (constructor; unfold rc; lia).
    split; [|split].
    + rewrite upd_same. field. lra.
    + assert (SubL : forall k j, down_path t k (lc i) j -> leaf_node t j = false ->
                down_path t (S k) (lc i) (lc j) /\ down_path t (S k) (lc i) (rc j)).
      { intros k j Hj Hl. pose proof (down_lt t d Hwf _ _ _ Hj) as Hlt.
        destruct (children_of t d Hwf j (proj2 Hlt) Hl) as (D1 & D2 & _).
        split; (apply (down_step t d Hwf k (lc i) j) || apply (down_step t k (lc i) j)); try assumption; unfold lc, rc; auto; lia. }
      assert (SubR : forall k j, down_path t k (rc i) j -> leaf_node t j = false ->
                down_path t (S k) (rc i) (lc j) /\ down_path t (S k) (rc i) (rc j)).
      { intros k j Hj Hl. pose proof (down_lt t d Hwf _ _ _ Hj) as Hlt.
        destruct (children_of t d Hwf j (proj2 Hlt) Hl) as (D1 & D2 & _).
        split; (apply (down_step t d Hwf k (rc i) j) || apply (down_step t k (rc i) j)); try assumption; unfold lc, rc; auto; lia. }
      destruct G1 as [G1a G1b]. destruct G2 as [G2a G2b]. split; intros k j Hd Hl.
      * inversion Hd as [i0 H1|k' i' j' H1 H2 H3|k' i' j' H1 H2 H3]; subst; [congruence| |].
        -- fold (lc i) in H3. rewrite upd_other by now apply (Low _ _ H3). rewrite (Keep _ _ H3).
           rewrite (G1a _ _ H3 Hl). replace (level + S k') with (S level + k') by lia. reflexivity.
        -- fold (rc i) in H3. rewrite upd_other by now apply (Rig _ _ H3).
           rewrite (G2a _ _ H3 Hl). replace (level + S k') with (S level + k') by lia. reflexivity.
      * inversion Hd as [i0 H1|k' i' j' H1 H2 H3|k' i' j' H1 H2 H3]; subst.
        -- rewrite upd_same. rewrite !upd_other by (unfold lc, rc; lia). rewrite A1, A2, (Keep _ _ Li). reflexivity.
        -- fold (lc i) in H3. destruct (SubL _ _ H3 Hl) as [S1 S2].
           rewrite !upd_other; [|now apply (Low _ _ S2)|now apply (Low _ _ S1)|now apply (Low _ _ H3)].
           rewrite (Keep _ _ H3), (Keep _ _ S1), (Keep _ _ S2). exact (G1b _ _ H3 Hl).
        -- fold (rc i) in H3. destruct (SubR _ _ H3 Hl) as [S1 S2].
           rewrite !upd_other; [|now apply (Rig _ _ S2)|now apply (Rig _ _ S1)|now apply (Rig _ _ H3)].
           exact (G2b _ _ H3 Hl).
    + intros j Hj. rewrite upd_other.
      * rewrite F2, F1; [reflexivity| |]; intros k Hk; apply (Hj (S k)); [now apply dp_left|now apply dp_right].
      * intro E. subst j. apply (Hj 0). now constructor.
Qed.
End Recalculate.

Lemma reachable t d j : wf_tree t d = true -> j < nn t -> exists k, down_path t k 0 j.
Proof.
  intro Hwf. induction j as [j IH] using lt_wf_ind. intro Hj.
  destruct (Nat.eq_dec j 0) as [->|Hn]; [exists 0; now constructor|].
  assert (K : forall i, i < nn t -> (clz t i = Z.of_nat j \/ crz t i = Z.of_nat j) -> exists k, down_path t k 0 j).
  { intros i Hi Hc. assert (El : leaf_node t i = false).
    { destruct (leaf_node t i) eqn:El; [|reflexivity]. pose proof (wf_leaf t d Hwf i Hi El).
      unfold leaf_node in El. apply Z.ltb_lt in El. lia. }
    destruct (children_of t d Hwf i Hi El) as (C1 & C2 & _).
    destruct (IH i) as [k Hk]; [lia|exact Hi|]. exists (S k). apply (down_step t k 0 i); try assumption.
    destruct Hc as [E|E]; rewrite E; lia. }
  destruct (parent_cases t d Hwf j ltac:(lia)) as [[i [E1 _]]|[i [_ E1]]].
  - assert (Hin : In i (where_eq (cr t) j)) by (rewrite E1; now left). apply (in_where_cr t d Hwf) in Hin as [Hi Hc].
    apply (K i Hi). now right.
  - assert (Hin : In i (where_eq (cl t) j)) by (rewrite E1; now left). apply (in_where_cl t) in Hin as [Hi Hc].
    apply (K i Hi). now left.
Qed.

(** the column after the recursion *)
Definition iso_vals (apl : Z -> Q) (s : Q) (e : sk) : nat -> Q :=
  match recalculate apl (length (sk_cl e)) e 0 0 (fun i => nth 0 (nth i (m_vl (loaded_of false s e)) []) 0%Q) with
  | Some (_, v) => v
  | None => fun _ => 0%Q
  end.
Definition iso_features (tf fs : list Z) : list Z :=
  map (fun f => if (0 <=? f)%Z then nth (Z.to_nat f) tf 0%Z else f) fs.
Definition iso_of (apl : Z -> Q) (s : Q) (p : sk * list Z) : mtree :=
  let e := fst p in
  mkM (sk_cl e) (sk_cr e) (sk_cl e) (iso_features (snd p) (sk_ft e)) (sk_th e)
      (map (fun i => [(iso_vals apl s e i * s)%Q]) (seq 0 (length (sk_cl e)))).

Lemma iso_vals_good apl s d p : iso_ok d p ->
  exists a, recalculate apl (length (sk_cl (fst p))) (fst p) 0 0 (fun i => nth 0 (nth i (m_vl (loaded_of false s (fst p))) []) 0%Q)
              = Some (a, iso_vals apl s (fst p)) /\ good apl (fst p) 0 0 (iso_vals apl s (fst p)).
Proof.
  intros ((W & _) & Hm & Hp & _ & _). unfold iso_vals.
  destruct (recalculate_spec apl (fst p) _ W Hm Hp (length (sk_cl (fst p))) 0 0
              (fun i => nth 0 (nth i (m_vl (loaded_of false s (fst p))) []) 0%Q)) as (a & v & E & _ & G & _).
  - exact (wf_pos _ _ W).
  - unfold nn. cbn [splits cl]. lia.
  - exists a. rewrite E. split; [reflexivity|exact G].
Qed.

Lemma ft_range d e i : wf_tree (splits e) d = true -> i < length (sk_cl e) -> leaf_node (splits e) i = false ->
  (0 <= nth i (sk_ft e) (-1) < Z.of_nat d)%Z.
Proof.
  intros W Hi Hl. pose proof (wf_node_at (splits e) d W i Hi) as H. unfold wf_node in H. unfold leaf_node in Hl. rewrite Hl in H.
  rewrite !andb_true_iff in H. cbn [splits ft] in H. destruct H as (((((((_ & _) & _) & _) & _) & H1) & H2) & _).
  apply Z.leb_le in H1. apply Z.ltb_lt in H2. lia.
Qed.
Lemma ft_length d e : wf_tree (splits e) d = true -> length (sk_ft e) = length (sk_cl e).
Proof.
  intro W. unfold wf_tree in W. rewrite !andb_true_iff in W. destruct W as (((((((_ & _) & _) & H) & _) & _) & _) & _).
  apply Nat.eqb_eq in H. exact H.
Qed.

Lemma renumber_form d p : iso_ok d p -> renumber (snd p) (sk_ft (fst p)) = Some (iso_features (snd p) (sk_ft (fst p))).
Proof.
  intros ((W & _) & Hm & _ & H2 & _). unfold renumber.
  replace (forallb _ _) with true; [reflexivity|]. symmetry. apply forallb_forall. intros f Hf.
  apply In_nth with (d := (-1)%Z) in Hf as (i & Hi & <-). rewrite (ft_length _ _ W) in Hi.
  destruct (leaf_node (splits (fst p)) i) eqn:El.
  - destruct (Hm i Hi El) as (_ & _ & E). rewrite (nth_indep _ (-1)%Z 0%Z) by (rewrite (ft_length _ _ W); exact Hi).
    rewrite E. apply andb_true_iff. split; [apply Z.leb_le|apply Z.ltb_lt]; lia.
  - pose proof (ft_range _ _ i W Hi El). apply andb_true_iff. split; [apply Z.leb_le|apply Z.ltb_lt]; lia.
Qed.

Lemma rows_form (vals : nat -> Q) (s : Q) (rows : list (list Q)) (o : nat) : (forall r, In r rows -> length r = 1) ->
  scale_rows s (map (fun p => vals (fst p) :: tl (snd p)) (combine (seq o (length rows)) rows))
    = map (fun i => [(vals i * s)%Q]) (seq o (length rows)).
Proof.
  revert o. induction rows as [|r rows IH]; intros o H; [reflexivity|].
  cbn [length seq combine map]. unfold scale_rows in *. cbn [map fst snd]. rewrite IH by (intros; apply H; now right).
  f_equal. assert (E : length r = 1) by (apply H; now left). destruct r as [|a [|b r]]; try discriminate. reflexivity.
Qed.

Lemma load_iso_form apl s d p : iso_ok d p -> load_iso apl s (fst p) (snd p) = Some (iso_of apl s p).
Proof.
  intro H. unfold load_iso. rewrite load_sk_form by apply sums_false.
  destruct (iso_vals_good apl s d p H) as (a & E & _).
  rewrite E. cbn [loaded_of m_ft m_cl m_cr m_cd m_th]. rewrite (renumber_form d p H). unfold iso_of. cbn zeta. f_equal. f_equal.
  destruct H as ((W & L & R) & _).
  rewrite rows_form.
  - cbn [loaded_of m_vl]. rewrite map_length, L. reflexivity.
  - intros r Hr. cbn [loaded_of m_vl] in Hr. apply in_map_iff in Hr as [q [<- Hq]]. unfold row_of. rewrite map_length. now apply R.
Qed.

Lemma iso_feature_at d p i : iso_ok d p -> i < length (sk_cl (fst p)) -> leaf_node (splits (fst p)) i = false ->
  nth i (iso_features (snd p) (sk_ft (fst p))) (-1)%Z = nth (ftn (splits (fst p)) i) (snd p) 0%Z /\
  (0 <= nth (ftn (splits (fst p)) i) (snd p) 0 < Z.of_nat d)%Z.
Proof.
  intros ((W & _) & _ & _ & _ & Hr) Hi El. pose proof (ft_range _ _ i W Hi El) as Hf.
  unfold iso_features. rewrite (nth_map_in _ _ _ (-1)%Z) by (rewrite (ft_length _ _ W); exact Hi).
  rewrite (proj2 (Z.leb_le 0 _)) by lia. split; [reflexivity|]. apply Hr. apply nth_In. unfold ftn. cbn [splits ft]. lia.
Qed.

Lemma iso_wf apl s d p : iso_ok d p -> well_formed d 1 (iso_of apl s p).
Proof.
  intro H. split.
  - pose proof H as ((W & L & R) & _). unfold as_tree, iso_of. cbn [m_cl m_cr m_cd m_ft m_th m_vl].
    set (e := fst p) in *. unfold wf_tree in *. cbn [splits cr cd ft th vl nn cl] in W. unfold nn in *. cbn [cl splits cr cd ft th vl] in *.
    rewrite !andb_true_iff in W. destruct W as (((((((W1 & W2) & W3) & W4) & W5) & W6) & W7) & W8).
    rewrite !andb_true_iff. repeat split; try assumption.
    + unfold iso_features. rewrite map_length. exact W4.
    + rewrite !map_length, seq_length. apply Nat.eqb_refl.
    + rewrite forallb_forall in *. intros i Hi. specialize (W7 i Hi). apply in_seq in Hi.
      assert (Hi' : i < length (sk_cl (fst p))) by (unfold e in Hi; lia).
      destruct (leaf_node (splits (fst p)) i) eqn:El.
      * unfold wf_node in *. unfold clz, crz in *. cbn [cl cr splits] in *. unfold leaf_node, clz in El. cbn [splits cl] in El.
        fold e in El. rewrite El in *. exact W7.
      * destruct (iso_feature_at d p i H Hi' El) as [E1 E2]. fold e in E1, E2.
        unfold wf_node in *. unfold clz, crz, cdz, nn in *. cbn [cl cr cd ft splits] in *. unfold leaf_node, clz in El. cbn [splits cl] in El.
        fold e in El. rewrite El in *. rewrite !andb_true_iff in *. destruct W7 as (((((((V1 & V2) & V3) & V4) & V5) & V6) & V7) & V8).
        repeat split; try assumption; rewrite E1; [apply Z.leb_le|apply Z.ltb_lt]; lia.
  - intros r Hr. unfold iso_of in Hr. cbn [m_vl] in Hr. apply in_map_iff in Hr as [i [<- _]]. reflexivity.
Qed.

Definition iso_land (X : nat -> pt) (miss : nat -> nat -> bool) (i : nat) (p : sk * list Z) (l : nat) : Prop :=
  lands (splits (fst p)) (through (snd p) (X i)) (through (snd p) (miss i)) l.

Lemma iso_source apl s d n X miss p : iso_ok d p ->
  fits_source (sk * list Z) (iso_land X miss) (fun _ p l => (s * iso_vals apl s (fst p) l)%Q) 1 d n X miss p (iso_of apl s p).
Proof.
  intro H. split; [now apply iso_wf|]. intros i r Hi (l & Hv & Hl & ->). exists l.
  pose proof (iso_wf apl s d p H) as [W' _].
  assert (Hv' : visits (splits (fst p)) (through (snd p) (X i)) (through (snd p) (miss i)) l).
  { revert Hv. apply visits_agree; [intro j; repeat split|]. intros j Hvj Hj.
    pose proof (visits_lt _ _ W' _ _ _ Hvj) as Hlt. unfold nn in Hlt. cbn [as_tree iso_of m_cl cl] in Hlt.
    assert (El : leaf_node (splits (fst p)) j = false) by exact Hj.
    destruct (iso_feature_at d p j H Hlt El) as [E1 _].
    unfold through. unfold ftn at 1 3. cbn [as_tree iso_of m_ft ft]. rewrite E1. split; reflexivity. }
  split; [split; [exact Hv'|exact Hl]|]. intros k Hk. assert (k = 0) as -> by lia.
  pose proof (visits_lt _ _ (proj1 (proj1 H)) _ _ _ Hv') as Hlt. unfold nn in Hlt. cbn [splits cl] in Hlt.
  unfold iso_of. cbn [m_vl]. rewrite (nth_map_in _ _ _ 0) by now rewrite seq_length.
  rewrite seq_nth by exact Hlt. cbn [nth Nat.add]. ring.
Qed.

Theorem isolation_predict apl es d n M X miss fuel :
  es <> [] -> (forall p, In p es -> iso_ok d p) -> d <= M ->
  (forall p, In p es -> length (sk_cl (fst p)) <= fuel) ->
  (Z.of_nat (length es) * Z.of_nat fuel <= 2 ^ 32)%Z -> (Z.of_nat d <= 2 ^ 32)%Z ->
  exists o, model_predict apl (IsoForest es) fuel n M X miss = Some o /\ len o = Z.of_nat n /\
    forall i, i < n -> exists vs,
      Forall2 (fun p v => path_length apl (fst p) (through (snd p) (X i)) (through (snd p) (miss i)) v) es vs /\
      (get o (Z.of_nat i) == sumf (fun v => v) vs / Qn (length es))%Q.
Proof.
  intros Hne Hok HM H1 H2 H3. assert (Hl : 0 < length es) by (destruct es; [congruence|cbn; lia]).
  unfold model_predict. cbn [load_model]. rewrite (average_some _ Hl). set (s := (1 / Qn (length es))%Q).
  assert (Es : (s == 1 / Qn (length es))%Q) by reflexivity. clearbody s.
  rewrite (all_some_map _ (iso_of apl s)) by (intros p Hp; apply (load_iso_form apl s d); now apply Hok).
  cbn [l_trees l_stacked l_offset].
  assert (Lv : forall p, length (m_vl (iso_of apl s p)) = length (sk_cl (fst p)))
    by (intro p; unfold iso_of; cbn [m_vl]; now rewrite map_length, seq_length).
  destruct (general_source (sk * list Z) es (map (iso_of apl s) es) (iso_land X miss) (fun _ p l => (s * iso_vals apl s (fst p) l)%Q)
              (Scalar 0) 1 d n M fuel X miss) as (o & Eo & Lo & Ho).
  - clear - Hok. induction es as [|p es IH]; [constructor|]. cbn [map]. constructor.
    + apply iso_source. apply Hok. now left.
    + apply IH. intros; apply Hok; now right.
  - intro E. destruct es; [congruence|discriminate].
  - lia.
  - intros p i l l' Hp Ha Hb. eapply lands_det; [exact (proj1 (proj1 (Hok p Hp)))|exact Ha|exact Hb].
  - exact HM.
  - exact I.
  - exists fuel. split; [|rewrite map_length; lia]. intros m Hm. apply in_map_iff in Hm as [p [<- Hp]]. rewrite Lv. now apply H1.
  - intros m Hm. apply in_map_iff in Hm as [p [<- Hp]]. rewrite Lv. now apply H1.
  - exists o. split; [exact Eo|]. split; [rewrite Lo; lia|]. intros i Hi. destruct (Ho i Hi) as (ls & Hls & H).
    exists (map (fun q => iso_vals apl s (fst (fst q)) (snd q)) (combine es ls)). split.
    + clear - Hls Hok. induction Hls as [|p l ps ls Hpl Hr IH]; [constructor|]. cbn [combine map]. constructor.
      * cbn [fst snd]. pose proof (Hok p (or_introl eq_refl)) as Hp. destruct (iso_vals_good apl s d p Hp) as (a & _ & G & _).
        destruct (visits_down _ _ (proj1 (proj1 Hp)) _ _ _ (proj1 Hpl)) as [k Hk].
        exists l, k. split; [exact Hpl|]. split; [exact Hk|]. exact (G k l Hk (proj2 Hpl)).
      * apply IH. intros; apply Hok; now right.
    + specialize (H 0 ltac:(lia)). rewrite Z.mul_1_r, Z.add_0_r in H. rewrite H, sumf_map. cbn [offset_of].
      rewrite sumf_scal. assert (0 < Qn (length es))%Q by now apply Qn_pos. rewrite Es. field. lra.
Qed.

(** inner nodes hold the mean of their leaves *)
Theorem isolation_nodes apl s d p m j : iso_ok d p -> samples (fst p) -> load_iso apl s (fst p) (snd p) = Some m ->
  j < length (sk_cl (fst p)) -> leaf_node (splits (fst p)) j = false ->
  let value i := nth 0 (nth i (m_vl m) []) 0%Q in
  let count i := inject_Z (nth i (sk_ns (fst p)) 0%Z) in
  let l := Z.to_nat (nth j (sk_cl (fst p)) (-1)%Z) in
  let r := Z.to_nat (nth j (sk_cr (fst p)) (-1)%Z) in
  (count j == count l + count r)%Q /\ (value j * count j == value l * count l + value r * count r)%Q.
Proof.
  intros H Hs Hm Hj El. rewrite (load_iso_form apl s d p H) in Hm. injection Hm as <-. cbv zeta.
  destruct Hs as (_ & _ & S3). split.
  - rewrite (S3 j Hj El), inject_Z_plus. reflexivity.
  - destruct (iso_vals_good apl s d p H) as (a & _ & _ & G).
    pose proof (proj1 (proj1 H)) as W. destruct (reachable _ _ j W Hj) as [k Hk]. specialize (G k j Hk El).
    destruct (children_of _ _ W j Hj El) as (C1 & C2 & _). unfold clz, crz, nn in *. cbn [splits cl cr] in *.
    assert (V : forall i, i < length (sk_cl (fst p)) -> nth 0 (nth i (m_vl (iso_of apl s p)) []) 0%Q = (iso_vals apl s (fst p) i * s)%Q).
    { intros i Hi. unfold iso_of. cbn [m_vl]. rewrite (nth_map_in _ _ _ 0) by now rewrite seq_length.
      rewrite seq_nth by exact Hi. reflexivity. }
    rewrite !V by lia. rewrite G.
    pose proof (proj1 (proj2 (proj2 H)) j Hj) as Hp.
    assert (0 < inject_Z (nth j (sk_ns (fst p)) 0%Z))%Q by (change 0%Q with (inject_Z 0); rewrite <- Zlt_Qlt; exact Hp).
    field. lra.
Qed.

Theorem isolation_one_feature apl es p d : In p es -> wf_tree (splits (fst p)) d = true -> marked (fst p) ->
  length (snd p) <= 1 -> load_model apl (IsoForest es) = None.
Proof.
  intros Hp W Hm Hl.
  assert (E : forall s, load_iso apl s (fst p) (snd p) = None).
  { intro s. unfold load_iso. rewrite load_sk_form by apply sums_false. destruct (recalculate _ _ _ _ _ _) as [[a v]|]; [|reflexivity].
    cbn [loaded_of m_ft]. unfold renumber. replace (forallb _ _) with false; [reflexivity|].
    symmetry. destruct (forallb _ _) eqn:F; [|reflexivity]. exfalso. rewrite forallb_forall in F.
    destruct (walk_total (splits (fst p)) d W (fun _ => 0%Q) no_missing (nn (splits (fst p))) 0 (wf_pos _ _ W) ltac:(lia)) as (l & _ & Hlt & El).
    destruct (Hm l Hlt El) as (_ & _ & Ef).
    assert (Hin : In (-2)%Z (sk_ft (fst p))).
    { rewrite <- Ef. apply nth_In. rewrite (ft_length _ _ W). exact Hlt. }
    specialize (F _ Hin). apply andb_true_iff in F as [F _]. apply Z.leb_le in F. lia. }
  cbn [load_model]. destruct (average (length es)) as [s|]; [|reflexivity].
  replace (all_some _) with (@None (list mtree)); [reflexivity|]. symmetry.
  destruct (all_some _) as [ts|] eqn:A; [|reflexivity]. exfalso. apply all_some_iff in A.
  assert (Hin : In (load_iso apl s (fst p) (snd p)) (map Some ts)).
  { rewrite <- A. apply (in_map (fun p => load_iso apl s (fst p) (snd p))). exact Hp. }
  rewrite E in Hin. apply in_map_iff in Hin as [x [Hx _]]. discriminate.
Qed.

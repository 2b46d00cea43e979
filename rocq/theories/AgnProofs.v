(** Proofs for AgnModel.v. *)
From Verif Require Import Base TreeModel TreeSpec TreeProofs RfModel RfSpec RfProofs RfTreeProofs SkModel ApiModel ApiSpec ApiProofs AgnModel AgnSpec.
Local Open Scope nat_scope.

Lemma written_lt e n T : written e n T -> n < length (sk_cl e). Proof. now destruct 1. Qed.
Lemma nth_any {A} n (l : list A) a b : n < length l -> nth n l a = nth n l b.
Proof. apply nth_indep. Qed.

Section One.
Variables (d w : nat) (e : sk) (T : rtree).
Hypothesis He : holds d w e T.
Notation t := (ranger_tree e).

Lemma h_root : written e 0 T. Proof. apply He. Qed.
Lemma h_cr : length (sk_cr e) = nn t. Proof. destruct He as (_ & L & _). apply L. Qed.
Lemma h_ft : length (sk_ft e) = nn t. Proof. destruct He as (_ & L & _). apply L. Qed.
Lemma h_th : length (sk_th e) = nn t. Proof. destruct He as (_ & L & _). apply L. Qed.
Lemma h_vl : length (sk_value e) = nn t. Proof. destruct He as (_ & L & _). apply L. Qed.
Lemma h_all i : i < nn t -> exists T', written e i T' /\ forall c, In c (columns T') -> c < d. Proof. destruct He as (_ & _ & _ & H & _). apply H. Qed.

Lemma ft_at i : i < nn t -> nth i (ft t) (-1)%Z = mended e i.
Proof.
  intro Hi. cbn [ranger_tree ft]. rewrite (nth_any i _ (-1)%Z (mended e 0)) by (rewrite map_length, seq_length, h_ft; exact Hi).
  rewrite map_nth, seq_nth by (rewrite h_ft; exact Hi). reflexivity.
Qed.
Lemma leaf_written i T' : written e i T' -> (leaf_node t i = true <-> T' = Leaf) /\ (leaf_node t i = true -> clz t i = (-1)%Z /\ crz t i = (-1)%Z /\ mended e i = (-2)%Z).
Proof.
  intro Hw. pose proof (written_lt _ _ _ Hw) as Hi. unfold leaf_node, clz, crz. cbn [ranger_tree cl cr].
  destruct Hw as [n _ Hl Hr Hf|n c q i j l r _ Hl Hr Hi' Hj _ _ _ _ _];
    rewrite (nth_any n (sk_cl e) (-1)%Z 0%Z Hi), Hl, (nth_any n (sk_cr e) (-1)%Z 0%Z) by (rewrite h_cr; exact Hi); rewrite Hr.
  - split; [split; reflexivity|]. intros _. split; [reflexivity|]. split; [reflexivity|].
    unfold mended. rewrite (nth_any n (sk_ft e) (-1)%Z 0%Z) by (rewrite h_ft; exact Hi). rewrite Hf.
    rewrite (nth_any n (sk_cl e) (-1)%Z 0%Z Hi), Hl, (nth_any n (sk_cr e) (-1)%Z 0%Z) by (rewrite h_cr; exact Hi). rewrite Hr. reflexivity.
  - split; [split; [intro H; lia|discriminate]|intro H; lia].
Qed.
Lemma fork_written n c q l r : written e n (Fork c q l r) -> exists i j,
  clz t n = Z.of_nat i /\ crz t n = Z.of_nat j /\ n < i < nn t /\ n < j < nn t /\ i <> j /\ thq t n = q /\ nth n (ft t) (-1)%Z = Z.of_nat c /\
  written e i l /\ written e j r.
Proof.
  intro Hw. pose proof (written_lt _ _ _ Hw) as Hi. inversion Hw as [|? ? ? i j ? ? _ Hl Hr Hni Hnj Hij Hq Hf Wl Wr]; subst.
  pose proof (written_lt _ _ _ Wl) as Hil. pose proof (written_lt _ _ _ Wr) as Hjl.
  exists i, j. unfold clz, crz, thq. cbn [ranger_tree cl cr th].
  assert (Ecl : nth n (sk_cl e) (-1)%Z = Z.of_nat i) by (rewrite (nth_any n (sk_cl e) (-1)%Z 0%Z Hi); exact Hl).
  assert (Ecr : nth n (sk_cr e) (-1)%Z = Z.of_nat j) by (rewrite (nth_any n (sk_cr e) (-1)%Z 0%Z) by (rewrite h_cr; exact Hi); exact Hr).
  split; [exact Ecl|]. split; [exact Ecr|].
  split; [split; assumption|]. split; [split; assumption|]. split; [exact Hij|]. split; [reflexivity|]. split; [|split; assumption].
  change (nth n (map (mended e) (seq 0 (length (sk_ft e)))) (-1)%Z) with (nth n (ft t) (-1)%Z). rewrite (ft_at n Hi). unfold mended.
  rewrite (nth_any n (sk_ft e) (-1)%Z 0%Z) by (rewrite h_ft; exact Hi). rewrite Ecl, Ecr. destruct Hf as [->|[-> ->]].
  - rewrite (proj2 (Z.eqb_neq (Z.of_nat c) (-2))) by lia. reflexivity.
  - rewrite (proj2 (Z.eqb_neq (Z.of_nat i) (-1))) by lia. reflexivity.
Qed.
Lemma inner_written n T' : written e n T' -> leaf_node t n = false -> exists c q l r, T' = Fork c q l r.
Proof. intros Hw Hl. destruct T' as [|c q l r]; [|now exists c, q, l, r]. apply leaf_written in Hw. destruct Hw as [[_ H] _]. rewrite H in Hl by reflexivity. discriminate. Qed.

Lemma where_count (l : list Z) j : length (where_eq l j) = count_occ Z.eq_dec l (Z.of_nat j).
Proof.
  unfold where_eq. assert (G : forall (l0 : list Z) k (g : nat -> Z), (forall i, i < length l0 -> g (k + i) = nth i l0 (-1)%Z) ->
    length (filter (fun i => (g i =? Z.of_nat j)%Z) (seq k (length l0))) = count_occ Z.eq_dec l0 (Z.of_nat j)).
  { induction l0 as [|a l0 IH]; intros k g H; [reflexivity|]. cbn [length seq filter].
    pose proof (H 0 ltac:(cbn; lia)) as H0. rewrite Nat.add_0_r in H0. cbn in H0. rewrite H0.
    assert (IH' : length (filter (fun i => (g i =? Z.of_nat j)%Z) (seq (S k) (length l0))) = count_occ Z.eq_dec l0 (Z.of_nat j)).
    { apply IH. intros i Hi. specialize (H (S i) ltac:(cbn; lia)). replace (S k + i) with (k + S i) by lia. exact H. }
    destruct (Z.eq_dec a (Z.of_nat j)) as [->|Ne].
    - rewrite Z.eqb_refl. rewrite count_occ_cons_eq by reflexivity. cbn [length]. now rewrite IH'.
    - rewrite (proj2 (Z.eqb_neq _ _) Ne). rewrite count_occ_cons_neq by exact Ne. exact IH'. }
  apply (G l 0 (fun i => nth i l (-1)%Z)). reflexivity.
Qed.

Lemma ranger_wf : wf_tree t d = true.
Proof.
  pose proof (written_lt _ _ _ h_root) as Hp. unfold wf_tree. rewrite !andb_true_iff. repeat split.
  - apply Nat.ltb_lt. exact Hp.
  - apply Nat.eqb_eq. exact h_cr.
  - apply Nat.eqb_eq. reflexivity.
  - apply Nat.eqb_eq. cbn [ranger_tree ft]. now rewrite map_length, seq_length, h_ft.
  - apply Nat.eqb_eq. exact h_th.
  - apply Nat.eqb_eq. cbn [ranger_tree vl]. unfold reshape. now rewrite !map_length, h_vl.
  - apply forallb_forall. intros i Hi. apply in_seq in Hi. destruct (h_all i ltac:(lia)) as (T' & Hw & Hc). unfold wf_node.
    destruct (clz t i <? 0)%Z eqn:El.
    + destruct (leaf_written i T' Hw) as [_ H]. destruct (H El) as (_ & -> & _). reflexivity.
    + destruct (inner_written i T' Hw El) as (c & q & l & r & ->). destruct (fork_written i c q l r Hw) as (a & b & E1 & E2 & Ha & Hb & Hab & _ & E3 & _).
      specialize (Hc c (or_introl eq_refl)). unfold cdz. cbn [ranger_tree cd]. fold (clz t i). change (nth i (sk_cl e) (-1)%Z) with (clz t i). rewrite E1, E2, E3.
      rewrite !andb_true_iff, orb_true_iff, negb_true_iff. repeat split; try lia.
  - apply forallb_forall. intros j Hj. apply in_seq in Hj. apply Nat.eqb_eq. rewrite !where_count. cbn [ranger_tree cl cr].
    destruct He as (_ & _ & _ & _ & H). apply H. unfold nn in Hj. cbn [ranger_tree cl] in Hj. lia.
Qed.
Lemma ranger_plain : plain_leaves t.
Proof.
  intros i Hi Hl. destruct (h_all i Hi) as (T' & Hw & _). destruct (leaf_written i T' Hw) as [_ H]. destruct (H Hl) as (A & B & C).
  split; [exact A|]. split; [exact B|]. rewrite (ft_at i Hi), C. lia.
Qed.

Lemma height_room n T' : written e n T' -> n + height T' < nn t.
Proof.
  induction 1 as [n Hn _ _ _|n c q i j l r Hn _ _ Hi Hj _ _ _ _ IHl _ IHr]; cbn [height]; [unfold nn; cbn [ranger_tree cl]; lia|]. lia.
Qed.
Lemma below_height T' : forall n f, written e n T' -> height T' <= f -> depth_below f t n = height T'.
Proof.
  induction T' as [|c q l IHl r IHr]; intros n f Hw Hf.
  - destruct f; [reflexivity|]. cbn [depth_below]. destruct (leaf_written n Leaf Hw) as [[_ A] B]. destruct (B (A eq_refl)) as (_ & -> & _). reflexivity.
  - cbn [height] in *. destruct f as [|f]; [lia|]. cbn [depth_below]. destruct (fork_written n c q l r Hw) as (i & j & -> & -> & _ & _ & _ & _ & _ & Wl & Wr).
    rewrite (proj2 (Z.leb_le 0 (Z.of_nat j))) by lia. rewrite !Nat2Z.id. rewrite (IHl i f Wl), (IHr j f Wr) by lia. reflexivity.
Qed.
Lemma ranger_depth : tree_depth t = height T.
Proof. unfold tree_depth. apply below_height; [exact h_root|]. pose proof (height_room 0 T h_root). lia. Qed.

Section Sides.
Variables (Sv : list nat) (x z : pt).
Lemma sides_down T' : forall n, written e n T' -> reached t Sv x n -> same_sides t Sv x z -> together Sv T' x z = true.
Proof.
  induction T' as [|c q l IHl r IHr]; intros n Hw Hr Hs; [reflexivity|]. cbn [together].
  destruct (fork_written n c q l r Hw) as (i & j & E1 & E2 & Hi & Hj & _ & E3 & E4 & Wl & Wr).
  assert (Hl : leaf_node t n = false). { unfold leaf_node. rewrite E1. lia. }
  assert (Hc : ftn t n = c). { unfold ftn. rewrite E4. lia. }
  assert (Ll : (In c Sv -> (x c <= q)%Q) -> reached t Sv x i). { intro H. replace i with (Z.to_nat (clz t n)) by lia. apply rch_left; [exact Hr|exact Hl|]. rewrite Hc, E3. exact H. }
  assert (Lr : (In c Sv -> (q < x c)%Q) -> reached t Sv x j). { intro H. replace j with (Z.to_nat (crz t n)) by lia. apply rch_right; [exact Hr|exact Hl|]. rewrite Hc, E3. exact H. }
  destruct (in_dec Nat.eq_dec c Sv) as [Hin|Hin].
  - pose proof (Hs n Hr Hl) as Hn. rewrite Hc, E3 in Hn. specialize (Hn Hin).
    destruct (Qlt_le_dec q (x c)) as [A|A]; destruct (Qlt_le_dec q (z c)) as [B|B].
    + apply (IHr j Wr); [|assumption]. apply Lr. intros _. exact A.
    + exfalso. apply Hn in B. lra.
    + exfalso. apply Hn in A. lra.
    + apply (IHl i Wl); [|assumption]. apply Ll. intros _. exact A.
  - rewrite (IHl i Wl), (IHr j Wr); try assumption; [reflexivity| |]; [apply Lr|apply Ll]; intro; contradiction.
Qed.
Lemma together_at i : together Sv T x z = true -> reached t Sv x i -> exists T', written e i T' /\ together Sv T' x z = true.
Proof.
  intro HT. induction 1 as [|i Hr IH Hl Hf|i Hr IH Hl Hf]; [exists T; split; [exact h_root|exact HT]| |].
  - destruct IH as (T' & Hw & Ht). destruct (inner_written i T' Hw Hl) as (c & q & l & r & ->).
    destruct (fork_written i c q l r Hw) as (a & b & E1 & E2 & _ & _ & _ & E3 & E4 & Wl & Wr). rewrite E1, Nat2Z.id. exists l. split; [exact Wl|].
    assert (Hc : ftn t i = c). { unfold ftn. rewrite E4. lia. } rewrite Hc, E3 in Hf. cbn [together] in Ht.
    destruct (in_dec Nat.eq_dec c Sv) as [Hin|Hin].
    + specialize (Hf Hin). destruct (Qlt_le_dec q (x c)); [exfalso; lra|]. destruct (Qlt_le_dec q (z c)); [discriminate|exact Ht].
    + apply andb_true_iff in Ht. apply Ht.
  - destruct IH as (T' & Hw & Ht). destruct (inner_written i T' Hw Hl) as (c & q & l & r & ->).
    destruct (fork_written i c q l r Hw) as (a & b & E1 & E2 & _ & _ & _ & E3 & E4 & Wl & Wr). rewrite E2, Nat2Z.id. exists r. split; [exact Wr|].
    assert (Hc : ftn t i = c). { unfold ftn. rewrite E4. lia. } rewrite Hc, E3 in Hf. cbn [together] in Ht.
    destruct (in_dec Nat.eq_dec c Sv) as [Hin|Hin].
    + specialize (Hf Hin). destruct (Qlt_le_dec q (x c)); [|exfalso; lra]. destruct (Qlt_le_dec q (z c)); [exact Ht|discriminate].
    + apply andb_true_iff in Ht. apply Ht.
Qed.
Lemma sides_together : same_sides t Sv x z <-> together Sv T x z = true.
Proof.
  split; [apply (sides_down T 0 h_root); constructor|]. intros HT i Hr Hl Hin. destruct (together_at i HT Hr) as (T' & Hw & Ht).
  destruct (inner_written i T' Hw Hl) as (c & q & l & r & ->). destruct (fork_written i c q l r Hw) as (a & b & _ & _ & _ & _ & _ & E3 & E4 & _).
  assert (Hc : ftn t i = c). { unfold ftn. rewrite E4. lia. } rewrite Hc in *. rewrite E3. cbn [together] in Ht.
  destruct (in_dec Nat.eq_dec c Sv); [|contradiction].
  destruct (Qlt_le_dec q (x c)); destruct (Qlt_le_dec q (z c)); try discriminate; split; intro; lra || assumption.
Qed.
End Sides.

(** in a tree without early leaves the walk never leaves the tree *)
Lemma bushy_path k T' : forall n i m, written e n T' -> bushy k T' -> down_path t m n i -> leaf_node t i = true -> k <= m.
Proof.
  revert k. induction T' as [|c q l IHl r IHr]; intros [|k] n i m Hw Hp Hd Hl; cbn [bushy] in Hp; try contradiction; try lia.
  destruct (fork_written n c q l r Hw) as (a & b & E1 & E2 & _ & _ & _ & _ & _ & Wl & Wr). inversion Hd as [? ?|? ? ? ? Hf Hd'|? ? ? ? Hf Hd']; subst.
  - unfold leaf_node in Hl. rewrite E1 in Hl. lia.
  - rewrite E1, Nat2Z.id in Hd'. apply le_n_S. apply (IHl k a i _ Wl (proj1 Hp) Hd' Hl).
  - rewrite E2, Nat2Z.id in Hd'. apply le_n_S. apply (IHr k b i _ Wr (proj2 Hp) Hd' Hl).
Qed.
Lemma cell_sides_bushy R Sv depth x z : stores t R -> height T <= depth -> bushy (depth - 1) T -> (same_cell R Sv depth x z <-> same_sides t Sv x z).
Proof.
  intros Hst Hh Hp. pose proof ranger_wf as Hwf. pose proof ranger_plain as Hpl. split.
  - intros H i Hr Hl Hf. destruct (reached_met t d Hwf R Sv Hst x i Hr) as (k & Hd & Hm). pose proof (reached_lt t d Hwf Sv x i Hr) as Hi.
    destruct (Hst i Hi) as [_ [<- _]]. apply (H k (Z.of_nat i)); [|exact Hm|apply (internal_splits t d Hwf R Sv Hst i (ftn t i) Hi Hl); auto].
    destruct (child_left t d Hwf R Hst i Hi Hl) as [_ Hc].
    assert (Hs : down_path t (S k) 0 (Z.to_nat (clz t i))) by (apply dp_snoc_left; auto; lia).
    apply (proj1 (tree_depth_exact t d Hwf)) in Hs. rewrite ranger_depth in Hs. lia.
  - intros H k n f Hk Hm Hs. destruct (met_weak t d Hwf Hpl R Sv Hst x k n Hm) as [(i & -> & Hi & Hr & Hd)|(k' & l & Hk' & Hl & Hlf & Hr & Hd)].
    + destruct (leaf_node t i) eqn:El; [exfalso; now apply (leaf_splits t Hpl R Sv Hst i f Hi El)|].
      apply (internal_splits t d Hwf R Sv Hst i f Hi El) in Hs. destruct Hs as [-> Hf]. destruct (Hst i Hi) as [_ [-> _]]. now apply H.
    + pose proof (bushy_path (depth - 1) T 0 l k' h_root Hp Hd Hlf). lia.
Qed.
End One.

(** ** The object *)
Lemma height_tallest Ts T : In T Ts -> height T <= tallest Ts.
Proof. unfold tallest. induction Ts as [|A Ts IH]; [intros []|]. cbn. intros [->|H]; [lia|]. specialize (IH H). lia. Qed.

Section Objects.
Variables (d w : nat).
Lemma deepest_tallest es Ts : Forall2 (holds d w) es Ts -> deepest (map ranger_tree es) = tallest Ts.
Proof. unfold deepest, tallest. induction 1 as [|e T es Ts H _ IH]; [reflexivity|]. cbn [map fold_right]. rewrite (ranger_depth d w e T H). f_equal. exact IH. Qed.
Lemma outputs_w e T : holds d w e T -> outputs e = w.
Proof.
  intro H. destruct H as (Hr & (_ & _ & _ & Hv) & Hw & _). pose proof (written_lt _ _ _ Hr) as Hn. unfold outputs, reshape.
  destruct (sk_value e) as [|v vs]; [cbn in Hv; lia|]. cbn. apply Hw. now left.
Qed.
Lemma known_ok e T : holds d w e T -> exists ls, known_leaves d (ranger_tree e) = Some ls /\ length ls = length (leaf_idx (ranger_tree e)).
Proof.
  intro H. pose proof (ranger_wf d w e T H) as Hw. destruct (tree_leaves_total _ _ Hw) as [ls Hls]. exists ls. unfold known_leaves. rewrite Hls.
  unfold tree_leaves in Hls. destruct (leaves_from_nth _ _ _ Hls) as [Hlen Hn]. split; [|exact Hlen].
  assert (G : forallb (fun l => forallb (fun s => s <? d) (l_vars l)) ls = true).
  { apply forallb_forall. intros l Hl. destruct (In_nth_error _ _ Hl) as [k Hk]. specialize (Hn k).
    destruct (nth_error (leaf_idx (ranger_tree e)) k) as [i|] eqn:Ei; [|congruence]. rewrite Hk in Hn. apply nth_error_In in Ei.
    destruct (leaf_vars_exact _ _ Hw i l Ei Hn) as (_ & _ & H3 & _). apply forallb_forall. intros s Hs. apply Nat.ltb_lt. now apply H3. }
  now rewrite G.
Qed.
Lemma some_leaf e T : holds d w e T -> 0 < length (leaf_idx (ranger_tree e)).
Proof.
  intro H. pose proof (ranger_wf d w e T H) as Hw.
  destruct (leaf_below (ranger_tree e) d Hw [] (fun _ => 0%Q) (nn (ranger_tree e)) 0 ltac:(lia) (rch_root _ _ _)) as (l & Hl & Hlf & _).
  assert (Hin : In l (leaf_idx (ranger_tree e))). { unfold leaf_idx. apply filter_In. split; [apply in_seq; lia|exact Hlf]. }
  destruct (leaf_idx (ranger_tree e)); [destruct Hin|cbn; lia].
Qed.
Lemma one_leaf e : holds d w e Leaf -> length (leaf_idx (ranger_tree e)) = 1.
Proof.
  intro H. pose proof (some_leaf e Leaf H) as Hp. pose proof H as (Hr & _). pose proof (ranger_wf d w e Leaf H) as Hw.
  destruct (leaf_written d w e Leaf H 0 Leaf Hr) as [[_ A] _]. specialize (A eq_refl).
  assert (G : forall i, 0 < i < nn (ranger_tree e) -> False).
  { intros i Hi. pose proof H as (_ & _ & _ & Ha & Hc).
    assert (K : forall k i, i < nn (ranger_tree e) -> 0 < i -> i <= k -> False).
    { induction k as [|k IH]; intros i' Hi' Hp' Hk; [lia|]. specialize (Hc i' (conj Hp' Hi')).
      assert (E : exists n, n < nn (ranger_tree e) /\ (clz (ranger_tree e) n = Z.of_nat i' \/ crz (ranger_tree e) n = Z.of_nat i')).
      { assert (D : count_occ Z.eq_dec (sk_cl e) (Z.of_nat i') > 0 \/ count_occ Z.eq_dec (sk_cr e) (Z.of_nat i') > 0) by lia.
        destruct D as [D|D]; apply count_occ_In in D; destruct (In_nth _ _ (-1)%Z D) as (n & Hn & En); exists n.
        - split; [exact Hn|left; exact En].
        - split; [rewrite (h_cr d w e Leaf H) in Hn; exact Hn|right; exact En]. }
      destruct E as (n & Hn & En). destruct (Ha n Hn) as (T' & Wn & _).
      assert (Hln : leaf_node (ranger_tree e) n = false).
      { destruct (leaf_node (ranger_tree e) n) eqn:El; [|reflexivity]. exfalso.
        destruct (leaf_written d w e Leaf H n T' Wn) as [_ B]. destruct (B El) as (B1 & B2 & _). lia. }
      destruct (wf_internal _ _ Hw n Hn Hln) as (L1 & L2 & _).
      destruct n as [|n]; [congruence|]. apply (IH (S n)); lia. }
    apply (K i i); lia. }
  unfold leaf_idx in *. assert (E : seq 0 (nn (ranger_tree e)) = [0]).
  { pose proof (written_lt _ _ _ Hr) as Hn. fold (nn (ranger_tree e)) in Hn. change (length (sk_cl e)) with (nn (ranger_tree e)) in Hn.
    destruct (nn (ranger_tree e)) as [|[|n]] eqn:En; [lia|reflexivity|]. exfalso. apply (G 1). lia. }
  rewrite E in *. cbn [filter] in *. destruct (is_leaf (ranger_tree e) 0); [reflexivity|cbn in Hp; lia].
Qed.

Lemma two_leaves e c q l r : holds d w e (Fork c q l r) -> 2 <= length (leaf_idx (ranger_tree e)).
Proof.
  intro H. pose proof (ranger_wf d w e _ H) as Hw. pose proof (some_leaf e _ H) as Hp. pose proof (h_root d w e _ H) as Hr.
  destruct (le_lt_dec 2 (length (leaf_idx (ranger_tree e)))) as [|Hlt]; [assumption|]. exfalso.
  set (x := fun _ : nat => q). set (z := fun _ : nat => (q + 1)%Q).
  assert (Hs : same_leaves (ranger_tree e) [c] x z).
  { intros i Hi Hl.
    destruct (leaf_below (ranger_tree e) d Hw [c] x (nn (ranger_tree e)) 0 ltac:(lia) (rch_root _ _ _)) as (a & Ha & La & Ra & _).
    destruct (leaf_below (ranger_tree e) d Hw [c] z (nn (ranger_tree e)) 0 ltac:(lia) (rch_root _ _ _)) as (b & Hb & Lb & Rb & _).
    assert (K : forall u, u < nn (ranger_tree e) -> leaf_node (ranger_tree e) u = true -> In u (leaf_idx (ranger_tree e))).
    { intros u Hu Lu. unfold leaf_idx. apply filter_In. split; [apply in_seq; lia|exact Lu]. }
    pose proof (K a Ha La) as Ia. pose proof (K b Hb Lb) as Ib. pose proof (K i Hi Hl) as Ii.
    destruct (leaf_idx (ranger_tree e)) as [|u [|v us]]; cbn in Hp, Hlt; try lia. cbn in Ia, Ib, Ii.
    destruct Ia as [<-|[]], Ib as [<-|[]], Ii as [<-|[]]. split; intro; assumption. }
  apply (sides_leaves (ranger_tree e) d Hw [c]) in Hs. apply (sides_together d w e _ H) in Hs. cbn [together] in Hs.
  destruct (in_dec Nat.eq_dec c [c]) as [_|N]; [|apply N; now left]. unfold x, z in Hs.
  destruct (Qlt_le_dec q q) as [L|L]; [lra|]. destruct (Qlt_le_dec q (q + 1)) as [L2|L2]; [discriminate|lra].
Qed.

Lemma each_ok es Ts : Forall2 (holds d w) es Ts -> exists ls, each_leaves d (map ranger_tree es) = Some ls /\
  map (@length leaf) ls = map (fun e => length (leaf_idx (ranger_tree e))) es.
Proof.
  induction 1 as [|e T es Ts H _ IH]; [now exists []|]. destruct IH as (ls & E1 & E2). destruct (known_ok e T H) as (k & K1 & K2).
  exists (k :: ls). cbn [map each_leaves]. rewrite K1, E1. split; [reflexivity|]. cbn [map]. now rewrite K2, E2.
Qed.
Lemma outputs_all es Ts e0 T0 : Forall2 (holds d w) es Ts -> holds d w e0 T0 -> forallb (fun e' => outputs e' =? outputs e0) es = true.
Proof.
  intros H H0. rewrite (outputs_w e0 T0 H0). apply forallb_forall. intros e He. apply Nat.eqb_eq.
  induction H as [|e1 T1 es Ts H1 _ IH]; [destruct He|]; destruct He as [->|He]; [exact (outputs_w _ _ H1)|auto].
Qed.
Lemma last_map {A B} (f : A -> B) l a : l <> [] -> last (map f l) (f a) = f (last l a).
Proof. induction l as [|b l IH]; [congruence|]. intros _. destruct l as [|c l]; [reflexivity|]. change (last (map f (c :: l)) (f a) = f (last (c :: l) a)). apply IH. discriminate. Qed.
Lemma max_var_ok es Ts ls : es <> [] -> Forall2 (holds d w) es Ts -> map (@length leaf) ls = map (fun e => length (leaf_idx (ranger_tree e))) es ->
  exists mv, max_var (map (map (fun l => length (l_vars l))) ls) = Some mv.
Proof.
  intros Hne HF E. unfold max_var, last_list. assert (Hl : ls <> []). { intros ->. destruct es; [congruence|discriminate]. }
  change ([] : list nat) with (map (fun l : leaf => length (l_vars l)) []). rewrite last_map by exact Hl.
  assert (G : forall l, In l ls -> l <> []).
  { intros l Hin ->. apply (in_map (@length leaf)) in Hin. rewrite E in Hin. apply in_map_iff in Hin. destruct Hin as (e & He & Hin).
    change (length (leaf_idx (ranger_tree e)) = 0) in He. clear - HF He Hin. induction HF as [|e1 T1 es Ts H1 _ IH]; [destruct Hin|]; destruct Hin as [->|Hin]; [pose proof (some_leaf _ _ H1); lia|auto]. }
  assert (Hin : In (last ls []) ls). { destruct (exists_last Hl) as (l' & a & ->). rewrite last_last. apply in_or_app. right. now left. }
  specialize (G _ Hin). destruct (last ls []) as [|a r]; [congruence|]. cbn [map]. eexists. reflexivity.
Qed.
Lemma build_ok es Ts : es <> [] -> Forall2 (holds d w) es Ts -> d <> 1 \/ (forall T, In T Ts -> T = Leaf) ->
  exists o, build d es = Some o /\ n_trees o = map ranger_tree es /\ n_outputs o = w /\ n_depth o = tallest Ts.
Proof.
  intros Hne HF Hd. destruct (each_ok es Ts HF) as (ls & E1 & E2). destruct (max_var_ok es Ts ls Hne HF E2) as (mv & E3).
  assert (E4 : boxes_fit d ls = true).
  { unfold boxes_fit. destruct Hd as [Hd|Hd]; [now rewrite (proj2 (Nat.eqb_neq d 1) Hd)|]. apply orb_true_iff. right. apply forallb_forall. intros l Hl.
    apply Nat.eqb_eq. apply (in_map (@length leaf)) in Hl. rewrite E2 in Hl. apply in_map_iff in Hl. destruct Hl as (e & <- & He).
    clear - HF He Hd. induction HF as [|e1 T1 es Ts H1 _ IH]; [destruct He|]; destruct He as [->|He].
    - rewrite (Hd T1 (or_introl eq_refl)) in H1. now apply one_leaf.
    - apply IH; [|exact He]. intros T HT. apply Hd. now right. }
  destruct es as [|e es]; [congruence|]. inversion HF as [|? T ? Ts' H HF']; subst. unfold build.
  rewrite (outputs_all (e :: es) (T :: Ts') e T HF H). rewrite E1, E4, E3. eexists. split; [reflexivity|]. split; [reflexivity|].
  split; [cbn [n_outputs]; exact (outputs_w e T H)|]. exact (deepest_tallest _ _ HF).
Qed.
Lemma build_one_column es Ts : d = 1 -> Forall2 (holds d w) es Ts -> (exists T, In T Ts /\ T <> Leaf) -> build d es = None.
Proof.
  intros Hd HF (T & HT & HnT). destruct (each_ok es Ts HF) as (ls & E1 & E2). unfold build. destruct es as [|e es]; [reflexivity|].
  rewrite E1. destruct (forallb _ (e :: es)); [|reflexivity].
  assert (E4 : boxes_fit d ls = false).
  { unfold boxes_fit. rewrite Hd. cbn [Nat.eqb negb orb]. destruct (forallb _ ls) eqn:Ef; [|reflexivity]. exfalso. rewrite forallb_forall in Ef.
    assert (G : exists e', In e' (e :: es) /\ 2 <= length (leaf_idx (ranger_tree e'))).
    { clear - HF HT HnT. revert HF. generalize (e :: es). intros l HF. induction HF as [|e1 T1 l Ts H1 _ IH]; [destruct HT|]; destruct HT as [->|HT].
      - exists e1. split; [now left|]. destruct T as [|c q lt rt]; [congruence|]. apply (two_leaves _ c q lt rt H1).
      - destruct (IH HT) as (e' & A & B). exists e'. split; [now right|exact B]. }
    destruct G as (e' & A & B). apply (in_map (fun e => length (leaf_idx (ranger_tree e)))) in A. rewrite <- E2 in A.
    apply in_map_iff in A. destruct A as (l & A & Hl). specialize (Ef l Hl). apply Nat.eqb_eq in Ef. lia. }
  now rewrite E4.
Qed.
End Objects.

(** ** One observation *)
Lemma forall2_len {A B} (P : A -> B -> Prop) l k : Forall2 P l k -> length l = length k.
Proof. induction 1; cbn; congruence. Qed.
Lemma holds_nth d w es Ts : Forall2 (holds d w) es Ts -> forall b, b < length Ts ->
  exists e, nth b (map ranger_tree es) t0' = ranger_tree e /\ holds d w e (nth b Ts Leaf).
Proof.
  induction 1 as [|e T es' Ts' H _ IH]; intros b Hb; [cbn in Hb; lia|]. destruct b as [|b]; [now exists e|].
  cbn [length] in Hb. destruct (IH b ltac:(lia)) as (e' & E1 & E2). now exists e'.
Qed.
Lemma forall2_left {A B} (P : A -> B -> Prop) l k a : Forall2 P l k -> In a l -> exists b, In b k /\ P a b.
Proof. induction 1 as [|u v l k H _ IH]; [intros []|]. intros [->|Hi]; [exists v; split; [now left|exact H]|]. destruct (IH Hi) as (b & Hb & Hp). exists b. split; [now right|exact Hp]. Qed.
Section Obs.
Variables (d w : nat) (es : list sk) (Ts : list rtree) (stray : row).
Hypothesis HF : Forall2 (holds d w) es Ts.
Variables (D : list pt) (Sv : list nat) (x : pt) (m : nat).
Notation ts := (map ranger_tree es).
Notation M := (dense ts stray).
Notation data := (fun j => nth j D (fun _ => 0%Q)).
Notation N := (length D).
Notation depth := (tallest Ts).
Hypothesis Hsafe : safe stray Sv Ts.

Lemma len_Ts : length es = length Ts. Proof. exact (forall2_len _ es Ts HF). Qed.
Lemma len_trees : F_trees M = length Ts. Proof. cbn [dense F_trees]. now rewrite map_length, len_Ts. Qed.
Lemma holds_at b : b < length Ts -> exists e, nth b ts t0' = ranger_tree e /\ holds d w e (nth b Ts Leaf).
Proof. exact (holds_nth d w es Ts HF b). Qed.
Lemma wf_all t : In t ts -> wf_tree t d = true.
Proof. intro H. apply in_map_iff in H. destruct H as (e & <- & He). destruct (forall2_left _ _ _ e HF He) as (T & _ & H). exact (ranger_wf d w _ _ H). Qed.
Lemma plain_all t : In t ts -> plain_leaves t.
Proof. intro H. apply in_map_iff in H. destruct H as (e & <- & He). destruct (forall2_left _ _ _ e HF He) as (T & _ & H). exact (ranger_plain d w _ _ H). Qed.

Lemma cell_together b z : b < length Ts -> (same_cell (row_of M b) Sv depth x z <-> together Sv (nth b Ts Leaf) x z = true).
Proof.
  intro Hb. destruct (holds_at b Hb) as (e & Ee & He). rewrite <- (sides_together d w e _ He).
  assert (Hb' : b < length ts) by (rewrite map_length, len_Ts; exact Hb).
  pose proof (dense_stores ts stray d wf_all plain_all b Hb') as Hst. rewrite Ee in Hst.
  assert (Hh : tree_depth (ranger_tree e) <= depth). { rewrite (ranger_depth d w e _ He). apply height_tallest. now apply nth_In. }
  destruct (Nat.eq_dec b 0) as [->|Hb0]; [destruct Hsafe as [Hs|Hs]|].
  - apply (cell_sides (ranger_tree e) d (ranger_wf d w e _ He) (ranger_plain d w e _ He) (row_of M 0) Sv Hst); [|exact Hh].
    apply (dense_dead ts stray d wf_all plain_all 0 Sv Hb'). now right.
  - rewrite (ranger_depth d w e _ He) in Hh. exact (cell_sides_bushy d w e _ He (row_of M 0) Sv depth x z Hst Hh Hs).
  - apply (cell_sides (ranger_tree e) d (ranger_wf d w e _ He) (ranger_plain d w e _ He) (row_of M b) Sv Hst); [|exact Hh].
    apply (dense_dead ts stray d wf_all plain_all b Sv Hb'). left. lia.
Qed.

Hypothesis Hm : forall T, In T Ts -> m <= length (mates Sv T x D).
Notation sl := (sel M (rls data Sv x) m depth N).
Lemma sel_mates b : b < length Ts -> sl b = mates Sv (nth b Ts Leaf) x D.
Proof.
  intro Hb. assert (Hle : m <= length (sl b)).
  { eapply Nat.le_trans; [exact (Hm _ (nth_In Ts Leaf Hb))|]. apply NoDup_incl_length; [apply NoDup_filter, seq_NoDup|].
    intros j Hj. unfold mates in Hj. apply filter_In in Hj. destruct Hj as [Hj Hj2]. apply in_seq in Hj.
    apply (sel_cell M data N depth m Sv x b j ltac:(lia)). now apply cell_together. }
  pose proof (sel_cell_iff M data N depth m Sv x b Hle) as Hiff. destruct (sel_is_filter M data N depth m Sv x b) as [p Hp]. rewrite Hp in Hiff |- *.
  unfold mates. apply (filter_seq_eq data). intro j. etransitivity; [apply Hiff|]. rewrite filter_In, in_seq, (cell_together b _ Hb). intuition lia.
Qed.

Lemma add_tree_mean n ind l acc : (add_tree n ind l acc == acc + mean_over ind l / Qn n)%Q.
Proof.
  unfold add_tree. rewrite (fold_sum (fun i => (1 / Qn (n * length l) * ind i)%Q)). apply Qplus_inj_l. rewrite sumf_scal. unfold mean_over.
  destruct (Nat.eq_dec n 0) as [->|Hn]; [cbn; unfold Qdiv; change (/ Qn 0)%Q with 0%Q; ring|].
  destruct (Nat.eq_dec (length l) 0) as [E|Hl].
  - destruct l; [|discriminate]. cbn. unfold Qdiv. ring.
  - rewrite Qn_mult. field. split; (apply Qn_neq0; assumption).
Qed.
Lemma sum_nth {A} (f : A -> Q) (l : list A) a : (sumf f l == sumf (fun b => f (nth b l a)) (seq 0 (length l)))%Q.
Proof.
  induction l as [|c l IH]; [reflexivity|]. cbn [length seq]. rewrite !sumf_cons. cbn [nth]. rewrite <- seq_shift, sumf_map. rewrite IH. reflexivity.
Qed.
Lemma forest_mean ind : (forest M (rls data Sv x) m depth N ind == mean_over (fun T => mean_over ind (mates Sv T x D)) Ts)%Q.
Proof.
  unfold forest. assert (G : forall trees acc, (forall b, In b trees -> b < length Ts) ->
    (fold_left (fun acc b => add_tree (F_trees M) ind (selected M (rls data Sv x) m depth N b) acc) trees acc ==
     acc + sumf (fun b => mean_over ind (mates Sv (nth b Ts Leaf) x D) / Qn (length Ts)) trees)%Q).
  { induction trees as [|b trees IH]; intros acc Hb; [cbn; ring|]. cbn [fold_left]. rewrite IH by (intros; apply Hb; now right).
    rewrite add_tree_mean, sumf_cons, len_trees. change (selected M (rls data Sv x) m depth N b) with (sl b). rewrite (sel_mates b) by (apply Hb; now left). ring. }
  rewrite G by (intros b Hb; apply in_seq in Hb; rewrite len_trees in Hb; lia). rewrite len_trees.
  unfold mean_over at 2. unfold Qdiv at 1 2. rewrite sumf_scal_r, (sum_nth (fun T => mean_over ind (mates Sv T x D)) Ts Leaf). ring.
Qed.
Lemma weights_mean j : j < N -> (fw M (rls data Sv x) m depth N j ==
  mean_over (fun T => if together Sv T x (data j) then 1 / Qn (length (mates Sv T x D)) else 0) Ts)%Q.
Proof.
  intro Hj. unfold fw, weight. rewrite len_trees. unfold mean_over, Qdiv at 1. rewrite (sum_nth _ Ts Leaf), <- sumf_scal_r. apply sumf_ext.
  intros b Hb. apply in_seq in Hb. unfold wt. rewrite (sel_mates b) by lia.
  assert (E : memb j (mates Sv (nth b Ts Leaf) x D) = together Sv (nth b Ts Leaf) x (data j)).
  { destruct (together Sv (nth b Ts Leaf) x (data j)) eqn:Et.
    - apply memb_true. unfold mates. apply filter_In. split; [apply in_seq; lia|exact Et].
    - apply memb_false. unfold mates. rewrite filter_In. intros [_ K]. congruence. }
  rewrite E. destruct (together Sv (nth b Ts Leaf) x (data j)) eqn:Et; [|ring].
  assert (Hl : length (mates Sv (nth b Ts Leaf) x D) <> 0).
  { apply memb_true in E. destruct (mates Sv (nth b Ts Leaf) x D); [destruct E|discriminate]. }
  rewrite Qn_mult. field. split; (apply Qn_neq0; lia).
Qed.
Lemma rule_together ind z : (forall f, In f Sv -> (- big < z f <= big)%Q) ->
  (in_rule Sv (snd (fst (forest_rule M (rls data Sv x) m depth N ind))) z <-> forall T, In T Ts -> together Sv T x z = true).
Proof.
  intro Hz. rewrite (forest_rule_rule M data true zinsert (dec_obs Sv x) (rls data Sv x) (Hrl data Sv x) m depth N ind).
  rewrite <- (p_eq M data (fun _ => 0%Q) N depth m true 0 0 Sv x 0). split.
  - intros H T HT. destruct (In_nth Ts T Leaf HT) as (b & Hb & <-). apply (cell_together b z Hb).
    apply (rule_exact M data (fun _ => 0%Q) N depth m true 0 0 Sv x 0 z); [|exact H|rewrite len_trees; exact Hb].
    intros b' Hb'. rewrite len_trees in Hb'. rewrite (sel_mates b' Hb'). apply Hm. now apply nth_In.
  - intro H. apply rule_wide; [exact Hz|]. intros b Hb. rewrite len_trees in Hb. apply (cell_together b z Hb). apply H. now apply nth_In.
Qed.
Lemma rule_free ind f : ~ In f Sv -> snd (fst (forest_rule M (rls data Sv x) m depth N ind)) f = ((- big)%Q, big).
Proof.
  intro Hf. rewrite (forest_rule_rule M data true zinsert (dec_obs Sv x) (rls data Sv x) (Hrl data Sv x) m depth N ind).
  rewrite <- (p_eq M data (fun _ => 0%Q) N depth m true 0 0 Sv x 0). now apply rule_untouched.
Qed.
End Obs.

(** ** The methods *)
Lemma nth_map_seq {A} (f : nat -> A) n i a : i < n -> nth i (map f (seq 0 n)) a = f i.
Proof. intro H. rewrite (nth_any i _ a (f 0)) by (rewrite map_length, seq_length; exact H). rewrite map_nth, seq_nth by exact H. reflexivity. Qed.
Lemma mean_ext {A} (f g : A -> Q) l : (forall a, (f a == g a)%Q) -> (mean_over f l == mean_over g l)%Q.
Proof. intro H. unfold mean_over. rewrite (sumf_ext f g l) by (intros; apply H). reflexivity. Qed.
Lemma measured_same classifier yx t0 t1 down up Y j :
  (ind_same classifier yx t0 t1 (fun j => nth j Y 0%Q) j == measured sdp_rf classifier yx t0 t1 down up (nth j Y 0%Q))%Q.
Proof. unfold ind_same, measured, agrees. destruct classifier; unfold qeqb, qleb; [destruct (Qeq_bool _ _)|destruct (Qle_bool t0 _), (Qle_bool _ t1)]; reflexivity. Qed.
Lemma measured_diff classifier yx t0 t1 down up Y j :
  (ind_diff classifier yx t0 t1 (fun j => nth j Y 0%Q) j == measured ddp_rf classifier yx t0 t1 down up (nth j Y 0%Q))%Q.
Proof. unfold ind_diff, measured, agrees. destruct classifier; unfold qeqb, qleb; [destruct (Qeq_bool _ _)|destruct (Qle_bool t0 _), (Qle_bool _ t1)]; reflexivity. Qed.
Lemma measured_cdp classifier yx t0 t1 down up Y j :
  (ind_cdp classifier yx down up (fun j => nth j Y 0%Q) j == measured cdp_rf classifier yx t0 t1 down up (nth j Y 0%Q))%Q.
Proof. unfold ind_cdp, measured, agrees. destruct classifier; unfold qeqb, qleb; [destruct (Qeq_bool _ _)|destruct (Qle_bool down _), (Qle_bool _ up)]; reflexivity. Qed.

Section Call.
Variables (d w : nat) (es : list sk) (Ts : list rtree) (stray : row) (classifier : bool) (q : pt -> Q * Q).
Hypothesis Hne : es <> [].
Hypothesis HF : Forall2 (holds d w) es Ts.
Hypothesis Hd : d <> 1 \/ (forall T, In T Ts -> T = Leaf).
Variables (r : routine) (a : args) (l : list (list nat)) (D : list pt) (Y : list Q) (m : nat) (t : targ) (sched : list nat) (lev : nat -> Q * Q).
Notation ts := (map ranger_tree es).
Notation M := (dense ts stray).
Notation data := (fun j => nth j D (fun _ => 0%Q)).
Notation ys := (fun j => nth j Y 0%Q).
Notation N := (length D).
Notation depth := (tallest Ts).
Notation X i := (nth i (g_X a) (fun _ => 0%Q)).
Notation Si i := (nth i l []).

Lemma explain_acx : table (g_X a) (g_y a) -> table D Y -> documented r a l ->
  explain d es stray classifier q r a D Y m t sched = Some (acx M depth classifier q r a D Y m t sched).
Proof.
  intros [A1 A2] [B1 B2] (C1 & C2 & _). destruct (build_ok d w es Ts Hne HF Hd) as (o & E1 & E2 & _ & E3). unfold explain.
  assert (K : forall (P : list pt) (Q : list Q), length P = length Q -> P <> [] -> checked P Q = true).
  { intros P Q E Hn. unfold checked. rewrite E, Nat.eqb_refl. destruct P; [congruence|]. cbn [andb]. apply Nat.ltb_lt. cbn in *. lia. }
  rewrite (K _ _ A1 A2), (K _ _ B1 B2). cbn [andb negb]. rewrite C1. cbn [s_len]. rewrite C2, Nat.eqb_refl, andb_false_r, E1, E2, E3. reflexivity.
Qed.

Lemma row_of_due x yx down up Sv box t0 t1 : plain_routine r -> safe stray Sv Ts -> (forall T, In T Ts -> m <= length (mates Sv T x D)) ->
  let v := due M data ys N depth m classifier r x yx down up Sv box t0 t1 in
  (fst (fst v) == mean_over (fun T => mean_over (fun j => measured r classifier yx t0 t1 down up (nth j Y 0)) (mates Sv T x D)) Ts)%Q /\
  (ruled r -> (forall z, moderate Sv z -> (in_rule Sv (snd (fst v)) z <-> forall T, In T Ts -> together Sv T x z = true)) /\
     forall f, ~ In f Sv -> snd (fst v) f = ((- big)%Q, big)) /\
  (weighted r -> forall j, j < N -> (snd v j ==
     mean_over (fun T => if together Sv T x (nth j D (fun _ => 0%Q)) then 1 / Qn (length (mates Sv T x D)) else 0) Ts)%Q).
Proof.
  intros Hr Hs Hm. cbv zeta.
  assert (V : forall ind, (forest M (rls data Sv x) m depth N ind == mean_over (fun T => mean_over ind (mates Sv T x D)) Ts)%Q)
    by exact (forest_mean d w es Ts stray HF D Sv x m Hs Hm).
  assert (P : forall ind, fst (fst (forest_rule M (rls data Sv x) m depth N ind)) = forest M (rls data Sv x) m depth N ind)
    by (intro ind; apply (forest_rule_prob M data true zinsert (dec_obs Sv x) (rls data Sv x) (Hrl data Sv x))).
  assert (R : forall ind, (forall z, moderate Sv z -> (in_rule Sv (snd (fst (forest_rule M (rls data Sv x) m depth N ind))) z <-> forall T, In T Ts -> together Sv T x z = true)) /\
     forall f, ~ In f Sv -> snd (fst (forest_rule M (rls data Sv x) m depth N ind)) f = ((- big)%Q, big)).
  { intro ind. split; [intros z Hz; exact (rule_together d w es Ts stray HF D Sv x m Hs Hm ind z Hz)|exact (rule_free es Ts stray D Sv x m ind)]. }
  assert (W : forall ind j, j < N -> (snd (forest_rule M (rls data Sv x) m depth N ind) j ==
     mean_over (fun T => if together Sv T x (nth j D (fun _ => 0%Q)) then 1 / Qn (length (mates Sv T x D)) else 0) Ts)%Q).
  { intros ind j Hj. rewrite (forest_rule_weights M data true zinsert (dec_obs Sv x) (rls data Sv x) (Hrl data Sv x)).
    exact (weights_mean d w es Ts stray HF D Sv x m Hs Hm j Hj). }
  assert (VM : forall ind g, (forall j, (ind j == g j)%Q) -> (forest M (rls data Sv x) m depth N ind == mean_over (fun T => mean_over g (mates Sv T x D)) Ts)%Q).
  { intros ind g H. rewrite V. apply mean_ext. intro T. apply mean_ext. exact H. }
  assert (Ss := measured_same classifier yx t0 t1 down up Y). assert (Sd := measured_diff classifier yx t0 t1 down up Y). assert (Sc := measured_cdp classifier yx t0 t1 down up Y).
  assert (NR : forall (L : list routine), ~ In r L -> In r L -> False) by (intros L H H'; exact (H H')).
  unfold plain_routine in Hr. cbn [In] in Hr.
  destruct Hr as [E|[E|[E|[E|[E|[E|[E|[E|[E|[]]]]]]]]]]; rewrite <- E in *; cbn [due fst snd];
    (split; [|split; [unfold ruled; cbn [In]; intro Hru|unfold weighted; cbn [In]; intro Hwe]]);
    try (exfalso; clear - Hru; decompose [or] Hru; (discriminate || contradiction));
    try (exfalso; clear - Hwe; decompose [or] Hwe; (discriminate || contradiction));
    try (apply R); try (intros j Hj; now apply W).
  - unfold compute_sdp_rf. change (fun R0 => rf_step R0 Sv x data) with (rfs data Sv x); rewrite (plain_rule M data). now apply VM.
  - unfold compute_ddp_rf. change (fun R0 => rf_step R0 Sv x data) with (rfs data Sv x); rewrite (plain_rule M data). now apply VM.
  - unfold compute_cdp_rf. change (fun R0 => rf_step R0 Sv x data) with (rfs data Sv x); rewrite (plain_rule M data). now apply VM.
  - unfold compute_exp_rf. change (fun R0 => rf_step R0 Sv x data) with (rfs data Sv x); rewrite (plain_rule M data). apply VM. intro j. reflexivity.
  - unfold compute_sdp_rule_weights. change (fun R0 => rule_step R0 Sv x data) with (rls data Sv x). rewrite P. now apply VM.
  - unfold compute_ddp_rule_weights. change (fun R0 => rule_step R0 Sv x data) with (rls data Sv x). rewrite P. now apply VM.
  - unfold compute_cdp_rule_weights. change (fun R0 => rule_step R0 Sv x data) with (rls data Sv x). rewrite P. now apply VM.
  - unfold compute_ddp_rule_weights. change (fun R0 => rule_step R0 Sv x data) with (rls data Sv x). rewrite P. now apply VM.
  - unfold compute_cdp_rule_weights. change (fun R0 => rule_step R0 Sv x data) with (rls data Sv x). rewrite P. now apply VM.
Qed.

Lemma explain_rows : plain_routine r -> table (g_X a) (g_y a) -> table D Y -> documented r a l -> own_levels classifier q (g_X a) t lev ->
  complete (S (length Ts)) (length (g_X a)) sched ->
  (forall i, i < length (g_X a) -> safe stray (Si i) Ts) -> enough m (g_X a) l D Ts ->
  exists res, explain d es stray classifier q r a D Y m t sched = Some (Returned res) /\
    length (r_sdp res) = length (g_X a) /\
    (forall i, i < length (g_X a) -> (nth i (r_sdp res) 0 ==
       mean_over (fun T => mean_over (fun j => measured r classifier (nth i (g_y a) 0) (fst (lev i)) (snd (lev i)) (nth i (g_down a) 0) (nth i (g_up a) 0) (nth j Y 0))
                                     (mates (Si i) T (X i) D)) Ts)%Q) /\
    (ruled r -> exists ps, r_rules res = Some ps /\ length ps = length (g_X a) /\ forall i, i < length (g_X a) ->
       (forall z, moderate (Si i) z -> (in_rule (Si i) (nth i ps rule0) z <-> forall T, In T Ts -> together (Si i) T (X i) z = true)) /\
       forall f, ~ In f (Si i) -> nth i ps rule0 f = ((- big)%Q, big)) /\
    (weighted r -> exists ws, r_weights res = Some ws /\ length ws = length (g_X a) /\ forall i j, i < length (g_X a) -> j < length D ->
       (nth i ws (fun _ => 0) j == mean_over (fun T => if together (Si i) T (X i) (nth j D (fun _ => 0)) then 1 / Qn (length (mates (Si i) T (X i) D)) else 0) Ts)%Q).
Proof.
  intros Hr Ht1 Ht2 Hdoc Hlev Hc Hs Hen.
  assert (Hacx : acx_routine r). { unfold plain_routine in Hr. unfold acx_routine. cbn [In] in *. tauto. }
  assert (HT : F_trees M = length Ts) by exact (len_trees d w es Ts stray HF). rewrite <- HT in Hc.
  destruct (acx_rows M depth classifier q r a l D Y m t sched lev Hacx Ht1 Ht2 Hdoc Hlev Hc) as (res & E & R1 & R2 & _ & R3 & _).
  exists res. rewrite (explain_acx Ht1 Ht2 Hdoc), E. split; [reflexivity|]. rewrite R1, map_length, seq_length. split; [reflexivity|].
  split; [|split].
  - intros i Hi. rewrite nth_map_seq by exact Hi. apply (row_of_due (X i) (nth i (g_y a) 0%Q) (nth i (g_down a) 0%Q) (nth i (g_up a) 0%Q) (Si i) (nth i (g_cond a) rule0) (fst (lev i)) (snd (lev i)) Hr (Hs i Hi)). intros T HTs. now apply Hen.
  - intro Hru. eexists. split; [exact (R2 Hru)|]. rewrite map_length, seq_length. split; [reflexivity|]. intros i Hi. rewrite nth_map_seq by exact Hi.
    apply (row_of_due (X i) (nth i (g_y a) 0%Q) (nth i (g_down a) 0%Q) (nth i (g_up a) 0%Q) (Si i) (nth i (g_cond a) rule0) (fst (lev i)) (snd (lev i)) Hr (Hs i Hi)); [|exact Hru]. intros T HTs. now apply Hen.
  - intro Hwe. eexists. split; [exact (R3 Hwe)|]. rewrite map_length, seq_length. split; [reflexivity|]. intros i j Hi Hj. rewrite nth_map_seq by exact Hi.
    apply (row_of_due (X i) (nth i (g_y a) 0%Q) (nth i (g_down a) 0%Q) (nth i (g_up a) 0%Q) (Si i) (nth i (g_cond a) rule0) (fst (lev i)) (snd (lev i)) Hr (Hs i Hi)); [|exact Hwe|exact Hj]. intros T HTs. now apply Hen.
Qed.
End Call.

(** all columns of a tree known: the leaf *)
Lemma together_way Sv T x z : (forall c, In c (columns T) -> In c Sv) -> (together Sv T x z = true <-> way T x = way T z).
Proof.
  induction T as [|c q l IHl r IHr]; intro H; [split; reflexivity|]. cbn [together way columns] in *.
  destruct (in_dec Nat.eq_dec c Sv) as [_|n]; [|exfalso; apply n, H; now left].
  assert (Hl : forall c, In c (columns l) -> In c Sv) by (intros; apply H; right; apply in_or_app; now left).
  assert (Hr : forall c, In c (columns r) -> In c Sv) by (intros; apply H; right; apply in_or_app; now right).
  destruct (Qlt_le_dec q (x c)), (Qlt_le_dec q (z c)); try (split; intro K; discriminate K).
  - rewrite (IHr Hr). split; intro K; [now rewrite K|now injection K].
  - rewrite (IHl Hl). split; intro K; [now rewrite K|now injection K].
Qed.
(** rows equal on the known columns are together *)
Lemma together_equal Sv T x z : (forall c, In c Sv -> (x c == z c)%Q) -> together Sv T x z = true.
Proof.
  intro H. induction T as [|c q l IHl r IHr]; [reflexivity|]. cbn [together]. destruct (in_dec Nat.eq_dec c Sv) as [Hin|_]; [|now rewrite IHl, IHr].
  specialize (H c Hin). destruct (Qlt_le_dec q (x c)), (Qlt_le_dec q (z c)); try assumption; exfalso; lra.
Qed.
Lemma explain_one_column w es Ts stray classifier q r a D Y m t sched : Forall2 (holds 1 w) es Ts -> (exists T, In T Ts /\ T <> Leaf) ->
  forall res, explain 1 es stray classifier q r a D Y m t sched <> Some (Returned res).
Proof.
  intros HF HT res. unfold explain. destruct (negb _); [discriminate|]. destruct (_ && _); [discriminate|].
  rewrite (build_one_column 1 w es Ts eq_refl HF HT). discriminate.
Qed.

(** ** The statements *)
Lemma forall2_nth_error {A B} (P : A -> B -> Prop) l k b y : Forall2 P l k -> b < length k -> exists a, nth_error l b = Some a /\ P a (nth b k y).
Proof.
  intro H. revert b. induction H as [|u v l k Hp _ IH]; intros b Hb; [cbn in Hb; lia|]. destruct b as [|b]; [now exists u|]. cbn in Hb. apply (IH b). lia.
Qed.
Lemma object_contents d w es Ts : es <> [] -> Forall2 (holds d w) es Ts -> d <> 1 ->
  exists o, build d es = Some o /\ n_outputs o = w /\ n_depth o = tallest Ts /\ length (n_trees o) = length Ts /\
    forall b, b < length Ts -> exists e t, nth_error es b = Some e /\ nth_error (n_trees o) b = Some t /\ wf_tree t d = true /\
      (forall n c q l r, written e n (Fork c q l r) -> nth n (ft t) (-1)%Z = Z.of_nat c /\ nth n (th t) 0%Q = q) /\
      (forall n, written e n Leaf -> (nth n (ft t) (-1) < 0)%Z /\ nth n (cl t) 0%Z = (-1)%Z /\ nth n (cr t) 0%Z = (-1)%Z).
Proof.
  intros Hne HF Hd. destruct (build_ok d w es Ts Hne HF (or_introl Hd)) as (o & E1 & E2 & E3 & E4). exists o. split; [exact E1|]. split; [exact E3|]. split; [exact E4|].
  rewrite E2, map_length. split; [exact (forall2_len _ _ _ HF)|]. intros b Hb. destruct (forall2_nth_error _ _ _ b Leaf HF Hb) as (e & Ee & He).
  exists e, (ranger_tree e). split; [exact Ee|]. split; [exact (map_nth_error ranger_tree b es Ee)|]. split; [exact (ranger_wf d w e _ He)|]. split.
  - intros n c q l r Hw. destruct (fork_written d w e _ He n c q l r Hw) as (i & j & _ & _ & _ & _ & _ & Hq & Hf & _). split; [exact Hf|exact Hq].
  - intros n Hw. destruct (leaf_written d w e _ He n Leaf Hw) as [[_ A] B]. destruct (B (A eq_refl)) as (B1 & B2 & B3).
    pose proof (written_lt _ _ _ Hw) as Hn. split; [rewrite (ft_at d w e _ He n Hn), B3; lia|]. cbn [ranger_tree cl cr]. inversion Hw; subst. split; assumption.
Qed.

Section Final.
Variables (d w : nat) (es : list sk) (Ts : list rtree) (stray : row) (classifier : bool) (q : pt -> Q * Q).
Variables (r : routine) (a : args) (l : list (list nat)) (D : list pt) (Y : list Q) (m : nat) (t : targ) (sched : list nat) (lev : nat -> Q * Q).
Hypothesis Hne : es <> [].
Hypothesis HF : Forall2 (holds d w) es Ts.
Hypothesis Hd : d <> 1.

Lemma explain_values : plain_routine r -> table (g_X a) (g_y a) -> table D Y -> documented r a l -> own_levels classifier q (g_X a) t lev ->
  complete (S (length Ts)) (length (g_X a)) sched ->
  (forall i, i < length (g_X a) -> safe stray (nth i l []) Ts) -> enough m (g_X a) l D Ts ->
  exists res, explain d es stray classifier q r a D Y m t sched = Some (Returned res) /\
    length (r_sdp res) = length (g_X a) /\
    forall i, i < length (g_X a) -> (nth i (r_sdp res) 0 ==
      mean_over (fun T => mean_over (fun j => measured r classifier (nth i (g_y a) 0) (fst (lev i)) (snd (lev i))
                                                (nth i (g_down a) 0) (nth i (g_up a) 0) (nth j Y 0))
                                    (mates (nth i l []) T (nth i (g_X a) (fun _ => 0)) D)) Ts)%Q.
Proof.
  intros H1 H2 H3 H4 H5 H6 H7 H8. destruct (explain_rows d w es Ts stray classifier q Hne HF (or_introl Hd) r a l D Y m t sched lev H1 H2 H3 H4 H5 H6 H7 H8) as (res & E & A & B & _).
  exists res. auto.
Qed.
Lemma explain_rules : In r [sdp_rule; ddp_rule; cdp_rule] -> table (g_X a) (g_y a) -> table D Y -> documented r a l -> own_levels classifier q (g_X a) t lev ->
  complete (S (length Ts)) (length (g_X a)) sched ->
  (forall i, i < length (g_X a) -> safe stray (nth i l []) Ts) -> enough m (g_X a) l D Ts ->
  exists res ps, explain d es stray classifier q r a D Y m t sched = Some (Returned res) /\ r_rules res = Some ps /\
    length ps = length (g_X a) /\ forall i, i < length (g_X a) ->
      (forall z, moderate (nth i l []) z ->
         (in_rule (nth i l []) (nth i ps rule0) z <-> forall T, In T Ts -> together (nth i l []) T (nth i (g_X a) (fun _ => 0%Q)) z = true)) /\
      forall f, ~ In f (nth i l []) -> nth i ps rule0 f = ((- big)%Q, big).
Proof.
  intros H1 H2 H3 H4 H5 H6 H7 H8.
  assert (Hp : plain_routine r) by (unfold plain_routine; cbn [In] in *; tauto). assert (Hr : ruled r) by (unfold ruled; cbn [In] in *; tauto).
  destruct (explain_rows d w es Ts stray classifier q Hne HF (or_introl Hd) r a l D Y m t sched lev Hp H2 H3 H4 H5 H6 H7 H8) as (res & E & _ & _ & R & _).
  destruct (R Hr) as (ps & R1 & R2 & R3). exists res, ps. auto.
Qed.
Lemma explain_weights : In r [ddp_weights; cdp_weights] -> table (g_X a) (g_y a) -> table D Y -> documented r a l -> own_levels classifier q (g_X a) t lev ->
  complete (S (length Ts)) (length (g_X a)) sched ->
  (forall i, i < length (g_X a) -> safe stray (nth i l []) Ts) -> enough m (g_X a) l D Ts ->
  exists res ws, explain d es stray classifier q r a D Y m t sched = Some (Returned res) /\ r_weights res = Some ws /\
    length ws = length (g_X a) /\ forall i j, i < length (g_X a) -> j < length D ->
      (nth i ws (fun _ => 0) j ==
       mean_over (fun T => if together (nth i l []) T (nth i (g_X a) (fun _ => 0)) (nth j D (fun _ => 0))
                           then 1 / Qn (length (mates (nth i l []) T (nth i (g_X a) (fun _ => 0)) D)) else 0) Ts)%Q.
Proof.
  intros H1 H2 H3 H4 H5 H6 H7 H8.
  assert (Hp : plain_routine r) by (unfold plain_routine; cbn [In] in *; tauto). assert (Hr : weighted r) by (unfold weighted; cbn [In] in *; tauto).
  destruct (explain_rows d w es Ts stray classifier q Hne HF (or_introl Hd) r a l D Y m t sched lev Hp H2 H3 H4 H5 H6 H7 H8) as (res & E & _ & _ & _ & R).
  destruct (R Hr) as (ps & R1 & R2 & R3). exists res, ps. auto.
Qed.
Definition leaf_rows (T : rtree) (x : pt) : list nat :=
  filter (fun j => if list_eq_dec Bool.bool_dec (way T x) (way T (nth j D (fun _ => 0%Q))) then true else false) (seq 0 (length D)).
Lemma mates_leaf Sv T x : (forall c, In c (columns T) -> In c Sv) -> mates Sv T x D = leaf_rows T x.
Proof.
  intro H. unfold mates, leaf_rows. apply filter_ext. intro j. pose proof (together_way Sv T x (nth j D (fun _ => 0%Q)) H) as K.
  destruct (list_eq_dec _ _ _) as [E|E]; [now apply K|]. destruct (together _ _ _ _); [exfalso; apply E; now apply K|reflexivity].
Qed.
Lemma explain_same_leaf : plain_routine r -> table (g_X a) (g_y a) -> table D Y -> documented r a l -> own_levels classifier q (g_X a) t lev ->
  complete (S (length Ts)) (length (g_X a)) sched ->
  (forall i, i < length (g_X a) -> safe stray (nth i l []) Ts) ->
  (forall i T c, i < length (g_X a) -> In T Ts -> In c (columns T) -> In c (nth i l [])) ->
  (forall i T, i < length (g_X a) -> In T Ts -> m <= length (leaf_rows T (nth i (g_X a) (fun _ => 0%Q)))) ->
  exists res, explain d es stray classifier q r a D Y m t sched = Some (Returned res) /\
    length (r_sdp res) = length (g_X a) /\
    forall i, i < length (g_X a) -> (nth i (r_sdp res) 0 ==
      mean_over (fun T => mean_over (fun j => measured r classifier (nth i (g_y a) 0) (fst (lev i)) (snd (lev i))
                                                (nth i (g_down a) 0) (nth i (g_up a) 0) (nth j Y 0))
                                    (leaf_rows T (nth i (g_X a) (fun _ => 0)))) Ts)%Q.
Proof.
  intros H1 H2 H3 H4 H5 H6 H7 Hc Hm.
  assert (H8 : enough m (g_X a) l D Ts). { intros i T Hi HT. rewrite mates_leaf by (intros c; now apply Hc). now apply Hm. }
  destruct (explain_values H1 H2 H3 H4 H5 H6 H7 H8) as (res & E & A & B). exists res. split; [exact E|]. split; [exact A|]. intros i Hi. rewrite (B i Hi).
  unfold mean_over at 1 3. f_equiv. apply sumf_ext. intros T HT. rewrite mates_leaf by (intros c; now apply Hc). reflexivity.
Qed.
End Final.

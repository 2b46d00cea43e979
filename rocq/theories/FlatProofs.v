(** Proofs about prediction on padded arrays. *)
From Verif Require Import Base TreeModel TreeSpec TreeProofs FlatModel FlatSpec.
Local Open Scope Z_scope.

Lemma rd_some {A} (a : arr A) i : 0 <= i < len a -> rd a i = Some (get a i).
Proof.
  intro H. unfold rd. rewrite (proj2 (Z.leb_le 0 i)) by lia. rewrite (proj2 (Z.ltb_lt i _)) by lia. reflexivity.
Qed.
Lemma uint_small z : 0 <= z < 4294967296 -> uint z = z.
Proof. intro. unfold uint. now apply Z.mod_small. Qed.
Lemma div_line a n q : 0 <= n < q -> (a * q + n) / q = a.
Proof. intro H. rewrite Z.div_add_l by lia. rewrite Z.div_small by lia. lia. Qed.
Lemma mod_line a n q : 0 <= n < q -> (a * q + n) mod q = n.
Proof. intro H. rewrite Z.add_comm, Z.mod_add by lia. now apply Z.mod_small. Qed.

Lemma for_loop_ind {St} (P : nat -> St -> Prop) n body st :
  P 0%nat st -> (forall k s, (k < n)%nat -> P k s -> exists s', body k s = Some s' /\ P (S k) s') ->
  exists s, for_loop n body st = Some s /\ P n s.
Proof.
  induction n as [|n IH]; intros H0 Hs; [exists st; split; [reflexivity|exact H0]|].
  destruct IH as [s [Es Ps]]; [exact H0|intros k s Hk; apply Hs; lia|].
  destruct (Hs n s) as [s' [E P']]; [lia|exact Ps|].
  exists s'. cbn [for_loop]. rewrite Es. split; assumption.
Qed.

Lemma max_nodes_ge ts m : In m ts -> (length (m_vl m) <= max_nodes ts)%nat.
Proof.
  unfold max_nodes. induction ts as [|a l IH]; [contradiction|]. intros [->|H]; cbn [map fold_right]; [lia|].
  specialize (IH H). lia.
Qed.
Lemma max_nodes_le ts n : (forall m, In m ts -> (length (m_vl m) <= n)%nat) -> (max_nodes ts <= n)%nat.
Proof.
  unfold max_nodes. induction ts as [|a l IH]; intro H; cbn [map fold_right]; [lia|].
  assert (length (m_vl a) <= n)%nat by (apply H; now left).
  assert (fold_right Nat.max 0%nat (map (fun m => length (m_vl m)) l) <= n)%nat
    by (apply IH; intros; apply H; now right). lia.
Qed.

Lemma well_formed_nodes d w m : well_formed d w m ->
  length (m_cl m) = length (m_vl m) /\ (0 < length (m_vl m))%nat.
Proof.
  intros [H _]. pose proof (wf_pos _ _ H) as Hp. unfold wf_tree in H. rewrite !andb_true_iff in H.
  assert (Hl : length (m_cl m) = length (m_vl m)).
  { assert (Hv : (length (vl (as_tree m 0)) =? nn (as_tree m 0))%nat = true) by tauto.
    apply Nat.eqb_eq in Hv. unfold nn in Hv. cbn [as_tree vl cl] in Hv. rewrite map_length in Hv. symmetry. exact Hv. }
  split; [exact Hl|]. unfold nn in Hp. cbn [as_tree cl] in Hp. lia.
Qed.

Section Ensemble.
Variables (ts : list mtree) (stacked K w d : nat) (b : offset) (lim : nat) (n M : nat).
Variables (X : nat -> pt) (miss : nat -> nat -> bool).
Hypothesis Hwf : forall m, In m ts -> well_formed d w m.
Hypothesis HK : (0 < K)%nat.
Hypothesis HM : (d <= M)%nat.
Hypothesis Hfits : fits ts K d.
Hypothesis Hlim : (lim <= length ts)%nat.

Let mx := Z.of_nat (max_nodes ts).
Let T := Z.of_nat (length ts).
Let KZ := Z.of_nat K.
Let dft := mkM [] [] [] [] [] [].

Let cells := T * mx.
Let e := mkE (mkArr cells (pad ts (-1) m_cl)) (mkArr cells (pad ts (-1) m_cr)) (mkArr cells (pad ts (-1) m_cd))
             (mkArr cells (pad ts (-1) m_ft)) (mkArr cells (pad ts 0%Q m_th))
             (mkArr (cells * KZ) (pad_values ts stacked K))
             (mkArr KZ (fun i => nth (Z.to_nat i) (offsets K b) 0%Q))
             (Z.of_nat lim) mx KZ.

Lemma small_cells : T * mx * KZ <= 4294967296 /\ Z.of_nat d <= 4294967296.
Proof.
  destruct Hfits as [q [Hq [H1 H2]]]. change (2 ^ 32) with 4294967296 in *. split; [|exact H2].
  pose proof (max_nodes_le ts q Hq). subst T mx KZ.
  assert (Z.of_nat (length ts) * Z.of_nat (max_nodes ts) <= Z.of_nat (length ts) * Z.of_nat q) by (apply Z.mul_le_mono_nonneg_l; lia).
  assert (Z.of_nat (length ts) * Z.of_nat (max_nodes ts) * Z.of_nat K <= Z.of_nat (length ts) * Z.of_nat q * Z.of_nat K)
    by (apply Z.mul_le_mono_nonneg_r; lia). lia.
Qed.

Lemma cell_bound j l : (j < length ts)%nat -> (l < max_nodes ts)%nat ->
  0 <= Z.of_nat j * mx + Z.of_nat l < cells.
Proof.
  intros Hj Hl. subst cells T mx.
  assert (Z.of_nat j * Z.of_nat (max_nodes ts) + Z.of_nat (max_nodes ts) <= Z.of_nat (length ts) * Z.of_nat (max_nodes ts)).
  { replace (Z.of_nat j * Z.of_nat (max_nodes ts) + Z.of_nat (max_nodes ts)) with ((Z.of_nat j + 1) * Z.of_nat (max_nodes ts)) by lia.
    apply Z.mul_le_mono_nonneg_r; lia. }
  assert (0 <= Z.of_nat j * Z.of_nat (max_nodes ts)) by (apply Z.mul_nonneg_nonneg; lia). lia.
Qed.
Lemma cells_le : cells <= cells * KZ.
Proof.
  assert (0 <= cells) by (subst cells T mx; apply Z.mul_nonneg_nonneg; lia).
  replace cells with (cells * 1) at 1 by lia. apply Z.mul_le_mono_nonneg_l; subst KZ; lia.
Qed.

Lemma pad_at {A} (q : A) f j l : (l < max_nodes ts)%nat ->
  pad ts q f (Z.of_nat j * mx + Z.of_nat l) = nth l (f (nth j ts dft)) q.
Proof.
  intro Hl. unfold pad. fold mx. rewrite div_line, mod_line by (subst mx; lia). now rewrite !Nat2Z.id.
Qed.

(** what tree [j] adds to output [k] when its leaf has the outputs [r] *)
Definition adds (j k : nat) (r : list Q) : Q :=
  if (1 <? stacked)%nat then (if (k =? j mod stacked)%nat then nth 0 r 0%Q else 0%Q) else nth k r 0%Q.

Lemma values_at j l k : (l < max_nodes ts)%nat -> (k < K)%nat ->
  pad_values ts stacked K ((Z.of_nat j * mx + Z.of_nat l) * KZ + Z.of_nat k) = adds j k (nth l (m_vl (nth j ts dft)) []).
Proof.
  intros Hl Hk. unfold pad_values. fold KZ mx.
  rewrite (div_line (Z.of_nat j * mx + Z.of_nat l)), (mod_line (Z.of_nat j * mx + Z.of_nat l)) by (subst KZ; lia).
  rewrite div_line, mod_line by (subst mx; lia). now rewrite !Nat2Z.id.
Qed.

Lemma table_at {A} (f : nat -> nat -> A) i s : (i < n)%nat -> (s < M)%nat ->
  rd (table n M f) (Z.of_nat i * Z.of_nat M + Z.of_nat s) = Some (f i s).
Proof.
  intros Hi Hs. rewrite rd_some.
  - unfold table. cbn [get]. rewrite div_line, mod_line by lia. now rewrite !Nat2Z.id.
  - unfold table. cbn [len].
    assert (Z.of_nat i * Z.of_nat M + Z.of_nat M <= Z.of_nat n * Z.of_nat M).
    { replace (Z.of_nat i * Z.of_nat M + Z.of_nat M) with ((Z.of_nat i + 1) * Z.of_nat M) by lia.
      apply Z.mul_le_mono_nonneg_r; lia. }
    assert (0 <= Z.of_nat i * Z.of_nat M) by (apply Z.mul_nonneg_nonneg; lia). lia.
Qed.

Lemma flat_walk_leaf i j fuel : (i < n)%nat -> (j < length ts)%nat ->
  forall node l, let t := as_tree (nth j ts dft) 0 in (node < nn t)%nat ->
  walk fuel t (X i) (miss i) node = Some l ->
  flat_walk e (table n M X) (table n M miss) (Z.of_nat i * Z.of_nat M) fuel (uint (Z.of_nat j * mx)) (Z.of_nat node)
    = Some ((Z.of_nat j * mx + Z.of_nat l) * KZ) /\ (l < nn t)%nat.
Proof.
  intros Hi Hj. assert (Hin : In (nth j ts dft) ts) by (now apply nth_In).
  pose proof (Hwf _ Hin) as Hw. destruct (well_formed_nodes _ _ _ Hw) as [Hlen _]. destruct Hw as [Hw _].
  pose proof (max_nodes_ge ts _ Hin) as Hmx. destruct small_cells as [Hs Hd]. pose proof cells_le as Hc.
  fold cells in Hs.
  induction fuel as [|f IH]; intros node l t Hn E; [discriminate|]. cbn [walk] in E.
  assert (Hnm : (node < max_nodes ts)%nat) by (unfold t, nn in Hn; cbn [as_tree cl] in Hn; lia).
  pose proof (cell_bound j node Hj Hnm) as Hb.
  assert (Hj0 : 0 <= Z.of_nat j * mx) by (apply Z.mul_nonneg_nonneg; subst mx; lia).
  cbn [flat_walk]. rewrite (uint_small (Z.of_nat j * mx)) by lia.
  rewrite (uint_small (Z.of_nat j * mx + Z.of_nat node)) by lia.
  cbn [e_ft e_cl e e_out e_cd e_cr e_th].
  rewrite !rd_some by (cbn [len]; lia). cbn [get]. rewrite !pad_at by exact Hnm.
  change (nth node (m_cl (nth j ts dft)) (-1)) with (clz t node).
  change (clz t node <? 0) with (is_leaf t node). destruct (is_leaf t node) eqn:El.
  - injection E as <-. split; [|exact Hn]. rewrite uint_small; [reflexivity|].
    subst cells. split; [apply Z.mul_nonneg_nonneg; subst KZ; lia|].
    assert (Z.of_nat j * mx + Z.of_nat node + 1 <= T * mx) by lia.
    assert ((Z.of_nat j * mx + Z.of_nat node + 1) * KZ <= T * mx * KZ) by (apply Z.mul_le_mono_nonneg_r; subst KZ; lia).
    subst KZ. lia.
  - destruct (wf_internal t d Hw node Hn El) as (H1 & H2 & H3 & H4 & H5).
    assert (Hfe : nth node (m_ft (nth j ts dft)) (-1) = Z.of_nat (ftn t node)).
    { unfold ftn. rewrite Z2Nat.id; [reflexivity|].
      pose proof (wf_node_at t d Hw node Hn) as Hnode. unfold wf_node in Hnode. unfold is_leaf in El. rewrite El in Hnode.
      rewrite !andb_true_iff in Hnode. apply Z.leb_le. tauto. }
    rewrite Hfe. rewrite (uint_small (Z.of_nat (ftn t node))) by lia.
    rewrite !table_at by lia. unfold next_node in E.
    rewrite (uint_small (Z.of_nat j * mx)) in IH by lia.
    assert (Hbig : forall c, (c < nn t)%nat -> uint (Z.of_nat c) = Z.of_nat c).
    { intros c Hcc. apply uint_small.
      assert (Hcm : (c < max_nodes ts)%nat) by (unfold t, nn in Hcc; cbn [as_tree cl] in Hcc; lia).
      pose proof (cell_bound j c Hj Hcm). lia. }
    assert (Hrd : forall A (q : A) f0, rd (mkArr cells (pad ts q f0)) (Z.of_nat j * mx + Z.of_nat node)
                                       = Some (nth node (f0 (nth j ts dft)) q)).
    { intros A q f0. rewrite rd_some by (cbn [len]; lia). cbn [get]. now rewrite pad_at. }
    rewrite !Hrd.
    change (nth node (m_cr (nth j ts dft)) (-1)) with (crz t node).
    change (nth node (m_cd (nth j ts dft)) (-1)) with (cdz t node).
    change (nth node (m_th (nth j ts dft)) 0%Q) with (thq t node).
    destruct (miss i (ftn t node)).
    + rewrite <- (Z2Nat.id (cdz t node)) by lia. rewrite Hbig by lia. apply IH; [unfold t in *; lia|exact E].
    + destruct (qleb (X i (ftn t node)) (thq t node)).
      * rewrite <- (Z2Nat.id (clz t node)) by lia. rewrite Hbig by lia. apply IH; [unfold t in *; lia|exact E].
      * rewrite <- (Z2Nat.id (crz t node)) by lia. rewrite Hbig by lia. apply IH; [unfold t in *; lia|exact E].
Qed.

Lemma flat_tree_leaf i j fuel : (i < n)%nat -> (j < length ts)%nat -> (max_nodes ts <= fuel)%nat ->
  exists l, predict_leaf (as_tree (nth j ts dft) 0) (X i) (miss i) = Some l /\
    flat_tree e (table n M X) (table n M miss) (Z.of_nat i * Z.of_nat M) fuel (Z.of_nat j)
      = Some ((Z.of_nat j * mx + Z.of_nat l) * KZ) /\ (l < max_nodes ts)%nat.
Proof.
  intros Hi Hj Hf. assert (Hin : In (nth j ts dft) ts) by (now apply nth_In).
  pose proof (Hwf _ Hin) as Hw. destruct (well_formed_nodes _ _ _ Hw) as [Hlen Hpos]. destruct Hw as [Hw _].
  pose proof (max_nodes_ge ts _ Hin) as Hmx. set (t := as_tree (nth j ts dft) 0) in *.
  assert (Hnn : nn t = length (m_vl (nth j ts dft))) by (unfold t, nn; cbn [as_tree cl]; exact Hlen).
  destruct (walk_total t d Hw (X i) (miss i) fuel 0) as (l & E & _ & _); [lia|lia|].
  destruct (walk_total t d Hw (X i) (miss i) (nn t) 0) as (l' & E' & _ & _); [lia|lia|].
  assert (l = l') by (eapply walk_det; eassumption). subst l'.
  destruct (flat_walk_leaf i j fuel Hi Hj 0 l) as [H1 H2]; [change (0 < nn t)%nat; lia|exact E|].
  exists l. split; [exact E'|]. split; [exact H1|]. fold t in H2. lia.
Qed.

Lemma add_outputs_get from base row o :
  0 <= base -> base + KZ <= len from -> 0 <= row -> row + KZ <= len o ->
  exists o', add_outputs e from base row o = Some o' /\ len o' = len o /\
    forall q, get o' q = if (row <=? q) && (q <? row + KZ) then (get o q + get from (base + (q - row)))%Q else get o q.
Proof.
  intros H1 H2 H3 H4. unfold add_outputs. cbn [e_out e].
  replace (Z.to_nat KZ) with K by (subst KZ; lia).
  destruct (for_loop_ind (fun k o' => len o' = len o /\
     forall q, get o' q = if (row <=? q) && (q <? row + Z.of_nat k) then (get o q + get from (base + (q - row)))%Q else get o q)
    K (fun k o => match rd from (base + Z.of_nat k) with
                | Some v => add_at o (row + Z.of_nat k) v
                | None => None
                end) o) as [o' [E P]].
  - split; [reflexivity|]. intro q. destruct (Z.leb_spec row q); cbn [andb]; [|reflexivity].
    rewrite (proj2 (Z.ltb_ge q _)) by lia. reflexivity.
  - intros k s Hk [Hl Hg]. assert (Hk' : Z.of_nat k < KZ) by (subst KZ; lia).
    rewrite rd_some by lia. unfold add_at. rewrite rd_some by lia. eexists. split; [reflexivity|]. split; [exact Hl|].
    intro q. cbn [get]. rewrite !Hg.
    destruct (Z.leb_spec row q); cbn [andb].
    + destruct (Z.eqb_spec q (row + Z.of_nat k)) as [->|Hq].
      * rewrite (proj2 (Z.leb_le row _)) by lia. rewrite (proj2 (Z.ltb_ge (row + Z.of_nat k) (row + Z.of_nat k))) by lia.
        rewrite (proj2 (Z.ltb_lt (row + Z.of_nat k) (row + Z.of_nat (S k)))) by lia. cbn [andb].
        replace (row + Z.of_nat k - row) with (Z.of_nat k) by lia. reflexivity.
      * destruct (Z.ltb_spec q (row + Z.of_nat k)); destruct (Z.ltb_spec q (row + Z.of_nat (S k))); try lia; reflexivity.
    + destruct (Z.eqb_spec q (row + Z.of_nat k)); [lia|reflexivity].
  - exists o'. split; [exact E|exact P].
Qed.

Lemma offset_at k : offset_fits b K -> (k < K)%nat -> nth k (offsets K b) 0%Q = offset_of b k.
Proof.
  intros Hb Hk. destruct b as [q|l]; cbn [offsets offset_of]; [|reflexivity].
  rewrite nth_indep with (d' := q) by (now rewrite repeat_length). apply nth_repeat.
Qed.

(** outputs of the leaf reached in tree [j] by row [i] *)
Definition reached (i j : nat) : list Q :=
  match predict_leaf (as_tree (nth j ts dft) 0) (X i) (miss i) with
  | Some l => nth l (m_vl (nth j ts dft)) []
  | None => []
  end.
Definition total (i k p : nat) : Q := sumf (fun j => adds j k (reached i j)) (seq 0 p).

Lemma row_bounds i : (i < n)%nat -> 0 <= Z.of_nat i * KZ /\ Z.of_nat i * KZ + KZ <= Z.of_nat n * KZ.
Proof.
  intro Hi. split; [apply Z.mul_nonneg_nonneg; subst KZ; lia|].
  replace (Z.of_nat i * KZ + KZ) with ((Z.of_nat i + 1) * KZ) by lia. apply Z.mul_le_mono_nonneg_r; subst KZ; lia.
Qed.

Lemma in_line i k (Hk : (k < K)%nat) : (Z.of_nat i * KZ <=? Z.of_nat i * KZ + Z.of_nat k) &&
  (Z.of_nat i * KZ + Z.of_nat k <? Z.of_nat i * KZ + KZ) = true.
Proof. apply andb_true_iff. split; [apply Z.leb_le; lia|apply Z.ltb_lt; subst KZ; lia]. Qed.

Lemma flat_row_get fuel i o : (i < n)%nat -> (max_nodes ts <= fuel)%nat -> offset_fits b K -> len o = Z.of_nat n * KZ ->
  exists o', flat_row e (table n M X) (table n M miss) (Z.of_nat M) fuel i o = Some o' /\ len o' = len o /\
    (forall k, (k < K)%nat -> get o' (Z.of_nat i * KZ + Z.of_nat k) ==
                              get o (Z.of_nat i * KZ + Z.of_nat k) + offset_of b k + total i k lim)%Q /\
    (forall q, ~ (Z.of_nat i * KZ <= q < Z.of_nat i * KZ + KZ) -> get o' q = get o q).
Proof.
  intros Hi Hf Hb Hlen. unfold flat_row. cbn [e_out e]. destruct (row_bounds i Hi) as [Hr0 Hr1].
  destruct (add_outputs_get (e_off e) 0 (Z.of_nat i * KZ) o) as (o1 & E1 & L1 & G1);
    [lia|cbn [e_off e len]; lia|lia|lia|].
  fold e. rewrite E1. cbn [e_limit e]. rewrite Nat2Z.id.
  match goal with |- exists o', for_loop lim ?body o1 = _ /\ _ =>
    destruct (for_loop_ind (fun p o' => len o' = len o /\
      (forall k, (k < K)%nat -> get o' (Z.of_nat i * KZ + Z.of_nat k) ==
                              get o (Z.of_nat i * KZ + Z.of_nat k) + offset_of b k + total i k p)%Q /\
      (forall q, ~ (Z.of_nat i * KZ <= q < Z.of_nat i * KZ + KZ) -> get o' q = get o q)) lim body o1) as [o' [E P]]
  end; [| |exists o'; split; [exact E|exact P]].
  - split; [exact L1|]. split.
    + intros k Hk. rewrite G1, in_line by exact Hk. cbn [e_off e get].
      replace (0 + (Z.of_nat i * KZ + Z.of_nat k - Z.of_nat i * KZ)) with (Z.of_nat k) by lia.
      rewrite Nat2Z.id. rewrite offset_at by assumption. unfold total. cbn [seq sumf]. lra.
    + intros q Hq. rewrite G1. destruct (Z.leb_spec (Z.of_nat i * KZ) q); cbn [andb]; [|reflexivity].
      rewrite (proj2 (Z.ltb_ge q _)) by lia. reflexivity.
  - intros p s Hp (HL & HG & HO). destruct (flat_tree_leaf i p fuel Hi) as (l & El & Et & Hl); [lia|exact Hf|].
    fold e. rewrite Et. pose proof (cell_bound p l ltac:(lia) Hl) as Hcb. pose proof cells_le.
    assert (Hbase : 0 <= (Z.of_nat p * mx + Z.of_nat l) * KZ /\ (Z.of_nat p * mx + Z.of_nat l) * KZ + KZ <= cells * KZ).
    { split; [apply Z.mul_nonneg_nonneg; subst KZ; lia|].
      replace ((Z.of_nat p * mx + Z.of_nat l) * KZ + KZ) with ((Z.of_nat p * mx + Z.of_nat l + 1) * KZ) by lia.
      apply Z.mul_le_mono_nonneg_r; subst KZ; lia. }
    destruct (add_outputs_get (e_vl e) ((Z.of_nat p * mx + Z.of_nat l) * KZ) (Z.of_nat i * KZ) s) as (s' & E' & L' & G');
      [lia|cbn [e_vl e len]; lia|lia|lia|].
    exists s'. split; [exact E'|]. split; [lia|]. split.
    + intros k Hk. rewrite G', in_line by exact Hk. cbn [e_vl e get].
      replace (Z.of_nat i * KZ + Z.of_nat k - Z.of_nat i * KZ) with (Z.of_nat k) by lia.
      rewrite values_at by assumption. rewrite HG by exact Hk. unfold total. rewrite seq_S, sumf_app. cbn [sumf Nat.add].
      unfold reached. rewrite El. lra.
    + intros q Hq. rewrite G'. rewrite <- HO by exact Hq. destruct (Z.leb_spec (Z.of_nat i * KZ) q); cbn [andb]; [|reflexivity].
      rewrite (proj2 (Z.ltb_ge q _)) by lia. reflexivity.
Qed.

Lemma flat_predict_get fuel : (max_nodes ts <= fuel)%nat -> offset_fits b K ->
  exists o, flat_predict e (table n M X) (table n M miss) (Z.of_nat M) fuel n (mkArr (Z.of_nat n * KZ) (fun _ => 0%Q)) = Some o /\
    len o = Z.of_nat n * KZ /\
    forall i k, (i < n)%nat -> (k < K)%nat -> (get o (Z.of_nat i * KZ + Z.of_nat k) == offset_of b k + total i k lim)%Q.
Proof.
  intros Hf Hb. unfold flat_predict. cbn [e_off e_out e len]. rewrite Z.eqb_refl.
  match goal with |- exists o, for_loop n ?body ?o0 = _ /\ _ =>
    destruct (for_loop_ind (fun p o => len o = Z.of_nat n * KZ /\
      (forall i k, (i < p)%nat -> (k < K)%nat -> get o (Z.of_nat i * KZ + Z.of_nat k) == offset_of b k + total i k lim)%Q /\
      (forall q, Z.of_nat p * KZ <= q -> get o q = 0%Q)) n body o0) as [o [E [P1 [P2 _]]]]
  end; [| |exists o; split; [exact E|split; [exact P1|exact P2]]].
  - split; [reflexivity|]. split; [intros; lia|reflexivity].
  - intros p o Hp (HL & HG & H0). destruct (flat_row_get fuel p o Hp Hf Hb HL) as (o' & E & L & G & Hold).
    exists o'. split; [exact E|]. split; [lia|]. split.
    + intros i k Hi Hk. destruct (Nat.eq_dec i p) as [->|Hne].
      * rewrite G by exact Hk. rewrite H0 by lia. lra.
      * assert (Hip : (i < p)%nat) by lia. rewrite Hold; [apply HG; [exact Hip|exact Hk]|].
        assert (Z.of_nat i * KZ + KZ <= Z.of_nat p * KZ).
        { replace (Z.of_nat i * KZ + KZ) with ((Z.of_nat i + 1) * KZ) by lia. apply Z.mul_le_mono_nonneg_r; subst KZ; lia. }
        subst KZ. lia.
    + intros q Hq. rewrite Hold by (subst KZ; lia). apply H0. subst KZ. lia.
Qed.

Lemma reached_gives i j : (j < length ts)%nat -> gives (nth j ts dft) (X i) (miss i) (reached i j).
Proof.
  intro Hj. assert (Hin : In (nth j ts dft) ts) by (now apply nth_In). destruct (Hwf _ Hin) as [Hw _].
  destruct (predict_leaf_total _ _ Hw (X i) (miss i)) as (l & E & Hl & Hv).
  unfold reached. rewrite E. exists l. split; [exact Hv|split; [|reflexivity]].
  unfold leaf_idx in Hl. apply filter_In in Hl. exact (proj2 Hl).
Qed.
Lemma all_give_reached i : all_give (firstn lim ts) (X i) (miss i) (map (reached i) (seq 0 lim)).
Proof.
  unfold all_give. assert (G : forall p, (p <= lim)%nat ->
     Forall2 (fun m r => gives m (X i) (miss i) r) (firstn p ts) (map (reached i) (seq 0 p))).
  { induction p as [|p IH]; intro Hp; [constructor|].
    rewrite seq_S, map_app. cbn [map Nat.add].
    assert (Efs : firstn (S p) ts = firstn p ts ++ [nth p ts dft]).
    { clear - Hp Hlim. assert (Hlt : (p < length ts)%nat) by lia. clear Hp Hlim. revert ts Hlt.
      induction p as [|p IHp]; intros [|a l] Hl; cbn [length] in Hl; try lia; [reflexivity|].
      cbn [firstn nth app]. f_equal. apply IHp. lia. }
    rewrite Efs. apply Forall2_app; [apply IH; lia|]. constructor; [|constructor]. apply reached_gives. lia. }
  apply G. lia.
Qed.
End Ensemble.

Lemma limit_keeps_effective limit T L : limit_keeps limit T L -> effective_limit limit T = L.
Proof.
  unfold limit_keeps, effective_limit. intros [[H ->]|[H ->]].
  - rewrite (proj2 (Z.ltb_ge _ _)) by lia. rewrite (proj2 (Z.ltb_ge _ _)) by lia. cbn [orb]. apply Nat2Z.id.
  - destruct (Z.ltb_spec limit 0); cbn [orb]; [reflexivity|]. rewrite (proj2 (Z.ltb_lt _ _)) by lia. reflexivity.
Qed.
Lemma limit_keeps_le limit T L : limit_keeps limit T L -> (L <= T)%nat.
Proof. unfold limit_keeps. lia. Qed.

Lemma width_wf d w m : well_formed d w m -> width m = w.
Proof.
  intro H. destruct (well_formed_nodes _ _ _ H) as [_ Hp]. destruct H as [_ H]. apply H. now apply nth_In.
Qed.
Lemma widths_equal ts d w : (forall m, In m ts -> well_formed d w m) ->
  forallb (fun m' => (width m' =? width (nth 0 ts (mkM [] [] [] [] [] [])))%nat) ts = true.
Proof.
  intro H. apply forallb_forall. intros m Hm. apply Nat.eqb_eq. rewrite (width_wf d w m) by auto.
  destruct ts as [|a l]; [contradiction|]. symmetry. apply (width_wf d). apply H. now left.
Qed.
Lemma offsets_length K b : offset_fits b K -> length (offsets K b) = K.
Proof. destruct b; cbn [offsets offset_fits]; intro H; [apply repeat_length|exact H]. Qed.

Lemma general_predict ts stacked K w d b limit L n M X miss fuel :
  num_outputs ts stacked = Some K -> (0 < K)%nat -> (forall m, In m ts -> well_formed d w m) -> (d <= M)%nat ->
  offset_fits b K -> fits ts K d -> (forall m, In m ts -> (length (m_vl m) <= fuel)%nat) ->
  limit_keeps limit (length ts) L ->
  exists o, ensemble_predict ts stacked b limit fuel n M X miss = Some o /\ len o = Z.of_nat n * Z.of_nat K /\
    forall i k, (i < n)%nat -> (k < K)%nat -> exists rs, all_give (firstn L ts) (X i) (miss i) rs /\ length rs = L /\
      (get o (Z.of_nat i * Z.of_nat K + Z.of_nat k) == offset_of b k
         + sumf (fun j => adds stacked j k (nth j rs [])) (seq 0 L))%Q.
Proof.
  intros HN HK Hwf HM Hb Hfit Hfuel HL. unfold ensemble_predict, build. rewrite HN.
  rewrite (limit_keeps_effective _ _ _ HL). rewrite offsets_length, Nat.eqb_refl by exact Hb. cbn [e_out].
  pose proof (limit_keeps_le _ _ _ HL) as HLe. pose proof (max_nodes_le ts fuel Hfuel) as Hmf.
  destruct (flat_predict_get ts stacked K w d b L n M X miss Hwf HK HM Hfit HLe fuel Hmf Hb) as (o & E & Hlen & G).
  exists o. split; [exact E|]. split; [exact Hlen|]. intros i k Hi Hk.
  exists (map (reached ts X miss i) (seq 0 L)). split; [eapply all_give_reached; eassumption|].
  split; [now rewrite map_length, seq_length|]. rewrite G by assumption. unfold total.
  assert (Es : (sumf (fun j => adds stacked j k (reached ts X miss i j)) (seq 0 L)
               == sumf (fun j => adds stacked j k (nth j (map (reached ts X miss i) (seq 0 L)) [])) (seq 0 L))%Q).
  { apply sumf_ext. intros j Hj. apply in_seq in Hj.
    rewrite nth_indep with (d' := reached ts X miss i 0) by (rewrite map_length, seq_length; lia).
    rewrite map_nth, seq_nth by lia. reflexivity. }
  rewrite Es. reflexivity.
Qed.

Theorem predict_plain ts w d b limit L n M X miss fuel :
  ts <> [] -> (0 < w)%nat -> (forall m, In m ts -> well_formed d w m) -> (d <= M)%nat ->
  offset_fits b w -> fits ts w d -> (forall m, In m ts -> (length (m_vl m) <= fuel)%nat) ->
  limit_keeps limit (length ts) L ->
  exists o, ensemble_predict ts 1 b limit fuel n M X miss = Some o /\ len o = Z.of_nat n * Z.of_nat w /\
    forall i k, (i < n)%nat -> (k < w)%nat -> exists rs, all_give (firstn L ts) (X i) (miss i) rs /\
      (get o (Z.of_nat i * Z.of_nat w + Z.of_nat k) == offset_of b k + sumf (fun r => nth k r 0%Q) rs)%Q.
Proof.
  intros Hne Hw Hwf HM Hb Hfit Hfuel HL.
  assert (HN : num_outputs ts 1 = Some w).
  { unfold num_outputs. pose proof (widths_equal ts d w Hwf) as Hq. destruct ts as [|m l]; [congruence|]. cbn [nth] in Hq.
    rewrite Hq. cbn. f_equal. apply (width_wf d). apply Hwf. now left. }
  destruct (general_predict ts 1 w w d b limit L n M X miss fuel HN Hw Hwf HM Hb Hfit Hfuel HL) as (o & E & Hl & G).
  exists o. split; [exact E|]. split; [exact Hl|]. intros i k Hi Hk.
  destruct (G i k Hi Hk) as (rs & Hrs & Hlen & Hv). exists rs. split; [exact Hrs|]. rewrite Hv.
  unfold adds. cbn [Nat.ltb Nat.leb]. rewrite <- Hlen. clear.
  apply Qplus_comp; [reflexivity|]. induction rs as [|r rs IH] using rev_ind; [reflexivity|].
  rewrite app_length. cbn [length]. rewrite Nat.add_1_r, seq_S, !sumf_app. cbn [Nat.add sumf].
  rewrite app_nth2, Nat.sub_diag by lia. cbn [nth]. rewrite <- IH.
  rewrite (sumf_ext (fun j => nth k (nth j (rs ++ [r]) []) 0%Q) (fun j => nth k (nth j rs []) 0%Q)); [reflexivity|].
  intros j Hj. apply in_seq in Hj. rewrite app_nth1 by lia. reflexivity.
Qed.

Theorem predict_stacked ts K d b limit L n M X miss fuel :
  ts <> [] -> (1 < K)%nat -> (length ts mod K = 0)%nat -> (forall m, In m ts -> well_formed d 1 m) -> (d <= M)%nat ->
  offset_fits b K -> fits ts K d -> (forall m, In m ts -> (length (m_vl m) <= fuel)%nat) ->
  limit_keeps limit (length ts) L ->
  exists o, ensemble_predict ts K b limit fuel n M X miss = Some o /\ len o = Z.of_nat n * Z.of_nat K /\
    forall i k, (i < n)%nat -> (k < K)%nat -> exists rs, all_give (firstn L ts) (X i) (miss i) rs /\
      (get o (Z.of_nat i * Z.of_nat K + Z.of_nat k) == offset_of b k + class_sum K k rs)%Q.
Proof.
  intros Hne HK Hmod Hwf HM Hb Hfit Hfuel HL.
  assert (HN : num_outputs ts K = Some K).
  { unfold num_outputs. pose proof (widths_equal ts d 1%nat Hwf) as Hq. destruct ts as [|m l]; [congruence|]. cbn [nth] in Hq.
    rewrite Hq. rewrite (proj2 (Nat.ltb_lt 1 K) HK). rewrite Hmod. rewrite (width_wf d 1%nat m) by (apply Hwf; now left).
    reflexivity. }
  destruct (general_predict ts K K 1%nat d b limit L n M X miss fuel HN ltac:(lia) Hwf HM Hb Hfit Hfuel HL) as (o & E & Hl & G).
  exists o. split; [exact E|]. split; [exact Hl|]. intros i k Hi Hk.
  destruct (G i k Hi Hk) as (rs & Hrs & Hlen & Hv). exists rs. split; [exact Hrs|]. rewrite Hv.
  unfold class_sum. rewrite Hlen. apply Qplus_comp; [reflexivity|]. apply sumf_ext. intros j _. unfold adds.
  rewrite (proj2 (Nat.ltb_lt 1 K) HK). rewrite Nat.eqb_sym. reflexivity.
Qed.

(** whole rounds *)
Lemma class_sum_rounds K k rs R : (k < K)%nat -> length rs = (R * K)%nat ->
  (class_sum K k rs == sumf (fun q => nth 0 (nth (q * K + k) rs []) 0%Q) (seq 0 R))%Q.
Proof.
  intros Hk Hl. unfold class_sum. rewrite Hl. clear Hl. induction R as [|R IH]; [reflexivity|].
  rewrite seq_S, sumf_app. cbn [sumf Nat.add]. rewrite <- IH.
  replace (S R * K)%nat with (R * K + K)%nat by (cbn; lia). rewrite seq_app, sumf_app. cbn [Nat.add].
  apply Qplus_comp; [reflexivity|]. rewrite Qplus_0_r.
  rewrite (sumf_single _ _ (R * K + k)%nat).
  - rewrite Nat.add_comm, Nat.mod_add by lia. rewrite Nat.mod_small by lia. rewrite Nat.eqb_refl. reflexivity.
  - apply seq_NoDup.
  - apply in_seq. lia.
  - intros j Hj Hne. apply in_seq in Hj. destruct (Nat.eqb_spec (j mod K) k) as [E|]; [|reflexivity]. exfalso. apply Hne.
    replace j with (R * K + (j - R * K))%nat in E by lia.
    rewrite Nat.add_comm, Nat.mod_add in E by lia. rewrite Nat.mod_small in E by lia. lia.
Qed.

Lemma stacked_models_classes c : (2 < c)%nat -> stacked_models (Xgboost c) = c /\ stacked_models (LgbmClassifier c) = c /\
  stacked_models (HistClassifier c) = c.
Proof.
  intro H. cbn [stacked_models]. rewrite (proj2 (Nat.ltb_lt 0 c)), (proj2 (Nat.ltb_lt 2 c)) by lia. auto.
Qed.

Lemma all_give_length ts z miss rs : all_give ts z miss rs -> length rs = length ts.
Proof. induction 1; cbn [length]; [reflexivity|now f_equal]. Qed.

Theorem predict_classes c src ts d b n M X miss fuel : (2 < c)%nat ->
  src = Xgboost c \/ src = LgbmClassifier c \/ src = HistClassifier c ->
  ts <> [] -> (length ts mod c = 0)%nat -> (forall m, In m ts -> well_formed d 1 m) -> (d <= M)%nat ->
  offset_fits b c -> fits ts c d -> (forall m, In m ts -> (length (m_vl m) <= fuel)%nat) ->
  exists o, ensemble_predict ts (stacked_models src) b (-1) fuel n M X miss = Some o /\
    forall i k, (i < n)%nat -> (k < c)%nat -> exists rs, all_give ts (X i) (miss i) rs /\
      (get o (Z.of_nat i * Z.of_nat c + Z.of_nat k) == offset_of b k
         + sumf (fun q => nth 0 (nth (q * c + k) rs []) 0%Q) (seq 0 (length ts / c)))%Q.
Proof.
  intros Hc Hsrc Hne Hmod Hwf HM Hb Hfit Hfuel.
  destruct (stacked_models_classes c Hc) as (H1 & H2 & H3).
  assert (Es : stacked_models src = c) by (destruct Hsrc as [H|[H|H]]; rewrite H; assumption). rewrite Es.
  assert (HL : limit_keeps (-1) (length ts) (length ts)) by (right; lia).
  destruct (predict_stacked ts c d b (-1) (length ts) n M X miss fuel Hne ltac:(lia) Hmod Hwf HM Hb Hfit Hfuel HL)
    as (o & E & _ & G).
  exists o. split; [exact E|]. intros i k Hi Hk. destruct (G i k Hi Hk) as (rs & Hrs & Hv).
  rewrite firstn_all in Hrs. exists rs. split; [exact Hrs|]. rewrite Hv. apply Qplus_comp; [reflexivity|].
  apply class_sum_rounds; [exact Hk|]. rewrite (all_give_length _ _ _ _ Hrs).
  pose proof (Nat.div_mod (length ts) c ltac:(lia)). lia.
Qed.

(** The one-column trees of TreeModel. *)
Lemma walk_column m k fuel z miss i : walk fuel (as_tree m k) z miss i = walk fuel (as_tree m 0) z miss i.
Proof.
  revert i. induction fuel as [|f IH]; intro i; [reflexivity|]. cbn [walk].
  change (is_leaf (as_tree m k) i) with (is_leaf (as_tree m 0) i). destruct (is_leaf (as_tree m 0) i); [reflexivity|].
  change (next_node (as_tree m k) z miss i) with (next_node (as_tree m 0) z miss i). apply IH.
Qed.
Lemma column_value d w m k z miss r : well_formed d w m -> gives m z miss r ->
  predict_value (as_tree m k) z miss = Some (nth k r 0%Q).
Proof.
  intros H (l & Hv & Hl & ->). pose proof (proj1 H) as Hw. unfold predict_value.
  assert (Ep : predict_leaf (as_tree m k) z miss = predict_leaf (as_tree m 0) z miss) by (apply walk_column).
  rewrite Ep.
  rewrite (proj1 (visited_leaf_predicted (as_tree m 0) d Hw z miss l Hv) Hl). f_equal.
  unfold vlq. cbn [as_tree vl]. pose proof (visits_lt (as_tree m 0) d Hw z miss l Hv) as Hlt.
  unfold nn in Hlt. cbn [as_tree cl] in Hlt. destruct (well_formed_nodes _ _ _ H) as [Hlen _].
  rewrite nth_indep with (d' := nth k [] 0%Q) by (rewrite map_length; lia).
  rewrite (map_nth (fun r => nth k r 0%Q)). reflexivity.
Qed.
Lemma add_columns ts d w k z miss rs : (forall m, In m ts -> well_formed d w m) -> all_give ts z miss rs -> forall acc,
  exists v, add_trees (map (fun m => as_tree m k) ts) z miss acc = Some v /\ (v == acc + sumf (fun r => nth k r 0%Q) rs)%Q.
Proof.
  intros Hwf H. induction H as [|m r ts rs Hm _ IH]; intro acc; [exists acc; split; [reflexivity|cbn; lra]|].
  cbn [map add_trees]. rewrite (column_value d w m k z miss r (Hwf m (or_introl eq_refl)) Hm).
  destruct (IH ltac:(intros; apply Hwf; now right) (acc + nth k r 0)%Q) as (v & E & Ev).
  exists v. split; [exact E|]. rewrite Ev. cbn [sumf]. lra.
Qed.
Theorem predict_columns ts w d b limit n M X miss fuel :
  ts <> [] -> (0 < w)%nat -> (forall m, In m ts -> well_formed d w m) -> (d <= M)%nat ->
  offset_fits b w -> fits ts w d -> (forall m, In m ts -> (length (m_vl m) <= fuel)%nat) ->
  exists o, ensemble_predict ts 1 b limit fuel n M X miss = Some o /\
    forall i k, (i < n)%nat -> (k < w)%nat ->
      exists v, base_predict (map (fun m => as_tree m k) ts) limit (offset_of b k) (X i) (miss i) = Some v /\
        (get o (Z.of_nat i * Z.of_nat w + Z.of_nat k) == v)%Q.
Proof.
  intros Hne Hw Hwf HM Hb Hfit Hfuel.
  assert (HL : limit_keeps limit (length ts) (effective_limit limit (length ts))).
  { unfold limit_keeps, effective_limit. destruct (Z.ltb_spec limit 0); cbn [orb]; [lia|].
    destruct (Z.ltb_spec (Z.of_nat (length ts)) limit); lia. }
  destruct (predict_plain ts w d b limit _ n M X miss fuel Hne Hw Hwf HM Hb Hfit Hfuel HL) as (o & E & _ & G).
  exists o. split; [exact E|]. intros i k Hi Hk. destruct (G i k Hi Hk) as (rs & Hrs & Hv).
  unfold base_predict, dense_tree_predict. rewrite map_length, firstn_map.
  assert (Hsub : forall m, In m (firstn (effective_limit limit (length ts)) ts) -> well_formed d w m).
  { intros m Hm. apply Hwf. rewrite <- (firstn_skipn (effective_limit limit (length ts)) ts). apply in_or_app. now left. }
  destruct (add_columns _ d w k (X i) (miss i) rs Hsub Hrs (0 + offset_of b k)%Q) as (v & Ev & Hq).
  exists v. split; [exact Ev|]. rewrite Hv, Hq. lra.
Qed.

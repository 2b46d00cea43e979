(** Proofs about the normalised expectation as an array program. *)
From Verif Require Import Base TreeModel TreeSpec GameSpec ShapModel NopaModel NopaProofs AcvModel AcvProofs
  SdpModel SdpSpec SdpProofs ArrModel ArrSpec ArrProofs.

(** ** Sums of doubles *)
Definition dval (d : dbl) : Q := match d with Dnum q => q | _ => 0%Q end.
Lemma dadd_nan a b : dadd a b = Dnan <-> a = Dnan \/ b = Dnan.
Proof. destruct a, b; cbn; split; intro H; try discriminate; auto; destruct H; discriminate. Qed.
Lemma dadd_inf a b : dadd a b = Dinf <-> (a = Dinf /\ b <> Dnan) \/ (b = Dinf /\ a <> Dnan).
Proof.
  destruct a, b; cbn; (split; [intro H|intros [[H1 H2]|[H1 H2]]; congruence]);
    first [discriminate|left; split; [reflexivity|discriminate]|right; split; [reflexivity|discriminate]].
Qed.
Lemma dsum_nan {A} (f : A -> dbl) l a :
  fold_left (fun z k => dadd z (f k)) l a = Dnan <-> a = Dnan \/ exists k, In k l /\ f k = Dnan.
Proof.
  revert a. induction l as [|k l IH]; intro a; cbn [fold_left].
  - split; [auto|intros [H|[k [[] _]]]; exact H].
  - rewrite IH, dadd_nan. split.
    + intros [[H|H]|[k' [H1 H2]]]; [auto|right; exists k; split; [now left|trivial]|].
      right. exists k'. split; [now right|trivial].
    + intros [H|[k' [[<-|H1] H2]]]; [auto|auto|]. right. eauto.
Qed.
Lemma dsum_inf {A} (f : A -> dbl) l a : a <> Dnan -> (forall k, In k l -> f k <> Dnan) ->
  fold_left (fun z k => dadd z (f k)) l a = Dinf <-> a = Dinf \/ exists k, In k l /\ f k = Dinf.
Proof.
  revert a. induction l as [|k l IH]; intros a Ha Hf; cbn [fold_left].
  - split; [auto|intros [H|[k [[] _]]]; exact H].
  - assert (Hk := Hf k (or_introl eq_refl)). rewrite IH.
    + rewrite dadd_inf. split.
      * intros [[[H _]|[H _]]|[k' [H1 H2]]]; [auto|right; exists k; split; [now left|trivial]|].
        right. exists k'. split; [now right|trivial].
      * intros [H|[k' [[<-|H1] H2]]]; [auto|auto|]. right. eauto.
    + rewrite dadd_nan. tauto.
    + intros; apply Hf; now right.
Qed.
Lemma dsum_num {A} (f : A -> dbl) (g : A -> Q) l q : (forall k, In k l -> is_num (f k) (g k)) ->
  is_num (fold_left (fun z k => dadd z (f k)) l (Dnum q)) (q + sumf g l).
Proof.
  revert q. induction l as [|k l IH]; intros q Hf; cbn [fold_left sumf].
  - exists q. split; [trivial|ring].
  - destruct (Hf k (or_introl eq_refl)) as [r [Ek Hr]]. rewrite Ek. cbn [dadd].
    destruct (IH (q + r)%Q) as [t [Et Ht]]; [intros; apply Hf; now right|].
    exists t. split; [exact Et|]. rewrite Ht, Hr. ring.
Qed.

Section Normalised.
Variables (T : tabs) (m : nat) (X data : list pt) (Sv : list nat) (sched : nat -> list (nat * nat))
  (vars : nat -> nat -> list nat).
Hypothesis Tok : tabs_ok T.
Hypothesis Sok : any_order T (length X) sched.
Hypothesis SvOk : forall s, In s Sv -> s < m.

Let met (x : pt) (b k : nat) : bool := not_out_cl (t_part T b k) Sv x.
Let lm (b k : nat) : nat := count_cl m data (t_part T b k).
Let ps (b k : nat) : nat := count_s data (t_part T b k) Sv.
(** the share of a leaf *)
Definition dshare (x : pt) (b k : nat) : dbl :=
  if met x b k then dadd (Dnum 0) (count_div (lm b k) (ps b k)) else Dnum 0.

Lemma norm_body_run b k x c : b < t_trees T -> k < t_nb T b ->
  norm_body T m data Sv b k x c <> None /\
  fst (run (norm_body T m data Sv b) k x (Dnum 0, fun _ => 0%Q)) = dshare x b k /\
  forall j, j < t_out T ->
    (snd (run (norm_body T m data Sv b) k x (Dnum 0, fun _ => 0%Q)) j
     == exp_leaf m data Sv x (leaf_at T vars j b k))%Q.
Proof.
  intros Hb Hk. unfold run, norm_body. rewrite !(exp_counts_ok m Sv SvOk).
  destruct (out_cl_not m Sv SvOk (t_part T b k) x) as [o [-> ->]].
  unfold exp_leaf, dshare, met, lm, ps. cbn [leaf_at l_rect l_val fst snd].
  assert (Hl := leaf_ok T Tok b k Hb Hk).
  destruct (not_out_cl (t_part T b k) Sv x); cbn [negb].
  - destruct (add_values_ok T b k (count_cl m data (t_part T b k)) (count_s data (t_part T b k) Sv) (snd c) Hl)
      as [c1 [-> _]].
    destruct (add_values_ok T b k (count_cl m data (t_part T b k)) (count_s data (t_part T b k) Sv)
      (fun _ => 0%Q) Hl) as [c2 [-> H2]].
    split; [discriminate|]. split; [reflexivity|]. cbn [snd]. intros j Hj. rewrite (H2 j Hj). ring.
  - split; [discriminate|]. split; [reflexivity|]. cbn [snd]. reflexivity.
Qed.

(** the normaliser of a tree *)
Definition zof (x : pt) (b : nat) : dbl :=
  fold_left (fun z k => dadd z (dshare x b k)) (seq 0 (t_nb T b)) (Dnum 0).
(** leaves without a value for the quotient, and leaves met without a row *)
Definition bad (x : pt) (b : nat) : Prop :=
  exists k, k < t_nb T b /\ met x b k = true /\ lm b k = 0 /\ ps b k = 0.
Definition empty_leaf (x : pt) (b : nat) : Prop :=
  exists k, k < t_nb T b /\ met x b k = true /\ ps b k = 0.

Lemma dshare_nan x b k : dshare x b k = Dnan <-> met x b k = true /\ lm b k = 0 /\ ps b k = 0.
Proof.
  unfold dshare, count_div. destruct (met x b k); [|split; [discriminate|intros [H _]; discriminate]].
  destruct (Nat.eqb_spec (ps b k) 0) as [E|E]; [destruct (Nat.eqb_spec (lm b k) 0) as [F|F]|]; cbn; split;
    intro H; try discriminate; auto; destruct H as [_ [H1 H2]]; contradiction.
Qed.
Lemma dshare_inf x b k : dshare x b k = Dinf <-> met x b k = true /\ lm b k <> 0 /\ ps b k = 0.
Proof.
  unfold dshare, count_div. destruct (met x b k); [|split; [discriminate|intros [H _]; discriminate]].
  destruct (Nat.eqb_spec (ps b k) 0) as [E|E]; [destruct (Nat.eqb_spec (lm b k) 0) as [F|F]|]; cbn; split;
    intro H; try discriminate; auto; destruct H as [_ [H1 H2]]; contradiction.
Qed.
(** share of a leaf as a number *)
Definition qshare (x : pt) (b k : nat) : Q :=
  if met x b k then (Qn (lm b k) / Qn (ps b k))%Q else 0%Q.
Lemma dshare_num x b k : ~ (met x b k = true /\ ps b k = 0) -> is_num (dshare x b k) (qshare x b k).
Proof.
  unfold dshare, qshare, count_div. intro H. destruct (met x b k); [|exists 0%Q; split; reflexivity].
  destruct (Nat.eqb_spec (ps b k) 0) as [E|E]; [tauto|].
  eexists. split; [reflexivity|]. ring.
Qed.
Lemma zof_nan x b : zof x b = Dnan <-> bad x b.
Proof.
  unfold zof. rewrite dsum_nan. split.
  - intros [H|[k [Hk H]]]; [discriminate|]. apply in_seq in Hk. apply dshare_nan in H. exists k. split; [lia|exact H].
  - intros [k [Hk H]]. right. exists k. rewrite in_seq. split; [lia|]. now apply dshare_nan.
Qed.
Lemma zof_inf x b : ~ bad x b -> zof x b = Dinf <-> empty_leaf x b.
Proof.
  intro Hb. unfold zof. rewrite dsum_inf; [|discriminate|].
  - split.
    + intros [H|[k [Hk H]]]; [discriminate|]. apply in_seq in Hk. apply dshare_inf in H. exists k.
      split; [lia|]. tauto.
    + intros [k [Hk [H1 H2]]]. right. exists k. rewrite in_seq. split; [lia|]. apply dshare_inf.
      repeat split; auto. intro H3. apply Hb. exists k. auto.
  - intros k Hk H. apply in_seq in Hk. apply dshare_nan in H. apply Hb. exists k. split; [lia|exact H].
Qed.
Lemma zof_num x b : ~ empty_leaf x b -> is_num (zof x b) (sumf (qshare x b) (seq 0 (t_nb T b))).
Proof.
  intro H. unfold zof. destruct (dsum_num (dshare x b) (qshare x b) (seq 0 (t_nb T b)) 0%Q) as [r [E Hr]].
  - intros k Hk. apply dshare_num. intros [H1 H2]. apply in_seq in Hk. apply H. exists k. repeat split; auto. lia.
  - exists r. split; [exact E|]. rewrite Hr. ring.
Qed.

(** the counts of the specification *)
Lemma met_spec x b k : met x b k =
  forallb (fun s => ext_leb_q (fst (t_part T b k s)) (x s) && q_leb_ext (x s) (snd (t_part T b k s))) Sv.
Proof.
  unfold met. rewrite not_out_cl_sat, sat_cl_forallb. apply forallb_ext_in. intros s _. unfold cl_itv. apply andb_comm.
Qed.
Lemma lm_spec b k : lm b k = rows_closed data (t_part T b k) (seq 0 m).
Proof.
  unfold lm, count_cl, rows_closed. f_equal. apply filter_ext. intro z. rewrite sat_cl_forallb.
  apply forallb_ext_in. intros s _. unfold cl_itv. apply andb_comm.
Qed.
Lemma ps_spec b k : ps b k = rows_half data (t_part T b k) Sv.
Proof.
  unfold ps, count_s, rows_half. f_equal. apply filter_ext. intro z. unfold sat. rewrite count_all.
  reflexivity.
Qed.

(** what a tree adds *)
Definition contrib (x : pt) (j b : nat) : Q := tree_norm m data Sv x (map (leaf_at T vars j b) (seq 0 (t_nb T b))).
Lemma empty_spec x j b :
  existsb (fun lf => no_share data Sv x (l_rect lf)) (map (leaf_at T vars j b) (seq 0 (t_nb T b))) = true
  <-> empty_leaf x b.
Proof.
  rewrite existsb_exists. split.
  - intros [lf [Hi H]]. apply in_map_iff in Hi. destruct Hi as [k [<- Hk]]. apply in_seq in Hk.
    unfold no_share in H. cbn [l_rect leaf_at] in H. apply andb_true_iff in H. destruct H as [H1 H2].
    exists k. split; [lia|]. rewrite met_spec, ps_spec. split; [exact H1|]. now apply Nat.eqb_eq.
  - intros [k [Hk [H1 H2]]]. exists (leaf_at T vars j b k). split.
    + apply in_map. apply in_seq. lia.
    + unfold no_share. cbn [l_rect leaf_at]. rewrite met_spec in H1. rewrite ps_spec in H2.
      now rewrite H1, H2.
Qed.
Lemma empty_dec x b : empty_leaf x b \/ ~ empty_leaf x b.
Proof.
  rewrite <- (empty_spec x 0 b). destruct (existsb _ _); [now left|right; discriminate].
Qed.
Lemma contrib_empty x j b : empty_leaf x b -> contrib x j b = 0%Q.
Proof. intro H. unfold contrib, tree_norm. apply (empty_spec x j b) in H. now rewrite H. Qed.
Lemma contrib_full x j b : ~ empty_leaf x b ->
  (contrib x j b == sumf (fun k => exp_leaf m data Sv x (leaf_at T vars j b k)) (seq 0 (t_nb T b))
                    / sumf (qshare x b) (seq 0 (t_nb T b)))%Q.
Proof.
  intro H. unfold contrib, tree_norm. destruct (existsb _ _) eqn:E.
  { exfalso. apply H. now apply (empty_spec x j b). }
  rewrite !sumf_map. apply Qmult_comp.
  - apply sumf_ext. intros k Hk. apply in_seq in Hk. cbn [l_rect leaf_at l_val].
    rewrite <- met_spec, <- lm_spec, <- ps_spec. unfold exp_leaf. cbn [l_rect leaf_at l_val].
    fold (met x b k). fold (lm b k). fold (ps b k). destruct (met x b k) eqn:Em; [|ring].
    unfold gdiv. destruct (Nat.eqb_spec (ps b k) 0) as [Z|Z].
    + exfalso. apply H. exists k. repeat split; auto. lia.
    + field. now apply Qn_neq0.
  - apply Qinv_comp. apply sumf_ext. intros k _. cbn [l_rect leaf_at]. unfold qshare.
    now rewrite <- met_spec, <- lm_spec, <- ps_spec.
Qed.

Section Row.
Variables (buf : nat -> nat -> nat -> dbl * (nat -> Q)) (i j : nat) (x : pt).
Hypothesis Hj : j < t_out T.
Hypothesis Hbuf : forall b k, b < t_trees T ->
  buf b k i = if k <? t_nb T b then run (norm_body T m data Sv b) k x (Dnum 0, fun _ => 0%Q) else (Dnum 0, fun _ => 0%Q).

Lemma buf_cell b k : b < t_trees T -> k < t_nb T b ->
  fst (buf b k i) = dshare x b k /\ (snd (buf b k i) j == exp_leaf m data Sv x (leaf_at T vars j b k))%Q.
Proof.
  intros Hb Hk. rewrite Hbuf by assumption. destruct (Nat.ltb_spec k (t_nb T b)); [|lia].
  destruct (norm_body_run b k x (Dnum 0, fun _ => 0%Q) Hb Hk) as [_ [H1 H2]]. split; [exact H1|now apply H2].
Qed.
Lemma norm_z_ok b : b < t_trees T -> norm_z T buf i b = zof x b.
Proof.
  intro Hb. unfold norm_z, zof.
  assert (G : forall l z, (forall k, In k l -> k < t_nb T b) ->
    fold_left (fun z k => dadd z (fst (buf b k i))) l z = fold_left (fun z k => dadd z (dshare x b k)) l z).
  { induction l as [|k l IH]; intros z Hl; cbn [fold_left]; [trivial|].
    rewrite (proj1 (buf_cell b k Hb (Hl k (or_introl eq_refl)))). apply IH. intros; apply Hl; now right. }
  apply G. intros k Hk. apply in_seq in Hk. lia.
Qed.
Let inner (b : nat) (acc : dbl) : dbl :=
  let z := norm_z T buf i b in
  fold_left (fun acc k => dadd acc (if dne0 z then qdivd (snd (buf b k i) j) z else Dnum 0)) (seq 0 (t_nb T b)) acc.
Lemma inner_ok b acc : b < t_trees T -> acc <> Dinf ->
  inner b acc <> Dinf /\ (inner b acc = Dnan <-> acc = Dnan \/ bad x b) /\
  (forall q, acc = Dnum q -> ~ bad x b -> is_num (inner b acc) (q + contrib x j b)%Q).
Proof.
  intros Hb Ha. unfold inner. rewrite (norm_z_ok b Hb). cbv zeta.
  destruct (zof x b) as [q| |] eqn:Ez.
  - assert (Hnb : ~ bad x b) by (rewrite <- zof_nan, Ez; discriminate).
    assert (Hne : ~ empty_leaf x b) by (rewrite <- (zof_inf x b Hnb), Ez; discriminate).
    destruct (zof_num x b Hne) as [r [Er Hr]]. rewrite Ez in Er. injection Er as <-.
    assert (Hk : forall k, In k (seq 0 (t_nb T b)) ->
      is_num (if dne0 (Dnum q) then qdivd (snd (buf b k i) j) (Dnum q) else Dnum 0)
             (exp_leaf m data Sv x (leaf_at T vars j b k) / q)%Q).
    { intros k Hk. apply in_seq in Hk. destruct (buf_cell b k Hb) as [_ Hv]; [lia|].
      cbn [dne0 qdivd]. destruct (qeqb_spec q 0) as [Z|Z]; cbn [negb].
      - exists 0%Q. split; [trivial|]. unfold Qdiv. rewrite Z. unfold Qinv. cbn. ring.
      - eexists. split; [reflexivity|]. now rewrite Hv. }
    assert (Hc : (sumf (fun k => exp_leaf m data Sv x (leaf_at T vars j b k) / q) (seq 0 (t_nb T b))
                  == contrib x j b)%Q).
    { rewrite (contrib_full x j b Hne). rewrite <- Hr. unfold Qdiv. now rewrite sumf_scal_r. }
    split; [|split].
    + destruct acc as [qa| |]; [|congruence|].
      * destruct (dsum_num _ _ _ qa Hk) as [r [E _]]. rewrite E. discriminate.
      * intro K. assert (W : forall l, fold_left (fun acc k => dadd acc (if dne0 (Dnum q)
            then qdivd (snd (buf b k i) j) (Dnum q) else Dnum 0)) l Dnan = Dnan).
        { intro l. apply dsum_nan. now left. }
        rewrite W in K. discriminate.
    + rewrite dsum_nan. split; [|intros [H|H]; [now left|contradiction]].
      intros [H|[k [Hki H]]]; [now left|]. destruct (Hk k Hki) as [r [E _]]. rewrite E in H. discriminate.
    + intros qa -> _. destruct (dsum_num _ _ _ qa Hk) as [r [E Hr']]. exists r. split; [exact E|].
      now rewrite Hr', Hc.
  - assert (Hnb : ~ bad x b) by (rewrite <- zof_nan, Ez; discriminate).
    assert (He : empty_leaf x b) by (now apply (zof_inf x b Hnb)).
    change (dne0 Dinf) with true. cbv iota.
    assert (Hk : forall k, In k (seq 0 (t_nb T b)) ->
      is_num (qdivd (snd (buf b k i) j) Dinf) 0).
    { intros k _. exists 0%Q. split; [trivial|reflexivity]. }
    split; [|split].
    + destruct acc as [qa| |]; [|congruence|].
      * destruct (dsum_num _ _ _ qa Hk) as [r [E _]]. rewrite E. discriminate.
      * intro K. assert (W : forall l, fold_left (fun acc k => dadd acc (qdivd (snd (buf b k i) j) Dinf)) l Dnan = Dnan).
        { intro l. apply dsum_nan. now left. }
        rewrite W in K. discriminate.
    + rewrite dsum_nan. split; [|intros [H|H]; [now left|contradiction]].
      intros [H|[k [Hki H]]]; [now left|]. discriminate.
    + intros qa -> _. destruct (dsum_num _ _ _ qa Hk) as [r [E Hr']]. exists r. split; [exact E|].
      rewrite Hr', (contrib_empty x j b He). rewrite (sumf_zero (fun _ => 0%Q)) by reflexivity. ring.
  - assert (Hbad : bad x b) by (now apply zof_nan).
    assert (En : fold_left (fun acc k => dadd acc (if dne0 Dnan then qdivd (snd (buf b k i) j) Dnan else Dnum 0))
                   (seq 0 (t_nb T b)) acc = Dnan).
    { apply dsum_nan. right. destruct Hbad as [k [Hk _]]. exists k. split; [apply in_seq; lia|reflexivity]. }
    rewrite En. split; [discriminate|]. split; [tauto|]. intros q _ H. contradiction.
Qed.
Lemma outer_ok bs acc : (forall b, In b bs -> b < t_trees T) -> acc <> Dinf ->
  let r := fold_left (fun acc b => inner b acc) bs acc in
  r <> Dinf /\ (r = Dnan <-> acc = Dnan \/ exists b, In b bs /\ bad x b) /\
  (forall q, acc = Dnum q -> (forall b, In b bs -> ~ bad x b) -> is_num r (q + sumf (contrib x j) bs)%Q).
Proof.
  revert acc. induction bs as [|b bs IH]; intros acc Hb Ha; cbn [fold_left sumf].
  - cbv zeta. split; [exact Ha|]. split; [split; [auto|intros [H|[b [[] _]]]; exact H]|].
    intros q -> _. exists q. split; [trivial|ring].
  - destruct (inner_ok b acc (Hb b (or_introl eq_refl)) Ha) as [I1 [I2 I3]].
    destruct (IH (inner b acc)) as [O1 [O2 O3]]; [intros; apply Hb; now right|exact I1|]. cbv zeta in *.
    split; [exact O1|]. split.
    + rewrite O2, I2. split.
      * intros [[H|H]|[b' [H1 H2]]]; [now left|right; exists b; split; [now left|trivial]|].
        right. exists b'. split; [now right|trivial].
      * intros [H|[b' [[<-|H1] H2]]]; [auto|auto|]. right. eauto.
    + intros q Eq Hn. destruct (I3 q Eq (Hn b (or_introl eq_refl))) as [r [Er Hr]].
      destruct (O3 r Er) as [t [Et Ht]]; [intros; apply Hn; now right|].
      exists t. split; [exact Et|]. rewrite Ht, Hr. ring.
Qed.
Lemma norm_out_ok :
  norm_out T buf i j <> Dinf /\
  (norm_out T buf i j = Dnan <-> exists b, b < t_trees T /\ bad x b) /\
  ((forall b, b < t_trees T -> ~ bad x b) ->
   is_num (norm_out T buf i j) (sumf (tree_norm m data Sv x) (forest_at T vars j))).
Proof.
  destruct (outer_ok (seq 0 (t_trees T)) (Dnum 0)) as [H1 [H2 H3]].
  { intros b Hb. apply in_seq in Hb. lia. }
  { discriminate. }
  cbv zeta in *. change (fold_left (fun acc b => inner b acc) (seq 0 (t_trees T)) (Dnum 0))
    with (norm_out T buf i j) in *.
  split; [exact H1|]. split.
  - rewrite H2. split.
    + intros [H|[b [Hb H]]]; [discriminate|]. apply in_seq in Hb. exists b. split; [lia|exact H].
    + intros [b [Hb H]]. right. exists b. split; [apply in_seq; lia|exact H].
  - intro Hn. destruct (H3 0%Q eq_refl) as [r [Er Hr]].
    { intros b Hb. apply in_seq in Hb. apply Hn. lia. }
    exists r. split; [exact Er|]. rewrite Hr. unfold forest_at. rewrite sumf_map. unfold contrib. ring.
Qed.
End Row.

Lemma norm_prog_ok : exists res, norm_prog T m X data Sv sched = Some res /\
  forall i x j, nth_error X i = Some x -> j < t_out T ->
    res i j <> Dinf /\
    (res i j = Dnan <-> exists b k, b < t_trees T /\ k < t_nb T b /\ meets (t_part T b k) Sv x /\
    rows_closed data (t_part T b k) (seq 0 m) = 0 /\ rows_half data (t_part T b k) Sv = 0) /\
    (res i j <> Dnan -> is_num (res i j) (sumf (tree_norm m data Sv x) (forest_at T vars j))).
Proof.
  destruct (own_ok T (nth_error X) (length X) (get_X X) sched (norm_body T m data Sv) (Dnum 0, fun _ => 0%Q) Tok Sok)
    as [buf [E H]].
  { intros b k i a c Hb Hk _ _. apply (norm_body_run b k a c Hb Hk). }
  unfold norm_prog. rewrite E. eexists. split; [reflexivity|]. intros i x j Hx Hj.
  destruct (norm_out_ok buf i j x Hj) as [H1 [H2 H3]].
  { intros b k Hb. apply H; [exact Hb|eapply nth_lt; exact Hx|exact Hx]. }
  split; [exact H1|]. split.
  - rewrite H2. split.
    + intros [b [Hb [k [Hk [G1 [G2 G3]]]]]]. exists b, k. rewrite lm_spec in G2. rewrite ps_spec in G3.
      rewrite met_spec in G1. repeat split; trivial;
      rewrite forallb_forall in G1; specialize (G1 s H0); apply andb_true_iff in G1; tauto.
    + intros [b [k [Hb [Hk [G1 [G2 G3]]]]]]. exists b. split; [exact Hb|]. exists k.
      rewrite lm_spec, ps_spec, met_spec. repeat split; trivial. apply forallb_forall. intros s Hs.
      destruct (G1 s Hs) as [-> ->]. reflexivity.
  - intro Hn. apply H3. intros b Hb Hbad. apply Hn. apply H2. eauto.
Qed.

(** the model of SdpModel, when it has a value *)
Lemma norm_model x j v : compute_exp_normalized m data Sv (forest_at T vars j) x = Some v ->
  (forall b, b < t_trees T -> ~ empty_leaf x b) /\
  (v == sumf (tree_norm m data Sv x) (forest_at T vars j))%Q.
Proof.
  unfold compute_exp_normalized, forest_at. intro H.
  assert (G : forall bs v, (forall b, In b bs -> b < t_trees T) ->
    osum (fun ls => exp_norm_tree m data Sv ls x) (map (fun b => map (leaf_at T vars j b) (seq 0 (t_nb T b))) bs) = Some v ->
    (forall b, In b bs -> ~ empty_leaf x b) /\ (v == sumf (contrib x j) bs)%Q).
  { clear H v. induction bs as [|b bs IH]; intros v Hb H; cbn [map osum sumf] in *.
    - injection H as <-. split; [intros b []|reflexivity].
    - destruct (exp_norm_tree _ _ _ _ _) as [t|] eqn:Et; [|discriminate].
      destruct (osum _ _) as [w|] eqn:Ew; [|discriminate]. injection H as <-.
      destruct (IH w) as [I1 I2]; [intros; apply Hb; now right|reflexivity|].
      unfold exp_norm_tree in Et. destruct (osum (norm_leaf m data Sv x) _) as [z|] eqn:Ez; [|discriminate].
      injection Et as <-.
      assert (Hne : ~ empty_leaf x b).
      { intros [k [Hk [G1 G2]]]. destruct (osum_sumf _ _ _ Ez) as [h [Hh _]].
        specialize (Hh (leaf_at T vars j b k)). unfold norm_leaf in Hh. cbn [l_rect leaf_at] in Hh.
        fold (met x b k) in Hh. fold (ps b k) in Hh. rewrite G1, G2 in Hh. cbn in Hh.
        assert (K : None = Some (h (leaf_at T vars j b k))); [|discriminate].
        apply Hh. apply in_map. apply in_seq. lia. }
      split; [intros b' [<-|Hb']; auto|]. rewrite I2. apply Qplus_comp; [|reflexivity].
      rewrite (contrib_full x j b Hne).
      assert (Hz : (z == sumf (qshare x b) (seq 0 (t_nb T b)))%Q).
      { apply (osum_value _ (fun lf => if not_out_cl (l_rect lf) Sv x
          then (Qn (count_cl m data (l_rect lf)) / Qn (count_s data (l_rect lf) Sv))%Q else 0%Q)) in Ez.
        - rewrite Ez, sumf_map. reflexivity.
        - intros lf q _ Hq. unfold norm_leaf in Hq. destruct (not_out_cl _ _ _).
          + apply cdiv_some in Hq. now destruct Hq as [_ ->].
          + injection Hq as <-. reflexivity. }
      rewrite sumf_map. unfold Qdiv. rewrite <- sumf_scal_r. apply sumf_ext. intros k _.
      destruct (qeqb_spec z 0) as [Z|Z].
      + rewrite <- Hz, Z. unfold Qinv. cbn. ring.
      + now rewrite Hz. }
  destruct (G (seq 0 (t_trees T)) v) as [G1 G2]; [intros b Hb; apply in_seq in Hb; lia|exact H|].
  split; [intros b Hb; apply G1; apply in_seq; lia|]. rewrite G2, sumf_map. reflexivity.
Qed.
Lemma norm_prog_model : exists res, norm_prog T m X data Sv sched = Some res /\
  forall i x j v, nth_error X i = Some x -> j < t_out T ->
    compute_exp_normalized m data Sv (forest_at T vars j) x = Some v -> is_num (res i j) v.
Proof.
  destruct norm_prog_ok as [res [E H]]. exists res. split; [exact E|]. intros i x j v Hx Hj Hv.
  destruct (H i x j Hx Hj) as [_ [H2 H3]]. destruct (norm_model x j v Hv) as [G1 G2].
  destruct H3 as [r [Er Hr]].
  - rewrite H2. intros [b [k [Hb [Hk [K1 [K2 K3]]]]]]. apply (G1 b Hb). exists k. rewrite ps_spec, met_spec.
    repeat split; trivial. apply forallb_forall. intros s Hs. destruct (K1 s Hs) as [-> ->]. reflexivity.
  - exists r. split; [exact Er|]. now rewrite Hr, G2.
Qed.
End Normalised.

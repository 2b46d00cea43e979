(** Proofs about the quantile programs with their buffers. *)
From Coq Require Import Sorted Permutation.
From Verif Require Import Base TreeModel NopaModel ShapModel AxsModel RfModel RfSpec RfProofs QuantModel QuantSpec QuantProofs
  QuantForestProofs SearchProofs RfTreeProofs QbufModel QbufSpec.
Local Open Scope nat_scope.

(** * Exact sums of zeros and ones *)
Lemma Qn_add a b : (Qn a + Qn b)%Q = Qn (a + b).
Proof. unfold Qn, inject_Z, Qplus. cbn [Qnum Qden]. f_equal. lia. Qed.
Lemma Qb_n b : Qb b = Qn (if b then 1 else 0).
Proof. now destruct b. Qed.
Lemma Qb_and a b : (Qb a * Qb b)%Q = Qb (a && b).
Proof. now destruct a, b. Qed.
Lemma sum_ones (g : nat -> Q) p l : (forall i, In i l -> g i = Qb (p i)) -> forall c,
  fold_left (fun s i => (s + g i)%Q) l (Qn c) = Qn (c + length (filter p l)).
Proof.
  induction l as [|a l IH]; intros H c; cbn [fold_left filter length]; [f_equal; lia|].
  rewrite (H a (or_introl eq_refl)), Qb_n, Qn_add, IH by (intros; apply H; now right).
  destruct (p a); cbn [length]; f_equal; lia.
Qed.

(** * Loops over a buffer *)
Section Walk.
Variable N : nat.
Lemma fold_store (g : nat -> Q) l : NoDup l -> forall a i,
  fold_left (fun a i => upd a i (g i)) l a i = if memb i l then g i else a i.
Proof.
  induction l as [|b l IH]; intros ND a i; cbn [fold_left]; [reflexivity|].
  inversion ND as [|? ? Hb ND']; subst. rewrite IH by exact ND'.
  destruct (memb_spec i l) as [Hi|Hi]; destruct (memb_spec i (b :: l)) as [Hj|Hj]; cbn in Hj; try tauto.
  - destruct Hj as [->|Hj]; [apply upd_same|tauto].
  - apply upd_other. intro E. apply Hj. now left.
Qed.
Lemma store_at g a i : store N g a i = if i <? N then g i else a i.
Proof.
  unfold store. rewrite fold_store by apply seq_NoDup.
  destruct (memb_spec i (seq 0 N)) as [H|H]; rewrite in_seq in H; destruct (Nat.ltb_spec i N); try lia; reflexivity.
Qed.
Lemma store_sum_eq g a : store_sum N g a = (store N g a, fold_left (fun s i => (s + g i)%Q) (seq 0 N) 0%Q).
Proof.
  unfold store_sum, store. generalize (seq 0 N) at 1 2 3. intro l. generalize 0%Q. revert a.
  induction l as [|b l IH]; intros a c; cbn [fold_left]; [reflexivity|]. cbn [fst snd]. rewrite upd_same. apply IH.
Qed.

Variables (R : row) (Sv : list nat) (x : pt) (data : nat -> pt) (m : Z).

(** the walk on buffers and the walk on lists of samples are at the same point *)
Definition same_point (st : walk) (r : rfst) : Prop :=
  k_child st = st_child r /\ exists p, st_in r = filter p (seq 0 N) /\ forall i, i < N -> k_samples st i = Qb (p i).

Lemma node_same n st r : same_point st r ->
  exists p, st_in (vec_step R Sv x data n r) = filter p (seq 0 N) /\
    snd (walk_node R Sv x data N n st) = Qn (length (st_in (vec_step R Sv x data n r))) /\
    k_child (fst (walk_node R Sv x data N n st)) = st_child (vec_step R Sv x data n r) /\
    k_samples (fst (walk_node R Sv x data N n st)) = k_samples st /\
    forall i, i < N -> k_sub (fst (walk_node R Sv x data N n st)) i = Qb (p i).
Proof.
  intros [Hc [p [Hp Hs]]]. unfold walk_node, vec_step. rewrite !store_sum_eq.
  set (f := Z.to_nat (r_feat R n)). set (t := r_thr R n).
  assert (G : forall g e, (forall i, i < N -> g i = Qb (e i)) ->
     fold_left (fun s i => (s + g i)%Q) (seq 0 N) 0%Q = Qn (length (filter e (seq 0 N))) /\
     forall a i, i < N -> store N g a i = Qb (e i)).
  { intros g e He. split.
    - change 0%Q with (Qn 0). rewrite (sum_ones g e); [reflexivity|]. intros i Hi. apply in_seq in Hi. apply He. lia.
    - intros a i Hi. rewrite store_at. apply Nat.ltb_lt in Hi as Hb. rewrite Hb. now apply He. }
  destruct (inS Sv (r_feat R n)); [destruct (qleb (x f) t)|]; cbn [fst snd k_child k_samples k_sub st_child st_in].
  - destruct (G (fun i => (k_samples st i * Qb (qleb (data i f) t))%Q) (fun i => p i && qleb (data i f) t)) as [G1 G2].
    { intros i Hi. now rewrite Hs, Qb_and. }
    exists (fun i => p i && qleb (data i f) t).
    assert (E : keep_left data f t (st_in r) = filter (fun i => p i && qleb (data i f) t) (seq 0 N)).
    { unfold keep_left. rewrite Hp, filter_filter. apply filter_ext. intro i. unfold qltb, qleb. rewrite negb_involutive. reflexivity. }
    rewrite E, G1, Hc. repeat split. intros i Hi. now apply G2.
  - destruct (G (fun i => (k_samples st i * Qb (qltb t (data i f)))%Q) (fun i => p i && qltb t (data i f))) as [G1 G2].
    { intros i Hi. now rewrite Hs, Qb_and. }
    exists (fun i => p i && qltb t (data i f)).
    assert (E : keep_right data f t (st_in r) = filter (fun i => p i && qltb t (data i f)) (seq 0 N)).
    { unfold keep_right. rewrite Hp, filter_filter. apply filter_ext. intro i. reflexivity. }
    rewrite E, G1, Hc. repeat split. intros i Hi. now apply G2.
  - destruct (G (k_samples st) p Hs) as [G1 G2]. exists p. rewrite G1, Hc, Hp. repeat split. intros i Hi. now apply G2.
Qed.

Lemma nodes_same nodes : forall st r, same_point st r ->
  same_point (walk_nodes R Sv x data N m nodes st) (undo_loop (vec_step R Sv x data) (Z.to_nat m) nodes r).
Proof.
  induction nodes as [|n nodes IH]; intros st r H; cbn [walk_nodes undo_loop]; [exact H|].
  destruct (node_same n st r H) as [p [Hp [Hs [Hc [Hk Hb]]]]].
  destruct (walk_node R Sv x data N n st) as [st' s]. cbn [fst snd] in *.
  assert (E : qltb s (inject_Z m) = (length (st_in (vec_step R Sv x data n r)) <? Z.to_nat m)).
  { rewrite Hs. unfold Qn. destruct (Nat.ltb_spec (length (st_in (vec_step R Sv x data n r))) (Z.to_nat m)) as [L|L].
    - apply qltb_true. rewrite <- Zlt_Qlt. lia.
    - apply qltb_false. rewrite <- Zle_Qle. lia. }
  rewrite E. destruct (_ <? _).
  - split; [exact Hc|]. destruct H as [_ [p' [Hp' Hs']]]. exists p'. split; [exact Hp'|]. intros i Hi. rewrite Hk. now apply Hs'.
  - apply IH. split; [exact Hc|]. exists p. split; [exact Hp|]. intros i Hi. cbn [k_samples]. rewrite store_at.
    apply Nat.ltb_lt in Hi as Hi'. rewrite Hi'. now apply Hb.
Qed.
Lemma levels_same depth : forall nodes st r, same_point st r ->
  same_point (walk_levels R Sv x data N m depth nodes st) (undo_levels (vec_step R Sv x data) (Z.to_nat m) depth nodes r).
Proof.
  induction depth as [|k IH]; intros nodes st r H; cbn [walk_levels undo_levels]; [exact H|].
  pose proof (nodes_same nodes st r H) as H'. destruct H' as [Hc Hr]. rewrite Hc. apply IH. now split.
Qed.
Lemma tree_same depth a b i : i < N ->
  k_samples (walk_tree R Sv x data N m depth a b) i =
    Qb (memb i (st_in (undo_run (vec_step R Sv x data) (Z.to_nat m) depth N))) .
Proof.
  intro Hi. unfold walk_tree, undo_run.
  destruct (levels_same depth [0%Z] (mkWalk [] (store N (fun _ => 1%Q) a) (store N (fun _ => 1%Q) b)) (mkSt [] (seq 0 N) rule0 []))
    as [_ [p [Hp Hs]]].
  - split; [reflexivity|]. exists (fun _ => true). cbn. split.
    + generalize (seq 0 N). intro l. induction l as [|c l IH]; cbn; [reflexivity|]. now rewrite <- IH.
    + intros j Hj. rewrite store_at. apply Nat.ltb_lt in Hj. now rewrite Hj.
  - rewrite (Hs i Hi), Hp. f_equal. destruct (memb_spec i (filter p (seq 0 N))) as [H|H]; rewrite filter_In, in_seq in H.
    + tauto.
    + destruct (p i); [|reflexivity]. exfalso. apply H. split; [lia|reflexivity].
Qed.
Lemma tree_sum depth a b :
  fold_left (fun s i => (s + k_samples (walk_tree R Sv x data N m depth a b) i)%Q) (seq 0 N) 0%Q =
    Qn (length (st_in (undo_run (vec_step R Sv x data) (Z.to_nat m) depth N))).
Proof.
  change 0%Q with (Qn 0).
  rewrite (sum_ones _ (fun i => memb i (st_in (undo_run (vec_step R Sv x data) (Z.to_nat m) depth N)))).
  - cbn [Nat.add]. f_equal.
    set (u := st_in (undo_run (vec_step R Sv x data) (Z.to_nat m) depth N)).
    assert (HP : Permutation (filter (fun i => memb i u) (seq 0 N)) u).
    { assert (ND : NoDup u) by exact (us_nodup (fun _ => R) data N depth (Z.to_nat m) Sv x 0).
      apply NoDup_Permutation; [apply NoDup_filter, seq_NoDup|exact ND|].
      intro i. rewrite filter_In, in_seq. split; [intros [_ H]; now apply memb_true in H|].
      intro H. split; [|now apply memb_true]. pose proof (us_lt (fun _ => R) data N depth (Z.to_nat m) Sv x 0 i H). lia. }
    now apply Permutation_length.
  - intros i Hi. apply in_seq in Hi. apply tree_same. lia.
Qed.
End Walk.

(** * The percentile *)
Definition numbers (l : list (Q * Q)) : list (Q * num) := map (fun p => (fst p, Some (snd p))) l.
Lemma percentile_numbers argsort l q : percentile_num argsort (numbers l) q = weighted_percentile argsort l q.
Proof.
  unfold percentile_num, weighted_percentile. destruct (_ || _); [reflexivity|].
  assert (E : reorder_num argsort (numbers l) = numbers (reorder argsort l)).
  { unfold reorder_num, reorder, numbers. rewrite map_map. cbn [fst]. rewrite map_map.
    apply map_ext. intro i. exact (map_nth (fun p : Q * Q => (fst p, Some (snd p))) l (0%Q, 0%Q) i). }
  rewrite E. assert (F : filter kept (numbers (reorder argsort l)) = numbers (nonzero (reorder argsort l))).
  { generalize (reorder argsort l). intro r. induction r as [|p r IH]; [reflexivity|].
    cbn [numbers map filter nonzero]. change (map (fun p => (fst p, Some (snd p))) r) with (numbers r). cbn [kept snd fst].
    unfold nonzero in *. cbn [filter]. rewrite IH. now destruct (negb (qeqb (snd p) 0)). }
  rewrite F. generalize (nonzero (reorder argsort l)). intro r.
  assert (A : forallb is_num (numbers r) = true) by (induction r as [|p r IH]; [reflexivity|exact IH]).
  rewrite A. f_equal. unfold numbers. rewrite map_map. cbn. rewrite <- (map_id r) at 2. apply map_ext. now intros [? ?].
Qed.
Lemma percentile_no_numbers argsort (l : list (Q * num)) q : sorting argsort -> percentage q -> l <> [] ->
  (forall p, In p l -> snd p = None) -> exists v, percentile_num argsort l q = Some v /\ In v (map fst l) /\
    forall p, In p l -> (v <= fst p)%Q.
Proof.
  intros Hs Hq Hl Hn. unfold percentile_num.
  assert (Q1 : qltb 100 q || qltb q 0 = false).
  { apply orb_false_iff. split; apply qltb_false; apply Hq. }
  rewrite Q1. destruct (Hs (map fst l)) as [HP HS]. rewrite map_length in HP.
  assert (L : length (argsort (map fst l)) = length l) by (rewrite (Permutation_length HP); apply seq_length).
  destruct (argsort (map fst l)) as [|a r] eqn:E; [destruct l; [congruence|discriminate L]|].
  assert (Bd : forall i, In i (a :: r) -> i < length l).
  { intros i Hi. apply (Permutation_in _ HP) in Hi. apply in_seq in Hi. lia. }
  assert (Nn : forall i, In i (a :: r) -> snd (nth i l (0%Q, Some 0%Q)) = None).
  { intros i Hi. apply Hn, nth_In. now apply Bd. }
  unfold reorder_num. rewrite E.
  assert (F : filter kept (map (fun i => nth i l (0%Q, Some 0%Q)) (a :: r)) = map (fun i => nth i l (0%Q, Some 0%Q)) (a :: r)).
  { revert Nn. generalize (a :: r). intro s. induction s as [|i s IH]; intro Nn; [reflexivity|]. cbn [map filter].
    unfold kept at 1. rewrite (Nn i (or_introl eq_refl)). f_equal. apply IH. intros j Hj. apply Nn. now right. }
  rewrite F. cbn [map forallb hd_error option_map]. unfold is_num at 1. rewrite (Nn a (or_introl eq_refl)). cbn [andb].
  eexists. split; [reflexivity|]. split.
  - apply in_map. apply nth_In. apply Bd. now left.
  - intros p Hp. destruct (In_nth l p (0%Q, Some 0%Q) Hp) as [j [Hj Ej]].
    assert (Ij : In j (a :: r)) by (apply (Permutation_in _ (Permutation_sym HP)), in_seq; lia).
    assert (V : forall i, nth i (map fst l) 0%Q = fst (nth i l (0%Q, Some 0%Q))) by (intro i; exact (map_nth fst l (0%Q, Some 0%Q) i)).
    destruct Ij as [->|Ij]; [rewrite Ej; apply Qle_refl|].
    inversion HS as [|? ? _ HF]; subst. rewrite Forall_forall in HF. specialize (HF j Ij). rewrite !V in HF. exact HF.
Qed.
Lemma percentile_bad argsort l q : ~ percentage q -> percentile_num argsort l q = None.
Proof.
  intro H. unfold percentile_num. destruct (qltb_spec 100 q); [reflexivity|]. destruct (qltb_spec q 0); [reflexivity|].
  exfalso. apply H. split; lra.
Qed.
Lemma percentile_nil argsort q : sorting argsort -> percentile_num argsort [] q = None.
Proof.
  intro Hs. unfold percentile_num. destruct (_ || _); [reflexivity|]. unfold reorder_num. cbn [map].
  destruct (Hs []) as [HP _]. cbn in HP. apply Permutation_sym, Permutation_nil in HP. now rewrite HP.
Qed.

(** * One observation *)
Section One.
Variables (M : fmem) (data : nat -> pt) (N : nat) (Y : list Q) (depth : nat) (m : Z).
Variables (argsort : list Q -> list nat) (q : Q).
Hypothesis Hsort : sorting argsort.
Variables (Sv : list nat) (x : pt).
Notation T := (F_trees M).
Notation us := (undo_selected (row_of M) data N depth (Z.to_nat m) Sv x).
Notation uw := (undo_weight (row_of M) T data N depth (Z.to_nat m) Sv x).
Notation tw := (tree_weight (row_of M) data N depth (Z.to_nat m) Sv x).

Lemma fold_upd {V} (g : nat -> V -> V) l : NoDup l -> forall (w : nat -> V) i,
  fold_left (fun w i => upd w i (g i (w i))) l w i = if memb i l then g i (w i) else w i.
Proof.
  induction l as [|b l IH]; intros ND w i; cbn [fold_left]; [reflexivity|].
  inversion ND as [|? ? Hb ND']; subst. rewrite IH by exact ND'.
  destruct (memb_spec i l) as [Hi|Hi]; destruct (memb_spec i (b :: l)) as [Hj|Hj]; cbn in Hj; try tauto.
  - assert (i <> b) by (intro E; subst; tauto). now rewrite upd_other.
  - destruct Hj as [->|Hj]; [now rewrite upd_same|tauto].
  - rewrite upd_other; [reflexivity|]. intro E. apply Hj. now left.
Qed.
Lemma tree_weights st b i : i < N ->
  u_weights (quantile_tree M data N depth m Sv x st b) i = nadd (u_weights st i) (tw i b).
Proof.
  intro Hi. unfold quantile_tree. cbn [u_weights].
  rewrite (fold_upd (fun i a => nadd a (share (k_samples (walk_tree (row_of M b) Sv x data N m depth (u_samples st) (u_sub st)) i)
     (fold_left (fun s i => (s + k_samples (walk_tree (row_of M b) Sv x data N m depth (u_samples st) (u_sub st)) i)%Q) (seq 0 N) 0%Q))))
    by apply seq_NoDup.
  destruct (memb_spec i (seq 0 N)) as [_|H]; [|exfalso; apply H, in_seq; lia]. f_equal.
  rewrite tree_sum, tree_same by exact Hi. unfold share, tree_weight. fold (us b).
  destruct (Nat.eqb_spec (length (us b)) 0) as [E|E].
  - now rewrite E.
  - destruct (qeqb_spec (Qn (length (us b))) 0) as [E'|_]; [exfalso; revert E'; now apply Qn_neq0|reflexivity].
Qed.
Lemma all_weights i : i < N -> forall bs st,
  u_weights (fold_left (quantile_tree M data N depth m Sv x) bs st) i =
    fold_left (fun acc b => match acc, tw i b with Some a, Some w => Some (a + w)%Q | _, _ => None end) bs (u_weights st i).
Proof.
  intro Hi. induction bs as [|b bs IH]; intro st; cbn [fold_left]; [reflexivity|]. rewrite IH, tree_weights by exact Hi. reflexivity.
Qed.
Notation blank := (mkBufs (fun _ => Some 0%Q) (fun _ => 1%Q) (fun _ => 1%Q)).
Notation one := (fst (quantile_one M data N Y depth m argsort q Sv x blank)).
Lemma one_eq : one = if length Y =? N then percentile_num argsort (map (fun i => (target Y i, uw i)) (seq 0 N)) q else None.
Proof.
  unfold quantile_one. cbn [fst]. destruct (length Y =? N); [|reflexivity]. f_equal. apply map_ext_in. intros i Hi. apply in_seq in Hi.
  unfold target. f_equal. rewrite all_weights by lia. reflexivity.
Qed.
Lemma weights_list (f : nat -> Q) l : undo_weights (row_of M) T data N depth (Z.to_nat m) Sv x = Some l ->
  map (fun i => (f i, uw i)) (seq 0 N) = numbers (combine (map f (seq 0 N)) l).
Proof.
  unfold undo_weights. generalize (seq 0 N). intro s. revert l. induction s as [|i s IH]; intros l H; cbn [fold_right] in H.
  - reflexivity.
  - destruct (uw i) as [w|] eqn:E; [|discriminate H]. destruct (fold_right _ _ s) as [l'|]; [|discriminate H].
    injection H as <-. cbn [map combine numbers]. rewrite E. f_equal. now apply IH.
Qed.
Lemma one_value : length Y = N -> all_keep T us ->
  one = compute_quantile (row_of M) T data (target Y) N depth (Z.to_nat m) Sv x argsort q.
Proof.
  intros HY [HT Hk]. rewrite one_eq, HY, Nat.eqb_refl. unfold compute_quantile.
  destruct (weights_some (row_of M) T data N depth (Z.to_nat m) Sv x Hk HT) as [l [E [Hl _]]]. rewrite E.
  now rewrite (weights_list (target Y) l E), percentile_numbers.
Qed.
Lemma all_keep_dec : all_keep T us \/ (T = 0 \/ exists b, b < T /\ us b = []).
Proof.
  destruct (Nat.eq_dec T 0) as [E|E]; [right; now left|].
  destruct (existsb (fun b => length (us b) =? 0) (seq 0 T)) eqn:X.
  - right. right. apply existsb_exists in X. destruct X as [b [Hb Eb]]. exists b. apply in_seq in Hb. split; [lia|].
    apply Nat.eqb_eq in Eb. now apply length_zero_iff_nil.
  - left. split; [lia|]. intros b Hb E'. assert (H : existsb (fun b => length (us b) =? 0) (seq 0 T) = true); [|congruence].
    apply existsb_exists. exists b. split; [apply in_seq; lia|]. now rewrite E'.
Qed.
Lemma one_empty : length Y = N -> 0 < N -> percentage q -> T = 0 \/ (exists b, b < T /\ us b = []) ->
  exists v, one = Some v /\ smallest N (target Y) v.
Proof.
  intros HY HN Hq H. rewrite one_eq, HY, Nat.eqb_refl.
  destruct (percentile_no_numbers argsort (map (fun i => (target Y i, uw i)) (seq 0 N)) q Hsort Hq) as [v [E [Hi Hm]]].
  - destruct N; [lia|discriminate].
  - intros p Hp. apply in_map_iff in Hp. destruct Hp as [i [<- _]]. cbn [snd].
    destruct H as [H|H]; [|now apply weight_none].
    unfold undo_weight. rewrite H. reflexivity.
  - exists v. split; [exact E|]. split.
    + rewrite map_map in Hi. apply in_map_iff in Hi. destruct Hi as [i [<- Hi]]. apply in_seq in Hi. exists i. split; [lia|reflexivity].
    + intros j Hj. specialize (Hm (target Y j, uw j)). cbn [fst] in Hm. apply Hm. apply in_map_iff. exists j. split; [reflexivity|].
      apply in_seq. lia.
Qed.
Lemma one_bad : ~ percentage q \/ length Y <> N \/ N = 0 -> one = None.
Proof.
  intro H. rewrite one_eq. destruct (Nat.eqb_spec (length Y) N) as [E|E]; [|reflexivity].
  destruct H as [H|[H|H]]; [now apply percentile_bad|congruence|]. rewrite H. cbn. now apply percentile_nil.
Qed.
End One.

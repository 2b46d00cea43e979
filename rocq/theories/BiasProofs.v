(** Proofs about the rules cut level by level. *)
From Verif Require Import Base TreeModel RfModel RfSpec RfProofs RecModel RecProofs BiasModel BiasSpec.
Local Open Scope nat_scope.

(** ** One tree *)
Definition clb (p : rule) (g : nat) (v : Q) : Prop := (fst (p g) <= v)%Q /\ (v <= snd (p g))%Q.

Lemma clb_cut_hi p f t g v : clb (cut_hi p f t) g v <-> clb p g v /\ (g = f -> (v <= t)%Q).
Proof.
  unfold clb, cut_hi. destruct (qleb_spec t (snd (p f))) as [H|H].
  - destruct (Nat.eq_dec g f) as [->|Ne].
    + rewrite upd_same. cbn [fst snd]. split; [intros [A B]; repeat split; auto; lra|]. intros [[A B] C]. specialize (C eq_refl). auto.
    + rewrite upd_other by assumption. tauto.
  - split; [|tauto]. intros [A B]. split; [auto|]. intros ->. lra.
Qed.
Lemma clb_cut_lo p f t g v : clb (cut_lo p f t) g v <-> clb p g v /\ (g = f -> (t <= v)%Q).
Proof.
  unfold clb, cut_lo. destruct (qleb_spec (fst (p f)) t) as [H|H].
  - destruct (Nat.eq_dec g f) as [->|Ne].
    + rewrite upd_same. cbn [fst snd]. split; [intros [A B]; repeat split; auto; lra|]. intros [[A B] C]. specialize (C eq_refl). auto.
    + rewrite upd_other by assumption. tauto.
  - split; [|tauto]. intros [A B]. split; [auto|]. intros ->. lra.
Qed.

Section Tree.
Variable R : row.
Variable Sv : list nat.
Variable x : pt.

(** the condition a node puts on a value of its variable *)
Definition side (n : Z) (g : nat) (v : Q) : Prop :=
  splits_on R Sv n g -> ((x g <= r_thr R n)%Q -> (v <= r_thr R n)%Q) /\ ((r_thr R n < x g)%Q -> (r_thr R n <= v)%Q).
(** the next nodes *)
Definition kid (n c : Z) : Prop :=
  match dec_obs Sv x R n with
  | Some true => c = r_left R n | Some false => c = r_right R n | None => c = r_left R n \/ c = r_right R n
  end.

Lemma met_kid k n c : met R Sv x k n -> kid n c -> met R Sv x (S k) c.
Proof.
  unfold kid, dec_obs. intros Hm Hc. destruct (inS Sv (r_feat R n)) eqn:E.
  - pose proof (inS_splits _ _ _ E) as Hs. destruct (qleb_spec (x (gf R n)) (r_thr R n)); subst c.
    + now apply (met_left R Sv x k n (gf R n)).
    + apply (met_right R Sv x k n (gf R n)); auto. now apply Qnot_le_lt.
  - pose proof (proj2 (not_splits R Sv n) E) as Hs. destruct Hc as [->| ->]; [now apply met_free_left|now apply met_free_right].
Qed.
Lemma met_inv k c : met R Sv x (S k) c -> exists n, met R Sv x k n /\ kid n c.
Proof.
  intro H. inversion H as [|k' n f Hm Hs Hx E1 E2|k' n f Hm Hs Hx E1 E2|k' n Hm Hs E1 E2|k' n Hm Hs E1 E2]; subst; exists n; (split; [assumption|]); unfold kid, dec_obs.
  - apply splits_inS in Hs. destruct Hs as [-> E]. rewrite E. apply qleb_true in Hx. now rewrite Hx.
  - apply splits_inS in Hs. destruct Hs as [-> E]. rewrite E. apply qleb_false in Hx. now rewrite Hx.
  - apply not_splits in Hs. rewrite Hs. now left.
  - apply not_splits in Hs. rewrite Hs. now right.
Qed.
Lemma met_0 n : met R Sv x 0 n <-> n = 0%Z.
Proof. split; [intro H; inversion H; reflexivity|intros ->; constructor]. Qed.

Lemma step_spec level st n :
  (forall c, In c (fst (bias_step R Sv x level st n)) <-> In c (fst st) \/ kid n c) /\
  (forall l, l <> level -> snd (bias_step R Sv x level st n) l = snd st l) /\
  (forall g v, clb (snd (bias_step R Sv x level st n) level) g v <-> clb (snd st level) g v /\ side n g v).
Proof.
  unfold bias_step, kid, dec_obs. destruct (inS Sv (r_feat R n)) eqn:E.
  - fold (gf R n). destruct (qleb_spec (x (gf R n)) (r_thr R n)) as [Hx|Hx]; cbn [fst snd].
    + split; [intro c; rewrite in_app_iff; cbn; intuition congruence|].
      split; [intros l Hl; now rewrite upd_other|]. intros g v. rewrite upd_same, clb_cut_hi. split.
      * intros [A B]. split; [exact A|]. intro Hs. apply splits_inS in Hs. destruct Hs as [_ <-]. split; [auto|lra].
      * intros [A B]. split; [exact A|]. intros ->. apply B; [now apply inS_splits|assumption].
    + split; [intro c; rewrite in_app_iff; cbn; intuition congruence|].
      split; [intros l Hl; now rewrite upd_other|]. intros g v. rewrite upd_same, clb_cut_lo. split.
      * intros [A B]. split; [exact A|]. intro Hs. apply splits_inS in Hs. destruct Hs as [_ <-]. split; [lra|auto].
      * intros [A B]. split; [exact A|]. intros ->. apply B; [now apply inS_splits|lra].
  - cbn [fst snd]. split; [intro c; rewrite in_app_iff; cbn; intuition congruence|]. split; [reflexivity|].
    intros g v. split; [|tauto]. intro A. split; [exact A|]. intro Hs. apply splits_inS in Hs. destruct Hs. congruence.
Qed.
Lemma loop_spec level nodes : forall st,
  let st' := fold_left (bias_step R Sv x level) nodes st in
  (forall c, In c (fst st') <-> In c (fst st) \/ exists n, In n nodes /\ kid n c) /\
  (forall l, l <> level -> snd st' l = snd st l) /\
  (forall g v, clb (snd st' level) g v <-> clb (snd st level) g v /\ forall n, In n nodes -> side n g v).
Proof.
  induction nodes as [|n nodes IH]; intro st; cbn [fold_left].
  - split; [intro c; split; [now left|intros [H|[n [[] _]]]; exact H]|]. split; [reflexivity|].
    intros g v. split; [intro H; split; [exact H|intros n []]|tauto].
  - destruct (step_spec level st n) as [A [B C]]. destruct (IH (bias_step R Sv x level st n)) as [A' [B' C']].
    split; [|split].
    + intro c. rewrite A', A. split.
      * intros [[H|H]|[m [Hm H]]]; [now left|right; exists n; split; [now left|exact H]|right; exists m; split; [now right|exact H]].
      * intros [H|[m [[<-|Hm] H]]]; [left; now left|left; now right|right; now exists m].
    + intros l Hl. now rewrite B', B.
    + intros g v. rewrite C', C. split.
      * intros [[H1 H2] H3]. split; [exact H1|]. intros m [<-|Hm]; [exact H2|now apply H3].
      * intros [H1 H2]. split; [split; [exact H1|apply H2; now left]|]. intros m Hm. apply H2. now right.
Qed.

(** the nodes looked at on a level *)
Definition on_level (l : nat) (n : Z) : Prop := if l =? 0 then n = 0%Z else exists k, 1 <= k <= l /\ met R Sv x k n.
Lemma levels_spec fuel : forall level nodes st,
  (forall n, In n nodes <-> on_level level n) ->
  (forall c, In c (fst st) <-> exists k, 1 <= k <= level /\ met R Sv x k c) ->
  let p := snd (bias_levels R Sv x fuel level nodes st) in
  (forall l, l < level \/ level + fuel <= l -> p l = snd st l) /\
  (forall l g v, level <= l < level + fuel -> clb (p l) g v <-> clb (snd st l) g v /\ forall n, on_level l n -> side n g v).
Proof.
  induction fuel as [|fuel IH]; intros level nodes st Hn Hc; cbn [bias_levels].
  - split; [reflexivity|]. intros l g v Hl. lia.
  - destruct (loop_spec level nodes st) as [A [B C]]. set (st' := fold_left _ nodes st) in *.
    assert (Hc' : forall c, In c (fst st') <-> exists k, 1 <= k <= S level /\ met R Sv x k c).
    { intro c. rewrite A, Hc. split.
      - intros [[k [Hk Hm]]|[n [Hin Hk]]]; [exists k; split; [lia|exact Hm]|].
        apply Hn in Hin. unfold on_level in Hin. destruct (Nat.eqb_spec level 0) as [E|E].
        + subst n. exists 1. split; [lia|]. apply met_kid with 0%Z; [constructor|exact Hk].
        + destruct Hin as [k [Hk' Hm]]. exists (S k). split; [lia|]. now apply met_kid with n.
      - intros [k [Hk Hm]]. destruct k as [|k]; [lia|]. apply met_inv in Hm as Hm'. destruct Hm' as [n [Hm' Hkid]].
        destruct k as [|k].
        + destruct (Nat.eqb_spec level 0) as [E|E].
          * right. exists n. split; [|exact Hkid]. apply Hn. unfold on_level. rewrite E. cbn. now apply met_0.
          * left. exists 1. split; [lia|exact Hm].
        + right. exists n. split; [|exact Hkid]. apply Hn. unfold on_level. destruct (Nat.eqb_spec level 0) as [E|E]; [lia|].
          exists (S k). split; [lia|exact Hm']. }
    assert (Hn' : forall n, In n (fst st') <-> on_level (S level) n).
    { intro n. rewrite Hc'. unfold on_level. reflexivity. }
    destruct (IH (S level) (fst st') st' Hn' Hc') as [P1 P2].
    split.
    + intros l Hl. rewrite P1 by lia. apply B. lia.
    + intros l g v Hl. destruct (Nat.eq_dec l level) as [->|Ne].
      * rewrite P1 by lia. rewrite C. split; intros [H1 H2]; (split; [exact H1|]); intros n Hin; apply H2; now apply Hn.
      * rewrite P2 by lia. rewrite B by exact Ne. reflexivity.
Qed.

Lemma tree_level depth l g v : l < depth -> clb (bias_tree R Sv x depth l) g v <->
  (- big <= v <= big)%Q /\ forall n, on_level l n -> side n g v.
Proof.
  intro Hl. unfold bias_tree. destruct (levels_spec depth 0 [0%Z] ([], layers0)) as [_ H].
  - intro n. unfold on_level. cbn. intuition congruence.
  - intro c. cbn. split; [intros []|]. intros [k [Hk _]]. lia.
  - rewrite H by lia. reflexivity.
Qed.

Lemma clb_merge p depth g v : 0 < depth -> clb (merge_levels p depth) g v <-> forall l, l < depth -> clb (p l) g v.
Proof.
  intro Hd. unfold clb, merge_levels. cbn [fst snd].
  assert (Hne : forall h : nat -> Q, map h (seq 0 depth) <> []) by (intros h E; apply (f_equal (@length Q)) in E; rewrite map_length, seq_length in E; cbn in E; lia).
  destruct (max_of_spec _ (Hne (fun l => fst (p l g)))) as [M1 M2]. destruct (min_of_spec _ (Hne (fun l => snd (p l g)))) as [N1 N2].
  apply in_map_iff in M2. destruct M2 as [a [Ea Ha]]. apply in_map_iff in N2. destruct N2 as [b [Eb Hb]]. apply in_seq in Ha, Hb.
  split.
  - intros [A B] l Hl. specialize (M1 (fst (p l g)) ltac:(apply in_map_iff; exists l; split; [reflexivity|apply in_seq; lia])).
    specialize (N1 (snd (p l g)) ltac:(apply in_map_iff; exists l; split; [reflexivity|apply in_seq; lia])). split; lra.
  - intro H. split; [rewrite <- Ea; apply H; lia|rewrite <- Eb; apply H; lia].
Qed.
Lemma tree_merge depth D g v : 0 < depth <= D -> clb (merge_levels (bias_tree R Sv x D) depth) g v <->
  (- big <= v <= big)%Q /\ forall k n, k < depth -> met R Sv x k n -> side n g v.
Proof.
  intros Hd. rewrite clb_merge by lia. split.
  - intro H. split; [apply (tree_level D 0 g v ltac:(lia)), H; lia|]. intros k n Hk Hm.
    apply (tree_level D k g v ltac:(lia)) in H; [|lia]. destruct H as [_ H]. apply H. unfold on_level.
    destruct (Nat.eqb_spec k 0) as [->|E]; [now apply met_0|]. exists k. split; [lia|exact Hm].
  - intros [Hb H] l Hl. apply tree_level; [lia|]. split; [exact Hb|]. intros n Hn. unfold on_level in Hn.
    destruct (Nat.eqb_spec l 0) as [->|E]; [subst n; apply (H 0); [lia|constructor]|]. destruct Hn as [k [Hk Hm]]. apply (H k); [lia|exact Hm].
Qed.
(** the bounds of the first levels describe the closed cell *)
Lemma tree_cell depth D z : 0 < depth <= D -> in_closed Sv (merge_levels (bias_tree R Sv x D) depth) z <->
  moderate Sv z /\ closed_cell R Sv depth x z.
Proof.
  intro Hd. split.
  - intro H. split.
    + intros f Hf. apply (tree_merge depth D f (z f) Hd). exact (H f Hf).
    + intros k n f Hk Hm Hs. destruct Hs as [Hs1 Hs2]. specialize (H f Hs2). apply (tree_merge depth D f (z f) Hd) in H.
      apply (proj2 H k n Hk Hm). now split.
  - intros [Hb Hc] f Hf. apply (tree_merge depth D f (z f) Hd). split; [exact (Hb f Hf)|]. intros k n Hk Hm Hs. now apply (Hc k n f).
Qed.
Lemma tree_outside depth D g : 0 < depth <= D -> ~ In g Sv ->
  (fst (merge_levels (bias_tree R Sv x D) depth g) == - big)%Q /\ (snd (merge_levels (bias_tree R Sv x D) depth g) == big)%Q.
Proof.
  intros Hd Hg.
  assert (H : forall v, clb (merge_levels (bias_tree R Sv x D) depth) g v <-> (- big <= v <= big)%Q).
  { intro v. rewrite tree_merge by exact Hd. split; [tauto|]. intro Hv. split; [exact Hv|]. intros k n _ _ [_ Hs]. contradiction. }
  assert (Hb : (- big <= big)%Q) by (vm_compute; discriminate).
  unfold clb in H. set (a := fst _) in *. set (b := snd _) in *.
  pose proof (proj2 (H (- big)%Q) ltac:(lra)) as H1. pose proof (proj2 (H big) ltac:(lra)) as H2.
  pose proof (proj1 (H a) ltac:(lra)). pose proof (proj1 (H b) ltac:(lra)). split; lra.
Qed.
End Tree.

(** ** Counting *)
Lemma row_in_iff p Sv z : row_in p Sv z = true <-> in_closed Sv p z.
Proof.
  unfold row_in. rewrite forallb_forall. split.
  - intros H f Hf. specialize (H f Hf). apply andb_true_iff in H. destruct H as [A B]. apply qleb_true in A, B. tauto.
  - intros H f Hf. destruct (H f Hf) as [A B]. apply andb_true_iff. split; now apply qleb_true.
Qed.
Lemma more_than_iff m N (P : nat -> Prop) (e : nat -> bool) : (forall i, e i = true <-> P i) ->
  more_than m N P <-> m < length (filter e (seq 0 N)).
Proof.
  intro He. split.
  - intros [l [Hn [Hl Hm]]]. apply (Nat.lt_le_trans _ (length l)); [exact Hm|]. apply NoDup_incl_length; [exact Hn|].
    intros i Hi. destruct (Hl i Hi) as [Hi1 Hi2]. apply filter_In. split; [apply in_seq; lia|now apply He].
  - intro H. exists (filter e (seq 0 N)). split; [apply NoDup_filter, seq_NoDup|]. split; [|exact H].
    intros i Hi. apply filter_In in Hi. destruct Hi as [A B]. apply in_seq in A. split; [lia|now apply He].
Qed.
Lemma more_than_mono m N (P P' : nat -> Prop) : (forall i, P i -> P' i) -> more_than m N P -> more_than m N P'.
Proof. intros H [l [A [B C]]]. exists l. split; [exact A|]. split; [|exact C]. intros i Hi. destruct (B i Hi). auto. Qed.
Lemma cell_mono R Sv d e x data i : d <= e -> cell_rows R Sv e x data i -> cell_rows R Sv d x data i.
Proof. intros Hd [A B]. split; [exact A|]. intros k n f Hk. apply B. lia. Qed.

Section Shrink.
Variables (R : row) (Sv : list nat) (x : pt) (data : nat -> pt) (N m D : nat).
Hypothesis HS : Sv <> [].
Notation T := (bias_tree R Sv x D).
Lemma tn_iff depth : 0 < depth <= D -> m < tn_of (merge_levels T depth) Sv data N <->
  more_than m N (cell_rows R Sv depth x data).
Proof.
  intro Hd. unfold tn_of. destruct Sv as [|s S'] eqn:E; [contradiction|]. rewrite <- E in *. symmetry.
  apply more_than_iff. intro i. rewrite row_in_iff. apply tree_cell. exact Hd.
Qed.
Lemma shrink_spec depth : depth <= D ->
  match shrink T Sv data N m depth with
  | Some r => exists d, 0 < d <= depth /\ r = merge_levels T d /\ more_than m N (cell_rows R Sv d x data) /\
                forall e, d < e <= depth -> ~ more_than m N (cell_rows R Sv e x data)
  | None => forall e, 0 < e <= depth -> ~ more_than m N (cell_rows R Sv e x data)
  end.
Proof.
  induction depth as [|k IH]; intro Hd; [cbn; intros e He; lia|]. cbn [shrink].
  destruct (Nat.ltb_spec m (tn_of (merge_levels T (S k)) Sv data N)) as [H|H].
  - exists (S k). split; [lia|]. split; [reflexivity|]. split; [apply tn_iff; [lia|exact H]|]. intros e He. lia.
  - assert (Hno : ~ more_than m N (cell_rows R Sv (S k) x data)) by (rewrite <- tn_iff by lia; lia).
    specialize (IH ltac:(lia)). destruct (shrink T Sv data N m k) as [r|].
    + destruct IH as [d [A [B [C E]]]]. exists d. split; [lia|]. split; [exact B|]. split; [exact C|]. intros e He.
      destruct (Nat.eq_dec e (S k)) as [->|Ne]; [exact Hno|apply E; lia].
    + intros e He. destruct (Nat.eq_dec e (S k)) as [->|Ne]; [exact Hno|apply IH; lia].
Qed.
End Shrink.

Lemma all_some_spec {A} (l : list (option A)) :
  match all_some l with
  | Some q => l = map Some q
  | None => In None l
  end.
Proof.
  induction l as [|o l IH]; [reflexivity|]. cbn [all_some]. destruct o as [a|]; [|now left].
  destruct (all_some l) as [q|]; [cbn; now rewrite IH|right; exact IH].
Qed.
Lemma all_some_none {A} (l : list (option A)) : In None l -> all_some l = None.
Proof.
  induction l as [|o l IH]; intros H; [easy|]. cbn. destruct o as [a|]; [|reflexivity]. destruct H as [H|H]; [discriminate|]. now rewrite IH.
Qed.
Lemma all_some_nth {A} (f : nat -> option A) n q : all_some (map f (seq 0 n)) = Some q ->
  length q = n /\ forall j, j < n -> f j = nth_error q j /\ nth_error q j <> None.
Proof.
  intro H. pose proof (all_some_spec (map f (seq 0 n))) as H'. rewrite H in H'.
  assert (Hl : length q = n) by (apply (f_equal (@length (option A))) in H'; rewrite !map_length, seq_length in H'; congruence).
  split; [exact Hl|]. intros j Hj. assert (E : nth_error (map f (seq 0 n)) j = nth_error (map Some q) j) by congruence.
  rewrite (map_nth_error f j (seq 0 n) (d := j)) in E.
  2:{ rewrite (nth_error_nth' _ 0) by (rewrite seq_length; lia). now rewrite seq_nth. }
  destruct (nth_error q j) as [a|] eqn:Ea.
  - rewrite (map_nth_error Some j q Ea) in E. split; congruence.
  - apply nth_error_None in Ea. lia.
Qed.

(** ** The compiled rule *)
Section Compile.
Variables (M : fmem) (data : nat -> pt) (N D m : nat) (Sv : list nat).

Lemma clb_rules (r : rule) rs g v :
  clb (fun f => (max_of (map (fun q => fst (q f)) (r :: rs)), min_of (map (fun q => snd (q f)) (r :: rs)))) g v <->
  forall q, In q (r :: rs) -> clb q g v.
Proof.
  change ((max_of (map (fun q => fst (q g)) (r :: rs)) <= v)%Q /\ (v <= min_of (map (fun q => snd (q g)) (r :: rs)))%Q <-> forall q, In q (r :: rs) -> clb q g v).
  assert (Hne : forall h : rule -> Q, map h (r :: rs) <> []) by (intros h E; discriminate E).
  destruct (max_of_spec _ (Hne (fun q => fst (q g)))) as [M1 M2]. destruct (min_of_spec _ (Hne (fun q => snd (q g)))) as [N1 N2].
  apply in_map_iff in M2. destruct M2 as [a [Ea Ha]]. apply in_map_iff in N2. destruct N2 as [b [Eb Hb]].
  split.
  - intros [A B] q Hq. specialize (M1 (fst (q g)) ltac:(apply in_map_iff; now exists q)).
    specialize (N1 (snd (q g)) ltac:(apply in_map_iff; now exists q)). split; [exact (Qle_trans _ _ _ M1 A)|exact (Qle_trans _ _ _ B N1)].
  - intro H. split; [exact (eq_ind _ (fun w => (w <= v)%Q) (proj1 (H a Ha)) _ Ea)|exact (eq_ind _ (fun w => (v <= w)%Q) (proj2 (H b Hb)) _ Eb)].
Qed.

Theorem rule_spec x : Sv <> [] ->
  match rule_biased M data N D m Sv x with
  | Some r => 0 < F_trees M /\ exists d : nat -> nat,
      (forall b, b < F_trees M -> 0 < d b <= D /\ more_than m N (cell_rows (row_of M b) Sv (d b) x data) /\
         forall e, d b < e <= D -> ~ more_than m N (cell_rows (row_of M b) Sv e x data)) /\
      (forall z, in_closed Sv r z <-> moderate Sv z /\ forall b, b < F_trees M -> closed_cell (row_of M b) Sv (d b) x z) /\
      (forall g, ~ In g Sv -> (fst (r g) == - big)%Q /\ (snd (r g) == big)%Q)
  | None => F_trees M = 0 \/ D = 0 \/ exists b, b < F_trees M /\ ~ more_than m N (cell_rows (row_of M b) Sv 1 x data)
  end.
Proof.
  intro HS. unfold rule_biased, compile_rules. rewrite map_map.
  set (f := fun b => shrink (bias_tree (row_of M b) Sv x D) Sv data N m D).
  destruct (all_some (map f (seq 0 (F_trees M)))) as [[|r rs]|] eqn:E.
  - apply all_some_nth in E. left. destruct E as [E _]. cbn in E. lia.
  - apply all_some_nth in E. destruct E as [El E]. split; [cbn in El; lia|].
    assert (Hd : forall b, exists d, b < F_trees M -> 0 < d <= D /\ nth_error (r :: rs) b = Some (merge_levels (bias_tree (row_of M b) Sv x D) d) /\
       more_than m N (cell_rows (row_of M b) Sv d x data) /\ forall e, d < e <= D -> ~ more_than m N (cell_rows (row_of M b) Sv e x data)).
    { intro b. destruct (Nat.lt_ge_cases b (F_trees M)) as [Hb|Hb]; [|exists 0; intro; lia].
      destruct (E b Hb) as [E1 E2]. unfold f in E1. pose proof (shrink_spec (row_of M b) Sv x data N m D HS D (Nat.le_refl _)) as H.
      destruct (shrink _ Sv data N m D) as [q|]; [|congruence]. destruct H as [d [A [B [C F]]]]. exists d. intros _.
      split; [exact A|]. split; [congruence|]. split; [exact C|exact F]. }
    assert (Hf : exists d : nat -> nat, forall b, b < F_trees M -> 0 < d b <= D /\ nth_error (r :: rs) b = Some (merge_levels (bias_tree (row_of M b) Sv x D) (d b)) /\
       more_than m N (cell_rows (row_of M b) Sv (d b) x data) /\ forall e, d b < e <= D -> ~ more_than m N (cell_rows (row_of M b) Sv e x data)).
    { clear -Hd. induction (F_trees M) as [|T IH]; [exists (fun _ => 0); intros b Hb; lia|].
      destruct IH as [d IH]; [intro b; destruct (Hd b) as [e He]; exists e; intro; apply He; lia|].
      destruct (Hd T) as [e He]. exists (upd d T e). intros b Hb. destruct (Nat.eq_dec b T) as [->|Ne].
      - rewrite upd_same. apply He. lia.
      - rewrite upd_other by exact Ne. apply IH. lia. }
    destruct Hf as [d Hf]. exists d. split; [intros b Hb; specialize (Hf b Hb); tauto|].
    assert (HIn : forall q, In q (r :: rs) <-> exists b, b < F_trees M /\ q = merge_levels (bias_tree (row_of M b) Sv x D) (d b)).
    { intro q. split.
      - intro Hq. apply In_nth_error in Hq. destruct Hq as [b Hb]. assert (Hlt : b < F_trees M) by (rewrite <- El; apply nth_error_Some; congruence).
        exists b. split; [exact Hlt|]. destruct (Hf b Hlt) as [_ [H _]]. congruence.
      - intros [b [Hb ->]]. destruct (Hf b Hb) as [_ [H _]]. now apply nth_error_In with b. }
    split.
    + intro z. split.
      * intro H.
        assert (H' : forall b, b < F_trees M -> moderate Sv z /\ closed_cell (row_of M b) Sv (d b) x z).
        { intros b Hb. apply (tree_cell (row_of M b) Sv x (d b) D z (proj1 (Hf b Hb))). intros g Hg. specialize (H g Hg).
          refine (proj1 (clb_rules r rs g (z g)) H _ _). apply HIn. now exists b. }
        split; [apply (H' 0); cbn in El; lia|]. intros b Hb. now apply H'.
      * intros [A B] g Hg. apply (clb_rules r rs g (z g)). intros q Hq. apply HIn in Hq. destruct Hq as [b [Hb ->]].
        apply (proj2 (tree_cell (row_of M b) Sv x (d b) D z (proj1 (Hf b Hb)))); [split; [exact A|now apply B]|exact Hg].
    + intros g Hg.
      assert (H : forall v, clb (fun f => (max_of (map (fun q => fst (q f)) (r :: rs)), min_of (map (fun q => snd (q f)) (r :: rs)))) g v <-> (- big <= v <= big)%Q).
      { intro v. rewrite clb_rules. split.
        - intro H. destruct (proj1 (HIn r) (or_introl eq_refl)) as [b [Hb Eb]]. specialize (H r (or_introl eq_refl)). rewrite Eb in H.
          apply tree_merge in H; [tauto|]. apply (Hf b Hb).
        - intros Hv q Hq. apply HIn in Hq. destruct Hq as [b [Hb ->]]. apply tree_merge; [apply (Hf b Hb)|]. split; [exact Hv|].
          intros k n _ _ [_ Hs]. contradiction. }
      assert (Hb : (- big <= big)%Q) by (vm_compute; discriminate).
      unfold clb in H. cbn beta in H. cbn [fst snd] in *. set (a := max_of _) in *. set (b := min_of _) in *.
      pose proof (proj2 (H (- big)%Q) ltac:(lra)) as H1. pose proof (proj2 (H big) ltac:(lra)) as H2.
      pose proof (proj1 (H a) ltac:(lra)). pose proof (proj1 (H b) ltac:(lra)). split; lra.
  - right. pose proof (all_some_spec (map f (seq 0 (F_trees M)))) as H. rewrite E in H. apply in_map_iff in H.
    destruct H as [b [Hb1 Hb2]]. apply in_seq in Hb2. destruct (Nat.eq_dec D 0) as [E0|E0]; [now left|right]. exists b. split; [lia|].
    unfold f in Hb1. pose proof (shrink_spec (row_of M b) Sv x data N m D HS D (Nat.le_refl _)) as H. rewrite Hb1 in H. apply H. lia.
Qed.

(** when the call raises *)
Theorem raises_spec x : Sv <> [] -> rule_biased M data N D m Sv x = None <->
  F_trees M = 0 \/ D = 0 \/ exists b, b < F_trees M /\ ~ more_than m N (cell_rows (row_of M b) Sv 1 x data).
Proof.
  intro HS. pose proof (rule_spec x HS) as H. destruct (rule_biased M data N D m Sv x) as [r|]; [|tauto].
  split; [discriminate|]. destruct H as [HT [d [Hd _]]]. intros [H|[H|[b [Hb H]]]]; [lia| |].
  - destruct (Hd 0 HT) as [A _]. lia.
  - destruct (Hd b Hb) as [A [B _]]. exfalso. apply H. apply (more_than_mono m N (cell_rows (row_of M b) Sv (d b) x data)); [|exact B].
    intros i. apply cell_mono. lia.
Qed.

(** no variable: the product of nothing counts one row *)
Theorem empty_spec x : rule_biased M data N D m [] x = None <-> F_trees M = 0 \/ D = 0 \/ 1 <= m.
Proof.
  unfold rule_biased, compile_rules. rewrite map_map.
  assert (Hs : forall p D', shrink p [] data N m D' = None <-> D' = 0 \/ 1 <= m).
  { intros p. induction D' as [|k IH]; [cbn; tauto|]. cbn [shrink tn_of]. destruct (Nat.ltb_spec m 1) as [H|H].
    - split; [discriminate|lia].
    - rewrite IH. lia. }
  destruct (all_some _) as [[|r rs]|] eqn:E.
  - apply all_some_nth in E. destruct E as [E _]. cbn in E. split; [intros _; left; lia|reflexivity].
  - apply all_some_nth in E. destruct E as [El E]. cbn in El. split; [discriminate|]. intro H. destruct (E 0 ltac:(lia)) as [E1 E2].
    rewrite (proj2 (Hs _ D)) in E1 by lia. congruence.
  - split; [|reflexivity]. intros _. right. pose proof (all_some_spec (map (fun b => shrink (bias_tree (row_of M b) [] x D) [] data N m D) (seq 0 (F_trees M)))) as H.
    rewrite E in H. apply in_map_iff in H. destruct H as [b [Hb _]]. now apply Hs in Hb.
Qed.

Theorem contains_spec x r : Sv <> [] -> rule_biased M data N D m Sv x = Some r -> moderate Sv x -> in_closed Sv r x.
Proof.
  intros HS E Hx. pose proof (rule_spec x HS) as H. rewrite E in H. destruct H as [_ [d [_ [H _]]]]. apply H. split; [exact Hx|].
  intros b _ k n f _ _ _. split; [auto|]. lra.
Qed.

(** off the lower bounds the rule describes the cells of the observation *)
Theorem cell_spec x r : Sv <> [] -> rule_biased M data N D m Sv x = Some r ->
  exists d : nat -> nat, (forall b, b < F_trees M -> 0 < d b <= D) /\
  forall z, in_closed Sv r z -> (forall f, In f Sv -> ~ (z f == fst (r f))%Q) -> forall b, b < F_trees M -> same_cell (row_of M b) Sv (d b) x z.
Proof.
  intros HS E. pose proof (rule_spec x HS) as H. rewrite E in H. destruct H as [_ [d [Hd [H _]]]]. exists d. split; [intros b Hb; apply (Hd b Hb)|].
  intros z Hz Hne b Hb k n f Hk Hm Hs. pose proof (proj1 (H z) Hz) as [_ Hc]. destruct (Hc b Hb k n f Hk Hm Hs) as [C1 C2].
  split; [exact C1|]. intro Hz'. destruct (Qlt_le_dec (r_thr (row_of M b) n) (x f)) as [Hx|Hx]; [|exact Hx]. exfalso.
  assert (HfS : In f Sv) by (destruct Hs; assumption).
  assert (Hl : in_closed Sv r (upd z f (fst (r f)))).
  { intros g Hg. destruct (Nat.eq_dec g f) as [->|Ne].
    - rewrite upd_same. destruct (Hz f Hg). split; lra.
    - rewrite upd_other by exact Ne. now apply Hz. }
  apply H in Hl. destruct Hl as [_ Hl]. destruct (Hl b Hb k n f Hk Hm Hs) as [_ C3]. rewrite upd_same in C3. specialize (C3 Hx).
  destruct (Hz f HfS) as [Z1 _]. apply (Hne f HfS). lra.
Qed.

(** the routine over all the training samples *)
Theorem maxrule_spec x : Sv <> [] ->
  match compute_sdp_maxrule_biased M data N D m Sv x with
  | Some (p, r, l) => (p == 0)%Q /\ rule_biased M data N D m Sv x = Some r /\ length l = N /\
      forall j, j < N -> exists q, nth_error l j = Some (0%Q, q) /\ rule_biased M data N D m Sv (data j) = Some q
  | None => F_trees M = 0 \/ D = 0 \/ exists b, b < F_trees M /\
      (~ more_than m N (cell_rows (row_of M b) Sv 1 x data) \/ exists j, j < N /\ ~ more_than m N (cell_rows (row_of M b) Sv 1 (data j) data))
  end.
Proof.
  intro HS. unfold compute_sdp_maxrule_biased. destruct (rule_biased M data N D m Sv x) as [r|] eqn:E.
  - destruct (all_some _) as [l|] eqn:El.
    + apply all_some_nth in El. destruct El as [Ll El]. split; [reflexivity|]. split; [reflexivity|]. split; [exact Ll|].
      intros j Hj. destruct (El j Hj) as [E1 E2]. unfold compute_sdp_rule_biased in E1.
      destruct (rule_biased M data N D m Sv (data j)) as [q|] eqn:Eq; [|congruence]. exists q. split; [congruence|reflexivity].
    + pose proof (all_some_spec (map (fun j => compute_sdp_rule_biased M data N D m Sv (data j)) (seq 0 N))) as H. rewrite El in H.
      apply in_map_iff in H. destruct H as [j [Hj Hj']]. apply in_seq in Hj'. unfold compute_sdp_rule_biased in Hj.
      destruct (rule_biased M data N D m Sv (data j)) eqn:Eq; [discriminate|]. apply raises_spec in Eq; [|exact HS].
      destruct Eq as [Eq|[Eq|[b [Hb Eq]]]]; [now left|right; now left|right; right; exists b]. split; [exact Hb|right; exists j; split; [lia|exact Eq]].
  - apply raises_spec in E; [|exact HS]. destruct E as [E|[E|[b [Hb E]]]]; [now left|right; now left|right; right; exists b]. split; [exact Hb|now left].
Qed.
End Compile.

(** the routine over the training samples that have a weight *)
Theorem v2_spec M data N D m Sv y classifier t x yx :
  let '(p, r, w) := compute_sdp_rule_v0_weights M data y N D m classifier t Sv x yx in
  match compute_sdp_maxrule_biased_v2 M data N D m Sv y classifier t x yx with
  | Some (p', r', w', l) => p' = p /\ r' = r /\ w' = w /\ length l = N /\
      forall j, j < N -> exists q, nth_error l j = Some (0%Q, q) /\
        (~ (w j == 0)%Q -> rule_biased M data N D m Sv (data j) = Some q) /\ ((w j == 0)%Q -> forall f, q f = (0%Q, 0%Q))
  | None => exists j, j < N /\ ~ (w j == 0)%Q /\ rule_biased M data N D m Sv (data j) = None
  end.
Proof.
  unfold compute_sdp_maxrule_biased_v2. destruct (compute_sdp_rule_v0_weights M data y N D m classifier t Sv x yx) as [[p r] w].
  set (f := fun j => if negb (qeqb (w j) 0) then compute_sdp_rule_biased M data N D m Sv (data j) else Some (0%Q, fun _ : nat => (0%Q, 0%Q))).
  destruct (all_some (map f (seq 0 N))) as [l|] eqn:E.
  - apply all_some_nth in E. destruct E as [El E]. repeat (split; [reflexivity|]). split; [exact El|]. intros j Hj.
    destruct (E j Hj) as [E1 E2]. unfold f in E1. destruct (qeqb_spec (w j) 0) as [Hw|Hw]; cbn [negb] in E1.
    + exists (fun _ => (0%Q, 0%Q)). split; [symmetry; exact E1|]. split; [contradiction|reflexivity].
    + unfold compute_sdp_rule_biased in E1. destruct (rule_biased M data N D m Sv (data j)) as [q|]; [|congruence].
      exists q. split; [congruence|]. split; [reflexivity|contradiction].
  - pose proof (all_some_spec (map f (seq 0 N))) as H. rewrite E in H. apply in_map_iff in H. destruct H as [j [Hj Hj']]. apply in_seq in Hj'.
    exists j. split; [lia|]. unfold f, compute_sdp_rule_biased in Hj. destruct (qeqb_spec (w j) 0) as [Hw|Hw]; cbn [negb] in Hj; [discriminate|].
    split; [exact Hw|]. destruct (rule_biased M data N D m Sv (data j)); [discriminate|reflexivity].
Qed.
Theorem v2_contains M data N D m Sv y classifier t x yx p r w l j : Sv <> [] ->
  compute_sdp_maxrule_biased_v2 M data N D m Sv y classifier t x yx = Some (p, r, w, l) -> j < N -> ~ (w j == 0)%Q ->
  moderate Sv (data j) -> exists q, nth_error l j = Some (0%Q, q) /\ in_closed Sv q (data j).
Proof.
  intros HS E Hj Hw Hm. pose proof (v2_spec M data N D m Sv y classifier t x yx) as H.
  destruct (compute_sdp_rule_v0_weights M data y N D m classifier t Sv x yx) as [[p0 r0] w0]. rewrite E in H.
  destruct H as [-> [-> [-> [_ H]]]]. destruct (H j Hj) as [q [H1 [H2 _]]]. exists q. split; [exact H1|].
  apply (contains_spec M data N D m Sv (data j)); auto.
Qed.

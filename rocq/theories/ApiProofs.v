(** Proofs about the entry points of the projected forest. *)
From Verif Require Import Base TreeModel RfModel RfSpec RfProofs MaxModel ApiModel ApiSpec.

(** ** One iteration of a loop *)
Section Loop.
Variable M : fmem.
Variables (N depth m : nat).
Notation T := (F_trees M).

(** what iteration [i] can see *)
Definition view (s : bst) (i : nat) := (b_pc s i, b_acc s i, b_part s i, b_w s i, b_sdp s i).
Definition view0 : nat * Q * rule * (nat -> Q) * Q := (0, 0%Q, rule0, (fun _ => 0%Q), 0%Q).
Definition ltick (w : work) (v : nat * Q * rule * (nat -> Q) * Q) : nat * Q * rule * (nat -> Q) * Q :=
  let '(pc, acc, p, wt, q) := v in
  if pc <? T then
    let st := run_tree (w_step w (row_of M pc)) m depth N (if w_rule w then p else rule0) in
    (S pc, add_tree T (w_ind w) (st_in st) acc, if w_rule w then st_part st else p,
     if w_weights w then add_weights T (st_in st) wt else wt, q)
  else (pc, acc, p, wt, acc).

Lemma view_same W i s : view (tick M N depth m W i s) i = ltick (W i) (view s i).
Proof.
  unfold view, tick, ltick. destruct (b_pc s i <? T); cbn [b_pc b_acc b_part b_w b_sdp].
  - rewrite !upd_same. destruct (w_rule (W i)), (w_weights (W i)); rewrite ?upd_same; reflexivity.
  - rewrite upd_same. reflexivity.
Qed.
Lemma view_other W i j s : i <> j -> view (tick M N depth m W j s) i = view s i.
Proof.
  intro H. unfold view, tick. destruct (b_pc s j <? T); cbn [b_pc b_acc b_part b_w b_sdp].
  - rewrite !upd_other by assumption. destruct (w_rule (W j)), (w_weights (W j)); rewrite ?upd_other by assumption; reflexivity.
  - rewrite upd_other by assumption. reflexivity.
Qed.
Lemma iter_in {A} k (f : A -> A) x : Nat.iter k f (f x) = Nat.iter (S k) f x.
Proof. induction k; [reflexivity|]. cbn [Nat.iter] in *. unfold Nat.iter in *. cbn in *. now rewrite IHk. Qed.
Lemma view_run W sched : forall s i,
  view (run_loop M N depth m W sched s) i = Nat.iter (count_occ Nat.eq_dec sched i) (ltick (W i)) (view s i).
Proof.
  induction sched as [|j l IH]; intros s i; [reflexivity|]. cbn [run_loop fold_left count_occ].
  unfold run_loop in IH. rewrite IH. destruct (Nat.eq_dec j i) as [->|H].
  - rewrite view_same. apply iter_in.
  - rewrite view_other by congruence. reflexivity.
Qed.

(** the trees of a routine, with or without rule *)
Definition tree_fold (w : work) (k : nat) : Q * rule * (nat -> Q) :=
  fold_left (fun s b => let '(acc, p, wt) := s in
      let st := run_tree (w_step w (row_of M b)) m depth N (if w_rule w then p else rule0) in
      (add_tree T (w_ind w) (st_in st) acc, if w_rule w then st_part st else p,
       if w_weights w then add_weights T (st_in st) wt else wt)) (seq 0 k) (0%Q, rule0, fun _ => 0%Q).
Lemma iter_fold w k : k <= T -> Nat.iter k (ltick w) view0 =
  (k, fst (fst (tree_fold w k)), snd (fst (tree_fold w k)), snd (tree_fold w k), 0%Q).
Proof.
  induction k as [|k IH]; intro H; [reflexivity|]. cbn [Nat.iter]. change (Nat.iter (S k) (ltick w) view0) with (ltick w (Nat.iter k (ltick w) view0)).
  rewrite IH by lia. unfold tree_fold. rewrite seq_S, fold_left_app. fold (tree_fold w k).
  change (fold_left _ (seq 0 k) (0%Q, rule0, fun _ : nat => 0%Q)) with (tree_fold w k).
  destruct (tree_fold w k) as [[acc p] wt]. cbn [fold_left fst snd ltick]. rewrite Nat.add_0_l.
  destruct (Nat.ltb_spec k T); [reflexivity|lia].
Qed.
Lemma iter_done w : Nat.iter (S T) (ltick w) view0 =
  (T, fst (fst (tree_fold w T)), snd (fst (tree_fold w T)), snd (tree_fold w T), fst (fst (tree_fold w T))).
Proof.
  change (Nat.iter (S T) (ltick w) view0) with (ltick w (Nat.iter T (ltick w) view0)). rewrite iter_fold by lia.
  cbn [ltick]. rewrite Nat.ltb_irrefl. reflexivity.
Qed.

Lemma loop_row W n sched i : complete (S T) n sched -> i < n ->
  view (run_loop M N depth m W sched b0) i =
  (T, fst (fst (tree_fold (W i) T)), snd (fst (tree_fold (W i) T)), snd (tree_fold (W i) T), fst (fst (tree_fold (W i) T))).
Proof. intros [_ H] Hi. rewrite view_run, H by assumption. apply iter_done. Qed.
Lemma loop_outside W n sched i : complete (S T) n sched -> n <= i -> view (run_loop M N depth m W sched b0) i = view0.
Proof.
  intros [H _] Hi. rewrite view_run. rewrite (proj1 (count_occ_not_In Nat.eq_dec sched i)); [reflexivity|].
  intro C. apply H in C. lia.
Qed.

Lemma in_order_count n i : i < n -> count_occ Nat.eq_dec (in_order M n) i = S T.
Proof.
  unfold in_order. induction n as [|n IH]; intro H; [lia|]. rewrite seq_S, flat_map_app, count_occ_app. cbn [flat_map Nat.add]. rewrite app_nil_r.
  destruct (Nat.eq_dec i n) as [->|D].
  - rewrite count_occ_repeat_eq by reflexivity.
    rewrite (proj1 (count_occ_not_In Nat.eq_dec _ n)); [lia|]. intro C. apply in_flat_map in C as (j & Hj & C).
    apply in_seq in Hj. apply repeat_spec in C. lia.
  - rewrite IH by lia. rewrite count_occ_repeat_neq by congruence. lia.
Qed.
Lemma in_order_complete n : complete (S T) n (in_order M n).
Proof.
  split; [|intros; now apply in_order_count]. intros i H. unfold in_order in H. apply in_flat_map in H as (j & Hj & C).
  apply in_seq in Hj. apply repeat_spec in C. lia.
Qed.

(** ** the trees of a routine are those of the estimator *)
Lemma fold_plain step ind k : tree_fold (mkWork step ind false false) k =
  (fold_left (fun acc b => add_tree T ind (selected M step m depth N b) acc) (seq 0 k) 0%Q, rule0, fun _ => 0%Q).
Proof.
  unfold tree_fold. induction k as [|k IH]; [reflexivity|]. rewrite seq_S, !fold_left_app. cbn [w_rule w_weights w_step w_ind] in *. rewrite IH. reflexivity.
Qed.
Lemma plain_fold step ind : tree_fold (mkWork step ind false false) T = (forest M step m depth N ind, rule0, fun _ => 0%Q).
Proof. apply fold_plain. Qed.
Lemma full_fold step ind : tree_fold (mkWork step ind true true) T = forest_rule M step m depth N ind.
Proof. reflexivity. Qed.
Lemma fold_ruled step ind k : tree_fold (mkWork step ind true false) k =
  (fst (tree_fold (mkWork step ind true true) k), fun _ => 0%Q).
Proof.
  unfold tree_fold. cbn [w_rule w_weights w_step w_ind].
  induction k as [|k IH]; [reflexivity|]. rewrite seq_S, !fold_left_app. rewrite IH. clear IH.
  destruct (fold_left _ (seq 0 k) _) as [[acc p] wt]. reflexivity.
Qed.
Lemma ruled_fold step ind : tree_fold (mkWork step ind true false) T =
  (fst (forest_rule M step m depth N ind), fun _ => 0%Q).
Proof. rewrite fold_ruled, full_fold. reflexivity. Qed.
End Loop.

(** ** Compiled routines *)
Section Compiled.
Variable M : fmem.
Variable data : nat -> pt.
Variable y : nat -> Q.
Variable N : nat.
Variables (depth m : nat) (classifier : bool).
Notation T := (F_trees M).

Definition due_row (r : routine) (a : rowargs) : Q * rule * (nat -> Q) :=
  due M data y N depth m classifier r (a_x a) (a_y a) (a_down a) (a_up a) (a_S a) (a_cond a) (a_t0 a) (a_t1 a).

Lemma work_due r a : let f := tree_fold M N depth m (work_of data y classifier r a) T in
  fst (fst f) = fst (fst (due_row r a)) /\
  (ruled r -> snd (fst f) = snd (fst (due_row r a))) /\ (weighted r -> snd f = snd (due_row r a)).
Proof.
  destruct a as [x yx dn up Sv cd t0 t1]. unfold due_row. cbn [a_x a_y a_down a_up a_S a_cond a_t0 a_t1].
  unfold ruled, weighted.
  destruct r; cbn [work_of due]; cbv zeta; rewrite ?plain_fold, ?ruled_fold, ?full_fold; cbn [fst snd];
    (split; [reflexivity|split; intro H; cbn in H; try (exfalso; decompose [or] H; congruence); try reflexivity;
      repeat (destruct H as [H|H]; [try discriminate|]); try contradiction; try reflexivity]).
Qed.

Lemma all_some_map {A B} (f : A -> option B) l v : all_some (map f l) = Some v <-> map f l = map Some v.
Proof.
  revert v. induction l as [|a l IH]; intros [|b v]; cbn [map all_some].
  - now split.
  - split; discriminate.
  - destruct (f a); [|split; discriminate]. destruct (all_some (map f l)); split; intro H; try discriminate.
  - destruct (f a) as [c|]; [|split; discriminate]. destruct (all_some (map f l)) as [w|] eqn:E.
    + split; intro H.
      * injection H as -> ->. f_equal. now apply IH.
      * injection H as -> H. apply IH in H. injection H as ->. reflexivity.
    + split; [discriminate|]. intro H. injection H as -> H. apply IH in H. discriminate.
Qed.

Lemma gives_rules_spec r : gives_rules r = true <-> ruled r.
Proof. unfold ruled. destruct r; cbn; split; intro H; try discriminate; try tauto; exfalso; decompose [or] H; try discriminate; contradiction. Qed.
Lemma gives_weights_spec r : gives_weights r = true <-> weighted r.
Proof. unfold weighted. destruct r; cbn; split; intro H; try discriminate; try tauto; exfalso; decompose [or] H; try discriminate; contradiction. Qed.

(** all arguments present: the routine returns, row by row *)
Lemma compiled_rows r a t sched s lv l :
  sets_of (one_set r) (g_S a) = Some s -> convert (form r) t = Returned lv ->
  map (row_args classifier r a s lv) (seq 0 (length (g_X a))) = map Some l ->
  complete (S T) (length (g_X a)) sched ->
  exists res, compiled M data y N depth m classifier r a t sched = Returned res /\
    row_by_row r res (length (g_X a)) (fun i => due_row r (nth i l no_args)).
Proof.
  intros Hs Ht Hl Hc. unfold compiled. rewrite Hs, Ht. apply all_some_map in Hl. rewrite Hl.
  eexists. split; [reflexivity|]. set (W := fun i => work_of data y classifier r (nth i l no_args)).
  assert (V : forall i, i < length (g_X a) ->
     view (run_loop M N depth m W sched b0) i =
     (T, fst (fst (tree_fold M N depth m (W i) T)), snd (fst (tree_fold M N depth m (W i) T)), snd (tree_fold M N depth m (W i) T), fst (fst (tree_fold M N depth m (W i) T))))
    by (intros; now apply loop_row with (length (g_X a))).
  unfold row_by_row. cbn [r_sdp r_rules r_weights].
  split; [|split; [|split; [|split]]].
  - apply map_ext_in. intros i Hi. apply in_seq in Hi. specialize (V i ltac:(lia)). unfold view in V. injection V as _ _ _ _ V.
    rewrite V. apply (work_due r).
  - intro R. rewrite (proj2 (gives_rules_spec r) R). f_equal.
    apply map_ext_in. intros i Hi. apply in_seq in Hi. specialize (V i ltac:(lia)). unfold view in V. injection V as _ _ V _ _.
    rewrite V. now apply (work_due r).
  - intro R. destruct (gives_rules r) eqn:E; [|reflexivity]. exfalso. apply R. now apply gives_rules_spec.
  - intro R. rewrite (proj2 (gives_weights_spec r) R). f_equal.
    apply map_ext_in. intros i Hi. apply in_seq in Hi. specialize (V i ltac:(lia)). unfold view in V. injection V as _ _ _ V _.
    rewrite V. now apply (work_due r).
  - intro R. destruct (gives_weights r) eqn:E; [|reflexivity]. exfalso. apply R. now apply gives_weights_spec.
Qed.
End Compiled.

(** ** Methods *)
Lemma nth_map_seq {A} (f : nat -> A) n i d : i < n -> nth i (map f (seq 0 n)) d = f i.
Proof.
  intro H. rewrite (nth_indep _ d (f 0)) by (rewrite map_length, seq_length; assumption).
  rewrite map_nth, seq_nth by assumption. reflexivity.
Qed.
Lemma entry_nth {A} need (l : list A) i d : (need = true -> i < length l) -> entry need l i d = Some (nth i l d).
Proof.
  intro H. unfold entry. destruct (nth_error l i) as [a|] eqn:E.
  - rewrite (nth_error_nth l i d E). reflexivity.
  - apply nth_error_None in E. destruct need; [specialize (H eq_refl); lia|]. rewrite nth_overflow by assumption. reflexivity.
Qed.
Lemma bracketed_spec r : with_interval r = true <-> bracketed r.
Proof. unfold bracketed. destruct r; cbn; split; intro H; try discriminate; try tauto; exfalso; decompose [or] H; try discriminate; contradiction. Qed.
Lemma boxed_spec r : with_box r = true <-> boxed r.
Proof. unfold boxed. destruct r; cbn; split; intro H; try discriminate; try tauto; exfalso; decompose [or] H; try discriminate; contradiction. Qed.

Definition nowhere : pt := fun _ => 0%Q.
(** arguments of row [i], with the sets [Sf] and the levels [lev] *)
Definition row_of_args (a : args) (Sf : nat -> list nat) (lev : nat -> Q * Q) (i : nat) : rowargs :=
  mkRow' (nth i (g_X a) nowhere) (nth i (g_y a) 0%Q) (nth i (g_down a) 0%Q) (nth i (g_up a) 0%Q) (Sf i)
         (nth i (g_cond a) rule0) (fst (lev i)) (snd (lev i)).

Section Rows.
Variable classifier : bool.
Lemma row_args_some r a s lv Sf lev i : i < length (g_X a) -> length (g_y a) = length (g_X a) ->
  (bracketed r -> length (g_down a) = length (g_X a) /\ length (g_up a) = length (g_X a)) ->
  (boxed r -> length (g_cond a) = length (g_X a)) ->
  set_at s i = Some (Sf i) -> level_entry (reads_t classifier r) lv i = Some (lev i) ->
  row_args classifier r a s lv i = Some (row_of_args a Sf lev i).
Proof.
  intros Hi Hy Hd Hb Hs Hl. unfold row_args, row_of_args.
  rewrite (nth_error_nth' _ nowhere Hi). rewrite entry_nth by lia.
  rewrite !entry_nth.
  - rewrite Hs, Hl. destruct (lev i). reflexivity.
  - intro H. apply boxed_spec in H. rewrite (Hb H). assumption.
  - intro H. apply andb_true_iff in H as [H _]. apply bracketed_spec in H. now rewrite (proj2 (Hd H)).
  - intro H. apply andb_true_iff in H as [H _]. apply bracketed_spec in H. now rewrite (proj1 (Hd H)).
Qed.
End Rows.

Lemma map_Some_seq {A} (f : nat -> option A) g n : (forall i, i < n -> f i = Some (g i)) ->
  map f (seq 0 n) = map Some (map g (seq 0 n)).
Proof. intro H. rewrite map_map. apply map_ext_in. intros i Hi. apply in_seq in Hi. apply H. lia. Qed.

Lemma row_by_row_ext r res n v w : (forall i, i < n -> v i = w i) -> row_by_row r res n v -> row_by_row r res n w.
Proof.
  intros H (H1 & H2 & H3 & H4 & H5). unfold row_by_row.
  assert (E : forall {A} (f : Q * rule * (nat -> Q) -> A), map (fun i => f (v i)) (seq 0 n) = map (fun i => f (w i)) (seq 0 n)).
  { intros A f. apply map_ext_in. intros i Hi. apply in_seq in Hi. rewrite H by lia. reflexivity. }
  split; [|split; [|split; [|split]]]; trivial.
  - rewrite H1. apply (E _ (fun t => fst (fst t))).
  - intro R. rewrite (H2 R). f_equal. apply (E _ (fun t => snd (fst t))).
  - intro R. rewrite (H4 R). f_equal. apply (E _ snd).
Qed.

Lemma compiled_all M D Y depth m classifier r a t sched s lv Sf lev :
  length (g_y a) = length (g_X a) ->
  (bracketed r -> length (g_down a) = length (g_X a) /\ length (g_up a) = length (g_X a)) ->
  (boxed r -> length (g_cond a) = length (g_X a)) ->
  sets_of (one_set r) (g_S a) = Some s -> (forall i, i < length (g_X a) -> set_at s i = Some (Sf i)) ->
  convert (form r) t = Returned lv ->
  (forall i, i < length (g_X a) -> level_entry (reads_t classifier r) lv i = Some (lev i)) ->
  complete (S (F_trees M)) (length (g_X a)) sched ->
  exists res, compiled M (rows_of D) (vals_of Y) (length D) depth m classifier r a t sched = Returned res /\
    row_by_row r res (length (g_X a)) (fun i => due_row M (rows_of D) (vals_of Y) (length D) depth m classifier r (row_of_args a Sf lev i)).
Proof.
  intros Hy Hd Hb Hs HS Ht Hl Hc.
  destruct (compiled_rows M (rows_of D) (vals_of Y) (length D) depth m classifier r a t sched s lv
              (map (row_of_args a Sf lev) (seq 0 (length (g_X a)))) Hs Ht) as (res & E & R).
  - apply map_Some_seq. intros i Hi. apply row_args_some; auto.
  - assumption.
  - exists res. split; [assumption|]. revert R. apply row_by_row_ext. intros i Hi. rewrite nth_map_seq by assumption. reflexivity.
Qed.

Lemma due_levels M data y N depth m r x yx dn up Sv cd t0 t1 t0' t1' : acx_routine r \/ r = ddp_intv_same \/ r = cdp_intv_same ->
  due M data y N depth m true r x yx dn up Sv cd t0 t1 = due M data y N depth m true r x yx dn up Sv cd t0' t1'.
Proof. intros [H|[->| ->]]; try reflexivity. unfold acx_routine in H. destruct r; try reflexivity; exfalso; cbn in H; decompose [or] H; try discriminate; contradiction. Qed.

Lemma acx_facts r : acx_routine r -> one_set r = false /\ form r = Matrix.
Proof. unfold acx_routine. intro H. destruct r; cbn; try (split; reflexivity); exfalso; cbn in H; decompose [or] H; try discriminate; contradiction. Qed.

(** the levels the method hands over *)
Lemma acx_levels_ok classifier q X t lev : own_levels classifier q X t lev ->
  exists l, acx_levels classifier q X t = T_matrix l /\
  forall i, i < length X -> level_at (L_matrix l) i = Some (if classifier then (0%Q, 0%Q) else lev i).
Proof.
  intro H. unfold acx_levels. destruct classifier.
  - eexists. split; [reflexivity|]. intros i Hi. unfold level_at. rewrite nth_error_map, (nth_error_nth' X nowhere Hi). reflexivity.
  - destruct H as [H|[(-> & H)|(l & -> & Hl & H)]]; [discriminate| |].
    + eexists. split; [reflexivity|]. intros i Hi. unfold level_at. rewrite nth_error_map, (nth_error_nth' X nowhere Hi). cbn [option_map].
      rewrite H by assumption. unfold nowhere. now destruct (q _).
    + exists l. split; [reflexivity|]. intros i Hi. unfold level_at. rewrite (nth_error_nth' l []) by lia. destruct (H i Hi) as (w & ->).
      now destruct (lev i).
Qed.

Definition fnth (D : list pt) : nat -> pt := fun i => nth i D (fun _ => 0%Q).
Definition qnth (Y : list Q) : nat -> Q := fun i => nth i Y 0%Q.

Lemma checked_spec X Y : checked X Y = true <-> table X Y.
Proof.
  unfold checked, table. rewrite andb_true_iff, Nat.eqb_eq, Nat.ltb_lt. split; intros [H H']; split; try assumption.
  - intro C. subst X. cbn in H'. lia.
  - destruct X; [congruence|cbn; lia].
Qed.

Lemma acx_rows M depth classifier q r a l D Y m t sched lev :
  acx_routine r -> table (g_X a) (g_y a) -> table D Y -> documented r a l -> own_levels classifier q (g_X a) t lev ->
  complete (S (F_trees M)) (length (g_X a)) sched ->
  exists res, acx M depth classifier q r a D Y m t sched = Returned res /\
    row_by_row r res (length (g_X a)) (fun i =>
      due M (fun j => nth j D (fun _ => 0%Q)) (fun j => nth j Y 0%Q) (length D) depth m classifier r
        (nth i (g_X a) (fun _ => 0%Q)) (nth i (g_y a) 0%Q) (nth i (g_down a) 0%Q) (nth i (g_up a) 0%Q)
        (nth i l []) (nth i (g_cond a) rule0) (fst (lev i)) (snd (lev i))).
Proof.
  intros Hr HX HD (HS & Hl & Hd & Hb) Hlev Hc. destruct (acx_facts r Hr) as [H1 H2]. destruct (acx_levels_ok _ _ _ _ _ Hlev) as (lm & E & L).
  unfold acx. rewrite (proj2 (checked_spec _ _) HX), (proj2 (checked_spec _ _) HD), H1, HS. cbn [negb andb s_len].
  rewrite Hl, Nat.eqb_refl. cbn [negb]. rewrite E.
  destruct (compiled_all M D Y depth m classifier r a (T_matrix lm) sched (S_rows l) (L_matrix lm) (fun i => nth i l [])
              (fun i => if classifier then (0%Q, 0%Q) else lev i)) as (res & E' & R); auto.
  - symmetry. apply HX.
  - rewrite H1, HS. reflexivity.
  - intros i Hi. cbn. apply nth_error_nth'. lia.
  - rewrite H2. reflexivity.
  - intros i Hi. unfold level_entry. rewrite L by assumption. reflexivity.
  - exists res. split; [assumption|]. revert R. apply row_by_row_ext. intros i Hi. unfold due_row, row_of_args. cbn [a_x a_y a_down a_up a_S a_cond a_t0 a_t1].
    destruct classifier; [|reflexivity]. apply due_levels. now left.
Qed.

Lemma acx_same_rows M depth classifier q r a s D Y m t sched lev :
  r = ddp_intv_same \/ r = cdp_intv_same -> table (g_X a) (g_y a) -> table D Y -> g_S a = S_same s ->
  length (g_cond a) = length (g_X a) -> own_levels classifier q (g_X a) t lev ->
  complete (S (F_trees M)) (length (g_X a)) sched ->
  exists res, acx M depth classifier q r a D Y m t sched = Returned res /\
    row_by_row r res (length (g_X a)) (fun i =>
      due M (fun j => nth j D (fun _ => 0%Q)) (fun j => nth j Y 0%Q) (length D) depth m classifier r
        (nth i (g_X a) (fun _ => 0%Q)) (nth i (g_y a) 0%Q) 0%Q 0%Q s (nth i (g_cond a) rule0) (fst (lev i)) (snd (lev i))).
Proof.
  intros Hr HX HD HS Hb Hlev Hc. destruct (acx_levels_ok _ _ _ _ _ Hlev) as (lm & E & L).
  assert (H1 : one_set r = true) by (destruct Hr as [->| ->]; reflexivity).
  assert (H2 : form r = Matrix) by (destruct Hr as [->| ->]; reflexivity).
  unfold acx. rewrite (proj2 (checked_spec _ _) HX), (proj2 (checked_spec _ _) HD), H1, HS. cbn [negb andb]. rewrite E.
  destruct (compiled_all M D Y depth m classifier r a (T_matrix lm) sched (S_same s) (L_matrix lm) (fun i => s)
              (fun i => if classifier then (0%Q, 0%Q) else lev i)) as (res & E' & R); auto.
  - symmetry. apply HX.
  - intro B. exfalso. destruct Hr as [->| ->]; cbn in B; decompose [or] B; try discriminate; contradiction.
  - rewrite H1, HS. reflexivity.
  - rewrite H2. reflexivity.
  - intros i Hi. unfold level_entry. rewrite L by assumption. reflexivity.
  - exists res. split; [assumption|]. revert R. apply row_by_row_ext. intros i Hi. unfold due_row, row_of_args. cbn [a_x a_y a_down a_up a_S a_cond a_t0 a_t1].
    destruct Hr as [->| ->], classifier; reflexivity.
Qed.

(** ** Consequences *)

(** the estimators that count events give probabilities *)
Lemma Qb01 b : (0 <= Qb b <= 1)%Q.
Proof. destruct b; cbn; lra. Qed.
Lemma Qb2 b c : (0 <= Qb b * Qb c <= 1)%Q.
Proof. destruct b, c; cbn; lra. Qed.
Lemma due_01 M data y N depth m classifier r x yx dn up Sv cd t0 t1 : r <> exp_rf ->
  (0 <= fst (fst (due M data y N depth m classifier r x yx dn up Sv cd t0 t1)) <= 1)%Q.
Proof.
  intro H.
  assert (I1 : forall i, i < N -> (0 <= ind_same classifier yx t0 t1 y i <= 1)%Q)
    by (intros i _; unfold ind_same; destruct classifier; [apply Qb01|apply Qb2]).
  assert (I2 : forall i, i < N -> (0 <= ind_diff classifier yx t0 t1 y i <= 1)%Q)
    by (intros i _; unfold ind_diff; destruct classifier; [apply Qb01|pose proof (Qb2 (qleb t0 (y i)) (qleb (y i) t1)); lra]).
  assert (I3 : forall i, i < N -> (0 <= ind_cdp classifier yx dn up y i <= 1)%Q)
    by (intros i _; unfold ind_cdp; destruct classifier; apply Qb01).
  assert (I4 : forall i, i < N -> (0 <= ind_cdp_intv classifier yx t0 t1 y i <= 1)%Q)
    by (intros i _; unfold ind_cdp_intv; destruct classifier; [apply Qb01|apply Qb2]).
  assert (I5 : forall i, i < N -> (0 <= ind_v0 classifier yx t1 y i <= 1)%Q)
    by (intros i _; unfold ind_v0; destruct classifier; apply Qb01).
  assert (I6 : forall i, i < N -> (0 <= ind_cdf t1 y i <= 1)%Q) by (intros i _; apply Qb01).
  pose proof (any_01 M data false zinsert (dec_obs Sv x) (fun R => rf_step R Sv x data) (fun R n st => rf_step_g Sv x data R n st) m depth N) as A1.
  pose proof (any_01 M data true zinsert (dec_obs Sv x) (fun R => rule_step R Sv x data) (fun R n st => rule_step_g Sv x data R n st) m depth N) as A2.
  pose proof (any_01 M data true vins (dec_obs Sv x) (fun R => vec_step R Sv x data) (fun R n st => vec_step_g Sv x data R n st) m depth N) as A3.
  pose proof (any_01 M data true zinsert (dec_cond Sv x cd) (fun R => cond_step R Sv x data cd) (fun R n st => cond_step_g Sv x data cd R n st) m depth N) as A4.
  pose proof (any_01 M data true zinsert (dec_intv Sv cd) (fun R => intv_step R Sv data cd) (fun R n st => intv_step_g Sv data cd R n st) m depth N) as A5.
  pose proof (forest_rule_prob M data true zinsert (dec_obs Sv x) (fun R => rule_step R Sv x data) (fun R n st => rule_step_g Sv x data R n st) m depth N) as P2.
  pose proof (forest_rule_prob M data true vins (dec_obs Sv x) (fun R => vec_step R Sv x data) (fun R n st => vec_step_g Sv x data R n st) m depth N) as P3.
  pose proof (forest_rule_prob M data true zinsert (dec_cond Sv x cd) (fun R => cond_step R Sv x data cd) (fun R n st => cond_step_g Sv x data cd R n st) m depth N) as P4.
  pose proof (forest_rule_prob M data true zinsert (dec_intv Sv cd) (fun R => intv_step R Sv data cd) (fun R n st => intv_step_g Sv data cd R n st) m depth N) as P5.
  destruct r; try congruence; cbn [due fst snd];
  unfold compute_sdp_rf, compute_ddp_rf, compute_cdp_rf, compute_cdf_rf, compute_sdp_rf_v0, compute_sdp_rule_weights, compute_ddp_rule_weights,
    compute_cdp_rule_weights, compute_sdp_rule_v0_weights, compute_ddp_cond_weights, compute_cdp_cond_weights, compute_ddp_intv_weights, compute_cdp_intv_weights;
  rewrite ?P2, ?P3, ?P4, ?P5; auto.
Qed.
Lemma acx_probabilities M depth classifier q r a l D Y m t sched lev :
  acx_routine r -> r <> exp_rf -> table (g_X a) (g_y a) -> table D Y -> documented r a l -> own_levels classifier q (g_X a) t lev ->
  complete (S (F_trees M)) (length (g_X a)) sched ->
  exists res, acx M depth classifier q r a D Y m t sched = Returned res /\
    length (r_sdp res) = length (g_X a) /\ forall p, In p (r_sdp res) -> (0 <= p <= 1)%Q.
Proof.
  intros H1 H0 H2 H3 H4 H5 H6. destruct (acx_rows M depth classifier q r a l D Y m t sched lev H1 H2 H3 H4 H5 H6) as (res & E & R & _).
  exists res. split; [assumption|]. rewrite R, map_length, seq_length. split; [reflexivity|].
  intros p Hp. apply in_map_iff in Hp as (i & <- & _). now apply due_01.
Qed.

Lemma acx_no_condition M depth q a l D Y m t sched :
  0 < F_trees M -> table (g_X a) (g_y a) -> table D Y -> documented sdp_rf a l -> (forall s, In s l -> s = []) ->
  complete (S (F_trees M)) (length (g_X a)) sched ->
  exists res, acx M depth true q sdp_rf a D Y m t sched = Returned res /\ length (r_sdp res) = length (g_X a) /\
    forall i, i < length (g_X a) ->
      (nth i (r_sdp res) 0 == frequency (length D) (fun j => qeqb (nth i (g_y a) 0) (nth j Y 0)))%Q.
Proof.
  intros HT H2 H3 H4 H5 H6.
  destruct (acx_rows M depth true q sdp_rf a l D Y m t sched (fun _ => (0, 0)%Q) ltac:(cbn; tauto) H2 H3 H4 ltac:(now left) H6) as (res & E & R & _).
  exists res. split; [assumption|]. rewrite R, map_length, seq_length. split; [reflexivity|].
  intros i Hi. rewrite nth_map_seq by assumption. cbn [due fst].
  replace (nth i l []) with (@nil nat).
  - refine (proj1 (nothing_statement M _ _ (length D) depth m true _ _ _ _ (fun j => qeqb (nth i (g_y a) 0%Q) (nth j Y 0%Q)) HT _)).
    intro j. unfold same_decision. destruct (qeqb_spec (nth i (g_y a) 0%Q) (nth j Y 0%Q)); split; intro K; try congruence; auto.
  - destruct (Nat.lt_ge_cases i (length l)) as [K|K]; [|now rewrite nth_overflow]. symmetry. apply H5. now apply nth_In.
Qed.

(** any two executions give the same *)
Lemma loop_schedules M N depth m W n sched sched' i : complete (S (F_trees M)) n sched -> complete (S (F_trees M)) n sched' ->
  view (run_loop M N depth m W sched b0) i = view (run_loop M N depth m W sched' b0) i.
Proof.
  intros H H'. destruct (Nat.lt_ge_cases i n).
  - rewrite (loop_row M N depth m W n sched i), (loop_row M N depth m W n sched' i) by assumption. reflexivity.
  - rewrite (loop_outside M N depth m W n sched i), (loop_outside M N depth m W n sched' i) by assumption. reflexivity.
Qed.
Lemma compiled_schedules M data y N depth m classifier r a t sched sched' :
  complete (S (F_trees M)) (length (g_X a)) sched -> complete (S (F_trees M)) (length (g_X a)) sched' ->
  compiled M data y N depth m classifier r a t sched = compiled M data y N depth m classifier r a t sched'.
Proof.
  intros H H'. unfold compiled. destruct (sets_of _ _) as [s|]; [|reflexivity]. destruct (convert _ _) as [lv|e|]; try reflexivity.
  destruct (all_some _) as [l|]; [|reflexivity]. cbv zeta. f_equal.
  set (W := fun i => work_of data y classifier r (nth i l no_args)).
  assert (E : forall i, view (run_loop M N depth m W sched b0) i = view (run_loop M N depth m W sched' b0) i)
    by (intro; now apply loop_schedules with (length (g_X a))).
  f_equal.
  - apply map_ext. intro i. specialize (E i). unfold view in E. injection E as _ _ _ _ E. exact E.
  - destruct (gives_rules r); [|reflexivity]. f_equal. apply map_ext. intro i. specialize (E i). unfold view in E. injection E as _ _ E _ _. exact E.
  - destruct (gives_weights r); [|reflexivity]. f_equal. apply map_ext. intro i. specialize (E i). unfold view in E. injection E as _ _ _ E _. exact E.
Qed.

Lemma seq_join n k : seq 0 (n + k) = seq 0 n ++ map (Nat.add n) (seq 0 k).
Proof.
  rewrite seq_app. f_equal. cbn [Nat.add]. induction n as [|n IH]; [symmetry; apply map_id|].
  rewrite <- seq_shift, IH, map_map. reflexivity.
Qed.

Lemma ruled_dec r : ruled r \/ ~ ruled r.
Proof. unfold ruled. destruct r; cbn; ((left; tauto) || (right; intro H; decompose [or] H; try discriminate; contradiction)). Qed.
Lemma weighted_dec r : weighted r \/ ~ weighted r.
Proof. unfold weighted. destruct r; cbn; ((left; tauto) || (right; intro H; decompose [or] H; try discriminate; contradiction)). Qed.
Lemma bracketed_dec r : bracketed r \/ ~ bracketed r.
Proof. unfold bracketed. destruct r; cbn; ((left; tauto) || (right; intro H; decompose [or] H; try discriminate; contradiction)). Qed.
Lemma boxed_dec r : boxed r \/ ~ boxed r.
Proof. unfold boxed. destruct r; cbn; ((left; tauto) || (right; intro H; decompose [or] H; try discriminate; contradiction)). Qed.

Lemma map_seq_join {A} (f : nat -> A) n k : map f (seq 0 (n + k)) = map f (seq 0 n) ++ map (fun i => f (n + i)) (seq 0 k).
Proof. rewrite seq_join, map_app, map_map. reflexivity. Qed.
Lemma row_join r n k v1 v2 v res1 res2 res : row_by_row r res1 n v1 -> row_by_row r res2 k v2 -> row_by_row r res (n + k) v ->
  (forall i, i < n -> v i = v1 i) -> (forall i, i < k -> v (n + i) = v2 i) ->
  res = mkRes (r_sdp res1 ++ r_sdp res2) (stacked (r_rules res1) (r_rules res2)) (stacked (r_weights res1) (r_weights res2)).
Proof.
  intros (A1 & A2 & A3 & A4 & A5) (B1 & B2 & B3 & B4 & B5) (C1 & C2 & C3 & C4 & C5) H1 H2. destruct res as [u1 u2 u3]. cbn [r_sdp r_rules r_weights] in *.
  assert (J : forall {A} (f : Q * rule * (nat -> Q) -> A), map (fun i => f (v i)) (seq 0 (n + k)) = map (fun i => f (v1 i)) (seq 0 n) ++ map (fun i => f (v2 i)) (seq 0 k)).
  { intros A f. rewrite map_seq_join. f_equal; apply map_ext_in; intros i Hi; apply in_seq in Hi; [rewrite H1 by lia|rewrite H2 by lia]; reflexivity. }
  f_equal.
  - rewrite C1, A1, B1. apply (J _ (fun p => fst (fst p))).
  - destruct (ruled_dec r) as [D|D]; [rewrite C2, A2, B2 by assumption|now rewrite C3, A3, B3 by assumption]. cbn [stacked]. f_equal. apply (J _ (fun p => snd (fst p))).
  - destruct (weighted_dec r) as [D|D]; [rewrite C4, A4, B4 by assumption|now rewrite C5, A5, B5 by assumption]. cbn [stacked]. f_equal. apply (J _ snd).
Qed.

Lemma due_brackets M data y N depth m classifier r x yx dn up dn' up' Sv cd t0 t1 : ~ bracketed r ->
  due M data y N depth m classifier r x yx dn up Sv cd t0 t1 = due M data y N depth m classifier r x yx dn' up' Sv cd t0 t1.
Proof. unfold bracketed. intro H. destruct r; try reflexivity; exfalso; apply H; cbn; tauto. Qed.
Lemma due_boxes M data y N depth m classifier r x yx dn up Sv cd cd' t0 t1 : ~ boxed r ->
  due M data y N depth m classifier r x yx dn up Sv cd t0 t1 = due M data y N depth m classifier r x yx dn up Sv cd' t0 t1.
Proof. unfold boxed. intro H. destruct r; try reflexivity; exfalso; apply H; cbn; tauto. Qed.

Lemma acx_join M depth classifier q r a b D Y m l k sched1 sched2 sched :
  acx_routine r -> table (g_X a) (g_y a) -> table (g_X b) (g_y b) -> table D Y -> documented r a l -> documented r b k ->
  complete (S (F_trees M)) (length (g_X a)) sched1 -> complete (S (F_trees M)) (length (g_X b)) sched2 ->
  complete (S (F_trees M)) (length (g_X a) + length (g_X b)) sched ->
  exists res1 res2,
    acx M depth classifier q r a D Y m T_none sched1 = Returned res1 /\
    acx M depth classifier q r b D Y m T_none sched2 = Returned res2 /\
    acx M depth classifier q r (joined a b) D Y m T_none sched =
      Returned (mkRes (r_sdp res1 ++ r_sdp res2) (stacked (r_rules res1) (r_rules res2)) (stacked (r_weights res1) (r_weights res2))).
Proof.
  intros Hr Ha Hb HD Da Db S1 S2 S3.
  set (lev := fun (X : list pt) i => q (nth i X (fun _ => 0%Q))).
  assert (L : forall X, own_levels classifier q X T_none (lev X)) by (intro X; right; left; split; [reflexivity|intros; reflexivity]).
  destruct (acx_rows M depth classifier q r a l D Y m T_none sched1 _ Hr Ha HD Da (L _) S1) as (res1 & E1 & R1).
  destruct (acx_rows M depth classifier q r b k D Y m T_none sched2 _ Hr Hb HD Db (L _) S2) as (res2 & E2 & R2).
  assert (DJ : documented r (joined a b) (l ++ k)).
  { destruct Da as (Sa & la & da & ba), Db as (Sb & lb & db & bb). unfold joined. cbn [g_S g_X g_down g_up g_cond].
    repeat split; cbn [g_S g_X g_down g_up g_cond]; rewrite ?Sa, ?Sb, ?app_length, ?la, ?lb; trivial.
    - destruct da, db; auto; now f_equal.
    - destruct da, db; auto; now f_equal.
    - intro B. now rewrite ba, bb by assumption. }
  assert (TJ : table (g_X (joined a b)) (g_y (joined a b))).
  { destruct Ha as [Ha1 Ha2], Hb as [Hb1 Hb2]. split; cbn; [rewrite !app_length; lia|]. intro C. apply app_eq_nil in C. tauto. }
  assert (XJ : length (g_X (joined a b)) = length (g_X a) + length (g_X b)) by (cbn; apply app_length).
  destruct (acx_rows M depth classifier q r (joined a b) (l ++ k) D Y m T_none sched _ Hr TJ HD DJ (L _) ltac:(now rewrite XJ)) as (res & E & R).
  exists res1, res2. split; [assumption|]. split; [assumption|]. rewrite E. f_equal. rewrite XJ in R.
  destruct Ha as [Ha1 Ha2], Hb as [Hb1 Hb2], Da as (Sa & la & da & ba), Db as (Sb & lb & db & bb).
  refine (row_join r _ _ _ _ _ _ _ _ R1 R2 R _ _); intros i Hi; cbn [joined g_X g_y g_down g_up g_cond]; unfold lev; cbn [joined g_X].
  - rewrite (app_nth1 (g_X a)), (app_nth1 (g_y a)), (app_nth1 l) by lia.
    destruct (bracketed_dec r) as [B|B].
    + destruct (da B). rewrite (app_nth1 (g_down a)), (app_nth1 (g_up a)) by lia.
      destruct (boxed_dec r) as [C|C]; [rewrite (app_nth1 (g_cond a)) by (rewrite ba; trivial); reflexivity|apply due_boxes; assumption].
    + rewrite (due_brackets _ _ _ _ _ _ _ r _ _ _ _ (nth i (g_down a) 0%Q) (nth i (g_up a) 0%Q)) by assumption.
      destruct (boxed_dec r) as [C|C]; [rewrite (app_nth1 (g_cond a)) by (rewrite ba; trivial); reflexivity|apply due_boxes; assumption].
  - rewrite (app_nth2 (g_X a)), (app_nth2 (g_y a)), (app_nth2 l) by lia.
    rewrite <- Ha1, la, Nat.add_comm, Nat.add_sub.
    destruct (bracketed_dec r) as [B|B].
    + destruct (da B) as [U V]. rewrite (app_nth2 (g_down a)), (app_nth2 (g_up a)) by lia. rewrite U, V, Nat.add_sub.
      destruct (boxed_dec r) as [C|C]; [rewrite (app_nth2 (g_cond a)) by (rewrite ba; trivial; lia); rewrite ba, Nat.add_sub by assumption; reflexivity|apply due_boxes; assumption].
    + rewrite (due_brackets _ _ _ _ _ _ _ r _ _ _ _ (nth i (g_down b) 0%Q) (nth i (g_up b) 0%Q)) by assumption.
      destruct (boxed_dec r) as [C|C]; [rewrite (app_nth2 (g_cond a)) by (rewrite ba; trivial; lia); rewrite ba, Nat.add_sub by assumption; reflexivity|apply due_boxes; assumption].
Qed.

(** ** The other classes *)

Lemma acv_number M depth classifier r a D Y m p sched : form r <> Number -> forall res, acv M depth classifier r a D Y m (T_number p) sched <> Returned res.
Proof.
  intros F res. unfold acv. destruct (negb _); [discriminate|]. destruct (negb _); [discriminate|]. unfold compiled. destruct (sets_of _ _); [|discriminate].
  destruct (form r) eqn:E; cbn [convert]; try discriminate. congruence.
Qed.
Lemma acv_search_number {A} a D Y p (body : levels -> A) res : acv_search a D Y (T_number p) body <> Returned res.
Proof. unfold acv_search. destruct (negb _); discriminate. Qed.
Lemma acx_cdf_never M depth classifier q a D Y m t sched res : classifier = true \/ t = T_none ->
  acx M depth classifier q cdf_rf a D Y m t sched <> Returned res.
Proof.
  intros H. unfold acx. destruct (negb _); [discriminate|]. destruct (_ && _); [discriminate|]. unfold compiled. destruct (sets_of _ _); [|discriminate].
  unfold acx_levels. destruct H as [->| ->]; [|destruct classifier]; discriminate.
Qed.

(** the levels by observation, for the classes that hand [t] over as it is *)
Lemma direct_rows M D Y depth m classifier r a l t sched lev : length Y = length D -> r <> cdf_rf ->
  form r = Matrix -> one_set r = false -> length (g_X a) = length (g_y a) -> documented r a l ->
  (exists tm, t = T_matrix tm /\ forall i, i < length (g_X a) -> exists rest, nth_error tm i = Some (fst (lev i) :: snd (lev i) :: rest)) ->
  complete (S (F_trees M)) (length (g_X a)) sched ->
  exists res, compiled M (rows_of D) (vals_of Y) (length D) depth m classifier r a t sched = Returned res /\
    row_by_row r res (length (g_X a)) (fun i =>
      due M (fun j => nth j D (fun _ => 0%Q)) (fun j => nth j Y 0%Q) (length D) depth m classifier r
        (nth i (g_X a) (fun _ => 0%Q)) (nth i (g_y a) 0%Q) (nth i (g_down a) 0%Q) (nth i (g_up a) 0%Q)
        (nth i l []) (nth i (g_cond a) rule0) (fst (lev i)) (snd (lev i))).
Proof.
  intros HY Hc F O Hy (HS & Hl & Hd & Hb) (tm & -> & Ht) C.
  destruct (compiled_all M D Y depth m classifier r a (T_matrix tm) sched (S_rows l) (L_matrix tm) (fun i => nth i l []) lev) as (res & E' & R); auto.
  - rewrite O, HS. reflexivity.
  - intros i Hi. cbn. apply nth_error_nth'. lia.
  - rewrite F. reflexivity.
  - intros i Hi. unfold level_entry. cbn. destruct (Ht i Hi) as [rest ->]. now destruct (lev i).
  - exists res. split; [assumption|]. exact R.
Qed.

(** ** The tables of the maximal rules *)
Section Max.
Variable M : fmem.
Variables (N depth m : nat).
Notation T := (F_trees M).
Notation done w := (T, fst (fst (tree_fold M N depth m w T)), snd (fst (tree_fold M N depth m w T)), snd (tree_fold M N depth m w T), fst (fst (tree_fold M N depth m w T))).

Lemma count_filter (p : nat -> bool) l j : count_occ Nat.eq_dec (filter p l) j = if p j then count_occ Nat.eq_dec l j else 0.
Proof.
  induction l as [|a l IH]; [now destruct (p j)|]. cbn [filter]. destruct (p a) eqn:E; cbn [count_occ]; destruct (Nat.eq_dec a j) as [->|D]; rewrite IH; try rewrite E; try reflexivity.
Qed.
Lemma fold_filter {A} (p : nat -> bool) (f : nat -> A -> A) l : forall s,
  fold_left (fun t j => if p j then f j t else t) l s = fold_left (fun t j => f j t) (filter p l) s.
Proof. induction l as [|a l IH]; intro s; [reflexivity|]. cbn [fold_left filter]. destruct (p a); cbn [fold_left]; apply IH. Qed.

Lemma max_loop_S all Wo Wd scheds n : max_loop M N depth m all Wo Wd scheds (S n) =
  max_body M N depth m all Wo Wd scheds (max_loop M N depth m all Wo Wd scheds n) n.
Proof. unfold max_loop. rewrite seq_S, fold_left_app. reflexivity. Qed.

Lemma own_fresh all Wo Wd scheds n i : n <= i -> view (m_own (max_loop M N depth m all Wo Wd scheds n)) i = view0.
Proof.
  induction n as [|n IH]; intro H; [reflexivity|]. rewrite max_loop_S. unfold max_body. cbn [m_own]. rewrite view_run, count_occ_repeat_neq by lia. apply IH. lia.
Qed.
Lemma own_done all Wo Wd scheds n i : i < n -> view (m_own (max_loop M N depth m all Wo Wd scheds n)) i = done (Wo i).
Proof.
  induction n as [|n IH]; intro H; [lia|]. rewrite max_loop_S. unfold max_body. cbn [m_own]. rewrite view_run. destruct (Nat.eq_dec i n) as [->|D].
  - rewrite count_occ_repeat_eq by reflexivity. rewrite own_fresh by lia. apply iter_done.
  - rewrite count_occ_repeat_neq by congruence. apply IH. lia.
Qed.
Lemma max_loop_row all Wo Wd scheds n i j : i < n -> complete (S T) N (scheds i) -> j < N ->
  let s := max_loop M N depth m all Wo Wd scheds n in
  (m_sdp s i j, m_part s i j) =
  if all || negb (qeqb (snd (tree_fold M N depth m (Wo i) T) j) 0) then fst (tree_fold M N depth m (Wd i j) T) else (0%Q, rule0).
Proof.
  intros H C Hj. induction n as [|n IH]; [lia|]. cbv zeta. rewrite max_loop_S. destruct (Nat.eq_dec i n) as [->|D].
  - pose proof (own_done all Wo Wd scheds (S n) n ltac:(lia)) as V. rewrite max_loop_S in V. unfold max_body in V |- *. cbn [m_own m_sdp m_part] in V |- *.
    rewrite !upd_same. apply (f_equal (fun v => snd (fst v))) in V. unfold view in V. cbn [fst snd] in V. rewrite V.
    rewrite (fold_filter (fun j => all || negb (qeqb (snd (tree_fold M N depth m (Wo n) T) j) 0)) (fun j t => tick M N depth m (Wd n) j t)).
    fold (run_loop M N depth m (Wd n) (filter (fun j => all || negb (qeqb (snd (tree_fold M N depth m (Wo n) T) j) 0)) (scheds n)) b0).
    pose proof (view_run M N depth m (Wd n) (filter (fun j => all || negb (qeqb (snd (tree_fold M N depth m (Wo n) T) j) 0)) (scheds n)) b0 j) as V'.
    rewrite count_filter in V'. destruct (all || _).
    + rewrite (proj2 C j Hj) in V'. change (view b0 j) with view0 in V'. rewrite iter_done in V'. unfold view in V'. injection V' as _ _ V1 _ V2. rewrite V1, V2.
      now destruct (tree_fold M N depth m (Wd n j) T) as [[? ?] ?].
    + cbn in V'. unfold view in V'. injection V' as _ _ V1 _ V2. rewrite V1, V2. reflexivity.
  - unfold max_body. cbn [m_sdp m_part]. rewrite !upd_other by assumption. apply IH. lia.
Qed.
End Max.

Section MaxTables.
Variable M : fmem.
Variables (depth : nat) (data : nat -> pt) (y : nat -> Q) (N m : nat) (classifier : bool) (l : list rowargs) (scheds : nat -> list nat).
Let row i := nth i l no_args.

Lemma max_tables_row i : i < length l -> complete (S (F_trees M)) N (scheds i) ->
  let s := max_tables M depth data y N m classifier l scheds in
  (b_sdp (m_own s) i, b_part (m_own s) i, b_w (m_own s) i) = max_own M data y N depth m classifier (a_t0 (row i)) (a_t1 (row i)) (a_S (row i)) (a_x (row i)) (a_y (row i)) /\
  forall j, j < N -> (m_sdp s i j, m_part s i j) = max_row M data y N depth m classifier (a_t0 (row i)) (a_t1 (row i)) (a_S (row i)) (a_x (row i)) (a_y (row i)) j.
Proof.
  intros Hi C. cbv zeta. unfold max_tables. split.
  - pose proof (own_done M N depth m false (fun i => let a := nth i l no_args in
      mkWork (fun R => rule_step R (a_S a) (a_x a) data) (ind_same classifier (a_y a) (a_t0 a) (a_t1 a) y) true true)
      (fun i j => let a := nth i l no_args in
      mkWork (fun R => rule_step R (a_S a) (data j) data) (ind_same classifier (a_y a) (a_t0 a) (a_t1 a) y) true false) scheds (length l) i Hi) as V.
    unfold view in V. injection V as _ _ V1 V2 V3. rewrite V1, V2, V3. cbv zeta. rewrite full_fold.
    unfold max_own, compute_sdp_rule_weights, row. now destruct (forest_rule _ _ _ _ _ _) as [[? ?] ?].
  - intros j Hj. rewrite max_loop_row by assumption. cbv zeta. rewrite full_fold, ruled_fold. reflexivity.
Qed.

Lemma max_tables_v0_row i : i < length l -> complete (S (F_trees M)) N (scheds i) ->
  let s := max_tables_v0 M depth data y N m classifier l scheds in
  let est := fun x => compute_sdp_rule_v0_weights M data y N depth m classifier (a_t1 (row i)) (a_S (row i)) x (a_y (row i)) in
  (b_sdp (m_own s) i, b_part (m_own s) i) = fst (est (a_x (row i))) /\
  forall j, j < N -> (m_sdp s i j, m_part s i j) = fst (est (data j)).
Proof.
  intros Hi C. cbv zeta. unfold max_tables_v0. cbv zeta. split.
  - match goal with |- context [max_loop M N depth m true ?Wo ?Wd scheds _] => pose proof (own_done M N depth m true Wo Wd scheds (length l) i Hi) as V end.
    unfold view in V. injection V as _ _ V1 _ V3. rewrite V1, V3. rewrite ruled_fold.
    unfold compute_sdp_rule_v0_weights, row. now destruct (forest_rule _ _ _ _ _ _) as [[? ?] ?].
  - intros j Hj. rewrite max_loop_row by assumption. cbn [orb]. rewrite ruled_fold. reflexivity.
Qed.

Lemma max_tables_opti_row i : i < length l -> complete (S (F_trees M)) N (scheds i) ->
  let s := max_tables_opti M depth data y N m classifier l scheds in
  let est := fun x => compute_sdp_rule_v0_weights M data y N depth m classifier (a_t1 (row i)) (a_S (row i)) x (a_y (row i)) in
  (b_sdp (m_own s) i, b_part (m_own s) i, b_w (m_own s) i) = est (a_x (row i)) /\
  forall j, j < N -> (m_sdp s i j, m_part s i j) = if qeqb (snd (est (a_x (row i))) j) 0 then (0%Q, rule0) else fst (est (data j)).
Proof.
  intros Hi C. cbv zeta. unfold max_tables_opti. cbv zeta. split.
  - match goal with |- context [max_loop M N depth m false ?Wo ?Wd scheds _] => pose proof (own_done M N depth m false Wo Wd scheds (length l) i Hi) as V end.
    unfold view in V. injection V as _ _ V1 V2 V3. rewrite V1, V2, V3. rewrite full_fold.
    unfold compute_sdp_rule_v0_weights, row. now destruct (forest_rule _ _ _ _ _ _) as [[? ?] ?].
  - intros j Hj. rewrite max_loop_row by assumption. cbn [orb]. rewrite full_fold, ruled_fold. unfold compute_sdp_rule_v0_weights, row. destruct (qeqb _ _); reflexivity.
Qed.
End MaxTables.

(** ** Levels and sets that are missing *)
Lemma all_some_none {A} (l : list (option A)) i : nth_error l i = Some None -> all_some l = None.
Proof.
  revert i. induction l as [|[a|] l IH]; intros [|i] H; cbn in *; try discriminate; try reflexivity. now rewrite (IH i H).
Qed.
Lemma nth_error_map_seq {A} (f : nat -> A) n i : i < n -> nth_error (map f (seq 0 n)) i = Some (f i).
Proof. intro H. apply map_nth_error. rewrite (nth_error_nth' _ 0) by (now rewrite seq_length). now rewrite seq_nth. Qed.

Lemma acx_short_levels M depth q r a D Y m tm sched l :
  acx_routine r -> ~ bracketed r -> r <> exp_rf -> table (g_X a) (g_y a) -> table D Y -> g_S a = S_rows l -> length l = length (g_X a) ->
  length tm < length (g_X a) -> acx M depth false q r a D Y m (T_matrix tm) sched = Stray.
Proof.
  intros Hr Hb He HX HD HS Hl Ht. destruct (acx_facts r Hr) as [H1 H2].
  unfold acx. rewrite (proj2 (checked_spec _ _) HX), (proj2 (checked_spec _ _) HD), H1, HS. cbn [negb andb s_len].
  rewrite Hl, Nat.eqb_refl. cbn [negb acx_levels]. unfold compiled. rewrite H1, HS, H2. cbn [sets_of convert].
  rewrite (all_some_none _ (length tm)); [reflexivity|]. rewrite nth_error_map_seq by assumption. f_equal. unfold row_args.
  assert (R : reads_t false r = true).
  { unfold reads_t. destruct r; try reflexivity; try congruence; exfalso; apply Hb; cbn; tauto. }
  rewrite R. unfold level_entry, level_at. rewrite (proj2 (nth_error_None tm (length tm))) by lia.
  repeat match goal with |- match ?o with Some _ => _ | None => None end = None => destruct o; [|reflexivity] end. reflexivity.
Qed.

Lemma acx_lengths M depth classifier q r a D Y m t sched : one_set r = false ->
  length (g_X a) <> length (g_y a) \/ length D <> length Y \/ s_len (g_S a) <> length (g_X a) ->
  acx M depth classifier q r a D Y m t sched = Raised EValue.
Proof.
  intros O H. unfold acx. destruct (checked (g_X a) (g_y a) && checked D Y) eqn:E; cbn [negb]; [|reflexivity].
  apply andb_prop in E as [E1 E2]. unfold checked in E1, E2. apply andb_prop in E1 as [E1 _], E2 as [E2 _]. apply Nat.eqb_eq in E1, E2.
  rewrite O. destruct (Nat.eqb_spec (s_len (g_S a)) (length (g_X a))); [|reflexivity]. exfalso. tauto.
Qed.
Lemma agn_short M depth classifier r a l D Y m tm sched :
  form r = Matrix -> one_set r = false -> g_S a = S_rows l -> length l < length (g_X a) ->
  agn M depth classifier r a D Y m (T_matrix tm) sched = Stray.
Proof.
  intros F O HS Hl. unfold agn, compiled. rewrite F, O, HS. cbn [sets_of convert].
  rewrite (all_some_none _ (length l)); [reflexivity|]. rewrite nth_error_map_seq by assumption. f_equal. unfold row_args.
  cbn [set_at]. rewrite (proj2 (nth_error_None l (length l))) by lia.
  repeat match goal with |- match ?o with Some _ => _ | None => None end = None => destruct o; [|reflexivity] end. reflexivity.
Qed.

Lemma acx_cdf_vector M depth q a l D Y m tv sched :
  table (g_X a) (g_y a) -> table D Y -> documented cdf_rf a l -> length (g_X a) <= length tv ->
  complete (S (F_trees M)) (length (g_X a)) sched ->
  exists res, acx M depth false q cdf_rf a D Y m (T_vector tv) sched = Returned res /\
    r_sdp res = map (fun i => compute_cdf_rf M (fun j => nth j D (fun _ => 0%Q)) (fun j => nth j Y 0%Q) (length D) depth m
                                (nth i l []) (nth i (g_X a) (fun _ => 0%Q)) (nth i tv 0%Q)) (seq 0 (length (g_X a))).
Proof.
  intros HX HD (HS & Hl & Hd & Hb) Ht C.
  unfold acx. rewrite (proj2 (checked_spec _ _) HX), (proj2 (checked_spec _ _) HD), HS. cbn [negb andb s_len one_set].
  rewrite Hl, Nat.eqb_refl. cbn [negb acx_levels].
  destruct (compiled_all M D Y depth m false cdf_rf a (T_vector tv) sched (S_rows l) (L_vector tv) (fun i => nth i l []) (fun i => (0%Q, nth i tv 0%Q))) as (res & E & R & _); auto.
  - symmetry. apply HX.
  - cbn. now rewrite HS.
  - intros i Hi. cbn. apply nth_error_nth'. lia.
  - intros i Hi. unfold level_entry. cbn. rewrite (nth_error_nth' tv 0%Q) by lia. reflexivity.
  - exists res. split; [assumption|]. rewrite R. reflexivity.
Qed.

Lemma acv_rows M depth classifier r a l D Y m tm sched lev : In r [sdp_rf; exp_rf] ->
  table (g_X a) (g_y a) -> table D Y -> documented r a l ->
  (forall i, i < length (g_X a) -> exists rest, nth_error tm i = Some (fst (lev i) :: snd (lev i) :: rest)) ->
  complete (S (F_trees M)) (length (g_X a)) sched ->
  exists res, acv M depth classifier r a D Y m (T_matrix tm) sched = Returned res /\
    row_by_row r res (length (g_X a)) (fun i =>
      due M (fun j => nth j D (fun _ => 0%Q)) (fun j => nth j Y 0%Q) (length D) depth m classifier r
        (nth i (g_X a) (fun _ => 0%Q)) (nth i (g_y a) 0%Q) (nth i (g_down a) 0%Q) (nth i (g_up a) 0%Q)
        (nth i l []) (nth i (g_cond a) rule0) (fst (lev i)) (snd (lev i))).
Proof.
  intros Hr HX HD Hd Ht C. pose proof Hd as (HS & Hl & _).
  unfold acv. rewrite (proj2 (checked_spec _ _) HX), (proj2 (checked_spec _ _) HD), HS. cbn [negb andb s_len]. rewrite Hl, Nat.eqb_refl. cbn [negb].
  apply direct_rows; auto; try (destruct Hr as [<-|[<-|[]]]; (reflexivity || discriminate)).
  - symmetry. apply HD.
  - apply HX.
  - now exists tm.
Qed.
Lemma agn_rows M depth classifier r a l D Y m tm sched lev : form r = Matrix -> one_set r = false -> length Y = length D ->
  length (g_X a) = length (g_y a) -> documented r a l ->
  (forall i, i < length (g_X a) -> exists rest, nth_error tm i = Some (fst (lev i) :: snd (lev i) :: rest)) ->
  complete (S (F_trees M)) (length (g_X a)) sched ->
  exists res, agn M depth classifier r a D Y m (T_matrix tm) sched = Returned res /\
    row_by_row r res (length (g_X a)) (fun i =>
      due M (fun j => nth j D (fun _ => 0%Q)) (fun j => nth j Y 0%Q) (length D) depth m classifier r
        (nth i (g_X a) (fun _ => 0%Q)) (nth i (g_y a) 0%Q) (nth i (g_down a) 0%Q) (nth i (g_up a) 0%Q)
        (nth i l []) (nth i (g_cond a) rule0) (fst (lev i)) (snd (lev i))).
Proof.
  intros F O HY Hx Hd Ht C.
  destruct (direct_rows M D Y depth m classifier r a l (T_matrix tm) sched lev HY ltac:(intros ->; discriminate) F O Hx Hd ltac:(now exists tm) C) as (res & E & R).
  exists res. split; [|assumption]. unfold agn. rewrite E. destruct (Nat.ltb_spec (length Y) (length D)); [lia|reflexivity].
Qed.

(** the routines with a number, as called by [ACVTreeAgnostic] *)
Lemma agn_v0_rows M depth classifier r a D Y m p sched s Sf :
  (r = sdp_rule_v0 /\ (exists l, g_S a = S_rows l /\ length l = length (g_X a) /\ forall i, Sf i = nth i l [])) \/
  (r = sdp_rf_v0 /\ g_S a = S_same s /\ forall i, Sf i = s) ->
  length Y = length D -> length (g_X a) = length (g_y a) ->
  complete (S (F_trees M)) (length (g_X a)) sched ->
  exists res, agn M depth classifier r a D Y m (T_number p) sched = Returned res /\
    row_by_row r res (length (g_X a)) (fun i =>
      due M (fun j => nth j D (fun _ => 0%Q)) (fun j => nth j Y 0%Q) (length D) depth m classifier r
        (nth i (g_X a) (fun _ => 0%Q)) (nth i (g_y a) 0%Q) 0%Q 0%Q (Sf i) rule0 0%Q p).
Proof.
  intros Hr HY Hx C.
  assert (B : ~ bracketed r) by (unfold bracketed; destruct Hr as [[-> _]|[-> _]]; cbn; intro H; decompose [or] H; try discriminate; contradiction).
  assert (B' : ~ boxed r) by (unfold boxed; destruct Hr as [[-> _]|[-> _]]; cbn; intro H; decompose [or] H; try discriminate; contradiction).
  destruct (compiled_all M D Y depth m classifier r a (T_number p) sched (g_S a) (L_number p) Sf (fun _ => (0%Q, p))) as (res & E & R); auto.
  - intro K. contradiction.
  - intro K. contradiction.
  - destruct Hr as [(-> & l & -> & _)|(-> & -> & _)]; reflexivity.
  - intros i Hi. destruct Hr as [(-> & l & -> & L & ->)|(-> & -> & ->)]; cbn; [apply nth_error_nth'; lia|reflexivity].
  - destruct Hr as [[-> _]|[-> _]]; reflexivity.
  - exists res. unfold agn. rewrite E. destruct (Nat.ltb_spec (length Y) (length D)); [lia|]. split; [reflexivity|].
    revert R. apply row_by_row_ext. intros i Hi. unfold due_row, row_of_args. cbn [a_x a_y a_down a_up a_S a_cond a_t0 a_t1 fst snd].
    rewrite (due_brackets _ _ _ _ _ _ _ r _ _ _ _ 0%Q 0%Q) by assumption. apply due_boxes. assumption.
Qed.
Lemma acv_lengths M depth classifier r a D Y m t sched :
  length (g_X a) <> length (g_y a) \/ length D <> length Y \/ s_len (g_S a) <> length (g_X a) ->
  acv M depth classifier r a D Y m t sched = Raised EValue.
Proof.
  intros H. unfold acv. destruct (checked (g_X a) (g_y a) && checked D Y) eqn:E; cbn [negb]; [|reflexivity].
  apply andb_prop in E as [E1 E2]. unfold checked in E1, E2. apply andb_prop in E1 as [E1 _], E2 as [E2 _]. apply Nat.eqb_eq in E1, E2.
  destruct (Nat.eqb_spec (s_len (g_S a)) (length (g_X a))); [|reflexivity]. exfalso. tauto.
Qed.

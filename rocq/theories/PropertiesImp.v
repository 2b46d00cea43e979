(** C127: the minimal sufficient explanations of an [ACVTree] for classifiers, from its trees to the arrays returned.
    [listed] lists a set in whatever order, [sig] is the logistic function, [proba] is [predict_proba]; any functions. *)
From Verif Require Import Base TreeModel TreeSpec GameSpec ShapModel ShapSpec FlatModel FlatSpec SkModel SkSpec SdpSpec SearchModel SearchSpec ClfModel ClfSpec ExplSpec
  ArrModel EntryModel EntrySpec SbufModel SbufSpec SbufProofs2 ImpModel ImpSpec ImpProofs3 PropertiesEntry PropertiesSbuf.
Local Open Scope nat_scope.

(** *** Small ensembles *)
(** the leaves of all trees, from the last to the first *)
Definition ex_leaves (ts : list mtree) (S : list nat) : list (nat * nat) :=
  rev (flat_map (fun b => map (pair b) (seq 0 (leaf_count (nth b ts no_tree)))) (seq 0 (length ts))).
Definition ex_pairs (ts : list mtree) (N b : nat) : list (nat * nat) := list_prod (seq 0 (leaf_count (nth b ts no_tree))) (seq 0 N).
Lemma ex_leaves_ok ts : all_leaves ts (ex_leaves ts).
Proof.
  intro S. unfold ex_leaves. split.
  - apply NoDup_rev, ImpProofs.nodup_tagged; [apply seq_NoDup|]. intros; apply seq_NoDup.
  - intros b l. rewrite <- in_rev, in_flat_map. split.
    + intros (b' & Hb & H). apply in_map_iff in H. destruct H as (l' & E & H). injection E as -> ->. apply in_seq in Hb. apply in_seq in H.
      exists (nth b ts no_tree). split; [apply nth_error_nth'|]; lia.
    + intros (m & Hm & Hl). assert (Hb : b < length ts) by (apply nth_error_Some; congruence).
      exists b. split; [apply in_seq; lia|]. apply in_map, in_seq. rewrite (nth_error_nth _ _ no_tree Hm). lia.
Qed.
Lemma ex_pairs_ok ts N : all_pairs ts N (ex_pairs ts N).
Proof. intros b m Hb. unfold ex_pairs. rewrite (nth_error_nth _ _ no_tree Hb). apply Permutation_refl. Qed.
(** the numbers listed, by decreasing count *)
Fixpoint ex_put (l : list nat) (s : nat) (r : list nat) : list nat :=
  match r with [] => [s] | s' :: r' => if count_occ Nat.eq_dec l s' <? count_occ Nat.eq_dec l s then s :: r else s' :: ex_put l s r' end.
Definition ex_count (l : list nat) : list nat := fold_right (ex_put l) [] (nodup Nat.eq_dec l).
Lemma ex_put_in l s r x : In x (ex_put l s r) <-> x = s \/ In x r.
Proof. induction r as [|s' r IH]; cbn; [intuition|]. match goal with |- context [if ?b then _ else _] => destruct b end; cbn; [intuition|]. rewrite IH. intuition. Qed.
Lemma ex_put_nodup l s r : NoDup r -> ~ In s r -> NoDup (ex_put l s r).
Proof.
  induction r as [|s' r IH]; cbn; intros H1 H2; [repeat constructor; exact H2|]. inversion H1; subst. match goal with |- context [if ?b then _ else _] => destruct b end.
  - constructor; [exact H2|exact H1].
  - constructor; [rewrite ex_put_in; intuition|apply IH; intuition].
Qed.
Lemma decreasing_cons (f : nat -> nat) s r : decreasing le f (s :: r) <-> (forall x, In x r -> f x <= f s) /\ decreasing le f r.
Proof.
  split.
  - intro H. split.
    + intros x Hx. apply In_nth_error in Hx. destruct Hx as [n Hn]. apply (H 0 (S n) s x); [lia|reflexivity|exact Hn].
    + intros i j a b Hij Ha Hb. apply (H (S i) (S j) a b); [lia|exact Ha|exact Hb].
  - intros [H1 H2] [|i] [|j] a b Hij Ha Hb; try lia; cbn in *.
    + injection Ha as <-. apply H1. eapply nth_error_In, Hb.
    + apply (H2 i j); [lia|exact Ha|exact Hb].
Qed.
Lemma ex_put_decreasing l s r : decreasing le (count_occ Nat.eq_dec l) r -> decreasing le (count_occ Nat.eq_dec l) (ex_put l s r).
Proof.
  induction r as [|s' r IH]; intro H.
  - apply decreasing_cons. split; [contradiction|exact H].
  - cbn [ex_put]. match goal with |- context [if ?b then _ else _] => destruct b eqn:E end.
    + apply Nat.ltb_lt in E. apply decreasing_cons. split; [|exact H]. apply decreasing_cons in H. destruct H as [H1 _].
      intros x [<-|Hx]; [lia|]. specialize (H1 x Hx). lia.
    + apply Nat.ltb_ge in E. apply decreasing_cons in H. destruct H as [H1 H2]. apply decreasing_cons. split; [|exact (IH H2)].
      intros x Hx. apply ex_put_in in Hx. destruct Hx as [-> |Hx]; [lia|now apply H1].
Qed.
Lemma ex_count_ok l : counted l (ex_count l).
Proof.
  unfold ex_count. assert (H : forall u, NoDup u -> NoDup (fold_right (ex_put l) [] u) /\ (forall v, In v (fold_right (ex_put l) [] u) <-> In v u)
    /\ decreasing le (count_occ Nat.eq_dec l) (fold_right (ex_put l) [] u)).
  { induction u as [|s u IH]; cbn [fold_right]; intro Hu; [split; [constructor|split; [tauto|intros [|i] j a b _ Ha; discriminate Ha]]|]. inversion Hu; subst.
    destruct (IH ltac:(assumption)) as (A & B & D). split; [apply ex_put_nodup; [exact A|now rewrite B]|]. split.
    - intro v. rewrite ex_put_in, B. cbn. intuition.
    - now apply ex_put_decreasing. }
  destruct (H _ (NoDup_nodup Nat.eq_dec l)) as (A & B & D). split; [exact A|]. split; [|exact D]. intro v. now rewrite B, nodup_In.
Qed.
Definition plain_answer (o : outcome answer) :=
  match o with Returned e => Returned (map Qred (e_importance e), e_index e, e_size e, map Qred (e_sdp e)) | Raised e => Raised e | Stray => Stray end.
Lemma ex_explainable X data : is_table X 2 ex_xs -> is_table data 2 ex_zs -> exists h,
  construct_shap ex_listed ex_sig ex_ts 1 false (M_list 2 ex_zs) = Some h /\
  explainable ex_listed ex_sig ex_ts 1 false 2 2 2 h ex_proba X data ex_xs ex_zs [1; 0; 0] [0; 0; 0; 1; 1] [[]].
Proof.
  intros HX Hd. destruct (construct_shap_some ex_listed ex_sig ex_ts 1 false 2 2 2 (M_list 2 ex_zs) ex_zs ex_listed_ok ex_ok) as [h Eh];
    [right; now left|discriminate|lia|]. exists h. split; [exact Eh|].
  split; [exact ex_listed_ok|]. split; [exact ex_ok|]. split; [exists (M_list 2 ex_zs), ex_zs; split; [right; now left|exact Eh]|].
  split; [exact HX|]. split; [discriminate|]. split; [exact Hd|]. split; [discriminate|]. destruct ex_classes as [E1 E2].
  split; [exact E1|]. split; [exact E2|]. split; [split; [constructor|split; [contradiction|now left]]|discriminate].
Qed.

(** ** C127 *)

(** [importance_sdp_clf] returns four arrays of the right shapes: no exception, no access outside an array. *)
Theorem C127_returns : forall listed sig ts stacked boosted d w k h proba X data xs zs fX ys C,
  explainable listed sig ts stacked boosted d w k h proba X data xs zs fX ys C ->
  forall by_count, counted (flat_list h) (by_count (flat_list h)) -> forall sched pi minimal stop, all_leaves ts sched -> (0 < pi)%Q -> (pi <= 1)%Q ->
  exists e, acv_explain h proba sched by_count X data C pi minimal stop = Returned e /\ shaped e (length xs) d.
Proof. exact explain_returns. Qed.
Print Assumptions C127_returns.
Example C127_returns_example :
  (exists h, construct_shap ex_listed ex_sig ex_ts 1 false (M_list 2 ex_zs) = Some h /\
    explainable ex_listed ex_sig ex_ts 1 false 2 2 2 h ex_proba (M_frame 2 ex_xs) (M_list 2 ex_zs) ex_xs ex_zs [1; 0; 0] [0; 0; 0; 1; 1] [[]] /\
    counted (flat_list h) (ex_count (flat_list h))) /\
  all_leaves ex_ts (ex_leaves ex_ts) /\ all_pairs ex_ts (length ex_xs) (ex_pairs ex_ts (length ex_xs)) /\
  plain_answer (on_shap ex_ts (M_list 2 ex_zs) (fun h => acv_explain h ex_proba (ex_leaves ex_ts) ex_count (M_frame 2 ex_xs) (M_list 2 ex_zs) [[]] (9#10) 1 false))
   = Returned ([1; 2#3]%Q, [[0; 1]; [0; -1]; [0; 1]]%Z, [2; 1; 2], [1; 9#10; 1]%Q).
Proof.
  split; [|split; [apply ex_leaves_ok|split; [apply ex_pairs_ok|vm_compute; reflexivity]]].
  destruct (ex_explainable (M_frame 2 ex_xs) (M_list 2 ex_zs)) as (h & E1 & E2); [now left|right; now left|].
  exists h. split; [exact E1|]. split; [exact E2|apply ex_count_ok].
Qed.

(** The groups of columns that are searched are all of them up to ten columns, and otherwise those that meet the ten columns that
    occur above the most leaves.  A row whose reported probability reaches the level shows a set of groups whose probability,
    as [compute_sdp_clf] of the same object returns it, is the reported one; no smaller set of searched groups reaches the level, no
    set of the same size has a larger probability.  For the other rows no searched set reaches the level; with [stop], no searched set of at most half of the
    columns.  Missing: sets that use other columns and, with [stop], larger sets, see below. *)
Theorem C127_rows_partial : forall listed sig ts stacked boosted d w k h proba X data xs zs fX ys C,
  explainable listed sig ts stacked boosted d w k h proba X data xs zs fX ys C ->
  forall by_count, counted (flat_list h) (by_count (flat_list h)) -> forall sched, all_leaves ts sched ->
  forall order, all_pairs ts (length xs) order -> forall pi minimal stop e, (0 < pi)%Q -> (pi <= 1)%Q -> 1 <= minimal ->
  acv_explain h proba sched by_count X data C pi minimal stop = Returned e ->
  exists va, searched ts d C va /\ forall i, i < length xs ->
    ((pi <= nth i (e_sdp e) 0)%Q -> shows_minimal va minimal pi (told (h_acv h) proba order X data i) (row_of e i)) /\
    ((nth i (e_sdp e) 0 < pi)%Q -> forall T, In T (subs va) -> minimal <= length T ->
       (stop = true -> (forall g, In g C -> g = []) /\ length T <= Nat.max minimal (d / 2)) ->
       (told (h_acv h) proba order X data i (concat T) < pi)%Q).
Proof. exact explain_rows. Qed.
Print Assumptions C127_rows_partial.
(** the probabilities of all sets in the example above: [{1}] of the first row has 5/7, [{0}] 26/55, both columns 1 *)
Example C127_rows_example :
  map (fun S => on_shap ex_ts (M_list 2 ex_zs) (fun h =>
      plainly Qred (acv_sdp (h_acv h) ex_proba (ex_pairs ex_ts 3) (M_frame 2 ex_xs) (S_array I64 S) (M_list 2 ex_zs)))) [[0]; [1]; [0; 1]]
   = [Returned [26#55; 9#10; 29#55]; Returned [5#7; 2#3; 8#9]; Returned [1; 1; 1]]%Q.
Proof. vm_compute. reflexivity. Qed.

(** A column's importance is the share of the observations whose explanation, at the level, contains it. *)
Theorem C127_importance : forall listed sig ts stacked boosted d w k h proba X data xs zs fX ys C,
  explainable listed sig ts stacked boosted d w k h proba X data xs zs fX ys C ->
  forall by_count, counted (flat_list h) (by_count (flat_list h)) -> forall sched pi minimal stop e j, all_leaves ts sched -> (0 < pi)%Q -> (pi <= 1)%Q ->
  acv_explain h proba sched by_count X data C pi minimal stop = Returned e -> j < d ->
  (nth j (e_importance e) 0 == Qn (length (filter (fun i => explains pi (row_of e i) j) (seq 0 (length xs)))) / Qn (length xs))%Q /\
  (0 <= nth j (e_importance e) 0 <= 1)%Q.
Proof. exact explain_importance. Qed.
Print Assumptions C127_importance.
Example C127_importance_example : exists e,
  on_shap ex_ts (M_list 2 ex_zs) (fun h => acv_explain h ex_proba (ex_leaves ex_ts) ex_count (M_frame 2 ex_xs) (M_list 2 ex_zs) [[]] (9#10) 1 false) = Returned e /\
  filter (fun i => explains (9#10) (row_of e i) 1) (seq 0 3) = [0; 2] /\ Qred (nth 1 (e_importance e) 0%Q) = (2#3)%Q.
Proof. eexists. split; [vm_compute; reflexivity|]. vm_compute. auto. Qed.

(** Without coalitions the entries of a row of indices that are not negative are exactly the explanation. *)
Theorem C127_indices : forall listed sig ts stacked boosted d w k h proba X data xs zs fX ys C,
  explainable listed sig ts stacked boosted d w k h proba X data xs zs fX ys C ->
  forall by_count, counted (flat_list h) (by_count (flat_list h)) -> forall sched pi minimal stop e i, all_leaves ts sched -> (0 < pi)%Q ->
  (forall g, In g C -> g = []) ->
  acv_explain h proba sched by_count X data C pi minimal stop = Returned e -> i < length xs ->
  filter (fun z => (0 <=? z)%Z) (nth i (e_index e) []) = firstn (nth i (e_size e) 0) (nth i (e_index e) []).
Proof. exact explain_index. Qed.
Print Assumptions C127_indices.
Example C127_indices_example : filter (fun z => (0 <=? z)%Z) [0; -1]%Z = firstn 1 [0; -1]%Z /\ (forall g, In g [[]] -> g = @nil nat).
Proof. split; [reflexivity|]. now intros g [<-|[]]. Qed.

(** The order in which the threads treat the leaves does not matter. *)
Theorem C127_threads : forall listed sig ts stacked boosted d w k h proba X data xs zs fX ys C,
  explainable listed sig ts stacked boosted d w k h proba X data xs zs fX ys C ->
  forall by_count, counted (flat_list h) (by_count (flat_list h)) -> forall sched sched' pi minimal stop, all_leaves ts sched -> all_leaves ts sched' ->
  acv_explain h proba sched by_count X data C pi minimal stop = acv_explain h proba sched' by_count X data C pi minimal stop.
Proof. exact explain_order. Qed.
Print Assumptions C127_threads.
Example C127_threads_example : all_leaves ex_ts (ex_leaves ex_ts) /\ all_leaves ex_ts (fun S => rev (ex_leaves ex_ts S)) /\ ex_leaves ex_ts [] <> rev (ex_leaves ex_ts []).
Proof.
  split; [apply ex_leaves_ok|]. split; [|vm_compute; discriminate]. intro S. destruct (ex_leaves_ok ex_ts S) as [A B].
  split; [now apply NoDup_rev|]. intros b l. rewrite <- in_rev. apply B.
Qed.

(** [importance_sdp_clf_nopa] returns what [importance_sdp_clf] with [stop] returns, up to ten columns.  Missing: gradient boosting with two
    classes, see below. *)
Theorem C127_sequential_partial : forall listed sig ts stacked boosted d w k h proba X data xs zs fX ys C,
  explainable listed sig ts stacked boosted d w k h proba X data xs zs fX ys C ->
  forall by_count, counted (flat_list h) (by_count (flat_list h)) -> forall sched pi minimal, all_leaves ts sched -> d <= 10 ->
  boosted && (k =? 1) = false ->
  acv_explain_nopa h proba X data C pi minimal = acv_explain h proba sched by_count X data C pi minimal true.
Proof. exact explain_nopa. Qed.
Print Assumptions C127_sequential_partial.
Example C127_sequential_example :
  plain_answer (on_shap ex_ts (M_list 2 ex_zs) (fun h => acv_explain_nopa h ex_proba (M_frame 2 ex_xs) (M_list 2 ex_zs) [[]] (3#5) 1))
   = Returned ([1#3; 2#3]%Q, [[1; -1]; [0; -1]; [1; -1]]%Z, [1; 1; 1], [5#7; 9#10; 8#9]%Q).
Proof. vm_compute. reflexivity. Qed.

(** *** Where the full statement fails *)
(** row [i] of an answer: size, whether the level is reached *)
Definition row_short (o : outcome answer) (pi : Q) (i : nat) : outcome (nat * list Z * bool) :=
  match o with Returned e => Returned (nth i (e_size e) 0, firstn (nth i (e_size e) 0) (nth i (e_index e) []), qleb pi (nth i (e_sdp e) 0%Q)) | Raised x => Raised x | Stray => Stray end.
Lemma row_short_spec o pi i n l b : row_short o pi i = Returned (n, l, b) ->
  exists e, o = Returned e /\ nth i (e_size e) 0 = n /\ firstn n (nth i (e_index e) []) = l /\ (if b then (pi <= nth i (e_sdp e) 0)%Q else (nth i (e_sdp e) 0 < pi)%Q).
Proof.
  destruct o as [e| |]; cbn; try discriminate. intro E. injection E as <- <- <-. exists e. split; [reflexivity|]. split; [reflexivity|]. split; [reflexivity|].
  destruct (qleb_spec pi (nth i (e_sdp e) 0%Q)) as [K|K]; [exact K|now apply Qnot_le_lt].
Qed.
(** what [compute_sdp_clf] returns, compared with the level *)
Definition told_short (pi : Q) (h : shap_acv) proba order X data i S : outcome bool := Returned (qleb pi (told (h_acv h) proba order X data i S)).
Lemma told_short_spec pi h proba order X data i S b : told_short pi h proba order X data i S = Returned b ->
  if b then (pi <= told (h_acv h) proba order X data i S)%Q else (told (h_acv h) proba order X data i S < pi)%Q.
Proof.
  intro E. injection E as <-. destruct (qleb_spec pi (told (h_acv h) proba order X data i S)) as [K|K]; [exact K|now apply Qnot_le_lt].
Qed.
Lemma on_shap_at {A} ts data (f : shap_acv -> outcome A) h r : construct_shap ex_listed ex_sig ts 1 false data = Some h -> on_shap ts data f = r -> f h = r.
Proof. intros E. unfold on_shap. now rewrite E. Qed.

(** With [stop], the default, the search gives up although a larger set reaches the level. *)
Theorem C127_stop_refuted : exists listed sig ts d w k h proba X data xs zs fX ys by_count sched order pi e i S,
  explainable listed sig ts 1 false d w k h proba X data xs zs fX ys [[]] /\ counted (flat_list h) (by_count (flat_list h)) /\
  all_leaves ts sched /\ all_pairs ts (length xs) order /\ (0 < pi <= 1)%Q /\ i < length xs /\
  acv_explain h proba sched by_count X data [[]] pi 1 true = Returned e /\ (nth i (e_sdp e) 0 < pi)%Q /\
  NoDup S /\ S <> [] /\ (forall s, In s S -> s < d) /\ (pi <= told (h_acv h) proba order X data i S)%Q.
Proof.
  destruct (ex_explainable (M_frame 2 ex_xs) (M_list 2 ex_zs)) as (h & Eh & HE); [now left|right; now left|].
  destruct (row_short_spec (acv_explain h ex_proba (ex_leaves ex_ts) ex_count (M_frame 2 ex_xs) (M_list 2 ex_zs) [[]] (9#10) 1 true) (9#10) 0 1 [1%Z] false) as (e & He & _ & _ & Hp).
  { apply (on_shap_at _ _ (fun h => row_short (acv_explain h ex_proba (ex_leaves ex_ts) ex_count (M_frame 2 ex_xs) (M_list 2 ex_zs) [[]] (9#10) 1 true) (9#10) 0) h _ Eh).
    vm_compute. reflexivity. }
  exists ex_listed, ex_sig, ex_ts, 2, 2, 2, h, ex_proba, (M_frame 2 ex_xs), (M_list 2 ex_zs), ex_xs, ex_zs, [1; 0; 0], [0; 0; 0; 1; 1], ex_count,
    (ex_leaves ex_ts), (ex_pairs ex_ts 3), (9#10)%Q, e, 0, [0; 1].
  split; [exact HE|]. split; [apply ex_count_ok|]. split; [apply ex_leaves_ok|]. split; [apply ex_pairs_ok|]. split; [split; reflexivity || discriminate|].
  split; [cbn; lia|]. split; [exact He|]. split; [exact Hp|]. split; [repeat constructor; cbn; intuition lia|]. split; [discriminate|].
  split; [cbn; intuition lia|].
  apply (told_short_spec (9#10) h ex_proba (ex_pairs ex_ts 3) (M_frame 2 ex_xs) (M_list 2 ex_zs) 0 [0; 1] true).
  apply (on_shap_at _ _ (fun h => told_short (9#10) h ex_proba (ex_pairs ex_ts 3) (M_frame 2 ex_xs) (M_list 2 ex_zs) 0 [0; 1]) h _ Eh). vm_compute. reflexivity.
Qed.
Print Assumptions C127_stop_refuted.

(** [minimal = 0], the default of [importance_sdp_clf_nopa], reports an empty explanation at the level, although [compute_sdp_clf]
    returns less for it. *)
Theorem C127_empty_refuted : exists listed sig ts d w k h proba X data xs zs fX ys order pi e i,
  explainable listed sig ts 1 false d w k h proba X data xs zs fX ys [[]] /\ all_pairs ts (length xs) order /\ (0 < pi <= 1)%Q /\ i < length xs /\
  acv_explain_nopa h proba X data [[]] pi 0 = Returned e /\ (pi <= nth i (e_sdp e) 0)%Q /\ nth i (e_size e) 0 = 0 /\
  (told (h_acv h) proba order X data i [] < pi)%Q.
Proof.
  destruct (ex_explainable (M_frame 2 ex_xs) (M_list 2 ex_zs)) as (h & Eh & HE); [now left|right; now left|].
  destruct (row_short_spec (acv_explain_nopa h ex_proba (M_frame 2 ex_xs) (M_list 2 ex_zs) [[]] (1#2) 0) (1#2) 1 0 [] true) as (e & He & Hn & _ & Hp).
  { apply (on_shap_at _ _ (fun h => row_short (acv_explain_nopa h ex_proba (M_frame 2 ex_xs) (M_list 2 ex_zs) [[]] (1#2) 0) (1#2) 1) h _ Eh).
    vm_compute. reflexivity. }
  exists ex_listed, ex_sig, ex_ts, 2, 2, 2, h, ex_proba, (M_frame 2 ex_xs), (M_list 2 ex_zs), ex_xs, ex_zs, [1; 0; 0], [0; 0; 0; 1; 1],
    (ex_pairs ex_ts 3), (1#2)%Q, e, 1.
  split; [exact HE|]. split; [apply ex_pairs_ok|]. split; [split; reflexivity || discriminate|].
  split; [cbn; lia|]. split; [exact He|]. split; [exact Hp|]. split; [exact Hn|].
  apply (told_short_spec (1#2) h ex_proba (ex_pairs ex_ts 3) (M_frame 2 ex_xs) (M_list 2 ex_zs) 1 [] false).
  apply (on_shap_at _ _ (fun h => told_short (1#2) h ex_proba (ex_pairs ex_ts 3) (M_frame 2 ex_xs) (M_list 2 ex_zs) 1 []) h _ Eh). vm_compute. reflexivity.
Qed.
Print Assumptions C127_empty_refuted.

(** [importance_sdp_clf_ptrees] reports explanations below the level by [compute_sdp_clf]. *)
Theorem C127_ptrees_refuted : exists listed sig ts d w k h proba X data xs zs fX ys sched order pi e i s,
  explainable listed sig ts 1 false d w k h proba X data xs zs fX ys [[]] /\ all_leaves ts sched /\ all_pairs ts (length xs) order /\ (0 < pi <= 1)%Q /\ i < length xs /\
  acv_explain_ptrees h proba sched X data [[]] pi 1 false = Returned e /\ (pi <= nth i (e_sdp e) 0)%Q /\
  firstn (nth i (e_size e) 0) (nth i (e_index e) []) = [Z.of_nat s] /\
  (told (h_acv h) proba order X data i [s] < pi)%Q.
Proof.
  destruct (ex_explainable (M_frame 2 ex_xs) (M_array F64 2 ex_zs)) as (h & Eh & HE); [now left|right; right; now exists F64|].
  destruct (row_short_spec (acv_explain_ptrees h ex_proba (ex_leaves ex_ts) (M_frame 2 ex_xs) (M_array F64 2 ex_zs) [[]] (9#10) 1 false) (9#10) 0 1 [1%Z] true) as (e & He & Hn & Hl & Hp).
  { apply (on_shap_at _ _ (fun h => row_short (acv_explain_ptrees h ex_proba (ex_leaves ex_ts) (M_frame 2 ex_xs) (M_array F64 2 ex_zs) [[]] (9#10) 1 false) (9#10) 0) h _ Eh).
    vm_compute. reflexivity. }
  exists ex_listed, ex_sig, ex_ts, 2, 2, 2, h, ex_proba, (M_frame 2 ex_xs), (M_array F64 2 ex_zs), ex_xs, ex_zs, [1; 0; 0], [0; 0; 0; 1; 1], (ex_leaves ex_ts),
    (ex_pairs ex_ts 3), (9#10)%Q, e, 0, 1.
  split; [exact HE|]. split; [apply ex_leaves_ok|]. split; [apply ex_pairs_ok|]. split; [split; reflexivity || discriminate|].
  split; [cbn; lia|]. split; [exact He|]. split; [exact Hp|]. split; [rewrite Hn; exact Hl|].
  apply (told_short_spec (9#10) h ex_proba (ex_pairs ex_ts 3) (M_frame 2 ex_xs) (M_array F64 2 ex_zs) 0 [1] false).
  apply (on_shap_at _ _ (fun h => told_short (9#10) h ex_proba (ex_pairs ex_ts 3) (M_frame 2 ex_xs) (M_array F64 2 ex_zs) 0 [1]) h _ Eh). vm_compute. reflexivity.
Qed.
Print Assumptions C127_ptrees_refuted.

(** Unlike [importance_sdp_clf], [importance_sdp_clf_ptrees] does not take a background that is a list or a data frame. *)
Theorem C127_ptrees_raises : forall listed sig ts stacked boosted d w k h proba X data xs zs fX ys C,
  explainable listed sig ts stacked boosted d w k h proba X data xs zs fX ys C -> forall sched pi minimal stop,
  (data = M_frame d zs \/ data = M_list d zs) -> acv_explain_ptrees h proba sched X data C pi minimal stop = Raised EType.
Proof. exact ptrees_unchecked. Qed.
Print Assumptions C127_ptrees_raises.
Example C127_ptrees_raises_example : exists h,
  explainable ex_listed ex_sig ex_ts 1 false 2 2 2 h ex_proba (M_frame 2 ex_xs) (M_list 2 ex_zs) ex_xs ex_zs [1; 0; 0] [0; 0; 0; 1; 1] [[]].
Proof. destruct (ex_explainable (M_frame 2 ex_xs) (M_list 2 ex_zs)) as (h & _ & E); [now left|right; now left|]. now exists h. Qed.

(** For gradient boosting with two classes [importance_sdp_clf_nopa] reads outside the values of the leaves as soon as an
    observation is of the second class, while [importance_sdp_clf] returns. *)
Theorem C127_boosted_stray : forall listed sig ts stacked boosted d w k h proba X data xs zs fX ys C,
  explainable listed sig ts stacked boosted d w k h proba X data xs zs fX ys C -> forall pi minimal,
  boosted = true -> k = 1 -> In 1 fX -> acv_explain_nopa h proba X data C pi minimal = Stray.
Proof. exact explain_nopa_stray. Qed.
Print Assumptions C127_boosted_stray.
Theorem C127_boosted_refuted : exists listed sig ts d w h proba X data xs zs fX ys by_count sched e,
  explainable listed sig ts 1 true d w 1 h proba X data xs zs fX ys [[]] /\ counted (flat_list h) (by_count (flat_list h)) /\ all_leaves ts sched /\
  acv_explain_nopa h proba X data [[]] (9#10) 1 = Stray /\ acv_explain h proba sched by_count X data [[]] (9#10) 1 true = Returned e.
Proof.
  destruct (construct_shap_some ex_listed ex_sig ex_bs 1 true 2 1 1 (M_list 2 ex_zs) ex_zs ex_listed_ok ex_bok) as [h Eh];
    [right; now left|discriminate|lia|].
  assert (HE : explainable ex_listed ex_sig ex_bs 1 true 2 1 1 h ex_proba (M_list 2 ex_xs) (M_list 2 ex_zs) ex_xs ex_zs [1; 0; 0] [0; 0; 0; 1; 1] [[]]).
  { split; [exact ex_listed_ok|]. split; [exact ex_bok|]. split; [exists (M_list 2 ex_zs), ex_zs; split; [right; now left|exact Eh]|].
    split; [right; now left|]. split; [discriminate|]. split; [right; now left|]. split; [discriminate|]. destruct ex_classes as [E1 E2].
    split; [exact E1|]. split; [exact E2|]. split; [split; [constructor|split; [contradiction|now left]]|discriminate]. }
  destruct (C127_returns _ _ _ _ _ _ _ _ _ _ _ _ _ _ _ _ _ HE ex_count (ex_count_ok _) (ex_leaves ex_bs) (9#10) 1 true (ex_leaves_ok ex_bs)) as (e & He & _); [reflexivity|discriminate|].
  exists ex_listed, ex_sig, ex_bs, 2, 1, h, ex_proba, (M_list 2 ex_xs), (M_list 2 ex_zs), ex_xs, ex_zs, [1; 0; 0], [0; 0; 0; 1; 1], ex_count, (ex_leaves ex_bs), e.
  split; [exact HE|]. split; [apply ex_count_ok|]. split; [apply ex_leaves_ok|]. split; [|exact He].
  apply (C127_boosted_stray _ _ _ _ _ _ _ _ _ _ _ _ _ _ _ _ _ HE); [reflexivity|reflexivity|now left].
Qed.
Print Assumptions C127_boosted_refuted.

(** Beyond ten columns a sufficient explanation that uses another column is not found. *)
Definition ex_stump2 (v1 v2 : list Q) (c : nat) : mtree :=
  mkM [1; -1; -1]%Z [2; -1; -1]%Z [1; -1; -1]%Z [Z.of_nat c; -2; -2]%Z [1#2; -2; -2]%Q [[0; 0]%Q; v1; v2].
Definition ex_11 : list mtree := map (ex_stump2 [1#2; 1#2] [1#2; 1#2])%Q (seq 0 10 ++ seq 0 10) ++ [ex_stump2 [1; 0] [0; 1] 10]%Q.
Definition ex_zs11 : list (list Q) := [repeat 0 10 ++ [0]; repeat 0 10 ++ [1]]%Q.
Definition ex_proba11 (m : mat) : outcome (list (list Q)) := Returned (map (fun r => if qltb 0 (nth 10 r 0%Q) then [0; 1]%Q else [1; 0]%Q) (rows m)).
Lemma ex_11_ok : ensemble_ok ex_11 1 11 2 2.
Proof.
  split; [discriminate|]. split; [|reflexivity]. intros m Hm. split.
  - assert (H : forallb (fun m => wf_tree (as_tree m 0) 11) ex_11 = true) by (vm_compute; reflexivity). rewrite forallb_forall in H. exact (H m Hm).
  - intros r Hr. apply in_app_or in Hm. destruct Hm as [Hm|[<-|[]]].
    + apply in_map_iff in Hm. destruct Hm as (c & <- & _). cbn in Hr. destruct Hr as [<-|[<-|[<-|[]]]]; reflexivity.
    + cbn in Hr. destruct Hr as [<-|[<-|[<-|[]]]]; reflexivity.
Qed.
Theorem C127_space_refuted : exists listed sig ts d w k h proba X data xs zs fX ys C by_count sched order pi e i s,
  explainable listed sig ts 1 false d w k h proba X data xs zs fX ys C /\ counted (flat_list h) (by_count (flat_list h)) /\
  all_leaves ts sched /\ all_pairs ts (length xs) order /\ (0 < pi <= 1)%Q /\ i < length xs /\
  acv_explain h proba sched by_count X data C pi 1 false = Returned e /\ (nth i (e_sdp e) 0 < pi)%Q /\
  s < d /\ ~ In s (concat C) /\ (pi <= told (h_acv h) proba order X data i [s])%Q.
Proof.
  destruct (construct_shap_some ex_listed ex_sig ex_11 1 false 11 2 2 (M_list 11 ex_zs11) ex_zs11 ex_listed_ok ex_11_ok) as [h Eh];
    [right; now left|discriminate|lia|].
  destruct (row_short_spec (acv_explain h ex_proba11 (ex_leaves ex_11) ex_count (M_list 11 ex_zs11) (M_list 11 ex_zs11) [seq 0 9] (9#10) 1 false) (9#10) 0 10
    [9; 0; 1; 2; 3; 4; 5; 6; 7; 8]%Z false) as (e & He & _ & _ & Hp).
  { apply (on_shap_at _ _ (fun h => row_short (acv_explain h ex_proba11 (ex_leaves ex_11) ex_count (M_list 11 ex_zs11) (M_list 11 ex_zs11) [seq 0 9] (9#10) 1 false) (9#10) 0) h _ Eh).
    vm_compute. reflexivity. }
  exists ex_listed, ex_sig, ex_11, 11, 2, 2, h, ex_proba11, (M_list 11 ex_zs11), (M_list 11 ex_zs11), ex_zs11, ex_zs11, [0; 1], [0; 1], [seq 0 9], ex_count,
    (ex_leaves ex_11), (ex_pairs ex_11 2), (9#10)%Q, e, 0, 10.
  assert (Ec : decides_as ex_proba11 11 ex_zs11 2 [0; 1]).
  { eexists; (split; [vm_compute; reflexivity|]); (split; [reflexivity|]); (split; [intros r Hr; cbn in Hr; intuition (subst; reflexivity)|]);
      repeat constructor; cbn; try lia; try (intros [|[|j]] Hj; try lia; vm_compute; congruence). }
  split.
  { split; [exact ex_listed_ok|]. split; [exact ex_11_ok|]. split; [exists (M_list 11 ex_zs11), ex_zs11; split; [right; now left|exact Eh]|].
    split; [right; now left|]. split; [discriminate|]. split; [right; now left|]. split; [discriminate|].
    split; [exact Ec|]. split; [exact Ec|]. split; [split; [|split; [|right]]|discriminate].
    - cbn. repeat constructor; cbn; intuition lia.
    - cbn. intuition lia.
    - intros [K|[]]. discriminate K. }
  split; [apply ex_count_ok|]. split; [apply ex_leaves_ok|]. split; [apply ex_pairs_ok|]. split; [split; reflexivity || discriminate|].
  split; [cbn; lia|]. split; [exact He|]. split; [exact Hp|]. split; [lia|]. split; [cbn; intuition lia|].
  apply (told_short_spec (9#10) h ex_proba11 (ex_pairs ex_11 2) (M_list 11 ex_zs11) (M_list 11 ex_zs11) 0 [10] true).
  apply (on_shap_at _ _ (fun h => told_short (9#10) h ex_proba11 (ex_pairs ex_11 2) (M_list 11 ex_zs11) (M_list 11 ex_zs11) 0 [10]) h _ Eh). vm_compute. reflexivity.
Qed.
Print Assumptions C127_space_refuted.

(** Property theorems C134: marginal sufficient explanations, from the predictions of the model to the arrays
    returned.  Each is proved by a lemma of MsdpProofs2.v. *)
From Verif Require Import Base GameSpec GameProofs ShapModel SwingModel LocalModel LocalProofs SearchModel SearchSpec SearchProofs
  ExplSpec ExplProofs MsdpModel MsdpSpec MsdpProofs MsdpProofs2.
From Coq Require Import NArith Qabs.
Local Open Scope nat_scope.

(** what an explained row says: a smallest sufficient choice of groups, its columns, their number, and the share of
    the background that keeps the prediction *)
Definition row_says {Y} (predict : pt -> Y) (same : Y -> Y -> bool) (d : nat) (data : list pt) (x : pt)
  (va : list (list nat)) (minimal : nat) (pi : Q) (e : found) (k : nat) : Prop :=
  exists T, smallest_best va minimal pi (kept_share predict same data x) T /\
    nth k (m_index e) [] = padded d (concat T) /\ nth k (m_size e) 0 = length (concat T) /\
    (nth k (m_sdp e) 0 == kept_share predict same data x (concat T))%Q.

Lemma near_close t a b : close t a b = near t a b.
Proof.
  unfold close, near. destruct (qltb_spec (a - b) 0) as [H|H].
  - destruct (qleb_spec (- (a - b)) t) as [G|G], (Qle_bool (Qabs (a - b)) t) eqn:E; trivial.
    + rewrite <- not_true_iff_false, Qle_bool_iff, Qabs_neg in E by lra. lra.
    + apply Qle_bool_iff in E. rewrite Qabs_neg in E by lra. lra.
  - destruct (qleb_spec (a - b) t) as [G|G], (Qle_bool (Qabs (a - b)) t) eqn:E; trivial.
    + rewrite <- not_true_iff_false, Qle_bool_iff, Qabs_pos in E by lra. lra.
    + apply Qle_bool_iff in E. rewrite Qabs_pos in E by lra. lra.
Qed.
Lemma share_near predict t data x S : (kept_share predict (close t) data x S == kept_share predict (near t) data x S)%Q.
Proof.
  unfold kept_share. apply Qeq_of_eq. f_equal. f_equal. f_equal. apply filter_ext_in'. intros z _. apply near_close.
Qed.
Lemma row_says_near predict t d data x va minimal pi e k :
  row_says predict (close t) d data x va minimal pi e k -> row_says predict (near t) d data x va minimal pi e k.
Proof.
  intros [T [[H1 [H2 [H3 H4]]] [H5 [H6 H7]]]]. exists T. split; [|split; [trivial|split; [trivial|now rewrite <- share_near]]].
  split; [trivial|]. split; [trivial|]. split; [now rewrite <- share_near|].
  intros T' G1 G2 G3. rewrite <- share_near in G3. destruct (H4 T' G1 G2 G3) as [G|[G G']]; [now left|right].
  split; [trivial|]. now rewrite <- !share_near.
Qed.
Lemma close_self t a : (0 <= t)%Q -> close t a a = true.
Proof.
  intro H. unfold close. destruct (qltb_spec (a - a) 0) as [G|G]; [lra|]. destruct (qleb_spec (a - a) t); [reflexivity|lra].
Qed.

(** C134: a row reported at or above the level is explained *)
Theorem C134_clf_explained : forall model d X data C minimal pi space stop e k x,
  (0 < pi)%Q -> (pi <= 1)%Q -> reads d model -> data <> [] -> coal_ok C d -> space_ok d space ->
  any_clf model d X data C minimal pi space stop = Some e -> nth_error X k = Some x ->
  (pi <= nth k (m_sdp e) 0)%Q ->
  row_says model Nat.eqb d data x (search_groups C (space_of d space)) minimal pi e k.
Proof. intros. eapply (found_says model Nat.eqb); try eassumption. apply Nat.eqb_refl. Qed.
Print Assumptions C134_clf_explained.
Theorem C134_reg_explained : forall model d X data C minimal pi threshold space stop e k x,
  (0 < pi)%Q -> (pi <= 1)%Q -> (0 <= threshold)%Q -> reads d model -> data <> [] -> coal_ok C d -> space_ok d space ->
  any_reg model d X data C minimal pi threshold space stop = Some e -> nth_error X k = Some x ->
  (pi <= nth k (m_sdp e) 0)%Q ->
  row_says model (near threshold) d data x (search_groups C (space_of d space)) minimal pi e k.
Proof. intros. apply row_says_near. eapply (found_says model (close threshold)); try eassumption. intro y. now apply close_self. Qed.
Print Assumptions C134_reg_explained.

(** a row reported below the level: no choice of groups reaches it without early stop; with it, and single columns, no
    choice of at most half of the columns, rounded up, does *)
Theorem C134_clf_unexplained : forall model d X data C minimal pi space stop e k x,
  (0 < pi)%Q -> (pi <= 1)%Q -> reads d model -> data <> [] -> coal_ok C d -> space_ok d space ->
  any_clf model d X data C minimal pi space stop = Some e -> nth_error X k = Some x ->
  (nth k (m_sdp e) 0 < pi)%Q ->
  let va := search_groups C (space_of d space) in
  forall T, In T (subs va) -> minimal <= length T ->
  stop = false \/ ((forall g, In g va -> length g = 1) /\ (length T <= minimal \/ 2 * (length T - 1) < d)) ->
  (kept_share model Nat.eqb data x (concat T) < pi)%Q.
Proof. intros. eapply (unfound_says model Nat.eqb); try eassumption. apply Nat.eqb_refl. Qed.
Print Assumptions C134_clf_unexplained.
Theorem C134_reg_unexplained : forall model d X data C minimal pi threshold space stop e k x,
  (0 < pi)%Q -> (pi <= 1)%Q -> (0 <= threshold)%Q -> reads d model -> data <> [] -> coal_ok C d -> space_ok d space ->
  any_reg model d X data C minimal pi threshold space stop = Some e -> nth_error X k = Some x ->
  (nth k (m_sdp e) 0 < pi)%Q ->
  let va := search_groups C (space_of d space) in
  forall T, In T (subs va) -> minimal <= length T ->
  stop = false \/ ((forall g, In g va -> length g = 1) /\ (length T <= minimal \/ 2 * (length T - 1) < d)) ->
  (kept_share model (near threshold) data x (concat T) < pi)%Q.
Proof.
  intros. rewrite <- share_near. eapply (unfound_says model (close threshold)); try eassumption. intro y. now apply close_self.
Qed.
Print Assumptions C134_reg_unexplained.

(** importance of a column: share of the observations explained with it *)
Theorem C134_importance : forall model d X data C minimal pi threshold space stop e j,
  (0 < pi)%Q -> (pi <= 1)%Q -> coal_ok C d -> space_ok d space -> X <> [] ->
  any_reg model d X data C minimal pi threshold space stop = Some e -> j < d ->
  exists q, nth_error (m_importance e) j = Some (Some q) /\
  (q == Qn (length (filter (fun k => Qle_bool pi (nth k (m_sdp e) 0%Q) &&
                                      existsb (Z.eqb (Z.of_nat j)) (nth k (m_index e) [])) (seq 0 (length X)))) / Qn (length X))%Q.
Proof. intros. eapply (importance_says model (close threshold)); eauto. Qed.
Print Assumptions C134_importance.
Theorem C134_clf_importance : forall model d X data C minimal pi space stop e j,
  (0 < pi)%Q -> (pi <= 1)%Q -> coal_ok C d -> space_ok d space -> X <> [] ->
  any_clf model d X data C minimal pi space stop = Some e -> j < d ->
  exists q, nth_error (m_importance e) j = Some (Some q) /\
  (q == Qn (length (filter (fun k => Qle_bool pi (nth k (m_sdp e) 0%Q) &&
                                      existsb (Z.eqb (Z.of_nat j)) (nth k (m_index e) [])) (seq 0 (length X)))) / Qn (length X))%Q.
Proof. intros. eapply (importance_says model Nat.eqb); eauto. Qed.
Print Assumptions C134_clf_importance.

(** the row of an observation is that of a call with this observation only *)
Theorem C134_alone : forall model d X data C minimal pi threshold space stop e k x,
  (0 < pi)%Q -> coal_ok C d -> space_ok d space ->
  any_reg model d X data C minimal pi threshold space stop = Some e -> nth_error X k = Some x ->
  exists e1, any_reg model d [x] data C minimal pi threshold space stop = Some e1 /\
    nth_error (m_sdp e) k = nth_error (m_sdp e1) 0 /\ nth_error (m_index e) k = nth_error (m_index e1) 0 /\
    nth_error (m_size e) k = nth_error (m_size e1) 0.
Proof. intros. eapply (alone model (close threshold)); eauto. Qed.
Print Assumptions C134_alone.

(** up to 15 groups the call returns arrays of the right sizes, whatever the model *)
Theorem C134_returns_partial : forall model d X data C minimal pi threshold space stop,
  (0 < pi)%Q -> coal_ok C d -> C <> [] -> space_ok d space -> length (search_groups C (space_of d space)) <= 15 ->
  exists e, any_reg model d X data C minimal pi threshold space stop = Some e /\
    length (m_importance e) = d /\ length (m_index e) = length X /\ length (m_size e) = length X /\ length (m_sdp e) = length X.
Proof.
  intros. destruct (answers model (close threshold) d data X pi ltac:(assumption) C minimal space stop) as [e E]; trivial.
  exists e. split; [exact E|]. eapply answer_shape; eauto.
Qed.
Print Assumptions C134_returns_partial.
Theorem C134_clf_returns_partial : forall model d X data C minimal pi space stop,
  (0 < pi)%Q -> coal_ok C d -> C <> [] -> space_ok d space -> length (search_groups C (space_of d space)) <= 15 ->
  exists e, any_clf model d X data C minimal pi space stop = Some e /\
    length (m_importance e) = d /\ length (m_index e) = length X /\ length (m_size e) = length X /\ length (m_sdp e) = length X.
Proof.
  intros. destruct (answers model Nat.eqb d data X pi ltac:(assumption) C minimal space stop) as [e E]; trivial.
  exists e. split; [exact E|]. eapply answer_shape; eauto.
Qed.
Print Assumptions C134_clf_returns_partial.

(** concrete cases: three columns; the decision is that the first two columns agree *)
Definition point (l : list Q) : pt := fun i => nth i l 0%Q.
Definition agree (z : pt) : nat := if qeqb (z 0) (z 1) then 1 else 0.
Definition total (z : pt) : Q := (z 0%nat + z 1%nat + z 2%nat)%Q.
Definition bg : list pt := map point [[0; 0; 0]; [0; 1; 2]; [1; 0; 1]; [1; 1; 5]]%Q.
Definition obs : list pt := map point [[0; 0; 4]; [1; 2; 0]]%Q.
Definition digest (o : option found) : option (list (option Q) * list (list Z) * list nat * list Q) :=
  option_map (fun e => (map (option_map Qred) (m_importance e), m_index e, m_size e, map Qred (m_sdp e))) o.
Lemma agree_reads : reads 3 agree.
Proof. intros u v H. unfold agree. now rewrite !H by lia. Qed.
Lemma total_reads : reads 3 total.
Proof. intros u v H. unfold total. now rewrite !H by lia. Qed.
Lemma none_ok d : coal_ok [[]] d.
Proof. split; [constructor|]. split; [intros x []|now left]. Qed.
Lemma pair_coal_ok : coal_ok [[0; 2]] 3.
Proof.
  split; [repeat constructor; cbn; intuition discriminate|]. split; [intros x H; cbn in H; intuition lia|].
  right. intros [H|[]]; discriminate.
Qed.
Example C134_clf_example :
  reads 3 agree /\ coal_ok [[]] 3 /\ bg <> [] /\
  digest (any_clf agree 3 obs bg [[]] 1 (9 # 10) None true)
  = Some ([Some (1 # 2); Some (1%Q); Some 0%Q], [[0; 1; -1]; [1; -1; -1]]%Z, [2; 1], [1; 1]%Q) /\
  (kept_share agree Nat.eqb bg (point [1; 2; 0]%Q) [1%nat] == 1)%Q /\ ( kept_share agree Nat.eqb bg (point [1; 2; 0]%Q) [0%nat] == 1 # 2)%Q.
Proof.
  split; [exact agree_reads|]. split; [apply none_ok|]. split; [discriminate|].
  split; [vm_compute; reflexivity|]. split; vm_compute; reflexivity.
Qed.
Example C134_reg_example :
  reads 3 total /\ coal_ok [[0; 2]] 3 /\ search_groups [[0; 2]] (space_of 3 None) = [[1]; [0; 2]] /\
  digest (any_reg total 3 obs bg [[0; 2]] 1 (9 # 10) 1 None false)
  = Some ([Some 1%Q; Some (1 # 2); Some 1%Q], [[0; 2; -1]; [1; 0; 2]]%Z, [2; 3], [1; 1]%Q) /\
  (kept_share total (near 1) bg (point [0; 0; 4]%Q) [0; 2]%nat == 1)%Q /\
  (kept_share total (near 1) bg (point [1; 2; 0]%Q) [0; 2]%nat == 1 # 2)%Q.
Proof.
  split; [exact total_reads|]. split; [exact pair_coal_ok|]. vm_compute. auto.
Qed.
Example C134_unexplained_example :
  (forall g, In g (search_groups [[]] (space_of 3 None)) -> length g = 1) /\
  digest (any_reg total 3 obs bg [[]] 1 (9 # 10) (1 # 2) None true)
  = Some ([Some 0; Some 0; Some 0]%Q, [[1; 2; -1]; [1; 2; -1]]%Z, [2; 2], [1 # 2; 1 # 2]).
Proof. split; [|vm_compute; reflexivity]. intros g H. cbn in H. intuition (subst; reflexivity). Qed.
Example C134_alone_example :
  digest (any_reg total 3 [point [1; 2; 0]%Q] bg [[0; 2]] 1 (9 # 10) 1 None false)
  = Some ([Some 1; Some 1; Some 1]%Q, [[1; 0; 2]]%Z, [3], [1]%Q).
Proof. vm_compute. reflexivity. Qed.

(** with the early stop an observation may be reported below the level although all columns together reach it *)
Theorem C134_stop_refuted : exists model d X data pi threshold e x S,
  reads d model /\ (0 <= threshold)%Q /\ data <> [] /\ nth_error X 0 = Some x /\
  any_reg model d X data [[]] 1 pi threshold None true = Some e /\ (nth 0 (m_sdp e) 0 < pi)%Q /\
  NoDup S /\ (forall s, In s S -> s < d) /\ (pi <= kept_share model (near threshold) data x S)%Q.
Proof.
  destruct (C134_returns_partial total 3 obs bg [[]] 1 (9 # 10) (1 # 2) None true) as [e [E _]];
    [reflexivity|apply none_ok|discriminate|exact I|cbn; lia|].
  exists total, 3, obs, bg, (9 # 10), (1 # 2), e, (point [0; 0; 4]%Q), [0; 1; 2].
  split; [exact total_reads|]. split; [discriminate|]. split; [discriminate|]. split; [reflexivity|]. split; [exact E|].
  split.
  - pose proof (proj2 C134_unexplained_example) as D. rewrite E in D. unfold digest in D. cbn [option_map] in D.
    assert (D' : map Qred (m_sdp e) = [1 # 2; 1 # 2]) by (now injection D).
    destruct (m_sdp e) as [|q l]; [discriminate|]. cbn [map] in D'. injection D' as D' _. cbn [nth].
    rewrite <- (Qred_correct q), D'. reflexivity.
  - split; [repeat constructor; cbn; intuition discriminate|]. split; [intros s H; cbn in H; intuition lia|].
    vm_compute. discriminate.
Qed.
Print Assumptions C134_stop_refuted.

(** 17 columns, default arguments: an observation that needs many columns makes the search read beyond the sizes
    enumerated, and Python raises IndexError *)
Definition all_ones (z : pt) : nat := if forallb (fun i => qeqb (z i) 1) (seq 0 17) then 1 else 0.
Theorem C134_wide_refuted : exists model d X data,
  reads d model /\ data <> [] /\ X <> [] /\ any_clf model d X data [[]] 1 (9 # 10) None true = None.
Proof.
  exists all_ones, 17, [fun _ => 1%Q], [fun _ => 0%Q]. split.
  { intros u v H. unfold all_ones.
    assert (E : forallb (fun i => qeqb (u i) 1) (seq 0 17) = forallb (fun i => qeqb (v i) 1) (seq 0 17)); [|now rewrite E].
    generalize (fun i (Hi : In i (seq 0 17)) => H i (proj2 (proj1 (in_seq 17 0 i) Hi))). generalize (seq 0 17).
    induction l as [|i l IH]; intro G; [reflexivity|]. cbn [forallb]. rewrite (G i) by now left. f_equal. apply IH.
    intros j Hj. apply G. now right. }
  split; [discriminate|]. split; [discriminate|]. vm_compute. reflexivity.
Qed.
Print Assumptions C134_wide_refuted.

(** the methods of a tree ensemble: up to 15 columns all of them are searched, and the model of the ensemble is asked unless
    another one is given *)
Theorem C134_tree_clf_partial : forall nodes by_count own model d X data C minimal pi stop,
  (0 < pi)%Q -> (pi <= 1)%Q -> reads d (chosen own model) -> data <> [] -> coal_ok C d -> C <> [] -> d <= 15 ->
  exists e, tree_clf nodes by_count own model d X data C minimal pi stop = Some e /\
  forall k x, nth_error X k = Some x -> (pi <= nth k (m_sdp e) 0)%Q ->
  row_says (match model with Some f => f | None => own end) Nat.eqb d data x (search_groups C (seq 0 d)) minimal pi e k.
Proof.
  intros nodes by_count own model d X data C minimal pi stop H0 H1 Hr Hd HC Hn Hw. unfold tree_clf, searched.
  destruct (Nat.ltb_spec 15 d) as [|_]; [lia|].
  destruct (C134_clf_returns_partial (chosen own model) d X data C minimal pi None stop H0 HC Hn I) as [e [E _]].
  { cbn [space_of]. etransitivity; [apply search_groups_length; [apply HC|apply seq_NoDup]|now rewrite seq_length]. }
  exists e. split; [exact E|]. intros k x Hx Hf. now apply (C134_clf_explained (chosen own model) d X data C minimal pi None stop).
Qed.
Print Assumptions C134_tree_clf_partial.
Theorem C134_tree_reg_partial : forall nodes by_count own model d X data C minimal pi threshold stop,
  (0 < pi)%Q -> (pi <= 1)%Q -> (0 <= threshold)%Q -> reads d (chosen own model) -> data <> [] -> coal_ok C d -> C <> [] -> d <= 15 ->
  exists e, tree_reg nodes by_count own model d X data C minimal pi threshold stop = Some e /\
  forall k x, nth_error X k = Some x -> (pi <= nth k (m_sdp e) 0)%Q ->
  row_says (match model with Some f => f | None => own end) (near threshold) d data x (search_groups C (seq 0 d)) minimal pi e k.
Proof.
  intros nodes by_count own model d X data C minimal pi threshold stop H0 H1 Ht Hr Hd HC Hn Hw. unfold tree_reg, searched.
  destruct (Nat.ltb_spec 15 d) as [|_]; [lia|].
  destruct (C134_returns_partial (chosen own model) d X data C minimal pi threshold None stop H0 HC Hn I) as [e [E _]].
  { cbn [space_of]. etransitivity; [apply search_groups_length; [apply HC|apply seq_NoDup]|now rewrite seq_length]. }
  exists e. split; [exact E|]. intros k x Hx Hf. now apply (C134_reg_explained (chosen own model) d X data C minimal pi threshold None stop).
Qed.
Print Assumptions C134_tree_reg_partial.
(** beyond 15 columns, only the groups that meet the 15 most frequent columns of the trees are searched *)
Theorem C134_tree_wide : forall nodes by_count own model d X data C minimal pi stop,
  counted (above_leaves nodes) (by_count (above_leaves nodes)) -> (forall s, In s (above_leaves nodes) -> s < d) ->
  (0 < pi)%Q -> (pi <= 1)%Q -> reads d (chosen own model) -> data <> [] -> coal_ok C d -> C <> [] -> 15 < d ->
  exists e, tree_clf nodes by_count own model d X data C minimal pi stop = Some e /\
  forall k x, nth_error X k = Some x -> (pi <= nth k (m_sdp e) 0)%Q ->
  row_says (match model with Some f => f | None => own end) Nat.eqb d data x
    (search_groups C (firstn 15 (by_count (above_leaves nodes)))) minimal pi e k.
Proof.
  intros nodes by_count own model d X data C minimal pi stop Hc Hb H0 H1 Hr Hd HC Hn Hw. unfold tree_clf, searched.
  destruct (Nat.ltb_spec 15 d) as [_|]; [|lia].
  destruct Hc as [Hc1 [Hc2 _]].
  assert (Hs : space_ok d (Some (firstn 15 (by_count (above_leaves nodes))))).
  { split.
    - now apply NoDup_firstn'.
    - intros x Hx. apply Hb, Hc2. rewrite <- (firstn_skipn 15 (by_count _)). apply in_or_app. now left. }
  destruct (C134_clf_returns_partial (chosen own model) d X data C minimal pi (Some (firstn 15 (by_count (above_leaves nodes)))) stop H0 HC Hn Hs) as [e [E _]].
  { cbn [space_of]. etransitivity; [apply search_groups_length; [apply HC|apply Hs]|]. rewrite firstn_length. lia. }
  exists e. split; [exact E|]. intros k x Hx Hf.
  now apply (C134_clf_explained (chosen own model) d X data C minimal pi (Some (firstn 15 (by_count (above_leaves nodes)))) stop).
Qed.
Print Assumptions C134_tree_wide.

(** the columns above the leaves of a small ensemble: two stumps for each of the columns 0-14, one for column 15 *)
Definition stumps (c : nat) : list (list nat) := [[c]; [c]].
Definition many : list (list (list nat)) := map stumps (seq 0 15) ++ map stumps (seq 0 15) ++ [stumps 15].
Definition by_column (l : list nat) : list nat := seq 0 16.
Definition last_column (z : pt) : nat := if qltb 0 (z 15) then 1 else 0.
Lemma many_counted : counted (above_leaves many) (by_column (above_leaves many)).
Proof.
  split; [apply seq_NoDup|]. split.
  - intro v. unfold by_column. rewrite in_seq.
    assert (H : incl (above_leaves many) (seq 0 16) /\ incl (seq 0 16) (above_leaves many)).
    { split; intros x Hx; vm_compute in Hx; vm_compute; intuition. }
    destruct H as [H1 H2]. split; intro H.
    + apply H2, in_seq. lia.
    + apply H1, in_seq in H. lia.
  - intros i j a b Hij Ha Hb. unfold by_column in *. rewrite nth_error_seq in Ha, Hb.
    destruct (Nat.ltb_spec i 16) as [Hi|]; [|discriminate]. destruct (Nat.ltb_spec j 16) as [Hj|]; [|discriminate].
    injection Ha as <-. injection Hb as <-. cbn [plus].
    assert (E : forallb (fun i => if i <? 15 then count_occ Nat.eq_dec (above_leaves many) i =? 4
                                  else count_occ Nat.eq_dec (above_leaves many) i =? 2) (seq 0 16) = true) by (vm_compute; reflexivity).
    rewrite forallb_forall in E. pose proof (E i ltac:(apply in_seq; lia)) as Ei. pose proof (E j ltac:(apply in_seq; lia)) as Ej.
    destruct (Nat.ltb_spec i 15) as [G|G]; [|lia]. apply Nat.eqb_eq in Ei. rewrite Ei.
    destruct (j <? 15); apply Nat.eqb_eq in Ej; lia.
Qed.
(** the column that decides is never looked at: the observation is reported below the level although that column alone suffices *)
Theorem C134_tree_wide_refuted : exists nodes by_count own d X data pi e x s,
  counted (above_leaves nodes) (by_count (above_leaves nodes)) /\ In s (above_leaves nodes) /\ s < d /\ reads d own /\
  (0 < pi)%Q /\ (pi <= 1)%Q /\ nth_error X 0 = Some x /\
  tree_clf nodes by_count own None d X data [[]] 1 pi false = Some e /\ (nth 0 (m_sdp e) 0 < pi)%Q /\
  (kept_share own Nat.eqb data x [s] == 1)%Q.
Proof.
  assert (Hr : reads 16 last_column) by (intros u v H; unfold last_column; now rewrite H by lia).
  destruct (C134_tree_wide many by_column last_column None 16 [fun _ => 1%Q] [fun _ => 0%Q] [[]] 1 (1 # 2) false)
    as [e [E H]]; [exact many_counted| |reflexivity|discriminate|exact Hr|discriminate|apply none_ok|discriminate|lia|].
  { intros s Hs. destruct many_counted as [_ [G _]]. apply G, in_seq in Hs. lia. }
  exists many, by_column, last_column, 16, [fun _ => 1%Q], [fun _ => 0%Q], (1 # 2), e, (fun _ => 1%Q), 15.
  split; [exact many_counted|]. split; [vm_compute; intuition|]. split; [lia|]. split; [exact Hr|].
  split; [reflexivity|]. split; [discriminate|]. split; [reflexivity|]. split; [exact E|]. split; [|vm_compute; reflexivity].
  destruct (Qlt_le_dec (nth 0 (m_sdp e) 0%Q) (1 # 2)) as [|Hf]; [trivial|]. exfalso.
  destruct (H 0 _ eq_refl Hf) as [T [[HT [_ [Hp _]]] _]].
  assert (Hn : ~ In 15 (concat T)).
  { intro Hi. apply (subs_concat_incl _ _ HT) in Hi. vm_compute in Hi. intuition discriminate. }
  unfold kept_share, replaced in Hp. cbn [filter length] in Hp. unfold last_column in Hp at 1.
  destruct (in_dec Nat.eq_dec 15 (concat T)) as [|_]; [contradiction|]. vm_compute in Hp. now apply Hp.
Qed.
Print Assumptions C134_tree_wide_refuted.
Example C134_tree_example :
  digest (tree_clf [[[0]; [0; 1]; [0; 1]]] (fun _ => [0; 1]) agree None 3 obs bg [[]] 1 (9 # 10) true)
  = Some ([Some (1 # 2); Some (1%Q); Some 0%Q], [[0; 1; -1]; [1; -1; -1]]%Z, [2; 1], [1; 1]%Q) /\
  digest (tree_reg [[[0]; [0; 1]; [0; 1]]] (fun _ => [0; 1]) (fun _ => 0%Q) (Some total) 3 obs bg [[0; 2]] 1 (9 # 10) 1 false)
  = Some ([Some 1%Q; Some (1 # 2); Some 1%Q], [[0; 2; -1]; [1; 0; 2]]%Z, [2; 3], [1; 1]%Q).
Proof. vm_compute. auto. Qed.

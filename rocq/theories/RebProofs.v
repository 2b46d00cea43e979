(** Proofs about the rebuilt trees. *)
From Verif Require Import Base TreeModel TreeSpec TreeProofs RebModel RebSpec.
Local Open Scope nat_scope.

Lemma filter_filter {A} (p q : A -> bool) l : filter p (filter q l) = filter (fun a => q a && p a) l.
Proof. induction l as [|a l IH]; [reflexivity|]. cbn [filter]. destruct (q a); cbn [filter andb]; rewrite IH; reflexivity. Qed.

Section Tree.
Variable t : tree.
Variable d : nat.
Hypothesis Hwf : wf_tree t d = true.

Lemma child_visits x i : i < nn t -> is_leaf t i = false ->
  (visits t x no_missing (Z.to_nat (clz t i)) <-> visits t x no_missing i /\ (x (ftn t i) <= thq t i)%Q) /\
  (visits t x no_missing (Z.to_nat (crz t i)) <-> visits t x no_missing i /\ (thq t i < x (ftn t i))%Q).
Proof.
  intros Hi Hl. destruct (wf_internal t d Hwf i Hi Hl) as [H1 [H2 [H3 [H4 H5]]]].
  assert (Hback : forall j, (j = Z.to_nat (clz t i) \/ j = Z.to_nat (crz t i)) ->
     visits t x no_missing j -> visits t x no_missing i /\ next_node t x no_missing i = j).
  { intros j Hj Hv. destruct (visits_inv t x no_missing j Hv) as [Hz|[a [Ha [Hal Hz]]]]; [lia|].
    assert (Han : a < nn t) by (eapply visits_lt; eassumption).
    destruct (wf_internal t d Hwf a Han Hal) as [A1 [A2 [A3 [A4 A5]]]].
    assert (Ea : a = i).
    { assert (Hpa : In a (where_eq (cl t) j) \/ In a (where_eq (cr t) j)).
      { unfold next_node in Hz. cbn in Hz.
        destruct (qleb (x (ftn t a)) (thq t a)); [left; apply in_where_cl|right; apply (in_where_cr t d Hwf)]; lia. }
      assert (Hpi : In i (where_eq (cl t) j) \/ In i (where_eq (cr t) j)).
      { destruct Hj as [Hj|Hj]; [left; apply in_where_cl|right; apply (in_where_cr t d Hwf)]; lia. }
      destruct (parent_cases t d Hwf j) as [[r [Er El]]|[r [Er El]]]; [lia| |]; rewrite Er, El in *; cbn in *; intuition congruence. }
    subst a. split; trivial. }
  assert (Hn : next_node t x no_missing i = if qleb (x (ftn t i)) (thq t i) then Z.to_nat (clz t i) else Z.to_nat (crz t i)) by reflexivity.
  split; split.
  - intro Hv. apply Hback in Hv; [|now left]. destruct Hv as [Hv E]. split; [exact Hv|]. rewrite Hn in E.
    destruct (qleb_spec (x (ftn t i)) (thq t i)); [assumption|lia].
  - intros [Hv Hle]. apply qleb_true in Hle. rewrite Hle in Hn. rewrite <- Hn. now apply vis_next.
  - intro Hv. apply Hback in Hv; [|now right]. destruct Hv as [Hv E]. split; [exact Hv|]. rewrite Hn in E.
    destruct (qleb_spec (x (ftn t i)) (thq t i)); [lia|now apply Qnot_le_lt].
  - intros [Hv Hlt]. apply qleb_false in Hlt. rewrite Hlt in Hn. rewrite <- Hn. now apply vis_next.
Qed.

(** descendants *)
Inductive below : nat -> nat -> Prop :=
| below_refl i : below i i
| below_left i j : below (Z.to_nat (clz t i)) j -> is_leaf t i = false -> below i j
| below_right i j : below (Z.to_nat (crz t i)) j -> is_leaf t i = false -> below i j.
Lemma below_snoc i p j : below i p -> is_leaf t p = false -> (j = Z.to_nat (clz t p) \/ j = Z.to_nat (crz t p)) -> below i j.
Proof.
  intros H. induction H as [i|i p H IH Hl|i p H IH Hl]; intros Hp Hj.
  - destruct Hj as [->| ->]; [apply below_left|apply below_right]; trivial; constructor.
  - apply below_left; auto.
  - apply below_right; auto.
Qed.
Lemma below_root j : j < nn t -> below 0 j.
Proof.
  induction j as [j IH] using lt_wf_ind. intro Hj. destruct (Nat.eq_dec j 0) as [->|H0]; [constructor|].
  destruct (parent_cases t d Hwf j ltac:(lia)) as [[r [Er El]]|[r [Er El]]].
  - assert (Hr : In r (where_eq (cr t) j)) by (rewrite Er; now left). apply (in_where_cr t d Hwf) in Hr. destruct Hr as [Hr Hc].
    assert (Hlf : is_leaf t r = false) by (destruct (is_leaf t r) eqn:E; [pose proof (wf_leaf t d Hwf r Hr E); lia|reflexivity]).
    destruct (wf_internal t d Hwf r Hr Hlf) as [H1 [H2 [H3 _]]].
    apply below_snoc with r; [apply IH; lia|exact Hlf|right; lia].
  - assert (Hr : In r (where_eq (cl t) j)) by (rewrite El; now left). apply in_where_cl in Hr. destruct Hr as [Hr Hc].
    assert (Hlf : is_leaf t r = false) by (unfold is_leaf; apply Z.ltb_ge; lia).
    destruct (wf_internal t d Hwf r Hr Hlf) as [H1 [H2 [H3 _]]].
    apply below_snoc with r; [apply IH; lia|exact Hlf|left; lia].
Qed.

(** the rows of a node *)
Variable rows : list obs.
Definition at_node (j : nat) : list obs := filter (fun r => visitsb t (fst r) no_missing j) rows.
Lemma at_node_spec j : rows_at t rows j (at_node j).
Proof. exists (fun r => visitsb t (fst r) no_missing j). split; [intro r; apply (visitsb_spec t d Hwf)|reflexivity]. Qed.
Lemma rows_at_unique j l : rows_at t rows j l -> l = at_node j.
Proof.
  intros [e [He ->]]. apply filter_ext. intro r. destruct (e r) eqn:E.
  - symmetry. apply (visitsb_spec t d Hwf). now apply He.
  - destruct (visitsb t (fst r) no_missing j) eqn:E'; [|reflexivity]. apply (visitsb_spec t d Hwf) in E'. apply He in E'. congruence.
Qed.
Lemma at_root : at_node 0 = rows.
Proof.
  unfold at_node. induction rows as [|r l IH]; [reflexivity|]. cbn [filter].
  rewrite (proj2 (visitsb_spec t d Hwf (fst r) no_missing 0) (vis_root _ _ _)). now rewrite IH.
Qed.
Lemma at_left i : i < nn t -> is_leaf t i = false -> filter (fun r : obs => qleb (fst r (ftn t i)) (thq t i)) (at_node i) = at_node (Z.to_nat (clz t i)).
Proof.
  intros Hi Hl. unfold at_node. rewrite filter_filter. apply filter_ext. intro r. destruct (child_visits (fst r) i Hi Hl) as [H _].
  apply eq_true_iff_eq. rewrite andb_true_iff, !(visitsb_spec t d Hwf), qleb_true. symmetry. exact H.
Qed.
Lemma at_right i : i < nn t -> is_leaf t i = false -> filter (fun r : obs => qltb (thq t i) (fst r (ftn t i))) (at_node i) = at_node (Z.to_nat (crz t i)).
Proof.
  intros Hi Hl. unfold at_node. rewrite filter_filter. apply filter_ext. intro r. destruct (child_visits (fst r) i Hi Hl) as [_ H].
  apply eq_true_iff_eq. rewrite andb_true_iff, !(visitsb_spec t d Hwf), qltb_true. symmetry. exact H.
Qed.

Variable every : bool.
Definition good (st : node_state) (j : nat) : Prop :=
  fst st j = length (at_node j) /\ forall k, every || (k =? 0) = true -> snd st j k = mean_col (at_node j) k.
Definition same (st st' : node_state) (j : nat) : Prop := fst st j = fst st' j /\ forall k, snd st j k = snd st' j k.
Lemma good_same st st' j : good st j -> same st' st j -> good st' j.
Proof. intros [A B] [C D]. split; [congruence|]. intros k Hk. rewrite D. now apply B. Qed.
Lemma write_good i st j : good (write_node every i (at_node i) st) j \/ same (write_node every i (at_node i) st) st j.
Proof.
  destruct (Nat.eq_dec j i) as [->|Ne].
  - left. unfold write_node, good. cbn [fst snd]. rewrite !upd_same. split; [reflexivity|]. intros k Hk. now rewrite Hk.
  - right. unfold write_node, same. cbn [fst snd]. rewrite !upd_other by exact Ne. auto.
Qed.
Lemma rebuild_ok f : forall i st, i < nn t -> nn t - i <= f ->
  exists st', rebuild t every f i (at_node i) st = Some st' /\ (forall j, good st' j \/ same st' st j) /\
    (forall j, below i j -> good st' j) /\ (forall j k, every || (k =? 0) = false -> snd st' j k = snd st j k).
Proof.
  induction f as [|f IH]; intros i st Hi Hf; [lia|]. cbn [rebuild].
  set (st1 := write_node every i (at_node i) st).
  assert (Hw : forall j k, every || (k =? 0) = false -> snd st1 j k = snd st j k).
  { intros j k Hk. unfold st1, write_node. cbn [snd]. destruct (Nat.eq_dec j i) as [->|Ne]; [rewrite upd_same, Hk|rewrite upd_other by exact Ne]; reflexivity. }
  assert (Hself : good st1 i) by (unfold st1, write_node, good; cbn [fst snd]; rewrite !upd_same; split; [reflexivity|]; intros k Hk; now rewrite Hk).
  pose proof (leaf_iff_cr t d Hwf i Hi) as Hc. destruct (is_leaf t i) eqn:El; cbn [negb] in Hc.
  - apply Z.leb_gt in Hc. apply Z.ltb_lt in Hc. rewrite Hc. exists st1. split; [reflexivity|]. split; [intro j; apply write_good|]. split; [|exact Hw].
    intros j Hb. inversion Hb; subst; [exact Hself|congruence|congruence].
  - apply Z.leb_le in Hc. apply Z.ltb_ge in Hc. rewrite Hc. destruct (wf_internal t d Hwf i Hi El) as [H1 [H2 [H3 _]]].
    rewrite at_left, at_right by assumption.
    destruct (IH (Z.to_nat (clz t i)) st1 ltac:(lia) ltac:(lia)) as [st2 [E2 [A2 [B2 C2]]]]. rewrite E2.
    destruct (IH (Z.to_nat (crz t i)) st2 ltac:(lia) ltac:(lia)) as [st3 [E3 [A3 [B3 C3]]]]. rewrite E3.
    exists st3. split; [reflexivity|].
    assert (Hg : forall j, good st2 j -> good st3 j) by (intros j Hj; destruct (A3 j) as [H|H]; [exact H|now apply good_same with st2]).
    split; [|split].
    + intro j. destruct (A3 j) as [H|H]; [now left|]. destruct (A2 j) as [H'|H']; [left; now apply good_same with st2|].
      destruct (write_good i st j) as [G|G]; fold st1 in G.
      * left. apply good_same with st2; [apply good_same with st1|]; assumption.
      * right. destruct H as [Ha Hb], H' as [Ha' Hb'], G as [Ga Gb]. split; [congruence|]. intro k. rewrite Hb, Hb'. apply Gb.
    + intros j Hb. inversion Hb; subst.
      * apply Hg. destruct (A2 j) as [H|H]; [exact H|]. now apply good_same with st1.
      * apply Hg. now apply B2.
      * now apply B3.
    + intros j k Hk. rewrite C3, C2 by exact Hk. now apply Hw.
Qed.
End Tree.

Lemma mean_col_is l k : mean_is (mean_col l k) (map (fun r => snd r k) l).
Proof.
  destruct l as [|r l]; [reflexivity|]. unfold mean_col, mean_is. split; [discriminate|].
  rewrite map_length, sumf_map, Qmult_comm, Qmult_div_r; [reflexivity|]. apply Qn_neq0. discriminate.
Qed.

Theorem rebuild_spec t d every rows st : wf_tree t d = true ->
  exists w v, rebuild t every (nn t) 0 rows st = Some (w, v) /\
    (forall j, j < nn t -> exists l, rows_at t rows j l /\ w j = length l /\
       forall k, (every = true \/ k = 0) -> mean_is (v j k) (map (fun r => snd r k) l)) /\
    (forall j k, every = false -> k <> 0 -> v j k = snd st j k).
Proof.
  intro Hwf. pose proof (wf_pos t d Hwf) as Hp.
  destruct (rebuild_ok t d Hwf rows every (nn t) 0 st Hp ltac:(lia)) as [[w v] [E [_ [B C]]]].
  rewrite (at_root t d Hwf) in E. exists w, v. split; [exact E|]. split.
  - intros j Hj. exists (at_node t rows j). split; [apply (at_node_spec t d Hwf)|].
    destruct (B j (below_root t d Hwf j Hj)) as [G1 G2]. cbn [fst snd] in *. split; [exact G1|]. intros k Hk.
    rewrite G2; [apply mean_col_is|]. destruct Hk as [->| ->]; [reflexivity|]. now destruct every.
  - intros j k He Hk. apply (C j k). rewrite He. cbn. now apply Nat.eqb_neq.
Qed.

(** the same numbers as the compiled routine *)
Theorem rebuild_weights t d every rows st w v : wf_tree t d = true -> rebuild t every (nn t) 0 rows st = Some (w, v) ->
  forall j, j < nn t -> (Qn (w j) == update_weights t (map (fun r => (fst r, no_missing)) rows) (fun _ => 0%Q) j)%Q.
Proof.
  intros Hwf E j Hj. destruct (rebuild_spec t d every rows st Hwf) as [w' [v' [E' [H _]]]].
  rewrite E in E'. injection E' as <- <-. destruct (H j Hj) as [l [Hl [-> _]]].
  rewrite (update_weights_count t d Hwf). apply (rows_at_unique t d Hwf) in Hl. subst l. unfold at_node.
  rewrite (Qplus_0_l). 
  replace (length (filter (fun r => visitsb t (fst r) (snd r) j) (map (fun r => (fst r, no_missing)) rows)))
    with (length (filter (fun r : obs => visitsb t (fst r) no_missing j) rows)); [reflexivity|].
  clear. induction rows as [|r rows IH]; [reflexivity|]. cbn [map filter]. cbn [fst snd]. destruct (visitsb t (fst r) no_missing j); cbn [length]; now rewrite IH.
Qed.

(** the rebuilt predictions have the total of the targets *)
Theorem rebuild_total t d every rows st w v k : wf_tree t d = true -> rebuild t every (nn t) 0 rows st = Some (w, v) ->
  (every = true \/ k = 0) ->
  exists p : obs -> Q, (forall r, In r rows -> exists l, predict_leaf t (fst r) no_missing = Some l /\ v l k = Some (p r)) /\
    (sumf p rows == sumf (fun r => snd r k) rows)%Q.
Proof.
  intros Hwf E Hk. destruct (rebuild_spec t d every rows st Hwf) as [w' [v' [E' [H _]]]].
  rewrite E in E'. injection E' as <- <-.
  set (val := fun l => match v l k with Some m => m | None => 0%Q end).
  set (lf := fun r : obs => match predict_leaf t (fst r) no_missing with Some l => l | None => 0 end).
  assert (Hlf : forall r, predict_leaf t (fst r) no_missing = Some (lf r) /\ In (lf r) (leaf_idx t) /\ visits t (fst r) no_missing (lf r)).
  { intro r. destruct (leaf_rectangles_tile t d Hwf (fst r)) as [l [Hl [Hp _]]]. unfold lf. rewrite Hp. split; [reflexivity|]. split; [exact Hl|].
    unfold predict_leaf in Hp. apply (walk_visits t (fst r) no_missing (nn t) 0 l (vis_root _ _ _)) in Hp. tauto. }
  assert (Hone : forall r l, In l (leaf_idx t) -> visits t (fst r) no_missing l -> l = lf r).
  { intros r l Hl Hv. apply filter_In in Hl. destruct Hl as [Hl1 Hl2]. apply in_seq in Hl1.
    pose proof (visited_leaf_predicted t d Hwf (fst r) no_missing l) as Hx. destruct (Hlf r) as [Hr _].
    assert (predict_leaf t (fst r) no_missing = Some l) by (apply Hx; auto). congruence. }
  exists (fun r => val (lf r)). split.
  - intros r Hr. destruct (Hlf r) as [P1 [P2 P3]]. exists (lf r). split; [exact P1|]. unfold val.
    assert (Hj : lf r < nn t) by (apply filter_In in P2; destruct P2 as [P2 _]; apply in_seq in P2; lia).
    destruct (H (lf r) Hj) as [l [[e [He ->]] [_ Hm]]]. specialize (Hm k Hk). destruct (v (lf r) k) as [m|]; [reflexivity|].
    cbn in Hm. exfalso. assert (Hin : In r (filter e rows)) by (apply filter_In; split; [exact Hr|now apply He]).
    apply (in_map (fun r => snd r k)) in Hin. rewrite Hm in Hin. contradiction.
  - set (g := fun (r : obs) l => if lf r =? l then 1%Q else 0%Q).
    assert (Hg : forall (h : nat -> Q) r, (sumf (fun l => g r l * h l) (leaf_idx t) == h (lf r))%Q).
    { intros h r. rewrite (sumf_single (fun l => (g r l * h l)%Q) (leaf_idx t) (lf r)); [unfold g; rewrite Nat.eqb_refl; lra|apply leaf_idx_nodup|apply Hlf|].
      intros l _ Hne. unfold g. destruct (Nat.eqb_spec (lf r) l) as [E'|E']; [congruence|lra]. }
    assert (E1 : (sumf (fun r => val (lf r)) rows == sumf (fun l => sumf (fun r => g r l * val l) rows) (leaf_idx t))%Q).
    { rewrite sumf_swap. apply sumf_ext. intros r _. symmetry. apply (Hg val r). }
    assert (E2 : (sumf (fun r => snd r k) rows == sumf (fun l => sumf (fun r => g r l * snd r k) rows) (leaf_idx t))%Q).
    { rewrite sumf_swap. apply sumf_ext. intros r _. symmetry. apply (Hg (fun _ => snd r k) r). }
    rewrite E1, E2. apply sumf_ext. intros l Hl.
    assert (Hj : l < nn t) by (apply filter_In in Hl; destruct Hl as [Hl _]; apply in_seq in Hl; lia).
    destruct (H l Hj) as [L [[e [He ->]] [_ Hm]]]. specialize (Hm k Hk).
    assert (Hge : forall r, g r l = if e r then 1%Q else 0%Q).
    { intro r. unfold g. destruct (Nat.eqb_spec (lf r) l) as [E'|E'].
      - assert (e r = true) as -> by (apply He; rewrite <- E'; apply Hlf). reflexivity.
      - destruct (e r) eqn:Er; [|reflexivity]. apply He in Er. apply Hone in Er; [congruence|exact Hl]. }
    assert (F1 : (sumf (fun r => g r l * val l) rows == Qn (length (filter e rows)) * val l)%Q).
    { rewrite sumf_scal_r. rewrite <- (sumf_count e rows). rewrite (sumf_ext (fun r => g r l) (fun r => Qb (e r))); [reflexivity|].
      intros r _. rewrite Hge. destruct (e r); reflexivity. }
    assert (F2 : (sumf (fun r => g r l * snd r k) rows == sumf (fun r => snd r k) (filter e rows))%Q).
    { rewrite sumf_filter. apply sumf_ext. intros r _. rewrite Hge. destruct (e r); lra. }
    rewrite F1, F2. unfold val. unfold mean_is in Hm. destruct (v l k) as [m|].
    + destruct Hm as [_ Hm]. rewrite map_length in Hm. rewrite sumf_map in Hm. rewrite Qmult_comm. exact Hm.
    + apply map_eq_nil in Hm. rewrite Hm. cbn. rewrite Qn_0. lra.
Qed.

(** the value of a node is the weighted mean of those of its children *)
Theorem rebuild_balance t d every rows st w v k i : wf_tree t d = true -> rebuild t every (nn t) 0 rows st = Some (w, v) ->
  (every = true \/ k = 0) -> i < nn t -> leaf_node t i = false ->
  let wv j := match v j k with Some m => (Qn (w j) * m)%Q | None => 0%Q end in
  w i = w (Z.to_nat (clz t i)) + w (Z.to_nat (crz t i)) /\ (wv i == wv (Z.to_nat (clz t i)) + wv (Z.to_nat (crz t i)))%Q.
Proof.
  intros Hwf E Hk Hi Hl wv. destruct (rebuild_spec t d every rows st Hwf) as [w' [v' [E' [H _]]]].
  rewrite E in E'. injection E' as <- <-. change (is_leaf t i = false) in Hl.
  destruct (wf_internal t d Hwf i Hi Hl) as [H1 [H2 [H3 _]]].
  assert (Hat : forall j, j < nn t -> w j = length (at_node t rows j) /\ (wv j == sumf (fun r => snd r k) (at_node t rows j))%Q).
  { intros j Hj. destruct (H j Hj) as [l [Hl' [Hw Hm]]]. apply (rows_at_unique t d Hwf) in Hl'. subst l. split; [exact Hw|].
    specialize (Hm k Hk). unfold wv. unfold mean_is in Hm. destruct (v j k) as [m|].
    - destruct Hm as [_ Hm]. rewrite map_length, sumf_map in Hm. rewrite Hw, Qmult_comm. exact Hm.
    - apply map_eq_nil in Hm. rewrite Hm. reflexivity. }
  destruct (Hat i Hi) as [A1 A2]. destruct (Hat (Z.to_nat (clz t i)) ltac:(lia)) as [B1 B2]. destruct (Hat (Z.to_nat (crz t i)) ltac:(lia)) as [C1 C2].
  rewrite A1, B1, C1, A2, B2, C2. rewrite <- (at_left t d Hwf rows i Hi Hl), <- (at_right t d Hwf rows i Hi Hl).
  generalize (at_node t rows i) as l. intro l. clear. split.
  - induction l as [|r l IH]; [reflexivity|]. cbn [filter].
    destruct (qleb_spec (fst r (ftn t i)) (thq t i)) as [A|A], (qltb_spec (thq t i) (fst r (ftn t i))) as [B|B]; cbn [length]; try lia; exfalso; lra.
  - induction l as [|r l IH]; [cbn; lra|]. cbn [filter].
    destruct (qleb_spec (fst r (ftn t i)) (thq t i)) as [A|A], (qltb_spec (thq t i) (fst r (ftn t i))) as [B|B]; rewrite ?sumf_cons; try lra; exfalso; lra.
Qed.

(** ** The rectangle collected upwards *)
Lemma final_upd part f a g : part f <> [] -> final_partition (upd part f (part f ++ [a])) g = narrow (final_partition part) f (fst a) (snd a) g.
Proof.
  intro H. unfold final_partition, narrow. destruct (Nat.eq_dec g f) as [->|Ne].
  - rewrite !upd_same. destruct (part f) as [|b r]; [contradiction|]. cbn [app]. rewrite !map_app, !fold_left_app. reflexivity.
  - rewrite !upd_other by exact Ne. reflexivity.
Qed.
Lemma narrow_ext p q f lo hi : (forall g, p g = q g) -> forall g, narrow p f lo hi g = narrow q f lo hi g.
Proof. intros H g. unfold narrow. destruct (Nat.eq_dec g f) as [->|Ne]; [rewrite !upd_same|rewrite !upd_other by exact Ne]; now rewrite ?H. Qed.
Lemma partition_sim t f : forall i part p nid, (forall g, part g <> []) -> (forall g, final_partition part g = p g) ->
  match get_partition_tree f t i part, get_partition f t i p nid with
  | Some q, Some (r, _) => forall g, final_partition q g = r g
  | None, None => True
  | _, _ => False
  end.
Proof.
  induction f as [|f IH]; intros i part p nid Hne Hp; [exact I|]. cbn [get_partition_tree get_partition].
  assert (Hne' : forall a l g, upd part a (part a ++ [l]) g <> []).
  { intros a l g. destruct (Nat.eq_dec g a) as [->|Ne]; [rewrite upd_same; now destruct (part a)|rewrite upd_other by exact Ne; apply Hne]. }
  assert (Hp' : forall a l g, final_partition (upd part a (part a ++ [l])) g = narrow p a (fst l) (snd l) g).
  { intros a l g. rewrite final_upd by apply Hne. now apply narrow_ext. }
  destruct (where_eq (cr t) i) as [|r rs].
  - destruct (where_eq (cl t) i) as [|l ls]; [exact Hp|]. apply IH; [apply Hne'|apply (Hp' _ (NInf, Fin (thq t l)))].
  - apply IH; [apply Hne'|apply (Hp' _ (Fin (thq t r), PInf))].
Qed.
Theorem partition_spec t d i : wf_tree t d = true -> i < nn t ->
  exists q, get_partition_tree (nn t) t i parts0 = Some q /\
    (forall lf, leaf_of t i = Some lf -> forall g, final_partition q g = l_rect lf g) /\
    (forall x, inside_on (seq 0 d) (final_partition q) x <-> visits t x no_missing i).
Proof.
  intros Hwf Hi. pose proof (partition_sim t (nn t) i parts0 whole [] ltac:(discriminate) ltac:(reflexivity)) as H.
  destruct (get_partition_leaf t d Hwf (fun _ => 0%Q) i Hi) as [p [nid [E _]]]. rewrite E in H.
  destruct (get_partition_tree (nn t) t i parts0) as [q|]; [|contradiction]. exists q. split; [reflexivity|]. split.
  - intros lf Hlf. unfold leaf_of in Hlf. rewrite E in Hlf. injection Hlf as <-. exact H.
  - intro x. destruct (get_partition_leaf t d Hwf x i Hi) as [p' [nid' [E' Hx]]]. rewrite E in E'. injection E' as <- <-.
    rewrite <- Hx, in_rect_Inside. unfold inside_on, Inside. split; intros G s Hs; [rewrite <- H|rewrite H]; apply G; [apply in_seq; lia|apply in_seq in Hs; lia].
Qed.

Lemma closed_open Sv p x : off_lower Sv p x ->
  forallb (fun s => q_leb_ext (x s) (snd (p s)) && ext_leb_q (fst (p s)) (x s)) Sv = true <-> inside_on Sv p x.
Proof.
  intro Ho. rewrite forallb_forall. unfold inside_on. split; intros H s Hs; specialize (H s Hs).
  - apply andb_true_iff in H. destruct H as [A B]. specialize (Ho s). split.
    + destruct (fst (p s)) as [|a|]; cbn in *; [exact I| |discriminate]. apply qleb_true in B. specialize (Ho a Hs eq_refl). lra.
    + destruct (snd (p s)) as [|a|]; cbn in *; [discriminate| |exact I]. now apply qleb_true.
  - destruct H as [A B]. apply andb_true_iff. split.
    + destruct (snd (p s)) as [|a|]; cbn in *; [contradiction| |reflexivity]. now apply qleb_true.
    + destruct (fst (p s)) as [|a|]; cbn in *; [reflexivity| |contradiction]. apply qleb_true. lra.
Qed.
Lemma nb_row_spec x p Sv : nb_row x p Sv = true <-> inside_on Sv p x.
Proof.
  unfold nb_row. rewrite forallb_forall. unfold inside_on. split; intros H s Hs; specialize (H s Hs).
  - apply andb_true_iff in H. destruct H as [A B]. split.
    + destruct (fst (p s)) as [|a|]; cbn in *; [exact I| |discriminate]. now apply qltb_true.
    + destruct (snd (p s)) as [|a|]; cbn in *; [discriminate| |exact I]. now apply qleb_true.
  - destruct H as [A B]. apply andb_true_iff. split.
    + destruct (snd (p s)) as [|a|]; cbn in *; [contradiction| |reflexivity]. now apply qleb_true.
    + destruct (fst (p s)) as [|a|]; cbn in *; [reflexivity| |contradiction]. now apply qltb_true.
Qed.

(** rows off the lower bounds: the number of rows of the leaf on the columns *)
Theorem proba_spec t d i lf data Sv : wf_tree t d = true -> i < nn t -> leaf_of t i = Some lf -> Sv <> [] ->
  (forall x, In x data -> off_lower Sv (l_rect lf) x) ->
  exists e : pt -> bool, (forall x, e x = true <-> inside_on Sv (l_rect lf) x) /\ leaves_proba t i data Sv = Some (length (filter e data)).
Proof.
  intros Hwf Hi Hlf HS Hoff. destruct (partition_spec t d i Hwf Hi) as [q [E [Hq _]]]. specialize (Hq lf Hlf).
  exists (fun x => nb_row x (l_rect lf) Sv). split; [intro x; apply nb_row_spec|]. unfold leaves_proba. rewrite E.
  destruct Sv as [|s S'] eqn:ES; [contradiction|]. rewrite <- ES in *. clear ES s S'. f_equal. f_equal. apply filter_ext_in. intros x Hx.
  apply eq_true_iff_eq. rewrite nb_row_spec, <- (closed_open Sv (l_rect lf) x (Hoff x Hx)).
  rewrite !forallb_forall. split; intros G s Hs; specialize (G s Hs); rewrite Hq in *; exact G.
Qed.
(** all the columns: the weight of the rebuilt leaf *)
Theorem proba_weight t d i lf every rows st w v : wf_tree t d = true -> 0 < d -> i < nn t -> leaf_of t i = Some lf ->
  (forall r, In r rows -> off_lower (seq 0 d) (l_rect lf) (fst r)) -> rebuild t every (nn t) 0 rows st = Some (w, v) ->
  leaves_proba t i (map fst rows) (seq 0 d) = Some (w i).
Proof.
  intros Hwf Hd Hi Hlf Hoff E. assert (HS : seq 0 d <> []) by (destruct d; [lia|discriminate]).
  destruct (proba_spec t d i lf (map fst rows) (seq 0 d) Hwf Hi Hlf HS) as [e [He ->]].
  { intros x Hx. apply in_map_iff in Hx. destruct Hx as [r [<- Hr]]. now apply Hoff. }
  destruct (rebuild_spec t d every rows st Hwf) as [w' [v' [E' [H _]]]]. rewrite E in E'. injection E' as <- <-.
  destruct (H i Hi) as [l [[e' [He' ->]] [-> _]]]. f_equal.
  destruct (partition_spec t d i Hwf Hi) as [q [_ [Hq Hv]]]. specialize (Hq lf Hlf).
  assert (Hee : forall r : obs, e (fst r) = e' r).
  { intro r. apply eq_true_iff_eq. rewrite He, He', <- Hv. unfold inside_on. split; intros G s Hs; specialize (G s Hs); rewrite Hq in *; exact G. }
  clear -Hee. induction rows as [|r rows IH]; [reflexivity|]. cbn [map filter]. rewrite Hee. destruct (e' r); cbn [length]; now rewrite IH.
Qed.

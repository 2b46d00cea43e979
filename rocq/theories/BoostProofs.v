(** Proofs for C101. *)
From Coq Require Import List Arith Reals Lia Lra.
From Verif Require Import BoostModel BoostSpec.
Import ListNotations.

Lemma blocks : forall A B (f : A -> list B) k d l b j, (forall x, In x l -> length (f x) = k) ->
  b < length l -> j < k -> nth_error (flat_map f l) (b * k + j) = nth_error (f (nth b l d)) j.
Proof.
  intros A B f k d l. induction l as [|x l IH]; intros b j Hk Hb Hj; [cbn in Hb; lia|].
  cbn [flat_map]. destruct b as [|b].
  - cbn. rewrite nth_error_app1; [reflexivity|]. rewrite Hk; [exact Hj|left; reflexivity].
  - cbn [length] in Hb. rewrite nth_error_app2; rewrite (Hk x) by (left; reflexivity); [|lia].
    replace (S b * k + j - k) with (b * k + j) by lia. cbn [nth]. apply IH; [|lia|exact Hj].
    intros y Hy. apply Hk. right. exact Hy.
Qed.

Lemma blocks_length : forall A B (f : A -> list B) k l, (forall x, In x l -> length (f x) = k) ->
  length (flat_map f l) = length l * k.
Proof.
  intros A B f k l Hk. induction l as [|x l IH]; [reflexivity|]. cbn [flat_map length].
  rewrite app_length, IH by (intros y Hy; apply Hk; right; exact Hy).
  rewrite (Hk x) by (left; reflexivity). cbn. lia.
Qed.

Lemma nodes_le : forall ts t, In t ts -> length t <= max_nodes ts.
Proof.
  intros ts t H. unfold max_nodes. induction ts as [|a ts IH]; [destruct H|]. cbn [map fold_right].
  destruct H as [<-|H]; [lia|]. specialize (IH H). lia.
Qed.

Lemma binary_block : forall T m t, length t <= m ->
  length (flat_map (binary_row T) t ++ repeat 0%R (2 * (m - length t))) = m * 2.
Proof.
  intros T m t H. rewrite app_length, repeat_length.
  rewrite (blocks_length _ _ _ 2) by reflexivity. lia.
Qed.

Lemma raw_block : forall m (t : list R), length t <= m -> length (t ++ repeat 0%R (m - length t)) = m.
Proof. intros m t H. rewrite app_length, repeat_length. lia. Qed.

Lemma nth_repeat_in : forall (k i : nat), i < k -> nth_error (repeat 0%R k) i = Some 0%R.
Proof. induction k as [|k IH]; intros [|i] H; try lia; [reflexivity|]. cbn. apply IH. lia. Qed.

(** the entries of the table of probabilities *)
Lemma binary_entry : forall ts b n c, b < length ts -> n < length (nth b ts []) -> c < 2 ->
  read (max_nodes ts) 2 (values_binary ts) b n c =
  Some (((if c =? 0 then 1 - logistic (nth n (nth b ts []) 0) else logistic (nth n (nth b ts []) 0)) / INR (length ts))%R).
Proof.
  intros ts b n c Hb Hn Hc. set (t := nth b ts []) in *.
  assert (Ht : In t ts) by (apply nth_In; exact Hb). pose proof (nodes_le ts t Ht) as Hm.
  unfold read, values_binary.
  replace ((b * max_nodes ts + n) * 2 + c) with (b * (max_nodes ts * 2) + (n * 2 + c)) by lia.
  rewrite (blocks _ _ _ (max_nodes ts * 2) []); [|intros x Hx; apply binary_block, nodes_le; exact Hx|exact Hb|lia].
  fold t. rewrite nth_error_app1 by (rewrite (blocks_length _ _ _ 2) by reflexivity; lia).
  rewrite (blocks _ _ _ 2 0%R) by (reflexivity || lia).
  destruct c as [|[|c]]; [reflexivity|reflexivity|lia].
Qed.

Lemma binary_padding : forall ts b n c, b < length ts -> length (nth b ts []) <= n -> n < max_nodes ts -> c < 2 ->
  read (max_nodes ts) 2 (values_binary ts) b n c = Some 0%R.
Proof.
  intros ts b n c Hb Hn Hx Hc. set (t := nth b ts []) in *.
  assert (Ht : In t ts) by (apply nth_In; exact Hb).
  unfold read, values_binary.
  replace ((b * max_nodes ts + n) * 2 + c) with (b * (max_nodes ts * 2) + (n * 2 + c)) by lia.
  rewrite (blocks _ _ _ (max_nodes ts * 2) []); [|intros x Hi; apply binary_block, nodes_le; exact Hi|exact Hb|lia].
  fold t. rewrite nth_error_app2; rewrite (blocks_length _ _ _ 2) by reflexivity; [|lia].
  apply nth_repeat_in. lia.
Qed.

Lemma raw_entry : forall ts b n, b < length ts -> n < length (nth b ts []) ->
  nth_error (values_raw ts) (b * max_nodes ts + n) = Some (nth n (nth b ts []) 0%R).
Proof.
  intros ts b n Hb Hn. set (t := nth b ts []) in *.
  assert (Ht : In t ts) by (apply nth_In; exact Hb). pose proof (nodes_le ts t Ht) as Hm.
  unfold values_raw.
  rewrite (blocks _ _ _ (max_nodes ts) []); [|intros x Hx; apply raw_block, nodes_le; exact Hx|exact Hb|lia].
  fold t. rewrite nth_error_app1 by lia. apply nth_error_nth'. exact Hn.
Qed.

Lemma raw_padding : forall ts b n, b < length ts -> length (nth b ts []) <= n -> n < max_nodes ts ->
  nth_error (values_raw ts) (b * max_nodes ts + n) = Some 0%R.
Proof.
  intros ts b n Hb Hn Hx. set (t := nth b ts []) in *.
  unfold values_raw.
  rewrite (blocks _ _ _ (max_nodes ts) []); [|intros x Hi; apply raw_block, nodes_le; exact Hi|exact Hb|lia].
  fold t. rewrite nth_error_app2 by lia. apply nth_repeat_in. lia.
Qed.

(** the logistic function *)
Lemma logistic_range : forall v, (0 < logistic v < 1)%R.
Proof.
  intros v. unfold logistic. pose proof (exp_pos (- v)) as H. split.
  - apply Rdiv_lt_0_compat; lra.
  - apply (Rmult_lt_reg_r (1 + exp (- v))); [lra|]. unfold Rdiv. rewrite Rmult_assoc, Rinv_l by lra. lra.
Qed.

Lemma logistic_opp : forall v, (logistic (- v) = 1 - logistic v)%R.
Proof.
  intros v. unfold logistic. rewrite Ropp_involutive. pose proof (exp_pos v) as H. pose proof (exp_pos (- v)) as G.
  assert (E : (exp v * exp (- v) = 1)%R) by (rewrite <- exp_plus, Rplus_opp_r; apply exp_0).
  apply (Rmult_eq_reg_r ((1 + exp v) * (1 + exp (- v)))).
  - field_simplify; [|lra|lra]. nra.
  - apply Rgt_not_eq, Rmult_lt_0_compat; lra.
Qed.

Lemma logistic_lt : forall v w, (v < w)%R -> (logistic v < logistic w)%R.
Proof.
  intros v w H. unfold logistic. pose proof (exp_increasing (- w) (- v) ltac:(lra)) as E.
  pose proof (exp_pos (- v)). pose proof (exp_pos (- w)). unfold Rdiv. rewrite !Rmult_1_l.
  apply Rinv_lt_contravar; [apply Rmult_lt_0_compat; lra|lra].
Qed.

Lemma logistic_0 : (logistic 0 = 1 / 2)%R.
Proof. unfold logistic. rewrite Ropp_0, exp_0. reflexivity. Qed.

Lemma logistic_half : forall v, (1 / 2 < logistic v <-> 0 < v)%R.
Proof.
  intros v. split; intros H.
  - destruct (Rle_or_lt v 0) as [[G|G]|G]; [|subst v; rewrite logistic_0 in H; lra|exact G].
    apply logistic_lt in G. rewrite logistic_0 in G. lra.
  - apply logistic_lt in H. rewrite logistic_0 in H. exact H.
Qed.

(** odds give the raw value back *)
Lemma logistic_odds : forall v, (ln (logistic v / (1 - logistic v)) = v)%R.
Proof.
  intros v. rewrite <- logistic_opp. unfold logistic. rewrite Ropp_involutive.
  pose proof (exp_pos v) as H. pose proof (exp_pos (- v)) as G.
  assert (E : (exp v * exp (- v) = 1)%R) by (rewrite <- exp_plus, Rplus_opp_r; apply exp_0).
  replace (1 / (1 + exp (- v)) / (1 / (1 + exp v)))%R with (exp v); [apply ln_exp|].
  apply (Rmult_eq_reg_r (1 + exp (- v))); [|lra]. field_simplify; [nra|lra].
Qed.

(** the scores of a choice of nodes *)
Lemma scores : forall ts r ls c, takes_binary true 1 r = true -> one_per_tree ts ls -> c < 2 ->
  total_lookup (looks_up ts r) c (seq 0 (length ts)) (fun b => nth b ls 0) =
  Some (total (map (fun v => ((if c =? 0 then 1 - logistic v else logistic v) / INR (length ts))%R) (reached ts ls))).
Proof.
  intros ts r ls c Hr [Hl Hn] Hc. unfold reached.
  assert (G : forall bs, (forall b, In b bs -> b < length ts) ->
    total_lookup (looks_up ts r) c bs (fun b => nth b ls 0) =
    Some (total (map (fun v => ((if c =? 0 then 1 - logistic v else logistic v) / INR (length ts))%R)
      (map (fun b => nth (nth b ls 0) (nth b ts []) 0%R) bs)))).
  { induction bs as [|b bs IH]; intros Hb; [reflexivity|]. cbn [total_lookup map total].
    rewrite IH by (intros x Hx; apply Hb; right; exact Hx).
    unfold looks_up. rewrite Hr, binary_entry; [reflexivity|apply Hb; left; reflexivity| |exact Hc].
    apply Hn, Hb. left. reflexivity. }
  apply G. intros b Hb. apply in_seq in Hb. lia.
Qed.

Lemma total_div : forall (f : R -> R) k l, (total (map (fun v => f v / k) l) = total (map f l) / k)%R.
Proof.
  intros f k l. induction l as [|v l IH]; cbn [map total]; [unfold Rdiv; ring|]. rewrite IH. unfold Rdiv. ring.
Qed.

Lemma total_compl : forall (f : R -> R) l, (total (map (fun v => 1 - f v) l) = INR (length l) - total (map f l))%R.
Proof.
  intros f l. induction l as [|v l IH]; [cbn; ring|]. cbn [map total]. rewrite IH. cbn [length].
  rewrite S_INR. ring.
Qed.

Lemma reached_length : forall ts ls, length (reached ts ls) = length ts.
Proof. intros. unfold reached. rewrite map_length, seq_length. reflexivity. Qed.

(** the two scores in terms of the sum of the logistic values *)
Lemma two_scores : forall ts r ls, takes_binary true 1 r = true -> one_per_tree ts ls -> ts <> [] ->
  let s := (total (map logistic (reached ts ls)) / INR (length ts))%R in
  total_lookup (looks_up ts r) 1 (seq 0 (length ts)) (fun b => nth b ls 0) = Some s /\
  total_lookup (looks_up ts r) 0 (seq 0 (length ts)) (fun b => nth b ls 0) = Some (1 - s)%R.
Proof.
  intros ts r ls Hr Hl Hts s.
  assert (HT : (0 < INR (length ts))%R) by (apply lt_0_INR; destruct ts; [congruence|cbn; lia]).
  split; rewrite (scores ts r ls) by (assumption || lia); cbn [Nat.eqb]; f_equal; unfold s.
  - apply total_div.
  - rewrite (total_div (fun v => 1 - logistic v)%R), total_compl, reached_length. field. lra.
Qed.

Lemma total_pos : forall l, l <> [] -> (0 < total (map logistic l) < INR (length l))%R.
Proof.
  induction l as [|v l IH]; intros H; [congruence|]. clear H. cbn [map total length]. rewrite S_INR.
  pose proof (logistic_range v). destruct l as [|w l]; [cbn; lra|]. specialize (IH ltac:(congruence)). lra.
Qed.

Lemma distribution : forall ts r ls, takes_binary true 1 r = true -> one_per_tree ts ls -> ts <> [] ->
  exists p, total_lookup (looks_up ts r) 1 (seq 0 (length ts)) (fun b => nth b ls 0) = Some p /\
    total_lookup (looks_up ts r) 0 (seq 0 (length ts)) (fun b => nth b ls 0) = Some (1 - p)%R /\ (0 < p < 1)%R.
Proof.
  intros ts r ls Hr Hl Hts. destruct (two_scores ts r ls Hr Hl Hts) as [H1 H0].
  eexists. split; [exact H1|]. split; [exact H0|].
  pose proof (total_pos (reached ts ls)) as H. rewrite reached_length in H.
  assert (HT : (0 < INR (length ts))%R) by (apply lt_0_INR; destruct ts; [congruence|cbn; lia]).
  assert (Hne : reached ts ls <> []) by (intros E; apply (f_equal (@length R)) in E; rewrite reached_length in E;
    destruct ts; [congruence|discriminate]).
  specialize (H Hne). split.
  - apply Rdiv_lt_0_compat; lra.
  - apply (Rmult_lt_reg_r (INR (length ts))); [exact HT|]. unfold Rdiv. rewrite Rmult_assoc, Rinv_l by lra. lra.
Qed.

(** when the table decides for class 1 *)
Lemma table_says_1 : forall ts r ls s0 s1, takes_binary true 1 r = true -> one_per_tree ts ls -> ts <> [] ->
  total_lookup (looks_up ts r) 0 (seq 0 (length ts)) (fun b => nth b ls 0) = Some s0 ->
  total_lookup (looks_up ts r) 1 (seq 0 (length ts)) (fun b => nth b ls 0) = Some s1 ->
  (s0 < s1 <-> INR (length ts) / 2 < total (map logistic (reached ts ls)))%R.
Proof.
  intros ts r ls s0 s1 Hr Hl Hts E0 E1. destruct (two_scores ts r ls Hr Hl Hts) as [H1 H0].
  rewrite E0 in H0. rewrite E1 in H1. injection H0 as ->. injection H1 as ->.
  assert (HT : (0 < INR (length ts))%R) by (apply lt_0_INR; destruct ts; [congruence|cbn; lia]).
  set (t := total (map logistic (reached ts ls))). set (k := INR (length ts)) in *.
  assert (E : (t = t / k * k)%R) by (field; lra). set (q := (t / k)%R) in *. split; intros H; nra.
Qed.

Lemma same_sign : forall l, (forall v, In v l -> (0 < v)%R) -> l <> [] -> (INR (length l) / 2 < total (map logistic l))%R /\ (0 < total l)%R.
Proof.
  induction l as [|v l IH]; intros H Hn; [congruence|]. cbn [map total length]. rewrite S_INR.
  assert (Hv : (0 < v)%R) by (apply H; left; reflexivity).
  pose proof (proj2 (logistic_half v) Hv). destruct l as [|w l]; [cbn; lra|].
  destruct (IH ltac:(intros x Hx; apply H; right; exact Hx) ltac:(congruence)) as [A B]. cbn [length] in *. lra.
Qed.

Lemma same_sign_neg : forall l, (forall v, In v l -> (v <= 0)%R) -> (total (map logistic l) <= INR (length l) / 2)%R /\ (total l <= 0)%R.
Proof.
  induction l as [|v l IH]; intros H; [cbn; lra|]. cbn [map total length]. rewrite S_INR.
  assert (Hv : (v <= 0)%R) by (apply H; left; reflexivity).
  destruct (Rle_or_lt (logistic v) (1 / 2)) as [G|G]; [|apply logistic_half in G; lra].
  destruct (IH ltac:(intros x Hx; apply H; right; exact Hx)) as [A B]. lra.
Qed.

Lemma two_trees : forall v w, (1 < logistic v + logistic w <-> 0 < v + w)%R.
Proof.
  intros v w. pose proof (logistic_opp w) as E. split; intros H.
  - destruct (Rle_or_lt (v + w) 0) as [G|G]; [|exact G].
    destruct (Rle_lt_or_eq_dec v (- w) ltac:(lra)) as [L|L]; [apply logistic_lt in L; lra|subst v; lra].
  - pose proof (logistic_lt (- w) v ltac:(lra)). lra.
Qed.

(** decisions agree for one tree, for two trees, and when all leaves have the same sign *)
Lemma agrees : forall ts r ls offset s0 s1, takes_binary true 1 r = true -> one_per_tree ts ls -> ts <> [] ->
  (offset = 0%R /\ length ts <= 2) \/
  (0 <= offset /\ forall v, In v (reached ts ls) -> 0 < v)%R \/
  (offset <= 0 /\ forall v, In v (reached ts ls) -> v <= 0)%R ->
  total_lookup (looks_up ts r) 0 (seq 0 (length ts)) (fun b => nth b ls 0) = Some s0 ->
  total_lookup (looks_up ts r) 1 (seq 0 (length ts)) (fun b => nth b ls 0) = Some s1 ->
  ((s0 < s1)%R <-> model_says_1 offset (reached ts ls)).
Proof.
  intros ts r ls offset s0 s1 Hr Hl Hts Hcase E0 E1.
  rewrite (table_says_1 ts r ls s0 s1 Hr Hl Hts E0 E1). unfold model_says_1.
  pose proof (reached_length ts ls) as HL. rewrite <- HL. rewrite <- HL in Hcase.
  assert (Hne : reached ts ls <> []) by (intros E; rewrite E in HL; destruct ts; [congruence|discriminate]).
  set (l := reached ts ls) in *. clearbody l. destruct Hcase as [[Ho Hle]|[[Ho Hp]|[Ho Hp]]].
  - subst offset. destruct l as [|v [|w [|u l]]]; [congruence| | |cbn in Hle; lia].
    + cbn. rewrite Rplus_0_l, !Rplus_0_r. apply logistic_half.
    + cbn. rewrite Rplus_0_l, !Rplus_0_r. replace ((1 + 1) / 2)%R with 1%R by field. apply two_trees.
  - destruct (same_sign l Hp Hne). split; intros; lra.
  - destruct (same_sign_neg l Hp). split; intros; lra.
Qed.

(** from three trees on a forest without offset disagrees *)
Lemma logistic_small : (logistic (- 4) < 1 / 6)%R.
Proof.
  unfold logistic. replace (- (-4))%R with 4%R by lra.
  assert (E : (1 + 4 < exp 4)%R) by (apply exp_ineq1; lra).
  unfold Rdiv. rewrite !Rmult_1_l. apply Rinv_lt_contravar; lra.
Qed.

Definition outvoted (T : nat) : list (list R) := [(4 * INR (T - 1) + 1)%R] :: repeat [(- 4)%R] (T - 1).

Lemma outvoted_reached : forall T, 1 <= T ->
  reached (outvoted T) (repeat 0 T) = (4 * INR (T - 1) + 1)%R :: repeat (- 4)%R (T - 1).
Proof.
  intros T HT. unfold reached, outvoted. cbn [length]. rewrite repeat_length.
  assert (Z : forall b, nth b (repeat 0 T) 0 = 0) by (intros b; generalize T; induction b; intros [|k]; cbn; auto).
  cbn [seq map]. rewrite Z. cbn [nth]. f_equal. rewrite <- seq_shift, map_map.
  generalize (T - 1). intros k. induction k as [|k IH]; [reflexivity|]. cbn [seq map repeat]. rewrite Z. cbn [nth]. f_equal.
  rewrite <- seq_shift, map_map. rewrite <- IH. apply map_ext. intros b. rewrite !Z. reflexivity.
Qed.

Lemma outvoted_ok : forall T, 1 <= T -> one_per_tree (outvoted T) (repeat 0 T).
Proof.
  intros T HT. assert (Z : forall b, nth b (repeat 0 T) 0 = 0) by (intros b; generalize T; induction b; intros [|k]; cbn; auto).
  split; [unfold outvoted; cbn [length]; rewrite !repeat_length; lia|].
  intros b Hb. rewrite Z. unfold outvoted in *. destruct b as [|b]; [cbn; lia|]. cbn [nth]. cbn [length] in Hb.
  rewrite repeat_length in Hb. apply Nat.succ_lt_mono in Hb.
  revert Hb. generalize (T - 1). intros k. revert b. induction k as [|k IH]; intros [|b] Hb; cbn; try lia. apply IH. lia.
Qed.

Lemma outvoted_total : forall k, (total (repeat (- 4) k) = - 4 * INR k)%R.
Proof. induction k as [|k IH]; [cbn; ring|]. cbn [repeat total]. rewrite IH, S_INR. ring. Qed.

Lemma outvoted_logistic : forall k, (total (map logistic (repeat (- 4) k)) <= INR k / 6)%R.
Proof. induction k as [|k IH]; [cbn; lra|]. cbn [repeat map total]. rewrite S_INR. pose proof logistic_small. lra. Qed.

Lemma below_half : forall k q : R, (0 < k -> q * k < k / 2 -> q < 1 - q)%R.
Proof. intros k q Hk H. assert (q < / 2)%R; [|lra]. apply (Rmult_lt_reg_r k); lra. Qed.

Lemma outvoted_wrong : forall T r s0 s1, 3 <= T -> takes_binary true 1 r = true ->
  total_lookup (looks_up (outvoted T) r) 0 (seq 0 T) (fun b => nth b (repeat 0 T) 0) = Some s0 ->
  total_lookup (looks_up (outvoted T) r) 1 (seq 0 T) (fun b => nth b (repeat 0 T) 0) = Some s1 ->
  (s1 < s0)%R /\ model_says_1 0 (reached (outvoted T) (repeat 0 T)).
Proof.
  intros T r s0 s1 HT Hr E0 E1.
  assert (HL : length (outvoted T) = T) by (unfold outvoted; cbn [length]; rewrite repeat_length; lia).
  assert (Hne : outvoted T <> []) by discriminate.
  destruct (two_scores (outvoted T) r (repeat 0 T) Hr (outvoted_ok T ltac:(lia)) Hne) as [H1 H0].
  rewrite HL in H1, H0. rewrite E0 in H0. rewrite E1 in H1. rewrite outvoted_reached in H0, H1 by lia.
  injection H0 as ->. injection H1 as ->. rewrite outvoted_reached by lia. unfold model_says_1. cbn [map total]. rewrite outvoted_total.
  pose proof (outvoted_logistic (T - 1)) as Hs. pose proof (logistic_range (4 * INR (T - 1) + 1)) as Hr0.
  assert (HI : (INR (T - 1) = INR T - 1)%R) by (rewrite minus_INR by lia; reflexivity).
  assert (H3 : (3 <= INR T)%R) by (replace 3%R with (INR 3) by (cbn; ring); apply le_INR; exact HT).
  set (t := (logistic (4 * INR (T - 1) + 1) + total (map logistic (repeat (- 4) (T - 1))))%R) in *.
  split; [|lra]. assert (Ht : (t < INR T / 2)%R). { unfold t. lra. } clearbody t.
  assert (E : (t / INR T * INR T = t)%R) by (field; lra). apply (below_half (INR T)); [lra|rewrite E; exact Ht].
Qed.

(** the routines that always take the raw values *)
Lemma columns : forall outputs classes boosted r c, outputs = classes \/ (boosted = true /\ outputs = 1 /\ classes = 2) ->
  In r [Greedy; SearchSpace; SdpClf; SdpClfCat; Ptrees] -> c < classes -> c < width boosted outputs r.
Proof.
  intros outputs classes boosted r c H Hr Hc. unfold width.
  assert (E : takes_binary boosted outputs r = (boosted && (outputs =? 1))%bool)
    by (cbn in Hr; destruct Hr as [<-|[<-|[<-|[<-|[<-|[]]]]]]; reflexivity).
  rewrite E. destruct H as [<-|(-> & -> & ->)]; [|exact Hc].
  destruct boosted; cbn; [|exact Hc]. destruct (Nat.eqb_spec outputs 1); lia.
Qed.

Lemma raw_class_0 : forall ts r b n, takes_binary true 1 r = false -> b < length ts -> n < length (nth b ts []) ->
  looks_up ts r b n 0 = Some (nth n (nth b ts []) 0%R).
Proof.
  intros ts r b n Hr Hb Hn. unfold looks_up, read. rewrite Hr.
  replace ((b * max_nodes ts + n) * 1 + 0) with (b * max_nodes ts + n) by lia. apply raw_entry; assumption.
Qed.

Lemma raw_class_1 : forall ts r b n, takes_binary true 1 r = false -> b < length ts -> S n < max_nodes ts ->
  looks_up ts r b n 1 = Some (nth (S n) (nth b ts []) 0%R).
Proof.
  intros ts r b n Hr Hb Hn. unfold looks_up, read. rewrite Hr.
  replace ((b * max_nodes ts + n) * 1 + 1) with (b * max_nodes ts + S n) by lia.
  destruct (Nat.lt_ge_cases (S n) (length (nth b ts []))) as [H|H].
  - apply raw_entry; assumption.
  - rewrite raw_padding by assumption. rewrite nth_overflow by exact H. reflexivity.
Qed.

Lemma raw_class_1_next : forall ts r b n, takes_binary true 1 r = false -> S b < length ts -> S n = max_nodes ts ->
  nth (S b) ts [] <> [] -> looks_up ts r b n 1 = Some (nth 0 (nth (S b) ts []) 0%R).
Proof.
  intros ts r b n Hr Hb Hn Hne. unfold looks_up, read. rewrite Hr.
  replace ((b * max_nodes ts + n) * 1 + 1) with (S b * max_nodes ts + 0) by lia.
  apply raw_entry; [exact Hb|]. destruct (nth (S b) ts []); [congruence|cbn; lia].
Qed.

Lemma raw_class_1_end : forall ts r b n, takes_binary true 1 r = false -> S b = length ts -> S n = max_nodes ts ->
  looks_up ts r b n 1 = None.
Proof.
  intros ts r b n Hr Hb Hn. unfold looks_up, read. rewrite Hr. apply nth_error_None.
  unfold values_raw. rewrite (blocks_length _ _ _ (max_nodes ts)) by (intros x Hx; apply raw_block, nodes_le; exact Hx).
  rewrite <- Hb. lia.
Qed.

Lemma odds : forall ts r b n p0 p1, takes_binary true 1 r = true -> b < length ts -> n < length (nth b ts []) ->
  looks_up ts r b n 0 = Some p0 -> looks_up ts r b n 1 = Some p1 ->
  (0 < p0 /\ 0 < p1 /\ p0 + p1 = / INR (length ts) /\ ln (p1 / p0) = nth n (nth b ts []) 0)%R.
Proof.
  intros ts r b n p0 p1 Hr Hb Hn E0 E1. unfold looks_up in *. rewrite Hr in *.
  rewrite binary_entry in E0, E1 by (assumption || lia). cbn [Nat.eqb] in *. injection E0 as <-. injection E1 as <-.
  set (v := nth n (nth b ts []) 0%R). pose proof (logistic_range v) as G.
  assert (HT : (0 < INR (length ts))%R) by (apply lt_0_INR; lia).
  repeat split.
  - apply Rdiv_lt_0_compat; lra.
  - apply Rdiv_lt_0_compat; lra.
  - field. lra.
  - replace (logistic v / INR (length ts) / ((1 - logistic v) / INR (length ts)))%R with (logistic v / (1 - logistic v))%R
      by (field; lra). apply logistic_odds.
Qed.

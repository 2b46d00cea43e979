(** Proofs about marginal probabilities, local importances and clusters. *)
From Verif Require Import Base GameSpec GameProofs ShapSpec ShapProofs ShapModel SearchModel SearchProofs
  SwingModel SwingProofs LocalModel LocalSpec.

(** ** Marginal same-decision probability *)

Lemma mean_bool_some l : l <> [] -> exists q, mean_bool l = Some q /\
  (q == Qn (length (filter (fun b => b) l)) / Qn (length l))%Q.
Proof. destruct l; [congruence|]. intros _. eexists. split; reflexivity. Qed.
Lemma mean_bool_bounds l q : mean_bool l = Some q -> (0 <= q <= 1)%Q.
Proof.
  destruct l as [|b l]; [discriminate|]. intro E. injection E as <-.
  assert (0 < Qn (length (b :: l)))%Q by (apply Qn_pos; cbn; lia).
  split.
  - apply Qdiv_nonneg; [apply Qn_nonneg|trivial].
  - apply Qdiv_le_1; trivial; [apply Qn_nonneg|]. apply (proj1 (Qn_le _ _)). apply (filter_length_le (fun b : bool => b) (b :: l)).
Qed.
Lemma mean_bool_one l q : mean_bool l = Some q -> ((q == 1)%Q <-> forall b, In b l -> b = true).
Proof.
  destruct l as [|b0 l0]; [discriminate|]. set (l := b0 :: l0). intro E.
  assert (Hp : (0 < Qn (length l))%Q) by (apply Qn_pos; cbn; lia).
  assert (E1 : q = (Qn (length (filter (fun b => b) l)) / Qn (length l))%Q) by (injection E; intro K; now rewrite <- K).
  clear E. rewrite E1. clear E1 q.
  split.
  - intros E b Hb.
    assert (E' : (Qn (length (filter (fun b => b) l)) == Qn (length l))%Q).
    { transitivity ((Qn (length (filter (fun b => b) l)) / Qn (length l)) * Qn (length l))%Q.
      - field. lra.
      - rewrite E. ring. }
    apply Qn_inj in E'. apply Nat.eqb_eq in E'. rewrite filter_all_length in E'.
    rewrite forallb_forall in E'. now apply E'.
  - intro H. assert (E' : (length (filter (fun b => b) l) =? length l) = true).
    { rewrite filter_all_length. apply forallb_forall. exact H. }
    apply Nat.eqb_eq in E'. rewrite E'. field. lra.
Qed.

Lemma filter_map_length {A} (f : A -> bool) l : length (filter (fun b : bool => b) (map f l)) = length (filter f l).
Proof. induction l as [|a l IH]; [reflexivity|]. cbn [map filter]. destruct (f a); cbn [length]; now rewrite IH. Qed.

Section Msdp.
Context {Y : Type}.
Variable predict : pt -> Y.
Variable same : Y -> Y -> bool.
Variable d : nat.

Theorem msdp_bounds S rows x q : single_msdp_with predict same d S rows x = Some q -> (0 <= q <= 1)%Q.
Proof using.
  unfold single_msdp_with. destruct (length S =? d).
  - intro E. injection E as <-. lra.
  - apply mean_bool_bounds.
Qed.
Theorem msdp_defined S rows x : rows <> [] -> exists q, single_msdp_with predict same d S rows x = Some q.
Proof using.
  intro H. unfold single_msdp_with. destruct (length S =? d); [eauto|].
  destruct rows; [congruence|]. cbn. eauto.
Qed.
Theorem msdp_share S rows x q : length S <> d -> single_msdp_with predict same d S rows x = Some q ->
  (q == Qn (length (filter (fun z => same (predict (fixed S x z)) (predict x)) rows)) / Qn (length rows))%Q.
Proof using.
  intros HS. unfold single_msdp_with. apply Nat.eqb_neq in HS. rewrite HS.
  intro E. destruct rows as [|z rows]; [discriminate|].
  destruct (mean_bool_some (map (fun z => same (predict (fixed S x z)) (predict x)) (z :: rows))) as [r [Er Hr]]; [discriminate|].
  rewrite Er in E. injection E as <-. rewrite Hr, map_length.
  assert (EL : length (filter (fun b : bool => b) (map (fun z0 => same (predict (fixed S x z0)) (predict x)) (z :: rows)))
    = length (filter (fun z0 => same (predict (fixed S x z0)) (predict x)) (z :: rows))).
  { apply filter_map_length. }
  now rewrite EL.
Qed.

(** the model reads the first [d] columns *)
Definition reads : Prop := forall z z' : pt, (forall i, i < d -> z i = z' i) -> predict z = predict z'.

Theorem msdp_all_fixed S rows x q : reads -> (forall y, same y y = true) -> (forall i, i < d -> In i S) ->
  single_msdp_with predict same d S rows x = Some q -> (q == 1)%Q.
Proof using.
  intros HR Hs HS. unfold single_msdp_with. destruct (length S =? d).
  - intro E. injection E as <-. reflexivity.
  - intro E. apply (mean_bool_one _ _ E). intros b Hb. apply in_map_iff in Hb. destruct Hb as [z [<- _]].
    rewrite (HR (fixed S x z) x); [apply Hs|]. intros i Hi. unfold fixed.
    destruct (memb_spec i S) as [_|Hn]; [reflexivity|]. exfalso. apply Hn. now apply HS.
Qed.
Theorem msdp_none_fixed rows x q : 0 < d -> reads -> single_msdp_with predict same d [] rows x = Some q ->
  (q == Qn (length (filter (fun z => same (predict z) (predict x)) rows)) / Qn (length rows))%Q.
Proof using.
  intros Hd HR E. assert (Hl : length (@nil nat) <> d) by (cbn; lia). rewrite (msdp_share [] rows x q Hl E).
  rewrite (filter_ext (fun z => same (predict (fixed [] x z)) (predict x)) (fun z => same (predict z) (predict x))).
  - reflexivity.
  - intro z. now rewrite (HR (fixed [] x z) z) by reflexivity.
Qed.
(** the result depends on the set of fixed variables only (both lists shorter or both as long as the row) *)
Theorem msdp_set S S' rows x : reads -> (forall i, i < d -> (In i S <-> In i S')) ->
  (length S =? d) = (length S' =? d) ->
  single_msdp_with predict same d S rows x = single_msdp_with predict same d S' rows x.
Proof using.
  intros HR HS HL. unfold single_msdp_with. rewrite HL. destruct (length S' =? d); [reflexivity|].
  f_equal. apply map_ext. intro z. rewrite (HR (fixed S x z) (fixed S' x z)); [reflexivity|].
  intros i Hi. unfold fixed. destruct (memb_spec i S) as [H|H], (memb_spec i S') as [H'|H']; trivial; exfalso;
    apply HS in Hi; tauto.
Qed.
End Msdp.

Lemma close_refl thr y : (0 <= thr)%Q -> close thr y y = true.
Proof.
  intro H. unfold close. apply qleb_true. destruct (qltb_spec (y - y) 0); lra.
Qed.
Lemma close_mono thr thr' a b : (thr <= thr')%Q -> close thr a b = true -> close thr' a b = true.
Proof. intros H. unfold close. rewrite !qleb_true. intro K. lra. Qed.
Lemma close_abs thr a b : close thr a b = true <-> (a - b <= thr /\ b - a <= thr)%Q.
Proof. unfold close. rewrite qleb_true. destruct (qltb_spec (a - b) 0); split; intros; lra. Qed.

Theorem msdp_reg_mono predict thr thr' d S rows x q q' : (thr <= thr')%Q ->
  single_msdp_reg predict thr d S rows x = Some q -> single_msdp_reg predict thr' d S rows x = Some q' -> (q <= q')%Q.
Proof.
  intros H E E'. unfold single_msdp_reg in *. destruct (Nat.eq_dec (length S) d) as [Hd|Hd].
  - unfold single_msdp_with in *. rewrite (proj2 (Nat.eqb_eq _ _) Hd) in *. injection E as <-. injection E' as <-. lra.
  - rewrite (msdp_share _ _ _ _ _ _ _ Hd E), (msdp_share _ _ _ _ _ _ _ Hd E').
    assert (Hr : rows <> []).
    { intros ->. unfold single_msdp_with in E. apply Nat.eqb_neq in Hd. rewrite Hd in E. discriminate. }
    assert (0 < Qn (length rows))%Q by (apply Qn_pos; destruct rows; [congruence|cbn; lia]).
    apply Qmult_le_compat_r; [|apply Qlt_le_weak; now apply Qinv_lt_0_compat].
    apply (proj1 (Qn_le _ _)). clear -H. induction rows as [|z rows IH]; [reflexivity|]. cbn [filter].
    destruct (close thr _ _) eqn:E1.
    + rewrite (close_mono thr thr' _ _ H E1). cbn [length]. lia.
    + destruct (close thr' _ _); cbn [length]; lia.
Qed.

(** ** Local explanatory importance *)

Lemma count_concat j (coals : list (list nat)) : (forall c, In c coals -> NoDup c) ->
  count_occ Nat.eq_dec (concat coals) j = length (filter (fun c => memb j c) coals).
Proof.
  induction coals as [|c coals IH]; intro H; [reflexivity|]. cbn [concat filter].
  rewrite count_occ_app, IH by (intros; apply H; now right).
  pose proof (H c (or_introl eq_refl)) as Hc. destruct (memb_spec j c) as [Hj|Hj].
  - rewrite (NoDup_count_occ' Nat.eq_dec) in Hc. rewrite (Hc j Hj). reflexivity.
  - apply (count_occ_not_In Nat.eq_dec) in Hj. rewrite Hj. reflexivity.
Qed.

Definition explanations_ok (d : nat) (coals : list (list nat)) : Prop :=
  forall c, In c coals -> NoDup c /\ forall k, In k c -> k < d.

Lemma local_one d coals : explanations_ok d coals -> exists f, compute_local_sdp_one d coals = Some f /\
  forall j, (f j == share_with j coals)%Q.
Proof.
  intro H. unfold compute_local_sdp_one.
  assert (E : forallb (fun k => k <? d) (concat coals) = true).
  { apply forallb_forall. intros k Hk. apply in_concat in Hk. destruct Hk as [c [Hc Hk]].
    apply Nat.ltb_lt. now apply (proj2 (H c Hc)). }
  rewrite E. eexists. split; [reflexivity|]. intro j. cbn beta. unfold share_with.
  rewrite count_concat by (intros c Hc; apply H; trivial).
  destruct (memb_spec j (concat coals)) as [Hj|Hj]; [reflexivity|].
  assert (E0 : filter (fun c => memb j c) coals = []).
  { destruct (filter _ coals) as [|c r] eqn:Ef; [reflexivity|]. exfalso.
    assert (Hc : In c (filter (fun c => memb j c) coals)) by (rewrite Ef; now left).
    apply filter_In in Hc. destruct Hc as [Hc Hm]. apply Hj. apply in_concat. exists c. split; [trivial|].
    now apply memb_true. }
  rewrite E0. cbn [length]. rewrite Qn_0. unfold Qdiv. ring.
Qed.

Lemma share_bounds j coals : coals <> [] -> (0 <= share_with j coals <= 1)%Q.
Proof.
  intro H. unfold share_with. assert (0 < Qn (length coals))%Q by (apply Qn_pos; destruct coals; [congruence|cbn; lia]).
  split; [apply Qdiv_nonneg; [apply Qn_nonneg|trivial]|]. apply Qdiv_le_1; trivial; [apply Qn_nonneg|]. apply (proj1 (Qn_le _ _)). apply filter_length_le.
Qed.
Lemma share_one j coals : coals <> [] -> ((share_with j coals == 1)%Q <-> forall c, In c coals -> In j c).
Proof.
  intro H. unfold share_with. assert (Hp : (0 < Qn (length coals))%Q) by (apply Qn_pos; destruct coals; [congruence|cbn; lia]).
  transitivity (length (filter (fun c => memb j c) coals) = length coals).
  - split; intro E.
    + apply Qn_inj. transitivity ((Qn (length (filter (fun c => memb j c) coals)) / Qn (length coals)) * Qn (length coals))%Q.
      * field. lra.
      * rewrite E. ring.
    + rewrite E. field. lra.
  - rewrite <- Nat.eqb_eq, filter_all_length, forallb_forall. split; intros K c Hc; apply memb_true; now apply K.
Qed.
Lemma share_zero j coals : coals <> [] -> ((share_with j coals == 0)%Q <-> forall c, In c coals -> ~ In j c).
Proof.
  intro H. unfold share_with. assert (Hp : (0 < Qn (length coals))%Q) by (apply Qn_pos; destruct coals; [congruence|cbn; lia]).
  transitivity (length (filter (fun c => memb j c) coals) = 0).
  - split; intro E.
    + apply Qn_inj. transitivity ((Qn (length (filter (fun c => memb j c) coals)) / Qn (length coals)) * Qn (length coals))%Q.
      * field. lra.
      * rewrite E, Qn_0. ring.
    + rewrite E, Qn_0. unfold Qdiv. ring.
  - rewrite <- Nat.eqb_eq, filter_none_length, forallb_forall. split; intros K c Hc.
    + apply K in Hc. now apply negb_true_iff, memb_false in Hc.
    + apply negb_true_iff, memb_false. now apply K.
Qed.

Definition answered (all : list (list (list nat))) : list (list (list nat)) :=
  filter (fun coals => negb (length coals =? 0)) all.

Lemma local_loop d all : (forall coals, In coals all -> explanations_ok d coals) -> forall nb acc,
  length all <= nb ->
  exists g, local_sdp_loop d all nb acc = Some (nb - (length all - length (answered all)), g) /\
    forall j, (g j == acc j + sumf (share_with j) (answered all))%Q.
Proof.
  induction all as [|coals all IH]; intros H nb acc Hnb.
  - exists acc. cbn [local_sdp_loop answered filter length]. split; [f_equal; f_equal; lia|].
    intro j. unfold answered. cbn [filter]. rewrite sumf_nil. ring.
  - cbn [local_sdp_loop]. cbn [length] in Hnb.
    assert (H' : forall coals, In coals all -> explanations_ok d coals) by (intros; apply H; now right).
    assert (HL : length (answered all) <= length all) by (unfold answered; apply filter_length_le).
    destruct (length coals =? 0) eqn:E0.
    + destruct (IH H' (nb - 1) acc ltac:(lia)) as [g [E Hg]]. exists g. rewrite E.
      unfold answered at 2 3. cbn [filter]. rewrite E0. cbn [negb]. fold (answered all). split; [|exact Hg].
      cbn [length]. f_equal. f_equal. lia.
    + destruct (local_one d coals (H coals (or_introl eq_refl))) as [f [Ef Hf]]. rewrite Ef.
      destruct (IH H' nb (fun j => acc j + f j)%Q ltac:(lia)) as [g [E Hg]]. exists g. rewrite E.
      unfold answered at 2 3. cbn [filter]. rewrite E0. cbn [negb]. fold (answered all). split.
      * cbn [length]. f_equal.
      * intro j. rewrite Hg, sumf_cons, Hf. ring.
Qed.

Theorem local_importance d all : (forall coals, In coals all -> explanations_ok d coals) ->
  (answered all = [] /\ compute_local_sdp d all = Some None) \/
  (answered all <> [] /\ exists f, compute_local_sdp d all = Some (Some f) /\
     forall j, (f j == sumf (share_with j) (answered all) / Qn (length (answered all)))%Q).
Proof.
  intro H. unfold compute_local_sdp.
  destruct (local_loop d all H (length all) (fun _ => 0%Q) (le_n _)) as [g [E Hg]]. rewrite E.
  assert (HL : length (answered all) <= length all) by (unfold answered; apply filter_length_le).
  replace (length all - (length all - length (answered all))) with (length (answered all)) by lia.
  destruct (answered all) as [|c r] eqn:Ea.
  - left. split; reflexivity.
  - right. split; [discriminate|]. cbn [length Nat.eqb]. eexists. split; [reflexivity|]. intro j. cbn beta.
    rewrite Hg. apply Qmult_comp; [ring|reflexivity].
Qed.

Lemma answered_nonempty all coals : In coals (answered all) -> coals <> [].
Proof. intro H. apply filter_In in H. destruct H as [_ H]. now destruct coals. Qed.

Lemma average_bounds {A} (f : A -> Q) l : l <> [] -> (forall a, In a l -> (0 <= f a <= 1)%Q) ->
  (0 <= sumf f l / Qn (length l) <= 1)%Q.
Proof.
  intros Hl H. assert (0 < Qn (length l))%Q by (apply Qn_pos; destruct l; [congruence|cbn; lia]). split.
  - apply Qdiv_nonneg; trivial. apply sumf_nonneg. intros a Ha. now apply H.
  - apply Qdiv_le_1; trivial; [apply sumf_nonneg; intros a Ha; now apply H|]. apply Qle_trans with (sumf (fun _ => 1%Q) l).
    + apply sumf_le. intros a Ha. now apply H.
    + rewrite sumf_const. lra.
Qed.
Lemma average_one {A} (f : A -> Q) l : l <> [] -> (forall a, In a l -> (0 <= f a <= 1)%Q) ->
  ((sumf f l / Qn (length l) == 1)%Q <-> forall a, In a l -> (f a == 1)%Q).
Proof.
  intros Hl H. assert (Hp : (0 < Qn (length l))%Q) by (apply Qn_pos; destruct l; [congruence|cbn; lia]). split.
  - intros E.
    assert (E' : (sumf (fun a => 1 - f a) l == 0)%Q).
    { rewrite sumf_minus, sumf_const.
      assert (sumf f l == Qn (length l))%Q as ->; [|ring].
      transitivity (sumf f l / Qn (length l) * Qn (length l))%Q; [field; lra|rewrite E; ring]. }
    intros a Ha.
    assert (1 - f a <= 0)%Q.
    { rewrite <- E'. apply (sumf_ge_term (fun a => 1 - f a)%Q); trivial. intros b Hb. specialize (H b Hb). lra. }
    specialize (H a Ha). lra.
  - intro K. rewrite (sumf_ext f (fun _ => 1%Q)) by trivial. rewrite sumf_const. field. lra.
Qed.

Theorem local_importance_range d all f j : (forall coals, In coals all -> explanations_ok d coals) ->
  compute_local_sdp d all = Some (Some f) ->
  (0 <= f j <= 1)%Q /\
  ((f j == 1)%Q <-> forall coals c, In coals all -> In c coals -> In j c).
Proof.
  intros H E. destruct (local_importance d all H) as [[_ E']|[Hne [g [E' Hg]]]]; rewrite E' in E; [discriminate|].
  injection E as <-. rewrite Hg.
  assert (HB : forall a, In a (answered all) -> (0 <= share_with j a <= 1)%Q).
  { intros a Ha. apply share_bounds. now apply answered_nonempty in Ha. }
  split; [now apply average_bounds|]. rewrite (average_one _ _ Hne HB). split.
  - intros K coals c Hc Hcc. assert (Ha : In coals (answered all)).
    { apply filter_In. split; [trivial|]. destruct coals; [contradiction|reflexivity]. }
    apply (proj1 (share_one j coals (answered_nonempty _ _ Ha)) (K coals Ha)). trivial.
  - intros K a Ha. apply share_one; [now apply answered_nonempty in Ha|]. intros c Hc.
    apply filter_In in Ha. now apply (K a).
Qed.

(** ** Clusters without coalitions *)

Definition one (i : nat) : item := (false, [i]).

Lemma chain_one T : chain_l (map one T) = Some T.
Proof. induction T as [|a T IH]; [reflexivity|]. cbn [map one chain_l andb]. fold (one a). now rewrite IH. Qed.
Lemma combos_map {A B} (f : A -> B) r l : combos r (map f l) = map (map f) (combos r l).
Proof.
  revert r. induction l as [|a l IH]; intros [|r]; try reflexivity. cbn [combos map].
  rewrite !IH, map_app, !map_map. reflexivity.
Qed.
Lemma combos_len {A} r (l T : list A) : In T (combos r l) -> length T = r.
Proof.
  revert r T. induction l as [|a l IH]; intros [|r] T H; cbn [combos] in H.
  - destruct H as [<-|[]]. reflexivity.
  - contradiction.
  - destruct H as [<-|[]]. reflexivity.
  - apply in_app_iff in H. destruct H as [H|H].
    + apply in_map_iff in H. destruct H as [T' [<- H]]. cbn [length]. f_equal. now apply IH.
    + now apply IH.
Qed.
Lemma combos_subs r (l T : list nat) : In T (combos r l) <-> In T (subs l) /\ length T = r.
Proof.
  revert r T. induction l as [|a l IH]; intros r T.
  - destruct r; cbn [combos subs In].
    + split; [intros [<-|[]]; auto|]. intros [[<-|[]] _]. auto.
    + split; [intros []|]. intros [[<-|[]] H]. discriminate.
  - cbn [subs]. rewrite in_app_iff. destruct r as [|r].
    + cbn [combos In]. split.
      * intros [<-|[]]. split; [left; apply subs_nil|reflexivity].
      * intros [_ H]. destruct T; [auto|discriminate].
    + cbn [combos]. rewrite in_app_iff, IH. split.
      * intros [H|[H E]]; [|tauto]. apply in_map_iff in H. destruct H as [T' [<- H]]. apply IH in H.
        destruct H as [H E]. split; [right; now apply in_map|cbn; congruence].
      * intros [[H|H] E]; [tauto|]. left. apply in_map_iff in H. destruct H as [T' [<- H]]. apply in_map, IH.
        split; [trivial|cbn in E; congruence].
Qed.
Lemma combos_full {A} (l : list A) : combos (length l) l = [l].
Proof.
  induction l as [|a l IH]; [reflexivity|]. cbn [length combos]. rewrite IH. cbn [map app].
  assert (E : forall r (m : list A), length m < r -> combos r m = []).
  { clear. intros r m. revert r. induction m as [|b m IH]; intros [|r] H; cbn in H; try lia; [reflexivity|].
    cbn [combos]. rewrite !IH by lia. reflexivity. }
  rewrite E by lia. reflexivity.
Qed.
Lemma combos_big {A} (m : list A) r : length m < r -> combos r m = [].
Proof.
  revert r. induction m as [|b m IH]; intros [|r] H; cbn in H; try lia; [reflexivity|].
  cbn [combos]. rewrite !IH by lia. reflexivity.
Qed.
Lemma combos_ne {A} (m : list A) r : r <= length m -> combos r m <> [].
Proof.
  revert r. induction m as [|b m IH]; intros [|r] H; cbn in H; try lia; try discriminate.
  cbn [combos]. intro E. apply app_eq_nil in E. destruct E as [E _]. apply map_eq_nil in E.
  now apply (IH r); [lia|].
Qed.
Lemma last_in {A} (l : list A) a : l <> [] -> In (last l a) l.
Proof.
  induction l as [|b l IH]; intro H; [congruence|]. destruct l as [|c l]; [now left|]. right. now apply IH.
Qed.

(** taking the members out of the list *)
Definition take_out (a : nat) : list nat -> list nat :=
  fix rem (i : list nat) : list nat := match i with [] => [] | b :: t => if b =? a then t else b :: rem t end.
Lemma remove_all_cons a r index : remove_all (a :: r) index =
  if memb a index then remove_all r (take_out a index) else None.
Proof. reflexivity. Qed.
Lemma take_out_perm a i : In a i -> Permutation i (a :: take_out a i).
Proof.
  induction i as [|b i IH]; intro H; [contradiction|]. change (take_out a (b :: i)) with (if b =? a then i else b :: take_out a i). destruct (Nat.eqb_spec b a) as [->|Hn]; [reflexivity|].
  destruct H as [->|H]; [congruence|]. rewrite (IH H) at 1. apply perm_swap.
Qed.
Lemma remove_all_perm S : forall index K, Permutation index (S ++ K) ->
  exists index', remove_all S index = Some index' /\ Permutation index' K.
Proof.
  induction S as [|a S IH]; intros index K H.
  - exists index. split; [reflexivity|exact H].
  - rewrite remove_all_cons. assert (Ha : In a index) by (apply (Permutation_in _ (Permutation_sym H)); now left).
    rewrite (proj2 (memb_true a index) Ha). apply IH. apply (Permutation_cons_inv (a := a)).
    now rewrite <- (take_out_perm a index Ha).
Qed.
Lemma subs_complement (l : list nat) S : In S (subs l) -> exists K, Permutation l (S ++ K).
Proof.
  revert S. induction l as [|a l IH]; intros S H; cbn [subs] in H.
  - destruct H as [<-|[]]. now exists [].
  - apply in_app_iff in H. destruct H as [H|H].
    + destruct (IH S H) as [K HK]. exists (a :: K). rewrite HK at 1. apply Permutation_middle.
    + apply in_map_iff in H. destruct H as [S' [<- H]]. destruct (IH S' H) as [K HK]. exists K.
      cbn [app]. now apply perm_skip.
Qed.

Section Plain.
Variable P : Q -> list nat -> Q.
Variables (proba decay : Q) (C : list (list nat)).
Hypothesis HC : has_coal C = false.
(** the rule followed by the code from one round to the next *)
Definition code_next : Q * Q -> Q * Q := fun tp : Q * Q => ((fst tp * decay)%Q, snd tp).

Lemma ls_size_inv thr cs : (forall T, In T cs -> T <> []) -> forall b,
  exists b', ls_size P proba thr b (map (map one) cs) = Some b' /\
  match b' with
  | None => b = None /\ forall T, In T cs -> (P thr T < proba)%Q
  | Some (v, W) =>
      (b = Some (v, W) \/ (In W cs /\ v = P thr W /\ (proba <= v)%Q)) /\
      (forall T, In T cs -> (proba <= P thr T)%Q -> (P thr T <= v)%Q) /\
      (forall v0 S0, b = Some (v0, S0) -> (v0 <= v)%Q)
  end.
Proof using.
  clear HC. induction cs as [|T cs IH]; intros Hne b.
  - exists b. split; [reflexivity|]. destruct b as [[v W]|].
    + split; [now left|]. split; [intros T []|]. intros v0 S0 E. injection E as <- <-. lra.
    + split; [reflexivity|]. intros T [].
  - assert (Hne' : forall T, In T cs -> T <> []) by (intros; apply Hne; now right).
    assert (HT : T <> []) by (apply Hne; now left).
    cbn [map ls_size]. unfold ls_candidate. destruct T as [|t0 T0]; [congruence|].
    cbn [map]. change (one t0 :: map one T0) with (map one (t0 :: T0)). rewrite chain_one. set (T := t0 :: T0) in *.
    cbn zeta. destruct (qleb_spec proba (P thr T)) as [Hp|Hp]; cbn [andb].
    + destruct b as [[v0 S0]|].
      * destruct (qleb_spec v0 (P thr T)) as [Hv|Hv].
        -- destruct (IH Hne' (Some (P thr T, T))) as [b' [E H]]. exists b'. split; [exact E|].
           destruct b' as [[v W]|]; [|destruct H; discriminate]. destruct H as [H1 [H2 H3]].
           pose proof (H3 _ _ eq_refl) as HP. split; [|split].
           ++ right. destruct H1 as [E1|[H1 [-> H1']]].
              ** injection E1 as <- <-. split; [now left|]. split; [reflexivity|trivial].
              ** split; [now right|]. now split.
           ++ intros U [<-|HU] Hu; [trivial|now apply H2].
           ++ intros v1 S1 E1. injection E1 as <- <-. lra.
        -- destruct (IH Hne' (Some (v0, S0))) as [b' [E H]]. exists b'. split; [exact E|].
           destruct b' as [[v W]|]; [|destruct H; discriminate]. destruct H as [H1 [H2 H3]].
           pose proof (H3 _ _ eq_refl) as HP. split; [|split].
           ++ destruct H1 as [E1|[H1 H1']]; [now left|]. right. split; [now right|trivial].
           ++ intros U [<-|HU] Hu; [lra|now apply H2].
           ++ exact H3.
      * destruct (IH Hne' (Some (P thr T, T))) as [b' [E H]]. exists b'. split; [exact E|].
        destruct b' as [[v W]|]; [|destruct H; discriminate]. destruct H as [H1 [H2 H3]].
        pose proof (H3 _ _ eq_refl) as HP. split; [|split].
        -- right. destruct H1 as [E1|[H1 [-> H1']]].
           ++ injection E1 as <- <-. split; [now left|]. split; [reflexivity|trivial].
           ++ split; [now right|]. now split.
        -- intros U [<-|HU] Hu; [trivial|now apply H2].
        -- discriminate.
    + destruct (IH Hne' b) as [b' [E H]]. exists b'. split; [exact E|].
      destruct b' as [[v W]|].
      * destruct H as [H1 [H2 H3]]. split; [|split].
        -- destruct H1 as [E1|[H1 H1']]; [now left|]. right. split; [now right|trivial].
        -- intros U [<-|HU] Hu; [lra|now apply H2].
        -- exact H3.
      * destruct H as [H1 H2]. split; [trivial|]. intros U [<-|HU]; [lra|now apply H2].
Qed.

(** the empty candidate, alone at size 0 *)
Lemma ls_size_zero thr index : ls_size P proba thr None (combos 0 (map one index)) = Some None.
Proof using. now rewrite combos_0. Qed.

Lemma ls_loop_plain thr index : index <> [] -> forall k n final,
  k + n = S (length index) -> 0 < n ->
  (forall T, In T (subs index) -> T <> [] -> length T < k -> (P thr T < proba)%Q) ->
  exists cl thr',
    ls_loop P proba decay (map one index) (seq k n) thr final false = Some (final ++ [cl], thr', true) /\
    ((cl = index /\ forall T, In T (subs index) -> T <> [] -> (P thr T < proba)%Q) \/
     (best_sufficient P thr proba index cl /\ thr' = (thr * decay)%Q)).
Proof using.
  clear HC. intros Hi k n. revert k. induction n as [|n IH]; intros k final Hk Hn Hsm; [lia|].
  cbn [seq ls_loop]. rewrite !combos_map, chain_one, map_length.
  assert (Hkl : k <= length index) by lia.
  assert (EB : exists b', ls_size P proba thr None (map (map one) (combos k index)) = Some b' /\
    match b' with
    | None => forall T, In T (subs index) -> T <> [] -> length T = k -> (P thr T < proba)%Q
    | Some (v, W) => best_sufficient P thr proba index W
    end).
  { destruct k as [|k].
    - exists None. rewrite combos_0. split; [reflexivity|]. intros T _ HT E. now destruct T.
    - destruct (ls_size_inv thr (combos (S k) index)) with (b := @None (Q * list nat)) as [b' [E H]].
      { intros T HT ->. apply combos_len in HT. discriminate. }
      exists b'. split; [exact E|]. destruct b' as [[v W]|].
      + destruct H as [[E1|[H1 [-> Hv]]] [H2 _]]; [discriminate|]. apply combos_subs in H1. destruct H1 as [H1 HL].
        split; [trivial|]. split; [now intros ->|]. split; [trivial|]. intros T HT HTn HTp.
        assert (~ length T < Datatypes.S k) by (intro Hl; specialize (Hsm T HT HTn Hl); lra).
        split; [lia|]. intro El. apply H2; [|trivial]. apply combos_subs. split; [trivial|congruence].
      + intros T HT _ HL. apply H. apply combos_subs. now split. }
  destruct EB as [b' [-> Hb]]. destruct b' as [[v W]|].
  - exists W, (thr * decay)%Q. split; [reflexivity|]. right. now split.
  - assert (HLa : last (map (map one) (combos k index)) [] = map one (last (combos k index) [])).
    { assert (K := combos_ne index k Hkl). clear -K. induction (combos k index) as [|a l IH]; [congruence|].
      destruct l as [|b l]; [reflexivity|]. cbn [map] in *. change (last (map one b :: map (map one) l) [] = map one (last (b :: l) [])).
      apply IH. discriminate. }
    rewrite HLa, chain_one.
    assert (HLn : length (last (combos k index) []) = k).
    { apply (combos_len k index). apply last_in. now apply combos_ne. }
    rewrite HLn. destruct (Nat.eqb_spec k (length index)) as [Ek|Ek].
    + assert (n = 0) by lia. subst n. cbn [seq ls_loop]. exists index, thr. split; [reflexivity|]. left.
      split; [reflexivity|]. intros T HT HTn. pose proof (subs_length _ _ HT).
      destruct (Nat.eq_dec (length T) k) as [E|E]; [now apply Hb|]. apply Hsm; trivial. lia.
    + apply IH; [lia|lia|]. intros T HT HTn HL.
      destruct (Nat.eq_dec (length T) k) as [E|E]; [now apply Hb|]. apply Hsm; trivial. lia.
Qed.

Theorem local_sdp_plain fuel : forall thr index final, length index < fuel ->
  exists l, local_sdp P proba decay C fuel thr index final = Some (final ++ l) /\
    clusters P code_next thr proba index l.
Proof using HC.
  induction fuel as [|fuel IH]; intros thr index final Hf; [lia|].
  cbn [local_sdp]. unfold ls_items. rewrite HC. change (map (fun i => (false, [i])) index) with (map one index).
  rewrite map_length. destruct (Nat.eqb_spec (length index) 0) as [E0|E0].
  { destruct index; [|discriminate]. exists []. rewrite app_nil_r. split; [reflexivity|constructor]. }
  assert (Hi : index <> []) by now intros ->.
  destruct (ls_loop_plain thr index Hi 0 (S (length index)) final) as [cl [thr' [-> Hcl]]]; [lia|lia|intros; lia|].
  rewrite last_last.
  assert (HK : exists K, Permutation index (cl ++ K)).
  { destruct Hcl as [[-> _]|[[H _] _]]; [exists []; now rewrite app_nil_r|]. now apply subs_complement. }
  destruct HK as [K HK]. destruct (remove_all_perm cl index K HK) as [index' [-> HK']].
  assert (Hne : cl <> []) by (destruct Hcl as [[-> _]|[[_ [H _]] _]]; trivial).
  assert (HL : length index' < fuel).
  { apply Permutation_length in HK, HK'. rewrite app_length in HK. destruct cl; [congruence|]. cbn in HK. lia. }
  destruct (IH thr' index' (final ++ [cl]) HL) as [l [E Hl]]. rewrite E, <- app_assoc. cbn [app].
  exists (cl :: l). split; [reflexivity|]. destruct Hcl as [[-> Hn]|[Hb ->]].
  - assert (index' = []).
    { apply Permutation_length in HK, HK'. rewrite app_length in HK. destruct index'; [reflexivity|]. cbn in HK'. lia. }
    subst index'. inversion Hl; subst; try congruence.
    + apply clusters_rest; trivial.
    + destruct H as [H [H' _]]. cbn in H. destruct H as [<-|[]]. congruence.
  - apply clusters_best with index'; trivial. now rewrite HK', <- HK.
Qed.
End Plain.

Lemma clusters_partition P next thr level rest l : clusters P next thr level rest l ->
  Permutation (concat l) rest /\ ~ In [] l.
Proof.
  induction 1 as [| |thr level rest S rest' more Hb Hp Hc [IH1 IH2]].
  - split; [reflexivity|auto].
  - cbn [concat]. rewrite app_nil_r. split; [trivial|]. intros [->|[]]. apply Permutation_nil in H1. congruence.
  - cbn [concat]. split; [now rewrite IH1, <- Hp|]. intros [->|Hi]; [|tauto]. now apply (proj1 (proj2 Hb)).
Qed.

(** ** Count of the variables *)

Lemma row_count_one P' pi j cl : NoDup (concat cl) ->
  row_count P' pi j cl = (if existsb (fun c => memb j c && qleb pi (P' c)) cl then 1 else 0)%nat.
Proof.
  unfold row_count. induction cl as [|c cl IH]; intro H; [reflexivity|]. cbn [concat] in H.
  cbn [filter existsb]. pose proof (NoDup_app_l _ _ H) as Hc. pose proof (NoDup_app_r _ _ H) as Hcl.
  specialize (IH Hcl).
  assert (Hd : In j c -> existsb (fun c => memb j c && qleb pi (P' c)) cl = false).
  { intro Hj. destruct (existsb _ cl) eqn:E; [|reflexivity]. exfalso. apply existsb_exists in E.
    destruct E as [c' [Hc' E]]. apply andb_true_iff in E. destruct E as [E _]. apply memb_true in E.
    assert (Hj' : In j (concat cl)) by (apply in_concat; eauto).
    clear -H Hj Hj'. induction c as [|a c IHc]; [contradiction|]. cbn [app] in H. inversion H; subst.
    destruct Hj as [->|Hj]; [|now apply IHc]. apply H2, in_or_app. now right. }
  destruct (qleb pi (P' c)).
  - cbn [concat]. rewrite count_occ_app, IH. destruct (memb_spec j c) as [Hj|Hj]; cbn [andb orb].
    + rewrite (Hd Hj). rewrite (NoDup_count_occ' Nat.eq_dec) in Hc. now rewrite (Hc j Hj).
    + apply (count_occ_not_In Nat.eq_dec) in Hj. now rewrite Hj.
  - rewrite andb_false_r. cbn [orb]. exact IH.
Qed.

Definition attributed (pi : Q) (j : nat) (r : (list nat -> Q) * list (list nat)) : bool :=
  existsb (fun c => memb j c && qleb pi (fst r c)) (snd r).

Lemma variable_count_plain n proba decay C thr pi d j : has_coal C = false -> (0 < Qn n)%Q -> forall rows acc,
  exists cls q, Forall2 (fun r cl => clusters (fst r) (code_next decay) thr proba (seq 0 d) cl) rows cls /\
  variable_count_loop n rows proba decay C thr pi d j acc = Some q /\
  (q == acc + Qn (length (filter (attributed pi j) (combine (map snd rows) cls))) / Qn n)%Q.
Proof.
  intros HC Hn rows. induction rows as [|[P P'] rows IH]; intro acc.
  - exists [], acc. split; [constructor|]. split; [reflexivity|]. cbn [map combine filter length].
    rewrite Qn_0. unfold Qdiv. ring.
  - cbn [variable_count_loop]. unfold clusters_of.
    destruct (local_sdp_plain P proba decay C HC (S d) thr (seq 0 d) []) as [l [E Hl]]; [rewrite seq_length; lia|].
    cbn [app] in E. rewrite E.
    destruct (IH (acc + Qn (row_count P' pi j l) * (1 / Qn n))%Q) as [cls [q [HF [Eq Hq]]]].
    exists (l :: cls), q. split; [now constructor|]. split; [exact Eq|]. rewrite Hq. cbn [map combine filter].
    assert (HND : NoDup (concat l)).
    { apply (Permutation_NoDup (Permutation_sym (proj1 (clusters_partition _ _ _ _ _ _ Hl)))). apply seq_NoDup. }
    rewrite (row_count_one P' pi j l HND). unfold attributed at 2. cbn [fst snd].
    destruct (existsb (fun c => memb j c && qleb pi (P' c)) l).
    + cbn [length]. change (Qn 1) with (1%Q). rewrite Qn_S. field. lra.
    + rewrite Qn_0. ring.
Qed.

Theorem global_count_plain rows proba decay C thr pi d j : has_coal C = false -> rows <> [] ->
  exists cls q, Forall2 (fun r cl => clusters (fst r) (code_next decay) thr proba (seq 0 d) cl) rows cls /\
  global_variable_count rows proba decay C thr pi d j = Some q /\
  (q == Qn (length (filter (attributed pi j) (combine (map snd rows) cls))) / Qn (length rows))%Q /\
  (0 <= q <= 1)%Q.
Proof.
  intros HC Hr. assert (Hn : (0 < Qn (length rows))%Q) by (apply Qn_pos; destruct rows; [congruence|cbn; lia]).
  destruct (variable_count_plain (length rows) proba decay C thr pi d j HC Hn rows 0) as [cls [q [HF [E Hq]]]].
  exists cls, q. split; [trivial|]. split; [exact E|]. rewrite Qplus_0_l in Hq. split; [trivial|]. rewrite Hq.
  split; [apply Qdiv_nonneg; trivial; apply Qn_nonneg|]. apply Qdiv_le_1; trivial; [apply Qn_nonneg|].
  apply (proj1 (Qn_le _ _)). rewrite filter_length_le, combine_length, map_length. lia.
Qed.

Theorem msdp_exact {Y} (predict : pt -> Y) same d S rows x : reads predict d -> (forall y, same y y = true) ->
  NoDup S -> (forall k, In k S -> k < d) -> rows <> [] ->
  exists q, single_msdp_with predict same d S rows x = Some q /\
  (q == Qn (length (filter (fun z => same (predict (fixed S x z)) (predict x)) rows)) / Qn (length rows))%Q.
Proof.
  intros HR Hs HN HB Hr. destruct (msdp_defined predict same d S rows x Hr) as [q Eq]. exists q. split; [exact Eq|].
  destruct (Nat.eq_dec (length S) d) as [Hd|Hd]; [|now apply (msdp_share predict same d)].
  assert (HS : forall i, i < d -> In i S).
  { intros i Hi. assert (HI : incl (seq 0 d) S).
    { apply NoDup_length_incl; [trivial|rewrite seq_length; lia|]. intros k Hk. apply in_seq. specialize (HB k Hk). lia. }
    apply HI, in_seq. lia. }
  rewrite (msdp_all_fixed predict same d S rows x q HR Hs HS Eq).
  assert (E : (length (filter (fun z => same (predict (fixed S x z)) (predict x)) rows) =? length rows) = true).
  { rewrite filter_all_length. apply forallb_forall. intros z _. rewrite (HR (fixed S x z) x); [apply Hs|].
    intros i Hi. unfold fixed. now rewrite (proj2 (memb_true i S) (HS i Hi)). }
  apply Nat.eqb_eq in E. rewrite E. field. apply Qn_neq0. destruct rows; [congruence|discriminate].
Qed.
Theorem msdp_undefined {Y} (predict : pt -> Y) same d S rows x :
  single_msdp_with predict same d S rows x = None <-> rows = [] /\ length S <> d.
Proof.
  unfold single_msdp_with. destruct (Nat.eqb_spec (length S) d) as [E|E].
  - split; [discriminate|]. tauto.
  - destruct rows; cbn; split; try tauto; try discriminate. intros [H _]. discriminate.
Qed.

Theorem local_raises d all : compute_local_sdp d all = None <->
  exists coals c k, In coals all /\ In c coals /\ In k c /\ d <= k.
Proof.
  assert (L : forall all nb acc, local_sdp_loop d all nb acc = None <->
    exists coals c k, In coals all /\ In c coals /\ In k c /\ d <= k).
  { clear. induction all as [|coals all IH]; intros nb acc; cbn [local_sdp_loop].
    - split; [discriminate|]. intros (? & ? & ? & [] & _).
    - destruct (Nat.eqb_spec (length coals) 0) as [E|E].
      + destruct coals; [|discriminate]. rewrite IH. split.
        * intros (co & c & k & H & R). exists co, c, k. split; [now right|trivial].
        * intros (co & c & k & [<-|H] & Hc & R); [destruct Hc|]. exists co, c, k. now split.
      + unfold compute_local_sdp_one. destruct (forallb (fun k => k <? d) (concat coals)) eqn:Ef.
        * rewrite IH. split.
          -- intros (co & c & k & H & R). exists co, c, k. split; [now right|trivial].
          -- intros (co & c & k & [<-|H] & Hc & Hk & R); [|exists co, c, k; now split]. exfalso.
             rewrite forallb_forall in Ef. specialize (Ef k (proj2 (in_concat _ _) (ex_intro _ c (conj Hc Hk)))).
             apply Nat.ltb_lt in Ef. lia.
        * split; [intros _|reflexivity]. assert (Hx : exists k, In k (concat coals) /\ d <= k).
          { clear -Ef. induction (concat coals) as [|k l IH]; [discriminate|]. cbn [forallb] in Ef.
            destruct (Nat.ltb_spec k d) as [H|H]; [|exists k; split; [now left|trivial]].
            destruct (IH Ef) as [k' [Hk H']]. exists k'. split; [now right|trivial]. }
          destruct Hx as [k [Hk H]]. apply in_concat in Hk. destruct Hk as [c [Hc Hk]].
          exists coals, c, k. split; [now left|now split]. }
  unfold compute_local_sdp. rewrite <- (L all (length all) (fun _ => 0%Q)).
  destruct (local_sdp_loop d all (length all) (fun _ => 0%Q)) as [[nb acc]|]; split; discriminate || reflexivity.
Qed.

(** ** Witnesses *)

(** three variables; 0 suffices, then 1 alone reaches 3/5 only *)
Definition lw_P (thr : Q) (S : list nat) : Q :=
  if memb 0 S then 1 else if memb 1 S then (3 # 5) else (1 # 5).
(** what the documentation announces: the level decays *)
Definition doc_next (decay : Q) : Q * Q -> Q * Q := fun tp : Q * Q => (fst tp, (snd tp * decay)%Q).

Lemma clusters_cons_inv P next thr level rest S more : clusters P next thr level rest (S :: more) ->
  (more = [] /\ (forall T, In T (subs rest) -> T <> [] -> (P thr T < level)%Q)) \/
  (best_sufficient P thr level rest S /\ exists rest', Permutation rest (S ++ rest') /\
     clusters P next (fst (next (thr, level))) (snd (next (thr, level))) rest' more).
Proof. intro H. inversion H; subst; [now left|]. right. split; [trivial|]. eauto. Qed.

Theorem clusters_doc : exists P proba decay thr d l,
  (0 < proba <= 1)%Q /\ (0 < decay <= 1)%Q /\ (forall t S, 0 <= P t S <= 1)%Q /\
  clusters_of P proba decay [[]] thr d = Some l /\
  ~ clusters P (doc_next decay) thr proba (seq 0 d) l.
Proof.
  exists lw_P, (9 # 10)%Q, (1 # 2)%Q, 0%Q, 3, [[0]; [1; 2]].
  split; [lra|]. split; [lra|]. split.
  { intros t S. unfold lw_P. destruct (memb 0 S); [lra|]. destruct (memb 1 S); lra. }
  split; [vm_compute; reflexivity|]. intro H.
  apply clusters_cons_inv in H. destruct H as [[H _]|[_ [rest' [Hp H]]]]; [discriminate|].
  cbn [fst snd doc_next] in H. cbn [app seq] in Hp. apply Permutation_cons_inv in Hp.
  assert (H1 : In [1] (subs rest')).
  { apply Permutation_length_2_inv in Hp. destruct Hp as [->| ->]; cbn; auto. }
  apply clusters_cons_inv in H. destruct H as [[_ H]|[[_ [_ [_ Hm]]] _]].
  - assert (K : (lw_P 0 [1%nat] < (9 # 10) * (1 # 2))%Q) by (apply H; [trivial|discriminate]).
    revert K. vm_compute. discriminate.
  - assert (K : length [1; 2] <= length [1]); [|cbn in K; lia].
    apply Hm; [trivial|discriminate|vm_compute; discriminate].
Qed.

(** with coalitions: variables in no cluster, and variables counted twice *)
Definition lw_Q (thr : Q) (S : list nat) : Q := 0%Q.
Definition lw_F (thr : Q) (S : list nat) : Q := if length S =? 3 then 1%Q else 0%Q.
Theorem clusters_coalitions : exists P proba decay C thr d l,
  coalitions_ok C d /\ (forall c, In c C -> 2 <= length c) /\ (0 < proba <= 1)%Q /\ (forall t S, 0 <= P t S <= 1)%Q /\
  clusters_of P proba decay C thr d = Some l /\ ~ Permutation (concat l) (seq 0 d).
Proof.
  exists lw_Q, (9 # 10)%Q, (1 # 2)%Q, [[0; 1; 2]], 0%Q, 4, [].
  split.
  { split; [|split; [|exact I]].
    - cbn. repeat (constructor; [cbn; intuition lia|]). constructor.
    - cbn. intuition lia. }
  split. { intros c [<-|[]]. cbn. lia. }
  split; [lra|]. split; [intros; unfold lw_Q; lra|]. split; [vm_compute; reflexivity|].
  intro H. apply Permutation_nil in H. discriminate.
Qed.
Theorem count_coalitions : exists rows proba decay C thr pi d j q,
  coalitions_ok C d /\ (forall c, In c C -> 2 <= length c) /\ (0 < proba <= 1)%Q /\
  (forall r t S, In r rows -> (0 <= fst r t S <= 1)%Q /\ (0 <= snd r S <= 1)%Q) /\ (0 < pi <= 1)%Q /\
  global_variable_count rows proba decay C thr pi d j = Some q /\ (1 < q)%Q.
Proof.
  exists [(lw_F, fun _ => 1%Q)], (9 # 10)%Q, (1 # 2)%Q, [[0; 1]], 0%Q, (1 # 2)%Q, 3, 2, 2%Q.
  split.
  { split; [|split; [|exact I]].
    - cbn. repeat (constructor; [cbn; intuition lia|]). constructor.
    - cbn. intuition lia. }
  split. { intros c [<-|[]]. cbn. lia. }
  split; [lra|]. split. { intros r t S [<-|[]]. cbn [fst snd]. unfold lw_F. destruct (length S =? 3); lra. }
  split; [lra|]. split; [vm_compute; reflexivity|]. lra.
Qed.

(** Proofs about the maximal rules. *)
From Verif Require Import Base RfModel RfSpec RfProofs RulesModel RulesSpec RulesProofs AnnealModel AnnealSpec AnnealProofs MaxModel.

Lemma col_max_ge (data : nat -> pt) (k : nat) : forall (l : list nat) a i, In i l -> (data i k <= fold_left (fun a i => if qltb a (data i k) then data i k else a) l a)%Q.
Proof.
  assert (G : forall l a, (a <= fold_left (fun a i => if qltb a (data i k) then data i k else a) l a)%Q).
  { induction l as [|i l IH]; intro a; cbn [fold_left]; [lra|]. specialize (IH (if qltb a (data i k) then data i k else a)).
    destruct (qltb_spec a (data i k)); lra. }
  induction l as [|j l IH]; intros a i Hi; [destruct Hi|]. destruct Hi as [->|Hi]; cbn [fold_left]; [|now apply IH].
  pose proof (G l (if qltb a (data i k) then data i k else a)) as H. destruct (qltb_spec a (data i k)); lra.
Qed.
Lemma col_max_first (data : nat -> pt) (k : nat) (l : list nat) a : (a <= fold_left (fun a i => if qltb a (data i k) then data i k else a) l a)%Q.
Proof.
  revert a. induction l as [|i l IH]; intro a; cbn [fold_left]; [lra|]. specialize (IH (if qltb a (data i k) then data i k else a)).
  destruct (qltb_spec a (data i k)); lra.
Qed.
Lemma col_min_le (data : nat -> pt) (k : nat) : forall (l : list nat) a i, In i l -> (fold_left (fun a i => if qltb (data i k) a then data i k else a) l a <= data i k)%Q.
Proof.
  assert (G : forall l a, (fold_left (fun a i => if qltb (data i k) a then data i k else a) l a <= a)%Q).
  { induction l as [|i l IH]; intro a; cbn [fold_left]; [lra|]. specialize (IH (if qltb (data i k) a then data i k else a)).
    destruct (qltb_spec (data i k) a); lra. }
  induction l as [|j l IH]; intros a i Hi; [destruct Hi|]. destruct Hi as [->|Hi]; cbn [fold_left]; [|now apply IH].
  pose proof (G l (if qltb (data i k) a then data i k else a)) as H. destruct (qltb_spec (data i k) a); lra.
Qed.
Lemma col_min_first (data : nat -> pt) (k : nat) (l : list nat) a : (fold_left (fun a i => if qltb (data i k) a then data i k else a) l a <= a)%Q.
Proof.
  revert a. induction l as [|i l IH]; intro a; cbn [fold_left]; [lra|]. specialize (IH (if qltb (data i k) a then data i k else a)).
  destruct (qltb_spec (data i k) a); lra.
Qed.
Lemma fold_pick {A} (q : A -> nat -> bool) (f : nat -> A) l a :
  let v := fold_left (fun a i => if q a i then f i else a) l a in v = a \/ exists i, In i l /\ v = f i.
Proof.
  cbv zeta. revert a. induction l as [|i l IH]; intro a; cbn [fold_left]; [now left|].
  destruct (q a i).
  - destruct (IH (f i)) as [E|[j [Hj E]]]; right; [exists i|exists j]; cbn; auto.
  - destruct (IH a) as [E|[j [Hj E]]]; [now left|right; exists j; cbn; auto].
Qed.
Lemma col_bounds (data : nat -> pt) N k : 0 < N ->
  (forall i, i < N -> (col_min data N k <= data i k <= col_max data N k)%Q) /\
  (exists i, i < N /\ col_min data N k = data i k) /\ (exists i, i < N /\ col_max data N k = data i k).
Proof.
  intro HN. unfold col_min, col_max. split; [|split].
  - intros [|i] Hi.
    + split; [apply col_min_first|apply col_max_first].
    + split; [apply (col_min_le data k _ _ (S i))|apply (col_max_ge data k _ _ (S i))]; apply in_seq; lia.
  - destruct (fold_pick (fun a i => qltb (data i k) a) (fun i => data i k) (seq 1 (N - 1)) (data 0 k)) as [E|[i [Hi E]]].
    + exists 0. auto.
    + exists i. apply in_seq in Hi. split; [lia|exact E].
  - destruct (fold_pick (fun a i => qltb a (data i k)) (fun i => data i k) (seq 1 (N - 1)) (data 0 k)) as [E|[i [Hi E]]].
    + exists 0. auto.
    + exists i. apply in_seq in Hi. split; [lia|exact E].
Qed.

Section Max.
Variable M : fmem.
Variable data : nat -> pt.
Variable y : nat -> Q.
Variable N : nat.
Variables (depth m : nat) (classifier : bool) (t0 t1 : Q).
Variables (Sv : list nat) (x : pt) (yx : Q).
Notation OWN := (max_own M data y N depth m classifier t0 t1 Sv x yx).
Notation ROW := (max_row M data y N depth m classifier t0 t1 Sv x yx).
Notation SDP z := (compute_sdp_rf M data y N depth m classifier t0 t1 Sv z yx).
Notation CALL z := (compute_sdp_rule_weights M data y N depth m classifier t0 t1 Sv z yx).

Lemma own_sdp : fst (fst OWN) = SDP x.
Proof. apply rule_prob_statement. Qed.
Lemma own_weight_nonneg j : (0 <= snd OWN j)%Q.
Proof. apply weights_statement_rf. Qed.

Lemma row_in j : 0 < F_trees M -> j < N -> RfSpec.in_rule Sv (snd (fst OWN)) (data j) ->
  (1 / Qn N <= snd OWN j)%Q /\ ROW j = fst OWN /\ CALL (data j) = OWN.
Proof.
  intros HT Hj Hin. unfold max_own in Hin.
  destruct (rule_guarantee M data y N depth m classifier t0 t1 Sv x (data j) yx Hin) as [E _].
  assert (W : (1 / Qn N <= snd OWN j)%Q).
  { unfold max_own. rewrite <- E.
    rewrite (w_eq M data y N depth m classifier t0 t1 Sv (data j) yx j).
    apply fw_agree_ge; auto. intros f _. reflexivity. }
  assert (P : (0 < 1 / Qn N)%Q) by (apply Qlt_shift_div_l; [apply Qn_pos; lia|lra]).
  split; [exact W|]. split; [|exact E]. unfold max_row. destruct (qeqb_spec (snd OWN j) 0) as [Z|Z]; [lra|].
  cbn [negb]. now rewrite E.
Qed.

Lemma row_weightless j : (snd OWN j == 0)%Q -> ROW j = (0%Q, rule0).
Proof. intro Z. unfold max_row. destruct (qeqb_spec (snd OWN j) 0) as [H|H]; [reflexivity|contradiction]. Qed.
Lemma row_weighted j : (0 < snd OWN j)%Q -> ROW j = fst (CALL (data j)) /\ fst (ROW j) = SDP (data j).
Proof.
  intro P. assert (E : ROW j = fst (CALL (data j))).
  { unfold max_row. destruct (qeqb_spec (snd OWN j) 0) as [H|H]; [lra|reflexivity]. }
  split; [exact E|]. rewrite E. apply rule_prob_statement.
Qed.
Lemma row_sdp_le j : (fst (ROW j) <= SDP (data j))%Q.
Proof.
  pose proof (own_weight_nonneg j) as W. destruct (Qlt_le_dec 0 (snd OWN j)) as [P|P].
  - destruct (row_weighted j P) as [_ ->]. lra.
  - rewrite row_weightless by lra. apply sdp_bounds.
Qed.
Lemma row_level j pi : (0 < pi)%Q -> ((pi <= fst (ROW j))%Q <-> (0 < snd OWN j)%Q /\ (pi <= SDP (data j))%Q).
Proof.
  intro Hp. split.
  - intro H. destruct (Qlt_le_dec 0 (snd OWN j)) as [P|P].
    + split; [exact P|]. destruct (row_weighted j P) as [_ E]. now rewrite <- E.
    + pose proof (own_weight_nonneg j) as W. rewrite row_weightless in H by lra. cbn in H. lra.
  - intros [P H]. destruct (row_weighted j P) as [_ ->]. exact H.
Qed.

(** closed start rule and lower boundary *)
Lemma closed_half d j : (forall f, In f Sv -> f < d) ->
  (forall f, In f Sv -> ~ (data j f == fst (snd (fst OWN) f))%Q) ->
  inside d (snd (fst OWN)) (data j) -> RfSpec.in_rule Sv (snd (fst OWN)) (data j).
Proof.
  intros Hd Hb Hin f Hf. specialize (Hin f (Hd f Hf)). specialize (Hb f Hf). split; [|apply Hin].
  destruct (Qle_lt_or_eq _ _ (proj1 Hin)) as [L|E]; [exact L|]. exfalso. apply Hb. now symmetry.
Qed.

Section Anneal.
Context {G : Type}.
Variables (rand : G -> Q * G) (randint : nat -> G -> nat * G) (exp : Q -> Q) (lg : nat -> Q) (temp : Q).
Notation MAXR := (max_rule_annealing M data y N depth m classifier t0 t1 Sv x yx rand randint exp lg temp).

Lemma max_annealing pi d p_best n_try batch max_iter conv g r v l :
  0 < F_trees M -> (forall f, In f Sv -> f < d) ->
  (forall j f, j < N -> In f Sv -> ~ (data j f == fst (snd (fst OWN) f))%Q) -> (pi <= SDP x)%Q ->
  MAXR pi d p_best n_try batch max_iter conv g = Some (r, v, l) ->
  wider d r (snd (fst OWN)) /\
  forall j, j < N -> inside d r (data j) -> (pi <= SDP (data j))%Q /\ ((0 < pi)%Q -> (0 < snd OWN j)%Q).
Proof.
  intros HT Hd Hb Hp H. unfold max_rule_annealing in H.
  assert (W : forall j, j < N -> inside d (snd (fst OWN)) (data j) -> (pi <= fst (ROW j))%Q).
  { intros j Hj Hin. destruct (row_in j HT Hj (closed_half d j Hd (fun f Hf => Hb j f Hj Hf) Hin)) as [_ [E _]].
    rewrite E, own_sdp. exact Hp. }
  pose proof (proj2 (annealing_valid_iff rand randint exp lg temp _ _ _ _ _ _ _ _ _ _ _ _ _ _ _ _ _ H) W) as V.
  split.
  - apply annealing_full in H. destruct H as [H1 [_ H2]]. destruct (H2 r H1) as [_ [Gr _]].
    apply (Gr (adjacent N (fun j => snd (ROW j)) (fun j => fst (ROW j)) pi)).
    intro q. unfold adjacent. rewrite in_map_iff. split.
    + intros [i [E Hi]]. apply filter_In in Hi. destruct Hi as [Hi Hq]. apply in_seq in Hi.
      exists i. split; [lia|]. split; [|now symmetry]. destruct (qleb_spec pi (fst (ROW i))); [assumption|discriminate].
    + intros [i [Hi [Hq E]]]. exists i. split; [now symmetry|]. apply filter_In. split; [apply in_seq; lia|].
      destruct (qleb_spec pi (fst (ROW i))); [reflexivity|lra].
  - intros j Hj Hin. specialize (V j Hj Hin). split; [eapply Qle_trans; [exact V|apply row_sdp_le]|].
    intro Hpos. apply (row_level j pi Hpos) in V. apply V.
Qed.

Lemma max_annealing_iff pi d p_best n_try batch max_iter conv g r v l : (0 < pi)%Q ->
  MAXR pi d p_best n_try batch max_iter conv g = Some (r, v, l) ->
  let good j := (0 < snd OWN j)%Q /\ (pi <= SDP (data j))%Q in
  (forall j, j < N -> inside d r (data j) -> good j) <-> (forall j, j < N -> inside d (snd (fst OWN)) (data j) -> good j).
Proof.
  intros Hpos H good. unfold max_rule_annealing in H.
  pose proof (annealing_valid_iff rand randint exp lg temp _ _ _ _ _ _ _ _ _ _ _ _ _ _ _ _ _ H) as V.
  split; intros K j Hj Hin.
  - apply (row_level j pi Hpos). apply (proj1 V); [|exact Hj|exact Hin]. intros i Hi Hi'. apply (row_level i pi Hpos), K; assumption.
  - apply (row_level j pi Hpos). apply (proj2 V); [|exact Hj|exact Hin]. intros i Hi Hi'. apply (row_level i pi Hpos), K; assumption.
Qed.

Lemma max_annealing_volume pi d p_best n_try batch max_iter conv g r v l :
  MAXR pi d p_best n_try batch max_iter conv g = Some (r, v, l) ->
  In r l /\ (v == volume_rectangle d (col_max data N) (col_min data N) r)%Q /\
  forall a, In a l -> (volume_rectangle d (col_max data N) (col_min data N) a <= v)%Q.
Proof.
  intro H. unfold max_rule_annealing in H. apply annealing_full in H. destruct H as [H1 [H2 H3]].
  split; [exact H1|]. split; [exact H2|]. intros a Ha. apply (H3 a Ha).
Qed.

Hypothesis randint_lt : forall n g, 0 < n -> fst (randint n g) < n.
Lemma max_annealing_defined pi d p_best n_try batch max_iter conv g : 0 < batch -> d <> 1 \/ max_iter = 0 ->
  exists q, MAXR pi d p_best n_try batch max_iter conv g = Some q.
Proof.
  intros Hb Hd. unfold max_rule_annealing. eapply annealing_defined; auto. exact [].
Qed.
End Anneal.

Lemma max_extend pi d : (forall j f, j < N -> In f Sv -> (- big < data j f <= big)%Q) ->
  exists r, max_rule_extend M data y N depth m classifier t0 t1 Sv x yx pi = Some r /\
    subrule d (snd (fst OWN)) r /\ (forall k, ~ In k Sv -> r k = rule0 k) /\
    forall k, (fst (r k) = fst (snd (fst OWN) k) \/ exists j, j < N /\ (pi <= fst (ROW j))%Q /\ fst (r k) = fst (snd (ROW j) k)) /\
              (snd (r k) = snd (snd (fst OWN) k) \/ exists j, j < N /\ (pi <= fst (ROW j))%Q /\ snd (r k) = snd (snd (ROW j) k)).
Proof.
  intro Hb. unfold max_rule_extend.
  destruct (extended_partition (fun _ => snd (fst OWN)) (fun _ j => snd (ROW j)) (fun _ j => fst (ROW j)) N pi (fun _ => Sv) 0 d)
    as [r [H1 [H2 [H3 H4]]]].
  - intros j Hj k Hk. unfold max_row. destruct (negb _).
    + pose proof (rule_contains M data y N depth m classifier t0 t1 Sv (data j) yx (fun f Hf => Hb j f Hj Hf) k Hk). lra.
    + cbn. vm_compute. discriminate.
  - exists r. split; [exact H1|]. split; [exact H2|]. split; [|exact H4].
    intros k Hk. rewrite H3 by exact Hk. apply rule_untouched. exact Hk.
Qed.
End Max.

Lemma own_rule : forall M data y N depth m classifier t0 t1 Sv x yx j, 0 < F_trees M -> j < N ->
  let own := max_own M data y N depth m classifier t0 t1 Sv x yx in
  RfSpec.in_rule Sv (snd (fst own)) (data j) ->
  (1 / Qn N <= snd own j)%Q /\ max_row M data y N depth m classifier t0 t1 Sv x yx j = fst own /\
  compute_sdp_rf M data y N depth m classifier t0 t1 Sv (data j) yx = fst (fst own).
Proof.
  intros M data y N depth m classifier t0 t1 Sv x yx j HT Hj own Hin.
  destruct (row_in M data y N depth m classifier t0 t1 Sv x yx j HT Hj Hin) as [A [B C]].
  split; [exact A|]. split; [exact B|]. rewrite <- (rule_prob_statement M data y N depth m classifier t0 t1 Sv (data j) yx).
  now rewrite C.
Qed.
Lemma recorded : forall M data y N depth m classifier t0 t1 Sv x yx j,
  let own := max_own M data y N depth m classifier t0 t1 Sv x yx in
  let row := max_row M data y N depth m classifier t0 t1 Sv x yx j in
  fst (fst own) = compute_sdp_rf M data y N depth m classifier t0 t1 Sv x yx /\
  ((snd own j == 0)%Q -> row = (0%Q, rule0)) /\
  ((0 < snd own j)%Q -> fst row = compute_sdp_rf M data y N depth m classifier t0 t1 Sv (data j) yx /\
     snd row = snd (fst (compute_sdp_rule_weights M data y N depth m classifier t0 t1 Sv (data j) yx))).
Proof.
  intros M data y N depth m classifier t0 t1 Sv x yx j own row. split; [apply own_sdp|]. split; [apply row_weightless|].
  intro P. destruct (row_weighted M data y N depth m classifier t0 t1 Sv x yx j P) as [A B]. split; [exact B|].
  unfold row. now rewrite A.
Qed.
Lemma defined_best : forall (G : Type) (rand : G -> Q * G) randint exp lg temp
    M data y N depth m classifier t0 t1 Sv x yx pi d p_best n_try batch max_iter conv g,
  (forall n g, 0 < n -> fst (randint n g) < n) -> 0 < batch -> d <> 1 \/ max_iter = 0 ->
  exists r v l, max_rule_annealing M data y N depth m classifier t0 t1 Sv x yx rand randint exp lg temp pi d p_best n_try batch max_iter conv g = Some (r, v, l) /\
    In r l /\ (v == volume_rectangle d (col_max data N) (col_min data N) r)%Q /\
    forall a, In a l -> (volume_rectangle d (col_max data N) (col_min data N) a <= v)%Q.
Proof.
  intros G rand randint exp lg temp M data y N depth m classifier t0 t1 Sv x yx pi d p_best n_try batch max_iter conv g Hr Hb Hd.
  destruct (max_annealing_defined M data y N depth m classifier t0 t1 Sv x yx rand randint exp lg temp Hr pi d p_best n_try batch max_iter conv g Hb Hd) as [[[r v] l] E].
  exists r, v, l. split; [exact E|]. eapply max_annealing_volume. exact E.
Qed.

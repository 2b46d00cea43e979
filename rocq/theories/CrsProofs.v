(** Proofs for CrsModel.v: the divergent sets. *)
From Verif Require Import Base GameSpec SkModel SearchModel SearchSpec SearchProofs ExplSpec RfModel RfSpec RfProofs ApiModel ApiSpec ApiProofs AgnModel AgnSpec AgnProofs
  AxsModel AxsSpec AxsProofs BoxSpec BoxProofs CrsModel CrsSpec.
From Verif Require ImpModel ImpSpec ImpProofs2.
Local Open Scope nat_scope.

Lemma all_give_spec {A B} (f : A -> ending B) l : forall bs, all_give f l = Gives bs <-> Forall2 (fun a b => f a = Gives b) l bs.
Proof.
  induction l as [|a l IH]; intro bs; cbn [all_give].
  - split; [intro E; injection E as <-; constructor|intro H; inversion H; reflexivity].
  - destruct (f a) as [b| |] eqn:E; cbn [next]; try (split; [discriminate|intro H; inversion H; congruence]).
    destruct (all_give f l) as [bs'| |] eqn:E'; cbn [next].
    + split; [intro H; injection H as <-; constructor; [exact E|now apply IH]|]. intro H. inversion H as [|? b1 ? l1 K1 K2]; subst. apply IH in K2.
      rewrite K1 in E. injection E as <-. injection K2 as <-. reflexivity.
    + split; [discriminate|]. intro H. inversion H as [|? b1 ? l1 K1 K2]; subst. apply IH in K2. discriminate.
    + split; [discriminate|]. intro H. inversion H as [|? b1 ? l1 K1 K2]; subst. apply IH in K2. discriminate.
Qed.
Lemma all_give_some {A B} (f : A -> ending B) l : (forall a, In a l -> exists b, f a = Gives b) -> exists bs, all_give f l = Gives bs.
Proof.
  induction l as [|a l IH]; intro H; [eexists; reflexivity|]. destruct (H a (or_introl eq_refl)) as (b & E). destruct IH as (bs & E'); [intros c Hc; apply H; now right|].
  exists (b :: bs). cbn [all_give]. rewrite E. cbn [next]. now rewrite E'.
Qed.

(** ** The row of a search always shows a set that was tried, or nothing *)
Section Shown.
Variables (d : nat) (pi : Q) (P : nat -> list nat -> Q).
Notation v := v_rf.
Definition shown (ok : list nat -> Prop) (r : SearchModel.row) : Prop :=
  exists S, reported r = map Z.of_nat S /\ r_len r = length S /\ (S = [] \/ ok S).
Lemma reported_write S star : firstn (length S) (write_star S star) = map Z.of_nat S.
Proof. unfold write_star. rewrite <- (map_length Z.of_nat S) at 1. rewrite firstn_app, Nat.sub_diag, firstn_all. cbn [firstn]. now rewrite app_nil_r. Qed.
Lemma shown_update (ok : list nat -> Prop) S p r : ok S -> shown ok r -> shown ok (update_row v d pi S p r).
Proof.
  intros HS Hr.
  assert (H1 : forall b : bool, shown ok (if b then SearchModel.mkRow p (length S) (write_star S (r_star r)) else r)).
  { intros [|]; [|exact Hr]. exists S. unfold reported. cbn [r_len r_star]. split; [apply reported_write|]. split; [reflexivity|now right]. }
  unfold update_row. cbv zeta. destruct (v_full v && (length S =? d)); [|apply H1].
  exists S. unfold reported. cbn [r_len r_star]. split; [|split; [reflexivity|now right]].
  unfold clear_star. rewrite firstn_app, firstn_firstn, Nat.min_id, reported_write.
  replace (length S - length (map Z.of_nat S)) with 0 by (rewrite map_length; lia). cbn [firstn]. now rewrite app_nil_r.
Qed.
Lemma shown_sets (ok : list nat -> Prop) k sets r : (forall S, In S sets -> ok S) -> shown ok r -> shown ok (row_sets v d pi P k sets r).
Proof.
  revert r. induction sets as [|S sets IH]; intros r H Hr; [exact Hr|]. cbn [row_sets fold_left].
  apply IH; [intros S' HS'; apply H; now right|]. apply shown_update; [apply H; now left|exact Hr].
Qed.
Lemma shown_run (ok : list nat -> Prop) k L r : (forall sets S, In sets L -> In S sets -> ok S) -> shown ok r ->
  shown ok (fold_left (row_level v d pi P k) L r).
Proof.
  revert r. induction L as [|sets L IH]; intros r H Hr; [exact Hr|]. cbn [fold_left]. apply IH; [intros s S Hs; apply H; now right|].
  unfold row_level. destruct (qleb pi (SearchModel.r_sdp r)); [exact Hr|]. unfold tidy_row. cbn [v_clean v_rf andb]. apply shown_sets; [|exact Hr]. intros S HS. apply (H sets S); [now left|exact HS].
Qed.
Lemma search_shown limit stop N va lo st k : groups_ok d va -> (0 < pi)%Q -> k < N -> search v d pi P limit stop N va lo = Some st ->
  shown (fun S => exists T, In T (subs va) /\ S = concat T) (s_rows st k).
Proof.
  intros Hok H0 Hk H. apply search_visits in H. destruct H as (n & -> & _). rewrite levels_rows by (trivial; now apply state0_ok).
  apply shown_run.
  - intros sets S Hs HS. apply in_map_iff in Hs. destruct Hs as (s & <- & _). apply in_level in HS. destruct HS as (T & HT & _ & <-). eauto.
  - exists []. split; [reflexivity|]. split; [reflexivity|now left].
Qed.
End Shown.

(** ** The sets taken from the arrays of a search *)
Section Sets.
Variables (d w : nat) (es : list sk) (Ts : list rtree) (stray : RfModel.row) (classifier : bool) (q : pt -> Q * Q) (imp : nat -> Q) (order : list nat)
  (sched : list nat -> list nat -> list nat) (kd : kind) (a : args) (D : list pt) (Y : list Q) (t : targ) (C : list (list nat)) (m : nat).
Hypothesis HE : searchable d w es Ts classifier imp order sched kd a D Y t C.
Variables (pi : Q) (minimal : nat) (stop : bool).
Hypothesis H0 : (0 < pi)%Q.
Hypothesis H1 : (pi <= 1)%Q.
Notation N := (length (g_X a)).
Notation run := (acx_importance d es stray classifier q order sched kd a D Y m t C pi minimal stop).

Lemma run_sets e k : run = Gives e -> k < N -> exists S, NoDup S /\ (forall s, In s S -> s < d) /\
  firstn (nth k (ImpModel.e_size e) 0) (nth k (ImpModel.e_index e) []) = map Z.of_nat S /\ nth k (ImpModel.e_size e) 0 = length S.
Proof.
  intros Hrun Hk. destruct (importance_state d w es Ts stray classifier q imp order sched kd a D Y t C m HE pi minimal stop H0) as (st & Hs & E).
  rewrite E in Hrun. injection Hrun as <-. assert (Er := ImpProofs2.row_collect d N st k Hk).
  destruct (h_va d w es Ts classifier imp order sched kd a D Y t C HE) as [G _].
  destruct (search_shown d pi _ cut15 stop N _ minimal st k G H0 Hk Hs) as (S & S1 & S2 & S3). rewrite <- Er in S1, S2.
  exists S. assert (K : NoDup S /\ forall s, In s S -> s < d).
  { destruct S3 as [->|(T & HT & ->)]; [split; [constructor|intros s []]|]. destruct (subs_groups_ok d _ T G HT) as (A & B & _). auto. }
  destruct K as [K1 K2]. split; [exact K1|]. split; [exact K2|]. split; [exact S1|exact S2].
Qed.
Lemma z_of_nats S : map Z.to_nat (map Z.of_nat S) = S.
Proof. rewrite map_map. rewrite <- (map_id S) at 2. apply map_ext. intro x. apply Nat2Z.id. Qed.
Lemma null_complement S : map Z.to_nat (filter (fun z => negb (existsb (Z.eqb z) (map Z.of_nat S))) (map Z.of_nat (seq 0 d))) = complement d S.
Proof.
  unfold complement. induction (seq 0 d) as [|x l IH]; [reflexivity|]. cbn [map filter].
  assert (E : existsb (Z.eqb (Z.of_nat x)) (map Z.of_nat S) = if in_dec Nat.eq_dec x S then true else false).
  { destruct (in_dec Nat.eq_dec x S) as [H|H].
    - apply existsb_exists. exists (Z.of_nat x). split; [now apply in_map|apply Z.eqb_refl].
    - apply not_true_iff_false. intro K. apply existsb_exists in K. destruct K as (z & Hz & E). apply in_map_iff in Hz. destruct Hz as (y & <- & Hy).
      apply Z.eqb_eq in E. apply Nat2Z.inj in E. congruence. }
  rewrite E. destruct (in_dec Nat.eq_dec x S); cbn [negb map]; [exact IH|]. now rewrite Nat2Z.id, IH.
Qed.
Lemma run_split e : run = Gives e -> length (split_sets d e) = N /\ forall k, k < N -> exists S, NoDup S /\ (forall s, In s S -> s < d) /\
  nth k (map fst (split_sets d e)) [] = S /\ nth k (map snd (split_sets d e)) [] = complement d S /\ reported (ImpSpec.row_of e k) = map Z.of_nat S.
Proof.
  intro Hrun. destruct (run_returns d w es Ts stray classifier q imp order sched kd a D Y t C m HE pi minimal stop H0 H1) as (e' & E & Sh).
  rewrite E in Hrun. injection Hrun as ->. destruct Sh as (_ & L & _). unfold split_sets. rewrite map_length, seq_length, L. split; [reflexivity|].
  intros k Hk. destruct (run_sets e k E Hk) as (S & K1 & K2 & K3 & K4). exists S. split; [exact K1|]. split; [exact K2|].
  rewrite !map_map. rewrite !(nth_map_seq _ N k) by exact Hk. unfold active_null. cbn [fst snd]. rewrite K3, z_of_nats, null_complement.
  split; [reflexivity|]. split; [reflexivity|]. unfold reported, ImpSpec.row_of. cbn [r_len r_star]. exact K3.
Qed.
End Sets.

(** ** The calls of the explainer *)
Lemma given_entries n o : fits n o -> given n o = entries n o.
Proof.
  unfold entries. destruct o as [l|]; cbn [fits given]; intro H.
  - apply (nth_ext _ _ 0%Q 0%Q); [now rewrite map_length, seq_length|]. intros i Hi. rewrite nth_map_seq by lia. reflexivity.
  - apply (nth_ext _ _ 0%Q 0%Q); [now rewrite map_length, seq_length, repeat_length|]. intros i Hi. rewrite repeat_length in Hi. rewrite nth_map_seq by exact Hi.
    now rewrite nth_repeat_lt.
Qed.
Lemma entries_length n o : length (entries n o) = n.
Proof. unfold entries. now rewrite map_length, seq_length. Qed.
Lemma entries_nth n o i : i < n -> nth i (entries n o) 0%Q = entry o i.
Proof. intro H. unfold entries. now rewrite nth_map_seq. Qed.
Lemma no_coalition d : coal_ok [[]] d.
Proof. split; [constructor|]. split; [intros x []|now left]. Qed.

Section Calls.
Variables (d w : nat) (es : list sk) (Ts : list rtree) (stray : RfModel.row) (classifier : bool) (q : pt -> Q * Q) (D : list pt) (Y : list Q) (m : nat).
Hypothesis HT : trained d w es Ts D Y.
Notation M := (dense (map ranger_tree es) stray).
Lemma call_rows r a l t sched lev : acx_routine r -> table (g_X a) (g_y a) -> documented r a l -> own_levels classifier q (g_X a) t lev ->
  complete (S (length Ts)) (length (g_X a)) sched ->
  exists res, explain d es stray classifier q r a D Y m t sched = Some (Returned res) /\
    row_by_row r res (length (g_X a)) (fun i =>
      due M (fun j => nth j D (fun _ => 0%Q)) (fun j => nth j Y 0%Q) (length D) (tallest Ts) m classifier r
        (nth i (g_X a) (fun _ => 0%Q)) (nth i (g_y a) 0%Q) (nth i (g_down a) 0%Q) (nth i (g_up a) 0%Q)
        (nth i l []) (nth i (g_cond a) rule0) (fst (lev i)) (snd (lev i))).
Proof.
  destruct HT as (A1 & A2 & A3 & A4). intros B1 B2 B3 B4 B5. rewrite (explain_acx d w es Ts stray classifier q A1 A2 (or_introl A3) r a l D Y m t sched B2 A4 B3).
  rewrite <- (len_trees d w es Ts stray A2) in B5.
  destruct (acx_rows M (tallest Ts) classifier q r a l D Y m t sched lev B1 B2 A4 B3 B4 B5) as (res & E & R). exists res. now rewrite E.
Qed.
End Calls.

(** ** The divergent sets of the observations *)
Section Local.
Variables (d w : nat) (es : list sk) (Ts : list rtree) (stray : RfModel.row) (classifier : bool) (q : pt -> Q * Q) (imp : nat -> Q) (order : list nat)
  (D : list pt) (Y : list Q).
Hypothesis HT : trained d w es Ts D Y.
Hypothesis HR : ranked imp d order.
Variables (sched : list nat -> list nat -> list nat) (sched_w : list nat) (X : list pt) (y down up : option (list Q)) (t : targ) (stop : bool) (pi : Q).
Notation n := (length X).
Hypothesis HX : X <> [].
Hypothesis Hy : fits n y.
Hypothesis Hdn : fits n down.
Hypothesis Hup : fits n up.
Hypothesis Ht : levels_fit classifier n t.
Hypothesis Hf : fair (length Ts) n sched.
Hypothesis Hw : complete (S (length Ts)) n sched_w.
Hypothesis H0 : (0 < pi)%Q.
Hypothesis H1 : (pi <= 1)%Q.
Notation ar S := (mkArgs X (entries n y) (entries n down) (entries n up) (S_rows S) []).
Notation va := (search_groups [[]] (ExplModel.agnostic_space d order)).

Lemma local_searchable : searchable d w es Ts classifier imp order sched by_cdp (ar []) D Y t [[]].
Proof.
  destruct HT as (A1 & A2 & A3 & A4). split; [exact A1|]. split; [exact A2|]. split; [exact A3|]. split.
  - split; [split; [cbn; now rewrite entries_length|exact HX]|]. split; [exact A4|]. split; [intros _; cbn; now rewrite !entries_length|].
    split; [intros [|]; discriminate|]. exact Ht.
  - split; [apply no_coalition|]. split; [discriminate|]. split; [exact HR|exact Hf].
Qed.
Notation told_at order1 i := (told d es stray classifier q order1 by_cdp (ar []) D Y node_size t i).
Lemma search_outcome (kd : kind) a e order1 i m : searchable d w es Ts classifier imp order sched kd a D Y t [[]] ->
  acx_importance d es stray classifier q order sched kd a D Y m t [[]] pi 1 stop = Gives e -> complete (S (length Ts)) (length (g_X a)) order1 -> i < length (g_X a) ->
  forall S, reported (ImpSpec.row_of e i) = map Z.of_nat S -> divergent_set d va stop pi (told d es stray classifier q order1 kd a D Y m t i) S.
Proof.
  intros HE He Ho Hi S HS. destruct (Qlt_le_dec (nth i (ImpModel.e_sdp e) 0%Q) pi) as [L|L].
  - right. intros T HT1 HT2 HT3.
    apply (run_not_found d w es Ts stray classifier q imp order sched kd a D Y t [[]] m HE pi 1 stop H0 H1 order1 e i Ho He Hi L T HT1 HT2).
    intro Es. split; [now intros g [<-|[]]|now apply HT3].
  - left. destruct (run_found d w es Ts stray classifier q imp order sched kd a D Y t [[]] m HE pi 1 stop H0 H1 order1 e i Ho He Hi L) as (T & B1 & B2 & _).
    exists T, (nth i (ImpModel.e_sdp e) 0%Q). split; [|exact B1]. rewrite HS in B2. rewrite <- (z_of_nats S), B2. apply z_of_nats.
Qed.

Lemma local_divergent : exists st, run_local_divergent_set d es stray classifier q order D Y sched sched_w X y down up t stop pi = Gives st /\
  length (v_star st) = n /\ length (v_bar st) = n /\ length (v_ddp st) = n /\ length (v_w st) = n /\
  (forall order1 i, complete (S (length Ts)) n order1 -> i < n ->
     let Sv := nth i (v_star st) [] in
     NoDup Sv /\ (forall s, In s Sv -> s < d) /\ nth i (v_bar st) [] = complement d Sv /\
     divergent_set d va stop pi (told_at order1 i) Sv /\ nth i (v_ddp st) 0%Q = told_at order1 i Sv) /\
  (exists res, explain d es stray classifier q cdp_weights (ar (v_bar st)) D Y node_size T_none sched_w = Some (Returned res) /\
     r_sdp res = v_ddp st /\ r_weights res = Some (v_w st)).
Proof.
  pose proof local_searchable as HE. destruct (run_returns d w es Ts stray classifier q imp order sched by_cdp (ar []) D Y t [[]] node_size HE pi 1 stop H0 H1) as (e & Ee & _).
  destruct (run_split d w es Ts stray classifier q imp order sched by_cdp (ar []) D Y t [[]] node_size HE pi 1 stop H0 H1 e Ee) as [Ln Sp].
  unfold run_local_divergent_set. rewrite !given_entries by assumption. cbv zeta. rewrite Ee. cbn [next].
  set (bars := map snd (split_sets d e)). set (stars := map fst (split_sets d e)) in *. fold bars in Sp.
  assert (Lb : length bars = n) by (unfold bars; now rewrite map_length).
  destruct (call_rows d w es Ts stray classifier q D Y node_size HT cdp_weights (ar bars) bars T_none sched_w (fun i => q (nth i X (fun _ => 0%Q)))) as (res & Er & R).
  - cbn; tauto.
  - split; [cbn; now rewrite entries_length|exact HX].
  - split; [reflexivity|]. split; [exact Lb|]. split; [intros _; cbn; now rewrite !entries_length|intro B; exfalso; cbn in B; decompose [or] B; (discriminate || contradiction)].
  - right; left. split; [reflexivity|]. intros; reflexivity.
  - exact Hw.
  - rewrite Er. cbn [of_call next]. destruct R as (R1 & _ & _ & R4 & _). unfold both. rewrite (R4 ltac:(cbn; tauto)). cbn [next fst snd].
    eexists. split; [reflexivity|]. cbn [v_star v_bar v_ddp v_w]. rewrite Lb. unfold stars. rewrite map_length, Ln. split; [reflexivity|]. split; [reflexivity|].
    rewrite R1. rewrite !map_length, !seq_length. split; [reflexivity|]. split; [reflexivity|]. split.
    + intros order1 i Ho Hi. fold stars. destruct (Sp i Hi) as (Sv & K1 & K2 & K3 & K4 & K5). cbn zeta. rewrite K3, K4.
      split; [exact K1|]. split; [exact K2|]. split; [reflexivity|].
      split; [apply (search_outcome by_cdp (ar []) e order1 i node_size HE Ee Ho Hi Sv K5)|].
      cbn [g_X]. rewrite (nth_map_seq _ n i) by exact Hi. rewrite K4.
      rewrite (told_prob d w es Ts stray classifier q imp order sched by_cdp (ar []) D Y t [[]] node_size HE order1 Ho i Sv Hi).
      unfold prob. cbn [method asked due g_X g_y g_down g_up g_cond fst]. apply (rule_family _ _ _ _ _ _ _ 0%Q 0%Q).
    + exists res. split; [exact Er|]. split; [exact R1|]. now rewrite (R4 ltac:(cbn; tauto)).
Qed.
End Local.

(** ** The divergent sets of the rules *)
Section Regional.
Variables (d w : nat) (es : list sk) (Ts : list rtree) (stray : RfModel.row) (classifier : bool) (q : pt -> Q * Q) (imp : nat -> Q) (order : list nat)
  (D : list pt) (Y : list Q).
Hypothesis HT : trained d w es Ts D Y.
Hypothesis HR : ranked imp d order.
Variables (sched : list nat -> list nat -> list nat) (sched_w : list nat) (X : list pt) (rules : list rule) (y : option (list Q)) (down_up : option (list (list Q)))
  (stop : bool) (pi : Q).
Notation n := (length X).
Hypothesis HX : X <> [].
Hypothesis HL : length rules = n.
Hypothesis Hy : fits n y.
Hypothesis Hdu : intervals_fit n down_up.
Hypothesis Hf : fair (length Ts) n sched.
Hypothesis Hw : complete (S (length Ts)) n sched_w.
Hypothesis H0 : (0 < pi)%Q.
Hypothesis H1 : (pi <= 1)%Q.
Notation t := (T_matrix (intervals n down_up)).
Notation ar S := (mkArgs X (entries n y) [] [] (S_rows S) rules).
Notation va := (search_groups [[]] (ExplModel.agnostic_space d order)).

Lemma regional_args : complete_args by_cdp_intv classifier (ar []) D Y t.
Proof.
  destruct HT as (A1 & A2 & A3 & A4).
  split; [split; [cbn; now rewrite entries_length|exact HX]|]. split; [exact A4|]. split; [discriminate|]. split; [intros _; exact HL|].
  right; right. eexists. split; [reflexivity|]. cbn [g_X]. unfold intervals, intervals_fit in *. destruct down_up as [l|]; [exact Hdu|].
  rewrite repeat_length. split; [reflexivity|]. intros r Hr. apply repeat_spec in Hr. subst r. cbn. lia.
Qed.
Lemma regional_searchable : searchable d w es Ts classifier imp order sched by_cdp_intv (ar []) D Y t [[]].
Proof.
  destruct HT as (A1 & A2 & A3 & A4). split; [exact A1|]. split; [exact A2|]. split; [exact A3|]. split; [exact regional_args|].
  split; [apply no_coalition|]. split; [discriminate|]. split; [exact HR|exact Hf].
Qed.
Notation told_at order1 i := (told d es stray classifier q order1 by_cdp_intv (ar []) D Y node_size t i).

Lemma regional_divergent : exists st, run_regional_divergent_set d es stray classifier q order D Y sched sched_w X rules y down_up stop pi = Gives st /\
  length (v_star st) = n /\ length (v_bar st) = n /\ length (v_ddp st) = n /\ length (v_w st) = n /\
  (forall order1 i, complete (S (length Ts)) n order1 -> i < n ->
     let Sv := nth i (v_star st) [] in
     NoDup Sv /\ (forall s, In s Sv -> s < d) /\ nth i (v_bar st) [] = complement d Sv /\
     divergent_set d va stop pi (told_at order1 i) Sv /\ nth i (v_ddp st) 0%Q = told_at order1 i (complement d Sv)) /\
  (exists res, explain d es stray classifier q cdp_intv (ar (v_bar st)) D Y node_size t sched_w = Some (Returned res) /\
     r_sdp res = v_ddp st /\ r_weights res = Some (v_w st)).
Proof.
  pose proof regional_searchable as HE. destruct (run_returns d w es Ts stray classifier q imp order sched by_cdp_intv (ar []) D Y t [[]] node_size HE pi 1 stop H0 H1) as (e & Ee & _).
  destruct (run_split d w es Ts stray classifier q imp order sched by_cdp_intv (ar []) D Y t [[]] node_size HE pi 1 stop H0 H1 e Ee) as [Ln Sp].
  unfold run_regional_divergent_set. rewrite given_entries by assumption. fold (intervals n down_up). cbv zeta. rewrite Ee. cbn [next].
  set (bars := map snd (split_sets d e)). set (stars := map fst (split_sets d e)) in *. fold bars in Sp.
  assert (Lb : length bars = n) by (unfold bars; now rewrite map_length).
  destruct (levels_of_args by_cdp_intv classifier q (ar []) D Y t regional_args) as (O & _).
  destruct (call_rows d w es Ts stray classifier q D Y node_size HT cdp_intv (ar bars) bars t sched_w (levels_at q X t)) as (res & Er & R).
  - cbn; tauto.
  - split; [cbn; now rewrite entries_length|exact HX].
  - split; [reflexivity|]. split; [exact Lb|]. split; [intro B; exfalso; cbn in B; decompose [or] B; (discriminate || contradiction)|]. intros _. exact HL.
  - exact O.
  - exact Hw.
  - rewrite Er. cbn [of_call next]. destruct R as (R1 & _ & _ & R4 & _). unfold both. rewrite (R4 ltac:(cbn; tauto)). cbn [next fst snd].
    eexists. split; [reflexivity|]. cbn [v_star v_bar v_ddp v_w]. rewrite Lb. unfold stars. rewrite map_length, Ln. split; [reflexivity|]. split; [reflexivity|].
    rewrite R1. rewrite !map_length, !seq_length. split; [reflexivity|]. split; [reflexivity|]. split.
    + intros order1 i Ho Hi. fold stars. destruct (Sp i Hi) as (Sv & K1 & K2 & K3 & K4 & K5). cbn zeta. rewrite K3, K4.
      split; [exact K1|]. split; [exact K2|]. split; [reflexivity|].
      split; [apply (search_outcome d w es Ts stray classifier q imp order D Y sched t stop pi H0 H1 by_cdp_intv (ar []) e order1 i node_size HE Ee Ho Hi Sv K5)|].
      cbn [g_X]. rewrite (nth_map_seq _ n i) by exact Hi. rewrite K4.
      rewrite (told_prob d w es Ts stray classifier q imp order sched by_cdp_intv (ar []) D Y t [[]] node_size HE order1 Ho i _ Hi).
      unfold prob. reflexivity.
    + exists res. split; [exact Er|]. split; [exact R1|]. now rewrite (R4 ltac:(cbn; tauto)).
Qed.
End Regional.

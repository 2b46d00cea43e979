(** Proofs about active Shapley values with one explanation per observation: the explanations found by the same object. *)
From Verif Require Import Base TreeModel TreeSpec TreeProofs GameSpec GameProofs ShapModel ShapSpec ShapProofs NopaModel AcvModel AcvSpec AcvProofs
  FlatModel FlatSpec FlatProofs SkModel SkSpec SkProofs
  SdpModel SdpSpec SdpProofs SearchModel SearchSpec SearchProofs ClfModel ClfSpec ClfProofs ExplModel ExplSpec ExplProofs
  ArrModel ArrSpec ArrProofs ArrProofs2 ArrProofs3 ArrProofs4 EntryModel EntrySpec EntryProofs EntryProofs2 EntryProofs3 EntryProofs4 SbufModel SbufSpec SbufProofs SbufProofs2
  AbufModel AbufSpec AbufProofs AbufProofs2 AbufProofs3 AbufProofs4 ImpModel ImpSpec ImpProofs ImpProofs2 ImpProofs3 AdapModel AdapSpec AdapProofs OwnModel OwnSpec OwnProofs OwnProofs2.
Local Open Scope nat_scope.

(** ** The rows of the search *)

Section Says.
Variables (v : variant) (d : nat) (pi : Q) (Pr : nat -> list nat -> Q) (good : list nat -> Prop).
Definition says (r : row) : Prop := exists S0, good S0 /\ firstn (r_len r) (r_star r) = map Z.of_nat S0 /\ r_len r = length S0.
Lemma firstn_write S0 l : firstn (length S0) (map Z.of_nat S0 ++ l) = map Z.of_nat S0.
Proof. rewrite <- (map_length Z.of_nat S0) at 1. rewrite firstn_app, Nat.sub_diag, firstn_all. cbn [firstn]. apply app_nil_r. Qed.
Lemma says_update S0 p r : good S0 -> says r -> says (update_row v d pi S0 p r).
Proof.
  intros HG Hr. unfold update_row. cbn zeta.
  assert (H1 : says (if qleb (r_sdp r) p && (negb (v_need v) || qleb pi p) then mkRow p (length S0) (write_star S0 (r_star r)) else r)).
  { destruct (_ && _); [|exact Hr]. exists S0. cbn. split; [exact HG|]. split; [apply firstn_write|reflexivity]. }
  destruct (v_full v && (length S0 =? d)); [|exact H1]. exists S0. cbn [r_len r_star]. split; [exact HG|]. split; [|reflexivity].
  unfold clear_star, write_star. rewrite firstn_write, firstn_write. reflexivity.
Qed.
Lemma says_tidy r : says r -> says (tidy_row v d pi r).
Proof.
  intros (S0 & H1 & H2 & H3). unfold tidy_row. destruct (_ && _); [|exists S0; auto]. exists S0. cbn [r_len r_star]. split; [exact H1|]. split; [|exact H3].
  unfold clear_star. rewrite H2, H3. apply firstn_write.
Qed.
Lemma says_run i L : good [] -> (forall sets S0, In sets L -> In S0 sets -> good S0) -> says (row_run v d pi Pr i L).
Proof.
  intros H0 HL. unfold row_run.
  assert (G : forall r, says r -> says (fold_left (row_level v d pi Pr i) L r)).
  { induction L as [|sets L IH]; intros r Hr; [exact Hr|]. cbn [fold_left]. apply IH; [intros; eapply HL; [right|]; eassumption|].
    unfold row_level. destruct (qleb pi (r_sdp r)); [exact Hr|]. apply says_tidy. unfold row_sets.
    assert (HS : forall S0, In S0 sets -> good S0) by (intros; eapply HL; [now left|assumption]). clear - HS Hr. revert r Hr.
    induction sets as [|S0 sets IH]; intros r Hr; [exact Hr|]. cbn [fold_left]. apply IH; [intros; apply HS; now right|]. apply says_update; [apply HS; now left|exact Hr]. }
  apply G. exists []. cbn. auto.
Qed.
End Says.
Lemma level_columns d va s S0 : groups_ok d va -> In S0 (level va s) -> columns_ok d S0.
Proof.
  intros Hok H. apply in_level in H. destruct H as (T & HT & _ & <-). destruct (subs_groups_ok d va T Hok HT) as (H1 & H2 & _). now split.
Qed.
Lemma search_columns v d pi Pr limit stop N va lo st i : groups_ok d va -> (forall g, In g va -> length g = 1) ->
  (0 < pi)%Q -> i < N -> search_clf v d pi Pr limit stop N va lo = Some st ->
  exists A, r_star (s_rows st i) = AdapSpec.listed d A /\ r_len (s_rows st i) = length A /\ columns_ok d A.
Proof.
  intros Hok H1 H0 Hi H. pose proof (search_clf_neat v d pi Pr limit stop N va lo st i Hok H1 H0 Hi H) as Hneat.
  apply search_clf_visits in H. destruct H as (n & Est & _). rewrite Est in *.
  rewrite levels_rows in * by (trivial; now apply state0_ok). change (s_rows (state0 d N) i) with (row0 d) in *.
  destruct (says_run v d pi Pr (columns_ok d) i (map (level va) (seq lo n))) as (A & G1 & G2 & G3).
  - split; [constructor|contradiction].
  - intros sets S0 Hs HS. apply in_map_iff in Hs. destruct Hs as (s & <- & _). now apply (level_columns d va s).
  - unfold row_run in *. set (r := fold_left _ _ _) in *. destruct Hneat as (S1 & E1 & E2 & E3).
    assert (S1 = A).
    { rewrite E1, E2, firstn_write in G2. apply (f_equal longs) in G2. rewrite !longs_nat in G2. now injection G2. }
    subst S1. exists A. unfold AdapSpec.listed. now rewrite E1.
Qed.

(** ** From the explanations to the values *)

Lemma get_null_some d Ss : forall sizes, length Ss = length sizes ->
  (forall i s n, nth_error Ss i = Some s -> nth_error sizes i = Some n -> exists nul, null_coalition d s n = Some nul) ->
  exists Ns, get_null_coalition d Ss sizes = Some Ns /\ length Ns = length Ss.
Proof.
  induction Ss as [|s Ss IH]; intros [|n sizes] Hl H; try discriminate; cbn [get_null_coalition]; [now exists []|].
  destruct (H 0 s n eq_refl eq_refl) as [nul ->]. destruct (IH sizes) as (Ns & -> & E).
  - now injection Hl.
  - intros i s' n' H1 H2. exact (H (S i) s' n' H1 H2).
  - exists (nul :: Ns). split; [reflexivity|]. cbn. now rewrite E.
Qed.
Lemma single_room listed ts stacked d w k A : lists_set listed -> ensemble_ok ts stacked d w k -> NoDup A -> (forall s, In s A -> s < d) ->
  room ts (map (fun s => [s]) (seq 0 d)) -> room ts (map (fun s => [s]) A).
Proof.
  intros HL Hok HA Hd Hr t i ps Ht Hi Hps.
  pose proof (h_wf ts stacked d w k Hok t Ht) as Hwf. pose proof (proj2 (leaf_list_in d w t i Hwf) Hi) as Hil.
  destruct (node_set_above listed HL d w t i Hwf Hil) as [Hn Hab].
  assert (Hall : players_above (map (fun s => [s]) (seq 0 d)) t i (map (fun s => [s]) (node_set listed t i))).
  { split; [apply FinFun.Injective_map_NoDup; [intros a b E; now injection E|exact Hn]|]. intro g. rewrite in_map_iff. split.
    - intros (s & <- & Hs). apply Hab in Hs. split; [|exists s; split; [now left|exact Hs]].
      apply in_map_iff. exists s. split; [reflexivity|]. apply in_seq. pose proof (TreeProofs.above_lt (as_tree t 0) d (proj1 Hwf) _ _ Hs). lia.
    - intros [Hg (s & Hs & Ha)]. apply in_map_iff in Hg. destruct Hg as (s' & <- & _). destruct Hs as [->|[]]. exists s. split; [reflexivity|now apply Hab]. }
  destruct (Hr t i _ Ht Hi Hall) as (i' & l & H1 & H2 & H3). exists i', l. split; [exact H1|]. split; [exact H2|].
  assert (length ps <= length (map (fun s => [s]) (node_set listed t i))); [|lia].
  apply NoDup_incl_length; [apply Hps|]. intros g Hg. apply (proj2 Hps) in Hg. apply (proj2 Hall). destruct Hg as [Hg Hs]. split; [|exact Hs].
  apply in_map_iff in Hg. destruct Hg as (s & <- & HsA). apply in_map_iff. exists s. split; [reflexivity|]. apply in_seq. specialize (Hd s HsA). lia.
Qed.

Section Pipeline.
Variables (listed : list nat -> list nat) (sig : Q -> Q) (ts : list mtree) (stacked : nat) (boosted : bool) (d w k : nat) (h : shap_acv)
  (proba : mat -> outcome (list (list Q))) (X data : marg) (xs zs : list (list Q)) (fX ys : list nat).
Hypothesis HE : explainable listed sig ts stacked boosted d w k h proba X data xs zs fX ys [[]].
Variable by_count : list nat -> list nat.
Hypothesis Hcount : counted (flat_list h) (by_count (flat_list h)).
Variables (sched : list nat -> list (nat * nat)) (pi : Q) (minimal : nat) (stop : bool) (e : answer).
Hypothesis Hs : all_leaves ts sched.
Hypothesis H0 : (0 < pi)%Q.
Hypothesis He : acv_explain h proba sched by_count X data [[]] pi minimal stop = Returned e.
Notation N := (length xs).

Lemma answer_rows i : i < N -> exists A, nth_error (e_index e) i = Some (AdapSpec.listed d A) /\ nth_error (e_size e) i = Some (length A) /\ columns_ok d A.
Proof.
  intro Hi. destruct (va_ok _ _ _ _ _ _ _ _ _ _ _ _ _ _ _ _ _ HE by_count Hcount) as [G _].
  destruct (explain_state _ _ _ _ _ _ _ _ _ _ _ _ _ _ _ _ _ HE by_count Hcount sched Hs pi minimal stop) as (st & ce & E & R).
  pose proof He as He'. rewrite R in He'. injection He' as <-.
  pose proof (clf_search_refines (leaf_table (table_of (h_acv h))) d (combine (map point zs) ys) (fun k => nth k (map point xs) (fun _ => 0%Q)) (fun k => nth k fX 0) sched (treats_perm _ _ (sched_treats _ _ _ _ _ _ _ _ _ _ _ _ _ _ _ _ _ HE sched Hs)) true v_tree pi eq_refl
    cut15 stop N (tree_space_groups d (by_count (flat_list h)) [[]]) minimal) as Q. rewrite E in Q. cbn in Q. symmetry in Q.
  assert (Hsing : forall g, In g (tree_space_groups d (by_count (flat_list h)) [[]]) -> length g = 1).
  { intros g Hg. destruct (va_searched _ _ _ _ _ _ _ _ _ _ _ _ _ _ _ _ _ HE by_count Hcount) as (_ & _ & _ & A & B).
    assert (Hne : g <> []) by (intros ->; now apply G).
    destruct (le_lt_dec d 10) as [Hd|Hd].
    - apply (proj2 (A Hd)) in Hg. destruct Hg as [[[<-|[]] _]|(s0 & _ & _ & ->)]; [contradiction|reflexivity].
    - destruct (B Hd) as (sp & _ & Hsp). apply Hsp in Hg. destruct Hg as [[[<-|[]] _]|(s0 & -> & _)]; [contradiction|reflexivity]. }
  destruct (search_columns _ _ _ _ _ _ _ _ _ _ i G Hsing H0 Hi Q) as (A & A1 & A2 & A3).
  exists A. unfold collect. cbn [e_index e_size]. rewrite !nth_error_map, (nth_error_nth' _ 0) by (rewrite seq_length; lia). rewrite seq_nth by lia. cbn [option_map Nat.add].
  now rewrite A1, A2.
Qed.
Lemma answer_shape : length (e_index e) = N /\ length (e_size e) = N.
Proof.
  destruct (explain_state _ _ _ _ _ _ _ _ _ _ _ _ _ _ _ _ _ HE by_count Hcount sched Hs pi minimal stop) as (st & ce & E & R).
  pose proof He as He'. rewrite R in He'. injection He' as <-. unfold collect. cbn [e_index e_size]. now rewrite !map_length, seq_length.
Qed.
Definition own_A (i : nat) : list nat := map Z.to_nat (firstn (nth i (e_size e) 0) (nth i (e_index e) [])).
Lemma own_A_is i : i < N -> nth_error (e_index e) i = Some (AdapSpec.listed d (own_A i)) /\ nth_error (e_size e) i = Some (length (own_A i)) /\ columns_ok d (own_A i).
Proof.
  intro Hi. destruct (answer_rows i Hi) as (A & A1 & A2 & A3).
  assert (own_A i = A); [|now subst A]. unfold own_A. rewrite (nth_error_nth _ _ 0 A2), (nth_error_nth _ _ [] A1), firstn_listed, map_map.
  rewrite (map_ext _ (fun c => c)) by (intro; apply Nat2Z.id). apply map_id.
Qed.
Lemma null_exists : exists Ns, get_null_coalition d (e_index e) (e_size e) = Some Ns /\ length Ns = N.
Proof.
  destruct answer_shape as [L1 L2]. destruct (get_null_some d (e_index e) (e_size e)) as (Ns & E & El); [congruence| |exists Ns; split; [exact E|congruence]].
  intros i s n H1 H2. assert (Hi : i < N) by (rewrite <- L1; now apply nth_error_lt in H1).
  destruct (own_A_is i Hi) as (A1 & A2 & A3). rewrite A1 in H1. rewrite A2 in H2. injection H1 as <-. injection H2 as <-.
  destruct (null_listed d (own_A i) A3) as (nul & _ & Enul). eauto.
Qed.
Variables (data0 : marg) (zs0 : list (list Q)).
Hypothesis Hd0 : is_table data0 d zs0.
Hypothesis Hh : construct_shap listed sig ts stacked boosted data0 = Some h.
Variable Ns : list (list Z).
Hypothesis HNs : get_null_coalition d (e_index e) (e_size e) = Some Ns.
Definition own_O (i : nat) : list nat := map Z.to_nat (skipn (length (own_A i)) (nth i Ns [])).
Lemma own_O_is i : i < N -> complement_of d (own_A i) (own_O i) /\ exists n, nth_error Ns i = Some n /\ skipn (length (own_A i)) n = map Z.of_nat (own_O i).
Proof.
  intro Hi. destruct (own_A_is i Hi) as (A1 & A2 & A3).
  destruct (get_null_row d (e_index e) (e_size e) Ns i _ _ HNs A1 A2) as (n & En & Enul).
  destruct (null_listed d (own_A i) A3) as (nul & Hc & E). rewrite E in Enul. injection Enul as <-.
  assert (Eo : own_O i = nul).
  { unfold own_O. rewrite (nth_error_nth _ _ [] En), skipn_null, map_map. rewrite (map_ext _ (fun c => c)) by (intro; apply Nat2Z.id). apply map_id. }
  rewrite Eo. split; [exact Hc|]. eexists. split; [exact En|]. apply skipn_null.
Qed.
Notation singles l := (map (fun s => [s]) l).
Lemma no_coalitions : coalitions_ok [[]] d.
Proof. split; [constructor|]. split; [contradiction|reflexivity]. Qed.
Lemma pipeline_adapted : adapted ts stacked d w k data0 zs0 X xs d [[]] (Z_array I64 d (e_index e)) (Z_array I64 d Ns) (S_array I64 (e_size e))
  own_A own_O (fun i => singles (own_A i)).
Proof.
  destruct HE as (HL & Hok & _ & HX & Hxs & _).
  assert (Hd : 0 < d). { destruct (h_facts listed sig ts stacked boosted d data0 zs0 h Hd0 Hh) as (_ & H & _). exact H. }
  destruct answer_shape as [L1 L2]. destruct null_exists as (Ns' & E & El). rewrite HNs in E. injection E as <-.
  split; [exact HX|]. split; [exact Hxs|]. split; [exact Hd|].
  exists d, d, (e_index e), Ns, (e_size e). split; [right; right; now exists I64|]. split; [exact Hd|]. split; [right; right; now exists I64|]. split; [exact Hd|].
  split; [intros ->; cbn in El; destruct xs; [congruence|discriminate]|]. split; [right; now left|]. split; [exact L1|].
  intros i x Hx. pose proof (nth_error_lt _ _ _ Hx) as Hi. destruct (own_A_is i Hi) as (A1 & A2 & [A3 A4]). split; [exact A2|]. split.
  - intro Hl. split; [exact Hok|]. split; [exact Hd0|]. split; [right; right; now exists F64|]. split; [discriminate|]. split; [lia|]. split; [exact no_coalitions|]. split; [discriminate|].
    assert (Hin : forall c, c < d -> In c (own_A i)).
    { intros c Hc. assert (Hincl : incl (seq 0 d) (own_A i)); [|apply Hincl, in_seq; lia].
      apply NoDup_length_incl; [exact A3|rewrite seq_length; lia|]. intros s Hs'. apply in_seq. specialize (A4 s Hs'). lia. }
    split; [apply FinFun.Injective_map_NoDup; [intros a b Eab; now injection Eab|exact A3]|]. intro g. rewrite in_map_iff. split.
    + intros (s & <- & Hs'). right. exists s. split; [now apply A4|]. split; [cbn; tauto|reflexivity].
    + intros [[[<-|[]] K]|(s & Hs' & _ & ->)]; [contradiction|]. exists s. split; [reflexivity|now apply Hin].
  - intro Hl. destruct (own_O_is i Hi) as ([O1 O2] & n & En & Fn). split.
    + split; [exact Hok|]. split; [exact Hd0|]. split; [right; right; now exists F64|]. split; [discriminate|]. split; [lia|]. split; [exact no_coalitions|]. split; [discriminate|].
      split; [exact (acv_va_ids_players [[]] d (own_A i) no_coalitions A3)|]. split; [exact A3|]. split; [exact A4|]. split; [exact O1|]. split; [intros s Hs'; now apply O2|].
      split. { intros g s Hg Hsg. apply in_map_iff in Hg. destruct Hg as (c & <- & Hc). destruct Hsg as [->|[]]. intro K. now apply O2 in K. }
      intros t l s Ht Hlf Ha. pose proof (TreeProofs.above_lt (as_tree t 0) d (proj1 (h_wf ts stacked d w k Hok t Ht)) _ _ Ha).
      destruct (in_dec Nat.eq_dec s (own_A i)); [now left|right; now apply O2].
    + exists (AdapSpec.listed d (own_A i)), n. split; [exact A1|]. split; [exact En|]. split; [apply firstn_listed|exact Fn].
Qed.
Lemma pipeline_room : room ts (singles (seq 0 d)) -> forall i, i < N -> room ts (singles (own_A i)).
Proof.
  intros Hr i Hi. destruct HE as (HL & Hok & _). destruct (own_A_is i Hi) as (_ & _ & A3 & A4).
  exact (single_room listed ts stacked d w k (own_A i) HL Hok A3 A4 Hr).
Qed.
Lemma entries_and o rows m0 k0 P1 P2 : entries_at o rows m0 k0 P1 -> entries_at o rows m0 k0 P2 -> entries_at o rows m0 k0 (fun i x f => P1 i x f /\ P2 i x f).
Proof.
  intros (r1 & E1 & L1 & H1) (r2 & E2 & L2 & H2). assert (r1 = r2) by congruence. subst r2. exists r1. split; [exact E1|]. split; [exact L1|].
  intros i x Hx. destruct (H1 i x Hx) as (t1 & T1 & T2 & T3 & T4). destruct (H2 i x Hx) as (t2 & U1 & U2 & U3 & U4). assert (t1 = t2) by congruence. subst t2.
  exists t1. split; [exact T1|]. split; [exact T2|]. split; [exact T3|]. now split.
Qed.
Lemma entries_mono o rows m0 k0 (P1 P2 : nat -> list Q -> (nat -> nat -> option Q) -> Prop) :
  (forall i x f, nth_error rows i = Some x -> P1 i x f -> P2 i x f) -> entries_at o rows m0 k0 P1 -> entries_at o rows m0 k0 P2.
Proof.
  intros HP (r1 & E1 & L1 & H1). exists r1. split; [exact E1|]. split; [exact L1|]. intros i x Hx. destruct (H1 i x Hx) as (t1 & T1 & T2 & T3 & T4).
  exists t1. split; [exact T1|]. split; [exact T2|]. split; [exact T3|]. now apply HP.
Qed.
Lemma own_pipeline o : called ts h X (Z_array I64 d (e_index e)) (Z_array I64 d Ns) (S_array I64 (e_size e)) [[]] o ->
  room ts (singles (seq 0 d)) -> filled ts zs0 ->
  entries_at o xs d k (fun i x f => exists A, columns_ok d A /\ nth_error (e_size e) i = Some (length A) /\
    (exists row, nth_error (e_index e) i = Some row /\ firstn (length A) row = map Z.of_nat A) /\
    (A = [] -> forall c j, c < d -> j < k -> f c j = None) /\
    (A <> [] -> (forall c j, c < d -> j < k -> ~ In c A -> exists q, f c j = Some q /\ (q == 0)%Q) /\
       forall j v vs, j < k -> adds_up (raw_share stacked) ts j x v -> Forall2 (adds_up (raw_share stacked) ts j) zs0 vs ->
       exists q, (forall c, In c A -> f c j = Some (q c)) /\ (sumf q A == v - mean (fun v => v) vs)%Q)).
Proof.
  intros Hc Hr HF. pose proof (proj1 HE) as HL. pose proof pipeline_adapted as HA. pose proof (pipeline_room Hr) as Hroom.
  pose proof (own_nobody listed sig ts stacked boosted d w k data0 zs0 h X xs d [[]] _ _ _ own_A own_O _ HL HA Hh o Hc Hroom) as G1.
  assert (Hrep : forall i g, In g (singles (own_A i)) -> i < N -> In (hd 0 g) g /\ hd 0 g < d).
  { intros i g Hg Hi. apply in_map_iff in Hg. destruct Hg as (c & <- & Hc'). split; [now left|]. destruct (own_A_is i Hi) as (_ & _ & _ & A4). now apply A4. }
  pose proof (own_adds listed sig ts stacked boosted d w k data0 zs0 h X xs d [[]] _ _ _ own_A own_O _ HL HA Hh o (fun _ => hd 0) Hc Hroom) as G2.
  cbv beta in G2.
  assert (Hrep2 : forall i g, In g (singles (own_A i)) -> In (hd 0 g) g /\ hd 0 g < d).
  { intros i g Hg. destruct (le_lt_dec N i) as [Hi|Hi]; [exfalso|now apply (Hrep i)].
    unfold own_A in Hg. destruct answer_shape as [L1 L2]. rewrite (nth_overflow (e_size e)) in Hg by lia. exact Hg. }
  specialize (G2 Hrep2 HF). refine (entries_mono _ _ _ _ _ _ _ (entries_and _ _ _ _ _ _ G1 G2)). intros i x f Hx [B1 B2].
  pose proof (nth_error_lt _ _ _ Hx) as Hi. destruct (own_A_is i Hi) as (A1 & A2 & A3). exists (own_A i). split; [exact A3|]. split; [exact A2|].
  split; [eexists; split; [exact A1|apply firstn_listed]|]. split.
  - intros E c j Hcd Hj. apply (B1 c j Hcd Hj); [rewrite E; contradiction|now rewrite E].
  - intro Hne. assert (Hne' : singles (own_A i) <> []) by (destruct (own_A i); [congruence|discriminate]). split.
    + intros c j Hcd Hj Hno. refine (proj1 (B1 c j Hcd Hj _) Hne'). intros g Hg Hcg. apply in_map_iff in Hg. destruct Hg as (s & <- & Hs'). destruct Hcg as [->|[]]. contradiction.
    + intros j v vs Hj Hv Hvs. destruct (B2 Hne' j v vs Hj Hv Hvs) as (q & Q1 & Q2). exists (fun c => q [c]). split.
      * intros c Hc'. apply (Q1 [c]). apply in_map_iff. now exists c.
      * rewrite <- Q2. rewrite sumf_map. reflexivity.
Qed.
End Pipeline.

Lemma pipeline listed sig ts stacked boosted d w k h proba X data xs zs fX ys :
  explainable listed sig ts stacked boosted d w k h proba X data xs zs fX ys [[]] ->
  forall by_count, counted (flat_list h) (by_count (flat_list h)) -> forall sched pi minimal stop e, all_leaves ts sched -> (0 < pi)%Q ->
  acv_explain h proba sched by_count X data [[]] pi minimal stop = Returned e ->
  forall data0 zs0, is_table data0 d zs0 -> construct_shap listed sig ts stacked boosted data0 = Some h ->
  exists Ns, get_null_coalition d (e_index e) (e_size e) = Some Ns /\
  forall o, called ts h X (Z_array I64 d (e_index e)) (Z_array I64 d Ns) (S_array I64 (e_size e)) [[]] o ->
  room ts (map (fun c => [c]) (seq 0 d)) -> filled ts zs0 ->
  entries_at o xs d k (fun i x f => exists A, columns_ok d A /\ nth_error (e_size e) i = Some (length A) /\
    (exists row, nth_error (e_index e) i = Some row /\ firstn (length A) row = map Z.of_nat A) /\
    (A = [] -> forall c j, c < d -> j < k -> f c j = None) /\
    (A <> [] -> (forall c j, c < d -> j < k -> ~ In c A -> exists q, f c j = Some q /\ (q == 0)%Q) /\
       forall j v vs, j < k -> adds_up (raw_share stacked) ts j x v -> Forall2 (adds_up (raw_share stacked) ts j) zs0 vs ->
       exists q, (forall c, In c A -> f c j = Some (q c)) /\ (sumf q A == v - mean (fun v => v) vs)%Q)).
Proof.
  intros HE by_count Hc sched pi minimal stop e Hs H0 He data0 zs0 Hd0 Hh.
  destruct (null_exists listed sig ts stacked boosted d w k h proba X data xs zs fX ys HE by_count Hc sched pi minimal stop e Hs H0 He) as (Ns & E & _).
  exists Ns. split; [exact E|].
  exact (own_pipeline listed sig ts stacked boosted d w k h proba X data xs zs fX ys HE by_count Hc sched pi minimal stop e Hs H0 He data0 zs0 Hd0 Hh Ns E).
Qed.

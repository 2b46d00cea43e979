(** Proofs for SufModel.v. *)
From Verif Require Import Base GameSpec SkModel SearchModel SearchSpec SearchProofs ExplSpec RfModel RfSpec RfProofs RulesModel RulesSpec RulesProofs AnnealModel AnnealSpec AnnealProofs
  MaxModel MaxProofs ApiModel ApiSpec ApiProofs AgnModel AgnSpec AgnProofs AxsModel AxsSpec AxsProofs BoxSpec BoxProofs CrsModel CrsSpec CrsProofs SufModel SufSpec.
From Verif Require ImpModel ImpSpec ImpProofs2.
Local Open Scope nat_scope.

Section Suf.
Variables (d w : nat) (es : list sk) (Ts : list rtree) (stray : RfModel.row) (classifier : bool) (q : pt -> Q * Q) (imp : nat -> Q) (order : list nat)
  (D : list pt) (Y : list Q).
Hypothesis HT : trained d w es Ts D Y.
Notation M := (dense (map ranger_tree es) stray).
Notation N := (length D).
Notation dep := (tallest Ts).

Lemma trees_pos : 0 < F_trees M.
Proof.
  destruct HT as (A1 & A2 & _). rewrite (len_trees d w es Ts stray A2). destruct A2 as [|e T es' Ts' _ _]; [congruence|cbn; lia].
Qed.

(** ** What the methods answer for one observation *)
Lemma single_due r order1 z yz lv Sv m : In r [sdp_rf; sdp_rule; ddp_weights] -> complete (S (length Ts)) 1 order1 ->
  let v := due M (rows_of D) (vals_of Y) N dep m classifier r z yz 0%Q 0%Q Sv rule0 (fst lv) (snd lv) in
  let s := single r d es stray classifier q D Y m order1 z yz lv Sv in
  fst (fst s) = fst (fst v) /\ (r = sdp_rule -> snd (fst s) = snd (fst v)) /\ (r = ddp_weights -> snd s = snd v).
Proof.
  intros Hr Ho. cbv zeta. unfold single. set (a := mkArgs [z] [yz] [] [] (S_rows [Sv]) []).
  destruct (call_rows d w es Ts stray classifier q D Y m HT r a [Sv] (T_matrix [[fst lv; snd lv]]) order1 (fun _ => lv)) as (res & E & R).
  - cbn in Hr |- *. tauto.
  - split; [reflexivity|discriminate].
  - split; [reflexivity|]. split; [reflexivity|]. split; intro B; exfalso; cbn in B, Hr; decompose [or] Hr; subst; decompose [or] B; (discriminate || contradiction).
  - right; right. eexists. split; [reflexivity|]. split; [reflexivity|]. intros i Hi. cbn in Hi. assert (i = 0) by lia. subst i. now exists [].
  - exact Ho.
  - rewrite E. destruct R as (R1 & R2 & _ & R4 & _). cbn [fst snd]. rewrite R1. cbn [a g_X length seq map nth g_y g_down g_up g_cond fst snd]. split; [reflexivity|]. split; intros ->.
    + rewrite (R2 ltac:(cbn; tauto)). reflexivity.
    + rewrite (R4 ltac:(cbn; tauto)). reflexivity.
Qed.

(** ** The tables *)
Variables (X : list pt) (y : list Q) (t : targ).
Notation n := (length X).
Hypothesis HX : table X y.
Hypothesis Ht : levels_fit classifier n t.
Notation lv i := (if classifier then (0%Q, 0%Q) else levels_at q X t i).
Notation xi i := (nth i X (fun _ => 0%Q)).
Notation yi i := (nth i y 0%Q).
Notation OWN i Sv := (max_own M (rows_of D) (vals_of Y) N dep node_size classifier (fst (lv i)) (snd (lv i)) Sv (xi i) (yi i)).
Notation ROW i Sv := (max_row M (rows_of D) (vals_of Y) N dep node_size classifier (fst (lv i)) (snd (lv i)) Sv (xi i) (yi i)).
Notation SDP i Sv z := (compute_sdp_rf M (rows_of D) (vals_of Y) N dep node_size classifier (fst (lv i)) (snd (lv i)) Sv z (yi i)).

Lemma suf_args : complete_args by_sdp classifier (mkArgs X y [] [] (S_rows []) []) D Y t.
Proof.
  destruct HT as (A1 & A2 & A3 & A4). split; [exact HX|]. split; [exact A4|]. split; [discriminate|]. split; [intros [|]; discriminate|exact Ht].
Qed.
Lemma tables_rows Ss scheds : length Ss = n -> (forall i, i < n -> complete (S (length Ts)) N (scheds i)) ->
  exists tb, maxrule_tables d es stray classifier q D Y X y Ss t scheds = Gives tb /\ forall i, i < n ->
    (b_sdp (m_own tb) i, b_part (m_own tb) i, b_w (m_own tb) i) = OWN i (nth i Ss []) /\
    forall j, j < N -> (m_sdp tb i j, m_part tb i j) = ROW i (nth i Ss []) j.
Proof.
  intros HS Hsc. pose proof HT as (A1 & A2 & A3 & A4). unfold maxrule_tables.
  rewrite (proj2 (checked_spec _ _) HX), (proj2 (checked_spec _ _) A4). cbn [andb negb]. rewrite HS, Nat.eqb_refl. cbn [negb].
  destruct (build_ok d w es Ts A1 A2 (or_introl A3)) as (o & -> & Et & _ & Ed). rewrite Et, Ed.
  destruct (levels_of_args by_sdp classifier q (mkArgs X y [] [] (S_rows []) []) D Y t suf_args) as (_ & tl & E & _ & L). cbn [g_X] in E, L. rewrite E. cbn [convert].
  set (a := mkArgs X y [] [] (S_rows Ss) []).
  assert (K : map (row_args classifier sdp_rule a (S_rows Ss) (L_matrix tl)) (seq 0 n) = map Some (map (row_of_args a (fun i => nth i Ss []) (fun i => lv i)) (seq 0 n))).
  { apply map_Some_seq. intros i Hi. apply row_args_some; cbn [a g_X g_y g_down g_up g_cond]; auto.
    - symmetry. apply HX.
    - intro B. exfalso. cbn in B. decompose [or] B; (discriminate || contradiction).
    - intro B. exfalso. cbn in B. decompose [or] B; (discriminate || contradiction).
    - cbn. apply nth_error_nth'. lia.
    - unfold level_entry. rewrite L by exact Hi. reflexivity. }
  rewrite K. clear K. assert (K : forall A (l : list A), all_some (map Some l) = Some l) by (intros A l; induction l as [|b l IH]; [reflexivity|cbn; now rewrite IH]).
  rewrite K. eexists. split; [reflexivity|]. intros i Hi.
  set (l := map _ (seq 0 n)). assert (Ll : length l = n) by (unfold l; now rewrite map_length, seq_length).
  assert (Hc : complete (S (F_trees M)) N (scheds i)) by (rewrite (len_trees d w es Ts stray A2); now apply Hsc).
  pose proof (max_tables_row M dep (rows_of D) (vals_of Y) N node_size classifier l scheds i ltac:(lia) Hc) as R. cbv beta zeta in R.
  assert (En : nth i l no_args = row_of_args a (fun i => nth i Ss []) (fun i => lv i) i) by (unfold l; now rewrite nth_map_seq).
  rewrite En in R. unfold row_of_args in R. cbn [a_x a_y a_down a_up a_S a_cond a_t0 a_t1 a g_X g_y] in R. exact R.
Qed.

Variables (G : Type) (rand : G -> Q * G) (randint : nat -> G -> nat * G) (exp : Q -> Q) (lg : nat -> Q).
Variables (sched : list nat -> list nat -> list nat) (scheds : nat -> list nat) (pi : Q) (algo2 : bool) (h : annealing) (gs : nat -> G).
Hypothesis HR : ranked imp d order.
Hypothesis Hf : fair (length Ts) n sched.
Hypothesis Hsc : forall i, i < n -> complete (S (length Ts)) N (scheds i).
Hypothesis H0 : (0 < pi)%Q.
Hypothesis H1 : (pi <= 1)%Q.
Notation run := (run_sufficient_rules rand randint exp lg d es stray classifier q order D Y sched scheds X y t pi algo2 h gs).
Notation va := (search_groups [[]] (ExplModel.agnostic_space d order)).
Notation ar := (mkArgs X y [] [] (S_rows []) []).

Lemma suf_searchable : searchable d w es Ts classifier imp order sched by_sdp ar D Y t [[]].
Proof.
  destruct HT as (A1 & A2 & A3 & A4). split; [exact A1|]. split; [exact A2|]. split; [exact A3|]. split; [exact suf_args|].
  split; [apply no_coalition|]. split; [discriminate|]. split; [exact HR|exact Hf].
Qed.

(** the own rule of an observation is part of the enlarged one *)
Lemma own_rule_spec i Sv order1 : complete (S (length Ts)) 1 order1 ->
  snd (fst (OWN i Sv)) = cell d es stray classifier q D Y node_size order1 (xi i) (yi i) (lv i) Sv /\
  fst (fst (OWN i Sv)) = same_decision d es stray classifier q D Y node_size order1 (xi i) (yi i) (lv i) Sv /\
  snd (OWN i Sv) = row_weights d es stray classifier q D Y node_size order1 (xi i) (yi i) (lv i) Sv.
Proof.
  intro Ho. unfold cell, same_decision, row_weights.
  destruct (single_due sdp_rule order1 (xi i) (yi i) (lv i) Sv node_size ltac:(cbn; tauto) Ho) as (_ & A & _).
  destruct (single_due sdp_rf order1 (xi i) (yi i) (lv i) Sv node_size ltac:(cbn; tauto) Ho) as (B & _ & _).
  destruct (single_due ddp_weights order1 (xi i) (yi i) (lv i) Sv node_size ltac:(cbn; tauto) Ho) as (_ & _ & C).
  rewrite (A eq_refl), B, (C eq_refl). cbn [due fst snd]. unfold max_own. split; [reflexivity|]. split; [apply rule_prob_statement|].
  symmetry. apply (rule_family M (rows_of D) (vals_of Y) N dep node_size classifier (fst (lv i)) (snd (lv i)) Sv (xi i) (yi i) 0%Q 0%Q).
Qed.
Lemma sdp_spec i Sv z order1 : complete (S (length Ts)) 1 order1 ->
  SDP i Sv z = same_decision d es stray classifier q D Y node_size order1 z (yi i) (lv i) Sv.
Proof. intro Ho. unfold same_decision. destruct (single_due sdp_rf order1 z (yi i) (lv i) Sv node_size ltac:(cbn; tauto) Ho) as (B & _ & _). rewrite B. reflexivity. Qed.
Lemma cell_spec i Sv z order1 : complete (S (length Ts)) 1 order1 ->
  snd (fst (compute_sdp_rule_weights M (rows_of D) (vals_of Y) N dep node_size classifier (fst (lv i)) (snd (lv i)) Sv z (yi i))) =
  cell d es stray classifier q D Y node_size order1 z (yi i) (lv i) Sv.
Proof. intro Ho. unfold cell. destruct (single_due sdp_rule order1 z (yi i) (lv i) Sv node_size ltac:(cbn; tauto) Ho) as (_ & B & _). rewrite (B eq_refl). reflexivity. Qed.

(** the levels of the documentation and those of the call: the same in regression, none are read in classification *)
Lemma told_sdp order1 i Sv : complete (S (length Ts)) n order1 -> i < n ->
  told d es stray classifier q order1 by_sdp ar D Y node_size t i Sv = SDP i Sv (xi i).
Proof.
  intros Ho Hi. rewrite (told_prob d w es Ts stray classifier q imp order sched by_sdp ar D Y t [[]] node_size suf_searchable order1 Ho i Sv Hi).
  unfold prob. cbn [method asked due g_X g_y fst]. now destruct classifier.
Qed.

(** ** The run *)
Definition enlarged_by (tb : mst) (Ss : list (list nat)) (i : nat) (r : rule) : Prop := enlarge rand randint exp lg d D algo2 Ss tb pi h gs i = Gives r.
Lemma run_parts st : run = Gives st <->
  exists e tb rs, acx_importance d es stray classifier q order sched by_sdp ar D Y node_size t [[]] pi 1 false = Gives e /\
    maxrule_tables d es stray classifier q D Y X y (map fst (split_sets d e)) t scheds = Gives tb /\
    Forall2 (enlarged_by tb (map fst (split_sets d e))) (seq 0 n) rs /\
    st = mkSufficient (map fst (split_sets d e)) (map snd (split_sets d e)) (map (b_sdp (m_own tb)) (seq 0 n)) rs (map (m_sdp tb) (seq 0 n)) (map (m_part tb) (seq 0 n))
           (map (b_w (m_own tb)) (seq 0 n)).
Proof.
  unfold run_sufficient_rules. split.
  - destruct (acx_importance _ _ _ _ _ _ _ _ _ _ _ _ _ _ _ _ _) as [e| |]; cbn [next]; try discriminate. cbv zeta.
    destruct (maxrule_tables _ _ _ _ _ _ _ _ _ _ _ _) as [tb| |] eqn:E2; cbn [next]; try discriminate.
    destruct (all_give _ _) as [rs| |] eqn:E3; cbn [next]; try discriminate. intro H. injection H as <-.
    exists e, tb, rs. apply all_give_spec in E3. auto.
  - intros (e & tb & rs & -> & E2 & E3 & ->). cbn [next]. cbv zeta. rewrite E2. cbn [next]. apply all_give_spec in E3. rewrite E3. reflexivity.
Qed.
Lemma run_gives : (algo2 = false -> (forall n g, 0 < n -> fst (randint n g) < n) /\ 0 < h_batch h) -> exists st, run = Gives st.
Proof.
  intro Hg. pose proof suf_searchable as HE.
  destruct (run_returns d w es Ts stray classifier q imp order sched by_sdp ar D Y t [[]] node_size HE pi 1 false H0 H1) as (e & Ee & _).
  destruct (run_split d w es Ts stray classifier q imp order sched by_sdp ar D Y t [[]] node_size HE pi 1 false H0 H1 e Ee) as [Ln _]. cbn [g_X] in Ln.
  destruct (tables_rows (map fst (split_sets d e)) scheds ltac:(now rewrite map_length) Hsc) as (tb & Et & _).
  destruct (all_give_some (enlarge rand randint exp lg d D algo2 (map fst (split_sets d e)) tb pi h gs) (seq 0 n)) as (rs & Er).
  - intros i _. unfold enlarge. destruct algo2.
    + unfold extend_partition. destruct (find_union_defined (b_part (m_own tb) i) (map (m_part tb i) (filter (fun j => qleb pi (m_sdp tb i j)) (seq 0 N))) (nth i (map fst (split_sets d e)) [])) as [r ->].
      eexists. reflexivity.
    + destruct (Hg eq_refl) as [Hr Hb]. destruct HT as (_ & _ & A3 & _).
      edestruct (annealing_defined rand randint exp lg (h_temp h) Hr) as [_ [p Ep]]; [exact Hb|left; exact A3|]. rewrite Ep. eexists. reflexivity.
  - eexists. apply run_parts. exists e, tb, rs. apply all_give_spec in Er. eauto 10.
  Unshelve. exact [].
Qed.

Section Got.
Variable st : sufficient.
Hypothesis Hst : run = Gives st.
Lemma run_lengths : length (u_star st) = n /\ length (u_bar st) = n /\ length (u_sdp st) = n /\ length (u_rules st) = n /\
  length (u_sdp_all st) = n /\ length (u_rules_data st) = n /\ length (u_w st) = n.
Proof.
  apply run_parts in Hst. destruct Hst as (e & tb & rs & Ee & _ & Er & ->). cbn [u_star u_bar u_sdp u_rules u_sdp_all u_rules_data u_w].
  destruct (run_split d w es Ts stray classifier q imp order sched by_sdp ar D Y t [[]] node_size suf_searchable pi 1 false H0 H1 e Ee) as [Ln _]. cbn [g_X] in Ln.
  rewrite !map_length, seq_length, Ln. apply forall2_len in Er. rewrite seq_length in Er. repeat split; congruence.
Qed.
Lemma run_sets_of i order1 : i < n -> complete (S (length Ts)) n order1 ->
  let Sv := nth i (u_star st) [] in
  NoDup Sv /\ (forall s, In s Sv -> s < d) /\ nth i (u_bar st) [] = complement d Sv /\
  divergent_set d va false pi (told d es stray classifier q order1 by_sdp ar D Y node_size t i) Sv.
Proof.
  intros Hi Ho. apply run_parts in Hst. destruct Hst as (e & tb & rs & Ee & _ & _ & ->). cbn [u_star u_bar].
  destruct (run_split d w es Ts stray classifier q imp order sched by_sdp ar D Y t [[]] node_size suf_searchable pi 1 false H0 H1 e Ee) as [_ Sp].
  destruct (Sp i Hi) as (Sv & K1 & K2 & K3 & K4 & K5). cbv zeta. rewrite K3, K4. split; [exact K1|]. split; [exact K2|]. split; [reflexivity|].
  exact (search_outcome d w es Ts stray classifier q imp order D Y sched t false pi H0 H1 by_sdp ar e order1 i node_size suf_searchable Ee Ho Hi Sv K5).
Qed.
Lemma run_rows i : i < n -> let Sv := nth i (u_star st) [] in
  nth i (u_sdp st) 0%Q = fst (fst (OWN i Sv)) /\ nth i (u_w st) (fun _ => 0%Q) = snd (OWN i Sv) /\
  (forall j, j < N -> (nth i (u_sdp_all st) (fun _ => 0%Q) j, nth i (u_rules_data st) (fun _ => rule0) j) = ROW i Sv j) /\
  exists tb, (forall j, j < N -> (m_sdp tb i j, m_part tb i j) = ROW i Sv j) /\ b_part (m_own tb) i = snd (fst (OWN i Sv)) /\
    enlarged_by tb (u_star st) i (nth i (u_rules st) rule0).
Proof.
  intro Hi. apply run_parts in Hst. destruct Hst as (e & tb & rs & Ee & Et & Er & ->). cbn [u_star u_bar u_sdp u_rules u_sdp_all u_rules_data u_w]. cbv zeta.
  destruct (run_split d w es Ts stray classifier q imp order sched by_sdp ar D Y t [[]] node_size suf_searchable pi 1 false H0 H1 e Ee) as [Ln _]. cbn [g_X] in Ln.
  destruct (tables_rows (map fst (split_sets d e)) scheds ltac:(now rewrite map_length) Hsc) as (tb' & Et' & R). rewrite Et in Et'. injection Et' as <-.
  destruct (R i Hi) as [R1 R2]. rewrite !(nth_map_seq _ n i) by exact Hi. rewrite <- R1. cbn [fst snd]. split; [reflexivity|]. split; [reflexivity|]. split; [exact R2|].
  exists tb. split; [exact R2|]. split; [reflexivity|]. pose proof (forall2_len _ _ _ Er) as L. rewrite seq_length in L.
  destruct (forall2_nth_error _ _ _ i rule0 Er ltac:(lia)) as (k & Ek & Hk). rewrite (nth_error_nth' (seq 0 n) 0) in Ek by (rewrite seq_length; exact Hi).
  rewrite seq_nth in Ek by exact Hi. injection Ek as <-. exact Hk.
Qed.

Notation Sv i := (nth i (u_star st) []).
Lemma rule_of_annealing i : i < n -> algo2 = false -> exists tb p,
  (forall j, j < N -> (m_sdp tb i j, m_part tb i j) = ROW i (Sv i) j) /\
  rules_by_annealing rand randint exp lg (h_temp h) (volume_rectangle d (col_max (rows_of D) N) (col_min (rows_of D) N))
     (snd (fst (OWN i (Sv i)))) (m_part tb i) (m_sdp tb i) pi d N (rows_of D) (h_p_best h) (h_n_try h) (h_batch h) (h_max_iter h) (h_conv h) (gs i)
  = Some (nth i (u_rules st) rule0, fst p, snd p).
Proof.
  intros Hi E. destruct (run_rows i Hi) as (_ & _ & _ & tb & R1 & R2 & R3). unfold enlarged_by, enlarge in R3. rewrite E, R2 in R3.
  destruct (rules_by_annealing _ _ _ _ _ _ _ _ _ _ _ _ _ _ _ _ _ _ _) as [[[r v] l]|] eqn:Ea; cbn [option_map fst] in R3; [|discriminate].
  injection R3 as R3. exists tb, (v, l). split; [exact R1|]. cbn [fst snd]. rewrite <- R3. exact Ea.
Qed.
Lemma annealing_wider i : i < n -> algo2 = false -> wider d (nth i (u_rules st) rule0) (snd (fst (OWN i (Sv i)))).
Proof.
  intros Hi E. destruct (rule_of_annealing i Hi E) as (tb & p & R & Ea). apply annealing_full in Ea. destruct Ea as [K1 [_ K2]].
  destruct (K2 _ K1) as [_ [Gr _]]. apply (Gr (adjacent N (m_part tb i) (m_sdp tb i) pi)).
  intro r. unfold adjacent. rewrite in_map_iff. split.
  - intros [k [Ek Hk]]. apply filter_In in Hk. destruct Hk as [Hk Hq]. apply in_seq in Hk. exists k. split; [lia|]. split; [|now symmetry]. now apply qleb_true.
  - intros [k [Hk [Hq Ek]]]. exists k. split; [now symmetry|]. apply filter_In. split; [apply in_seq; lia|]. now apply qleb_true.
Qed.
Lemma annealing_iff i : i < n -> algo2 = false ->
  let good j := (0 < nth i (u_w st) (fun _ => 0%Q) j)%Q /\ (pi <= SDP i (Sv i) (rows_of D j))%Q in
  (forall j, j < N -> inside d (nth i (u_rules st) rule0) (rows_of D j) -> good j) <->
  (forall j, j < N -> inside d (snd (fst (OWN i (Sv i)))) (rows_of D j) -> good j).
Proof.
  intros Hi E. cbv zeta. destruct (run_rows i Hi) as (_ & Ew & _). rewrite Ew. destruct (rule_of_annealing i Hi E) as (tb & p & R & Ea).
  pose proof (annealing_valid_iff rand randint exp lg _ _ _ _ _ _ _ _ _ _ _ _ _ _ _ _ _ _ Ea) as V.
  assert (L : forall j, j < N -> (pi <= m_sdp tb i j)%Q <-> (0 < snd (OWN i (Sv i)) j)%Q /\ (pi <= SDP i (Sv i) (rows_of D j))%Q).
  { intros j Hj. specialize (R j Hj). apply (f_equal fst) in R. cbn [fst] in R. rewrite R. apply row_level. exact H0. }
  split; intros K j Hj Hin.
  - apply L; [exact Hj|]. apply (proj1 V); [|exact Hj|exact Hin]. intros k Hk Hk'. apply L, K; assumption.
  - apply L; [exact Hj|]. apply (proj2 V); [|exact Hj|exact Hin]. intros k Hk Hk'. apply L, K; assumption.
Qed.
Lemma annealing_guarantee i : i < n -> algo2 = false -> (pi <= nth i (u_sdp st) 0)%Q ->
  (forall j f, j < N -> In f (Sv i) -> ~ (rows_of D j f == fst (snd (fst (OWN i (Sv i))) f))%Q) ->
  forall j, j < N -> inside d (nth i (u_rules st) rule0) (rows_of D j) ->
    (pi <= SDP i (Sv i) (rows_of D j))%Q /\ (0 < nth i (u_w st) (fun _ => 0%Q) j)%Q.
Proof.
  intros Hi E Hp Hb. destruct (run_rows i Hi) as (Es & Ew & _).
  assert (Hd : forall f, In f (Sv i) -> f < d).
  { pose proof Hst as Hst'. apply run_parts in Hst'. destruct Hst' as (e & tb & rs & Ee & _ & _ & E2).
    destruct (run_split d w es Ts stray classifier q imp order sched by_sdp ar D Y t [[]] node_size suf_searchable pi 1 false H0 H1 e Ee) as [_ Sp].
    destruct (Sp i Hi) as (S & _ & K2 & K3 & _). rewrite E2. cbn [u_star]. now rewrite K3. }
  assert (K : forall j, j < N -> inside d (nth i (u_rules st) rule0) (rows_of D j) -> (0 < nth i (u_w st) (fun _ => 0%Q) j)%Q /\ (pi <= SDP i (Sv i) (rows_of D j))%Q).
  { apply (annealing_iff i Hi E). intros j Hj Hin.
    destruct (row_in M (rows_of D) (vals_of Y) N dep node_size classifier (fst (lv i)) (snd (lv i)) (Sv i) (xi i) (yi i) j trees_pos Hj) as [W [E1 E3]].
    - apply (closed_half M (rows_of D) (vals_of Y) N dep node_size classifier _ _ _ _ _ d j Hd); [|exact Hin]. intros f Hf0. now apply Hb.
    - rewrite Ew. assert (HN : (0 < 1 / Qn N)%Q) by (apply Qlt_shift_div_l; [|lra]; unfold Qn; rewrite <- (Zlt_Qlt 0); lia).
      split; [lra|]. rewrite <- (rule_prob_statement M (rows_of D) (vals_of Y) N dep node_size classifier _ _ _ (rows_of D j)). rewrite E3. rewrite <- Es. exact Hp. }
  intros j Hj Hin. destruct (K j Hj Hin). split; assumption.
Qed.
Lemma extended i : i < n -> algo2 = true -> (forall j f, j < N -> f < d -> (- big < rows_of D j f <= big)%Q) ->
  subrule d (snd (fst (OWN i (Sv i)))) (nth i (u_rules st) rule0) /\ (forall k, ~ In k (Sv i) -> nth i (u_rules st) rule0 k = rule0 k) /\
  forall k, (fst (nth i (u_rules st) rule0 k) = fst (snd (fst (OWN i (Sv i))) k) \/
             exists j, j < N /\ (pi <= fst (ROW i (Sv i) j))%Q /\ fst (nth i (u_rules st) rule0 k) = fst (snd (ROW i (Sv i) j) k)) /\
            (snd (nth i (u_rules st) rule0 k) = snd (snd (fst (OWN i (Sv i))) k) \/
             exists j, j < N /\ (pi <= fst (ROW i (Sv i) j))%Q /\ snd (nth i (u_rules st) rule0 k) = snd (snd (ROW i (Sv i) j) k)).
Proof.
  intros Hi E Hb. destruct (run_rows i Hi) as (Es & Ew & _ & tb & R1 & R2 & R3). unfold enlarged_by, enlarge in R3. rewrite E in R3.
  assert (Hd : forall f, In f (Sv i) -> f < d).
  { pose proof Hst as Hst'. apply run_parts in Hst'. destruct Hst' as (e & tb' & rs & Ee & _ & _ & E2).
    destruct (run_split d w es Ts stray classifier q imp order sched by_sdp ar D Y t [[]] node_size suf_searchable pi 1 false H0 H1 e Ee) as [_ Sp].
    destruct (Sp i Hi) as (S & _ & K2 & K3 & _). rewrite E2. cbn [u_star]. now rewrite K3. }
  destruct (extended_partition (b_part (m_own tb)) (m_part tb) (m_sdp tb) N pi (fun k => Sv k) i d) as [r [K1 [K2 [K3 K4]]]].
  - intros j Hj k Hk. specialize (R1 j Hj). apply (f_equal snd) in R1. cbn [snd] in R1. rewrite R1. unfold max_row. destruct (negb _).
    + pose proof (rule_contains M (rows_of D) (vals_of Y) N dep node_size classifier (fst (lv i)) (snd (lv i)) (Sv i) (rows_of D j) (yi i) (fun f Hf => Hb j f Hj (Hd f Hf)) k Hk). lra.
    + cbn. vm_compute. discriminate.
  - rewrite K1 in R3. injection R3 as <-. rewrite R2 in K2, K3, K4. split; [exact K2|]. split.
    + intros k Hk. rewrite K3 by exact Hk. apply rule_untouched. exact Hk.
    + assert (C : forall j, j < N -> m_sdp tb i j = fst (ROW i (Sv i) j) /\ m_part tb i j = snd (ROW i (Sv i) j)) by (intros j Hj; now rewrite <- (R1 j Hj)).
      intro k. destruct (K4 k) as [[L|(j & Hj & L1 & L2)] [U|(j' & Hj' & U1 & U2)]]; (split; [first [left; exact L|right; exists j; destruct (C j Hj) as [C1 C2]; rewrite <- C1, <- C2; auto]|
        first [left; exact U|right; exists j'; destruct (C j' Hj') as [C1 C2]; rewrite <- C1, <- C2; auto]]).
Qed.
Lemma rule_holds_cell i : i < n -> (algo2 = true -> forall j f, j < N -> f < d -> (- big < rows_of D j f <= big)%Q) ->
  subrule d (snd (fst (OWN i (Sv i)))) (nth i (u_rules st) rule0).
Proof.
  intros Hi Hb. assert (C : algo2 = true \/ algo2 = false) by (clear; destruct algo2; auto). destruct C as [E|E]; [apply extended; [exact Hi|exact E|now apply Hb]|]. intros x Hx k Hk. pose proof (annealing_wider i Hi E k Hk). specialize (Hx k Hk). lra.
Qed.
End Got.
End Suf.

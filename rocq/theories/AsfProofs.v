(** Proofs about [sufficient_expl_rf] and [sufficient_cxpl_rf] of [ACXplainer]. *)
From Verif Require Import Base TreeModel GameSpec ShapModel ShapSpec SkModel AcvModel SearchModel SearchSpec SearchProofs ExplModel ExplSpec ExplProofs
  RfModel RfSpec ApiModel ApiSpec ApiProofs AgnModel AgnSpec AgnProofs AxsModel AxsSpec AxsProofs AsfModel AsfSpec.
From Coq Require Import NArith.
Local Open Scope nat_scope.

Section Rows.
Variables (M : fmem) (depth : nat) (classifier divergent : bool) (X : list pt) (y : list Q) (tl : list (list Q)) (D : list pt) (Y : list Q) (m d : nat) (pi : Q).
Variable sched : list nat -> list nat.
Notation N := (length X).
Variable P : nat -> list nat -> Q.
Hypothesis Hcall : forall S, every_row M depth classifier divergent X y tl D Y m sched S = Gives (map (fun k => P k S) (seq 0 N)).
Notation treat := (treat pi).

(** counts are those of the lists *)
Definition counted (st : found) : Prop :=
  (forall k, f_sets (u_rows st k) <> [] /\ (N <= k -> u_rows st k = suff0)) /\
  (Qn (u_K st) == sumf (fun k => Qn (length (List.tl (f_sets (u_rows st k))))) (seq 0 N))%Q /\
  forall j, (Qn (u_glob st j) == sumf (fun k => sumf (fun L => Qn (count_occ Z.eq_dec L (Z.of_nat j))) (List.tl (f_sets (u_rows st k)))) (seq 0 N))%Q.
Lemma fold_counts S : forall (g : nat -> nat) j, fold_left (fun g s => upd g s (g s + 1)) S g j = g j + count_occ Nat.eq_dec S j.
Proof.
  induction S as [|s S IH]; intros g j; [cbn; lia|]. cbn [fold_left]. rewrite IH. cbn [count_occ].
  destruct (Nat.eq_dec s j) as [->|Hs]; [rewrite upd_same; lia|now rewrite upd_other by congruence].
Qed.
Lemma count_Z S j : count_occ Z.eq_dec (map Z.of_nat S) (Z.of_nat j) = count_occ Nat.eq_dec S j.
Proof. induction S as [|s S IH]; [reflexivity|]. cbn [map count_occ]. destruct (Z.eq_dec _ _), (Nat.eq_dec _ _); try (exfalso; lia); now rewrite IH. Qed.
Lemma tl_snoc {A} (l : list A) a : l <> [] -> List.tl (l ++ [a]) = List.tl l ++ [a].
Proof. destruct l; [congruence|reflexivity]. Qed.
Lemma sum_point (f g : nat -> Q) i c l : NoDup l -> In i l -> (f i == g i + c)%Q -> (forall k, k <> i -> (f k == g k)%Q) -> (sumf f l == sumf g l + c)%Q.
Proof.
  induction l as [|a l IH]; intros Hn Hi E H; [destruct Hi|]. inversion Hn; subst. rewrite !sumf_cons. destruct Hi as [->|Hi].
  - rewrite E, (sumf_ext f g l); [ring|]. intros k Hk. apply H. intros ->. contradiction.
  - rewrite IH by trivial. rewrite (H a); [ring|]. intros ->. contradiction.
Qed.
Lemma treat_counted S st i p : i < N -> counted st -> counted (treat S st (i, p)).
Proof.
  intros Hi (A & B & C). unfold AsfModel.treat. cbn [fst snd]. destruct (_ && _); [|exact (conj A (conj B C))].
  split; [|split]; cbn [u_rows u_K u_glob].
  - intro k. destruct (Nat.eq_dec k i) as [->|Hk]; [rewrite upd_same|rewrite upd_other by congruence; apply A]. cbn [f_sets]. split; [now destruct (f_sets (u_rows st i))|lia].
  - assert (E : (Qn (u_K st + 1) == Qn (u_K st) + 1)%Q) by (rewrite Qn_plus; reflexivity). rewrite E, B. symmetry.
    apply (sum_point _ _ i); [apply seq_NoDup|apply in_seq; lia| |].
    + rewrite upd_same. cbn [f_sets]. rewrite tl_snoc by apply A. rewrite app_length, Qn_plus. reflexivity.
    + intros k Hk. rewrite upd_other by congruence. reflexivity.
  - intro j. rewrite fold_counts, Qn_plus, C. symmetry. apply (sum_point _ _ i); [apply seq_NoDup|apply in_seq; lia| |].
    + rewrite upd_same. cbn [f_sets]. rewrite tl_snoc by apply A. rewrite sumf_app. cbn [sumf]. rewrite count_Z. ring.
    + intros k Hk. rewrite upd_other by congruence. reflexivity.
Qed.
Lemma treat_row S st i p k : u_rows (treat S st (i, p)) k = if k =? i then suff_step pi p S (u_rows st k) else u_rows st k.
Proof.
  unfold AsfModel.treat, suff_step. cbn [fst snd]. destruct (Nat.eqb_spec k i) as [->|Hk].
  - destruct (_ && _); [|reflexivity]. cbn [u_rows]. now rewrite upd_same.
  - destruct (_ && _); [|reflexivity]. cbn [u_rows]. now rewrite upd_other by congruence.
Qed.
Lemma treat_all S l : forall st, NoDup l -> (forall i, In i l -> i < N) -> counted st ->
  let st' := fold_left (treat S) (map (fun i => (i, P i S)) l) st in
  counted st' /\ forall k, u_rows st' k = if memb k l then suff_step pi (P k S) S (u_rows st k) else u_rows st k.
Proof.
  induction l as [|i l IH]; intros st Hn Hl Hc; [split; [exact Hc|reflexivity]|]. inversion Hn; subst. cbn [map fold_left].
  destruct (IH (treat S st (i, P i S)) H2 (fun k Hk => Hl k (or_intror Hk)) (treat_counted S st i (P i S) (Hl i (or_introl eq_refl)) Hc)) as [A B].
  split; [exact A|]. intro k. rewrite B, treat_row. cbn [memb existsb]. unfold memb. cbn [existsb]. fold (memb k l).
  destruct (Nat.eqb_spec k i) as [->|Hk]; [|reflexivity]. assert (E : memb i l = false) by now apply memb_false. now rewrite E.
Qed.
Lemma combine_map (S : list nat) : combine (seq 0 N) (map (fun k => P k S) (seq 0 N)) = map (fun i => (i, P i S)) (seq 0 N).
Proof. generalize (seq 0 N). induction l as [|a l IH]; [reflexivity|]. cbn. now rewrite IH. Qed.
Notation cand := (one_candidate M depth classifier divergent X y tl D Y m pi sched).
Lemma candidate_gives S st : counted st -> exists st', cand S st = Gives st' /\ counted st' /\
  forall k, k < N -> u_rows st' k = suff_step pi (P k S) S (u_rows st k).
Proof.
  intro Hc. unfold one_candidate. rewrite Hcall. cbn [next]. rewrite map_length, seq_length, Nat.ltb_irrefl, combine_map.
  destruct (treat_all S (seq 0 N) st (seq_NoDup _ _) (fun i Hi => proj2 (proj1 (in_seq _ _ _) Hi)) Hc) as [A B]. eexists. split; [reflexivity|].
  split; [exact A|]. intros k Hk. rewrite B. assert (E : memb k (seq 0 N) = true) by (apply memb_true, in_seq; lia). now rewrite E.
Qed.
Lemma candidates_give sets : forall st, counted st -> exists st', fold_left (fun e S => next e (cand S)) sets (Gives st) = Gives st' /\ counted st' /\
  forall k, k < N -> u_rows st' k = fold_left (fun f S => suff_step pi (P k S) S f) sets (u_rows st k).
Proof.
  induction sets as [|S sets IH]; intros st Hc; [exists st; auto|]. cbn [fold_left next]. destruct (candidate_gives S st Hc) as (st1 & -> & Hc1 & H1).
  destruct (IH st1 Hc1) as (st2 & E & Hc2 & H2). exists st2. split; [exact E|]. split; [exact Hc2|]. intros k Hk. now rewrite H2, H1.
Qed.
Lemma sizes_give pw idx : (forall s, In s idx -> nth_error pw s <> None) -> forall st, counted st ->
  exists st', sizes_loop M depth classifier divergent X y tl D Y m pi sched pw idx st = Gives st' /\ counted st' /\
  forall k, k < N -> suff_loop pi (P k) pw idx (u_rows st k) = Some (u_rows st' k).
Proof.
  induction idx as [|s idx IH]; intros Hi st Hc; [exists st; auto|]. cbn [sizes_loop suff_loop].
  destruct (nth_error pw s) as [sets|] eqn:E; [|exfalso; now apply (Hi s (or_introl eq_refl))].
  destruct (candidates_give sets st Hc) as (st1 & -> & Hc1 & H1). cbn [next].
  destruct (IH (fun s Hs => Hi s (or_intror Hs)) st1 Hc1) as (st2 & E2 & Hc2 & H2). exists st2. split; [exact E2|]. split; [exact Hc2|].
  intros k Hk. now rewrite <- (H1 k Hk), H2.
Qed.
Lemma sumf_zero {A} (l : list A) : (sumf (fun _ => 0) l == 0)%Q.
Proof. induction l as [|a l IH]; [reflexivity|]. rewrite sumf_cons, IH. ring. Qed.
Lemma counted0 : counted found0.
Proof.
  split; [intro k; split; [discriminate|reflexivity]|]. split; [|intro j]; cbn [found0 u_K u_glob u_rows suff0 f_sets List.tl length sumf]; symmetry; apply sumf_zero.
Qed.
End Rows.

Section Object.
Variables (d w : nat) (es : list sk) (Ts : list rtree) (stray : RfModel.row) (classifier : bool) (q : pt -> Q * Q) (imp : nat -> Q) (order : list nat)
  (sched : list nat -> list nat) (X : list pt) (y : list Q) (D : list pt) (Y : list Q) (t : targ) (C : list (list nat)) (m : nat) (divergent : bool).
Hypothesis HE : explorable d w es Ts classifier imp order sched X y D Y t C.
Notation N := (length X).
Notation va := (search_groups C (agnostic_space d order)).
Notation M := (dense (map ranger_tree es) stray).
Notation lev := (levels_at q X t).
Definition chance (k : nat) (S : list nat) : Q :=
  fst (fst (due M (rows_of D) (vals_of Y) (length D) (tallest Ts) m classifier (judge divergent) (nth k X (fun _ => 0%Q)) (nth k y 0%Q) 0%Q 0%Q S rule0 (fst (lev k)) (snd (lev k)))).
Lemma s_trees : F_trees M = length Ts.
Proof. destruct HE as (_ & HF & _). exact (len_trees d w es Ts stray HF). Qed.
Lemma s_va : groups_ok d va /\ length va <= 10.
Proof. destruct HE as (_ & _ & _ & _ & HC & _ & Hr & _). exact (agnostic_groups_ok imp d order C Hr HC). Qed.

Lemma every_row_gives tl S : length tl = N -> (forall i, i < N -> level_at (L_matrix tl) i = Some (if classifier then (0%Q, 0%Q) else lev i)) ->
  every_row M (tallest Ts) classifier divergent X y tl D Y m sched S = Gives (map (fun k => chance k S) (seq 0 N)).
Proof.
  intros Hl L. destruct HE as (Hne & HF & Hd & ((Ty & _) & _) & _ & _ & _ & Hfair). cbn [g_X g_y] in Ty. unfold every_row.
  set (a := mkArgs X y [] [] (S_same S) []). pose proof s_trees as HT.
  destruct (compiled_all M D Y (tallest Ts) m classifier (estimator divergent) a (T_matrix tl) (sched S)
    (S_same S) (L_matrix tl) (fun _ => S) (fun i => if classifier then (0%Q, 0%Q) else lev i)) as (res & E & R1 & _).
  - exact (eq_sym Ty).
  - unfold bracketed, estimator. intro B. exfalso. destruct divergent; cbn in B; decompose [or] B; try discriminate; contradiction.
  - unfold boxed, estimator. intro B. exfalso. destruct divergent; cbn in B; decompose [or] B; try discriminate; contradiction.
  - unfold estimator. destruct divergent; reflexivity.
  - reflexivity.
  - unfold estimator. destruct divergent; reflexivity.
  - intros i Hi. cbn [a g_X] in Hi. unfold level_entry. pose proof (L i Hi) as Hi2. unfold level_at in *.
    destruct (nth_error tl i) as [r|]; [|discriminate]. destruct r as [|u [|v r]]; try discriminate. now rewrite Hi2.
  - rewrite HT. apply Hfair.
  - rewrite E. f_equal. rewrite R1. apply map_ext. intro i.
    unfold due_row, row_of_args, chance, estimator, judge. cbn [a_x a_y a_down a_up a_S a_cond a_t0 a_t1 a g_X g_y g_down g_up g_cond].
    destruct divergent, classifier; reflexivity.
Qed.

Lemma sufficient_state pi minimal : exists st, counted X st /\
  (forall k, k < N -> sufficient_expl pi (chance k) va minimal = Some (u_rows st k)) /\
  acx_sufficient d es stray classifier q order sched divergent X y D Y m t C pi minimal = Gives (report_of divergent X d st).
Proof.
  destruct HE as (Hne & HF & Hd & Ha & HC & HCn & Hr & Hfair). destruct s_va as [G Gl].
  destruct (levels_of_args by_sdp classifier q _ D Y t Ha) as (O & tl & El & Ll & L). cbn [g_X] in *.
  destruct (sizes_give M (tallest Ts) classifier divergent X y tl D Y m pi sched chance (fun S => every_row_gives tl S Ll L)
    (power cut15 va 0) (seq minimal (S (length va) - minimal))) with (st := found0) as (st & E & Hc & H).
  - intros s Hs. apply in_seq in Hs. apply nth_error_Some. rewrite power_complete by lia. rewrite map_length, seq_length. lia.
  - apply counted0.
  - exists st. split; [exact Hc|]. split; [exact H|]. unfold acx_sufficient. destruct Ha as (T1 & T2 & _). cbn [g_X g_y] in T1.
    rewrite (proj2 (checked_spec _ _) T1), (proj2 (checked_spec _ _) T2). cbn [negb andb].
    destruct (build_ok d w es Ts Hne HF (or_introl Hd)) as (o & -> & -> & _ & ->). rewrite El. cbn [convert].
    unfold all_sufficient. destruct C as [|g C'] eqn:EC; [congruence|]. rewrite <- EC in *. clear EC g C'. rewrite (room_ok d va G), E. reflexivity.
Qed.
Lemma answered_chance order1 k S : complete (Datatypes.S (length Ts)) N order1 -> k < N ->
  answered d es stray classifier q order1 (judge divergent) X y D Y m t k S = chance k S.
Proof.
  intros Ho Hk. destruct HE as (Hne & HF & Hd & Ha & _). pose proof Ha as (T1 & T2 & _).
  destruct (levels_of_args by_sdp classifier q _ D Y t Ha) as (O & _). cbn [g_X g_y] in *.
  unfold answered. set (a := mkArgs X y [] [] (S_rows (repeat S N)) []).
  assert (Hdoc : documented (judge divergent) a (repeat S N)).
  { split; [reflexivity|]. split; [apply repeat_length|]. unfold bracketed, boxed, judge.
    split; intro B; exfalso; destruct divergent; cbn in B; decompose [or] B; try discriminate; contradiction. }
  assert (Hacx : acx_routine (judge divergent)) by (unfold acx_routine, judge; destruct divergent; cbn; tauto).
  pose proof s_trees as HT. rewrite <- HT in Ho.
  rewrite (explain_acx d w es Ts stray classifier q Hne HF (or_introl Hd) (judge divergent) a (repeat S N) D Y m t order1 T1 T2 Hdoc).
  destruct (acx_rows M (tallest Ts) classifier q (judge divergent) a (repeat S N) D Y m t order1 lev Hacx T1 T2 Hdoc O Ho) as (res & -> & R1 & _).
  rewrite R1. cbn [a g_X]. rewrite nth_map_seq by exact Hk. unfold chance. cbn [g_X g_y g_down g_up g_cond]. rewrite nth_repeat_lt by exact Hk.
  unfold judge. destruct divergent; [|]; cbn [due fst snd]; reflexivity.
Qed.

Section Level.
Variables (pi : Q) (minimal : nat).
Notation run := (acx_sufficient d es stray classifier q order sched divergent X y D Y m t C pi minimal).

Lemma run_states e : run = Gives e -> exists st, counted X st /\
  (forall k, k < N -> sufficient_expl pi (chance k) va minimal = Some (u_rows st k)) /\ e = report_of divergent X d st.
Proof. intro H. destruct (sufficient_state pi minimal) as (st & A & B & E). exists st. split; [exact A|]. split; [exact B|]. rewrite E in H. now injection H. Qed.
Lemma nth_rows {A} (f : suff -> A) st k dflt : k < N -> nth k (map f (map (u_rows st) (seq 0 N))) dflt = f (u_rows st k).
Proof. intro Hk. rewrite map_map, nth_map_seq by exact Hk. reflexivity. Qed.

Lemma family_ext vs lo (f g : list nat -> Q) L : (forall S, f S = g S) -> minimal_family vs lo pi f L -> minimal_family vs lo pi g L.
Proof.
  intros E (A & B & H). split; [intros l Hl|split; [exact B|intros T HT HT2 HT3]].
  - destruct (A l Hl) as (T & A1 & A2 & A3 & A4). rewrite E in A3. now exists T.
  - rewrite <- E in HT3. now apply H.
Qed.
Lemma run_rows e order1 k : run = Gives e -> complete (Datatypes.S (length Ts)) N order1 -> k < N ->
  minimal_family va minimal pi (answered d es stray classifier q order1 (judge divergent) X y D Y m t k) (nth k (p_sets e) []).
Proof.
  intros He Ho Hk. destruct (run_states e He) as (st & _ & B & ->). destruct s_va as [G Gl]. unfold report_of. cbn [p_sets]. rewrite nth_rows by exact Hk.
  destruct (sufficient_expl_family pi (chance k) d va minimal G ltac:(lia)) as (f & E & F & _). rewrite B in E by exact Hk. injection E as <-.
  refine (family_ext _ _ _ _ _ _ F). intro S. symmetry. now apply answered_chance.
Qed.
Lemma run_shape e : run = Gives e -> length (p_sets e) = N /\ length (p_global e) = d /\ length (p_sdp e) = if divergent then N - 1 else N.
Proof.
  intro He. destruct (run_states e He) as (st & _ & _ & ->). unfold report_of. cbn [p_sets p_sdp p_global]. rewrite !map_length, !seq_length.
  split; [reflexivity|]. split; [reflexivity|]. destruct divergent; [|now rewrite !map_length, seq_length].
  destruct X; cbn; [reflexivity|]. now rewrite !map_length, seq_length, Nat.sub_0_r.
Qed.
Lemma loop_head P pw idx : forall f g, suff_loop pi P pw idx f = Some g -> f_sdp f <> [] -> hd_error (f_sdp g) = hd_error (f_sdp f).
Proof.
  assert (ST : forall p S f, f_sdp f <> [] -> hd_error (f_sdp (suff_step pi p S f)) = hd_error (f_sdp f) /\ f_sdp (suff_step pi p S f) <> []).
  { intros p S f Hf. unfold suff_step. destruct (_ && _); [|auto]. cbn [f_sdp]. destruct (f_sdp f); [congruence|]. split; [reflexivity|discriminate]. }
  assert (FO : forall sets f, f_sdp f <> [] -> hd_error (f_sdp (fold_left (fun f S => suff_step pi (P S) S f) sets f)) = hd_error (f_sdp f) /\
     f_sdp (fold_left (fun f S => suff_step pi (P S) S f) sets f) <> []).
  { induction sets as [|S sets IH]; intros f Hf; [auto|]. cbn [fold_left]. destruct (ST (P S) S f Hf) as [A B]. destruct (IH _ B) as [A' B']. split; [congruence|exact B']. }
  induction idx as [|s idx IH]; intros f g H Hf; cbn [suff_loop] in H; [now injection H as <-|].
  destruct (nth_error pw s) as [sets|]; [|discriminate]. destruct (FO sets f Hf) as [A B]. rewrite <- A. exact (IH _ g H B).
Qed.
Lemma expl_head P vs lo f : sufficient_expl pi P vs lo = Some f -> f_sdp f = (-1)%Q :: List.tl (f_sdp f).
Proof.
  intro H. pose proof (loop_head _ _ _ _ _ H ltac:(discriminate)) as E. cbn in E. destruct (f_sdp f); [discriminate|].
  cbn in *. now injection E as ->.
Qed.
Lemma row_probs st order1 k i S : (forall k, k < N -> sufficient_expl pi (chance k) va minimal = Some (u_rows st k)) ->
  complete (Datatypes.S (length Ts)) N order1 -> k < N ->
  length (List.tl (f_sdp (u_rows st k))) = length (List.tl (f_sets (u_rows st k))) /\
  (nth_error (List.tl (f_sets (u_rows st k))) i = Some (map Z.of_nat S) ->
   nth_error (List.tl (f_sdp (u_rows st k))) i = Some (answered d es stray classifier q order1 (judge divergent) X y D Y m t k S)).
Proof.
  intros B Ho Hk. destruct s_va as [G Gl]. destruct (sufficient_expl_family pi (chance k) d va minimal G ltac:(lia)) as (f & E & _ & F1 & F2).
  rewrite B in E by exact Hk. injection E as <-. split; [exact F1|]. intro H. rewrite (answered_chance order1 k S Ho Hk). now apply F2.
Qed.
Lemma run_probs e order1 k : divergent = false -> run = Gives e -> complete (Datatypes.S (length Ts)) N order1 -> k < N ->
  length (nth k (p_sdp e) []) = length (nth k (p_sets e) []) /\
  forall i S, nth_error (nth k (p_sets e) []) i = Some (map Z.of_nat S) ->
    nth_error (nth k (p_sdp e) []) i = Some (answered d es stray classifier q order1 sdp_rf X y D Y m t k S).
Proof.
  intros Hd He Ho Hk. destruct (run_states e He) as (st & _ & B & ->).
  assert (E1 : nth k (p_sdp (report_of divergent X d st)) [] = List.tl (f_sdp (u_rows st k))) by (unfold report_of; rewrite Hd; cbn [p_sdp]; now apply nth_rows).
  assert (E2 : nth k (p_sets (report_of divergent X d st)) [] = List.tl (f_sets (u_rows st k))) by (unfold report_of; cbn [p_sets]; now apply nth_rows).
  rewrite E1, E2. split; [exact (proj1 (row_probs st order1 k 0 [] B Ho Hk))|]. intros i S H.
  pose proof (proj2 (row_probs st order1 k i S B Ho Hk) H) as R. unfold judge in R. destruct divergent; [discriminate|exact R].
Qed.
Lemma run_shifted e order1 k : divergent = true -> run = Gives e -> complete (Datatypes.S (length Ts)) N order1 -> S k < N ->
  exists ps, nth k (p_sdp e) [] = (-1)%Q :: ps /\ length ps = length (nth (S k) (p_sets e) []) /\
  forall i S, nth_error (nth (Datatypes.S k) (p_sets e) []) i = Some (map Z.of_nat S) ->
    nth_error ps i = Some (answered d es stray classifier q order1 ddp_rf X y D Y m t (Datatypes.S k) S).
Proof.
  intros Hd He Ho Hk. destruct (run_states e He) as (st & _ & B & ->).
  assert (E : nth k (p_sdp (report_of divergent X d st)) [] = f_sdp (u_rows st (S k))).
  { unfold report_of. rewrite Hd. cbn [p_sdp]. transitivity (nth (S k) (map f_sdp (map (u_rows st) (seq 0 N))) []); [|now apply nth_rows].
    destruct (map f_sdp (map (u_rows st) (seq 0 N))); [destruct k; reflexivity|reflexivity]. }
  rewrite E, (expl_head _ _ _ _ (B (S k) Hk)). eexists. split; [reflexivity|].
  assert (E2 : nth (S k) (p_sets (report_of divergent X d st)) [] = List.tl (f_sets (u_rows st (S k)))) by (unfold report_of; cbn [p_sets]; now apply nth_rows).
  rewrite E2. split; [exact (proj1 (row_probs st order1 (S k) 0 [] B Ho Hk))|]. intros i S H.
  pose proof (proj2 (row_probs st order1 (Datatypes.S k) i S B Ho Hk) H) as R. unfold judge in R. destruct divergent; [exact R|discriminate].
Qed.
Lemma cdiv_eq a b a' b' : (a == a')%Q -> (b == b')%Q -> match cdiv a b, cdiv a' b' with Some g, Some g' => (g == g')%Q | None, None => True | _, _ => False end.
Proof.
  intros Ea Eb. unfold cdiv. destruct (qeqb_spec b 0), (qeqb_spec b' 0); trivial.
  - apply n. now rewrite <- Eb.
  - apply n. now rewrite Eb.
  - now rewrite Ea, Eb.
Qed.
Lemma run_global e j : run = Gives e -> j < d ->
  ((exists k, nth k (p_sets e) [] <> []) ->
    exists g, nth j (p_global e) None = Some g /\
      (g == Qn (length (filter (existsb (Z.eqb (Z.of_nat j))) (concat (p_sets e)))) / Qn (length (concat (p_sets e))))%Q /\ (0 <= g <= 1)%Q) /\
  ((forall k, nth k (p_sets e) [] = []) -> nth j (p_global e) None = None).
Proof.
  intros He Hj. destruct (run_states e He) as (st & (_ & HK & HG) & B & ->). unfold report_of. cbn [p_sets p_global]. destruct s_va as [G Gl].
  set (fs := map (u_rows st) (seq 0 N)). rewrite nth_map_seq by exact Hj.
  assert (Ek : forall k, nth k (map (fun f => List.tl (f_sets f)) fs) [] = if k <? N then List.tl (f_sets (u_rows st k)) else []).
  { intro k. destruct (Nat.ltb_spec k N) as [Hk|Hk]; [now apply nth_rows|]. apply nth_overflow. unfold fs. now rewrite !map_length, seq_length. }
  split.
  - intros [k Hk]. rewrite Ek in Hk. destruct (Nat.ltb_spec k N) as [Hk2|]; [|congruence].
    destruct (suff_global_frequency d pi chance va minimal fs j G ltac:(lia)) as (g & E & F & F2).
    + intros i f Hi. unfold fs in Hi. assert (Hi2 : i < N).
      { assert (X1 : nth_error (map (u_rows st) (seq 0 N)) i <> None) by congruence.
        apply nth_error_Some in X1. now rewrite map_length, seq_length in X1. }
      rewrite (nth_error_nth' _ suff0) in Hi by (now rewrite map_length, seq_length). rewrite nth_map_seq in Hi by exact Hi2. injection Hi as <-. now apply B.
    + exists (u_rows st k). split; [|exact Hk]. apply in_map. apply in_seq. lia.
    + assert (Q2 : match cdiv (Qn (u_glob st j)) (Qn (u_K st)), suff_global fs j with Some g, Some g' => (g == g')%Q | None, None => True | _, _ => False end).
      { unfold suff_global. apply cdiv_eq; unfold fs; rewrite sumf_map; [apply HG|exact HK]. }
      rewrite E in Q2. destruct (cdiv _ _) as [g'|]; [|contradiction]. exists g'. split; [reflexivity|]. rewrite Q2. split; [exact F|exact F2].
  - intro H. assert (E : (Qn (u_K st) == 0)%Q).
    { rewrite HK. rewrite <- (sumf_zero (seq 0 N)). apply sumf_ext. intros k Hk. apply in_seq in Hk. specialize (H k). rewrite Ek in H.
      destruct (Nat.ltb_spec k N); [|lia]. rewrite H. reflexivity. }
    unfold cdiv. destruct (qeqb_spec (Qn (u_K st)) 0); [reflexivity|contradiction].
Qed.
(** the number shown, from the trees *)
Lemma run_values order1 k S : complete (Datatypes.S (length Ts)) N order1 -> k < N -> safe stray S Ts ->
  (forall T, In T Ts -> m <= length (mates S T (nth k X (fun _ => 0%Q)) D)) ->
  (answered d es stray classifier q order1 (judge divergent) X y D Y m t k S ==
   mean_over (fun T => mean_over (fun j => measured (judge divergent) classifier (nth k y 0) (fst (lev k)) (snd (lev k)) 0 0 (nth j Y 0))
                                 (mates S T (nth k X (fun _ => 0)) D)) Ts)%Q.
Proof.
  intros Ho Hk L2 L3. rewrite (answered_chance order1 k S Ho Hk). unfold chance. destruct HE as (Hne & HF & Hd & _).
  refine (proj1 (row_of_due d w es Ts stray classifier HF (judge divergent) D Y m _ _ _ _ _ _ _ _ _ L2 L3)).
  unfold plain_routine, judge. destruct divergent; cbn; tauto.
Qed.
End Level.
End Object.

(** the workers do not matter *)
Lemma sufficient_threads d w es Ts stray classifier q imp order sched sched' X y D Y t C m divergent pi minimal :
  explorable d w es Ts classifier imp order sched X y D Y t C -> explorable d w es Ts classifier imp order sched' X y D Y t C ->
  acx_sufficient d es stray classifier q order sched divergent X y D Y m t C pi minimal =
  acx_sufficient d es stray classifier q order sched' divergent X y D Y m t C pi minimal.
Proof.
  intros A B. unfold acx_sufficient. destruct (negb _); [reflexivity|]. pose proof A as (Hne & HF & Hd & Ha & _).
  destruct (build_ok d w es Ts Hne HF (or_introl Hd)) as (o & -> & -> & _ & ->).
  destruct (levels_of_args by_sdp classifier q _ D Y t Ha) as (O & tl & El & Ll & L). cbn [g_X] in *. rewrite El. cbn [convert]. f_equal.
  unfold all_sufficient. destruct C; [reflexivity|]. destruct (room _ _); [|reflexivity].
  assert (ER : forall S, every_row (dense (map ranger_tree es) stray) (tallest Ts) classifier divergent X y tl D Y m sched S
                       = every_row (dense (map ranger_tree es) stray) (tallest Ts) classifier divergent X y tl D Y m sched' S).
  { intro S. rewrite (every_row_gives d w es Ts stray classifier q imp order sched X y D Y t _ m divergent A tl S Ll L).
    now rewrite (every_row_gives d w es Ts stray classifier q imp order sched' X y D Y t _ m divergent B tl S Ll L). }
  generalize found0. generalize (seq minimal (S (length (search_groups (l :: C) (agnostic_space d order))) - minimal)).
  generalize (power cut15 (search_groups (l :: C) (agnostic_space d order)) 0). intros pw idx. induction idx as [|s idx IH]; intro st; [reflexivity|].
  cbn [sizes_loop]. destruct (nth_error pw s) as [sets|]; [|reflexivity].
  assert (EF : forall e, fold_left (fun e S => next e (one_candidate (dense (map ranger_tree es) stray) (tallest Ts) classifier divergent X y tl D Y m pi sched S)) sets e
    = fold_left (fun e S => next e (one_candidate (dense (map ranger_tree es) stray) (tallest Ts) classifier divergent X y tl D Y m pi sched' S)) sets e).
  { induction sets as [|S sets IH2]; intro e; [reflexivity|]. cbn [fold_left]. rewrite IH2. f_equal. destruct e; [|reflexivity|reflexivity]. cbn [next]. unfold one_candidate. now rewrite ER. }
  rewrite EF. destruct (fold_left _ sets (Gives st)); [apply IH|reflexivity|reflexivity].
Qed.

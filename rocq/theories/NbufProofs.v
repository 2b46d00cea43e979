(** Proofs about the normalized Shapley array programs. *)
From Verif Require Import Base TreeModel TreeSpec TreeProofs GameSpec GameProofs ShapModel ShapSpec ShapProofs NopaModel NopaProofs NormModel NormSpec NormProofs
  FlatModel SkModel ArrModel ArrSpec EntryModel SbufModel SbufProofs CbufModel CbufProofs NbufModel.
Local Open Scope Q_scope.

(** ** The shared routine *)
Section Run.
Variables (T : tabs) (nid : nat -> nat -> list nat) (D scaling m : nat) (X : list pt) (C : list group).
Variables (cells : nat -> nat -> bool) (weight : nat -> nat -> nat -> nat -> group -> list nat -> nat -> nat -> pt -> Q).
Notation value_of b k j := (t_val T b (t_leaf T b k) j).
Notation rows := (norm_rows T D m X weight).
Notation ncounter := (norm_counter T D scaling m X cells weight).
Notation nplayer := (norm_player T D scaling m X cells weight).
Notation nleaf := (norm_leaf T nid D scaling m X C cells weight).
Hypothesis HC : coalitions_ok C m.
Hypothesis HCD : forall i, In i (concat C) -> (i < D)%nat.
Hypothesis HDm : (D <= m)%nat.

Lemma norm_rows_spec b k v cc va F ns vs a : (t_leaf T b k < t_nodes T)%nat -> cols_exist D m F = true -> cols_exist D m va = true ->
  exists a', rows b k v cc va F ns vs a = Some a' /\ forall i c j, a' i c j == a i c j +
    (if (j <? t_out T)%nat then Qn (count_occ Nat.eq_dec va c) *
       at_row X (fun x => weight b k v cc va F ns vs x * value_of b k j) i else 0).
Proof.
  intros Hl HF Hva. unfold norm_rows. rewrite HF, Hva. cbn [andb].
  destruct (ofold_add (fun a => a) (fun _ => True)
    (fun a ix => add_row T b k va (fst ix) (weight b k v cc va F ns vs (snd ix)) a)
    (fun ix i c j => if (i =? fst ix)%nat then Qn (count_occ Nat.eq_dec va c) * (if (j <? t_out T)%nat
        then weight b k v cc va F ns vs (snd ix) * value_of b k j else 0) else 0) (indexed X))
    with (st := a) as [a' [E [_ P]]]; trivial.
  - intros a0 ix _ _. destruct (add_row_spec T D m HDm b k va (fst ix) (weight b k v cc va F ns vs (snd ix)) a0 Hl) as [a1 [E1 P1]].
    exists a1. split; [exact E1|]. split; [trivial|exact P1].
  - exists a'. split; [exact E|]. intros i c j. rewrite P. apply Qplus_comp; [reflexivity|].
    destruct (j <? t_out T)%nat.
    + rewrite <- (row_pick_indexed (fun x => weight b k v cc va F ns vs x * value_of b k j) X i).
      unfold row_pick. rewrite <- sumf_scal. apply sumf_ext. intros ix _. destruct (i =? fst ix)%nat; ring.
    + apply sumf_zero. intros ix _. destruct (i =? fst ix)%nat; ring.
Qed.

(** what a leaf adds *)
Definition wterm (b k v : nat) (va : group) (gs : list group) (cc : nat) (x : pt) (j : nat) : Q :=
  weight b k v cc va (concat (pick cc gs)) (length gs) (length (pick cc gs)) x * value_of b k j.
Definition wplayer (b k v : nat) (va : group) (x : pt) (j : nat) : Q :=
  match others C m (leaf_at T nid 0 b k) va with
  | Some gs => sumf (fun cc => wterm b k v va gs cc x j) (seq 0 (2 ^ length gs))
  | None => 0 end.
Definition wleaf (b k : nat) (x : pt) (c j : nat) : Q :=
  sumf (fun p => Qn (count_occ Nat.eq_dec (snd p) c) * wplayer b k (fst p) (snd p) x j) (indexed (va_ids C m)).

Section Leaf.
Variables (b k : nat).
Hypothesis Hmax : (k < t_max T)%nat.
Hypothesis Hleaf : (t_leaf T b k < t_nodes T)%nat.
Hypothesis Hok : leaf_ok D (leaf_at T nid 0 b k).
Hypothesis Hcells : forall v, (v < length (va_ids C m))%nat -> cells b v = true.
Notation lf := (leaf_at T nid 0 b k).
Notation gs0 := (leaf_groups C m (nid b k)).
Notation adds := (adds T X).
Notation total := (total T scaling).

Lemma wide_ok : leaf_ok m lf.
Proof. destruct Hok as (H1 & H2 & H3). split; [exact H1|]. split; [|exact H3]. intros v Hv. specialize (H2 v Hv). lia. Qed.
Lemma rows_norm_added v va gs cc S0 a : others C m lf va = Some gs -> length S0 = m ->
  exists S' a', fill 0 cc gs S0 0 0 = Some (S', length (concat (pick cc gs)), length (pick cc gs)) /\ length S' = m /\
    rows b k v cc va (map (fun s => nth s S' 0%nat) (seq 0 (length (concat (pick cc gs))))) (length gs) (length (pick cc gs)) a = Some a' /\
    forall i c j, a' i c j == a i c j + adds va (wterm b k v va gs cc) i c j.
Proof.
  intros Ho HS. destruct (filled T nid D [] m C HC HDm b k Hmax Hleaf Hok va gs S0 cc Ho HS) as [S' [E1 [E2 E3]]].
  destruct (others_in T nid m C b k va gs Ho) as [Hva Hgs].
  pose proof (inside_cols T nid D m C HC HCD HDm b k Hmax Hleaf Hok) as Hin.
  destruct (norm_rows_spec b k v cc va (concat (pick cc gs)) (length gs) (length (pick cc gs)) a Hleaf) as [a' [E4 P4]].
  - apply forallb_forall. intros s Hs. apply in_concat in Hs. destruct Hs as (g & Hg & Hs). apply pick_in in Hg.
    pose proof (Hin g (Hgs g Hg)) as Hc. unfold cols_exist in Hc. rewrite forallb_forall in Hc. now apply Hc.
  - now apply Hin.
  - exists S', a'. split; [exact E1|]. split; [exact E2|]. split; [rewrite E3; exact E4|]. exact P4.
Qed.
Lemma norm_counter_spec v va gs st cc : others C m lf va = Some gs -> (v < length (va_ids C m))%nat -> (cc < 2 ^ scaling)%nat -> okw m st ->
  exists st', ncounter b k v va gs st cc = Some st' /\ okw m st' /\
    forall i c j, total st' i c j == total st i c j + adds va (wterm b k v va gs cc) i c j.
Proof.
  intros Ho Hv Hcc Hst. unfold norm_counter. rewrite (proj2 (Nat.ltb_lt _ _) Hcc), (Hcells v Hv). cbn [andb].
  destruct (rows_norm_added v va gs cc (w_S st v cc k) (w_phi st k cc) Ho (Hst v cc k)) as (S' & a' & E1 & E2 & E3 & P).
  rewrite E1, E3. eexists. split; [reflexivity|]. split.
  - intros v' c' k'. cbn [w_S]. unfold set3. destruct ((v' =? v)%nat && (c' =? cc)%nat && (k' =? k)%nat); [exact E2|apply Hst].
  - intros i c j. rewrite (total_set T scaling st _ k cc a' i c j Hmax Hcc), P. ring.
Qed.
Lemma norm_player_total v va i c j :
  adds va (wplayer b k v va) i c j ==
  match others C m lf va with
  | Some gs => sumf (fun cc => adds va (wterm b k v va gs cc) i c j) (seq 0 (2 ^ length gs))
  | None => 0 end.
Proof.
  unfold wplayer. destruct (others C m lf va) as [gs|] eqn:Ho.
  - rewrite (adds_sum T X). reflexivity.
  - unfold adds. destruct (j <? t_out T)%nat; [|reflexivity]. unfold at_row. destruct (nth_error X i); ring.
Qed.
Lemma place_lt v va : In (v, va) (indexed (va_ids C m)) -> (v < length (va_ids C m))%nat.
Proof. intro H. apply in_indexed in H. apply nth_error_Some. congruence. Qed.
Lemma place_m v va : In (v, va) (indexed (va_ids C m)) -> (v < m)%nat.
Proof. intro H. exact (player_index T D m C HC HDm b k Hmax Hleaf v va H). Qed.
Lemma norm_leaf_spec st : (length gs0 <= S scaling)%nat -> okw m st ->
  exists st', nleaf b st k = Some st' /\ okw m st' /\
    forall i c j, total st' i c j == total st i c j + (if (j <? t_out T)%nat then at_row X (fun x => wleaf b k x c j) i else 0).
Proof.
  intros Hfit Hst. unfold norm_leaf. rewrite (proj2 (Nat.ltb_lt _ _) Hmax), (leaf_players_eq m C HC), (va_id_arr_eq C m HC).
  destruct (ofold_add total (okw m) (nplayer b k gs0)
    (fun p i c j => adds (snd p) (wplayer b k (fst p) (snd p)) i c j) (indexed (va_ids C m)))
    with (st := st) as [st' [E [O P]]]; trivial.
  - intros s [v va] Hv Hs. unfold norm_player. rewrite (proj2 (Nat.ltb_lt _ _) (place_m v va Hv)).
    change (nid b k) with (l_vars lf). rewrite (others_at_eq m C HC lf va wide_ok). cbn [fst snd].
    destruct (others C m lf va) as [gs|] eqn:Ho.
    + destruct (ofold_add total (okw m) (ncounter b k v va gs)
        (fun cc i c j => adds va (wterm b k v va gs cc) i c j) (seq 0 (2 ^ length gs)))
        with (st := s) as [s' [E1 [O1 P1]]]; trivial.
      * intros s0 cc Hcc Hs0. apply norm_counter_spec; trivial; [exact (place_lt v va Hv)|].
        exact (power_fits T nid m scaling C b k va gs cc Hfit Ho Hcc).
      * exists s'. split; [exact E1|]. split; [exact O1|]. intros i c j. rewrite P1, norm_player_total, Ho. reflexivity.
    + exists s. split; [reflexivity|]. split; [exact Hs|]. intros i c j. rewrite norm_player_total, Ho. ring.
  - exists st'. split; [exact E|]. split; [exact O|]. intros i c j. rewrite P. apply Qplus_comp; [reflexivity|].
    unfold adds. destruct (j <? t_out T)%nat; [|apply sumf_zero; reflexivity].
    unfold wleaf. rewrite <- at_row_sum. apply sumf_ext. intros p _. unfold at_row. destruct (nth_error X i); ring.
Qed.
End Leaf.
(** a leaf with a player for whom one counter fails *)
Lemma norm_leaf_stuck b k v va gs cc st : leaf_ok D (leaf_at T nid 0 b k) -> In (v, va) (indexed (va_ids C m)) ->
  others C m (leaf_at T nid 0 b k) va = Some gs -> (cc < 2 ^ length gs)%nat -> ((2 ^ scaling <= cc)%nat \/ cells b v = false) ->
  nleaf b st k = None.
Proof.
  intros Hok Hi Ho Hcc Hbad. unfold norm_leaf. destruct (k <? t_max T)%nat; [|reflexivity]. rewrite (leaf_players_eq m C HC), (va_id_arr_eq C m HC).
  apply (ofold_stuck _ _ (v, va) Hi). intro s. unfold norm_player. destruct (v <? m)%nat; [|reflexivity].
  change (nid b k) with (l_vars (leaf_at T nid 0 b k)). rewrite (others_at_eq m C HC _ va), Ho.
  - apply (ofold_stuck _ _ cc); [apply in_seq; lia|]. intro s'. unfold norm_counter.
    destruct Hbad as [Hb|Hb]; [rewrite (proj2 (Nat.ltb_ge _ _) Hb); reflexivity|]. rewrite Hb, andb_false_r. reflexivity.
  - destruct Hok as (H1 & H2 & H3). split; [exact H1|]. split; [|exact H3]. intros s' Hs. specialize (H2 s' Hs). lia.
Qed.

(** *** All trees *)
Hypothesis Htabs : tabs_ok T.
Hypothesis Hforest : forall b k, (b < t_trees T)%nat -> (k < t_nb T b)%nat -> leaf_ok D (leaf_at T nid 0 b k).
Notation tree_sum_of b i c j :=
  (if (j <? t_out T)%nat then at_row X (fun x => sumf (fun k => wleaf b k x c j) (seq 0 (t_nb T b))) i else 0).
Lemma norm_tree_spec order s b : all_fit T nid scaling m C -> every_leaf T order ->
  (forall v, (v < length (va_ids C m))%nat -> cells b v = true) -> (b < t_trees T)%nat -> okw m (fst s) ->
  exists s', norm_tree T nid D scaling m X C order cells weight s b = Some s' /\ okw m (fst s') /\
    forall i c j, snd s' i c j == snd s i c j + tree_sum_of b i c j.
Proof.
  intros Hfit Hord Hce Hb Hs. unfold norm_tree.
  destruct (ofold_add (total T scaling) (okw m) (nleaf b)
    (fun k i c j => if (j <? t_out T)%nat then at_row X (fun x => wleaf b k x c j) i else 0) (order b))
    with (st := mkWork (w_S (fst s)) (fun _ _ _ _ _ => 0)) as [st [E [O P]]].
  - intros st k Hk Hst. apply (Permutation_in _ (Hord b Hb)), in_seq in Hk. destruct (Htabs b Hb) as [H1 H2].
    apply norm_leaf_spec; [lia|apply H2; lia|apply Hforest; lia|exact Hce|apply Hfit; lia|exact Hst].
  - exact Hs.
  - rewrite E. eexists. split; [reflexivity|]. split; [exact O|]. intros i c j. cbn [snd]. unfold reduce.
    rewrite (fold_plus2 (fun k cc => w_phi st k cc i c j)). apply Qplus_comp; [reflexivity|].
    change (total T scaling st i c j == tree_sum_of b i c j). rewrite P, (sumf_perm _ _ _ (Hord b Hb)).
    assert (Z : total T scaling (mkWork (w_S (fst s)) (fun _ _ _ _ _ => 0)) i c j == 0).
    { unfold total. apply sumf_zero. intros k _. apply sumf_zero. reflexivity. }
    rewrite Z. destruct (j <? t_out T)%nat; [|rewrite sumf_zero by reflexivity; ring]. rewrite at_row_sum. ring.
Qed.
Theorem norm_routine_values order : C <> [] -> all_fit T nid scaling m C -> every_leaf T order ->
  (forall b v, (b < t_trees T)%nat -> (v < length (va_ids C m))%nat -> cells b v = true) ->
  exists phi, norm_routine T nid D scaling m X C order cells weight = Some phi /\
    forall i x c j, nth_error X i = Some x -> (j < t_out T)%nat ->
      phi i c j == sumf (fun b => sumf (fun k => wleaf b k x c j) (seq 0 (t_nb T b))) (seq 0 (t_trees T)) / Qn m.
Proof.
  intros Hne Hfit Hord Hce. unfold norm_routine. rewrite (C_ne D m C HC HCD Hne).
  destruct (ofold_add (@snd work block) (fun s => okw m (fst s)) (norm_tree T nid D scaling m X C order cells weight)
    (fun b i c j => tree_sum_of b i c j) (seq 0 (t_trees T)))
    with (st := (mkWork (fun _ _ _ => repeat 0%nat m) (fun _ _ _ _ _ => 0), (fun _ _ _ => 0) : block)) as [[st phi] [E [_ P]]].
  - intros s b Hb Hs. apply in_seq in Hb. apply norm_tree_spec; trivial; [intros v Hv; apply Hce; trivial; lia|lia].
  - intros v c k. apply repeat_length.
  - rewrite E. eexists. split; [reflexivity|]. intros i x c j Hx Hj. cbn beta. cbn [snd] in P. rewrite P.
    rewrite (sumf_ext (fun a => tree_sum_of a i c j) (fun b => sumf (fun k => wleaf b k x c j) (seq 0 (t_nb T b)))); [unfold Qdiv; ring|].
    intros b _. rewrite (proj2 (Nat.ltb_lt _ _) Hj). unfold at_row. rewrite Hx. reflexivity.
Qed.
Theorem norm_routine_stuck order b k : (b < t_trees T)%nat -> (k < t_nb T b)%nat -> every_leaf T order -> (forall st, nleaf b st k = None) ->
  norm_routine T nid D scaling m X C order cells weight = None.
Proof.
  intros Hb Hk Hord Hbad. unfold norm_routine. destruct C as [|g0 C0] eqn:EC; [reflexivity|]. rewrite <- EC in *.
  rewrite (ofold_stuck _ _ b); [reflexivity|apply in_seq; lia|]. intro s. unfold norm_tree.
  rewrite (ofold_stuck _ _ k); [reflexivity| |exact Hbad].
  apply (Permutation_in _ (Permutation_sym (Hord b Hb))), in_seq. lia.
Qed.
(** too few slots *)
Theorem norm_routine_stray order b k : (b < t_trees T)%nat -> (k < t_nb T b)%nat -> (S scaling < length (leaf_groups C m (nid b k)))%nat ->
  every_leaf T order -> norm_routine T nid D scaling m X C order cells weight = None.
Proof.
  intros Hb Hk Hlt Hord. apply (norm_routine_stuck order b k Hb Hk Hord). intro st. pose proof (Hforest b k Hb Hk) as Hok.
  set (gs0 := leaf_groups C m (nid b k)) in *.
  destruct gs0 as [|va r] eqn:Eg; [cbn in Hlt; lia|]. rewrite <- Eg in *.
  assert (Hva : In va gs0) by (rewrite Eg; now left).
  assert (Ho : exists gs, others C m (leaf_at T nid 0 b k) va = Some gs).
  { unfold others. cbn [l_vars leaf_at]. fold gs0. destruct (in_dec group_eq_dec va gs0); [eexists; reflexivity|contradiction]. }
  destruct Ho as [gs Ho]. pose proof (others_length T nid m C b k va gs Ho) as El. fold gs0 in El.
  assert (HP : In va (va_ids C m)).
  { destruct (leaf_groups_touch C m _ (leaf_at T nid 0 b k) HC (va_ids_players C m HC)) as [_ Hp].
    - destruct Hok as (H1 & H2 & H3). split; [exact H1|]. split; [|exact H3]. intros s' Hs. specialize (H2 s' Hs). lia.
    - apply (Permutation_in va Hp), filter_In in Hva. apply Hva. }
  destruct (In_nth_error _ _ HP) as [v Hv]. apply in_indexed in Hv.
  apply (norm_leaf_stuck b k v va gs (2 ^ scaling)%nat st Hok Hv Ho); [apply Nat.pow_lt_mono_r; lia|left; lia].
Qed.
End Run.

(** ** The routine that counts *)
Section Direct.
Variables (T : tabs) (nid : nat -> nat -> list nat) (D : nat) (data : list pt) (scaling m : nat) (X : list pt) (C : list group).
Hypothesis HC : coalitions_ok C m.
Hypothesis HCD : forall i, In i (concat C) -> (i < D)%nat.
Hypothesis HDm : (D <= m)%nat.
Hypothesis Htabs : tabs_ok T.
Hypothesis Hforest : forall b k, (b < t_trees T)%nat -> (k < t_nb T b)%nat -> leaf_ok D (leaf_at T nid 0 b k).
Lemma count_wide b k : (b < t_trees T)%nat -> (k < t_nb T b)%nat -> count_leaf D data (t_part T b k) = count_leaf m data (t_part T b k).
Proof. intros Hb Hk. exact (proj2 (leaf_wide D data m HDm (leaf_at T nid 0 b k) (Hforest b k Hb Hk))). Qed.
Lemma entries_s b F x j : (b < t_trees T)%nat ->
  map (tab_entry_s T D data b F x) (seq 0 (t_nb T b)) = map (entry_s m data F x) (map (leaf_at T nid j b) (seq 0 (t_nb T b))).
Proof.
  intro Hb. rewrite map_map. apply map_ext_in. intros k Hk. apply in_seq in Hk. unfold tab_entry_s, entry_s. cbn [l_rect leaf_at].
  rewrite (count_wide b k) by lia. reflexivity.
Qed.
Lemma entries_si b F va x j : (b < t_trees T)%nat ->
  map (tab_entry_si T D data b F va x) (seq 0 (t_nb T b)) = map (entry_si m data F va x) (map (leaf_at T nid j b) (seq 0 (t_nb T b))).
Proof.
  intro Hb. rewrite map_map. apply map_ext_in. intros k Hk. apply in_seq in Hk. unfold tab_entry_si, entry_si. cbn [l_rect leaf_at].
  rewrite (count_wide b k) by lia. reflexivity.
Qed.
Lemma direct_term b k v va gs cc x j : (b < t_trees T)%nat -> (k < t_nb T b)%nat ->
  wterm T (norm_weight T D data m) b k v va gs cc x j =
  norm_term m data x (map (leaf_at T nid j b) (seq 0 (t_nb T b))) (leaf_at T nid j b k) va gs cc.
Proof.
  intros Hb Hk. unfold wterm, norm_weight, norm_weight_with, norm_term, norm_term_with.
  rewrite (entries_s b _ x j Hb), (entries_si b _ va x j Hb). unfold tab_entry_s, tab_entry_si, entry_s, entry_si. cbn [fst snd l_rect l_val leaf_at].
  rewrite (count_wide b k Hb Hk). reflexivity.
Qed.
Lemma direct_leaf b k x c j : (b < t_trees T)%nat -> (k < t_nb T b)%nat ->
  wleaf T nid m C (norm_weight T D data m) b k x c j ==
  sumf (fun va => Qn (count_occ Nat.eq_dec va c) * norm_leaf_player C m data x (map (leaf_at T nid j b) (seq 0 (t_nb T b))) (leaf_at T nid j b k) va) (va_ids C m).
Proof.
  intros Hb Hk. unfold wleaf. rewrite <- (sumf_indexed _ (va_ids C m)). apply sumf_ext. intros [v va] _. cbn [fst snd]. apply Qmult_comp; [reflexivity|].
  unfold wplayer, norm_leaf_player. change (others C m (leaf_at T nid j b k) va) with (others C m (leaf_at T nid 0 b k) va).
  destruct (others C m (leaf_at T nid 0 b k) va) as [gs|]; [|reflexivity]. apply sumf_ext. intros cc _. now rewrite (direct_term b k v va gs cc x j Hb Hk).
Qed.
Theorem norm_prog_values order : C <> [] -> all_fit T nid scaling m C -> every_leaf T order ->
  exists phi, norm_prog T nid D data scaling m X C order = Some phi /\
    forall i x c j, nth_error X i = Some x -> (j < t_out T)%nat -> phi i c j == shap_values_leaves_normalized C m data (forest_at T nid j) x c.
Proof.
  intros Hne Hfit Hord. unfold norm_prog.
  destruct (norm_routine_values T nid D scaling m X C (direct_cells T) (norm_weight T D data m) HC HCD HDm Htabs Hforest order Hne Hfit Hord) as (phi & E & V).
  - intros b v Hb _. unfold direct_cells. apply Nat.leb_le. exact (proj1 (Htabs b Hb)).
  - exists phi. split; [exact E|]. intros i x c j Hx Hj. rewrite (V i x c j Hx Hj). unfold shap_values_leaves_normalized, forest_at.
    apply Qmult_comp; [|reflexivity]. rewrite sumf_map. apply sumf_ext. intros b Hb. apply in_seq in Hb. rewrite sumf_map. apply sumf_ext. intros k Hk. apply in_seq in Hk.
    apply direct_leaf; lia.
Qed.
Theorem norm_prog_stray order b k : (b < t_trees T)%nat -> (k < t_nb T b)%nat -> (S scaling < length (leaf_groups C m (nid b k)))%nat ->
  every_leaf T order -> norm_prog T nid D data scaling m X C order = None.
Proof. exact (norm_routine_stray T nid D scaling m X C (direct_cells T) (norm_weight T D data m) HC HCD HDm Hforest order b k). Qed.
End Direct.

(** ** Same cells, same weights, same arrays *)
Section Same.
Variables (T : tabs) (nid : nat -> nat -> list nat) (D scaling m : nat) (X : list pt) (C : list group) (order : nat -> list nat).
Variables (cells cells' : nat -> nat -> bool) (weight weight' : nat -> nat -> nat -> nat -> group -> list nat -> nat -> nat -> pt -> Q).
Hypothesis HC : coalitions_ok C m.
Hypothesis HCD : forall i, In i (concat C) -> (i < D)%nat.
Hypothesis HDm : (D <= m)%nat.
Hypothesis Htabs : tabs_ok T.
Hypothesis Hforest : forall b k, (b < t_trees T)%nat -> (k < t_nb T b)%nat -> leaf_ok D (leaf_at T nid 0 b k).
Hypothesis Hord : every_leaf T order.
Hypothesis Hfit : all_fit T nid scaling m C.
Hypothesis Hcells : forall b k v va gs, (b < t_trees T)%nat -> (k < t_nb T b)%nat -> nth_error (va_ids C m) v = Some va ->
  others C m (leaf_at T nid 0 b k) va = Some gs -> cells b v = cells' b v.
Hypothesis Hweight : forall b k v va gs c x, (b < t_trees T)%nat -> (k < t_nb T b)%nat -> nth_error (va_ids C m) v = Some va ->
  others C m (leaf_at T nid 0 b k) va = Some gs -> (c < 2 ^ length gs)%nat -> In x X ->
  weight b k v c va (concat (pick c gs)) (length gs) (length (pick c gs)) x = weight' b k v c va (concat (pick c gs)) (length gs) (length (pick c gs)) x.
Notation counter := (norm_counter T D scaling m X cells weight).
Notation counter' := (norm_counter T D scaling m X cells' weight').
Lemma counter_okw b k v va gs st c st' : (b < t_trees T)%nat -> (k < t_nb T b)%nat -> others C m (leaf_at T nid 0 b k) va = Some gs -> okw m st ->
  counter' b k v va gs st c = Some st' -> okw m st'.
Proof.
  intros Hb Hk Ho Hst. destruct (Htabs b Hb) as [H1 H2]. unfold norm_counter. destruct (_ && _); [|discriminate].
  destruct (filled T nid D [] m C HC HDm b k ltac:(lia) (H2 k Hk) (Hforest b k Hb Hk) va gs (w_S st v c k) c Ho (Hst v c k)) as [S' [E1 [E2 E3]]].
  rewrite E1. destruct (norm_rows _ _ _ _ _ _ _ _ _ _ _ _ _ _) as [a|]; [|discriminate]. intro E. injection E as <-.
  intros v' c' k'. cbn [w_S]. unfold set3. destruct ((v' =? v)%nat && (c' =? c)%nat && (k' =? k)%nat); [exact E2|apply Hst].
Qed.
Lemma counter_same b k v va gs st c : (b < t_trees T)%nat -> (k < t_nb T b)%nat -> nth_error (va_ids C m) v = Some va ->
  others C m (leaf_at T nid 0 b k) va = Some gs -> (c < 2 ^ length gs)%nat -> okw m st -> counter b k v va gs st c = counter' b k v va gs st c.
Proof.
  intros Hb Hk Hv Ho Hc Hst. destruct (Htabs b Hb) as [H1 H2]. unfold norm_counter. rewrite (Hcells b k v va gs Hb Hk Hv Ho). destruct (_ && _); [|reflexivity].
  destruct (filled T nid D [] m C HC HDm b k ltac:(lia) (H2 k Hk) (Hforest b k Hb Hk) va gs (w_S st v c k) c Ho (Hst v c k)) as [S' [E1 [E2 E3]]].
  rewrite E1, E3. unfold norm_rows. destruct (_ && _); [|reflexivity].
  destruct (ofold_cong (fun _ => True) (fun a ix => add_row T b k va (fst ix) (weight b k v c va (concat (pick c gs)) (length gs) (length (pick c gs)) (snd ix)) a)
    (fun a ix => add_row T b k va (fst ix) (weight' b k v c va (concat (pick c gs)) (length gs) (length (pick c gs)) (snd ix)) a) (indexed X)) with (st := w_phi st k c) as [E _]; trivial.
  - intros a [i x] Hi _. cbn [fst snd]. apply in_indexed in Hi. apply nth_error_In in Hi. rewrite (Hweight b k v va gs c x Hb Hk Hv Ho Hc Hi). auto.
  - now rewrite E.
Qed.
Lemma leaf_same b k st : (b < t_trees T)%nat -> (k < t_nb T b)%nat -> okw m st ->
  norm_leaf T nid D scaling m X C cells weight b st k = norm_leaf T nid D scaling m X C cells' weight' b st k /\
  forall st', norm_leaf T nid D scaling m X C cells' weight' b st k = Some st' -> okw m st'.
Proof.
  intros Hb Hk Hst. unfold norm_leaf. destruct (k <? t_max T)%nat; [|split; [reflexivity|discriminate]].
  rewrite (leaf_players_eq m C HC), (va_id_arr_eq C m HC).
  apply (ofold_cong (okw m)); [|exact Hst]. intros s [v va] Hi Hs. unfold norm_player. destruct (v <? m)%nat; [|split; [reflexivity|discriminate]].
  change (nid b k) with (l_vars (leaf_at T nid 0 b k)). rewrite (others_at_eq m C HC _ va (proj1 (leaf_wide D [] m HDm _ (Hforest b k Hb Hk)))).
  destruct (others C m (leaf_at T nid 0 b k) va) as [gs|] eqn:Ho; [|split; [reflexivity|intros s' E; now injection E as <-]].
  apply in_indexed in Hi.
  apply (ofold_cong (okw m)); [|exact Hs]. intros s1 c Hc Hs1. apply in_seq in Hc. split.
  - apply counter_same; trivial. lia.
  - intros st' E. exact (counter_okw b k v va gs s1 c st' Hb Hk Ho Hs1 E).
Qed.
Theorem routine_same : norm_routine T nid D scaling m X C order cells weight = norm_routine T nid D scaling m X C order cells' weight'.
Proof.
  unfold norm_routine. destruct C as [|g0 C0] eqn:EC; [reflexivity|]. rewrite <- EC in *.
  destruct (ofold_cong (fun s : work * block => okw m (fst s)) (norm_tree T nid D scaling m X C order cells weight)
    (norm_tree T nid D scaling m X C order cells' weight') (seq 0 (t_trees T)))
    with (st := (mkWork (fun _ _ _ => repeat 0%nat m) (fun _ _ _ _ _ => 0), (fun _ _ _ => 0) : block)) as [E _].
  - intros s b Hb Hs. apply in_seq in Hb. unfold norm_tree.
    destruct (ofold_cong (okw m) (norm_leaf T nid D scaling m X C cells weight b) (norm_leaf T nid D scaling m X C cells' weight' b) (order b))
      with (st := mkWork (w_S (fst s)) (fun _ _ _ _ _ => 0)) as [E O].
    + intros s1 k Hk Hs1. apply (Permutation_in _ (Hord b ltac:(lia))), in_seq in Hk. apply leaf_same; [lia|lia|exact Hs1].
    + exact Hs.
    + rewrite E. split; [reflexivity|]. intros s'.
      destruct (ofold (norm_leaf T nid D scaling m X C cells' weight' b) (order b) (mkWork (w_S (fst s)) (fun _ _ _ _ _ => 0))) as [st|]; [|intro E'; discriminate E'].
      intros E'. injection E' as <-. cbn [fst]. now apply O.
  - intros v c k. apply repeat_length.
  - rewrite E. reflexivity.
Qed.
End Same.

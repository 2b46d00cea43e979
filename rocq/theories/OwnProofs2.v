(** Proofs about active Shapley values with one explanation per observation, from the trees. *)
From Verif Require Import Base TreeModel TreeSpec TreeProofs GameSpec GameProofs ShapModel ShapSpec ShapProofs NopaModel AcvModel AcvSpec AcvProofs
  FlatModel FlatSpec FlatProofs SkModel SkSpec SkProofs
  SdpModel SdpSpec SdpProofs ArrModel ArrSpec ArrProofs ArrProofs2 ArrProofs3 ArrProofs4 EntryModel EntrySpec EntryProofs EntryProofs2 EntryProofs3 SbufModel SbufSpec SbufProofs SbufProofs2
  AbufModel AbufSpec AbufProofs AbufProofs2 AbufProofs3 AbufProofs4 OwnModel OwnSpec OwnProofs.
Local Open Scope nat_scope.

Section Own.
Variables (listed : list nat -> list nat) (sig : Q -> Q) (ts : list mtree) (stacked : nat) (boosted : bool) (d w k : nat)
  (data : marg) (zs : list (list Q)) (h : shap_acv) (X : marg) (xs : list (list Q)) (m : nat) (C : list (list nat))
  (S_star N_star : zarg) (size : sarg) (A O : nat -> list nat) (P : nat -> list (list nat)).
Hypothesis HL : lists_set listed.
Hypothesis HA : adapted ts stacked d w k data zs X xs m C S_star N_star size A O P.
Hypothesis Hh : construct_shap listed sig ts stacked boosted data = Some h.

Lemma own_ens : ensemble_ok ts stacked d w k /\ is_table data d zs.
Proof.
  destruct HA as (_ & Hne & _ & cs & cn & ss & ns & ks & _ & _ & _ & _ & _ & _ & _ & H). destruct xs as [|x xs'] eqn:E; [congruence|].
  destruct (H 0 x eq_refl) as (_ & H1 & H2). destruct (Nat.eq_dec (length (A 0)) m) as [K|K].
  - specialize (H1 K). split; apply H1.
  - destruct (H2 K) as [H3 _]. split; apply H3.
Qed.
Lemma seq_orders : leaf_orders ts (fun b => seq 0 (t_nb (o_tabs (h_acv h)) b)).
Proof.
  destruct own_ens as [Hok Hd]. intros b t Ht. rewrite (h_nb listed sig ts stacked boosted d w k data zs h Hok Hd Hh b).
  rewrite (nth_error_nth _ _ no_tree Ht).
  rewrite (leaf_list_count d w t (h_wf ts stacked d w k Hok t (nth_error_In _ _ Ht))). reflexivity.
Qed.
Lemma called_order o : called ts h X S_star N_star size C o ->
  exists order, (forall i, leaf_orders ts (order i)) /\ o = acv_own h order X S_star N_star size C.
Proof.
  intros [->|H]; [|exact H]. exists (fun _ b => seq 0 (t_nb (o_tabs (h_acv h)) b)). split; [intros _; exact seq_orders|apply own_nopa].
Qed.
Lemma own_entries o (Q' : nat -> list Q -> (nat -> nat -> option Q) -> Prop) : called ts h X S_star N_star size C o ->
  (forall i x order, nth_error xs i = Some x -> leaf_orders ts order -> length (A i) = m ->
     cube_entries (acv_shap h order (M_array F64 m [x]) C) [x] m k (fun x f => forall f', (forall c j, c < m -> j < k -> f' c j = Some (f c j)) -> Q' i x f')) ->
  (forall i x order, nth_error xs i = Some x -> leaf_orders ts order -> length (A i) <> m ->
     ncube_entries (acv_active h order (M_array F64 m [x]) (S_array I64 (A i)) (S_array I64 (O i)) C) [x] m k (Q' i)) ->
  entries_at o xs m k Q'.
Proof.
  intros Hc H1 H2. destruct (called_order o Hc) as (order & Ho & ->). clear Hc.
  destruct HA as (HX & Hne & Hm & cs & cn & ss & ns & ks & HS & Hcs & HN & Hcn & Hns & Hk & Hl & Hrow).
  assert (Hks : ks <> []). { intros ->. destruct xs as [|x xs'] eqn:E; [congruence|]. destruct (Hrow 0 x eq_refl) as [K _]. discriminate. }
  rewrite (own_call h order X S_star N_star size C m xs cs ss cn ns ks HX Hne Hm HS Hcs HN Hcn Hns Hk Hks Hl).
  assert (Hex : forall i x, nth_error xs i = Some x -> exists table,
    option_map (copy_row h m) (one_row h m C ss ns ks order i (point x)) = Some table /\ length table = m /\
    (forall r, In r table -> length r = k) /\ Q' i x (fun c j => nth j (nth c table []) None)).
  { intros i x Hx. destruct (Hrow i x Hx) as (Ek & R1 & R2). destruct (Nat.eq_dec (length (A i)) m) as [E|E].
    - destruct (H1 i x (order i) Hx (Ho i) E) as (res & Er & Elen & Hres). destruct (Hres 0 x eq_refl) as (t & Ht & Htl & Htr & HQ).
      destruct res as [|t0 [|]]; try discriminate. injection Ht as ->. exists (map (map Some) t).
      split. { apply (one_row_alone h m C Hm ss ns ks order i x _ [] [] _ Ek); [contradiction|]. left. split; [exact E|]. exists t. now split. }
      split; [now rewrite map_length|]. split; [intros r Hr; apply in_map_iff in Hr; destruct Hr as (r0 & <- & Hr0); rewrite map_length; now apply Htr|].
      apply HQ. intros c j Hc Hj. rewrite (nth_indep _ _ (map Some [])) by (rewrite map_length; lia). rewrite map_nth.
      assert (Hlc : length (nth c t []) = k) by (apply Htr, nth_In; lia).
      rewrite (nth_indep _ _ (Some 0%Q)) by (rewrite map_length; lia). now rewrite map_nth.
    - destruct (R2 E) as (_ & s & n & Es & En & Fs & Fn).
      destruct (H2 i x (order i) Hx (Ho i) E) as (res & Er & Elen & Hres). destruct (Hres 0 x eq_refl) as (t & Ht & Htl & Htr & HQ).
      destruct res as [|t0 [|]]; try discriminate. injection Ht as ->. exists t.
      split. { apply (one_row_alone h m C Hm ss ns ks order i x _ s n _ Ek); [now split|]. right. split; [exact E|]. exists (A i), (O i). now split. }
      split; [exact Htl|]. split; [exact Htr|exact HQ]. }
  destruct (own_rows h m C ss ns ks order (map point xs)) as [res|e|] eqn:E.
  - exists res. split; [reflexivity|]. apply own_rows_nth in E. destruct E as [El Er]. split; [exact El|]. intros i x Hx.
    destruct (Er i x Hx) as (t & Ht & Eo). destruct (Hex i x Hx) as (t' & Eo' & Q1). rewrite Eo in Eo'. injection Eo' as <-. exists t. now split.
  - unfold own_rows in E. destruct (all_some _); discriminate.
  - exfalso. unfold own_rows in E. destruct (all_some _) eqn:Ea; [discriminate|]. clear E.
    assert (Hall : exists res, map (fun ix => option_map (copy_row h m) (one_row h m C ss ns ks order (fst ix) (snd ix))) (indexed (map point xs)) = map Some res).
    { assert (G : forall L, (forall ix, In ix L -> exists t, option_map (copy_row h m) (one_row h m C ss ns ks order (fst ix) (snd ix)) = Some t) ->
        exists res, map (fun ix => option_map (copy_row h m) (one_row h m C ss ns ks order (fst ix) (snd ix))) L = map Some res).
      { induction L as [|ix L IH]; intro HL'; [now exists []|]. destruct (HL' ix (or_introl eq_refl)) as [t Et]. destruct IH as [r Er]; [intros; apply HL'; now right|].
        exists (t :: r). cbn [map]. now rewrite Et, Er. }
      apply G. intros ix Hin. apply In_nth_error in Hin. destruct Hin as [i Hi]. rewrite indexed_nth, nth_error_map in Hi.
      destruct (nth_error xs i) as [x|] eqn:Hx; [|discriminate]. cbn in Hi. injection Hi as <-. destruct (Hex i x Hx) as (t & Et & _). now exists t. }
    destruct Hall as [res Er]. apply all_some_iff in Er. congruence.
Qed.

(** each observation gets the Shapley values of its own game *)
Lemma own_values o : called ts h X S_star N_star size C o -> (forall i, i < length xs -> room ts (P i)) ->
  entries_at o xs m k (fun i x f => forall j, j < k ->
    exists forest, forest_leaves (shared (raw_share stacked) ts j) = Some forest /\
    forall g c, In g (P i) -> In c g ->
      (length (A i) = m -> exists q, f c j = Some q /\ (q == shapley gdec (P i) (worth d (map point zs) forest (point x)) g)%Q) /\
      (length (A i) <> m -> c < d ->
        (countable d (O i) (map point zs) forest g -> exists q, f c j = Some q /\ (q == shapley gdec (P i) (worth_acv d (O i) (map point zs) forest (point x)) g)%Q) /\
        (~ countable d (O i) (map point zs) forest g -> f c j = None))).
Proof.
  intros Hc Hr. pose proof HA as (_ & _ & _ & cs & cn & ss & ns & ks & _ & _ & _ & _ & _ & _ & _ & Hrow).
  apply (own_entries o _ Hc).
  - intros i x order Hx Ho E. destruct (Hrow i x Hx) as (_ & R1 & _). specialize (R1 E). pose proof (nth_error_lt _ _ _ Hx) as Hi.
    destruct (proj1 (shapley_entries listed sig ts stacked boosted d w k data zs h _ _ m C (P i) HL R1 Hh order) (Hr i Hi) Ho) as (res & Er & El & H).
    exists res. split; [exact Er|]. split; [exact El|]. intros i' x' Hx'. destruct (H i' x' Hx') as (t & Ht & Hl & Hrw & HQ). exists t. split; [exact Ht|]. split; [exact Hl|]. split; [exact Hrw|].
    intros f' Hf j Hj. destruct (HQ j Hj) as (forest & Ef & HV). exists forest. split; [exact Ef|]. intros g c Hg Hcg. split; [|contradiction]. intros _.
    destruct R1 as (_ & _ & _ & _ & Hdm & HC & _ & HP).
    eexists. split; [apply Hf; [exact (player_col d m C Hdm HC (P i) HP g c Hg Hcg)|exact Hj]|]. now apply HV.
  - intros i x order Hx Ho E. destruct (Hrow i x Hx) as (_ & _ & R2). destruct (R2 E) as [R _]. pose proof (nth_error_lt _ _ _ Hx) as Hi.
    destruct (active_parallel listed sig ts stacked boosted d w k data zs h _ _ m C (A i) (O i) (P i) HL R Hh order (Hr i Hi) Ho) as (res & Er & El & H).
    exists res. split; [exact Er|]. split; [exact El|]. intros i' x' Hx'. destruct (H i' x' Hx') as (t & Ht & Hl & Hrw & HQ). exists t. split; [exact Ht|]. split; [exact Hl|]. split; [exact Hrw|].
    intros j Hj. destruct (HQ j Hj) as (forest & Ef & HV). exists forest. split; [exact Ef|]. intros g c Hg Hcg. split; [contradiction|]. intros _ Hcd. now apply HV.
Qed.
Lemma own_nobody o : called ts h X S_star N_star size C o -> (forall i, i < length xs -> room ts (P i)) ->
  entries_at o xs m k (fun i x f => forall c j, c < m -> j < k -> (forall g, In g (P i) -> ~ In c g) ->
    (P i <> [] -> exists q, f c j = Some q /\ (q == 0)%Q) /\ (P i = [] -> f c j = None)).
Proof.
  intros Hc Hr. pose proof HA as (_ & _ & Hm & cs & cn & ss & ns & ks & _ & _ & _ & _ & _ & _ & _ & Hrow).
  apply (own_entries o _ Hc).
  - intros i x order Hx Ho E. destruct (Hrow i x Hx) as (_ & R1 & _). specialize (R1 E). pose proof (nth_error_lt _ _ _ Hx) as Hi.
    destruct (proj1 (shapley_entries listed sig ts stacked boosted d w k data zs h _ _ m C (P i) HL R1 Hh order) (Hr i Hi) Ho) as (res & Er & El & H).
    exists res. split; [exact Er|]. split; [exact El|]. intros i' x' Hx'. destruct (H i' x' Hx') as (t & Ht & Hl & Hrw & _). exists t. split; [exact Ht|]. split; [exact Hl|]. split; [exact Hrw|].
    intros f' _ c j Hcm _ Hno. exfalso. destruct R1 as (_ & _ & _ & _ & Hdm & HC & _ & HP).
    destruct (in_dec Nat.eq_dec c (concat C)) as [K|K].
    + apply in_concat in K. destruct K as (g & Hg & Hcg). apply (Hno g); [|exact Hcg]. apply HP. left. split; [exact Hg|]. intros ->. contradiction.
    + apply (Hno [c]); [|now left]. apply HP. right. now exists c.
  - intros i x order Hx Ho E. destruct (Hrow i x Hx) as (_ & _ & R2). destruct (R2 E) as [R _]. pose proof (nth_error_lt _ _ _ Hx) as Hi.
    destruct (P i) as [|g0 P'] eqn:EP.
    + destruct (proj1 (none_at_all listed sig ts stacked boosted d w k data zs h _ _ m C (A i) (O i) [] HL R Hh order eq_refl) ltac:(rewrite <- EP; now apply Hr) Ho) as (res & Er & El & H).
      exists res. split; [exact Er|]. split; [exact El|]. intros i' x' Hx'. destruct (H i' x' Hx') as (t & Ht & Hl & Hrw & HQ). exists t. split; [exact Ht|]. split; [exact Hl|]. split; [exact Hrw|].
      intros c j Hcm Hj _. split; [congruence|]. intros _. now apply HQ.
    + destruct (proj1 (active_nobody listed sig ts stacked boosted d w k data zs h _ _ m C (A i) (O i) (g0 :: P') HL R Hh order ltac:(discriminate)) ltac:(rewrite <- EP; now apply Hr) Ho) as (res & Er & El & H).
      exists res. split; [exact Er|]. split; [exact El|]. intros i' x' Hx'. destruct (H i' x' Hx') as (t & Ht & Hl & Hrw & HQ). exists t. split; [exact Ht|]. split; [exact Hl|]. split; [exact Hrw|].
      intros c j Hcm Hj Hno. split; [|discriminate]. intros _. now apply HQ.
Qed.
Lemma filled_same x t : filled ts zs -> In t ts -> (exists l, lands (as_tree t 0) (point x) no_missing l) -> exists z, In z zs /\ same_leaf t x z.
Proof.
  intros HF Ht [l Hl]. destruct (HF t l Ht) as (z & Hz & Hzl).
  - split; [|apply Hl]. destruct own_ens as [Hok _]. pose proof (h_wf ts stacked d w k Hok t Ht) as Hwf.
    pose proof (TreeProofs.visits_lt _ _ (proj1 Hwf) _ _ _ (proj1 Hl)) as Hlt. unfold TreeModel.nn in Hlt. exact Hlt.
  - exists z. split; [exact Hz|]. exists l. now split.
Qed.
Lemma own_adds o rep : called ts h X S_star N_star size C o -> (forall i, i < length xs -> room ts (P i)) ->
  (forall i g, In g (P i) -> In (rep i g) g /\ rep i g < d) -> filled ts zs ->
  entries_at o xs m k (fun i x f => P i <> [] -> forall j v vs, j < k -> adds_up (raw_share stacked) ts j x v -> Forall2 (adds_up (raw_share stacked) ts j) zs vs ->
    exists q, (forall g, In g (P i) -> f (rep i g) j = Some (q g)) /\ (sumf q (P i) == v - mean (fun v => v) vs)%Q).
Proof.
  intros Hc Hr Hrep HF. pose proof HA as (_ & _ & Hm & cs & cn & ss & ns & ks & _ & _ & _ & _ & _ & _ & _ & Hrow).
  apply (own_entries o _ Hc).
  - intros i x order Hx Ho E. destruct (Hrow i x Hx) as (_ & R1 & _). specialize (R1 E). pose proof (nth_error_lt _ _ _ Hx) as Hi.
    destruct (proj1 (account_entries listed sig ts stacked boosted d w k data zs h _ _ m C (P i) HL R1 Hh order (rep i) (fun g Hg => proj1 (Hrep i g Hg))) (Hr i Hi) Ho) as (res & Er & El & H).
    exists res. split; [exact Er|]. split; [exact El|]. intros i' x' Hx'. destruct (H i' x' Hx') as (t & Ht & Hl & Hrw & HQ). exists t. split; [exact Ht|]. split; [exact Hl|]. split; [exact Hrw|].
    intros f' Hf _ j v vs Hj Hv Hvs. exists (fun g => nth j (nth (rep i g) t []) 0%Q). split.
    + intros g Hg. destruct (Hrep i g Hg) as [Hg1 _]. destruct R1 as (_ & _ & _ & _ & Hdm & HC & _ & HP). apply Hf; [exact (player_col d m C Hdm HC (P i) HP g _ Hg Hg1)|exact Hj].
    + apply (HQ (fun u Hu => filled_same x' u HF Hu ltac:(destruct Hv as (rs & Hg & _); clear - Hg Hu; induction Hg as [|a r l rs Ha _ IH]; [contradiction|]; destruct Hu as [->|Hu]; [destruct Ha as (lf & V1 & V2 & _); exists lf; split; assumption|now apply IH]))); assumption.
  - intros i x order Hx Ho E. destruct (Hrow i x Hx) as (_ & _ & R2). destruct (R2 E) as [R _]. pose proof (nth_error_lt _ _ _ Hx) as Hi.
    destruct (P i) as [|g0 P'] eqn:EP.
    + destruct (proj1 (none_at_all listed sig ts stacked boosted d w k data zs h _ _ m C (A i) (O i) [] HL R Hh order eq_refl) ltac:(rewrite <- EP; now apply Hr) Ho) as (res & Er & El & H).
      exists res. split; [exact Er|]. split; [exact El|]. intros i' x' Hx'. destruct (H i' x' Hx') as (t & Ht & Hl & Hrw & HQ). exists t. split; [exact Ht|]. split; [exact Hl|]. split; [exact Hrw|].
      intro K. now contradiction K.
    + assert (Hrep' : forall g, In g (g0 :: P') -> In (rep i g) g /\ rep i g < d) by (intros g Hg; apply Hrep; now rewrite EP).
      destruct (proj1 (active_adds listed sig ts stacked boosted d w k data zs h _ _ m C (A i) (O i) (g0 :: P') HL R Hh order (rep i) (fun g Hg => proj1 (Hrep' g Hg)) ltac:(discriminate) HF)
        (fun g Hg => proj2 (Hrep' g Hg)) ltac:(rewrite <- EP; now apply Hr) Ho) as (res & Er & El & H).
      exists res. split; [exact Er|]. split; [exact El|]. intros i' x' Hx'. destruct (H i' x' Hx') as (t & Ht & Hl & Hrw & HQ). exists t. split; [exact Ht|]. split; [exact Hl|]. split; [exact Hrw|].
      intros _. exact HQ.
Qed.
(** an observation whose players leave the buffers *)
Lemma own_stray o i : called ts h X S_star N_star size C o -> i < length xs -> no_room ts (P i) -> o = Stray.
Proof.
  intros Hc Hi Hn. destruct (called_order o Hc) as (order & Ho & ->). clear Hc.
  destruct HA as (HX & Hne & Hm & cs & cn & ss & ns & ks & HS & Hcs & HN & Hcn & Hns & Hk & Hl & Hrow).
  destruct (nth_error xs i) as [x|] eqn:Hx; [|apply nth_error_None in Hx; lia].
  destruct (Hrow i x Hx) as (Ek & R1 & R2).
  assert (Hks : ks <> []) by (intros ->; destruct i; discriminate).
  rewrite (own_call h order X S_star N_star size C m xs cs ss cn ns ks HX Hne Hm HS Hcs HN Hcn Hns Hk Hks Hl).
  apply (own_rows_stray h m C ss ns ks order xs i x Hx).
  destruct (one_row h m C ss ns ks order i (point x)) as [phi|] eqn:E; [exfalso|reflexivity].
  destruct (Nat.eq_dec (length (A i)) m) as [K|K].
  - assert (G : alone h (order i) m C x (length (A i)) [] [] (copy_row h m phi)).
    { apply (one_row_alone h m C Hm ss ns ks order i x _ [] [] _ Ek); [contradiction|]. now rewrite E. }
    destruct G as [[_ (t & Ht & _)]|[G _]]; [|contradiction].
    rewrite (stray_entries listed sig ts stacked boosted d w k data zs h _ _ m C (P i) HL (R1 K) Hh (order i) Hn (Ho i)) in Ht. discriminate.
  - destruct (R2 K) as (R & s & n & Es & En & Fs & Fn).
    assert (G : alone h (order i) m C x (length (A i)) s n (copy_row h m phi)).
    { apply (one_row_alone h m C Hm ss ns ks order i x _ s n _ Ek); [now split|]. now rewrite E. }
    destruct G as [[G _]|[_ (a & o & Ea & Eo & G)]]; [contradiction|].
    assert (a = A i). { rewrite Fs in Ea. apply (f_equal longs) in Ea. rewrite !longs_nat in Ea. now injection Ea. }
    assert (o = O i). { rewrite Fn in Eo. apply (f_equal longs) in Eo. rewrite !longs_nat in Eo. now injection Eo. }
    subst a o.
    rewrite (active_stray listed sig ts stacked boosted d w k data zs h _ _ m C (A i) (O i) (P i) HL R Hh (order i) Hn (Ho i)) in G. discriminate.
Qed.
End Own.

(** ** Calls that go wrong *)

Lemma own_either h X S_star N_star size C (Q' : outcome (list (list (list (option Q)))) -> Prop) :
  (forall order, Q' (acv_own h order X S_star N_star size C)) -> Q' (acv_own_nopa h X S_star N_star size C).
Proof. intro H. rewrite own_nopa. apply H. Qed.
Lemma own_one_wrong h X S_star N_star size C m xs cs ss cn ns ks i k : is_table X m xs -> xs <> [] -> 0 < m ->
  is_ztable S_star cs ss -> 0 < cs -> is_ztable N_star cn ns -> 0 < cn -> ns <> [] -> is_sizes size ks -> ks <> [] -> length ss = length xs -> i < length xs ->
  nth_error ks i = Some k -> k <> m ->
  (nth_error ns i = None \/ exists n z, nth_error ns i = Some n /\ In z (skipn k n) /\ (z < 0)%Z) ->
  forall order, acv_own h order X S_star N_star size C = Stray /\ acv_own_nopa h X S_star N_star size C = Stray.
Proof.
  intros HX Hne Hm HS Hcs HN Hcn Hns Hk Hks Hl Hi Ek K Hw order.
  assert (G : forall order, acv_own h order X S_star N_star size C = Stray).
  { clear order. intro order. rewrite (own_call h order X S_star N_star size C m xs cs ss cn ns ks HX Hne Hm HS Hcs HN Hcn Hns Hk Hks Hl).
    destruct (nth_error xs i) as [x|] eqn:Hx; [|apply nth_error_None in Hx; lia].
    apply (own_rows_stray h m C ss ns ks order xs i x Hx). unfold one_row. rewrite Ek. destruct (Nat.eqb_spec k m); [contradiction|].
    destruct (nth_error ss i) as [s|]; [|reflexivity].
    destruct Hw as [->|(n' & z & -> & Hz & Hz0)]; [reflexivity|]. rewrite (longs_negative _ z Hz Hz0). now destruct (longs (firstn k s)). }
  split; [apply G|]. apply (own_either h X S_star N_star size C (fun o => o = Stray) G).
Qed.
Lemma own_no_size h X S_star N_star size C m xs cs ss cn ns ks : is_table X m xs -> xs <> [] -> 0 < m ->
  is_ztable S_star cs ss -> 0 < cs -> is_ztable N_star cn ns -> 0 < cn -> ns <> [] -> is_sizes size ks -> ks <> [] -> length ss = length xs -> length ks < length xs ->
  forall order, acv_own h order X S_star N_star size C = Stray /\ acv_own_nopa h X S_star N_star size C = Stray.
Proof.
  intros HX Hne Hm HS Hcs HN Hcn Hns Hk Hks Hl Hi order.
  assert (G : forall order, acv_own h order X S_star N_star size C = Stray).
  { clear order. intro order. rewrite (own_call h order X S_star N_star size C m xs cs ss cn ns ks HX Hne Hm HS Hcs HN Hcn Hns Hk Hks Hl).
    destruct (nth_error xs (length ks)) as [x|] eqn:Hx; [|apply nth_error_None in Hx; lia].
    apply (own_rows_stray h m C ss ns ks order xs (length ks) x Hx). unfold one_row. now rewrite (proj2 (nth_error_None ks (length ks))). }
  split; [apply G|]. apply (own_either h X S_star N_star size C (fun o => o = Stray) G).
Qed.
Lemma own_errors h X S_star N_star size C m xs cs ss cn ns : forall order,
  let both o := acv_own h order X S_star N_star size C = o /\ acv_own_nopa h X S_star N_star size C = o in
  (forall dt l, X = M_vector dt l -> both (Raised EValue)) /\
  (is_table X m xs -> xs = [] \/ m = 0 -> both (Raised EValue)) /\
  (is_table X m xs -> xs <> [] -> 0 < m -> (forall dt l, S_star = Z_vector dt l -> both (Raised EValue)) /\
   (is_ztable S_star cs ss -> ss = [] \/ cs = 0 -> both (Raised EValue)) /\
   (is_ztable S_star cs ss -> ss <> [] -> 0 < cs -> (forall dt l, N_star = Z_vector dt l -> both (Raised EValue)) /\
    (is_ztable N_star cn ns -> ns = [] \/ cn = 0 -> both (Raised EValue)) /\
    (is_ztable N_star cn ns -> ns <> [] -> 0 < cn ->
      (length ss <> length xs -> both (Raised EValue)) /\
      (length ss = length xs -> size = S_list [] \/ (exists dt l, dt <> I64 /\ (size = S_array dt l \/ size = S_column dt l)) -> both (Raised EValue))))).
Proof.
  intros order both.
  assert (V : forall (P0 : Prop) v, (P0 -> forall order, acv_own h order X S_star N_star size C = v) -> P0 -> both v).
  { intros P0 v H HP. split; [now apply H|]. apply (own_either h X S_star N_star size C (fun o => o = v)). now apply H. }
  split; [intros dt l E; apply (V True); [|exact I]; intros _ o; now rewrite E|].
  split. { intros HX HE. apply (V True); [|exact I]. intros _ o. unfold acv_own. rewrite (table_checked X m xs HX). destruct HE as [-> | ->]; [reflexivity|]. now rewrite Nat.eqb_refl, orb_true_r. }
  intros HX Hx Hm. split; [intros dt l E; apply (V True); [|exact I]; intros _ o; unfold acv_own; rewrite (table_ok X m xs HX Hx Hm), E; reflexivity|].
  split. { intros HS HE. apply (V True); [|exact I]. intros _ o. unfold acv_own. rewrite (table_ok X m xs HX Hx Hm), (ztable_checked S_star cs ss HS). cbn [andthen].
    destruct HE as [-> | ->]; [reflexivity|]. now rewrite Nat.eqb_refl, orb_true_r. }
  intros HS Hs Hcs. split; [intros dt l E; apply (V True); [|exact I]; intros _ o; unfold acv_own; rewrite (table_ok X m xs HX Hx Hm), (ztable_ok S_star cs ss HS Hs Hcs), E; reflexivity|].
  split. { intros HN HE. apply (V True); [|exact I]. intros _ o. unfold acv_own. rewrite (table_ok X m xs HX Hx Hm), (ztable_ok S_star cs ss HS Hs Hcs), (ztable_checked N_star cn ns HN). cbn [andthen].
    destruct HE as [-> | ->]; [reflexivity|]. now rewrite Nat.eqb_refl, orb_true_r. }
  intros HN Hn Hcn. split.
  - intro Hl. apply (V True); [|exact I]. intros _ o. unfold acv_own. rewrite (table_ok X m xs HX Hx Hm), (ztable_ok S_star cs ss HS Hs Hcs), (ztable_ok N_star cn ns HN Hn Hcn).
    cbn [andthen buffer2 same_dtype rows cols]. unfold same_length. destruct (Nat.eqb_spec (length xs) (length ss)); [congruence|reflexivity].
  - intros Hl Hsz. apply (V True); [|exact I]. intros _ o. unfold acv_own. rewrite (table_ok X m xs HX Hx Hm), (ztable_ok S_star cs ss HS Hs Hcs), (ztable_ok N_star cn ns HN Hn Hcn).
    cbn [andthen buffer2 same_dtype rows cols]. unfold same_length. rewrite Hl, Nat.eqb_refl. cbn [andthen].
    destruct Hsz as [->|(dt & l & Hdt & [-> | ->])]; [reflexivity| |]; destruct dt; try reflexivity; congruence.
Qed.
Lemma own_documented h X S_star N_star size C m xs cs ss ns ks i s : is_table X m xs -> xs <> [] -> 0 < m ->
  is_ztable S_star cs ss -> 0 < cs -> is_ztable N_star m ns -> is_sizes size ks -> length ss = length xs -> i < length xs ->
  nth_error ks i = Some (length s) -> 0 < length (s : list nat) -> length s < m -> forall o, length o = m - length s ->
  nth_error ns i = Some (map Z.of_nat o ++ repeat (-1)%Z (length s)) ->
  forall order, acv_own h order X S_star N_star size C = Stray /\ acv_own_nopa h X S_star N_star size C = Stray.
Proof.
  intros HX Hne Hm HS Hcs HN Hk Hl Hi Ek H0 H1 o Ho En.
  apply (own_one_wrong h X S_star N_star size C m xs cs ss m ns ks i (length s) HX Hne Hm HS Hcs HN Hm); trivial; try (destruct i; intros ->; discriminate); [lia|].
  right. exists (map Z.of_nat o ++ repeat (-1)%Z (length s)), (-1)%Z. split; [exact En|]. split; [|lia].
  set (n := map Z.of_nat o ++ repeat (-1)%Z (length s)). assert (Hn : length n = m) by (unfold n; rewrite app_length, map_length, repeat_length; lia).
  assert (E : nth_error n (m - 1) = Some (-1)%Z).
  { unfold n. rewrite nth_error_app2 by (rewrite map_length; lia). apply nth_error_repeat. rewrite map_length. lia. }
  apply (nth_error_In _ (m - 1 - length s)). rewrite <- E. rewrite <- (firstn_skipn (length s) n) at 2.
  rewrite nth_error_app2 by (rewrite firstn_length; lia). f_equal. rewrite firstn_length. lia.
Qed.

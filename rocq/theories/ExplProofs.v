(** Proofs about the explainer objects (C86-C88). *)
From Verif Require Import Base GameSpec TreeModel ShapModel ShapProofs SearchModel SearchSpec SearchProofs ExplModel ExplSpec.
From Coq Require Import NArith.

Section Life.
Variables F R : Type.
Variable cls : bool.
Notation op := (op F R).
Notation after := (after F R).

Lemma last_fit_app (h h' : list op) :
  last_fit (h ++ h') = match last_fit h' with Some x => Some x | None => last_fit h end.
Proof.
  induction h as [|o h IH]; cbn; [now destruct (last_fit h')|].
  rewrite IH. destruct (last_fit h'); [reflexivity|]. reflexivity.
Qed.
Lemma last_rules_app (h h' : list op) :
  last_rules (h ++ h') = match last_rules h' with Some x => Some x | None => last_rules h end.
Proof.
  induction h as [|o h IH]; cbn; [now destruct (last_rules h')|].
  rewrite IH. destruct (last_rules h'); reflexivity.
Qed.
Lemma after_snoc h (o : op) : after cls (h ++ [o]) = fst (step F R cls (after cls h) o).
Proof. unfold ExplModel.after. now rewrite fold_left_app. Qed.

Lemma step_rules (a : acx F R) : fst (step F R cls a PredictRules) = a.
Proof. cbn. destruct (a_globalrule F R a); [destruct (a_rules F R a)|]; reflexivity. Qed.
(** what the object holds after any history *)
Lemma after_fit h : 
  a_model _ _ (after cls h) = option_map fst (last_fit h) /\ a_d _ _ (after cls h) = option_map snd (last_fit h).
Proof.
  induction h as [|o h IH] using rev_ind; [now cbn|].
  rewrite after_snoc, last_fit_app. destruct IH as [Hm Hd].
  destruct o; cbn [step last_fit].
  - now cbn.
  - unfold check_is_explainer. destruct (a_model F R (after cls h)) eqn:E; [|cbn; now rewrite E].
    destruct (a_flag F R (after cls h)).
    + destruct (a_expl F R (after cls h)) as [[f' d']|]; cbn; now rewrite ?E.
    + cbn. destruct (a_d F R (after cls h)); cbn; auto.
  - destruct (a_model F R (after cls h)) eqn:E; cbn; now rewrite E.
  - now cbn.
  - fold (step F R cls (after cls h) PredictRules). rewrite step_rules. auto.
Qed.
Lemma after_rules h :
  a_rules _ _ (after cls h) = last_rules h /\
  a_globalrule _ _ (after cls h) = match last_rules h with Some _ => true | None => false end.
Proof.
  induction h as [|o h IH] using rev_ind; [now cbn|].
  rewrite after_snoc, last_rules_app. destruct IH as [Hm Hd].
  destruct o; cbn [step last_rules].
  - now cbn.
  - unfold check_is_explainer. destruct (a_model F R (after cls h)) eqn:E; [|now cbn].
    destruct (a_flag F R (after cls h)).
    + destruct (a_expl F R (after cls h)) as [[f' d']|]; now cbn.
    + cbn. destruct (a_d F R (after cls h)); cbn; auto.
  - destruct (a_model F R (after cls h)) eqn:E; now cbn.
  - now cbn.
  - fold (step F R cls (after cls h) PredictRules). rewrite step_rules. auto.
Qed.

Lemma never_snoc h (o : op) : never_explained (h ++ [o]) -> never_explained h.
Proof.
  intros H h1 h2 ->. apply (H h1 (h2 ++ [o])). now rewrite <- app_assoc.
Qed.
(** the converted forest: none before the first explanation, frozen afterwards *)
Lemma after_never h : never_explained h -> a_flag _ _ (after cls h) = false.
Proof.
  induction h as [|o h IH] using rev_ind; [reflexivity|]. intros H.
  pose proof (IH (never_snoc _ _ H)) as Hf. rewrite after_snoc.
  destruct (after_fit h) as [Hm _]. destruct o; cbn [step].
  - exact Hf.
  - assert (E : last_fit h = None) by (apply (H h []); reflexivity).
    rewrite E in Hm. unfold check_is_explainer. rewrite Hm. exact Hf.
  - destruct (a_model F R (after cls h)); exact Hf.
  - exact Hf.
  - fold (step F R cls (after cls h) PredictRules). rewrite step_rules. auto.
Qed.
Lemma explain_first h f d : last_fit h = Some (f, d) -> a_flag _ _ (after cls h) = false ->
  step F R cls (after cls h) Explain =
  (mkAcx F R (Some f) (Some d) true (Some (f, d)) (a_globalrule _ _ (after cls h)) (a_rules _ _ (after cls h)),
   Used f d (if cls then None else Some f)).
Proof.
  intros Hl Hf. destruct (after_fit h) as [Hm Hd]. rewrite Hl in Hm, Hd. cbn in Hm, Hd.
  cbn [step]. unfold check_is_explainer. rewrite Hm, Hd, Hf. cbn. unfold default_levels. cbn. reflexivity.
Qed.
Lemma after_frozen h1 h2 f d : last_fit h1 = Some (f, d) -> never_explained h1 ->
  a_flag _ _ (after cls (h1 ++ Explain :: h2)) = true /\
  a_expl _ _ (after cls (h1 ++ Explain :: h2)) = Some (f, d).
Proof.
  intros Hl Hn. induction h2 as [|o h2 IH] using rev_ind.
  - rewrite after_snoc, (explain_first _ _ _ Hl (after_never _ Hn)). now cbn.
  - rewrite app_comm_cons, app_assoc, after_snoc.
    destruct IH as [Hf He]. set (a := after cls (h1 ++ Explain :: h2)) in *.
    destruct o; cbn [step].
    + now cbn.
    + unfold check_is_explainer. destruct (a_model F R a); [|now cbn]. rewrite Hf, He. now cbn.
    + destruct (a_model F R a); now cbn.
    + now cbn.
    + fold (step F R cls a PredictRules). rewrite step_rules. auto.
Qed.

Theorem life_unfitted (h : list op) : last_fit h = None -> ask cls h Explain = Unfitted /\ ask cls h Predict = Unfitted.
Proof.
  intros H. destruct (after_fit h) as [Hm _]. rewrite H in Hm. unfold ask. cbn [step].
  unfold check_is_explainer. rewrite Hm. now cbn.
Qed.
Theorem life_first (h : list op) f d : last_fit h = Some (f, d) -> never_explained h ->
  ask cls h Explain = Used f d (if cls then None else Some f).
Proof. intros H Hn. unfold ask. now rewrite (explain_first _ _ _ H (after_never _ Hn)). Qed.
Theorem life_later (h h1 h2 : list op) f d g e : first_explained h h1 h2 -> last_fit h1 = Some (f, d) ->
  last_fit h = Some (g, e) -> ask cls h Explain = Used f d (if cls then None else Some g).
Proof.
  intros (-> & _ & Hn) H1 H. destruct (after_frozen h1 h2 f d H1 Hn) as [Hf He].
  destruct (after_fit (h1 ++ Explain :: h2)) as [Hm _]. rewrite H in Hm. cbn in Hm.
  unfold ask. cbn [step]. unfold check_is_explainer. rewrite Hm, Hf, He. cbn. unfold default_levels. now rewrite Hm.
Qed.
Lemma last_fit_none (h : list op) : (forall f d, ~ In (Fit f d) h) -> last_fit h = None.
Proof.
  induction h as [|o h IH]; intros H; [reflexivity|]. cbn. rewrite IH by (intros f d Hi; apply (H f d); now right).
  destruct o; try reflexivity. exfalso. apply (H f d). now left.
Qed.
(** every history either never explains or has a first explanation *)
Lemma explained_dec (h : list op) : never_explained h \/ exists h1 h2, first_explained h h1 h2.
Proof.
  induction h as [|o h IH] using rev_ind.
  - left. intros h1 h2 E. now destruct h1.
  - destruct IH as [Hn|(h1 & h2 & E & Hl & Hn)].
    + destruct (last_fit h) eqn:Hl.
      * destruct o; try (left; intros h1 h2 E;
          destruct h2 as [|x h2 _] using rev_ind;
          [apply app_inj_tail in E; destruct E; discriminate|];
          rewrite app_comm_cons, app_assoc in E; apply app_inj_tail in E; destruct E as [E _]; exact (Hn _ _ E)).
        right. exists h, []. repeat split; [congruence|exact Hn].
      * left. intros h1 h2 E. destruct h2 as [|x h2 _] using rev_ind.
        -- apply app_inj_tail in E. destruct E as [<- _]. exact Hl.
        -- rewrite app_comm_cons, app_assoc in E. apply app_inj_tail in E. destruct E as [E _]. exact (Hn _ _ E).
    + right. exists h1, (h2 ++ [o]). repeat split; auto. rewrite E, <- app_assoc. reflexivity.
Qed.
Theorem life_current (h : list op) f d : last_fit h = Some (f, d) ->
  (forall h1 h2, first_explained h h1 h2 -> forall f d, ~ In (Fit f d) h2) ->
  ask cls h Explain = Used f d (if cls then None else Some f).
Proof.
  intros H Hno. destruct (explained_dec h) as [Hn|(h1 & h2 & Hfe)]; [now apply life_first|].
  pose proof (Hno _ _ Hfe) as Hn2. destruct Hfe as (E & Hl & Hn).
  assert (H1 : last_fit h1 = Some (f, d)).
  { rewrite E, last_fit_app in H. cbn in H. rewrite (last_fit_none _ Hn2) in H. exact H. }
  apply (life_later h h1 h2 f d f d); auto. repeat split; auto.
Qed.
Theorem life_predict (h : list op) : ask cls h Predict = match last_fit h with Some (f, _) => Predicted f | None => Unfitted end.
Proof.
  unfold ask. cbn [step]. destruct (after_fit h) as [Hm _]. rewrite Hm. now destruct (last_fit h) as [[f d]|].
Qed.
Theorem life_rules (h : list op) : ask cls h PredictRules = match last_rules h with Some r => Ruled r | None => Unfitted end.
Proof.
  unfold ask. cbn [step]. destruct (after_rules h) as [Hr Hg]. rewrite Hr, Hg. now destruct (last_rules h).
Qed.
End Life.

(** ** Search spaces *)

Lemma firstn_incl {A} n (l : list A) x : In x (firstn n l) -> In x l.
Proof. revert l. induction n as [|n IH]; intros [|a l]; cbn; try tauto. intros [H|H]; auto. Qed.
Lemma NoDup_firstn' {A} n (l : list A) : NoDup l -> NoDup (firstn n l).
Proof.
  revert l. induction n as [|n IH]; intros [|a l] H; cbn; try constructor.
  - intros Hi. apply (firstn_incl n l) in Hi. now inversion H.
  - apply IH. now inversion H.
Qed.
Lemma firstn_top {A} (le' : A -> A -> Prop) imp n order a b : decreasing le' imp order ->
  In a (firstn n order) -> In b order -> ~ In b (firstn n order) -> le' (imp b) (imp a).
Proof.
  intros Hdec Ha Hb Hnb.
  rewrite <- (firstn_skipn n order) in Hb. apply in_app_iff in Hb. destruct Hb as [Hb|Hb]; [contradiction|].
  apply In_nth_error in Ha. destruct Ha as [i Hi]. apply In_nth_error in Hb. destruct Hb as [j Hj].
  assert (Hli : i < length (firstn n order)) by (apply nth_error_Some; congruence).
  assert (Ho : order = firstn n order ++ skipn n order) by now rewrite firstn_skipn.
  apply (Hdec i (length (firstn n order) + j)).
  - lia.
  - rewrite Ho. now rewrite nth_error_app1.
  - rewrite Ho at 1. rewrite nth_error_app2 by lia.
    replace (length (firstn n order) + j - length (firstn n order)) with j by lia. exact Hj.
Qed.

Lemma agnostic_space_ok imp d order : ranked imp d order ->
  NoDup (agnostic_space d order) /\ (forall x, In x (agnostic_space d order) -> x < d) /\
  length (agnostic_space d order) = Nat.min 10 d.
Proof.
  intros [Hp _]. unfold agnostic_space.
  assert (Hnd : NoDup order) by (eapply Permutation_NoDup; [symmetry; exact Hp|apply seq_NoDup]).
  assert (Hin : forall x, In x order -> x < d).
  { intros x Hx. apply (Permutation_in _ Hp) in Hx. apply in_seq in Hx. lia. }
  assert (Hlen : length order = d) by (rewrite (Permutation_length Hp); apply seq_length).
  destruct (10 <? d).
  - repeat split; [now apply NoDup_firstn'| |rewrite firstn_length; lia].
    intros x Hx. apply firstn_incl in Hx. auto.
  - repeat split; [apply NoDup_firstn', seq_NoDup| |rewrite firstn_length, seq_length; lia].
    intros x Hx. apply firstn_incl in Hx. apply in_seq in Hx. lia.
Qed.
Theorem space_choice imp d order : ranked imp d order ->
  NoDup (agnostic_space d order) /\ length (agnostic_space d order) = Nat.min 10 d /\
  (forall x, In x (agnostic_space d order) -> x < d) /\
  (d <= 10 -> agnostic_space d order = seq 0 d) /\
  (10 < d -> forall a b, In a (agnostic_space d order) -> b < d -> ~ In b (agnostic_space d order) ->
     (imp b <= imp a)%Q).
Proof.
  intros H. destruct (agnostic_space_ok imp d order H) as (Hn & Hb & Hl). repeat split; auto.
  - intros Hd. unfold agnostic_space. destruct (10 <? d) eqn:E; [apply Nat.ltb_lt in E; lia|].
    apply firstn_all2. now rewrite seq_length.
  - intros Hd a b Ha Hbd Hnb. destruct H as [Hp Hdec]. unfold agnostic_space in *.
    replace (10 <? d) with true in * by (symmetry; now apply Nat.ltb_lt).
    eapply (firstn_top Qle); eauto. apply (Permutation_in _ (Permutation_sym Hp)). apply in_seq. lia.
Qed.
Theorem space_choice_tree flat d order C : counted flat order -> C = [[]] -> 10 < d ->
  exists sp, tree_space_groups d order C = map (fun i => [i]) sp /\ NoDup sp /\
    length sp = Nat.min 10 (length order) /\
    (forall x, In x sp -> In x flat) /\
    (forall a b, In a sp -> ~ In b sp -> count_occ Nat.eq_dec flat b <= count_occ Nat.eq_dec flat a).
Proof.
  intros (Hn & Hin & Hdec) -> Hd. exists (firstn 10 order). unfold tree_space_groups.
  replace (10 <? d) with true by (symmetry; now apply Nat.ltb_lt).
  split; [reflexivity|]. split; [now apply NoDup_firstn'|]. split; [apply firstn_length|]. split.
  - intros x Hx. apply Hin. eapply firstn_incl, Hx.
  - intros a b Ha Hb. destruct (in_dec Nat.eq_dec b order) as [Hbo|Hbo].
    + apply (firstn_top le (count_occ Nat.eq_dec flat) 10 order a b); auto.
    + rewrite Hin in Hbo. apply (count_occ_not_In Nat.eq_dec) in Hbo. rewrite Hbo. lia.
Qed.

Lemma NoDup_app_split {A} (l l' : list A) : NoDup (l ++ l') -> NoDup l' /\ (forall x, In x l -> ~ In x l').
Proof.
  induction l as [|a l IH]; cbn; intros H; [split; [exact H|tauto]|].
  inversion H as [|? ? Ha Hl]; subst. destruct (IH Hl) as [H1 H2]. split; [exact H1|].
  intros x [<-|Hx]; [|now apply H2]. intros Hi. apply Ha, in_app_iff. auto.
Qed.
(** disjoint coalitions do not add groups *)
Lemma coalitions_met (C : list (list nat)) (sp : list nat) : NoDup (concat C) -> NoDup sp ->
  length (filter (existsb (fun c => memb c sp)) C) <= length (filter (fun i => memb i (concat C)) sp).
Proof.
  revert sp. induction C as [|g C IH]; intros sp HC Hs; [cbn; lia|].
  cbn [concat] in HC. cbn [filter concat].
  destruct (NoDup_app_split g (concat C) HC) as [HC' Hdis].
  set (sp' := filter (fun i => negb (memb i g)) sp).
  assert (Hs' : NoDup sp') by (apply NoDup_filter; exact Hs).
  assert (Hsame : filter (existsb (fun c => memb c sp)) C = filter (existsb (fun c => memb c sp')) C).
  { apply filter_ext_in. intros h Hh. apply eq_true_iff_eq. rewrite !existsb_exists. split; intros (c & Hc & Hm); exists c; split; auto.
    - rewrite memb_true in Hm |- *. apply filter_In. split; auto. destruct (memb c g) eqn:E; [|reflexivity].
      rewrite memb_true in E. exfalso. apply (Hdis c E). apply in_concat. eauto.
    - rewrite memb_true in Hm |- *. apply filter_In in Hm. tauto. }
  assert (Hsplit : length (filter (fun i => memb i (g ++ concat C)) sp)
                   = length (filter (fun i => memb i g) sp) + length (filter (fun i => memb i (concat C)) sp')).
  { unfold sp'. clear IH Hsame Hs' sp' Hs. induction sp as [|a sp IHs]; [reflexivity|]. cbn [filter].
    assert (E : memb a (g ++ concat C) = memb a g || memb a (concat C)).
    { apply eq_true_iff_eq. rewrite orb_true_iff, !memb_true, in_app_iff. tauto. }
    rewrite E. destruct (memb a g) eqn:E1; cbn [negb orb filter length].
    - rewrite IHs. lia.
    - destruct (memb a (concat C)); cbn [length]; rewrite IHs; lia. }
  rewrite Hsplit, Hsame. specialize (IH sp' HC' Hs').
  destruct (existsb (fun c => memb c sp) g) eqn:E; cbn [length]; [|lia].
  apply existsb_exists in E. destruct E as (c & Hc & Hm). rewrite memb_true in Hm.
  assert (1 <= length (filter (fun i => memb i g) sp)).
  { destruct (filter (fun i => memb i g) sp) eqn:Ef; [|cbn; lia].
    exfalso. assert (Hi : In c (filter (fun i => memb i g) sp)) by (apply filter_In; split; [exact Hm|now apply memb_true]).
    rewrite Ef in Hi. exact Hi. }
  lia.
Qed.
Lemma filter_partition {A} (f : A -> bool) l : length (filter f l) + length (filter (fun x => negb (f x)) l) = length l.
Proof. induction l as [|a l IH]; [reflexivity|]. cbn. destruct (f a); cbn; lia. Qed.
Lemma search_groups_length C sp : NoDup (concat C) -> NoDup sp -> length (search_groups C sp) <= length sp.
Proof.
  intros HC Hs. unfold search_groups. destruct (has_coal C); [|now rewrite map_length].
  rewrite app_length, map_length. pose proof (coalitions_met C sp HC Hs).
  pose proof (filter_partition (fun i => memb i (concat C)) sp). lia.
Qed.
Lemma coal_ok_nil C d : coal_ok C d -> has_coal C = true -> ~ In [] C.
Proof. intros (_ & _ & [->|H]); [discriminate|auto]. Qed.
Lemma agnostic_groups_ok imp d order C : ranked imp d order -> coal_ok C d ->
  groups_ok d (search_groups C (agnostic_space d order)) /\
  length (search_groups C (agnostic_space d order)) <= 10.
Proof.
  intros Hr HC. destruct (agnostic_space_ok imp d order Hr) as (Hn & Hb & Hl). split.
  - destruct HC as (H1 & H2 & H3) eqn:E. apply search_groups_ok; auto. intros Hc. eapply coal_ok_nil; eauto.
  - pose proof (search_groups_length C (agnostic_space d order) (proj1 HC) Hn). lia.
Qed.
Lemma tree_space_groups_ok flat d order C : counted flat order -> (forall x, In x flat -> x < d) -> coal_ok C d ->
  groups_ok d (tree_space_groups d order C) /\ length (tree_space_groups d order C) <= 10.
Proof.
  intros (Hn & Hin & _) Hd HC. unfold tree_space_groups. destruct (10 <? d) eqn:E.
  - assert (Hb : forall x, In x (firstn 10 order) -> x < d) by (intros x Hx; apply Hd, Hin; eapply firstn_incl, Hx).
    split.
    + destruct HC as (H1 & H2 & H3) eqn:E'. apply search_groups_ok; auto; [now apply NoDup_firstn'|]. intros Hc. eapply coal_ok_nil; eauto.
    + pose proof (search_groups_length C (firstn 10 order) (proj1 HC) (NoDup_firstn' 10 _ Hn)). rewrite firstn_length in H. lia.
  - apply Nat.ltb_ge in E. split.
    + destruct HC as (H1 & H2 & H3) eqn:E'. apply tree_groups_ok; auto. intros Hc. eapply coal_ok_nil; eauto.
    + assert (Hg : length (tree_groups C d) <= length (seq 0 d)); [|rewrite seq_length in Hg; lia].
      unfold tree_groups. destruct (has_coal C) eqn:Hc; [|now rewrite map_length].
      rewrite app_length, map_length.
      pose proof (filter_partition (fun i => memb i (concat C)) (seq 0 d)) as Hp.
      pose proof (coalitions_met C (seq 0 d) (proj1 HC) (seq_NoDup _ _)) as Hm.
      assert (Hall : filter (existsb (fun c => memb c (seq 0 d))) C = C); [|rewrite Hall in Hm; lia].
      pose proof (coal_ok_nil C d HC Hc) as Hne. destruct HC as (_ & Hb & _). clear Hm Hp Hc.
      induction C as [|g C IHC]; [reflexivity|]. cbn [filter]. replace (existsb (fun c => memb c (seq 0 d)) g) with true.
      * f_equal. apply IHC; [intros x Hx; apply Hb; cbn; apply in_app_iff; auto|intros Hi; apply Hne; now right].
      * symmetry. destruct g as [|c g]; [exfalso; apply Hne; now left|]. cbn [existsb].
        replace (memb c (seq 0 d)) with true; [reflexivity|]. symmetry. apply memb_true, in_seq.
        split; [lia|]. cbn. apply Hb. cbn. now left.
Qed.

Theorem agnostic_defined imp d order C pi P stop N minimal : ranked imp d order -> coal_ok C d ->
  agnostic_search d order C pi P stop N minimal <> None.
Proof.
  intros Hr HC. destruct (agnostic_groups_ok imp d order C Hr HC) as [_ Hl].
  apply search_some. lia.
Qed.
Theorem agnostic_found imp d order C pi P stop N minimal st k :
  ranked imp d order -> coal_ok C d -> (0 < pi)%Q -> (pi <= 1)%Q -> k < N ->
  agnostic_search d order C pi P stop N minimal = Some st -> (pi <= r_sdp (s_rows st k))%Q ->
  exists T, minimal_sufficient d (search_groups C (agnostic_space d order)) minimal pi (P k) T (r_sdp (s_rows st k)) /\
    reported (s_rows st k) = map Z.of_nat (concat T) /\ r_len (s_rows st k) = length (concat T).
Proof.
  intros Hr HC H0 H1 Hk E Hp. destruct (agnostic_groups_ok imp d order C Hr HC) as [Hg _].
  eapply search_found; eauto.
Qed.
Theorem agnostic_not_found imp d order C pi P N minimal st k :
  ranked imp d order -> coal_ok C d -> (0 < pi)%Q -> (pi <= 1)%Q -> k < N ->
  agnostic_search d order C pi P false N minimal = Some st -> (r_sdp (s_rows st k) < pi)%Q ->
  forall T, In T (subs (search_groups C (agnostic_space d order))) -> minimal <= length T -> (P k (concat T) < pi)%Q.
Proof.
  intros Hr HC H0 H1 Hk E Hp T HT Hl. destruct (agnostic_groups_ok imp d order C Hr HC) as [Hg _].
  eapply (search_not_found v_rf d pi P cut15 false N); eauto. discriminate.
Qed.
Theorem tree_api_found flat d order C pi P stop N minimal st k :
  counted flat order -> (forall x, In x flat -> x < d) -> coal_ok C d -> (0 < pi)%Q -> (pi <= 1)%Q -> k < N ->
  tree_search d order C pi P stop N minimal = Some st -> (pi <= r_sdp (s_rows st k))%Q ->
  exists T, minimal_sufficient d (tree_space_groups d order C) minimal pi (P k) T (r_sdp (s_rows st k)) /\
    reported (s_rows st k) = map Z.of_nat (concat T) /\ r_len (s_rows st k) = length (concat T).
Proof.
  intros Hc Hd HC H0 H1 Hk E Hp. destruct (tree_space_groups_ok flat d order C Hc Hd HC) as [Hg _].
  eapply search_clf_found; eauto.
Qed.
Theorem tree_api_not_found flat d order C pi P N minimal st k :
  counted flat order -> (forall x, In x flat -> x < d) -> coal_ok C d -> (0 < pi)%Q -> (pi <= 1)%Q -> k < N ->
  tree_search d order C pi P false N minimal = Some st -> (r_sdp (s_rows st k) < pi)%Q ->
  forall T, In T (subs (tree_space_groups d order C)) -> minimal <= length T -> (P k (concat T) < pi)%Q.
Proof.
  intros Hc Hd HC H0 H1 Hk E Hp T HT Hl. destruct (tree_space_groups_ok flat d order C Hc Hd HC) as [Hg Hlen].
  eapply (search_clf_not_found v_tree d pi P false N); eauto; [lia|discriminate].
Qed.

(** ** Cached Shapley values *)
Theorem api_cache_same cache_on C m data forest x j :
  (api_shap_values cache_on C C m data forest x j == api_shap_values false [] C m data forest x j)%Q.
Proof. unfold api_shap_values. destruct cache_on; [apply cache_same|reflexivity]. Qed.
Theorem api_direct_any C0 C m data forest x j :
  (api_shap_values false C0 C m data forest x j == shap_values_leaves C m data forest x j)%Q.
Proof. reflexivity. Qed.

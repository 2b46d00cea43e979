(** Proofs about the pure Python Shapley routines. *)
From Verif Require Import Base TreeModel TreeSpec GameSpec GameProofs ShapModel ShapSpec ShapProofs
  AcvModel AcvSpec AcvProofs SearchProofs SwingModel SwingProofs PyShapModel PyShapSpec.

(** ** Coefficients *)
Lemma py_coef_eq d k s : s <= k -> k < d -> (py_coef d k s == coef d k s)%Q.
Proof.
  intros Hs Hk. unfold coef, py_coef. rewrite coef_fold; trivial.
  2:{ intros l Hl. apply in_seq in Hl. lia. }
  rewrite Qplus_0_l. apply sumf_ext. intros l _. unfold binomialC. rewrite !comb_exact, (Nat.add_comm l s).
  reflexivity.
Qed.
Lemma py_coef_0_eq d s : s < d -> (py_coef_0 d s == coef_0 d s)%Q.
Proof.
  intro H. unfold py_coef_0, coef_0. destruct (qeqb_spec (binomialC (d - 1) s) 0) as [E|E]; [|reflexivity].
  exfalso. unfold binomialC in E. rewrite comb_exact in E. apply (Qn_inj _ 0) in E.
  pose proof (choose_pos (d - 1) s ltac:(lia)). lia.
Qed.

(** sum over the subsets of the other players met by a leaf *)
Lemma powerset_shapley {A} (f : A -> list nat) d P (Sm : list A) u va (touched : list nat -> bool) :
  NoDup P -> In va P -> touched va = true -> is_game u ->
  (forall p, In p P -> touched p = false -> null_in u p) ->
  Permutation (map f Sm) (remove gdec va (filter touched P)) -> length P <= d ->
  (sumf (fun T => (coef_0 d (length T) + coef d (length Sm) (length T)) * (u (va :: map f T) - u (map f T)))
     (powerset Sm) / Qn d == shapley gdec P u va)%Q.
Proof.
  intros HP Hva Ht Hu Hnull Hperm Hd.
  assert (Hin : In va (filter touched P)) by (apply filter_In; auto).
  assert (Hnf : NoDup (filter touched P)) by now apply NoDup_filter.
  assert (Hlen : S (length Sm) = length (filter touched P)).
  { rewrite <- (map_length f Sm), (Permutation_length Hperm). now apply (GameProofs.remove_length gdec). }
  assert (Hle : length (filter touched P) <= length P) by apply filter_length_le.
  assert (Hn : ~ In va (map f Sm)).
  { intro H. apply (Permutation_in va Hperm) in H. now apply remove_In in H. }
  assert (HL : Permutation (va :: map f Sm) (filter touched P)).
  { apply NoDup_Permutation; trivial.
    - constructor; [trivial|]. apply (Permutation_NoDup (Permutation_sym Hperm)). now apply remove_NoDup.
    - intro g. split.
      + intros [<-|H]; [trivial|]. apply (Permutation_in g Hperm) in H. now apply in_remove in H.
      + intro H. destruct (gdec g va) as [->|Hne]; [now left|right].
        apply (Permutation_in g (Permutation_sym Hperm)). now apply in_in_remove. }
  rewrite (shapley_restrict gdec P (va :: map f Sm) u va touched) by trivial.
  rewrite powerset_sum. unfold Qdiv. rewrite <- sumf_scal_r.
  unfold GameSpec.shapley.
  assert (E : remove gdec va (va :: map f Sm) = map f Sm).
  { rewrite remove_cons. now apply notin_remove. }
  rewrite E, subs_map, sumf_map. apply sumf_ext. intros T HT.
  apply subs_length in HT. rewrite map_length. cbn [length]. rewrite map_length.
  replace (S (length Sm)) with (length Sm + 1) by lia.
  rewrite <- (code_coef_is_weight d (length Sm)) by lia. field. apply Qn_neq0. lia.
Qed.

Lemma powerset_length {A} (l T : list A) : In T (powerset l) -> length T <= length l.
Proof.
  unfold powerset. intro H. apply in_flat_map in H. destruct H as [r [Hr H]]. apply in_seq in Hr.
  enough (G : forall (l : list A) r, In T (combos r l) -> length T = r) by (apply G in H; lia).
  clear. revert T. intros T l. revert T. induction l as [|a l IH]; intros T [|r] H; cbn [combos] in H.
  - destruct H as [<-|[]]. reflexivity.
  - contradiction.
  - destruct H as [<-|[]]. reflexivity.
  - apply in_app_or in H. destruct H as [H|H].
    + apply in_map_iff in H. destruct H as [U [<- H]]. cbn. f_equal. now apply IH.
    + now apply IH.
Qed.

Lemma writers_single {A} (cols : A -> list nat) l i j :
  NoDup l -> In i l -> (forall k, In k l -> In j (cols k) -> k = i) -> NoDup (cols i) -> In j (cols i) ->
  writers cols l j = [i].
Proof.
  intros Hd Hi Hu Hn Hj. unfold writers.
  apply in_split in Hi. destruct Hi as [l1 [l2 ->]].
  assert (Z : forall l', (forall k, In k l' -> ~ In j (cols k)) ->
     flat_map (fun i => repeat i (count_occ Nat.eq_dec (cols i) j)) l' = []).
  { clear. induction l' as [|a l' IH]; intro H; [reflexivity|]. cbn [flat_map].
    rewrite IH by (intros; apply H; now right).
    assert (E : count_occ Nat.eq_dec (cols a) j = 0) by (apply count_occ_not_In, H; now left).
    now rewrite E. }
  apply NoDup_remove_2 in Hd.
  rewrite flat_map_app. cbn [flat_map]. rewrite !Z.
  - rewrite (NoDup_count_occ' Nat.eq_dec) in Hn. now rewrite (Hn j Hj).
  - intros k Hk Hjk. apply Hd. rewrite <- (Hu k); trivial; apply in_or_app; [now right|].
    right. now right.
  - intros k Hk Hjk. apply Hd. rewrite <- (Hu k); trivial; apply in_or_app; now left.
Qed.

(** ** Players over a set of columns *)
Section Gen.
Variable h : bool.
Variable C : list group.
Variable U : list nat.
Hypothesis HU : NoDup U.
Hypothesis HD : h = true -> NoDup (concat C).
Hypothesis HB : h = true -> incl (concat C) U.
Hypothesis HW : h = true -> wide C.

Definition gen_items : list item :=
  if h then map (fun i => (false, [i])) (filter (fun i => negb (memb i (concat C))) U)
            ++ map (fun c => (true, c)) C
  else map (fun i => (false, [i])) U.

Lemma gen_in i : In i gen_items <->
  (exists k, In k U /\ (h = true -> ~ In k (concat C)) /\ i = (false, [k])) \/
  (h = true /\ exists c, In c C /\ i = (true, c)).
Proof.
  clear HD HB HW. unfold gen_items. destruct h.
  - rewrite in_app_iff, !in_map_iff. split.
    + intros [[k [<- Hk]]|[c [<- Hc]]].
      * left. exists k. apply filter_In in Hk. destruct Hk as [Hk Hn].
        apply negb_true_iff, memb_false in Hn. auto.
      * right. split; [trivial|]. exists c. auto.
    + intros [[k [Hk [Hn ->]]]|[_ [c [Hc ->]]]].
      * left. exists k. split; [trivial|]. apply filter_In. split; [trivial|].
        apply negb_true_iff, memb_false. auto.
      * right. exists c. auto.
  - rewrite in_map_iff. split.
    + intros [k [<- Hk]]. left. exists k. split; [trivial|]. split; [discriminate|reflexivity].
    + intros [[k [Hk [_ ->]]]|[E _]]; [|discriminate]. exists k. auto.
Qed.

Lemma gen_col i k : In i gen_items -> In k (snd i) -> In k U.
Proof.
  rewrite gen_in. intros [[a [Ha [_ ->]]]|[Hh [c [Hc ->]]]] Hk; cbn [snd] in Hk.
  - destruct Hk as [<-|[]]. trivial.
  - apply HB; [trivial|]. eapply in_concat_of; eassumption.
Qed.
Lemma gen_ne i : In i gen_items -> snd i <> [].
Proof.
  rewrite gen_in. intros [[a [Ha [_ ->]]]|[Hh [c [Hc ->]]]]; cbn [snd]; [discriminate|].
  apply HW in Hc; trivial. now destruct c; cbn in Hc; [lia|].
Qed.
Lemma gen_unique i i' k : In i gen_items -> In i' gen_items -> In k (snd i) -> In k (snd i') -> i = i'.
Proof.
  rewrite !gen_in. intros [[a [Ha [Hna ->]]]|[Hh [c [Hc ->]]]] [[b [Hb [Hnb ->]]]|[Hh' [c' [Hc' ->]]]] Hk Hk';
    cbn [snd] in *.
  - destruct Hk as [->|[]], Hk' as [->|[]]. reflexivity.
  - destruct Hk as [->|[]]. exfalso. apply Hna; [trivial|]. eapply in_concat_of; eassumption.
  - destruct Hk' as [->|[]]. exfalso. apply Hnb; [trivial|]. eapply in_concat_of; eassumption.
  - f_equal. exact (concat_unique C c c' k (HD Hh) Hc Hc' Hk Hk').
Qed.
Lemma gen_nodup_cols i : In i gen_items -> NoDup (snd i).
Proof.
  rewrite gen_in. intros [[a [Ha [_ ->]]]|[Hh [c [Hc ->]]]]; cbn [snd].
  - constructor; [intros []|constructor].
  - eapply NoDup_concat_in; [exact (HD Hh)|trivial].
Qed.
Lemma gen_snd_inj i i' : In i gen_items -> In i' gen_items -> snd i = snd i' -> i = i'.
Proof.
  intros Hi Hi' E. destruct (snd i) as [|k r] eqn:Ei; [now apply gen_ne in Hi|].
  apply (gen_unique i i' k); trivial; [rewrite Ei; now left|rewrite <- E; now left].
Qed.
Lemma gen_ok i : In i gen_items -> item_ok i.
Proof.
  rewrite gen_in. intros [[a [Ha [_ ->]]]|[Hh [c [Hc ->]]]] Ht; cbn [fst snd] in *; [discriminate|].
  now apply (HW Hh).
Qed.
Lemma wide_NoDup B : wide B -> NoDup (concat B) -> NoDup B.
Proof.
  induction B as [|c B IH]; intros Hw Hd; constructor.
  - intro Hc. assert (E := Hw c (or_introl eq_refl)). destruct c as [|a c]; [cbn in E; lia|].
    cbn in Hd. inversion Hd as [|? ? Ha _]. apply Ha. apply in_or_app. right.
    eapply in_concat_of; [exact Hc|now left].
  - apply IH; [|now apply NoDup_app_r in Hd]. intros c' Hc'. apply Hw. now right.
Qed.
Lemma pairs_NoDup (ks : list nat) (cs : list group) : NoDup ks -> NoDup cs -> wide cs ->
  NoDup (map snd (map (fun k => (false, [k])) ks ++ map (fun c => (true, c)) cs)).
Proof.
  intros H1 H2 H3. rewrite map_app, !map_map. cbn [snd]. rewrite map_id. apply NoDup_app_intro; trivial.
  - apply FinFun.Injective_map_NoDup; [intros a b E; now injection E|trivial].
  - intros g Hg Hc. apply in_map_iff in Hg. destruct Hg as [k [<- _]]. apply H3 in Hc. cbn in Hc. lia.
Qed.
Lemma gen_NoDup : NoDup (map snd gen_items).
Proof.
  unfold gen_items. destruct h.
  - apply pairs_NoDup; [now apply NoDup_filter|apply wide_NoDup; auto|auto].
  - rewrite map_map. cbn [snd]. apply FinFun.Injective_map_NoDup; [intros a b E; now injection E|trivial].
Qed.
Lemma gen_NoDup_items : NoDup gen_items.
Proof. apply (NoDup_map_inv snd), gen_NoDup. Qed.

Lemma gen_length : length gen_items =
  if h then length U - length (concat C) + length C else length U.
Proof.
  unfold gen_items. destruct h; [|apply map_length].
  rewrite app_length, !map_length. f_equal.
  assert (E : Permutation U (concat C ++ filter (fun i => negb (memb i (concat C))) U)).
  { apply NoDup_Permutation; trivial.
    - apply NoDup_app_intro; auto.
      + now apply NoDup_filter.
      + intros a Ha Hf. apply filter_In in Hf. destruct Hf as [_ Hf].
        apply negb_true_iff, memb_false in Hf. contradiction.
    - intro a. rewrite in_app_iff, filter_In, negb_true_iff, memb_false. split.
      + intro Ha. destruct (in_dec Nat.eq_dec a (concat C)); [now left|right]. now split.
      + intros [Ha|[Ha _]]; [now apply HB|trivial]. }
  apply Permutation_length in E. rewrite app_length in E. lia.
Qed.

Variable vars : list nat.
Hypothesis HV : incl vars U.

Lemma fold_nodes B vs k : NoDup (concat B) ->
  In k (fold_left (fun nid c => if existsb (fun k => memb k nid) c then nid ++ c else nid) B vs) <->
  In k vs \/ exists c, In c B /\ In k c /\ exists s, In s c /\ In s vs.
Proof.
  revert vs. induction B as [|c B IH]; intros vs Hd; cbn [fold_left].
  - split; [now left|]. intros [H|[c [[] _]]]. trivial.
  - rewrite IH by (cbn in Hd; now apply NoDup_app_r in Hd).
    assert (Hdis : forall c', In c' B -> forall s, In s c -> In s c' -> False).
    { intros c' Hc' s Hs Hs'. cbn in Hd. eapply NoDup_app_inv_disj; [exact Hd|exact Hs|].
      eapply in_concat_of; eassumption. }
    destruct (existsb (fun k => memb k vs) c) eqn:E.
    + apply existsb_exists in E. destruct E as [s [Hs Hm]]. apply memb_true in Hm. split.
      * intros [H|[c' [Hc' [Hk [t [Ht Htv]]]]]].
        -- apply in_app_or in H. destruct H as [H|H]; [now left|]. right. exists c. split; [now left|]. eauto.
        -- apply in_app_or in Htv. destruct Htv as [Htv|Htv].
           ++ right. exists c'. split; [now right|]. eauto.
           ++ exfalso. eapply Hdis; eassumption.
      * intros [H|[c' [[<-|Hc'] [Hk [t [Ht Htv]]]]]].
        -- left. apply in_or_app. now left.
        -- left. apply in_or_app. now right.
        -- right. exists c'. split; [trivial|]. split; [trivial|]. exists t. split; [trivial|].
           apply in_or_app. now left.
    + split.
      * intros [H|[c' [Hc' H]]]; [now left|]. right. exists c'. split; [now right|trivial].
      * intros [H|[c' [[<-|Hc'] [Hk [t [Ht Htv]]]]]]; [now left| |].
        -- exfalso. rewrite <- Bool.not_true_iff_false in E. apply E. apply existsb_exists.
           exists t. split; [trivial|]. now apply memb_true.
        -- right. exists c'. eauto.
Qed.

Lemma nodes_in k : In k (py_nodes h C vars) <->
  In k vars \/ (h = true /\ exists c, In c C /\ In k c /\ exists s, In s c /\ In s vars).
Proof.
  unfold py_nodes. destruct h.
  - rewrite fold_nodes by auto. split; (intros [H|H]; [now left|right]); [now split|tauto].
  - split; [now left|]. intros [H|[E _]]; [trivial|discriminate].
Qed.
Lemma nodes_incl : incl (py_nodes h C vars) U.
Proof.
  intros k Hk. apply nodes_in in Hk. destruct Hk as [Hk|[Hh [c [Hc [Hk _]]]]]; [auto|].
  apply HB; [trivial|]. eapply in_concat_of; eassumption.
Qed.

Definition met (g : list nat) : bool := existsb (fun s => memb s vars) g.
Lemma met_true g : met g = true <-> exists s, In s g /\ In s vars.
Proof.
  unfold met. rewrite existsb_exists. split; intros [s [K1 K2]]; exists s; split; trivial; now apply memb_true.
Qed.
(** a column of a player is among the nodes exactly when the player is met *)
Lemma nodes_met i k : In i gen_items -> In k (snd i) -> (In k (py_nodes h C vars) <-> met (snd i) = true).
Proof.
  intros Hi Hk. rewrite nodes_in, met_true. split.
  - intros [H|[Hh [c [Hc [Hkc [s [Hs Hsv]]]]]]]; [eauto|].
    assert (E : i = (true, c)).
    { apply (gen_unique _ _ k); trivial. apply gen_in. right. eauto. }
    rewrite E. cbn [snd]. eauto.
  - intros [s [Hs Hsv]]. apply gen_in in Hi. destruct Hi as [[a [_ [_ ->]]]|[Hh [c [Hc ->]]]]; cbn [snd] in *.
    + destruct Hk as [<-|[]], Hs as [<-|[]]. now left.
    + right. split; [trivial|]. exists c. eauto.
Qed.
Lemma present_met i : In i gen_items -> py_present (py_nodes h C vars) i = met (snd i).
Proof.
  intro Hi. apply bool_eq_iff. unfold py_present, convert_list. rewrite forallb_forall. split.
  - intro H. destruct (snd i) as [|k r] eqn:E; [now apply gen_ne in Hi|]. rewrite <- E in *.
    apply (nodes_met i k); trivial; [rewrite E; now left|]. apply memb_true, H. rewrite E. now left.
  - intros H k Hk. apply memb_true. now apply (nodes_met i k).
Qed.

Lemma others_perm i : In i gen_items ->
  Permutation (map snd (py_others h C (py_nodes h C vars) i))
    (remove gdec (snd i) (filter met (map snd gen_items))).
Proof.
  intro Hi. set (nid := py_nodes h C vars).
  set (buf := nodup Nat.eq_dec (filter (fun k => negb (memb k (convert_list i))) nid)).
  assert (Hb : forall k, In k buf <-> In k nid /\ ~ In k (snd i)).
  { intro k. unfold buf. rewrite nodup_In, filter_In, negb_true_iff, memb_false. reflexivity. }
  assert (Hbn : NoDup buf) by apply NoDup_nodup.
  (* a column of another player is kept exactly when the player is met *)
  assert (Hk : forall i' k, In i' gen_items -> In k (snd i') -> (In k buf <-> met (snd i') = true /\ snd i' <> snd i)).
  { intros i' k Hi' Hki. rewrite Hb. unfold nid. rewrite (nodes_met i' k Hi' Hki). split; intros [H1 H2]; split; trivial.
    - intro E. apply H2. now rewrite <- E.
    - intro Hc. apply H2. f_equal. apply (gen_unique i' i k); trivial. }
  assert (Hkey : forall g, In g (remove gdec (snd i) (filter met (map snd gen_items))) <->
     exists i', In i' gen_items /\ g = snd i' /\ met g = true /\ g <> snd i).
  { intro g. split.
    - intro H. apply in_remove in H. destruct H as [H Hne]. apply filter_In in H. destruct H as [H Hm].
      apply in_map_iff in H. destruct H as [i' [<- Hi']]. exists i'. auto.
    - intros [i' [Hi' [-> [Hm Hne]]]]. apply in_in_remove; [trivial|]. apply filter_In. split; [now apply in_map|trivial]. }
  assert (Hsub : forall c, h = true -> In c C ->
     (forallb (fun k => memb k buf) c = true <-> met c = true /\ c <> snd i)).
  { intros c Hh Hc. rewrite forallb_forall.
    assert (Hci : In (true, c) gen_items) by (apply gen_in; right; eauto).
    pose proof (HW Hh c Hc) as Hwc. destruct c as [|a c]; [cbn in Hwc; lia|]. split.
    - intro H. apply (Hk (true, a :: c) a Hci (or_introl eq_refl)). apply memb_true, H. now left.
    - intros H k Hkc. apply memb_true. now apply (Hk (true, a :: c) k Hci). }
  apply NoDup_Permutation.
  - unfold py_others. fold nid. fold buf. destruct h.
    + apply pairs_NoDup; [now apply NoDup_filter|apply NoDup_filter, wide_NoDup; auto|].
      intros c Hc. apply filter_In in Hc. now apply HW.
    + rewrite map_map. cbn [snd]. apply FinFun.Injective_map_NoDup; [intros a b E; now injection E|trivial].
  - apply remove_NoDup, NoDup_filter, gen_NoDup.
  - intro g. rewrite Hkey. unfold py_others. fold nid. fold buf. destruct (Bool.bool_dec h true) as [Eh|Eh]; [|apply Bool.not_true_is_false in Eh]; rewrite Eh.
    + rewrite map_app, in_app_iff, !map_map. cbn [snd]. rewrite map_id, in_map_iff, filter_In. split.
      * intros [[k [<- Hg]]|[Hg Hs]].
        -- apply filter_In in Hg. destruct Hg as [Hkb Hn].
           assert (HnC : ~ In k (concat C)).
           { intro Hin. apply in_concat in Hin. destruct Hin as [c [Hc Hkc]].
             apply negb_true_iff in Hn. rewrite <- Bool.not_true_iff_false in Hn. apply Hn.
             apply existsb_exists. exists c. split; [trivial|]. apply andb_true_iff.
             split; [|now apply memb_true]. apply Hsub; trivial.
             assert (Hci : In (true, c) gen_items) by (apply gen_in; right; eauto).
             apply (Hk (true, c) k Hci Hkc). trivial. }
           assert (Hki : In (false, [k]) gen_items).
           { apply gen_in. left. exists k. split; [|auto]. apply nodes_incl. now apply Hb in Hkb. }
           exists (false, [k]). split; [trivial|]. split; [reflexivity|].
           apply (Hk _ k Hki (or_introl eq_refl)). trivial.
        -- apply Hsub in Hs; trivial. exists (true, g). split; [apply gen_in; right; eauto|]. auto.
      * intros [i' [Hi' [-> [Hm Hne]]]]. pose proof Hi' as Hi''. apply gen_in in Hi''.
        destruct Hi'' as [[k [HkU [Hn ->]]]|[_ [c [Hc ->]]]]; cbn [snd] in *.
        -- left. exists k. split; [reflexivity|]. apply filter_In. split.
           ++ apply (Hk _ k Hi' (or_introl eq_refl)). auto.
           ++ apply negb_true_iff, Bool.not_true_iff_false. intro H. apply existsb_exists in H.
              destruct H as [c [Hc H]]. apply andb_true_iff in H. destruct H as [_ H]. apply memb_true in H.
              apply (Hn Eh). eapply in_concat_of; eassumption.
        -- right. split; [trivial|]. apply Hsub; auto.
    + rewrite map_map. cbn [snd]. rewrite in_map_iff. split.
      * intros [k [<- Hkb]].
        assert (Hki : In (false, [k]) gen_items).
        { apply gen_in. left. exists k. split; [|split; [congruence|reflexivity]]. apply nodes_incl. now apply Hb in Hkb. }
        exists (false, [k]). split; [trivial|]. split; [reflexivity|].
        apply (Hk _ k Hki (or_introl eq_refl)). trivial.
      * intros [i' [Hi' [-> [Hm Hne]]]]. pose proof Hi' as Hi''. apply gen_in in Hi''.
        destruct Hi'' as [[k [HkU [Hn ->]]]|[E _]]; [|congruence]. cbn [snd] in *.
        exists k. split; [reflexivity|]. apply (Hk _ k Hi' (or_introl eq_refl)). auto.
Qed.

Lemma others_ok nid i k : In k (py_others h C nid i) -> item_ok k.
Proof.
  unfold py_others. intro Hi. unfold item_ok. intro Ht. destruct h.
  - apply in_app_or in Hi. destruct Hi as [Hi|Hi]; apply in_map_iff in Hi; destruct Hi as [c [<- Hc]]; [discriminate|].
    apply filter_In in Hc. now apply HW.
  - apply in_map_iff in Hi. destruct Hi as [c [<- _]]. discriminate.
Qed.
Lemma others_chain nid i T : In T (powerset (py_others h C nid i)) -> chain_l T = Some (concat (map snd T)).
Proof.
  intro HT. apply chain_ok. intros k Hk. apply powerset_incl in HT. apply HT in Hk. now apply others_ok in Hk.
Qed.
Lemma others_ne i T : In i gen_items -> In T (powerset (py_others h C (py_nodes h C vars) i)) ->
  T <> [] -> concat (map snd T) <> [].
Proof.
  intros Hi HT Hne E. destruct T as [|k T]; [congruence|]. cbn [map concat] in E.
  assert (Hk : In (snd k) (map snd (py_others h C (py_nodes h C vars) i))).
  { apply in_map. apply powerset_incl in HT. apply HT. now left. }
  apply (Permutation_in _ (others_perm i Hi)) in Hk. apply in_remove in Hk. destruct Hk as [Hk _].
  apply filter_In in Hk. destruct Hk as [Hk _]. apply in_map_iff in Hk. destruct Hk as [i' [Ei Hi']].
  apply gen_ne in Hi'. apply Hi'. rewrite Ei. now destruct (snd k).
Qed.
End Gen.

(** ** One subset *)
Lemma py_in_sat p F z : py_in p F z = sat_on p F z.
Proof. reflexivity. Qed.
Lemma py_rows_eq data p F : py_rows data p F = rows_in data p F.
Proof. reflexivity. Qed.
Lemma rows_in_nil data p : rows_in data p [] = length data.
Proof. unfold rows_in. f_equal. clear. induction data as [|a l IH]; cbn; [trivial|now rewrite IH]. Qed.

Lemma py_term_value m d k data x lf i (T : list (list nat)) nb emp F q :
  length T <= k -> k < d -> nb = length T -> F = concat T -> (emp = true <-> F = []) ->
  py_term m d k data x lf i nb emp F = Some q ->
  (q == l_val lf * ((coef_0 d (length T) + coef d k (length T)) *
       (leaf_game m data lf x (i :: T) - leaf_game m data lf x T)))%Q.
Proof.
  intros Ht Hk -> -> Hemp H. unfold py_term in H.
  destruct (cdiv (Qb (py_in _ (_ ++ i) x) * _) _) as [psi|] eqn:E1; [|discriminate].
  match type of H with match ?o with _ => _ end = _ => destruct o as [ps|] eqn:E2; [|discriminate] end.
  injection H as <-.
  apply (cdiv_cond m data (l_rect lf) (concat T ++ i) x) in E1; [|reflexivity].
  assert (F1 : (psi == leaf_game m data lf x (i :: T))%Q).
  { rewrite E1. unfold leaf_game. cbn [concat].
    rewrite (cond_prob_same m data (l_rect lf) (concat T ++ i) (i ++ concat T)); [reflexivity|].
    intro s. rewrite !in_app_iff. tauto. }
  assert (F2 : (ps == leaf_game m data lf x T)%Q).
  { unfold leaf_game. destruct emp.
    - destruct Hemp as [Hemp _]. rewrite (Hemp eq_refl). apply cdiv_some in E2. destruct E2 as [Hz ->].
      unfold cond_prob. cbn [sat_on forallb]. rewrite rows_in_nil.
      destruct (length data); [exfalso; apply Hz; reflexivity|]. reflexivity.
    - now apply (cdiv_cond m data (l_rect lf) (concat T) x) in E2. }
  rewrite F1, F2, py_coef_eq, py_coef_0_eq by lia. ring.
Qed.
Lemma py_term_def m d k data x lf i nb emp F : leaf_ok m lf -> rows_in data (l_rect lf) (seq 0 m) <> 0 ->
  exists q, py_term m d k data x lf i nb emp F = Some q.
Proof.
  intros Hl Hr. unfold py_term.
  destruct (cdiv_def (Qb (py_in (l_rect lf) (F ++ i) x) * Qn (py_rows data (l_rect lf) (seq 0 m)))%Q
     (py_rows data (l_rect lf) (F ++ i))) as [a Ha]; [now apply (rows_pos_of_leaf m)|].
  rewrite Ha. destruct emp.
  - destruct (cdiv_def (Qn (py_rows data (l_rect lf) (seq 0 m))) (length data)) as [b Hb]; [|rewrite Hb; eauto].
    intro E. apply Hr. apply length_zero_iff_nil in E. now subst data.
  - destruct (cdiv_def (Qb (py_in (l_rect lf) F x) * Qn (py_rows data (l_rect lf) (seq 0 m)))%Q
      (py_rows data (l_rect lf) F)) as [b Hb]; [now apply (rows_pos_of_leaf m)|]. rewrite Hb. eauto.
Qed.

Lemma leaf_game_null_met m data lf x p : leaf_ok m lf -> met (l_vars lf) p = false ->
  null_in (leaf_game m data lf x) p.
Proof.
  intros Hl Hp. apply leaf_game_null; [trivial|]. intros s Hs Hv.
  assert (met (l_vars lf) p = true) by (apply met_true; eauto). congruence.
Qed.

(** sum of one leaf, for any list of entries standing for the other players *)
Lemma leaf_sum_value {A} (f : A -> list nat) m P d data x lf va (Sm : list A) (term : list A -> option Q) q :
  NoDup P -> In va P -> met (l_vars lf) va = true -> leaf_ok m lf -> length P <= d ->
  Permutation (map f Sm) (remove gdec va (filter (met (l_vars lf)) P)) ->
  (forall T t, In T (powerset Sm) -> term T = Some t ->
     (t == l_val lf * ((coef_0 d (length T) + coef d (length Sm) (length T)) *
       (leaf_game m data lf x (va :: map f T) - leaf_game m data lf x (map f T))))%Q) ->
  osum term (powerset Sm) = Some q ->
  (q / Qn d == l_val lf * shapley gdec P (leaf_game m data lf x) va)%Q.
Proof.
  intros HP Hva Ht Hl Hd Hperm Hterm H.
  rewrite <- (powerset_shapley f d P Sm (leaf_game m data lf x) va (met (l_vars lf))); trivial.
  - apply (osum_value _ (fun T => l_val lf * ((coef_0 d (length T) + coef d (length Sm) (length T)) *
       (leaf_game m data lf x (va :: map f T) - leaf_game m data lf x (map f T))))%Q) in H; [|exact Hterm].
    rewrite H, sumf_scal. unfold Qdiv. ring.
  - apply leaf_game_is_game.
  - intros p _. now apply leaf_game_null_met.
Qed.

Lemma others_length (f : item -> list nat) (Sm : list item) P va (touched : list nat -> bool) :
  NoDup P -> In va P -> touched va = true ->
  Permutation (map f Sm) (remove gdec va (filter touched P)) -> length Sm < length P.
Proof.
  intros HP Hva Ht Hperm. rewrite <- (map_length f Sm), (Permutation_length Hperm).
  assert (Hin : In va (filter touched P)) by (apply filter_In; auto).
  assert (E : Datatypes.S (length (remove gdec va (filter touched P))) = length (filter touched P))
    by (apply (GameProofs.remove_length gdec); [now apply NoDup_filter|trivial]).
  pose proof (filter_length_le touched P). lia.
Qed.

(** ** py_shap_values *)
Section V1.
Variables (C : list group) (m : nat).
Hypothesis HC : coalitions_ok C m.
Hypothesis HW : has_coal C = true -> wide C.
Lemma v1_nodup : has_coal C = true -> NoDup (concat C).
Proof. intros _. apply HC. Qed.
Lemma v1_incl : has_coal C = true -> incl (concat C) (seq 0 m).
Proof. intros _ k Hk. apply in_seq. destruct HC as [_ [H _]]. apply H in Hk. lia. Qed.
Lemma v1_vars lf : leaf_ok m lf -> incl (l_vars lf) (seq 0 m).
Proof. intros [_ [H _]] k Hk. apply in_seq. apply H in Hk. lia. Qed.
Lemma v1_items : py_items C m = gen_items (has_coal C) C (seq 0 m).
Proof. reflexivity. Qed.
Lemma v1_d : py_m C m = length (map snd (py_items C m)).
Proof.
  rewrite map_length, v1_items, gen_length; auto using seq_NoDup, v1_nodup, v1_incl.
  unfold py_m. rewrite seq_length. reflexivity.
Qed.

Lemma py_leaf_value data x lf i q : leaf_ok m lf -> In i (py_items C m) ->
  py_leaf C m data x lf i = Some q ->
  (q / Qn (py_m C m) == l_val lf * shapley gdec (map snd (py_items C m)) (leaf_game m data lf x) (snd i))%Q.
Proof.
  intros Hl Hi H. rewrite v1_items in Hi. unfold py_leaf in H.
  rewrite (present_met (has_coal C) C (seq 0 m) v1_nodup v1_incl HW (l_vars lf) i Hi) in H.
  assert (Hip : In (snd i) (map snd (py_items C m))) by (apply in_map; rewrite v1_items; trivial).
  assert (HND : NoDup (map snd (py_items C m))).
  { rewrite v1_items. apply gen_NoDup; auto using seq_NoDup, v1_nodup, v1_incl. }
  destruct (met (l_vars lf) (snd i)) eqn:Em.
  - pose proof (others_perm (has_coal C) C (seq 0 m) (seq_NoDup m 0) v1_nodup v1_incl HW (l_vars lf) (v1_vars lf Hl) i Hi) as Hperm.
    set (Sm := py_others _ _ _ i) in *. rewrite v1_d in *.
    refine (leaf_sum_value snd m (map snd (py_items C m)) _ data x lf (snd i) Sm _ q HND Hip Em Hl (le_n _) Hperm _ H).
    intros T t HT Ht.
    assert (Hch : chain_l T = Some (concat (map snd T))) by (exact (others_chain (has_coal C) C (seq 0 m) v1_nodup v1_incl HW _ i T HT)).
    assert (HlT : length T <= length Sm) by now apply powerset_length.
    rewrite <- (map_length snd T). apply (py_term_value _ _ _ _ _ _ _ (map snd T)) in Ht; trivial.
    + now rewrite map_length.
    + apply (others_length snd Sm _ (snd i) (met (l_vars lf))); trivial.
    + now rewrite map_length.
    + unfold chain_d. now rewrite Hch.
    + unfold chain_d. rewrite Hch, Nat.eqb_eq. split.
      * intro E. apply length_zero_iff_nil in E. now subst T.
      * intro E. destruct T as [|t0 T]; [reflexivity|]. exfalso.
        refine (others_ne (has_coal C) C (seq 0 m) (seq_NoDup m 0) v1_nodup v1_incl HW (l_vars lf) (v1_vars lf Hl) i (t0 :: T) Hi HT _ E).
        discriminate.
  - injection H as <-. rewrite (shapley_null gdec); [unfold Qdiv; ring|]. now apply leaf_game_null_met.
Qed.

Lemma py_leaf_def data x lf i : leaf_ok m lf -> rows_in data (l_rect lf) (seq 0 m) <> 0 ->
  exists q, py_leaf C m data x lf i = Some q.
Proof.
  intros Hl Hr. unfold py_leaf. destruct (py_present _ i); [|eauto].
  apply osum_total. intros T _. now apply py_term_def.
Qed.

Lemma v1_player_item g : In g (map snd (py_items C m)) -> exists i, In i (py_items C m) /\ snd i = g.
Proof. intro H. apply in_map_iff in H. destruct H as [i [E Hi]]. eauto. Qed.

Lemma v1_writers i j : In i (py_items C m) -> In j (snd i) -> writers convert_list (py_items C m) j = [i].
Proof.
  intros Hi Hj. apply writers_single; trivial.
  - rewrite v1_items. apply gen_NoDup_items; auto using seq_NoDup, v1_nodup, v1_incl.
  - intros k Hk Hjk. exact (gen_unique (has_coal C) C (seq 0 m) v1_nodup k i j Hk Hi Hjk Hj).
  - exact (gen_nodup_cols (has_coal C) C (seq 0 m) v1_nodup i Hi).
Qed.

Lemma py_fine_ok forest : trees_nonempty forest ->
  forallb (fun ls => negb (length ls =? 0) && forallb (py_leaf_fine C m) ls) forest = true.
Proof.
  intro Hne. apply forallb_forall. intros ls Hls. apply andb_true_iff. split.
  - apply negb_true_iff, Nat.eqb_neq. intro E. apply length_zero_iff_nil in E. now apply Hne in Hls.
  - apply forallb_forall. intros lf _. unfold py_leaf_fine. apply forallb_forall. intros i _.
    apply orb_true_iff. right. apply forallb_forall. intros T HT. unfold chain_fine.
    now rewrite (others_chain (has_coal C) C (seq 0 m) v1_nodup v1_incl HW _ i T HT).
Qed.

Lemma v1_players P g : is_players C m P -> In g P ->
  Permutation P (map snd (py_items C m)) /\ In g (map snd (py_items C m)).
Proof.
  intros HP Hg. assert (HI : is_players C m (map snd (py_items C m))).
  { apply items_players; trivial. destruct (has_coal C) eqn:E; [right; now apply HW|now left]. }
  split; [exact (players_perm C m _ _ HP HI)|]. apply HI. now apply HP.
Qed.

Theorem py_shap_value data forest x P g j q : is_players C m P -> forest_ok m forest -> In g P -> In j g ->
  py_shap_values C m data forest x j = Some (Some q) ->
  (q == shapley gdec P (worth m data forest x) g)%Q.
Proof.
  intros HP HF Hg Hj H. destruct (v1_players P g HP Hg) as [Hperm Hgi].
  destruct (v1_player_item g Hgi) as [i [Hi <-]].
  unfold py_shap_values in H. destruct (forallb _ forest); [|discriminate]. injection H as H.
  rewrite (shapley_perm gdec P _ _ (snd i) Hperm) by apply worth_is_game.
  unfold worth.
  rewrite (shapley_sum gdec _ (fun ls T => sumf (fun lf => l_val lf * cond_prob m data (l_rect lf) (concat T) x)%Q ls)).
  apply (osum_value _ _ _ _ H). intros ls t Hls Ht.
  rewrite (shapley_sum gdec _ (fun lf T => l_val lf * cond_prob m data (l_rect lf) (concat T) x)%Q).
  unfold py_tree in Ht. rewrite (v1_writers i j Hi Hj) in Ht.
  destruct (osum _ ls) as [s|] eqn:Es; [|discriminate]. apply cdiv_some in Ht. destruct Ht as [Hz ->].
  apply (osum_value _ (fun lf => Qn (py_m C m) * (l_val lf * shapley gdec (map snd (py_items C m)) (leaf_game m data lf x) (snd i)))%Q) in Es.
  2:{ intros lf r Hlf Hr. cbn [osum] in Hr. destruct (py_leaf C m data x lf i) as [u|] eqn:Eu; [|discriminate].
      injection Hr as <-. rewrite <- (py_leaf_value data x lf i u (HF ls lf Hls Hlf) Hi Eu). field. trivial. }
  rewrite Es, sumf_scal.
  transitivity (sumf (fun lf => l_val lf * shapley gdec (map snd (py_items C m)) (leaf_game m data lf x) (snd i))%Q ls).
  - field. trivial.
  - apply sumf_ext. intros lf _. rewrite shapley_scal. reflexivity.
Qed.

Theorem py_shap_def data forest x P g j : is_players C m P -> forest_ok m forest -> In g P -> In j g ->
  trees_nonempty forest -> leaves_held m data forest ->
  exists q, py_shap_values C m data forest x j = Some (Some q).
Proof.
  intros HP HF Hg Hj Hne Hh. destruct (v1_players P g HP Hg) as [_ Hgi].
  destruct (v1_player_item g Hgi) as [i [Hi <-]].
  unfold py_shap_values. rewrite py_fine_ok by trivial.
  destruct (osum_total (py_tree C m data x j) forest) as [s Hs]; [|rewrite Hs; eauto].
  intros ls Hls. unfold py_tree. rewrite (v1_writers i j Hi Hj).
  destruct (osum_total (fun lf => osum (py_leaf C m data x lf) [i]) ls) as [s Hs].
  - intros lf Hlf. apply osum_total. intros a _. apply py_leaf_def; [now apply (HF ls)|now apply (Hh ls)].
  - rewrite Hs. apply cdiv_def. rewrite v1_d. destruct (map snd (py_items C m)); [contradiction|discriminate].
Qed.
End V1.

(** ** py_shap_valuesv2 *)
Section V2.
Variables (C : list group) (m : nat).
Hypothesis HC : coalitions_ok C m.
Hypothesis HN : has_coal C = true -> forall c, In c C -> c <> [].

Lemma v2_players : is_players C m (py2_items C m).
Proof.
  unfold py2_items. destruct (has_coal C) eqn:EC.
  - destruct HC as [H1 [H2 _]]. split.
    + apply NoDup_app_intro.
      * apply FinFun.Injective_map_NoDup; [intros a b E; now injection E|]. apply NoDup_filter, seq_NoDup.
      * specialize (HN eq_refl). clear - H1 HN. induction C as [|c B IH]; constructor.
        -- intro Hc. assert (E := HN c (or_introl eq_refl)). destruct c as [|a c]; [congruence|].
           cbn in H1. inversion H1 as [|? ? Ha _]. apply Ha. apply in_or_app. right.
           eapply in_concat_of; [exact Hc|now left].
        -- apply IH; [|now apply NoDup_app_r in H1]. intros c' Hc'. apply HN. now right.
      * intros g Hg Hc. apply in_map_iff in Hg. destruct Hg as [k [<- Hk]]. apply filter_In in Hk.
        destruct Hk as [_ Hk]. apply negb_true_iff, memb_false in Hk. apply Hk.
        eapply in_concat_of; [exact Hc|now left].
    + intro g. rewrite in_app_iff, in_map_iff. split.
      * intros [[i [<- Hi]]|Hg].
        -- right. apply filter_In in Hi. destruct Hi as [Hi Hn]. apply in_seq in Hi.
           apply negb_true_iff, memb_false in Hn. exists i. split; [lia|]. now split.
        -- left. split; [trivial|]. now apply HN.
      * intros [[Hg _]|[i [Hi [Hn ->]]]]; [now right|]. left. exists i. split; [reflexivity|].
        apply filter_In. split; [apply in_seq; lia|]. now apply negb_true_iff, memb_false.
  - pose proof (va_ids_players C m HC) as H. unfold va_ids in H. now rewrite EC in H.
Qed.

Lemma v2_nodes lf : leaf_ok m lf -> (has_coal C = false \/ incl (l_vars lf) (concat C)) ->
  py2_nodes C (l_vars lf) = leaf_groups C m (l_vars lf).
Proof.
  intros Hl Hc. unfold py2_nodes, leaf_groups. destruct (has_coal C) eqn:EC; [|reflexivity].
  destruct Hc as [|Hc]; [discriminate|].
  rewrite (leaf_loop_eq [] (concat C)), (leaf_loop_eq (remove_va C m) (concat C)); trivial; intros v Hv.
  - unfold remove_va. specialize (Hc v Hv). apply memb_true in Hc. rewrite Hc. cbn [negb].
    apply memb_false. rewrite filter_In, Hc. intros [_ E]. discriminate.
  - specialize (Hc v Hv). apply memb_true in Hc. now rewrite Hc.
Qed.

Lemma py2_leaf_value data x lf i q : leaf_ok m lf -> (has_coal C = false \/ incl (l_vars lf) (concat C)) ->
  In i (py2_items C m) -> py2_leaf C m data x lf i = Some q ->
  (q / Qn (length (py2_items C m)) == l_val lf * shapley gdec (py2_items C m) (leaf_game m data lf x) i)%Q.
Proof.
  intros Hl Hc Hi H. unfold py2_leaf in H. rewrite v2_nodes in H by trivial.
  pose proof v2_players as HP.
  destruct (leaf_groups_touch C m (py2_items C m) lf HC HP Hl) as [Hn Hperm].
  destruct (in_dec group_eq_dec i (leaf_groups C m (l_vars lf))) as [Hin|Hin].
  - assert (Em : met (l_vars lf) i = true) by (apply (Permutation_in _ Hperm), filter_In in Hin; apply Hin).
    rewrite (remove1_remove i _ Hn) in H. set (L := leaf_groups C m (l_vars lf)) in *.
    assert (Hp : Permutation (map (fun g => g) (remove group_eq_dec i L))
                   (remove gdec i (filter (met (l_vars lf)) (py2_items C m)))).
    { rewrite map_id. apply NoDup_Permutation.
      - now apply remove_NoDup.
      - apply remove_NoDup, NoDup_filter, HP.
      - intro g. split; intro K; apply in_remove in K; destruct K as [K1 K2]; apply in_in_remove; trivial.
        + now apply (Permutation_in _ Hperm) in K1.
        + now apply (Permutation_in _ (Permutation_sym Hperm)) in K1. }
    refine (leaf_sum_value (fun g => g) m (py2_items C m) _ data x lf i _ _ q (proj1 HP) Hi Em Hl (le_n _) Hp _ H).
    intros T t HT Ht. rewrite map_id.
    assert (Hlt : length (remove group_eq_dec i L) < length (py2_items C m)).
    { assert (E : Datatypes.S (length (remove group_eq_dec i L)) = length L)
        by (apply (GameProofs.remove_length group_eq_dec); trivial).
      rewrite (Permutation_length Hperm) in E.
      pose proof (filter_length_le (touches lf) (py2_items C m)). lia. }
    apply (py_term_value _ _ _ _ _ _ _ T) in Ht; trivial.
    + now apply powerset_length.
    + rewrite Nat.eqb_eq. apply length_zero_iff_nil.
  - injection H as <-. rewrite (shapley_null gdec); [unfold Qdiv; ring|]. apply leaf_game_null_met; [trivial|].
    destruct (met (l_vars lf) i) eqn:E; [|trivial]. exfalso. apply Hin.
    apply (Permutation_in _ (Permutation_sym Hperm)). apply filter_In. now split.
Qed.
Lemma py2_leaf_def data x lf i : leaf_ok m lf -> rows_in data (l_rect lf) (seq 0 m) <> 0 ->
  exists q, py2_leaf C m data x lf i = Some q.
Proof.
  intros Hl Hr. unfold py2_leaf. destruct (in_dec _ i _); [|eauto].
  apply osum_total. intros T _. now apply py_term_def.
Qed.
Lemma v2_writers g j : In g (py2_items C m) -> In j g -> writers (fun g => g) (py2_items C m) j = [g].
Proof.
  intros Hg Hj. pose proof v2_players as HP. apply writers_single; trivial.
  - apply HP.
  - intros k Hk Hjk. exact (player_unique C m _ k g j HC HP Hk Hg Hjk Hj).
  - exact (player_NoDup C m _ g HC HP Hg).
Qed.

Theorem py2_value data forest x P g j q : is_players C m P -> forest_ok m forest -> In g P -> In j g ->
  (has_coal C = false \/ forall ls lf, In ls forest -> In lf ls -> incl (l_vars lf) (concat C)) ->
  py_shap_valuesv2 C m data forest x j = Some q ->
  (q == shapley gdec P (worth m data forest x) g)%Q.
Proof.
  intros HP HF Hg Hj Hc H. pose proof v2_players as HI.
  assert (Hperm : Permutation P (py2_items C m)) by exact (players_perm C m _ _ HP HI).
  assert (Hgi : In g (py2_items C m)) by (apply HI; now apply HP).
  unfold py_shap_valuesv2 in H.
  rewrite (shapley_perm gdec P _ _ g Hperm) by apply worth_is_game.
  unfold worth.
  rewrite (shapley_sum gdec _ (fun ls T => sumf (fun lf => l_val lf * cond_prob m data (l_rect lf) (concat T) x)%Q ls)).
  apply (osum_value _ _ _ _ H). intros ls t Hls Ht.
  rewrite (shapley_sum gdec _ (fun lf T => l_val lf * cond_prob m data (l_rect lf) (concat T) x)%Q).
  unfold py2_tree in Ht. rewrite (v2_writers g j Hgi Hj) in Ht.
  destruct (osum _ ls) as [s|] eqn:Es; [|discriminate]. apply cdiv_some in Ht. destruct Ht as [Hz ->].
  apply (osum_value _ (fun lf => Qn (length (py2_items C m)) * (l_val lf * shapley gdec (py2_items C m) (leaf_game m data lf x) g))%Q) in Es.
  2:{ intros lf r Hlf Hr. cbn [osum] in Hr. destruct (py2_leaf C m data x lf g) as [u|] eqn:Eu; [|discriminate].
      injection Hr as <-. rewrite <- (py2_leaf_value data x lf g u (HF ls lf Hls Hlf)); trivial; [field; trivial|].
      destruct Hc as [Hc|Hc]; [now left|right; now apply (Hc ls)]. }
  rewrite Es, sumf_scal.
  transitivity (sumf (fun lf => l_val lf * shapley gdec (py2_items C m) (leaf_game m data lf x) g)%Q ls).
  - field. trivial.
  - apply sumf_ext. intros lf _. rewrite shapley_scal. reflexivity.
Qed.
Theorem py2_def data forest x P g j : is_players C m P -> forest_ok m forest -> In g P -> In j g ->
  leaves_held m data forest -> exists q, py_shap_valuesv2 C m data forest x j = Some q.
Proof.
  intros HP HF Hg Hj Hh. pose proof v2_players as HI.
  assert (Hgi : In g (py2_items C m)) by (apply HI; now apply HP).
  apply osum_total. intros ls Hls. unfold py2_tree. rewrite (v2_writers g j Hgi Hj).
  destruct (osum_total (fun lf => osum (py2_leaf C m data x lf) [g]) ls) as [s Hs].
  - intros lf Hlf. apply osum_total. intros a _. apply py2_leaf_def; [now apply (HF ls)|now apply (Hh ls)].
  - rewrite Hs. apply cdiv_def. destruct (py2_items C m); [contradiction|discriminate].
Qed.
(** with coalitions, the columns outside them are ignored *)
Lemma loop_no_single B vars g : In g (leaf_groups_loop [] B vars) -> In g B.
Proof.
  clear. revert B. induction vars as [|v vars IH]; intros B H; cbn [leaf_groups_loop memb existsb] in H; [contradiction|].
  destruct (find (memb v) B) as [g0|] eqn:E.
  - apply find_group in E. destruct H as [<-|H]; [apply E|]. apply IH in H. now apply remove1_incl in H.
  - now apply IH.
Qed.
Theorem py2_single_zero data forest x j : has_coal C = true -> j < m -> ~ In j (concat C) ->
  exists q, py_shap_valuesv2 C m data forest x j = Some q /\ (q == 0)%Q.
Proof.
  intros Hh Hj Hn.
  assert (Hg : In [j] (py2_items C m)) by (apply v2_players; right; eauto).
  assert (Hl : forall lf, py2_leaf C m data x lf [j] = Some 0%Q).
  { intro lf. unfold py2_leaf. destruct (in_dec _ [j] _) as [Hin|]; [|reflexivity]. exfalso.
    unfold py2_nodes in Hin. rewrite Hh in Hin. apply loop_no_single in Hin. apply Hn.
    eapply in_concat_of; [exact Hin|now left]. }
  assert (Ht : forall ls, exists q, py2_tree C m data x j ls = Some q /\ (q == 0)%Q).
  { intro ls. unfold py2_tree. rewrite (v2_writers [j] j Hg (or_introl eq_refl)).
    destruct (osum_total (fun lf => osum (py2_leaf C m data x lf) [[j]]) ls) as [s Hs].
    - intros lf _. cbn [osum]. rewrite Hl. eauto.
    - rewrite Hs. destruct (cdiv_def s (length (py2_items C m))) as [t Ht].
      + destruct (py2_items C m); [contradiction|discriminate].
      + exists t. split; [trivial|]. apply cdiv_some in Ht. destruct Ht as [Hz ->].
        assert (E : (s == sumf (fun _ => 0%Q) ls)%Q).
        { apply (osum_value _ _ _ _ Hs). intros lf r _ Hr. cbn [osum] in Hr. rewrite Hl in Hr. injection Hr as <-. ring. }
        rewrite E, sumf_zero by reflexivity. field. trivial. }
  unfold py_shap_valuesv2.
  destruct (osum_total (py2_tree C m data x j) forest) as [s Hs].
  - intros ls _. destruct (Ht ls) as [q [-> _]]. eauto.
  - exists s. split; [trivial|].
    assert (E : (s == sumf (fun _ => 0%Q) forest)%Q).
    { apply (osum_value _ _ _ _ Hs). intros ls r _ Hr. destruct (Ht ls) as [q [E Hq]]. rewrite E in Hr. injection Hr as <-. trivial. }
    rewrite E. now apply sumf_zero.
Qed.
End V2.

(** ** py_shap_values_acv *)
Lemma prod_count_eq data p F : F <> [] -> prod_count data p F = Qn (rows_in data p F).
Proof. destruct F; [congruence|reflexivity]. Qed.
Lemma in_closed_sat forest ls lf F x : off_lower_bounds forest x -> In ls forest -> In lf ls ->
  in_closed (l_rect lf) F x = sat_on (l_rect lf) F x.
Proof.
  intros Ho Hls Hlf. unfold in_closed, sat_on. induction F as [|s F IH]; [reflexivity|]. cbn [forallb].
  rewrite IH. f_equal. unfold in_itv. rewrite andb_comm. f_equal.
  destruct (fst (l_rect lf s)) as [|a|] eqn:E; cbn; trivial.
  specialize (Ho ls lf s a Hls Hlf E).
  destruct (qleb_spec a (x s)) as [H1|H1], (qltb_spec a (x s)) as [H2|H2]; trivial; exfalso.
  - apply Ho. apply Qle_antisym; trivial. now apply Qnot_lt_le.
  - apply H1. now apply Qlt_le_weak.
Qed.

Lemma py_coef_last d s : (py_coef d (d - 1) s == 0)%Q.
Proof. unfold py_coef. replace (d - (d - 1) - 1) with 0 by lia. reflexivity. Qed.

Lemma pya_term_value m d k N data x lf i (T : list (list nat)) nb F q :
  (forall G, in_closed (l_rect lf) G x = sat_on (l_rect lf) G x) ->
  length T <= k -> k < d -> nb = length T -> F = concat T -> (F = [] -> T = []) -> i <> [] ->
  (N = [] -> k = d - 1) ->
  pya_term m d k N data x lf i nb F = Some q ->
  let u := leaf_game_n m N data lf x in
  let lm := (Qn (rows_in data (l_rect lf) (seq 0 m)) / Qn (length data))%Q in
  (q == l_val lf * ((coef_0 d (length T) + coef d k (length T)) * (u (i :: T) - u T)
        + match T with [] => u [] - lm | _ => 0 end))%Q.
Proof.
  intros Hin HT Hk -> -> Hne Hi HN H u lm. unfold pya_term in H.
  rewrite !Hin, !py_rows_eq in H.
  rewrite (prod_count_eq data (l_rect lf) (concat T ++ i ++ N)) in H
    by (intro E; apply app_eq_nil in E; destruct E as [_ E]; apply app_eq_nil in E; tauto).
  destruct (cdiv _ (Qn (rows_in _ _ (concat T ++ i ++ N)))) as [psi|] eqn:E1; [|discriminate].
  destruct (cdiv _ (prod_count _ _ _)) as [ps|] eqn:E2; [|discriminate].
  apply (cdiv_cond m data (l_rect lf) (concat T ++ i ++ N) x) in E1; [|reflexivity].
  assert (F1 : (psi == u (i :: T))%Q).
  { rewrite E1. unfold u, leaf_game_n. cbn [concat].
    rewrite (cond_prob_same m data (l_rect lf) (concat T ++ i ++ N) ((i ++ concat T) ++ N)); [reflexivity|].
    intro s. rewrite !in_app_iff. tauto. }
  rewrite <- (py_coef_eq d k (length T)) by lia. rewrite <- (py_coef_0_eq d (length T)) by lia.
  assert (F2 : (concat T ++ N <> []) -> (ps == u T)%Q).
  { intro Hf. rewrite prod_count_eq in E2 by trivial.
    now apply (cdiv_cond m data (l_rect lf) (concat T ++ N) x) in E2. }
  destruct T as [|g T]; cbn [length Nat.eqb] in H |- *.
  - destruct (cdiv _ (Qn (length data))) as [po|] eqn:E3; [|discriminate]. injection H as <-.
    apply cdiv_some in E3. destruct E3 as [_ ->]. fold lm.
    assert (K0 : (py_coef_0 d 0 == 1)%Q) by (unfold py_coef_0, binomialC; rewrite comb_exact, choose_0_r; reflexivity).
    rewrite K0, F1. destruct N as [|n N].
    + rewrite (HN eq_refl), py_coef_last. ring.
    + rewrite F2 by discriminate. ring.
  - injection H as <-. rewrite F1, F2; [ring|].
    intro E. apply app_eq_nil in E. destruct E as [E _]. apply Hne in E. discriminate.
Qed.

Lemma pya_absent_some m N data x lf o : pya_absent m N data x lf = Some o -> N <> [] /\
  o = match cdiv (Qb (in_closed (l_rect lf) N x) * Qn (py_rows data (l_rect lf) (seq 0 m))) (prod_count data (l_rect lf) N),
            cdiv (Qn (py_rows data (l_rect lf) (seq 0 m))) (Qn (length data)) with
      | Some p_si, Some p_s => Some ((p_si - p_s) * l_val lf)%Q
      | _, _ => None end.
Proof. destruct N; [discriminate|]. intro H. injection H as <-. split; [discriminate|reflexivity]. Qed.

Section Acv.
Variables (C : list group) (m : nat) (S N : list nat).
Hypothesis HC : coalitions_ok C m.
Hypothesis HW : has_coal C = true -> wide C.
Hypothesis HS : NoDup S.
Hypothesis Hsplit : not_split C S.

Let C' := pya_C C S.
Lemma a_in c : In c C' <-> In c C /\ incl c S.
Proof.
  unfold C', pya_C. rewrite filter_In, forallb_forall. split; intros [H1 H2]; split; trivial.
  - intros k Hk. apply memb_true. now apply H2.
  - intros k Hk. apply memb_true. now apply H2.
Qed.
Lemma filter_concat_NoDup (f : group -> bool) B : NoDup (concat B) -> NoDup (concat (filter f B)).
Proof.
  clear. induction B as [|c B IH]; intro H; [trivial|]. cbn [concat] in H. cbn [filter].
  assert (IHB : NoDup (concat (filter f B))) by (apply IH; now apply NoDup_app_r in H).
  destruct (f c); [|trivial]. cbn [concat]. apply NoDup_app_intro; trivial; [now apply NoDup_app_l in H|].
  intros a Ha Hb. apply in_concat in Hb. destruct Hb as [c' [Hc' Hac']]. apply filter_In in Hc'.
  apply (NoDup_app_inv_disj _ _ a H Ha). eapply in_concat_of; [apply Hc'|trivial].
Qed.
Lemma a_nodup : has_coal C = true -> NoDup (concat C').
Proof. intros _. apply filter_concat_NoDup, HC. Qed.
Lemma a_incl : has_coal C = true -> incl (concat C') S.
Proof. intros _ k Hk. apply in_concat in Hk. destruct Hk as [c [Hc Hk]]. apply a_in in Hc. now apply Hc. Qed.
Lemma a_wide : has_coal C = true -> wide C'.
Proof. intros Hh c Hc. apply a_in in Hc. now apply HW. Qed.
Lemma a_items : pya_items C S = gen_items (has_coal C) C' S.
Proof. reflexivity. Qed.
Lemma a_d : pya_d C S = length (map snd (pya_items C S)).
Proof. rewrite map_length, a_items, gen_length; auto using a_nodup, a_incl, a_wide. Qed.
Lemma a_players : is_players_of C S (map snd (pya_items C S)).
Proof.
  split.
  - rewrite a_items. apply gen_NoDup; auto using a_nodup, a_incl, a_wide.
  - intro g. rewrite in_map_iff. split.
    + intros [i [<- Hi]]. rewrite a_items in Hi. apply gen_in in Hi.
      destruct Hi as [[k [Hk [Hn ->]]]|[Hh [c [Hc ->]]]]; cbn [snd].
      * right. exists k. split; [trivial|]. split; [|reflexivity]. intro Hin.
        destruct (has_coal C) eqn:EC; [|rewrite (no_coal_concat C m HC EC) in Hin; contradiction].
        apply in_concat in Hin. destruct Hin as [c [Hc Hkc]]. destruct (Hsplit c Hc) as [Hi|Hi].
        -- apply (Hn eq_refl). eapply in_concat_of; [|exact Hkc]. now apply a_in.
        -- now apply (Hi k).
      * left. pose proof (a_wide Hh c Hc) as Hw. apply a_in in Hc. split; [apply Hc|].
        destruct c as [|a c]; [cbn in Hw; lia|]. exists a. split; [apply Hc; now left|now left].
    + intros [[Hg [i [Hi Hig]]]|[k [Hk [Hn ->]]]].
      * assert (Hh : has_coal C = true).
        { destruct (has_coal C) eqn:EC; [trivial|]. exfalso.
          assert (In i (concat C)) by (eapply in_concat_of; eassumption).
          rewrite (no_coal_concat C m HC EC) in *. contradiction. }
        exists (true, g). split; [reflexivity|]. rewrite a_items. apply gen_in. right. split; [trivial|].
        exists g. split; [|reflexivity]. apply a_in. split; [trivial|].
        destruct (Hsplit g Hg) as [H|H]; [trivial|]. exfalso. now apply (H i).
      * exists (false, [k]). split; [reflexivity|]. rewrite a_items. apply gen_in. left. exists k.
        split; [trivial|]. split; [|reflexivity]. intros _ H. apply Hn.
        apply in_concat in H. destruct H as [c [Hc Hkc]]. apply a_in in Hc.
        eapply in_concat_of; [apply Hc|trivial].
Qed.

Section Leaf.
Variable lf : leaf.
Hypothesis Hl : leaf_ok m lf.
Hypothesis Hcov : forall s, In s (l_vars lf) -> In s S \/ In s N.
Let vars := acv_vars N (l_vars lf).
Lemma a_vars : incl vars S.
Proof.
  intros s Hs. apply filter_In in Hs. destruct Hs as [Hs Hn]. apply negb_true_iff, memb_false in Hn.
  destruct (Hcov s Hs); [trivial|contradiction].
Qed.
Lemma a_null data x p : met vars p = false -> null_in (leaf_game_n m N data lf x) p.
Proof.
  intro Hp. apply leaf_game_n_null; [trivial|]. intros s Hs Hv.
  destruct (in_dec Nat.eq_dec s N) as [|Hns]; [trivial|]. exfalso.
  assert (met vars p = true); [|congruence]. apply met_true. exists s. split; [trivial|].
  apply filter_In. split; [trivial|]. now apply negb_true_iff, memb_false.
Qed.

Lemma pya_leaf_value data x i q :
  (forall G, in_closed (l_rect lf) G x = sat_on (l_rect lf) G x) ->
  (N = [] -> forall i', In i' (pya_items C S) -> met vars (snd i') = true) ->
  In i (pya_items C S) -> pya_leaf C m S N data x lf i = Some (Some q) ->
  (q / Qn (pya_d C S) == l_val lf * shapley gdec (map snd (pya_items C S))
     (fun T => leaf_game_n m N data lf x T +
        empty_only (Qn (rows_in data (l_rect lf) (seq 0 m)) / Qn (length data) - leaf_game_n m N data lf x []) T) (snd i))%Q.
Proof.
  intros Hin HN Hi H. unfold pya_leaf, pya_nodes in H. fold vars C' in H.
  pose proof Hi as Hi'. rewrite a_items in Hi'.
  rewrite (present_met (has_coal C) C' S a_nodup a_incl a_wide vars i Hi') in H.
  set (P := map snd (pya_items C S)) in *.
  assert (Hip : In (snd i) P) by now apply in_map.
  assert (HND : NoDup P) by apply a_players.
  assert (Hz : ~ (Qn (pya_d C S) == 0)%Q).
  { apply Qn_neq0. rewrite a_d. fold P. destruct P; [contradiction|discriminate]. }
  set (u := leaf_game_n m N data lf x) in *.
  set (lm := (Qn (rows_in data (l_rect lf) (seq 0 m)) / Qn (length data))%Q) in *.
  assert (Ed : length P = pya_d C S) by (symmetry; apply a_d).
  rewrite shapley_plus, shapley_empty_only by trivial. rewrite Ed.
  destruct (met vars (snd i)) eqn:Em.
  - pose proof (others_perm (has_coal C) C' S HS a_nodup a_incl a_wide vars a_vars i Hi') as Hperm.
    set (Sm := py_others _ _ _ i) in *.
    destruct (forallb _ (powerset Sm)); [|discriminate]. injection H as H.
    rewrite <- (powerset_shapley snd (pya_d C S) P Sm u (snd i) (met vars)); trivial.
    + apply (osum_value _ (fun T => l_val lf * ((coef_0 (pya_d C S) (length T) + coef (pya_d C S) (length Sm) (length T)) *
         (u (snd i :: map snd T) - u (map snd T)) + match T with [] => u [] - lm | _ => 0 end))%Q) in H.
      * rewrite H, sumf_scal, sumf_plus.
        rewrite (powerset_sum (fun T : list item => match T with [] => u [] - lm | _ => 0 end)%Q Sm).
        rewrite sum_nil_only. field. trivial.
      * intros T t HT Ht.
        assert (Hch : chain_l T = Some (concat (map snd T))) by exact (others_chain (has_coal C) C' S a_nodup a_incl a_wide _ i T HT).
        assert (HlT : length T <= length Sm) by now apply powerset_length.
        assert (Hlt : length Sm < length P) by (apply (others_length snd Sm P (snd i) (met vars)); trivial).
        apply (pya_term_value m _ _ N data x lf (convert_list i) (map snd T)) in Ht; trivial.
        -- rewrite map_length in Ht. fold u lm in Ht. rewrite Ht.
           destruct T; cbn [map]; reflexivity.
        -- now rewrite map_length.
        -- now rewrite a_d.
        -- now rewrite map_length.
        -- unfold chain_d. now rewrite Hch.
        -- unfold chain_d. rewrite Hch. intro E. destruct T as [|t0 T]; [reflexivity|]. exfalso.
           refine (others_ne (has_coal C) C' S HS a_nodup a_incl a_wide vars a_vars i (t0 :: T) Hi' HT _ E). discriminate.
        -- exact (gen_ne (has_coal C) C' S a_wide i Hi').
        -- intro EN. rewrite <- (map_length snd Sm), (Permutation_length Hperm), a_d. fold P.
           assert (EF : filter (met vars) (map snd (gen_items (has_coal C) C' S)) = P).
           { rewrite <- a_items. fold P.
             assert (G : forall L, (forall g, In g L -> met vars g = true) -> filter (met vars) L = L).
             { clear. induction L as [|a L IH]; intro H; [reflexivity|]. cbn. rewrite (H a) by now left.
               rewrite IH; [reflexivity|]. intros; apply H; now right. }
             apply G. intros g Hg. apply in_map_iff in Hg. destruct Hg as [i' [<- Hi2]]. now apply HN. }
           rewrite EF.
           assert (E : Datatypes.S (length (remove gdec (snd i) P)) = length P)
             by (apply (GameProofs.remove_length gdec); trivial). lia.
    + apply leaf_game_n_is_game.
    + intros p _. apply a_null.
    + rewrite a_d. fold P. apply le_n.
  - apply pya_absent_some in H. destruct H as [EN H]. symmetry in H.
    rewrite Hin, py_rows_eq, prod_count_eq in H by trivial.
    destruct (cdiv (Qb _ * _) _) as [psi|] eqn:E1; [|discriminate].
    destruct (cdiv _ (Qn (length data))) as [ps|] eqn:E2; [|discriminate]. injection H as <-.
    apply (cdiv_cond m data (l_rect lf) N x) in E1; [|reflexivity].
    apply cdiv_some in E2. destruct E2 as [_ ->]. fold lm. rewrite E1.
    rewrite (shapley_null gdec P u (snd i) (a_null data x (snd i) Em)).
    unfold u, leaf_game_n. cbn [concat app]. field. trivial.
Qed.

Lemma pya_leaf_def data x i : rows_in data (l_rect lf) (seq 0 m) <> 0 -> N <> [] ->
  exists q, pya_leaf C m S N data x lf i = Some (Some q).
Proof.
  clear Hcov. intros Hr HNe. unfold pya_leaf.
  assert (Hd : length data <> 0) by (intro E; apply Hr; apply length_zero_iff_nil in E; now subst data).
  assert (HR : forall F, rows_in data (l_rect lf) F <> 0) by (intro F; now apply (rows_pos_of_leaf m)).
  destruct (py_present _ i).
  - assert (Hf : forallb chain_fine (powerset (py_others (has_coal C) (pya_C C S) (pya_nodes C S N (l_vars lf)) i)) = true).
    { apply forallb_forall. intros T HT. unfold chain_fine.
      now rewrite (others_chain (has_coal C) C' S a_nodup a_incl a_wide _ i T HT). }
    change (fun T => chain_fine T) with chain_fine. rewrite Hf.
    match goal with |- exists q, Some (osum ?f ?l) = _ => destruct (osum_total f l) as [s Hs]; [|rewrite Hs; eauto] end.
    intros T _. unfold pya_term.
    assert (HF : forall F, F ++ N <> []) by (intros F E; apply app_eq_nil in E; tauto).
    rewrite app_assoc, !prod_count_eq by apply HF.
    match goal with |- exists q, match cdiv ?a (Qn ?n) with _ => _ end = _ =>
      destruct (cdiv_def a n) as [p1 E1]; [apply HR|rewrite E1] end.
    match goal with |- exists q, match cdiv ?a (Qn ?n) with _ => _ end = _ =>
      destruct (cdiv_def a n) as [p2 E2]; [apply HR|rewrite E2] end.
    destruct (length T =? 0); [|eauto].
    match goal with |- exists q, match cdiv ?a (Qn ?n) with _ => _ end = _ =>
      destruct (cdiv_def a n) as [p3 E3]; [trivial|rewrite E3] end. eauto.
  - unfold pya_absent. destruct N as [|n N'] eqn:EN; [congruence|]. rewrite <- EN.
    rewrite prod_count_eq by (rewrite EN; discriminate).
    match goal with |- exists q, Some match cdiv ?a (Qn ?n) with _ => _ end = _ =>
      destruct (cdiv_def a n) as [p1 E1]; [apply HR|rewrite E1] end.
    match goal with |- exists q, Some match cdiv ?a (Qn ?n) with _ => _ end = _ =>
      destruct (cdiv_def a n) as [p2 E2]; [trivial|rewrite E2] end. eauto.
Qed.
End Leaf.

Lemma a_writers i j : In i (pya_items C S) -> In j (snd i) -> writers convert_list (pya_items C S) j = [i].
Proof.
  intros Hi Hj. apply writers_single; trivial.
  - rewrite a_items. apply gen_NoDup_items; auto using a_nodup, a_incl, a_wide.
  - intros k Hk Hjk. exact (gen_unique (has_coal C) C' S a_nodup k i j Hk Hi Hjk Hj).
  - exact (gen_nodup_cols (has_coal C) C' S a_nodup i Hi).
Qed.

Theorem pya_value data forest x P g j q : is_players_of C S P -> forest_ok m forest -> data <> [] ->
  (forall ls lf s, In ls forest -> In lf ls -> In s (l_vars lf) -> In s S \/ In s N) ->
  off_lower_bounds forest x -> In g P -> In j g ->
  py_shap_values_acv C m S N data forest x j = Some (Some q) ->
  (q == shapley gdec P (worth_acv m N data forest x) g)%Q.
Proof.
  intros HP HF Hd Hcov Hoff Hg Hj H.
  assert (Hperm : Permutation P (map snd (pya_items C S))) by exact (players_of_perm C S _ _ HP a_players).
  assert (Hgi : In g (map snd (pya_items C S))) by (apply a_players; now apply HP).
  apply in_map_iff in Hgi. destruct Hgi as [i [<- Hi]].
  unfold py_shap_values_acv in H. destruct (pya_fine _ _ _ _ _ _ _) eqn:Ef; [|discriminate]. injection H as H.
  assert (Hpres : forall ls lf, In ls forest -> In lf ls -> N = [] ->
     forall i', In i' (pya_items C S) -> met (acv_vars N (l_vars lf)) (snd i') = true).
  { intros ls lf Hls Hlf EN i' Hi'. unfold pya_fine in Ef. rewrite forallb_forall in Ef.
    specialize (Ef ls Hls). apply andb_true_iff in Ef. destruct Ef as [_ Ef]. rewrite forallb_forall in Ef.
    specialize (Ef lf Hlf). rewrite forallb_forall in Ef. specialize (Ef i' Hi').
    unfold pya_leaf, pya_nodes in Ef. fold C' in Ef.
    rewrite (present_met (has_coal C) C' S a_nodup a_incl a_wide _ i' Hi') in Ef.
    destruct (met (acv_vars N (l_vars lf)) (snd i')); [reflexivity|]. rewrite EN in Ef. discriminate. }
  rewrite (shapley_perm gdec P _ _ (snd i) Hperm) by apply worth_acv_is_game.
  rewrite (shapley_ext gdec _ _ _ (snd i) (fun T => worth_acv_leaves m N data forest x T Hd)).
  rewrite (shapley_sum gdec _ (fun ls T => sumf (fun lf =>
     l_val lf * (leaf_game_n m N data lf x T +
        empty_only (Qn (rows_in data (l_rect lf) (seq 0 m)) / Qn (length data) - leaf_game_n m N data lf x []) T))%Q ls)).
  apply (osum_value _ _ _ _ H). intros ls t Hls Ht.
  rewrite (shapley_sum gdec _ (fun lf T => l_val lf * (leaf_game_n m N data lf x T +
        empty_only (Qn (rows_in data (l_rect lf) (seq 0 m)) / Qn (length data) - leaf_game_n m N data lf x []) T))%Q).
  unfold pya_tree in Ht. rewrite (a_writers i j Hi Hj) in Ht.
  destruct (osum _ ls) as [s|] eqn:Es; [|discriminate]. apply cdiv_some in Ht. destruct Ht as [Hz ->].
  apply (osum_value _ (fun lf => Qn (pya_d C S) * (l_val lf * shapley gdec (map snd (pya_items C S))
     (fun T => leaf_game_n m N data lf x T +
        empty_only (Qn (rows_in data (l_rect lf) (seq 0 m)) / Qn (length data) - leaf_game_n m N data lf x []) T) (snd i)))%Q) in Es.
  2:{ intros lf r Hlf Hr. cbn [osum] in Hr.
      destruct (pya_leaf C m S N data x lf i) as [[u|]|] eqn:Eu; try discriminate.
      injection Hr as <-.
      rewrite <- (pya_leaf_value lf (HF ls lf Hls Hlf) (fun s => Hcov ls lf s Hls Hlf) data x i u); trivial.
      - field. trivial.
      - intro G. now apply (in_closed_sat forest ls).
      - now apply (Hpres ls). }
  rewrite Es, sumf_scal.
  match goal with |- (_ * ?a / _ == _)%Q => transitivity a end.
  - field. trivial.
  - apply sumf_ext. intros lf _. rewrite shapley_scal. reflexivity.
Qed.

Theorem pya_def data forest x P g j : is_players_of C S P -> forest_ok m forest ->
  trees_nonempty forest -> leaves_held m data forest -> N <> [] -> In g P -> In j g ->
  exists q, py_shap_values_acv C m S N data forest x j = Some (Some q).
Proof.
  intros HP HF Hne Hh HNe Hg Hj.
  assert (Hgi : In g (map snd (pya_items C S))) by (apply a_players; now apply HP).
  assert (Hz : pya_d C S <> 0) by (rewrite a_d; destruct (map snd (pya_items C S)); [contradiction|discriminate]).
  apply in_map_iff in Hgi. destruct Hgi as [i [<- Hi]].
  assert (Hlf : forall ls lf i', In ls forest -> In lf ls -> exists q, pya_leaf C m S N data x lf i' = Some (Some q)).
  { intros ls lf i' Hls Hlf. apply pya_leaf_def; trivial; [now apply (HF ls)|now apply (Hh ls)]. }
  unfold py_shap_values_acv.
  assert (Ef : pya_fine C m S N data forest x = true).
  { unfold pya_fine. apply forallb_forall. intros ls Hls. apply andb_true_iff. split.
    - apply negb_true_iff, Nat.eqb_neq. intro E. apply length_zero_iff_nil in E. now apply Hne in Hls.
    - apply forallb_forall. intros lf Hl. apply forallb_forall. intros i' _.
      destruct (Hlf ls lf i' Hls Hl) as [q ->]. reflexivity. }
  rewrite Ef.
  destruct (osum_total (pya_tree C m S N data x j) forest) as [s Hs]; [|rewrite Hs; eauto].
  intros ls Hls. unfold pya_tree. rewrite (a_writers i j Hi Hj).
  match goal with |- exists q, match osum ?f ?l with _ => _ end = _ => destruct (osum_total f l) as [s Hs] end.
  - intros lf Hl. apply osum_total. intros a _. destruct (Hlf ls lf a Hls Hl) as [q ->]. eauto.
  - rewrite Hs. now apply cdiv_def.
Qed.
End Acv.

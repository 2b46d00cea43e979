(** Proofs about the swing decompositions. *)
From Verif Require Import Base GameSpec GameProofs ShapSpec ShapProofs TreeModel ShapModel AcvModel SdpModel
  SearchModel SearchProofs SdpSpec SdpProofs SwingModel SwingSpec.


Lemma qltb_eq a b c d : (a == b)%Q -> (c == d)%Q -> qltb a c = qltb b d.
Proof. intros E F. destruct (qltb_spec a c), (qltb_spec b d); trivial; exfalso; lra. Qed.
Lemma qeqb_eq a b c d : (a == b)%Q -> (c == d)%Q -> qeqb a c = qeqb b d.
Proof.
  intros E F. destruct (qeqb_spec a c), (qeqb_spec b d); trivial; exfalso.
  - apply n. rewrite <- E, <- F. trivial.
  - apply n. rewrite E, F. trivial.
Qed.

(** ** Sums behind the accumulators *)

Section Additive.
Variable pi : swing -> Q.
Variable inc : nat -> Q -> Q -> Q.
Definition additive : Prop :=
  (forall m w d s, pi (bump m w d s) == pi s + inc m w d)%Q /\
  (forall m w d d', d == d' -> inc m w d == inc m w d')%Q /\ (pi swing0 == 0)%Q.
Hypothesis Hadd : additive.

Lemma iter_pi m w d n s : (pi (Nat.iter n (bump m w d) s) == pi s + Qn n * inc m w d)%Q.
Proof.
  destruct Hadd as [H _]. induction n as [|n IH].
  - change (pi s == pi s + Qn 0 * inc m w d)%Q. rewrite Qn_0. ring.
  - change (pi (bump m w d (Nat.iter n (bump m w d) s)) == pi s + Qn (S n) * inc m w d)%Q.
    rewrite H, IH, Qn_S. ring.
Qed.

Lemma player_pi {A} m cols (coals : list (list A)) D j s :
  (pi (player_loop m cols coals D j s) ==
   pi s + Qn (count_occ Nat.eq_dec cols j)
          * sumf (fun T => inc m (1 / binomialC (m - 1) (length T)) (D T)) coals)%Q.
Proof.
  unfold player_loop. revert s. induction coals as [|T coals IH]; intro s; cbn [fold_left].
  - rewrite sumf_nil. ring.
  - rewrite IH, iter_pi, sumf_cons. ring.
Qed.

(** accumulators before [phi] is divided *)
Definition sv_raw {A B} m (players : list B) cols (coals : B -> list (list A)) (D : B -> list A -> Q) j : swing :=
  fold_left (fun s i => player_loop m (cols i) (coals i) (D i) j s) players swing0.

Lemma raw_pi {A B} m (players : list B) cols (coals : B -> list (list A)) D j :
  (pi (sv_raw m players cols coals D j) ==
   sumf (fun i => Qn (count_occ Nat.eq_dec (cols i) j)
          * sumf (fun T => inc m (1 / binomialC (m - 1) (length T)) (D i T)) (coals i)) players)%Q.
Proof.
  unfold sv_raw. assert (H0 : (pi swing0 == 0)%Q) by apply Hadd.
  transitivity (pi swing0 + sumf (fun i => Qn (count_occ Nat.eq_dec (cols i) j)
          * sumf (fun T => inc m (1 / binomialC (m - 1) (length T)) (D i T)) (coals i)) players)%Q;
    [|rewrite H0; ring].
  clear H0. generalize swing0. induction players as [|i r IH]; intro s; cbn [fold_left].
  - rewrite sumf_nil. ring.
  - rewrite IH, player_pi, sumf_cons. ring.
Qed.

(** ** The compiled version *)

Lemma drop_nth_split {A} (l1 : list A) a l2 : drop_nth (length l1) (l1 ++ a :: l2) = l1 ++ l2.
Proof.
  unfold drop_nth. rewrite firstn_app, firstn_all, Nat.sub_diag. cbn [firstn].
  rewrite app_nil_r. f_equal. rewrite skipn_app.
  rewrite (skipn_all2 l1) by lia.
  replace (S (length l1) - length l1) with 1 by lia. reflexivity.
Qed.

Lemma drop_nth_remove (l : list group) k d : NoDup l -> k < length l ->
  drop_nth k l = remove gdec (nth k l d) l.
Proof.
  intros Hl Hk. destruct (nth_split l d Hk) as [l1 [l2 [E EL]]].
  set (a := nth k l d) in *. clearbody a. subst l k.
  rewrite drop_nth_split. rewrite remove_app. cbn [remove].
  destruct (gdec a a) as [_|]; [|congruence].
  apply NoDup_remove in Hl. destruct Hl as [_ Hn].
  rewrite !notin_remove; trivial; intro H; apply Hn; apply in_or_app; tauto.
Qed.

Lemma inc_game v m g (HG : is_game v) :
  is_game (fun T : list group => inc m (1 / binomialC (m - 1) (length T)) (gain v g T)).
Proof.
  intros T U HTU. destruct Hadd as [_ [H _]]. rewrite (Permutation_length HTU). apply H.
  unfold gain, on_players. apply Qplus_comp; [|apply Qopp_comp]; apply HG.
  - cbn. apply Permutation_app_head. now apply concat_perm.
  - now apply concat_perm.
Qed.

Lemma call_twice_gain v g T : is_game v -> (call_twice v (concat T) g == gain v g T)%Q.
Proof.
  intro HG. unfold call_twice, gain, on_players. cbn [concat].
  rewrite (HG _ _ (Permutation_app_comm (concat T) g)). reflexivity.
Qed.

Lemma count_one C m P g j : coalitions_ok C m -> is_players C m P -> In g P -> In j g ->
  count_occ Nat.eq_dec g j = 1.
Proof.
  intros HC HP Hg Hj. pose proof (player_NoDup C m P g HC HP Hg) as Hnd.
  rewrite (NoDup_count_occ' Nat.eq_dec) in Hnd. now apply Hnd.
Qed.

Theorem compiled_pi v C m P g j : is_game v -> coalitions_ok C m -> is_players C m P ->
  In g P -> In j g ->
  let ids := va_ids C m in
  (pi (sv_raw (length ids) (seq 0 (length ids)) (fun va => nth va ids []) (sv_coals ids)
        (fun va T => call_twice v (concat T) (nth va ids [])) j) ==
   sumf (fun T => inc (length P) (1 / binomialC (length P - 1) (length T)) (gain v g T)) (rivals P g))%Q.
Proof.
  intros HG HC HP Hg Hj ids. rewrite raw_pi.
  pose proof (va_ids_players C m HC) as HV. fold ids in HV.
  assert (Hgi : In g ids) by (apply HV; apply HP in Hg; exact Hg).
  destruct (In_nth ids g [] Hgi) as [k [Hk Ek]].
  rewrite (sumf_single _ _ k).
  - rewrite Ek, (count_one C m P g j HC HP Hg Hj). change (Qn 1) with 1%Q. rewrite Qmult_1_l.
    unfold sv_coals.
    rewrite sumf_map.
    assert (EL : length ids - 1 = length (drop_nth k ids)).
    { rewrite (drop_nth_remove ids k []) by (trivial; apply HV). rewrite Ek.
      pose proof (remove_length gdec g ids (proj1 HV) Hgi). lia. }
    replace (2 ^ (length ids - 1)) with (2 ^ length (drop_nth k ids)) by (now rewrite <- EL).
    rewrite (pick_subs (fun T => inc (length ids) (1 / binomialC (length ids - 1) (length T))
                                   (call_twice v (concat T) g))).
    rewrite (drop_nth_remove ids k []) by (trivial; apply HV). rewrite Ek.
    assert (HP' : Permutation ids P) by (eapply players_perm; eassumption).
    rewrite (Permutation_length HP').
    unfold rivals. rewrite <- (sumf_subs_perm _ _ _ (inc_game v (length P) g HG) (remove_perm gdec g _ _ HP')).
    apply sumf_ext. intros T _. destruct Hadd as [_ [H _]]. apply H. now apply call_twice_gain.
  - apply seq_NoDup.
  - apply in_seq. lia.
  - intros h Hh Hne. apply in_seq in Hh. cbn [Nat.add] in Hh.
    assert (E : count_occ Nat.eq_dec (nth h ids []) j = 0).
    { apply count_occ_not_In. intro Hjh. apply Hne.
      refine (proj1 (NoDup_nth ids []) (proj1 HV) h k _ Hk _); [lia|].
      rewrite Ek. eapply (player_unique C m ids); try eassumption. apply nth_In. lia. }
    rewrite E, Qn_0. ring.
Qed.

(** ** The Python version *)

Lemma combos_0 {A} (l : list A) : combos 0 l = [[]].
Proof using. now destruct l. Qed.

Lemma combos_sum {A} (F : list A -> Q) l : forall N, length l <= N ->
  (sumf (fun r => sumf F (combos r l)) (seq 0 (S N)) == sumf F (subs l))%Q.
Proof using.
  clear. revert F. induction l as [|a l IH]; intros F N HN.
  - cbn [seq]. rewrite sumf_cons. cbn [combos subs]. rewrite !sumf_cons, sumf_nil.
    rewrite (sumf_zero _ (seq 1 N)); [ring|]. intros r Hr. apply in_seq in Hr.
    destruct r; [lia|]. reflexivity.
  - cbn in HN. destruct N as [|N]; [lia|].
    cbn [subs]. rewrite sumf_app, sumf_map.
    rewrite <- (IH F (S N)) by lia. rewrite <- (IH (fun T => F (a :: T)) N) by lia.
    assert (E : seq 0 (S (S N)) = 0 :: map S (seq 0 (S N))) by (now rewrite seq_shift).
    rewrite E. rewrite !sumf_cons, !sumf_map.
    rewrite !combos_0, !sumf_cons, sumf_nil.
    set (X := sumf _ (seq 0 (S N))). set (Y := sumf _ (seq 0 (S N))). set (Z := sumf _ (seq 0 (S N))).
    enough (X == Y + Z)%Q by lra. subst X Y Z.
    rewrite <- sumf_plus. apply sumf_ext. intros r _. cbn [combos].
    rewrite sumf_app, sumf_map. ring.
Qed.

Lemma powerset_sum {A} (F : list A -> Q) l : (sumf F (powerset l) == sumf F (subs l))%Q.
Proof using. clear. unfold powerset. rewrite sumf_flat_map. now apply combos_sum. Qed.

Lemma subs_map {A B} (f : A -> B) l : subs (map f l) = map (map f) (subs l).
Proof using.
  clear. induction l as [|a l IH]; [reflexivity|]. cbn [map subs]. rewrite IH.
  rewrite map_app, !map_map. reflexivity.
Qed.

Definition wide (C : list group) : Prop := forall c, In c C -> 1 < length c.
Definition item_ok (i : item) : Prop := fst i = true -> 1 < length (snd i).

Lemma chain_ok T : (forall i, In i T -> item_ok i) -> chain_l T = Some (concat (map snd T)).
Proof using.
  clear. induction T as [|[b g] T IH]; intro H; [reflexivity|]. cbn [chain_l map concat snd].
  rewrite IH by (intros i Hi; apply H; now right).
  specialize (H (b, g) (or_introl eq_refl)). unfold item_ok in H. cbn [fst snd] in H.
  destruct b; cbn [andb option_map]; [|reflexivity].
  destruct (Nat.leb_spec (length g) 1); [specialize (H eq_refl); lia|reflexivity].
Qed.

Lemma items_ok C m i : has_coal C = false \/ wide C -> In i (py_items C m) -> item_ok i.
Proof using.
  clear. intros HW Hi Ht. unfold py_items in Hi. destruct (has_coal C).
  - destruct HW as [|HW]; [discriminate|]. apply in_app_or in Hi. destruct Hi as [Hi|Hi].
    + apply in_map_iff in Hi. destruct Hi as [k [<- _]]. discriminate.
    + apply in_map_iff in Hi. destruct Hi as [c [<- Hc]]. now apply HW.
  - apply in_map_iff in Hi. destruct Hi as [k [<- _]]. discriminate.
Qed.
Lemma sm_ok C m i k : has_coal C = false \/ wide C -> In k (py_sm C m i) -> item_ok k.
Proof using.
  clear. intros HW Hi Ht. unfold py_sm in Hi. destruct (has_coal C).
  - destruct HW as [|HW]; [discriminate|]. apply in_app_or in Hi. destruct Hi as [Hi|Hi].
    + apply in_map_iff in Hi. destruct Hi as [c [<- _]]. discriminate.
    + apply in_map_iff in Hi. destruct Hi as [c [<- Hc]]. apply filter_In in Hc. now apply HW.
  - apply in_map_iff in Hi. destruct Hi as [c [<- _]]. discriminate.
Qed.

Lemma combos_incl {A} r (l T : list A) : In T (combos r l) -> incl T l.
Proof using.
  clear. revert r T. induction l as [|a l IH]; intros [|r] T H; cbn [combos] in H.
  - destruct H as [<-|[]]. easy.
  - contradiction.
  - destruct H as [<-|[]]. easy.
  - apply in_app_or in H. destruct H as [H|H].
    + apply in_map_iff in H. destruct H as [U [<- HU]]. apply IH in HU.
      intros b [<-|Hb]; [now left|right; now apply HU].
    + apply IH in H. intros b Hb. right. now apply H.
Qed.
Lemma powerset_incl {A} (l T : list A) : In T (powerset l) -> incl T l.
Proof using. clear. unfold powerset. intro H. apply in_flat_map in H. destruct H as [r [_ H]]. now apply combos_incl in H. Qed.

Lemma py_fine_true C m : has_coal C = false \/ wide C -> py_fine C m = true.
Proof using.
  clear. intro HW. unfold py_fine. apply forallb_forall. intros i _. apply forallb_forall. intros T HT.
  rewrite chain_ok; [reflexivity|]. intros k Hk. apply powerset_incl in HT. apply HT in Hk.
  now apply (sm_ok C m i).
Qed.

Lemma items_players C m : coalitions_ok C m -> has_coal C = false \/ wide C ->
  is_players C m (map snd (py_items C m)).
Proof using.
  clear. intros HC HW. unfold py_items. destruct (has_coal C) eqn:EC.
  - destruct HW as [|HW]; [discriminate|]. rewrite map_app, !map_map. cbn [snd]. rewrite map_id.
    destruct HC as [H1 [H2 _]]. split.
    + apply NoDup_app_intro.
      * apply FinFun.Injective_map_NoDup; [intros a b E; now injection E|]. apply NoDup_filter, seq_NoDup.
      * clear -H1 HW. induction C as [|c C IH]; constructor.
        -- intro Hc. assert (E := HW c (or_introl eq_refl)). destruct c as [|a c]; [cbn in E; lia|].
           cbn in H1. inversion H1 as [|? ? Ha _]. apply Ha. apply in_or_app. right.
           eapply in_concat_of; [exact Hc|now left].
        -- apply IH; [now apply NoDup_app_r in H1|]. intros c' Hc'. apply HW. now right.
      * intros g Hg Hc. apply in_map_iff in Hg. destruct Hg as [i [<- Hi]]. apply HW in Hc. cbn in Hc. lia.
    + intro g. rewrite in_app_iff, in_map_iff. split.
      * intros [[i [<- Hi]]|Hg].
        -- right. apply filter_In in Hi. destruct Hi as [Hi Hn]. apply in_seq in Hi.
           apply negb_true_iff, memb_false in Hn. exists i. split; [lia|]. now split.
        -- left. split; [trivial|]. apply HW in Hg. now destruct g; cbn in Hg; [lia|].
      * intros [[Hg _]|[i [Hi [Hn ->]]]]; [now right|]. left. exists i. split; [reflexivity|].
        apply filter_In. split; [apply in_seq; lia|]. now apply negb_true_iff, memb_false.
  - rewrite map_map. cbn [snd].
    pose proof (va_ids_players C m HC) as H. unfold va_ids in H. now rewrite EC in H.
Qed.

Lemma py_m_length C m : coalitions_ok C m -> has_coal C = false \/ wide C ->
  py_m C m = length (py_items C m).
Proof using.
  clear. intros HC HW. unfold py_m, py_items. destruct (has_coal C) eqn:EC.
  - rewrite app_length, !map_length. f_equal.
    destruct HC as [H1 [H2 _]].
    assert (E : Permutation (seq 0 m) (concat C ++ filter (fun i => negb (memb i (concat C))) (seq 0 m))).
    { apply NoDup_Permutation.
      - apply seq_NoDup.
      - apply NoDup_app_intro; trivial.
        + apply NoDup_filter, seq_NoDup.
        + intros a Ha Hf. apply filter_In in Hf. destruct Hf as [_ Hf].
          apply negb_true_iff, memb_false in Hf. contradiction.
      - intro a. rewrite in_app_iff, filter_In, in_seq, negb_true_iff, memb_false. split.
        + intro Ha. destruct (in_dec Nat.eq_dec a (concat C)); [now left|right]. now split.
        + intros [Ha|[Ha _]]; [|trivial]. apply H2 in Ha. lia. }
    apply Permutation_length in E. rewrite app_length, seq_length in E. lia.
  - now rewrite map_length, seq_length.
Qed.

Lemma sm_perm C m i : coalitions_ok C m -> has_coal C = false \/ wide C -> In i (py_items C m) ->
  Permutation (map snd (py_sm C m i)) (remove gdec (snd i) (map snd (py_items C m))).
Proof using.
  clear. intros HC HW Hi. pose proof (items_players C m HC HW) as HP.
  assert (Hip : In (snd i) (map snd (py_items C m))) by now apply in_map.
  pose proof HC as [H1 [H2 H3]].
  apply NoDup_Permutation.
  - unfold py_sm. destruct (has_coal C) eqn:EC.
    + destruct HW as [|HW]; [discriminate|]. rewrite map_app, !map_map. cbn [snd]. rewrite map_id.
      apply NoDup_app_intro.
      * apply FinFun.Injective_map_NoDup; [intros a b E; now injection E|]. apply NoDup_filter, NoDup_filter, seq_NoDup.
      * apply NoDup_filter. destruct HP as [HP _]. unfold py_items in HP. rewrite EC in HP.
        rewrite map_app, !map_map in HP. cbn [snd] in HP. rewrite map_id in HP. now apply NoDup_app_r in HP.
      * intros g Hg Hc. apply in_map_iff in Hg. destruct Hg as [k [<- Hk]]. apply filter_In in Hc.
        destruct Hc as [Hc _]. apply HW in Hc. cbn in Hc. lia.
    + rewrite map_map. cbn [snd]. apply FinFun.Injective_map_NoDup; [intros a b E; now injection E|].
      apply NoDup_filter, seq_NoDup.
  - apply remove_NoDup. apply HP.
  - intro g. transitivity (In g (map snd (py_items C m)) /\ g <> snd i); [|split].
    2:{ intros [Ha Hb]. now apply in_in_remove. }
    2:{ intro H. apply in_remove in H. exact H. }
    assert (Hk : forall k c, In c C -> In k c -> In k (snd i) -> c = snd i).
    { intros k c Hc Hkc Hki. refine (player_unique C m _ c (snd i) k HC HP _ Hip Hkc Hki).
      apply HP. left. split; [trivial|]. intros ->. contradiction. }
    assert (HB : forall k, In k (filter (fun k => negb (memb k (convert_list i))) (seq 0 m)) <-> k < m /\ ~ In k (snd i)).
    { intro k. rewrite filter_In, in_seq, negb_true_iff, memb_false. unfold convert_list. intuition lia. }
    unfold py_sm. destruct (has_coal C) eqn:EC.
    + destruct HW as [|HW]; [discriminate|].
      rewrite map_app, in_app_iff, !map_map. cbn [snd]. rewrite map_id. rewrite filter_In, in_map_iff.
      rewrite forallb_forall. split.
      * intros [[k [<- Hg]]|[Hg Hs]].
        -- apply filter_In in Hg. destruct Hg as [Hb Hn]. apply HB in Hb. destruct Hb as [Hm Hni].
           split; [|intros E; apply Hni; rewrite <- E; now left].
           apply HP. right. exists k. split; [trivial|]. split; [|reflexivity].
           intro Hin. apply in_concat in Hin. destruct Hin as [c [Hc Hkc]].
           apply negb_true_iff in Hn. rewrite <- Bool.not_true_iff_false in Hn. apply Hn.
           apply existsb_exists. exists c. split; [trivial|]. apply andb_true_iff.
           split; [|now apply memb_true]. apply forallb_forall. intros a Ha. apply memb_true, HB.
           split; [apply H2; eapply in_concat_of; eassumption|]. intro Hai.
           apply Hni. rewrite <- (Hk a c Hc Ha Hai). trivial.
        -- split.
           ++ apply HP. left. split; [trivial|]. apply HW in Hg. now destruct g; cbn in Hg; [lia|].
           ++ intros ->. destruct (snd i) as [|a r] eqn:Ei; [apply HW in Hg; cbn in Hg; lia|].
              specialize (Hs a (or_introl eq_refl)). apply memb_true, HB in Hs.
              rewrite ?Ei in Hs. apply (proj2 Hs). now left.
      * intros [Hg Hne]. apply HP in Hg. destruct Hg as [[Hg Hn]|[k [Hk' [Hn ->]]]].
        -- right. split; [trivial|]. intros a Ha. apply memb_true, HB.
           split; [apply H2; eapply in_concat_of; eassumption|]. intro Hai. apply Hne. now apply (Hk a).
        -- left. exists k. split; [reflexivity|]. apply filter_In. split.
           ++ apply HB. split; [trivial|]. intro Hki. apply Hne.
              refine (player_unique C m _ [k] (snd i) k HC HP _ Hip (or_introl eq_refl) Hki).
              apply HP. right. now exists k.
           ++ apply negb_true_iff. apply Bool.not_true_iff_false. intro H. apply existsb_exists in H.
              destruct H as [c [Hc H]]. apply andb_true_iff in H. destruct H as [_ H]. apply memb_true in H.
              apply Hn. eapply in_concat_of; eassumption.
    + rewrite map_map. cbn [snd]. rewrite in_map_iff.
      unfold py_items. rewrite EC. rewrite map_map. cbn [snd]. rewrite in_map_iff.
      assert (Hx : exists a, snd i = [a]).
      { unfold py_items in Hi. rewrite EC in Hi. apply in_map_iff in Hi. destruct Hi as [a [<- _]]. now exists a. }
      destruct Hx as [a Ea]. split.
      * intros [k [<- Hb]]. apply HB in Hb. destruct Hb as [Hm Hni]. rewrite Ea in *. split.
        -- exists k. split; [reflexivity|apply in_seq; lia].
        -- intro E. apply Hni. injection E as ->. now left.
      * intros [[k [<- Hs]] Hne]. exists k. split; [reflexivity|]. apply HB. apply in_seq in Hs.
        split; [lia|]. rewrite Ea in *. intros [E|[]]. apply Hne. now rewrite E.
Qed.

Theorem python_pi v C m P g j : is_game v -> coalitions_ok C m -> has_coal C = false \/ wide C ->
  is_players C m P -> In g P -> In j g ->
  (pi (sv_raw (py_m C m) (py_items C m) convert_list (fun i => powerset (py_sm C m i))
        (fun i T => call_twice v (chain_d T) (convert_list i)) j) ==
   sumf (fun T => inc (length P) (1 / binomialC (length P - 1) (length T)) (gain v g T)) (rivals P g))%Q.
Proof.
  intros HG HC HW HP Hg Hj. rewrite raw_pi.
  pose proof (items_players C m HC HW) as HI.
  assert (HPm : Permutation (map snd (py_items C m)) P) by (eapply players_perm; eassumption).
  assert (EL : py_m C m = length P).
  { rewrite (py_m_length C m HC HW), <- (Permutation_length HPm). now rewrite map_length. }
  rewrite EL.
  assert (Hgi : In g (map snd (py_items C m))) by (apply HI; apply HP in Hg; exact Hg).
  apply in_map_iff in Hgi. destruct Hgi as [i [Ei Hi]].
  rewrite (sumf_single _ _ i); trivial.
  - unfold convert_list at 1. rewrite Ei, (count_one C m P g j HC HP Hg Hj). change (Qn 1) with 1%Q. rewrite Qmult_1_l.
    rewrite powerset_sum.
    transitivity (sumf (fun T => inc (length P) (1 / binomialC (length P - 1) (length T)) (gain v g T))
                    (subs (map snd (py_sm C m i)))).
    + rewrite subs_map, sumf_map. apply sumf_ext. intros T HT. rewrite map_length.
      destruct Hadd as [_ [H _]]. apply H. unfold chain_d.
      rewrite chain_ok.
      * unfold convert_list. rewrite Ei. now apply call_twice_gain.
      * intros k Hk. apply (sm_ok C m i); trivial. apply subs_incl in HT. now apply HT.
    + apply sumf_subs_perm; [now apply inc_game|].
      rewrite (sm_perm C m i HC HW Hi), Ei. now apply remove_perm.
  - apply (NoDup_map_inv snd), HI.
  - intros h Hh Hne. assert (E : count_occ Nat.eq_dec (convert_list h) j = 0).
    { apply count_occ_not_In. intro Hjh. apply Hne. unfold convert_list in Hjh.
      assert (Es : snd h = snd i).
      { rewrite Ei. refine (player_unique C m _ (snd h) g j HC HI _ _ Hjh Hj); [now apply in_map|].
        rewrite <- Ei. now apply in_map. }
      clear -HI Hh Hi Es. destruct HI as [HI _]. revert HI Hh Hi.
      induction (py_items C m) as [|a l IH]; [easy|]. cbn [map]. intros HI [<-|Hh] [<-|Hi]; trivial.
      - inversion HI as [|? ? Hn _]. exfalso. apply Hn. rewrite Es. now apply in_map.
      - inversion HI as [|? ? Hn _]. exfalso. apply Hn. rewrite <- Es. now apply in_map.
      - inversion HI. now apply IH. }
    rewrite E, Qn_0. ring.
Qed.
End Additive.

(** ** The six cells *)

Definition inc_phi (m : nat) (w d : Q) : Q := (w * d)%Q.
Definition inc_pos (m : nat) (w d : Q) : Q := ((Qb (qltb 0 d) * d * w) / Qn m)%Q.
Definition inc_neg (m : nat) (w d : Q) : Q := ((Qb (qltb d 0) * d * w) / Qn m)%Q.
Definition inc_npos (m : nat) (w d : Q) : Q := Qb (qltb 0 d).
Definition inc_nneg (m : nat) (w d : Q) : Q := Qb (qltb d 0).
Definition inc_null (m : nat) (w d : Q) : Q := Qb (qeqb d 0).

Lemma Qn_if (b : bool) n : (Qn (n + if b then 1 else 0) == Qn n + Qb b)%Q.
Proof. rewrite Qn_plus. destruct b; reflexivity. Qed.

Lemma add_phi : additive sw_phi inc_phi.
Proof.
  split; [reflexivity|]. split; [|reflexivity]. intros m w d d' E. unfold inc_phi. now rewrite E.
Qed.
Lemma add_pos : additive sw_pos inc_pos.
Proof.
  split; [reflexivity|]. split; [|reflexivity]. intros m w d d' E. unfold inc_pos.
  rewrite (qltb_eq 0 0 d d'); [|reflexivity|trivial]. now rewrite E.
Qed.
Lemma add_neg : additive sw_neg inc_neg.
Proof.
  split; [reflexivity|]. split; [|reflexivity]. intros m w d d' E. unfold inc_neg.
  rewrite (qltb_eq d d' 0 0); [|trivial|reflexivity]. now rewrite E.
Qed.
Lemma add_npos : additive (fun s => Qn (n_pos s)) inc_npos.
Proof.
  split; [intros; apply Qn_if|]. split; [|reflexivity]. intros m w d d' E. unfold inc_npos.
  rewrite (qltb_eq 0 0 d d'); [|reflexivity|trivial]. reflexivity.
Qed.
Lemma add_nneg : additive (fun s => Qn (n_neg s)) inc_nneg.
Proof.
  split; [intros; apply Qn_if|]. split; [|reflexivity]. intros m w d d' E. unfold inc_nneg.
  rewrite (qltb_eq d d' 0 0); [|trivial|reflexivity]. reflexivity.
Qed.
Lemma add_null : additive (fun s => Qn (n_null s)) inc_null.
Proof.
  split; [intros; apply Qn_if|]. split; [|reflexivity]. intros m w d d' E. unfold inc_null.
  rewrite (qeqb_eq d d' 0 0); [|trivial|reflexivity]. reflexivity.
Qed.

(** sums over the rivals against the specification *)
Section SpecSums.
Variable v : list nat -> Q.
Variable P : list group.
Variable g : group.
Hypothesis HP : NoDup P.
Hypothesis Hg : In g P.
Local Notation wt T := (1 / binomialC (length P - 1) (length T))%Q.

Lemma rivals_length (T : list group) : In T (rivals P g) -> length T < length P.
Proof.
  intro H. unfold rivals in H. apply subs_length in H.
  pose proof (remove_length gdec g P HP Hg). lia.
Qed.
Lemma wt_weight (T : list group) : In T (rivals P g) -> (wt T / Qn (length P) == weight (length P) (length T))%Q.
Proof.
  intro H. apply rivals_length in H. unfold binomialC. rewrite comb_exact. now apply inv_choose_weight.
Qed.
Lemma spec_phi : (sumf (fun T : list group => inc_phi (length P) (wt T) (gain v g T)) (rivals P g) / Qn (length P)
                  == shapley gdec P (on_players v) g)%Q.
Proof.
  unfold shapley, Qdiv at 1. rewrite <- sumf_scal_r. fold (rivals P g). apply sumf_ext. intros T HT.
  unfold inc_phi. rewrite <- (wt_weight T HT). unfold gain, Qdiv. ring.
Qed.
Lemma pos_bool (T : list group) : qltb 0 (gain v g T) = qltb (on_players v T) (on_players v (g :: T)).
Proof.
  unfold gain. destruct (qltb_spec 0 (on_players v (g :: T) - on_players v T)),
    (qltb_spec (on_players v T) (on_players v (g :: T))); trivial; exfalso; lra.
Qed.
Lemma neg_bool (T : list group) : qltb (gain v g T) 0 = qltb (on_players v (g :: T)) (on_players v T).
Proof.
  unfold gain. destruct (qltb_spec (on_players v (g :: T) - on_players v T) 0),
    (qltb_spec (on_players v (g :: T)) (on_players v T)); trivial; exfalso; lra.
Qed.
Lemma null_bool (T : list group) : qeqb (gain v g T) 0 = qeqb (on_players v (g :: T)) (on_players v T).
Proof.
  unfold gain. destruct (qeqb_spec (on_players v (g :: T) - on_players v T) 0),
    (qeqb_spec (on_players v (g :: T)) (on_players v T)); trivial; exfalso; [apply n|apply n]; lra.
Qed.
Lemma spec_pos : (sumf (fun T : list group => inc_pos (length P) (wt T) (gain v g T)) (rivals P g)
                  == part v P g (improved v P g))%Q.
Proof.
  unfold part, improved. rewrite sumf_filter. apply sumf_ext. intros T HT. unfold inc_pos.
  rewrite pos_bool. destruct (qltb _ _); cbn [Qb].
  - rewrite <- (wt_weight T HT). unfold Qdiv. ring.
  - unfold Qdiv. ring.
Qed.
Lemma spec_neg : (sumf (fun T : list group => inc_neg (length P) (wt T) (gain v g T)) (rivals P g)
                  == part v P g (worsened v P g))%Q.
Proof.
  unfold part, worsened. rewrite sumf_filter. apply sumf_ext. intros T HT. unfold inc_neg.
  rewrite neg_bool. destruct (qltb _ _); cbn [Qb].
  - rewrite <- (wt_weight T HT). unfold Qdiv. ring.
  - unfold Qdiv. ring.
Qed.
Lemma spec_npos : (sumf (fun T : list group => inc_npos (length P) (wt T) (gain v g T)) (rivals P g)
                  == Qn (length (improved v P g)))%Q.
Proof. unfold improved. rewrite <- sumf_count. apply sumf_ext. intros T _. unfold inc_npos. now rewrite pos_bool. Qed.
Lemma spec_nneg : (sumf (fun T : list group => inc_nneg (length P) (wt T) (gain v g T)) (rivals P g)
                  == Qn (length (worsened v P g)))%Q.
Proof. unfold worsened. rewrite <- sumf_count. apply sumf_ext. intros T _. unfold inc_nneg. now rewrite neg_bool. Qed.
Lemma spec_null : (sumf (fun T : list group => inc_null (length P) (wt T) (gain v g T)) (rivals P g)
                  == Qn (length (unchanged v P g)))%Q.
Proof. unfold unchanged. rewrite <- sumf_count. apply sumf_ext. intros T _. unfold inc_null. now rewrite null_bool. Qed.
End SpecSums.

Definition swing_ok (v : list nat -> Q) (P : list group) (g : group) (s : swing) : Prop :=
  decomposition v P g (sw_phi s) (sw_pos s) (sw_neg s) (n_pos s) (n_neg s) (n_null s).

Theorem swing_sv_ok v C m P g j : is_game v -> coalitions_ok C m -> is_players C m P -> In g P -> In j g ->
  swing_ok v P g (swing_sv v C m j).
Proof.
  intros HG HC HP Hg Hj. pose proof (proj1 HP) as Hnd.
  assert (EL : length (va_ids C m) = length P).
  { apply Permutation_length. eapply players_perm; [|exact HP]. now apply va_ids_players. }
  pose proof (fun pi inc (H : additive pi inc) => compiled_pi pi inc H v C m P g j HG HC HP Hg Hj) as K.
  cbn zeta in K.
  unfold swing_ok, decomposition, swing_sv, sv_with, sv_loop. cbn [sw_phi sw_pos sw_neg n_pos n_neg n_null].
  match goal with |- context [fold_left ?f ?l ?s] =>
    change (fold_left f l s) with (sv_raw (length (va_ids C m)) (seq 0 (length (va_ids C m)))
      (fun va => nth va (va_ids C m) []) (sv_coals (va_ids C m))
      (fun va T => call_twice v (concat T) (nth va (va_ids C m) [])) j) end.
  repeat split.
  - rewrite (K _ _ add_phi), EL. now apply spec_phi.
  - rewrite (K _ _ add_pos). now apply spec_pos.
  - rewrite (K _ _ add_neg). now apply spec_neg.
  - apply Qn_inj. rewrite (K _ _ add_npos). now apply spec_npos.
  - apply Qn_inj. rewrite (K _ _ add_nneg). now apply spec_nneg.
  - apply Qn_inj. rewrite (K _ _ add_null). now apply spec_null.
Qed.

Theorem py_swing_ok v C m P g j : is_game v -> coalitions_ok C m -> has_coal C = false \/ wide C ->
  is_players C m P -> In g P -> In j g ->
  exists s, py_swing v C m j = Some s /\ swing_ok v P g s.
Proof.
  intros HG HC HW HP Hg Hj. pose proof (proj1 HP) as Hnd.
  unfold py_swing. rewrite (py_fine_true C m HW). eexists. split; [reflexivity|].
  pose proof (fun pi inc (H : additive pi inc) => python_pi pi inc H v C m P g j HG HC HW HP Hg Hj) as K.
  assert (EL : py_m C m = length P).
  { rewrite (py_m_length C m HC HW), <- (map_length snd). apply Permutation_length.
    eapply players_perm; [|exact HP]. now apply items_players. }
  unfold swing_ok, decomposition, sv_loop. cbn [sw_phi sw_pos sw_neg n_pos n_neg n_null].
  match goal with |- context [fold_left ?f ?l ?s] =>
    change (fold_left f l s) with (sv_raw (py_m C m) (py_items C m) convert_list (fun i => powerset (py_sm C m i))
        (fun i T => call_twice v (chain_d T) (convert_list i)) j) end.
  repeat split.
  - rewrite (K _ _ add_phi), EL. now apply spec_phi.
  - rewrite (K _ _ add_pos). now apply spec_pos.
  - rewrite (K _ _ add_neg). now apply spec_neg.
  - apply Qn_inj. rewrite (K _ _ add_npos). now apply spec_npos.
  - apply Qn_inj. rewrite (K _ _ add_nneg). now apply spec_nneg.
  - apply Qn_inj. rewrite (K _ _ add_null). now apply spec_null.
Qed.

(** ** Consequences *)

Lemma count_rivals (P : list group) g : NoDup P -> In g P -> length (rivals P g) = 2 ^ (length P - 1).
Proof.
  intros HP Hg. unfold rivals. rewrite length_subs.
  pose proof (remove_length gdec g P HP Hg). f_equal. lia.
Qed.

Theorem swing_efficiency v C m P (rep : group -> nat) : is_game v -> coalitions_ok C m -> is_players C m P ->
  (forall g, In g P -> In (rep g) g) ->
  (sumf (fun g => sw_phi (swing_sv v C m (rep g))) P == v (concat P) - v [])%Q.
Proof.
  intros HG HC HP Hr.
  rewrite (sumf_ext _ (shapley gdec P (on_players v))).
  - rewrite shapley_efficiency; [reflexivity|apply HP|]. intros T U HTU. apply HG. now apply concat_perm.
  - intros g Hg. apply (swing_sv_ok v C m P g (rep g) HG HC HP Hg (Hr g Hg)).
Qed.

Lemma Qdiv_nn a b : (0 <= a -> 0 <= b -> 0 <= a / b)%Q.
Proof. intros H K. unfold Qdiv. apply Qmult_le_0_compat; [trivial|]. now apply Qinv_le_0_compat. Qed.

(** for any difference: signs, sums, counts *)
Theorem sv_with_sums D C m P g j : coalitions_ok C m -> is_players C m P -> In g P -> In j g ->
  let s := sv_with D C m j in
  (sw_pos s + sw_neg s == sw_phi s)%Q /\ (0 <= sw_pos s)%Q /\ (sw_neg s <= 0)%Q /\
  n_pos s + n_neg s + n_null s = 2 ^ (length P - 1).
Proof.
  intros HC HP Hg Hj s. subst s. unfold sv_with, sv_loop. cbn [sw_phi sw_pos sw_neg n_pos n_neg n_null].
  set (ids := va_ids C m).
  pose proof (va_ids_players C m HC) as HV. fold ids in HV.
  assert (Hgi : In g ids) by (apply HV; apply HP in Hg; exact Hg).
  match goal with |- context [fold_left ?f ?l ?s] =>
    change (fold_left f l s) with (sv_raw (length ids) (seq 0 (length ids)) (fun va => nth va ids []) (sv_coals ids)
      (fun va T => D (concat T) (nth va ids [])) j) end.
  assert (HL : length ids <> 0) by (destruct ids; [contradiction|cbn; lia]).
  assert (EL : length ids = length P).
  { apply Permutation_length. eapply players_perm; [exact HV|exact HP]. }
  assert (HB : forall k T, In T (sv_coals ids k) -> (0 <= 1 / binomialC (length ids - 1) (length T) / Qn (length ids))%Q).
  { intros k T _. unfold binomialC. apply Qdiv_nn; [|apply Qn_nonneg]. apply Qdiv_nn; [lra|apply Qn_nonneg]. }
  repeat split.
  - rewrite !(raw_pi sw_pos _ add_pos), !(raw_pi sw_neg _ add_neg), (raw_pi sw_phi _ add_phi).
    rewrite <- sumf_plus. unfold Qdiv at 3. rewrite <- sumf_scal_r. apply sumf_ext. intros k _.
    rewrite <- Qmult_plus_distr_r. rewrite <- Qmult_assoc. apply Qmult_comp; [reflexivity|].
    rewrite <- sumf_plus, <- sumf_scal_r. apply sumf_ext. intros T _. unfold inc_pos, inc_neg, inc_phi.
    set (d := D _ _). set (w := (1 / _)%Q). unfold Qdiv.
    destruct (qltb_spec 0 d), (qltb_spec d 0); cbn [Qb]; try (exfalso; lra); try ring.
    assert (d == 0)%Q as -> by lra. ring.
  - rewrite (raw_pi sw_pos _ add_pos). apply sumf_nonneg. intros k _.
    apply Qmult_le_0_compat; [apply Qn_nonneg|]. apply sumf_nonneg. intros T HT. specialize (HB k T HT).
    unfold inc_pos. set (d := D _ _). set (w := (1 / binomialC _ _)%Q) in *.
    assert (E : (Qb (qltb 0 d) * d * w / Qn (length ids) == (Qb (qltb 0 d) * d) * (w / Qn (length ids)))%Q)
      by (unfold Qdiv; ring).
    rewrite E. apply Qmult_le_0_compat; trivial. destruct (qltb_spec 0 d); cbn [Qb]; lra.
  - rewrite (raw_pi sw_neg _ add_neg).
    enough (0 <= -(1) * sumf (fun i => Qn (count_occ Nat.eq_dec (nth i ids []) j) *
       sumf (fun T => inc_neg (length ids) (1 / binomialC (length ids - 1) (length T)) (D (concat T) (nth i ids [])))
         (sv_coals ids i)) (seq 0 (length ids)))%Q by lra.
    rewrite <- sumf_scal. apply sumf_nonneg. intros k _.
    set (c := Qn _). set (X := sumf _ _). enough (0 <= c * (-(1) * X))%Q by lra.
    apply Qmult_le_0_compat; [apply Qn_nonneg|]. subst X. rewrite <- sumf_scal.
    apply sumf_nonneg. intros T HT. specialize (HB k T HT).
    unfold inc_neg. set (d := D _ _). set (w := (1 / binomialC _ _)%Q) in *.
    assert (E : (-(1) * (Qb (qltb d 0) * d * w / Qn (length ids)) == (-(1) * (Qb (qltb d 0) * d)) * (w / Qn (length ids)))%Q)
      by (unfold Qdiv; ring).
    rewrite E. apply Qmult_le_0_compat; trivial. destruct (qltb_spec d 0); cbn [Qb]; lra.
  - apply Qn_inj. rewrite !Qn_plus.
    rewrite (raw_pi (fun s => Qn (n_pos s)) _ add_npos), (raw_pi (fun s => Qn (n_neg s)) _ add_nneg),
      (raw_pi (fun s => Qn (n_null s)) _ add_null).
    rewrite <- !sumf_plus.
    rewrite (sumf_ext _ (fun k => Qn (count_occ Nat.eq_dec (nth k ids []) j) * Qn (2 ^ (length ids - 1)))%Q).
    + destruct (In_nth ids g [] Hgi) as [k [Hk Ek]]. rewrite (sumf_single _ _ k).
      * rewrite Ek, (count_one C m P g j HC HP Hg Hj), EL. change (Qn 1) with 1%Q. ring.
      * apply seq_NoDup.
      * apply in_seq. lia.
      * intros h Hh Hne. apply in_seq in Hh. cbn [Nat.add] in Hh.
        assert (E : count_occ Nat.eq_dec (nth h ids []) j = 0).
        { apply count_occ_not_In. intro Hjh. apply Hne.
          refine (proj1 (NoDup_nth ids []) (proj1 HV) h k _ Hk _); [lia|].
          rewrite Ek. eapply (player_unique C m ids); try eassumption. apply nth_In. lia. }
        rewrite E, Qn_0. ring.
    + intros k _. set (c := Qn (count_occ _ _ _)).
      enough (sumf (fun T => inc_npos (length ids) (1 / binomialC (length ids - 1) (length T)) (D (concat T) (nth k ids []))) (sv_coals ids k) +
        sumf (fun T => inc_nneg (length ids) (1 / binomialC (length ids - 1) (length T)) (D (concat T) (nth k ids []))) (sv_coals ids k) +
        sumf (fun T => inc_null (length ids) (1 / binomialC (length ids - 1) (length T)) (D (concat T) (nth k ids []))) (sv_coals ids k)
        == Qn (2 ^ (length ids - 1)))%Q as E by (rewrite <- E; ring).
      rewrite <- !sumf_plus.
      rewrite (sumf_ext _ (fun _ => 1%Q)).
      * rewrite sumf_const. unfold sv_coals. rewrite map_length, seq_length. ring.
      * intros T _. unfold inc_npos, inc_nneg, inc_null. set (d := D _ _).
        destruct (qltb_spec 0 d), (qltb_spec d 0), (qeqb_spec d 0); cbn [Qb]; try lra; exfalso; try lra.
Qed.

(** ** The value function of the compiled code *)

Lemma filter_length_perm {A} (f : A -> bool) l l' : Permutation l l' -> length (filter f l) = length (filter f l').
Proof.
  induction 1; cbn [filter]; trivial.
  - destruct (f x); cbn; congruence.
  - destruct (f x), (f y); reflexivity.
  - congruence.
Qed.
Lemma sat_cl_perm p S S' x : Permutation S S' -> sat_cl p S x = sat_cl p S' x.
Proof. intro H. unfold sat_cl. now rewrite (filter_length_perm _ _ _ H), (Permutation_length H). Qed.
Lemma not_out_cl_perm p S S' x : Permutation S S' -> not_out_cl p S x = not_out_cl p S' x.
Proof. intro H. unfold not_out_cl. now rewrite (filter_length_perm _ _ _ H). Qed.
Lemma swing_mean_perm m S S' x rows forest : Permutation S S' ->
  (swing_mean m S x rows forest == swing_mean m S' x rows forest)%Q.
Proof.
  intro H. unfold swing_mean. apply sumf_ext. intros ls _. apply sumf_ext. intros lf _.
  unfold box_leaf. rewrite (not_out_cl_perm _ _ _ _ H). unfold cnt.
  rewrite (filter_ext (fun r : frow => sat_cl (l_rect lf) S (fst r)) (fun r => sat_cl (l_rect lf) S' (fst r)));
    [reflexivity|]. intro r. now apply sat_cl_perm.
Qed.
Lemma qdiv0_comp a b c d : (a == b)%Q -> (c == d)%Q -> (qdiv0 a c == qdiv0 b d)%Q.
Proof.
  intros E F. unfold qdiv0. rewrite (qeqb_eq c d 0 0 F) by reflexivity.
  destruct (qeqb d 0); [reflexivity|]. now rewrite E, F.
Qed.
Lemma qleb_eq a b c d : (a == b)%Q -> (c == d)%Q -> qleb a c = qleb b d.
Proof. intros E F. destruct (qleb_spec a c), (qleb_spec b d); trivial; exfalso; lra. Qed.
Lemma swing_value_game m rows fX thr forest x : is_game (compute_sdp_swing m rows fX thr forest x).
Proof.
  intros S S' H. unfold compute_sdp_swing. rewrite (Permutation_length H).
  destruct (length S' =? m); [reflexivity|]. destruct (length S' =? 0); [reflexivity|].
  rewrite (qleb_eq thr thr _ (qdiv0 (swing_mean m S' x (clf_rows fX rows) forest - swing_mean m S' x (down_rows (clf_rows fX rows)) forest)
     (swing_mean m S' x (up_rows (clf_rows fX rows)) forest - swing_mean m S' x (down_rows (clf_rows fX rows)) forest)));
    [reflexivity|reflexivity|].
  apply qdiv0_comp; rewrite !(swing_mean_perm m S S' x) by trivial; reflexivity.
Qed.

Lemma cnt_rows_in forest ls lf F (rs : list (pt * bool)) : In ls forest -> In lf ls ->
  (forall r, In r rs -> off_boundary forest (fst r)) ->
  cnt (sat_cl (l_rect lf) F) rs = rows_in (map fst rs) (l_rect lf) F.
Proof.
  intros H1 H2 H. unfold cnt, rows_in. induction rs as [|r rs IH]; [reflexivity|]. cbn [filter map].
  rewrite (sat_cl_off forest (fst r) ls lf F (H r (or_introl eq_refl)) H1 H2).
  destruct (sat_on (l_rect lf) F (fst r)); cbn [length]; rewrite IH; trivial; intros; apply H; now right.
Qed.
Lemma swing_mean_worth m S x rs forest : off_boundary forest x -> (forall r, In r rs -> off_boundary forest (fst r)) ->
  (swing_mean m S x rs forest == worth m (map fst rs) forest x [S])%Q.
Proof.
  intros Hx Hd. unfold swing_mean, worth. apply sumf_ext. intros ls Hls. apply sumf_ext. intros lf Hlf.
  unfold box_leaf, cond_prob. rewrite not_out_cl_sat, (sat_cl_off forest x ls lf S Hx Hls Hlf).
  cbn [concat]. rewrite app_nil_r. destruct (sat_on (l_rect lf) S x); [|ring].
  rewrite !(cnt_rows_in forest ls lf) by assumption. unfold gdiv.
  destruct (rows_in (map fst rs) (l_rect lf) S) as [|k]; cbn [Nat.eqb]; [ring|]. unfold Qdiv. ring.
Qed.
Lemma clf_split fX rows : map fst (clf_rows fX rows) = map fst rows /\
  map fst (up_rows (clf_rows fX rows)) = map fst (filter (fun r => snd r =? fX) rows) /\
  map fst (down_rows (clf_rows fX rows)) = map fst (filter (fun r => negb (snd r =? fX)) rows).
Proof.
  unfold clf_rows, up_rows, down_rows. induction rows as [|[z y] rows [I1 [I2 I3]]]; [repeat split|].
  cbn [map filter fst snd]. rewrite (Nat.eqb_sym fX y), I1. destruct (y =? fX); cbn [negb map fst]; rewrite ?I2, ?I3; repeat split.
Qed.
Lemma swing_value m rows fX thr forest x S : 0 < length S -> length S <> m ->
  off_boundary forest x -> (forall r, In r rows -> off_boundary forest (fst r)) ->
  let v := compute_sdp_swing m rows fX thr forest x S in
  let E rs := worth m (map fst rs) forest x [S] in
  let a := E rows in let u := E (filter (fun r => snd r =? fX) rows) in let d := E (filter (fun r => negb (snd r =? fX)) rows) in
  (v = 0 \/ v = 1)%Q /\ (~ (u == d) -> (v = 1 <-> thr <= (a - d) / (u - d)))%Q /\ ((u == d) -> (v = 1 <-> thr <= 0))%Q.
Proof.
  intros H0 Hm Hx Hr. cbn zeta. unfold compute_sdp_swing.
  destruct (Nat.eqb_spec (length S) m) as [e|_]; [contradiction|]. destruct (Nat.eqb_spec (length S) 0) as [e|_]; [lia|].
  destruct (clf_split fX rows) as [E1 [E2 E3]].
  assert (Hoff : forall r, In r (clf_rows fX rows) -> off_boundary forest (fst r)).
  { intros r Hin. apply in_map_iff in Hin. destruct Hin as [r' [<- Hin]]. exact (Hr r' Hin). }
  assert (M1 := swing_mean_worth m S x (clf_rows fX rows) forest Hx Hoff). rewrite E1 in M1.
  assert (M2 := swing_mean_worth m S x (up_rows (clf_rows fX rows)) forest Hx (fun r H => Hoff r (proj1 (proj1 (filter_In _ _ _) H)))). rewrite E2 in M2.
  assert (M3 := swing_mean_worth m S x (down_rows (clf_rows fX rows)) forest Hx (fun r H => Hoff r (proj1 (proj1 (filter_In _ _ _) H)))). rewrite E3 in M3.
  set (a := worth m (map fst rows) _ _ _) in *. set (u := worth m (map fst (filter (fun r => snd r =? fX) rows)) _ _ _) in *.
  set (d := worth m (map fst (filter (fun r => negb (snd r =? fX)) rows)) _ _ _) in *.
  assert (ER : (qdiv0 (swing_mean m S x (clf_rows fX rows) forest - swing_mean m S x (down_rows (clf_rows fX rows)) forest)
    (swing_mean m S x (up_rows (clf_rows fX rows)) forest - swing_mean m S x (down_rows (clf_rows fX rows)) forest) ==
    qdiv0 (a - d) (u - d))%Q).
  { apply qdiv0_comp; rewrite ?M1, ?M2, ?M3; reflexivity. }
  rewrite (qleb_eq thr thr _ _ (Qeq_refl _) ER). clear ER. unfold qdiv0.
  split; [destruct (qleb thr _); auto|]. split; intro Hud.
  - destruct (qeqb_spec (u - d) 0) as [e|_]; [exfalso; apply Hud; lra|].
    destruct (qleb_spec thr ((a - d) / (u - d))); split; intro; try assumption; try reflexivity; try discriminate; contradiction.
  - destruct (qeqb_spec (u - d) 0) as [_|n]; [|exfalso; apply n; lra].
    destruct (qleb_spec thr 0); split; intro; try assumption; try reflexivity; try discriminate; contradiction.
Qed.
Lemma direct_range stray m rows fX thr forest x S va :
  let v := compute_sdp_swing_diff stray m rows fX thr forest x S va in (v = 0 \/ v = 1 \/ v = -1)%Q.
Proof.
  cbn zeta. assert (K : forall ss b, (d_compare thr ss b = 0 \/ d_compare thr ss b = 1 \/ d_compare thr ss b = -1)%Q).
  { intros ss b. unfold d_compare. destruct b as [b|]; [|auto]. destruct (qltb ss thr), (qltb b thr); auto. }
  unfold compute_sdp_swing_diff. destruct (length S =? 0); [destruct stray as [[? ?] ?]; apply K|].
  destruct (length S + length va =? m); apply K.
Qed.

Lemma players_concat C m P : coalitions_ok C m -> is_players C m P -> length (concat P) = m.
Proof.
  intros HC HP. rewrite <- (seq_length m 0). apply Permutation_length. apply NoDup_Permutation.
  - pose proof HC as [H1 [H2 H3]].
    assert (forall Q', incl Q' P -> NoDup Q' -> NoDup (concat Q')) as K; [|apply K; [easy|apply HP]].
    induction Q' as [|q Q' IH]; intros Hi Hn; cbn; [constructor|]. inversion Hn; subst.
    apply NoDup_app_intro.
    + eapply player_NoDup; try eassumption. apply Hi. now left.
    + apply IH; trivial. intros a Ha. apply Hi. now right.
    + intros a Ha Hc. apply in_concat in Hc. destruct Hc as [h [Hh Hah]].
      assert (q = h) by (eapply (player_unique C m P); try eassumption; apply Hi; [now left|now right]).
      subst. contradiction.
  - apply seq_NoDup.
  - intro a. rewrite in_concat, in_seq. split.
    + intros [h [Hh Ha]]. pose proof (player_bound C m P h a HC HP Hh Ha). lia.
    + intro Ha. destruct (player_exists C m P a HP) as [h [Hh Hah]]; [lia|]. now exists h.
Qed.

Theorem swing_clf_efficiency m rows fX thr forest x C P (rep : group -> nat) :
  0 < m -> coalitions_ok C m -> is_players C m P -> (forall g, In g P -> In (rep g) g) ->
  (sumf (fun g => sw_phi (swing_sv_clf m rows fX thr forest x C (rep g))) P == 1)%Q.
Proof.
  intros Hm HC HP Hr. unfold swing_sv_clf.
  rewrite (swing_efficiency _ C m P rep (swing_value_game m rows fX thr forest x) HC HP Hr).
  unfold compute_sdp_swing. rewrite (players_concat C m P HC HP), Nat.eqb_refl. cbn [length].
  destruct m; [lia|]. reflexivity.
Qed.

(** ** The Python versions *)

Lemma singleton_in_powerset {A} (a : A) l : In a l -> In [a] (powerset l).
Proof.
  intro Ha. unfold powerset. apply in_flat_map. exists 1. split.
  - apply in_seq. destruct l; [contradiction|cbn; lia].
  - induction l as [|b l IH]; [contradiction|]. cbn [combos]. apply in_or_app.
    destruct Ha as [->|Ha]; [left|right; now apply IH]. rewrite combos_0. now left.
Qed.

Theorem py_raises v C m c a j : coalitions_ok C m -> has_coal C = true -> In c C -> length c <= 1 ->
  a < m -> ~ In a c -> py_swing v C m j = None.
Proof.
  intros HC EC Hc Hl Ha Hac. unfold py_swing.
  assert (E : py_fine C m = false); [|now rewrite E].
  assert (Hi : exists i, In i (py_items C m) /\ In a (snd i) /\ (In (snd i) C \/ snd i = [a])).
  { unfold py_items. rewrite EC. destruct (in_dec Nat.eq_dec a (concat C)) as [Hin|Hn].
    - apply in_concat in Hin. destruct Hin as [c' [Hc' Hac']]. exists (true, c'). cbn [snd].
      split; [|tauto]. apply in_or_app. right. apply in_map_iff. now exists c'.
    - exists (false, [a]). cbn [snd]. split; [|split; [now left|now right]].
      apply in_or_app. left. apply in_map_iff. exists a. split; [reflexivity|].
      apply filter_In. split; [apply in_seq; lia|]. now apply negb_true_iff, memb_false. }
  destruct Hi as [i [Hi [Hai Hk]]].
  assert (Hs : In (true, c) (py_sm C m i)).
  { unfold py_sm. rewrite EC. apply in_or_app. right. apply in_map_iff. exists c. split; [reflexivity|].
    apply filter_In. split; [trivial|]. apply forallb_forall. intros k Hkc. apply memb_true.
    apply filter_In. split.
    - apply in_seq. pose proof (proj1 (proj2 HC) k (in_concat_of k c C Hc Hkc)). lia.
    - apply negb_true_iff, memb_false. unfold convert_list. intro Hki. destruct Hk as [Hk|Hk].
      + assert (snd i = c) by (eapply (concat_unique C (snd i) c k); try eassumption; apply HC).
        apply Hac. congruence.
      + rewrite Hk in Hki. destruct Hki as [->|[]]. contradiction. }
  apply Bool.not_true_iff_false. intro HF. unfold py_fine in HF.
  rewrite forallb_forall in HF. specialize (HF i Hi). rewrite forallb_forall in HF.
  specialize (HF [(true, c)] (singleton_in_powerset _ _ Hs)). cbn [chain_l andb] in HF.
  destruct (Nat.leb_spec (length c) 1); [discriminate|lia].
Qed.

Theorem py_agrees v C m j : is_game v -> coalitions_ok C m -> has_coal C = false \/ wide C -> j < m ->
  exists s, py_swing v C m j = Some s /\
    let t := swing_sv v C m j in
    (sw_phi s == sw_phi t)%Q /\ (sw_pos s == sw_pos t)%Q /\ (sw_neg s == sw_neg t)%Q /\
    n_pos s = n_pos t /\ n_neg s = n_neg t /\ n_null s = n_null t.
Proof.
  intros HG HC HW Hj. pose proof (va_ids_players C m HC) as HP.
  destruct (player_exists C m _ j HP Hj) as [g [Hg Hjg]].
  destruct (py_swing_ok v C m _ g j HG HC HW HP Hg Hjg) as [s [E H]]. exists s. split; [trivial|]. cbn zeta.
  pose proof (swing_sv_ok v C m _ g j HG HC HP Hg Hjg) as K.
  destruct H as [H1 [H2 [H3 [H4 [H5 H6]]]]], K as [K1 [K2 [K3 [K4 [K5 K6]]]]].
  repeat split; [rewrite H1, K1|rewrite H2, K2|rewrite H3, K3| | | ]; try reflexivity; congruence.
Qed.

Theorem py_shap_ok v C m P g j : is_game v -> coalitions_ok C m -> has_coal C = false \/ wide C ->
  is_players C m P -> In g P -> In j g ->
  exists q, py_shap v C m j = Some q /\ (q == shapley gdec P (on_players v) g)%Q.
Proof.
  intros HG HC HW HP Hg Hj. destruct (py_swing_ok v C m P g j HG HC HW HP Hg Hj) as [s [E H]].
  exists (sw_phi s). unfold py_shap. rewrite E. split; [reflexivity|]. apply H.
Qed.

(** the value functions of the enumeration do not depend on the listing order *)
Lemma not_out_perm p S S' x : Permutation S S' -> not_out p S x = not_out p S' x.
Proof. intro H. unfold not_out. now rewrite (filter_length_perm _ _ _ H). Qed.
Lemma sat_perm p S S' x : Permutation S S' -> sat p S x = sat p S' x.
Proof. intro H. unfold sat. now rewrite (filter_length_perm _ _ _ H), (Permutation_length H). Qed.
Lemma eq_on_perm S S' x z : Permutation S S' -> eq_on S x z = eq_on S' x z.
Proof. intro H. unfold eq_on. now rewrite (filter_length_perm _ _ _ H), (Permutation_length H). Qed.
Lemma exp_cat_game m data forest x : is_game (fun S => compute_exp_cat m data S forest x).
Proof.
  intros S S' H. unfold compute_exp_cat. apply sumf_ext. intros ls _. apply sumf_ext. intros lf _.
  unfold exp_cat_leaf. rewrite (not_out_perm _ _ _ _ H).
  rewrite (filter_ext (eq_on S x) (eq_on S' x)); [reflexivity|]. intro z. now apply eq_on_perm.
Qed.
Lemma exp_leaf_perm m data S S' x lf : Permutation S S' -> exp_leaf m data S x lf = exp_leaf m data S' x lf.
Proof.
  intro H. unfold exp_leaf, count_s. rewrite (not_out_cl_perm _ _ _ _ H).
  rewrite (filter_ext (sat (l_rect lf) S) (sat (l_rect lf) S')); [reflexivity|]. intro z. now apply sat_perm.
Qed.
Lemma norm_leaf_perm m data S S' x lf : Permutation S S' -> norm_leaf m data S x lf = norm_leaf m data S' x lf.
Proof.
  intro H. unfold norm_leaf, count_s. rewrite (not_out_cl_perm _ _ _ _ H).
  rewrite (filter_ext (sat (l_rect lf) S) (sat (l_rect lf) S')); [reflexivity|]. intro z. now apply sat_perm.
Qed.
Lemma osum_ext' {A} (f g : A -> option Q) l : (forall a, f a = g a) -> osum f l = osum g l.
Proof. intro H. induction l as [|a l IH]; cbn; [reflexivity|]. now rewrite H, IH. Qed.
Lemma sumf_ext_eq {A} (f g : A -> Q) l : (forall a, f a = g a) -> sumf f l = sumf g l.
Proof. intro H. induction l as [|a l IH]; cbn [sumf]; [reflexivity|]. now rewrite H, IH. Qed.
Lemma exp_norm_perm m data S S' forest x : Permutation S S' ->
  compute_exp_normalized m data S forest x = compute_exp_normalized m data S' forest x.
Proof.
  intro H. unfold compute_exp_normalized. apply osum_ext'. intro ls. unfold exp_norm_tree.
  rewrite (osum_ext' (norm_leaf m data S x) (norm_leaf m data S' x)) by (intro; now apply norm_leaf_perm).
  destruct (osum _ ls); [|reflexivity]. f_equal. apply sumf_ext_eq. intro lf.
  now rewrite (exp_leaf_perm m data S S' x lf H).
Qed.
Lemma exp_norm_game m data forest x : is_game (fun S => num (compute_exp_normalized m data S forest x)).
Proof. intros S S' H. now rewrite (exp_norm_perm m data S S' forest x H). Qed.

Theorem discrete_ok m data forest x C P g j : coalitions_ok C m -> has_coal C = false \/ wide C ->
  is_players C m P -> In g P -> In j g ->
  exists q, shap_values_discrete_notoptimized m data forest x C j = Some q /\
    (q == shapley gdec P (on_players (fun S => compute_exp_cat m data S forest x)) g)%Q.
Proof. intros. apply (py_shap_ok _ C m); trivial. apply exp_cat_game. Qed.

Theorem leaves_ok m data forest x C P g j (w : list nat -> Q) : coalitions_ok C m -> has_coal C = false \/ wide C ->
  is_players C m P -> In g P -> In j g ->
  (forall T, incl T P -> NoDup T -> exists r, compute_exp_normalized m data (concat T) forest x = Some r /\ (r == w (concat T))%Q) ->
  exists q, shap_values_leaves_notoptimized m data forest x C j = Some (Some q) /\
    (q == shapley gdec P (on_players w) g)%Q.
Proof.
  intros HC HW HP Hg Hj HN. unfold shap_values_leaves_notoptimized.
  pose proof (items_players C m HC HW) as HI.
  assert (HPm : Permutation (map snd (py_items C m)) P) by (eapply players_perm; eassumption).
  destruct (py_shap_ok _ C m P g j (exp_norm_game m data forest x) HC HW HP Hg Hj) as [q [E H]].
  rewrite E. cbn [option_map]. exists q. split.
  - match goal with |- Some (if ?b then _ else _) = _ => assert (Eb : b = true); [|now rewrite Eb] end.
    apply forallb_forall. intros i Hi. apply orb_true_iff. right.
    apply forallb_forall. intros T HT.
    assert (Hinc : incl (map snd T) (remove gdec (snd i) P)).
    { intros h Hh. apply in_map_iff in Hh. destruct Hh as [k [<- Hk]].
      apply powerset_incl in HT. apply HT in Hk.
      apply (Permutation_in _ (remove_perm gdec (snd i) _ _ HPm)).
      apply (Permutation_in _ (sm_perm C m i HC HW Hi)). now apply in_map. }
    assert (Hsn : In (map snd T) (subs (map snd (py_sm C m i)))).
    { rewrite subs_map. apply in_map. unfold powerset in HT. apply in_flat_map in HT. destruct HT as [r [_ HT]].
      clear -HT. revert r T HT. induction (py_sm C m i) as [|a l IH]; intros [|r] T HT; cbn [combos] in HT.
      - destruct HT as [<-|[]]. now left.
      - contradiction.
      - destruct HT as [<-|[]]. apply subs_nil.
      - cbn [subs]. apply in_or_app. apply in_app_or in HT. destruct HT as [HT|HT].
        + right. apply in_map_iff in HT. destruct HT as [U [<- HU]]. apply in_map_iff. exists U. eauto.
        + left. eauto. }
    assert (Hnd : NoDup (map snd T)).
    { apply (subs_NoDup _ _ (Permutation_NoDup (Permutation_sym (sm_perm C m i HC HW Hi)) (remove_NoDup gdec _ _ (proj1 HI))) Hsn). }
    assert (EC : chain_d T = concat (map snd T)).
    { unfold chain_d. rewrite chain_ok; [reflexivity|]. intros k Hk.
      apply powerset_incl in HT. apply HT in Hk. now apply (sm_ok C m i). }
    apply andb_true_iff. split.
    + rewrite EC. unfold convert_list.
      rewrite (exp_norm_perm m data _ (concat (snd i :: map snd T)) forest x) by (cbn [concat]; apply Permutation_app_comm).
      destruct (HN (snd i :: map snd T)) as [r [Er _]].
      * intros h [<-|Hh]; [eapply Permutation_in; [exact HPm|now apply in_map]|].
        apply Hinc in Hh. now apply in_remove in Hh.
      * constructor; trivial. intro Hh. apply Hinc in Hh. apply in_remove in Hh. tauto.
      * now rewrite Er.
    + rewrite EC. destruct (HN (map snd T)) as [r [Er _]]; trivial.
      * intros h Hh. apply Hinc in Hh. now apply in_remove in Hh.
      * now rewrite Er.
  - rewrite H. unfold shapley. apply sumf_ext. intros T HT.
    assert (Hin : incl T (remove gdec g P)) by now apply subs_incl.
    assert (Hn : NoDup T) by (refine (subs_NoDup _ _ _ HT); apply remove_NoDup, HP).
    apply Qmult_comp; [reflexivity|]. apply Qplus_comp; [|apply Qopp_comp]; unfold on_players.
    + destruct (HN (g :: T)) as [r [Er Hr]].
      * intros h [<-|Hh]; trivial. apply Hin in Hh. now apply in_remove in Hh.
      * constructor; trivial. intro Hh. apply Hin in Hh. apply in_remove in Hh. tauto.
      * rewrite Er. exact Hr.
    + destruct (HN T) as [r [Er Hr]]; trivial.
      * intros h Hh. apply Hin in Hh. now apply in_remove in Hh.
      * rewrite Er. exact Hr.
Qed.

(** ** The direct difference *)

(** one tree: column 0 at most 0 decides; four rows *)
Definition dz (a b : Q) : pt := fun i => match i with O => a | _ => b end.
Definition dz_rows : list (pt * nat) :=
  [(dz (-1) 0, 1); (dz (-1) 1, 1); (dz 1 0, 0); (dz 1 1, 0)].
Definition dz_forest : list (list leaf) :=
  [[mkLeaf (fun i => match i with O => (NInf, Fin 0) | _ => (NInf, PInf) end) [0] 1;
    mkLeaf (fun i => match i with O => (Fin 0, PInf) | _ => (NInf, PInf) end) [0] 0]].
Definition dz_x : pt := dz (-1) 0.

Theorem direct_refuted : exists m rows fX thr forest x C P,
  coalitions_ok C m /\ is_players C m P /\ 0 < m /\
  (forall stray, ~ (sumf (fun g => sw_phi (swing_sv_clf_direct stray m rows fX thr forest x C (hd 0%nat g))) P == 1)%Q) /\
  (sumf (fun g => sw_phi (swing_sv_clf m rows fX thr forest x C (hd 0%nat g))) P == 1)%Q.
Proof.
  exists 2, dz_rows, 1, (9 # 10)%Q, dz_forest, dz_x, [[]], [[0]; [1]].
  assert (HC : coalitions_ok [[]] 2) by (repeat split; cbn; try constructor; easy).
  split; [trivial|]. split.
  { exact (va_ids_players [[]] 2 HC). }
  split; [lia|]. split.
  - intros [[[|] [|]] [|]]; vm_compute; discriminate.
  - vm_compute. reflexivity.
Qed.

(** the thresholded Python loop *)
Lemma fold_left_ext {A B} (f g : A -> B -> A) l : (forall a b, f a b = g a b) -> forall a, fold_left f l a = fold_left g l a.
Proof. intro H. induction l as [|b l IH]; intro a; cbn; [reflexivity|]. now rewrite H, IH. Qed.
Lemma sv_loop_ext {A B} m players (cols : B -> group) (coals : B -> list (list A)) D D' j :
  (forall i T, D i T = D' i T) -> sv_loop m players cols coals D j = sv_loop m players cols coals D' j.
Proof.
  intro H. unfold sv_loop.
  rewrite (fold_left_ext _ (fun s i => player_loop m (cols i) (coals i) (D' i) j s)); [reflexivity|].
  intros s i. unfold player_loop. apply fold_left_ext. intros s' T. now rewrite H.
Qed.
Lemma py_swing_ext v w C m j : (forall T, v T = w T) -> py_swing v C m j = py_swing w C m j.
Proof.
  intro H. unfold py_swing. destruct (py_fine C m); [|reflexivity]. f_equal. apply sv_loop_ext.
  intros i T. unfold call_twice. now rewrite !H.
Qed.
Lemma swing_sv_ext v w C m j : (forall T, v T = w T) -> swing_sv v C m j = swing_sv w C m j.
Proof. intro H. unfold swing_sv, sv_with. apply sv_loop_ext. intros i T. unfold call_twice. now rewrite !H. Qed.
Lemma thresholded_game v thr : is_game v -> is_game (fun T : list nat => Qb (qleb thr (v T))).
Proof.
  intros H T U HTU. assert (E := H T U HTU). cbn beta.
  destruct (qleb_spec thr (v T)), (qleb_spec thr (v U)); try reflexivity; exfalso; lra.
Qed.
Theorem py_clf_agrees v thr C m j : is_game v -> coalitions_ok C m -> has_coal C = false \/ wide C -> j < m ->
  exists s, py_swing_clf v thr C m j = Some s /\
    let t := swing_sv (fun T => if Qlt_le_dec (v T) thr then 0 else 1)%Q C m j in
    (sw_phi s == sw_phi t)%Q /\ (sw_pos s == sw_pos t)%Q /\ (sw_neg s == sw_neg t)%Q /\
    n_pos s = n_pos t /\ n_neg s = n_neg t /\ n_null s = n_null t.
Proof.
  intros Hg HC Hw Hj. unfold py_swing_clf.
  assert (E : forall T, Qb (qleb thr (v T)) = (if Qlt_le_dec (v T) thr then 0 else 1)%Q).
  { intro T. destruct (Qlt_le_dec (v T) thr), (qleb_spec thr (v T)); try reflexivity; exfalso; lra. }
  rewrite <- (swing_sv_ext _ _ C m j E). apply py_agrees; trivial. now apply thresholded_game.
Qed.

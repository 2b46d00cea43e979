(** Proofs about the explanations of an [ACVTree], from its trees: the columns searched. *)
From Verif Require Import Base TreeModel TreeSpec TreeProofs GameSpec GameProofs ShapModel ShapSpec ShapProofs FlatModel FlatSpec FlatProofs SkModel SkSpec SkProofs
  SdpModel SdpSpec SdpProofs SearchModel SearchSpec SearchProofs ClfModel ClfSpec ClfProofs ExplModel ExplSpec ExplProofs
  ArrModel ArrSpec ArrProofs ArrProofs2 ArrProofs3 ArrProofs4 EntryModel EntrySpec EntryProofs EntryProofs2 EntryProofs3 SbufModel SbufSpec SbufProofs SbufProofs2
  ImpModel ImpSpec.
Local Open Scope nat_scope.

(** ** Counting the leaves below the splits on a column *)

Lemma leaves_unique ts s n n' : leaves_below ts s n -> leaves_below ts s n' -> n = n'.
Proof.
  intros (L & N1 & <- & H1) (L' & N2 & <- & H2). apply Permutation_length, NoDup_Permutation; trivial.
  intros [b i]. now rewrite H1, H2.
Qed.
Lemma count_flat_map {A} (f : A -> list nat) l s : count_occ Nat.eq_dec (flat_map f l) s = list_sum (map (fun a => count_occ Nat.eq_dec (f a) s) l).
Proof. induction l as [|a l IH]; [reflexivity|]. cbn [flat_map map list_sum fold_right]. rewrite count_occ_app, IH. reflexivity. Qed.
Lemma length_flat_map {A B} (f : A -> list B) l : length (flat_map f l) = list_sum (map (fun a => length (f a)) l).
Proof. induction l as [|a l IH]; [reflexivity|]. cbn [flat_map map list_sum fold_right]. rewrite app_length, IH. reflexivity. Qed.
Lemma count_nodup l s : NoDup l -> count_occ Nat.eq_dec l s = if memb s l then 1 else 0.
Proof.
  intro H. destruct (memb s l) eqn:E.
  - apply memb_true in E. now apply NoDup_count_occ'.
  - apply count_occ_not_In. intro K. apply memb_true in K. congruence.
Qed.
Lemma sum_ind_filter {A} (p : A -> bool) l : list_sum (map (fun a => if p a then 1 else 0) l) = length (filter p l).
Proof. induction l as [|a l IH]; [reflexivity|]. cbn [map list_sum fold_right filter]. fold (list_sum (map (fun a => if p a then 1 else 0) l)). rewrite IH. destruct (p a); reflexivity. Qed.
Lemma nodup_tagged {A B} (f : A -> list B) l : NoDup l -> (forall a, In a l -> NoDup (f a)) -> NoDup (flat_map (fun a => map (pair a) (f a)) l).
Proof.
  induction l as [|a l IH]; intros Hl Hf; [constructor|]. inversion Hl; subst. cbn [flat_map]. apply NoDup_app_intro.
  - apply NoDup_map_in; [|apply Hf; now left]. intros x y _ _ E. now injection E.
  - apply IH; [assumption|]. intros a' Ha'. apply Hf. now right.
  - intros [a' b'] Hx Hy. apply in_map_iff in Hx. destruct Hx as (b & E & Hb). injection E as <- <-.
    apply in_flat_map in Hy. destruct Hy as (a' & Ha' & Hy). apply in_map_iff in Hy. destruct Hy as (b' & E & _). injection E as -> _. contradiction.
Qed.

Section Object.
Variables (listed : list nat -> list nat) (sig : Q -> Q) (ts : list mtree) (stacked : nat) (boosted : bool) (d w k : nat)
  (data0 : marg) (zs0 : list (list Q)) (h : shap_acv).
Hypothesis HL : lists_set listed.
Hypothesis Hok : ensemble_ok ts stacked d w k.
Hypothesis Hdata0 : is_table data0 d zs0.
Hypothesis Hh : construct_shap listed sig ts stacked boosted data0 = Some h.
Notation T := (o_tabs (h_acv h)).
Notation flat := (flat_list h).


Lemma wf m : In m ts -> well_formed d w m.
Proof. exact (h_wf ts stacked d w k Hok m). Qed.
Lemma a_made : construct sig ts stacked boosted d = Some (h_acv h).
Proof. exact (h_con listed sig ts stacked boosted d data0 zs0 h Hdata0 Hh). Qed.
Lemma d_pos : 0 < d.
Proof. apply (h_facts listed sig ts stacked boosted d data0 zs0 h Hdata0 Hh). Qed.

(** the features above a leaf *)
Definition feats (b i : nat) : list nat := node_set listed (nth b ts no_tree) i.
Lemma flat_form : flat = flat_map (fun b => flat_map (feats b) (leaf_list (nth b ts no_tree))) (seq 0 (length ts)).
Proof.
  unfold flat_list. rewrite (h_trees listed sig ts stacked boosted d w k data0 zs0 h Hok Hdata0 Hh).
  apply flat_map_ext. intro b. rewrite (h_nb listed sig ts stacked boosted d w k data0 zs0 h Hok Hdata0 Hh b).
  rewrite flat_map_concat_map, (flat_map_concat_map (feats b)). f_equal. rewrite <- (map_nth_seq (feats b) _ 0).
  apply map_ext. intro j. exact (h_nids listed sig ts stacked boosted d data0 zs0 h Hdata0 Hh b j).
Qed.
Lemma feats_above b i : b < length ts -> In i (leaf_list (nth b ts no_tree)) -> features_above (nth b ts no_tree) i (feats b i).
Proof. intros Hb Hi. eapply node_set_above; [exact HL| |exact Hi]. apply wf. now apply nth_In. Qed.
Definition below (s : nat) : list (nat * nat) :=
  flat_map (fun b => map (pair b) (filter (fun i => memb s (feats b i)) (leaf_list (nth b ts no_tree)))) (seq 0 (length ts)).
Lemma leaf_list_nodup m : NoDup (leaf_list m).
Proof. unfold leaf_list. apply NoDup_filter, seq_NoDup. Qed.
Lemma flat_count s : leaves_below ts s (count_occ Nat.eq_dec flat s).
Proof.
  exists (below s). split; [|split].
  - apply nodup_tagged; [apply seq_NoDup|]. intros b _. apply NoDup_filter, leaf_list_nodup.
  - unfold below. rewrite length_flat_map, flat_form, count_flat_map. f_equal. apply map_ext_in. intros b Hb. apply in_seq in Hb.
    rewrite map_length, count_flat_map, <- sum_ind_filter. f_equal. apply map_ext_in. intros i Hi.
    symmetry. apply count_nodup. apply (feats_above b i); [lia|exact Hi].
  - intros b i. unfold below. rewrite in_flat_map. split.
    + intros (b' & Hb & H). apply in_map_iff in H. destruct H as (i' & E & H). injection E as -> ->. apply filter_In in H. destruct H as [Hi Hs].
      apply in_seq in Hb. exists (nth b ts no_tree). split; [apply nth_error_nth'; lia|].
      assert (Hm : In (nth b ts no_tree) ts) by (apply nth_In; lia). split; [now apply (leaf_list_in d w _ i (wf _ Hm))|].
      apply (feats_above b i); [lia|exact Hi|now apply memb_true].
    + intros (m & Hb & Hi & Ha). exists b. pose proof (nth_error_lt _ _ _ Hb) as Hlt. split; [apply in_seq; lia|].
      apply in_map. pose proof (nth_error_nth _ _ no_tree Hb) as E. subst m.
      assert (Hm : In (nth b ts no_tree) ts) by (apply nth_In; lia).
      apply (leaf_list_in d w _ i (wf _ Hm)) in Hi. apply filter_In. split; [exact Hi|]. apply memb_true. now apply (feats_above b i).
Qed.
Lemma flat_lt s : In s flat -> s < d.
Proof.
  rewrite flat_form, in_flat_map. intros (b & Hb & H). apply in_flat_map in H. destruct H as (i & Hi & H). apply in_seq in Hb.
  assert (Hm : In (nth b ts no_tree) ts) by (apply nth_In; lia).
  apply (nids_above d w _ i (wf _ Hm) Hi). now apply (node_set_nids listed HL).
Qed.
Lemma nth_firstn {A} n i (l : list A) x : nth_error (firstn n l) i = Some x -> i < n /\ nth_error l i = Some x.
Proof.
  revert i l. induction n as [|n IH]; intros [|i] [|a l] H; cbn in *; try discriminate.
  - split; [lia|exact H].
  - apply IH in H. split; [lia|apply H].
Qed.
Lemma chosen order : counted flat order -> most_used ts (firstn 10 order).
Proof.
  intros (Hn & Hin & Hdec). split; [now apply NoDup_firstn'|]. split; [rewrite firstn_length; lia|]. split.
  - intros s Hs. exists (count_occ Nat.eq_dec flat s). split; [|apply flat_count].
    apply count_occ_In. apply Hin. eapply firstn_incl, Hs.
  - intros s n Hs Hpos Hb. assert (E : n = count_occ Nat.eq_dec flat s) by exact (leaves_unique _ _ _ _ Hb (flat_count s)).
    assert (Hso : In s order) by (apply Hin, (count_occ_In Nat.eq_dec); lia).
    apply In_nth_error in Hso. destruct Hso as [j Hj].
    assert (Hj10 : 10 <= j).
    { destruct (le_lt_dec 10 j) as [|Hlt]; [assumption|]. exfalso. apply Hs. rewrite <- (firstn_skipn 10 order) in Hj.
      rewrite nth_error_app1 in Hj; [eapply nth_error_In, Hj|]. rewrite firstn_length.
      apply nth_error_lt in Hj. rewrite firstn_skipn in Hj. lia. }
    pose proof (nth_error_lt _ _ _ Hj) as Hlen. split; [rewrite firstn_length; lia|].
    intros s' n' Hs' Hb'. assert (E' : n' = count_occ Nat.eq_dec flat s') by exact (leaves_unique _ _ _ _ Hb' (flat_count s')).
    apply In_nth_error in Hs'. destruct Hs' as [i Hi]. apply nth_firstn in Hi. destruct Hi as [Hi1 Hi2].
    subst n n'. exact (Hdec i j s' s ltac:(lia) Hi2 Hj).
Qed.
Lemma groups_nodup (va : list (list nat)) : NoDup (concat va) -> ~ In [] va -> NoDup va.
Proof.
  induction va as [|g va IH]; intros H Hn; [constructor|]. cbn in H. apply NoDup_app_split in H. destruct H as [H1 H2].
  constructor; [|apply IH; [exact H1|]; intro K; apply Hn; now right].
  intro K. destruct g as [|s g]; [apply Hn; now left|]. apply (H2 s); [now left|]. apply in_concat. exists (s :: g). split; [exact K|now left].
Qed.
Lemma groups_searched order C : counted flat order -> coal_ok C d -> searched ts d C (tree_space_groups d order C).
Proof.
  intros Hc HC. destruct (tree_space_groups_ok flat d order C Hc flat_lt HC) as [(G1 & G2 & G3) G4].
  pose proof (groups_nodup _ G1 G3) as GN.
  split; [exact GN|]. split; [exact G1|]. split; [exact G4|]. revert GN. unfold tree_space_groups. clear G1 G2 G3 G4.
  destruct HC as (C1 & C2 & C3). split; intro Hd.
  - replace (10 <? d) with false in * by (symmetry; apply Nat.ltb_ge; lia). split; [exact GN|]. intro g. unfold tree_groups.
    destruct (has_coal C) eqn:E.
    + rewrite in_app_iff, in_map_iff. destruct C3 as [->|C3]; [discriminate|]. split.
      * intros [(i & <- & Hi)|Hg]; [right|left; split; [exact Hg|intros ->; contradiction]].
        apply filter_In in Hi. destruct Hi as [Hi Hm]. apply in_seq in Hi. exists i. split; [lia|]. split; [|reflexivity].
        intro K. apply memb_true in K. rewrite K in Hm. discriminate.
      * intros [[Hg _]|(i & Hi & Hn & ->)]; [now right|]. left. exists i. split; [reflexivity|]. apply filter_In.
        split; [apply in_seq; lia|]. destruct (memb i (concat C)) eqn:K; [apply memb_true in K; contradiction|reflexivity].
    + assert (EC : concat C = [] /\ forall g, In g C -> g <> [] -> False).
      { destruct C3 as [->|C3]; [split; [reflexivity|]; intros g0 [<-|[]] K; now apply K|].
        destruct C as [|[|x c] C']; [split; [reflexivity|intros g0 []]|exfalso; apply C3; now left|discriminate E]. }
      rewrite (proj1 EC), in_map_iff. split.
      * intros (i & <- & Hi). apply in_seq in Hi. right. exists i. split; [lia|]. split; [intros []|reflexivity].
      * intros [[Hg Hne]|(i & Hi & _ & ->)]; [destruct (proj2 EC g Hg Hne)|]. exists i. split; [reflexivity|apply in_seq; lia].
  - replace (10 <? d) with true in * by (symmetry; now apply Nat.ltb_lt). exists (firstn 10 order). split; [now apply chosen|].
    intro g. unfold search_groups. destruct (has_coal C) eqn:E.
    + rewrite in_app_iff, in_map_iff, filter_In, existsb_exists. split.
      * intros [(i & <- & Hi)|(Hg & s & Hs & Hm)].
        -- right. exists i. apply filter_In in Hi. destruct Hi as [Hi Hm]. split; [reflexivity|]. split; [exact Hi|].
           intro K. apply memb_true in K. rewrite K in Hm. discriminate.
        -- left. split; [exact Hg|]. exists s. split; [exact Hs|now apply memb_true].
      * intros [(Hg & s & Hs & Hm)|(s & -> & Hs & Hn)].
        -- right. split; [exact Hg|]. exists s. split; [exact Hs|now apply memb_true].
        -- left. exists s. split; [reflexivity|]. apply filter_In. split; [exact Hs|].
           destruct (memb s (concat C)) eqn:K; [apply memb_true in K; contradiction|reflexivity].
    + assert (EC : concat C = [] /\ forall g s, In g C -> In s g -> False).
      { destruct C3 as [->|C3]; [split; [reflexivity|]; intros g0 s [<-|[]] []|].
        destruct C as [|[|x c] C']; [split; [reflexivity|intros g0 s []]|exfalso; apply C3; now left|discriminate E]. }
      rewrite (proj1 EC), in_map_iff. split.
      * intros (i & <- & Hi). right. exists i. split; [reflexivity|]. split; [exact Hi|intros []].
      * intros [(Hg & s & Hs & _)|(s & -> & Hs & _)]; [destruct (proj2 EC g s Hg Hs)|]. exists s. split; [reflexivity|exact Hs].
Qed.
End Object.

(** Concrete trees, rows and laws for the examples beside C115 to C120.  Nothing here mirrors code. *)
From Verif Require Import Base TreeModel TreeSpec TreeProofs RulesModel PartModel PartSpec PartProofs MvnModel McModel CteModel CteSpec
  CteProofs CteProofs2 CteProofs3 CteProofs4 PropertiesPart.
Local Open Scope nat_scope.


(** a tree that saw these rows and no other: the weight of a node is the number of rows that visit it *)
Definition seen (t : tree) (rows : list pt) : nat -> Q := fun i => Qn (length (filter (fun z => visitsb t z no_missing i) rows)).
Lemma seen_counts t d rows : wf_tree t d = true -> counts t (seen t rows) rows.
Proof.
  intros Hwf i Hi b Hb. unfold seen. rewrite (filter_ext_in' (fun z => visitsb t z no_missing i) b); [reflexivity|].
  intros z Hz. apply eq_true_iff_eq. rewrite (visitsb_spec t d Hwf). symmetry. apply (Hb z Hz).
Qed.
Ltac node := vm_compute; first [split; intro; reflexivity|split; intro; discriminate|split; [reflexivity|intro; first [discriminate|reflexivity]]].
Ltac nodes := intros i Hi; vm_compute in Hi; repeat (first [exfalso; lia|destruct i as [|i]; [node|]]).
(** [stump 0 2] and [uneven] with other values *)
Definition one : tree := stump 0 2.
Definition flat : tree :=
  mkTree [1; 3; 5; -1; -1; -1; -1]%Z [2; 4; 6; -1; -1; -1; -1]%Z [1; 3; 5; -1; -1; -1; -1]%Z
         [0; 1; 1; -2; -2; -2; -2]%Z [0; 0; 5; 0; 0; 0; 0]%Q [0; 0; 0; 1; 1; 1; 1]%Q.
Definition two_rows : list pt := [pp (-1) (-1); pp 1 1].
(** one row for each leaf of [uneven] and two more *)
Definition all_rows : list pt := un_rows ++ [pp 1 6].
Lemma one_sk : sk_tree one. Proof. nodes. Qed.
Lemma deep_sk : sk_tree deep. Proof. nodes. Qed.
Lemma uneven_sk : sk_tree uneven. Proof. nodes. Qed.
Lemma flat_sk : sk_tree flat. Proof. nodes. Qed.
Lemma one_fitted : fitted one (seen one two_rows). Proof. nodes. Qed.
Lemma deep_fitted : fitted deep (seen deep ex_rows). Proof. nodes. Qed.
Lemma uneven_fitted : fitted uneven (seen uneven all_rows). Proof. nodes. Qed.
Lemma flat_fitted : fitted flat (seen flat all_rows). Proof. nodes. Qed.
Ltac met := match goal with |- met_between ?t ?x ?S _ _ _ =>
  let ls := fresh "ls" in let E := fresh "E" in let H := fresh "H" in let l := fresh "l" in let M := fresh "M" in let L := fresh "L" in
  destruct (leaves_statement t 2 x S eq_refl) as [ls [E [_ [H _]]]]; vm_compute in E; injection E as <-;
  intros l M L; pose proof (proj2 (H l) (conj M L)) as K; vm_compute in K; clear - K;
  repeat (destruct K as [<-|K]; [vm_compute; split; discriminate|]); contradiction end.
Ltac off := let z := fresh "z" in let Hz := fresh "Hz" in let i := fresh "i" in let Hi := fresh "Hi" in let Hl := fresh "Hl" in
  intros z Hz i Hi Hl; vm_compute in Hi; cbn in Hz;
  repeat (destruct Hz as [<-|Hz]; [repeat (first [exfalso; lia|destruct i as [|i]; [vm_compute in *; congruence|]])|]); contradiction.
Ltac mean := match goal with |- mean_pred ?t _ _ => apply (mean_over_val t 2 eq_refl) | |- mean_over ?t _ _ _ => apply (mean_over_val t 2 eq_refl) end; [discriminate|vm_compute; reflexivity].
(** tests for the rows that agree with [x] on [S], and for those that fall in a leaf that can be met *)
Definition agreeb (S : list nat) (x z : pt) : bool := forallb (fun s => qeqb (x s) (z s)) S.
Lemma agreeb_ok S x data : agreeing S x data (agreeb S x).
Proof.
  intros z _. unfold decided, agreeb, same_on. rewrite forallb_forall. split; intros H s Hs; specialize (H s Hs).
  - destruct (qeqb_spec (x s) (z s)); [assumption|discriminate].
  - destruct (qeqb_spec (x s) (z s)); [reflexivity|contradiction].
Qed.
Definition fallb (t : tree) (S : list nat) (x z : pt) : bool :=
  match compatible t x S, predict_leaf t z no_missing with Some ls, Some l => memb l (map fst ls) | _, _ => false end.
Lemma fallb_ok t d S x data : wf_tree t d = true -> falling t S x data (fallb t S x).
Proof.
  intros Hwf z _. unfold decided, fallb. destruct (leaves_statement t d x S Hwf) as [ls [-> [_ [H _]]]].
  destruct (val_spec t d Hwf z) as [m [V [L _]]]. rewrite (proj1 (visited_leaf_predicted t d Hwf z no_missing m V) L), memb_true. split.
  - intro K. exists m. apply H in K. tauto.
  - intros [l [M [L' V']]]. apply H. split; [|exact L]. assert (E : l = m); [|now subst].
    pose proof (proj1 (visited_leaf_predicted t d Hwf z no_missing l V') L') as E1.
    rewrite (proj1 (visited_leaf_predicted t d Hwf z no_missing m V) L) in E1. congruence.
Qed.
Lemma blind_check t d w S rows : wf_tree t d = true ->
  (forall i, i < nn t -> leaf_node t i = false -> ~ In (ftn t i) S -> (seen t rows (Z.to_nat (clz t i)) * w i == seen t rows i * w (Z.to_nat (clz t i)))%Q) ->
  blind t w S rows.
Proof.
  intros Hwf H i Hi L Hn b c Hb Hc. specialize (H i Hi L Hn). unfold seen in H.
  rewrite (filter_ext_in' b (fun z => visitsb t z no_missing i)), (filter_ext_in' c (fun z => visitsb t z no_missing (Z.to_nat (clz t i)))); [exact H| |];
    intros z Hz; apply eq_true_iff_eq; rewrite (visitsb_spec t d Hwf); [apply (Hc z Hz)|apply (Hb z Hz)].
Qed.
(** the law that draws one of some rows, and the probabilities of its boxes *)
Definition draw (rows : list pt) (f : pt -> Q) : Q := (sumf f rows / Qn (length rows))%Q.
Definition boxb (O : list nat) (lo hi : list ext) (z : pt) : bool :=
  forallb (fun k => ext_ltb_q (nth k lo NInf) (z (nth k O 0)) && q_leb_ext (z (nth k O 0)) (nth k hi PInf)) (seq 0 (length O)).
Definition draw_prob (rows : list pt) (O S : list nat) (vs : list Q) (lo hi : list ext) : option Q :=
  Some (Qn (length (filter (boxb O lo hi) rows)) / Qn (length rows))%Q.
Lemma draw_law rows : rows <> [] -> mean_law (draw rows).
Proof.
  intro Hn. assert (L : (0 < Qn (length rows))%Q) by (destruct rows; [contradiction|apply Qn_pos; cbn; lia]).
  unfold draw. split; [|split; [|split; [|split]]].
  - intros f g H. rewrite (sumf_ext f g) by (intros; apply H). reflexivity.
  - intros f g. rewrite sumf_plus. field. lra.
  - intros c f. rewrite sumf_scal. field. lra.
  - intros f g H. apply Qmult_le_compat_r; [apply sumf_le; intros; apply H|apply Qlt_le_weak, Qinv_lt_0_compat, L].
  - rewrite sumf_const. field. lra.
Qed.
Lemma boxb_ok O lo hi z : boxb O lo hi z = true <-> in_box O lo hi z.
Proof.
  unfold boxb, in_box. rewrite forallb_forall. split.
  - intros H k Hk. assert (K : In k (seq 0 (length O))) by (apply in_seq; lia). apply H, andb_prop in K.
    destruct K as [K1 K2]. split.
    + destruct (nth k lo NInf) as [|a|]; cbn in *; [exact I|now apply qltb_true|discriminate].
    + destruct (nth k hi PInf) as [|a|]; cbn in *; [discriminate|now apply qleb_true|exact I].
  - intros H k Hk. apply in_seq in Hk. destruct (H k) as [K1 K2]; [lia|]. apply andb_true_intro. split.
    + destruct (nth k lo NInf) as [|a|]; cbn in *; [reflexivity|now apply qltb_true|contradiction].
    + destruct (nth k hi PInf) as [|a|]; cbn in *; [contradiction|now apply qleb_true|reflexivity].
Qed.
Lemma draw_boxes rows O S x : gives_boxes (draw_prob rows) O S x (draw rows).
Proof.
  intros lo hi b _ _ Hb. eexists. split; [reflexivity|]. unfold draw. rewrite (RulesModelProofs.sumf_Qb b rows).
  rewrite (filter_ext_in' b (boxb O lo hi)); [reflexivity|]. intros z _. apply eq_true_iff_eq. rewrite boxb_ok. apply Hb.
Qed.

(** C139: trees loaded from the text dumps of XGBoost. *)
From Verif Require Import Base TreeModel LoadModel LoadSpec LoadProofs TxtModel TxtSpec TxtProofs.
From Coq Require Import Ascii String.
Import List ListNotations.
Local Open Scope nat_scope.

(** for the examples: natural numbers are printed, and read, in decimal *)
Definition tx_show (q : Q) : text := spelled (Z.to_nat (Qnum q)).
Definition tx_float (s : text) : option Q := option_map Qn (int_of s).
Definition tx_gain (i : nat) : text := lit "1.5e-3".
Definition ex_txt : xjs :=
  XNode 0 1 2 1 2 1 10 (XLeaf 1 7 4) (XNode 2 12 3 3 4 4 6 (XLeaf 3 5 1) (XLeaf 4 9 5)).
Lemma tx_gain_plain i : plain (tx_gain i).
Proof. intros c Hc. cbn in Hc. cbn. decompose [or] Hc; subst; tauto. Qed.
Lemma tx_readable n : readable tx_float tx_show (Qn n).
Proof. split; [apply spelled_plain|]. unfold tx_float, tx_show. cbn [Qn inject_Z Qnum]. rewrite Nat2Z.id, int_spelled. reflexivity. Qed.
Lemma tx_all q : In q (numbers ex_txt) -> readable tx_float tx_show q.
Proof. intro H. cbn in H. decompose [or] H; subst; try contradiction; [exact (tx_readable 2)|exact (tx_readable 10)|exact (tx_readable 7)|exact (tx_readable 4)|exact (tx_readable 3)|exact (tx_readable 6)|exact (tx_readable 5)|exact (tx_readable 1)|exact (tx_readable 9)|exact (tx_readable 5)]. Qed.
Lemma tx_ok : xjs_ok ex_txt.
Proof. split; [cbn; repeat constructor; cbn; intuition lia|]. split; [reflexivity|]. cbn. intuition. Qed.
Definition at_point (f : nat -> nat) : pt := fun c => Qn (f c).

(** The dump of a tree with distinct numbers is read, and the loaded tree sends an observation to [yes] when it is at most the
    condition, to [no] when it is larger, to [missing] when it is missing. *)
Theorem C139_computes float_of show gain scaling v : (forall i, plain (gain i)) -> (forall q, In q (numbers v) -> readable float_of show q) -> xjs_ok v ->
  exists t w, load_txt float_of scaling (dumped show index_name gain true v) = Some (t, w) /\
  forall x miss, exists q, predict_value t x miss = Some q /\ (q == xjs_follow qleb v x miss * scaling)%Q.
Proof. intros Hg Hq Hok. destruct (txt_ok float_of show gain scaling v Hg Hq Hok) as (t & w & E & A & _). now exists t, w. Qed.
Print Assumptions C139_computes.
Example C139_computes_example : (forall q, In q (numbers ex_txt) -> readable tx_float tx_show q) /\ xjs_ok ex_txt /\
  string_of_list_ascii (nth 2 (dump tx_show index_name tx_gain true 0 ex_txt) []) =
    String "009" "2:[f12<3] yes=3,no=4,missing=4,gain=1.5e-3,cover=6"%string /\
  string_of_list_ascii (nth 4 (dump tx_show index_name tx_gain true 0 ex_txt) []) = String "009" (String "009" "4:leaf=9,cover=5"%string) /\
  match load_txt tx_float 2 (dumped tx_show index_name tx_gain true ex_txt) with
  | Some (t, w) => map (fun x => option_map Qred (predict_value t (at_point x) (fun _ => false))) [fun _ => 1; fun _ => 3; fun _ => 4] = [Some 14; Some 10; Some 18]%Q /\
      map w (seq 0 5) = [10; 4; 6; 1; 5]%Q /\ ft t = [1; -2; 12; -2; -2]%Z
  | None => False end.
Proof. split; [exact tx_all|]. split; [exact tx_ok|]. vm_compute. repeat split. Qed.

(** The predictions of XGBoost, which tests strict inequality.  Partial: no value falls on a condition. *)
Theorem C139_predicts_partial float_of show gain scaling v x miss :
  (forall i, plain (gain i)) -> (forall q, In q (numbers v) -> readable float_of show q) -> xjs_ok v -> xjs_off v x ->
  exists t w q, load_txt float_of scaling (dumped show index_name gain true v) = Some (t, w) /\
    predict_value t x miss = Some q /\ (q == xjs_follow qltb v x miss * scaling)%Q.
Proof.
  intros Hg Hq Hok Ho. destruct (txt_ok float_of show gain scaling v Hg Hq Hok) as (t & w & E & A & _). destruct (A x miss) as (q & A1 & A2).
  exists t, w, q. rewrite (xjs_off_follow v x miss Ho). auto.
Qed.
Print Assumptions C139_predicts_partial.
Example C139_predicts_example : xjs_off ex_txt (at_point (fun _ => 4)) /\ xjs_follow qltb ex_txt (at_point (fun _ => 4)) (fun _ => false) = 9%Q /\
  ~ xjs_off ex_txt (at_point (fun _ => 2)).
Proof. split; [vm_compute; intuition discriminate|]. split; [reflexivity|]. vm_compute. intuition. Qed.

(** The tree loaded from the text predicts as the one loaded from the JSON dump. *)
Theorem C139_agrees_with_json float_of show gain scaling v junk x miss :
  (forall i, plain (gain i)) -> (forall q, In q (numbers v) -> readable float_of show q) -> xjs_ok v ->
  exists t w q q', load_txt float_of scaling (dumped show index_name gain true v) = Some (t, w) /\
    predict_value t x miss = Some q /\ predict_value (fst (load_xjs junk scaling v)) x miss = Some q' /\ (q == q')%Q.
Proof.
  intros Hg Hq Hok. destruct (txt_ok float_of show gain scaling v Hg Hq Hok) as (t & w & E & A & _). destruct (A x miss) as (q & A1 & A2).
  destruct (xjs_computes junk scaling v x miss Hok) as (q' & B1 & B2). exists t, w, q, q'. split; [exact E|]. split; [exact A1|]. split; [exact B1|]. rewrite A2, B2. reflexivity.
Qed.
Print Assumptions C139_agrees_with_json.
Example C139_agrees_example : option_map Qred (predict_value (fst (load_xjs (fun _ => 0%Q) 2 ex_txt)) (at_point (fun _ => 3)) (fun _ => false)) = Some 10%Q.
Proof. reflexivity. Qed.

(** The weights are the covers. *)
Theorem C139_weights float_of show gain scaling v u : (forall i, plain (gain i)) -> (forall q, In q (numbers v) -> readable float_of show q) -> xjs_ok v ->
  In u (xjs_sub v) -> exists t w, load_txt float_of scaling (dumped show index_name gain true v) = Some (t, w) /\ w (xjs_id u) = covered_by u.
Proof. intros Hg Hq Hok Hu. destruct (txt_ok float_of show gain scaling v Hg Hq Hok) as (t & w & E & _ & B & _). exists t, w. auto. Qed.
Print Assumptions C139_weights.
Example C139_weights_example : In (XLeaf 3 5 1) (xjs_sub ex_txt) /\ covered_by (XLeaf 3 5 1) = 1%Q.
Proof. split; [cbn; tauto|reflexivity]. Qed.

(** Nodes numbered without holes, each after the one above it: a tree the explainer accepts. *)
Theorem C139_well_formed float_of show gain scaling v d : (forall i, plain (gain i)) -> (forall q, In q (numbers v) -> readable float_of show q) -> xjs_ok v ->
  Permutation (map xjs_id (xjs_sub v)) (seq 0 (List.length (xjs_sub v))) -> xjs_ordered v -> xjs_features d v ->
  exists t w, load_txt float_of scaling (dumped show index_name gain true v) = Some (t, w) /\ nn t = List.length (xjs_sub v) /\ wf_tree t d = true.
Proof. intros Hg Hq Hok HP Ho Hf. destruct (txt_ok float_of show gain scaling v Hg Hq Hok) as (t & w & E & _ & _ & D). exists t, w. destruct (D HP Ho d Hf). auto. Qed.
Print Assumptions C139_well_formed.
Example C139_well_formed_example : map xjs_id (xjs_sub ex_txt) = seq 0 5 /\ xjs_ordered ex_txt /\ xjs_features 13 ex_txt.
Proof. split; [reflexivity|]. split; vm_compute; intuition lia. Qed.

(** A dump made without the statistics is refused. *)
Theorem C139_no_statistics float_of show gain scaling v : (forall i, plain (gain i)) -> (forall q, In q (numbers v) -> plain (show q)) ->
  NoDup (map xjs_id (xjs_sub v)) -> load_txt float_of scaling (dumped show index_name gain false v) = None.
Proof. exact (no_cover float_of show gain scaling v). Qed.
Print Assumptions C139_no_statistics.
Example C139_no_statistics_example : string_of_list_ascii (nth 1 (dump tx_show index_name tx_gain false 0 ex_txt) []) = String "009" "1:leaf=7"%string.
Proof. reflexivity. Qed.

(** *** Where the full statement fails *)
(** An observation equal to the condition of a split gets the value of the other side. *)
Theorem C139_predicts_refuted : exists float_of show gain v x t w q,
  (forall i, plain (gain i)) /\ (forall q, In q (numbers v) -> readable float_of show q) /\ xjs_ok v /\
  load_txt float_of 1 (dumped show index_name gain true v) = Some (t, w) /\ predict_value t x (fun _ => false) = Some q /\
  ~ (q == xjs_follow qltb v x (fun _ => false))%Q.
Proof.
  pose proof (C139_computes tx_float tx_show tx_gain 1 ex_txt tx_gain_plain tx_all tx_ok) as (t & w & E & H). destruct (H (at_point (fun _ => 2)) (fun _ => false)) as (q & A & B).
  exists tx_float, tx_show, tx_gain, ex_txt, (at_point (fun _ => 2)), t, w, q.
  split; [exact tx_gain_plain|]. split; [exact tx_all|]. split; [exact tx_ok|]. split; [exact E|]. split; [exact A|]. rewrite B. vm_compute. discriminate.
Qed.
Print Assumptions C139_predicts_refuted.
(** Names for the columns: with the columns 0 and 1 named x1 and x0 the dump is read, but as splits on the other columns. *)
Definition tx_two : xjs := XNode 0 0 2 1 2 1 10 (XLeaf 1 7 4) (XLeaf 2 5 6).
Lemma tx_two_all q : In q (numbers tx_two) -> readable tx_float tx_show q.
Proof. intro H. cbn in H. decompose [or] H; subst; try contradiction; [exact (tx_readable 2)|exact (tx_readable 10)|exact (tx_readable 7)|exact (tx_readable 4)|exact (tx_readable 5)|exact (tx_readable 6)]. Qed.
Theorem C139_names_refuted : exists float_of show gain name v x t w q,
  (forall i, plain (gain i)) /\ (forall q, In q (numbers v) -> readable float_of show q) /\ xjs_ok v /\ xjs_off v x /\ name 0 <> name 1 /\
  load_txt float_of 1 (dumped show name gain true v) = Some (t, w) /\ predict_value t x (fun _ => false) = Some q /\
  ~ (q == xjs_follow qltb v x (fun _ => false))%Q.
Proof.
  exists tx_float, tx_show, tx_gain, (fun s => if s =? 0 then lit "x1" else lit "x0"), tx_two, (at_point (fun c => if c =? 0 then 1 else 3)). do 2 eexists. exists 5%Q.
  split; [exact tx_gain_plain|]. split; [exact tx_two_all|].
  split; [split; [cbn; repeat constructor; cbn; intuition lia|split; [reflexivity|cbn; intuition]]|]. split; [vm_compute; intuition discriminate|].
  split; [discriminate|]. split; [reflexivity|]. split; [vm_compute; reflexivity|]. vm_compute. discriminate.
Qed.
Print Assumptions C139_names_refuted.
(** A name that contains the word leaf: the dump is refused. *)
Theorem C139_leaf_refuted : exists float_of show gain name v,
  (forall i, plain (gain i)) /\ (forall q, In q (numbers v) -> readable float_of show q) /\ xjs_ok v /\
  load_txt float_of 1 (dumped show name gain true v) = None.
Proof.
  exists tx_float, tx_show, tx_gain, (fun s => if s =? 0 then lit "fleaf" else lit "f1"), tx_two.
  split; [exact tx_gain_plain|]. split; [exact tx_two_all|].
  split; [split; [cbn; repeat constructor; cbn; intuition lia|split; [reflexivity|cbn; intuition]]|]. vm_compute. reflexivity.
Qed.
Print Assumptions C139_leaf_refuted.

(** Property theorems C101: the value table of binary boosted classifiers.  Each is proved
    by a lemma of BoostProofs.v. *)
From Coq Require Import List Arith Reals Lia Lra.
From Verif Require Import BoostModel BoostSpec BoostProofs.
Import ListNotations.

(** C101: the entries of a node are positive, share one tree's weight, and their log-odds
    is the raw value of the node *)
Theorem C101_entries : forall ts r b n p0 p1, takes_binary true 1 r = true -> b < length ts -> n < length (nth b ts []) ->
  looks_up ts r b n 0 = Some p0 -> looks_up ts r b n 1 = Some p1 ->
  (0 < p0 /\ 0 < p1 /\ p0 + p1 = / INR (length ts) /\ ln (p1 / p0) = nth n (nth b ts []) 0)%R.
Proof. exact odds. Qed.
Print Assumptions C101_entries.
Theorem C101_padding : forall ts b n c, b < length ts -> length (nth b ts []) <= n -> n < max_nodes ts -> c < 2 ->
  read (max_nodes ts) 2 (values_binary ts) b n c = Some 0%R.
Proof. exact binary_padding. Qed.
Print Assumptions C101_padding.
(** one node per tree gives a probability distribution over the two classes *)
Theorem C101_distribution : forall ts r ls, takes_binary true 1 r = true -> one_per_tree ts ls -> ts <> [] ->
  exists p, total_lookup (looks_up ts r) 1 (seq 0 (length ts)) (fun b => nth b ls 0) = Some p /\
    total_lookup (looks_up ts r) 0 (seq 0 (length ts)) (fun b => nth b ls 0) = Some (1 - p)%R /\ (0 < p < 1)%R.
Proof. exact distribution. Qed.
Print Assumptions C101_distribution.
(** full statement: the table prefers class 1 exactly when the model says class 1.  It
    holds for at most two trees without offset, and when offset and leaves have one sign *)
Theorem C101_decision_partial : forall ts r ls offset s0 s1, takes_binary true 1 r = true -> one_per_tree ts ls -> ts <> [] ->
  (offset = 0%R /\ length ts <= 2) \/
  (0 <= offset /\ forall v, In v (reached ts ls) -> 0 < v)%R \/
  (offset <= 0 /\ forall v, In v (reached ts ls) -> v <= 0)%R ->
  total_lookup (looks_up ts r) 0 (seq 0 (length ts)) (fun b => nth b ls 0) = Some s0 ->
  total_lookup (looks_up ts r) 1 (seq 0 (length ts)) (fun b => nth b ls 0) = Some s1 ->
  ((s0 < s1)%R <-> model_says_1 offset (reached ts ls)).
Proof. exact agrees. Qed.
Print Assumptions C101_decision_partial.
(** with three trees or more one confident tree is outvoted: for every such number of trees
    there is a forest on which the table prefers the class the model rejects *)
Theorem C101_outvoted : forall T r s0 s1, 3 <= T -> takes_binary true 1 r = true ->
  total_lookup (looks_up (outvoted T) r) 0 (seq 0 T) (fun b => nth b (repeat 0 T) 0) = Some s0 ->
  total_lookup (looks_up (outvoted T) r) 1 (seq 0 T) (fun b => nth b (repeat 0 T) 0) = Some s1 ->
  (s1 < s0)%R /\ model_says_1 0 (reached (outvoted T) (repeat 0 T)).
Proof. exact outvoted_wrong. Qed.
Print Assumptions C101_outvoted.
Theorem C101_decision_refuted : exists ts ls s0 s1, one_per_tree ts ls /\
  total_lookup (looks_up ts Greedy) 0 (seq 0 (length ts)) (fun b => nth b ls 0) = Some s0 /\
  total_lookup (looks_up ts Greedy) 1 (seq 0 (length ts)) (fun b => nth b ls 0) = Some s1 /\
  (s1 < s0)%R /\ model_says_1 0 (reached ts ls).
Proof.
  destruct (distribution (outvoted 3) Greedy (repeat 0 3) eq_refl (outvoted_ok 3 (le_S _ _ (le_S _ _ (le_n 1)))) ltac:(discriminate))
    as (p & H1 & H0 & _).
  exists (outvoted 3), (repeat 0 3), (1 - p)%R, p. split; [apply outvoted_ok; lia|]. split; [exact H0|]. split; [exact H1|].
  exact (outvoted_wrong 3 Greedy (1 - p)%R p (le_n 3) eq_refl H0 H1).
Qed.
Print Assumptions C101_decision_refuted.
(** the offset of the model is left out of the table: one tree is enough *)
Theorem C101_offset_refuted : exists offset ts ls s0 s1, one_per_tree ts ls /\ length ts = 1 /\
  total_lookup (looks_up ts Greedy) 0 (seq 0 (length ts)) (fun b => nth b ls 0) = Some s0 /\
  total_lookup (looks_up ts Greedy) 1 (seq 0 (length ts)) (fun b => nth b ls 0) = Some s1 /\
  ~ (s0 < s1)%R /\ model_says_1 offset (reached ts ls).
Proof.
  assert (Hl : one_per_tree [[(-1)%R]] [0]) by (split; [reflexivity|intros [|b] Hb; cbn in *; lia]).
  destruct (distribution [[(-1)%R]] Greedy [0] eq_refl Hl ltac:(discriminate)) as (p & H1 & H0 & _).
  exists 3%R, [[(-1)%R]], [0], (1 - p)%R, p. split; [exact Hl|]. split; [reflexivity|]. split; [exact H0|]. split; [exact H1|].
  split; [|unfold model_says_1; cbn; lra].
  rewrite (agrees [[(-1)%R]] Greedy [0] 0 (1 - p) p eq_refl Hl ltac:(discriminate) (or_introl (conj eq_refl (le_S _ _ (le_n 1)))) H0 H1).
  unfold model_says_1. cbn. lra.
Qed.
Print Assumptions C101_offset_refuted.

(** every column that is read exists: full statement for all routines; it holds for the
    five that know the boosted classes *)
Theorem C101_columns_partial : forall outputs classes boosted r c,
  outputs = classes \/ (boosted = true /\ outputs = 1 /\ classes = 2) ->
  In r [Greedy; SearchSpace; SdpClf; SdpClfCat; Ptrees] -> c < classes -> c < width boosted outputs r.
Proof. exact columns. Qed.
Print Assumptions C101_columns_partial.
Theorem C101_columns_refuted : forall r, In r [GreedyNopa; SdpClfNopa; SdpClfCatNopa; Swing; SwingNopa; SwingSlow] ->
  exists c, c < 2 /\ ~ c < width true 1 r.
Proof. intros r H. exists 1. cbn in H. destruct H as [<-|[<-|[<-|[<-|[<-|[<-|[]]]]]]]; cbn; lia. Qed.
Print Assumptions C101_columns_refuted.
(** what those routines read instead.  Class 0: the raw value, the log-odds of class 1 *)
Theorem C101_raw_class_0 : forall ts r b n, takes_binary true 1 r = false -> b < length ts -> n < length (nth b ts []) ->
  looks_up ts r b n 0 = Some (nth n (nth b ts []) 0%R).
Proof. exact raw_class_0. Qed.
Print Assumptions C101_raw_class_0.
(** class 1: the raw value of the next node of the tree (zero in the padding) *)
Theorem C101_raw_class_1 : forall ts r b n, takes_binary true 1 r = false -> b < length ts -> S n < max_nodes ts ->
  looks_up ts r b n 1 = Some (nth (S n) (nth b ts []) 0%R).
Proof. exact raw_class_1. Qed.
Print Assumptions C101_raw_class_1.
(** for the last node of the row, the root of the next tree *)
Theorem C101_raw_class_1_next : forall ts r b n, takes_binary true 1 r = false -> S b < length ts -> S n = max_nodes ts ->
  nth (S b) ts [] <> [] -> looks_up ts r b n 1 = Some (nth 0 (nth (S b) ts []) 0%R).
Proof. exact raw_class_1_next. Qed.
Print Assumptions C101_raw_class_1_next.
(** for the last node of the last tree, memory past the array *)
Theorem C101_raw_class_1_end : forall ts r b n, takes_binary true 1 r = false -> S b = length ts -> S n = max_nodes ts ->
  looks_up ts r b n 1 = None.
Proof. exact raw_class_1_end. Qed.
Print Assumptions C101_raw_class_1_end.

Example C101_example :
  let ts := [[1%R; (-2)%R; 3%R]; [5%R]] in
  one_per_tree ts [1; 0] /\ reached ts [1; 0] = [(-2)%R; 5%R] /\ max_nodes ts = 3 /\
  values_raw ts = [1%R; (-2)%R; 3%R; 5%R; 0%R; 0%R] /\ length (values_binary ts) = 12 /\
  takes_binary true 1 Greedy = true /\ takes_binary true 1 Swing = false /\ takes_binary false 1 Greedy = false /\
  takes_binary true 3 SdpClf = false /\
  looks_up ts Swing 0 0 1 = Some (-2)%R /\ looks_up ts Swing 0 2 1 = Some 5%R /\ looks_up ts SwingSlow 1 2 1 = None /\
  (exists s0 s1, total_lookup (looks_up ts SdpClf) 0 (seq 0 2) (fun b => nth b [1; 0] 0) = Some s0 /\
    total_lookup (looks_up ts SdpClf) 1 (seq 0 2) (fun b => nth b [1; 0] 0) = Some s1 /\ (s0 < s1)%R /\ (s0 + s1 = 1)%R) /\
  (looks_up ts SdpClf 0 1 1 = Some (logistic (-2) / 2)%R) /\ (logistic 0 = 1 / 2)%R.
Proof.
  intros ts. assert (Hl : one_per_tree ts [1; 0]).
  { split; [reflexivity|]. intros [|[|b]] Hb; cbn in *; lia. }
  repeat (split; [first [exact Hl | reflexivity]|]).
  split; [|split; [cbn; unfold binary_row; cbn; do 2 f_equal; ring|exact logistic_0]].
  destruct (distribution ts SdpClf [1; 0] eq_refl Hl ltac:(discriminate)) as (p & H1 & H0 & _).
  exists (1 - p)%R, p. split; [exact H0|]. split; [exact H1|]. split; [|ring].
  apply (agrees ts SdpClf [1; 0] 0 (1 - p) p eq_refl Hl ltac:(discriminate) (or_introl (conj eq_refl (le_n 2))) H0 H1).
  unfold model_says_1. cbn. lra.
Qed.

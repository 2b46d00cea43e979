(** C121, C122: the compiled conditional expectations and classifier same-decision
    probabilities as array programs. *)
From Verif Require Import Base TreeModel TreeSpec GameSpec ShapModel ShapSpec ShapProofs NopaModel AcvModel
  SdpModel SdpSpec SdpProofs PropertiesTree PropertiesShap ArrModel ArrSpec ArrProofs ArrProofs2 ArrProofs3 ArrProofs4.
Local Open Scope nat_scope.

(** tables of a forest, one output column per factor in [fac] *)
Definition tabs_of (forest : list (list leaf)) (max : nat) (fac : list Q) : tabs :=
  let at_ b k := nth k (nth b forest []) (mkLeaf (fun _ => (NInf, PInf)) [] 0) in
  mkTabs (length forest) max (length fac) max (fun b k => l_rect (at_ b k)) (fun _ k => k)
         (fun b => length (nth b forest [])) (fun b k j => nth j fac 0 * l_val (at_ b k))%Q.
Definition vars_of (forest : list (list leaf)) (b k : nat) : list nat :=
  l_vars (nth k (nth b forest []) (mkLeaf (fun _ => (NInf, PInf)) [] 0)).
Definition ex_tabs : tabs := tabs_of ex_forest 4 [1; -1]%Q.
Definition ex_X : list pt := [row 2 4 2; row 2 3 7; row 0 0 0]%Q.
(** rows first, leaves from the last *)
Definition ex_sched (b : nat) : list (nat * nat) :=
  map (fun p => (snd p, fst p)) (list_prod [2; 0; 1] (rev (seq 0 (t_nb ex_tabs b)))).
Lemma ex_tabs_ok : tabs_ok ex_tabs.
Proof.
  intros b Hb. change (t_trees ex_tabs) with 2 in Hb.
  destruct b as [|[|b]]; [| |lia]; vm_compute; (split; [lia|intros; lia]).
Qed.
Lemma ex_sched_any : any_order ex_tabs (length ex_X) ex_sched.
Proof.
  intros b Hb. change (t_trees ex_tabs) with 2 in Hb.
  apply NoDup_Permutation.
  - destruct b as [|[|b]]; [| |lia]; vm_compute; repeat constructor; cbn; intuition congruence.
  - apply nodup_prod; apply seq_NoDup.
  - intros [k i]. destruct b as [|[|b]]; [| |lia]; vm_compute; intuition congruence.
Qed.
Lemma ex_cols : forall s, In s [0; 2] -> s < 3.
Proof. intros s [<-|[<-|[]]]; lia. Qed.
Definition at2 {V} (o : option (nat -> nat -> V)) (i j : nat) : option V := option_map (fun r => r i j) o.

(** ** C121: expectations *)

(** Every entry is the sum, over the leaves the observation meets, of the value times the share of
    the background rows; no access outside the arrays; whatever the order of the threads. *)
Theorem C121_expectation : forall T m X data Sv sched vars, tabs_ok T -> any_order T (length X) sched ->
  (forall s, In s Sv -> s < m) ->
  exists res, exp_prog T m X data Sv sched = Some res /\
  forall i x j, nth_error X i = Some x -> j < t_out T ->
    (res i j == plain_sum m data Sv x (forest_at T vars j))%Q.
Proof. exact exp_prog_plain. Qed.
Print Assumptions C121_expectation.
Example C121_expectation_example : tabs_ok ex_tabs /\ any_order ex_tabs (length ex_X) ex_sched /\
  (forall s, In s [0; 2] -> s < 3) /\
  option_map Qred (at2 (exp_prog ex_tabs 3 ex_X ex_data [0; 2] ex_sched) 0 0) = Some (145 # 3)%Q /\
  option_map Qred (at2 (exp_prog ex_tabs 3 ex_X ex_data [0; 2] (in_order ex_tabs ex_X)) 0 1) = Some (-145 # 3)%Q /\
  Qred (plain_sum 3 ex_data [0; 2] (row 2 4 2) (forest_at ex_tabs (vars_of ex_forest) 0)) = (145 # 3)%Q.
Proof. split; [exact ex_tabs_ok|]. split; [exact ex_sched_any|]. split; [exact ex_cols|]. vm_compute. auto. Qed.

(** It is the one-row one-column model of C15. *)
Theorem C121_expectation_refines : forall T m X data Sv sched vars, tabs_ok T -> any_order T (length X) sched ->
  (forall s, In s Sv -> s < m) ->
  exists res, exp_prog T m X data Sv sched = Some res /\
  forall i x j, nth_error X i = Some x -> j < t_out T ->
    (res i j == compute_exp m data Sv (forest_at T vars j) x)%Q.
Proof. exact exp_prog_ok. Qed.
Print Assumptions C121_expectation_refines.
Example C121_expectation_refines_example :
  Qred (compute_exp 3 ex_data [0; 2] (forest_at ex_tabs (vars_of ex_forest) 0) (row 2 3 7)) = (265 # 3)%Q /\
  option_map Qred (at2 (exp_prog ex_tabs 3 ex_X ex_data [0; 2] ex_sched) 1 0) = Some (265 # 3)%Q.
Proof. vm_compute. auto. Qed.

(** The order of the threads, the other rows of the batch, the order and the repetitions of the
    columns do not count. *)
Theorem C121_expectation_order : forall T m X X' data Sv Sv' sched sched', tabs_ok T ->
  any_order T (length X) sched -> any_order T (length X') sched' ->
  (forall s, In s Sv -> s < m) -> same_cols Sv Sv' ->
  exists res res', exp_prog T m X data Sv sched = Some res /\ exp_prog T m X' data Sv' sched' = Some res' /\
  forall i i' x j, nth_error X i = Some x -> nth_error X' i' = Some x -> j < t_out T -> (res i j == res' i' j)%Q.
Proof. exact exp_two. Qed.
Print Assumptions C121_expectation_order.
Example C121_expectation_order_example : same_cols [0; 2] [2; 0; 2] /\
  any_order ex_tabs 1 (in_order ex_tabs [row 2 3 7]%Q) /\
  option_map Qred (at2 (exp_prog ex_tabs 3 [row 2 3 7]%Q ex_data [2; 0; 2] (in_order ex_tabs [row 2 3 7]%Q)) 0 0) = Some (265 # 3)%Q.
Proof.
  split; [intro s; cbn; tauto|]. split; [apply (in_order_any ex_tabs [row 2 3 7]%Q)|]. vm_compute. reflexivity.
Qed.

(** ** C121: categorical version *)
Theorem C121_categorical_refines : forall T m X data Sv sched vars, tabs_ok T -> any_order T (length X) sched ->
  (forall s, In s Sv -> s < m) ->
  exists res, exp_cat_prog T m X data Sv sched = Some res /\
  forall i x j, nth_error X i = Some x -> j < t_out T ->
    (res i j == compute_exp_cat m data Sv (forest_at T vars j) x)%Q.
Proof. exact exp_cat_prog_ok. Qed.
Print Assumptions C121_categorical_refines.
(** Every entry is the mean of the predictions over the rows equal to the observation. *)
Theorem C121_categorical_mean : forall T m X data Sv sched vars ts, tabs_ok T -> any_order T (length X) sched ->
  (forall s, In s Sv -> s < m) -> forallb (fun t => wf_tree t m) ts = true ->
  exists res, exp_cat_prog T m X data Sv sched = Some res /\
  forall i x j off rs, nth_error X i = Some x -> j < t_out T ->
    forest_leaves ts = Some (forest_at T vars j) ->
    Forall2 (fun z r => dense_tree_predict ts (length ts) off z no_missing = Some r)
            (filter (same_on Sv x) data) rs -> rs <> [] ->
    (res i j == sumf (fun r => r) rs / Qn (length rs) - off)%Q.
Proof. exact exp_cat_prog_mean. Qed.
Print Assumptions C121_categorical_mean.
Definition ex_tabs1 : tabs := 
  let T := tabs_of ex_forest 4 [1]%Q in
  mkTabs (t_trees T) (t_nodes T) 1 (t_max T) (t_part T) (t_leaf T) (t_nb T)
         (fun b k _ => l_val (nth k (nth b ex_forest []) (mkLeaf (fun _ => (NInf, PInf)) [] 0))).
Example C121_categorical_example :
  forest_leaves ex_trees = Some (forest_at ex_tabs1 (vars_of ex_forest) 0) /\
  map (fun z => dense_tree_predict ex_trees 2 5 z no_missing) (filter (same_on [0; 2] (row 2 4 2)) ex_data)
    = map Some [45; 65]%Q /\
  option_map Qred (at2 (exp_cat_prog ex_tabs1 3 ex_X ex_data [0; 2] ex_sched) 0 0) = Some 50%Q.
Proof. split; [vm_compute; reflexivity|]. vm_compute. auto. Qed.
Theorem C121_categorical_order : forall T m X X' data Sv Sv' sched sched', tabs_ok T ->
  any_order T (length X) sched -> any_order T (length X') sched' ->
  (forall s, In s Sv -> s < m) -> same_cols Sv Sv' ->
  exists res res', exp_cat_prog T m X data Sv sched = Some res /\ exp_cat_prog T m X' data Sv' sched' = Some res' /\
  forall i i' x j, nth_error X i = Some x -> nth_error X' i' = Some x -> j < t_out T -> (res i j == res' i' j)%Q.
Proof. exact exp_cat_two. Qed.
Print Assumptions C121_categorical_order.
Example C121_categorical_order_example : same_cols [0; 2] [2; 2; 0] /\
  option_map Qred (at2 (exp_cat_prog ex_tabs 3 ex_X ex_data [0; 2] ex_sched) 0 1) = Some (-50)%Q /\
  option_map Qred (at2 (exp_cat_prog ex_tabs 3 [row 2 4 2]%Q ex_data [2; 2; 0] (in_order ex_tabs [row 2 4 2]%Q)) 0 1) = Some (-50)%Q.
Proof. split; [intro s; cbn; tauto|]. vm_compute. auto. Qed.

(** ** C121: normalised version *)
(** Not a number exactly when a leaf met by the observation has no background row at all in it nor on
    the given columns; never infinite; else the sum over the trees of the average of the leaf values
    weighted with the shares, 0 for a tree one leaf of which has no row on the given columns. *)
Theorem C121_normalised : forall T m X data Sv sched vars, tabs_ok T -> any_order T (length X) sched ->
  (forall s, In s Sv -> s < m) ->
  exists res, norm_prog T m X data Sv sched = Some res /\
  forall i x j, nth_error X i = Some x -> j < t_out T ->
    res i j <> Dinf /\
    (res i j = Dnan <-> exists b k, b < t_trees T /\ k < t_nb T b /\ meets (t_part T b k) Sv x /\
        rows_closed data (t_part T b k) (seq 0 m) = 0 /\ rows_half data (t_part T b k) Sv = 0) /\
    (res i j <> Dnan -> is_num (res i j) (sumf (tree_norm m data Sv x) (forest_at T vars j))).
Proof. exact norm_prog_ok. Qed.
Print Assumptions C121_normalised.
Definition dred (d : dbl) : dbl := match d with Dnum q => Dnum (Qred q) | _ => d end.
Example C121_normalised_example :
  option_map dred (at2 (norm_prog ex_tabs 3 ex_X ex_data [1] ex_sched) 0 0) = Some (Dnum (385 # 8)) /\
  map (fun ls => Qred (tree_norm 3 ex_data [1] (row 2 4 2) ls)) (forest_at ex_tabs (vars_of ex_forest) 0) = [(45 # 2); (205 # 8)]%Q.
Proof. vm_compute. auto. Qed.
(** When every leaf met has a row on the given columns, the entry is the one-row model of C16. *)
Theorem C121_normalised_refines : forall T m X data Sv sched vars, tabs_ok T -> any_order T (length X) sched ->
  (forall s, In s Sv -> s < m) ->
  exists res, norm_prog T m X data Sv sched = Some res /\
  forall i x j v, nth_error X i = Some x -> j < t_out T ->
    compute_exp_normalized m data Sv (forest_at T vars j) x = Some v -> is_num (res i j) v.
Proof. exact norm_prog_model. Qed.
Print Assumptions C121_normalised_refines.
Example C121_normalised_refines_example :
  option_map Qred (compute_exp_normalized 3 ex_data [1] (forest_at ex_tabs (vars_of ex_forest) 0) (row 2 4 2)) = Some (385 # 8)%Q.
Proof. vm_compute. reflexivity. Qed.
Theorem C121_normalised_order : forall T m X X' data Sv Sv' sched sched', tabs_ok T ->
  any_order T (length X) sched -> any_order T (length X') sched' ->
  (forall s, In s Sv -> s < m) -> same_cols Sv Sv' ->
  exists res res', norm_prog T m X data Sv sched = Some res /\ norm_prog T m X' data Sv' sched' = Some res' /\
  forall i i' x j, nth_error X i = Some x -> nth_error X' i' = Some x -> j < t_out T -> same_dbl (res i j) (res' i' j).
Proof. exact norm_two. Qed.
Print Assumptions C121_normalised_order.
Example C121_normalised_order_example :
  option_map dred (at2 (norm_prog ex_tabs 3 [row 0 9 9; row 2 4 2]%Q ex_data [1; 1] (in_order ex_tabs [row 0 9 9; row 2 4 2]%Q)) 1 0)
    = Some (Dnum (385 # 8)).
Proof. vm_compute. reflexivity. Qed.
(** one tree on column 0 split at 1 with values 10 and 20, one on column 1 split at 1 with values 1 and 2 *)
Definition below (s : nat) (v : Q) : leaf := mkLeaf (fun c => if c =? s then (NInf, Fin 1) else (NInf, PInf)) [s] v.
Definition above (s : nat) (v : Q) : leaf := mkLeaf (fun c => if c =? s then (Fin 1, PInf) else (NInf, PInf)) [s] v.
Definition two_trees : list (list leaf) := [[below 0 10; above 0 20]; [below 1 1; above 1 2]]%Q.
Definition two_tabs : tabs := tabs_of two_trees 2 [1]%Q.
Lemma two_tabs_ok : tabs_ok two_tabs.
Proof.
  intros b Hb. change (t_trees two_tabs) with 2 in Hb.
  destruct b as [|[|b]]; [| |lia]; vm_compute; (split; [lia|intros; lia]).
Qed.
(** False that every entry is a number: one leaf without rows is enough, though no other leaf of the
    ensemble is concerned and the plain expectation has a value. *)
Theorem C121_normalised_number_refuted : exists T X data Sv q,
  tabs_ok T /\ data <> [] /\ Sv <> [] /\ (forall s, In s Sv -> s < 2) /\
  at2 (norm_prog T 2 X data Sv (in_order T X)) 0 0 = Some Dnan /\
  at2 (exp_prog T 2 X data Sv (in_order T X)) 0 0 = Some q /\ (q == 1)%Q.
Proof.
  exists two_tabs, [row 2 0 0]%Q, [row 0 0 0]%Q, [0; 1]. eexists.
  split; [exact two_tabs_ok|]. split; [discriminate|]. split; [discriminate|].
  split; [intros s [<-|[<-|[]]]; lia|]. split; [vm_compute; reflexivity|].
  split; [vm_compute; reflexivity|]. vm_compute. reflexivity.
Qed.
Print Assumptions C121_normalised_number_refuted.
(** False that a number is between the least and the greatest sum of leaf values: an observation equal
    to the only background row, on a threshold, gets 0 from that tree. *)
Theorem C121_normalised_range_refuted : exists T X data Sv q,
  tabs_ok T /\ t_trees T = 1 /\ (forall s, In s Sv -> s < 2) /\ X = data /\
  at2 (norm_prog T 2 X data Sv (in_order T X)) 0 0 = Some (Dnum q) /\
  (forall k, k < t_nb T 0 -> (q < t_val T 0%nat (t_leaf T 0%nat k) 0%nat)%Q).
Proof.
  exists (tabs_of [[below 0 10; above 0 20]]%Q 2 [1]%Q), [row 1 0 0]%Q, [row 1 0 0]%Q, [0], 0%Q.
  split.
  { intros b Hb. change (t_trees (tabs_of [[below 0 10; above 0 20]]%Q 2 [1]%Q)) with 1 in Hb.
    destruct b as [|b]; [|lia]. vm_compute. split; [lia|intros; lia]. }
  split; [reflexivity|]. split; [intros s [<-|[]]; lia|]. split; [reflexivity|].
  split; [vm_compute; reflexivity|].
  intros k Hk. change (k < 2) in Hk. destruct k as [|[|k]]; [vm_compute; reflexivity|vm_compute; reflexivity|lia].
Qed.
Print Assumptions C121_normalised_range_refuted.

(** ** C122: same-decision probabilities of a classifier *)
Definition ex_y : list nat := [0; 1; 1; 1; 0].
Definition ex_fX : list nat := [1; 0; 0].
Definition at1 {V} (o : option (nat -> V)) (i : nat) : option V := option_map (fun r => r i) o.
Lemma ex_classes : forall f, In f ex_fX -> f < t_out ex_tabs.
Proof. intros f [<-|[<-|[<-|[]]]]; vm_compute; lia. Qed.

(** Categorical: every entry is a probability, and it is the frequency of the decision among the rows
    equal to the observation (when the two decisions have different mean values). *)
Theorem C122_categorical : forall T m X data Sv sched vars fX y_pred, tabs_ok T -> any_order T (length X) sched ->
  (forall s, In s Sv -> s < m) -> length data <= length y_pred -> length X <= length fX ->
  (forall f, In f fX -> f < t_out T) ->
  exists res, sdp_clf_cat_prog T m X data Sv sched fX y_pred = Some res /\
  forall i x f, nth_error X i = Some x -> nth_error fX i = Some f ->
    (0 <= res i <= 1)%Q /\
    (0 < length Sv -> length Sv < m ->
     let ms := filter (fun r => same_on Sv x (fst r)) (combine data y_pred) in
     ms <> [] ->
     ~ (mean (fun r => closed_value m (forest_at T vars f) (fst r)) (filter (fun r => snd r =? f) ms) ==
        mean (fun r => closed_value m (forest_at T vars f) (fst r)) (filter (fun r => negb (snd r =? f)) ms))%Q ->
     (res i == Qn (length (filter (fun r => snd r =? f) ms)) / Qn (length ms))%Q).
Proof. exact sdp_clf_cat_prog_freq. Qed.
Print Assumptions C122_categorical.
Definition ex_y2 : list nat := [0; 1; 0; 1; 0].
Example C122_categorical_example : length ex_data <= length ex_y2 /\ length ex_X <= length ex_fX /\
  (forall f, In f ex_fX -> f < t_out ex_tabs) /\
  length (filter (fun r => same_on [0] (row 2 4 2)%Q (fst r)) (combine ex_data ex_y2)) = 3 /\
  option_map Qred (at1 (sdp_clf_cat_prog ex_tabs 3 ex_X ex_data [0] ex_sched ex_fX ex_y2) 0) = Some (2 # 3)%Q /\
  option_map Qred (at1 (sdp_clf_cat_prog ex_tabs 3 ex_X ex_data [0] ex_sched ex_fX ex_y2) 1) = Some (1 # 3)%Q.
Proof. split; [cbn; lia|]. split; [cbn; lia|]. split; [exact ex_classes|]. vm_compute. auto. Qed.
Theorem C122_categorical_refines : forall T m X data Sv sched vars fX y_pred, tabs_ok T -> any_order T (length X) sched ->
  (forall s, In s Sv -> s < m) -> length data <= length y_pred -> length X <= length fX ->
  (forall f, In f fX -> f < t_out T) ->
  exists res, sdp_clf_cat_prog T m X data Sv sched fX y_pred = Some res /\
  forall i x f, nth_error X i = Some x -> nth_error fX i = Some f ->
    (res i == compute_sdp_clf_cat m (combine data y_pred) f Sv (forest_at T vars f) x)%Q.
Proof. exact sdp_clf_cat_prog_ok. Qed.
Print Assumptions C122_categorical_refines.
(** The other version is the one-row model of C17, for either bound of the last loop. *)
Theorem C122_refines : forall T m X data Sv sched vars fX y_pred, tabs_ok T -> any_order T (length X) sched ->
  (forall s, In s Sv -> s < m) -> length data <= length y_pred -> length X <= length fX ->
  (forall f, In f fX -> f < t_out T) ->
  forall upto, (forall b, b < t_trees T -> t_nb T b <= upto b) ->
  exists res, sdp_clf_prog T m X data Sv sched fX y_pred upto = Some res /\
  forall i x f, nth_error X i = Some x -> nth_error fX i = Some f ->
    (res i == compute_sdp_clf m (combine data y_pred) f Sv (forest_at T vars f) x)%Q.
Proof. exact sdp_clf_prog_ok. Qed.
Print Assumptions C122_refines.
Example C122_refines_example :
  option_map Qred (at1 (sdp_clf_prog ex_tabs 3 ex_X ex_data [0] ex_sched ex_fX ex_y2 (fun _ => t_max ex_tabs)) 0) = Some (2 # 3)%Q /\
  option_map Qred (at1 (sdp_clf_prog ex_tabs 3 ex_X ex_data [0] (in_order ex_tabs ex_X) ex_fX ex_y2 (t_nb ex_tabs)) 0) = Some (2 # 3)%Q /\
  Qred (compute_sdp_clf 3 (combine ex_data ex_y2) 1 [0] (forest_at ex_tabs (vars_of ex_forest) 1) (row 2 4 2)) = (2 # 3)%Q.
Proof. vm_compute. auto. Qed.
(** The order of the threads, the other rows, the bound of the last loop and the order of the columns do not
    count. *)
Theorem C122_categorical_order : forall T m X X' data Sv Sv' sched sched', tabs_ok T ->
  any_order T (length X) sched -> any_order T (length X') sched' ->
  (forall s, In s Sv -> s < m) -> same_cols Sv Sv' ->
  forall fX fX' y_pred, length data <= length y_pred -> length X <= length fX -> length X' <= length fX' ->
  (forall f, In f fX -> f < t_out T) -> (forall f, In f fX' -> f < t_out T) -> length Sv = length Sv' ->
  exists res res',
  sdp_clf_cat_prog T m X data Sv sched fX y_pred = Some res /\
  sdp_clf_cat_prog T m X' data Sv' sched' fX' y_pred = Some res' /\
  forall i i' x f, nth_error X i = Some x -> nth_error fX i = Some f ->
    nth_error X' i' = Some x -> nth_error fX' i' = Some f -> (res i == res' i')%Q.
Proof. exact sdp_cat_two. Qed.
Print Assumptions C122_categorical_order.
Theorem C122_order : forall T m X X' data Sv Sv' sched sched', tabs_ok T ->
  any_order T (length X) sched -> any_order T (length X') sched' ->
  (forall s, In s Sv -> s < m) -> same_cols Sv Sv' ->
  forall fX fX' y_pred, length data <= length y_pred -> length X <= length fX -> length X' <= length fX' ->
  (forall f, In f fX -> f < t_out T) -> (forall f, In f fX' -> f < t_out T) -> length Sv = length Sv' ->
  forall upto upto', (forall b, b < t_trees T -> t_nb T b <= upto b) -> (forall b, b < t_trees T -> t_nb T b <= upto' b) ->
  exists res res',
  sdp_clf_prog T m X data Sv sched fX y_pred upto = Some res /\
  sdp_clf_prog T m X' data Sv' sched' fX' y_pred upto' = Some res' /\
  forall i i' x f, nth_error X i = Some x -> nth_error fX i = Some f ->
    nth_error X' i' = Some x -> nth_error fX' i' = Some f -> (res i == res' i')%Q.
Proof. exact sdp_two. Qed.
Print Assumptions C122_order.
Example C122_order_example : same_cols [0; 2] [2; 0] /\ length [0; 2] = length [2; 0] /\
  option_map Qred (at1 (sdp_clf_cat_prog ex_tabs 3 ex_X ex_data [0; 2] ex_sched ex_fX ex_y2) 0) = Some (1 # 2)%Q /\
  option_map Qred (at1 (sdp_clf_cat_prog ex_tabs 3 [row 2 4 2]%Q ex_data [2; 0] (in_order ex_tabs [row 2 4 2]%Q) [1] ex_y2) 0) = Some (1 # 2)%Q /\
  option_map Qred (at1 (sdp_clf_prog ex_tabs 3 ex_X ex_data [0; 2] ex_sched ex_fX ex_y2 (fun _ => t_max ex_tabs)) 0)
  = option_map Qred (at1 (sdp_clf_prog ex_tabs 3 [row 2 4 2]%Q ex_data [2; 0] (in_order ex_tabs [row 2 4 2]%Q) [1] ex_y2 (t_nb ex_tabs)) 0).
Proof. split; [intro s; cbn; tauto|]. vm_compute. auto. Qed.
(** Repetitions do count: the shortcut for all the columns looks at the number of entries. *)
Theorem C122_set_of_columns_refuted : exists T X data Sv Sv' fX y v v' w w',
  tabs_ok T /\ same_cols Sv Sv' /\ (forall s, In s Sv -> s < 2) /\
  at1 (sdp_clf_cat_prog T 2 X data Sv (in_order T X) fX y) 0 = Some v /\
  at1 (sdp_clf_cat_prog T 2 X data Sv' (in_order T X) fX y) 0 = Some v' /\
  at1 (sdp_clf_prog T 2 X data Sv (in_order T X) fX y (t_nb T)) 0 = Some w /\
  at1 (sdp_clf_prog T 2 X data Sv' (in_order T X) fX y (t_nb T)) 0 = Some w' /\
  ~ (v == v')%Q /\ ~ (w == w')%Q.
Proof.
  exists two_tabs, [row 0 0 0]%Q, [row 0 0 0; row 0 2 0]%Q, [0], [0; 0], [0], [0; 1]. do 4 eexists.
  split; [exact two_tabs_ok|]. split; [intro s; cbn; tauto|]. split; [intros s [<-|[]]; lia|].
  split; [vm_compute; reflexivity|]. split; [vm_compute; reflexivity|].
  split; [vm_compute; reflexivity|]. split; [vm_compute; reflexivity|].
  split; intro H; vm_compute in H; discriminate.
Qed.
Print Assumptions C122_set_of_columns_refuted.
(** The number of predicted classes is not checked: one too few is read outside its array. *)
Theorem C122_lengths_refuted : exists T X data Sv fX y,
  tabs_ok T /\ (forall s, In s Sv -> s < 2) /\ length y < length data /\ length X = length fX /\
  sdp_clf_cat_prog T 2 X data Sv (in_order T X) fX y = None /\
  sdp_clf_prog T 2 X data Sv (in_order T X) fX y (t_nb T) = None.
Proof.
  exists two_tabs, [row 0 0 0]%Q, [row 0 0 0; row 0 2 0]%Q, [0], [0], [0].
  split; [exact two_tabs_ok|]. split; [intros s [<-|[]]; lia|]. vm_compute. repeat split; lia.
Qed.
Print Assumptions C122_lengths_refuted.

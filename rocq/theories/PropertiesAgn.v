(** C135: from a forest of skranger to the numbers, rules and weights of ACXplainer. *)
From Verif Require Import Base TreeModel TreeSpec RfModel RfSpec PropertiesRf SkModel ApiModel ApiSpec AgnModel AgnSpec AgnProofs.
Local Open Scope nat_scope.

(** for the examples: a stump on column 0, whose column is written -2, and a tree of height three *)
Definition one : list (list Q) := [[1%Q]].
Definition e_stump : sk := mkSk [1; -1; -1]%Z [2; -1; -1]%Z [-2; -2; -2]%Z [1 # 2; 0; 0]%Q [one; one; one] (repeat 1%Z 3).
Definition T_stump : rtree := Fork 0 (1 # 2) Leaf Leaf.
Definition e_chain : sk := mkSk [1; -1; 3; -1; 5; -1; -1]%Z [2; -1; 4; -1; 6; -1; -1]%Z [1; -2; -2; -2; 1; -2; -2]%Z [0; 0; 1; 0; 2; 0; 0]%Q (repeat one 7) (repeat 1%Z 7).
Definition T_chain : rtree := Fork 1 0 Leaf (Fork 0 1 Leaf (Fork 1 2 Leaf Leaf)).
Lemma w_stump : written e_stump 0 T_stump.
Proof. apply wr_fork with (i := 1) (j := 2); try (cbn; lia); try reflexivity; try (right; split; reflexivity); constructor; (reflexivity || (cbn; lia)). Qed.
Lemma w_chain : exists T2 T4, written e_chain 4 T4 /\ written e_chain 2 T2 /\ written e_chain 0 T_chain /\ T4 = Fork 1 2 Leaf Leaf /\ T2 = Fork 0 1 Leaf T4.
Proof.
  assert (H4 : written e_chain 4 (Fork 1 2 Leaf Leaf)) by (apply wr_fork with (i := 5) (j := 6); try (cbn; lia); try reflexivity; try (left; reflexivity); constructor; (reflexivity || (cbn; lia))).
  assert (H2 : written e_chain 2 (Fork 0 1 Leaf (Fork 1 2 Leaf Leaf))) by (apply wr_fork with (i := 3) (j := 4); try (cbn; lia); try reflexivity; try (right; split; reflexivity); [constructor; (reflexivity || (cbn; lia))|exact H4]).
  do 2 eexists. split; [exact H4|]. split; [exact H2|]. split; [|split; reflexivity].
  apply wr_fork with (i := 1) (j := 2); try (cbn; lia); try reflexivity; try (left; reflexivity); [constructor; (reflexivity || (cbn; lia))|exact H2].
Qed.
Lemma h_stump d : 1 <= d -> holds d 1 e_stump T_stump.
Proof.
  intro Hd. split; [exact w_stump|]. split; [repeat split|]. split; [intros v Hv; cbn in Hv; decompose [or] Hv; subst; (reflexivity || contradiction)|]. split.
  - intros i Hi. cbn in Hi. destruct i as [|[|[|i]]]; [exists T_stump; split; [exact w_stump|intros c Hc; cbn in Hc; lia]| | |lia];
      (exists Leaf; split; [constructor; (reflexivity || (cbn; lia))|intros c []]).
  - intros j Hj. cbn in Hj. destruct j as [|[|[|j]]]; (reflexivity || lia).
Qed.
Lemma h_chain : holds 2 1 e_chain T_chain.
Proof.
  destruct w_chain as (T2 & T4 & H4 & H2 & H0 & E4 & E2). split; [exact H0|]. split; [repeat split|].
  split; [intros v Hv; apply repeat_spec in Hv; subst; reflexivity|]. split.
  - intros i Hi. cbn in Hi. destruct i as [|[|[|[|[|[|[|i]]]]]]]; try lia;
      try (exists Leaf; split; [constructor; (reflexivity || (cbn; lia))|intros c []]).
    + exists T_chain. split; [exact H0|]. intros c Hc. cbn in Hc. lia.
    + exists T2. split; [exact H2|]. subst. intros c Hc. cbn in Hc. lia.
    + exists T4. split; [exact H4|]. subst. intros c Hc. cbn in Hc. lia.
  - intros j Hj. cbn in Hj. destruct j as [|[|[|[|[|[|[|j]]]]]]]; (reflexivity || lia).
Qed.
Definition ag_es : list sk := [e_stump; e_chain].
Definition ag_Ts : list rtree := [T_stump; T_chain].
Lemma ag_holds : Forall2 (holds 2 1) ag_es ag_Ts.
Proof. constructor; [apply h_stump; lia|]. constructor; [exact h_chain|]. constructor. Qed.
Definition ag_D : list pt := [ex_obs 0 0 0; ex_obs 1 1 0; ex_obs 3 1 0; ex_obs 3 3 0; ex_obs 1 3 0; ex_obs 2 3 0].
Definition ag_Y : list Q := [0; 1; 1; 0; 1; 0]%Q.
Definition ag_X : list pt := [ex_obs 3 3 0; ex_obs 0 0 0].
Definition ag_l : list (list nat) := [[0]; [0; 1]].
Definition ag_args : args := mkArgs ag_X [1; 0]%Q [0; 0]%Q [1; 1]%Q (S_rows ag_l) [].
Definition ag_sched : list nat := [0; 1; 1; 0; 0; 1].
Definition ag_q : pt -> Q * Q := fun _ => (0, 1)%Q.
Lemma ag_call r : plain_routine r -> table (g_X ag_args) (g_y ag_args) /\ table ag_D ag_Y /\ documented r ag_args ag_l /\ complete (S (length ag_Ts)) (length (g_X ag_args)) ag_sched.
Proof.
  intro Hr. split; [split; (reflexivity || discriminate)|]. split; [split; (reflexivity || discriminate)|]. split.
  - split; [reflexivity|]. split; [reflexivity|]. split; [split; reflexivity|].
    intro Hb. exfalso. unfold plain_routine in Hr. unfold boxed in Hb. cbn in Hr, Hb. decompose [or] Hr; subst; decompose [or] Hb; (discriminate || contradiction).
  - split; [intros i Hi; cbn in Hi; cbn; lia|]. intros [|[|i]] Hi; try reflexivity. cbn in Hi. lia.
Qed.
Lemma ag_enough : enough 1 (g_X ag_args) ag_l ag_D ag_Ts.
Proof. intros [|[|i]] T Hi [<-|[<-|[]]]; try (vm_compute; lia); cbn in Hi; lia. Qed.
Lemma ag_safe i : safe ex_calm (nth i ag_l []) ag_Ts.
Proof. left. split; [|split; reflexivity]. intros f [Hf _]. cbn in Hf. lia. Qed.
(** the numbers of an outcome, in lowest terms *)
Definition ag_sdp (o : option (outcome result)) : option (list Q) := match o with Some (Returned r) => Some (map Qred (r_sdp r)) | _ => None end.

(** The object: the constructor succeeds for a forest over two or more columns; the arrays have the column and the threshold of
    every split, also where skranger writes -2 for column 0, and a negative mark at every leaf; the depth handed to the compiled
    loops is the height of the forest. *)
Theorem C135_object d w es Ts : es <> [] -> Forall2 (holds d w) es Ts -> d <> 1 ->
  exists o, build d es = Some o /\ n_outputs o = w /\ n_depth o = tallest Ts /\ length (n_trees o) = length Ts /\
    forall b, b < length Ts -> exists e t, nth_error es b = Some e /\ nth_error (n_trees o) b = Some t /\ wf_tree t d = true /\
      (forall n c q l r, written e n (Fork c q l r) -> nth n (ft t) (-1)%Z = Z.of_nat c /\ nth n (th t) 0%Q = q) /\
      (forall n, written e n Leaf -> (nth n (ft t) (-1) < 0)%Z /\ nth n (cl t) 0%Z = (-1)%Z /\ nth n (cr t) 0%Z = (-1)%Z).
Proof. exact (object_contents d w es Ts). Qed.
Print Assumptions C135_object.
Example C135_object_example : ag_es <> [] /\ Forall2 (holds 2 1) ag_es ag_Ts /\ tallest ag_Ts = 3 /\
  option_map (fun o => (n_depth o, n_max_var o, map ft (n_trees o))) (build 2 ag_es) = Some (3, 2, [[0; -2; -2]; [1; -2; 0; -2; 1; -2; -2]]%Z).
Proof. split; [discriminate|]. split; [exact ag_holds|]. split; reflexivity. Qed.

(** The numbers: mean over the trees of the mean over the training rows that the tree does not separate from the observation by
    the known columns.  Partial: every tree keeps at least [min_node_size] rows, and the memory before the arrays does no harm. *)
Theorem C135_values_partial d w es Ts stray classifier q r a l D Y m t sched lev :
  es <> [] -> Forall2 (holds d w) es Ts -> d <> 1 ->
  plain_routine r -> table (g_X a) (g_y a) -> table D Y -> documented r a l -> own_levels classifier q (g_X a) t lev ->
  complete (S (length Ts)) (length (g_X a)) sched ->
  (forall i, i < length (g_X a) -> safe stray (nth i l []) Ts) -> enough m (g_X a) l D Ts ->
  exists res, explain d es stray classifier q r a D Y m t sched = Some (Returned res) /\
    length (r_sdp res) = length (g_X a) /\
    forall i, i < length (g_X a) -> (nth i (r_sdp res) 0 ==
      mean_over (fun T => mean_over (fun j => measured r classifier (nth i (g_y a) 0) (fst (lev i)) (snd (lev i))
                                                (nth i (g_down a) 0) (nth i (g_up a) 0) (nth j Y 0))
                                    (mates (nth i l []) T (nth i (g_X a) (fun _ => 0)) D)) Ts)%Q.
Proof. exact (explain_values d w es Ts stray classifier q r a l D Y m t sched lev). Qed.
Print Assumptions C135_values_partial.
Example C135_values_example :
  plain_routine exp_rf /\ own_levels true ag_q ag_X T_none (fun _ => (0, 0)%Q) /\ (forall i, safe ex_calm (nth i ag_l []) ag_Ts) /\ enough 1 ag_X ag_l ag_D ag_Ts /\
  map (fun T => mates [0] T (ex_obs 3 3 0) ag_D) ag_Ts = [[1; 2; 3; 4; 5]; [2; 3; 5]] /\
  ag_sdp (explain 2 ag_es ex_calm true ag_q sdp_rf ag_args ag_D ag_Y 1 T_none ag_sched) = Some [7 # 15; 1]%Q /\
  ag_sdp (explain 2 ag_es ex_calm true ag_q exp_rf ag_args ag_D ag_Y 1 T_none ag_sched) = Some [7 # 15; 0]%Q.
Proof. split; [cbn; tauto|]. split; [now left|]. split; [exact ag_safe|]. split; [exact ag_enough|]. split; [reflexivity|]. split; vm_compute; reflexivity. Qed.

(** The rules: an observation within the bounds the rules start with (1e10) fulfils the returned rule on the known columns
    exactly when no tree separates it from the explained one; the other columns are free. *)
Theorem C135_rules_partial d w es Ts stray classifier q r a l D Y m t sched lev :
  es <> [] -> Forall2 (holds d w) es Ts -> d <> 1 ->
  In r [sdp_rule; ddp_rule; cdp_rule] -> table (g_X a) (g_y a) -> table D Y -> documented r a l -> own_levels classifier q (g_X a) t lev ->
  complete (S (length Ts)) (length (g_X a)) sched ->
  (forall i, i < length (g_X a) -> safe stray (nth i l []) Ts) -> enough m (g_X a) l D Ts ->
  exists res ps, explain d es stray classifier q r a D Y m t sched = Some (Returned res) /\ r_rules res = Some ps /\
    length ps = length (g_X a) /\ forall i, i < length (g_X a) ->
      (forall z, moderate (nth i l []) z ->
         (in_rule (nth i l []) (nth i ps rule0) z <-> forall T, In T Ts -> together (nth i l []) T (nth i (g_X a) (fun _ => 0%Q)) z = true)) /\
      forall f, ~ In f (nth i l []) -> nth i ps rule0 f = ((- big)%Q, big).
Proof. exact (explain_rules d w es Ts stray classifier q r a l D Y m t sched lev). Qed.
Print Assumptions C135_rules_partial.
Example C135_rules_example :
  moderate [0] (ex_obs 5 0 0) /\ forallb (fun T => together [0] T (ex_obs 3 3 0) (ex_obs 5 0 0)) ag_Ts = true /\
  forallb (fun T => together [0] T (ex_obs 3 3 0) (ex_obs 1 3 0)) ag_Ts = false /\
  match explain 2 ag_es ex_calm true ag_q sdp_rule ag_args ag_D ag_Y 1 T_none ag_sched with
  | Some (Returned res) => option_map (map (fun p : rule => (Qred (fst (p 0)), Qred (snd (p 0))))) (r_rules res) | _ => None end
  = Some [(1%Q, big); ((- big)%Q, 1 # 2)].
Proof. split; [intros f [<-|[]]; vm_compute; split; congruence|]. split; [reflexivity|]. split; [reflexivity|vm_compute; reflexivity]. Qed.

(** The weights: a training row gets, from every tree that does not separate it, the same share as the others there. *)
Theorem C135_weights_partial d w es Ts stray classifier q r a l D Y m t sched lev :
  es <> [] -> Forall2 (holds d w) es Ts -> d <> 1 ->
  In r [ddp_weights; cdp_weights] -> table (g_X a) (g_y a) -> table D Y -> documented r a l -> own_levels classifier q (g_X a) t lev ->
  complete (S (length Ts)) (length (g_X a)) sched ->
  (forall i, i < length (g_X a) -> safe stray (nth i l []) Ts) -> enough m (g_X a) l D Ts ->
  exists res ws, explain d es stray classifier q r a D Y m t sched = Some (Returned res) /\ r_weights res = Some ws /\
    length ws = length (g_X a) /\ forall i j, i < length (g_X a) -> j < length D ->
      (nth i ws (fun _ => 0) j ==
       mean_over (fun T => if together (nth i l []) T (nth i (g_X a) (fun _ => 0)) (nth j D (fun _ => 0))
                           then 1 / Qn (length (mates (nth i l []) T (nth i (g_X a) (fun _ => 0)) D)) else 0) Ts)%Q.
Proof. exact (explain_weights d w es Ts stray classifier q r a l D Y m t sched lev). Qed.
Print Assumptions C135_weights_partial.
Example C135_weights_example :
  match explain 2 ag_es ex_calm true ag_q ddp_weights ag_args ag_D ag_Y 1 T_none ag_sched with
  | Some (Returned res) => option_map (map (fun w : nat -> Q => map (fun j => Qred (w j)) (seq 0 6))) (r_weights res) | _ => None end
  = Some [[0; 1 # 10; 4 # 15; 4 # 15; 1 # 10; 4 # 15]; [1; 0; 0; 0; 0; 0]]%Q.
Proof. vm_compute. reflexivity. Qed.

(** All columns known: the training rows in the leaf of the observation, tree by tree. *)
Theorem C135_same_leaf_partial d w es Ts stray classifier q r a l D Y m t sched lev :
  es <> [] -> Forall2 (holds d w) es Ts -> d <> 1 ->
  plain_routine r -> table (g_X a) (g_y a) -> table D Y -> documented r a l -> own_levels classifier q (g_X a) t lev ->
  complete (S (length Ts)) (length (g_X a)) sched ->
  (forall i, i < length (g_X a) -> safe stray (nth i l []) Ts) ->
  (forall i T c, i < length (g_X a) -> In T Ts -> In c (columns T) -> In c (nth i l [])) ->
  let leaf_rows := fun T x => filter (fun j => if list_eq_dec Bool.bool_dec (way T x) (way T (nth j D (fun _ => 0%Q))) then true else false) (seq 0 (length D)) in
  (forall i T, i < length (g_X a) -> In T Ts -> m <= length (leaf_rows T (nth i (g_X a) (fun _ => 0%Q)))) ->
  exists res, explain d es stray classifier q r a D Y m t sched = Some (Returned res) /\
    length (r_sdp res) = length (g_X a) /\
    forall i, i < length (g_X a) -> (nth i (r_sdp res) 0 ==
      mean_over (fun T => mean_over (fun j => measured r classifier (nth i (g_y a) 0) (fst (lev i)) (snd (lev i))
                                                (nth i (g_down a) 0) (nth i (g_up a) 0) (nth j Y 0))
                                    (leaf_rows T (nth i (g_X a) (fun _ => 0)))) Ts)%Q.
Proof. exact (explain_same_leaf d w es Ts stray classifier q r a l D Y m t sched lev). Qed.
Print Assumptions C135_same_leaf_partial.
Example C135_same_leaf_example :
  map (fun T => map (way T) ag_D) ag_Ts =
    [[[false]; [true]; [true]; [true]; [true]; [true]];
     [[false]; [true; false]; [true; true; false]; [true; true; true]; [true; false]; [true; true; true]]] /\
  (forall T c, In T ag_Ts -> In c (columns T) -> In c [0; 1]) /\
  ag_sdp (explain 2 ag_es ex_calm true ag_q exp_rf (mkArgs ag_X [1; 0]%Q [] [] (S_rows [[0; 1]; [0; 1]]) []) ag_D ag_Y 1 T_none ag_sched) = Some [3 # 10; 0]%Q.
Proof. split; [reflexivity|]. split; [intros T c [<-|[<-|[]]] Hc; cbn in *; tauto|vm_compute; reflexivity]. Qed.

(** Without the proviso about memory: a shallow first tree, and what lies before the arrays decides. *)
Theorem C135_memory_refuted : exists es Ts stray a l D Y sched res,
  es <> [] /\ Forall2 (holds 2 1) es Ts /\ table (g_X a) (g_y a) /\ table D Y /\ documented sdp_rf a l /\
  complete (S (length Ts)) (length (g_X a)) sched /\ enough 1 (g_X a) l D Ts /\
  explain 2 es stray true (fun _ => (0, 0)%Q) sdp_rf a D Y 1 T_none sched = Some (Returned res) /\
  ~ (nth 0 (r_sdp res) 0 ==
     mean_over (fun T => mean_over (fun j => if Qeq_bool (nth 0 (g_y a) 0) (nth j Y 0) then 1 else 0)
                                   (mates (nth 0 l []) T (nth 0 (g_X a) (fun _ => 0)) D)) Ts)%Q.
Proof.
  exists ag_es, ag_Ts, ex_wild, ag_args, ag_l, ag_D, ag_Y, ag_sched. eexists.
  destruct (ag_call sdp_rf ltac:(cbn; tauto)) as (A & B & C & E).
  split; [discriminate|]. split; [exact ag_holds|]. split; [exact A|]. split; [exact B|]. split; [exact C|]. split; [exact E|]. split; [exact ag_enough|].
  split; [vm_compute; reflexivity|]. vm_compute. discriminate.
Qed.
Print Assumptions C135_memory_refuted.

(** One column: no call returns, unless no tree has a split. *)
Theorem C135_one_column w es Ts stray classifier q r a D Y m t sched :
  Forall2 (holds 1 w) es Ts -> (exists T, In T Ts /\ T <> Leaf) ->
  forall res, explain 1 es stray classifier q r a D Y m t sched <> Some (Returned res).
Proof. exact (explain_one_column w es Ts stray classifier q r a D Y m t sched). Qed.
Print Assumptions C135_one_column.
Theorem C135_one_column_refuted : exists es Ts a l D Y sched,
  es <> [] /\ Forall2 (holds 1 1) es Ts /\ table (g_X a) (g_y a) /\ table D Y /\ documented sdp_rf a l /\
  complete (S (length Ts)) (length (g_X a)) sched /\ enough 1 (g_X a) l D Ts /\
  explain 1 es ex_calm true (fun _ => (0, 0)%Q) sdp_rf a D Y 1 T_none sched = None.
Proof.
  exists [e_stump], [T_stump], (mkArgs [ex_obs 1 0 0] [1%Q] [] [] (S_rows [[0]]) []), [[0]], ag_D, ag_Y, [0; 0].
  split; [discriminate|]. split; [constructor; [apply h_stump; lia|constructor]|]. split; [split; (reflexivity || discriminate)|]. split; [split; (reflexivity || discriminate)|].
  split; [|split; [|split; [|vm_compute; reflexivity]]].
  - split; [reflexivity|]. split; [reflexivity|]. split; intro H; exfalso; cbn in H; decompose [or] H; (discriminate || contradiction).
  - split; [intros i Hi; cbn in Hi; cbn; lia|]. intros [|i] Hi; [reflexivity|cbn in Hi; lia].
  - intros [|i] T Hi [<-|[]]; [vm_compute; lia|cbn in Hi; lia].
Qed.
Print Assumptions C135_one_column_refuted.
Example C135_one_column_example : Forall2 (holds 1 1) [e_stump] [T_stump] /\ T_stump <> Leaf.
Proof. split; [constructor; [apply h_stump; lia|constructor]|discriminate]. Qed.

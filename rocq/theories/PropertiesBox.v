(** C137: the methods of ACXplainer with boxes, from a forest of skranger to the numbers and weights. *)
From Verif Require Import Base RfModel RfSpec PropertiesRf SkModel GameSpec SearchSpec ExplSpec ApiModel ApiSpec AgnModel AgnSpec PropertiesAgn AxsModel AxsSpec PropertiesAxs BoxSpec BoxProofs.
From Verif Require ImpModel ImpSpec.
Local Open Scope nat_scope.

(** for the examples: column 0 as observed, column 1 in [1, 5/2] or free *)
Definition bx_box : rule := fun c => if c =? 1 then (1, 5#2)%Q else ((-9)%Q, 9%Q).
Definition bx_args : args := mkArgs ag_X [1; 0]%Q [0; 0]%Q [1; 1]%Q (S_rows [[0]; [0; 1]]) [bx_box; bx_box].
Definition bx_same : args := mkArgs ag_X [1; 0]%Q [] [] (S_same [0]) [bx_box; bx_box].
Lemma bx_called r : In r [ddp_cond; cdp_cond; ddp_intv; cdp_intv] -> well_called r bx_args.
Proof.
  intro H. cbn [In] in H. destruct H as [<-|[<-|[<-|[<-|[]]]]]; (split; [cbn; tauto|]); exists [[0]; [0; 1]];
    (split; [reflexivity|]; split; [reflexivity|]; split; intros _; [split|]; reflexivity).
Qed.
Lemma bx_calm : calm ex_calm ag_Ts.
Proof. left. split; [reflexivity|]. split; reflexivity. Qed.
Lemma bx_plenty r : In r [ddp_cond; cdp_cond; ddp_intv; cdp_intv] -> plenty r 1 bx_args ag_D ag_Ts.
Proof.
  intros H [|[|i]] T Hi HT; [| |cbn in Hi; lia]; cbn [In] in H; destruct H as [<-|[<-|[<-|[<-|[]]]]]; destruct HT as [<-|[<-|[]]]; vm_compute; lia.
Qed.

(** The numbers: mean over the trees of the mean over the training rows that are on the side followed at every split met, the
    side of the observation on the columns of the set (both sides for the interventional methods), the side of the box on the
    others, both when the threshold cuts the box.  Partial: every tree keeps at least [min_node_size] rows, and the memory
    before the arrays does no harm. *)
Theorem C137_values_partial d w es Ts stray classifier q r a D Y m t sched lev :
  es <> [] -> Forall2 (holds d w) es Ts -> d <> 1 ->
  well_called r a -> table (g_X a) (g_y a) -> table D Y -> own_levels classifier q (g_X a) t lev ->
  complete (S (length Ts)) (length (g_X a)) sched -> calm stray Ts -> plenty r m a D Ts ->
  exists res, explain d es stray classifier q r a D Y m t sched = Some (Returned res) /\
    length (r_sdp res) = length (g_X a) /\
    forall i, i < length (g_X a) -> (nth i (r_sdp res) 0 ==
      mean_over (fun T => mean_over (fun j => averaged r classifier (nth i (g_y a) 0) (fst (lev i)) (snd (lev i))
                                                (nth i (g_down a) 0) (nth i (g_up a) 0) (nth j Y 0))
                                    (companions (walked r (set_at (g_S a) i) (nth i (g_X a) (fun _ => 0)) (nth i (g_cond a) rule0)) T D)) Ts)%Q.
Proof.
  intros A1 A2 A3 A4 A5 A6 A7 A8 A9 A10.
  destruct (box_rows d w es Ts stray classifier q A1 A2 A3 r a D Y m t sched lev A4 A5 A6 A7 A8 A9 A10) as (res & B1 & B2 & B3 & _). exists res. auto.
Qed.
Print Assumptions C137_values_partial.
Example C137_values_example :
  well_called ddp_cond bx_args /\ well_called cdp_intv_same bx_same /\ calm ex_calm ag_Ts /\ plenty ddp_cond 1 bx_args ag_D ag_Ts /\
  map (fun T => companions (cond_guide [0] (ex_obs 3 3 0) bx_box) T ag_D) ag_Ts = [[1; 2; 3; 4; 5]; [2; 3; 5]] /\
  map (fun T => companions (intv_guide [0] bx_box) T ag_D) ag_Ts = [[0; 1; 2; 3; 4; 5]; [1; 2; 3; 4; 5]] /\
  map (fun r => ag_sdp (explain 2 ag_es ex_calm true ag_q r bx_args ag_D ag_Y 1 T_none ag_sched)) [ddp_cond; cdp_cond; ddp_intv; cdp_intv]
  = [Some [8#15; 0]; Some [7#15; 1]; Some [9#20; 1#2]; Some [9#20; 1#2]]%Q /\
  ag_sdp (explain 2 ag_es ex_calm true ag_q cdp_intv_same bx_same ag_D ag_Y 1 T_none ag_sched) = Some [9#20; 11#20]%Q.
Proof.
  split; [apply bx_called; cbn; tauto|]. split; [split; [now exists [0]|reflexivity]|]. split; [exact bx_calm|]. split; [apply bx_plenty; cbn; tauto|].
  split; [reflexivity|]. split; [reflexivity|]. split; vm_compute; reflexivity.
Qed.

(** The weights: a training row gets, from every tree where it is kept, the same share as the others there. *)
Theorem C137_weights_partial d w es Ts stray classifier q r a D Y m t sched lev :
  es <> [] -> Forall2 (holds d w) es Ts -> d <> 1 ->
  In r [ddp_cond; cdp_cond; ddp_intv; cdp_intv] -> well_called r a -> table (g_X a) (g_y a) -> table D Y -> own_levels classifier q (g_X a) t lev ->
  complete (S (length Ts)) (length (g_X a)) sched -> calm stray Ts -> plenty r m a D Ts ->
  exists res ws, explain d es stray classifier q r a D Y m t sched = Some (Returned res) /\ r_weights res = Some ws /\
    length ws = length (g_X a) /\ forall i j, i < length (g_X a) -> j < length D ->
      let g := walked r (set_at (g_S a) i) (nth i (g_X a) (fun _ => 0%Q)) (nth i (g_cond a) rule0) in
      (nth i ws (fun _ => 0) j == mean_over (fun T => if follows g T (nth j D (fun _ => 0)) then 1 / Qn (length (companions g T D)) else 0) Ts)%Q.
Proof.
  intros A1 A2 A3 A0 A4 A5 A6 A7 A8 A9 A10.
  destruct (box_rows d w es Ts stray classifier q A1 A2 A3 r a D Y m t sched lev A4 A5 A6 A7 A8 A9 A10) as (res & B1 & _ & _ & B4).
  destruct (B4 ltac:(unfold weighted; cbn [In] in *; tauto)) as (ws & C1 & C2 & C3). exists res, ws. auto.
Qed.
Print Assumptions C137_weights_partial.
Definition bx_weights (o : option (outcome result)) : option (list (list Q)) := match o with
  | Some (Returned res) => option_map (map (fun w : nat -> Q => map (fun j => Qred (w j)) (seq 0 6))) (r_weights res) | _ => None end.
Example C137_weights_example :
  bx_weights (explain 2 ag_es ex_calm true ag_q ddp_cond bx_args ag_D ag_Y 1 T_none ag_sched)
  = Some [[0; 1 # 10; 4 # 15; 4 # 15; 1 # 10; 4 # 15]; [1; 0; 0; 0; 0; 0]]%Q.
Proof. vm_compute. reflexivity. Qed.

(** Rows equal to the observation on the set and inside the box on the other columns are kept by every tree; rows inside the
    box are kept by the interventional methods. *)
Theorem C137_compatible Sv x box T D j : j < length D ->
  (in_box Sv box (nth j D (fun _ => 0%Q)) -> In j (companions (intv_guide Sv box) T D) /\
   (agree_on Sv x (nth j D (fun _ => 0%Q)) -> In j (companions (cond_guide Sv x box) T D))).
Proof.
  intros Hj HB. unfold companions. split; [|intro HA]; (apply filter_In; split; [apply in_seq; split; [apply Nat.le_0_l|exact Hj]|]);
    [now apply boxed_follows|now apply compatible_follows].
Qed.
Print Assumptions C137_compatible.
Example C137_compatible_example : in_box [0] bx_box (ex_obs 3 1 0) /\ agree_on [0] (ex_obs 3 3 0) (nth 2 ag_D (fun _ => 0%Q)) /\
  memb 2 (companions (cond_guide [0] (ex_obs 3 3 0) bx_box) T_chain ag_D) = true /\ memb 0 (companions (intv_guide [0] bx_box) T_chain ag_D) = false.
Proof.
  split; [|split; [|split; reflexivity]].
  - intros f Hf. destruct f as [|[|[|f]]]; try (exfalso; apply Hf; now left); split; vm_compute; discriminate.
  - intros f [<-|[]]. vm_compute. reflexivity.
Qed.

(** A box that every threshold cuts: the conditional methods are those without boxes (C135), the interventional ones keep all rows.
    A box reduced to the observation: the rows of its leaf. *)
Theorem C137_wide Sv x box T D : (forall c t, In (c, t) (cuts T) -> ~ In c Sv -> (fst (box c) <= t < snd (box c))%Q) ->
  companions (cond_guide Sv x box) T D = mates Sv T x D /\ companions (intv_guide Sv box) T D = seq 0 (length D).
Proof.
  intro H. unfold companions, mates. split.
  - apply filter_ext. intro j. apply (wide_follows Sv x box T _ H).
  - generalize (seq 0 (length D)). induction l as [|j l IH]; [reflexivity|]. cbn [filter]. rewrite (proj2 (wide_follows Sv x box T _ H)). now f_equal.
Qed.
Print Assumptions C137_wide.
Example C137_wide_example : (forall c t, In (c, t) (cuts T_chain) -> ~ In c [0] -> (fst (-1, 3) <= t < snd (-1, 3))%Q) /\
  companions (cond_guide [0] (ex_obs 3 3 0) (fun _ => (-1, 3)%Q)) T_chain ag_D = [2; 3; 5].
Proof. split; [|reflexivity]. intros c t H _. cbn in H. decompose [or] H; try contradiction; match goal with K : _ = (c, t) |- _ => injection K as <- <- end; cbn; lra. Qed.
Theorem C137_point Sv x box T D : (forall c, In c (columns T) -> ~ In c Sv -> fst (box c) = x c /\ snd (box c) = x c) ->
  companions (cond_guide Sv x box) T D =
  filter (fun j => if list_eq_dec Bool.bool_dec (way T x) (way T (nth j D (fun _ => 0%Q))) then true else false) (seq 0 (length D)).
Proof.
  intro H. unfold companions. apply filter_ext. intro j. pose proof (point_follows Sv x box T (nth j D (fun _ => 0%Q)) H) as K.
  destruct (list_eq_dec Bool.bool_dec _ _) as [E|E]; [now apply K|]. destruct (follows _ _ _); [exfalso; apply E; now apply K|reflexivity].
Qed.
Print Assumptions C137_point.
Example C137_point_example : companions (cond_guide [] (ex_obs 3 1 0) (fun c => (ex_obs 3 1 0 c, ex_obs 3 1 0 c))) T_chain ag_D = [2].
Proof. reflexivity. Qed.

(** The searches with boxes: the reported probability of a proper set, from the trees. *)
Theorem C137_search_partial d w es Ts stray classifier q imp by_importance sched kd a D Y t C m pi minimal stop e i :
  searchable d w es Ts classifier imp by_importance sched kd a D Y t C -> (0 < pi)%Q -> (pi <= 1)%Q ->
  kd = by_ddp_intv \/ kd = by_cdp_intv ->
  acx_importance d es stray classifier q by_importance sched kd a D Y m t C pi minimal stop = Gives e -> i < length (g_X a) ->
  (pi <= nth i (ImpModel.e_sdp e) 0)%Q -> calm stray Ts ->
  exists S, NoDup S /\ (forall s, In s S -> s < d) /\ reported (ImpSpec.row_of e i) = map Z.of_nat S /\
    (length S < d -> (forall T, In T Ts -> m <= length (companions (intv_guide S (nth i (g_cond a) rule0)) T D)) ->
     (nth i (ImpModel.e_sdp e) 0 ==
      mean_over (fun T => mean_over (fun j => averaged (method kd) classifier (nth i (g_y a) 0) (fst (levels_at q (g_X a) t i)) (snd (levels_at q (g_X a) t i))
                                                0 0 (nth j Y 0))
                                    (companions (intv_guide S (nth i (g_cond a) rule0)) T D)) Ts)%Q).
Proof. exact (search_values d w es Ts stray classifier q imp by_importance sched kd a D Y t C m pi minimal stop e i). Qed.
Print Assumptions C137_search_partial.
Definition bx_ax : args := mkArgs (g_X ax_args) (g_y ax_args) (g_down ax_args) (g_up ax_args) (g_S ax_args) (repeat bx_box (length (g_X ax_args))).
Example C137_search_example :
  searchable 2 1 ag_es ag_Ts true (fun _ => 0%Q) [0; 1] (ax_sched 2 4) by_ddp_intv bx_ax ag_D ag_Y T_none [[]] /\ calm ex_calm ag_Ts /\
  (forall T, In T ag_Ts -> 1 <= length (companions (intv_guide [1] bx_box) T ag_D)) /\
  match acx_importance 2 ag_es ex_calm true ag_q (seq 0 2) (ax_sched 2 4) by_ddp_intv bx_ax ag_D ag_Y 1 T_none [[]] (9#20) 1 false with
  | Gives e => (map Qred (ImpModel.e_sdp e), map reported (map (ImpSpec.row_of e) (seq 0 (length (g_X bx_ax))))) | _ => ([], []) end
  = ([1 # 2; 11 # 20; 1 # 2; 11 # 20]%Q, [[1%Z]; [0%Z]; [1%Z]; [0%Z]]).
Proof.
  split; [|split; [exact bx_calm|split; [intros T [<-|[<-|[]]]; vm_compute; lia|vm_compute; reflexivity]]].
  destruct (ax_ok by_ddp_intv (ax_sched 2 4) (proj1 (ax_fair _ _))) as (A1 & A2 & A3 & (B1 & B2 & B3 & _ & B5) & A4).
  split; [exact A1|]. split; [exact A2|]. split; [exact A3|]. split; [|exact A4]. split; [exact B1|]. split; [exact B2|]. split; [exact B3|]. split; [reflexivity|exact B5].
Qed.

(** *** Where the full statement fails *)
(** A training row outside the box counts: only the sides of the thresholds are compared. *)
Theorem C137_box_refuted : exists d w es Ts r a D Y sched res ws i j,
  es <> [] /\ Forall2 (holds d w) es Ts /\ well_called r a /\ In r [ddp_cond; cdp_cond] /\ table (g_X a) (g_y a) /\ table D Y /\
  complete (S (length Ts)) (length (g_X a)) sched /\ calm ex_calm Ts /\ plenty r 1 a D Ts /\
  explain d es ex_calm true ag_q r a D Y 1 T_none sched = Some (Returned res) /\ r_weights res = Some ws /\ i < length (g_X a) /\ j < length D /\
  ~ in_box (set_at (g_S a) i) (nth i (g_cond a) rule0) (nth j D (fun _ => 0%Q)) /\ (0 < nth i ws (fun _ => 0) j)%Q.
Proof.
  destruct (C137_weights_partial 2 1 ag_es ag_Ts ex_calm true ag_q ddp_cond bx_args ag_D ag_Y 1 T_none ag_sched (fun _ => (0, 0)%Q)) as (res & ws & E & Ew & L & V);
    try (split; (reflexivity || discriminate)); try discriminate; try exact ag_holds; try exact bx_calm; try (now left).
  - apply bx_called. now left.
  - apply (ag_call sdp_rf). now left.
  - apply bx_plenty. now left.
  - exists 2, 1, ag_es, ag_Ts, ddp_cond, bx_args, ag_D, ag_Y, ag_sched, res, ws, 0, 3.
    split; [discriminate|]. split; [exact ag_holds|]. split; [apply bx_called; now left|]. split; [now left|].
    split; [split; (reflexivity || discriminate)|]. split; [split; (reflexivity || discriminate)|]. split; [apply (ag_call sdp_rf); now left|].
    split; [exact bx_calm|]. split; [apply bx_plenty; now left|]. split; [exact E|]. split; [exact Ew|]. split; [cbn; lia|]. split; [cbn; lia|]. split.
    + intro K. destruct (K 1) as [_ K2]; [cbn; intros [F|[]]; discriminate|]. vm_compute in K2. now apply K2.
    + rewrite V by (cbn; lia). vm_compute. reflexivity.
Qed.
Print Assumptions C137_box_refuted.
(** [compute_cdp_intv] with a classifier: the share of the other classes is returned, not of the same class as [compute_cdp_cond] does. *)
Theorem C137_class_refuted : exists d w es Ts a D Y sched res i,
  es <> [] /\ Forall2 (holds d w) es Ts /\ well_called cdp_intv a /\ table (g_X a) (g_y a) /\ table D Y /\
  complete (S (length Ts)) (length (g_X a)) sched /\ calm ex_calm Ts /\ plenty cdp_intv 1 a D Ts /\
  explain d es ex_calm true ag_q cdp_intv a D Y 1 T_none sched = Some (Returned res) /\ i < length (g_X a) /\
  ~ (nth i (r_sdp res) 0 == mean_over (fun T => mean_over (fun j => if Qeq_bool (nth i (g_y a) 0) (nth j Y 0) then 1 else 0)
       (companions (intv_guide (set_at (g_S a) i) (nth i (g_cond a) rule0)) T D)) Ts)%Q.
Proof.
  destruct (C137_values_partial 2 1 ag_es ag_Ts ex_calm true ag_q cdp_intv bx_args ag_D ag_Y 1 T_none ag_sched (fun _ => (0, 0)%Q)) as (res & E & L & V);
    try (split; (reflexivity || discriminate)); try discriminate; try exact ag_holds; try exact bx_calm; try (now left).
  - apply bx_called. cbn; tauto.
  - apply (ag_call sdp_rf). now left.
  - apply bx_plenty. cbn; tauto.
  - exists 2, 1, ag_es, ag_Ts, bx_args, ag_D, ag_Y, ag_sched, res, 0.
    split; [discriminate|]. split; [exact ag_holds|]. split; [apply bx_called; cbn; tauto|].
    split; [split; (reflexivity || discriminate)|]. split; [split; (reflexivity || discriminate)|]. split; [apply (ag_call sdp_rf); now left|].
    split; [exact bx_calm|]. split; [apply bx_plenty; cbn; tauto|]. split; [exact E|]. split; [cbn; lia|].
    rewrite V by (cbn; lia). vm_compute. discriminate.
Qed.
Print Assumptions C137_class_refuted.

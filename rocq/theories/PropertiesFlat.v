(** C105: prediction on the padded arrays of an ensemble with several outputs. *)
From Verif Require Import Base TreeModel TreeSpec TreeProofs FlatModel FlatSpec FlatProofs.
Local Open Scope nat_scope.

(** Every tree has [w] outputs: no read outside the arrays, and output [k] of row [i] is the offset plus the outputs [k]
    of the leaves in which the decision paths of the row end, over the trees kept by the limit. *)
Theorem C105_predict : forall ts w d b limit L n M X miss fuel,
  ts <> [] -> 0 < w -> (forall m, In m ts -> well_formed d w m) -> d <= M ->
  offset_fits b w -> fits ts w d -> (forall m, In m ts -> length (m_vl m) <= fuel) ->
  limit_keeps limit (length ts) L ->
  exists o, ensemble_predict ts 1 b limit fuel n M X miss = Some o /\ len o = (Z.of_nat n * Z.of_nat w)%Z /\
    forall i k, i < n -> k < w -> exists rs, all_give (firstn L ts) (X i) (miss i) rs /\
      (get o (Z.of_nat i * Z.of_nat w + Z.of_nat k)%Z == offset_of b k + sumf (fun r => nth k r 0) rs)%Q.
Proof. exact predict_plain. Qed.
Print Assumptions C105_predict.

(** The same, column by column, as prediction with trees of one output and without padding. *)
Theorem C105_columns : forall ts w d b limit n M X miss fuel,
  ts <> [] -> 0 < w -> (forall m, In m ts -> well_formed d w m) -> d <= M ->
  offset_fits b w -> fits ts w d -> (forall m, In m ts -> length (m_vl m) <= fuel) ->
  exists o, ensemble_predict ts 1 b limit fuel n M X miss = Some o /\
    forall i k, i < n -> k < w ->
      exists v, base_predict (map (fun m => as_tree m k) ts) limit (offset_of b k) (X i) (miss i) = Some v /\
        (get o (Z.of_nat i * Z.of_nat w + Z.of_nat k)%Z == v)%Q.
Proof. exact predict_columns. Qed.
Print Assumptions C105_columns.

(** [K] stacked models: tree [j] counts for class [j mod K] only. *)
Theorem C105_stacked : forall ts K d b limit L n M X miss fuel,
  ts <> [] -> 1 < K -> length ts mod K = 0 -> (forall m, In m ts -> well_formed d 1 m) -> d <= M ->
  offset_fits b K -> fits ts K d -> (forall m, In m ts -> length (m_vl m) <= fuel) ->
  limit_keeps limit (length ts) L ->
  exists o, ensemble_predict ts K b limit fuel n M X miss = Some o /\ len o = (Z.of_nat n * Z.of_nat K)%Z /\
    forall i k, i < n -> k < K -> exists rs, all_give (firstn L ts) (X i) (miss i) rs /\
      (get o (Z.of_nat i * Z.of_nat K + Z.of_nat k)%Z == offset_of b k + class_sum K k rs)%Q.
Proof. exact predict_stacked. Qed.
Print Assumptions C105_stacked.

(** When the number of trees kept is a number of whole rounds, every class gets one tree of every round. *)
Theorem C105_rounds_partial : forall K k rs R, k < K -> length rs = R * K ->
  (class_sum K k rs == sumf (fun q => nth 0 (nth (q * K + k) rs []) 0) (seq 0 R))%Q.
Proof. exact class_sum_rounds. Qed.
Print Assumptions C105_rounds_partial.

Definition stump := mkM [1; -1; -1]%Z [2; -1; -1]%Z [1; -1; -1]%Z [0; -2; -2]%Z [1#2; 0; 0]%Q
                        [[0; 0]; [1; 3]; [2; 5]]%Q.
Definition single := mkM [-1]%Z [-1]%Z [-1]%Z [-2]%Z [0]%Q [[10; 20]]%Q.
Definition one_leaf (v : Q) := mkM [-1]%Z [-1]%Z [-1]%Z [-2]%Z [0]%Q [[v]].
Definition cells (o : option (arr Q)) (n : nat) : list Q :=
  match o with Some a => map (fun i => Qred (get a (Z.of_nat i))) (seq 0 n) | None => [] end.

Lemma stump_wf : forall m, In m [stump; single] -> well_formed 1 2 m.
Proof.
  intros m [<-|[<-|[]]]; (split; [reflexivity|]); intros r Hr; cbn in Hr;
    repeat (destruct Hr as [<-|Hr]; [reflexivity|]); contradiction.
Qed.
(** three rows, the last one with a missing value; two outputs, an offset for each *)
Example C105_predict_example :
  cells (ensemble_predict [stump; single] 1 (Vector [100; 200]%Q) (-1) 3 3 1
           (fun i _ => Qn i) (fun i _ => i =? 2)) 6 = [111; 223; 112; 225; 111; 223]%Q /\
  limit_keeps (-1) 2 2 /\ offset_fits (Vector [100; 200]%Q) 2 /\ fits [stump; single] 2 1 /\
  (forall m, In m [stump; single] -> well_formed 1 2 m).
Proof.
  split; [vm_compute; reflexivity|]. split; [right; cbn; lia|]. split; [reflexivity|].
  split; [exists 3; split; [intros m [<-|[<-|[]]]; cbn; lia|cbn; lia]|exact stump_wf].
Qed.
Example C105_stacked_example :
  cells (ensemble_predict (map one_leaf [1; 2; 3; 4; 5; 6]%Q) 3 (Scalar (1#2)) (-1) 1 1 1 (fun _ _ => 0%Q) (fun _ _ => false)) 3
    = [11#2; 15#2; 19#2]%Q /\
  forall m, In m (map one_leaf [1; 2; 3; 4; 5; 6]%Q) -> well_formed 1 1 m.
Proof.
  split; [vm_compute; reflexivity|]. intros m Hm. cbn in Hm.
  repeat (destruct Hm as [<-|Hm]; [split; [reflexivity|intros r [<-|[]]; reflexivity]|]). contradiction.
Qed.
Example C105_rounds_example :
  (class_sum 2 1 [[1]; [2]; [3]; [4]] == 6)%Q /\ length [[1]; [2]; [3]; [4]]%Q = 2 * 2.
Proof. split; reflexivity. Qed.

(** The limit counts trees, not rounds: a limit inside a round leaves classes with different numbers of rounds. *)
Theorem C105_limit_refuted : exists ts K limit o, 1 < K /\ length ts mod K = 0 /\
  (forall m, In m ts -> well_formed 1 1 m) /\
  ensemble_predict ts K (Scalar 0) limit 1 1 1 (fun _ _ => 0%Q) (fun _ _ => false) = Some o /\
  forall R, ~ forall k, k < K ->
    (get o (Z.of_nat k) == sumf (fun q => nth 0 (nth (q * K + k) (map (fun m => nth 0 (m_vl m) []) ts) []) 0) (seq 0 R))%Q.
Proof.
  exists [one_leaf 1; one_leaf 1], 2, 1%Z. eexists. split; [lia|]. split; [reflexivity|]. split.
  { intros m [<-|[<-|[]]]; (split; [reflexivity|intros r [<-|[]]; reflexivity]). }
  split; [vm_compute; reflexivity|]. intros R H. destruct R as [|R].
  - specialize (H 0 ltac:(lia)). cbv in H. discriminate.
  - specialize (H 1 ltac:(lia)). cbn [seq sumf] in H.
    assert (Hn : (0 <= sumf (fun q => nth 0 (nth (q * 2 + 1) (map (fun m => nth 0 (m_vl m) []) [one_leaf 1; one_leaf 1]) []) 0) (seq 1 R))%Q).
    { apply sumf_nonneg. intros a _. destruct (a * 2 + 1) as [|[|p]]; cbn; [lra|lra|]. destruct p; cbn; lra. }
    change (nth 0 (nth (0 * 2 + 1) (map (fun m => nth 0 (m_vl m) []) [one_leaf 1; one_leaf 1]) []) 0%Q) with 1%Q in H.
    cbn [Z.of_nat Pos.of_succ_nat get Z.eqb Z.add] in H. cbv [Z.mul Z.of_nat Pos.of_succ_nat] in H.
    match type of H with (?l == _)%Q => assert (El : (l == 0)%Q) by reflexivity; pose proof (Qeq_trans _ _ _ (Qeq_sym _ _ El) H) as H2 end. lra.
Qed.
Print Assumptions C105_limit_refuted.

(** The number of columns is not checked: with fewer columns than the trees use, the result for a row is read from the
    next row. *)
Theorem C105_columns_refuted : exists ts X X' o o', (forall m, In m ts -> well_formed 2 1 m) /\ X 0 = X' 0 /\
  ensemble_predict ts 1 (Scalar 0) (-1) 5 2 1 X (fun _ _ => false) = Some o /\
  ensemble_predict ts 1 (Scalar 0) (-1) 5 2 1 X' (fun _ _ => false) = Some o' /\
  ~ (get o 0%Z == get o' 0%Z)%Q.
Proof.
  exists [mkM [1; 3; -1; -1; -1]%Z [2; 4; -1; -1; -1]%Z [1; 3; -1; -1; -1]%Z [0; 1; -2; -2; -2]%Z [1#2; 5#2; 0; 0; 0]%Q
              [[0]; [0]; [1]; [2]; [3]]%Q],
         (fun i _ => match i with 0 => 0%Q | _ => 2%Q end), (fun i _ => match i with 0 => 0%Q | _ => 3%Q end).
  do 2 eexists. split.
  { intros m [<-|[]]. split; [reflexivity|]. intros r Hr. cbn in Hr.
    repeat (destruct Hr as [<-|Hr]; [reflexivity|]). contradiction. }
  split; [reflexivity|]. split; [vm_compute; reflexivity|]. split; [vm_compute; reflexivity|]. vm_compute. discriminate.
Qed.
Print Assumptions C105_columns_refuted.

(** Indexes wrap around at 2^32: in arrays of the announced sizes the value returned is not the one of the leaf. *)
Theorem C105_size_refuted : exists e l o, let cells := e_max e in
  len (e_cl e) = cells /\ len (e_cr e) = cells /\ len (e_cd e) = cells /\ len (e_ft e) = cells /\ len (e_th e) = cells /\
  len (e_vl e) = (cells * e_out e)%Z /\ (0 < l < cells)%Z /\ (cells <= 2 ^ 31)%Z /\
  get (e_cl e) 0%Z = l /\ get (e_cr e) 0%Z = l /\ get (e_cl e) l = (-1)%Z /\ get (e_off e) 0%Z = 0%Q /\
  flat_predict e (mkArr 1 (fun _ => 0%Q)) (mkArr 1 (fun _ => false)) 1 2 1 (mkArr (e_out e) (fun _ => 0%Q)) = Some o /\
  (get (e_vl e) (l * e_out e)%Z == 7)%Q /\ (get o 0%Z == 0)%Q.
Proof.
  set (big := 2147483647%Z).
  set (ch := mkArr 2147483648%Z (fun i => if (i =? 0)%Z then big else (-1)%Z)).
  exists (mkE ch ch ch (mkArr 2147483648 (fun _ => 0))%Z (mkArr 2147483648%Z (fun _ => 0%Q))
             (mkArr 6442450944%Z (fun p => if (p =? 6442450941)%Z then 7%Q else 0%Q)) (mkArr 3 (fun _ => 0%Q)) 1 2147483648 3),
         big.
  eexists. cbv zeta. repeat split; try (vm_compute; reflexivity); vm_compute; discriminate.
Qed.
Print Assumptions C105_size_refuted.

(** Models of [c] classes loaded with their number of classes: one output per class. *)
Theorem C105_classes_partial : forall c src ts d b n M X miss fuel, 2 < c ->
  src = Xgboost c \/ src = LgbmClassifier c \/ src = HistClassifier c ->
  ts <> [] -> length ts mod c = 0 -> (forall m, In m ts -> well_formed d 1 m) -> d <= M ->
  offset_fits b c -> fits ts c d -> (forall m, In m ts -> length (m_vl m) <= fuel) ->
  exists o, ensemble_predict ts (stacked_models src) b (-1) fuel n M X miss = Some o /\
    forall i k, i < n -> k < c -> exists rs, all_give ts (X i) (miss i) rs /\
      (get o (Z.of_nat i * Z.of_nat c + Z.of_nat k)%Z == offset_of b k
         + sumf (fun q => nth 0 (nth (q * c + k) rs []) 0) (seq 0 (length ts / c)))%Q.
Proof. exact predict_classes. Qed.
Print Assumptions C105_classes_partial.
Example C105_classes_example : stacked_models (LgbmClassifier 3) = 3 /\ length (map one_leaf [1; 2; 3; 4; 5; 6]%Q) mod 3 = 0 /\
  fits (map one_leaf [1; 2; 3; 4; 5; 6]%Q) 3 1.
Proof.
  split; [reflexivity|]. split; [reflexivity|]. exists 1. split; [|cbn; lia]. intros m Hm. cbn in Hm.
  repeat (destruct Hm as [<-|Hm]; [cbn; lia|]). contradiction.
Qed.
(** A booster loaded without its classifier adds the trees of all classes together. *)
Theorem C105_booster_refuted : exists c ts, 2 < c /\ (forall m, In m ts -> well_formed 1 1 m) /\ length ts mod c = 0 /\
  exists o, ensemble_predict ts (stacked_models (LgbmBooster c)) (Scalar 0) (-1) 1 1 1 (fun _ _ => 0%Q) (fun _ _ => false) = Some o /\
  len o = 1%Z /\ (get o 0%Z == 1 + 2 + 3)%Q.
Proof.
  exists 3, (map one_leaf [1; 2; 3]%Q). split; [lia|]. split.
  { intros m Hm. cbn in Hm. repeat (destruct Hm as [<-|Hm]; [split; [reflexivity|intros r [<-|[]]; reflexivity]|]). contradiction. }
  split; [reflexivity|]. eexists. split; [vm_compute; reflexivity|]. split; reflexivity.
Qed.
Print Assumptions C105_booster_refuted.

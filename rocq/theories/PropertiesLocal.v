(** Marginal same-decision probabilities, local importances, clusters of variables. *)
From Verif Require Import Base GameSpec ShapSpec ShapModel SwingModel LocalModel LocalSpec LocalProofs.

(** C43: for one observation, the importance of every column is the share of its
    explanations that contain the column. *)
Theorem C43_one : forall d coals, explanations_ok d coals ->
  exists f, compute_local_sdp_one d coals = Some f /\ forall j, (f j == share_with j coals)%Q.
Proof. exact local_one. Qed.
Print Assumptions C43_one.
Theorem C43_range : forall j coals, coals <> [] -> (0 <= share_with j coals <= 1)%Q.
Proof. exact share_bounds. Qed.
Print Assumptions C43_range.
Theorem C43_always : forall j coals, coals <> [] ->
  ((share_with j coals == 1)%Q <-> forall c, In c coals -> In j c).
Proof. exact share_one. Qed.
Print Assumptions C43_always.
Theorem C43_never : forall j coals, coals <> [] ->
  ((share_with j coals == 0)%Q <-> forall c, In c coals -> ~ In j c).
Proof. exact share_zero. Qed.
Print Assumptions C43_never.
(** Several observations: the average over the observations that have explanations,
    and a NaN exactly when none has. *)
Theorem C43_average : forall d all, (forall coals, In coals all -> explanations_ok d coals) ->
  (answered all = [] /\ compute_local_sdp d all = Some None) \/
  (answered all <> [] /\ exists f, compute_local_sdp d all = Some (Some f) /\
     forall j, (f j == sumf (share_with j) (answered all) / Qn (length (answered all)))%Q).
Proof. exact local_importance. Qed.
Print Assumptions C43_average.
Theorem C43_average_range : forall d all f j, (forall coals, In coals all -> explanations_ok d coals) ->
  compute_local_sdp d all = Some (Some f) ->
  (0 <= f j <= 1)%Q /\
  ((f j == 1)%Q <-> forall coals c, In coals all -> In c coals -> In j c).
Proof. exact local_importance_range. Qed.
Print Assumptions C43_average_range.
(** It raises exactly when some explanation names a column that does not exist. *)
Theorem C43_raises : forall d all, compute_local_sdp d all = None <->
  exists coals c k, In coals all /\ In c coals /\ In k c /\ d <= k.
Proof. exact local_raises. Qed.
Print Assumptions C43_raises.
Example C43_example :
  explanations_ok 3 [[0; 1]; [1]; [1; 2]] /\
  option_map (fun f => (f 0, f 1, f 2)) (compute_local_sdp_one 3 [[0; 1]; [1]; [1; 2]]) = Some (1 # 3, 3 # 3, 1 # 3)%Q /\
  match compute_local_sdp 3 [[[0; 1]; [1]]; []; [[1; 2]]] with
  | Some (Some f) => (f 0%nat == 1 # 4)%Q /\ (f 1%nat == 1)%Q /\ (f 2%nat == 1 # 2)%Q
  | _ => False
  end /\
  compute_local_sdp 3 [[]; []] = Some None /\ compute_local_sdp 2 [[[0; 1]; [2]]] = None.
Proof.
  split.
  { intros c [<-|[<-|[<-|[]]]]; (split; [repeat (constructor; [cbn; intuition lia|]); constructor|cbn; intuition lia]). }
  repeat split; reflexivity.
Qed.

(** C44: the marginal probability of a set of columns is the share of the rows that
    keep the decision once these columns are fixed. *)
Theorem C44_exact : forall (Y : Type) (predict : pt -> Y) same d S rows x,
  reads predict d -> (forall y, same y y = true) ->
  NoDup S -> (forall k, In k S -> k < d) -> rows <> [] ->
  exists q, single_msdp_with predict same d S rows x = Some q /\
  (q == Qn (length (filter (fun z => same (predict (fun i => if memb i S then x i else z i)) (predict x)) rows))
        / Qn (length rows))%Q.
Proof. exact @msdp_exact. Qed.
Print Assumptions C44_exact.
Theorem C44_range : forall (Y : Type) (predict : pt -> Y) same d S rows x q,
  single_msdp_with predict same d S rows x = Some q -> (0 <= q <= 1)%Q.
Proof. exact @msdp_bounds. Qed.
Print Assumptions C44_range.
Theorem C44_all_fixed : forall (Y : Type) (predict : pt -> Y) same d S rows x q,
  reads predict d -> (forall y, same y y = true) -> (forall i, i < d -> In i S) ->
  single_msdp_with predict same d S rows x = Some q -> (q == 1)%Q.
Proof. exact @msdp_all_fixed. Qed.
Print Assumptions C44_all_fixed.
Theorem C44_none_fixed : forall (Y : Type) (predict : pt -> Y) same d rows x q, 0 < d -> reads predict d ->
  single_msdp_with predict same d [] rows x = Some q ->
  (q == Qn (length (filter (fun z => same (predict z) (predict x)) rows)) / Qn (length rows))%Q.
Proof. exact @msdp_none_fixed. Qed.
Print Assumptions C44_none_fixed.
Theorem C44_undefined : forall (Y : Type) (predict : pt -> Y) same d S rows x,
  single_msdp_with predict same d S rows x = None <-> rows = [] /\ length S <> d.
Proof. exact @msdp_undefined. Qed.
Print Assumptions C44_undefined.
(** The two instances: equality of classes, predictions within a radius. *)
Theorem C44_regression : forall predict thr d S rows x,
  reads predict d -> (0 <= thr)%Q -> NoDup S -> (forall k, In k S -> k < d) -> rows <> [] ->
  exists q, single_msdp_reg predict thr d S rows x = Some q /\
  (q == Qn (length (filter (fun z => close thr (predict (fun i => if memb i S then x i else z i)) (predict x)) rows))
        / Qn (length rows))%Q.
Proof. intros. apply msdp_exact; trivial. intro y. now apply close_refl. Qed.
Print Assumptions C44_regression.
Theorem C44_close : forall thr a b, close thr a b = true <-> (a - b <= thr /\ b - a <= thr)%Q.
Proof. exact close_abs. Qed.
Print Assumptions C44_close.
Theorem C44_radius : forall predict thr thr' d S rows x q q', (thr <= thr')%Q ->
  single_msdp_reg predict thr d S rows x = Some q -> single_msdp_reg predict thr' d S rows x = Some q' -> (q <= q')%Q.
Proof. exact msdp_reg_mono. Qed.
Print Assumptions C44_radius.
Example C44_example :
  let predict := fun z : pt => if qleb (z 0%nat + z 1%nat)%Q 2 then 0 else 1 in
  let row a b := (fun i : nat => match i with 0 => a | _ => b end) : pt in
  let rows := [row 0 0; row 3 0; row 0 3; row 5 5]%Q in
  reads predict 2 /\
  map (fun S => single_msdp predict 2 S rows (row 1 1)%Q) [[]; [0]; [1]; [1; 0]] =
    [Some (1 # 4); Some (2 # 4); Some (2 # 4); Some 1]%Q /\
  msdp predict 2 [row 1 1; row 4 4]%Q [0] rows = [Some (2 # 4); Some (4 # 4)]%Q /\
  single_msdp predict 2 [0] [] (row 1 1)%Q = None /\
  single_msdp_reg (fun z => z 0%nat + z 1%nat)%Q 2 2 [0] rows (row 1 1)%Q = Some (3 # 4)%Q.
Proof.
  cbv zeta. split.
  { intros z z' H. rewrite (H 0), (H 1) by lia. reflexivity. }
  repeat split; reflexivity.
Qed.

(** C79: without declared coalitions, the search always ends and returns, in order,
    smallest sufficient sets of the remaining columns, of the largest probability for their size,
    the radius being multiplied by the decay after each, and the whole remainder when
    no set is sufficient. *)
Theorem C79_clusters_partial : forall P proba decay C thr d, has_coal C = false ->
  exists l, clusters_of P proba decay C thr d = Some l /\
    clusters P (fun tp => ((fst tp * decay)%Q, snd tp)) thr proba (seq 0 d) l.
Proof.
  intros P proba decay C thr d HC.
  destruct (local_sdp_plain P proba decay C HC (S d) thr (seq 0 d) []) as [l H]; [rewrite seq_length; lia|].
  now exists l.
Qed.
Print Assumptions C79_clusters_partial.
Theorem C79_partition_partial : forall P next thr level rest l, clusters P next thr level rest l ->
  Permutation (concat l) rest /\ ~ In [] l.
Proof. exact clusters_partition. Qed.
Print Assumptions C79_partition_partial.
(** The documentation announces that the level of the probability decays: it does not. *)
Theorem C79_documented_refuted : exists P proba decay thr d l,
  (0 < proba <= 1)%Q /\ (0 < decay <= 1)%Q /\ (forall t S, 0 <= P t S <= 1)%Q /\
  clusters_of P proba decay [[]] thr d = Some l /\
  ~ clusters P (fun tp => (fst tp, (snd tp * decay)%Q)) thr proba (seq 0 d) l.
Proof. exact clusters_doc. Qed.
Print Assumptions C79_documented_refuted.
(** With declared coalitions the clusters may leave columns out. *)
Theorem C79_coalitions_refuted : exists P proba decay C thr d l,
  coalitions_ok C d /\ (forall c, In c C -> 2 <= length c) /\ (0 < proba <= 1)%Q /\ (forall t S, 0 <= P t S <= 1)%Q /\
  clusters_of P proba decay C thr d = Some l /\ ~ Permutation (concat l) (seq 0 d).
Proof. exact clusters_coalitions. Qed.
Print Assumptions C79_coalitions_refuted.
Example C79_example :
  clusters_of lw_P (9 # 10) (1 # 2) [[]] 0 3 = Some [[0]; [1; 2]] /\
  clusters_of (fun t S => if memb 0 S then 1 else if memb 2 S then (1 - t) else t)%Q (3 # 4) (1 # 2) [[]] (1 # 2) 4
    = Some [[0]; [2]; [1; 3]].
Proof. split; reflexivity. Qed.

(** C80: without declared coalitions, the count of a column is the share of the rows
    for which a cluster containing the column reaches the level on the data. *)
Theorem C80_share_partial : forall rows proba decay C thr pi d j, has_coal C = false -> rows <> [] ->
  exists cls q,
  Forall2 (fun r cl => clusters (fst r) (fun tp => ((fst tp * decay)%Q, snd tp)) thr proba (seq 0 d) cl) rows cls /\
  global_variable_count rows proba decay C thr pi d j = Some q /\
  (q == Qn (length (filter (fun r => existsb (fun c => memb j c && qleb pi (fst r c)) (snd r)) (combine (map snd rows) cls)))
        / Qn (length rows))%Q /\
  (0 <= q <= 1)%Q.
Proof. exact global_count_plain. Qed.
Print Assumptions C80_share_partial.
Theorem C80_coalitions_refuted : exists rows proba decay C thr pi d j q,
  coalitions_ok C d /\ (forall c, In c C -> 2 <= length c) /\ (0 < proba <= 1)%Q /\
  (forall r t S, In r rows -> (0 <= fst r t S <= 1)%Q /\ (0 <= snd r S <= 1)%Q) /\ (0 < pi <= 1)%Q /\
  global_variable_count rows proba decay C thr pi d j = Some q /\ (1 < q)%Q.
Proof. exact count_coalitions. Qed.
Print Assumptions C80_coalitions_refuted.
Example C80_example :
  match global_variable_count [(lw_P, lw_P 0); (lw_P, fun _ => 0); (lw_P, fun S => if memb 2 S then 1 else 0)]%Q
    (9 # 10) (1 # 2) [[]] 0 (7 # 10) 3 0 with Some q => (q == 1 # 3)%Q | None => False end /\
  match global_variable_count [(lw_P, lw_P 0); (lw_P, fun _ => 0); (lw_P, fun S => if memb 2 S then 1 else 0)]%Q
    (9 # 10) (1 # 2) [[]] 0 (7 # 10) 3 1 with Some q => (q == 1 # 3)%Q | None => False end.
Proof. split; reflexivity. Qed.

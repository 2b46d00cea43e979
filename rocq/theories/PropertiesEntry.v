(** C123, C124: an [ACVTree] from its trees to its conditional expectations and same-decision probabilities.
    [sig] is the logistic function; any function. *)
From Verif Require Import Base TreeModel TreeSpec ShapModel FlatModel FlatSpec SkModel SkSpec SdpModel SdpSpec ArrModel ArrSpec ArrProofs4
  EntryModel EntrySpec EntryProofs2 EntryProofs3 EntryProofs4.
Local Open Scope nat_scope.

(** *** A small ensemble: two trees over two columns with two outputs *)
Definition ex_t1 : mtree := mkM [1; -1; 3; -1; -1]%Z [2; -1; 4; -1; -1]%Z [1; -1; 3; -1; -1]%Z [0; -2; 1; -2; -2]%Z
  [1#2; -2; 3#2; -2; -2]%Q [[0; 0]; [1; 0]; [0; 0]; [1#4; 3#4]; [0; 1]]%Q.
Definition ex_t2 : mtree := mkM [1; -1; -1]%Z [2; -1; -1]%Z [1; -1; -1]%Z [1; -2; -2]%Z [1#2; -2; -2]%Q [[0; 0]; [1; 0]; [1#2; 1#2]]%Q.
Definition ex_ts := [ex_t1; ex_t2].
(** the same trees with one output *)
Definition ex_b1 : mtree := mkM (m_cl ex_t1) (m_cr ex_t1) (m_cd ex_t1) (m_ft ex_t1) (m_th ex_t1) (map (fun r => [nth 1 r 0%Q]) (m_vl ex_t1)).
Definition ex_b2 : mtree := mkM (m_cl ex_t2) (m_cr ex_t2) (m_cd ex_t2) (m_ft ex_t2) (m_th ex_t2) (map (fun r => [nth 1 r 0%Q]) (m_vl ex_t2)).
Definition ex_bs := [ex_b1; ex_b2].
(** some increasing function *)
Definition ex_sig (v : Q) : Q := (v / 2 + (1#4))%Q.
Definition ex_zs : list (list Q) := [[0; 0]; [0; 1]; [1; 0]; [1; 1]; [1; 2]]%Q.
Definition ex_xs : list (list Q) := [[1; 2]; [0; 1]; [1; 0]]%Q.
Definition ex_back (a : acv) (b : nat) : list (nat * nat) := rev (list_prod (seq 0 (t_nb (o_tabs a) b)) (seq 0 3)).
(** the results as lists of fractions *)
Definition plainly {A B} (f : A -> B) (o : outcome (list A)) : outcome (list B) :=
  match o with Returned r => Returned (map f r) | Raised e => Raised e | Stray => Stray end.
Definition on_object (ts : list mtree) (boosted : bool) {A} (f : acv -> outcome A) : outcome A :=
  match construct ex_sig ts 1 boosted 2 with Some a => f a | None => Stray end.
Lemma ex_ok : ensemble_ok ex_ts 1 2 2 2.
Proof.
  split; [discriminate|]. split; [|reflexivity]. intros m [<-|[<-|[]]]; (split; [reflexivity|]); intros r Hr; cbn in Hr;
    repeat (destruct Hr as [<-|Hr]; [reflexivity|]); contradiction.
Qed.
Lemma ex_bok : ensemble_ok ex_bs 1 2 1 1.
Proof.
  split; [discriminate|]. split; [|reflexivity]. intros m [<-|[<-|[]]]; (split; [reflexivity|]); intros r Hr; cbn in Hr;
    repeat (destruct Hr as [<-|Hr]; [reflexivity|]); contradiction.
Qed.
Lemma ex_back_any a : any_order (o_tabs a) (length ex_xs) (ex_back a).
Proof. intros b _. apply Permutation_sym, Permutation_rev. Qed.

(** ** C123: conditional expectations *)

(** The constructor accepts every well-formed ensemble and keeps its number of outputs. *)
Theorem C123_built : forall sig ts stacked boosted d w k, ensemble_ok ts stacked d w k ->
  exists a, construct sig ts stacked boosted d = Some a /\ o_cols a = d /\ o_out a = k.
Proof. intros sig ts stacked boosted d w k H. eexists. split; [exact (construct_form sig ts stacked boosted d w k H)|]. split; reflexivity. Qed.
Print Assumptions C123_built.
Example C123_built_example : ensemble_ok ex_ts 1 2 2 2 /\
  option_map (fun a => (o_cols a, o_out a, t_max (o_tabs a), t_nb (o_tabs a) 1)) (construct ex_sig ex_ts 1 false 2) = Some (2, 2, 3, 2).
Proof. split; [exact ex_ok|reflexivity]. Qed.

(** [compute_exp_cat]: entry [j] of the row of [x] is the mean of output [j] over the background rows that
    have the values of [x] on the given columns. *)
Theorem C123_conditional : forall sig ts stacked boosted d w k a, ensemble_ok ts stacked d w k ->
  construct sig ts stacked boosted d = Some a ->
  forall X xs zs c Sv sched, is_table X d xs -> d <= c -> (forall s, In s Sv -> s < d) -> any_order (o_tabs a) (length xs) sched ->
  entries (acv_exp_cat a sched X (S_array I64 Sv) (M_array F64 c zs)) xs k (fun x j v =>
    forall vs, Forall2 (adds_up (raw_share stacked) ts j) (matching Sv x zs) vs -> (v == mean (fun v => v) vs)%Q).
Proof. exact exp_cat_entries. Qed.
Print Assumptions C123_conditional.
(** given column 0 = 1, the background rows are (1,0), (1,1), (1,2): (5/4, 3/4), (3/4, 5/4), (1/2, 3/2) *)
Example C123_conditional_example : ensemble_ok ex_ts 1 2 2 2 /\ is_table (M_frame 2 ex_xs) 2 ex_xs /\
  (forall a, any_order (o_tabs a) (length ex_xs) (ex_back a)) /\ matching [0] [1; 2]%Q ex_zs = [[1; 0]; [1; 1]; [1; 2]]%Q /\
  plainly (map Qred) (on_object ex_ts false (fun a => acv_exp_cat a (ex_back a) (M_frame 2 ex_xs) (S_array I64 [0]) (M_array F64 2 ex_zs)))
    = Returned [[5#6; 7#6]; [7#4; 1#4]; [5#6; 7#6]]%Q.
Proof.
  split; [exact ex_ok|]. split; [now left|]. split; [exact ex_back_any|]. vm_compute. auto.
Qed.

(** [compute_exp]: the sum over the leaves whose box [x] meets on the columns of the value times the share of background rows. *)
Theorem C123_expectation : forall sig ts stacked boosted d w k a, ensemble_ok ts stacked d w k ->
  construct sig ts stacked boosted d = Some a ->
  forall X xs zs c Sv sched, is_table X d xs -> d <= c -> (forall s, In s Sv -> s < d) -> any_order (o_tabs a) (length xs) sched ->
  entries (acv_exp a sched X (S_array I64 Sv) (M_array F64 c zs)) xs k (fun x j v =>
    exists forest, forest_leaves (shared (raw_share stacked) ts j) = Some forest /\
      (v == plain_sum d (map point zs) Sv (point x) forest)%Q).
Proof. exact exp_entries. Qed.
Print Assumptions C123_expectation.
Example C123_expectation_example : ensemble_ok ex_ts 1 2 2 2 /\
  plainly (map Qred) (on_object ex_ts false (fun a => acv_exp a (ex_back a) (M_list 2 ex_xs) (S_array I64 [0]) (M_array F64 2 ex_zs)))
    = Returned [[13#15; 17#15]; [17#10; 3#10]; [13#15; 17#15]]%Q.
Proof. split; [exact ex_ok|]. vm_compute. reflexivity. Qed.

(** With no column it is the mean output of the background, away from the thresholds ... *)
Theorem C123_average : forall sig ts stacked boosted d w k a, ensemble_ok ts stacked d w k ->
  construct sig ts stacked boosted d = Some a ->
  forall X xs zs c Sv sched, is_table X d xs -> d <= c -> (forall s, In s Sv -> s < d) -> any_order (o_tabs a) (length xs) sched ->
  Sv = [] -> zs <> [] -> (forall z, In z zs -> off_thresholds ts z) ->
  entries (acv_exp a sched X (S_array I64 Sv) (M_array F64 c zs)) xs k (fun x j v =>
    forall vs, Forall2 (adds_up (raw_share stacked) ts j) zs vs -> (v == mean (fun v => v) vs)%Q).
Proof. exact exp_none_entries. Qed.
Print Assumptions C123_average.
(** ... and with all columns the prediction, where every tree has a background row in the leaf of [x]. *)
Theorem C123_prediction : forall sig ts stacked boosted d w k a, ensemble_ok ts stacked d w k ->
  construct sig ts stacked boosted d = Some a ->
  forall X xs zs c Sv sched, is_table X d xs -> d <= c -> (forall s, In s Sv -> s < d) -> any_order (o_tabs a) (length xs) sched ->
  (forall s, s < d -> In s Sv) -> (forall z, In z zs -> off_thresholds ts z) ->
  entries (acv_exp a sched X (S_array I64 Sv) (M_array F64 c zs)) xs k (fun x j v =>
    off_thresholds ts x -> (forall m, In m ts -> exists z, In z zs /\ same_leaf m x z) ->
    forall q, adds_up (raw_share stacked) ts j x q -> (v == q)%Q).
Proof. exact exp_all_entries. Qed.
Print Assumptions C123_prediction.
Lemma ex_off z : In z ex_zs -> off_thresholds ex_ts z.
Proof.
  intros Hz m i [<-|[<-|[]]] Hi Hn; cbn in Hi; cbn in Hz;
    repeat (destruct Hz as [<-|Hz]; [do 5 (destruct i as [|i]; [cbn in *; try lia; intro K; vm_compute in K; discriminate|]); lia|]); contradiction.
Qed.
Example C123_average_example : (forall z, In z ex_zs -> off_thresholds ex_ts z) /\
  plainly (map Qred) (on_object ex_ts false (fun a => acv_exp a (ex_back a) (M_list 2 ex_xs) (S_array I64 []) (M_array F64 2 ex_zs)))
    = Returned [[6#5; 4#5]; [6#5; 4#5]; [6#5; 4#5]]%Q.
Proof. split; [exact ex_off|]. vm_compute. reflexivity. Qed.
Example C123_prediction_example : (forall z, In z ex_zs -> off_thresholds ex_ts z) /\
  plainly (map Qred) (on_object ex_ts false (fun a => acv_exp a (ex_back a) (M_array F32 2 ex_xs) (S_array I64 [1; 0]) (M_array F64 2 ex_zs)))
    = Returned [[1#2; 3#2]; [3#2; 1#2]; [5#4; 3#4]]%Q.
Proof. split; [exact ex_off|]. vm_compute. reflexivity. Qed.

(** [compute_exp_normalized]: not a number exactly when [x] meets a leaf that no background row meets,
    otherwise every tree divided by its total share. *)
Theorem C123_normalised : forall sig ts stacked boosted d w k a, ensemble_ok ts stacked d w k ->
  construct sig ts stacked boosted d = Some a ->
  forall X xs zs c Sv sched, is_table X d xs -> d <= c -> (forall s, In s Sv -> s < d) -> any_order (o_tabs a) (length xs) sched ->
  entries (acv_exp_normalized a sched X (S_array I64 Sv) (M_array F64 c zs)) xs k (fun x j v =>
    exists forest, forest_leaves (shared (raw_share stacked) ts j) = Some forest /\ v <> Dinf /\
     (v = Dnan <-> exists ls lf, In ls forest /\ In lf ls /\ meets (l_rect lf) Sv (point x) /\
         rows_closed (map point zs) (l_rect lf) (seq 0 d) = 0 /\ rows_half (map point zs) (l_rect lf) Sv = 0) /\
     (v <> Dnan -> is_num v (sumf (tree_norm d (map point zs) Sv (point x)) forest))).
Proof. exact norm_entries. Qed.
Print Assumptions C123_normalised.
Definition dred (v : dbl) : dbl := match v with Dnum q => Dnum (Qred q) | Dinf => Dinf | Dnan => Dnan end.
Example C123_normalised_example : ensemble_ok ex_ts 1 2 2 2 /\
  plainly (map dred) (on_object ex_ts false (fun a => acv_exp_normalized a (ex_back a) (M_list 2 ex_xs) (S_array I64 [0]) (M_array F64 2 ex_zs)))
    = Returned [[Dnum (13#15); Dnum (17#15)]; [Dnum (17#10); Dnum (3#10)]; [Dnum (13#15); Dnum (17#15)]] /\
  plainly (map dred) (on_object ex_ts false (fun a => acv_exp_normalized a (ex_back a) (M_list 2 ex_xs) (S_array I64 [1]) (M_array F64 2 [[0; 0]]%Q)))
    = Returned [[Dnan; Dnan]; [Dnan; Dnan]; [Dnum 2; Dnum 0]].
Proof. split; [exact ex_ok|]. vm_compute. auto. Qed.

(** The sequential methods return the same numbers as the parallel ones. *)
Theorem C123_single_threaded : forall sig ts stacked boosted d w k a, ensemble_ok ts stacked d w k ->
  construct sig ts stacked boosted d = Some a ->
  forall X xs zs c Sv sched, is_table X d xs -> d <= c -> (forall s, In s Sv -> s < d) -> any_order (o_tabs a) (length xs) sched ->
  same_table Qeq (acv_exp a sched X (S_array I64 Sv) (M_array F64 c zs)) (acv_exp_nopa a X (S_array I64 Sv) (M_array F64 c zs)) /\
  same_table Qeq (acv_exp_cat a sched X (S_array I64 Sv) (M_array F64 c zs)) (acv_exp_cat_nopa a X (S_array I64 Sv) (M_array F64 c zs)).
Proof.
  intros sig ts stacked boosted d w k a H1 H2 X xs zs c Sv sched H3 H4 H5 H6.
  exact (conj (exp_nopa_same sig ts stacked boosted d w k a H1 H2 X xs zs c Sv sched H3 H4 H5 H6)
              (exp_cat_nopa_same sig ts stacked boosted d w k a H1 H2 X xs zs c Sv sched H3 H4 H5 H6)).
Qed.
Print Assumptions C123_single_threaded.
Example C123_single_threaded_example : ensemble_ok ex_ts 1 2 2 2 /\
  plainly (map Qred) (on_object ex_ts false (fun a => acv_exp_nopa a (M_list 2 ex_xs) (S_array I64 [0]) (M_array F64 2 ex_zs)))
    = Returned [[13#15; 17#15]; [17#10; 3#10]; [13#15; 17#15]]%Q /\
  plainly (map Qred) (on_object ex_ts false (fun a => acv_exp_cat_nopa a (M_list 2 ex_xs) (S_array I64 [0]) (M_array F64 2 ex_zs)))
    = Returned [[5#6; 7#6]; [7#4; 1#4]; [5#6; 7#6]]%Q.
Proof. split; [exact ex_ok|]. vm_compute. auto. Qed.

(** For a forest of scikit-learn the numbers are means over the background of what the forest itself predicts. *)
Theorem C123_forest : forall apl sig reg m es d w, is_forest reg m es -> es <> [] ->
  (forall e, In e es -> sk_ok d w e) -> (reg = false -> forall e, In e es -> SkSpec.counts e) ->
  exists a, construct_sk apl sig m d = Some a /\
  forall X xs c zs Sv sched, is_table X d xs -> d <= c -> (forall s, In s Sv -> s < d) -> any_order (o_tabs a) (length xs) sched ->
  entries (acv_exp_cat a sched X (S_array I64 Sv) (M_array F64 c zs)) xs w (fun x j v =>
    forall vs, Forall2 (fun z q => exists ls, all_land es (point z) no_missing ls /\
                                   (q == over (SkSpec.value_at (negb reg) j) es ls / Qn (length es))%Q) (matching Sv x zs) vs ->
      (v == mean (fun v => v) vs)%Q).
Proof. exact forest_cat_entries. Qed.
Print Assumptions C123_forest.
Definition ex_stump (f : Z) (v1 v2 : list Q) : sk :=
  mkSk [1; -1; -1]%Z [2; -1; -1]%Z [f; -2; -2]%Z [1#2; -2; -2]%Q [[[2; 2]%Q]; [v1]; [v2]] [4; 3; 1]%Z.
Definition ex_es := [ex_stump 0 [3; 1] [0; 2]; ex_stump 1 [1; 0] [1; 3]]%Q.
Example C123_forest_example : is_forest false (ForestClf ex_es) ex_es /\ (forall e, In e ex_es -> sk_ok 2 2 e /\ SkSpec.counts e) /\
  plainly (map Qred) (match construct_sk (fun _ => 0%Q) ex_sig (ForestClf ex_es) 2 with
     | Some a => acv_exp_cat_nopa a (M_list 2 ex_xs) (S_array I64 [1]) (M_array F64 2 ex_zs) | None => Stray end)
   = Returned [[1#8; 7#8]; [5#16; 11#16]; [11#16; 5#16]]%Q.
Proof.
  split; [now left|]. split; [|vm_compute; reflexivity].
  intros e [<-|[<-|[]]]; (split; [split; [reflexivity|split; [reflexivity|]]|]);
    intros r Hr; cbn in Hr; repeat (destruct Hr as [<-|Hr]; [|]); try contradiction; try reflexivity;
    cbn; (split; [intros q Hq; cbn in Hq; repeat (destruct Hq as [<-|Hq]; [vm_compute; discriminate|]); contradiction|vm_compute; reflexivity]).
Qed.

(** Calls that return have an array of longs for the columns and an array of doubles, wide enough, for the background. *)
Theorem C123_arguments : forall a sched X S D res, acv_exp a sched X S D = Returned res \/ acv_exp_cat a sched X S D = Returned res ->
  exists d xs l c zs, is_table X d xs /\ S = S_array I64 l /\ D = M_array F64 c zs /\ d <= c /\ d <= o_cols a.
Proof. intros a sched X S D res [H|H]; exact (exp_call_forms _ _ _ _ _ _ H). Qed.
Print Assumptions C123_arguments.
Example C123_arguments_example :
  plainly (map Qred) (on_object ex_ts false (fun a => acv_exp a (ex_back a) (M_frame 2 ex_xs) (S_array I64 [0; 1]) (M_array F64 3 (map (fun r => r ++ [7%Q]) ex_zs))))
    = Returned [[1#2; 3#2]; [3#2; 1#2]; [5#4; 3#4]]%Q.
Proof. vm_compute. reflexivity. Qed.
(** The lists of columns and the data frames that [compute_sdp_clf] takes are errors here. *)
Theorem C123_forms : forall a sched X d xs l c zs, is_table X d xs ->
  acv_exp a sched X (S_list l) (M_array F64 c zs) = Raised EType /\ acv_exp a sched X (S_array I64 l) (M_frame c zs) = Raised EType.
Proof. intros a sched X d xs l c zs H. exact (conj (exp_call_list a _ X d xs l _ H) (exp_call_frame a _ X d xs l c zs H)). Qed.
Print Assumptions C123_forms.
Theorem C123_forms_refuted : exists a sched proba X l D r, acv_sdp a proba sched X (S_list l) D = Returned r /\
  acv_exp a sched X (S_list l) (M_array F64 2 ex_zs) = Raised EType /\ acv_exp a sched X (S_array I64 l) D = Raised EType.
Proof.
  exists (built ex_sig ex_ts 1 false 2 2), (ex_back (built ex_sig ex_ts 1 false 2 2)),
    (fun m => Returned (map (fun r => if qltb 1 (nth 1 r 0%Q) then [0; 1]%Q else [1; 0]%Q) (rows m))), (M_frame 2 ex_xs), [0], (M_frame 2 ex_zs).
  eexists. split; [vm_compute; reflexivity|]. split; reflexivity.
Qed.
Print Assumptions C123_forms_refuted.
(** Observations with fewer columns than the trees use are not refused, and the number returned is no mean:
    9/4 where the trees never add up to more than 3/2. *)
Lemma ex_bound z v : adds_up (raw_share 1) ex_ts 1 z v -> (v <= 3#2)%Q.
Proof.
  intros (rs & Hr & Hv). inversion Hr as [|m1 r1 ms rs1 (l1 & _ & _ & E1) H2]; subst. inversion H2 as [|m2 r2 ms2 rs2 (l2 & _ & _ & E2) H3]; subst.
  inversion H3; subst. cbn [length seq sumf nth raw_share Nat.ltb Nat.leb] in Hv. rewrite Hv.
  assert (B1 : (nth 1 (nth l1 (m_vl ex_t1) []) 0 <= 1)%Q) by (do 6 (destruct l1 as [|l1]; [vm_compute; discriminate|]); vm_compute; discriminate).
  assert (B2 : (nth 1 (nth l2 (m_vl ex_t2) []) 0 <= 1#2)%Q) by (do 4 (destruct l2 as [|l2]; [vm_compute; discriminate|]); vm_compute; discriminate).
  lra.
Qed.
Theorem C123_narrow_refuted : exists a, construct ex_sig ex_ts 1 false 2 = Some a /\
  (forall z v, adds_up (raw_share 1) ex_ts 1 z v -> (v <= 3#2)%Q) /\
  plainly (map Qred) (acv_exp a (ex_back a) (M_list 1 [[1]; [1]; [1]]%Q) (S_array I64 [0]) (M_array F64 2 ex_zs))
    = Returned [[7#4; 9#4]; [7#4; 9#4]; [7#4; 9#4]]%Q.
Proof. eexists. split; [exact (construct_form ex_sig ex_ts 1 false 2 2 2 ex_ok)|]. split; [exact ex_bound|]. vm_compute. reflexivity. Qed.
Print Assumptions C123_narrow_refuted.
(** The sequential normalised method does not work. *)
Theorem C123_normalised_nopa_refuted : exists a X S D res, acv_exp_normalized a (ex_back a) X S D = Returned res /\
  acv_exp_normalized_nopa X S D = Raised EAttribute.
Proof.
  exists (built ex_sig ex_ts 1 false 2 2), (M_list 2 ex_xs), (S_array I64 [0]), (M_array F64 2 ex_zs).
  eexists. split; [vm_compute; reflexivity|reflexivity].
Qed.
Print Assumptions C123_normalised_nopa_refuted.

(** ** C124: same-decision probabilities of classifiers *)

(** [compute_sdp_clf_cat]: always in [0, 1]; where the two groups of background rows that agree with [x] on the columns,
    those of the class of [x] and the others, have different mean outputs, the share of the first group. *)
Theorem C124_frequency : forall sig ts stacked boosted d w k a, ensemble_ok ts stacked d w k ->
  construct sig ts stacked boosted d = Some a ->
  forall proba X D S xs zs c Sv fX ys, 0 < d -> is_table X d xs -> xs <> [] -> d <= c -> zs <> [] -> is_columns S Sv ->
  (forall s, In s Sv -> s < d) -> forall sched, is_table D c zs ->
  decides_as proba d xs (used_classes boosted k) fX -> decides_as proba c zs (used_classes boosted k) ys ->
  any_order (table_of a) (length xs) sched ->
  numbers (acv_sdp_cat a proba sched X S D) xs fX (fun x f v => (0 <= v <= 1)%Q /\
    (0 < length Sv -> length Sv < d -> (forall z, In z zs -> off_thresholds ts z) ->
     let ms := filter (fun r => same_on Sv (point x) (point (fst r))) (combine zs ys) in
     let same := filter (fun r => snd r =? f) ms in let other := filter (fun r => negb (snd r =? f)) ms in
     ms <> [] -> forall us ws, Forall2 (adds_up (used_share sig ts stacked boosted k) ts f) (map fst same) us ->
     Forall2 (adds_up (used_share sig ts stacked boosted k) ts f) (map fst other) ws ->
     ~ (mean (fun v => v) us == mean (fun v => v) ws)%Q -> (v == Qn (length same) / Qn (length ms))%Q)).
Proof. exact sdp_cat_numbers. Qed.
Print Assumptions C124_frequency.
(** class 1 where the ensemble gives it the greater number *)
Definition ex_proba (m : mat) : outcome (list (list Q)) :=
  Returned (map (fun r => if qltb 0 (nth 0 r 0%Q) && qltb 0 (nth 1 r 0%Q) then [1#4; 3#4]%Q else [1; 0]%Q) (rows m)).
Lemma ex_classes : decides_as ex_proba 2 ex_xs 2 [1; 0; 0] /\ decides_as ex_proba 2 ex_zs 2 [0; 0; 0; 1; 1].
Proof.
  split; eexists; (split; [vm_compute; reflexivity|]); (split; [reflexivity|]); (split; [intros r Hr; cbn in Hr; intuition (subst; reflexivity)|]);
    repeat constructor; cbn; try lia; try (intros [|[|j]] Hj; try lia; vm_compute; congruence).
Qed.
Lemma ex_order a (Hb : o_boosted a = false) : any_order (table_of a) (length ex_xs) (ex_back a).
Proof. unfold table_of. rewrite Hb. apply ex_back_any. Qed.
Example C124_frequency_example : ensemble_ok ex_ts 1 2 2 2 /\ is_columns (S_list [0]) [0] /\ decides_as ex_proba 2 ex_xs 2 [1; 0; 0] /\
  decides_as ex_proba 2 ex_zs 2 [0; 0; 0; 1; 1] /\ (forall z, In z ex_zs -> off_thresholds ex_ts z) /\
  plainly Qred (on_object ex_ts false (fun a => acv_sdp_cat a ex_proba (ex_back a) (M_frame 2 ex_xs) (S_list [0]) (M_frame 2 ex_zs)))
    = Returned [2#3; 1; 1#3]%Q.
Proof.
  split; [exact ex_ok|]. split; [left; split; [reflexivity|discriminate]|]. split; [apply ex_classes|]. split; [apply ex_classes|]. split; [exact ex_off|].
  vm_compute. reflexivity.
Qed.
(** the same with one raw output and the logistic function *)
Example C124_frequency_boosted_example : ensemble_ok ex_bs 1 2 1 1 /\ used_classes true 1 = 2 /\
  plainly Qred (on_object ex_bs true (fun a => acv_sdp_cat a ex_proba (ex_back a) (M_frame 2 ex_xs) (S_list [0]) (M_frame 2 ex_zs)))
    = Returned [2#3; 1; 1#3]%Q.
Proof. split; [exact ex_bok|]. split; [reflexivity|]. vm_compute. reflexivity. Qed.

(** For a classification forest of scikit-learn the outputs are the mean shares of the class in the leaves, those of C106. *)
Theorem C124_forest : forall apl sig m es d w, is_forest false m es -> es <> [] -> 0 < d ->
  (forall e, In e es -> sk_ok d w e) -> (forall e, In e es -> SkSpec.counts e) ->
  exists a, construct_sk apl sig m d = Some a /\
  forall proba X D S xs zs c Sv fX ys sched, is_table X d xs -> xs <> [] -> d <= c -> zs <> [] -> is_columns S Sv ->
  (forall s, In s Sv -> s < d) -> is_table D c zs -> decides_as proba d xs w fX -> decides_as proba c zs w ys ->
  any_order (o_tabs a) (length xs) sched ->
  numbers (acv_sdp_cat a proba sched X S D) xs fX (fun x f v => (0 <= v <= 1)%Q /\
    (0 < length Sv -> length Sv < d -> (forall z e i, In z zs -> In e es -> i < length (sk_cl e) -> (0 <= nth i (sk_cl e) (-1))%Z ->
        ~ (nth (Z.to_nat (nth i (sk_ft e) (-1)%Z)) z 0 == nth i (sk_th e) 0)%Q) ->
     let ms := filter (fun r => same_on Sv (point x) (point (fst r))) (combine zs ys) in
     let same := filter (fun r => snd r =? f) ms in let other := filter (fun r => negb (snd r =? f)) ms in
     let gives_share z q := exists ls, all_land es (point z) no_missing ls /\ (q == over (SkSpec.share f) es ls / Qn (length es))%Q in
     ms <> [] -> forall us ws, Forall2 gives_share (map fst same) us -> Forall2 gives_share (map fst other) ws ->
     ~ (mean (fun v => v) us == mean (fun v => v) ws)%Q -> (v == Qn (length same) / Qn (length ms))%Q)).
Proof. exact forest_sdp_numbers. Qed.
Print Assumptions C124_forest.
Example C124_forest_example : is_forest false (ForestClf ex_es) ex_es /\
  plainly Qred (match construct_sk (fun _ => 0%Q) ex_sig (ForestClf ex_es) 2 with
     | Some a => acv_sdp_cat a ex_proba (ex_back a) (M_list 2 ex_xs) (S_list [0]) (M_list 2 ex_zs) | None => Stray end)
   = Returned [2#3; 1; 1#3]%Q.
Proof. split; [now left|vm_compute; reflexivity]. Qed.

(** [compute_sdp_clf] returns the numbers of the one-row model of C17. *)
Theorem C124_refines : forall sig ts stacked boosted d w k a, ensemble_ok ts stacked d w k ->
  construct sig ts stacked boosted d = Some a ->
  forall proba X D S xs zs c Sv fX ys, 0 < d -> is_table X d xs -> xs <> [] -> d <= c -> zs <> [] -> is_columns S Sv ->
  (forall s, In s Sv -> s < d) -> forall sched, is_table D c zs ->
  decides_as proba d xs (used_classes boosted k) fX -> decides_as proba c zs (used_classes boosted k) ys ->
  any_order (table_of a) (length xs) sched ->
  numbers (acv_sdp a proba sched X S D) xs fX (fun x f v =>
    exists forest, forest_leaves (shared (used_share sig ts stacked boosted k) ts f) = Some forest /\
      (v == compute_sdp_clf d (combine (map point zs) ys) f Sv forest (point x))%Q).
Proof. exact sdp_numbers. Qed.
Print Assumptions C124_refines.
Example C124_refines_example : ensemble_ok ex_ts 1 2 2 2 /\ (forall a, o_boosted a = false -> any_order (table_of a) (length ex_xs) (ex_back a)) /\
  plainly Qred (on_object ex_ts false (fun a => acv_sdp a ex_proba (ex_back a) (M_frame 2 ex_xs) (S_column I64 [0]) (M_frame 2 ex_zs)))
    = Returned [26#55; 9#10; 29#55]%Q.
Proof. split; [exact ex_ok|]. split; [exact ex_order|]. vm_compute. reflexivity. Qed.

(** All columns give 1 and no column gives 0. *)
Theorem C124_trivial : forall sig ts stacked boosted d w k a, ensemble_ok ts stacked d w k ->
  construct sig ts stacked boosted d = Some a ->
  forall proba X D S xs zs c Sv fX ys, 0 < d -> is_table X d xs -> xs <> [] -> d <= c -> zs <> [] -> is_columns S Sv ->
  forall sched, is_table D c zs -> decides_as proba d xs (used_classes boosted k) fX -> decides_as proba c zs (used_classes boosted k) ys ->
  (length Sv = d -> acv_sdp a proba sched X S D = Returned (map (fun _ => 1%Q) xs) /\
                    acv_sdp_cat a proba sched X S D = Returned (map (fun _ => 1%Q) xs)) /\
  (Sv = [] -> acv_sdp a proba sched X S D = Returned (map (fun _ => 0%Q) xs) /\
              acv_sdp_cat a proba sched X S D = Returned (map (fun _ => 0%Q) xs)).
Proof. exact sdp_trivial. Qed.
Print Assumptions C124_trivial.
Example C124_trivial_example : is_columns (S_array I64 []) [] /\
  on_object ex_ts false (fun a => acv_sdp a ex_proba (ex_back a) (M_frame 2 ex_xs) (S_list [1; 0]) (M_frame 2 ex_zs)) = Returned [1; 1; 1]%Q /\
  on_object ex_ts false (fun a => acv_sdp a ex_proba (ex_back a) (M_frame 2 ex_xs) (S_array I64 []) (M_frame 2 ex_zs)) = Returned [0; 0; 0]%Q.
Proof. split; [right; now left|]. vm_compute. auto. Qed.
(** But the empty list, which stands for no column, is a ValueError: the array made of it has doubles. *)
Theorem C124_empty : forall a proba sched X D d xs zs c n fX ys, is_table X d xs -> 0 < d -> xs <> [] -> is_table D c zs -> 0 < c -> zs <> [] ->
  decides_as proba d xs n fX -> decides_as proba c zs n ys -> acv_sdp a proba sched X (S_list []) D = Raised EValue.
Proof. exact sdp_empty_list. Qed.
Print Assumptions C124_empty.
Theorem C124_empty_refuted : exists a proba sched X D r, acv_sdp a proba sched X (S_array I64 []) D = Returned r /\
  acv_sdp a proba sched X (S_list []) D = Raised EValue.
Proof.
  exists (built ex_sig ex_ts 1 false 2 2), ex_proba, (ex_back (built ex_sig ex_ts 1 false 2 2)), (M_frame 2 ex_xs), (M_frame 2 ex_zs).
  eexists. split; vm_compute; reflexivity.
Qed.
Print Assumptions C124_empty_refuted.

(** The sequential methods return the same numbers as the parallel ones, but for boosted classifiers with one raw output. *)
Theorem C124_single_threaded_partial : forall sig ts stacked boosted d w k a, ensemble_ok ts stacked d w k ->
  construct sig ts stacked boosted d = Some a ->
  forall proba X D S xs zs c Sv fX ys n, 0 < d -> is_table X d xs -> xs <> [] -> d <= c -> zs <> [] -> is_columns S Sv ->
  (forall s, In s Sv -> s < d) -> is_table D c zs -> decides_as proba d xs n fX -> decides_as proba c zs n ys ->
  boosted && (k =? 1) = false -> n = k -> forall sched, any_order (o_tabs a) (length xs) sched ->
  same_numbers (acv_sdp a proba sched X S D) (acv_sdp_nopa a proba X S D) /\
  (D = M_array F64 c zs -> same_numbers (acv_sdp_cat a proba sched X S D) (acv_sdp_cat_nopa a proba X S D)).
Proof.
  intros sig ts stacked boosted d w k a H1 H2 proba X D S xs zs c Sv fX ys n H3 H4 H5 H6 H7 H8 H9 H10 H11 H12 H13 H14 sched H15.
  exact (conj (sdp_nopa_same sig ts stacked boosted d w k a H1 H2 proba X D S xs zs c Sv fX ys n H3 H4 H5 H6 H7 H8 H9 H10 H11 H12 H13 H14 sched H15)
              (sdp_cat_nopa_same sig ts stacked boosted d w k a H1 H2 proba X D S xs zs c Sv fX ys n H3 H4 H5 H6 H7 H8 H9 H10 H11 H12 H13 H14 sched H15)).
Qed.
Print Assumptions C124_single_threaded_partial.
Example C124_single_threaded_example : ensemble_ok ex_ts 1 2 2 2 /\
  plainly Qred (on_object ex_ts false (fun a => acv_sdp_cat_nopa a ex_proba (M_frame 2 ex_xs) (S_list [0]) (M_array F64 2 ex_zs)))
    = Returned [2#3; 1; 1#3]%Q /\
  plainly Qred (on_object ex_ts false (fun a => acv_sdp_nopa a ex_proba (M_frame 2 ex_xs) (S_list [0]) (M_frame 2 ex_zs)))
    = Returned [26#55; 9#10; 29#55]%Q.
Proof. split; [exact ex_ok|]. vm_compute. auto. Qed.
(** For those they read a column past the end of the values at every observation of class 1 that agrees with a background row. *)
Theorem C124_single_threaded_boosted : forall sig ts stacked boosted d w k a, ensemble_ok ts stacked d w k ->
  construct sig ts stacked boosted d = Some a ->
  forall proba X D S xs zs c Sv fX ys n, 0 < d -> is_table X d xs -> xs <> [] -> d <= c -> zs <> [] -> is_columns S Sv ->
  (forall s, In s Sv -> s < d) -> is_table D c zs -> decides_as proba d xs n fX -> decides_as proba c zs n ys ->
  k = 1 -> forall i x, nth_error xs i = Some x -> nth_error fX i = Some 1 -> 0 < length Sv -> length Sv < d ->
  (exists z, In z zs /\ same_on Sv (point x) (point z) = true) ->
  acv_sdp_nopa a proba X S D = Stray /\ (D = M_array F64 c zs -> acv_sdp_cat_nopa a proba X S D = Stray).
Proof.
  intros sig ts stacked boosted d w k a H1 H2 proba X D S xs zs c Sv fX ys n H3 H4 H5 H6 H7 H8 H9 H10 H11 H12 H13 i x H14 H15 H16 H17 H18.
  exact (conj (sdp_nopa_stray sig ts stacked boosted d w k a H1 H2 proba X D S xs zs c Sv fX ys n H3 H4 H5 H6 H7 H8 H9 H10 H11 H12 H13 i x H14 H15 H16 H17 H18)
              (sdp_cat_nopa_stray sig ts stacked boosted d w k a H1 H2 proba X D S xs zs c Sv fX ys n H3 H4 H5 H6 H7 H8 H9 H10 H11 H12 H13 i x H14 H15 H16 H17 H18)).
Qed.
Print Assumptions C124_single_threaded_boosted.
Theorem C124_single_threaded_refuted : exists a proba sched X S D r, acv_sdp a proba sched X S D = Returned r /\ acv_sdp_nopa a proba X S D = Stray.
Proof.
  exists (built ex_sig ex_bs 1 true 2 1), ex_proba, (ex_back (built ex_sig ex_bs 1 true 2 1)), (M_frame 2 ex_xs), (S_list [0]), (M_frame 2 ex_zs).
  eexists. split; vm_compute; reflexivity.
Qed.
Print Assumptions C124_single_threaded_refuted.
(** And [compute_sdp_clf_cat_nopa] alone does not convert its background. *)
Theorem C124_background_refuted : exists a proba sched X S D r, acv_sdp_cat a proba sched X S D = Returned r /\ acv_sdp_cat_nopa a proba X S D = Raised EType.
Proof.
  exists (built ex_sig ex_ts 1 false 2 2), ex_proba, (ex_back (built ex_sig ex_ts 1 false 2 2)), (M_frame 2 ex_xs), (S_list [0]), (M_frame 2 ex_zs).
  eexists. split; vm_compute; reflexivity.
Qed.
Print Assumptions C124_background_refuted.

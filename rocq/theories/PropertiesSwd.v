(** C150: the swing values of an [ACVTree] for classifiers computed from the differences ([swing_sv_clf], [swing_sv_clf_nopa]), from its
    trees to the arrays returned.  [listed] lists a set in whatever order, [sig] is the logistic function, [proba] is [predict_proba],
    [junk] is what np.empty leaves, [order] and [adding] are the orders of the threads, [stray] gives the tests on variables that no
    statement has assigned; any functions. *)
From Verif Require Import Base TreeModel TreeSpec GameSpec ShapModel ShapSpec FlatModel FlatSpec SkModel SkSpec SdpSpec ArrSpec SwingModel SwingSpec SwingProofs ExplSpec
  ArrModel EntryModel EntrySpec SbufModel SbufSpec SbufProofs2 ImpModel ImpSpec SwgModel SwgSpec SwgProofs2 SwdModel SwdSpec SwdProofs2
  PropertiesEntry PropertiesSbuf PropertiesImp PropertiesSwg.
Local Open Scope nat_scope.

Definition ex_passes (va c b : nat) : list (nat * nat) := rev (ex_pairs ex_ts 3 b).
Lemma ex_pass_orders : pass_orders ex_ts (length ex_xs) ex_passes ex_adding.
Proof.
  split; [|apply ex_row_orders]. intros va c b m Hm. unfold ex_passes. eapply Permutation_trans; [apply Permutation_sym, Permutation_rev|].
  exact (ex_pairs_ok ex_ts 3 b m Hm).
Qed.
Definition ex_direct (stray : group -> bool * bool * bool) (thr : Q) : outcome (list (list (Q * Q * Q * list nat))) :=
  on_shap ex_ts (M_list 2 ex_zs) (fun h => plainly (map ex_six) (acv_direct h ex_proba ex_passes ex_adding ex_junk stray (M_frame 2 ex_xs) (M_array F64 2 ex_zs) [[]] thr)).
Lemma ex_players : is_players [[]] 2 [[0]; [1]].
Proof.
  split; [repeat constructor; cbn; intuition congruence|]. intro g. cbn. split.
  - intros [<-|[<-|[]]]; right; [exists 0|exists 1]; repeat split; auto.
  - intros [[[<-|[]] H]|(i & Hi & _ & ->)]; [congruence|]. destruct i as [|[|i]]; [now left|right; now left|lia].
Qed.
Lemma ex_object : exists h, construct_shap ex_listed ex_sig ex_ts 1 false (M_list 2 ex_zs) = Some h /\
  explainable ex_listed ex_sig ex_ts 1 false 2 2 2 h ex_proba (M_frame 2 ex_xs) (M_array F64 2 ex_zs) ex_xs ex_zs [1; 0; 0] [0; 0; 0; 1; 1] [[]].
Proof. destruct (ex_explainable (M_frame 2 ex_xs) (M_array F64 2 ex_zs)) as (h & E & H); [now left|right; right; now exists F64|]. now exists h. Qed.

(** *** Values *)
(** Every column gets the weighted mean of the changes its player makes, the parts from gains and losses and the three counts; off the
    thresholds a change to a nonempty set tells whether the share explained by the class reaches the level with and without the player,
    both over the leaves that agree with the observation on the set and the player. Partial: what a player changes for the empty set
    depends on variables that have no value (see [C150_stray_refuted]), and gradient boosting with two classes is excluded (see
    [C150_boosted_refuted]). *)
Theorem C150_changes_partial : forall listed sig ts stacked boosted d w k h proba X xs zs fX ys C,
  explainable listed sig ts stacked boosted d w k h proba X (M_array F64 d zs) xs zs fX ys C -> (forall f, In f fX -> f < k) ->
  forall order adding junk stray thr, pass_orders ts (length xs) order adding ->
  swing_entries (acv_direct h proba order adding junk stray X (M_array F64 d zs) C thr) xs fX d (fun x f r =>
    exists forest D, forest_leaves (shared (raw_share stacked) ts f) = Some forest /\
      (off_thresholds ts x -> (forall z, In z zs -> off_thresholds ts z) ->
       forall g, level_change d (combine (map point zs) ys) f thr forest (point x) g (fun S => D S g)) /\
      forall P g c, is_players C d P -> In g P -> In c g ->
        swing_parts (fun S => D S g) P g (sw_phi (r c)) (sw_pos (r c)) (sw_neg (r c)) (n_pos (r c)) (n_neg (r c)) (n_null (r c))).
Proof. exact direct_values. Qed.
Print Assumptions C150_changes_partial.
Example C150_changes_example : (exists h,
  explainable ex_listed ex_sig ex_ts 1 false 2 2 2 h ex_proba (M_frame 2 ex_xs) (M_array F64 2 ex_zs) ex_xs ex_zs [1; 0; 0] [0; 0; 0; 1; 1] [[]]) /\
  (forall f, In f [1; 0; 0] -> f < 2) /\ pass_orders ex_ts (length ex_xs) ex_passes ex_adding /\ is_players [[]] 2 [[0]; [1]] /\
  (forall z, In z ex_zs -> off_thresholds ex_ts z) /\ incl ex_xs ex_zs /\
  ex_direct (fun _ => (true, true, false)) (9#10) =
    Returned [[(0, 0, 0, [0; 0; 2]%nat); (0, 0, 0, [0; 0; 2]%nat)]; [(1#2, 1#2, 0, [1; 0; 1]%nat); (0, 0, 0, [0; 0; 2]%nat)];
              [(0, 0, 0, [0; 0; 2]%nat); (1#2, 1#2, 0, [1; 0; 1]%nat)]]%Q.
Proof.
  split; [destruct ex_object as (h & _ & E); now exists h|]. split; [cbn; intuition lia|]. split; [exact ex_pass_orders|]. split; [exact ex_players|].
  split; [exact ex_off|]. split; [intros x [<-|[<-|[<-|[]]]]; cbn; tauto|vm_compute; reflexivity].
Qed.

(** *** Sums *)
(** The two parts have opposite signs, are at most 1 and sum to the value; the counts sum to the number of sets of other players. *)
Theorem C150_accounts_partial : forall listed sig ts stacked boosted d w k h proba X xs zs fX ys C,
  explainable listed sig ts stacked boosted d w k h proba X (M_array F64 d zs) xs zs fX ys C -> (forall f, In f fX -> f < k) ->
  forall order adding junk stray thr P, pass_orders ts (length xs) order adding -> is_players C d P ->
  swing_entries (acv_direct h proba order adding junk stray X (M_array F64 d zs) C thr) xs fX d (fun x f r =>
    forall c, c < d -> (sw_pos (r c) + sw_neg (r c) == sw_phi (r c))%Q /\ (0 <= sw_pos (r c) <= 1)%Q /\ (-(1) <= sw_neg (r c) <= 0)%Q /\
      n_pos (r c) + n_neg (r c) + n_null (r c) = 2 ^ (length P - 1)).
Proof. exact direct_accounts. Qed.
Print Assumptions C150_accounts_partial.
Example C150_accounts_example : pass_orders ex_ts (length ex_xs) ex_passes ex_adding /\ is_players [[]] 2 [[0]; [1]] /\
  ex_direct (fun _ => (true, true, true)) (2#10) =
    Returned [[(1#2, 1#2, 0, [1; 0; 1]%nat); (1#2, 1#2, 0, [1; 0; 1]%nat)]; [(0, 0, 0, [0; 0; 2]%nat); (1#2, 1#2, 0, [1; 0; 1]%nat)];
              [(1#2, 1#2, 0, [1; 0; 1]%nat); (0, 0, 0, [0; 0; 2]%nat)]]%Q.
Proof. split; [exact ex_pass_orders|]. split; [exact ex_players|vm_compute; reflexivity]. Qed.

(** *** Threads *)
(** The arrays do not depend on the orders of the threads nor on what np.empty leaves; the version without threads returns the same. *)
Theorem C150_orders_partial : forall listed sig ts stacked boosted d w k h proba X xs zs fX ys C,
  explainable listed sig ts stacked boosted d w k h proba X (M_array F64 d zs) xs zs fX ys C -> (forall f, In f fX -> f < k) ->
  forall order adding junk order' adding' junk' stray thr, pass_orders ts (length xs) order adding -> pass_orders ts (length xs) order' adding' ->
  acv_direct h proba order adding junk stray X (M_array F64 d zs) C thr = acv_direct h proba order' adding' junk' stray X (M_array F64 d zs) C thr /\
  acv_direct_nopa h proba junk' stray X (M_array F64 d zs) C thr = acv_direct h proba order adding junk stray X (M_array F64 d zs) C thr.
Proof.
  intros listed sig ts stacked boosted d w k h proba X xs zs fX ys C HE Hk order adding junk order' adding' junk' stray thr H H'.
  split; [exact (direct_orders listed sig ts stacked boosted d w k h proba X xs zs fX ys C HE Hk order adding junk order' adding' junk' stray thr H H')|].
  exact (direct_nopa listed sig ts stacked boosted d w k h proba X xs zs fX ys C HE Hk order adding junk junk' stray thr H).
Qed.
Print Assumptions C150_orders_partial.
Example C150_orders_example : pass_orders ex_ts (length ex_xs) (fun _ _ => ex_pairs ex_ts 3) (fun _ _ => seq 0 3) /\
  ex_direct (fun g => (true, true, memb 1 g)) (6#10) =
    Returned [[(1#2, 1#2, 0, [1; 0; 1]%nat); (1#2, 1#2, 0, [1; 0; 1]%nat)]; [(1#2, 1#2, 0, [1; 0; 1]%nat); (1#2, 1#2, 0, [1; 0; 1]%nat)];
              [(1#2, 1#2, 0, [1; 0; 1]%nat); (0, 0, 0, [0; 0; 2]%nat)]]%Q /\
  ex_direct (fun g => (true, true, memb 1 g)) (6#10) = on_shap ex_ts (M_list 2 ex_zs) (fun h => plainly (map ex_six)
    (acv_direct_nopa h ex_proba (fun _ _ => 0, fun _ => 0) (fun g => (true, true, memb 1 g)) (M_frame 2 ex_xs) (M_array F64 2 ex_zs) [[]] (6#10))).
Proof.
  split; [split; [intros; apply ex_pairs_ok|intros; apply Permutation_refl]|]. split; vm_compute; reflexivity.
Qed.

(** *** Arguments *)
(** The data are neither checked nor converted: tables that every other method accepts raise, and so do arrays of other types; without
    coalitions the first of an empty list is read. *)
Theorem C150_unchecked : forall listed sig ts stacked boosted d w k h proba X data xs zs fX ys C,
  explainable listed sig ts stacked boosted d w k h proba X data xs zs fX ys C -> forall order adding junk stray C' thr,
  ((data = M_frame d zs \/ data = M_list d zs) -> acv_direct h proba order adding junk stray X data C' thr = Raised EType) /\
  (forall dt, data = M_array dt d zs -> dt <> F64 -> acv_direct h proba order adding junk stray X data C' thr = Raised EValue) /\
  (data = M_array F64 d zs -> acv_direct h proba order adding junk stray X data [] thr = Stray).
Proof. exact direct_unchecked. Qed.
Print Assumptions C150_unchecked.
Example C150_unchecked_example : exists h,
  explainable ex_listed ex_sig ex_ts 1 false 2 2 2 h ex_proba (M_list 2 ex_xs) (M_frame 2 ex_zs) ex_xs ex_zs [1; 0; 0] [0; 0; 0; 1; 1] [[]] /\
  acv_direct h ex_proba ex_passes ex_adding ex_junk (fun _ => (true, true, true)) (M_list 2 ex_xs) (M_frame 2 ex_zs) [[]] (9#10) = Raised EType.
Proof.
  destruct (ex_explainable (M_list 2 ex_xs) (M_frame 2 ex_zs)) as (h & _ & E); [right; now left|now left|]. exists h. split; [exact E|].
  apply (C150_unchecked _ _ _ _ _ _ _ _ _ _ _ _ _ _ _ _ _ E). now left.
Qed.

(** *** What does not hold *)
(** Whatever the variables without value, the values of some observation do not sum to 1, as those of [swing_sv_clf_slow] do with the
    same arguments. *)
Definition ex_all : list (bool * bool * bool) := list_prod (list_prod [true; false] [true; false]) [true; false].
Definition ex_some (a b c : bool * bool * bool) (g : group) : bool * bool * bool := match g with [O] => a | [S O] => b | _ => c end.
Lemma ex_all_in t : In t ex_all.
Proof. destruct t as [[[|] [|]] [|]]; cbn; tauto. Qed.
Definition ex_off_sum (o : outcome (list (list swing))) : bool :=
  match o with Returned res => existsb (fun row => negb (qeqb (sumf sw_phi row) 1)) res | _ => false end.
Lemma ex_never h c : construct_shap ex_listed ex_sig ex_ts 1 false (M_list 2 ex_zs) = Some h -> forall a b,
  ex_off_sum (acv_direct h ex_proba ex_passes ex_adding ex_junk (ex_some a b c) (M_frame 2 ex_xs) (M_array F64 2 ex_zs) [[]] (9#10)) = true.
Proof.
  intro Eh. assert (V : match construct_shap ex_listed ex_sig ex_ts 1 false (M_list 2 ex_zs) with
    | Some h => forallb (fun a => forallb (fun b =>
        ex_off_sum (acv_direct h ex_proba ex_passes ex_adding ex_junk (ex_some a b c) (M_frame 2 ex_xs) (M_array F64 2 ex_zs) [[]] (9#10))) ex_all) ex_all
    | None => false end = true) by (vm_compute; reflexivity).
  rewrite Eh in V. intros a b. rewrite forallb_forall in V. specialize (V a (ex_all_in a)). rewrite forallb_forall in V. exact (V b (ex_all_in b)).
Qed.
Theorem C150_total_refuted : exists listed sig ts d w k h proba X zs xs fX ys order adding junk rowing thr,
  explainable listed sig ts 1 false d w k h proba X (M_array F64 d zs) xs zs fX ys [[]] /\ (forall f, In f fX -> f < k) /\
  pass_orders ts (length xs) order adding /\ row_orders (length xs) rowing adding /\ (0 < thr <= 1)%Q /\
  (exists res, acv_swings h proba rowing adding junk X (M_array F64 d zs) [[]] thr = Returned res /\ forall row, In row res -> (sumf sw_phi row == 1)%Q) /\
  forall stray, exists res row, acv_direct h proba order adding junk stray X (M_array F64 d zs) [[]] thr = Returned res /\
    In row res /\ ~ (sumf sw_phi row == 1)%Q.
Proof.
  destruct ex_object as (h & Eh & HE).
  exists ex_listed, ex_sig, ex_ts, 2, 2, 2, h, ex_proba, (M_frame 2 ex_xs), ex_zs, ex_xs, [1; 0; 0], [0; 0; 0; 1; 1], ex_passes, ex_adding, ex_junk, ex_rowing, (9#10)%Q.
  assert (Hk : forall f, In f [1; 0; 0] -> f < 2) by (cbn; intuition lia).
  split; [exact HE|]. split; [exact Hk|]. split; [exact ex_pass_orders|]. split; [exact ex_row_orders|]. split; [split; reflexivity || discriminate|]. split.
  - assert (V : match construct_shap ex_listed ex_sig ex_ts 1 false (M_list 2 ex_zs) with
      | Some h => match acv_swings h ex_proba ex_rowing ex_adding ex_junk (M_frame 2 ex_xs) (M_array F64 2 ex_zs) [[]] (9#10) with
                  | Returned res => forallb (fun row => qeqb (sumf sw_phi row) 1) res | _ => false end
      | None => false end = true) by (vm_compute; reflexivity).
    rewrite Eh in V. destruct (acv_swings h _ _ _ _ _ _ _ _) as [res|e|]; try discriminate V. exists res. split; [reflexivity|].
    intros row Hr. rewrite forallb_forall in V. specialize (V row Hr). destruct (qeqb_spec (sumf sw_phi row) 1) as [e|]; [exact e|discriminate].
  - intro stray. assert (E : acv_direct h ex_proba ex_passes ex_adding ex_junk stray (M_frame 2 ex_xs) (M_array F64 2 ex_zs) [[]] (9#10) =
      acv_direct h ex_proba ex_passes ex_adding ex_junk (ex_some (stray [0]) (stray [1]) (stray [])) (M_frame 2 ex_xs) (M_array F64 2 ex_zs) [[]] (9#10)).
    { rewrite !(direct_cells _ _ _ _ _ _ _ _ _ _ _ _ _ _ _ _ HE Hk _ _ _ _ _ ex_pass_orders). reflexivity. }
    rewrite E. pose proof (ex_never h (stray []) Eh (stray [0]) (stray [1])) as V.
    destruct (acv_direct h _ _ _ _ _ _ _ _ _) as [res|e|]; try discriminate V. cbn [ex_off_sum] in V. apply existsb_exists in V. destruct V as (row & Hr & V).
    exists res, row. split; [reflexivity|]. split; [exact Hr|]. destruct (qeqb_spec (sumf sw_phi row) 1); [discriminate|assumption].
Qed.
Print Assumptions C150_total_refuted.
(** The arrays depend on the variables without value: the same call with the same arguments can return different values. *)
Theorem C150_stray_refuted : exists listed sig ts d w k h proba X zs xs fX ys order adding junk thr stray stray' res res' i c s s',
  explainable listed sig ts 1 false d w k h proba X (M_array F64 d zs) xs zs fX ys [[]] /\ (forall f, In f fX -> f < k) /\
  pass_orders ts (length xs) order adding /\ (0 < thr <= 1)%Q /\
  acv_direct h proba order adding junk stray X (M_array F64 d zs) [[]] thr = Returned res /\
  acv_direct h proba order adding junk stray' X (M_array F64 d zs) [[]] thr = Returned res' /\
  nth_error (nth i res []) c = Some s /\ nth_error (nth i res' []) c = Some s' /\ ~ (sw_phi s == sw_phi s')%Q.
Proof.
  destruct ex_object as (h & Eh & HE).
  assert (V : match construct_shap ex_listed ex_sig ex_ts 1 false (M_list 2 ex_zs) with
    | Some h => match acv_direct h ex_proba ex_passes ex_adding ex_junk (fun _ => (true, true, true)) (M_frame 2 ex_xs) (M_array F64 2 ex_zs) [[]] (9#10),
                      acv_direct h ex_proba ex_passes ex_adding ex_junk (fun _ => (true, true, false)) (M_frame 2 ex_xs) (M_array F64 2 ex_zs) [[]] (9#10) with
                | Returned [_; [s; _]; _], Returned [_; [s'; _]; _] => negb (qeqb (sw_phi s) (sw_phi s')) | _, _ => false end
    | None => false end = true) by (vm_compute; reflexivity).
  rewrite Eh in V.
  destruct (acv_direct h _ _ _ _ (fun _ => (true, true, true)) _ _ _ _) as [[|r0 [|[|s [|s1 [|? ?]]] [|r2 [|? ?]]]]|e|] eqn:E1; try discriminate V.
  destruct (acv_direct h _ _ _ _ (fun _ => (true, true, false)) _ _ _ _) as [[|q0 [|[|s' [|s2 [|? ?]]] [|q2 [|? ?]]]]|e|] eqn:E2; try discriminate V.
  exists ex_listed, ex_sig, ex_ts, 2, 2, 2, h, ex_proba, (M_frame 2 ex_xs), ex_zs, ex_xs, [1; 0; 0], [0; 0; 0; 1; 1], ex_passes, ex_adding, ex_junk, (9#10)%Q,
    (fun _ => (true, true, true)), (fun _ => (true, true, false)), [r0; [s; s1]; r2], [q0; [s'; s2]; q2], 1, 0, s, s'.
  split; [exact HE|]. split; [cbn; intuition lia|]. split; [exact ex_pass_orders|]. split; [split; reflexivity || discriminate|].
  split; [exact E1|]. split; [exact E2|]. split; [reflexivity|]. split; [reflexivity|]. destruct (qeqb_spec (sw_phi s) (sw_phi s')); [discriminate|assumption].
Qed.
Print Assumptions C150_stray_refuted.
(** For gradient boosting with two classes the values of the leaves are read outside the array for an observation of class 1. *)
Theorem C150_boosted_refuted : exists listed sig ts d w h proba X zs xs fX ys order adding junk stray thr,
  explainable listed sig ts 1 true d w 1 h proba X (M_array F64 d zs) xs zs fX ys [[]] /\ pass_orders ts (length xs) order adding /\ (0 < thr <= 1)%Q /\
  acv_direct h proba order adding junk stray X (M_array F64 d zs) [[]] thr = Stray.
Proof.
  destruct (construct_shap_some ex_listed ex_sig ex_bs 1 true 2 1 1 (M_list 2 ex_zs) ex_zs ex_listed_ok ex_bok) as [h Eh];
    [right; now left|discriminate|lia|].
  exists ex_listed, ex_sig, ex_bs, 2, 1, h, ex_proba, (M_list 2 ex_xs), ex_zs, ex_xs, [1; 0; 0], [0; 0; 0; 1; 1], (fun _ _ => ex_pairs ex_bs 3), ex_adding, ex_junk,
    (fun _ => (true, true, true)), (9#10)%Q.
  split; [|split; [split; [intros; apply ex_pairs_ok|apply ex_row_orders]|split; [split; reflexivity || discriminate|]]].
  - split; [exact ex_listed_ok|]. split; [exact ex_bok|]. split; [exists (M_list 2 ex_zs), ex_zs; split; [right; now left|exact Eh]|].
    split; [right; now left|]. split; [discriminate|]. split; [right; right; now exists F64|]. split; [discriminate|]. destruct ex_classes as [E1 E2].
    split; [exact E1|]. split; [exact E2|]. split; [split; [constructor|split; [contradiction|now left]]|discriminate].
  - assert (V : match construct_shap ex_listed ex_sig ex_bs 1 true (M_list 2 ex_zs) with
                | Some h => match acv_direct h ex_proba (fun _ _ => ex_pairs ex_bs 3) ex_adding ex_junk (fun _ => (true, true, true)) (M_list 2 ex_xs) (M_array F64 2 ex_zs) [[]] (9#10) with
                            | Stray => true | _ => false end
                | None => false end = true) by (vm_compute; reflexivity).
    rewrite Eh in V. destruct (acv_direct h _ _ _ _ _ _ _ _ _); [discriminate V|discriminate V|reflexivity].
Qed.
Print Assumptions C150_boosted_refuted.

(** C149: the swing values of an [ACVTree] for classifiers ([swing_sv_clf_slow]), from its trees to the arrays returned.
    [listed] lists a set in whatever order, [sig] is the logistic function, [proba] is [predict_proba], [junk] is what np.empty
    leaves, [rowing] and [adding] are the orders in which the threads treat the observations; any functions. *)
From Verif Require Import Base TreeModel TreeSpec GameSpec ShapModel ShapSpec FlatModel FlatSpec SkModel SkSpec SdpSpec ArrSpec SwingModel SwingSpec ExplSpec
  ArrModel EntryModel EntrySpec SbufModel SbufSpec SbufProofs2 ImpModel ImpSpec SwgModel SwgSpec SwgProofs2 PropertiesEntry PropertiesSbuf PropertiesImp.
Local Open Scope nat_scope.

Definition ex_rowing (S : list nat) (b k : nat) : list nat := [2; 0; 1].
Definition ex_adding (va c : nat) : list nat := [1; 2; 0].
Definition ex_junk : groups_buf := (fun i j => i + j + 7, fun i => i + 3).
Lemma ex_row_orders : row_orders (length ex_xs) ex_rowing ex_adding.
Proof.
  split; intros; cbn.
  - apply (Permutation_trans (l' := [0; 2; 1])); [apply perm_swap|apply perm_skip, perm_swap].
  - apply (Permutation_trans (l' := [1; 0; 2])); [apply perm_skip, perm_swap|apply perm_swap].
Qed.
(** the results as fractions and counts *)
Definition ex_six (s : swing) : Q * Q * Q * list nat := (Qred (sw_phi s), Qred (sw_pos s), Qred (sw_neg s), [n_pos s; n_neg s; n_null s]).
Definition ex_table (thr : Q) : outcome (list (list (Q * Q * Q * list nat))) :=
  on_shap ex_ts (M_list 2 ex_zs) (fun h => plainly (map ex_six) (acv_swings h ex_proba ex_rowing ex_adding ex_junk (M_frame 2 ex_xs) (M_array F64 2 ex_zs) [[]] thr)).

(** *** Values *)
(** Every column gets the Shapley value of its player, the two parts and the three counts, of the game that tells whether the class of
    the observation reaches the level given the columns: with the means over the closed boxes, hence with the conditional probabilities
    for observations and rows off the thresholds. Partial: gradient boosting with two classes, where the leaves have no values for
    class 1; see [C149_boosted_refuted]. *)
Theorem C149_decomposition_partial : forall listed sig ts stacked boosted d w k h proba X xs zs fX ys C,
  explainable listed sig ts stacked boosted d w k h proba X (M_array F64 d zs) xs zs fX ys C -> (forall f, In f fX -> f < k) ->
  forall rowing adding junk thr, row_orders (length xs) rowing adding ->
  swing_entries (acv_swings h proba rowing adding junk X (M_array F64 d zs) C thr) xs fX d (fun x f r =>
    exists forest v, forest_leaves (shared (raw_share stacked) ts f) = Some forest /\
      level_game d (fun rs S => closed_mean d rs forest (point x) S) (combine (map point zs) ys) f thr v /\
      (off_thresholds ts x -> (forall z, In z zs -> off_thresholds ts z) ->
       level_game d (fun rs S => worth d rs forest (point x) [S]) (combine (map point zs) ys) f thr v) /\
      forall P g c, is_players C d P -> In g P -> In c g ->
        decomposition v P g (sw_phi (r c)) (sw_pos (r c)) (sw_neg (r c)) (n_pos (r c)) (n_neg (r c)) (n_null (r c))).
Proof. exact swings_values. Qed.
Print Assumptions C149_decomposition_partial.
Example C149_decomposition_example : (exists h,
  explainable ex_listed ex_sig ex_ts 1 false 2 2 2 h ex_proba (M_frame 2 ex_xs) (M_array F64 2 ex_zs) ex_xs ex_zs [1; 0; 0] [0; 0; 0; 1; 1] [[]]) /\
  (forall f, In f [1; 0; 0] -> f < 2) /\ row_orders (length ex_xs) ex_rowing ex_adding /\ is_players [[]] 2 [[0]; [1]] /\
  (forall z, In z ex_zs -> off_thresholds ex_ts z) /\ incl ex_xs ex_zs /\
  ex_table (9#10) = Returned [[(0, 0, 0, [0; 0; 2]%nat); (1, 1, 0, [2; 0; 0]%nat)]; [(1, 1, 0, [2; 0; 0]%nat); (0, 0, 0, [0; 0; 2]%nat)];
                              [(1#2, 1#2, 0, [1; 0; 1]%nat); (1#2, 1#2, 0, [1; 0; 1]%nat)]]%Q.
Proof.
  split; [destruct (ex_explainable (M_frame 2 ex_xs) (M_array F64 2 ex_zs)) as (h & _ & E); [now left|right; right; now exists F64|now exists h]|].
  split; [cbn; intuition lia|]. split; [exact ex_row_orders|]. split; [|split; [exact ex_off|split; [intros x [<-|[<-|[<-|[]]]]; cbn; tauto|vm_compute; reflexivity]]].
  split; [repeat constructor; cbn; intuition congruence|]. intro g. cbn. split.
  - intros [<-|[<-|[]]]; right; [exists 0|exists 1]; repeat split; auto.
  - intros [[[<-|[]] H]|(i & Hi & _ & ->)]; [congruence|]. destruct i as [|[|i]]; [now left|right; now left|lia].
Qed.

(** *** Sums *)
(** Over the players the values of an observation sum to 1; the two parts have opposite signs and sum to the value; the counts sum to
    the number of sets of other players. *)
Theorem C149_accounts_partial : forall listed sig ts stacked boosted d w k h proba X xs zs fX ys C,
  explainable listed sig ts stacked boosted d w k h proba X (M_array F64 d zs) xs zs fX ys C -> (forall f, In f fX -> f < k) ->
  forall rowing adding junk thr P rep, row_orders (length xs) rowing adding -> is_players C d P -> (forall g, In g P -> In (rep g) g) ->
  swing_entries (acv_swings h proba rowing adding junk X (M_array F64 d zs) C thr) xs fX d (fun x f r =>
    (sumf (fun g => sw_phi (r (rep g))) P == 1)%Q /\
    forall c, c < d -> (sw_pos (r c) + sw_neg (r c) == sw_phi (r c))%Q /\ (0 <= sw_pos (r c))%Q /\ (sw_neg (r c) <= 0)%Q /\
      n_pos (r c) + n_neg (r c) + n_null (r c) = 2 ^ (length P - 1)).
Proof. exact swings_accounts. Qed.
Print Assumptions C149_accounts_partial.
Example C149_accounts_example : (forall g, In g [[0]; [1]] -> In (hd 0 g) g) /\
  ex_table (6#10) = Returned [[(0, 0, 0, [0; 0; 2]%nat); (1, 1, 0, [2; 0; 0]%nat)]; [(1, 1, 0, [2; 0; 0]%nat); (0, 0, 0, [0; 0; 2]%nat)];
                              [(0, 0, 0, [0; 0; 2]%nat); (1, 1, 0, [2; 0; 0]%nat)]]%Q.
Proof. split; [intros g [<-|[<-|[]]]; now left|vm_compute; reflexivity]. Qed.

(** *** Threads *)
(** The arrays do not depend on the orders of the threads, nor on what np.empty leaves. *)
Theorem C149_orders_partial : forall listed sig ts stacked boosted d w k h proba X xs zs fX ys C,
  explainable listed sig ts stacked boosted d w k h proba X (M_array F64 d zs) xs zs fX ys C -> (forall f, In f fX -> f < k) ->
  forall rowing adding junk rowing' adding' junk' thr, row_orders (length xs) rowing adding -> row_orders (length xs) rowing' adding' ->
  acv_swings h proba rowing adding junk X (M_array F64 d zs) C thr = acv_swings h proba rowing' adding' junk' X (M_array F64 d zs) C thr.
Proof. exact swings_orders. Qed.
Print Assumptions C149_orders_partial.
Example C149_orders_example : row_orders (length ex_xs) (fun _ _ _ => seq 0 3) (fun _ _ => seq 0 3) /\
  ex_table (1#2) = on_shap ex_ts (M_list 2 ex_zs) (fun h => plainly (map ex_six)
    (acv_swings h ex_proba (fun _ _ _ => seq 0 3) (fun _ _ => seq 0 3) (fun _ _ => 0, fun _ => 0) (M_frame 2 ex_xs) (M_array F64 2 ex_zs) [[]] (1#2))).
Proof. split; [split; intros; apply Permutation_refl|vm_compute; reflexivity]. Qed.

(** *** Arguments *)
(** The method neither checks nor converts the data: tables that every other method accepts raise, and so do arrays of other types;
    without coalitions it reads the first of an empty list. *)
Theorem C149_unchecked : forall listed sig ts stacked boosted d w k h proba X data xs zs fX ys C,
  explainable listed sig ts stacked boosted d w k h proba X data xs zs fX ys C -> forall rowing adding junk C' thr,
  ((data = M_frame d zs \/ data = M_list d zs) -> acv_swings h proba rowing adding junk X data C' thr = Raised EType) /\
  (forall dt, data = M_array dt d zs -> dt <> F64 -> acv_swings h proba rowing adding junk X data C' thr = Raised EValue) /\
  (data = M_array F64 d zs -> acv_swings h proba rowing adding junk X data [] thr = Stray).
Proof. exact swings_unchecked. Qed.
Print Assumptions C149_unchecked.
Example C149_unchecked_example : exists h,
  explainable ex_listed ex_sig ex_ts 1 false 2 2 2 h ex_proba (M_list 2 ex_xs) (M_frame 2 ex_zs) ex_xs ex_zs [1; 0; 0] [0; 0; 0; 1; 1] [[]] /\
  acv_swings h ex_proba ex_rowing ex_adding ex_junk (M_list 2 ex_xs) (M_frame 2 ex_zs) [[]] (9#10) = Raised EType.
Proof.
  destruct (ex_explainable (M_list 2 ex_xs) (M_frame 2 ex_zs)) as (h & _ & E); [right; now left|now left|]. exists h. split; [exact E|].
  apply (C149_unchecked _ _ _ _ _ _ _ _ _ _ _ _ _ _ _ _ _ E). now left.
Qed.

(** *** What does not hold *)
(** For gradient boosting with two classes the values of the leaves are read outside the array for an observation of class 1. *)
Theorem C149_boosted_refuted : exists listed sig ts d w h proba X zs xs fX ys rowing adding junk thr,
  explainable listed sig ts 1 true d w 1 h proba X (M_array F64 d zs) xs zs fX ys [[]] /\ row_orders (length xs) rowing adding /\ (0 < thr <= 1)%Q /\
  acv_swings h proba rowing adding junk X (M_array F64 d zs) [[]] thr = Stray.
Proof.
  destruct (construct_shap_some ex_listed ex_sig ex_bs 1 true 2 1 1 (M_list 2 ex_zs) ex_zs ex_listed_ok ex_bok) as [h Eh];
    [right; now left|discriminate|lia|].
  exists ex_listed, ex_sig, ex_bs, 2, 1, h, ex_proba, (M_list 2 ex_xs), ex_zs, ex_xs, [1; 0; 0], [0; 0; 0; 1; 1], ex_rowing, ex_adding, ex_junk, (9#10)%Q.
  split; [|split; [exact ex_row_orders|split; [split; reflexivity || discriminate|]]].
  - split; [exact ex_listed_ok|]. split; [exact ex_bok|]. split; [exists (M_list 2 ex_zs), ex_zs; split; [right; now left|exact Eh]|].
    split; [right; now left|]. split; [discriminate|]. split; [right; right; now exists F64|]. split; [discriminate|]. destruct ex_classes as [E1 E2].
    split; [exact E1|]. split; [exact E2|]. split; [split; [constructor|split; [contradiction|now left]]|discriminate].
  - assert (V : match construct_shap ex_listed ex_sig ex_bs 1 true (M_list 2 ex_zs) with
                | Some h => match acv_swings h ex_proba ex_rowing ex_adding ex_junk (M_list 2 ex_xs) (M_array F64 2 ex_zs) [[]] (9#10) with Stray => true | _ => false end
                | None => false end = true) by (vm_compute; reflexivity).
    rewrite Eh in V. destruct (acv_swings h _ _ _ _ _ _ _ _); [discriminate V|discriminate V|reflexivity].
Qed.
Print Assumptions C149_boosted_refuted.
(** The game is not the probability of [compute_sdp_clf] with the same arguments, thresholded: here column 1 takes that probability
    from below the level to the level, and no swing of column 1 is counted. *)
Theorem C149_same_refuted : exists listed sig ts d w k h proba X zs xs fX ys rowing adding junk order thr res i c s,
  explainable listed sig ts 1 false d w k h proba X (M_array F64 d zs) xs zs fX ys [[]] /\ (forall f, In f fX -> f < k) /\
  row_orders (length xs) rowing adding /\ all_pairs ts (length xs) order /\ (0 < thr <= 1)%Q /\
  acv_swings h proba rowing adding junk X (M_array F64 d zs) [[]] thr = Returned res /\
  (exists row, nth_error res i = Some row /\ nth_error row c = Some s) /\ n_pos s = 0 /\
  (told (h_acv h) proba order X (M_array F64 d zs) i [] < thr)%Q /\ (thr <= told (h_acv h) proba order X (M_array F64 d zs) i [c])%Q.
Proof.
  destruct (ex_explainable (M_frame 2 ex_xs) (M_array F64 2 ex_zs)) as (h & Eh & HE); [now left|right; right; now exists F64|].
  assert (V : match construct_shap ex_listed ex_sig ex_ts 1 false (M_list 2 ex_zs) with
              | Some h => match acv_swings h ex_proba ex_rowing ex_adding ex_junk (M_frame 2 ex_xs) (M_array F64 2 ex_zs) [[]] (6#10) with
                          | Returned [_; [_; s]; _] => n_pos s =? 0 | _ => false end &&
                          negb (qleb (6#10) (told (h_acv h) ex_proba (ex_pairs ex_ts 3) (M_frame 2 ex_xs) (M_array F64 2 ex_zs) 1 [])) &&
                          qleb (6#10) (told (h_acv h) ex_proba (ex_pairs ex_ts 3) (M_frame 2 ex_xs) (M_array F64 2 ex_zs) 1 [1])
              | None => false end = true) by (vm_compute; reflexivity).
  rewrite Eh in V. apply andb_true_iff in V. destruct V as [V V3]. apply andb_true_iff in V. destruct V as [V V2].
  destruct (acv_swings h _ _ _ _ _ _ _ _) as [[|r0 [|[|s0 [|s [|? ?]]] [|r2 [|? ?]]]]|e|] eqn:ER; try discriminate V.
  exists ex_listed, ex_sig, ex_ts, 2, 2, 2, h, ex_proba, (M_frame 2 ex_xs), ex_zs, ex_xs, [1; 0; 0], [0; 0; 0; 1; 1], ex_rowing, ex_adding, ex_junk,
    (ex_pairs ex_ts 3), (6#10)%Q, [r0; [s0; s]; r2], 1, 1, s.
  split; [exact HE|]. split; [cbn; intuition lia|]. split; [exact ex_row_orders|]. split; [apply ex_pairs_ok|].
  split; [split; reflexivity || discriminate|]. split; [exact ER|]. split; [exists [s0; s]; split; reflexivity|].
  split; [now apply Nat.eqb_eq|]. split.
  - apply negb_true_iff in V2. destruct (qleb_spec (6#10) (told (h_acv h) ex_proba (ex_pairs ex_ts 3) (M_frame 2 ex_xs) (M_array F64 2 ex_zs) 1 [])) as [|n]; [discriminate|].
    apply Qnot_le_lt, n.
  - destruct (qleb_spec (6#10) (told (h_acv h) ex_proba (ex_pairs ex_ts 3) (M_frame 2 ex_xs) (M_array F64 2 ex_zs) 1 [1])) as [l|]; [exact l|discriminate].
Qed.
Print Assumptions C149_same_refuted.

(** Swing decompositions and Shapley values by enumeration. *)
From Verif Require Import Base GameSpec ShapSpec ShapProofs TreeModel ShapModel AcvModel SdpModel
  SdpSpec SwingModel SwingSpec SwingProofs.

(** C42: for every set function, the compiled loop reports for each column of a
    player the Shapley value of the player, the parts due to the coalitions it
    improves and worsens, and the numbers of coalitions of each kind. *)
Theorem C42_decomposition_partial : forall v C m P g j,
  is_game v -> coalitions_ok C m -> is_players C m P -> In g P -> In j g ->
  let s := swing_sv v C m j in
  decomposition v P g (sw_phi s) (sw_pos s) (sw_neg s) (n_pos s) (n_neg s) (n_null s).
Proof. exact swing_sv_ok. Qed.
Print Assumptions C42_decomposition_partial.
(** The two parts have the right signs and add up to the value; the counts add
    up to the number of coalitions without the player.  Any difference of values,
    so this holds of the direct version too. *)
Theorem C42_parts : forall D C m P g j,
  coalitions_ok C m -> is_players C m P -> In g P -> In j g ->
  let s := sv_with D C m j in
  (sw_pos s + sw_neg s == sw_phi s)%Q /\ (0 <= sw_pos s)%Q /\ (sw_neg s <= 0)%Q /\
  n_pos s + n_neg s + n_null s = 2 ^ (length P - 1).
Proof. exact sv_with_sums. Qed.
Print Assumptions C42_parts.
Theorem C42_efficiency_partial : forall v C m P (rep : list nat -> nat),
  is_game v -> coalitions_ok C m -> is_players C m P -> (forall g, In g P -> In (rep g) g) ->
  (sumf (fun g => sw_phi (swing_sv v C m (rep g))) P == v (concat P) - v [])%Q.
Proof. exact swing_efficiency. Qed.
Print Assumptions C42_efficiency_partial.
(** The thresholded same-decision probability of the compiled code is such a set
    function, and the values reported with it add up to 1. *)
Theorem C42_thresholded_partial : forall m rows fX thr forest x,
  is_game (compute_sdp_swing m rows fX thr forest x).
Proof. exact swing_value_game. Qed.
Print Assumptions C42_thresholded_partial.
(** Its value for some but not all of the columns: whether the share of the plug-in
    conditional expectation explained by the rows of the same class reaches the level. *)
Theorem C42_value : forall m rows fX thr forest x S, 0 < length S -> length S <> m ->
  off_boundary forest x -> (forall r, In r rows -> off_boundary forest (fst r)) ->
  let v := compute_sdp_swing m rows fX thr forest x S in
  let E rs := worth m (map fst rs) forest x [S] in
  let a := E rows in let u := E (filter (fun r => snd r =? fX) rows) in let d := E (filter (fun r => negb (snd r =? fX)) rows) in
  (v = 0 \/ v = 1)%Q /\ (~ (u == d) -> (v = 1 <-> thr <= (a - d) / (u - d)))%Q /\ ((u == d) -> (v = 1 <-> thr <= 0))%Q.
Proof. exact swing_value. Qed.
Print Assumptions C42_value.
(** column 0 of four rows decides; column 1 does not, at level 9/10 *)
Example C42_value_example :
  off_boundary dz_forest dz_x /\ (forall r, In r dz_rows -> off_boundary dz_forest (fst r)) /\
  compute_sdp_swing 2 dz_rows 1 (9 # 10) dz_forest dz_x [0] = 1%Q /\
  compute_sdp_swing 2 dz_rows 1 (9 # 10) dz_forest dz_x [1] = 0%Q /\
  compute_sdp_swing 2 dz_rows 1 (1 # 2) dz_forest dz_x [1] = 1%Q.
Proof.
  assert (H : forall a b, ~ (a == 0)%Q -> off_boundary dz_forest (dz a b)).
  { intros a b Ha ls lf s q [<-|[]] [<-|[<-|[]]]; destruct s; cbn; intro E; inversion E; subst; exact Ha. }
  split; [apply H; discriminate|]. split.
  - intros r [<-|[<-|[<-|[<-|[]]]]]; apply H; discriminate.
  - vm_compute. repeat split.
Qed.
(** The direct version gives each player a change of the thresholded value. *)
Theorem C42_direct_range : forall stray m rows fX thr forest x S va,
  let v := compute_sdp_swing_diff stray m rows fX thr forest x S va in (v = 0 \/ v = 1 \/ v = -1)%Q.
Proof. exact direct_range. Qed.
Print Assumptions C42_direct_range.
Theorem C42_total_partial : forall m rows fX thr forest x C P (rep : list nat -> nat),
  0 < m -> coalitions_ok C m -> is_players C m P -> (forall g, In g P -> In (rep g) g) ->
  (sumf (fun g => sw_phi (swing_sv_clf m rows fX thr forest x C (rep g))) P == 1)%Q.
Proof. exact swing_clf_efficiency. Qed.
Print Assumptions C42_total_partial.
(** The direct version, which is the one called by [swing_sv_clf] of the API, does
    not satisfy efficiency: one tree, two columns, four rows, whatever the
    variables read before assignment hold. *)
Theorem C42_direct_refuted : exists m rows fX thr forest x C P,
  coalitions_ok C m /\ is_players C m P /\ 0 < m /\
  (forall stray, ~ (sumf (fun g => sw_phi (swing_sv_clf_direct stray m rows fX thr forest x C (hd 0%nat g))) P == 1)%Q) /\
  (sumf (fun g => sw_phi (swing_sv_clf m rows fX thr forest x C (hd 0%nat g))) P == 1)%Q.
Proof. exact direct_refuted. Qed.
Print Assumptions C42_direct_refuted.
(** three columns, the last two in a coalition *)
Definition sx_C : list (list nat) := [[1; 2]].
(** a set function with both signs of swings *)
Definition sx_v (S : list nat) : Q :=
  if memb 0 S then if memb 1 S then 0 else 1 else if memb 1 S && memb 2 S then 1 # 2 else 0.
Example C42_example :
  coalitions_ok sx_C 3 /\ is_players sx_C 3 (va_ids sx_C 3) /\ va_ids sx_C 3 = [[0]; [1; 2]] /\
  (let s := swing_sv sx_v sx_C 3 0 in
   (sw_phi s == 1 # 4)%Q /\ (sw_pos s == 1 # 2)%Q /\ (sw_neg s == - (1 # 4))%Q /\
   n_pos s = 1 /\ n_neg s = 1 /\ n_null s = 0) /\
  (sw_phi (swing_sv sx_v sx_C 3 1) == - (1 # 4))%Q /\
  (sw_phi (swing_sv_clf 2 dz_rows 1 (9 # 10) dz_forest dz_x [[]] 0) == 1)%Q /\
  (sw_phi (swing_sv_clf_direct (true, true, false) 2 dz_rows 1 (9 # 10) dz_forest dz_x [[]] 0) == 1 # 2)%Q.
Proof.
  assert (HC : coalitions_ok sx_C 3).
  { repeat split; cbn; [repeat constructor; cbn; intuition lia|intros i H; intuition lia]. }
  split; [exact HC|]. split; [exact (va_ids_players sx_C 3 HC)|].
  vm_compute. repeat split; reflexivity.
Qed.

(** C77: the Python loop gives the same six numbers as the compiled one when the
    declared coalitions have at least two columns each... *)
Theorem C77_python_partial : forall v C m j,
  is_game v -> coalitions_ok C m -> has_coal C = false \/ wide C -> j < m ->
  exists s, py_swing v C m j = Some s /\
    let t := swing_sv v C m j in
    (sw_phi s == sw_phi t)%Q /\ (sw_pos s == sw_pos t)%Q /\ (sw_neg s == sw_neg t)%Q /\
    n_pos s = n_pos t /\ n_neg s = n_neg t /\ n_null s = n_null t.
Proof. exact py_agrees. Qed.
Print Assumptions C77_python_partial.
(** the classification version: the same numbers for the game that is 1 where the value
    reaches the level and 0 elsewhere *)
Theorem C77_thresholded_partial : forall v thr C m j,
  is_game v -> coalitions_ok C m -> has_coal C = false \/ wide C -> j < m ->
  exists s, py_swing_clf v thr C m j = Some s /\
    let t := swing_sv (fun T => if Qlt_le_dec (v T) thr then 0 else 1)%Q C m j in
    (sw_phi s == sw_phi t)%Q /\ (sw_pos s == sw_pos t)%Q /\ (sw_neg s == sw_neg t)%Q /\
    n_pos s = n_pos t /\ n_neg s = n_neg t /\ n_null s = n_null t.
Proof. exact py_clf_agrees. Qed.
Print Assumptions C77_thresholded_partial.
(** ... and raises as soon as a declared coalition has a single column and there is
    another player. *)
Theorem C77_raises : forall v C m c a j,
  coalitions_ok C m -> has_coal C = true -> In c C -> length c <= 1 -> a < m -> ~ In a c ->
  py_swing v C m j = None.
Proof. exact py_raises. Qed.
Print Assumptions C77_raises.
Theorem C77_python_refuted : exists v C m j, is_game v /\ coalitions_ok C m /\ j < m /\ py_swing v C m j = None.
Proof.
  exists (fun _ => 0%Q), [[0]; [1; 2]], 3, 0. split; [intros T U _; reflexivity|].
  assert (HC : coalitions_ok [[0]; [1; 2]] 3).
  { repeat split; cbn; [repeat constructor; cbn; intuition lia|intros i H; intuition lia]. }
  split; [exact HC|]. split; [lia|]. reflexivity.
Qed.
Print Assumptions C77_python_refuted.
Example C77_example : wide sx_C /\
  match py_swing sx_v sx_C 3 1 with
  | Some s => (sw_phi s == - (1 # 4))%Q /\ (sw_pos s == 1 # 4)%Q /\ n_neg s = 1
  | None => False
  end /\
  match py_swing_clf sx_v 1 sx_C 3 0 with Some s => n_pos s = 1 /\ n_null s = 1 | None => False end.
Proof. split; [intros c [<-|[]]; cbn; lia|]. vm_compute. repeat split; reflexivity. Qed.

(** C78: the Shapley values by enumeration are the Shapley values of the game of the
    conditional expectation they use: the categorical one... *)
Theorem C78_discrete_partial : forall m data forest x C P g j,
  coalitions_ok C m -> has_coal C = false \/ wide C -> is_players C m P -> In g P -> In j g ->
  exists q, shap_values_discrete_notoptimized m data forest x C j = Some q /\
    (q == shapley gdec P (on_players (fun S => compute_exp_cat m data S forest x)) g)%Q.
Proof. exact discrete_ok. Qed.
Print Assumptions C78_discrete_partial.
(** ... and the normalised one, where it is a number for every set of players. *)
Theorem C78_leaves_partial : forall m data forest x C P g j (w : list nat -> Q),
  coalitions_ok C m -> has_coal C = false \/ wide C -> is_players C m P -> In g P -> In j g ->
  (forall T, incl T P -> NoDup T ->
     exists r, compute_exp_normalized m data (concat T) forest x = Some r /\ (r == w (concat T))%Q) ->
  exists q, shap_values_leaves_notoptimized m data forest x C j = Some (Some q) /\
    (q == shapley gdec P (on_players w) g)%Q.
Proof. exact leaves_ok. Qed.
Print Assumptions C78_leaves_partial.
(** The normalised one need not be a number. *)
Theorem C78_leaves_refuted : exists m data forest x C j,
  coalitions_ok C m /\ j < m /\ data <> [] /\ shap_values_leaves_notoptimized m data forest x C j = Some None.
Proof.
  exists 2, [dz 1 0], dz_forest, dz_x, [[]], 0.
  split; [repeat split; cbn; try constructor; easy|]. split; [lia|]. split; [discriminate|]. vm_compute. reflexivity.
Qed.
Print Assumptions C78_leaves_refuted.
Example C78_example :
  match shap_values_discrete_notoptimized 2 (map fst dz_rows) dz_forest dz_x [[]] 0,
        shap_values_leaves_notoptimized 2 (map fst dz_rows) dz_forest dz_x [[]] 0 with
  | Some q, Some (Some r) => (q == 1 # 2)%Q /\ (r == 1 # 2)%Q
  | _, _ => False
  end /\
  (forall S, In S [[]; [0]; [1]; [0; 1]] -> compute_exp_normalized 2 (map fst dz_rows) S dz_forest dz_x <> None).
Proof.
  split; [vm_compute; split; reflexivity|]. intros S H. cbn in H.
  repeat (destruct H as [<-|H]; [vm_compute; discriminate|]). contradiction.
Qed.

(** Property theorem C99: active Shapley values with one explanation per observation.
    Each is proved by a lemma of AdapProofs.v. *)
From Verif Require Import Base TreeModel TreeSpec TreeProofs GameSpec GameProofs ShapModel ShapSpec ShapProofs
  AcvModel AcvSpec AcvProofs SearchModel PyShapSpec AdapModel AdapSpec AdapProofs
  PropertiesTree PropertiesShap PropertiesPyShap.

(** each observation of the batch is explained with its own active and null columns,
    whatever the other rows are *)
Theorem C99_row_active : forall C d data forest X Ss Ns sizes i x s,
  nth_error X i = Some x -> nth_error Ss i = Some (listed d s) -> nth_error sizes i = Some (length s) ->
  get_null_coalition d Ss sizes = Some Ns -> columns_ok d s ->
  forall j, length s < d -> exists n, complement_of d s n /\
    shap_values_acv_adap C d data forest X Ss Ns sizes i j = Some (shap_values_acv C d s n data forest x j).
Proof. exact adap_active. Qed.
Print Assumptions C99_row_active.
(** all columns active: the plain Shapley values *)
Theorem C99_row_all_active : forall C d data forest X Ss Ns sizes i x s,
  nth_error X i = Some x -> nth_error Ss i = Some (listed d s) -> nth_error sizes i = Some (length s) ->
  get_null_coalition d Ss sizes = Some Ns -> forall j, length s = d ->
    shap_values_acv_adap C d data forest X Ss Ns sizes i j = Some (Some (shap_values_leaves C d data forest x j)).
Proof. exact adap_full. Qed.
Print Assumptions C99_row_all_active.
(** which is also what the active routine would return *)
Theorem C99_plain_is_active : forall C d P data forest x g j q,
  coalitions_ok C d -> is_players C d P -> forest_ok d forest -> data <> [] -> In g P -> In j g ->
  shap_values_acv C d (seq 0 d) [] data forest x j = Some q ->
  (q == shap_values_leaves C d data forest x j)%Q.
Proof. exact acv_all_active. Qed.
Print Assumptions C99_plain_is_active.
(** in both cases a number is the Shapley value of the restricted game of the row *)
Theorem C99_shapley_partial : forall C d data forest X Ss Ns sizes i x s n P g j q,
  nth_error X i = Some x -> nth_error Ss i = Some (listed d s) -> nth_error sizes i = Some (length s) ->
  get_null_coalition d Ss sizes = Some Ns -> columns_ok d s -> complement_of d s n ->
  coalitions_ok C d -> forest_ok d forest -> data <> [] -> is_players_of C s P -> In g P -> In j g ->
  shap_values_acv_adap C d data forest X Ss Ns sizes i j = Some (Some q) ->
  (q == shapley gdec P (worth_acv d n data forest x) g)%Q.
Proof. exact adap_shapley. Qed.
Print Assumptions C99_shapley_partial.
Theorem C99_efficiency_partial : forall C d data forest X Ss Ns sizes i x s n P (rep : list nat -> nat) (phi : nat -> Q),
  nth_error X i = Some x -> nth_error Ss i = Some (listed d s) -> nth_error sizes i = Some (length s) ->
  get_null_coalition d Ss sizes = Some Ns -> columns_ok d s -> complement_of d s n ->
  coalitions_ok C d -> forest_ok d forest -> data <> [] -> is_players_of C s P -> P <> [] ->
  (forall g, In g P -> In (rep g) g) ->
  (forall g, In g P -> shap_values_acv_adap C d data forest X Ss Ns sizes i (rep g) = Some (Some (phi (rep g)))) ->
  (sumf (fun g => phi (rep g)) P == worth d data forest x (P ++ [n]) - worth d data forest x [])%Q.
Proof. exact adap_efficiency. Qed.
Print Assumptions C99_efficiency_partial.
Theorem C99_null_zero_partial : forall C d data forest X Ss Ns sizes i x s P j q,
  nth_error X i = Some x -> nth_error Ss i = Some (listed d s) -> nth_error sizes i = Some (length s) ->
  get_null_coalition d Ss sizes = Some Ns -> columns_ok d s -> coalitions_ok C d ->
  is_players_of C s P -> j < d -> (forall g, In g P -> ~ In j g) ->
  shap_values_acv_adap C d data forest X Ss Ns sizes i j = Some (Some q) -> (q == 0)%Q.
Proof. exact adap_null_zero. Qed.
Print Assumptions C99_null_zero_partial.
Theorem C99_numbers_partial : forall C d data forest X Ss Ns sizes i x s j,
  nth_error X i = Some x -> nth_error Ss i = Some (listed d s) -> nth_error sizes i = Some (length s) ->
  get_null_coalition d Ss sizes = Some Ns -> columns_ok d s -> s <> [] ->
  coalitions_ok C d -> forest_ok d forest -> data <> [] -> leaves_held d data forest ->
  In j s -> exists q, shap_values_acv_adap C d data forest X Ss Ns sizes i j = Some (Some q).
Proof. exact adap_defined. Qed.
Print Assumptions C99_numbers_partial.

(** three observations: column 1 active, columns 2 and 0, all columns *)
Definition ad_S : list (list Z) := [[1; -1; -1]; [2; 0; -1]; [0; 1; 2]]%Z.
Definition ad_size : list nat := [1; 2; 3].
Definition ad_N : list (list Z) := [[-1; 0; 2]; [-1; -1; 1]; [-1; -1; -1]]%Z.
Definition ad_X : list pt := [ex_x; ex_x; ex_x].
Lemma ad_columns l : forallb (fun c => c <? 3) l && (length (nodup Nat.eq_dec l) =? length l) = true -> columns_ok 3 l.
Proof.
  intro H. apply andb_prop in H. destruct H as [H1 H2]. apply Nat.eqb_eq in H2. split.
  - apply (NoDup_incl_NoDup (NoDup_nodup Nat.eq_dec l)); [lia|].
    intros c Hc. now apply nodup_In in Hc.
  - rewrite forallb_forall in H1. intros c Hc. now apply Nat.ltb_lt, H1.
Qed.
Example C99_example :
  get_null_coalition 3 ad_S ad_size = Some ad_N /\ columns_ok 3 [1] /\ columns_ok 3 [2; 0] /\ columns_ok 3 [0; 1; 2] /\
  nth_error ad_S 0 = Some (listed 3 [1]) /\ nth_error ad_S 1 = Some (listed 3 [2; 0]) /\
  nth_error ad_S 2 = Some (listed 3 [0; 1; 2]) /\ complement_of 3 [2; 0] [1] /\ is_players_of no_C [2; 0] [[2]; [0]] /\
  coalitions_ok no_C 3 /\ forest_ok 3 ex_forest /\ leaves_held 3 ex_data ex_forest /\
  map (fun i => map (fun j => option_map (option_map Qred) (shap_values_acv_adap no_C 3 ex_data ex_forest ad_X ad_S ad_N ad_size i j)) [0; 1; 2]) [0; 1; 2]
  = [[Some (Some 0%Q); Some (Some (-2)%Q); Some (Some 0%Q)];
     [Some (Some 5%Q); Some (Some 0%Q); Some (Some (-7)%Q)];
     map (fun j => Some (Some (Qred (shap_values_leaves no_C 3 ex_data ex_forest ex_x j)))) [0; 1; 2]].
Proof.
  split; [vm_compute; reflexivity|]. do 3 (split; [apply ad_columns; reflexivity|]).
  do 3 (split; [reflexivity|]). split; [|split].
  - split; [repeat constructor; cbn; intuition lia|]. intro c. cbn. lia.
  - apply (acv_va_ids_players no_C 3 [2; 0]); [exact no_C_ok|]. repeat constructor; cbn; intuition lia.
  - split; [exact no_C_ok|]. split; [exact ex_forest_ok|]. split; [exact ex_held|]. vm_compute. reflexivity.
Qed.

(** C99 is false in three ways.  A row of N_star laid out as the docstring asks (the null
    columns first) is never usable: a filler -1 is used as a column number. *)
Theorem C99_documented_layout : forall C d data forest x s n j,
  columns_ok d s -> s <> [] -> length s < d -> complement_of d s n ->
  adap_row C d data forest x (listed d s) (listed d n) (length s) j = None.
Proof. exact adap_documented. Qed.
Print Assumptions C99_documented_layout.
Theorem C99_documented_layout_refuted : exists C d data forest x s n j,
  columns_ok d s /\ complement_of d s n /\ coalitions_ok C d /\ forest_ok d forest /\ leaves_held d data forest /\
  In j s /\ adap_row C d data forest x (listed d s) (listed d n) (length s) j = None.
Proof.
  exists no_C, 3, ex_data, ex_forest, ex_x, [2; 0], [1], 0.
  split; [apply ad_columns; reflexivity|]. split; [split; [repeat constructor; cbn; intuition lia|intro c; cbn; lia]|].
  split; [exact no_C_ok|]. split; [exact ex_forest_ok|]. split; [exact ex_held|]. split; [cbn; auto|]. vm_compute. reflexivity.
Qed.
Print Assumptions C99_documented_layout_refuted.
(** not a number when a leaf is empty *)
Theorem C99_numbers_refuted : exists C d data forest X Ss Ns sizes s j,
  nth_error Ss 0 = Some (listed d s) /\ nth_error sizes 0 = Some (length s) /\
  get_null_coalition d Ss sizes = Some Ns /\ columns_ok d s /\ coalitions_ok C d /\ forest_ok d forest /\ data <> [] /\
  In j s /\ shap_values_acv_adap C d data forest X Ss Ns sizes 0 j = Some None.
Proof.
  exists no_C, 3, [row 0 0 0], ex_forest, [ex_x], [[0; 2; -1]%Z], [[-1; -1; 1]%Z], [2], [0; 2], 0.
  split; [reflexivity|]. split; [reflexivity|]. split; [vm_compute; reflexivity|].
  split; [apply ad_columns; reflexivity|]. split; [exact no_C_ok|]. split; [exact ex_forest_ok|].
  split; [discriminate|]. split; [now left|]. vm_compute. reflexivity.
Qed.
Print Assumptions C99_numbers_refuted.
(** the number of rows of N_star is not compared with that of X *)
Theorem C99_rows_refuted : exists C d data forest X Ss Ns sizes s j,
  length X = length Ss /\ length sizes = length X /\ nth_error Ss 1 = Some (listed d s) /\ nth_error sizes 1 = Some (length s) /\
  columns_ok d s /\ coalitions_ok C d /\ forest_ok d forest /\ leaves_held d data forest /\
  In j s /\ shap_values_acv_adap C d data forest X Ss Ns sizes 1 j = None.
Proof.
  exists no_C, 3, ex_data, ex_forest, [ex_x; ex_x], [[0; 2; -1]%Z; [0; 2; -1]%Z], [[-1; -1; 1]%Z], [2; 2], [0; 2], 0.
  do 4 (split; [reflexivity|]). split; [apply ad_columns; reflexivity|]. split; [exact no_C_ok|].
  split; [exact ex_forest_ok|]. split; [exact ex_held|]. split; [now left|]. vm_compute. reflexivity.
Qed.
Print Assumptions C99_rows_refuted.

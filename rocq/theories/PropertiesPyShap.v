(** Property theorems C96-C98: the pure Python Shapley routines.  Each is proved by a
    lemma of PyShapProofs.v, ShapProofs.v or AcvProofs.v. *)
From Verif Require Import Base TreeModel TreeSpec TreeProofs GameSpec GameProofs ShapModel ShapSpec ShapProofs
  AcvModel AcvSpec AcvProofs SwingModel PyShapModel PyShapSpec PyShapProofs PropertiesTree PropertiesShap.

(** an observation off the lower bounds of the leaves of [ex_forest] *)
Definition ex_off : pt := row 2 2 5.
Definition no_C : list (list nat) := [[]].
Lemma no_C_ok : coalitions_ok no_C 3.
Proof. split; [constructor|]. split; [contradiction|reflexivity]. Qed.
Lemma ex_held : leaves_held 3 ex_data ex_forest.
Proof.
  assert (G : forallb (fun ls => forallb (fun lf => negb (rows_in ex_data (l_rect lf) (seq 0 3) =? 0)) ls) ex_forest = true)
    by (vm_compute; reflexivity).
  rewrite forallb_forall in G. intros ls lf H1 H2. specialize (G ls H1). rewrite forallb_forall in G.
  specialize (G lf H2). apply negb_true_iff, Nat.eqb_neq in G. exact G.
Qed.
Lemma ex_trees_nonempty : trees_nonempty ex_forest.
Proof.
  assert (G : forallb (fun ls => negb (length ls =? 0)) ex_forest = true) by (vm_compute; reflexivity).
  rewrite forallb_forall in G. intros ls H ->. specialize (G [] H). discriminate.
Qed.
Lemma ex_off_bounds : off_lower_bounds ex_forest ex_off.
Proof.
  intros ls lf s a H1 H2 H3.
  destruct (ex_forest_ok ls lf H1 H2) as [_ [_ Hu]].
  destruct (in_dec Nat.eq_dec s (l_vars lf)) as [Hs|Hs]; [|rewrite (Hu s Hs) in H3; discriminate].
  assert (G : forallb (fun ls => forallb (fun lf => forallb (fun s =>
     match fst (l_rect lf s) with Fin a => negb (qeqb (ex_off s) a) | _ => true end) (l_vars lf)) ls) ex_forest = true)
    by (vm_compute; reflexivity).
  rewrite forallb_forall in G. specialize (G ls H1). rewrite forallb_forall in G. specialize (G lf H2).
  rewrite forallb_forall in G. specialize (G s Hs). rewrite H3 in G. intro E.
  apply negb_true_iff in G. destruct (qeqb_spec (ex_off s) a); [discriminate|contradiction].
Qed.

(** C96: whenever [py_shap_values] returns a number it is the Shapley value, hence the
    number returned by the compiled routine. *)
Theorem C96_python_partial : forall C m data forest x P g j q,
  coalitions_ok C m -> (has_coal C = true -> wide_coalitions C) -> is_players C m P -> forest_ok m forest ->
  In g P -> In j g ->
  py_shap_values C m data forest x j = Some (Some q) ->
  (q == shapley gdec P (worth m data forest x) g)%Q.
Proof. exact (fun C m data forest x P g j q HC HW => py_shap_value C m HC HW data forest x P g j q). Qed.
Print Assumptions C96_python_partial.
Theorem C96_compiled_partial : forall C m data forest x P g j q,
  coalitions_ok C m -> (has_coal C = true -> wide_coalitions C) -> is_players C m P -> forest_ok m forest ->
  data <> [] -> In g P -> In j g ->
  py_shap_values C m data forest x j = Some (Some q) ->
  (q == shap_values_leaves C m data forest x j)%Q.
Proof.
  exact (fun C m data forest x P g j q HC HW HP HF Hd Hg Hj H =>
    Qeq_trans _ _ _ (py_shap_value C m HC HW data forest x P g j q HP HF Hg Hj H)
      (Qeq_sym _ _ (shap_is_shapley C m P data forest x g j HC HP HF Hd Hg Hj))).
Qed.
Print Assumptions C96_compiled_partial.
(** it is a number when every leaf contains a background row *)
Theorem C96_numbers_partial : forall C m data forest x P g j,
  coalitions_ok C m -> (has_coal C = true -> wide_coalitions C) -> is_players C m P -> forest_ok m forest ->
  In g P -> In j g -> trees_nonempty forest -> leaves_held m data forest ->
  exists q, py_shap_values C m data forest x j = Some (Some q).
Proof. exact (fun C m data forest x P g j HC HW => py_shap_def C m HC HW data forest x P g j). Qed.
Print Assumptions C96_numbers_partial.
Example C96_example :
  coalitions_ok ex_C 3 /\ wide_coalitions ex_C /\ forest_ok 3 ex_forest /\
  leaves_held 3 ex_data ex_forest /\ trees_nonempty ex_forest /\ is_players ex_C 3 (va_ids ex_C 3) /\
  map (fun j => option_map (option_map Qred) (py_shap_values ex_C 3 ex_data ex_forest ex_x j)) [0; 1; 2]
  = [Some (Some (55#6)); Some (Some (-67#6)); Some (Some (55#6))]%Q.
Proof.
  split; [exact ex_C_ok|]. split; [intros c [<-|[]]; cbn; lia|]. split; [exact ex_forest_ok|].
  split; [exact ex_held|]. split; [exact ex_trees_nonempty|]. split; [apply va_ids_players, ex_C_ok|].
  vm_compute. reflexivity.
Qed.
(** false in general: a leaf without background row makes the cell a NaN ... *)
Theorem C96_numbers_refuted : exists C m data forest x j,
  coalitions_ok C m /\ forest_ok m forest /\ trees_nonempty forest /\ data <> [] /\ j < m /\
  (exists ts, forallb (fun t => wf_tree t m) ts = true /\ forest_leaves ts = Some forest) /\
  py_shap_values C m data forest x j = Some None.
Proof.
  exists no_C, 3, [row 0 0 0], ex_forest, ex_x, 0.
  split; [exact no_C_ok|]. split; [exact ex_forest_ok|]. split; [exact ex_trees_nonempty|].
  split; [discriminate|]. split; [lia|]. split; [exists ex_trees; vm_compute; auto|]. vm_compute. reflexivity.
Qed.
Print Assumptions C96_numbers_refuted.
(** ... and a coalition of one column makes it raise. *)
Theorem C96_one_column_refuted : exists C m data forest x j,
  coalitions_ok C m /\ forest_ok m forest /\ leaves_held m data forest /\ j < m /\
  py_shap_values C m data forest x j = None.
Proof.
  exists [[0; 2]; [1]], 3, ex_data, ex_forest, ex_x, 0.
  split; [|split; [exact ex_forest_ok|split; [exact ex_held|split; [lia|vm_compute; reflexivity]]]].
  split; [|split; [|exact I]].
  - cbn. repeat constructor; cbn; intuition lia.
  - cbn. intuition lia.
Qed.
Print Assumptions C96_one_column_refuted.

(** C97: [py_shap_valuesv2] is the Shapley value when no coalition is declared, or when every
    column used by a leaf belongs to one. *)
Theorem C97_v2_partial : forall C m data forest x P g j q,
  coalitions_ok C m -> (has_coal C = true -> forall c, In c C -> c <> []) -> is_players C m P ->
  forest_ok m forest -> In g P -> In j g ->
  (has_coal C = false \/ forall ls lf, In ls forest -> In lf ls -> incl (l_vars lf) (concat C)) ->
  py_shap_valuesv2 C m data forest x j = Some q ->
  (q == shapley gdec P (worth m data forest x) g)%Q.
Proof. exact (fun C m data forest x P g j q HC HN => py2_value C m HC HN data forest x P g j q). Qed.
Print Assumptions C97_v2_partial.
Theorem C97_numbers_partial : forall C m data forest x P g j,
  coalitions_ok C m -> (has_coal C = true -> forall c, In c C -> c <> []) -> is_players C m P ->
  forest_ok m forest -> In g P -> In j g -> leaves_held m data forest ->
  exists q, py_shap_valuesv2 C m data forest x j = Some q.
Proof. exact (fun C m data forest x P g j HC HN => py2_def C m HC HN data forest x P g j). Qed.
Print Assumptions C97_numbers_partial.
Example C97_example :
  coalitions_ok [[0; 2]; [1]] 3 /\ (forall s, s < 3 -> In s (concat [[0; 2]; [1]])) /\ leaves_held 3 ex_data ex_forest /\
  map (fun j => option_map Qred (py_shap_valuesv2 [[0; 2]; [1]] 3 ex_data ex_forest ex_x j)) [0; 1; 2]
    = [Some (55#6); Some (-67#6); Some (55#6)]%Q /\
  map (fun j => option_map Qred (py_shap_valuesv2 no_C 3 ex_data ex_forest ex_x j)) [0; 1; 2]
    = [Some (227#18); Some (-107#9); Some (-49#18)]%Q.
Proof.
  split; [split; [|split; [|exact I]]|].
  - cbn. repeat constructor; cbn; intuition lia.
  - cbn. intuition lia.
  - split; [cbn; lia|]. split; [exact ex_held|]. vm_compute. auto.
Qed.
(** With coalitions, every column outside them is worth 0 ... *)
Theorem C97_single_columns_zero : forall C m data forest x j,
  coalitions_ok C m -> (has_coal C = true -> forall c, In c C -> c <> []) ->
  has_coal C = true -> j < m -> ~ In j (concat C) ->
  exists q, py_shap_valuesv2 C m data forest x j = Some q /\ (q == 0)%Q.
Proof. exact (fun C m data forest x j HC HN => py2_single_zero C m HC HN data forest x j). Qed.
Print Assumptions C97_single_columns_zero.
Example C97_zero_example : has_coal ex_C = true /\ ~ In 1 (concat ex_C) /\
  option_map Qred (py_shap_valuesv2 ex_C 3 ex_data ex_forest ex_x 1) = Some 0%Q.
Proof. split; [reflexivity|]. split; [cbn; intuition lia|]. vm_compute. reflexivity. Qed.
(** ... so the values are not the Shapley values, nor those of the compiled routine. *)
Theorem C97_v2_refuted : exists C m data forest x P g j q,
  coalitions_ok C m /\ wide_coalitions C /\ is_players C m P /\ forest_ok m forest /\ leaves_held m data forest /\
  In g P /\ In j g /\ py_shap_valuesv2 C m data forest x j = Some q /\
  ~ (q == shapley gdec P (worth m data forest x) g)%Q /\ ~ (q == shap_values_leaves C m data forest x j)%Q.
Proof.
  exists ex_C, 3, ex_data, ex_forest, ex_x, (va_ids ex_C 3), [0; 2], 0. eexists.
  split; [exact ex_C_ok|]. split; [intros c [<-|[]]; cbn; lia|]. split; [apply va_ids_players, ex_C_ok|].
  split; [exact ex_forest_ok|]. split; [exact ex_held|]. split; [now left|]. split; [now left|].
  split; [vm_compute; reflexivity|]. split; vm_compute; discriminate.
Qed.
Print Assumptions C97_v2_refuted.

(** C98: whenever [py_shap_values_acv] returns a number for an observation on no lower bound of a
    leaf, and no coalition is split by the active variables, it is the value of C12. *)
Theorem C98_python_partial : forall C m S N data forest x P g j q,
  coalitions_ok C m -> (has_coal C = true -> wide_coalitions C) -> active_null_cover S N forest ->
  not_split C S -> is_players_of C S P -> forest_ok m forest -> data <> [] ->
  off_lower_bounds forest x -> In g P -> In j g ->
  py_shap_values_acv C m S N data forest x j = Some (Some q) ->
  (q == shapley gdec P (worth_acv m N data forest x) g)%Q.
Proof.
  exact (fun C m S N data forest x P g j q HC HW HA HS HP HF Hd Ho Hg Hj H =>
    pya_value C m S N HC HW (proj1 HA) HS data forest x P g j q HP HF Hd (proj2 (proj2 HA)) Ho Hg Hj H).
Qed.
Print Assumptions C98_python_partial.
Theorem C98_compiled_partial : forall C m S N data forest x P g j q q',
  coalitions_ok C m -> (has_coal C = true -> wide_coalitions C) -> active_null_cover S N forest ->
  not_split C S -> is_players_of C S P -> forest_ok m forest -> data <> [] ->
  off_lower_bounds forest x -> In g P -> In j g ->
  py_shap_values_acv C m S N data forest x j = Some (Some q) ->
  shap_values_acv C m S N data forest x j = Some q' -> (q == q')%Q.
Proof.
  exact (fun C m S N data forest x P g j q q' HC HW HA HS HP HF Hd Ho Hg Hj H H' =>
    Qeq_trans _ _ _
     (pya_value C m S N HC HW (proj1 HA) HS data forest x P g j q HP HF Hd (proj2 (proj2 HA)) Ho Hg Hj H)
     (Qeq_sym _ _ (acv_is_shapley C m S N P data forest x g j q' HC HP HF Hd HA Hg Hj H'))).
Qed.
Print Assumptions C98_compiled_partial.
(** a number when there is a null variable and every leaf contains a background row *)
Theorem C98_numbers_partial : forall C m S N data forest x P g j,
  coalitions_ok C m -> (has_coal C = true -> wide_coalitions C) -> active_null_cover S N forest ->
  not_split C S -> is_players_of C S P -> forest_ok m forest ->
  trees_nonempty forest -> leaves_held m data forest -> N <> [] -> In g P -> In j g ->
  exists q, py_shap_values_acv C m S N data forest x j = Some (Some q).
Proof.
  exact (fun C m S N data forest x P g j HC HW HA HS =>
    pya_def C m S N HC HW (proj1 HA) HS data forest x P g j).
Qed.
Print Assumptions C98_numbers_partial.
Example C98_example :
  active_null_cover [0; 2] [1] ex_forest /\ off_lower_bounds ex_forest ex_off /\ not_split ex_C [0; 2] /\
  is_players_of ex_C [0; 2] [[0; 2]] /\
  map (fun j => option_map (option_map Qred) (py_shap_values_acv no_C 3 [0; 2] [1] ex_data ex_forest ex_off j)) [0; 1; 2]
    = [Some (Some 5); Some (Some 0); Some (Some (-7))]%Q /\
  map (fun j => option_map (option_map Qred) (py_shap_values_acv ex_C 3 [0; 2] [1] ex_data ex_forest ex_off j)) [0; 1; 2]
    = [Some (Some (-2)); Some (Some 0); Some (Some (-2))]%Q.
Proof.
  split; [exact ex_cover|]. split; [exact ex_off_bounds|].
  split; [intros c [<-|[]]; left; apply incl_refl|]. split.
  - apply (acv_va_ids_players ex_C 3 [0; 2]); [exact ex_C_ok|]. repeat constructor; cbn; intuition lia.
  - vm_compute. auto.
Qed.
(** false on a lower bound: [x] is tested with a closed lower bound, the rows with an open one *)
Theorem C98_bounds_refuted : exists C m S N data forest x P g j q q',
  coalitions_ok C m /\ active_null_cover S N forest /\ not_split C S /\ is_players_of C S P /\
  forest_ok m forest /\ leaves_held m data forest /\ N <> [] /\ In g P /\ In j g /\
  py_shap_values_acv C m S N data forest x j = Some (Some q) /\
  ~ (q == shapley gdec P (worth_acv m N data forest x) g)%Q /\
  shap_values_acv C m S N data forest x j = Some q' /\ ~ (q == q')%Q.
Proof.
  exists no_C, 3, [0; 2], [1], ex_data, ex_forest, ex_x, (acv_va_ids no_C [0; 2]), [0], 0. eexists. eexists.
  split; [exact no_C_ok|]. split; [exact ex_cover|].
  split; [intros c [<-|[]]; left; intros k []|]. split.
  { apply (acv_va_ids_players no_C 3); [exact no_C_ok|]. repeat constructor; cbn; intuition lia. }
  split; [exact ex_forest_ok|]. split; [exact ex_held|]. split; [discriminate|]. split; [now left|]. split; [now left|].
  split; [vm_compute; reflexivity|]. split; [vm_compute; discriminate|]. split; [vm_compute; reflexivity|].
  vm_compute. discriminate.
Qed.
Print Assumptions C98_bounds_refuted.
(** false without null variable: as soon as a player is absent from a leaf it raises *)
Theorem C98_no_null_refuted : exists C m S data forest x j q',
  coalitions_ok C m /\ active_null_cover S [] forest /\ not_split C S /\ forest_ok m forest /\
  leaves_held m data forest /\ trees_nonempty forest /\ off_lower_bounds forest x /\ In j S /\
  py_shap_values_acv C m S [] data forest x j = None /\
  shap_values_acv C m S [] data forest x j = Some q'.
Proof.
  exists no_C, 3, [0; 1; 2], ex_data, ex_forest, ex_off, 0. eexists.
  split; [exact no_C_ok|]. split.
  { split; [repeat constructor; cbn; intuition lia|]. split; [intros i _ []|].
    intros ls lf s H1 H2 H3. left. destruct (ex_forest_ok ls lf H1 H2) as [_ [Hb _]]. specialize (Hb s H3). cbn. lia. }
  split; [intros c [<-|[]]; left; intros k []|].
  split; [exact ex_forest_ok|]. split; [exact ex_held|]. split; [exact ex_trees_nonempty|]. split; [exact ex_off_bounds|].
  split; [now left|]. split; vm_compute; reflexivity.
Qed.
Print Assumptions C98_no_null_refuted.
(** false when a coalition is split: its active columns become separate players *)
Theorem C98_split_refuted : exists C m S N data forest x P g j q q',
  coalitions_ok C m /\ wide_coalitions C /\ active_null_cover S N forest /\ is_players_of C S P /\
  forest_ok m forest /\ leaves_held m data forest /\ N <> [] /\ off_lower_bounds forest x /\ In g P /\ In j g /\
  py_shap_values_acv C m S N data forest x j = Some (Some q) /\
  shap_values_acv C m S N data forest x j = Some q' /\ ~ (q == q')%Q.
Proof.
  exists [[0; 1]], 3, [0; 2], [1], ex_data, ex_forest, ex_off, (acv_va_ids [[0; 1]] [0; 2]), [0; 1], 1. eexists. eexists.
  assert (HC : coalitions_ok [[0; 1]] 3).
  { split; [|split; [|exact I]]; cbn; [repeat constructor; cbn; intuition lia|intuition lia]. }
  split; [exact HC|]. split; [intros c [<-|[]]; cbn; lia|]. split; [exact ex_cover|]. split.
  { apply (acv_va_ids_players [[0; 1]] 3); [exact HC|]. repeat constructor; cbn; intuition lia. }
  split; [exact ex_forest_ok|]. split; [exact ex_held|]. split; [discriminate|]. split; [exact ex_off_bounds|].
  split; [now left|]. split; [right; now left|]. split; [vm_compute; reflexivity|].
  split; [vm_compute; reflexivity|]. vm_compute. discriminate.
Qed.
Print Assumptions C98_split_refuted.

(** Property theorems C102: the sequential Shapley routine, as the array program
    it is.  Each is proved by a lemma of NopaProofs.v. *)
From Verif Require Import Base TreeModel TreeSpec TreeProofs GameSpec GameProofs
  ShapModel ShapSpec ShapProofs NopaModel NopaProofs PropertiesTree PropertiesShap.

(** C102: for disjoint coalitions the routine never writes outside its buffer and
    gives every row of the batch the Shapley value of its own game. *)
Theorem C102_shapley : forall C m data rows forest P,
  coalitions_ok C m -> forest_ok m forest -> is_players C m P -> data <> [] ->
  exists phi, shap_values_leaves_nopa C m data rows forest = Some phi /\
    forall i x g j, nth_error rows i = Some x -> In g P -> In j g ->
      (phi i j == shapley gdec P (worth m data forest x) g)%Q.
Proof. exact (fun C m data rows forest P HC => nopa_shapley C m data rows HC forest P). Qed.
Print Assumptions C102_shapley.

(** C102: it agrees with the parallel routine on every row and every column. *)
Theorem C102_same_as_parallel : forall C m data rows forest,
  coalitions_ok C m -> forest_ok m forest ->
  exists phi, shap_values_leaves_nopa C m data rows forest = Some phi /\
    forall i x j, nth_error rows i = Some x ->
      (phi i j == shap_values_leaves C m data forest x j)%Q.
Proof. exact (fun C m data rows forest HC => nopa_same C m data rows HC forest). Qed.
Print Assumptions C102_same_as_parallel.

(** C102: what an earlier tree left in the work arrays has no influence: whatever
    they hold, the trees add the same amount to the answer. *)
Theorem C102_stale_contents : forall C m data rows forest st,
  coalitions_ok C m -> forest_ok m forest -> length (n_S st) = m ->
  exists st', nopa_from C m data rows forest st = Some st' /\
    forall i x j, nth_error rows i = Some x -> 0 < m ->
      ((n_phi st' i j - n_phi st i j) / Qn m == shap_values_leaves C m data forest x j)%Q.
Proof.
  exact (fun C m data rows forest st HC => nopa_any_contents C m data rows HC forest st).
Qed.
Print Assumptions C102_stale_contents.

Definition ex_rows : list pt := [ex_x; row 0 5 9]%Q.
Definition ex_dirty : nst :=
  mkNst (fun i j => Qn (i + 2 * j)) [7; 8; 9] (fun k => [[k]; [5]]) (fun _ => [[1; 1]]) (fun k => [[k; k]])
        (fun v k => [[v]; [k]]).
Definition phi_of (o : option (nat -> nat -> Q)) (i j : nat) : Q :=
  match o with Some phi => Qred (phi i j) | None => 0%Q end.
Example C102_example :
  coalitions_ok ex_C 3 /\ forest_ok 3 ex_forest /\ ex_data <> [] /\ length (n_S ex_dirty) = 3 /\
  length ex_forest = 2 /\
  map (fun j => phi_of (shap_values_leaves_nopa ex_C 3 ex_data ex_rows ex_forest) 0 j) [0; 1; 2]
    = [(55#6); (-67#6); (55#6)]%Q /\
  map (fun j => phi_of (shap_values_leaves_nopa ex_C 3 ex_data ex_rows ex_forest) 1 j) [0; 1; 2]
    = map (fun j => Qred (shap_values_leaves ex_C 3 ex_data ex_forest (row 0 5 9)%Q j)) [0; 1; 2] /\
  match nopa_from ex_C 3 ex_data ex_rows ex_forest ex_dirty with
  | Some st => Qred ((n_phi st 0 1 - n_phi ex_dirty 0 1) / 3) = (-67#6)%Q /\ n_phi ex_dirty 0 1 = 2%Q
  | None => False
  end.
Proof.
  split; [exact ex_C_ok|]. split; [exact ex_forest_ok|]. split; [discriminate|]. vm_compute. repeat split.
Qed.

(** C102: std::remove is given a reference to an entry of the vector it
    rearranges; for disjoint non-empty groups exactly that entry disappears and
    the others keep their order. *)
Theorem C102_alias_partial : forall a ci,
  NoDup (concat a) -> (forall g, In g a -> g <> []) -> ci < length a ->
  drop_at ci a = firstn ci a ++ skipn (S ci) a.
Proof. exact drop_at_exact. Qed.
Print Assumptions C102_alias_partial.
Example C102_alias_example : drop_at 1 [[0; 3]; [1]; [2; 4]; [5]] = [[0; 3]; [2; 4]; [5]].
Proof. vm_compute. reflexivity. Qed.
(** without disjointness another entry is lost with it *)
Theorem C102_alias_refuted : exists a ci, (forall g, In g a -> g <> []) /\ ci < length a /\
  drop_at ci a <> firstn ci a ++ skipn (S ci) a /\
  count_occ group_eq_dec (firstn ci a ++ skipn (S ci) a) [1] = 2 /\
  count_occ group_eq_dec (drop_at ci a) [1] = 1.
Proof.
  exists [[0]; [1]; [1]; [2]; [3]], 0. split.
  - intros g Hg. cbn in Hg. intros ->. intuition discriminate.
  - vm_compute. repeat split; [lia|discriminate].
Qed.
Print Assumptions C102_alias_refuted.

(** C102: overlapping coalitions make the routine write beyond its buffer. *)
Theorem C102_overlap_refuted : exists C m data rows forest,
  forest_ok m forest /\ data <> [] /\ has_coal C = true /\
  (forall i, In i (concat C) -> i < m) /\ (forall g, In g C -> NoDup g) /\
  shap_values_leaves_nopa C m data rows forest = None.
Proof.
  exists [[0; 1]; [1; 2]; [0; 2]], 3, ex_data, ex_rows,
    [[mkLeaf (fun s => if s <? 3 then (NInf, Fin 3) else (NInf, PInf)) [0; 1; 2] 1%Q]].
  split; [|split; [discriminate|split; [reflexivity|split; [|split]]]].
  - intros ls lf [<-|[]] [<-|[]]. split; [|split].
    + repeat constructor; cbn; intuition lia.
    + cbn. intuition lia.
    + intros s Hs. cbn [l_rect l_vars] in *. destruct (Nat.ltb_spec s 3) as [L|L]; [|reflexivity].
      exfalso. apply Hs. destruct s as [|[|[|s]]]; cbn; auto. lia.
  - cbn. intuition lia.
  - intros g Hg. cbn in Hg. destruct Hg as [<-|[<-|[<-|[]]]]; repeat constructor; cbn; intuition lia.
  - vm_compute. reflexivity.
Qed.
Print Assumptions C102_overlap_refuted.

(** C138: all the minimal explanations that [ACXplainer] lists, from the forest of skranger to the lists returned. *)
From Verif Require Import Base TreeModel GameSpec SkModel SearchModel SearchSpec ExplSpec RfModel RfSpec PropertiesRf ApiModel ApiSpec AgnModel AgnSpec
  AxsModel AxsSpec AxsProofs PropertiesAgn PropertiesAxs AsfModel AsfSpec AsfProofs.
Local Open Scope nat_scope.

(** for the examples *)
Definition af_sched (S : list nat) : list nat := ax_turns 2 4.
Definition af_y : list Q := [1; 0; 1; 0]%Q.
Lemma af_ok sched : (forall S, complete 3 4 (sched S)) -> explorable 2 1 ag_es ag_Ts true (fun _ => 0%Q) [0; 1] sched ax_X af_y ag_D ag_Y T_none [[]].
Proof.
  intro H. split; [discriminate|]. split; [exact ag_holds|]. split; [lia|]. split.
  - split; [split; (reflexivity || discriminate)|]. split; [split; (reflexivity || discriminate)|]. split; [discriminate|]. split; [intros [E|E]; discriminate|now left].
  - split; [split; [constructor|split; [intros x []|now left]]|]. split; [discriminate|]. split; [|exact H].
    split; [apply Permutation_refl|]. intros i j s s' _ _ _. apply Qle_refl.
Qed.
Definition af_run (divergent : bool) (pi : Q) : ending report :=
  acx_sufficient 2 ag_es ex_calm true ag_q [0; 1] af_sched divergent ax_X af_y ag_D ag_Y 1 T_none [[]] pi 1.
Definition af_plain (e : ending report) : ending report :=
  match e with Gives e => Gives (mkRep (p_sets e) (map (map Qred) (p_sdp e)) (map (option_map Qred) (p_global e))) | Raises => Raises | Strays => Strays end.
Definition af_told (r : routine) (S : list nat) : list Q :=
  map (fun k => Qred (answered 2 ag_es ex_calm true ag_q (ax_turns 2 4) r ax_X af_y ag_D ag_Y 1 T_none k S)) (seq 0 4).

(** Every call with documented arguments returns the three lists: one list of sets for each observation, one importance for each
    column, and for [sufficient_expl_rf] one list of probabilities for each observation. *)
Theorem C138_returns d w es Ts stray classifier q imp by_importance sched divergent X y D Y t C m pi minimal :
  explorable d w es Ts classifier imp by_importance sched X y D Y t C ->
  exists e, acx_sufficient d es stray classifier q by_importance sched divergent X y D Y m t C pi minimal = Gives e /\
    length (p_sets e) = length X /\ length (p_global e) = d /\ (divergent = false -> length (p_sdp e) = length X).
Proof.
  intro HE. destruct (sufficient_state d w es Ts stray classifier q imp by_importance sched X y D Y t C m divergent HE pi minimal) as (st & _ & _ & E).
  eexists. split; [exact E|]. destruct (run_shape d w es Ts stray classifier q imp by_importance sched X y D Y t C m divergent HE pi minimal _ E) as (A & B & F).
  split; [exact A|]. split; [exact B|]. intros ->. exact F.
Qed.
Print Assumptions C138_returns.
Example C138_returns_example : explorable 2 1 ag_es ag_Ts true (fun _ => 0%Q) [0; 1] af_sched ax_X af_y ag_D ag_Y T_none [[]] /\
  af_plain (af_run false (9#20)) = Gives (mkRep [[[0]]; [[0]; [1]]; [[0]; [1]]; [[1]]]%Z [[7#15]; [2#3; 3#4]; [7#15; 3#4]; [7#12]]%Q [Some (1#2); Some (1#2)]%Q).
Proof. split; [apply af_ok; intro S; apply turns_complete|vm_compute; reflexivity]. Qed.

(** The sets of an observation are exactly the minimal ones: each is a union of searched groups (at least [minimal] of them) whose
    probability, as the method for a given set of the same object returns it ([compute_sdp_rf] or [compute_ddp_rf]), reaches the
    level; none contains another; each searched set that reaches the level contains a listed one.  Missing: sets with other columns
    when there are more than ten, see below. *)
Theorem C138_rows_partial d w es Ts stray classifier q imp by_importance sched divergent X y D Y t C m pi minimal e :
  explorable d w es Ts classifier imp by_importance sched X y D Y t C ->
  acx_sufficient d es stray classifier q by_importance sched divergent X y D Y m t C pi minimal = Gives e ->
  exists va, chosen imp d C va /\ forall order, complete (S (length Ts)) (length X) order -> forall k, k < length X ->
    minimal_family va minimal pi (answered d es stray classifier q order (if divergent then ddp_rf else sdp_rf) X y D Y m t k) (nth k (p_sets e) []).
Proof.
  intros HE He. exists (search_groups C (ExplModel.agnostic_space d by_importance)). split; [apply chosen_groups; apply HE|]. intros order Ho k Hk.
  exact (run_rows d w es Ts stray classifier q imp by_importance sched X y D Y t C m divergent HE pi minimal e order k He Ho Hk).
Qed.
Print Assumptions C138_rows_partial.
Example C138_rows_example : complete 3 4 (ax_turns 2 4) /\
  map (af_told sdp_rf) [[0]; [1]; [0; 1]] = [[7 # 15; 2 # 3; 7 # 15; 11 # 30]; [5 # 12; 3 # 4; 3 # 4; 7 # 12]; [3 # 10; 1; 4 # 5; 1 # 5]]%Q /\
  af_plain (af_run false (19#25)) = Gives (mkRep [[]; [[0; 1]]; [[0; 1]]; []]%Z [[]; [1]; [4#5]; []]%Q [Some 1; Some 1]%Q).
Proof. split; [apply turns_complete|]. split; vm_compute; reflexivity. Qed.

(** [sufficient_expl_rf]: the probabilities of an observation are listed in the order of its sets, and are those of the method. *)
Theorem C138_probabilities d w es Ts stray classifier q imp by_importance sched X y D Y t C m pi minimal e order k :
  explorable d w es Ts classifier imp by_importance sched X y D Y t C ->
  acx_sufficient d es stray classifier q by_importance sched false X y D Y m t C pi minimal = Gives e ->
  complete (S (length Ts)) (length X) order -> k < length X ->
  length (nth k (p_sdp e) []) = length (nth k (p_sets e) []) /\
  forall i S, nth_error (nth k (p_sets e) []) i = Some (map Z.of_nat S) ->
    nth_error (nth k (p_sdp e) []) i = Some (answered d es stray classifier q order sdp_rf X y D Y m t k S).
Proof. intros HE He. exact (run_probs d w es Ts stray classifier q imp by_importance sched X y D Y t C m false HE pi minimal e order k eq_refl He). Qed.
Print Assumptions C138_probabilities.
Example C138_probabilities_example : match af_plain (af_run false (9#20)) with
  | Gives e => nth_error (nth 2 (p_sets e) []) 1 = Some (map Z.of_nat [1]) /\ nth_error (nth 2 (p_sdp e) []) 1 = Some (3#4)%Q | _ => False end /\
  nth 2 (af_told sdp_rf [1]) 0%Q = (3#4)%Q.
Proof. vm_compute. auto. Qed.

(** [sufficient_cxpl_rf]: what is returned for the probabilities starts with the second observation, each list after a -1. *)
Theorem C138_cxpl_probabilities d w es Ts stray classifier q imp by_importance sched X y D Y t C m pi minimal e order :
  explorable d w es Ts classifier imp by_importance sched X y D Y t C ->
  acx_sufficient d es stray classifier q by_importance sched true X y D Y m t C pi minimal = Gives e ->
  complete (S (length Ts)) (length X) order ->
  length (p_sdp e) = length X - 1 /\ forall k, S k < length X ->
  exists ps, nth k (p_sdp e) [] = (-1)%Q :: ps /\ length ps = length (nth (S k) (p_sets e) []) /\
    forall i S, nth_error (nth (Datatypes.S k) (p_sets e) []) i = Some (map Z.of_nat S) ->
      nth_error ps i = Some (answered d es stray classifier q order ddp_rf X y D Y m t (Datatypes.S k) S).
Proof.
  intros HE He Ho. split; [apply (run_shape d w es Ts stray classifier q imp by_importance sched X y D Y t C m true HE pi minimal e He)|]. intros k Hk.
  exact (run_shifted d w es Ts stray classifier q imp by_importance sched X y D Y t C m true HE pi minimal e order k eq_refl He Ho Hk).
Qed.
Print Assumptions C138_cxpl_probabilities.
Example C138_cxpl_example :
  map (af_told ddp_rf) [[0]; [1]; [0; 1]] = [[8 # 15; 1 # 3; 8 # 15; 19 # 30]; [7 # 12; 1 # 4; 1 # 4; 5 # 12]; [7 # 10; 0; 1 # 5; 4 # 5]]%Q /\
  af_plain (af_run true (1#2)) = Gives (mkRep [[[0]; [1]]; []; [[0]]; [[0]]]%Z [[-1]; [-1; 8#15]; [-1; 19#30]]%Q [Some (3#4); Some (1#4)]%Q).
Proof. split; vm_compute; reflexivity. Qed.

(** A column's importance is the share of the listed sets that contain it.  Partial: some observation has a set. *)
Theorem C138_importance_partial d w es Ts stray classifier q imp by_importance sched divergent X y D Y t C m pi minimal e j :
  explorable d w es Ts classifier imp by_importance sched X y D Y t C ->
  acx_sufficient d es stray classifier q by_importance sched divergent X y D Y m t C pi minimal = Gives e -> j < d ->
  (exists k, nth k (p_sets e) [] <> []) ->
  exists g, nth j (p_global e) None = Some g /\
    (g == Qn (length (filter (existsb (Z.eqb (Z.of_nat j))) (concat (p_sets e)))) / Qn (length (concat (p_sets e))))%Q /\ (0 <= g <= 1)%Q.
Proof. intros HE He Hj. exact (proj1 (run_global d w es Ts stray classifier q imp by_importance sched X y D Y t C m divergent HE pi minimal e j He Hj)). Qed.
Print Assumptions C138_importance_partial.
Example C138_importance_example : match af_plain (af_run true (1#2)) with
  | Gives e => length (filter (existsb (Z.eqb (Z.of_nat 0))) (concat (p_sets e))) = 3 /\ length (concat (p_sets e)) = 4 /\ nth 0 (p_sets e) [] <> [] | _ => False end.
Proof. vm_compute. repeat split. discriminate. Qed.

(** The order in which the workers treat the rows does not matter. *)
Theorem C138_threads d w es Ts stray classifier q imp by_importance sched sched' divergent X y D Y t C m pi minimal :
  explorable d w es Ts classifier imp by_importance sched X y D Y t C -> explorable d w es Ts classifier imp by_importance sched' X y D Y t C ->
  acx_sufficient d es stray classifier q by_importance sched divergent X y D Y m t C pi minimal =
  acx_sufficient d es stray classifier q by_importance sched' divergent X y D Y m t C pi minimal.
Proof. exact (sufficient_threads d w es Ts stray classifier q imp by_importance sched sched' X y D Y t C m divergent pi minimal). Qed.
Print Assumptions C138_threads.
Example C138_threads_example :
  explorable 2 1 ag_es ag_Ts true (fun _ => 0%Q) [0; 1] af_sched ax_X af_y ag_D ag_Y T_none [[]] /\
  explorable 2 1 ag_es ag_Ts true (fun _ => 0%Q) [0; 1] (fun S => rev (af_sched S)) ax_X af_y ag_D ag_Y T_none [[]] /\ af_sched [0] <> rev (af_sched [0]).
Proof. split; [apply af_ok; intro S; apply turns_complete|]. split; [apply af_ok; intro S; apply rev_complete, turns_complete|discriminate]. Qed.

(** A listed probability from the trees: the mean over the trees of the mean over the training rows that the tree does not
    separate from the observation by the columns of the listed set, for [sufficient_cxpl_rf] too.  Partial as C135: every tree
    keeps at least [min_node_size] rows and the memory before the arrays does no harm. *)
Theorem C138_values_partial d w es Ts stray classifier q imp by_importance sched divergent X y D Y t C m pi minimal e k i S :
  explorable d w es Ts classifier imp by_importance sched X y D Y t C ->
  acx_sufficient d es stray classifier q by_importance sched divergent X y D Y m t C pi minimal = Gives e -> k < length X ->
  nth_error (nth k (p_sets e) []) i = Some (map Z.of_nat S) -> (divergent = true -> 0 < k) ->
  safe stray S Ts -> (forall T, In T Ts -> m <= length (mates S T (nth k X (fun _ => 0%Q)) D)) ->
  exists p, nth_error (if divergent then List.tl (nth (k - 1) (p_sdp e) []) else nth k (p_sdp e) []) i = Some p /\
    (p == mean_over (fun T => mean_over (fun j => measured (if divergent then ddp_rf else sdp_rf) classifier (nth k y 0)
                                                    (fst (levels_at q X t k)) (snd (levels_at q X t k)) 0 0 (nth j Y 0))
                                        (mates S T (nth k X (fun _ => 0)) D)) Ts)%Q.
Proof.
  intros HE He Hk HS Hd L2 L3. pose proof (turns_complete (length Ts) (length X)) as Ho.
  pose proof (run_values d w es Ts stray classifier q imp by_importance sched X y D Y t C m divergent HE _ k S Ho Hk L2 L3) as V.
  unfold judge in V. destruct divergent.
  - destruct k as [|k]; [specialize (Hd eq_refl); lia|]. cbn [Nat.sub]. rewrite Nat.sub_0_r.
    destruct (run_shifted d w es Ts stray classifier q imp by_importance sched X y D Y t C m true HE pi minimal e _ k eq_refl He Ho Hk) as (ps & -> & _ & R).
    eexists. split; [exact (R i S HS)|exact V].
  - destruct (run_probs d w es Ts stray classifier q imp by_importance sched X y D Y t C m false HE pi minimal e _ k eq_refl He Ho Hk) as (_ & R).
    eexists. split; [exact (R i S HS)|exact V].
Qed.
Print Assumptions C138_values_partial.
Example C138_values_example : safe ex_calm [0] ag_Ts /\ map (fun T => mates [0] T (ex_obs 3 1 0) ag_D) ag_Ts = [[1; 2; 3; 4; 5]; [2; 3; 5]] /\
  Qred (((3#5) + (1#3)) / 2) = (7#15)%Q /\ Qred (((2#5) + (2#3)) / 2) = (8#15)%Q.
Proof. split; [left; split; [intros f [Hf _]; cbn in Hf; lia|split; reflexivity]|]. split; [reflexivity|]. split; reflexivity. Qed.

(** *** Where the full statement fails *)
(** [sufficient_cxpl_rf]: the list of probabilities of an observation is that of the next one. *)
Theorem C138_aligned_refuted : exists d w es Ts sched X y D Y order pi e k i S p,
  explorable d w es Ts true (fun _ => 0%Q) (seq 0 d) sched X y D Y T_none [[]] /\ complete (Datatypes.S (length Ts)) (length X) order /\
  acx_sufficient d es ex_calm true ag_q (seq 0 d) sched true X y D Y 1 T_none [[]] pi 1 = Gives e /\ k < length X /\
  nth_error (nth k (p_sets e) []) i = Some (map Z.of_nat S) /\ nth_error (nth k (p_sdp e) []) i = Some p /\ (p < 0)%Q /\
  (pi <= answered d es ex_calm true ag_q order ddp_rf X y D Y 1 T_none k S)%Q.
Proof.
  exists 2, 1, ag_es, ag_Ts, af_sched, ax_X, af_y, ag_D, ag_Y, (ax_turns 2 4), (1#2)%Q. eexists. exists 0, 0, [0], (-1)%Q.
  split; [apply af_ok; intro S; apply turns_complete|]. split; [apply turns_complete|]. split; [vm_compute; reflexivity|].
  split; [cbn; lia|]. split; [reflexivity|]. split; [reflexivity|]. split; [reflexivity|]. vm_compute. discriminate.
Qed.
Print Assumptions C138_aligned_refuted.
(** [sufficient_cxpl_rf] keeps the columns of a set fixed, whereas [importance_ddp_rf] keeps the others fixed: a listed set whose
    change does not reach the level. *)
Theorem C138_complement_refuted : exists d w es Ts sched X y D Y order pi e k S,
  explorable d w es Ts true (fun _ => 0%Q) (seq 0 d) sched X y D Y T_none [[]] /\ complete (Datatypes.S (length Ts)) (length X) order /\
  acx_sufficient d es ex_calm true ag_q (seq 0 d) sched true X y D Y 1 T_none [[]] pi 1 = Gives e /\ k < length X /\
  In (map Z.of_nat S) (nth k (p_sets e) []) /\
  (AxsSpec.told d es ex_calm true ag_q order by_ddp (mkArgs X y [] [] (S_rows []) []) D Y 1 T_none k S < pi)%Q.
Proof.
  exists 2, 1, ag_es, ag_Ts, af_sched, ax_X, af_y, ag_D, ag_Y, (ax_turns 2 4), (1#2)%Q. eexists. exists 2, [0].
  split; [apply af_ok; intro S; apply turns_complete|]. split; [apply turns_complete|]. split; [vm_compute; reflexivity|].
  split; [cbn; lia|]. split; [now left|]. vm_compute. reflexivity.
Qed.
Print Assumptions C138_complement_refuted.
(** When no observation has a set, the importances are 0/0. *)
Theorem C138_importance_refuted : exists d w es Ts sched X y D Y pi e,
  explorable d w es Ts true (fun _ => 0%Q) (seq 0 d) sched X y D Y T_none [[]] /\ (0 < pi <= 1)%Q /\
  acx_sufficient d es ex_calm true ag_q (seq 0 d) sched true X y D Y 1 T_none [[]] pi 1 = Gives e /\ p_global e = repeat None d /\ 0 < d.
Proof.
  exists 2, 1, ag_es, ag_Ts, af_sched, ax_X, af_y, ag_D, ag_Y, (9#10)%Q. eexists.
  split; [apply af_ok; intro S; apply turns_complete|]. split; [split; reflexivity || discriminate|]. split; [vm_compute; reflexivity|]. split; [reflexivity|lia].
Qed.
Print Assumptions C138_importance_refuted.
(** Beyond ten columns a sufficient set with another column is not listed. *)
Theorem C138_space_refuted : exists w es Ts sched X y D Y order pi e k s,
  explorable 11 w es Ts true (fun _ => 0%Q) (seq 0 11) sched X y D Y T_none [[0; 1; 2; 3; 4; 5; 6; 7; 8]] /\
  complete (S (length Ts)) (length X) order /\ (0 < pi <= 1)%Q /\
  acx_sufficient 11 es ex_calm true ag_q (seq 0 11) sched false X y D Y 1 T_none [[0; 1; 2; 3; 4; 5; 6; 7; 8]] pi 1 = Gives e /\ k < length X /\
  s < 11 /\ ~ In s [0; 1; 2; 3; 4; 5; 6; 7; 8] /\ (pi <= answered 11 es ex_calm true ag_q order sdp_rf X y D Y 1 T_none k [s])%Q /\ nth k (p_sets e) [] = [].
Proof.
  exists 1, [e_last], [T_last], (fun _ => ax_turns 1 1), [ex_at 1], [1%Q], [ex_at 0; ex_at 1], [0; 1]%Q, (ax_turns 1 1), (9#10)%Q. eexists. exists 0, 10.
  split.
  { split; [discriminate|]. split; [constructor; [exact h_last|constructor]|]. split; [lia|]. split.
    - split; [split; (reflexivity || discriminate)|]. split; [split; (reflexivity || discriminate)|].
      split; [discriminate|]. split; [intros [H|H]; discriminate|now left].
    - split; [split; [|split]|].
      + cbn. repeat constructor; cbn; intuition lia.
      + cbn. intros x Hx. decompose [or] Hx; try lia; contradiction.
      + right. intros [H|[]]. discriminate.
      + split; [discriminate|]. split; [|intro S; apply turns_complete]. split; [apply Permutation_refl|]. intros i j s s' _ _ _. apply Qle_refl. }
  split; [apply turns_complete|]. split; [split; reflexivity || discriminate|]. split; [vm_compute; reflexivity|].
  split; [cbn; lia|]. split; [lia|]. split; [cbn; intuition lia|]. split; [vm_compute; discriminate|reflexivity].
Qed.
Print Assumptions C138_space_refuted.

(** C114: the entry points of the projected forest. *)
From Verif Require Import Base TreeModel TreeSpec PropertiesTree RfModel RfSpec MaxModel PropertiesRf PropertiesMax ApiModel ApiSpec ApiProofs.

(** for the examples: two observations, six training samples, two trees *)
Definition ap_D : list pt := map ex_train (seq 0 6).
Definition ap_Y : list Q := map ex_y (seq 0 6).
Definition ap_X : list pt := [ex_point; ex_obs 0 1 0].
Definition ap_args : args := mkArgs ap_X [1; 0]%Q [0; 1]%Q [1; 1]%Q (S_rows [[0]; [1; 2]]) [ex_box; rule0].
Definition ap_sched : list nat := [0; 1; 1; 0; 0; 1].
Definition ap_q : pt -> Q * Q := fun x => (0, x 0%nat / 2)%Q.
(** the probabilities of an outcome, in lowest terms *)
Definition ap_sdp (o : outcome result) : option (list Q) := match o with Returned r => Some (map Qred (r_sdp r)) | _ => None end.
Lemma ap_complete : complete (S (F_trees ex_mem)) 2 ap_sched.
Proof.
  split; [intros i H; cbn in H; decompose [or] H; subst; try contradiction; repeat constructor|].
  intros [|[|i]] H; [reflexivity|reflexivity|exfalso; lia].
Qed.
Lemma ap_tables : table (g_X ap_args) (g_y ap_args) /\ table ap_D ap_Y /\ forall r, documented r ap_args [[0]; [1; 2]].
Proof. repeat split; (discriminate || reflexivity). Qed.

(** Every method with one set per observation, under every complete interleaving of the
    workers: row [i] of the answer is the estimator on observation [i], its own target,
    bounds, set, box and levels; rules and weights are returned where promised. *)
Theorem C114_rows M depth classifier q r a l D Y m t sched lev :
  acx_routine r -> table (g_X a) (g_y a) -> table D Y -> documented r a l -> own_levels classifier q (g_X a) t lev ->
  complete (S (F_trees M)) (length (g_X a)) sched ->
  exists res, acx M depth classifier q r a D Y m t sched = Returned res /\
    row_by_row r res (length (g_X a)) (fun i =>
      due M (fun j => nth j D (fun _ => 0%Q)) (fun j => nth j Y 0%Q) (length D) depth m classifier r
        (nth i (g_X a) (fun _ => 0%Q)) (nth i (g_y a) 0%Q) (nth i (g_down a) 0%Q) (nth i (g_up a) 0%Q)
        (nth i l []) (nth i (g_cond a) rule0) (fst (lev i)) (snd (lev i))).
Proof. exact (acx_rows M depth classifier q r a l D Y m t sched lev). Qed.
Print Assumptions C114_rows.
Example C114_rows_example :
  acx_routine cdp_cond /\ table (g_X ap_args) (g_y ap_args) /\ table ap_D ap_Y /\ documented cdp_cond ap_args [[0]; [1; 2]] /\
  own_levels false ap_q (g_X ap_args) T_none (fun i => ap_q (nth i ap_X (fun _ => 0%Q))) /\ complete (S (F_trees ex_mem)) 2 ap_sched /\
  ap_sdp (acx ex_mem 2 true ap_q sdp_rf ap_args ap_D ap_Y 1 T_none ap_sched) = Some [5 # 8; 1 # 3]%Q.
Proof.
  split; [cbn; tauto|]. split; [apply ap_tables|]. split; [apply ap_tables|]. split; [apply ap_tables|]. split; [right; left; split; reflexivity|].
  split; [exact ap_complete|vm_compute; reflexivity].
Qed.

(** The two methods with one set and one box per observation. *)
Theorem C114_same_rows M depth classifier q r a s D Y m t sched lev :
  r = ddp_intv_same \/ r = cdp_intv_same -> table (g_X a) (g_y a) -> table D Y -> g_S a = S_same s ->
  length (g_cond a) = length (g_X a) -> own_levels classifier q (g_X a) t lev ->
  complete (S (F_trees M)) (length (g_X a)) sched ->
  exists res, acx M depth classifier q r a D Y m t sched = Returned res /\
    row_by_row r res (length (g_X a)) (fun i =>
      due M (fun j => nth j D (fun _ => 0%Q)) (fun j => nth j Y 0%Q) (length D) depth m classifier r
        (nth i (g_X a) (fun _ => 0%Q)) (nth i (g_y a) 0%Q) 0%Q 0%Q s (nth i (g_cond a) rule0) (fst (lev i)) (snd (lev i))).
Proof. exact (acx_same_rows M depth classifier q r a s D Y m t sched lev). Qed.
Print Assumptions C114_same_rows.
Example C114_same_rows_example :
  ap_sdp (acx ex_mem 2 true ap_q ddp_intv_same (mkArgs ap_X [1; 0]%Q [] [] (S_same [1]) [ex_box; rule0]) ap_D ap_Y 1 T_none ap_sched) <> None.
Proof. vm_compute. discriminate. Qed.

(** Two complete executions of a compiled routine end alike, whatever the arguments; the
    sequential loop is one of them. *)
Theorem C114_schedules M data y N depth m classifier r a t sched :
  complete (S (F_trees M)) (length (g_X a)) sched ->
  complete (S (F_trees M)) (length (g_X a)) (in_order M (length (g_X a))) /\
  compiled M data y N depth m classifier r a t sched = compiled M data y N depth m classifier r a t (in_order M (length (g_X a))).
Proof. exact (fun H => conj (in_order_complete M _) (compiled_schedules M data y N depth m classifier r a t sched _ H (in_order_complete M _))). Qed.
Print Assumptions C114_schedules.
Example C114_schedules_example : in_order ex_mem 2 = [0; 0; 0; 1; 1; 1] /\ ap_sched <> in_order ex_mem 2 /\ complete (S (F_trees ex_mem)) 2 ap_sched.
Proof. split; [reflexivity|]. split; [discriminate|exact ap_complete]. Qed.

(** Every probability returned is one. *)
Theorem C114_probabilities M depth classifier q r a l D Y m t sched lev :
  acx_routine r -> r <> exp_rf -> table (g_X a) (g_y a) -> table D Y -> documented r a l -> own_levels classifier q (g_X a) t lev ->
  complete (S (F_trees M)) (length (g_X a)) sched ->
  exists res, acx M depth classifier q r a D Y m t sched = Returned res /\
    length (r_sdp res) = length (g_X a) /\ forall p, In p (r_sdp res) -> (0 <= p <= 1)%Q.
Proof. exact (acx_probabilities M depth classifier q r a l D Y m t sched lev). Qed.
Print Assumptions C114_probabilities.
Example C114_probabilities_example :
  ap_sdp (acx ex_mem 2 true ap_q ddp_weights ap_args ap_D ap_Y 1 T_none ap_sched) = Some [3 # 8; 2 # 3]%Q.
Proof. vm_compute. reflexivity. Qed.

(** A batch is the batches of its parts, one after the other. *)
Theorem C114_join M depth classifier q r a b D Y m l k sched1 sched2 sched :
  acx_routine r -> table (g_X a) (g_y a) -> table (g_X b) (g_y b) -> table D Y -> documented r a l -> documented r b k ->
  complete (S (F_trees M)) (length (g_X a)) sched1 -> complete (S (F_trees M)) (length (g_X b)) sched2 ->
  complete (S (F_trees M)) (length (g_X a) + length (g_X b)) sched ->
  exists res1 res2,
    acx M depth classifier q r a D Y m T_none sched1 = Returned res1 /\
    acx M depth classifier q r b D Y m T_none sched2 = Returned res2 /\
    acx M depth classifier q r (joined a b) D Y m T_none sched =
      Returned (mkRes (r_sdp res1 ++ r_sdp res2) (stacked (r_rules res1) (r_rules res2)) (stacked (r_weights res1) (r_weights res2))).
Proof. exact (acx_join M depth classifier q r a b D Y m l k sched1 sched2 sched). Qed.
Print Assumptions C114_join.
Example C114_join_example :
  let a := mkArgs [ex_point] [1%Q] [] [] (S_rows [[0]]) [] in let b := mkArgs [ex_obs 0 1 0] [0%Q] [] [] (S_rows [[1; 2]]) [] in
  table (g_X a) (g_y a) /\ table (g_X b) (g_y b) /\ documented sdp_rule a [[0]] /\ documented sdp_rule b [[1; 2]] /\
  g_S (joined a b) = g_S ap_args /\ complete (S (F_trees ex_mem)) 1 [0; 0; 0] /\ complete (S (F_trees ex_mem)) 2 ap_sched.
Proof.
  cbv zeta. split; [split; (reflexivity || discriminate)|]. split; [split; (reflexivity || discriminate)|].
  split; [|split; [|split; [reflexivity|split; [|exact ap_complete]]]].
  - split; [reflexivity|split; [reflexivity|split]]; intro H; cbn in H; decompose [or] H; try discriminate; contradiction.
  - split; [reflexivity|split; [reflexivity|split]]; intro H; cbn in H; decompose [or] H; try discriminate; contradiction.
  - split; [intros i H; cbn in H; lia|]. intros [|i] H; [reflexivity|lia].
Qed.

(** Nothing known, classification: the frequency of the class of each observation. *)
Theorem C114_no_condition M depth q a l D Y m t sched :
  0 < F_trees M -> table (g_X a) (g_y a) -> table D Y -> documented sdp_rf a l -> (forall s, In s l -> s = []) ->
  complete (S (F_trees M)) (length (g_X a)) sched ->
  exists res, acx M depth true q sdp_rf a D Y m t sched = Returned res /\ length (r_sdp res) = length (g_X a) /\
    forall i, i < length (g_X a) ->
      (nth i (r_sdp res) 0 == frequency (length D) (fun j => qeqb (nth i (g_y a) 0) (nth j Y 0)))%Q.
Proof. exact (acx_no_condition M depth q a l D Y m t sched). Qed.
Print Assumptions C114_no_condition.
Example C114_no_condition_example :
  ap_sdp (acx ex_mem 2 true ap_q sdp_rf (mkArgs ap_X [1; 0]%Q [] [] (S_rows [[]; []]) []) ap_D [0; 1; 1; 0; 1; 1]%Q 1 T_none ap_sched) = Some [2 # 3; 1 # 3]%Q.
Proof. vm_compute. reflexivity. Qed.

(** Arguments of different lengths are refused before anything is read. *)
Theorem C114_lengths M depth classifier q r a D Y m t sched : one_set r = false ->
  length (g_X a) <> length (g_y a) \/ length D <> length Y \/ s_len (g_S a) <> length (g_X a) ->
  acx M depth classifier q r a D Y m t sched = Raised EValue.
Proof. exact (acx_lengths M depth classifier q r a D Y m t sched). Qed.
Print Assumptions C114_lengths.
Theorem C114_acv_lengths M depth classifier r a D Y m t sched :
  length (g_X a) <> length (g_y a) \/ length D <> length Y \/ s_len (g_S a) <> length (g_X a) ->
  acv M depth classifier r a D Y m t sched = Raised EValue.
Proof. exact (acv_lengths M depth classifier r a D Y m t sched). Qed.
Print Assumptions C114_acv_lengths.
Example C114_lengths_example : one_set sdp_rf = false /\ s_len (S_rows [[0]]) <> length ap_X.
Proof. split; [reflexivity|discriminate]. Qed.

(** The tables of the maximal rules: in every row the observation's own probability, rule
    and weights, and for every training sample with a weight its probability and rule, with
    the target and the set of that row; every complete interleaving of the inner loops. *)
Theorem C114_max_tables M depth data y N m classifier l scheds i :
  i < length l -> complete (S (F_trees M)) N (scheds i) ->
  let s := max_tables M depth data y N m classifier l scheds in
  let a := nth i l no_args in
  (b_sdp (m_own s) i, b_part (m_own s) i, b_w (m_own s) i) = max_own M data y N depth m classifier (a_t0 a) (a_t1 a) (a_S a) (a_x a) (a_y a) /\
  forall j, j < N -> (m_sdp s i j, m_part s i j) = max_row M data y N depth m classifier (a_t0 a) (a_t1 a) (a_S a) (a_x a) (a_y a) j.
Proof. exact (max_tables_row M depth data y N m classifier l scheds i). Qed.
Print Assumptions C114_max_tables.
(** The older routine, on all training samples; and the one restricted by the weights. *)
Theorem C114_max_tables_v0 M depth data y N m classifier l scheds i :
  i < length l -> complete (S (F_trees M)) N (scheds i) ->
  let s := max_tables_v0 M depth data y N m classifier l scheds in
  let a := nth i l no_args in
  let est := fun x => compute_sdp_rule_v0_weights M data y N depth m classifier (a_t1 a) (a_S a) x (a_y a) in
  (b_sdp (m_own s) i, b_part (m_own s) i) = fst (est (a_x a)) /\
  forall j, j < N -> (m_sdp s i j, m_part s i j) = fst (est (data j)).
Proof. exact (max_tables_v0_row M depth data y N m classifier l scheds i). Qed.
Print Assumptions C114_max_tables_v0.
Theorem C114_max_tables_opti M depth data y N m classifier l scheds i :
  i < length l -> complete (S (F_trees M)) N (scheds i) ->
  let s := max_tables_opti M depth data y N m classifier l scheds in
  let a := nth i l no_args in
  let est := fun x => compute_sdp_rule_v0_weights M data y N depth m classifier (a_t1 a) (a_S a) x (a_y a) in
  (b_sdp (m_own s) i, b_part (m_own s) i, b_w (m_own s) i) = est (a_x a) /\
  forall j, j < N -> (m_sdp s i j, m_part s i j) = if qeqb (snd (est (a_x a)) j) 0 then (0%Q, rule0) else fst (est (data j)).
Proof. exact (max_tables_opti_row M depth data y N m classifier l scheds i). Qed.
Print Assumptions C114_max_tables_opti.
Example C114_max_tables_example :
  let l := [mkRow' (mx_pt 2 0) 1%Q 0%Q 0%Q [0; 1] rule0 0%Q 0%Q; mkRow' (mx_pt 0 2) 0%Q 0%Q 0%Q [0] rule0 0%Q 0%Q] in
  let s := max_tables mx_mem 2 mx_train mx_y 6 1 true l (fun _ => in_order mx_mem 6) in
  complete (S (F_trees mx_mem)) 6 (in_order mx_mem 6) /\ map (fun j => Qred (b_w (m_own s) 0 j)) (seq 0 6) = [1 # 4; 3 # 4; 0; 0; 0; 0]%Q /\
  map (fun j => Qred (m_sdp s 0 j)) (seq 0 6) = [1; 1; 0; 0; 0; 0]%Q.
Proof. cbv zeta. split; [exact (in_order_complete mx_mem 6)|]. split; vm_compute; reflexivity. Qed.

(** [ACXplainer.compute_cdf_rf] cannot return for a classifier, nor for a regressor with
    the default levels: it hands a matrix to a routine that takes a vector. *)
Theorem C114_cdf_never M depth classifier q a D Y m t sched res : classifier = true \/ t = T_none ->
  acx M depth classifier q cdf_rf a D Y m t sched <> Returned res.
Proof. exact (acx_cdf_never M depth classifier q a D Y m t sched res). Qed.
Print Assumptions C114_cdf_never.
Theorem C114_cdf_refuted : exists M depth classifier q a l D Y m sched lev,
  table (g_X a) (g_y a) /\ table D Y /\ documented cdf_rf a l /\ own_levels classifier q (g_X a) T_none lev /\
  complete (S (F_trees M)) (length (g_X a)) sched /\
  acx M depth classifier q cdf_rf a D Y m T_none sched = Raised EValue.
Proof.
  exact (ex_intro _ ex_mem (ex_intro _ 2 (ex_intro _ false (ex_intro _ ap_q (ex_intro _ ap_args (ex_intro _ [[0]; [1; 2]] (ex_intro _ ap_D (ex_intro _ ap_Y
    (ex_intro _ 1 (ex_intro _ ap_sched (ex_intro _ (fun i => ap_q (nth i ap_X (fun _ => 0%Q)))
    (conj (proj1 ap_tables) (conj (proj1 (proj2 ap_tables)) (conj (proj2 (proj2 ap_tables) cdf_rf) (conj (or_intror (or_introl (conj eq_refl (fun _ _ => eq_refl))))
    (conj ap_complete eq_refl)))))))))))))))).
Qed.
Print Assumptions C114_cdf_refuted.
(** It answers a regressor called with one level per observation. *)
Theorem C114_cdf_partial M depth q a l D Y m tv sched :
  table (g_X a) (g_y a) -> table D Y -> documented cdf_rf a l -> length (g_X a) <= length tv ->
  complete (S (F_trees M)) (length (g_X a)) sched ->
  exists res, acx M depth false q cdf_rf a D Y m (T_vector tv) sched = Returned res /\
    r_sdp res = map (fun i => compute_cdf_rf M (fun j => nth j D (fun _ => 0%Q)) (fun j => nth j Y 0%Q) (length D) depth m
                                (nth i l []) (nth i (g_X a) (fun _ => 0%Q)) (nth i tv 0%Q)) (seq 0 (length (g_X a))).
Proof. exact (acx_cdf_vector M depth q a l D Y m tv sched). Qed.
Print Assumptions C114_cdf_partial.
Example C114_cdf_example :
  ap_sdp (acx ex_mem 2 false ap_q cdf_rf ap_args ap_D ap_Y 1 (T_vector [0; 1]%Q) ap_sched) = Some [3 # 8; 1]%Q.
Proof. vm_compute. reflexivity. Qed.

(** The methods of [ACVTree] with the level that is documented, a number (20 by default),
    never answer: the compiled routines take arrays. *)
Theorem C114_number_never M depth classifier r a D Y m p sched : form r <> Number ->
  forall res, acv M depth classifier r a D Y m (T_number p) sched <> Returned res.
Proof. exact (acv_number M depth classifier r a D Y m p sched). Qed.
Print Assumptions C114_number_never.
Theorem C114_search_number_never A a D Y p (body : levels -> A) res : acv_search a D Y (T_number p) body <> Returned res.
Proof. exact (acv_search_number a D Y p body res). Qed.
Print Assumptions C114_search_number_never.
Theorem C114_number_refuted : exists M depth classifier a l D Y m sched,
  table (g_X a) (g_y a) /\ table D Y /\ documented sdp_rf a l /\ complete (S (F_trees M)) (length (g_X a)) sched /\
  acv M depth classifier sdp_rf a D Y m (T_number 20) sched = Raised EType.
Proof.
  exact (ex_intro _ ex_mem (ex_intro _ 2 (ex_intro _ true (ex_intro _ ap_args (ex_intro _ [[0]; [1; 2]] (ex_intro _ ap_D (ex_intro _ ap_Y
    (ex_intro _ 1 (ex_intro _ ap_sched (conj (proj1 ap_tables) (conj (proj1 (proj2 ap_tables)) (conj (proj2 (proj2 ap_tables) sdp_rf) (conj ap_complete eq_refl))))))))))))).
Qed.
Print Assumptions C114_number_refuted.
(** They answer with two levels per observation. *)
Theorem C114_acv_partial M depth classifier r a l D Y m tm sched lev : In r [sdp_rf; exp_rf] ->
  table (g_X a) (g_y a) -> table D Y -> documented r a l ->
  (forall i, i < length (g_X a) -> exists rest, nth_error tm i = Some (fst (lev i) :: snd (lev i) :: rest)) ->
  complete (S (F_trees M)) (length (g_X a)) sched ->
  exists res, acv M depth classifier r a D Y m (T_matrix tm) sched = Returned res /\
    row_by_row r res (length (g_X a)) (fun i =>
      due M (fun j => nth j D (fun _ => 0%Q)) (fun j => nth j Y 0%Q) (length D) depth m classifier r
        (nth i (g_X a) (fun _ => 0%Q)) (nth i (g_y a) 0%Q) (nth i (g_down a) 0%Q) (nth i (g_up a) 0%Q)
        (nth i l []) (nth i (g_cond a) rule0) (fst (lev i)) (snd (lev i))).
Proof. exact (acv_rows M depth classifier r a l D Y m tm sched lev). Qed.
Print Assumptions C114_acv_partial.
Example C114_acv_example :
  ap_sdp (acv ex_mem 2 true sdp_rf ap_args ap_D ap_Y 1 (T_matrix [[0; 0]; [0; 0]]%Q) ap_sched) = Some [5 # 8; 1 # 3]%Q.
Proof. vm_compute. reflexivity. Qed.

(** In regression, levels for fewer observations than there are rows are not refused: the
    loop reads outside the array. *)
Theorem C114_short_levels M depth q r a D Y m tm sched l :
  acx_routine r -> ~ bracketed r -> r <> exp_rf -> table (g_X a) (g_y a) -> table D Y -> g_S a = S_rows l -> length l = length (g_X a) ->
  length tm < length (g_X a) -> acx M depth false q r a D Y m (T_matrix tm) sched = Stray.
Proof. exact (acx_short_levels M depth q r a D Y m tm sched l). Qed.
Print Assumptions C114_short_levels.
Theorem C114_short_levels_refuted : exists M depth q a l D Y m tm sched,
  table (g_X a) (g_y a) /\ table D Y /\ documented sdp_rf a l /\ acx M depth false q sdp_rf a D Y m (T_matrix tm) sched = Stray.
Proof.
  exact (ex_intro _ ex_mem (ex_intro _ 2 (ex_intro _ ap_q (ex_intro _ ap_args (ex_intro _ [[0]; [1; 2]] (ex_intro _ ap_D (ex_intro _ ap_Y
    (ex_intro _ 1 (ex_intro _ [[0; 1]]%Q (ex_intro _ ap_sched (conj (proj1 ap_tables) (conj (proj1 (proj2 ap_tables)) (conj (proj2 (proj2 ap_tables) sdp_rf) eq_refl))))))))))))).
Qed.
Print Assumptions C114_short_levels_refuted.

(** [ACVTreeAgnostic] checks nothing: right rows with right lengths, a read outside the
    list of sets if it is short. *)
Theorem C114_agnostic_partial M depth classifier r a l D Y m tm sched lev : form r = Matrix -> one_set r = false -> length Y = length D ->
  length (g_X a) = length (g_y a) -> documented r a l ->
  (forall i, i < length (g_X a) -> exists rest, nth_error tm i = Some (fst (lev i) :: snd (lev i) :: rest)) ->
  complete (S (F_trees M)) (length (g_X a)) sched ->
  exists res, agn M depth classifier r a D Y m (T_matrix tm) sched = Returned res /\
    row_by_row r res (length (g_X a)) (fun i =>
      due M (fun j => nth j D (fun _ => 0%Q)) (fun j => nth j Y 0%Q) (length D) depth m classifier r
        (nth i (g_X a) (fun _ => 0%Q)) (nth i (g_y a) 0%Q) (nth i (g_down a) 0%Q) (nth i (g_up a) 0%Q)
        (nth i l []) (nth i (g_cond a) rule0) (fst (lev i)) (snd (lev i))).
Proof. exact (agn_rows M depth classifier r a l D Y m tm sched lev). Qed.
Print Assumptions C114_agnostic_partial.
(** Its older routines take the number. *)
Theorem C114_agnostic_v0 M depth classifier r a D Y m p sched s Sf :
  (r = sdp_rule_v0 /\ (exists l, g_S a = S_rows l /\ length l = length (g_X a) /\ forall i, Sf i = nth i l [])) \/
  (r = sdp_rf_v0 /\ g_S a = S_same s /\ forall i, Sf i = s) ->
  length Y = length D -> length (g_X a) = length (g_y a) ->
  complete (S (F_trees M)) (length (g_X a)) sched ->
  exists res, agn M depth classifier r a D Y m (T_number p) sched = Returned res /\
    row_by_row r res (length (g_X a)) (fun i =>
      due M (fun j => nth j D (fun _ => 0%Q)) (fun j => nth j Y 0%Q) (length D) depth m classifier r
        (nth i (g_X a) (fun _ => 0%Q)) (nth i (g_y a) 0%Q) 0%Q 0%Q (Sf i) rule0 0%Q p).
Proof. exact (agn_v0_rows M depth classifier r a D Y m p sched s Sf). Qed.
Print Assumptions C114_agnostic_v0.
Theorem C114_agnostic_short M depth classifier r a l D Y m tm sched :
  form r = Matrix -> one_set r = false -> g_S a = S_rows l -> length l < length (g_X a) ->
  agn M depth classifier r a D Y m (T_matrix tm) sched = Stray.
Proof. exact (agn_short M depth classifier r a l D Y m tm sched). Qed.
Print Assumptions C114_agnostic_short.
Example C114_agnostic_example :
  ap_sdp (agn ex_mem 2 false sdp_rule_v0 ap_args ap_D ap_Y 1 (T_number (1 # 2)) ap_sched) = Some [5 # 8; 1 # 3]%Q /\
  ap_sdp (agn ex_mem 2 false sdp_rf ap_args ap_D ap_Y 1 (T_matrix [[0; 0]; [0; 0]]%Q) ap_sched) <> None /\
  length [[0]] < length (g_X ap_args).
Proof. split; [vm_compute; reflexivity|]. split; [vm_compute; discriminate|]. repeat constructor. Qed.

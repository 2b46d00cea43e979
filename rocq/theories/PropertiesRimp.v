(** C132: the explanations that [importance_sdp_reg] of an [ACVTree] returns, from its trees to the arrays. *)
From Verif Require Import Base TreeModel TreeSpec GameSpec ShapModel FlatModel FlatSpec SearchModel SearchSpec ExplSpec
  ArrModel EntryModel EntrySpec ImpModel ImpSpec RcatModel RcatSpec RimpModel RimpSpec RimpProofs2 PropertiesEntry PropertiesImp PropertiesRcat.
Local Open Scope nat_scope.

(** Four arrays are returned for every ensemble, up to fifteen groups. *)
Theorem C132_returns : forall sig ts boosted b d o, regressor sig ts boosted b d o ->
  forall X xs zs c, has_shape X d xs -> d <= c -> forall C tX pi minimal stop,
  coal_ok C d -> C <> [] -> length (tree_groups C d) <= 15 -> (0 < pi)%Q -> (pi <= 1)%Q ->
  exists e, acv_reg_search o X tX (M_array F64 c zs) C pi minimal stop = Returned e /\ shaped e (length xs) d.
Proof. exact imp_returns. Qed.
Print Assumptions C132_returns.
Example C132_returns_example : (exists o, regressor ex_sig [rc_t 3 4 2; rc_s 1 4] false (Scalar 0) 2 o) /\ coal_ok [[]] 2 /\ length (tree_groups [[]] 2) <= 15 /\
  plain_answer (on_reg [rc_t 3 4 2; rc_s 1 4] (Scalar 0) (fun o => acv_reg_search o (M_frame 2 rc_zs2) 1 (M_array F64 2 rc_zs2) [[]] (1#2) 0 true))
   = Returned ([0; 1#4]%Q, [[-1; -1]; [-1; -1]; [-1; -1]; [1; -1]]%Z, [0; 0; 0; 1], [195#334; 162#245; 3276#4075; 11#15]%Q).
Proof. split; [apply rc_two|]. split; [split; [constructor|split; [contradiction|now left]]|]. split; [cbn; lia|]. vm_compute. reflexivity. Qed.

(** The importance of a column is the share of the observations whose explanation contains it, for every ensemble. *)
Theorem C132_importance : forall sig ts boosted b d o, regressor sig ts boosted b d o ->
  forall X xs zs c, has_shape X d xs -> d <= c -> forall C tX pi minimal stop,
  coal_ok C d -> C <> [] -> xs <> [] -> length (tree_groups C d) <= 15 -> (0 < pi)%Q -> (pi <= 1)%Q ->
  forall e, acv_reg_search o X tX (M_array F64 c zs) C pi minimal stop = Returned e -> forall j, j < d ->
  (nth j (e_importance e) 0 == Qn (length (filter (fun i => explains pi (row_of e i) j) (seq 0 (length xs)))) / Qn (length xs))%Q /\
  (0 <= nth j (e_importance e) 0 <= 1)%Q.
Proof. exact imp_importance. Qed.
Print Assumptions C132_importance.
Example C132_importance_example : (exists o, regressor ex_sig [rc_t 3 4 2] false (Scalar 0) 2 o) /\ rc_zs <> [] /\
  plain_answer (on_reg [rc_t 3 4 2] (Scalar 0) (fun o => acv_reg_search o (M_frame 2 rc_zs) 0 (M_array F64 2 rc_zs) [[]] (11#20) 1 true))
   = Returned ([1#2; 1#4]%Q, [[1; -1]; [0; -1]; [0; -1]; [0; -1]]%Z, [1; 1; 1; 1], [2#3; 1; 1#2; 1]%Q).
Proof. split; [apply rc_one|]. split; [discriminate|]. vm_compute. reflexivity. Qed.

(** A row at the level shows a set of at least [minimal] groups, for every ensemble. *)
Theorem C132_reported : forall sig ts boosted b d o, regressor sig ts boosted b d o ->
  forall X xs zs c, has_shape X d xs -> d <= c -> forall C tX pi minimal stop,
  coal_ok C d -> C <> [] -> length (tree_groups C d) <= 15 -> (0 < pi)%Q -> (pi <= 1)%Q ->
  forall e, acv_reg_search o X tX (M_array F64 c zs) C pi minimal stop = Returned e -> forall k, k < length xs -> (pi <= nth k (e_sdp e) 0)%Q ->
  exists T, In T (subs (tree_groups C d)) /\ minimal <= length T /\ reported (row_of e k) = map Z.of_nat (concat T) /\ nth k (e_size e) 0 = length (concat T).
Proof. exact imp_shape. Qed.
Print Assumptions C132_reported.
Example C132_reported_example : In [[1]] (subs (tree_groups [[]] 2)) /\
  plain_answer (on_reg [rc_t 3 4 2; rc_s 1 4] (Scalar 0) (fun o => acv_reg_search o (M_frame 2 rc_zs2) 1 (M_array F64 2 rc_zs2) [[]] (1#2) 1 true))
   = Returned ([0; 1]%Q, [[1; -1]; [1; -1]; [1; -1]; [1; -1]]%Z, [1; 1; 1; 1], [2575#2532; 1; 131#159; 1]%Q).
Proof. split; [cbn; tauto|]. vm_compute. reflexivity. Qed.

(** Full claim: a row at the level shows a smallest set of groups whose value, as [compute_sdp_reg] of the same object returns it, reaches the level, with the
    largest value of its size; below the level no set reaches it.  True for one tree and columns searched one by one.  Missing: several trees, coalitions
    of several columns, with [stop] sets of more than half of the columns, and all columns (1 by convention). *)
Theorem C132_rows_partial : forall sig t boosted b d o, regressor sig [t] boosted b d o ->
  forall X xs zs c, has_shape X d xs -> d <= c -> forall C tX pi minimal stop,
  coal_ok C d -> C <> [] -> length (tree_groups C d) <= 15 -> (0 < pi)%Q -> (pi <= 1)%Q -> length (tree_groups C d) = d ->
  forall e, acv_reg_search o X tX (M_array F64 c zs) C pi minimal stop = Returned e -> forall k, k < length xs ->
  ((pi <= nth k (e_sdp e) 0)%Q -> exists T, minimal_sufficient d (tree_groups C d) minimal pi (reg_said o tX X (M_array F64 c zs) k) T (nth k (e_sdp e) 0%Q) /\
     reported (row_of e k) = map Z.of_nat (concat T) /\ nth k (e_size e) 0 = length (concat T)) /\
  ((nth k (e_sdp e) 0 < pi)%Q -> forall T, In T (subs (tree_groups C d)) -> minimal <= length T ->
     (stop = true -> length T <= Nat.max minimal (d / 2)) -> (reg_said o tX X (M_array F64 c zs) k (concat T) < pi)%Q).
Proof. exact one_rows. Qed.
Print Assumptions C132_rows_partial.
Example C132_rows_example : (exists o, regressor ex_sig [rc_t 3 4 2] false (Scalar 0) 2 o) /\ coal_ok [[1]] 2 /\ length (tree_groups [[1]] 2) = 2 /\
  plain_answer (on_reg [rc_t 3 4 2] (Scalar 0) (fun o => acv_reg_search o (M_frame 2 rc_zs) 0 (M_array F64 2 rc_zs) [[1]] (11#20) 1 false))
   = Returned ([3#4; 1#2]%Q, [[1; -1]; [0; -1]; [0; 1]; [0; -1]]%Z, [1; 1; 2; 1], [2#3; 1; 1; 1]%Q) /\
  map (fun S => plainly Qred (on_reg [rc_t 3 4 2] (Scalar 0) (fun o => acv_reg o 0 (M_frame 2 rc_zs) (S_array I64 S) (M_array F64 2 rc_zs)))) [[0]; [1]]
   = [Returned [1#2; 1; 1#2; 1]%Q; Returned [2#3; 3#5; 2#5; 3#5]%Q].
Proof.
  split; [apply rc_one|]. split; [split; [repeat constructor; cbn; intuition|split; [cbn; intuition lia|right; intros [K|[]]; discriminate K]]|].
  split; [reflexivity|]. vm_compute. split; reflexivity.
Qed.

(** The sequential variant, whose early stop is always on. *)
Theorem C132_sequential_partial : forall sig t boosted b d o, regressor sig [t] boosted b d o ->
  forall X xs zs c, has_shape X d xs -> d <= c -> forall C tX pi minimal,
  coal_ok C d -> C <> [] -> length (tree_groups C d) <= 15 -> (0 < pi)%Q -> (pi <= 1)%Q -> length (tree_groups C d) = d ->
  exists e, acv_reg_search_nopa o X tX (M_array F64 c zs) C pi minimal = Returned e /\ shaped e (length xs) d /\ forall k, k < length xs ->
  ((pi <= nth k (e_sdp e) 0)%Q -> exists T, minimal_sufficient d (tree_groups C d) minimal pi (reg_said o tX X (M_array F64 c zs) k) T (nth k (e_sdp e) 0%Q) /\
     reported (row_of e k) = map Z.of_nat (concat T) /\ nth k (e_size e) 0 = length (concat T)) /\
  ((nth k (e_sdp e) 0 < pi)%Q -> forall T, In T (subs (tree_groups C d)) -> minimal <= length T <= Nat.max minimal (d / 2) ->
     (reg_said o tX X (M_array F64 c zs) k (concat T) < pi)%Q).
Proof. exact one_rows_nopa. Qed.
Print Assumptions C132_sequential_partial.
Example C132_sequential_example : (exists o, regressor ex_sig [rc_t 3 4 2] false (Scalar 0) 2 o) /\ length (tree_groups [[]] 2) = 2 /\
  plain_answer (on_reg [rc_t 3 4 2] (Scalar 0) (fun o => acv_reg_search_nopa o (M_frame 2 rc_zs) 0 (M_array F64 2 rc_zs) [[]] (11#20) 1))
   = Returned ([1#2; 1#4]%Q, [[1; -1]; [0; -1]; [0; -1]; [0; -1]]%Z, [1; 1; 1; 1], [2#3; 1; 1#2; 1]%Q).
Proof. split; [apply rc_one|]. split; [reflexivity|]. vm_compute. reflexivity. Qed.

Definition said_short (pi : Q) (o : reg_acv) tX X data k S : outcome bool := Returned (qleb pi (reg_said o tX X data k S)).
Lemma said_short_spec pi o tX X data k S b : said_short pi o tX X data k S = Returned b ->
  if b then (pi <= reg_said o tX X data k S)%Q else (reg_said o tX X data k S < pi)%Q.
Proof. intro E. injection E as <-. destruct (qleb_spec pi (reg_said o tX X data k S)) as [K|K]; [exact K|now apply Qnot_le_lt]. Qed.
(** Two trees: a single column is reported at the level although [compute_sdp_reg] returns less for it. *)
Theorem C132_trees_refuted : exists sig ts d o X xs zs tX pi e i s, length ts = 2 /\
  regressor sig ts false (Scalar 0) d o /\ has_shape X d xs /\ (0 < pi <= 1)%Q /\ i < length xs /\ s < d /\
  acv_reg_search o X tX (M_array F64 d zs) [[]] pi 1 true = Returned e /\ (pi <= nth i (e_sdp e) 0)%Q /\
  nth i (e_size e) 0 = 1 /\ nth i (e_index e) [] = [Z.of_nat s; (-1)%Z] /\ (reg_said o tX X (M_array F64 d zs) i [s] < pi)%Q.
Proof.
  destruct (rc_two 3 4 2 1 4 0) as [o H].
  destruct (row_short_spec (acv_reg_search o (M_frame 2 rc_zs2) 1 (M_array F64 2 rc_zs2) [[]] (1#2) 1 true) (1#2) 0 1 [1%Z] true) as (e & He & Hn & Hi & Hp).
  { apply (on_reg_at [rc_t 3 4 2; rc_s 1 4] _ (fun o => row_short (acv_reg_search o (M_frame 2 rc_zs2) 1 (M_array F64 2 rc_zs2) [[]] (1#2) 1 true) (1#2) 0) o _ H). vm_compute. reflexivity. }
  assert (Hx : nth 0 (e_index e) [] = [1; -1]%Z).
  { assert (K : match acv_reg_search o (M_frame 2 rc_zs2) 1 (M_array F64 2 rc_zs2) [[]] (1#2) 1 true with Returned e => Returned (nth 0 (e_index e) []) | Raised e => Raised e | Stray => Stray end = Returned [1; -1]%Z).
    { apply (on_reg_at [rc_t 3 4 2; rc_s 1 4] _ (fun o => match acv_reg_search o (M_frame 2 rc_zs2) 1 (M_array F64 2 rc_zs2) [[]] (1#2) 1 true with Returned e => Returned (nth 0 (e_index e) []) | Raised e => Raised e | Stray => Stray end) o _ H). vm_compute. reflexivity. }
    rewrite He in K. now injection K. }
  exists ex_sig, [rc_t 3 4 2; rc_s 1 4], 2, o, (M_frame 2 rc_zs2), rc_zs2, rc_zs2, 1%Q, (1#2)%Q, e, 0, 1.
  split; [reflexivity|]. split; [exact H|]. split; [now left|]. split; [split; reflexivity || discriminate|]. split; [cbn; lia|]. split; [lia|]. split; [exact He|]. split; [exact Hp|].
  split; [exact Hn|]. split; [exact Hx|].
  apply (said_short_spec (1#2) o 1 (M_frame 2 rc_zs2) (M_array F64 2 rc_zs2) 0 [1] false).
  apply (on_reg_at [rc_t 3 4 2; rc_s 1 4] _ (fun o => said_short (1#2) o 1 (M_frame 2 rc_zs2) (M_array F64 2 rc_zs2) 0 [1]) o _ H). vm_compute. reflexivity.
Qed.
Print Assumptions C132_trees_refuted.
(** Two trees: the explanation of an observation changes when others are explained with it. *)
Theorem C132_batch_refuted : exists sig ts d o xs zs tX pi e e1 i x, length ts = 2 /\
  regressor sig ts false (Scalar 0) d o /\ (0 < pi <= 1)%Q /\ nth_error xs i = Some x /\
  acv_reg_search o (M_frame d xs) tX (M_array F64 d zs) [[]] pi 1 true = Returned e /\ acv_reg_search o (M_frame d [x]) tX (M_array F64 d zs) [[]] pi 1 true = Returned e1 /\
  (pi <= nth i (e_sdp e) 0)%Q /\ (pi <= nth 0 (e_sdp e1) 0)%Q /\ reported (row_of e i) = [1%Z] /\ reported (row_of e1 0) = [0%Z].
Proof.
  destruct (rc_two 3 4 2 1 4 0) as [o H].
  destruct (row_short_spec (acv_reg_search o (M_frame 2 rc_zs2) 1 (M_array F64 2 rc_zs2) [[]] (1#2) 1 true) (1#2) 2 1 [1%Z] true) as (e & He & Hn & Hi & Hp).
  { apply (on_reg_at [rc_t 3 4 2; rc_s 1 4] _ (fun o => row_short (acv_reg_search o (M_frame 2 rc_zs2) 1 (M_array F64 2 rc_zs2) [[]] (1#2) 1 true) (1#2) 2) o _ H). vm_compute. reflexivity. }
  destruct (row_short_spec (acv_reg_search o (M_frame 2 [[2; 0]]%Q) 1 (M_array F64 2 rc_zs2) [[]] (1#2) 1 true) (1#2) 0 1 [0%Z] true) as (e1 & He1 & Hn1 & Hi1 & Hp1).
  { apply (on_reg_at [rc_t 3 4 2; rc_s 1 4] _ (fun o => row_short (acv_reg_search o (M_frame 2 [[2; 0]]%Q) 1 (M_array F64 2 rc_zs2) [[]] (1#2) 1 true) (1#2) 0) o _ H). vm_compute. reflexivity. }
  exists ex_sig, [rc_t 3 4 2; rc_s 1 4], 2, o, rc_zs2, rc_zs2, 1%Q, (1#2)%Q, e, e1, 2, [2; 0]%Q.
  split; [reflexivity|]. split; [exact H|]. split; [split; reflexivity || discriminate|]. split; [reflexivity|]. split; [exact He|]. split; [exact He1|].
  split; [exact Hp|]. split; [exact Hp1|]. unfold reported, row_of. cbn [r_len r_star]. rewrite Hn, Hn1. now split.
Qed.
Print Assumptions C132_batch_refuted.
(** One tree, the columns as one coalition: the empty set is reported at the level although [compute_sdp_reg] returns less for it. *)
Theorem C132_coalition_refuted : exists sig t d o X xs zs C tX pi e i,
  regressor sig [t] false (Scalar 0) d o /\ has_shape X d xs /\ coal_ok C d /\ C <> [] /\ (0 < pi <= 1)%Q /\ i < length xs /\
  acv_reg_search o X tX (M_array F64 d zs) C pi 0 true = Returned e /\ (pi <= nth i (e_sdp e) 0)%Q /\ nth i (e_size e) 0 = 0 /\
  (reg_said o tX X (M_array F64 d zs) i [] < pi)%Q.
Proof.
  destruct (rc_one 3 4 2 0) as [o H].
  destruct (row_short_spec (acv_reg_search o (M_frame 2 rc_zs) 0 (M_array F64 2 rc_zs) [[0; 1]] (3#10) 0 true) (3#10) 0 0 [] true) as (e & He & Hn & Hi & Hp).
  { apply (on_reg_at [rc_t 3 4 2] _ (fun o => row_short (acv_reg_search o (M_frame 2 rc_zs) 0 (M_array F64 2 rc_zs) [[0; 1]] (3#10) 0 true) (3#10) 0) o _ H). vm_compute. reflexivity. }
  exists ex_sig, (rc_t 3 4 2), 2, o, (M_frame 2 rc_zs), rc_zs, rc_zs, [[0; 1]], 0%Q, (3#10)%Q, e, 0.
  split; [exact H|]. split; [now left|].
  split; [split; [repeat constructor; cbn; intuition discriminate|split; [cbn; intuition lia|right; intros [K|[]]; discriminate K]]|]. split; [discriminate|].
  split; [split; reflexivity || discriminate|]. split; [cbn; lia|]. split; [exact He|]. split; [exact Hp|]. split; [exact Hn|].
  apply (said_short_spec (3#10) o 0 (M_frame 2 rc_zs) (M_array F64 2 rc_zs) 0 [] false).
  apply (on_reg_at [rc_t 3 4 2] _ (fun o => said_short (3#10) o 0 (M_frame 2 rc_zs) (M_array F64 2 rc_zs) 0 []) o _ H). vm_compute. reflexivity.
Qed.
Print Assumptions C132_coalition_refuted.
(** One tree: the probability reported can exceed 1. *)
Theorem C132_probability_refuted : exists sig t d o X xs zs tX pi e i,
  regressor sig [t] false (Scalar 0) d o /\ has_shape X d xs /\ (forall z, In z zs -> off_thresholds [t] z) /\ (0 < pi <= 1)%Q /\ i < length xs /\
  acv_reg_search o X tX (M_array F64 d zs) [[]] pi 1 true = Returned e /\ (1 < nth i (e_sdp e) 0)%Q.
Proof.
  destruct (rc_one 3 4 2 0) as [o H].
  destruct (row_short_spec (acv_reg_search o (M_frame 2 rc_zs) 1 (M_array F64 2 rc_zs) [[]] (9#10) 1 true) (55#54) 0 1 [1%Z] true) as (e & He & Hn & Hi & Hp).
  { apply (on_reg_at [rc_t 3 4 2] _ (fun o => row_short (acv_reg_search o (M_frame 2 rc_zs) 1 (M_array F64 2 rc_zs) [[]] (9#10) 1 true) (55#54) 0) o _ H). vm_compute. reflexivity. }
  exists ex_sig, (rc_t 3 4 2), 2, o, (M_frame 2 rc_zs), rc_zs, rc_zs, 1%Q, (9#10)%Q, e, 0.
  split; [exact H|]. split; [now left|]. split; [apply off_check_ok; vm_compute; reflexivity|]. split; [split; reflexivity || discriminate|]. split; [cbn; lia|].
  split; [exact He|]. eapply Qlt_le_trans; [|exact Hp]. reflexivity.
Qed.
Print Assumptions C132_probability_refuted.
(** With [stop], the default, the search gives up although the set of all columns reaches the level. *)
Theorem C132_stop_refuted : exists sig t d o X xs zs tX pi e i S,
  regressor sig [t] false (Scalar 0) d o /\ has_shape X d xs /\ (0 < pi <= 1)%Q /\ i < length xs /\
  acv_reg_search o X tX (M_array F64 d zs) [[]] pi 1 true = Returned e /\ (nth i (e_sdp e) 0 < pi)%Q /\
  NoDup S /\ (forall s, In s S -> s < d) /\ (pi <= reg_said o tX X (M_array F64 d zs) i S)%Q.
Proof.
  destruct (rc_one 3 4 2 0) as [o H].
  destruct (row_short_spec (acv_reg_search o (M_frame 2 rc_zs) 0 (M_array F64 2 rc_zs) [[]] (11#20) 1 true) (11#20) 2 1 [0%Z] false) as (e & He & _ & _ & Hp).
  { apply (on_reg_at [rc_t 3 4 2] _ (fun o => row_short (acv_reg_search o (M_frame 2 rc_zs) 0 (M_array F64 2 rc_zs) [[]] (11#20) 1 true) (11#20) 2) o _ H). vm_compute. reflexivity. }
  exists ex_sig, (rc_t 3 4 2), 2, o, (M_frame 2 rc_zs), rc_zs, rc_zs, 0%Q, (11#20)%Q, e, 2, [0; 1].
  split; [exact H|]. split; [now left|]. split; [split; reflexivity || discriminate|]. split; [cbn; lia|]. split; [exact He|]. split; [exact Hp|].
  split; [repeat constructor; cbn; intuition lia|]. split; [cbn; intuition lia|].
  apply (said_short_spec (11#20) o 0 (M_frame 2 rc_zs) (M_array F64 2 rc_zs) 2 [0; 1] true).
  apply (on_reg_at [rc_t 3 4 2] _ (fun o => said_short (11#20) o 0 (M_frame 2 rc_zs) (M_array F64 2 rc_zs) 2 [0; 1]) o _ H). vm_compute. reflexivity.
Qed.
Print Assumptions C132_stop_refuted.

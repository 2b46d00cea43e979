(** C136: the minimal explanations that [ACXplainer] searches, from the forest of skranger to the four arrays returned. *)
From Verif Require Import Base TreeModel GameSpec SkModel SearchModel SearchSpec ExplSpec RfModel RfSpec PropertiesRf ApiModel ApiSpec AgnModel AgnSpec
  AxsModel AxsSpec AxsProofs PropertiesAgn.
From Verif Require Import ImpModel ImpSpec.
Local Open Scope nat_scope.

(** for the examples: workers that treat the selected rows one after the other, and in the opposite order; four observations *)
Definition ax_turns (trees n : nat) : list nat := flat_map (fun i => repeat i (S trees)) (seq 0 n).
Definition ax_sched (trees N : nat) (R S : list nat) : list nat := ax_turns trees (length (filter (fun k => memb k R) (seq 0 N))).
Definition ax_back (trees N : nat) (R S : list nat) : list nat := rev (ax_sched trees N R S).
Lemma count_flat trees n i s : count_occ Nat.eq_dec (flat_map (fun i => repeat i trees) (seq s n)) i = if (s <=? i) && (i <? s + n) then trees else 0.
Proof.
  revert s. induction n as [|n IH]; intro s; cbn [seq flat_map]; [destruct (Nat.leb_spec s i), (Nat.ltb_spec i (s + 0)); (reflexivity || lia)|].
  rewrite count_occ_app, IH. destruct (Nat.eq_dec s i) as [->|Hne].
  - rewrite count_occ_repeat_eq by reflexivity. destruct (Nat.leb_spec (S i) i), (Nat.leb_spec i i), (Nat.ltb_spec i (i + S n)); cbn; lia.
  - rewrite count_occ_repeat_neq by congruence. destruct (Nat.leb_spec (S s) i), (Nat.leb_spec s i), (Nat.ltb_spec i (S s + n)), (Nat.ltb_spec i (s + S n)); cbn; lia.
Qed.
Lemma turns_complete trees n : complete (S trees) n (ax_turns trees n).
Proof.
  split.
  - intros i Hi. apply in_flat_map in Hi. destruct Hi as (j & Hj & Hi). apply repeat_spec in Hi. apply in_seq in Hj. lia.
  - intros i Hi. unfold ax_turns. rewrite count_flat. destruct (Nat.ltb_spec i (0 + n)); [reflexivity|lia].
Qed.
Lemma rev_complete s n l : complete s n l -> complete s n (rev l).
Proof. intros [A B]. split; [intros i Hi; apply A; now apply in_rev|]. intros i Hi. rewrite <- (B i Hi). apply count_occ_rev. Qed.
Lemma ax_fair trees N : fair trees N (ax_sched trees N) /\ fair trees N (ax_back trees N).
Proof. split; intros R S; [apply turns_complete|apply rev_complete, turns_complete]. Qed.
Definition ax_X : list pt := [ex_obs 3 3 0; ex_obs 0 0 0; ex_obs 3 1 0; ex_obs 1 3 0].
Definition ax_args : args := mkArgs ax_X [1; 0; 1; 0]%Q [0; 0; 0; 0]%Q [1; 1; 1; 0]%Q (S_rows []) (repeat rule0 4).
Lemma ax_ok kd sched : fair 2 4 sched -> searchable 2 1 ag_es ag_Ts true (fun _ => 0%Q) [0; 1] sched kd ax_args ag_D ag_Y T_none [[]].
Proof.
  intro H. split; [discriminate|]. split; [exact ag_holds|]. split; [lia|]. split.
  - split; [split; (reflexivity || discriminate)|]. split; [split; (reflexivity || discriminate)|]. split; [split; reflexivity|]. split; [reflexivity|now left].
  - split; [split; [constructor|split; [intros x []|now left]]|]. split; [discriminate|]. split; [|exact H].
    split; [apply Permutation_refl|]. intros i j s s' _ _ _. apply Qle_refl.
Qed.
(** an answer in lowest terms *)
Definition ax_plain (e : ending answer) : ending (list Q * list (list Z) * list nat * list Q) :=
  match e with Gives e => Gives (map Qred (e_importance e), e_index e, e_size e, map Qred (e_sdp e)) | Raises => Raises | Strays => Strays end.
Definition ax_told (kd : kind) (S : list nat) : list Q :=
  map (fun k => Qred (AxsSpec.told 2 ag_es ex_calm true ag_q (ax_turns 2 4) kd ax_args ag_D ag_Y 1 T_none k S)) (seq 0 4).

(** Every call with documented arguments returns the four arrays. *)
Theorem C136_returns d w es Ts stray classifier q imp by_importance sched kd a D Y t C m pi minimal stop :
  searchable d w es Ts classifier imp by_importance sched kd a D Y t C -> (0 < pi)%Q -> (pi <= 1)%Q ->
  exists e, acx_importance d es stray classifier q by_importance sched kd a D Y m t C pi minimal stop = Gives e /\ shaped e (length (g_X a)) d.
Proof. intros HE H0 H1. exact (run_returns d w es Ts stray classifier q imp by_importance sched kd a D Y t C m HE pi minimal stop H0 H1). Qed.
Print Assumptions C136_returns.
Example C136_returns_example : (forall kd, searchable 2 1 ag_es ag_Ts true (fun _ => 0%Q) [0; 1] (ax_sched 2 4) kd ax_args ag_D ag_Y T_none [[]]) /\
  ax_plain (acx_importance 2 ag_es ex_calm true ag_q [0; 1] (ax_sched 2 4) by_sdp ax_args ag_D ag_Y 1 T_none [[]] (3#5) 1 false)
   = Gives ([1 # 2; 1]%Q, [[0; 1]; [1; -1]; [1; -1]; [0; 1]]%Z, [2; 1; 1; 2], [1; 3 # 4; 3 # 4; 1]%Q).
Proof. split; [intro kd; apply ax_ok, ax_fair|vm_compute; reflexivity]. Qed.

(** The groups searched are all of them up to ten columns, and otherwise those that meet ten columns of largest importance.  A row
    whose reported probability reaches the level shows a set of groups whose probability, as the method for a given set of the same
    object returns it, is the reported one (or 1 for all columns); no smaller searched set reaches the level, no other of the same
    size has a larger probability.  For the other rows no searched set reaches the level; with [stop], none of at most half of the
    columns.  Missing: the probability of all columns, sets with other columns and, with [stop], larger sets, see below. *)
Theorem C136_rows_partial d w es Ts stray classifier q imp by_importance sched kd a D Y t C m pi minimal stop e :
  searchable d w es Ts classifier imp by_importance sched kd a D Y t C -> (0 < pi)%Q -> (pi <= 1)%Q ->
  acx_importance d es stray classifier q by_importance sched kd a D Y m t C pi minimal stop = Gives e ->
  exists va, chosen imp d C va /\ forall order, complete (S (length Ts)) (length (g_X a)) order -> forall i, i < length (g_X a) ->
    ((pi <= nth i (e_sdp e) 0)%Q -> exists T,
       minimal_sufficient d va minimal pi (AxsSpec.told d es stray classifier q order kd a D Y m t i) T (nth i (e_sdp e) 0%Q) /\
       reported (ImpSpec.row_of e i) = map Z.of_nat (concat T) /\ nth i (e_size e) 0 = length (concat T)) /\
    ((nth i (e_sdp e) 0 < pi)%Q -> forall T, In T (subs va) -> minimal <= length T ->
       (stop = true -> (forall g, In g C -> g = []) /\ length T <= Nat.max minimal (d / 2)) ->
       (AxsSpec.told d es stray classifier q order kd a D Y m t i (concat T) < pi)%Q).
Proof.
  intros HE H0 H1 He. exists (search_groups C (ExplModel.agnostic_space d by_importance)). split; [apply chosen_groups; apply HE|].
  intros order Ho i Hi. split; intro Hp.
  - exact (run_found d w es Ts stray classifier q imp by_importance sched kd a D Y t C m HE pi minimal stop H0 H1 order e i Ho He Hi Hp).
  - exact (run_not_found d w es Ts stray classifier q imp by_importance sched kd a D Y t C m HE pi minimal stop H0 H1 order e i Ho He Hi Hp).
Qed.
Print Assumptions C136_rows_partial.
(** the probabilities of all sets in the example above, and for [compute_ddp_rf] *)
Example C136_rows_example : complete 3 4 (ax_turns 2 4) /\
  map (ax_told by_sdp) [[0]; [1]; [0; 1]] = [[7 # 15; 2 # 3; 7 # 15; 11 # 30]; [5 # 12; 3 # 4; 3 # 4; 7 # 12]; [3 # 10; 1; 4 # 5; 1 # 5]]%Q /\
  map (ax_told by_ddp) [[0]; [1]; [0; 1]] = [[7 # 12; 1 # 4; 1 # 4; 5 # 12]; [8 # 15; 1 # 3; 8 # 15; 19 # 30]; [1 # 2; 1 # 2; 1 # 2; 1 # 2]]%Q /\
  ax_plain (acx_importance 2 ag_es ex_calm true ag_q [0; 1] (ax_sched 2 4) by_ddp ax_args ag_D ag_Y 1 T_none [[]] (2#5) 1 false)
   = Gives ([1 # 2; 3 # 4]%Q, [[0; -1]; [0; 1]; [1; -1]; [1; -1]]%Z, [1; 2; 1; 1], [7 # 12; 1; 8 # 15; 19 # 30]%Q).
Proof. split; [apply turns_complete|]. split; [vm_compute; reflexivity|]. split; vm_compute; reflexivity. Qed.

(** A column's importance is the share of the observations whose explanation, at the level, contains it. *)
Theorem C136_importance d w es Ts stray classifier q imp by_importance sched kd a D Y t C m pi minimal stop e j :
  searchable d w es Ts classifier imp by_importance sched kd a D Y t C -> (0 < pi)%Q -> (pi <= 1)%Q ->
  acx_importance d es stray classifier q by_importance sched kd a D Y m t C pi minimal stop = Gives e -> j < d ->
  (nth j (e_importance e) 0 == Qn (length (filter (fun i => explains pi (ImpSpec.row_of e i) j) (seq 0 (length (g_X a))))) / Qn (length (g_X a)))%Q /\
  (0 <= nth j (e_importance e) 0 <= 1)%Q.
Proof. intros HE H0 H1. exact (run_importance d w es Ts stray classifier q imp by_importance sched kd a D Y t C m HE pi minimal stop H0 H1 e j). Qed.
Print Assumptions C136_importance.
Example C136_importance_example : exists e, 
  acx_importance 2 ag_es ex_calm true ag_q [0; 1] (ax_sched 2 4) by_sdp ax_args ag_D ag_Y 1 T_none [[]] (3#5) 1 false = Gives e /\
  filter (fun i => explains (3#5) (ImpSpec.row_of e i) 0) (seq 0 4) = [0; 3] /\ Qred (nth 0 (e_importance e) 0%Q) = (1#2)%Q.
Proof. eexists. split; [vm_compute; reflexivity|]. vm_compute. auto. Qed.

(** Without coalitions the entries of a row of indices that are not negative are exactly the explanation. *)
Theorem C136_indices d w es Ts stray classifier q imp by_importance sched kd a D Y t C m pi minimal stop e i :
  searchable d w es Ts classifier imp by_importance sched kd a D Y t C -> (0 < pi)%Q -> (pi <= 1)%Q -> (forall g, In g C -> g = []) ->
  acx_importance d es stray classifier q by_importance sched kd a D Y m t C pi minimal stop = Gives e -> i < length (g_X a) ->
  filter (fun z => (0 <=? z)%Z) (nth i (e_index e) []) = firstn (nth i (e_size e) 0) (nth i (e_index e) []) /\
  nth i (e_size e) 0 = length (filter (fun z => (0 <=? z)%Z) (nth i (e_index e) [])).
Proof. intros HE H0 H1 HC. exact (run_indices d w es Ts stray classifier q imp by_importance sched kd a D Y t C m HE pi minimal stop H0 H1 e i HC). Qed.
Print Assumptions C136_indices.
Example C136_indices_example : filter (fun z => (0 <=? z)%Z) [1; -1]%Z = firstn 1 [1; -1]%Z /\ (forall g, In g [[]] -> g = @nil nat).
Proof. split; [reflexivity|]. now intros g [<-|[]]. Qed.

(** The order in which the workers treat the rows does not matter. *)
Theorem C136_threads d w es Ts stray classifier q imp by_importance sched sched' kd a D Y t C m pi minimal stop : (0 < pi)%Q ->
  searchable d w es Ts classifier imp by_importance sched kd a D Y t C -> searchable d w es Ts classifier imp by_importance sched' kd a D Y t C ->
  acx_importance d es stray classifier q by_importance sched kd a D Y m t C pi minimal stop
  = acx_importance d es stray classifier q by_importance sched' kd a D Y m t C pi minimal stop.
Proof. exact (run_threads d w es Ts stray classifier q imp by_importance sched sched' kd a D Y t C m pi minimal stop). Qed.
Print Assumptions C136_threads.
Example C136_threads_example :
  searchable 2 1 ag_es ag_Ts true (fun _ => 0%Q) [0; 1] (ax_sched 2 4) by_cdp ax_args ag_D ag_Y T_none [[]] /\
  searchable 2 1 ag_es ag_Ts true (fun _ => 0%Q) [0; 1] (ax_back 2 4) by_cdp ax_args ag_D ag_Y T_none [[]] /\
  ax_sched 2 4 [0; 2] [0] <> ax_back 2 4 [0; 2] [0].
Proof. split; [apply ax_ok, ax_fair|]. split; [apply ax_ok, ax_fair|vm_compute; discriminate]. Qed.

(** The reported probability from the trees, for the methods without boxes: the mean over the trees of the mean over the training rows that
    the tree does not separate from the observation by the columns of the explanation (for [importance_ddp_rf] and
    [importance_cdp_rf]: by the other columns).  Partial as C135: every tree keeps at least [min_node_size] rows and
    the memory before the arrays does no harm; not all columns. *)
Theorem C136_values_partial d w es Ts stray classifier q imp by_importance sched kd a D Y t C m pi minimal stop e i :
  searchable d w es Ts classifier imp by_importance sched kd a D Y t C -> (0 < pi)%Q -> (pi <= 1)%Q ->
  kd = by_sdp \/ kd = by_ddp \/ kd = by_cdp ->
  acx_importance d es stray classifier q by_importance sched kd a D Y m t C pi minimal stop = Gives e -> i < length (g_X a) ->
  (pi <= nth i (e_sdp e) 0)%Q ->
  exists S, NoDup S /\ (forall s, In s S -> s < d) /\ reported (ImpSpec.row_of e i) = map Z.of_nat S /\
    (length S < d -> safe stray (asked kd d S) Ts -> (forall T, In T Ts -> m <= length (mates (asked kd d S) T (nth i (g_X a) (fun _ => 0%Q)) D)) ->
     (nth i (e_sdp e) 0 ==
      mean_over (fun T => mean_over (fun j => measured (method kd) classifier (nth i (g_y a) 0) (fst (levels_at q (g_X a) t i)) (snd (levels_at q (g_X a) t i))
                                                (nth i (g_down a) 0) (nth i (g_up a) 0) (nth j Y 0))
                                    (mates (asked kd d S) T (nth i (g_X a) (fun _ => 0)) D)) Ts)%Q).
Proof. intros HE H0 H1 Hk He Hi Hp. exact (run_values d w es Ts stray classifier q imp by_importance sched kd a D Y t C m HE pi minimal stop H0 H1 e i Hk He Hi Hp). Qed.
Print Assumptions C136_values_partial.
Example C136_values_example : asked by_ddp 2 [0] = [1] /\ safe ex_calm [1] ag_Ts /\
  map (fun T => mates [1] T (ex_obs 3 3 0) ag_D) ag_Ts = [[0; 1; 2; 3; 4; 5]; [3; 4; 5]] /\
  Qred (((3#6) + (2#3)) / 2) = (7#12)%Q.
Proof. split; [reflexivity|]. split; [left; split; [intros f [Hf _]; cbn in Hf; lia|split; reflexivity]|]. split; reflexivity. Qed.

(** *** Where the full statement fails *)
(** All columns are reported with probability 1 although the method for a given set returns less than the level. *)
Theorem C136_forced_refuted : exists d w es Ts sched kd a D Y order pi e i,
  searchable d w es Ts true (fun _ => 0%Q) (seq 0 d) sched kd a D Y T_none [[]] /\ complete (S (length Ts)) (length (g_X a)) order /\ (0 < pi <= 1)%Q /\
  acx_importance d es ex_calm true ag_q (seq 0 d) sched kd a D Y 1 T_none [[]] pi 1 false = Gives e /\ i < length (g_X a) /\
  (nth i (e_sdp e) 0 == 1)%Q /\ reported (ImpSpec.row_of e i) = map Z.of_nat (seq 0 d) /\
  (AxsSpec.told d es ex_calm true ag_q order kd a D Y 1 T_none i (seq 0 d) < pi)%Q.
Proof.
  exists 2, 1, ag_es, ag_Ts, (ax_sched 2 4), by_sdp, ax_args, ag_D, ag_Y, (ax_turns 2 4), (3#5)%Q. eexists. exists 0.
  split; [apply ax_ok, ax_fair|]. split; [apply turns_complete|]. split; [split; reflexivity || discriminate|]. split; [vm_compute; reflexivity|].
  split; [cbn; lia|]. split; [reflexivity|]. split; [reflexivity|]. vm_compute. reflexivity.
Qed.
Print Assumptions C136_forced_refuted.
(** With [stop] a row is given up although a set reaches the level. *)
Theorem C136_stop_refuted : exists d w es Ts sched kd a D Y order pi e i S,
  searchable d w es Ts true (fun _ => 0%Q) (seq 0 d) sched kd a D Y T_none [[]] /\ complete (Datatypes.S (length Ts)) (length (g_X a)) order /\ (0 < pi <= 1)%Q /\
  acx_importance d es ex_calm true ag_q (seq 0 d) sched kd a D Y 1 T_none [[]] pi 1 true = Gives e /\ i < length (g_X a) /\
  (nth i (e_sdp e) 0 < pi)%Q /\ NoDup S /\ S <> [] /\ (forall s, In s S -> s < d) /\
  (pi <= AxsSpec.told d es ex_calm true ag_q order kd a D Y 1 T_none i S)%Q.
Proof.
  exists 2, 1, ag_es, ag_Ts, (ax_sched 2 4), by_sdp, ax_args, ag_D, ag_Y, (ax_turns 2 4), (9#10)%Q. eexists. exists 1, [0; 1].
  split; [apply ax_ok, ax_fair|]. split; [apply turns_complete|]. split; [split; reflexivity || discriminate|]. split; [vm_compute; reflexivity|].
  split; [cbn; lia|]. split; [reflexivity|]. split; [repeat constructor; cbn; intuition lia|]. split; [discriminate|]. split; [cbn; intuition lia|].
  vm_compute. discriminate.
Qed.
Print Assumptions C136_stop_refuted.

(** Beyond ten columns a sufficient explanation that uses another column is not found: here column 10 alone decides. *)
Definition e_last : sk := mkSk [1; -1; -1]%Z [2; -1; -1]%Z [10; -2; -2]%Z [1 # 2; 0; 0]%Q [one; one; one] (repeat 1%Z 3).
Definition T_last : rtree := Fork 10 (1 # 2) Leaf Leaf.
Lemma h_last : holds 11 1 e_last T_last.
Proof.
  assert (W : written e_last 0 T_last)
    by (apply wr_fork with (i := 1) (j := 2); try (cbn; lia); try reflexivity; try (left; reflexivity); constructor; (reflexivity || (cbn; lia))).
  split; [exact W|]. split; [repeat split|]. split; [intros v Hv; cbn in Hv; decompose [or] Hv; subst; (reflexivity || contradiction)|]. split.
  - intros i Hi. cbn in Hi. destruct i as [|[|[|i]]]; [exists T_last; split; [exact W|intros c Hc; cbn in Hc; lia]| | |lia];
      (exists Leaf; split; [constructor; (reflexivity || (cbn; lia))|intros c []]).
  - intros j Hj. cbn in Hj. destruct j as [|[|[|j]]]; (reflexivity || lia).
Qed.
Definition ex_at (v : Q) : pt := fun c => if c =? 10 then v else 0%Q.
Definition ax_args11 : args := mkArgs [ex_at 1] [1%Q] [] [] (S_rows []) [].
Theorem C136_space_refuted : exists w es Ts sched a D Y order pi e i s,
  searchable 11 w es Ts true (fun _ => 0%Q) (seq 0 11) sched by_sdp a D Y T_none [[0; 1; 2; 3; 4; 5; 6; 7; 8]] /\
  complete (S (length Ts)) (length (g_X a)) order /\ (0 < pi <= 1)%Q /\
  acx_importance 11 es ex_calm true ag_q (seq 0 11) sched by_sdp a D Y 1 T_none [[0; 1; 2; 3; 4; 5; 6; 7; 8]] pi 1 false = Gives e /\ i < length (g_X a) /\
  (nth i (e_sdp e) 0 < pi)%Q /\ s < 11 /\ ~ In s [0; 1; 2; 3; 4; 5; 6; 7; 8] /\
  (pi <= AxsSpec.told 11 es ex_calm true ag_q order by_sdp a D Y 1 T_none i [s])%Q.
Proof.
  exists 1, [e_last], [T_last], (ax_sched 1 1), ax_args11, [ex_at 0; ex_at 1], [0; 1]%Q, (ax_turns 1 1), (9#10)%Q. eexists. exists 0, 10.
  split.
  { split; [discriminate|]. split; [constructor; [exact h_last|constructor]|]. split; [lia|]. split.
    - split; [split; (reflexivity || discriminate)|]. split; [split; (reflexivity || discriminate)|].
      split; [discriminate|]. split; [intros [H|H]; discriminate|now left].
    - split; [split; [|split]|].
      + cbn. repeat constructor; cbn; intuition lia.
      + cbn. intros x Hx. decompose [or] Hx; try lia; contradiction.
      + right. intros [H|[]]. discriminate.
      + split; [discriminate|]. split; [|apply ax_fair]. split; [apply Permutation_refl|]. intros i j s s' _ _ _. apply Qle_refl. }
  split; [apply turns_complete|]. split; [split; reflexivity || discriminate|]. split; [vm_compute; reflexivity|].
  split; [cbn; lia|]. split; [reflexivity|]. split; [lia|]. split; [cbn; intuition lia|]. vm_compute. discriminate.
Qed.
Print Assumptions C136_space_refuted.

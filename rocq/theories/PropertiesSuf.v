(** C147: [run_sufficient_rules] of the class [CR], from a forest of skranger to the sufficient explanations and the maximal rules. *)
From Verif Require Import Base QuantSpec QuantProofs GameSpec RfModel RfSpec PropertiesRf SkModel SearchModel SearchSpec ExplSpec ApiModel ApiSpec AgnModel AgnSpec AgnProofs PropertiesAgn AxsModel AxsSpec AxsProofs
  PropertiesAxs BoxSpec PropertiesBox RulesSpec CrSpec CrsModel CrsSpec CrsProofs CrsProofs2 PropertiesCrs MaxModel SufModel SufSpec SufProofs.
Local Open Scope nat_scope.

(** for the examples: the forest and training rows of PropertiesCrs.v, two observations with their targets *)
Definition su_y : list Q := [1; 0]%Q.
Notation su_run algo2 pi := (run_sufficient_rules cr_rand cr_randint (fun _ => (1 # 2)%Q) (fun _ => 1%Q) 2 ag_es ex_calm true ag_q [0; 1] cr_D cr_Y (ax_sched 2 2) (fun _ => ax_turns 2 36)
  cr_X su_y T_none pi algo2 cr_h (fun i => i)).
Definition su_show (e : ending sufficient) : option (list (list nat) * list (list nat) * list Q * list (list (Q * Q)) * list (list Q) * list (list Q)) :=
  match e with
  | Gives s => Some (u_star s, u_bar s, map Qred (u_sdp s), map (fun r : rule => map (fun k => (Qred (fst (r k)), Qred (snd (r k)))) [0; 1]) (u_rules s),
      map (fun f : nat -> Q => map (fun j => Qred (f j)) (seq 0 6)) (u_sdp_all s), map (fun f : nat -> Q => map (fun j => Qred (f j)) (seq 0 6)) (u_w s))
  | _ => None
  end.
(** the levels of observation [i]: none in classification *)
Definition lev (classifier : bool) (q : pt -> Q * Q) (X : list pt) (t : targ) (i : nat) : Q * Q := if classifier then (0%Q, 0%Q) else levels_at q X t i.
Notation "x .[ i ]" := (nth i x (fun _ => 0%Q)) (at level 2, left associativity, format "x .[ i ]").

(** Every observation has an explanation, the other columns, a probability, a rule and the tables of the training rows.  The explanation is minimal for the
    same decision probability of [compute_sdp_rf], or no searched set reaches the level; the stored probability is that of the set. *)
Theorem C147_explanations : forall G (rand : G -> Q * G) randint exp lg d w es Ts stray classifier q imp order D Y sched scheds X y t pi algo2 h gs,
  trained d w es Ts D Y -> ranked imp d order -> table X y -> levels_fit classifier (length X) t -> fair (length Ts) (length X) sched ->
  (forall i, i < length X -> complete (S (length Ts)) (length D) (scheds i)) -> (0 < pi)%Q -> (pi <= 1)%Q ->
  (algo2 = false -> (forall n g, 0 < n -> fst (randint n g) < n) /\ 0 < h_batch h) ->
  exists st va, run_sufficient_rules rand randint exp lg d es stray classifier q order D Y sched scheds X y t pi algo2 h gs = Gives st /\ chosen imp d [[]] va /\
    (length (u_star st) = length X /\ length (u_bar st) = length X /\ length (u_sdp st) = length X /\ length (u_rules st) = length X /\
     length (u_sdp_all st) = length X /\ length (u_rules_data st) = length X /\ length (u_w st) = length X) /\
    forall order1 i, complete (S (length Ts)) (length X) order1 -> i < length X ->
      let Sv := nth i (u_star st) [] in let P := told d es stray classifier q order1 by_sdp (mkArgs X y [] [] (S_rows []) []) D Y 5 t i in
      NoDup Sv /\ (forall s, In s Sv -> s < d) /\ nth i (u_bar st) [] = complement d Sv /\
      divergent_set d va false pi P Sv /\ nth i (u_sdp st) 0%Q = P Sv.
Proof.
  intros G rand randint exp lg d w es Ts stray classifier q imp order D Y sched scheds X y t pi algo2 h gs HT HR HX Ht Hf Hsc H0 H1 Hg.
  destruct (SufProofs.run_gives d w es Ts stray classifier q imp order D Y HT X y t HX Ht G rand randint exp lg sched scheds pi algo2 h gs HR Hf Hsc H0 H1 Hg) as (st & E).
  exists st, (search_groups [[]] (ExplModel.agnostic_space d order)). split; [exact E|]. split; [apply chosen_groups; [exact HR|apply no_coalition]|].
  split; [exact (run_lengths d w es Ts stray classifier q imp order D Y HT X y t HX Ht G rand randint exp lg sched scheds pi algo2 h gs HR Hf H0 H1 st E)|].
  intros order1 i Ho Hi. cbv zeta.
  destruct (run_sets_of d w es Ts stray classifier q imp order D Y HT X y t HX Ht G rand randint exp lg sched scheds pi algo2 h gs HR Hf H0 H1 st E i order1 Hi Ho) as (K1 & K2 & K3 & K4).
  split; [exact K1|]. split; [exact K2|]. split; [exact K3|]. split; [exact K4|].
  destruct (run_rows d w es Ts stray classifier q imp order D Y HT X y t HX Ht G rand randint exp lg sched scheds pi algo2 h gs HR Hf Hsc H0 H1 st E i Hi) as (-> & _).
  rewrite (told_sdp d w es Ts stray classifier q imp order D Y HT X y t HX Ht sched HR Hf order1 i _ Ho Hi). apply MaxProofs.own_sdp.
Qed.
Print Assumptions C147_explanations.
Lemma su_table : table cr_X su_y.
Proof. split; [reflexivity|discriminate]. Qed.
Example C147_explanations_example :
  trained 2 1 ag_es ag_Ts cr_D cr_Y /\ ranked (fun _ => 0%Q) 2 [0; 1] /\ table cr_X su_y /\ levels_fit true 2 T_none /\ fair 2 2 (ax_sched 2 2) /\ complete 3 36 (ax_turns 2 36) /\
  su_show (su_run false (3 # 5)%Q) =
    Some ([[0; 1]; [1]], [[]; [0]], [3 # 10; 3 # 4]%Q, [[(1, big); (2, big)]; [(- big, big); (- big, 0)]]%Q,
          [[0; 4 # 5; 4 # 5; 3 # 10; 4 # 5; 3 # 10]; [3 # 4; 1 # 4; 1 # 4; 7 # 12; 7 # 12; 7 # 12]]%Q,
          [[0; 1 # 60; 1 # 60; 7 # 120; 1 # 60; 7 # 120]; [7 # 72; 1 # 72; 1 # 72; 1 # 72; 1 # 72; 1 # 72]]%Q).
Proof.
  split; [exact cr_trained|]. split; [exact cr_ranked|]. split; [exact su_table|]. split; [now left|]. split; [apply ax_fair|]. split; [apply turns_complete|].
  vm_compute. reflexivity.
Qed.

(** The tables of the training rows: the weights are those of [compute_ddp_weights]; a row with a weight has the probability and the rule that the methods
    answer for it with the target, the levels and the explanation of the observation, the others have zero and no bound at all. *)
Theorem C147_tables : forall G (rand : G -> Q * G) randint exp lg d w es Ts stray classifier q imp order D Y sched scheds X y t pi algo2 h gs st order1 i,
  trained d w es Ts D Y -> ranked imp d order -> table X y -> levels_fit classifier (length X) t -> fair (length Ts) (length X) sched ->
  (forall i, i < length X -> complete (S (length Ts)) (length D) (scheds i)) -> (0 < pi)%Q -> (pi <= 1)%Q ->
  run_sufficient_rules rand randint exp lg d es stray classifier q order D Y sched scheds X y t pi algo2 h gs = Gives st ->
  complete (S (length Ts)) 1 order1 -> i < length X ->
  let Sv := nth i (u_star st) [] in let yx := nth i y 0%Q in let lv := lev classifier q X t i in
  nth i (u_sdp st) 0%Q = same_decision d es stray classifier q D Y 5 order1 X.[i] yx lv Sv /\
  nth i (u_w st) (fun _ => 0%Q) = row_weights d es stray classifier q D Y 5 order1 X.[i] yx lv Sv /\
  forall j, j < length D ->
    ((nth i (u_w st) (fun _ => 0%Q) j == 0)%Q -> nth i (u_sdp_all st) (fun _ => 0%Q) j = 0%Q /\ nth i (u_rules_data st) (fun _ => rule0) j = rule0) /\
    (~ (nth i (u_w st) (fun _ => 0%Q) j == 0)%Q ->
       nth i (u_sdp_all st) (fun _ => 0%Q) j = same_decision d es stray classifier q D Y 5 order1 D.[j] yx lv Sv /\
       nth i (u_rules_data st) (fun _ => rule0) j = cell d es stray classifier q D Y 5 order1 D.[j] yx lv Sv).
Proof.
  intros G rand randint exp lg d w es Ts stray classifier q imp order D Y sched scheds X y t pi algo2 h gs st order1 i HT HR HX Ht Hf Hsc H0 H1 E Ho Hi. cbv zeta. change 5 with node_size.
  destruct (run_rows d w es Ts stray classifier q imp order D Y HT X y t HX Ht G rand randint exp lg sched scheds pi algo2 h gs HR Hf Hsc H0 H1 st E i Hi) as (Es & Ew & Er & _).
  destruct (own_rule_spec d w es Ts stray classifier q imp D Y HT X y t G rand randint exp lg pi gs i (nth i (u_star st) []) order1 Ho) as (_ & A & B).
  unfold lev. rewrite Es, Ew, <- A, <- B. split; [reflexivity|]. split; [reflexivity|]. intros j Hj. specialize (Er j Hj).
  split; intro Hw.
  - rewrite MaxProofs.row_weightless in Er by exact Hw. injection Er as -> ->. auto.
  - unfold max_row in Er. destruct (qeqb_spec (snd (max_own (dense (map ranger_tree es) stray) (rows_of D) (vals_of Y) (length D) (tallest Ts) node_size classifier
      (fst (if classifier then (0%Q, 0%Q) else levels_at q X t i)) (snd (if classifier then (0%Q, 0%Q) else levels_at q X t i)) (nth i (u_star st) []) X.[i] (nth i y 0%Q)) j) 0) as [Z|Z]; [contradiction|].
    cbn [negb] in Er. rewrite <- (sdp_spec d w es Ts stray classifier q imp D Y HT X y t G rand randint exp lg pi gs i (nth i (u_star st) []) D.[j] order1 Ho).
    rewrite <- (cell_spec d w es Ts stray classifier q imp D Y HT X y t G rand randint exp lg pi gs i (nth i (u_star st) []) D.[j] order1 Ho).
    rewrite <- RfProofs.rule_prob_statement. change (rows_of D j) with D.[j] in Er. split; [exact (f_equal fst Er)|exact (f_equal snd Er)].
Qed.
Print Assumptions C147_tables.
Example C147_tables_example : complete 3 1 (ax_turns 2 1) /\
  map (fun j => Qred (same_decision 2 ag_es ex_calm true ag_q cr_D cr_Y 5 (ax_turns 2 1) cr_D.[j] 1%Q (0, 0)%Q [0; 1])) [1; 3] = [4 # 5; 3 # 10]%Q /\
  map (fun j => Qred (row_weights 2 ag_es ex_calm true ag_q cr_D cr_Y 5 (ax_turns 2 1) cr_X.[0] 1%Q (0, 0)%Q [0; 1] j)) [0; 1] = [0; 1 # 60]%Q.
Proof. split; [apply turns_complete|]. split; vm_compute; reflexivity. Qed.

(** The rules found by annealing, whatever the draws: the bounds are at least as wide as those of [compute_sdp_rule]; when the explanation reaches the level and no
    training row sits on a lower bound of that rule, all training rows in the maximal rule reach the level and have a weight. *)
Theorem C147_rules_partial : forall G (rand : G -> Q * G) randint exp lg d w es Ts stray classifier q imp order D Y sched scheds X y t pi h gs st order1 i,
  trained d w es Ts D Y -> ranked imp d order -> table X y -> levels_fit classifier (length X) t -> fair (length Ts) (length X) sched ->
  (forall i, i < length X -> complete (S (length Ts)) (length D) (scheds i)) -> (0 < pi)%Q -> (pi <= 1)%Q ->
  run_sufficient_rules rand randint exp lg d es stray classifier q order D Y sched scheds X y t pi false h gs = Gives st ->
  complete (S (length Ts)) 1 order1 -> i < length X ->
  let Sv := nth i (u_star st) [] in let yx := nth i y 0%Q in let lv := lev classifier q X t i in
  let own := cell d es stray classifier q D Y node_size order1 X.[i] yx lv Sv in
  let good j := (0 < nth i (u_w st) (fun _ => 0%Q) j)%Q /\ (pi <= same_decision d es stray classifier q D Y node_size order1 D.[j] yx lv Sv)%Q in
  wider d (nth i (u_rules st) rule0) own /\
  ((forall j, j < length D -> inside d (nth i (u_rules st) rule0) D.[j] -> good j) <-> (forall j, j < length D -> inside d own D.[j] -> good j)) /\
  ((pi <= nth i (u_sdp st) 0)%Q -> (forall j f, j < length D -> In f Sv -> ~ (D.[j] f == fst (own f))%Q) ->
   forall j, j < length D -> inside d (nth i (u_rules st) rule0) D.[j] -> good j).
Proof.
  intros G rand randint exp lg d w es Ts stray classifier q imp order D Y sched scheds X y t pi h gs st order1 i HT HR HX Ht Hf Hsc H0 H1 E Ho Hi. cbv zeta. change 5 with node_size.
  destruct (own_rule_spec d w es Ts stray classifier q imp D Y HT X y t G rand randint exp lg pi gs i (nth i (u_star st) []) order1 Ho) as (A & _ & _). unfold lev. rewrite <- A.
  split; [exact (annealing_wider d w es Ts stray classifier q imp order D Y HT X y t HX Ht G rand randint exp lg sched scheds pi false h gs HR Hf Hsc H0 H1 st E i Hi eq_refl)|].
  split.
  - pose proof (annealing_iff d w es Ts stray classifier q imp order D Y HT X y t HX Ht G rand randint exp lg sched scheds pi false h gs HR Hf Hsc H0 H1 st E i Hi eq_refl) as K. cbv zeta in K.
    assert (Q0 : forall j, RfModel.compute_sdp_rf (dense (map ranger_tree es) stray) (rows_of D) (vals_of Y) (length D) (tallest Ts) node_size classifier
      (fst (if classifier then (0%Q, 0%Q) else levels_at q X t i)) (snd (if classifier then (0%Q, 0%Q) else levels_at q X t i)) (nth i (u_star st) []) (rows_of D j) (nth i y 0%Q) =
      same_decision d es stray classifier q D Y node_size order1 D.[j] (nth i y 0%Q) (if classifier then (0%Q, 0%Q) else levels_at q X t i) (nth i (u_star st) []))
      by (intro j; exact (sdp_spec d w es Ts stray classifier q imp D Y HT X y t G rand randint exp lg pi gs i (nth i (u_star st) []) D.[j] order1 Ho)).
    destruct K as [K1 K2].
    split; intros L j Hj Hin; rewrite <- Q0; [apply K1|apply K2]; try assumption; intros k Hk Hk'; rewrite Q0; exact (L k Hk Hk').
  - intros Hp Hb j Hj Hin. rewrite <- (sdp_spec d w es Ts stray classifier q imp D Y HT X y t G rand randint exp lg pi gs i (nth i (u_star st) []) D.[j] order1 Ho).
    apply and_comm. exact (annealing_guarantee d w es Ts stray classifier q imp order D Y HT X y t HX Ht G rand randint exp lg sched scheds pi false h gs HR Hf Hsc H0 H1 st E i Hi eq_refl Hp Hb j Hj Hin).
Qed.
Print Assumptions C147_rules_partial.
(** the second observation of the example: its own rule has no row on its lower bounds *)
Example C147_rules_example :
  let own := cell 2 ag_es ex_calm true ag_q cr_D cr_Y 5 (ax_turns 2 1) cr_X.[1] 0%Q (0, 0)%Q [1] in
  map (fun k => (Qred (fst (own k)), Qred (snd (own k)))) [0; 1] = [(- big, big); (- big, 0)]%Q /\
  (forall j f, j < length cr_D -> In f [1] -> ~ (cr_D.[j] f == fst (own f))%Q) /\ ((3 # 5) <= 3 # 4)%Q /\
  map (fun j => Qred (same_decision 2 ag_es ex_calm true ag_q cr_D cr_Y 5 (ax_turns 2 1) cr_D.[j] 0%Q (0, 0)%Q [1])) [0; 6; 12] = [3 # 4; 3 # 4; 3 # 4]%Q.
Proof.
  cbv zeta. split; [vm_compute; reflexivity|]. split; [|split; [vm_compute; discriminate|vm_compute; reflexivity]].
  intros j f Hj [<-|[]] E.
  assert (V : forallb (fun j => negb (Qeq_bool (cr_D.[j] 1) (fst (cell 2 ag_es ex_calm true ag_q cr_D cr_Y 5 (ax_turns 2 1) cr_X.[1] 0%Q (0, 0)%Q [1] 1)))) (seq 0 36) = true)
    by (vm_compute; reflexivity).
  rewrite forallb_forall in V. specialize (V j ltac:(apply in_seq; change (length cr_D) with 36 in Hj; lia)). apply Qeq_bool_iff in E. rewrite E in V. discriminate.
Qed.
(** With [algo2] the rule contains the one of [compute_sdp_rule], it bounds only the explanation, and every bound is one of that rule or of a training row at the level. *)
Theorem C147_unions : forall G (rand : G -> Q * G) randint exp lg d w es Ts stray classifier q imp order D Y sched scheds X y t pi h gs st order1 i,
  trained d w es Ts D Y -> ranked imp d order -> table X y -> levels_fit classifier (length X) t -> fair (length Ts) (length X) sched ->
  (forall i, i < length X -> complete (S (length Ts)) (length D) (scheds i)) -> (0 < pi)%Q -> (pi <= 1)%Q ->
  run_sufficient_rules rand randint exp lg d es stray classifier q order D Y sched scheds X y t pi true h gs = Gives st ->
  complete (S (length Ts)) 1 order1 -> i < length X -> (forall j f, j < length D -> f < d -> (- big < D.[j] f <= big)%Q) ->
  let Sv := nth i (u_star st) [] in let yx := nth i y 0%Q in let lv := lev classifier q X t i in
  let cell z := cell d es stray classifier q D Y 5 order1 z yx lv Sv in let r := nth i (u_rules st) rule0 in
  let good j := (0 < nth i (u_w st) (fun _ => 0%Q) j)%Q /\ (pi <= same_decision d es stray classifier q D Y 5 order1 D.[j] yx lv Sv)%Q in
  subrule d (cell X.[i]) r /\ (forall k, ~ In k Sv -> r k = (- big, big)%Q) /\
  forall k, (fst (r k) = fst (cell X.[i] k) \/ exists j, j < length D /\ good j /\ fst (r k) = fst (cell D.[j] k)) /\
            (snd (r k) = snd (cell X.[i] k) \/ exists j, j < length D /\ good j /\ snd (r k) = snd (cell D.[j] k)).
Proof.
  intros G rand randint exp lg d w es Ts stray classifier q imp order D Y sched scheds X y t pi h gs st order1 i HT HR HX Ht Hf Hsc H0 H1 E Ho Hi Hb. cbv zeta. change 5 with node_size.
  destruct (own_rule_spec d w es Ts stray classifier q imp D Y HT X y t G rand randint exp lg pi gs i (nth i (u_star st) []) order1 Ho) as (A & _ & _). unfold lev. rewrite <- A.
  destruct (SufProofs.extended d w es Ts stray classifier q imp order D Y HT X y t HX Ht G rand randint exp lg sched scheds pi true h gs HR Hf Hsc H0 H1 st E i Hi eq_refl Hb) as (K1 & K2 & K3).
  destruct (run_rows d w es Ts stray classifier q imp order D Y HT X y t HX Ht G rand randint exp lg sched scheds pi true h gs HR Hf Hsc H0 H1 st E i Hi) as (_ & Ew & _).
  split; [exact K1|]. split; [exact K2|]. rewrite Ew.
  assert (L : forall j (P : Q * Q -> Prop) k, (pi <= fst (max_row (dense (map ranger_tree es) stray) (rows_of D) (vals_of Y) (length D) (tallest Ts) node_size classifier
      (fst (if classifier then (0%Q, 0%Q) else levels_at q X t i)) (snd (if classifier then (0%Q, 0%Q) else levels_at q X t i)) (nth i (u_star st) []) X.[i] (nth i y 0%Q) j))%Q ->
    P (snd (max_row (dense (map ranger_tree es) stray) (rows_of D) (vals_of Y) (length D) (tallest Ts) node_size classifier
      (fst (if classifier then (0%Q, 0%Q) else levels_at q X t i)) (snd (if classifier then (0%Q, 0%Q) else levels_at q X t i)) (nth i (u_star st) []) X.[i] (nth i y 0%Q) j) k) ->
    ((0 < snd (max_own (dense (map ranger_tree es) stray) (rows_of D) (vals_of Y) (length D) (tallest Ts) node_size classifier
      (fst (if classifier then (0%Q, 0%Q) else levels_at q X t i)) (snd (if classifier then (0%Q, 0%Q) else levels_at q X t i)) (nth i (u_star st) []) X.[i] (nth i y 0%Q)) j)%Q /\
     (pi <= same_decision d es stray classifier q D Y node_size order1 D.[j] (nth i y 0%Q) (if classifier then (0%Q, 0%Q) else levels_at q X t i) (nth i (u_star st) []))%Q) /\
    P (SufSpec.cell d es stray classifier q D Y node_size order1 D.[j] (nth i y 0%Q) (if classifier then (0%Q, 0%Q) else levels_at q X t i) (nth i (u_star st) []) k)).
  { intros j P k Hp HP. pose proof Hp as Hl. apply MaxProofs.row_level in Hl; [|exact H0]. destruct Hl as [W Hl].
    destruct (MaxProofs.row_weighted _ _ _ _ _ _ _ _ _ _ _ _ j W) as [Er _]. rewrite Er in HP.
    rewrite <- (sdp_spec d w es Ts stray classifier q imp D Y HT X y t G rand randint exp lg pi gs i (nth i (u_star st) []) D.[j] order1 Ho).
    rewrite <- (cell_spec d w es Ts stray classifier q imp D Y HT X y t G rand randint exp lg pi gs i (nth i (u_star st) []) D.[j] order1 Ho). auto. }
  intro k. destruct (K3 k) as [[U|(j & Hj & U1 & U2)] [V|(j' & Hj' & V1 & V2)]];
    (split; [first [left; exact U|right; exists j; split; [exact Hj|apply (L j (fun p => fst (nth i (u_rules st) rule0 k) = fst p) k U1 U2)]]|
             first [left; exact V|right; exists j'; split; [exact Hj'|apply (L j' (fun p => snd (nth i (u_rules st) rule0 k) = snd p) k V1 V2)]]]).
Qed.
Print Assumptions C147_unions.
Example C147_unions_example :
  match su_show (su_run true (3 # 5)%Q) with Some (_, _, _, rs, _, _) => rs = [[(1 # 2, big); (2, big)]; [(- big, big); (- big, 0)]]%Q | None => False end /\
  map (fun k => fst (cell 2 ag_es ex_calm true ag_q cr_D cr_Y 5 (ax_turns 2 1) cr_X.[0] 1%Q (0, 0)%Q [0; 1] k)) [0; 1] = [1; 2]%Q /\
  forall j f, j < length cr_D -> f < 2 -> (- big < cr_D.[j] f <= big)%Q.
Proof.
  split; [vm_compute; reflexivity|]. split; [vm_compute; reflexivity|]. intros j f Hj Hf.
  assert (V : forallb (fun j => forallb (fun f => qltb (- big) (cr_D.[j] f) && qleb (cr_D.[j] f) big) [0; 1]) (seq 0 36) = true) by (vm_compute; reflexivity).
  rewrite forallb_forall in V. specialize (V j ltac:(apply in_seq; change (length cr_D) with 36 in Hj; lia)). rewrite forallb_forall in V.
  specialize (V f ltac:(destruct f as [|[|f]]; cbn; auto; lia)). apply andb_true_iff in V. destruct V as [V1 V2]. split; [now apply qltb_true|now apply qleb_true].
Qed.

(** In terms of the trees, when every tree keeps at least five rows: every point that no tree separates from the observation by the columns of the explanation is
    in the rule, and a training row has a part of the weight of each tree that does not separate it. *)
Theorem C147_trees_partial : forall G (rand : G -> Q * G) randint exp lg d w es Ts stray classifier q imp order D Y sched scheds X y t pi algo2 h gs st i,
  trained d w es Ts D Y -> ranked imp d order -> table X y -> levels_fit classifier (length X) t -> fair (length Ts) (length X) sched ->
  (forall i, i < length X -> complete (S (length Ts)) (length D) (scheds i)) -> (0 < pi)%Q -> (pi <= 1)%Q ->
  run_sufficient_rules rand randint exp lg d es stray classifier q order D Y sched scheds X y t pi algo2 h gs = Gives st ->
  i < length X -> (algo2 = true -> forall j f, j < length D -> f < d -> (- big < D.[j] f <= big)%Q) ->
  let Sv := nth i (u_star st) [] in
  safe stray Sv Ts -> (forall T, In T Ts -> 5 <= length (mates Sv T X.[i] D)) ->
  (forall z, moderate (seq 0 d) z -> (forall T, In T Ts -> together Sv T X.[i] z = true) -> inside d (nth i (u_rules st) rule0) z) /\
  forall j, j < length D -> (nth i (u_w st) (fun _ => 0) j == mean_over (fun T => if together Sv T X.[i] D.[j] then 1 / Qn (length (mates Sv T X.[i] D)) else 0) Ts)%Q.
Proof.
  intros G rand randint exp lg d w es Ts stray classifier q imp order D Y sched scheds X y t pi algo2 h gs st i HT HR HX Ht Hf Hsc H0 H1 E Hi Hb. cbv zeta. change 5 with node_size. intros Hs He.
  set (Sv := nth i (u_star st) []) in *. set (order1 := repeat 0 (S (length Ts))).
  assert (Ho : complete (S (length Ts)) 1 order1).
  { split; [intros k Hk; apply repeat_spec in Hk; lia|]. intros k Hk. assert (k = 0) by lia. subst k. now apply count_occ_repeat_eq. }
  set (lv := lev classifier q X t i). set (a := mkArgs [X.[i]] [nth i y 0%Q] [] [] (S_rows [Sv]) []).
  assert (C1 : table (g_X a) (g_y a)) by (split; [reflexivity|discriminate]).
  assert (C2 : forall r, In r [sdp_rule; ddp_weights] -> documented r a [Sv]).
  { intros r Hr. split; [reflexivity|]. split; [reflexivity|]. split; intro B; exfalso; cbn in B, Hr; decompose [or] Hr; subst; decompose [or] B; (discriminate || contradiction). }
  assert (C3 : own_levels classifier q (g_X a) (T_matrix [[fst lv; snd lv]]) (fun _ => lv)).
  { right; right. eexists. split; [reflexivity|]. split; [reflexivity|]. intros k Hk. cbn in Hk. assert (k = 0) by lia. subst k. now exists []. }
  assert (C4 : forall k, k < length (g_X a) -> safe stray (nth k [Sv] []) Ts) by (intros k Hk; cbn in Hk; assert (k = 0) by lia; subst k; exact Hs).
  assert (C5 : enough node_size (g_X a) [Sv] D Ts) by (intros k T Hk HT'; cbn in Hk; assert (k = 0) by lia; subst k; now apply He).
  pose proof HT as (A1 & A2 & A3 & A4).
  destruct (own_rule_spec d w es Ts stray classifier q imp D Y HT X y t G rand randint exp lg pi gs i Sv order1 Ho) as (A & _ & B).
  destruct (run_rows d w es Ts stray classifier q imp order D Y HT X y t HX Ht G rand randint exp lg sched scheds pi algo2 h gs HR Hf Hsc H0 H1 st E i Hi) as (_ & Ew & _). fold Sv in Ew.
  split.
  - intros z Hz Ht2. apply (rule_holds_cell d w es Ts stray classifier q imp order D Y HT X y t HX Ht G rand randint exp lg sched scheds pi algo2 h gs HR Hf Hsc H0 H1 st E i Hi Hb).
    fold Sv. rewrite A. fold lv. unfold cell, single. change (if classifier then (0%Q, 0%Q) else levels_at q X t i) with lv. fold a.
    destruct (explain_rules d w es Ts stray classifier q sdp_rule a [Sv] D Y node_size (T_matrix [[fst lv; snd lv]]) order1 (fun _ => lv) A1 A2 A3 ltac:(cbn; tauto) C1 A4 (C2 sdp_rule ltac:(cbn; tauto)) C3 Ho C4 C5)
      as (res & ps & E1 & E2 & _ & R). rewrite E1, E2. cbn [fst snd]. destruct (R 0 ltac:(cbn; lia)) as [R1 R2]. cbn [nth a g_X] in R1, R2.
    assert (Hin : in_rule Sv (nth 0 ps rule0) z).
    { apply R1; [|exact Ht2]. intros f Hf'. apply Hz. apply in_seq. 
      destruct (run_sets_of d w es Ts stray classifier q imp order D Y HT X y t HX Ht G rand randint exp lg sched scheds pi algo2 h gs HR Hf H0 H1 st E i (repeat 0 0 ++ flat_map (fun k => repeat k (S (length Ts))) (seq 0 (length X))) Hi
                  (turns_complete (length Ts) (length X))) as (_ & K & _). specialize (K f Hf'). lia. }
    intros k Hk. destruct (in_dec Nat.eq_dec k Sv) as [Hin2|Hout].
    + specialize (Hin k Hin2). split; [apply Qlt_le_weak, Hin|apply Hin].
    + rewrite (R2 k Hout). cbn [fst snd]. destruct (Hz k ltac:(apply in_seq; lia)) as [Z1 Z2]. split; [now apply Qlt_le_weak|exact Z2].
  - intros j Hj. rewrite Ew, B. unfold row_weights, single. change (if classifier then (0%Q, 0%Q) else levels_at q X t i) with lv. fold a.
    destruct (explain_weights d w es Ts stray classifier q ddp_weights a [Sv] D Y node_size (T_matrix [[fst lv; snd lv]]) order1 (fun _ => lv) A1 A2 A3 ltac:(cbn; tauto) C1 A4 (C2 ddp_weights ltac:(cbn; tauto)) C3 Ho C4 C5)
      as (res & ws & E1 & E2 & _ & R). rewrite E1, E2. cbn [fst snd]. exact (R 0 j ltac:(cbn; lia) Hj).
Qed.
Print Assumptions C147_trees_partial.
Example C147_trees_example : (forall Sv, safe ex_calm Sv ag_Ts) /\ (forall T, In T ag_Ts -> 5 <= length (mates [1] T cr_X.[1] cr_D)) /\
  map (fun T => length (mates [1] T cr_X.[1] cr_D)) ag_Ts = [36; 6] /\ map (fun T => together [1] T cr_X.[1] (ex_obs 9 (-5) 0)) ag_Ts = [true; true].
Proof.
  split; [exact cr_safe|]. split; [|split; vm_compute; reflexivity]. intros T [<-|[<-|[]]]; apply Nat.leb_le; vm_compute; reflexivity.
Qed.

(** What is missing: all columns are taken as an explanation with probability 1 although their probability is below the level, and then training rows in the rule
    are below the level. *)
Theorem C147_level_refuted : exists d w es Ts stray classifier q imp order D Y sched scheds X y t pi algo2 h order1 st i j,
  trained d w es Ts D Y /\ ranked imp d order /\ table X y /\ levels_fit classifier (length X) t /\ fair (length Ts) (length X) sched /\
  (forall i, i < length X -> complete (S (length Ts)) (length D) (scheds i)) /\ (0 < pi <= 1)%Q /\ complete (S (length Ts)) 1 order1 /\
  run_sufficient_rules cr_rand cr_randint (fun _ => (1 # 2)%Q) (fun _ => 1%Q) d es stray classifier q order D Y sched scheds X y t pi algo2 h (fun i => i) = Gives st /\
  i < length X /\ nth i (u_star st) [] = seq 0 d /\ (nth i (u_sdp st) 0 < pi)%Q /\ j < length D /\ inside d (nth i (u_rules st) rule0) D.[j] /\
  (same_decision d es stray classifier q D Y 5 order1 D.[j] (nth i y 0) (lev classifier q X t i) (nth i (u_star st) []) < pi)%Q.
Proof.
  exists 2, 1, ag_es, ag_Ts, ex_calm, true, ag_q, (fun _ => 0%Q), [0; 1], cr_D, cr_Y, (ax_sched 2 2), (fun _ => ax_turns 2 36), cr_X, su_y, T_none, (3 # 5)%Q, false, cr_h, (ax_turns 2 1).
  assert (V : match su_run false (3 # 5)%Q with
              | Gives st => nth 0 (u_star st) [] = [0; 1] /\ Qred (nth 0 (u_sdp st) 0%Q) = (3 # 10)%Q /\
                            map (fun k => (Qred (fst (nth 0 (u_rules st) rule0 k)), Qred (snd (nth 0 (u_rules st) rule0 k)))) [0; 1] = [(1, big); (2, big)]%Q
              | _ => False end) by (vm_compute; auto).
  destruct (su_run false (3 # 5)%Q) as [st| |] eqn:E; [|contradiction|contradiction]. destruct V as (V1 & V2 & V3). exists st, 0, 3.
  split; [exact cr_trained|]. split; [exact cr_ranked|]. split; [exact su_table|]. split; [now left|]. split; [apply ax_fair|].
  split; [intros i _; apply turns_complete|]. split; [split; [reflexivity|discriminate]|]. split; [apply turns_complete|]. split; [reflexivity|].
  split; [cbn; lia|]. split; [exact V1|]. split; [rewrite <- (Qred_correct (nth 0 (u_sdp st) 0%Q)), V2; reflexivity|]. split; [vm_compute; lia|]. split.
  - cbn [map] in V3. injection V3 as W1 W2 W3 W4.
    intros [|[|k]] Hk; [| |lia]; (split; [rewrite <- (Qred_correct (fst _)), ?W1, ?W3|rewrite <- (Qred_correct (snd _)), ?W2, ?W4]); vm_compute; discriminate.
  - rewrite V1. vm_compute. reflexivity.
Qed.
Print Assumptions C147_level_refuted.

(** The regional session that follows runs on these rules. *)
Theorem C147_regional_session : forall G (rand : G -> Q * G) randint exp lg d w es Ts stray classifier q imp order argsort D Y sched scheds X y t pi algo2 h gs
  sched_w yt down_up stop pi1 acc pi2 h2 sched_l sched_c gs2,
  trained d w es Ts D Y -> ranked imp d order -> table X y -> levels_fit classifier (length X) t -> fair (length Ts) (length X) sched ->
  (forall i, i < length X -> complete (S (length Ts)) (length D) (scheds i)) -> (0 < pi)%Q -> (pi <= 1)%Q ->
  (forall n g, 0 < n -> fst (randint n g) < n) -> 0 < h_batch h -> 0 < h_batch h2 -> sorting argsort ->
  fits (length X) yt -> intervals_fit (length X) down_up -> complete (S (length Ts)) (length X) sched_w -> (0 < pi1)%Q -> (pi1 <= 1)%Q ->
  (forall n, 0 < n -> complete (S (length Ts)) n (sched_l n)) -> complete (S (length Ts)) 1 sched_c ->
  (forall i, i < length X -> exists j, j < length D /\ agrees classifier (entry yt i) (bound down_up 0 i) (bound down_up 1 i) (nth j Y 0%Q) = true) ->
  exists st dv outs,
    run_sufficient_rules rand randint exp lg d es stray classifier q order D Y sched scheds X y t pi algo2 h gs = Gives st /\
    run_regional_divergent_set d es stray classifier q order D Y sched sched_w X (u_rules st) yt down_up stop pi1 = Gives dv /\
    run_regional_counterfactual_rules rand randint exp lg d es stray classifier q argsort D Y dv X (u_rules st) yt down_up acc pi2 h2 sched_l sched_c gs2 = Gives outs.
Proof.
  intros G rand randint exp lg d w es Ts stray classifier q imp order argsort D Y sched scheds X y t pi algo2 h gs sched_w yt down_up stop pi1 acc pi2 h2 sched_l sched_c gs2
    HT HR HX Ht Hf Hsc H0 H1 Hr Hb Hb2 Hs Hy Hdu Hw P0 P1 Hl Hc Hex.
  destruct (SufProofs.run_gives d w es Ts stray classifier q imp order D Y HT X y t HX Ht G rand randint exp lg sched scheds pi algo2 h gs HR Hf Hsc H0 H1 ltac:(intros _; split; [exact Hr|exact Hb])) as (st & E).
  destruct (run_lengths d w es Ts stray classifier q imp order D Y HT X y t HX Ht G rand randint exp lg sched scheds pi algo2 h gs HR Hf H0 H1 st E) as (_ & _ & _ & L & _).
  destruct (regional_divergent d w es Ts stray classifier q imp order D Y HT HR sched sched_w X (u_rules st) yt down_up stop pi1 (proj2 HX) L Hy Hdu Hf Hw P0 P1) as (dv & E2 & L1 & _ & _ & L2 & _).
  destruct (proj1 (C146_returns G rand randint exp lg d w es Ts stray classifier q argsort D Y X (u_rules st) yt down_up dv acc pi2 h2 sched_l sched_c gs2 HT L Hy Hdu Hs Hl Hc L1 L2 Hr Hb2) Hex) as (outs & E3).
  exists st, dv, outs. auto.
Qed.
Print Assumptions C147_regional_session.
Example C147_regional_session_example :
  match su_run false (3 # 5)%Q with
  | Gives st =>
      match run_regional_divergent_set 2 ag_es ex_calm true ag_q [0; 1] cr_D cr_Y (ax_sched 2 2) (ax_turns 2 2) cr_X (u_rules st) cr_y None true (2 # 5)%Q with
      | Gives dv => v_star dv
      | _ => []
      end
  | _ => []
  end = [[1]; [0]] /\ agrees true (entry cr_y 0) (bound None 0 0) (bound None 1 0) (nth 1 cr_Y 0%Q) = true.
Proof. split; vm_compute; reflexivity. Qed.

(** C145, C146: the sessions of the class [CR] on an [ACXplainer], from a forest of skranger to the counterfactual rules. *)
From Verif Require Import Base QuantSpec QuantProofs GameSpec RfModel RfSpec PropertiesRf SkModel SearchModel SearchSpec ExplSpec ApiModel ApiSpec AgnModel AgnSpec PropertiesAgn AxsModel AxsSpec AxsProofs
  PropertiesAxs BoxSpec PropertiesBox RulesSpec CrSpec CrsModel CrsSpec CrsProofs CrsProofs2.
Local Open Scope nat_scope.

(** for the examples: the forest of PropertiesAgn.v with six copies of its training rows, two observations, target 1 *)
Definition cr_D : list pt := concat (repeat ag_D 6).
Definition cr_Y : list Q := concat (repeat ag_Y 6).
Definition cr_X : list pt := [ex_obs 3 3 0; ex_obs 0 0 0].
Definition cr_y : option (list Q) := Some [1; 1]%Q.
Lemma cr_trained : trained 2 1 ag_es ag_Ts cr_D cr_Y.
Proof. split; [discriminate|]. split; [exact ag_holds|]. split; [discriminate|]. split; [reflexivity|discriminate]. Qed.
Lemma cr_ranked : ranked (fun _ => 0%Q) 2 [0; 1].
Proof. split; [apply Permutation_refl|]. intros i j s s' _ _ _. apply Qle_refl. Qed.
Notation cr_div stop pi :=
  (run_local_divergent_set 2 ag_es ex_calm true ag_q [0; 1] cr_D cr_Y (ax_sched 2 2) (ax_turns 2 2) cr_X cr_y None None T_none stop pi).
Definition cr_show (e : ending divergent) : option (list (list nat) * list (list nat) * list Q * list (list Q)) :=
  match e with
  | Gives s => Some (v_star s, v_bar s, map Qred (v_ddp s), map (fun w : nat -> Q => map (fun j => Qred (w j)) (seq 0 6)) (v_w s))
  | _ => None
  end.
Definition cr_h : annealing := mkAnnealing (1 # 2) 2 2 2 1 2.
Definition cr_rand (g : nat) : Q * nat := ((1 # 2)%Q, S g).
Definition cr_randint (n g : nat) : nat * nat := (g mod n, S g).
Lemma cr_range n g : 0 < n -> fst (cr_randint n g) < n.
Proof. intro H. cbn. apply Nat.mod_upper_bound. lia. Qed.
Definition cr_run (st : divergent) (acc pi : Q) : ending (list (list (rule * Q * (nat -> Q)))) :=
  run_local_counterfactual_rules cr_rand cr_randint (fun _ => (1 # 2)%Q) (fun _ => 1%Q) 2 ag_es ex_calm true ag_q argsort_up cr_D cr_Y st cr_X cr_y None None
    acc pi cr_h (ax_turns 2) (ax_turns 2 1) (fun i j => i + j).
Definition cr_seen (e : ending (list (list (rule * Q * (nat -> Q))))) : option (list (list (list (Q * Q) * Q))) :=
  match e with
  | Gives s => Some (map (map (fun r => (map (fun k => (Qred (fst (fst (fst r) k)), Qred (snd (fst (fst r) k)))) [0; 1], Qred (snd (fst r))))) s)
  | _ => None
  end.

(** ** C145: the local session *)

(** The divergent sets: there is one for every observation, with the other columns beside it; it is minimal for the probability that [compute_cdp_rf]
    gives for the target, or no set that is searched reaches the level; the probability stored is the one of the set. *)
Theorem C145_divergent_sets : forall d w es Ts stray classifier q imp order D Y sched sched_w X y down up t stop pi,
  trained d w es Ts D Y -> ranked imp d order -> X <> [] -> fits (length X) y -> fits (length X) down -> fits (length X) up ->
  levels_fit classifier (length X) t -> fair (length Ts) (length X) sched -> complete (S (length Ts)) (length X) sched_w -> (0 < pi)%Q -> (pi <= 1)%Q ->
  exists st va, run_local_divergent_set d es stray classifier q order D Y sched sched_w X y down up t stop pi = Gives st /\ chosen imp d [[]] va /\
    length (v_star st) = length X /\ length (v_bar st) = length X /\ length (v_ddp st) = length X /\ length (v_w st) = length X /\
    forall order1 i, complete (S (length Ts)) (length X) order1 -> i < length X ->
      let Sv := nth i (v_star st) [] in
      let P := told d es stray classifier q order1 by_cdp
                 (mkArgs X (entries (length X) y) (entries (length X) down) (entries (length X) up) (S_rows []) []) D Y 5 t i in
      NoDup Sv /\ (forall s, In s Sv -> s < d) /\ nth i (v_bar st) [] = complement d Sv /\
      divergent_set d va stop pi P Sv /\ nth i (v_ddp st) 0%Q = P Sv.
Proof.
  intros d w es Ts stray classifier q imp order D Y sched sched_w X y down up t stop pi HT HR HX H1 H2 H3 H4 H5 H6 H7 H8.
  destruct (local_divergent d w es Ts stray classifier q imp order D Y HT HR sched sched_w X y down up t stop pi HX H1 H2 H3 H4 H5 H6 H7 H8)
    as (st & E & L1 & L2 & L3 & L4 & R & _).
  exists st, (search_groups [[]] (ExplModel.agnostic_space d order)). split; [exact E|]. split; [apply chosen_groups; [exact HR|apply no_coalition]|].
  split; [exact L1|]. split; [exact L2|]. split; [exact L3|]. split; [exact L4|]. exact R.
Qed.
Print Assumptions C145_divergent_sets.
Example C145_divergent_sets_example :
  trained 2 1 ag_es ag_Ts cr_D cr_Y /\ ranked (fun _ => 0%Q) 2 [0; 1] /\ fits 2 cr_y /\ fits 2 (None (A := list Q)) /\ levels_fit true 2 T_none /\ fair 2 2 (ax_sched 2 2) /\
  complete 3 2 (ax_turns 2 2) /\
  cr_show (cr_div false (2 # 5)%Q) = Some ([[1]; [0; 1]], [[0]; []], [7 # 15; 1 # 2]%Q, [[0; 1 # 60; 2 # 45; 2 # 45; 1 # 60; 2 # 45]; repeat (1 # 36) 6]%Q).
Proof.
  split; [exact cr_trained|]. split; [exact cr_ranked|]. split; [reflexivity|]. split; [exact I|]. split; [now left|]. split; [apply ax_fair|]. split; [apply turns_complete|].
  vm_compute. reflexivity.
Qed.

(** Their probabilities and weights from the trees, when every tree keeps at least five rows: the share of the rows with the target among those
    that no tree separates from the observation on the other columns; every such row has the same part of the weight of its tree. *)
Theorem C145_weights_partial : forall d w es Ts stray classifier q imp order D Y sched sched_w X y down up t stop pi st,
  trained d w es Ts D Y -> ranked imp d order -> X <> [] -> fits (length X) y -> fits (length X) down -> fits (length X) up ->
  levels_fit classifier (length X) t -> fair (length Ts) (length X) sched -> complete (S (length Ts)) (length X) sched_w -> (0 < pi)%Q -> (pi <= 1)%Q ->
  run_local_divergent_set d es stray classifier q order D Y sched sched_w X y down up t stop pi = Gives st ->
  (forall i, i < length X -> safe stray (nth i (v_bar st) []) Ts) -> enough 5 X (v_bar st) D Ts ->
  forall i, i < length X ->
    let x := nth i X (fun _ => 0%Q) in let Sb := complement d (nth i (v_star st) []) in
    (nth i (v_ddp st) 0 == mean_over (fun T => mean_over (fun j => if agrees classifier (entry y i) (entry down i) (entry up i) (nth j Y 0) then 1 else 0)
                                                         (mates Sb T x D)) Ts)%Q /\
    forall j, j < length D ->
      (nth i (v_w st) (fun _ => 0) j ==
       mean_over (fun T => if together Sb T x (nth j D (fun _ => 0)) then 1 / Qn (length (mates Sb T x D)) else 0) Ts)%Q.
Proof.
  intros d w es Ts stray classifier q imp order D Y sched sched_w X y down up t stop pi st HT HR HX H1 H2 H3 H4 H5 H6 H7 H8 Hst Hs He i Hi.
  destruct (local_divergent d w es Ts stray classifier q imp order D Y HT HR sched sched_w X y down up t stop pi HX H1 H2 H3 H4 H5 H6 H7 H8)
    as (st' & E & L1 & L2 & L3 & L4 & R & res & E1 & E2 & E3).
  rewrite Hst in E. injection E as <-. destruct (R sched_w i H6 Hi) as (_ & _ & K & _). cbv zeta in *. rewrite <- K. rewrite <- E2.
  exact (stored_local d w es Ts stray classifier q D Y HT sched_w X y (v_bar st) HX H6 L2 down up res (v_w st) E1 E3 Hs He i Hi).
Qed.
Print Assumptions C145_weights_partial.
Lemma cr_safe Sv : safe ex_calm Sv ag_Ts.
Proof. left. split; [|split; reflexivity]. intros f [Hf _]. cbn in Hf. lia. Qed.
Example C145_weights_example :
  (forall Sv, safe ex_calm Sv ag_Ts) /\ enough 5 cr_X [[0]; []] cr_D ag_Ts /\
  map (fun T => length (mates [0] T (ex_obs 3 3 0) cr_D)) ag_Ts = [30; 18] /\ Qred ((3 # 5) * (1 # 2) + (1 # 3) * (1 # 2)) = (7 # 15)%Q.
Proof.
  split; [exact cr_safe|]. split; [|split; vm_compute; reflexivity].
  intros [|[|i]] T Hi HT; [| |cbn in Hi; lia]; destruct HT as [<-|[<-|[]]]; apply Nat.leb_le; vm_compute; reflexivity.
Qed.
(** What is missing: when all columns are needed the search writes 1 for the set, but the probability stored is that of the set, and may be below the
    level that the search was given. *)
Theorem C145_level_refuted : exists d w es Ts stray classifier q imp order D Y sched sched_w X y down up t stop pi st i,
  trained d w es Ts D Y /\ ranked imp d order /\ fits (length X) y /\ fits (length X) down /\ fits (length X) up /\
  levels_fit classifier (length X) t /\ fair (length Ts) (length X) sched /\ complete (S (length Ts)) (length X) sched_w /\ stop = false /\ (0 < pi <= 1)%Q /\
  run_local_divergent_set d es stray classifier q order D Y sched sched_w X y down up t stop pi = Gives st /\ i < length X /\
  nth i (v_star st) [] = seq 0 d /\ (nth i (v_ddp st) 0 < pi)%Q.
Proof.
  exists 2, 1, ag_es, ag_Ts, ex_calm, true, ag_q, (fun _ => 0%Q), [0; 1], cr_D, cr_Y, (ax_sched 2 2), (ax_turns 2 2), cr_X, cr_y, None, None, T_none, false, (9 # 10)%Q.
  assert (E : exists st, cr_div false (9 # 10)%Q = Gives st /\ cr_show (Gives st) = Some ([[0; 1]; [0; 1]], [[]; []], [1 # 2; 1 # 2]%Q, [repeat (1 # 36) 6; repeat (1 # 36) 6]%Q)).
  { assert (V : cr_show (cr_div false (9 # 10)%Q) = Some ([[0; 1]; [0; 1]], [[]; []], [1 # 2; 1 # 2]%Q, [repeat (1 # 36) 6; repeat (1 # 36) 6]%Q)) by (vm_compute; reflexivity).
    destruct (cr_div false (9 # 10)%Q) as [st| |]; [exists st; now split|discriminate|discriminate]. }
  destruct E as (st & E & V). exists st, 0. cbn [cr_show] in V. injection V as V1 _ V3 _.
  split; [exact cr_trained|]. split; [exact cr_ranked|]. split; [reflexivity|]. split; [exact I|]. split; [exact I|]. split; [now left|]. split; [apply ax_fair|].
  split; [apply turns_complete|]. split; [reflexivity|]. split; [split; [reflexivity|discriminate]|]. split; [exact E|]. split; [cbn; lia|]. split; [now rewrite V1|].
  destruct (v_ddp st) as [|p l]; [discriminate|]. injection V3 as V3 _. cbn [nth]. rewrite <- (Qred_correct p), V3. reflexivity.
Qed.
Print Assumptions C145_level_refuted.

(** The counterfactual rules of an observation: every rule takes, on the divergent set, the sides of a box (moved by at most 1/200) that holds the leaves
    of a training row with the target, and is the observation itself on the other columns; its probability is that of
    [compute_cdp_cond_weights], from the trees the mean share of the rows with the target among those that the rule and the observation
    lead to; it reaches the level ([pi] in classification, [acc] in regression), or it is the only rule. *)
Theorem C145_rules_sound : forall G (rand : G -> Q * G) randint exp lg d w es Ts stray classifier q imp order argsort D Y sched sched_w X y down up t stop pi0 st
  acc pi h sched_l sched_c gs outs i c p v,
  trained d w es Ts D Y -> ranked imp d order -> X <> [] -> fits (length X) y -> fits (length X) down -> fits (length X) up ->
  levels_fit classifier (length X) t -> fair (length Ts) (length X) sched -> complete (S (length Ts)) (length X) sched_w -> (0 < pi0)%Q -> (pi0 <= 1)%Q ->
  sorting argsort -> (forall n, 0 < n -> complete (S (length Ts)) n (sched_l n)) -> complete (S (length Ts)) 1 sched_c ->
  run_local_divergent_set d es stray classifier q order D Y sched sched_w X y down up t stop pi0 = Gives st ->
  run_local_counterfactual_rules rand randint exp lg d es stray classifier q argsort D Y st X y down up acc pi h sched_l sched_c gs = Gives outs ->
  i < length X -> In (c, p, v) (nth i outs []) ->
  let x := nth i X (fun _ => 0%Q) in let Sv := nth i (v_star st) [] in let g := cond_guide (complement d Sv) x c in
  exists j leaf leaf0,
    drawn classifier (entry y i) (entry down i) (entry up i) (nth i (v_w st) (fun _ => 0%Q)) Y j /\
    (safe stray (seq 0 d) Ts -> full_leaves 5 classifier (entry y i) (entry down i) (entry up i) Ts D Y -> holds_leaves d Ts D j leaf0 /\
     surest (if classifier then pi else acc) classifier (entry y i) (entry down i) (entry up i) (nth i (v_w st) (fun _ => 0%Q)) Ts D Y j) /\
    near (1 # 200) leaf leaf0 /\ (forall k, In k Sv -> c k = leaf k) /\ (forall k, ~ In k Sv -> k < d -> c k = (x k, x k)) /\
    (p, v) = conditional d es stray classifier q D Y 5 sched_c x (entry y i) (if classifier then 0%Q else entry down i) (if classifier then 0%Q else entry up i)
               (complement d Sv) c /\
    (calm stray Ts -> (forall T, In T Ts -> 5 <= length (companions g T D)) ->
     (p == target_share classifier (entry y i) (entry down i) (entry up i) Y g Ts D)%Q) /\
    (((if classifier then pi else acc) <= p)%Q \/ nth i outs [] = [(c, p, v)]).
Proof.
  intros G rand randint exp lg d w es Ts stray classifier q imp order argsort D Y sched sched_w X y down up t stop pi0 st acc pi h sched_l sched_c gs outs i c p v
    HT HR HX H1 H2 H3 H4 H5 H6 H7 H8 Hs Hl Hc Hst Hrun Hi Hin.
  destruct (local_divergent d w es Ts stray classifier q imp order D Y HT HR sched sched_w X y down up t stop pi0 HX H1 H2 H3 H4 H5 H6 H7 H8)
    as (st' & E & L1 & L2 & L3 & L4 & R & _). rewrite Hst in E. injection E as <-.
  assert (Hbar : forall i, i < length X -> nth i (v_bar st) [] = complement d (nth i (v_star st) [])) by (intros k Hk; apply (R sched_w k H6 Hk)).
  apply (local_rules_sound d w es Ts stray classifier q argsort D Y rand randint exp lg HT Hs acc pi h sched_l sched_c gs X y st Hl Hc H1 L1 L2 L4 down up H2 H3 outs i c p v Hrun Hbar Hi Hin).
Qed.
Print Assumptions C145_rules_sound.
Theorem C145_rules_apart : forall G (rand : G -> Q * G) randint exp lg d w es Ts stray classifier q argsort D Y X y down up st acc pi h sched_l sched_c gs outs i a b e f,
  trained d w es Ts D Y -> fits (length X) y -> fits (length X) down -> fits (length X) up -> complete (S (length Ts)) 1 sched_c ->
  length (v_star st) = length X -> length (v_bar st) = length X -> length (v_w st) = length X ->
  run_local_counterfactual_rules rand randint exp lg d es stray classifier q argsort D Y st X y down up acc pi h sched_l sched_c gs = Gives outs ->
  i < length X -> nth_error (nth i outs []) a = Some e -> nth_error (nth i outs []) b = Some f -> a <> b -> ~ wider d (fst (fst e)) (fst (fst f)).
Proof.
  intros G rand randint exp lg d w es Ts stray classifier q argsort D Y X y down up st acc pi h sched_l sched_c gs outs i a b e f HT H1 H2 H3 Hc L1 L2 L3 H Hi.
  apply (local_rules_antichain d w es Ts stray classifier q argsort D Y rand randint exp lg HT acc pi h sched_l sched_c gs X y st Hc H1 L1 L2 L3 down up H2 H3 outs i a b e f H Hi).
Qed.
Print Assumptions C145_rules_apart.
Lemma cr_full : full_leaves 5 true 1 0 0 ag_Ts cr_D cr_Y.
Proof.
  assert (V : forallb (fun j => forallb (fun T => 5 <=? length (filter (fun k => if list_eq_dec Bool.bool_dec (way T (nth j cr_D (fun _ => 0%Q))) (way T (nth k cr_D (fun _ => 0%Q))) then true else false)
    (seq 0 (length cr_D)))) ag_Ts) (seq 0 (length cr_D)) = true) by (vm_compute; reflexivity).
  rewrite forallb_forall in V. intros j T Hj _ HT. specialize (V j ltac:(apply in_seq; lia)). rewrite forallb_forall in V. apply Nat.leb_le. now apply V.
Qed.
Example C145_rules_example : exists st, cr_div false (2 # 5)%Q = Gives st /\
  sorting argsort_up /\ (forall n, complete 3 n (ax_turns 2 n)) /\ full_leaves 5 true 1 0 0 ag_Ts cr_D cr_Y /\ calm ex_calm ag_Ts /\
  cr_seen (cr_run st (9 # 10) (2 # 5)) =
    Some [[([(3, 3); (0, 2)], 4 # 5)]; [([(1 # 2, 1); (0, 10000000000)], 7 # 12); ([(1 # 2, 10000000000); (0, 2)], 7 # 12)]]%Q /\
  map (fun T => length (companions (cond_guide [0] (ex_obs 3 3 0) (fun k => nth k [(3, 3); (0, 2)]%Q (0, 0)%Q)) T cr_D)) ag_Ts = [30; 6].
Proof.
  assert (V : match cr_div false (2 # 5)%Q with Gives st => cr_seen (cr_run st (9 # 10) (2 # 5)) | _ => None end =
    Some [[([(3, 3); (0, 2)], 4 # 5)]; [([(1 # 2, 1); (0, 10000000000)], 7 # 12); ([(1 # 2, 10000000000); (0, 2)], 7 # 12)]]%Q) by (vm_compute; reflexivity).
  destruct (cr_div false (2 # 5)%Q) as [st| |]; [|discriminate|discriminate]. exists st. split; [reflexivity|]. split; [exact sorting_up|]. split; [intro n; apply turns_complete|].
  split; [exact cr_full|]. split; [exact bx_calm|]. split; [exact V|]. vm_compute. reflexivity.
Qed.

(** The rules are found for all observations as soon as each has a training row with its target; otherwise the call ends with an exception. *)
Theorem C145_returns : forall G (rand : G -> Q * G) randint exp lg d w es Ts stray classifier q argsort D Y X y down up st acc pi h sched_l sched_c gs,
  trained d w es Ts D Y -> fits (length X) y -> fits (length X) down -> fits (length X) up -> sorting argsort ->
  (forall n, 0 < n -> complete (S (length Ts)) n (sched_l n)) -> complete (S (length Ts)) 1 sched_c ->
  length (v_star st) = length X -> length (v_bar st) = length X -> length (v_w st) = length X ->
  (forall n g, 0 < n -> fst (randint n g) < n) -> 0 < h_batch h ->
  let run := run_local_counterfactual_rules rand randint exp lg d es stray classifier q argsort D Y st X y down up acc pi h sched_l sched_c gs in
  let target i j := agrees classifier (entry y i) (entry down i) (entry up i) (nth j Y 0%Q) in
  ((forall i, i < length X -> exists j, j < length D /\ target i j = true) -> exists outs, run = Gives outs) /\
  ((exists i, i < length X /\ forall j, j < length D -> target i j = false) -> run = Raises).
Proof.
  intros G rand randint exp lg d w es Ts stray classifier q argsort D Y X y down up st acc pi h sched_l sched_c gs HT H1 H2 H3 Hs Hl Hc L1 L2 L3 Hr Hb. cbv zeta. split; intro H.
  - exact (local_rules_gives d w es Ts stray classifier q argsort D Y rand randint exp lg HT Hs acc pi h sched_l sched_c gs X y st Hl Hc H1 L1 L2 L3 down up H2 H3 H Hr Hb).
  - exact (local_rules_raises d w es Ts stray classifier q argsort D Y rand randint exp lg HT Hs acc pi h sched_l sched_c gs X y st Hl Hc H1 L1 L2 L3 down up H2 H3 H Hr Hb).
Qed.
Print Assumptions C145_returns.
Example C145_returns_example : (forall n g, 0 < n -> fst (cr_randint n g) < n) /\ agrees true (entry cr_y 0) 0 0 (nth 1 cr_Y 0%Q) = true /\ agrees true (entry cr_y 1) 0 0 (nth 1 cr_Y 0%Q) = true /\
  forallb (fun j => negb (agrees true 2 0 0 (nth j cr_Y 0%Q))) (seq 0 36) = true /\
  match cr_div false (2 # 5)%Q with
  | Gives st => run_local_counterfactual_rules cr_rand cr_randint (fun _ => (1 # 2)%Q) (fun _ => 1%Q) 2 ag_es ex_calm true ag_q argsort_up cr_D cr_Y st cr_X (Some [1; 2]%Q) None None
      (9 # 10) (2 # 5) cr_h (ax_turns 2) (ax_turns 2 1) (fun i j => i + j) = Raises
  | _ => False
  end.
Proof. split; [exact cr_range|]. split; [reflexivity|]. split; [reflexivity|]. split; [vm_compute; reflexivity|]. vm_compute. reflexivity. Qed.

(** ** C146: the regional session *)

(** for the examples: two rules *)
Definition cr_rules : list rule := [fun k => if k =? 0 then (2, 4)%Q else ((-1)%Q, 2%Q); fun k => if k =? 0 then ((-1)%Q, 1 # 4)%Q else ((-1)%Q, 1%Q)].
Notation cr_regional classifier y du pi :=
  (run_regional_divergent_set 2 ag_es ex_calm classifier ag_q [0; 1] cr_D cr_Y (ax_sched 2 2) (ax_turns 2 2) cr_X cr_rules y du false pi).
Definition cr_du : option (list (list Q)) := Some [[1; 1]; [1; 1]]%Q.

(** The divergent sets of the rules: minimal for the probability that [compute_cdp_intv_same] gives when the columns of the set are missing, or no set
    that is searched reaches the level. *)
Theorem C146_divergent_sets_partial : forall d w es Ts stray classifier q imp order D Y sched sched_w X rules y down_up stop pi,
  trained d w es Ts D Y -> ranked imp d order -> X <> [] -> length rules = length X -> fits (length X) y -> intervals_fit (length X) down_up ->
  fair (length Ts) (length X) sched -> complete (S (length Ts)) (length X) sched_w -> (0 < pi)%Q -> (pi <= 1)%Q ->
  exists st va, run_regional_divergent_set d es stray classifier q order D Y sched sched_w X rules y down_up stop pi = Gives st /\ chosen imp d [[]] va /\
    length (v_star st) = length X /\ length (v_bar st) = length X /\ length (v_ddp st) = length X /\ length (v_w st) = length X /\
    forall order1 i, complete (S (length Ts)) (length X) order1 -> i < length X ->
      let Sv := nth i (v_star st) [] in
      let P := told d es stray classifier q order1 by_cdp_intv (mkArgs X (entries (length X) y) [] [] (S_rows []) rules) D Y 5
                 (T_matrix (intervals (length X) down_up)) i in
      NoDup Sv /\ (forall s, In s Sv -> s < d) /\ nth i (v_bar st) [] = complement d Sv /\
      divergent_set d va stop pi P Sv /\ nth i (v_ddp st) 0%Q = P (complement d Sv).
Proof.
  intros d w es Ts stray classifier q imp order D Y sched sched_w X rules y down_up stop pi HT HR HX H1 H2 H3 H4 H5 H6 H7.
  destruct (regional_divergent d w es Ts stray classifier q imp order D Y HT HR sched sched_w X rules y down_up stop pi HX H1 H2 H3 H4 H5 H6 H7)
    as (st & E & L1 & L2 & L3 & L4 & R & _).
  exists st, (search_groups [[]] (ExplModel.agnostic_space d order)). split; [exact E|]. split; [apply chosen_groups; [exact HR|apply no_coalition]|].
  split; [exact L1|]. split; [exact L2|]. split; [exact L3|]. split; [exact L4|]. exact R.
Qed.
Print Assumptions C146_divergent_sets_partial.
Definition cr_told (k : nat) (Sv : list nat) : Q :=
  Qred (told 2 ag_es ex_calm false ag_q (ax_turns 2 2) by_cdp_intv (mkArgs cr_X [0; 0]%Q [] [] (S_rows []) cr_rules) cr_D cr_Y 5 (T_matrix [[1; 1]; [1; 1]]%Q) k Sv).
Example C146_divergent_sets_example : length cr_rules = 2 /\ intervals_fit 2 cr_du /\ intervals_fit 2 None /\
  cr_show (cr_regional false None cr_du (2 # 5)%Q) =
    Some ([[0]; [0]], [[1]; [1]], [7 # 15; 1 # 3]%Q, [[0; 1 # 60; 2 # 45; 2 # 45; 1 # 60; 2 # 45]; [1 # 9; 1 # 36; 0; 0; 1 # 36; 0]]%Q) /\
  map (fun k => map (cr_told k) [[0]; [1]]) [0; 1] = [[7 # 12; 7 # 15]; [7 # 12; 1 # 3]]%Q.
Proof.
  split; [reflexivity|]. split; [split; [reflexivity|intros r [<-|[<-|[]]]; cbn; lia]|]. split; [exact I|]. split; vm_compute; reflexivity.
Qed.
(** What is missing: the probability stored beside the set is not that of the set, but that of the other columns: it can be below the level although the
    set reaches it. *)
Theorem C146_stored_refuted : exists d w es Ts stray classifier q imp order D Y sched sched_w X rules y down_up stop pi st i order1,
  trained d w es Ts D Y /\ ranked imp d order /\ length rules = length X /\ fits (length X) y /\ intervals_fit (length X) down_up /\
  fair (length Ts) (length X) sched /\ complete (S (length Ts)) (length X) sched_w /\ complete (S (length Ts)) (length X) order1 /\ (0 < pi <= 1)%Q /\
  run_regional_divergent_set d es stray classifier q order D Y sched sched_w X rules y down_up stop pi = Gives st /\ i < length X /\
  length (nth i (v_star st) []) < d /\ (nth i (v_ddp st) 0 < pi)%Q /\
  (pi < told d es stray classifier q order1 by_cdp_intv (mkArgs X (entries (length X) y) [] [] (S_rows []) rules) D Y 5
          (T_matrix (intervals (length X) down_up)) i (nth i (v_star st) []))%Q.
Proof.
  exists 2, 1, ag_es, ag_Ts, ex_calm, false, ag_q, (fun _ => 0%Q), [0; 1], cr_D, cr_Y, (ax_sched 2 2), (ax_turns 2 2), cr_X, cr_rules, None, cr_du, false, (2 # 5)%Q.
  assert (E : exists st, cr_regional false None cr_du (2 # 5)%Q = Gives st /\ cr_show (Gives st) =
    Some ([[0]; [0]], [[1]; [1]], [7 # 15; 1 # 3]%Q, [[0; 1 # 60; 2 # 45; 2 # 45; 1 # 60; 2 # 45]; [1 # 9; 1 # 36; 0; 0; 1 # 36; 0]]%Q)).
  { destruct C146_divergent_sets_example as (_ & _ & _ & V & _). destruct (cr_regional false None cr_du (2 # 5)%Q) as [st| |]; [exists st; now split|discriminate|discriminate]. }
  destruct E as (st & E & V). exists st, 1, (ax_turns 2 2). cbn [cr_show] in V. injection V as V1 _ V3 _.
  split; [exact cr_trained|]. split; [exact cr_ranked|]. split; [reflexivity|]. split; [exact I|]. split; [apply C146_divergent_sets_example|]. split; [apply ax_fair|].
  split; [apply turns_complete|]. split; [apply turns_complete|]. split; [split; [reflexivity|discriminate]|]. split; [exact E|]. split; [cbn; lia|]. rewrite V1. split; [cbn; lia|].
  split; [|apply qltb_true; vm_compute; reflexivity].
  destruct (v_ddp st) as [|p [|p' l]]; [discriminate|discriminate|]. injection V3 as _ V3 _. cbn [nth]. rewrite <- (Qred_correct p'), V3. reflexivity.
Qed.
Print Assumptions C146_stored_refuted.

(** Probabilities and weights stored, from the trees, when every tree keeps at least five rows: in regression the share of the rows inside the
    interval, in classification of the rows of another class than the target, among the rows that the rule leads to when the columns
    outside the divergent set are ignored. *)
Theorem C146_weights_partial : forall d w es Ts stray classifier q imp order D Y sched sched_w X rules y down_up stop pi st,
  trained d w es Ts D Y -> ranked imp d order -> X <> [] -> length rules = length X -> fits (length X) y -> intervals_fit (length X) down_up ->
  fair (length Ts) (length X) sched -> complete (S (length Ts)) (length X) sched_w -> (0 < pi)%Q -> (pi <= 1)%Q ->
  run_regional_divergent_set d es stray classifier q order D Y sched sched_w X rules y down_up stop pi = Gives st -> calm stray Ts ->
  (forall i T, i < length X -> In T Ts -> 5 <= length (companions (intv_guide (nth i (v_bar st) []) (nth i rules rule0)) T D)) ->
  forall i, i < length X ->
    let g := intv_guide (complement d (nth i (v_star st) [])) (nth i rules rule0) in
    (nth i (v_ddp st) 0 ==
     mean_over (fun T => mean_over (fun j => if classifier then (if Qeq_bool (entry y i) (nth j Y 0) then 0 else 1)
                                             else if agrees false 0 (bound down_up 0 i) (bound down_up 1 i) (nth j Y 0) then 1 else 0) (companions g T D)) Ts)%Q /\
    forall j, j < length D ->
      (nth i (v_w st) (fun _ => 0) j == mean_over (fun T => if follows g T (nth j D (fun _ => 0)) then 1 / Qn (length (companions g T D)) else 0) Ts)%Q.
Proof.
  intros d w es Ts stray classifier q imp order D Y sched sched_w X rules y down_up stop pi st HT HR HX H1 H2 H3 H4 H5 H6 H7 Hst Hc Hp i Hi.
  destruct (regional_divergent d w es Ts stray classifier q imp order D Y HT HR sched sched_w X rules y down_up stop pi HX H1 H2 H3 H4 H5 H6 H7)
    as (st' & E & L1 & L2 & L3 & L4 & R & res & E1 & E2 & E3).
  rewrite Hst in E. injection E as <-. destruct (R sched_w i H5 Hi) as (_ & _ & K & _). cbv zeta in *. rewrite <- K. rewrite <- E2.
  exact (stored_regional d w es Ts stray classifier q D Y HT sched_w X y (v_bar st) HX H5 L2 rules down_up res (v_w st) H1 H3 E1 E3 Hc Hp i Hi).
Qed.
Print Assumptions C146_weights_partial.
Example C146_weights_example : calm ex_calm ag_Ts /\
  cr_show (cr_regional true cr_y None (2 # 5)%Q) = Some ([[1]; [1]], [[0]; [0]], [5 # 12; 5 # 12]%Q, [[1 # 24; 1 # 24; 1 # 24; 1 # 72; 1 # 72; 1 # 72]; [1 # 24; 1 # 24; 1 # 24; 1 # 72; 1 # 72; 1 # 72]]%Q) /\
  map (fun i => map (fun T => length (companions (intv_guide [0] (nth i cr_rules rule0)) T cr_D)) ag_Ts) [0; 1] = [[36; 18]; [36; 18]].
Proof. split; [exact bx_calm|]. split; vm_compute; reflexivity. Qed.
(** The search of the regional session in classification is for sets that make the target unlikely: the level is reached although no row that the rule
    leads to has the target. *)
Theorem C146_target_refuted : exists d w es Ts stray q imp order D Y sched sched_w X rules y stop pi st i order1,
  trained d w es Ts D Y /\ ranked imp d order /\ length rules = length X /\ fits (length X) y /\
  fair (length Ts) (length X) sched /\ complete (S (length Ts)) (length X) sched_w /\ complete (S (length Ts)) (length X) order1 /\ (0 < pi <= 1)%Q /\
  run_regional_divergent_set d es stray true q order D Y sched sched_w X rules y None stop pi = Gives st /\ i < length X /\
  (pi <= told d es stray true q order1 by_cdp_intv (mkArgs X (entries (length X) y) [] [] (S_rows []) rules) D Y 5
           (T_matrix (intervals (length X) None)) i (nth i (v_star st) []))%Q /\
  forall j, j < length D -> agrees true (entry y i) 0 0 (nth j Y 0%Q) = false.
Proof.
  exists 2, 1, ag_es, ag_Ts, ex_calm, ag_q, (fun _ => 0%Q), [0; 1], cr_D, cr_Y, (ax_sched 2 2), (ax_turns 2 2), cr_X, cr_rules, (Some [2; 2]%Q), false, (9 # 10)%Q.
  assert (E : exists st, cr_regional true (Some [2; 2]%Q) None (9 # 10)%Q = Gives st /\ v_star st = [[1]; [1]]).
  { assert (V : match cr_regional true (Some [2; 2]%Q) None (9 # 10)%Q with Gives st => Some (v_star st) | _ => None end = Some [[1]; [1]]) by (vm_compute; reflexivity).
    destruct (cr_regional true (Some [2; 2]%Q) None (9 # 10)%Q) as [st| |]; [exists st; split; [reflexivity|now injection V]|discriminate|discriminate]. }
  destruct E as (st & E & V). exists st, 0, (ax_turns 2 2).
  split; [exact cr_trained|]. split; [exact cr_ranked|]. split; [reflexivity|]. split; [reflexivity|]. split; [apply ax_fair|].
  split; [apply turns_complete|]. split; [apply turns_complete|]. split; [split; [reflexivity|discriminate]|]. split; [exact E|]. split; [cbn; lia|]. rewrite V.
  split; [apply qleb_true; vm_compute; reflexivity|].
  assert (W : forallb (fun j => negb (agrees true 2 0 0 (nth j cr_Y 0%Q))) (seq 0 (length cr_D)) = true) by (vm_compute; reflexivity).
  rewrite forallb_forall in W. intros j Hj. apply Bool.negb_true_iff. apply (W j). apply in_seq. lia.
Qed.
Print Assumptions C146_target_refuted.

(** The counterfactual rules of a rule: on the divergent set the sides of a box that holds the leaves of a training row with the target, on the other
    columns the rule itself; the probability is the mean share of the rows with the target among those that the new rule leads to. *)
Theorem C146_rules_sound : forall G (rand : G -> Q * G) randint exp lg d w es Ts stray classifier q argsort D Y X rules y down_up st acc pi h sched_l sched_c gs outs i c p v,
  trained d w es Ts D Y -> length rules = length X -> fits (length X) y -> intervals_fit (length X) down_up ->
  sorting argsort -> (forall n, 0 < n -> complete (S (length Ts)) n (sched_l n)) -> complete (S (length Ts)) 1 sched_c ->
  length (v_star st) = length X -> length (v_w st) = length X ->
  run_regional_counterfactual_rules rand randint exp lg d es stray classifier q argsort D Y st X rules y down_up acc pi h sched_l sched_c gs = Gives outs ->
  i < length X -> In (c, p, v) (nth i outs []) ->
  let x := nth i X (fun _ => 0%Q) in let Sv := nth i (v_star st) [] in let dn := bound down_up 0 i in let up := bound down_up 1 i in
  exists j leaf leaf0,
    drawn classifier (entry y i) dn up (nth i (v_w st) (fun _ => 0%Q)) Y j /\
    (safe stray (seq 0 d) Ts -> full_leaves 5 classifier (entry y i) dn up Ts D Y -> holds_leaves d Ts D j leaf0 /\
     surest pi classifier (entry y i) dn up (nth i (v_w st) (fun _ => 0%Q)) Ts D Y j) /\
    near (1 # 200) leaf leaf0 /\ (forall k, In k Sv -> c k = leaf k) /\ (forall k, ~ In k Sv -> c k = nth i rules rule0 k) /\
    (p, v) = conditional d es stray classifier q D Y 5 sched_c x (entry y i) (if classifier then 0%Q else dn) (if classifier then 0%Q else up) [] c /\
    (calm stray Ts -> (forall T, In T Ts -> 5 <= length (companions (box_guide c) T D)) ->
     (p == target_share classifier (entry y i) dn up Y (box_guide c) Ts D)%Q) /\
    ((pi <= p)%Q \/ nth i outs [] = [(c, p, v)]).
Proof.
  intros G rand randint exp lg d w es Ts stray classifier q argsort D Y X rules y down_up st acc pi h sched_l sched_c gs outs i c p v HT H1 H2 H3 Hs Hl Hc L1 L3 H Hi Hin.
  exact (regional_rules_sound d w es Ts stray classifier q argsort D Y rand randint exp lg HT Hs acc pi h sched_l sched_c gs X y st Hl Hc H2 L1 L3 rules down_up H1 H3 outs i c p v H Hi Hin).
Qed.
Print Assumptions C146_rules_sound.
Theorem C146_rules_apart : forall G (rand : G -> Q * G) randint exp lg d w es Ts stray classifier q argsort D Y X rules y down_up st acc pi h sched_l sched_c gs outs i a b e f,
  trained d w es Ts D Y -> length rules = length X -> fits (length X) y -> intervals_fit (length X) down_up -> complete (S (length Ts)) 1 sched_c ->
  length (v_star st) = length X -> length (v_w st) = length X ->
  run_regional_counterfactual_rules rand randint exp lg d es stray classifier q argsort D Y st X rules y down_up acc pi h sched_l sched_c gs = Gives outs ->
  i < length X -> nth_error (nth i outs []) a = Some e -> nth_error (nth i outs []) b = Some f -> a <> b -> ~ wider d (fst (fst e)) (fst (fst f)).
Proof.
  intros G rand randint exp lg d w es Ts stray classifier q argsort D Y X rules y down_up st acc pi h sched_l sched_c gs outs i a b e f HT H1 H2 H3 Hc L1 L3 H Hi.
  exact (regional_rules_antichain d w es Ts stray classifier q argsort D Y rand randint exp lg HT acc pi h sched_l sched_c gs X y st Hc H2 L1 L3 rules down_up H1 H3 outs i a b e f H Hi).
Qed.
Print Assumptions C146_rules_apart.
Definition cr_run_regional (st : divergent) (y : option (list Q)) : ending (list (list (rule * Q * (nat -> Q)))) :=
  run_regional_counterfactual_rules cr_rand cr_randint (fun _ => (1 # 2)%Q) (fun _ => 1%Q) 2 ag_es ex_calm true ag_q argsort_up cr_D cr_Y st cr_X cr_rules y None
    (9 # 10) (2 # 5) cr_h (ax_turns 2) (ax_turns 2 1) (fun i j => i + j).
Example C146_rules_example : exists st, cr_regional true cr_y None (2 # 5)%Q = Gives st /\ v_star st = [[1]; [1]] /\ length (v_w st) = 2 /\
  cr_seen (cr_run_regional st cr_y) = Some [[([(2, 4); (0, 2)], 4 # 5)]; [([(-1, 1 # 4); (0, 10000000000)], 1 # 3)]]%Q /\
  map (fun T => length (companions (box_guide (fun k => nth k [(2, 4); (0, 2)]%Q (0, 0)%Q)) T cr_D)) ag_Ts = [30; 6].
Proof.
  assert (V : match cr_regional true cr_y None (2 # 5)%Q with Gives st => Some (v_star st, length (v_w st), cr_seen (cr_run_regional st cr_y)) | _ => None end =
    Some ([[1]; [1]], 2, Some [[([(2, 4); (0, 2)], 4 # 5)]; [([(-1, 1 # 4); (0, 10000000000)], 1 # 3)]]%Q)) by (vm_compute; reflexivity).
  destruct (cr_regional true cr_y None (2 # 5)%Q) as [st| |]; [|discriminate|discriminate]. exists st. injection V as V1 V2 V3.
  split; [reflexivity|]. split; [exact V1|]. split; [exact V2|]. split; [exact V3|]. vm_compute. reflexivity.
Qed.

(** They are found as soon as every rule has a training row with its target; otherwise the call ends with an exception. *)
Theorem C146_returns : forall G (rand : G -> Q * G) randint exp lg d w es Ts stray classifier q argsort D Y X rules y down_up st acc pi h sched_l sched_c gs,
  trained d w es Ts D Y -> length rules = length X -> fits (length X) y -> intervals_fit (length X) down_up -> sorting argsort ->
  (forall n, 0 < n -> complete (S (length Ts)) n (sched_l n)) -> complete (S (length Ts)) 1 sched_c ->
  length (v_star st) = length X -> length (v_w st) = length X ->
  (forall n g, 0 < n -> fst (randint n g) < n) -> 0 < h_batch h ->
  let run := run_regional_counterfactual_rules rand randint exp lg d es stray classifier q argsort D Y st X rules y down_up acc pi h sched_l sched_c gs in
  let target i j := agrees classifier (entry y i) (bound down_up 0 i) (bound down_up 1 i) (nth j Y 0%Q) in
  ((forall i, i < length X -> exists j, j < length D /\ target i j = true) -> exists outs, run = Gives outs) /\
  ((exists i, i < length X /\ forall j, j < length D -> target i j = false) -> run = Raises).
Proof.
  intros G rand randint exp lg d w es Ts stray classifier q argsort D Y X rules y down_up st acc pi h sched_l sched_c gs HT H1 H2 H3 Hs Hl Hc L1 L3 Hr Hb. cbv zeta. split; intro H.
  - exact (regional_rules_gives d w es Ts stray classifier q argsort D Y rand randint exp lg HT Hs acc pi h sched_l sched_c gs X y st Hl Hc H2 L1 L3 rules down_up H1 H3 H Hr Hb).
  - exact (regional_rules_raises d w es Ts stray classifier q argsort D Y rand randint exp lg HT Hs acc pi h sched_l sched_c gs X y st Hl Hc H2 L1 L3 rules down_up H1 H3 H Hr Hb).
Qed.
Print Assumptions C146_returns.
Example C146_returns_example : agrees true (entry cr_y 0) (bound None 0 0) (bound None 1 0) (nth 1 cr_Y 0%Q) = true /\
  match cr_regional true cr_y None (2 # 5)%Q with Gives st => cr_run_regional st (Some [2; 1]%Q) = Raises | _ => False end.
Proof. split; [reflexivity|]. vm_compute. reflexivity. Qed.

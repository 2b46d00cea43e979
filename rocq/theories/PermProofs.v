(** Proofs about PermModel. *)
From Verif Require Import Base GameSpec GameProofs ShapSpec ShapProofs ShapModel SearchModel SearchProofs SwingModel SwingProofs MvnModel MvnSpec MvnProofs PermModel PermSpec.
From Coq Require Import ZArith.
Local Open Scope nat_scope.

(** ** Orders *)
Lemma picks_map {A B} (f : A -> B) l : picks (map f l) = map (fun ar => (f (fst ar), map f (snd ar))) (picks l).
Proof.
  induction l as [|a l IH]; [reflexivity|]. cbn [map picks]. rewrite IH, !map_map. cbn [fst snd map]. reflexivity.
Qed.
Lemma perms_map {A B} (f : A -> B) n l : perms n (map f l) = map (map f) (perms n l).
Proof.
  revert l. induction n as [|n IH]; intro l; [reflexivity|]. cbn [perms]. rewrite picks_map.
  induction (picks l) as [|[a r] k IHk]; [reflexivity|]. cbn [map flat_map fst snd]. rewrite map_app, IHk, IH, !map_map. reflexivity.
Qed.
Lemma picks_remove {A} (eqd : forall a b : A, {a = b} + {a <> b}) l : NoDup l -> picks l = map (fun a => (a, remove eqd a l)) l.
Proof.
  induction 1 as [|a l Hn Hd IH]; [reflexivity|]. cbn [picks map]. f_equal.
  - f_equal. cbn [remove]. destruct (eqd a a) as [_|C]; [|congruence]. symmetry. now apply notin_remove.
  - rewrite IH, map_map. apply map_ext_in. intros b Hb. cbn [fst snd remove]. destruct (eqd b a) as [->|_]; [contradiction|reflexivity].
Qed.
Lemma perms_orders {A} (eqd : forall a b : A, {a = b} + {a <> b}) n l : NoDup l -> perms n l = orders eqd n l.
Proof.
  revert l. induction n as [|n IH]; intros l Hd; [reflexivity|]. cbn [perms orders]. rewrite (picks_remove eqd l Hd).
  rewrite flat_map_concat_map, map_map, <- flat_map_concat_map. cbn [fst snd].
  rewrite !flat_map_concat_map. f_equal. apply map_ext. intro a. rewrite IH; [reflexivity|]. now apply remove_NoDup.
Qed.

(** ** Sums *)
Lemma sum_opt_acc l a : (forall o, In o l -> o <> None) ->
  exists q, fold_left (fun acc o => match acc, o with Some a, Some b => Some (a + b)%Q | _, _ => None end) l (Some a) = Some q /\
    (q == a + sumf the l)%Q.
Proof.
  revert a. induction l as [|o l IH]; intros a H; cbn [fold_left].
  - exists a. split; [reflexivity|]. cbn. lra.
  - destruct o as [b|]; [|exfalso; apply (H None); [now left|reflexivity]].
    destruct (IH (a + b)%Q) as [q [E Hq]]; [intros o Ho; apply H; now right|]. exists q. split; [exact E|]. cbn [sumf the]. lra.
Qed.
Lemma sum_opt_some l : (forall o, In o l -> o <> None) -> exists q, sum_opt l = Some q /\ (q == sumf the l)%Q.
Proof. intro H. destruct (sum_opt_acc l 0%Q H) as [q [E Hq]]. exists q. split; [exact E|lra]. Qed.
Lemma sum_opt_none l : In None l -> sum_opt l = None.
Proof.
  unfold sum_opt. generalize (Some 0%Q). induction l as [|o l IH]; intros a H; [contradiction|]. cbn [fold_left].
  destruct H as [->|H].
  - assert (E : forall l, fold_left (fun acc o => match acc, o with Some a, Some b => Some (a + b)%Q | _, _ => None end) l (@None Q) = None).
    { clear. induction l as [|o l IH]; [reflexivity|]. exact IH. }
    destruct a; apply E.
  - apply IH. exact H.
Qed.

(** ** The number of players *)
Lemma fold_sub C (z : Z) : fold_left (fun m (c : list nat) => m - Z.of_nat (length c))%Z C z = (z - Z.of_nat (length (concat C)))%Z.
Proof. revert z. induction C as [|c C IH]; intro z; cbn [fold_left concat]; [cbn; lia|]. rewrite IH, app_length. lia. Qed.
Lemma perm_m_length C d : coalitions_ok C d -> perm_m C d = Z.of_nat (length (perm_ids C d)).
Proof.
  intros HC. unfold perm_m, perm_ids, py_items. destruct (has_coal C) eqn:EC.
  - rewrite fold_sub, app_length, !map_length.
    destruct HC as [H1 [H2 _]].
    assert (E : Permutation (seq 0 d) (concat C ++ filter (fun i => negb (memb i (concat C))) (seq 0 d))).
    { apply NoDup_Permutation.
      - apply seq_NoDup.
      - apply NoDup_app_intro; trivial.
        + apply NoDup_filter, seq_NoDup.
        + intros a Ha Hf. apply filter_In in Hf. destruct Hf as [_ Hf].
          apply negb_true_iff, memb_false in Hf. contradiction.
      - intro a. rewrite in_app_iff, filter_In, in_seq, negb_true_iff, memb_false. split.
        + intro Ha. destruct (in_dec Nat.eq_dec a (concat C)); [now left|right]. now split.
        + intros [Ha|[Ha _]]; [|trivial]. apply H2 in Ha. lia. }
    apply Permutation_length in E. rewrite app_length, seq_length in E. lia.
  - now rewrite map_length, seq_length.
Qed.
Lemma sized_cases C d : coalitions_ok C d -> sized C -> has_coal C = false \/ wide C.
Proof.
  intros [_ [_ HC]] [Hne Hs]. destruct Hs as [Hs|Hs].
  - left. destruct C as [|[|a c] C]; [reflexivity|reflexivity|discriminate].
  - right. intros c Hc. apply Hs in Hc. lia.
Qed.

Lemma players_concat C d P T : coalitions_ok C d -> is_players C d P -> NoDup T -> incl T P ->
  NoDup (concat T) /\ (forall k, In k (concat T) -> k < d).
Proof.
  intros HC HP. induction T as [|g T IH]; intros Hd Hi; cbn [concat]; [split; [constructor|intros k []]|].
  inversion Hd as [|? ? Hn Hd']; subst.
  assert (HgP : In g P) by (apply Hi; now left).
  destruct IH as [IH1 IH2]; [trivial|intros a Ha; apply Hi; now right|]. split.
  - apply NoDup_app_intro; [now apply (player_NoDup C d P)|trivial|].
    intros a Ha Hc. apply in_concat in Hc. destruct Hc as [h [Hh Hah]].
    assert (g = h) by (eapply (player_unique C d P); eauto; apply Hi; now right). subst h. contradiction.
  - intros k Hk. apply in_app_or in Hk. destruct Hk as [Hk|Hk]; [|now apply IH2]. now apply (player_bound C d P g).
Qed.
Lemma players_all C d P : coalitions_ok C d -> is_players C d P -> Permutation (concat P) (seq 0 d).
Proof.
  intros HC HP. destruct (players_concat C d P P HC HP (proj1 HP) (incl_refl _)) as [H1 H2].
  apply NoDup_Permutation; [trivial|apply seq_NoDup|]. intro k. rewrite in_seq. split.
  - intro Hk. apply H2 in Hk. lia.
  - intro Hk. destruct (player_exists C d P k HP ltac:(lia)) as [g [Hg Hkg]]. apply in_concat. now exists g.
Qed.

(** ** One order of arrival *)
Lemma walk (F : list (list nat) -> Q) (g : list nat) (j : nat) o : forall pre, NoDup o -> In g o ->
  (forall h, In h o -> (memb j h = true <-> h = g)) ->
  (sumf (fun i => if memb j (nth i o []) then F (pre ++ firstn (i + 1) o) - F (pre ++ firstn i o) else 0) (seq 0 (length o)) ==
   F (pre ++ before gdec g o ++ [g]) - F (pre ++ before gdec g o))%Q.
Proof.
  induction o as [|h o IH]; intros pre Hd Hg Hj; [contradiction|].
  inversion Hd as [|? ? Hn Hd']; subst. cbn [length seq sumf nth before].
  rewrite <- seq_shift, sumf_map. cbn [Nat.add firstn nth].
  destruct (gdec h g) as [->|Hne].
  - assert (E : memb j g = true) by (apply Hj; [now left|reflexivity]). rewrite E.
    assert (E0 : (sumf (fun i => if memb j (nth i o []) then F (pre ++ g :: firstn (i + 1) o) - F (pre ++ g :: firstn i o) else 0) (seq 0 (length o)) == 0)%Q).
    { apply sumf_zero. intros i Hi. apply in_seq in Hi. destruct (memb j (nth i o [])) eqn:Ej; [|reflexivity].
      exfalso. assert (Hin : In (nth i o []) o) by (apply nth_In; lia). apply (Hj _ (or_intror Hin)) in Ej. rewrite Ej in Hin. contradiction. }
    rewrite E0. cbn [app]. lra.
  - destruct Hg as [Hg|Hg]; [congruence|].
    assert (E : memb j h = false). { destruct (memb j h) eqn:E; [|reflexivity]. apply (Hj h (or_introl eq_refl)) in E. congruence. }
    rewrite E. assert (Hj' : forall h, In h o -> (memb j h = true <-> h = g)) by (intros k Hk; apply Hj; now right).
    pose proof (IH (pre ++ [h]) Hd' Hg Hj') as G.
    assert (E1 : (sumf (fun i => if memb j (nth i o []) then F (pre ++ h :: firstn (i + 1) o) - F (pre ++ h :: firstn i o) else 0) (seq 0 (length o)) ==
      sumf (fun i => if memb j (nth i o []) then F ((pre ++ [h]) ++ firstn (i + 1) o) - F ((pre ++ [h]) ++ firstn i o) else 0) (seq 0 (length o)))%Q).
    { apply sumf_ext. intros i _. rewrite <- !app_assoc. reflexivity. }
    rewrite E1, G. rewrite <- !app_assoc. cbn [app]. lra.
Qed.

Lemma perm_shap_eq v C d j : C <> [] -> perm_shap v C d j =
  match sum_opt (flat_map (fun p => map (fun i => perm_term v d p i j) (seq 0 (Z.to_nat (perm_m C d)))) (perms (length (perm_ids C d)) (perm_ids C d))) with
  | Some q => if (perm_m C d <? 0)%Z then None else Some (q / Qn (fact (Z.to_nat (perm_m C d))))%Q
  | None => None
  end.
Proof. intro H. destruct C; [congruence|reflexivity]. Qed.
Section Total.
Variable v : list nat -> option Q.
Variables (C : list group) (d : nat).
Hypothesis HC : coalitions_ok C d.
Hypothesis HS : sized C.
Hypothesis HV : set_function d v.
Let ids := perm_ids C d.
Let P0 := map snd ids.
Lemma P0_players : is_players C d P0.
Proof. apply items_players; [exact HC|]. eapply sized_cases; eassumption. Qed.

Definition canon (S : list nat) : Q := the (v (filter (fun k => memb k S) (seq 0 d))).
Lemma canon_perm S S' : Permutation S S' -> canon S = canon S'.
Proof using.
  clear. intro HP. unfold canon. do 2 f_equal. apply filter_ext. intro k. destruct (memb k S) eqn:E.
  - apply memb_true in E. symmetry. apply memb_true. now apply (Permutation_in k HP).
  - apply memb_false in E. symmetry. apply memb_false. intro K. apply E. now apply (Permutation_in k (Permutation_sym HP)).
Qed.
Lemma canon_eq S : NoDup S -> (forall k, In k S -> k < d) -> exists q, v S = Some q /\ (q == canon S)%Q.
Proof using HV.
  intros Hd Hr. destruct (HV S (filter (fun k => memb k S) (seq 0 d)) Hd Hr) as [q [q' [E [E' Eq]]]].
  - apply NoDup_Permutation; [trivial|apply NoDup_filter, seq_NoDup|]. intro k. rewrite filter_In, in_seq, memb_true. split.
    + intro Hk. split; [specialize (Hr k Hk); lia|trivial].
    + tauto.
  - exists q. split; [exact E|]. unfold canon. rewrite E'. exact Eq.
Qed.

Lemma ids_perm p : Permutation ids p -> (forall i, In i p -> item_ok i) /\ is_players C d (map snd p).
Proof.
  intro Hp. split.
  - intros i Hi. eapply (items_ok C d i); [eapply sized_cases; eassumption|]. exact (Permutation_in i (Permutation_sym Hp) Hi).
  - destruct P0_players as [H1 H2]. split.
    + eapply Permutation_NoDup; [apply Permutation_map; exact Hp|exact H1].
    + intro g. rewrite <- H2. split; apply Permutation_in; [symmetry|]; apply Permutation_map; exact Hp.
Qed.
Lemma firstn_incl {A} (l : list A) n : incl (firstn n l) l.
Proof using. clear. intros a Ha. rewrite <- (firstn_skipn n l). apply in_or_app. now left. Qed.
Lemma firstn_NoDup {A} (l : list A) n : NoDup l -> NoDup (firstn n l).
Proof using. clear. intro H. rewrite <- (firstn_skipn n l) in H. now apply NoDup_app_l in H. Qed.

Lemma term_value p i j : Permutation ids p -> i < length p ->
  exists q, perm_term v d p i j = Some q /\
    (q == if memb j (nth i (map snd p) []) then canon (concat (firstn (i + 1) (map snd p))) - canon (concat (firstn i (map snd p))) else 0)%Q.
Proof.
  intros Hp Hi. destruct (ids_perm p Hp) as [Hok HP]. unfold perm_term.
  destruct (nth_error p i) as [it|] eqn:Eit; [|apply nth_error_None in Eit; lia].
  assert (Hc : forall n, chain_l (firstn n p) = Some (concat (firstn n (map snd p)))).
  { intro n. rewrite chain_ok; [now rewrite firstn_map|]. intros k Hk. apply Hok. now apply (firstn_incl p n). }
  rewrite !Hc.
  assert (Hv : forall n, exists q, v (concat (firstn n (map snd p))) = Some q /\ (q == canon (concat (firstn n (map snd p))))%Q).
  { intro n. destruct (players_concat C d (map snd p) (firstn n (map snd p)) HC HP) as [A1 A2]; [apply firstn_NoDup, (proj1 HP)|apply firstn_incl|].
    now apply canon_eq. }
  destruct (Hv (i + 1)) as [a [Ea Ha]], (Hv i) as [b [Eb Hb]]. rewrite Ea, Eb.
  assert (En : nth i (map snd p) [] = snd it).
  { apply nth_error_nth. rewrite nth_error_map, Eit. reflexivity. }
  rewrite En.
  assert (Ef : forallb (fun k => k <? d) (snd it) = true).
  { apply forallb_forall. intros k Hk. apply Nat.ltb_lt. eapply (player_bound C d (map snd p) (snd it)); try eassumption.
    apply in_map. now apply nth_error_In in Eit. }
  rewrite Ef. eexists. split; [reflexivity|]. destruct (memb j (snd it)); [rewrite Ha, Hb|]; reflexivity.
Qed.

Lemma ids_NoDup : NoDup ids.
Proof. eapply NoDup_map_inv. exact (proj1 P0_players). Qed.
Definition item_dec (a b : item) : {a = b} + {a <> b}.
Proof using. clear. decide equality; [apply gdec|apply Bool.bool_dec]. Defined.
Lemma perms_perm p : In p (perms (length ids) ids) -> Permutation ids p.
Proof. rewrite (perms_orders item_dec) by exact ids_NoDup. apply orders_perm; [exact ids_NoDup|reflexivity]. Qed.

Theorem perm_shapley P j g : is_players C d P -> In g P -> In j g ->
  exists r, perm_shap v C d j = Some r /\ (r == shapley gdec P (fun T => canon (concat T)) g)%Q.
Proof.
  intros HP Hg Hj. rewrite (perm_shap_eq v C d j (proj1 HS)). fold ids. rewrite (perm_m_length C d HC). fold ids. rewrite Nat2Z.id.
  destruct (Z.ltb_spec (Z.of_nat (length ids)) 0) as [K|_]; [lia|].
  assert (Hlen : forall p, In p (perms (length ids) ids) -> length p = length ids).
  { intros p Hp. apply perms_perm in Hp. symmetry. now apply Permutation_length. }
  destruct (sum_opt_some (flat_map (fun p => map (fun i => perm_term v d p i j) (seq 0 (length ids))) (perms (length ids) ids))) as [q [E Hq]].
  { intros o Ho K. subst o. apply in_flat_map in Ho. destruct Ho as [p [Hp Ho]]. apply in_map_iff in Ho. destruct Ho as [i [Ho Hi]].
    apply in_seq in Hi. destruct (term_value p i j) as [q [Eq _]]; [now apply perms_perm|rewrite Hlen by exact Hp; lia|]. congruence. }
  rewrite E. eexists. split; [reflexivity|]. rewrite Hq. clear q E Hq.
  set (w := fun T : list (list nat) => canon (concat T)).
  assert (Hw : is_game w). { intros T U HTU. unfold w. rewrite (canon_perm (concat T) (concat U)); [reflexivity|].
    clear -HTU. induction HTU; cbn [concat]; [constructor|now apply Permutation_app_head| |etransitivity; eassumption].
    rewrite !app_assoc. apply Permutation_app_tail, Permutation_app_comm. }
  transitivity (shapley gdec P0 w g); [|symmetry; apply (shapley_perm gdec P P0 w g); [eapply players_perm; [exact HP|exact P0_players]|exact Hw]].
  assert (Hg0 : In g P0) by (apply (Permutation_in g (players_perm C d P P0 HP P0_players)); exact Hg).
  rewrite <- (shapley_is_order_average gdec P0 w g) by (try exact Hw; try exact Hg0; exact (proj1 P0_players)).
  unfold shapley_orders. rewrite (orders_count gdec (length P0) P0) by (try reflexivity; exact (proj1 P0_players)).
  assert (El : length P0 = length ids) by (apply map_length). rewrite El. apply Qmult_comp; [|reflexivity].
  rewrite <- (perms_orders gdec) by exact (proj1 P0_players). unfold P0. rewrite perms_map, sumf_map, sumf_flat_map.
  apply sumf_ext. intros p Hp. rewrite sumf_map. pose proof (perms_perm p Hp) as Hpp. destruct (ids_perm p Hpp) as [_ HPp].
  rewrite (sumf_ext (fun i => the (perm_term v d p i j)) (fun i => if memb j (nth i (map snd p) []) then w ([] ++ firstn (i + 1) (map snd p)) - w ([] ++ firstn i (map snd p)) else 0)%Q).
  - rewrite <- (Hlen p Hp), <- (map_length snd p). rewrite (walk w g j (map snd p) []).
    + cbn [app]. rewrite (Hw (before gdec g (map snd p) ++ [g]) (g :: before gdec g (map snd p))); [reflexivity|].
      symmetry. apply Permutation_cons_append.
    + exact (proj1 HPp).
    + apply (Permutation_in g (players_perm C d P (map snd p) HP HPp)). exact Hg.
    + intros h Hh. rewrite memb_true. split.
      * intro Hjh. eapply (player_unique C d (map snd p) h g j); try eassumption.
        apply (Permutation_in g (players_perm C d P (map snd p) HP HPp)). exact Hg.
      * intros ->. exact Hj.
  - intros i Hi. apply in_seq in Hi. destruct (term_value p i j Hpp) as [q [Eq Hq]]; [rewrite Hlen by exact Hp; lia|].
    rewrite Eq. cbn [the app]. exact Hq.
Qed.
Lemma shapley_the P g : is_players C d P -> In g P ->
  (shapley gdec P (fun T => the (v (concat T))) g == shapley gdec P (fun T => canon (concat T)) g)%Q.
Proof.
  intros HP Hg. unfold shapley. apply sumf_ext. intros T HT.
  assert (Ht : NoDup T) by (eapply subs_NoDup; [|exact HT]; apply remove_NoDup, (proj1 HP)).
  assert (Hi : forall a, In a T -> In a P /\ a <> g). { intros a Ha. apply subs_incl in HT. apply HT, in_remove in Ha. exact Ha. }
  assert (HN : NoDup (g :: T)) by (constructor; [intro K; apply Hi in K; tauto|exact Ht]).
  destruct (players_concat C d P (g :: T) HC HP HN) as [A1 A2]; [intros a [<-|Ha]; [exact Hg|now apply Hi]|].
  destruct (players_concat C d P T HC HP Ht) as [B1 B2]; [intros a Ha; now apply Hi|].
  destruct (canon_eq _ A1 A2) as [q [E Hq]], (canon_eq _ B1 B2) as [q' [E' Hq']]. rewrite E, E'. cbn [the]. rewrite Hq, Hq'. reflexivity.
Qed.
Theorem perm_is_shapley P j g : is_players C d P -> In g P -> In j g ->
  exists r, perm_shap v C d j = Some r /\ (r == shapley gdec P (fun T => the (v (concat T))) g)%Q.
Proof.
  intros HP Hg Hj. destruct (perm_shapley P j g HP Hg Hj) as [r [E Hr]]. exists r. split; [exact E|].
  rewrite (shapley_the P g HP Hg). exact Hr.
Qed.
(** The sum, one entry per group. *)
Theorem perm_efficiency P rep : is_players C d P -> (forall g, In g P -> In (rep g) g) ->
  (sumf (fun g => the (perm_shap v C d (rep g))) P == the (v (seq 0 d)) - the (v []))%Q.
Proof.
  intros HP Hrep. set (w := fun T : list (list nat) => canon (concat T)).
  assert (Hw : is_game w). { intros T U HTU. unfold w. rewrite (canon_perm (concat T) (concat U)); [reflexivity|].
    clear -HTU. induction HTU; cbn [concat]; [constructor|now apply Permutation_app_head| |etransitivity; eassumption].
    rewrite !app_assoc. apply Permutation_app_tail, Permutation_app_comm. }
  rewrite (sumf_ext _ (shapley gdec P w)).
  - rewrite (shapley_efficiency gdec P w (proj1 HP) Hw). unfold w. cbn [concat].
    rewrite (canon_perm (concat P) (seq 0 d)) by (eapply players_all; eassumption).
    destruct (canon_eq (seq 0 d) (seq_NoDup d 0)) as [a [Ea Ha]]; [intros k Hk; apply in_seq in Hk; lia|].
    destruct (canon_eq [] (NoDup_nil _)) as [b [Eb Hb]]; [intros k []|]. rewrite Ea, Eb. cbn [the]. rewrite Ha, Hb. reflexivity.
  - intros g Hg. destruct (perm_shapley P (rep g) g HP Hg (Hrep g Hg)) as [r [E Hr]]. rewrite E. exact Hr.
Qed.
End Total.

(** ** Groups of one variable *)
Lemma chain_bad T c : In (true, c) T -> length c <= 1 -> chain_l T = None.
Proof.
  induction T as [|[b g] T IH]; intros Hi Hl; [contradiction|]. cbn [chain_l]. destruct Hi as [E|Hi].
  - injection E as -> ->. cbn [andb]. destruct (Nat.leb_spec (length c) 1); [reflexivity|lia].
  - rewrite (IH Hi Hl). destruct (b && (length g <=? 1)); reflexivity.
Qed.
Lemma picks_self {A} (a : A) l : In (a, l) (picks (a :: l)).
Proof. cbn. now left. Qed.
Lemma perms_self {A} (l : list A) : In l (perms (length l) l).
Proof.
  induction l as [|a l IH]; [now left|]. cbn [length perms]. apply in_flat_map. exists (a, l). split; [apply picks_self|].
  cbn [fst snd]. now apply in_map.
Qed.
Theorem perm_single v C d j c : coalitions_ok C d -> C <> [] -> concat C <> [] -> In c C -> length c <= 1 -> perm_shap v C d j = None.
Proof.
  intros HC Hne Hcc Hc Hl. unfold perm_shap. destruct C as [|c0 C0] eqn:EC; [congruence|]. rewrite <- EC in *. cbv zeta.
  rewrite (perm_m_length C d HC), Nat2Z.id. set (ids := perm_ids C d).
  assert (Hb : In (true, c) ids).
  { unfold ids, perm_ids, py_items. assert (E : has_coal C = true).
    { destruct HC as [_ [_ HC]]. rewrite EC in *. cbn in *. destruct c0; [contradiction|reflexivity]. }
    rewrite E. apply in_or_app. right. apply in_map_iff. now exists c. }
  rewrite sum_opt_none; [reflexivity|]. apply in_flat_map. exists ids. split; [apply perms_self|].
  apply in_map_iff. assert (Hlen : 0 < length ids) by (destruct ids; [contradiction|cbn; lia]).
  exists (length ids - 1). split; [|apply in_seq; lia]. unfold perm_term.
  destruct (nth_error ids (length ids - 1)); [|reflexivity].
  assert (E : firstn (length ids - 1 + 1) ids = ids) by (replace (length ids - 1 + 1) with (length ids) by lia; apply firstn_all).
  rewrite E, (chain_bad ids c Hb Hl). reflexivity.
Qed.
Theorem perm_raises v C d : coalitions_ok C d -> set_function d v -> 0 < d ->
  ((forall j, perm_shap v C d j = None) <-> ~ sized C).
Proof.
  intros HC HV Hd. split.
  - intros H HS. destruct (player_exists C d (map snd (perm_ids C d)) 0) as [g [Hg Hj]]; [now apply P0_players|exact Hd|].
    destruct (perm_is_shapley v C d HC HS HV (map snd (perm_ids C d)) 0 g) as [r [E _]]; [now apply P0_players|exact Hg|exact Hj|].
    rewrite H in E. discriminate.
  - intros Hn j. destruct C as [|c0 C0] eqn:EC; [reflexivity|]. rewrite <- EC in *.
    assert (Hne : C <> []) by (rewrite EC; discriminate).
    destruct (list_eq_dec Nat.eq_dec (concat C) []) as [Hcc|Hcc]; [exfalso; apply Hn; split; [trivial|now left]|].
    destruct (forallb (fun c => 2 <=? length c) C) eqn:Ef.
    + exfalso. apply Hn. split; [trivial|right]. intros c Hc. rewrite forallb_forall in Ef. apply Nat.leb_le. now apply Ef.
    + assert (Hx : exists c, In c C /\ length c <= 1).
      { clear -Ef. induction C as [|c C IH]; [discriminate|]. cbn [forallb] in Ef. destruct (2 <=? length c) eqn:E.
        - destruct (IH Ef) as [c' [H1 H2]]. exists c'. split; [now right|trivial].
        - exists c. split; [now left|]. apply Nat.leb_gt in E. lia. }
      destruct Hx as [c [H1 H2]]. now apply (perm_single v C d j c).
Qed.

(** ** Linear models *)
Lemma mar_model_spec d mean coefs x Sv : NoDup Sv -> (forall k, In k Sv -> k < d) ->
  (mar_exp_model d mean coefs x Sv == sumf (fun k => coefs k * (if memb k Sv then x k else mean k)) (seq 0 d))%Q.
Proof.
  intros Hnd Hr. unfold mar_exp_model. cbv zeta. fold (rest d Sv).
  etransitivity; [exact (filled_sum d Sv coefs x (vsub mean (rest d Sv)) Hnd Hr)|].
  rewrite (split_sum d Sv (fun k => coefs k * (if memb k Sv then x k else mean k))%Q Hnd Hr). apply Qplus_comp.
  - apply sumf_ext. intros k Hk. apply memb_true in Hk. rewrite Hk. reflexivity.
  - rewrite (sum_positions _ (rest d Sv)). apply Sm_ext. intros i Hi. unfold vsub.
    destruct (memb (nth i (rest d Sv) 0) Sv) eqn:E; [|reflexivity]. exfalso. apply memb_true in E.
    assert (K : In (nth i (rest d Sv) 0) (rest d Sv)) by (apply nth_In; exact Hi). apply rest_In in K. tauto.
Qed.
Lemma memb_perm k S S' : Permutation S S' -> memb k S = memb k S'.
Proof.
  intro HP. destruct (memb k S) eqn:E.
  - apply memb_true in E. symmetry. apply memb_true. now apply (Permutation_in k HP).
  - apply memb_false in E. symmetry. apply memb_false. intro K. apply E. now apply (Permutation_in k (Permutation_sym HP)).
Qed.
Lemma mar_set_function d mean coefs x : set_function d (fun S => Some (mar_exp_model d mean coefs x S)).
Proof.
  intros S S' Hd Hr HP. eexists _, _. split; [reflexivity|]. split; [reflexivity|].
  rewrite (mar_model_spec d mean coefs x S Hd Hr), (mar_model_spec d mean coefs x S').
  - apply sumf_ext. intros k _. now rewrite (memb_perm k S S' HP).
  - now apply (Permutation_NoDup HP).
  - intros k Hk. apply Hr. now apply (Permutation_in k (Permutation_sym HP)).
Qed.
(** ** Additive games *)
Lemma shapley_const {A} (eqd : forall a b : A, {a = b} + {a <> b}) (P : list A) (v : list A -> Q) g c : NoDup P -> In g P ->
  (forall T, NoDup (g :: T) -> incl T P -> (v (g :: T) - v T == c)%Q) -> (shapley eqd P v g == c)%Q.
Proof.
  intros Hd Hg H. set (w := fun T : list A => if in_dec eqd g T then c else 0%Q).
  assert (Hw : is_game w).
  { intros T U HP. unfold w. destruct (in_dec eqd g T) as [a|a], (in_dec eqd g U) as [b|b]; try reflexivity; exfalso.
    - apply b. now apply (Permutation_in g HP).
    - apply a. now apply (Permutation_in g (Permutation_sym HP)). }
  assert (Hdiff : forall T, ~ In g T -> (w (g :: T) - w T == c)%Q).
  { intros T HT. unfold w. destruct (in_dec eqd g (g :: T)) as [_|K]; [|exfalso; apply K; now left].
    destruct (in_dec eqd g T) as [K|_]; [contradiction|]. lra. }
  transitivity (shapley eqd P w g).
  - unfold shapley. apply sumf_ext. intros T HT.
    assert (Hn : ~ In g T). { intro K. apply subs_incl in HT. apply HT, in_remove in K. tauto. }
    apply Qmult_comp; [reflexivity|]. rewrite (Hdiff T Hn). apply H.
    + constructor; [exact Hn|]. eapply subs_NoDup; [|exact HT]. now apply remove_NoDup.
    + intros a Ha. apply subs_incl in HT. apply HT, in_remove in Ha. tauto.
  - rewrite <- (shapley_is_order_average eqd P w g Hd Hg Hw). unfold shapley_orders.
    assert (Hbef : forall o, ~ In g (before eqd g o)).
    { clear. induction o as [|a o IH]; cbn [before]; [intros []|]. destruct (eqd a g) as [->|E]; [intros []|].
      intros [K|K]; [congruence|contradiction]. }
    rewrite (sumf_ext _ (fun _ => c)) by (intros o _; apply Hdiff, Hbef).
    rewrite (orders_count eqd (length P) P Hd eq_refl).
    assert (E : forall l : list (list A), (sumf (fun _ => c) l == Qn (length l) * c)%Q).
    { clear. induction l as [|a l IH]; [cbn [sumf length]; rewrite Qn_0; lra|]. cbn [sumf length]. rewrite IH, Qn_S. lra. }
    rewrite E, (orders_count eqd (length P) P Hd eq_refl). pose proof (fact_nz (length P)). field. assumption.
Qed.
Theorem mar_closed d mean coefs x C P g j : coalitions_ok C d -> sized C -> is_players C d P -> In g P -> In j g ->
  exists r, linear_mar_shap d mean coefs x C j = Some r /\ (r == sumf (fun k => coefs k * (x k - mean k)) g)%Q.
Proof.
  intros HC HS HP Hg Hj.
  destruct (perm_is_shapley _ C d HC HS (mar_set_function d mean coefs x) P j g HP Hg Hj) as [r [E Hr]].
  exists r. split; [exact E|]. rewrite Hr. apply shapley_const; [exact (proj1 HP)|exact Hg|].
  intros T HT Hi. inversion HT as [|? ? Hn HT']; subst. cbn [the].
  destruct (players_concat C d P (g :: T) HC HP HT) as [A1 A2]; [intros a [<-|Ha]; [exact Hg|now apply Hi]|].
  destruct (players_concat C d P T HC HP HT' Hi) as [B1 B2].
  rewrite (mar_model_spec d mean coefs x _ A1 A2), (mar_model_spec d mean coefs x _ B1 B2), <- sumf_minus.
  cbn [concat]. transitivity (sumf (fun k => if memb k g then coefs k * (x k - mean k) else 0)%Q (seq 0 d)).
  - apply sumf_ext. intros k _. destruct (memb k g) eqn:Ek.
    + assert (E1 : memb k (g ++ concat T) = true) by (apply memb_true; apply memb_true in Ek; apply in_or_app; now left).
      assert (E2 : memb k (concat T) = false).
      { apply memb_false. intro K. apply memb_true in Ek. cbn [concat] in A1. revert A1 Ek K. clear. induction g as [|a g IH]; [contradiction|].
        cbn [app]. intros A1 Ek K. inversion A1; subst. destruct Ek as [->|Ek]; [|now apply IH]. apply H1. apply in_or_app. now right. }
      rewrite E1, E2. lra.
    + assert (E1 : memb k (g ++ concat T) = memb k (concat T)).
      { apply memb_false in Ek. destruct (memb k (concat T)) eqn:E2.
        - apply memb_true in E2. apply memb_true. apply in_or_app. now right.
        - apply memb_false in E2. apply memb_false. intro K. apply in_app_or in K. tauto. }
      rewrite E1. lra.
  - rewrite <- sumf_filter. apply sumf_perm. apply NoDup_Permutation; [apply NoDup_filter, seq_NoDup|eapply player_NoDup; eassumption|].
    intro k. rewrite filter_In, in_seq, memb_true. split; [tauto|]. intro Hk. split; [|exact Hk].
    assert (k < d) by (eapply (player_bound C d P g); eassumption). lia.
Qed.

(** ** The conditional version *)
Lemma cond_set_function inv d mean cov coefs x : inv_sound inv ->
  (forall S, NoDup S -> (forall k, In k S -> k < d) -> cond_exp_linear inv d mean cov coefs x S <> None) ->
  set_function d (cond_exp_linear inv d mean cov coefs x).
Proof.
  intros Hinv Htot S S' Hd Hr HP.
  assert (Hd' : NoDup S') by now apply (Permutation_NoDup HP).
  assert (Hr' : forall k, In k S' -> k < d) by (intros k Hk; apply Hr; now apply (Permutation_in k (Permutation_sym HP))).
  pose proof (Htot S Hd Hr) as T1. pose proof (Htot S' Hd' Hr') as T2. unfold cond_exp_linear in *.
  fold (rest d S) in *. fold (rest d S') in *.
  assert (Er : rest d S' = rest d S). { unfold rest. apply filter_ext. intro k. now rewrite (memb_perm k S S' HP). }
  rewrite Er in *.
  destruct (condMVN inv d mean cov (rest d S) S (map x S)) as [g|] eqn:Eg; [|congruence].
  destruct (condMVN inv d mean cov (rest d S) S' (map x S')) as [g'|] eqn:Eg'; [|congruence].
  eexists _, _. split; [reflexivity|]. split; [reflexivity|]. cbv zeta.
  assert (Hlen : length S' = length S) by (symmetry; now apply Permutation_length). rewrite Hlen.
  destruct (cond_order inv d mean cov (rest d S) S S' x g g' Hinv HP Eg Eg') as [Hdim [Hm _]].
  pose proof (filled_sum d S coefs x (g_mean g) Hd Hr) as F1. pose proof (filled_sum d S coefs x (g_mean g') Hd Hr) as F2.
  etransitivity; [exact F1|]. etransitivity; [|symmetry; exact F2]. apply Qplus_comp; [reflexivity|]. apply Sm_ext. intros i Hi.
  rewrite (Hm i); [reflexivity|]. assert (Hgd : g_dim g = length (rest d S)).
  { destruct S as [|s0 S0].
    - cbn in Eg. injection Eg as <-. cbn [g_dim]. rewrite rest_nil, seq_length. reflexivity.
    - unfold condMVN in Eg. destruct (in_range d (rest d (s0 :: S0)) && in_range d (s0 :: S0)); [|discriminate].
      destruct (inv _ _); [|discriminate]. destruct (spread _ _); [|discriminate]. injection Eg as <-. reflexivity. }
  rewrite Hgd. exact Hi.
Qed.
Lemma cond_full inv d mean cov coefs x q : cond_exp_linear inv d mean cov coefs x (seq 0 d) = Some q ->
  (q == sumf (fun k => coefs k * x k) (seq 0 d))%Q.
Proof.
  unfold cond_exp_linear. destruct (condMVN _ _ _ _ _ _ _); [|discriminate]. rewrite seq_length, Nat.eqb_refl. cbv zeta.
  intro H. injection H as <-. reflexivity.
Qed.
Lemma cond_empty inv d mean cov coefs x : exists q, cond_exp_linear inv d mean cov coefs x [] = Some q /\
  (q == sumf (fun k => coefs k * mean k) (seq 0 d))%Q.
Proof.
  unfold cond_exp_linear. fold (rest d []). cbn [condMVN map]. eexists. split; [reflexivity|]. cbv zeta. cbn [g_mean].
  assert (Hr : forall k, In k [] -> k < d) by (intros k []).
  etransitivity; [exact (filled_sum d [] coefs x mean (NoDup_nil _) Hr)|]. cbn [sumf].
  rewrite rest_nil, seq_length.
  rewrite (Sm_ext d (fun i => coefs (nth i (seq 0 d) 0%nat) * mean i)%Q (fun k => coefs k * mean k)%Q) by (intros i Hi; rewrite seq_nth by exact Hi; reflexivity).
  lra.
Qed.
Theorem linear_efficiency inv d mean cov coefs x C P rep : inv_sound inv ->
  (forall S, NoDup S -> (forall k, In k S -> k < d) -> cond_exp_linear inv d mean cov coefs x S <> None) ->
  coalitions_ok C d -> sized C -> is_players C d P -> (forall g, In g P -> In (rep g) g) ->
  (sumf (fun g => the (linear_shap inv d mean cov coefs x C (rep g))) P == sumf (fun k => coefs k * (x k - mean k)) (seq 0 d))%Q.
Proof.
  intros Hinv Htot HC HS HP Hrep. unfold linear_shap.
  rewrite (perm_efficiency _ C d HC HS (cond_set_function inv d mean cov coefs x Hinv Htot) P rep HP Hrep).
  destruct (cond_empty inv d mean cov coefs x) as [b [Eb Hb]]. rewrite Eb.
  destruct (cond_exp_linear inv d mean cov coefs x (seq 0 d)) as [a|] eqn:Ea.
  - apply cond_full in Ea. cbn [the]. rewrite Ea, Hb, <- sumf_minus. apply sumf_ext. intros k _. lra.
  - exfalso. apply (Htot (seq 0 d) (seq_NoDup d 0)); [intros k Hk; apply in_seq in Hk; lia|exact Ea].
Qed.
Theorem linear_is_shapley inv d mean cov coefs x C P j g : inv_sound inv ->
  (forall S, NoDup S -> (forall k, In k S -> k < d) -> cond_exp_linear inv d mean cov coefs x S <> None) ->
  coalitions_ok C d -> sized C -> is_players C d P -> In g P -> In j g ->
  exists r, linear_shap inv d mean cov coefs x C j = Some r /\
    (r == shapley gdec P (fun T => the (cond_exp_linear inv d mean cov coefs x (concat T))) g)%Q.
Proof. intros Hinv Htot HC HS. apply perm_is_shapley; trivial. now apply cond_set_function. Qed.

(** Without correlations both versions agree. *)
Lemma uncorrelated_cond inv d mean cov coefs x S q : uncorrelated d cov -> NoDup S -> (forall k, In k S -> k < d) ->
  cond_exp_linear inv d mean cov coefs x S = Some q -> (q == mar_exp_model d mean coefs x S)%Q.
Proof.
  intros Hu Hd Hr. unfold cond_exp_linear, mar_exp_model. fold (rest d S).
  destruct (condMVN inv d mean cov (rest d S) S (map x S)) as [g|] eqn:Eg; [|discriminate]. cbv zeta. intro H. injection H as <-.
  etransitivity; [exact (filled_sum d S coefs x (g_mean g) Hd Hr)|].
  etransitivity; [|symmetry; exact (filled_sum d S coefs x (vsub mean (rest d S)) Hd Hr)].
  apply Qplus_comp; [reflexivity|]. apply Sm_ext. intros i Hi. apply Qmult_comp; [reflexivity|]. unfold vsub.
  destruct S as [|s0 S0].
  - cbn in Eg. injection Eg as <-. cbn [g_mean]. rewrite rest_nil in *. rewrite seq_length in Hi. rewrite seq_nth by exact Hi. reflexivity.
  - remember (s0 :: S0) as S eqn:ES. assert (Hne : S <> []) by (subst; discriminate).
    destruct (cond_some _ _ _ _ _ _ _ _ Hne Eg) as [B [v [_ [_ [_ [_ [_ [Hm _]]]]]]]]. rewrite Hm.
    transitivity (mean (nth i (rest d S) 0%nat) + 0)%Q; [|lra]. apply Qplus_comp; [reflexivity|].
    apply sumf_zero. intros l Hl. apply in_seq in Hl.
    assert (E : (coefs_of cov B (rest d S) S i l == 0)%Q).
    { unfold coefs_of. apply sumf_zero. intros a Ha. apply in_seq in Ha.
      assert (K1 : In (nth i (rest d S) 0) (rest d S)) by (apply nth_In; exact Hi). apply rest_In in K1.
      assert (K2 : In (nth a S 0) S) by (apply nth_In; lia).
      assert (E : (cov (nth i (rest d S) 0%nat) (nth a S 0%nat) == 0)%Q).
      { apply Hu; [tauto|now apply Hr|]. intro K. rewrite K in K1. tauto. }
      rewrite E. lra. }
    rewrite E. lra.
Qed.
Theorem uncorrelated_same inv d mean cov coefs x C P g j : uncorrelated d cov ->
  (forall S, NoDup S -> (forall k, In k S -> k < d) -> cond_exp_linear inv d mean cov coefs x S <> None) ->
  coalitions_ok C d -> sized C -> is_players C d P -> In g P -> In j g ->
  exists r, linear_shap inv d mean cov coefs x C j = Some r /\ (r == sumf (fun k => coefs k * (x k - mean k)) g)%Q.
Proof.
  intros Hu Htot HC HS HP Hg Hj.
  assert (HV : set_function d (cond_exp_linear inv d mean cov coefs x)).
  { intros S S' Hd Hr HPS.
    assert (Hd' : NoDup S') by now apply (Permutation_NoDup HPS).
    assert (Hr' : forall k, In k S' -> k < d) by (intros k Hk; apply Hr; now apply (Permutation_in k (Permutation_sym HPS))).
    destruct (cond_exp_linear inv d mean cov coefs x S) as [q|] eqn:E; [|exfalso; now apply (Htot S)].
    destruct (cond_exp_linear inv d mean cov coefs x S') as [q'|] eqn:E'; [|exfalso; now apply (Htot S')].
    exists q, q'. split; [reflexivity|]. split; [reflexivity|].
    rewrite (uncorrelated_cond _ _ _ _ _ _ _ _ Hu Hd Hr E), (uncorrelated_cond _ _ _ _ _ _ _ _ Hu Hd' Hr' E').
    destruct (mar_set_function d mean coefs x S S' Hd Hr HPS) as [a [b [Ea [Eb Hab]]]]. injection Ea as <-. injection Eb as <-. exact Hab. }
  destruct (perm_is_shapley _ C d HC HS HV P j g HP Hg Hj) as [r [E Hr]]. exists r. split; [exact E|].
  destruct (mar_closed d mean coefs x C P g j HC HS HP Hg Hj) as [r' [E' Hr']].
  destruct (perm_is_shapley _ C d HC HS (mar_set_function d mean coefs x) P j g HP Hg Hj) as [r2 [E2 Hr2]].
  unfold linear_mar_shap in E'. rewrite E2 in E'. injection E' as ->. rewrite <- Hr', Hr2, Hr.
  unfold shapley. apply sumf_ext. intros T HT.
  assert (Ht : NoDup T) by (eapply subs_NoDup; [|exact HT]; apply remove_NoDup, (proj1 HP)).
  assert (Hi : forall a, In a T -> In a P /\ a <> g). { intros a Ha. apply subs_incl in HT. apply HT, in_remove in Ha. exact Ha. }
  assert (HN : NoDup (g :: T)) by (constructor; [intro K; apply Hi in K; tauto|exact Ht]).
  destruct (players_concat C d P (g :: T) HC HP HN) as [A1 A2]; [intros a [<-|Ha]; [exact Hg|now apply Hi]|].
  destruct (players_concat C d P T HC HP Ht) as [B1 B2]; [intros a Ha; now apply Hi|].
  destruct (cond_exp_linear inv d mean cov coefs x (concat (g :: T))) as [q|] eqn:F; [|exfalso; now apply (Htot (concat (g :: T)))].
  destruct (cond_exp_linear inv d mean cov coefs x (concat T)) as [q'|] eqn:F'; [|exfalso; now apply (Htot (concat T))].
  cbn [the]. rewrite (uncorrelated_cond _ _ _ _ _ _ _ _ Hu A1 A2 F), (uncorrelated_cond _ _ _ _ _ _ _ _ Hu B1 B2 F'). reflexivity.
Qed.

(** The enumeration of the library (py_acv.py 397-447) gives the same numbers. *)
Theorem perm_library v C d j : is_game v -> coalitions_ok C d -> sized C -> j < d ->
  exists r q, perm_shap (fun S => Some (v S)) C d j = Some r /\ py_shap v C d j = Some q /\ (r == q)%Q.
Proof.
  intros Hv HC HS Hj. pose proof (P0_players C d HC HS) as HP.
  destruct (player_exists C d _ j HP Hj) as [g [Hg Hjg]].
  assert (HV : set_function d (fun S => Some (v S))).
  { intros S S' _ _ HPS. exists (v S), (v S'). split; [reflexivity|]. split; [reflexivity|]. now apply Hv. }
  destruct (perm_is_shapley _ C d HC HS HV _ j g HP Hg Hjg) as [r [E Hr]].
  destruct (py_shap_ok v C d _ g j Hv HC (sized_cases C d HC HS) HP Hg Hjg) as [q [E' Hq]].
  exists r, q. split; [exact E|]. split; [exact E'|]. rewrite Hr, Hq. reflexivity.
Qed.

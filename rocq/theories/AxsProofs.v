(** Proofs about the searches of [ACXplainer]: the array program is the search of SearchModel.v with the probabilities that the other
    methods of the same object return. *)
From Verif Require Import Base TreeModel GameSpec ShapModel ShapSpec SkModel SearchModel SearchSpec SearchProofs ExplModel ExplSpec ExplProofs
  RfModel RfSpec ApiModel ApiSpec ApiProofs AgnModel AgnSpec AgnProofs AxsModel AxsSpec.
From Verif Require ImpModel ImpSpec ImpProofs ImpProofs2.
From Coq Require Import NArith.
Local Open Scope nat_scope.

(** ** Masks *)
Definition kept (N : nat) (R : list nat) : list nat := filter (fun k => memb k R) (seq 0 N).
Lemma kept_lt N R k : In k (kept N R) -> k < N.
Proof. intro H. apply filter_In in H. destruct H as [H _]. apply in_seq in H. lia. Qed.
Lemma select_from {A} (x : A) R l : forall s, map snd (filter (fun ia => memb (fst ia) R) (combine (seq s (length l)) l))
  = map (fun k => nth (k - s) l x) (filter (fun k => memb k R) (seq s (length l))).
Proof.
  induction l as [|b l IH]; intro s; [reflexivity|]. cbn [length seq combine filter fst]. 
  assert (E : map snd (filter (fun ia => memb (fst ia) R) (combine (seq (S s) (length l)) l))
    = map (fun k => nth (k - s) (b :: l) x) (filter (fun k => memb k R) (seq (S s) (length l)))).
  { rewrite IH. apply map_ext_in. intros k Hk. apply filter_In in Hk. destruct Hk as [Hk _]. apply in_seq in Hk.
    replace (k - s) with (S (k - S s)) by lia. reflexivity. }
  destruct (memb s R); cbn [map snd]; [|exact E]. rewrite Nat.sub_diag. cbn [nth]. now rewrite E.
Qed.
Lemma select_nth {A} (x : A) N R l : length l = N -> select N R l = Some (map (fun k => nth k l x) (kept N R)).
Proof.
  intros <-. unfold select. rewrite Nat.eqb_refl. f_equal. rewrite (select_from x R l 0). apply map_ext. intro k. now rewrite Nat.sub_0_r.
Qed.
Lemma select_if_nth {A} (x : A) b N R l : (b = true -> length l = N) -> select_if b N R l = Some (if b then map (fun k => nth k l x) (kept N R) else []).
Proof. intro H. unfold select_if. destruct b; [now apply select_nth, H|reflexivity]. Qed.
Lemma map_positions {A} (f : nat -> A) (l : list nat) : map (fun i => f (nth i l 0)) (seq 0 (length l)) = map f l.
Proof.
  assert (G : forall s, map (fun i => f (nth (i - s) l 0)) (seq s (length l)) = map f l).
  { induction l as [|a l IH]; intro s; [reflexivity|]. cbn [length seq map]. rewrite Nat.sub_diag. cbn [nth]. f_equal. rewrite <- (IH (S s)).
    apply map_ext_in. intros k Hk. apply in_seq in Hk. replace (k - s) with (S (k - S s)) by lia. reflexivity. }
  rewrite <- (G 0). apply map_ext. intro i. now rewrite Nat.sub_0_r.
Qed.
Lemma nth_map_in {A B} (f : A -> B) l i x y : i < length l -> nth i (map f l) y = f (nth i l x).
Proof. intro H. rewrite (nth_indep _ y (f x)) by (now rewrite map_length). apply map_nth. Qed.

Lemma nth_repeat_lt {A} (x y : A) n k : k < n -> nth k (repeat x n) y = x.
Proof. revert k. induction n as [|n IH]; intros k H; [lia|]. destruct k; [reflexivity|]. cbn. apply IH. lia. Qed.

(** ** Levels *)
Lemma levels_of_args kd classifier q a D Y t : complete_args kd classifier a D Y t ->
  own_levels classifier q (g_X a) t (levels_at q (g_X a) t) /\
  exists tl, acx_levels classifier q (g_X a) t = T_matrix tl /\ length tl = length (g_X a) /\
    forall i, i < length (g_X a) -> level_at (L_matrix tl) i = Some (if classifier then (0%Q, 0%Q) else levels_at q (g_X a) t i).
Proof.
  intros (_ & _ & _ & _ & H).
  assert (O : own_levels classifier q (g_X a) t (levels_at q (g_X a) t)).
  { destruct H as [H|[->|(l & -> & Hl & H)]]; [now left|right; left; split; [reflexivity|]; intros i _; reflexivity|].
    right; right. exists l. split; [reflexivity|]. split; [lia|]. intros i Hi. cbn [levels_at fst snd].
    assert (Hin : In (nth i l []) l) by (apply nth_In; lia). specialize (H _ Hin). destruct (nth i l []) as [|u [|v r]]; cbn in H; [lia|lia|]. now exists r. }
  split; [exact O|]. destruct (acx_levels_ok _ _ _ _ _ O) as (tl & E & L). exists tl. split; [exact E|]. split; [|exact L].
  revert E. unfold acx_levels. destruct classifier; [intro E; injection E as <-; now rewrite map_length|].
  destruct H as [H|[->|(l & -> & Hl & _)]]; [discriminate|intro E; injection E as <-; now rewrite map_length|intro E; now injection E as <-].
Qed.

(** ** One call *)
Section Call.
Variables (M : fmem) (depth : nat) (classifier : bool) (kd : kind) (a : args) (D : list pt) (Y : list Q) (m d : nat) (t : targ) (q : pt -> Q * Q) (tl : list (list Q)).
Variable sched : list nat -> list nat -> list nat.
Notation N := (length (g_X a)).
Notation lev := (levels_at q (g_X a) t).
Hypothesis Ha : complete_args kd classifier a D Y t.
Hypothesis Htl : length tl = N.
Hypothesis Hlev : forall i, i < N -> level_at (L_matrix tl) i = Some (if classifier then (0%Q, 0%Q) else lev i).
Hypothesis Hfair : fair (F_trees M) N sched.

(** the probability of a set for an observation, by the estimator of RfModel *)
Definition prob (k : nat) (Sv : list nat) : Q :=
  fst (fst (due M (rows_of D) (vals_of Y) (length D) depth m classifier (method kd) (nth k (g_X a) (fun _ => 0%Q)) (nth k (g_y a) 0%Q)
    (nth k (g_down a) 0%Q) (nth k (g_up a) 0%Q) Sv (nth k (g_cond a) rule0) (fst (lev k)) (snd (lev k)))).

Lemma bracketed_same : bracketed (same_of kd) -> kd = by_cdp.
Proof. unfold bracketed. destruct kd; cbn; intro H; trivial; exfalso; decompose [or] H; try discriminate; contradiction. Qed.
Lemma boxed_same : boxed (same_of kd) -> kd = by_ddp_intv \/ kd = by_cdp_intv.
Proof. unfold boxed. destruct kd; cbn; intro H; auto; exfalso; decompose [or] H; try discriminate; contradiction. Qed.

Lemma one_call_gives R S Sv : (if on_bar kd then s_bar d S else Some S) = Some Sv ->
  one_call M depth classifier kd a tl D Y m d sched R S = Gives (map (fun k => prob k Sv) (kept N R)).
Proof.
  intro HS. unfold one_call. rewrite HS. destruct Ha as ((Ty & _) & _ & Hd & Hb & _).
  rewrite (@select_nth pt nowhere N R (g_X a) eq_refl), (select_nth 0%Q N R (g_y a) (eq_sym Ty)), (select_nth [] N R tl Htl).
  rewrite (select_if_nth 0%Q _ N R (g_down a)) by (intro B; apply bracketed_spec, bracketed_same in B; now apply Hd).
  rewrite (select_if_nth 0%Q _ N R (g_up a)) by (intro B; apply bracketed_spec, bracketed_same in B; now apply Hd).
  rewrite (select_if_nth rule0 _ N R (g_cond a)) by (intro B; apply boxed_spec, boxed_same in B; now apply Hb).
  set (a' := mkArgs _ _ _ _ _ _).
  assert (En : length (g_X a') = length (kept N R)) by (cbn; now rewrite map_length).
  destruct (compiled_all M D Y depth m classifier (same_of kd) a' (T_matrix (map (fun k => nth k tl []) (kept N R))) (sched R S)
    (S_same Sv) (L_matrix (map (fun k => nth k tl []) (kept N R))) (fun _ => Sv) (fun i => if classifier then (0%Q, 0%Q) else lev (nth i (kept N R) 0))) as (res & E & R1 & _).
  - cbn. now rewrite !map_length.
  - intro B. apply bracketed_same in B. subst a'. rewrite B. cbn. rewrite !map_length. auto.
  - intro B. apply boxed_same in B. subst a'. destruct B as [-> | ->]; cbn; now rewrite !map_length.
  - destruct kd; reflexivity.
  - reflexivity.
  - destruct kd; reflexivity.
  - intros i Hi. rewrite En in Hi. unfold level_entry. assert (Hk : nth i (kept N R) 0 < N) by (apply (kept_lt N R), nth_In; exact Hi).
    pose proof (Hlev _ Hk) as Hl. unfold level_at in Hl |- *. rewrite nth_error_map, (nth_error_nth' (kept N R) 0 Hi). cbn [option_map].
    assert (Hk' : nth i (kept N R) 0 < length tl) by (rewrite Htl; exact Hk).
    rewrite (nth_error_nth' tl [] Hk') in Hl. destruct (nth _ tl []) as [|u [|v r]]; try discriminate. now rewrite Hl.
  - rewrite En. apply Hfair.
  - rewrite E. f_equal. rewrite R1, En. rewrite <- (map_positions (fun k => prob k Sv) (kept N R)). apply map_ext_in. intros i Hi. apply in_seq in Hi.
    unfold due_row, row_of_args, prob. cbn [a_x a_y a_down a_up a_S a_cond a_t0 a_t1 a' g_X g_y g_down g_up g_cond].
    rewrite (nth_map_in _ (kept N R) i 0 nowhere), (nth_map_in _ (kept N R) i 0 0%Q) by lia. unfold nowhere.
    destruct kd; cbn [same_of with_interval with_box method];
      rewrite ?(nth_map_in _ (kept N R) i 0 0%Q), ?(nth_map_in _ (kept N R) i 0 rule0) by lia; destruct classifier; reflexivity.
Qed.
End Call.

(** ** The loop *)
Section Loop.
Variables (M : fmem) (depth : nat) (classifier : bool) (kd : kind) (a : args) (tl : list (list Q)) (D : list pt) (Y : list Q) (m d : nat) (pi : Q).
Variable sched : list nat -> list nat -> list nat.
Notation N := (length (g_X a)).
Variable P : nat -> list nat -> Q.
Variable good : list nat -> Prop.
Hypothesis Hcall : forall R S, good S -> one_call M depth classifier kd a tl D Y m d sched R S = Gives (map (fun k => P k S) (kept N R)).
Notation lvl := (AxsModel.one_level M depth classifier kd a tl D Y m d pi sched).

Lemma kept_undone rows : kept N (undone pi N rows) = undone pi N rows.
Proof.
  unfold kept, undone. apply filter_ext_in. intros k Hk. rewrite memb_filter. apply memb_true in Hk. now rewrite Hk.
Qed.
Lemma sets_gives R sets : kept N R = R -> (forall S, In S sets -> good S) -> forall rows,
  fold_left (fun e S => next e (fun rw => AxsModel.one_set M depth classifier kd a tl D Y m d pi sched R rw S)) sets (Gives rows)
  = Gives (fold_left (SearchModel.one_set v_rf d pi P N R) sets rows).
Proof.
  intro HR. induction sets as [|S sets IH]; intros Hs rows; [reflexivity|]. cbn [fold_left next]. unfold AxsModel.one_set at 2.
  rewrite (Hcall R S (Hs S (or_introl eq_refl))). cbn [next].
  assert (El : (length (map (fun k => P k S) (kept N R)) <? length R) = false) by (rewrite HR, map_length; apply Nat.ltb_irrefl).
  rewrite El. rewrite IH by (intros; apply Hs; now right). f_equal.
Qed.
Lemma level_gives sets st : ok_state pi N st -> (forall S, In S sets -> good S) -> lvl sets st = Gives (SearchModel.one_level v_rf d pi P N sets st).
Proof.
  intros Hok Hs. unfold AxsModel.one_level. rewrite (sets_gives (s_R st) sets) by (trivial; rewrite Hok; apply kept_undone). reflexivity.
Qed.
Lemma loop_gives stop pw idx : (forall s sets S, nth_error pw s = Some sets -> In S sets -> good S) -> forall st, ok_state pi N st ->
  levels_loop M depth classifier kd a tl D Y m d pi sched stop pw idx st
  = match search_loop v_rf d pi P stop N pw idx st with Some st' => Gives st' | None => Strays end.
Proof.
  intro Hpw. induction idx as [|s idx IH]; intros st Hok; [reflexivity|]. cbn [levels_loop search_loop]. destruct (nth_error pw s) as [sets|] eqn:E; [|reflexivity].
  rewrite (level_gives sets st Hok) by (intros S HS; exact (Hpw s sets S E HS)). cbn [next].
  assert (Hok' := one_level_ok v_rf d pi P N sets st Hok). cbn [v_half v_rf].
  destruct (_ && stop); [reflexivity|]. now apply IH.
Qed.
End Loop.

(** ** The methods *)
Lemma room_ok d va : groups_ok d va -> room d va = true.
Proof.
  intros (H1 & H2 & _). unfold room. apply andb_true_iff. split.
  - apply forallb_forall. intros s Hs. apply Nat.ltb_lt. now apply H2.
  - apply Nat.leb_le. rewrite <- (seq_length d 0). apply NoDup_incl_length; [exact H1|]. intros s Hs. apply in_seq. specialize (H2 s Hs). lia.
Qed.
Lemma chosen_groups imp d order C : ranked imp d order -> coal_ok C d -> chosen imp d C (search_groups C (agnostic_space d order)).
Proof.
  intros Hr HC. destruct (agnostic_groups_ok imp d order C Hr HC) as [(G1 & G2 & G3) G4]. pose proof (ImpProofs.groups_nodup _ G1 G3) as GN.
  split; [exact GN|]. split; [exact G1|]. split; [exact G4|]. destruct (space_choice imp d order Hr) as (S1 & S2 & S3 & S4 & S5).
  destruct HC as (C1 & C2 & C3).
  assert (G : forall g, In g (search_groups C (agnostic_space d order)) <->
     (In g C /\ exists s, In s g /\ In s (agnostic_space d order)) \/ exists s, g = [s] /\ In s (agnostic_space d order) /\ ~ In s (concat C)).
  { intro g. unfold search_groups. destruct (has_coal C) eqn:E.
    - rewrite in_app_iff, in_map_iff, filter_In, existsb_exists. split.
      + intros [(i & <- & Hi)|(Hg & s & Hs & Hm)].
        * right. exists i. apply filter_In in Hi. destruct Hi as [Hi Hm]. split; [reflexivity|]. split; [exact Hi|].
          intro K. apply memb_true in K. rewrite K in Hm. discriminate.
        * left. split; [exact Hg|]. exists s. split; [exact Hs|now apply memb_true].
      + intros [(Hg & s & Hs & Hm)|(s & -> & Hs & Hn)].
        * right. split; [exact Hg|]. exists s. split; [exact Hs|now apply memb_true].
        * left. exists s. split; [reflexivity|]. apply filter_In. split; [exact Hs|].
          destruct (memb s (concat C)) eqn:K; [apply memb_true in K; contradiction|reflexivity].
    - assert (EC : concat C = [] /\ forall g, In g C -> g <> [] -> False).
      { destruct C3 as [->|C3]; [split; [reflexivity|]; intros g0 [<-|[]] K; now apply K|].
        destruct C as [|[|x c] C']; [split; [reflexivity|intros g0 []]|exfalso; apply C3; now left|discriminate E]. }
      rewrite in_map_iff. split.
      + intros (i & <- & Hi). right. exists i. split; [reflexivity|]. split; [exact Hi|]. rewrite (proj1 EC). intros [].
      + intros [(Hg & s & Hs & _)|(s & -> & Hs & _)]; [exfalso; apply (proj2 EC g Hg); intros ->; destruct Hs|]. now exists s. }
  split; intro Hd.
  - split; [exact GN|]. intro g. rewrite G, (S4 Hd). split.
    + intros [(Hg & s & Hs & _)|(s & -> & Hs & Hn)]; [left; split; [exact Hg|intros ->; destruct Hs]|]. right. exists s. apply in_seq in Hs. split; [lia|auto].
    + intros [(Hg & Hne)|(s & Hs & Hn & ->)].
      * left. split; [exact Hg|]. destruct g as [|s g]; [congruence|]. exists s. split; [now left|]. apply in_seq. split; [lia|]. cbn.
        apply C2, in_concat. exists (s :: g). split; [exact Hg|now left].
      * right. exists s. split; [reflexivity|]. split; [apply in_seq; lia|exact Hn].
  - exists (agnostic_space d order). split; [exact S1|]. split; [lia|]. split; [exact S3|]. split; [|exact G]. intros s s' Hs Hs' Hn. now apply (S5 Hd).
Qed.

Section Object.
Variables (d w : nat) (es : list sk) (Ts : list rtree) (stray : RfModel.row) (classifier : bool) (q : pt -> Q * Q) (imp : nat -> Q) (order : list nat)
  (sched : list nat -> list nat -> list nat) (kd : kind) (a : args) (D : list pt) (Y : list Q) (t : targ) (C : list (list nat)) (m : nat).
Hypothesis HE : searchable d w es Ts classifier imp order sched kd a D Y t C.
Notation N := (length (g_X a)).
Notation va := (search_groups C (agnostic_space d order)).
Notation M := (dense (map ranger_tree es) stray).
Notation lev := (levels_at q (g_X a) t).
(** the probability of a set, for the columns asked for *)
Notation Pr := (prob M (tallest Ts) classifier kd a D Y m t q).
Notation Ps := (fun k S => Pr k (asked kd d S)).

Lemma h_trees : F_trees M = length Ts.
Proof. destruct HE as (_ & HF & _). exact (len_trees d w es Ts stray HF). Qed.
Lemma h_va : groups_ok d va /\ length va <= 10.
Proof. destruct HE as (_ & _ & _ & _ & HC & _ & Hr & _). exact (agnostic_groups_ok imp d order C Hr HC). Qed.
Lemma bar_of S : NoDup S -> (forall x, In x S -> x < d) -> (if on_bar kd then s_bar d S else Some S) = Some (asked kd d S).
Proof. intros H1 H2. destruct kd; cbn [on_bar asked]; trivial; now apply s_bar_spec. Qed.

Lemma importance_form pi minimal stop : (0 < pi)%Q ->
  acx_importance d es stray classifier q order sched kd a D Y m t C pi minimal stop
  = match search v_rf d pi Ps cut15 stop N va minimal with Some st => Gives (ImpModel.collect d N st) | None => Strays end.
Proof.
  intro H0. destruct HE as (Hne & HF & Hd & Ha & HC & HCn & Hr & Hfair). destruct h_va as [G Gl].
  unfold acx_importance. pose proof Ha as (T1 & T2 & _). rewrite (proj2 (checked_spec _ _) T1), (proj2 (checked_spec _ _) T2). cbn [negb andb].
  destruct (build_ok d w es Ts Hne HF (or_introl Hd)) as (o & -> & -> & _ & ->).
  destruct (levels_of_args kd classifier q a D Y t Ha) as (O & tl & -> & Ll & L). cbn [convert].
  unfold global_search. destruct C as [|g C'] eqn:EC; [congruence|]. rewrite <- EC in *. clear EC g C'.
  rewrite (room_ok d va G). unfold search.
  rewrite (loop_gives M (tallest Ts) classifier kd a tl D Y m d pi sched Ps (fun S => NoDup S /\ forall x, In x S -> x < d)).
  - now destruct (search_loop _ _ _ _ _ _ _ _ _).
  - intros R S [S1 S2]. apply (one_call_gives M (tallest Ts) classifier kd a D Y m d t q tl sched Ha Ll L); [|now apply bar_of].
    rewrite h_trees. exact Hfair.
  - intros s sets S Hs HS. apply power_nth in Hs. destruct Hs as [_ ->]. apply in_level in HS. destruct HS as (T & HT & _ & <-).
    destruct (subs_groups_ok d va T G HT) as (A & B & _). auto.
  - now apply state0_ok.
Qed.
Lemma importance_state pi minimal stop : (0 < pi)%Q -> exists st, search v_rf d pi Ps cut15 stop N va minimal = Some st /\
  acx_importance d es stray classifier q order sched kd a D Y m t C pi minimal stop = Gives (ImpModel.collect d N st).
Proof.
  intro H0. rewrite (importance_form pi minimal stop H0). destruct (search _ _ _ _ _ _ _ _ _) as [st|] eqn:E; [eauto|].
  exfalso. revert E. destruct h_va. apply search_some. lia.
Qed.

(** the answers of the other methods are these probabilities *)
Section Told.
Variable order1 : list nat.
Hypothesis Ho : complete (S (length Ts)) N order1.
Lemma told_prob k S : k < N -> told d es stray classifier q order1 kd a D Y m t k S = Ps k S.
Proof.
  intro Hk. destruct HE as (Hne & HF & Hd & Ha & HC & HCn & Hr & Hfair). pose proof Ha as (T1 & T2 & Hb1 & Hb2 & _).
  destruct (levels_of_args kd classifier q a D Y t Ha) as (O & _). rewrite <- h_trees in Ho.
  unfold told, explain. cbn [question g_X g_y]. rewrite (proj2 (checked_spec _ _) T1), (proj2 (checked_spec _ _) T2). cbn [negb andb].
  destruct (build_ok d w es Ts Hne HF (or_introl Hd)) as (o & Eo & Et & _ & Ed).
  assert (Hrow : kd = by_sdp \/ kd = by_ddp \/ kd = by_cdp \/ kd = by_ddp_intv \/ kd = by_cdp_intv) by (destruct kd; tauto).
  assert (G1 : acx_routine (method kd) -> ApiModel.one_set (method kd) = false ->
    documented (method kd) (question kd a d S) (repeat (asked kd d S) N) -> 
    match (if negb (ApiModel.one_set (method kd)) && negb (s_len (g_S (question kd a d S)) =? N) then Some (Raised EValue)
           else match build d es with None => None | Some o => Some (acx (dense (n_trees o) stray) (n_depth o) classifier q (method kd) (question kd a d S) D Y m t order1) end)
    with Some (Returned res) => nth k (ApiModel.r_sdp res) 0%Q | _ => 0%Q end = Ps k S).
  { intros A1 A2 A3. rewrite A2. destruct A3 as (A3 & A4 & A5). rewrite A3. cbn [s_len]. rewrite A4. cbn [question g_X]. rewrite Nat.eqb_refl. cbn [negb andb].
    rewrite Eo, Et, Ed.
    destruct (acx_rows M (tallest Ts) classifier q (method kd) (question kd a d S) (repeat (asked kd d S) N) D Y m t order1 lev A1 T1 T2 (conj A3 (conj A4 A5)) O Ho) as (res & -> & R1 & _).
    rewrite R1. cbn [question g_X]. rewrite nth_map_seq by exact Hk. unfold prob. cbn [question g_X g_y g_down g_up g_cond]. now rewrite nth_repeat_lt. }
  assert (G2 : kd = by_ddp_intv \/ kd = by_cdp_intv ->
    match (if negb (ApiModel.one_set (method kd)) && negb (s_len (g_S (question kd a d S)) =? N) then Some (Raised EValue)
           else match build d es with None => None | Some o => Some (acx (dense (n_trees o) stray) (n_depth o) classifier q (method kd) (question kd a d S) D Y m t order1) end)
    with Some (Returned res) => nth k (ApiModel.r_sdp res) 0%Q | _ => 0%Q end = Ps k S).
  { intro Hk2. assert (E1 : ApiModel.one_set (method kd) = true) by (destruct Hk2 as [-> | ->]; reflexivity). rewrite E1. cbn [negb andb]. rewrite Eo, Et, Ed.
    destruct (acx_same_rows M (tallest Ts) classifier q (method kd) (question kd a d S) (asked kd d S) D Y m t order1 lev) as (res & -> & R1 & _); trivial.
    - destruct Hk2 as [-> | ->]; auto.
    - destruct Hk2 as [-> | ->]; reflexivity.
    - now apply Hb2.
    - rewrite R1. cbn [question g_X]. rewrite nth_map_seq by exact Hk. unfold prob. cbn [question g_X g_y g_cond]. destruct Hk2 as [-> | ->]; reflexivity. }
  destruct Hrow as [E|[E|[E|E]]]; [| | |now apply G2]; (apply G1; rewrite E; [unfold acx_routine; cbn; tauto|reflexivity|]);
    (split; [reflexivity|]; split; [cbn; now rewrite repeat_length|]; split; [intro B|intro B; exfalso; cbn in B; decompose [or] B; try discriminate; contradiction]);
    try (exfalso; cbn in B; decompose [or] B; try discriminate; contradiction). now apply Hb1.
Qed.
End Told.

Lemma h_single : (forall g, In g C -> g = []) -> forall g, In g va -> length g = 1.
Proof.
  intros H g Hg. destruct HE as (_ & _ & _ & _ & HC & _ & Hr & _). destruct (chosen_groups imp d order C Hr HC) as (_ & _ & _ & K1 & K2).
  destruct (le_lt_dec d 10) as [L|L].
  - destruct (K1 L) as [_ K]. apply K in Hg. destruct Hg as [[Hg Hn]|(s & _ & _ & ->)]; [|reflexivity]. exfalso. apply Hn. now apply H.
  - destruct (K2 L) as (sp & _ & _ & _ & _ & K). apply K in Hg. destruct Hg as [[Hg (s & Hs & _)]|(s & -> & _)]; [|reflexivity]. rewrite (H g Hg) in Hs. destruct Hs.
Qed.

Section Level.
Variables (pi : Q) (minimal : nat) (stop : bool).
Hypothesis H0 : (0 < pi)%Q.
Hypothesis H1 : (pi <= 1)%Q.
Notation run := (acx_importance d es stray classifier q order sched kd a D Y m t C pi minimal stop).

Lemma run_returns : exists e, run = Gives e /\ ImpSpec.shaped e N d.
Proof.
  destruct (importance_state pi minimal stop H0) as (st & Hs & E). exists (ImpModel.collect d N st). split; [exact E|].
  destruct h_va as [G _]. unfold ImpSpec.shaped, ImpModel.collect. cbn [ImpModel.e_importance ImpModel.e_index ImpModel.e_size ImpModel.e_sdp].
  rewrite !map_length, !seq_length. split; [reflexivity|]. split; [reflexivity|]. split; [|split; reflexivity].
  intros r Hrr. apply in_map_iff in Hrr. destruct Hrr as (k & <- & Hk). apply in_seq in Hk.
  pose proof (search_visits _ _ _ _ _ _ _ _ _ _ Hs) as (n & Hn & _).
  exact (proj1 (proj1 (levels_found v_rf d pi Ps N va minimal n st k G H0 H1 ltac:(lia) Hn))).
Qed.
Lemma run_found order1 e k : complete (S (length Ts)) N order1 -> run = Gives e -> k < N -> (pi <= nth k (ImpModel.e_sdp e) 0)%Q ->
  exists T, minimal_sufficient d va minimal pi (told d es stray classifier q order1 kd a D Y m t k) T (nth k (ImpModel.e_sdp e) 0%Q) /\
    reported (ImpSpec.row_of e k) = map Z.of_nat (concat T) /\ nth k (ImpModel.e_size e) 0 = length (concat T).
Proof.
  intros Ho Hrun Hk Hp. destruct (importance_state pi minimal stop H0) as (st & Hs & E). rewrite E in Hrun. injection Hrun as <-.
  assert (Er := ImpProofs2.row_collect d N st k Hk). destruct h_va as [G _].
  assert (Es : nth k (ImpModel.e_sdp (ImpModel.collect d N st)) 0%Q = SearchModel.r_sdp (s_rows st k)) by (rewrite <- Er; reflexivity).
  assert (En : nth k (ImpModel.e_size (ImpModel.collect d N st)) 0 = r_len (s_rows st k)) by (rewrite <- Er; reflexivity).
  rewrite Es in *. rewrite En, Er.
  destruct (search_found v_rf d pi Ps cut15 stop N va minimal st k G H0 H1 Hk Hs Hp) as (T & HT & HR & HL).
  exists T. split; [|split; [exact HR|exact HL]]. destruct HT as (A1 & A2 & A3 & A4 & A5 & A6).
  split; [exact A1|]. split; [exact A2|]. split; [exact A3|]. split; [now rewrite (told_prob order1 Ho k (concat T) Hk)|].
  split; intros T' HT'; rewrite (told_prob order1 Ho k (concat T') Hk); auto.
Qed.
Lemma run_not_found order1 e k : complete (S (length Ts)) N order1 -> run = Gives e -> k < N -> (nth k (ImpModel.e_sdp e) 0 < pi)%Q ->
  forall T, In T (subs va) -> minimal <= length T ->
    (stop = true -> (forall g, In g C -> g = []) /\ length T <= Nat.max minimal (d / 2)) ->
    (told d es stray classifier q order1 kd a D Y m t k (concat T) < pi)%Q.
Proof.
  intros Ho Hrun Hk Hp T HT Hm Hst. destruct (importance_state pi minimal stop H0) as (st & Hs & E). rewrite E in Hrun. injection Hrun as <-.
  assert (Er := ImpProofs2.row_collect d N st k Hk). destruct h_va as [G _].
  assert (Es : nth k (ImpModel.e_sdp (ImpModel.collect d N st)) 0%Q = SearchModel.r_sdp (s_rows st k)) by (rewrite <- Er; reflexivity).
  rewrite Es in *. rewrite (told_prob order1 Ho k (concat T) Hk). destruct stop eqn:Est.
  - destruct (Hst eq_refl) as [K1 K2].
    exact (search_not_found_half v_rf d pi Ps cut15 true N va minimal st k (or_introl eq_refl) G (h_single K1) H0 H1 Hk Hs Hp T HT Hm K2).
  - apply (search_not_found v_rf d pi Ps cut15 false N va minimal st k G H0 H1 Hk Hs Hp T HT Hm). discriminate.
Qed.
Lemma run_importance e j : run = Gives e -> j < d ->
  (nth j (ImpModel.e_importance e) 0 == Qn (length (filter (fun i => explains pi (ImpSpec.row_of e i) j) (seq 0 N))) / Qn N)%Q /\
  (0 <= nth j (ImpModel.e_importance e) 0 <= 1)%Q.
Proof.
  intros Hrun Hj. destruct (importance_state pi minimal stop H0) as (st & Hs & E). rewrite E in Hrun. injection Hrun as <-. destruct h_va as [G _].
  assert (HN : 0 < N). { destruct HE as (_ & _ & _ & ((_ & Hx) & _) & _). destruct (g_X a); [congruence|cbn; lia]. }
  destruct (search_importance v_rf d pi Ps cut15 stop N va minimal st j G H0 H1 HN Hs) as [A B].
  assert (Ei : nth j (ImpModel.e_importance (ImpModel.collect d N st)) 0%Q = importance N st j).
  { unfold ImpModel.collect. cbn [ImpModel.e_importance]. now rewrite nth_map_seq. }
  rewrite Ei. split; [|exact B]. rewrite A. rewrite (filter_ext_in (fun i => explains pi (ImpSpec.row_of (ImpModel.collect d N st) i) j) (fun k => explains pi (s_rows st k) j)); [reflexivity|].
  intros i Hi. apply in_seq in Hi. now rewrite ImpProofs2.row_collect by lia.
Qed.
Lemma run_indices e k : (forall g, In g C -> g = []) -> run = Gives e -> k < N ->
  listed (ImpSpec.row_of e k) = reported (ImpSpec.row_of e k) /\ nth k (ImpModel.e_size e) 0 = length (listed (ImpSpec.row_of e k)).
Proof.
  intros HC Hrun Hk. destruct (importance_state pi minimal stop H0) as (st & Hs & E). rewrite E in Hrun. injection Hrun as <-. destruct h_va as [G _].
  destruct (search_index_row v_rf d pi Ps cut15 stop N va minimal st k G H0 H1 Hk Hs (or_introl (h_single HC))) as (A & B & _).
  change (nth k (ImpModel.e_size (ImpModel.collect d N st)) 0) with (r_len (ImpSpec.row_of (ImpModel.collect d N st) k)).
  rewrite ImpProofs2.row_collect by exact Hk. auto.
Qed.
(** the reported probability, from the trees *)
Lemma run_values e k : kd = by_sdp \/ kd = by_ddp \/ kd = by_cdp -> run = Gives e -> k < N -> (pi <= nth k (ImpModel.e_sdp e) 0)%Q ->
  exists S, NoDup S /\ (forall s, In s S -> s < d) /\ reported (ImpSpec.row_of e k) = map Z.of_nat S /\
    (length S < d -> safe stray (asked kd d S) Ts -> (forall T, In T Ts -> m <= length (mates (asked kd d S) T (nth k (g_X a) (fun _ => 0%Q)) D)) ->
     (nth k (ImpModel.e_sdp e) 0 ==
      mean_over (fun T => mean_over (fun j => measured (method kd) classifier (nth k (g_y a) 0) (fst (lev k)) (snd (lev k))
                                                (nth k (g_down a) 0) (nth k (g_up a) 0) (nth j Y 0))
                                    (mates (asked kd d S) T (nth k (g_X a) (fun _ => 0)) D)) Ts)%Q).
Proof.
  intros Hkd Hrun Hk Hp. destruct (importance_state pi minimal stop H0) as (st & Hs & E). rewrite E in Hrun. injection Hrun as <-.
  assert (Er := ImpProofs2.row_collect d N st k Hk). destruct h_va as [G _].
  assert (Es : nth k (ImpModel.e_sdp (ImpModel.collect d N st)) 0%Q = SearchModel.r_sdp (s_rows st k)) by (rewrite <- Er; reflexivity).
  rewrite Es in *. rewrite Er.
  destruct (search_found v_rf d pi Ps cut15 stop N va minimal st k G H0 H1 Hk Hs Hp) as (T & (HT & _ & _ & A4 & _) & HR & HL).
  destruct (subs_groups_ok d va T G HT) as (B1 & B2 & _). exists (concat T). split; [exact B1|]. split; [exact B2|]. split; [exact HR|].
  intros L1 L2 L3. destruct A4 as [A4|[A4 _]]; [|lia]. rewrite A4. unfold prob. destruct HE as (Hne & HF & Hd & _).
  refine (proj1 (row_of_due d w es Ts stray classifier HF (method kd) D Y m _ _ _ _ _ _ _ _ _ L2 L3)).
  unfold plain_routine. destruct Hkd as [-> |[-> | ->]]; cbn; tauto.
Qed.
End Level.
End Object.

(** the workers do not matter *)
Lemma run_threads d w es Ts stray classifier q imp order sched sched' kd a D Y t C m pi minimal stop : (0 < pi)%Q ->
  searchable d w es Ts classifier imp order sched kd a D Y t C -> searchable d w es Ts classifier imp order sched' kd a D Y t C ->
  acx_importance d es stray classifier q order sched kd a D Y m t C pi minimal stop = acx_importance d es stray classifier q order sched' kd a D Y m t C pi minimal stop.
Proof.
  intros H0 A B. rewrite (importance_form d w es Ts stray classifier q imp order sched kd a D Y t C m A pi minimal stop H0).
  now rewrite (importance_form d w es Ts stray classifier q imp order sched' kd a D Y t C m B pi minimal stop H0).
Qed.

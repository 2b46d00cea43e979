(** Proofs about MsdpModel.v: what the arrays returned say. *)
From Verif Require Import Base GameSpec GameProofs ShapModel SwingModel LocalModel LocalProofs SearchModel SearchSpec SearchProofs
  ExplSpec MsdpModel MsdpSpec MsdpProofs.
From Coq Require Import NArith Qabs.
Local Open Scope nat_scope.

Lemma Qeq_of_eq (a b : Q) : a = b -> (a == b)%Q.
Proof. now intros ->. Qed.
Lemma nth_map_seq {A} (f : nat -> A) n k a : k < n -> nth k (map f (seq 0 n)) a = f k.
Proof.
  intro H. rewrite nth_indep with (d' := f 0) by now rewrite map_length, seq_length.
  now rewrite map_nth, seq_nth.
Qed.
Lemma power_cands d limit va sets : groups_ok d va -> In sets (power limit va 0) ->
  sets <> [] /\ forall S, In S sets -> cand_ok d S.
Proof.
  intros Hok H. apply In_nth_error in H. destruct H as [i H]. apply power_nth in H. destruct H as [Hi ->]. split.
  - unfold level. intro E. apply map_eq_nil in E. now apply (combinations_nonempty i va).
  - intros S HS. apply in_level in HS. destruct HS as [T [HT [_ <-]]].
    split; [now apply (concat_length_le d va)|]. destruct (subs_groups_ok d va T Hok HT) as [_ [Hd _]]. exact Hd.
Qed.

(** the columns searched, as the caller may choose them *)
Definition space_ok (d : nat) (space : option (list nat)) : Prop :=
  match space with Some l => NoDup l /\ forall x, In x l -> x < d | None => True end.
Lemma va_ok d C space : coal_ok C d -> space_ok d space -> groups_ok d (search_groups C (space_of d space)).
Proof.
  intros [HC [Hd He]] Hs. apply search_groups_ok; trivial.
  - destruct space; [apply Hs|apply seq_NoDup].
  - destruct space; [apply Hs|intros x Hx; apply in_seq in Hx; cbn in Hx; lia].
  - intro Hc. destruct He as [->|He]; [discriminate|trivial].
Qed.

Section P.
Context {Y : Type}.
Variable predict : pt -> Y.
Variable same : Y -> Y -> bool.
Variable d : nat.
Variable data : list pt.
Variable X : list pt.
Variable pi : Q.
Hypothesis pi0 : (0 < pi)%Q.
Hypothesis pi1 : (pi <= 1)%Q.
Notation score := (score predict same d data X).
Notation share := (kept_share predict same data).

Lemma msdp_search_spec C minimal space stop : coal_ok C d -> C <> [] -> space_ok d space ->
  let va := search_groups C (space_of d space) in
  match search v_msdp d pi score cut15 stop (length X) va minimal with
  | Some st => exists a, msdp_search predict same d data X pi C minimal space stop = Some (give d X a) /\
                 p_rows a = s_rows st /\ p_glob a = s_glob st
  | None => msdp_search predict same d data X pi C minimal space stop = None
  end.
Proof.
  intros HC Hn Hs va. unfold msdp_search. fold va.
  pose proof (try_sizes_spec predict same d data X pi stop (power cut15 va 0)
    (fun sets H => power_cands d cut15 va sets (va_ok d C space HC Hs) H)
    (seq minimal (S (length va) - minimal)) (vars0 d X) (state0 d (length X)) (start_matches d X pi pi0)) as H.
  unfold search. destruct (search_loop _ _ _ _ _ _ _ _ _) as [st|].
  - destruct H as [b [E [_ [H1 [_ [H2 _]]]]]]. exists b. rewrite E. destruct C; [congruence|]. now split.
  - rewrite H. now destruct C.
Qed.
Lemma search_answer C minimal space stop e : coal_ok C d -> space_ok d space ->
  msdp_search predict same d data X pi C minimal space stop = Some e ->
  exists a st, e = give d X a /\ p_rows a = s_rows st /\ p_glob a = s_glob st /\
    search v_msdp d pi score cut15 stop (length X) (search_groups C (space_of d space)) minimal = Some st.
Proof.
  intros HC Hs H. assert (Hn : C <> []) by (intros ->; discriminate).
  pose proof (msdp_search_spec C minimal space stop HC Hn Hs) as G. cbn zeta in G.
  destruct (search _ _ _ _ _ _ _ _ _) as [st|]; [|congruence].
  destruct G as [a [E [G1 G2]]]. rewrite H in E. injection E as ->. exists a, st. now repeat split.
Qed.

(** the values seen are the shares *)
Lemma score_share k x S : nth_error X k = Some x -> reads d predict -> (forall y, same y y = true) -> data <> [] ->
  NoDup S -> (forall s, In s S -> s < d) -> (score k S == share x S)%Q.
Proof.
  intros Hx Hr Hs Hd HN HB. unfold MsdpProofs.score, msdp_with.
  assert (Hl : k < length X) by (apply nth_error_Some; congruence).
  rewrite nth_indep with (d' := single_msdp_with predict same d S data (fun _ => 0%Q)) by now rewrite map_length.
  rewrite (map_nth (single_msdp_with predict same d S data)). rewrite (nth_error_nth _ _ _ Hx).
  destruct (msdp_exact predict same d S data x Hr Hs HN HB Hd) as [q [E Hq]]. rewrite E, Hq.
  unfold kept_share. apply Qeq_of_eq. f_equal. f_equal. f_equal. apply filter_ext_in'. intros z _. f_equal.
  apply Hr. intros i _. unfold fixed, replaced. destruct (in_dec Nat.eq_dec i S) as [H|H].
  - apply memb_true in H. now rewrite H.
  - apply memb_false in H. now rewrite H.
Qed.
Hypothesis reading : reads d predict.
Hypothesis reflexive : forall y, same y y = true.
Hypothesis background : data <> [].

Theorem found_says C minimal space stop e k x : coal_ok C d -> space_ok d space ->
  msdp_search predict same d data X pi C minimal space stop = Some e -> nth_error X k = Some x ->
  (pi <= nth k (m_sdp e) 0)%Q ->
  exists T, smallest_best (search_groups C (space_of d space)) minimal pi (share x) T /\
    nth k (m_index e) [] = padded d (concat T) /\ nth k (m_size e) 0 = length (concat T) /\
    (nth k (m_sdp e) 0 == share x (concat T))%Q.
Proof.
  intros HC Hs He Hx Hf. destruct (search_answer C minimal space stop e HC Hs He) as [a [st [-> [Hr [_ Hst]]]]].
  pose proof (va_ok d C space HC Hs) as Hok. set (va := search_groups C (space_of d space)) in *.
  assert (Hk : k < length X) by (apply nth_error_Some; congruence).
  unfold give in *. cbn [m_sdp m_index m_size] in *. rewrite nth_map_seq in Hf by trivial. rewrite !nth_map_seq by trivial.
  rewrite Hr in *.
  destruct (search_found v_msdp d pi score cut15 stop (length X) va minimal st k Hok pi0 pi1 Hk Hst Hf)
    as [T [[HT [Hlo [Hp [Hv [Hless Heq]]]]] [HR HL]]].
  assert (HS : forall T', In T' (subs va) -> (score k (concat T') == share x (concat T'))%Q).
  { intros T' HT'. destruct (subs_groups_ok d va T' Hok HT') as [G1 [G2 _]]. now apply score_share. }
  assert (Hval : (r_sdp (s_rows st k) == share x (concat T))%Q).
  { destruct Hv as [Hv|[Hfull Hv]]; [now rewrite Hv, HS|]. rewrite <- HS by trivial. rewrite Hv.
    unfold MsdpProofs.score, msdp_with.
    rewrite nth_indep with (d' := single_msdp_with predict same d (concat T) data (fun _ => 0%Q)) by now rewrite map_length.
    rewrite (map_nth (single_msdp_with predict same d (concat T) data)). unfold single_msdp_with.
    rewrite (proj2 (Nat.eqb_eq _ _) Hfull). reflexivity. }
  exists T. split; [|split; [|split; [exact HL|exact Hval]]].
  - split; [trivial|]. split; [trivial|]. split; [now rewrite <- Hval|].
    intros T' HT' Hlo' Hp'. rewrite <- HS in Hp' by trivial.
    destruct (Nat.lt_trichotomy (length T) (length T')) as [G|[G|G]]; [now left| |].
    + right. split; [lia|]. destruct (list_eq_dec (list_eq_dec Nat.eq_dec) T' T) as [->|Hne]; [lra|].
      rewrite <- Hval, <- HS by trivial. now apply Heq.
    + exfalso. specialize (Hless T' HT' (conj Hlo' G)). lra.
  - pose proof (search_clean v_msdp d pi score cut15 stop (length X) va minimal st k eq_refl Hok pi0 pi1 Hk Hst Hf) as [S [E1 [E2 E3]]].
    rewrite E1. unfold padded. unfold reported in HR. rewrite E1, E2 in HR.
    rewrite firstn_app, map_length, Nat.sub_diag, firstn_all2 in HR by (now rewrite map_length).
    cbn [firstn] in HR. rewrite app_nil_r in HR. rewrite <- HR. now rewrite <- HL, E2.
Qed.

Theorem unfound_says C minimal space stop e k x : coal_ok C d -> space_ok d space ->
  msdp_search predict same d data X pi C minimal space stop = Some e -> nth_error X k = Some x ->
  (nth k (m_sdp e) 0 < pi)%Q ->
  let va := search_groups C (space_of d space) in
  forall T, In T (subs va) -> minimal <= length T ->
  stop = false \/ ((forall g, In g va -> length g = 1) /\ (length T <= minimal \/ 2 * (length T - 1) < d)) ->
  (share x (concat T) < pi)%Q.
Proof.
  intros HC Hs He Hx Hf va T HT Hlo Hstop. destruct (search_answer C minimal space stop e HC Hs He) as [a [st [-> [Hr [_ Hst]]]]].
  pose proof (va_ok d C space HC Hs) as Hok. fold va in Hok, Hst.
  assert (Hk : k < length X) by (apply nth_error_Some; congruence).
  unfold give in *. cbn [m_sdp] in *. rewrite nth_map_seq in Hf by trivial. rewrite Hr in Hf.
  destruct (subs_groups_ok d va T Hok HT) as [G1 [G2 _]].
  rewrite <- (score_share k x) by trivial.
  apply (search_not_found v_msdp d pi score cut15 stop (length X) va minimal st k); trivial.
  intros -> s Hs'. destruct Hstop as [|[Hone Hsz]]; [discriminate|].
  cbn [v_half v_msdp]. unfold half_true. apply Nat.leb_gt.
  pose proof (subs_length _ _ HT) as HlT.
  assert (E : length (concat (skipn (length va - s) va)) = s).
  { assert (G : forall l : list (list nat), (forall g, In g l -> length g = 1) -> length (concat l) = length l).
    { induction l as [|g l IH]; intro H; [reflexivity|]. cbn [concat length]. rewrite app_length, (H g) by now left.
      rewrite IH; [reflexivity|]. intros g' Hg'. apply H. now right. }
    rewrite G, skipn_length; [lia|]. intros g Hg. apply Hone. rewrite <- (firstn_skipn (length va - s) va). apply in_or_app. now right. }
  rewrite E. lia.
Qed.

Theorem importance_says C minimal space stop e j : coal_ok C d -> space_ok d space -> X <> [] ->
  msdp_search predict same d data X pi C minimal space stop = Some e -> j < d ->
  exists q, nth_error (m_importance e) j = Some (Some q) /\
  (q == Qn (length (filter (fun k => Qle_bool pi (nth k (m_sdp e) 0%Q) &&
                                      existsb (Z.eqb (Z.of_nat j)) (nth k (m_index e) [])) (seq 0 (length X)))) / Qn (length X))%Q.
Proof.
  intros HC Hs HX He Hj. destruct (search_answer C minimal space stop e HC Hs He) as [a [st [-> [Hr [Hg Hst]]]]].
  pose proof (va_ok d C space HC Hs) as Hok. set (va := search_groups C (space_of d space)) in *.
  assert (HN : 0 < length X) by (destruct X; [congruence|cbn; lia]).
  unfold give. cbn [m_sdp m_index m_importance].
  rewrite nth_error_map, (nth_error_nth' _ 0) by now rewrite seq_length. rewrite seq_nth by trivial. cbn [option_map plus].
  destruct (Nat.eqb_spec (length X) 0) as [|_]; [lia|]. eexists. split; [reflexivity|]. rewrite Hg.
  destruct (search_importance v_msdp d pi score cut15 stop (length X) va minimal st j Hok pi0 pi1 HN Hst) as [E _].
  unfold importance in E. rewrite E. apply Qeq_of_eq. f_equal. f_equal. f_equal. apply filter_ext_in'.
  intros k Hk. apply in_seq in Hk. rewrite !nth_map_seq by lia. rewrite Hr. unfold explains.
  change (Qle_bool pi (r_sdp (s_rows st k))) with (qleb pi (r_sdp (s_rows st k))).
  destruct (qleb_spec pi (r_sdp (s_rows st k))) as [Hf|]; [|reflexivity]. cbn [andb].
  pose proof (search_clean v_msdp d pi score cut15 stop (length X) va minimal st k eq_refl Hok pi0 pi1 ltac:(lia) Hst Hf) as [S [E1 [E2 E3]]].
  unfold reported. rewrite E1, E2. rewrite firstn_app, map_length, Nat.sub_diag, firstn_all2 by (now rewrite map_length).
  cbn [firstn]. rewrite app_nil_r, existsb_app.
  assert (G : existsb (Z.eqb (Z.of_nat j)) (repeat (-1)%Z (d - length S)) = false).
  { destruct (existsb _ _) eqn:G; [|reflexivity]. apply existsb_exists in G. destruct G as [z [Hz Ez]].
    apply repeat_spec in Hz. apply Z.eqb_eq in Ez. lia. }
  now rewrite G, orb_false_r.
Qed.

Theorem answers C minimal space stop : coal_ok C d -> C <> [] -> space_ok d space ->
  length (search_groups C (space_of d space)) <= 15 ->
  exists e, msdp_search predict same d data X pi C minimal space stop = Some e.
Proof.
  intros HC Hn Hs Hm. pose proof (msdp_search_spec C minimal space stop HC Hn Hs) as G. cbn zeta in G.
  pose proof (search_some v_msdp d pi score stop (length X) _ minimal Hm) as G'.
  destruct (search _ _ _ _ _ _ _ _ _) as [st|]; [|congruence]. destruct G as [a [E _]]. eauto.
Qed.
Lemma answer_shape C minimal space stop e : msdp_search predict same d data X pi C minimal space stop = Some e ->
  length (m_importance e) = d /\ length (m_index e) = length X /\ length (m_size e) = length X /\ length (m_sdp e) = length X.
Proof.
  unfold msdp_search. destruct C; [discriminate|]. cbn zeta. destruct (try_sizes _ _ _ _ _ _ _ _ _ _) as [a|]; [|discriminate].
  intro E. injection E as <-. unfold give. cbn. rewrite !map_length, !seq_length. now repeat split.
Qed.
End P.

(** the search looks at the estimator on its rows only *)
Lemma search_loop_ext v d pi P P' stop N pw : (forall k S, k < N -> P k S = P' k S) ->
  forall idx st, ok_state pi N st -> search_loop v d pi P stop N pw idx st = search_loop v d pi P' stop N pw idx st.
Proof.
  intro HP. induction idx as [|s_0 idx IH]; intros st Hok; [reflexivity|]. cbn [search_loop].
  destruct (nth_error pw s_0) as [sets|]; [|reflexivity].
  assert (E : one_level v d pi P N sets st = one_level v d pi P' N sets st).
  { assert (G : fold_left (one_set v d pi P N (s_R st)) sets (s_rows st) = fold_left (one_set v d pi P' N (s_R st)) sets (s_rows st)).
    { apply fold_ext. intros rw S _. unfold one_set, estimates. f_equal. f_equal. destruct (v_mask v); apply map_ext_in; intros k Hk.
      - apply filter_In in Hk. destruct Hk as [Hk _]. apply in_seq in Hk. apply HP. lia.
      - rewrite Hok in Hk. apply filter_In in Hk. destruct Hk as [Hk _]. apply in_seq in Hk. apply HP. lia. }
    unfold one_level. rewrite G. reflexivity. }
  rewrite E. destruct (_ && stop); [reflexivity|]. apply IH. now apply one_level_ok.
Qed.

(** each row as if it were alone *)
Theorem alone {Y} (predict : pt -> Y) same d data X pi C minimal space stop e k x : (0 < pi)%Q -> coal_ok C d -> space_ok d space ->
  msdp_search predict same d data X pi C minimal space stop = Some e -> nth_error X k = Some x ->
  exists e1, msdp_search predict same d data [x] pi C minimal space stop = Some e1 /\
    nth_error (m_sdp e) k = nth_error (m_sdp e1) 0 /\ nth_error (m_index e) k = nth_error (m_index e1) 0 /\
    nth_error (m_size e) k = nth_error (m_size e1) 0.
Proof.
  intros H0 HC Hs He Hx. destruct (search_answer predict same d data X pi H0 C minimal space stop e HC Hs He) as [a [st [-> [Hr [_ Hst]]]]].
  assert (Hn : C <> []) by (intros ->; discriminate).
  assert (Hk : k < length X) by (apply nth_error_Some; congruence).
  destruct (search_one_row v_msdp d pi _ cut15 stop (length X) _ minimal st k H0 Hk Hst) as [st1 [E1 E2]].
  pose proof (msdp_search_spec predict same d data [x] pi H0 C minimal space stop HC Hn Hs) as G. cbn zeta in G.
  assert (Es : search v_msdp d pi (score predict same d data [x]) cut15 stop (length [x]) (search_groups C (space_of d space)) minimal
               = search v_msdp d pi (fun _ => score predict same d data X k) cut15 stop 1 (search_groups C (space_of d space)) minimal).
  { cbn [length]. unfold search. apply search_loop_ext; [|now apply state0_ok].
    intros i S Hi. replace i with 0 by lia. unfold score. f_equal. unfold msdp_with. cbn [map nth].
    rewrite (nth_error_nth (map (single_msdp_with predict same d S data) X) k None (x := single_msdp_with predict same d S data x)); [reflexivity|].
    now apply map_nth_error. }
  rewrite Es, E1 in G. destruct G as [b [Eb [Hb _]]]. exists (give d [x] b). split; [exact Eb|].
  unfold give. cbn [m_sdp m_index m_size length seq map nth_error].
  rewrite !nth_error_map, !(nth_error_nth' _ 0) by now rewrite seq_length. rewrite seq_nth by trivial. cbn [option_map plus].
  rewrite Hr, Hb, E2. now repeat split.
Qed.

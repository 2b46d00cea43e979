(** Proofs about MsdpModel.v: the program of the marginal searches is the search of SearchModel.v. *)
From Verif Require Import Base GameSpec ShapModel SwingModel LocalModel LocalProofs SearchModel SearchSpec SearchProofs MsdpModel MsdpSpec.
From Coq Require Import NArith Qabs.
Local Open Scope nat_scope.

Lemma fold_nth {A} (f : A -> nat -> A) (l : list nat) (buf : list nat) : firstn (length l) buf = l ->
  forall a, fold_left (fun a i => f a (nth i buf 0)) (seq 0 (length l)) a = fold_left f l a.
Proof.
  intro H.
  assert (G : map (fun i => nth i buf 0) (seq 0 (length l)) = l).
  { apply nth_ext with (d := 0) (d' := 0); [now rewrite map_length, seq_length|].
    intros i Hi. rewrite map_length, seq_length in Hi.
    rewrite nth_indep with (d' := nth 0 buf 0) by now rewrite map_length, seq_length.
    rewrite (map_nth (fun i => nth i buf 0)), seq_nth by trivial. cbn.
    rewrite <- (firstn_skipn (length l) buf), H. now rewrite app_nth1. }
  intro a. transitivity (fold_left f (map (fun i => nth i buf 0) (seq 0 (length l))) a); [|now rewrite G].
  clear. revert a. induction (seq 0 (length l)) as [|i r IH]; intro a; cbn; [reflexivity|apply IH].
Qed.
Lemma put_fits l a : length l <= length a -> put l a = Some (l ++ skipn (length l) a).
Proof. unfold put. intro H. apply Nat.leb_le in H. now rewrite H. Qed.
Lemma put_length l a b : put l a = Some b -> length b = length a.
Proof.
  unfold put. destruct (Nat.leb_spec (length l) (length a)) as [H|]; [|discriminate].
  intro E. injection E as <-. rewrite app_length, skipn_length. lia.
Qed.
Lemma firstn_put l (r : list nat) : firstn (length l) (l ++ r) = l.
Proof. rewrite firstn_app, Nat.sub_diag, firstn_all. cbn. now rewrite app_nil_r. Qed.

Lemma remove_filter k l : NoDup l -> In k l -> py_remove k l = Some (filter (fun j => negb (j =? k)) l).
Proof.
  induction 1 as [|a l Ha Hn IH]; intro H; [easy|]. cbn [py_remove filter].
  destruct (Nat.eqb_spec a k) as [->|E]; cbn [negb].
  - f_equal. symmetry. apply filter_true. intros x Hx. destruct (Nat.eqb_spec x k) as [->|]; [contradiction|reflexivity].
  - destruct H as [->|H]; [congruence|]. now rewrite (IH H).
Qed.
Lemma removals dn : forall R, NoDup dn -> NoDup R -> incl dn R ->
  attempt (fun R k => py_remove k R) dn R = Some (fold_left (fun R' k => pop_back (std_remove k R')) dn R).
Proof.
  induction dn as [|k dn IH]; intros R Hd HR Hi; [reflexivity|]. cbn [attempt fold_left].
  inversion Hd as [|? ? Hk Hd']; subst.
  rewrite (remove_filter k R), (pop_remove k R) by (trivial; apply Hi; now left).
  apply IH; [trivial|now apply NoDup_filter'|].
  intros x Hx. apply filter_In. split; [apply Hi; now right|].
  destruct (Nat.eqb_spec x k) as [->|]; [contradiction|reflexivity].
Qed.

Lemma fold_ext {A B} (f g : A -> B -> A) l : (forall a x, In x l -> f a x = g a x) -> forall a, fold_left f l a = fold_left g l a.
Proof.
  induction l as [|x l IH]; intros H a; [reflexivity|]. cbn. rewrite H by now left. apply IH. intros b y Hy. apply H. now right.
Qed.

Section P.
Context {Y : Type}.
Variable predict : pt -> Y.
Variable same : Y -> Y -> bool.
Variable d : nat.
Variable data : list pt.
Variable X : list pt.
Variable pi : Q.

(** the value seen by the search, -1 for a NaN *)
Definition score (k : nat) (S : list nat) : Q :=
  match nth k (msdp_with predict same d X S data) None with Some q => q | None => (-1)%Q end.
Definition fine (rw : nat -> row) : Prop := forall k, (0 <= r_sdp (rw k))%Q /\ length (r_star (rw k)) = d.
Notation try_set := (try_set predict same d data X).
Notation try_size := (try_size predict same d data X pi).

Lemma write_length S star : length S <= length star -> length (write_star S star) = length star.
Proof. intro H. unfold write_star. rewrite app_length, map_length, skipn_length. lia. Qed.
Lemma score_value k S p : nth k (msdp_with predict same d X S data) None = Some p -> (0 <= p)%Q.
Proof.
  intro H. unfold msdp_with in H.
  destruct (nth_in_or_default k (map (single_msdp_with predict same d S data) X) None) as [Hi|Hd];
    [|rewrite Hd in H; discriminate].
  rewrite H in Hi. apply in_map_iff in Hi. destruct Hi as [x [E _]].
  now apply msdp_bounds in E.
Qed.

Lemma look_update k S r : length S <= d -> (0 <= r_sdp r)%Q -> length (r_star r) = d ->
  look d S (nth k (msdp_with predict same d X S data) None) r = update_row v_msdp d pi S (score k S) r.
Proof.
  intros HS H0 Hl. unfold look, update_row, score. cbn [v_need v_full v_msdp negb orb andb].
  rewrite andb_true_r. cbn zeta.
  set (p := nth k (msdp_with predict same d X S data) None).
  assert (E : (match p with
            | Some q => if qleb (r_sdp r) q then mkRow q (length S) (write_star S (r_star r)) else r
            | None => r end) =
            (if qleb (r_sdp r) (match p with Some q => q | None => (-1)%Q end)
             then mkRow (match p with Some q => q | None => (-1)%Q end) (length S) (write_star S (r_star r)) else r)).
  { destruct p; [reflexivity|]. destruct (qleb_spec (r_sdp r) (-1)); [lra|reflexivity]. }
  rewrite E. clear E. set (r1 := if qleb _ _ then _ else _).
  assert (H1 : length (r_star r1) = d).
  { unfold r1. destruct (qleb _ _); [cbn [r_star]; rewrite write_length; lia|trivial]. }
  destruct (Nat.eqb_spec (length S) d) as [E|]; [|reflexivity].
  f_equal. unfold clear_star. rewrite E, Nat.sub_diag. cbn [repeat]. rewrite app_nil_r. symmetry.
  apply firstn_all2. rewrite write_length; lia.
Qed.
Lemma update_fine k S r : length S <= d -> (0 <= r_sdp r)%Q /\ length (r_star r) = d ->
  let r' := update_row v_msdp d pi S (score k S) r in (0 <= r_sdp r')%Q /\ length (r_star r') = d.
Proof.
  intros HS [H0 Hl]. cbn zeta. rewrite <- look_update by trivial. unfold look.
  set (p := nth k (msdp_with predict same d X S data) None).
  assert (H1 : let r1 := match p with
            | Some q => if qleb (r_sdp r) q then mkRow q (length S) (write_star S (r_star r)) else r
            | None => r end in (0 <= r_sdp r1)%Q /\ length (r_star r1) = d).
  { cbn zeta. destruct p as [q|] eqn:Ep; [|now split]. destruct (qleb (r_sdp r) q); [|now split].
    cbn [r_sdp r_star]. split; [apply (score_value k S); trivial|rewrite write_length; lia]. }
  cbn zeta in H1 |- *. destruct (length S =? d); [|trivial].
  cbn [r_sdp r_star]. split; [lra|]. rewrite write_length; lia.
Qed.

(** the rows after one candidate set *)
Lemma set_rows S R : length S <= d -> forall rw, fine rw ->
  let rw' := fold_left (fun rw k => upd rw k (look d S (nth k (msdp_with predict same d X S data) None) (rw k))) R rw in
  rw' = fold_left (fun rw ip => upd rw (fst ip) (update_row v_msdp d pi S (snd ip) (rw (fst ip))))
                  (combine R (map (fun k => score k S) R)) rw /\ fine rw'.
Proof.
  intro HS. induction R as [|k R IH]; intros rw Hf; [now split|]. cbn [fold_left map combine fst snd].
  destruct (Hf k) as [H0 Hl]. rewrite look_update by trivial. apply IH.
  intro j. unfold upd. destruct (j =? k); [now apply update_fine|apply Hf].
Qed.

(** the state of the program is that of the search *)
Definition sound (a : vars) : Prop :=
  fine (p_rows a) /\ length (p_S a) = d /\ length (p_buf a) = length X /\ length (p_R a) <= length X.
Definition cand_ok (S : list nat) : Prop := length S <= d /\ forall s, In s S -> s < d.

Lemma try_set_spec a S : sound a -> cand_ok S ->
  exists b, try_set a S = Some b /\ sound b /\
    p_rows b = one_set v_msdp d pi score (length X) (p_R a) (p_rows a) S /\
    p_glob b = p_glob a /\ p_R b = p_R a /\ firstn (length (p_R a)) (p_buf b) = p_R a /\
    p_N b = length (p_R a) /\ p_size b = length S.
Proof.
  intros [Hf [HS [Hb HR]]] [Hl Hc]. unfold MsdpModel.try_set.
  rewrite put_fits by lia. rewrite put_fits by lia. rewrite firstn_put. unfold values.
  assert (E : forallb (fun s => s <? d) S = true).
  { apply forallb_forall. intros s Hs. apply Nat.ltb_lt. now apply Hc. }
  rewrite E, orb_true_r.
  set (buf := p_R a ++ skipn (length (p_R a)) (p_buf a)).
  set (f := fun (rw : nat -> row) k => upd rw k (look d S (nth k (msdp_with predict same d X S data) None) (rw k))).
  pose proof (fold_nth f (p_R a) buf (firstn_put _ _) (p_rows a)) as HF.
  destruct (set_rows S (p_R a) Hl (p_rows a) Hf) as [H1 H2]. fold f in H1, H2.
  eexists. split; [reflexivity|]. unfold sound. cbn [p_rows p_S p_buf p_R p_glob p_N p_size].
  cbn zeta. fold f. unfold f in HF |- *. rewrite HF.
  split; [split; [exact H2|unfold buf; rewrite !app_length, !skipn_length; lia]|].
  split; [unfold one_set, estimates; cbn [v_mask v_msdp]; exact H1|].
  unfold buf. rewrite firstn_put. now repeat split.
Qed.

Lemma try_sets_spec sets : forall a, sound a -> (forall S, In S sets -> cand_ok S) -> sets <> [] ->
  exists b, attempt try_set sets a = Some b /\ sound b /\
    p_rows b = fold_left (one_set v_msdp d pi score (length X) (p_R a)) sets (p_rows a) /\
    p_glob b = p_glob a /\ p_R b = p_R a /\ firstn (length (p_R a)) (p_buf b) = p_R a /\
    p_N b = length (p_R a) /\ p_size b = last_size sets.
Proof.
  induction sets as [|S sets IH]; intros a Ha Hs Hn; [easy|]. cbn [attempt fold_left].
  destruct (try_set_spec a S Ha (Hs S (or_introl eq_refl))) as [b [E [Hb [H1 [H2 [H3 [H4 [H5 H6]]]]]]]]. rewrite E.
  destruct sets as [|S' sets].
  - exists b. cbn [attempt fold_left]. repeat (split; trivial).
  - destruct (IH b Hb) as [c [E' [Hc [G1 [G2 [G3 [G4 [G5 G6]]]]]]]];
      [intros T HT; apply Hs; now right|discriminate|].
    exists c. rewrite E', H3 in *. split; [reflexivity|]. split; [trivial|].
    rewrite G1, G2, G3, G5, G6, H1, H2. repeat split; trivial.
Qed.

Definition wipe (r : row) : row := mkRow (r_sdp r) (r_len r) (clear_star (r_len r) d (r_star r)).
Lemma clear_fine rw k : fine rw -> fine (upd rw k (wipe (rw k))).
Proof.
  intros Hf j. unfold upd. destruct (j =? k); [|apply Hf]. unfold wipe. cbn [r_sdp r_star]. destruct (Hf k) as [H0 Hl].
  split; [trivial|]. unfold clear_star. rewrite app_length, firstn_length, repeat_length. lia.
Qed.
Lemma settle_list R : NoDup R -> forall rw g acc, fine rw ->
  let done := filter (fun k => qleb pi (r_sdp (rw k))) R in
  let step := fun (w : (nat -> row) * (Z -> nat) * list nat) k =>
    if qleb pi (r_sdp (fst (fst w) k)) then
      (upd (fst (fst w)) k (wipe (fst (fst w) k)), count_row (wipe (fst (fst w) k)) (snd (fst w)), snd w ++ [k]) else w in
  let rw' := fold_left (fun rw k => upd rw k (wipe (rw k))) done rw in
  fold_left step R (rw, g, acc) = (rw', fold_left (fun g k => count_row (wipe (rw k)) g) done g, acc ++ done) /\ fine rw'.
Proof.
  induction 1 as [|k R Hk Hn IH]; intros rw g acc Hf; cbn zeta.
  - cbn. now rewrite app_nil_r.
  - cbn [fold_left filter fst snd]. destruct (qleb pi (r_sdp (rw k))) eqn:E.
    + cbn [fold_left]. specialize (IH (upd rw k (wipe (rw k))) (count_row (wipe (rw k)) g) (acc ++ [k]) (clear_fine rw k Hf)).
      cbn zeta in IH.
      assert (Hd : filter (fun j => qleb pi (r_sdp (upd rw k (wipe (rw k)) j))) R = filter (fun j => qleb pi (r_sdp (rw j))) R).
      { apply filter_ext_in'. intros j Hj. rewrite upd_other; [reflexivity|]. intros ->. contradiction. }
      rewrite Hd in IH. destruct IH as [IH1 IH2]. split; [|exact IH2]. rewrite IH1. rewrite <- app_assoc. cbn [app].
      f_equal. f_equal. apply fold_ext. intros a j Hj. apply filter_In in Hj. destruct Hj as [Hj _].
      rewrite upd_other; [reflexivity|]. intros ->. contradiction.
    + apply IH, Hf.
Qed.

Definition matches (a : vars) (st : sstate) : Prop :=
  sound a /\ p_rows a = s_rows st /\ p_R a = s_R st /\ p_glob a = s_glob st /\ ok_state pi (length X) st.

Lemma settle_spec b R : NoDup R -> fine (p_rows b) -> p_R b = R -> p_N b = length R -> firstn (length R) (p_buf b) = R ->
  let done := filter (fun k => qleb pi (r_sdp (p_rows b k))) R in
  let rw' := fold_left (fun rw k => upd rw k (wipe (rw k))) done (p_rows b) in
  fold_left (settle d pi b) (seq 0 (p_N b)) (p_rows b, p_glob b, []) =
    (rw', fold_left (fun g k => count_row (wipe (p_rows b k)) g) done (p_glob b), done) /\ fine rw'.
Proof.
  intros Hn Hf HR HN Hb. cbn zeta. pose proof (settle_list R Hn (p_rows b) (p_glob b) [] Hf) as H. cbn zeta in H.
  destruct H as [H1 H2]. split; [|exact H2]. cbn [app] in H1. rewrite <- H1, HN.
  erewrite <- (fold_nth _ R (p_buf b) Hb). apply fold_ext. intros w i Hi. apply in_seq in Hi.
  unfold settle. rewrite HR.
  assert (E : nth i R 0 = nth i (p_buf b) 0).
  { rewrite <- (firstn_skipn (length R) (p_buf b)), Hb. now rewrite app_nth1 by lia. }
  rewrite E. reflexivity.
Qed.

Lemma try_size_spec a st sets : matches a st -> (forall S, In S sets -> cand_ok S) -> sets <> [] ->
  exists b, try_size a sets = Some b /\ matches b (one_level v_msdp d pi score (length X) sets st) /\ p_size b = last_size sets.
Proof.
  intros [Ha [E1 [E2 [E3 Hok]]]] Hs Hn.
  assert (HnR : NoDup (s_R st)) by (rewrite Hok; apply NoDup_filter, seq_NoDup).
  destruct (try_sets_spec sets a Ha Hs Hn) as [b [E [Hb [H1 [H2 [H3 [H4 [H5 H6]]]]]]]].
  rewrite E2, E1, E3 in *.
  unfold MsdpModel.try_size. rewrite E. cbn zeta.
  destruct Hb as [Hf [HS [Hbl HRl]]].
  destruct (settle_spec b (s_R st) HnR Hf H3 H5 H4) as [Hw Hf']. rewrite Hw. cbn [fst snd].
  set (done := filter (fun k => qleb pi (r_sdp (p_rows b k))) (s_R st)) in *.
  rewrite H3, removals; trivial.
  2:{ apply NoDup_filter, HnR. } 2:{ intros x Hx. now apply filter_In in Hx. }
  eexists. split; [reflexivity|]. cbn [p_size]. split; [|exact H6].
  unfold matches, sound. cbn [p_rows p_S p_buf p_R p_glob].
  pose proof (one_level_ok v_msdp d pi score (length X) sets st Hok) as Hok'.
  assert (HR' : fold_left (fun R' k => pop_back (std_remove k R')) done (s_R st) = s_R (one_level v_msdp d pi score (length X) sets st)).
  { unfold one_level. cbn [s_R]. unfold done. rewrite H1. reflexivity. }
  split; [|split; [|split; [exact HR'|split; [|exact Hok']]]].
  - split; [exact Hf'|]. split; [exact HS|]. split; [exact Hbl|]. rewrite HR', Hok'.
    unfold undone. etransitivity; [apply filter_length_le|]. now rewrite seq_length.
  - unfold one_level. cbn [s_rows v_clean v_msdp]. unfold done. rewrite H1. reflexivity.
  - unfold one_level. cbn [s_glob v_clean v_msdp]. rewrite <- H1. fold done. rewrite H2.
    apply fold_ext. intros g k Hk. f_equal.
    rewrite (fold_upd wipe) by (apply NoDup_filter, HnR). apply memb_true in Hk. now rewrite Hk.
Qed.

Lemma try_sizes_spec stop pw : (forall sets, In sets pw -> sets <> [] /\ forall S, In S sets -> cand_ok S) ->
  forall idx a st, matches a st ->
  match search_loop v_msdp d pi score stop (length X) pw idx st with
  | Some st' => exists b, try_sizes predict same d data X pi stop pw idx a = Some b /\ matches b st'
  | None => try_sizes predict same d data X pi stop pw idx a = None
  end.
Proof.
  intro Hp. induction idx as [|s_0 idx IH]; intros a st Hm; cbn [search_loop try_sizes].
  - exists a. now split.
  - destruct (nth_error pw s_0) as [sets|] eqn:En; [|reflexivity].
    destruct (Hp sets (nth_error_In _ _ En)) as [Hne Hc].
    destruct (try_size_spec a st sets Hm Hc Hne) as [b [E [Hb Hz]]]. rewrite E.
    assert (E2 : p_R b = s_R (one_level v_msdp d pi score (length X) sets st)) by apply Hb.
    rewrite E2, Hz. cbn [v_half v_msdp].
    destruct (_ && stop); [exists b; now split|]. now apply IH.
Qed.
Lemma start_matches : (0 < pi)%Q -> matches (vars0 d X) (state0 d (length X)).
Proof.
  intro H0. unfold matches, sound, vars0, state0. cbn [p_rows p_S p_buf p_R p_glob s_rows s_R s_glob].
  split; [|split; [|split; [|split]]]; trivial.
  - rewrite !repeat_length, seq_length. split; [|lia]. intro k. cbn [row0 r_sdp r_star]. rewrite repeat_length. split; [lra|trivial].
  - unfold ok_state, undone. cbn [s_R s_rows row0 r_sdp]. symmetry. apply filter_true. intros k _.
    destruct (qleb_spec pi 0); [lra|reflexivity].
Qed.
End P.

(** Proofs about the sequential Shapley routine. *)
From Verif Require Import Base TreeModel TreeSpec GameSpec ShapModel ShapSpec ShapProofs NopaModel.
Require Import Permutation Lia Setoid.

(** ** Positions *)
Lemma find_pos_memb i l : (find_pos (Nat.eqb i) l <? length l) = memb i l.
Proof.
  induction l as [|a l IH]; [reflexivity|]. cbn [find_pos length memb existsb].
  unfold memb in *. cbn [existsb]. destruct (Nat.eqb i a) eqn:E; cbn [orb]; [reflexivity|].
  rewrite <- IH. reflexivity.
Qed.
Lemma find_pos_ext {A} (f g : A -> bool) l : (forall a, f a = g a) -> find_pos f l = find_pos g l.
Proof. intro H. induction l as [|a l IH]; cbn; [trivial|]. now rewrite H, IH. Qed.
Lemma find_pos_find {A} (f : A -> bool) l d :
  match find f l with
  | Some g => find_pos f l < length l /\ nth (find_pos f l) l d = g
  | None => find_pos f l = length l
  end.
Proof.
  induction l as [|a l IH]; cbn; [trivial|]. destruct (f a); [split; [lia|trivial]|].
  destruct (find f l); [destruct IH; split; [lia|trivial]|lia].
Qed.
Lemma find_pos_split {A} (f : A -> bool) l : find_pos f l < length l ->
  exists pre x post, l = pre ++ x :: post /\ length pre = find_pos f l /\ f x = true /\
    (forall a, In a pre -> f a = false).
Proof.
  induction l as [|a l IH]; cbn; [lia|]. intro H. destruct (f a) eqn:E.
  - exists [], a, l. cbn. repeat split; trivial. intros b [].
  - destruct IH as [pre [x [post [H1 [H2 [H3 H4]]]]]]; [lia|].
    exists (a :: pre), x, post. cbn. rewrite <- H1, H2. repeat split; trivial.
    intros b [<-|Hb]; [trivial|auto].
Qed.

(** ** std::remove *)
Definition ne (g : group) : bool := match g with [] => false | _ => true end.
Lemma set_nth_app {A} (v : A) a e b k : k = length a -> set_nth k v (a ++ e :: b) = a ++ v :: b.
Proof. intros ->. induction a as [|c a IH]; cbn; [trivial|now rewrite IH]. Qed.
Lemma nth_app_mid {A} (a : list A) e b d k : k = length a -> nth k (a ++ e :: b) d = e.
Proof. intros ->. rewrite app_nth2 by lia. now rewrite Nat.sub_diag. Qed.
Lemma filter_none {A} (f : A -> bool) l : (forall a, In a l -> f a = false) -> filter f l = [].
Proof.
  induction l as [|a l IH]; cbn; [trivial|]. intro H. rewrite (H a) by now left. apply IH. auto.
Qed.

Lemma filter_every {A} (f : A -> bool) l : (forall a, In a l -> f a = true) -> filter f l = l.
Proof.
  induction l as [|a l IH]; cbn; [trivial|]. intro H. rewrite (H a) by now left. f_equal. apply IH. auto.
Qed.

Lemma removelast_snoc {A} (l : list A) a : removelast (l ++ [a]) = l.
Proof. rewrite removelast_app by discriminate. cbn. apply app_nil_r. Qed.

(** second phase: a gap of empty groups between the kept entries and the rest *)
Lemma pass_gap val v0 rest : forall front gap,
  (forall l, val (front ++ l) = v0) ->
  (forall e, In e rest -> e <> [] -> e <> v0) ->
  gap <> [] -> (forall g, In g gap -> g = []) ->
  let a' := remove_pass val (length rest) (length front + length gap) (length front)
                        (front ++ gap ++ rest) in
  length a' = length (front ++ gap ++ rest) /\
  filter ne (removelast a') = filter ne (front ++ rest).
Proof.
  induction rest as [|e rest IH]; intros front gap Hval Hne Hg Hgap.
  - cbn [remove_pass length]. rewrite !app_nil_r. split; [trivial|].
    destruct (exists_last Hg) as [g' [z ->]]. rewrite app_assoc, removelast_snoc, filter_app.
    rewrite (filter_none ne g'). { apply app_nil_r. }
    intros a Ha. rewrite (Hgap a); [reflexivity|]. apply in_or_app. now left.
  - cbn [remove_pass length]. cbv zeta.
    assert (En : nth (length front + length gap) (front ++ gap ++ e :: rest) [] = e).
    { rewrite app_assoc. apply nth_app_mid. rewrite app_length. lia. }
    rewrite En. rewrite Hval.
    destruct (group_eq_dec e v0) as [->|Hd].
    + assert (Ee : v0 = []).
      { destruct v0 as [|n v0]; [trivial|]. exfalso.
        apply (Hne (n :: v0)); [now left|discriminate|reflexivity]. }
      specialize (IH front (gap ++ [v0]) Hval).
      rewrite app_length, <- app_assoc in IH. cbn [length app] in IH.
      replace (length front + (length gap + 1)) with (S (length front + length gap)) in IH by lia.
      destruct IH as [I1 I2].
      * intros x Hx. apply Hne. now right.
      * destruct gap; discriminate.
      * intros g Hi. apply in_app_or in Hi. destruct Hi as [Hi|[<-|[]]]; auto.
      * split; [exact I1|]. rewrite I2, !filter_app. cbn [filter]. subst v0. reflexivity.
    + destruct gap as [|z gap]; [congruence|].
      assert (Ea : set_nth (length front + length (z :: gap)) []
                     (set_nth (length front) e (front ++ (z :: gap) ++ e :: rest))
                   = (front ++ [e]) ++ (gap ++ [[]]) ++ rest).
      { cbn [app]. rewrite (set_nth_app e front z) by reflexivity.
        replace (front ++ e :: gap ++ e :: rest) with ((front ++ e :: gap) ++ e :: rest)
          by now rewrite <- app_assoc.
        rewrite set_nth_app by (rewrite app_length; cbn; lia).
        rewrite <- !app_assoc. reflexivity. }
      rewrite Ea. specialize (IH (front ++ [e]) (gap ++ [[]])).
      rewrite !app_length in IH. cbn [length] in IH.
      replace (length front + 1 + (length gap + 1)) with (S (length front + S (length gap))) in IH by lia.
      replace (length front + 1) with (S (length front)) in IH by lia. cbn [length].
      destruct IH as [I1 I2].
      * intro l. rewrite <- app_assoc. apply Hval.
      * intros x Hx. apply Hne. now right.
      * destruct gap; discriminate.
      * intros g Hi. apply in_app_or in Hi. destruct Hi as [Hi|[<-|[]]]; [|trivial].
        apply Hgap. now right.
      * split.
        -- rewrite I1. rewrite !app_length. cbn [length app]. rewrite ?app_length. cbn. lia.
        -- rewrite I2, <- app_assoc. reflexivity.
Qed.

(** the whole deletion, from the entry [x] on *)
Lemma pass_all val pre x post :
  val (pre ++ x :: post) = x ->
  (forall e r, post = e :: r ->
     e <> x /\ exists v0, (forall l, val ((pre ++ [e]) ++ l) = v0) /\
                          forall e', In e' r -> e' <> [] -> e' <> v0) ->
  let a' := remove_pass val (length post) (S (length pre)) (length pre) (pre ++ x :: post) in
  length a' = length (pre ++ x :: post) /\
  filter ne (removelast a') = filter ne (pre ++ post).
Proof.
  intros Hv Hp. destruct post as [|e r]; cbn [length remove_pass]; cbv zeta.
  - split; [trivial|]. now rewrite removelast_snoc, app_nil_r.
  - destruct (Hp e r eq_refl) as [Hex [v0 [Hval Hne]]].
    assert (En : nth (S (length pre)) (pre ++ x :: e :: r) [] = e).
    { replace (pre ++ x :: e :: r) with ((pre ++ [x]) ++ e :: r) by now rewrite <- app_assoc.
      apply nth_app_mid. rewrite app_length; cbn; lia. }
    rewrite En, Hv. destruct (group_eq_dec e x) as [E|_]; [contradiction|].
    rewrite (set_nth_app e pre x) by reflexivity.
    replace (pre ++ e :: e :: r) with ((pre ++ [e]) ++ e :: r) by now rewrite <- app_assoc.
    rewrite set_nth_app by (rewrite app_length; cbn; lia).
    pose proof (pass_gap val v0 r (pre ++ [e]) [[]] Hval Hne) as G.
    cbn [app] in G. rewrite !app_length in G. cbn [length] in G.
    replace (length pre + 1 + 1) with (S (S (length pre))) in G by lia.
    replace (length pre + 1) with (S (length pre)) in G by lia.
    destruct G as [G1 G2]; [discriminate|intros g [<-|[]]; trivial|].
    split.
    + rewrite G1, !app_length. cbn. lia.
    + rewrite G2, <- app_assoc. reflexivity.
Qed.

Lemma remove1_app g pre post : ~ In g pre -> remove1 g (pre ++ g :: post) = pre ++ post.
Proof.
  induction pre as [|k pre IH]; cbn; intro H.
  - destruct (group_eq_dec g g); congruence.
  - destruct (group_eq_dec k g) as [E|E]; [exfalso; auto|]. rewrite IH; auto.
Qed.

Lemma concat_mid_notin pre (x : group) post : x <> [] -> NoDup (concat (pre ++ x :: post)) ->
  ~ In x pre /\ ~ In x post.
Proof.
  intros Hx Hd. destruct x as [|i x]; [congruence|].
  rewrite concat_app in Hd. cbn [concat] in Hd. split; intro H.
  - eapply (NoDup_app_inv_disj _ _ i Hd).
    + eapply in_concat_of; [exact H|now left].
    + apply in_or_app. left. now left.
  - apply NoDup_app_r in Hd. eapply (NoDup_app_inv_disj _ _ i Hd); [now left|].
    eapply in_concat_of; [exact H|now left].
Qed.

Lemma drop_at_spec a f : NoDup (concat a) -> (forall g, f g = true -> g <> []) ->
  find_pos f a < length a ->
  let ci := find_pos f a in
  filter ne (drop_at ci a) = filter ne (remove1 (nth ci a []) a).
Proof.
  intros Hd Hf Hlt. cbv zeta. destruct (find_pos_split f a Hlt) as [pre [x [post [Ea [Hl [Hx Hpre]]]]]].
  rewrite <- Hl. set (k := length pre). assert (Hxe : x <> []) by now apply Hf.
  rewrite Ea in Hd |- *.
  assert (Hnx : nth k (pre ++ x :: post) [] = x) by now apply nth_app_mid.
  destruct (concat_mid_notin pre x post Hxe Hd) as [Hn1 Hn2].
  unfold drop_at, std_remove. rewrite Hnx.
  assert (Hk0 : find_pos (fun e => if group_eq_dec e x then true else false) (pre ++ x :: post) = k).
  { subst k. clear - Hn1. induction pre as [|p pre IH]; cbn.
    - destruct (group_eq_dec x x); congruence.
    - destruct (group_eq_dec p x) as [E|E]; [exfalso; apply Hn1; now left|].
      f_equal. apply IH. intro. apply Hn1. now right. }
  rewrite Hk0. assert (Hkl : (k <? length (pre ++ x :: post)) = true).
  { apply Nat.ltb_lt. rewrite app_length. cbn. lia. }
  rewrite Hkl. rewrite (remove1_app x pre post Hn1).
  replace (length (pre ++ x :: post) - S k) with (length post) by (rewrite app_length; cbn; lia).
  apply (pass_all (fun b => nth k b []) pre x post Hnx).
  intros e r ->. split.
  - intros ->. apply Hn2. now left.
  - exists e. split.
    + intro l. rewrite <- app_assoc. cbn. now apply nth_app_mid.
    + intros e' He' Hne ->. rewrite concat_app in Hd. apply NoDup_app_r in Hd. cbn [concat] in Hd.
      apply NoDup_app_r in Hd. destruct e as [|i e]; [congruence|].
      eapply (NoDup_app_inv_disj _ _ i Hd); [now left|]. eapply in_concat_of; [exact He'|now left].
Qed.

Lemma filter_full {A} (f : A -> bool) l : length (filter f l) = length l -> filter f l = l.
Proof.
  induction l as [|a l IH]; cbn; [trivial|]. pose proof (filter_length_le f l) as H.
  destruct (f a); cbn; intro E; [f_equal; apply IH; lia|lia].
Qed.
Lemma removelast_length {A} (l : list A) : length (removelast l) = length l - 1.
Proof.
  destruct l as [|a l]; [trivial|]. assert (H : a :: l <> []) by discriminate.
  destruct (exists_last H) as [l' [z E]]. rewrite E, removelast_snoc, app_length. cbn. lia.
Qed.

Lemma drop_value_spec a v : NoDup a -> (forall g, In g a -> g <> []) -> In v a ->
  drop_value v a = remove1 v a.
Proof.
  intros Hd Hne Hv. destruct (in_split v a Hv) as [pre [post ->]].
  assert (Hn1 : ~ In v pre).
  { intro H. eapply (NoDup_app_inv_disj _ _ v Hd); [exact H|now left]. }
  assert (Hn2 : ~ In v post).
  { apply NoDup_app_r in Hd. inversion Hd; trivial. }
  rewrite (remove1_app v pre post Hn1). unfold drop_value, std_remove.
  assert (Hk0 : find_pos (fun e => if group_eq_dec e v then true else false) (pre ++ v :: post) = length pre).
  { clear - Hn1. induction pre as [|p pre IH]; cbn.
    - destruct (group_eq_dec v v); congruence.
    - destruct (group_eq_dec p v) as [E|E]; [exfalso; apply Hn1; now left|].
      f_equal. apply IH. intro. apply Hn1. now right. }
  rewrite Hk0. assert (Hkl : (length pre <? length (pre ++ v :: post)) = true).
  { apply Nat.ltb_lt. rewrite app_length. cbn. lia. }
  rewrite Hkl.
  replace (length (pre ++ v :: post) - S (length pre)) with (length post) by (rewrite app_length; cbn; lia).
  destruct (pass_all (fun _ => v) pre v post eq_refl) as [L E].
  { intros e r ->. split; [intros ->; apply Hn2; now left|].
    exists v. split; [trivial|]. intros e' He' _ ->. apply Hn2. now right. }
  assert (E' : filter ne (pre ++ post) = pre ++ post).
  { apply filter_every. intros g Hg.
    assert (g <> []).
    { apply Hne. apply in_app_or in Hg. apply in_or_app. cbn. tauto. }
    destruct g; [congruence|reflexivity]. }
  rewrite E' in E. rewrite <- E. symmetry. apply filter_full.
  rewrite E, removelast_length, L, !app_length. cbn. lia.
Qed.

(** ** The player list and the groups of a leaf *)
Lemma find_ne i a : find (memb i) (filter ne a) = find (memb i) a.
Proof.
  induction a as [|g a IH]; [reflexivity|]. cbn [filter find]. destruct g as [|n g]; cbn [ne].
  - exact IH.
  - cbn [find]. destruct (memb i (n :: g)); [trivial|exact IH].
Qed.
Lemma remove1_ne g a : g <> [] -> filter ne (remove1 g a) = remove1 g (filter ne a).
Proof.
  intro Hg. induction a as [|k a IH]; [reflexivity|]. cbn [remove1 filter].
  destruct (group_eq_dec k g) as [->|E].
  - destruct g as [|n g]; [congruence|]. cbn [ne remove1].
    destruct (group_eq_dec (n :: g) (n :: g)); congruence.
  - cbn [filter]. destruct (ne k); cbn [remove1]; [|exact IH].
    destruct (group_eq_dec k g); [contradiction|]. now rewrite IH.
Qed.
Lemma concat_ne a : concat (filter ne a) = concat a.
Proof.
  induction a as [|g a IH]; [reflexivity|]. destruct g as [|n g]; cbn [filter ne concat]; [exact IH|].
  now rewrite IH.
Qed.

Lemma group_test i g : (find_pos (Nat.eqb i) g <? length g) = memb i g.
Proof. apply find_pos_memb. Qed.
Lemma group_test' i g : (find_pos (fun c => Nat.eqb c i) g <? length g) = memb i g.
Proof.
  rewrite (find_pos_ext _ (Nat.eqb i)) by (intro; apply Nat.eqb_sym). apply find_pos_memb.
Qed.

Lemma drop_step i a B (t : group -> bool) : (forall g, t g = memb i g) ->
  filter ne a = filter ne B -> NoDup (concat B) ->
  match find (memb i) B with
  | Some g => find_pos t a < length a /\ nth (find_pos t a) a [] = g /\
              filter ne (drop_at (find_pos t a) a) = filter ne (remove1 g B) /\
              NoDup (concat (remove1 g B))
  | None => find_pos t a = length a
  end.
Proof.
  intros Ht Hab Hd. rewrite <- find_ne, <- Hab, find_ne.
  rewrite (find_pos_ext t (memb i) a Ht).
  pose proof (find_pos_find (memb i) a []) as F. destruct (find (memb i) a) as [g|] eqn:E; [|exact F].
  destruct F as [F1 F2]. split; [trivial|]. split; [trivial|].
  assert (Hda : NoDup (concat a)) by (rewrite <- concat_ne, Hab, concat_ne; exact Hd).
  assert (Hgne : g <> []). { apply find_group in E. destruct E as [_ E]. intros ->. contradiction. }
  split.
  - rewrite (drop_at_spec a (memb i) Hda).
    + rewrite F2, !(remove1_ne g) by trivial. now rewrite Hab.
    + intros h Hh ->. discriminate.
    + trivial.
  - assert (HgB : In g B).
    { rewrite <- find_ne, Hab, find_ne in E. now apply find_group in E. }
    pose proof (concat_remove1 g B HgB) as P. apply (Permutation_NoDup P) in Hd.
    now apply NoDup_app_r in Hd.
Qed.

Lemma va_fold coal is_ : forall a B acc, filter ne a = filter ne B -> NoDup (concat B) ->
  snd (fold_left (va_step coal) is_ (a, acc)) = acc ++ va_loop coal B is_.
Proof.
  induction is_ as [|i r IH]; intros a B acc Hab Hd; cbn [fold_left va_loop]; [now rewrite app_nil_r|].
  unfold va_step at 2. rewrite find_pos_memb. destruct (memb i coal); cbn [negb].
  - pose proof (drop_step i a B (fun g => find_pos (Nat.eqb i) g <? length g) (group_test i) Hab Hd) as S1.
    destruct (find (memb i) B) as [g|].
    + destruct S1 as [S1 [S2 [S3 S4]]]. apply Nat.ltb_lt in S1. rewrite S1, S2.
      rewrite (IH _ (remove1 g B)) by trivial. now rewrite <- app_assoc.
    + rewrite S1, Nat.ltb_irrefl. now apply IH.
  - rewrite (IH a B) by trivial. now rewrite <- app_assoc.
Qed.
Lemma va_id_arr_eq C m : coalitions_ok C m -> va_id_arr C m = va_ids C m.
Proof.
  intros [Hd _]. unfold va_id_arr, va_ids. destruct (has_coal C); [|trivial].
  now rewrite (va_fold _ _ C C) by trivial.
Qed.
Lemma remove_va_arr_eq C m : remove_va_arr C m = remove_va C m.
Proof. unfold remove_va_arr, remove_va. apply filter_ext. intro i. now rewrite find_pos_memb. Qed.

Lemma leaf_fold rva vars : forall a B acc, filter ne a = filter ne B -> NoDup (concat B) ->
  snd (fold_left (leaf_step rva) vars (a, acc)) = acc ++ leaf_groups_loop rva B vars.
Proof.
  induction vars as [|v r IH]; intros a B acc Hab Hd; cbn [fold_left leaf_groups_loop];
    [now rewrite app_nil_r|].
  unfold leaf_step at 2. rewrite (find_pos_memb v rva). destruct (memb v rva).
  - rewrite (IH a B) by trivial. now rewrite <- app_assoc.
  - pose proof (drop_step v a B (fun g => find_pos (fun c => Nat.eqb c v) g <? length g)
                  (group_test' v) Hab Hd) as S1.
    destruct (find (memb v) B) as [g|].
    + destruct S1 as [S1 [S2 [S3 S4]]]. apply Nat.ltb_lt in S1. rewrite S1, S2.
      rewrite (IH _ (remove1 g B)) by trivial. now rewrite <- app_assoc.
    + rewrite S1, Nat.ltb_irrefl. now apply IH.
Qed.
Lemma push_all vars : forall acc : list group,
  fold_left (fun acc v => acc ++ [[v]]) vars acc = acc ++ map (fun v => [v]) vars.
Proof.
  induction vars as [|v r IH]; intro acc; cbn; [now rewrite app_nil_r|].
  rewrite IH, <- app_assoc. reflexivity.
Qed.
Lemma setf_same {A} (f : nat -> A) k v : setf f k v k = v.
Proof. unfold setf. now rewrite Nat.eqb_refl. Qed.

Lemma leaf_vectors_id C m lf k st : NoDup (concat C) ->
  n_id (leaf_vectors C m lf k st) k = leaf_groups C m (l_vars lf) /\
  n_phi (leaf_vectors C m lf k st) = n_phi st /\ n_S (leaf_vectors C m lf k st) = n_S st.
Proof.
  intro Hd. unfold leaf_vectors, leaf_groups. destruct (has_coal C).
  - rewrite !setf_same.
    destruct (fold_left (leaf_step (remove_va_arr C m)) (l_vars lf) (C, [])) as [c v] eqn:E.
    cbn [n_id n_phi n_S]. rewrite !setf_same. split; [|split; trivial].
    replace v with (snd (c, v)) by reflexivity. rewrite <- E, remove_va_arr_eq.
    now rewrite (leaf_fold _ _ C C) by trivial.
  - cbn [n_id n_phi n_S]. rewrite !setf_same. split; [|split; trivial]. apply push_all.
Qed.

(** ** The buffer *)
Lemma set_nth_length {A} k (v : A) l : length (set_nth k v l) = length l.
Proof. revert k. induction l as [|a l IH]; intros [|k]; cbn; auto. Qed.
Lemma firstn_set_nth {A} k (v : A) l : k < length l ->
  firstn (S k) (set_nth k v l) = firstn k l ++ [v].
Proof.
  revert k. induction l as [|a l IH]; intros [|k]; cbn [length]; try lia; intro H.
  - reflexivity.
  - cbn [set_nth]. change (firstn (S (S k)) (a :: set_nth k v l)) with (a :: firstn (S k) (set_nth k v l)).
    rewrite IH by lia. reflexivity.
Qed.

Lemma put_group_spec g : forall S_ k, k + length g <= length S_ ->
  exists S', ofold put_group g (S_, k) = Some (S', k + length g) /\ length S' = length S_ /\
             firstn (k + length g) S' = firstn k S_ ++ g.
Proof.
  induction g as [|v g IH]; intros S_ k H; cbn [length] in *.
  - exists S_. cbn [ofold]. rewrite Nat.add_0_r, app_nil_r. auto.
  - cbn [ofold]. unfold put_group at 1, put. cbn [fst snd].
    assert (E : (k <? length S_) = true) by (apply Nat.ltb_lt; lia). rewrite E.
    destruct (IH (set_nth k v S_) (S k)) as [S' [H1 [H2 H3]]]; [rewrite set_nth_length; lia|].
    exists S'. replace (k + S (length g)) with (S k + length g) by lia. split; [exact H1|].
    split; [now rewrite H2, set_nth_length|].
    rewrite H3, firstn_set_nth by lia. now rewrite <- app_assoc.
Qed.
Lemma put_group_overflow g : forall S_ k, k <= length S_ -> length S_ < k + length g ->
  ofold put_group g (S_, k) = None.
Proof.
  induction g as [|v g IH]; intros S_ k H1 H2; cbn [length] in *; [lia|].
  cbn [ofold]. unfold put_group at 1, put. cbn [fst snd].
  destruct (k <? length S_) eqn:E; [|trivial]. apply Nat.ltb_lt in E.
  apply IH; rewrite set_nth_length; lia.
Qed.

Lemma pick_from_length ci counter gs : length (concat (pick_from ci counter gs)) <= length (concat gs).
Proof.
  revert ci. induction gs as [|g gs IH]; intro ci; cbn; [lia|]. specialize (IH (S ci)).
  destruct (Nat.testbit counter ci); cbn; rewrite ?app_length; lia.
Qed.

Lemma fill_spec counter gs : forall ci S_ k v, k + length (concat (pick_from ci counter gs)) <= length S_ ->
  exists S', fill ci counter gs S_ k v =
               Some (S', k + length (concat (pick_from ci counter gs)), v + length (pick_from ci counter gs))
    /\ length S' = length S_
    /\ firstn (k + length (concat (pick_from ci counter gs))) S' = firstn k S_ ++ concat (pick_from ci counter gs).
Proof.
  induction gs as [|g gs IH]; intros ci S_ k v H; cbn [fill pick_from] in *.
  - exists S_. cbn. rewrite !Nat.add_0_r, app_nil_r. auto.
  - destruct (Nat.testbit counter ci); cbn [concat length] in *; [|now apply IH].
    rewrite app_length in H |- *.
    destruct (put_group_spec g S_ k) as [S1 [H1 [H2 H3]]]; [lia|]. rewrite H1.
    destruct (IH (S ci) S1 (k + length g) (S v)) as [S' [I1 [I2 I3]]]; [lia|].
    exists S'. rewrite I1. rewrite Nat.add_assoc. split; [|split].
    + replace (S v + length (pick_from (S ci) counter gs)) with (v + S (length (pick_from (S ci) counter gs))) by lia.
      reflexivity.
    + lia.
    + rewrite I3, H3. now rewrite <- app_assoc.
Qed.
Lemma fill_overflow counter gs : forall ci S_ k v, k <= length S_ ->
  length S_ < k + length (concat (pick_from ci counter gs)) -> fill ci counter gs S_ k v = None.
Proof.
  induction gs as [|g gs IH]; intros ci S_ k v H1 H2; cbn [fill pick_from] in *; [cbn in H2; lia|].
  destruct (Nat.testbit counter ci); cbn [concat] in *; [|now apply IH].
  rewrite app_length in H2. destruct (le_lt_dec (k + length g) (length S_)) as [L|L].
  - destruct (put_group_spec g S_ k L) as [S1 [E1 [E2 _]]]. rewrite E1. apply IH; lia.
  - now rewrite put_group_overflow by lia.
Qed.

Lemma read_back {A} (l : list A) d k : k <= length l -> map (fun s => nth s l d) (seq 0 k) = firstn k l.
Proof.
  revert k. induction l as [|a l IH]; intros [|k]; cbn [length]; try reflexivity; intro H; [lia|].
  cbn [seq map firstn]. f_equal. rewrite <- seq_shift, map_map. apply IH. lia.
Qed.

(** ** Accumulation *)
Local Open Scope Q_scope.

Lemma ofold_sum {A} (R : nst -> (nat -> nat -> Q) -> Prop) (ok : nst -> Prop)
  (f : nst -> A -> option nst) (D : A -> nat -> nat -> Q) l :
  (forall st a, In a l -> ok st -> exists st', f st a = Some st' /\ ok st' /\
     forall i j, n_phi st' i j == n_phi st i j + D a i j) ->
  forall st, ok st -> exists st', ofold f l st = Some st' /\ ok st' /\
     forall i j, n_phi st' i j == n_phi st i j + sumf (fun a => D a i j) l.
Proof.
  induction l as [|a l IH]; intros H st Hok; cbn [ofold].
  - exists st. split; [trivial|]. split; [trivial|]. intros i j. cbn. ring.
  - destruct (H st a (or_introl eq_refl) Hok) as [s1 [E1 [O1 P1]]]. rewrite E1.
    destruct (IH (fun st b Hb => H st b (or_intror Hb)) s1 O1) as [s2 [E2 [O2 P2]]].
    exists s2. split; [trivial|]. split; [trivial|]. intros i j.
    rewrite P2, P1. cbn. ring.
Qed.

Lemma phi_add_spec i q phi c i' c' :
  phi_add i q phi c i' c' == phi i' c' + (if (i' =? i)%nat && (c' =? c)%nat then q else 0).
Proof. unfold phi_add. destruct ((i' =? i)%nat && (c' =? c)%nat); ring. Qed.
Lemma phi_add_va i q va : forall phi i' j,
  fold_left (phi_add i q) va phi i' j
  == phi i' j + (if (i' =? i)%nat then Qn (count_occ Nat.eq_dec va j) * q else 0).
Proof.
  induction va as [|c va IH]; intros phi i' j; cbn [fold_left].
  - cbn. destruct (i' =? i)%nat; unfold Qn; cbn; ring.
  - rewrite IH, phi_add_spec. cbn [count_occ].
    destruct (i' =? i)%nat; cbn [andb]; [|ring].
    destruct (Nat.eq_dec c j) as [->|E].
    + rewrite Nat.eqb_refl, Qn_S. ring.
    + assert (E' : (j =? c)%nat = false) by (apply Nat.eqb_neq; congruence). rewrite E'. ring.
Qed.

(** what one row gets from a list of rows numbered from [s] *)
Definition row_pick (rows : list (nat * pt)) (f : pt -> Q) (i : nat) : Q :=
  sumf (fun ix => if (i =? fst ix)%nat then f (snd ix) else 0) rows.
Lemma rows_fold (g : pt -> Q) va rows (step : (nat -> nat -> Q) -> nat * pt -> nat -> nat -> Q) :
  (forall phi ix, step phi ix = fold_left (phi_add (fst ix) (g (snd ix))) va phi) ->
  forall phi i j, fold_left step rows phi i j
    == phi i j + Qn (count_occ Nat.eq_dec va j) * row_pick rows g i.
Proof.
  intro Hs. induction rows as [|ix rows IH]; intros phi i j; cbn [fold_left].
  - unfold row_pick. cbn. ring.
  - rewrite IH, Hs, phi_add_va. unfold row_pick. cbn.
    destruct (i =? fst ix)%nat; ring.
Qed.
Lemma row_pick_combine f rows : forall s i,
  row_pick (combine (seq s (length rows)) rows) f i ==
  (if (i <? s)%nat then 0 else match nth_error rows (i - s) with Some x => f x | None => 0 end).
Proof.
  induction rows as [|x rows IH]; intros s i; cbn [length seq combine].
  - unfold row_pick. rewrite sumf_nil. destruct (i <? s)%nat; [reflexivity|].
    destruct (i - s)%nat; reflexivity.
  - unfold row_pick in *. rewrite sumf_cons. cbn [fst snd].
    rewrite IH. destruct (Nat.eqb_spec i s) as [->|E].
    + assert (E1 : (s <? S s)%nat = true) by (apply Nat.ltb_lt; lia).
      rewrite E1, Nat.ltb_irrefl, Nat.sub_diag. cbn. ring.
    + destruct (Nat.ltb_spec i s) as [L|L].
      * assert (E1 : (i <? S s)%nat = true) by (apply Nat.ltb_lt; lia). rewrite E1. ring.
      * assert (E1 : (i <? S s)%nat = false) by (apply Nat.ltb_ge; lia). rewrite E1.
        replace (i - s)%nat with (S (i - S s)) by lia. cbn. ring.
Qed.
Definition at_row (rows : list pt) (f : pt -> Q) (i : nat) : Q :=
  match nth_error rows i with Some x => f x | None => 0 end.
Lemma row_pick_indexed f rows i : row_pick (indexed rows) f i == at_row rows f i.
Proof.
  unfold indexed. rewrite row_pick_combine. cbn [Nat.ltb Nat.leb]. now rewrite Nat.sub_0_r.
Qed.
Lemma at_row_sum {A} (l : list A) (h : A -> pt -> Q) rows i :
  sumf (fun a => at_row rows (h a) i) l == at_row rows (fun x => sumf (fun a => h a x) l) i.
Proof.
  unfold at_row. destruct (nth_error rows i); [reflexivity|].
  induction l as [|a l IH]; cbn; [reflexivity|]. rewrite IH. ring.
Qed.

Lemma pass_length val k : forall i res a, length (remove_pass val k i res a) = length a.
Proof.
  induction k as [|k IH]; intros i res a; cbn; [trivial|].
  destruct (group_eq_dec (nth i a []) (val a)); rewrite IH; [trivial|]. now rewrite !set_nth_length.
Qed.
(** deleting an entry through a reference into the same vector *)
Lemma drop_at_exact a ci : NoDup (concat a) -> (forall g, In g a -> g <> []) -> (ci < length a)%nat ->
  drop_at ci a = firstn ci a ++ skipn (S ci) a.
Proof.
  intros Hd Hne Hci. destruct (nth_split a [] Hci) as [pre [post [Ea Hl]]]. set (x := nth ci a []) in *.
  assert (Hxe : x <> []). { apply Hne. apply nth_In, Hci. }
  rewrite Ea in Hd. destruct (concat_mid_notin pre x post Hxe Hd) as [Hn1 Hn2].
  assert (Hpos : find_pos (fun e => if group_eq_dec e x then true else false) a = ci).
  { rewrite Ea, <- Hl. clear - Hn1. induction pre as [|p pre IH]; cbn.
    - destruct (group_eq_dec x x); congruence.
    - destruct (group_eq_dec p x) as [E|E]; [exfalso; apply Hn1; now left|].
      f_equal. apply IH. intro. apply Hn1. now right. }
  assert (Hf : filter ne (drop_at ci a) = filter ne (remove1 x a)).
  { pose proof (drop_at_spec a (fun e => if group_eq_dec e x then true else false)) as H.
    rewrite Hpos in H. apply H; [now rewrite Ea| |trivial].
    intros g Hg. destruct (group_eq_dec g x) as [->|]; [trivial|discriminate]. }
  assert (Hr : remove1 x a = firstn ci a ++ skipn (S ci) a).
  { rewrite Ea, <- Hl, firstn_app, firstn_all, Nat.sub_diag, app_nil_r.
    rewrite (remove1_app x pre post Hn1). f_equal.
    rewrite skipn_app, skipn_all2 by lia. now replace (S (length pre) - length pre)%nat with 1%nat by lia. }
  rewrite <- Hr.
  assert (Hfull : filter ne (remove1 x a) = remove1 x a).
  { apply filter_every. intros g Hg. assert (g <> []).
    { apply Hne. rewrite Ea, (remove1_app x pre post Hn1) in Hg. rewrite Ea. apply in_app_or in Hg.
      apply in_or_app. cbn. tauto. }
    destruct g; [congruence|reflexivity]. }
  rewrite Hfull in Hf. rewrite <- Hf. symmetry. apply filter_full. rewrite Hf.
  rewrite Ea, (remove1_app x pre post Hn1), app_length.
  unfold drop_at, std_remove. rewrite removelast_length.
  assert (Hnx : nth ci (pre ++ x :: post) [] = x) by (now apply nth_app_mid).
  rewrite Hnx. rewrite <- Ea, Hpos. assert (E : (ci <? length a)%nat = true) by (now apply Nat.ltb_lt).
  rewrite E, pass_length, Ea, app_length. cbn. lia.
Qed.

Section Run.
  Variables (C : list group) (m : nat) (data rows : list pt).
  Hypothesis HC : coalitions_ok C m.
  Definition ok (st : nst) : Prop := length (n_S st) = m.

  Lemma others_fit lf : leaf_ok m lf -> forall gs va, others C m lf va = Some gs ->
    (length (concat gs) <= m)%nat.
  Proof.
    intros Hlf gs va H. pose proof (va_ids_players C m HC) as HP.
    destruct (leaf_groups_touch C m _ lf HC HP Hlf) as [Hn Hp].
    unfold others in H. destruct (in_dec group_eq_dec va (leaf_groups C m (l_vars lf))) as [Hi|]; [|discriminate].
    injection H as <-. pose proof (concat_remove1 va _ Hi) as P.
    assert (Hin : incl (leaf_groups C m (l_vars lf)) (va_ids C m)).
    { intros g Hg. apply (Permutation_in g Hp) in Hg. now apply filter_In in Hg. }
    assert (G : forall L, NoDup L -> incl L (va_ids C m) -> NoDup (concat L)).
    { induction L as [|g L IH]; intros Hd Hi'; cbn; [constructor|].
      inversion Hd as [|? ? Hng Hd']; subst.
      assert (HgP : In g (va_ids C m)) by (apply Hi'; now left).
      assert (IHL : NoDup (concat L)) by (apply IH; [trivial|intros a Ha; apply Hi'; now right]).
      pose proof (player_NoDup C m _ g HC HP HgP) as Hg.
      assert (Hdisj : forall a, In a g -> ~ In a (concat L)).
      { intros a Ha Hc. apply in_concat in Hc. destruct Hc as [h [Hh Hah]].
        assert (g = h) by (eapply (player_unique C m (va_ids C m)); eauto; apply Hi'; now right).
        subst h. contradiction. }
      clear - IHL Hg Hdisj. induction Hg as [|a g Hna Hg IH]; [trivial|].
      cbn. constructor.
      - intro H. apply in_app_or in H. destruct H as [H|H]; [contradiction|].
        eapply Hdisj; [now left|eassumption].
      - apply IH. intros b Hb. apply Hdisj. now right. }
    assert (Hle : (length (concat (leaf_groups C m (l_vars lf))) <= m)%nat).
    { transitivity (length (seq 0 m)); [|now rewrite seq_length].
      apply NoDup_incl_length; [now apply G|].
      intros a Ha. apply in_concat in Ha. destruct Ha as [g [Hg Ha]].
      apply in_seq. pose proof (player_bound C m _ g a HC HP (Hin _ Hg) Ha). lia. }
    apply Permutation_length in P. rewrite app_length in P. lia.
  Qed.

  Lemma counter_spec lf va gs st c : ok st -> (length (concat gs) <= m)%nat ->
    exists st', counter_step m data rows lf va gs (count_leaf m data (l_rect lf)) st c = Some st' /\
      ok st' /\ forall i j, n_phi st' i j == n_phi st i j
        + Qn (count_occ Nat.eq_dec va j) * at_row rows (fun x => term m data x lf va gs c) i.
  Proof.
    intros Hok Hle. unfold counter_step.
    pose proof (pick_from_length 0 c gs) as Hp.
    destruct (fill_spec c gs 0 (n_S st) 0 0) as [S' [E1 [E2 E3]]].
    { unfold ok in Hok. rewrite Hok. cbn. lia. }
    rewrite E1. eexists. split; [reflexivity|]. split; [unfold ok in *; cbn [n_S]; congruence|].
    intros i j. cbn [n_phi]. rewrite read_back.
    2:{ rewrite E2. unfold ok in Hok. rewrite Hok. cbn. lia. }
    rewrite E3. cbn [firstn app].
    rewrite (rows_fold (fun x => term m data x lf va gs c) va (indexed rows)).
    - now rewrite row_pick_indexed.
    - intros phi [k x]. reflexivity.
  Qed.

  Lemma player_ne g : In g (va_ids C m) -> g <> [].
  Proof.
    intro Hg. apply (va_ids_players C m HC) in Hg. destruct Hg as [[_ H]|[i [_ [_ ->]]]]; [trivial|discriminate].
  Qed.

  Lemma player_spec lf k st v va : leaf_ok m lf -> ok st ->
    n_id st k = leaf_groups C m (l_vars lf) ->
    exists st', player_step m data rows lf k (count_leaf m data (l_rect lf)) st (v, va) = Some st' /\
      (ok st' /\ n_id st' k = leaf_groups C m (l_vars lf)) /\
      forall i j, n_phi st' i j == n_phi st i j
        + Qn (count_occ Nat.eq_dec va j) * at_row rows (fun x => leaf_player C m data x lf va) i.
  Proof.
    intros Hlf Hok Hid. unfold player_step. cbn [n_va]. rewrite !setf_same, Hid.
    set (gs0 := leaf_groups C m (l_vars lf)).
    pose proof (va_ids_players C m HC) as HP.
    destruct (leaf_groups_touch C m _ lf HC HP Hlf) as [Hn Hp]. fold gs0 in Hn, Hp.
    destruct (in_dec group_eq_dec va gs0) as [Hi|Hi].
    - assert (Hpos : (find_pos (fun g => if group_eq_dec g va then true else false) gs0 <? length gs0)%nat = true).
      { clear - Hi. apply Nat.ltb_lt. revert Hi. generalize gs0. induction gs1 as [|g gs1 IH]; [contradiction|].
        cbn. intros [->|H]; [destruct (group_eq_dec va va); [lia|congruence]|].
        destruct (group_eq_dec g va); [lia|]. specialize (IH H). lia. }
      rewrite Hpos.
      assert (Hdrop : drop_value va gs0 = remove1 va gs0).
      { apply drop_value_spec; trivial. intros g Hg.
        apply (Permutation_in g Hp), filter_In in Hg. now apply player_ne. }
      rewrite Hdrop.
      assert (Ho : others C m lf va = Some (remove1 va gs0)).
      { unfold others. fold gs0. destruct (in_dec group_eq_dec va gs0); [trivial|contradiction]. }
      set (gs := remove1 va gs0) in *. pose proof (others_fit lf Hlf gs va Ho) as Hle.
      set (st2 := mkNst _ _ _ _ _ _).
      destruct (ofold_sum (fun _ _ => True) (fun st' => ok st' /\ n_id st' k = gs0)
                  (counter_step m data rows lf va gs (count_leaf m data (l_rect lf)))
                  (fun c i j => Qn (count_occ Nat.eq_dec va j) * at_row rows (fun x => term m data x lf va gs c) i)
                  (seq 0 (2 ^ length gs))) with (st := st2) as [st' [E1 [E2 E3]]].
      + intros s c _ [Hs1 Hs2]. destruct (counter_spec lf va gs s c Hs1 Hle) as [s' [F1 [F2 F3]]].
        exists s'. split; [trivial|]. split; [split; [trivial|]|trivial].
        unfold counter_step in F1. destruct (fill 0 c gs (n_S s) 0 0) as [[[S1 k1] v1]|]; [|discriminate].
        injection F1 as <-. exact Hs2.
      + split; [exact Hok|exact Hid].
      + exists st'. split; [exact E1|]. split; [exact E2|]. intros i j. rewrite E3. subst st2. cbn [n_phi].
        unfold leaf_player. rewrite Ho. rewrite <- at_row_sum, <- sumf_scal. reflexivity.
    - assert (Hpos : (find_pos (fun g => if group_eq_dec g va then true else false) gs0 <? length gs0)%nat = false).
      { clear - Hi. apply Nat.ltb_ge. revert Hi. generalize gs0. induction gs1 as [|g gs1 IH]; cbn; [lia|].
        intro H. destruct (group_eq_dec g va); [exfalso; auto|]. assert (~ In va gs1) by auto.
        specialize (IH H0). lia. }
      rewrite Hpos. eexists. split; [reflexivity|]. split; [split; [exact Hok|exact Hid]|].
      intros i j. cbn [n_phi]. unfold leaf_player, others. fold gs0.
      destruct (in_dec group_eq_dec va gs0); [contradiction|]. unfold at_row.
      destruct (nth_error rows i); ring.
  Qed.

  Definition leaf_total (x : pt) (lf : leaf) (j : nat) : Q :=
    sumf (fun va => Qn (count_occ Nat.eq_dec va j) * leaf_player C m data x lf va) (va_ids C m).

  Lemma sumf_snd {A} (f : A -> Q) (l : list A) : forall s,
    sumf (fun p => f (snd p)) (combine (seq s (length l)) l) = sumf f l.
  Proof.
    induction l as [|a l IH]; intro s; [reflexivity|]. cbn [length seq combine].
    rewrite !sumf_cons. cbn [snd]. now rewrite IH.
  Qed.

  Lemma leaf_body_spec st k lf : leaf_ok m lf -> ok st ->
    exists st', leaf_body C m data rows st (k, lf) = Some st' /\ ok st' /\
      forall i j, n_phi st' i j == n_phi st i j + at_row rows (fun x => leaf_total x lf j) i.
  Proof.
    intros Hlf Hok. unfold leaf_body. rewrite (va_id_arr_eq C m HC).
    destruct (leaf_vectors_id C m lf k st (proj1 HC)) as [L1 [L2 L3]].
    set (st1 := leaf_vectors C m lf k st) in *.
    destruct (ofold_sum (fun _ _ => True) (fun s => ok s /\ n_id s k = leaf_groups C m (l_vars lf))
                (player_step m data rows lf k (count_leaf m data (l_rect lf)))
                (fun p i j => Qn (count_occ Nat.eq_dec (snd p) j)
                              * at_row rows (fun x => leaf_player C m data x lf (snd p)) i)
                (indexed (va_ids C m))) with (st := st1) as [st' [E1 [[E2 _] E3]]].
    - intros s [v va] _ [H1 H2]. exact (player_spec lf k s v va Hlf H1 H2).
    - split; [unfold ok in *; congruence|exact L1].
    - exists st'. split; [exact E1|]. split; [exact E2|]. intros i j. rewrite E3, L2.
      unfold indexed. rewrite (sumf_snd (fun va => Qn (count_occ Nat.eq_dec va j)
                              * at_row rows (fun x => leaf_player C m data x lf va) i)).
      unfold leaf_total. rewrite <- at_row_sum.
      assert (G : forall va, Qn (count_occ Nat.eq_dec va j) * at_row rows (fun x => leaf_player C m data x lf va) i
                    == at_row rows (fun x => Qn (count_occ Nat.eq_dec va j) * leaf_player C m data x lf va) i).
      { intro va. unfold at_row. destruct (nth_error rows i); ring. }
      now rewrite (sumf_ext _ _ _ (fun va _ => G va)).
  Qed.

  Lemma nopa_from_spec forest st : forest_ok m forest -> ok st ->
    exists st', nopa_from C m data rows forest st = Some st' /\ ok st' /\
      forall i j, n_phi st' i j == n_phi st i j
        + at_row rows (fun x => sumf (fun ls => sumf (fun lf => leaf_total x lf j) ls) forest) i.
  Proof.
    intros Hf Hok. unfold nopa_from.
    destruct (ofold_sum (fun _ _ => True) ok (fun st ls => ofold (leaf_body C m data rows) (indexed ls) st)
                (fun ls i j => at_row rows (fun x => sumf (fun lf => leaf_total x lf j) ls) i)
                forest) with (st := st) as [st' [E1 [E2 E3]]]; trivial.
    - intros s ls Hls Hs.
      destruct (ofold_sum (fun _ _ => True) ok (leaf_body C m data rows)
                  (fun p i j => at_row rows (fun x => leaf_total x (snd p) j) i)
                  (indexed ls)) with (st := s) as [s' [F1 [F2 F3]]]; trivial.
      + intros s1 [k lf] Hk Hs1. apply leaf_body_spec; trivial. apply (Hf ls lf Hls).
        unfold indexed in Hk. now apply in_combine_r in Hk.
      + exists s'. split; [exact F1|]. split; [exact F2|]. intros i j. rewrite F3.
        unfold indexed. rewrite (sumf_snd (fun lf => at_row rows (fun x => leaf_total x lf j) i)).
        now rewrite at_row_sum.
    - exists st'. split; [exact E1|]. split; [exact E2|]. intros i j. rewrite E3. now rewrite at_row_sum.
  Qed.

  (** whatever the work arrays hold beforehand *)
  Theorem nopa_any_contents forest st : forest_ok m forest -> length (n_S st) = m ->
    exists st', nopa_from C m data rows forest st = Some st' /\
      forall i x j, nth_error rows i = Some x -> (0 < m)%nat ->
        (n_phi st' i j - n_phi st i j) / Qn m == shap_values_leaves C m data forest x j.
  Proof.
    intros Hf Hs. destruct (nopa_from_spec forest st Hf Hs) as [st' [E1 [_ E3]]].
    exists st'. split; [exact E1|]. intros i x j Hx Hm. rewrite E3. unfold at_row. rewrite Hx.
    unfold shap_values_leaves, leaf_total. field. apply Qn_neq0. lia.
  Qed.

  Theorem nopa_same forest : forest_ok m forest ->
    exists phi, shap_values_leaves_nopa C m data rows forest = Some phi /\
      forall i x j, nth_error rows i = Some x ->
        phi i j == shap_values_leaves C m data forest x j.
  Proof.
    intro Hf. unfold shap_values_leaves_nopa.
    destruct (nopa_from_spec forest (nst0 m) Hf) as [st' [E1 [_ E3]]]; [apply repeat_length|].
    rewrite E1. eexists. split; [reflexivity|]. intros i x j Hx. cbn beta. rewrite E3.
    unfold at_row. rewrite Hx. cbn [n_phi nst0].
    unfold shap_values_leaves, leaf_total. unfold Qdiv. ring.
  Qed.

  Theorem nopa_shapley forest P : forest_ok m forest -> is_players C m P -> data <> [] ->
    exists phi, shap_values_leaves_nopa C m data rows forest = Some phi /\
      forall i x g j, nth_error rows i = Some x -> In g P -> In j g ->
        phi i j == shapley gdec P (worth m data forest x) g.
  Proof.
    intros Hf HP Hd. destruct (nopa_same forest Hf) as [phi [E1 E2]]. exists phi. split; [trivial|].
    intros i x g j Hx Hg Hj. rewrite (E2 i x j Hx). now apply shap_is_shapley.
  Qed.
End Run.

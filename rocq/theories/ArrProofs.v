(** Proofs about the array programs: every cell of the buffers, then every entry of the
    result. *)
From Verif Require Import Base TreeModel TreeSpec GameSpec ShapModel NopaModel NopaProofs AcvModel
  SdpModel SdpSpec SdpProofs ArrModel ArrSpec.

(** ** Loops *)
Lemma ofold_ext {A B} (f g : B -> A -> option B) l : (forall b a, In a l -> f b a = g b a) ->
  forall s, ofold f l s = ofold g l s.
Proof.
  induction l as [|a l IH]; intros H s; cbn; [trivial|]. rewrite (H s a) by now left.
  destruct (g s a); [|trivial]. apply IH. intros; apply H. now right.
Qed.
Lemma count_cols_gen m (test : nat -> bool) cols n : (forall s, In s cols -> s < m) ->
  ofold (fun it s => if s <? m then Some (if test s then S it else it) else None) cols n
  = Some (length (filter test cols) + n).
Proof.
  revert n. induction cols as [|s cols IH]; intros n H; cbn [ofold filter]; [trivial|].
  destruct (Nat.ltb_spec s m) as [L|L]; [|specialize (H s (or_introl eq_refl)); lia].
  rewrite IH by (intros; apply H; now right). destruct (test s); cbn [length]; f_equal; lia.
Qed.
Lemma count_cols_ok m test cols : (forall s, In s cols -> s < m) ->
  count_cols m test cols = Some (length (filter test cols)).
Proof. intro H. unfold count_cols. rewrite count_cols_gen by assumption. f_equal. lia. Qed.
Lemma seq_lt m s : In s (seq 0 m) -> s < m. Proof. rewrite in_seq. lia. Qed.

Lemma sum_fold {A} (f : A -> Q) l q : (fold_left (fun acc k => acc + f k) l q == q + sumf f l)%Q.
Proof.
  revert q. induction l as [|a l IH]; intro q; cbn; [ring|]. rewrite IH. ring.
Qed.

(** ** The parallel loop *)
Section Visits.
Context {A V : Type}.
Variables (T : tabs) (get : nat -> option A) (N : nat).
Hypothesis get_ok : forall i, i < N -> exists a, get i = Some a.

(** one body, assumed to succeed *)
Definition run (body : nat -> A -> V -> option V) (k : nat) (a : A) (c : V) : V :=
  match body k a c with Some v => v | None => c end.

Lemma set2_same (buf : nat -> nat -> V) k i v : set2 buf k i v k i = v.
Proof. unfold set2. now rewrite !Nat.eqb_refl. Qed.
Lemma set2_other (buf : nat -> nat -> V) k i v k' i' : (k', i') <> (k, i) -> set2 buf k i v k' i' = buf k' i'.
Proof.
  intro H. unfold set2. destruct (Nat.eqb_spec k' k), (Nat.eqb_spec i' i); cbn; congruence.
Qed.

Lemma visits (body : nat -> A -> V -> option V) ev : NoDup ev ->
  (forall k i, In (k, i) ev -> k < t_max T /\ exists a, get i = Some a /\ forall c, body k a c <> None) ->
  forall buf, exists buf', ofold (visit T get body) ev buf = Some buf' /\
    forall k i, (forall a, In (k, i) ev -> get i = Some a -> buf' k i = run body k a (buf k i)) /\
                (~ In (k, i) ev -> buf' k i = buf k i).
Proof.
  induction ev as [|[k0 i0] ev IH]; intros Hn Hb buf.
  - exists buf. cbn. split; [trivial|]. intros. split; [intros a []|trivial].
  - inversion Hn as [|? ? Hni Hnd]; subst.
    destruct (Hb k0 i0 (or_introl eq_refl)) as [Hk [a0 [Ha0 Hc0]]].
    cbn [ofold visit]. destruct (Nat.ltb_spec k0 (t_max T)) as [_|L]; [|lia]. rewrite Ha0.
    destruct (body k0 a0 (buf k0 i0)) as [v|] eqn:Ev; [|now apply Hc0 in Ev].
    destruct (IH Hnd) with (buf := set2 buf k0 i0 v) as [buf' [E H]].
    { intros k i Hi. apply Hb. now right. }
    exists buf'. split; [exact E|]. intros k i. destruct (H k i) as [H1 H2]. split.
    + intros a [Heq|Hi] Ha.
      * injection Heq as <- <-. rewrite H2 by assumption. rewrite set2_same.
        rewrite Ha0 in Ha. injection Ha as <-. unfold run. now rewrite Ev.
      * rewrite (H1 a Hi Ha). rewrite set2_other; [trivial|]. intro K. injection K as -> ->. contradiction.
    + intro Hi. rewrite H2 by (intro; apply Hi; now right). apply set2_other.
      intro K. injection K as -> ->. apply Hi. now left.
Qed.

Lemma order_in sched b k i : any_order T N sched -> b < t_trees T ->
  In (k, i) (sched b) <-> k < t_nb T b /\ i < N.
Proof.
  intros Hs Hb. split.
  - intro H. apply (Permutation_in _ (Hs b Hb)) in H. apply in_prod_iff in H. rewrite !in_seq in H. lia.
  - intro H. apply (Permutation_in _ (Permutation_sym (Hs b Hb))). apply in_prod_iff. rewrite !in_seq. lia.
Qed.
Lemma nodup_prod {X Y} (l : list X) (l' : list Y) : NoDup l -> NoDup l' -> NoDup (list_prod l l').
Proof.
  intros Hl Hl'. induction l as [|a l IH]; cbn; [constructor|]. inversion Hl as [|? ? Ha Hd]; subst.
  assert (D : forall p, In p (map (fun y => (a, y)) l') -> ~ In p (list_prod l l')).
  { intros [x y] Hp Hq. apply in_map_iff in Hp. destruct Hp as [y' [Hp _]]. injection Hp as <- <-.
    apply in_prod_iff in Hq. tauto. }
  assert (N1 : NoDup (map (fun y => (a, y)) l')).
  { apply FinFun.Injective_map_NoDup; [|exact Hl']. intros y y' H. congruence. }
  revert D N1. generalize (map (fun y => (a, y)) l') as m. induction m as [|p m IHm]; intros D N1; cbn; [auto|].
  inversion N1; subst. constructor.
  - rewrite in_app_iff. intros [H|H]; [contradiction|]. exact (D p (or_introl eq_refl) H).
  - apply IHm; [|assumption]. intros q Hq. apply D. now right.
Qed.
Lemma order_nodup sched b : any_order T N sched -> b < t_trees T -> NoDup (sched b).
Proof.
  intros Hs Hb. apply (Permutation_NoDup (Permutation_sym (Hs b Hb))). apply nodup_prod; apply seq_NoDup.
Qed.

Variables (sched : nat -> list (nat * nat)) (body : nat -> nat -> A -> V -> option V) (zero : V).
Hypothesis Tok : tabs_ok T.
Hypothesis Sok : any_order T N sched.
Hypothesis Bok : forall b k i a c, b < t_trees T -> k < t_nb T b -> i < N -> get i = Some a ->
  body b k a c <> None.

Lemma tree_visits b buf : b < t_trees T ->
  exists buf', ofold (visit T get (body b)) (sched b) buf = Some buf' /\
    forall k i a, i < N -> get i = Some a ->
      buf' k i = if k <? t_nb T b then run (body b) k a (buf k i) else buf k i.
Proof.
  intro Hb. destruct (visits (body b) (sched b) (order_nodup sched b Sok Hb)) with (buf := buf)
    as [buf' [E H]].
  - intros k i Hi. apply (order_in sched b k i Sok Hb) in Hi. destruct Hi as [Hk Hi].
    destruct (Tok b Hb) as [Hm _]. split; [lia|]. destruct (get_ok i Hi) as [a Ha]. exists a.
    split; [exact Ha|]. intro c. exact (Bok b k i a c Hb Hk Hi Ha).
  - exists buf'. split; [exact E|]. intros k i a Hi Ha. destruct (H k i) as [H1 H2].
    destruct (Nat.ltb_spec k (t_nb T b)) as [L|L].
    + apply H1; [|exact Ha]. apply order_in; auto.
    + apply H2. rewrite order_in by auto. lia.
Qed.

Lemma shared_gen bs buf : (forall b, In b bs -> b < t_trees T) ->
  exists buf', ofold (fun buf b => ofold (visit T get (body b)) (sched b) buf) bs buf = Some buf' /\
    forall k i a, i < N -> get i = Some a ->
      buf' k i = fold_left (fun c b => if k <? t_nb T b then run (body b) k a c else c) bs (buf k i).
Proof.
  revert buf. induction bs as [|b bs IH]; intros buf Hb; cbn [ofold fold_left].
  - exists buf. split; [trivial|]. trivial.
  - destruct (tree_visits b buf (Hb b (or_introl eq_refl))) as [buf1 [E1 H1]]. rewrite E1.
    destruct (IH buf1) as [buf2 [E2 H2]]; [intros; apply Hb; now right|].
    exists buf2. split; [exact E2|]. intros k i a Hi Ha. rewrite (H2 k i a Hi Ha). f_equal. now apply H1.
Qed.
Lemma shared_ok : exists buf, shared_trees T sched get body zero = Some buf /\
  forall k i a, i < N -> get i = Some a ->
    buf k i = fold_left (fun c b => if k <? t_nb T b then run (body b) k a c else c)
                        (seq 0 (t_trees T)) zero.
Proof. apply shared_gen. intros b H. apply in_seq in H. lia. Qed.

Lemma own_gen bs buf : NoDup bs -> (forall b, In b bs -> b < t_trees T) ->
  exists buf', ofold (fun buf b => match ofold (visit T get (body b)) (sched b) (buf b) with
                      | Some layer => Some (fun b' => if b' =? b then layer else buf b')
                      | None => None end) bs buf = Some buf' /\
    forall b k i a, i < N -> get i = Some a ->
      (In b bs -> buf' b k i = if k <? t_nb T b then run (body b) k a (buf b k i) else buf b k i) /\
      (~ In b bs -> buf' b k i = buf b k i).
Proof.
  revert buf. induction bs as [|b0 bs IH]; intros buf Hn Hb; cbn [ofold].
  - exists buf. split; [trivial|]. intros. split; [intros []|trivial].
  - inversion Hn as [|? ? Hni Hnd]; subst.
    destruct (tree_visits b0 (buf b0) (Hb b0 (or_introl eq_refl))) as [layer [E1 H1]]. rewrite E1.
    destruct (IH (fun b' => if b' =? b0 then layer else buf b')) as [buf2 [E2 H2]];
      [assumption|intros; apply Hb; now right|].
    exists buf2. split; [exact E2|]. intros b k i a Hi Ha. destruct (H2 b k i a Hi Ha) as [G1 G2]. split.
    + intros [<-|Hbi].
      * rewrite G2 by assumption. rewrite Nat.eqb_refl. now apply H1.
      * rewrite G1 by assumption. destruct (Nat.eqb_spec b b0) as [->|_]; [contradiction|trivial].
    + intro Hbi. rewrite G2 by (intro; apply Hbi; now right).
      destruct (Nat.eqb_spec b b0) as [->|_]; [|trivial]. exfalso. apply Hbi. now left.
Qed.
Lemma own_ok : exists buf, own_trees T sched get body zero = Some buf /\
  forall b k i a, b < t_trees T -> i < N -> get i = Some a ->
    buf b k i = if k <? t_nb T b then run (body b) k a zero else zero.
Proof.
  destruct (own_gen (seq 0 (t_trees T)) (fun _ _ _ => zero)) as [buf [E H]]; [apply seq_NoDup| |].
  { intros b Hb. apply in_seq in Hb. lia. }
  exists buf. split; [exact E|]. intros b k i a Hb Hi Ha. apply (H b k i a Hi Ha). apply in_seq. lia.
Qed.
End Visits.

(** adding up a quantity that every tree increases *)
Lemma fold_acc {V} (f : V -> Q) (step : nat -> V -> V) (delta : nat -> Q) bs :
  (forall b c, In b bs -> (f (step b c) == f c + delta b)%Q) ->
  forall c, (f (fold_left (fun c b => step b c) bs c) == f c + sumf delta bs)%Q.
Proof.
  induction bs as [|b bs IH]; intros H c; cbn; [ring|].
  rewrite IH by (intros; apply H; now right). rewrite H by now left. ring.
Qed.
Lemma sum_upto n M (f : nat -> Q) : n <= M ->
  (sumf (fun k => if k <? n then f k else 0) (seq 0 M) == sumf f (seq 0 n))%Q.
Proof.
  intro H. replace M with (n + (M - n)) by lia. rewrite seq_app, sumf_app.
  rewrite (sumf_ext _ f (seq 0 n)), (sumf_zero _ (seq (0 + n) (M - n))).
  - ring.
  - intros a Ha. apply in_seq in Ha. destruct (Nat.ltb_spec a n); [lia|reflexivity].
  - intros a Ha. apply in_seq in Ha. destruct (Nat.ltb_spec a n); [reflexivity|lia].
Qed.
Lemma sumf_forest T vars j (g : leaf -> Q) :
  (sumf (fun ls => sumf g ls) (forest_at T vars j)
   == sumf (fun b => sumf (fun k => g (leaf_at T vars j b k)) (seq 0 (t_nb T b))) (seq 0 (t_trees T)))%Q.
Proof.
  unfold forest_at. rewrite sumf_map. apply sumf_ext. intros b _. now rewrite sumf_map.
Qed.
(** the slots of a shared buffer add up to the forest *)
Lemma slots_sum {V} T (buf : nat -> nat -> V) (f : V -> Q) i (step : nat -> nat -> V -> V) zero
  (delta : nat -> nat -> Q) :
  tabs_ok T -> (f zero == 0)%Q ->
  (forall k, buf k i = fold_left (fun c b => if k <? t_nb T b then step b k c else c)
                                 (seq 0 (t_trees T)) zero) ->
  (forall b k c, b < t_trees T -> k < t_nb T b -> (f (step b k c) == f c + delta b k)%Q) ->
  (slots T buf f i == sumf (fun b => sumf (delta b) (seq 0 (t_nb T b))) (seq 0 (t_trees T)))%Q.
Proof.
  intros Hok Hz Hb Hd. unfold slots. rewrite sum_fold.
  transitivity (sumf (fun k => sumf (fun b => if k <? t_nb T b then delta b k else 0)%Q (seq 0 (t_trees T)))
                     (seq 0 (t_max T))).
  - rewrite Qplus_0_l. apply sumf_ext. intros k _. rewrite Hb.
    rewrite (fold_acc f (fun b c => if k <? t_nb T b then step b k c else c)
              (fun b => if k <? t_nb T b then delta b k else 0)%Q).
    + rewrite Hz. ring.
    + intros b c Hbi. apply in_seq in Hbi. destruct (Nat.ltb_spec k (t_nb T b)); [apply Hd; lia|ring].
  - rewrite sumf_swap. apply sumf_ext. intros b Hbi. apply in_seq in Hbi.
    apply sum_upto. apply Hok. lia.
Qed.

(** ** Counters *)
Section Counters.
Variables (m : nat) (Sv : list nat).
Hypothesis SvOk : forall s, In s Sv -> s < m.

Lemma in_cl_sat p cols z : (forall s, In s cols -> s < m) ->
  exists n, in_cl m p cols z = Some n /\ (n =? length cols) = sat_cl p cols z.
Proof. intro H. unfold in_cl. rewrite count_cols_ok by exact H. eexists. split; [reflexivity|reflexivity]. Qed.
Lemma in_ho_sat p cols z : (forall s, In s cols -> s < m) ->
  exists n, in_ho m p cols z = Some n /\ (n =? length cols) = sat p cols z.
Proof. intro H. unfold in_ho. rewrite count_cols_ok by exact H. eexists. split; reflexivity. Qed.
Lemma eq_cols x z : exists n, count_cols m (fun s => qeqb (z s) (x s)) Sv = Some n /\
  (n =? length Sv) = eq_on Sv x z.
Proof. rewrite count_cols_ok by exact SvOk. eexists. split; reflexivity. Qed.
Lemma out_cl_not p x : exists o, out_cl m Sv p x = Some o /\ (0 <? o) = negb (not_out_cl p Sv x).
Proof.
  unfold out_cl. rewrite count_cols_ok by exact SvOk. eexists. split; [reflexivity|].
  unfold not_out_cl. destruct (length _); reflexivity.
Qed.
Lemma out_ho_not p x : exists o, out_ho m Sv p x = Some o /\ (0 <? o) = negb (not_out p Sv x).
Proof.
  unfold out_ho. rewrite count_cols_ok by exact SvOk. eexists. split; [reflexivity|].
  unfold not_out. destruct (length _); reflexivity.
Qed.
Lemma in_cl_m p z : exists n, in_cl m p (seq 0 m) z = Some n /\ (n =? m) = sat_cl p (seq 0 m) z.
Proof.
  destruct (in_cl_sat p (seq 0 m) z (seq_lt m)) as [n [E H]]. exists n. split; [exact E|].
  now rewrite seq_length in H.
Qed.
Lemma in_ho_m p z : exists n, in_ho m p (seq 0 m) z = Some n /\ (n =? m) = sat p (seq 0 m) z.
Proof.
  destruct (in_ho_sat p (seq 0 m) z (seq_lt m)) as [n [E H]]. exists n. split; [exact E|].
  now rewrite seq_length in H.
Qed.

Lemma exp_counts_ok p data : exp_counts m data Sv p = Some (count_cl m data p, count_s data p Sv).
Proof.
  unfold exp_counts, count_cl, count_s.
  match goal with |- ofold ?f _ _ = _ => set (F := f) end.
  enough (G : forall a b, ofold F data (a, b) =
    Some (length (filter (sat_cl p (seq 0 m)) data) + a, length (filter (sat p Sv) data) + b)).
  { rewrite G. do 2 f_equal; lia. }
  induction data as [|z l IH]; intros a b; cbn [ofold filter]; [trivial|]. unfold F at 1.
  destruct (in_cl_m p z) as [n [-> ->]]. destruct (in_ho_sat p Sv z SvOk) as [n' [-> ->]].
  cbn [fst snd]. rewrite IH. destruct (sat_cl p (seq 0 m) z), (sat p Sv z); cbn [length];
    do 2 f_equal; lia.
Qed.
Lemma exp_cat_counts_ok p x data : exp_cat_counts m data Sv p x =
  Some (length (filter (sat p (seq 0 m)) (filter (eq_on Sv x) data)), length (filter (eq_on Sv x) data)).
Proof.
  unfold exp_cat_counts.
  match goal with |- ofold ?f _ _ = _ => set (F := f) end.
  enough (G : forall a b, ofold F data (a, b) =
    Some (length (filter (sat p (seq 0 m)) (filter (eq_on Sv x) data)) + a,
          length (filter (eq_on Sv x) data) + b)).
  { rewrite G. do 2 f_equal; lia. }
  induction data as [|z l IH]; intros a b; cbn [ofold filter]; [trivial|]. unfold F at 1.
  destruct (in_ho_m p z) as [n [-> ->]]. destruct (eq_cols x z) as [n' [-> ->]].
  cbn [fst snd]. destruct (eq_on Sv x z); cbn [filter].
  - rewrite IH. destruct (sat p (seq 0 m) z); cbn [length]; do 2 f_equal; lia.
  - apply IH.
Qed.
End Counters.

(** ** The values added to a cell *)
Lemma add_values_gen T b k lm p_ss js : t_leaf T b k < t_nodes T -> NoDup js ->
  (forall j, In j js -> j < t_out T) -> forall cell,
  exists c', ofold (fun c j => if p_ss =? 0 then Some (upd c j (c j + 0)%Q)
                    else match value_at T b k j with
                         | Some v => Some (upd c j (c j + Qn lm * v / Qn p_ss)%Q)
                         | None => None end) js cell = Some c' /\
    forall j, (In j js -> (c' j == cell j + gdiv (Qn lm * t_val T b (t_leaf T b k) j) p_ss)%Q) /\
              (~ In j js -> c' j = cell j).
Proof.
  intros Hl Hn. induction js as [|j0 js IH]; intros Hj cell; cbn [ofold].
  - exists cell. split; [trivial|]. intro j. split; [intros []|trivial].
  - inversion Hn as [|? ? Hni Hnd]; subst.
    assert (Ev : value_at T b k j0 = Some (t_val T b (t_leaf T b k) j0)).
    { unfold value_at. destruct (Nat.ltb_spec (t_leaf T b k) (t_nodes T)); [|lia].
      destruct (Nat.ltb_spec j0 (t_out T)) as [|L]; [reflexivity|].
      specialize (Hj j0 (or_introl eq_refl)). lia. }
    set (q := (cell j0 + gdiv (Qn lm * t_val T b (t_leaf T b k) j0) p_ss)%Q).
    assert (Es : exists r, (if p_ss =? 0 then Some (upd cell j0 (cell j0 + 0)%Q)
              else match value_at T b k j0 with
                   | Some v => Some (upd cell j0 (cell j0 + Qn lm * v / Qn p_ss)%Q)
                   | None => None end) = Some (upd cell j0 r) /\ (r == q)%Q).
    { unfold q, gdiv. rewrite Ev. destruct (p_ss =? 0); eexists; (split; [reflexivity|]); reflexivity. }
    destruct Es as [r [Es Hr]]. rewrite Es.
    destruct (IH Hnd) with (cell := upd cell j0 r) as [c' [E H]]; [intros; apply Hj; now right|].
    exists c'. split; [exact E|]. intro j. destruct (H j) as [H1 H2]. split.
    + intros [<-|Hji].
      * rewrite H2 by assumption. now rewrite upd_same.
      * rewrite (H1 Hji), upd_other; [reflexivity|]. intros ->. contradiction.
    + intro Hji. rewrite H2 by (intro; apply Hji; now right). apply upd_other. intros ->. apply Hji. now left.
Qed.
Lemma add_values_ok T b k lm p_ss cell : t_leaf T b k < t_nodes T ->
  exists c', add_values T b k lm p_ss cell = Some c' /\
    forall j, j < t_out T -> (c' j == cell j + gdiv (Qn lm * t_val T b (t_leaf T b k) j) p_ss)%Q.
Proof.
  intro H. destruct (add_values_gen T b k lm p_ss (seq 0 (t_out T)) H (seq_NoDup _ _)) with (cell := cell)
    as [c' [E Hc]]; [intros j Hj; apply in_seq in Hj; lia|].
  exists c'. split; [exact E|]. intros j Hj. apply Hc. apply in_seq. lia.
Qed.

(** ** The expectations *)
Section Expectations.
Variables (T : tabs) (m : nat) (X data : list pt) (Sv : list nat) (sched : nat -> list (nat * nat))
  (vars : nat -> nat -> list nat).
Hypothesis Tok : tabs_ok T.
Hypothesis Sok : any_order T (length X) sched.
Hypothesis SvOk : forall s, In s Sv -> s < m.

Lemma get_X i : i < length X -> exists a, nth_error X i = Some a.
Proof.
  intro H. destruct (nth_error X i) eqn:E; [eauto|]. apply nth_error_None in E. lia.
Qed.
Lemma leaf_ok b k : b < t_trees T -> k < t_nb T b -> t_leaf T b k < t_nodes T.
Proof. intros Hb Hk. exact (proj2 (Tok b Hb) k Hk). Qed.

Lemma exp_body_run b k x c : b < t_trees T -> k < t_nb T b ->
  exp_body T m data Sv b k x c <> None /\
  forall j, j < t_out T ->
    (run (exp_body T m data Sv b) k x c j == c j + exp_leaf m data Sv x (leaf_at T vars j b k))%Q.
Proof.
  intros Hb Hk. unfold run, exp_body. rewrite (exp_counts_ok m Sv SvOk).
  destruct (out_cl_not m Sv SvOk (t_part T b k) x) as [o [-> ->]].
  unfold exp_leaf. cbn [leaf_at l_rect l_val].
  destruct (not_out_cl (t_part T b k) Sv x); cbn [negb].
  - destruct (add_values_ok T b k (count_cl m data (t_part T b k)) (count_s data (t_part T b k) Sv) c
      (leaf_ok b k Hb Hk)) as [c' [-> Hc]]. split; [discriminate|exact Hc].
  - split; [discriminate|]. intros j _. ring.
Qed.
Lemma exp_cat_body_run b k x c : b < t_trees T -> k < t_nb T b ->
  exp_cat_body T m data Sv b k x c <> None /\
  forall j, j < t_out T ->
    (run (exp_cat_body T m data Sv b) k x c j == c j + exp_cat_leaf m data Sv x (leaf_at T vars j b k))%Q.
Proof.
  intros Hb Hk. unfold run, exp_cat_body.
  destruct (out_ho_not m Sv SvOk (t_part T b k) x) as [o [-> ->]].
  unfold exp_cat_leaf. cbn [leaf_at l_rect l_val].
  destruct (not_out (t_part T b k) Sv x); cbn [negb].
  - rewrite (exp_cat_counts_ok m Sv SvOk).
    match goal with |- context [add_values T b k ?a ?n c] =>
      destruct (add_values_ok T b k a n c (leaf_ok b k Hb Hk)) as [c' [-> Hc]] end.
    split; [discriminate|exact Hc].
  - split; [discriminate|]. intros j _. ring.
Qed.

Lemma nth_lt {A} (l : list A) i a : nth_error l i = Some a -> i < length l.
Proof. intro H. apply nth_error_Some. congruence. Qed.

Lemma exp_prog_ok : exists res, exp_prog T m X data Sv sched = Some res /\
  forall i x j, nth_error X i = Some x -> j < t_out T ->
    (res i j == compute_exp m data Sv (forest_at T vars j) x)%Q.
Proof.
  destruct (shared_ok T (nth_error X) (length X) get_X sched (exp_body T m data Sv) (fun _ => 0%Q) Tok Sok)
    as [buf [E H]].
  { intros b k i a c Hb Hk _ _. apply exp_body_run; assumption. }
  unfold exp_prog. rewrite E. eexists. split; [reflexivity|]. intros i x j Hx Hj. cbn beta.
  unfold compute_exp. rewrite sumf_forest.
  apply (slots_sum T buf (fun c => c j) i (fun b k c => run (exp_body T m data Sv b) k x c) (fun _ => 0%Q)
          (fun b k => exp_leaf m data Sv x (leaf_at T vars j b k)) Tok).
  - reflexivity.
  - intro k. apply H; [eapply nth_lt; eassumption|exact Hx].
  - intros b k c Hb Hk. apply exp_body_run; assumption.
Qed.
Lemma exp_cat_prog_ok : exists res, exp_cat_prog T m X data Sv sched = Some res /\
  forall i x j, nth_error X i = Some x -> j < t_out T ->
    (res i j == compute_exp_cat m data Sv (forest_at T vars j) x)%Q.
Proof.
  destruct (shared_ok T (nth_error X) (length X) get_X sched (exp_cat_body T m data Sv) (fun _ => 0%Q) Tok Sok)
    as [buf [E H]].
  { intros b k i a c Hb Hk _ _. apply exp_cat_body_run; assumption. }
  unfold exp_cat_prog. rewrite E. eexists. split; [reflexivity|]. intros i x j Hx Hj. cbn beta.
  unfold compute_exp_cat. rewrite sumf_forest.
  apply (slots_sum T buf (fun c => c j) i (fun b k c => run (exp_cat_body T m data Sv b) k x c) (fun _ => 0%Q)
          (fun b k => exp_cat_leaf m data Sv x (leaf_at T vars j b k)) Tok).
  - reflexivity.
  - intro k. apply H; [eapply nth_lt; eassumption|exact Hx].
  - intros b k c Hb Hk. apply exp_cat_body_run; assumption.
Qed.
End Expectations.

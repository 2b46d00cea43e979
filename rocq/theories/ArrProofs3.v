(** Proofs about the same-decision probabilities of a classifier as array programs. *)
From Verif Require Import Base TreeModel TreeSpec GameSpec ShapModel NopaModel NopaProofs AcvModel AcvProofs
  SdpModel SdpSpec SdpProofs ArrModel ArrSpec ArrProofs.

(** ** The six counters *)
(** the counters of a list of flagged rows *)
Definition six_of (inA inS : pt -> bool) (rows : list frow) : six :=
  mkSix (cnt inA rows) (cnt inA (up_rows rows)) (cnt inA (down_rows rows))
        (cnt inS rows) (cnt inS (up_rows rows)) (cnt inS (down_rows rows)).
Definition six_add (c d : six) : six :=
  mkSix (p_ c + p_ d) (p_u c + p_u d) (p_d c + p_d d) (p_s c + p_s d) (p_su c + p_su d) (p_sd c + p_sd d).

Lemma filter_all {A} (p : A -> bool) l : (forall a, In a l -> p a = true) -> filter p l = l.
Proof.
  induction l as [|a l IH]; intro H; cbn; [trivial|]. rewrite (H a) by now left. f_equal. apply IH.
  intros; apply H; now right.
Qed.

Section Clf.
Variables (T : tabs) (m : nat) (X data : list pt) (Sv : list nat) (sched : nat -> list (nat * nat))
  (vars : nat -> nat -> list nat) (fX y_pred : list nat).
Hypothesis Tok : tabs_ok T.
Hypothesis Sok : any_order T (length X) sched.
Hypothesis SvOk : forall s, In s Sv -> s < m.
Hypothesis Yok : length data <= length y_pred.
Hypothesis Fok : length X <= length fX.
Hypothesis Cok : forall f, In f fX -> f < t_out T.

Lemma six_cons inA inS z (u : bool) rows :
  six_of inA inS ((z, u) :: rows) =
  six_add (mkSix (Nat.b2n (inA z)) (if u then Nat.b2n (inA z) else 0) (if u then 0 else Nat.b2n (inA z))
                 (Nat.b2n (inS z)) (if u then Nat.b2n (inS z) else 0) (if u then 0 else Nat.b2n (inS z)))
          (six_of inA inS rows).
Proof.
  unfold six_of, six_add, cnt, up_rows, down_rows. cbn [p_ p_u p_d p_s p_su p_sd].
  destruct u; cbn [filter fst snd negb]; destruct (inA z), (inS z); reflexivity.
Qed.
Lemma six_eq c d : p_ c = p_ d -> p_u c = p_u d -> p_d c = p_d d -> p_s c = p_s d -> p_su c = p_su d ->
  p_sd c = p_sd d -> c = d.
Proof. destruct c, d; cbn; congruence. Qed.
Lemma six_assoc a b c : six_add (six_add a b) c = six_add a (six_add b c).
Proof. apply six_eq; cbn; lia. Qed.
Lemma six_0 a : six_add six0 a = a.
Proof. apply six_eq; cbn; lia. Qed.

(** a loop over the rows whose body adds the counters of its row *)
Lemma rows_sum (inA inS sel : pt -> bool) f (body : six -> pt -> nat -> option six) :
  (forall c z y, body c z y =
     Some (if sel z then six_add c (six_of inA inS [(z, f =? y)]) else c)) ->
  forall d y c, length d <= length y ->
  rows_loop body d y c
  = Some (six_add c (six_of inA inS (filter (fun r => sel (fst r)) (clf_rows f (combine d y))))).
Proof.
  intro Hb. induction d as [|z d IH]; intros [|w y] c Hl; cbn [length] in Hl; try lia.
  - cbn. f_equal. apply six_eq; cbn; lia.
  - cbn. f_equal. apply six_eq; cbn; lia.
  - cbn [rows_loop combine clf_rows map filter fst snd]. rewrite Hb. rewrite IH by lia. f_equal.
    destruct (sel z).
    + rewrite six_assoc. rewrite (six_cons inA inS z (f =? w)). f_equal. rewrite six_cons. rewrite six_assoc.
      reflexivity.
    + reflexivity.
Qed.

Lemma cat_loop p x f : rows_loop (cat_row m Sv p x f) data y_pred six0
  = Some (six_of (sat_cl p (seq 0 m)) (fun _ => true) (eq_rows Sv x (clf_rows f (combine data y_pred)))).
Proof.
  rewrite (rows_sum (sat_cl p (seq 0 m)) (fun _ => true) (eq_on Sv x) f); [|clear Yok|exact Yok].
  - now rewrite six_0.
  - intros c z y. unfold cat_row. destruct (in_cl_m m p z) as [n [-> ->]].
    destruct (eq_cols m Sv SvOk x z) as [n' [-> ->]]. destruct (eq_on Sv x z); [|reflexivity]. f_equal.
    rewrite six_cons. apply six_eq; cbn [p_ p_u p_d p_s p_su p_sd six_add];
      destruct (sat_cl p (seq 0 m) z), (f =? y); cbn; lia.
Qed.
Lemma box_loop p x f : rows_loop (box_row m Sv p x f) data y_pred six0
  = Some (six_of (sat_cl p (seq 0 m)) (sat_cl p Sv) (clf_rows f (combine data y_pred))).
Proof.
  rewrite (rows_sum (sat_cl p (seq 0 m)) (sat_cl p Sv) (fun _ => true) f); [|clear Yok|exact Yok].
  - rewrite six_0. do 2 f_equal. apply filter_all. auto.
  - intros c z y. unfold box_row. destruct (in_cl_m m p z) as [n [-> ->]].
    destruct (in_cl_sat m p Sv z SvOk) as [n' [-> ->]].
    destruct (f =? y) eqn:E; f_equal; rewrite six_cons; rewrite ?E; apply six_eq;
      cbn [p_ p_u p_d p_s p_su p_sd six_add];
      destruct (sat_cl p (seq 0 m) z), (sat_cl p Sv z); cbn; lia.
Qed.

(** ** One pass *)
Lemma get_f_ok i : i < length X -> exists a, get_f X fX i = Some a.
Proof.
  intro H. unfold get_f. destruct (nth_error X i) eqn:E; [|apply nth_error_None in E; lia].
  destruct (nth_error fX i) eqn:E'; [eauto|apply nth_error_None in E'; lia].
Qed.
Lemma get_f_inv i x f : get_f X fX i = Some (x, f) -> nth_error X i = Some x /\ nth_error fX i = Some f /\ f < t_out T.
Proof.
  unfold get_f. destruct (nth_error X i); [|discriminate]. destruct (nth_error fX i) eqn:E; [|discriminate].
  intro H. injection H as -> ->. repeat split; auto. apply Cok. eapply nth_error_In; exact E.
Qed.
Lemma ratio_gdiv p v s : (ratio p v s == gdiv (Qn p * v) s)%Q.
Proof. unfold ratio, gdiv. destruct (s =? 0); reflexivity. Qed.
Lemma ratio_one p s : (ratio p 1 s == gdiv (Qn p) s)%Q.
Proof. unfold ratio, gdiv. destruct (s =? 0); [reflexivity|]. unfold Qdiv. ring. Qed.

(** the pass adds to each of the six numbers of a cell *)
Definition adds (norm : bool) (s : six) (v : Q) (met : bool) (a b : cell6) : Prop :=
  (c_a b == c_a a + if met then gdiv (Qn (p_ s) * v) (p_s s) else 0)%Q /\
  (c_u b == c_u a + if met then gdiv (Qn (p_u s) * v) (p_su s) else 0)%Q /\
  (c_d b == c_d a + if met then gdiv (Qn (p_d s) * v) (p_sd s) else 0)%Q /\
  (norm = true -> (n_a b == n_a a + if met then gdiv (Qn (p_ s)) (p_s s) else 0) /\
                  (n_u b == n_u a + if met then gdiv (Qn (p_u s)) (p_su s) else 0) /\
                  (n_d b == n_d a + if met then gdiv (Qn (p_d s)) (p_sd s) else 0))%Q.
Lemma sdp_body_run norm row inA inS rows b k x f c :
  rows_loop (row (t_part T b k) x f) data y_pred six0 = Some (six_of inA inS rows) ->
  b < t_trees T -> k < t_nb T b -> f < t_out T ->
  sdp_body T m data Sv y_pred norm row b k (x, f) c <> None /\
  adds norm (six_of inA inS rows) (t_val T b (t_leaf T b k) f) (not_out_cl (t_part T b k) Sv x)
       c (run (sdp_body T m data Sv y_pred norm row b) k (x, f) c).
Proof.
  intros Hr Hb Hk Hf. unfold run, sdp_body.
  destruct (out_cl_not m Sv SvOk (t_part T b k) x) as [o [-> ->]].
  destruct (not_out_cl (t_part T b k) Sv x); cbn [negb].
  - rewrite Hr. unfold value_at. assert (Hl := leaf_ok T Tok b k Hb Hk).
    destruct (Nat.ltb_spec (t_leaf T b k) (t_nodes T)); [|lia]. destruct (Nat.ltb_spec f (t_out T)); [|lia].
    cbn [andb]. split; [discriminate|]. unfold adds, add_cell. cbn [c_a c_u c_d n_a n_u n_d].
    rewrite !ratio_gdiv. repeat split; try reflexivity; subst norm; cbn; rewrite ?ratio_one; reflexivity.
  - split; [discriminate|]. unfold adds. repeat split; ring.
Qed.

(** ** compute_sdp_clf_cat *)
Lemma qdiv0_comp a a' b b' : (a == a')%Q -> (b == b')%Q -> (qdiv0 a b == qdiv0 a' b')%Q.
Proof.
  intros Ha Hb. unfold qdiv0. destruct (qeqb_spec b 0) as [E|E], (qeqb_spec b' 0) as [E'|E'];
    [reflexivity| | |now rewrite Ha, Hb]; exfalso.
  - apply E'. now rewrite <- Hb.
  - apply E. now rewrite Hb.
Qed.
Lemma sdp_clf_cat_prog_ok : exists res, sdp_clf_cat_prog T m X data Sv sched fX y_pred = Some res /\
  forall i x f, nth_error X i = Some x -> nth_error fX i = Some f ->
    (res i == compute_sdp_clf_cat m (combine data y_pred) f Sv (forest_at T vars f) x)%Q.
Proof.
  unfold sdp_clf_cat_prog, compute_sdp_clf_cat. destruct (length Sv =? m).
  { eexists. split; [reflexivity|]. reflexivity. }
  destruct (length Sv =? 0).
  { eexists. split; [reflexivity|]. reflexivity. }
  destruct (shared_ok T (get_f X fX) (length X) get_f_ok sched
    (sdp_body T m data Sv y_pred false (cat_row m Sv)) cell0 Tok Sok) as [buf [E H]].
  { intros b k i [x f] c Hb Hk _ Hg. apply get_f_inv in Hg.
    eapply sdp_body_run; [apply cat_loop|exact Hb|exact Hk|apply Hg]. }
  rewrite E. eexists. split; [reflexivity|]. intros i x f Hx Hf. unfold cat_out. apply clip_mor.
  assert (Hi : i < length X) by (apply nth_error_Some; rewrite Hx; discriminate).
  assert (Hg : get_f X fX i = Some (x, f)) by (unfold get_f; now rewrite Hx, Hf).
  assert (Hc : f < t_out T) by (apply Cok; eapply nth_error_In; exact Hf).
  assert (G : forall (g : cell6 -> Q) (pick : list frow -> list frow),
    (g cell0 == 0)%Q ->
    (forall b k c, b < t_trees T -> k < t_nb T b ->
       (g (run (sdp_body T m data Sv y_pred false (cat_row m Sv) b) k (x, f) c)
        == g c + cat_leaf m Sv x (pick (eq_rows Sv x (clf_rows f (combine data y_pred)))) (leaf_at T vars f b k))%Q) ->
    (slots T buf g i == cat_sum m Sv x (pick (eq_rows Sv x (clf_rows f (combine data y_pred)))) (forest_at T vars f))%Q).
  { intros g pick H0 Hs. unfold cat_sum. rewrite sumf_forest.
    apply (slots_sum T buf g i (fun b k c => run (sdp_body T m data Sv y_pred false (cat_row m Sv) b) k (x, f) c)
             cell0); auto. }
  assert (B : forall b k c, b < t_trees T -> k < t_nb T b -> _) by
    (intros b k c Hb Hk; exact (proj2 (sdp_body_run false (cat_row m Sv) _ _ _ b k x f c
       (cat_loop (t_part T b k) x f) Hb Hk Hc))).
  assert (L : forall rows, length rows = cnt (fun _ => true) rows).
  { intro rows. unfold cnt. now rewrite filter_all by auto. }
  apply qdiv0_comp; (apply Qplus_comp; [|apply Qopp_comp]).
  - apply (G c_a (fun r => r)); [reflexivity|]. intros b k c Hb Hk. destruct (B b k c Hb Hk) as [H1 _].
    rewrite H1. unfold cat_leaf. cbn [l_rect l_val leaf_at]. rewrite L. reflexivity.
  - apply (G c_d down_rows); [reflexivity|]. intros b k c Hb Hk. destruct (B b k c Hb Hk) as [_ [_ [H1 _]]].
    rewrite H1. unfold cat_leaf. cbn [l_rect l_val leaf_at]. rewrite L. reflexivity.
  - apply (G c_u up_rows); [reflexivity|]. intros b k c Hb Hk. destruct (B b k c Hb Hk) as [_ [H1 _]].
    rewrite H1. unfold cat_leaf. cbn [l_rect l_val leaf_at]. rewrite L. reflexivity.
  - apply (G c_d down_rows); [reflexivity|]. intros b k c Hb Hk. destruct (B b k c Hb Hk) as [_ [_ [H1 _]]].
    rewrite H1. unfold cat_leaf. cbn [l_rect l_val leaf_at]. rewrite L. reflexivity.
Qed.

(** ** compute_sdp_clf *)
Variable upto : nat -> nat.
Hypothesis Uok : forall b, b < t_trees T -> t_nb T b <= upto b.

Section Box.
Variables (buf : nat -> nat -> nat -> cell6) (i : nat) (x : pt) (f : nat).
Variables (g h : cell6 -> Q) (rows : list frow).
Hypothesis Hg : forall b k, b < t_trees T -> k < t_nb T b ->
  (g (buf b k i) == box_leaf m Sv x rows (leaf_at T vars f b k))%Q.
Hypothesis Hh : forall b k, b < t_trees T -> k < t_nb T b ->
  (h (buf b k i) == box_norm m Sv x rows (leaf_at T vars f b k))%Q.
Hypothesis Hg0 : forall b k, b < t_trees T -> t_nb T b <= k -> (g (buf b k i) == 0)%Q.
Lemma box_n_ok b : b < t_trees T ->
  (box_n T buf h i b == sumf (fun k => box_norm m Sv x rows (leaf_at T vars f b k)) (seq 0 (t_nb T b)))%Q.
Proof.
  intro Hb. unfold box_n. rewrite sum_fold, Qplus_0_l. apply sumf_ext. intros k Hk. apply in_seq in Hk.
  apply Hh; lia.
Qed.
Lemma box_ss_ok : (box_ss T upto buf g h i == box_sum m Sv x rows (forest_at T vars f))%Q.
Proof.
  unfold box_ss, box_sum, forest_at. cbv zeta. rewrite sumf_map.
  transitivity (0 + sumf (fun b => sumf (fun k => if qeqb (box_n T buf h i b) 0 then 0
      else g (buf b k i) / box_n T buf h i b)%Q (seq 0 (upto b))) (seq 0 (t_trees T)))%Q.
  - assert (G : forall bs q, (fold_left (fun ss b => fold_left (fun ss k => ss +
        (if qeqb (box_n T buf h i b) 0 then 0 else g (buf b k i) / box_n T buf h i b)) (seq 0 (upto b)) ss) bs q
      == q + sumf (fun b => sumf (fun k => if qeqb (box_n T buf h i b) 0 then 0
                                            else g (buf b k i) / box_n T buf h i b) (seq 0 (upto b))) bs)%Q).
    { induction bs as [|b bs IH]; intro q; cbn [fold_left sumf]; [ring|]. rewrite IH, sum_fold. ring. }
    apply G.
  - rewrite Qplus_0_l. apply sumf_ext. intros b Hb. apply in_seq in Hb. rewrite !sumf_map.
    rewrite <- (sum_upto (t_nb T b) (upto b)) by (apply Uok; lia). apply sumf_ext. intros k _.
    assert (En := box_n_ok b ltac:(lia)).
    destruct (Nat.ltb_spec k (t_nb T b)) as [L|L].
    + rewrite (qdiv0_comp _ (g (buf b k i)) _ (box_n T buf h i b)); [reflexivity| |rewrite En, ?sumf_map; reflexivity].
      symmetry. apply Hg; lia.
    + destruct (qeqb _ 0); [reflexivity|]. rewrite Hg0 by lia. unfold Qdiv. ring.
Qed.
End Box.

Lemma sdp_clf_prog_ok : exists res, sdp_clf_prog T m X data Sv sched fX y_pred upto = Some res /\
  forall i x f, nth_error X i = Some x -> nth_error fX i = Some f ->
    (res i == compute_sdp_clf m (combine data y_pred) f Sv (forest_at T vars f) x)%Q.
Proof.
  unfold sdp_clf_prog, compute_sdp_clf. destruct (length Sv =? m).
  { eexists. split; [reflexivity|]. reflexivity. }
  destruct (length Sv =? 0).
  { eexists. split; [reflexivity|]. reflexivity. }
  destruct (own_ok T (get_f X fX) (length X) get_f_ok sched
    (sdp_body T m data Sv y_pred true (box_row m Sv)) cell0 Tok Sok) as [buf [E H]].
  { intros b k i [x f] c Hb Hk _ Hg. apply get_f_inv in Hg.
    eapply sdp_body_run; [apply box_loop|exact Hb|exact Hk|apply Hg]. }
  rewrite E. eexists. split; [reflexivity|]. intros i x f Hx Hf. unfold box_out.
  assert (Hi : i < length X) by (apply nth_error_Some; rewrite Hx; discriminate).
  assert (Hg : get_f X fX i = Some (x, f)) by (unfold get_f; now rewrite Hx, Hf).
  assert (Hc : f < t_out T) by (apply Cok; eapply nth_error_In; exact Hf).
  assert (B : forall b k, b < t_trees T -> k < t_nb T b -> _) by
    (intros b k Hb Hk; exact (proj2 (sdp_body_run true (box_row m Sv) _ _ _ b k x f cell0
       (box_loop (t_part T b k) x f) Hb Hk Hc))).
  assert (Hin : forall b k, b < t_trees T -> k < t_nb T b ->
    buf b k i = run (sdp_body T m data Sv y_pred true (box_row m Sv) b) k (x, f) cell0).
  { intros b k Hb Hk. rewrite (H b k i (x, f) Hb Hi Hg). destruct (Nat.ltb_spec k (t_nb T b)); [reflexivity|lia]. }
  assert (Hout : forall b k, b < t_trees T -> t_nb T b <= k -> buf b k i = cell0).
  { intros b k Hb Hk. rewrite (H b k i (x, f) Hb Hi Hg). destruct (Nat.ltb_spec k (t_nb T b)); [lia|reflexivity]. }
  assert (Ga : (box_ss T upto buf c_a n_a i == box_sum m Sv x (clf_rows f (combine data y_pred)) (forest_at T vars f))%Q).
  { apply box_ss_ok; intros b k Hb Hk; [| |rewrite (Hout b k Hb Hk); reflexivity];
      rewrite (Hin b k Hb Hk); destruct (B b k Hb Hk) as [H1 [H2 [H3 H4]]]; destruct (H4 eq_refl) as [H5 [H6 H7]].
    - rewrite H1. cbn [cell0 c_a]. rewrite Qplus_0_l. reflexivity.
    - rewrite H5. cbn [cell0 n_a]. rewrite Qplus_0_l. reflexivity. }
  assert (Gu : (box_ss T upto buf c_u n_u i == box_sum m Sv x (up_rows (clf_rows f (combine data y_pred))) (forest_at T vars f))%Q).
  { apply box_ss_ok; intros b k Hb Hk; [| |rewrite (Hout b k Hb Hk); reflexivity];
      rewrite (Hin b k Hb Hk); destruct (B b k Hb Hk) as [H1 [H2 [H3 H4]]]; destruct (H4 eq_refl) as [H5 [H6 H7]].
    - rewrite H2. cbn [cell0 c_u]. rewrite Qplus_0_l. reflexivity.
    - rewrite H6. cbn [cell0 n_u]. rewrite Qplus_0_l. reflexivity. }
  assert (Gd : (box_ss T upto buf c_d n_d i == box_sum m Sv x (down_rows (clf_rows f (combine data y_pred))) (forest_at T vars f))%Q).
  { apply box_ss_ok; intros b k Hb Hk; [| |rewrite (Hout b k Hb Hk); reflexivity];
      rewrite (Hin b k Hb Hk); destruct (B b k Hb Hk) as [H1 [H2 [H3 H4]]]; destruct (H4 eq_refl) as [H5 [H6 H7]].
    - rewrite H3. cbn [cell0 c_d]. rewrite Qplus_0_l. reflexivity.
    - rewrite H7. cbn [cell0 n_d]. rewrite Qplus_0_l. reflexivity. }
  apply qdiv0_comp; rewrite ?Ga, ?Gu, ?Gd; reflexivity.
Qed.
End Clf.

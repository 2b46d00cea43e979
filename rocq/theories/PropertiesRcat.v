(** C128-C130: the same-decision probabilities of an [ACVTree] for regression models, from its trees to the arrays returned.
    [sig] is the logistic function; any function.  [f] gives the predictions of the rows that occur. *)
From Verif Require Import Base TreeModel TreeSpec GameSpec ShapModel FlatModel FlatSpec SdpModel SdpSpec RegModel RegSpec SearchModel SearchSpec ExplSpec
  ArrModel EntryModel EntrySpec ImpModel ImpSpec RcatModel RcatSpec RcatProofs RcatProofs2 RcatProofs3 PropertiesEntry PropertiesImp.
Local Open Scope nat_scope.

(** *** Small ensembles *)
Definition on_reg {A} (ts : list mtree) (b : offset) (f : reg_acv -> outcome A) : outcome A :=
  match construct_reg ex_sig ts 1 false b 2 with Some o => f o | None => Stray end.
(** a tree: [x0 <= 1] gives [a]; otherwise [x1 <= 1] gives [b], else [c] *)
Definition rc_t (a b c : Q) : mtree := mkM [1; -1; 3; -1; -1]%Z [2; -1; 4; -1; -1]%Z [1; -1; 3; -1; -1]%Z [0; -2; 1; -2; -2]%Z [1; 0; 1; 0; 0]%Q [[0]; [a]; [b]; [b]; [c]]%Q.
(** a tree: [x1 <= 1] gives [a], else [b] *)
Definition rc_s (a b : Q) : mtree := mkM [1; -1; -1]%Z [2; -1; -1]%Z [1; -1; -1]%Z [1; -2; -2]%Z [1; 0; 0]%Q [[0]; [a]; [b]]%Q.
Definition rc_zs : list (list Q) := [[2; 2]; [0; 0]; [2; 0]; [0; 0]]%Q.
Definition rc_zs2 : list (list Q) := [[2; 2]; [0; 0]; [2; 0]; [0; 2]]%Q.
Definition rc_f (ts : list mtree) (b : offset) (z : list Q) : Q :=
  (offset_of b 0 + sumf (fun m => match predict_value (as_tree m 0) (point z) no_missing with Some v => v | None => 0 end) ts)%Q.
Lemma small_fits ts : length ts <= 2 -> (forall m, In m ts -> length (m_vl m) <= 5) -> FlatSpec.fits ts 1 2.
Proof. intros H1 H2. exists 5. split; [exact H2|]. split; [|lia]. assert (Z.of_nat (length ts) <= 2)%Z by lia. change (2 ^ 32)%Z with 4294967296%Z. nia. Qed.
Lemma rc_bs b : offset_fits b 1 -> exists o, regressor ex_sig ex_bs false b 2 o.
Proof. intro Hb. apply regressor_some; [exact ex_bok|exact Hb|]. apply small_fits; [cbn; lia|]. intros m [<-|[<-|[]]]; cbn; lia. Qed.
Lemma rc_one a b c q : exists o, regressor ex_sig [rc_t a b c] false (Scalar q) 2 o.
Proof.
  apply regressor_some; [|exact I|apply small_fits; [cbn; lia|intros m [<-|[]]; cbn; lia]].
  split; [discriminate|]. split; [|reflexivity]. intros m [<-|[]]; (split; [reflexivity|]); intros r Hr; cbn in Hr;
    repeat (destruct Hr as [<-|Hr]; [reflexivity|]); contradiction.
Qed.
Lemma rc_two a b c a' b' q : exists o, regressor ex_sig [rc_t a b c; rc_s a' b'] false (Scalar q) 2 o.
Proof.
  apply regressor_some; [|exact I|apply small_fits; [cbn; lia|intros m [<-|[<-|[]]]; cbn; lia]].
  split; [discriminate|]. split; [|reflexivity]. intros m [<-|[<-|[]]]; (split; [reflexivity|]); intros r Hr; cbn in Hr;
    repeat (destruct Hr as [<-|Hr]; [reflexivity|]); contradiction.
Qed.
Lemma rc_predicts sig ts boosted b d o z : regressor sig ts boosted b d o -> predicts ts b z (rc_f ts b z).
Proof. intros ((_ & Hwf & _) & _). exact (predicts_some ts b d z Hwf). Qed.
(** no row of a list on a threshold *)
Definition off_check (ts : list mtree) (zs : list (list Q)) : bool :=
  forallb (fun z => forallb (fun m => forallb (fun i => (nth i (m_cl m) (-1) <? 0)%Z || negb (qeqb (nth (Z.to_nat (nth i (m_ft m) (-1)%Z)) z 0%Q) (nth i (m_th m) 0%Q)))
    (seq 0 (length (m_cl m)))) ts) zs.
Lemma off_check_ok ts zs : off_check ts zs = true -> forall z, In z zs -> off_thresholds ts z.
Proof.
  intros H z Hz m i Hm Hi Hc E. unfold off_check in H. rewrite forallb_forall in H. specialize (H z Hz). rewrite forallb_forall in H. specialize (H m Hm).
  rewrite forallb_forall in H. specialize (H i ltac:(apply in_seq; lia)). apply orb_true_iff in H. destruct H as [H|H]; [apply Z.ltb_lt in H; lia|].
  apply negb_true_iff in H. destruct (qeqb_spec (nth (Z.to_nat (nth i (m_ft m) (-1)%Z)) z 0%Q) (nth i (m_th m) 0%Q)) as [K|K]; [discriminate|contradiction].
Qed.
Lemma on_reg_at {A} ts b (f : reg_acv -> outcome A) o r : regressor ex_sig ts false b 2 o -> on_reg ts b f = r -> f o = r.
Proof. intros (_ & _ & _ & E). unfold on_reg. now rewrite E. Qed.
Lemma plainly_at {A} (g : Q -> A) out r : plainly g out = Returned r -> exists l, out = Returned l /\ map g l = r.
Proof. destruct out as [l| |]; cbn; try discriminate. intro E. injection E as <-. now exists l. Qed.
Lemma near_bool (P : list Q -> bool) v l : existsb (fun z => Bool.eqb (P z) v) l = true -> exists z, In z l /\ P z = v.
Proof. intro H. apply existsb_exists in H. destruct H as (z & Hz & E). exists z. split; [exact Hz|]. now apply eqb_prop. Qed.

(** ** C128: compute_sdp_reg_cat *)

(** Every ensemble of trees with one output has its object. *)
Theorem C128_built : forall sig ts boosted b d, ensemble_ok ts 1 d 1 1 -> offset_fits b 1 -> FlatSpec.fits ts 1 d -> exists o, regressor sig ts boosted b d o.
Proof. exact regressor_some. Qed.
Print Assumptions C128_built.
Example C128_built_example : ensemble_ok ex_bs 1 2 1 1 /\ offset_fits (Scalar 3) 1 /\ FlatSpec.fits ex_bs 1 2 /\ offset_fits (Vector [3]%Q) 1.
Proof. split; [exact ex_bok|]. split; [exact I|]. split; [apply small_fits; [cbn; lia|]; intros m [<-|[<-|[]]]; cbn; lia|reflexivity]. Qed.

(** One number between 0 and 1 for every observation. *)
Theorem C128_returns : forall sig ts boosted b d o, regressor sig ts boosted b d o ->
  forall X xs zs c, has_shape X d xs -> d <= c -> forall Sv tX, (forall s, In s Sv -> s < d) ->
  one_each (acv_reg_cat o tX X (S_array I64 Sv) (M_array F64 c zs)) xs (fun _ v => (0 <= v <= 1)%Q).
Proof. exact cat_probability. Qed.
Print Assumptions C128_returns.
Example C128_returns_example : (exists o, regressor ex_sig ex_bs false (Scalar 3) 2 o) /\ has_shape (M_frame 2 ex_xs) 2 ex_xs /\
  plainly Qred (on_reg ex_bs (Scalar 3) (fun o => acv_reg_cat o (1#10) (M_frame 2 ex_xs) (S_array I64 [0]) (M_array F64 2 ex_zs))) = Returned [2#3; 1#2; 1#3]%Q.
Proof. split; [now apply rc_bs|]. split; [now left|]. vm_compute. reflexivity. Qed.

(** The value for any offset: the share of the background rows equal to the observation on [Sv] whose prediction is within the tolerance, if
    the mean of [excess] over the rows beyond the tolerance differs from the mean over those within, and 0 otherwise. *)
Theorem C128_value : forall sig ts boosted b d o, regressor sig ts boosted b d o ->
  forall X xs zs c, has_shape X d xs -> d <= c -> forall Sv tX, (forall s, In s Sv -> s < d) ->
  forall f, (forall z, In z (xs ++ zs) -> predicts ts b z (f z)) ->
  one_each (acv_reg_cat o tX X (S_array I64 Sv) (M_array F64 c zs)) xs (fun x v =>
  ((v == 0)%Q \/ (matching Sv x zs <> [] /\ (v == frequency (close f tX x) (matching Sv x zs))%Q)) /\
  ((forall z, In z zs -> off_thresholds ts z) -> matching Sv x zs <> [] ->
     ~ (mean (excess f (offset_of b 0) x) (filter (fun z => negb (close f tX x z)) (matching Sv x zs)) == mean (excess f (offset_of b 0) x) (filter (close f tX x) (matching Sv x zs)))%Q ->
     (v == frequency (close f tX x) (matching Sv x zs))%Q) /\
  ((forall z, In z zs -> off_thresholds ts z) ->
     (mean (excess f (offset_of b 0) x) (filter (fun z => negb (close f tX x z)) (matching Sv x zs)) == mean (excess f (offset_of b 0) x) (filter (close f tX x) (matching Sv x zs)))%Q ->
     (v == 0)%Q)).
Proof. exact cat_cases. Qed.
Print Assumptions C128_value.
(** given column 0 = 1, two of the three predictions 15/4, 17/4, 9/2 are near 9/2; the means of [excess] differ *)
Example C128_value_example : let f := rc_f ex_bs (Scalar 3) in
  (exists o, regressor ex_sig ex_bs false (Scalar 3) 2 o /\ forall z, predicts ex_bs (Scalar 3) z (f z)) /\
  (forall z, In z ex_zs -> off_thresholds ex_bs z) /\ map (fun z => Qred (f z)) (matching [0] [1; 2]%Q ex_zs) = [15#4; 17#4; 9#2]%Q /\
  filter (close f (1#10) [1; 2]%Q) (matching [0] [1; 2]%Q ex_zs) = [[1; 1]; [1; 2]]%Q /\
  Qred (mean (excess f 3 [1; 2]%Q) [[1; 0]]%Q) = (-99#16)%Q /\ Qred (mean (excess f 3 [1; 2]%Q) [[1; 1]; [1; 2]]%Q) = (-335#32)%Q.
Proof.
  split; [destruct (rc_bs (Scalar 3) I) as [o H]; exists o; split; [exact H|intro z; exact (rc_predicts _ _ _ _ _ _ z H)]|].
  split; [apply off_check_ok; vm_compute; reflexivity|]. vm_compute. repeat split; reflexivity.
Qed.

(** No row equal to the observation on [Sv], or none of them within the tolerance: 0. *)
Theorem C128_none : forall sig ts boosted b d o, regressor sig ts boosted b d o ->
  forall X xs zs c, has_shape X d xs -> d <= c -> forall Sv tX, (forall s, In s Sv -> s < d) ->
  forall f, (forall z, In z (xs ++ zs) -> predicts ts b z (f z)) ->
  one_each (acv_reg_cat o tX X (S_array I64 Sv) (M_array F64 c zs)) xs (fun x v => (forall z, In z (matching Sv x zs) -> close f tX x z = false) -> (v == 0)%Q).
Proof. exact cat_none. Qed.
Print Assumptions C128_none.
Example C128_none_example : let f := rc_f ex_bs (Scalar 0) in matching [0; 1] [0; 2]%Q ex_zs = [] /\
  (forall z, In z (matching [0] [0; 2]%Q ex_zs) -> close f (-1) [0; 2]%Q z = false) /\ matching [0] [0; 2]%Q ex_zs <> [] /\
  plainly Qred (on_reg ex_bs (Scalar 0) (fun o => acv_reg_cat o (1#10) (M_frame 2 [[0; 2]]%Q) (S_array I64 [0; 1]) (M_array F64 2 ex_zs))) = Returned [0]%Q.
Proof.
  split; [reflexivity|]. split; [|split; [discriminate|vm_compute; reflexivity]].
  intros z Hz. cbn in Hz. destruct Hz as [<-|[<-|[]]]; vm_compute; reflexivity.
Qed.

(** Full claim: the share of the background rows equal to the observation on [Sv] whose prediction is within the tolerance.
    True without offset when some of these rows are within the tolerance and others are not.  Missing: offsets, and all rows within. *)
Theorem C128_frequency_partial : forall sig ts boosted b d o, regressor sig ts boosted b d o ->
  forall X xs zs c, has_shape X d xs -> d <= c -> forall Sv tX, (forall s, In s Sv -> s < d) ->
  forall f, (forall z, In z (xs ++ zs) -> predicts ts b z (f z)) ->
  (offset_of b 0 == 0)%Q -> (forall z, In z zs -> off_thresholds ts z) ->
  one_each (acv_reg_cat o tX X (S_array I64 Sv) (M_array F64 c zs)) xs (fun x v =>
  (exists z, In z (matching Sv x zs) /\ close f tX x z = true) -> (exists z, In z (matching Sv x zs) /\ close f tX x z = false) ->
  (v == frequency (close f tX x) (matching Sv x zs))%Q).
Proof. exact cat_share. Qed.
Print Assumptions C128_frequency_partial.
Example C128_frequency_example : let f := rc_f ex_bs (Scalar 0) in (exists o, regressor ex_sig ex_bs false (Scalar 0) 2 o) /\
  (forall z, In z ex_zs -> off_thresholds ex_bs z) /\
  map (fun z => close f (1#10) [1; 2]%Q z) (matching [0] [1; 2]%Q ex_zs) = [false; true; true] /\
  plainly Qred (on_reg ex_bs (Scalar 0) (fun o => acv_reg_cat o (1#10) (M_frame 2 ex_xs) (S_array I64 [0]) (M_array F64 2 ex_zs))) = Returned [2#3; 1#2; 1#3]%Q.
Proof. split; [now apply rc_bs|]. split; [apply off_check_ok; vm_compute; reflexivity|]. vm_compute. split; reflexivity. Qed.
(** With an offset the share is not returned. *)
Theorem C128_frequency_refuted : exists sig ts b d o X xs zs Sv tX f x v,
  regressor sig ts false b d o /\ has_shape X d xs /\ (forall s, In s Sv -> s < d) /\ (forall z, predicts ts b z (f z)) /\
  (forall z, In z zs -> off_thresholds ts z) /\ xs = [x] /\
  (exists z, In z (matching Sv x zs) /\ close f tX x z = true) /\ (exists z, In z (matching Sv x zs) /\ close f tX x z = false) /\
  acv_reg_cat o tX X (S_array I64 Sv) (M_array F64 d zs) = Returned [v] /\ (v == 0)%Q /\ (frequency (close f tX x) (matching Sv x zs) == 1#2)%Q.
Proof.
  destruct (rc_bs (Scalar (-1#4)) I) as [o H].
  destruct (plainly_at Qred (acv_reg_cat o (1#10) (M_frame 2 [[0; 1]]%Q) (S_array I64 [0]) (M_array F64 2 ex_zs)) [0%Q]) as (l & E & El).
  { apply (on_reg_at ex_bs _ (fun o => plainly Qred (acv_reg_cat o (1#10) (M_frame 2 [[0; 1]]%Q) (S_array I64 [0]) (M_array F64 2 ex_zs))) o _ H). vm_compute. reflexivity. }
  destruct l as [|v [|? ?]]; try discriminate El. injection El as Ev.
  exists ex_sig, ex_bs, (Scalar (-1#4)), 2, o, (M_frame 2 [[0; 1]]%Q), [[0; 1]]%Q, ex_zs, [0], (1#10)%Q, (rc_f ex_bs (Scalar (-1#4))), [0; 1]%Q, v.
  split; [exact H|]. split; [now left|]. split; [cbn; intuition lia|]. split; [intro z; exact (rc_predicts _ _ _ _ _ _ z H)|].
  split; [apply off_check_ok; vm_compute; reflexivity|]. split; [reflexivity|].
  split; [apply near_bool; vm_compute; reflexivity|]. split; [apply near_bool; vm_compute; reflexivity|].
  split; [exact E|]. split; [rewrite <- (Qred_correct v), Ev; reflexivity|]. vm_compute. reflexivity.
Qed.
Print Assumptions C128_frequency_refuted.

(** All rows equal to the observation on [Sv] within the tolerance: 1, or 0 when the mean of [excess] over them is 0. *)
Theorem C128_all_partial : forall sig ts boosted b d o, regressor sig ts boosted b d o ->
  forall X xs zs c, has_shape X d xs -> d <= c -> forall Sv tX, (forall s, In s Sv -> s < d) ->
  forall f, (forall z, In z (xs ++ zs) -> predicts ts b z (f z)) -> (forall z, In z zs -> off_thresholds ts z) ->
  one_each (acv_reg_cat o tX X (S_array I64 Sv) (M_array F64 c zs)) xs (fun x v =>
  matching Sv x zs <> [] -> (forall z, In z (matching Sv x zs) -> close f tX x z = true) ->
  (v == if qeqb (mean (excess f (offset_of b 0) x) (matching Sv x zs)) 0 then 0 else 1)%Q).
Proof. exact cat_all. Qed.
Print Assumptions C128_all_partial.
Example C128_all_example : let f := rc_f ex_bs (Scalar 0) in matching [1] [1; 2]%Q ex_zs = [[1; 2]]%Q /\ close f (1#10) [1; 2]%Q [1; 2]%Q = true /\
  Qred (mean (excess f 0 [1; 2]%Q) [[1; 2]]%Q) = (-9#4)%Q /\
  plainly Qred (on_reg ex_bs (Scalar 0) (fun o => acv_reg_cat o (1#10) (M_frame 2 ex_xs) (S_array I64 [1]) (M_array F64 2 ex_zs))) = Returned [1; 1#2; 1#2]%Q.
Proof. vm_compute. repeat split; reflexivity. Qed.
(** All columns given, the observation in the background, no offset: 0. *)
Theorem C128_all_refuted : exists sig ts d o X zs Sv tX f x v,
  regressor sig ts false (Scalar 0) d o /\ has_shape X d [x] /\ (forall s, In s Sv <-> s < d) /\ (forall z, predicts ts (Scalar 0) z (f z)) /\
  (forall z, In z zs -> off_thresholds ts z) /\ In x zs /\ (0 < tX)%Q /\
  acv_reg_cat o tX X (S_array I64 Sv) (M_array F64 d zs) = Returned [v] /\ (v == 0)%Q /\ (frequency (close f tX x) (matching Sv x zs) == 1)%Q.
Proof.
  destruct (rc_bs (Scalar 0) I) as [o H].
  destruct (plainly_at Qred (acv_reg_cat o (1#10) (M_frame 2 [[0; 0]]%Q) (S_array I64 [0; 1]) (M_array F64 2 ex_zs)) [0%Q]) as (l & E & El).
  { apply (on_reg_at ex_bs _ (fun o => plainly Qred (acv_reg_cat o (1#10) (M_frame 2 [[0; 0]]%Q) (S_array I64 [0; 1]) (M_array F64 2 ex_zs))) o _ H). vm_compute. reflexivity. }
  destruct l as [|v [|? ?]]; try discriminate El. injection El as Ev.
  exists ex_sig, ex_bs, 2, o, (M_frame 2 [[0; 0]]%Q), ex_zs, [0; 1], (1#10)%Q, (rc_f ex_bs (Scalar 0)), [0; 0]%Q, v.
  split; [exact H|]. split; [now left|]. split; [cbn; intuition lia|]. split; [intro z; exact (rc_predicts _ _ _ _ _ _ z H)|].
  split; [apply off_check_ok; vm_compute; reflexivity|]. split; [now left|]. split; [reflexivity|].
  split; [exact E|]. split; [rewrite <- (Qred_correct v), Ev; reflexivity|]. vm_compute. reflexivity.
Qed.
Print Assumptions C128_all_refuted.

(** What is not accepted (both methods; [run] is what happens after the conversions): lists of rows, single observations, lists of columns, frames or other
    dtypes for the background, ensembles with several outputs. *)
Theorem C128_errors : forall sig ts boosted b d o, regressor sig ts boosted b d o ->
  forall run X xs c zs dt Sv, has_shape X d xs -> d <= c ->
  (forall r S data, reg_call o run (M_list d r) S data = Raised EAttribute) /\
  (forall S, reg_call o run X S (M_list c zs) = Raised EAttribute) /\
  (forall x S, length x = d -> reg_call o run (M_vector dt x) S (M_array F64 c zs) = Raised EValue) /\
  reg_call o run X (S_list Sv) (M_array F64 c zs) = Raised EType /\
  reg_call o run X (S_array I64 Sv) (M_frame c zs) = Raised EType /\
  (dt <> F64 -> reg_call o run X (S_array I64 Sv) (M_array dt c zs) = Raised EValue).
Proof. exact call_errors. Qed.
Print Assumptions C128_errors.
Example C128_errors_example : (exists o, regressor ex_sig ex_bs false (Scalar 0) 2 o) /\ has_shape (M_array I64 2 ex_xs) 2 ex_xs /\
  on_reg ex_bs (Scalar 0) (fun o => acv_reg_cat o (1#10) (M_array I64 2 ex_xs) (S_array I64 [0]) (M_frame 2 ex_zs)) = Raised EType.
Proof. split; [now apply rc_bs|]. split; [right; now exists I64|]. vm_compute. reflexivity. Qed.
Theorem C128_outputs : forall sig ts boosted b d w o run X S data xs zs c c',
  ensemble_ok ts 1 d w w -> 2 <= w -> offset_fits b w -> FlatSpec.fits ts w d -> construct_reg sig ts 1 boosted b d = Some o ->
  has_shape X c' xs -> d <= c' -> has_shape data c zs -> d <= c ->
  reg_call o run X S data = Raised EValue.
Proof. exact several_outputs. Qed.
Print Assumptions C128_outputs.
Example C128_outputs_example : ensemble_ok ex_ts 1 2 2 2 /\ FlatSpec.fits ex_ts 2 2 /\
  on_reg ex_ts (Scalar 0) (fun o => acv_reg_cat o (1#10) (M_frame 2 ex_xs) (S_array I64 [0]) (M_array F64 2 ex_zs)) = Raised EValue.
Proof. split; [exact ex_ok|]. split; [exists 5; split; [intros m [<-|[<-|[]]]; cbn; lia|vm_compute; split; discriminate]|vm_compute; reflexivity]. Qed.
(** What is not checked: a column that does not exist, more columns than the model has or than the background has. *)
Theorem C128_unchecked : forall sig ts boosted b d o, regressor sig ts boosted b d o ->
  forall run X c' xs zs c Sv, has_shape X c' xs -> d <= c' -> d <= c -> d < c' \/ c < c' \/ (exists s, In s Sv /\ c' <= s) ->
  reg_call o run X (S_array I64 Sv) (M_array F64 c zs) = Stray.
Proof. exact call_stray. Qed.
Print Assumptions C128_unchecked.
Example C128_unchecked_example : (exists o, regressor ex_sig ex_bs false (Scalar 0) 2 o) /\ has_shape (M_frame 2 ex_xs) 2 ex_xs /\ (exists s, In s [0; 2] /\ 2 <= s) /\
  on_reg ex_bs (Scalar 0) (fun o => acv_reg_cat o (1#10) (M_frame 2 ex_xs) (S_array I64 [0; 2]) (M_array F64 2 ex_zs)) = Stray.
Proof. split; [now apply rc_bs|]. split; [now left|]. split; [exists 2; cbn; intuition|]. vm_compute. reflexivity. Qed.

(** ** C129: importance_sdp_reg_cat *)

(** Four arrays are returned, up to fifteen groups. *)
Theorem C129_returns : forall sig ts boosted b d o, regressor sig ts boosted b d o ->
  forall X xs zs c, has_shape X d xs -> d <= c -> forall C tX pi minimal stop,
  coal_ok C d -> C <> [] -> length (tree_groups C d) <= 15 -> (0 < pi)%Q -> (pi <= 1)%Q ->
  exists e, acv_reg_explain o X tX (M_array F64 c zs) C pi minimal stop = Returned e /\ shaped e (length xs) d.
Proof. exact explain_reg_returns. Qed.
Print Assumptions C129_returns.
Example C129_returns_example : coal_ok [[]] 2 /\ length (tree_groups [[]] 2) <= 15 /\
  plain_answer (on_reg ex_bs (Scalar 0) (fun o => acv_reg_explain o (M_frame 2 ex_zs) (1#10) (M_array F64 2 ex_zs) [[]] (3#5) 1 true))
   = Returned ([1#5; 1#5]%Q, [[1; -1]; [1; -1]; [1; -1]; [0; -1]; [1; -1]]%Z, [1; 1; 1; 1; 1], [1#2; 1#2; 1#2; 2#3; 1]%Q).
Proof. split; [split; [constructor|split; [contradiction|now left]]|]. split; [cbn; lia|]. vm_compute. reflexivity. Qed.

(** A reported probability at the level comes with a smallest set of groups that [compute_sdp_reg_cat] of the same object confirms (or with all columns,
    by convention); below the level, no set that was searched is confirmed. *)
Theorem C129_rows_partial : forall sig ts boosted b d o, regressor sig ts boosted b d o ->
  forall X xs zs c, has_shape X d xs -> d <= c -> forall C tX pi minimal stop,
  coal_ok C d -> C <> [] -> length (tree_groups C d) <= 15 -> (0 < pi)%Q -> (pi <= 1)%Q ->
  forall e, acv_reg_explain o X tX (M_array F64 c zs) C pi minimal stop = Returned e -> forall k, k < length xs ->
  ((pi <= nth k (e_sdp e) 0)%Q -> exists T, minimal_sufficient d (tree_groups C d) minimal pi (reg_told o tX X (M_array F64 c zs) k) T (nth k (e_sdp e) 0%Q) /\
     reported (row_of e k) = map Z.of_nat (concat T) /\ nth k (e_size e) 0 = length (concat T)) /\
  ((nth k (e_sdp e) 0 < pi)%Q -> forall T, In T (subs (tree_groups C d)) -> minimal <= length T ->
     (stop = true -> (forall g, In g C -> g = []) /\ length T <= Nat.max minimal (d / 2)) -> (reg_told o tX X (M_array F64 c zs) k (concat T) < pi)%Q).
Proof. exact explain_reg_rows. Qed.
Print Assumptions C129_rows_partial.
(** the observation (1,1): column 0 gives 2/3, column 1 gives 1/2 *)
Example C129_rows_example : coal_ok [[]] 2 /\
  plain_answer (on_reg ex_bs (Scalar 0) (fun o => acv_reg_explain o (M_frame 2 ex_zs) (1#10) (M_array F64 2 ex_zs) [[]] (3#5) 1 false))
   = Returned ([4#5; 4#5]%Q, [[0; 1]; [0; 1]; [0; 1]; [0; -1]; [1; -1]]%Z, [2; 2; 2; 1; 1], [1; 1; 1; 2#3; 1]%Q) /\
  map (fun S => plainly Qred (on_reg ex_bs (Scalar 0) (fun o => acv_reg_cat o (1#10) (M_frame 2 ex_zs) (S_array I64 S) (M_array F64 2 ex_zs)))) [[0]; [1]]
   = [Returned [1#2; 1#2; 1#3; 2#3; 2#3]%Q; Returned [1#2; 1#2; 1#2; 1#2; 1]%Q].
Proof. split; [split; [constructor|split; [contradiction|now left]]|]. vm_compute. split; reflexivity. Qed.

(** The sequential variant reports the same as the other with the early stop. *)
Theorem C129_sequential_partial : forall sig ts boosted b d o, regressor sig ts boosted b d o ->
  forall X xs zs c, has_shape X d xs -> d <= c -> forall tX C pi minimal,
  coal_ok C d -> C <> [] -> length (tree_groups C d) <= 15 -> (0 < pi)%Q -> (pi <= 1)%Q ->
  exists e, acv_reg_explain_nopa o X tX (M_array F64 c zs) C pi minimal = Returned e /\ shaped e (length xs) d /\ forall k, k < length xs ->
  ((pi <= nth k (e_sdp e) 0)%Q -> exists T, minimal_sufficient d (tree_groups C d) minimal pi (reg_told o tX X (M_array F64 c zs) k) T (nth k (e_sdp e) 0%Q) /\
     reported (row_of e k) = map Z.of_nat (concat T) /\ nth k (e_size e) 0 = length (concat T)) /\
  ((nth k (e_sdp e) 0 < pi)%Q -> forall T, In T (subs (tree_groups C d)) -> minimal <= length T ->
     (forall g, In g C -> g = []) -> length T <= Nat.max minimal (d / 2) -> (reg_told o tX X (M_array F64 c zs) k (concat T) < pi)%Q).
Proof. exact explain_reg_nopa. Qed.
Print Assumptions C129_sequential_partial.
Example C129_sequential_example : coal_ok [[]] 2 /\
  plain_answer (on_reg ex_bs (Scalar 0) (fun o => acv_reg_explain_nopa o (M_frame 2 ex_zs) (1#10) (M_array F64 2 ex_zs) [[]] (3#5) 0))
   = Returned ([1#5; 1#5]%Q, [[1; -1]; [1; -1]; [1; -1]; [0; -1]; [1; -1]]%Z, [1; 1; 1; 1; 1], [1#2; 1#2; 1#2; 2#3; 1]%Q).
Proof. split; [split; [constructor|split; [contradiction|now left]]|]. vm_compute. reflexivity. Qed.

(** The importance of a column is the share of the observations whose explanation contains it. *)
Theorem C129_importance : forall sig ts boosted b d o, regressor sig ts boosted b d o ->
  forall X xs zs c, has_shape X d xs -> d <= c -> forall C tX pi minimal stop,
  coal_ok C d -> C <> [] -> xs <> [] -> length (tree_groups C d) <= 15 -> (0 < pi)%Q -> (pi <= 1)%Q ->
  forall e, acv_reg_explain o X tX (M_array F64 c zs) C pi minimal stop = Returned e -> forall j, j < d ->
  (nth j (e_importance e) 0 == Qn (length (filter (fun i => explains pi (row_of e i) j) (seq 0 (length xs)))) / Qn (length xs))%Q /\
  (0 <= nth j (e_importance e) 0 <= 1)%Q.
Proof. exact explain_reg_importance. Qed.
Print Assumptions C129_importance.
Example C129_importance_example : coal_ok [[1]] 2 /\ ex_zs <> [] /\
  plain_answer (on_reg ex_bs (Scalar 0) (fun o => acv_reg_explain o (M_frame 2 ex_zs) (1#10) (M_array F64 2 ex_zs) [[1]] (3#5) 1 false))
   = Returned ([4#5; 4#5]%Q, [[0; 1]; [0; 1]; [0; 1]; [0; -1]; [1; -1]]%Z, [2; 2; 2; 1; 1], [1; 1; 1; 2#3; 1]%Q).
Proof.
  split; [split; [repeat constructor; cbn; intuition|split; [cbn; intuition lia|right; intros [K|[]]; discriminate K]]|].
  split; [discriminate|]. vm_compute. reflexivity.
Qed.

Definition reg_short (pi : Q) (o : reg_acv) tX X data k S : outcome bool := Returned (qleb pi (reg_told o tX X data k S)).
Lemma reg_short_spec pi o tX X data k S b : reg_short pi o tX X data k S = Returned b ->
  if b then (pi <= reg_told o tX X data k S)%Q else (reg_told o tX X data k S < pi)%Q.
Proof. intro E. injection E as <-. destruct (qleb_spec pi (reg_told o tX X data k S)) as [K|K]; [exact K|now apply Qnot_le_lt]. Qed.
(** All columns are reported although [compute_sdp_reg_cat] returns 0 for them. *)
Theorem C129_everything_refuted : exists sig ts d o X xs zs tX pi e i,
  regressor sig ts false (Scalar 0) d o /\ has_shape X d xs /\ (0 < pi <= 1)%Q /\ i < length xs /\
  acv_reg_explain o X tX (M_array F64 d zs) [[]] pi 1 false = Returned e /\ (pi <= nth i (e_sdp e) 0)%Q /\
  firstn (nth i (e_size e) 0) (nth i (e_index e) []) = map Z.of_nat (seq 0 d) /\ (reg_told o tX X (M_array F64 d zs) i (seq 0 d) < pi)%Q.
Proof.
  destruct (rc_bs (Scalar 0) I) as [o H].
  destruct (row_short_spec (acv_reg_explain o (M_frame 2 ex_zs) (1#10) (M_array F64 2 ex_zs) [[]] (3#5) 1 false) (3#5) 0 2 [0%Z; 1%Z] true) as (e & He & Hn & Hi & Hp).
  { apply (on_reg_at ex_bs _ (fun o => row_short (acv_reg_explain o (M_frame 2 ex_zs) (1#10) (M_array F64 2 ex_zs) [[]] (3#5) 1 false) (3#5) 0) o _ H). vm_compute. reflexivity. }
  exists ex_sig, ex_bs, 2, o, (M_frame 2 ex_zs), ex_zs, ex_zs, (1#10)%Q, (3#5)%Q, e, 0.
  split; [exact H|]. split; [now left|]. split; [split; reflexivity || discriminate|]. split; [cbn; lia|]. split; [exact He|]. split; [exact Hp|].
  split; [rewrite Hn; exact Hi|].
  apply (reg_short_spec (3#5) o (1#10) (M_frame 2 ex_zs) (M_array F64 2 ex_zs) 0 (seq 0 2) false).
  apply (on_reg_at ex_bs _ (fun o => reg_short (3#5) o (1#10) (M_frame 2 ex_zs) (M_array F64 2 ex_zs) 0 (seq 0 2)) o _ H). vm_compute. reflexivity.
Qed.
Print Assumptions C129_everything_refuted.
(** With [stop], the default, the search gives up although a larger set reaches the level. *)
Theorem C129_stop_refuted : exists sig ts d o X xs zs tX pi e i S,
  regressor sig ts false (Scalar 0) d o /\ has_shape X d xs /\ (0 < pi <= 1)%Q /\ i < length xs /\
  acv_reg_explain o X tX (M_array F64 d zs) [[]] pi 1 true = Returned e /\ (nth i (e_sdp e) 0 < pi)%Q /\
  NoDup S /\ (forall s, In s S -> s < d) /\ (pi <= reg_told o tX X (M_array F64 d zs) i S)%Q.
Proof.
  destruct (rc_bs (Scalar 0) I) as [o H].
  destruct (row_short_spec (acv_reg_explain o (M_frame 2 ex_zs) 0 (M_array F64 2 ex_zs) [[]] (9#10) 1 true) (9#10) 3 1 [1%Z] false) as (e & He & _ & _ & Hp).
  { apply (on_reg_at ex_bs _ (fun o => row_short (acv_reg_explain o (M_frame 2 ex_zs) 0 (M_array F64 2 ex_zs) [[]] (9#10) 1 true) (9#10) 3) o _ H). vm_compute. reflexivity. }
  exists ex_sig, ex_bs, 2, o, (M_frame 2 ex_zs), ex_zs, ex_zs, 0%Q, (9#10)%Q, e, 3, [0; 1].
  split; [exact H|]. split; [now left|]. split; [split; reflexivity || discriminate|]. split; [cbn; lia|]. split; [exact He|]. split; [exact Hp|].
  split; [repeat constructor; cbn; intuition lia|]. split; [cbn; intuition lia|].
  apply (reg_short_spec (9#10) o 0 (M_frame 2 ex_zs) (M_array F64 2 ex_zs) 3 [0; 1] true).
  apply (on_reg_at ex_bs _ (fun o => reg_short (9#10) o 0 (M_frame 2 ex_zs) (M_array F64 2 ex_zs) 3 [0; 1]) o _ H). vm_compute. reflexivity.
Qed.
Print Assumptions C129_stop_refuted.

(** ** C130: compute_sdp_reg *)

(** One tree: one number for every observation, which does not depend on the others.  Missing: several trees. *)
Theorem C130_batch_partial : forall sig t boosted b d o X xs zs c Sv tX, regressor sig [t] boosted b d o -> has_shape X d xs -> d <= c -> (forall s, In s Sv -> s < d) ->
  one_each (acv_reg o tX X (S_array I64 Sv) (M_array F64 c zs)) xs (fun x v =>
    exists v', acv_reg o tX (M_array F64 d [x]) (S_array I64 Sv) (M_array F64 c zs) = Returned [v'] /\ (v == v')%Q).
Proof. exact reg_batch. Qed.
Print Assumptions C130_batch_partial.
Example C130_batch_example : (exists o, regressor ex_sig [rc_t 3 4 2] false (Scalar 0) 2 o) /\
  plainly Qred (on_reg [rc_t 3 4 2] (Scalar 0) (fun o => acv_reg o 0 (M_frame 2 rc_zs) (S_array I64 [1]) (M_array F64 2 rc_zs))) = Returned [2#3; 3#5; 2#5; 3#5]%Q /\
  plainly Qred (on_reg [rc_t 3 4 2] (Scalar 0) (fun o => acv_reg o 0 (M_array F64 2 [[2; 0]]%Q) (S_array I64 [1]) (M_array F64 2 rc_zs))) = Returned [2#5]%Q.
Proof. split; [apply rc_one|]. vm_compute. split; reflexivity. Qed.
(** Two trees: the same observation twice, two numbers. *)
Theorem C130_batch_refuted : exists sig ts d o X x zs Sv tX v1 v2, length ts = 2 /\
  regressor sig ts false (Scalar 0) d o /\ has_shape X d [x; x] /\ (forall s, In s Sv -> s < d) /\
  acv_reg o tX X (S_array I64 Sv) (M_array F64 d zs) = Returned [v1; v2] /\ ~ (v1 == v2)%Q.
Proof.
  destruct (rc_two 3 4 2 1 4 0) as [o H].
  destruct (plainly_at Qred (acv_reg o 1 (M_frame 2 [[2; 0]; [2; 0]]%Q) (S_array I64 [0]) (M_array F64 2 rc_zs2)) [27#22; 735#1276]%Q) as (l & E & El).
  { apply (on_reg_at [rc_t 3 4 2; rc_s 1 4] _ (fun o => plainly Qred (acv_reg o 1 (M_frame 2 [[2; 0]; [2; 0]]%Q) (S_array I64 [0]) (M_array F64 2 rc_zs2))) o _ H). vm_compute. reflexivity. }
  destruct l as [|v1 [|v2 [|? ?]]]; try discriminate El. injection El as E1 E2.
  exists ex_sig, [rc_t 3 4 2; rc_s 1 4], 2, o, (M_frame 2 [[2; 0]; [2; 0]]%Q), [2; 0]%Q, rc_zs2, [0], 1%Q, v1, v2.
  split; [reflexivity|]. split; [exact H|]. split; [now left|]. split; [cbn; intuition lia|]. split; [exact E|].
  rewrite <- (Qred_correct v1), <- (Qred_correct v2), E1, E2. vm_compute. discriminate.
Qed.
Print Assumptions C130_batch_refuted.

(** One tree: position of the mean squared distance of the leaves to the prediction between its values on the rows beyond and within the tolerance;
    a leaf is weighted by the share of the rows in its projection on [Sv] that are in the leaf. *)
Theorem C130_value_partial : forall sig t boosted b d o, regressor sig [t] boosted b d o ->
  forall X xs zs c, has_shape X d xs -> d <= c -> forall Sv tX, (forall s, In s Sv -> s < d) ->
  forall f, (forall z, In z (xs ++ zs) -> predicts [t] b z (f z)) -> forall ls, tree_leaves (as_tree t 0) = Some ls ->
  one_each (acv_reg o tX X (S_array I64 Sv) (M_array F64 c zs)) xs (fun x v =>
  let W := total_weight d Sv (point x) in let D := deviation d Sv (point x) in
  let all := map point zs in let far := map point (filter (fun z => negb (close f tX x z)) zs) in let clo := map point (filter (close f tX x) zs) in
  ~ (W all ls == 0)%Q -> ~ (W far ls == 0)%Q -> ~ (W clo ls == 0)%Q -> ~ (D far (f x) ls == D clo (f x) ls)%Q ->
  (v == (D far (f x) ls - D all (f x) ls) / (D far (f x) ls - D clo (f x) ls))%Q).
Proof. exact reg_value. Qed.
Print Assumptions C130_value_partial.
Example C130_value_example : let f := rc_f [rc_t 3 4 2] (Scalar 0) in let x := [2; 0]%Q in exists ls, tree_leaves (as_tree (rc_t 3 4 2) 0) = Some ls /\
  let W := total_weight 2 [1] (point x) in let D := deviation 2 [1] (point x) in
  let far := map point (filter (fun z => negb (close f 0 x z)) rc_zs) in let clo := map point (filter (close f 0 x) rc_zs) in
  Qred (W (map point rc_zs) ls) = (5#6)%Q /\ Qred (W far ls) = (2#3)%Q /\ Qred (W clo ls) = 1%Q /\
  Qred (D (map point rc_zs) (f x) ls) = (3#5)%Q /\ Qred (D far (f x) ls) = 1%Q /\ Qred (D clo (f x) ls) = 0%Q.
Proof. eexists. split; [reflexivity|]. vm_compute. repeat split; reflexivity. Qed.
(** It can exceed 1. *)
Theorem C130_probability_refuted : exists sig t d o X x zs Sv tX v,
  regressor sig [t] false (Scalar 0) d o /\ has_shape X d [x] /\ In x zs /\ (forall s, In s Sv -> s < d) /\ (forall z, In z zs -> off_thresholds [t] z) /\ (0 <= tX)%Q /\
  acv_reg o tX X (S_array I64 Sv) (M_array F64 d zs) = Returned [v] /\ (1 < v)%Q.
Proof.
  destruct (rc_one 3 4 2 0) as [o H].
  destruct (plainly_at Qred (acv_reg o 1 (M_frame 2 [[2; 2]]%Q) (S_array I64 [1]) (M_array F64 2 rc_zs)) [55#54]%Q) as (l & E & El).
  { apply (on_reg_at [rc_t 3 4 2] _ (fun o => plainly Qred (acv_reg o 1 (M_frame 2 [[2; 2]]%Q) (S_array I64 [1]) (M_array F64 2 rc_zs))) o _ H). vm_compute. reflexivity. }
  destruct l as [|v [|? ?]]; try discriminate El. injection El as Ev.
  exists ex_sig, (rc_t 3 4 2), 2, o, (M_frame 2 [[2; 2]]%Q), [2; 2]%Q, rc_zs, [1], 1%Q, v.
  split; [exact H|]. split; [now left|]. split; [now left|]. split; [cbn; intuition lia|]. split; [apply off_check_ok; vm_compute; reflexivity|].
  split; [discriminate|]. split; [exact E|]. rewrite <- (Qred_correct v), Ev. reflexivity.
Qed.
Print Assumptions C130_probability_refuted.

(** One tree, no column given: the numbers of [compute_sdp_reg_cat]. *)
Theorem C130_nothing_partial : forall sig t boosted b d o, regressor sig [t] boosted b d o ->
  forall X xs zs c, has_shape X d xs -> d <= c -> forall tX, (forall z, In z zs -> off_thresholds [t] z) ->
  exists res res', acv_reg o tX X (S_array I64 []) (M_array F64 c zs) = Returned res /\ acv_reg_cat o tX X (S_array I64 []) (M_array F64 c zs) = Returned res' /\ Forall2 Qeq res res'.
Proof. exact reg_nothing. Qed.
Print Assumptions C130_nothing_partial.
Example C130_nothing_example : (exists o, regressor ex_sig [rc_t 3 4 2] false (Scalar 0) 2 o) /\ (forall z, In z rc_zs -> off_thresholds [rc_t 3 4 2] z) /\
  plainly Qred (on_reg [rc_t 3 4 2] (Scalar 0) (fun o => acv_reg o 0 (M_frame 2 rc_zs) (S_array I64 []) (M_array F64 2 rc_zs))) = Returned [1#4; 1#2; 1#4; 1#2]%Q.
Proof. split; [apply rc_one|]. split; [apply off_check_ok; vm_compute; reflexivity|]. vm_compute. reflexivity. Qed.
(** Two trees: other numbers. *)
Theorem C130_nothing_refuted : exists sig ts d o X x zs tX v v', length ts = 2 /\
  regressor sig ts false (Scalar 0) d o /\ has_shape X d [x] /\ (forall z, In z zs -> off_thresholds ts z) /\
  acv_reg o tX X (S_array I64 []) (M_array F64 d zs) = Returned [v] /\ acv_reg_cat o tX X (S_array I64 []) (M_array F64 d zs) = Returned [v'] /\ ~ (v == v')%Q.
Proof.
  destruct (rc_two 3 4 2 1 4 0) as [o H].
  destruct (plainly_at Qred (acv_reg o 1 (M_frame 2 [[2; 0]]%Q) (S_array I64 []) (M_array F64 2 rc_zs2)) [37#45]%Q) as (l & E & El).
  { apply (on_reg_at [rc_t 3 4 2; rc_s 1 4] _ (fun o => plainly Qred (acv_reg o 1 (M_frame 2 [[2; 0]]%Q) (S_array I64 []) (M_array F64 2 rc_zs2))) o _ H). vm_compute. reflexivity. }
  destruct (plainly_at Qred (acv_reg_cat o 1 (M_frame 2 [[2; 0]]%Q) (S_array I64 []) (M_array F64 2 rc_zs2)) [3#4]%Q) as (l' & E' & El').
  { apply (on_reg_at [rc_t 3 4 2; rc_s 1 4] _ (fun o => plainly Qred (acv_reg_cat o 1 (M_frame 2 [[2; 0]]%Q) (S_array I64 []) (M_array F64 2 rc_zs2))) o _ H). vm_compute. reflexivity. }
  destruct l as [|v [|? ?]]; try discriminate El. injection El as E1. destruct l' as [|v' [|? ?]]; try discriminate El'. injection El' as E2.
  exists ex_sig, [rc_t 3 4 2; rc_s 1 4], 2, o, (M_frame 2 [[2; 0]]%Q), [2; 0]%Q, rc_zs2, 1%Q, v, v'.
  split; [reflexivity|]. split; [exact H|]. split; [now left|]. split; [apply off_check_ok; vm_compute; reflexivity|]. split; [exact E|]. split; [exact E'|].
  rewrite <- (Qred_correct v), <- (Qred_correct v'), E1, E2. vm_compute. discriminate.
Qed.
Print Assumptions C130_nothing_refuted.

(** One tree, all columns given, a background row in the leaf of the observation: 1, or 0 when the prediction and the offset have the same square. *)
Theorem C130_everything_partial : forall sig t boosted b d o, regressor sig [t] boosted b d o ->
  forall X xs zs c, has_shape X d xs -> d <= c -> forall Sv tX, (forall s, In s Sv -> s < d) ->
  forall f, (forall z, In z (xs ++ zs) -> predicts [t] b z (f z)) ->
  (forall s, s < d -> In s Sv) -> (0 <= tX)%Q -> (forall z, In z (xs ++ zs) -> off_thresholds [t] z) ->
  one_each (acv_reg o tX X (S_array I64 Sv) (M_array F64 c zs)) xs (fun x v => (exists z, In z zs /\ same_leaf t x z) ->
    (v == if qeqb (offset_of b 0 * offset_of b 0) (f x * f x) then 0 else 1)%Q).
Proof. exact reg_full. Qed.
Print Assumptions C130_everything_partial.
Example C130_everything_example : (exists o, regressor ex_sig [rc_t 3 4 2] false (Scalar 1) 2 o) /\ (forall z, In z (rc_zs ++ rc_zs) -> off_thresholds [rc_t 3 4 2] z) /\
  Qred (rc_f [rc_t 3 4 2] (Scalar 1) [2; 0]%Q) = 5%Q /\
  plainly Qred (on_reg [rc_t 3 4 2] (Scalar 1) (fun o => acv_reg o 0 (M_frame 2 rc_zs) (S_array I64 [0; 1]) (M_array F64 2 rc_zs))) = Returned [1; 1; 1; 1]%Q.
Proof. split; [apply rc_one|]. split; [apply off_check_ok; vm_compute; reflexivity|]. vm_compute. split; reflexivity. Qed.
Theorem C130_everything_refuted : exists sig t d o X x zs Sv tX b v,
  regressor sig [t] false b d o /\ has_shape X d [x] /\ In x zs /\ (forall s, In s Sv <-> s < d) /\ (forall z, In z zs -> off_thresholds [t] z) /\ (0 <= tX)%Q /\
  acv_reg o tX X (S_array I64 Sv) (M_array F64 d zs) = Returned [v] /\ (v == 0)%Q.
Proof.
  destruct (rc_one 3 4 2 (-1)) as [o H].
  destruct (plainly_at Qred (acv_reg o 0 (M_frame 2 [[2; 2]]%Q) (S_array I64 [0; 1]) (M_array F64 2 rc_zs)) [0]%Q) as (l & E & El).
  { apply (on_reg_at [rc_t 3 4 2] _ (fun o => plainly Qred (acv_reg o 0 (M_frame 2 [[2; 2]]%Q) (S_array I64 [0; 1]) (M_array F64 2 rc_zs))) o _ H). vm_compute. reflexivity. }
  destruct l as [|v [|? ?]]; try discriminate El. injection El as Ev.
  exists ex_sig, (rc_t 3 4 2), 2, o, (M_frame 2 [[2; 2]]%Q), [2; 2]%Q, rc_zs, [0; 1], 0%Q, (Scalar (-1)), v.
  split; [exact H|]. split; [now left|]. split; [now left|]. split; [cbn; intuition lia|]. split; [apply off_check_ok; vm_compute; reflexivity|].
  split; [discriminate|]. split; [exact E|]. rewrite <- (Qred_correct v), Ev. reflexivity.
Qed.
Print Assumptions C130_everything_refuted.

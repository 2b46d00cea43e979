(** Proofs about what the class [CR] prints. *)
From Coq Require Import String.
From Verif Require Import Base RfModel ShowModel ShowSpec.
Local Open Scope nat_scope.
Local Open Scope list_scope.

(** ** The reader *)
Definition quiet (ls : list line) : Prop := conds (fst (cut ls)) = [] /\ outputs (fst (cut ls)) = [] /\ probabilities (fst (cut ls)) = [].
Lemma cut_app A B : quiet B ->
  conds (fst (cut (A ++ B))) = conds (fst (cut A)) /\ outputs (fst (cut (A ++ B))) = outputs (fst (cut A)) /\
  probabilities (fst (cut (A ++ B))) = probabilities (fst (cut A)) /\ sheet (A ++ B) = sheet A ++ sheet B.
Proof.
  intros (Q1 & Q2 & Q3). unfold sheet. induction A as [|a A (I1 & I2 & I3 & I4)]; cbn [app cut]; [cbn; repeat split; auto|].
  destruct (heading a) eqn:E; cbn [fst snd].
  - repeat split; auto. cbn [flat_map]. rewrite I4, app_assoc. f_equal. f_equal. unfold read. cbn [fst snd]. now rewrite I1, I2, I3.
  - cbn [conds outputs probabilities flat_map]. unfold conds, outputs, probabilities in *. cbn [flat_map]. rewrite I1, I2, I3. repeat split; auto.
Qed.
Lemma quiet_app A B : quiet A -> quiet B -> quiet (A ++ B).
Proof. intros (A1 & A2 & A3) HB. destruct (cut_app A B HB) as (E1 & E2 & E3 & _). unfold quiet. now rewrite E1, E2, E3. Qed.
Lemma quiet_nil : quiet []. Proof. now repeat split. Qed.
Lemma quiet_head a r : heading a = true -> quiet (a :: r).
Proof. intro H. unfold quiet. cbn [cut]. rewrite H. now repeat split. Qed.
Lemma quiet_flat {A} (f : A -> list line) l : (forall a, In a l -> quiet (f a)) -> quiet (flat_map f l).
Proof. induction l as [|a r IH]; intro H; [apply quiet_nil|]. cbn [flat_map]. apply quiet_app; [apply H; now left|apply IH; intros; apply H; now right]. Qed.
Lemma sheet_flat {A} (f : A -> list line) l : (forall a, In a l -> quiet (f a)) -> sheet (flat_map f l) = flat_map (fun a => sheet (f a)) l.
Proof.
  induction l as [|a r IH]; intro H; [reflexivity|]. cbn [flat_map].
  destruct (cut_app (f a) (flat_map f r)) as (_ & _ & _ & E); [apply quiet_flat; intros; apply H; now right|]. rewrite E. f_equal. apply IH. intros. apply H. now right.
Qed.
(** lines without heading *)
Lemma cut_plain ls : forallb (fun a => negb (heading a)) ls = true -> cut ls = (ls, []).
Proof.
  induction ls as [|a r IH]; [reflexivity|]. cbn [forallb cut]. intro H. apply andb_prop in H as [H1 H2]. apply Bool.negb_true_iff in H1. rewrite H1, (IH H2). reflexivity.
Qed.
Lemma points_app A B : points (A ++ B) = points A ++ points B. Proof. apply flat_map_app. Qed.
Lemma points_flat {A} (f : A -> list line) l : points (flat_map f l) = flat_map (fun a => points (f a)) l.
Proof. induction l as [|a r IH]; [reflexivity|]. cbn [flat_map]. now rewrite points_app, IH. Qed.

(** ** The printer *)
Lemma each_all {A} (f : A -> printed) (g : A -> list line) l : (forall a, In a l -> f a = (g a, true)) -> each f l = (flat_map g l, true).
Proof.
  induction l as [|a r IH]; intro H; [reflexivity|]. cbn [each flat_map]. rewrite (H a ltac:(now left)), IH by (intros; apply H; now right). reflexivity.
Qed.
(** a loop that stops *)
Lemma each_stop {A} (f : A -> printed) l a : In a l -> snd (f a) = false -> snd (each f l) = false.
Proof.
  induction l as [|b r IH]; [intros []|]. intros [->|H] E; cbn [each]; unfold andthen.
  - destruct (snd (f a)) eqn:K; [discriminate|exact K].
  - destruct (snd (f b)) eqn:K; [|exact K]. cbn [snd]. now apply IH.
Qed.
Lemma enumerated_in {A} (l : list A) i a : In (i, a) (enumerated l) <-> nth_error l i = Some a.
Proof.
  unfold enumerated. assert (G : forall s, In (i, a) (combine (seq s (length l)) l) <-> s <= i /\ nth_error l (i - s) = Some a).
  { induction l as [|b r IH]; intro s; cbn [length seq combine].
    - split; [intros []|]. intros [_ H]. destruct (i - s); discriminate.
    - cbn [In]. rewrite IH. split.
      + intros [E|[H1 H2]]; [injection E as -> ->; now rewrite Nat.sub_diag|]. split; [lia|]. replace (i - s) with (S (i - S s)) by lia. exact H2.
      + intros [H1 H2]. destruct (Nat.eq_dec i s) as [->|N]; [left; rewrite Nat.sub_diag in H2; now injection H2 as ->|]. right. split; [lia|].
        replace (i - s) with (S (i - S s)) in H2 by lia. exact H2. }
  rewrite (G 0), Nat.sub_0_r. split; [now intros []|]. intro H. split; [lia|exact H].
Qed.
Lemma enumerated_fst {A} (l : list A) : map fst (enumerated l) = seq 0 (length l).
Proof.
  unfold enumerated. generalize 0. induction l as [|a r IH]; intro s; [reflexivity|]. cbn [length seq combine map fst]. now rewrite IH.
Qed.

Lemma enumerated_map {A B} (g : nat -> A -> B) (a0 : A) l : map (fun ix : nat * A => g (fst ix) (snd ix)) (enumerated l) = map (fun i => g i (nth i l a0)) (seq 0 (length l)).
Proof.
  unfold enumerated. assert (G : forall s, map (fun ix : nat * A => g (fst ix) (snd ix)) (combine (seq s (length l)) l) = map (fun i => g i (nth (i - s) l a0)) (seq s (length l))).
  { induction l as [|b r IH]; intro s; [reflexivity|]. cbn [length seq combine map fst snd]. rewrite Nat.sub_diag. cbn [nth]. f_equal. rewrite IH.
    apply map_ext_in. intros i Hi. apply in_seq in Hi. replace (i - s) with (S (i - S s)) by lia. reflexivity. }
  rewrite G. apply map_ext. intro i. now rewrite Nat.sub_0_r.
Qed.

Section Printer.
Variables (names : list string) (d : nat) (classifier : bool) (Y : list Q).
Definition hidden (r : rule) (i : nat) : bool := qleb (fst (r i)) (- (10000000000 # 1))%Q && qleb (10000000000 # 1)%Q (snd (r i)).
Definition column_lines (r : rule) (ic : nat * string) : list line :=
  if hidden r (fst ic) then [] else [Cond (snd ic) (fst (r (fst ic))) (snd (r (fst ic))); Blank false].
Definition rule_lines (r : rule) (p : Q) (sdp : bool) (v : option Q) : list line :=
  flat_map (column_lines r) (enumerated names) ++ [Output sdp v; Probability sdp p].
Definition rule_conds (r : rule) : list (string * Q * Q) :=
  flat_map (fun ic : nat * string => if hidden r (fst ic) then [] else [(snd ic, fst (r (fst ic)), snd (r (fst ic)))]) (enumerated names).

Lemma print_rule_says r p sdp v : length names <= d -> print_rule names d r p sdp v = (rule_lines r p sdp v, true).
Proof.
  intro L. unfold print_rule. rewrite (each_all _ (column_lines r)); [reflexivity|].
  intros [i c] H. apply enumerated_in in H. assert (Hi : i < length names) by (apply nth_error_Some; congruence).
  unfold print_column, column_lines. cbn [fst snd]. replace (i <? d) with true by (symmetry; apply Nat.ltb_lt; lia). unfold hidden. now destruct (_ && _).
Qed.
Lemma print_rule_halts r p sdp v : d < length names -> snd (print_rule names d r p sdp v) = false.
Proof.
  intro L. unfold print_rule. assert (H : snd (each (print_column d r) (enumerated names)) = false).
  { destruct (nth_error names d) as [c|] eqn:E; [|apply nth_error_None in E; lia].
    apply (each_stop _ _ (d, c)); [now apply enumerated_in|]. unfold print_column. now rewrite Nat.ltb_irrefl. }
  unfold andthen. destruct (snd (each _ _)) eqn:K; [discriminate|exact K].
Qed.
Lemma rule_lines_plain r p sdp v : forallb (fun a => negb (heading a)) (rule_lines r p sdp v) = true.
Proof.
  unfold rule_lines. rewrite forallb_app. cbn. rewrite Bool.andb_true_r. induction (enumerated names) as [|a l IH]; [reflexivity|].
  cbn [flat_map]. rewrite forallb_app, IH. unfold column_lines. now destruct (hidden r (fst a)).
Qed.
Lemma rule_lines_read r p sdp v : conds (rule_lines r p sdp v) = rule_conds r /\ outputs (rule_lines r p sdp v) = [(sdp, v)] /\ probabilities (rule_lines r p sdp v) = [(sdp, p)] /\
  points (rule_lines r p sdp v) = [].
Proof.
  unfold rule_lines, rule_conds, conds, outputs, probabilities, points. induction (enumerated names) as [|a l (I1 & I2 & I3 & I4)]; [now repeat split|].
  cbn [flat_map]. rewrite <- !app_assoc, !(flat_map_app _ (column_lines r a)). rewrite I1, I2, I3, I4. unfold column_lines. destruct (hidden r (fst a)); now repeat split.
Qed.
(** the conditions describe the rule *)
Lemma rule_conds_describe r : length names = d -> NoDup names -> describes d names (rule_conds r) r.
Proof.
  intros L N z Hz. split.
  - intros H k Hk. destruct (nth_error names k) as [c|] eqn:E; [|apply nth_error_None in E; lia].
    destruct (hidden r k) eqn:Hh.
    + unfold hidden in Hh. apply andb_prop in Hh as [H1 H2]. apply qleb_true in H1, H2. specialize (Hz k Hk). split; lra.
    + apply (H c (fst (r k)) (snd (r k)) k); [|exact E]. unfold rule_conds. apply in_flat_map. exists (k, c). split; [now apply enumerated_in|].
      cbn [fst snd]. rewrite Hh. now left.
  - intros H c lo hi k Hc E. unfold rule_conds in Hc. apply in_flat_map in Hc as ([i c'] & Hi & Hc). apply enumerated_in in Hi. cbn [fst snd] in Hc.
    destruct (hidden r i); [destruct Hc|]. destruct Hc as [Hc|[]]. injection Hc as -> <- <-.
    assert (i = k) as ->. { apply (proj1 (NoDup_nth_error names) N); [apply nth_error_Some; congruence|congruence]. }
    apply H. rewrite <- L. apply nth_error_Some. congruence.
Qed.
(** a column that is not left out is named *)
Lemma rule_conds_shown r k c : nth_error names k = Some c -> hidden r k = false -> In (c, fst (r k), snd (r k)) (rule_conds r).
Proof. intros E Hh. unfold rule_conds. apply in_flat_map. exists (k, c). split; [now apply enumerated_in|]. cbn [fst snd]. rewrite Hh. now left. Qed.

Lemma mean_kept_mean w : mean_target Y w (mean_kept Y w).
Proof.
  unfold mean_kept. set (ids := filter _ _).
  assert (In_ids : forall j, In j ids <-> j < length Y /\ ~ (w j == 0)%Q).
  { intro j. unfold ids. rewrite filter_In, in_seq. destruct (qeqb_spec (w j) 0) as [K|K]; cbn [negb]; split; intros [H1 H2]; [discriminate|contradiction| |]; (split; [lia|]); [exact K|reflexivity]. }
  assert (N : NoDup ids) by (apply NoDup_filter, seq_NoDup).
  clearbody ids. destruct ids as [|j0 r] eqn:E.
  - cbn. intros j Hj. destruct (Qeq_dec (w j) 0) as [K|K]; [exact K|]. destruct (proj2 (In_ids j) (conj Hj K)).
  - cbn [mean_target]. exists (j0 :: r). split; [exact N|]. split; [exact In_ids|]. split; [discriminate|].
    apply Qdiv_mult_l. unfold Qn. cbn [length]. intro K. unfold Qeq in K. cbn in K. lia.
Qed.

(** ** One counterfactual, all of an observation *)
Notation entry_t := (rule * Q * (nat -> Q))%type.
Definition value_of (yt : list Q) (i : nat) (w : nat -> Q) : option Q := if classifier then Some (nth i yt 0%Q) else mean_kept Y w.
Definition counter_lines (yt : list Q) (i : nat) (lc : nat * entry_t) : list line :=
  Counter i (fst lc) :: rule_lines (fst (fst (snd lc))) (snd (fst (snd lc))) false (value_of yt i (snd (snd lc))) ++ [Blank true].
Definition counter_reading (yt : list Q) (i : nat) (lc : nat * entry_t) : reading :=
  mkRead i (Some (fst lc)) (rule_conds (fst (fst (snd lc)))) [(false, value_of yt i (snd (snd lc)))] [(false, snd (fst (snd lc)))].
Hypothesis Hn : length names = d.
Lemma show_counter_says yt i lc : (classifier = true -> i < length yt) -> show_counter names d classifier Y yt i lc = (counter_lines yt i lc, true).
Proof.
  intro H. destruct lc as [l [[c p] w]]. unfold show_counter, counter_lines, value_of. cbn [fst snd]. destruct classifier.
  - rewrite (nth_error_nth' yt 0%Q (H eq_refl)). cbn [option_map]. rewrite print_rule_says by lia. reflexivity.
  - rewrite print_rule_says by lia. reflexivity.
Qed.
Lemma section_read h r p sdp v tail : heading h = true -> forallb (fun a => match a with Blank _ => true | _ => false end) tail = true ->
  sheet (h :: rule_lines r p sdp v ++ tail) =
  match h with Counter i l => [mkRead i (Some l) (rule_conds r) [(sdp, v)] [(sdp, p)]] | Rule_of i => [mkRead i None (rule_conds r) [(sdp, v)] [(sdp, p)]] | _ => [] end.
Proof.
  intros Hh Ht. unfold sheet. cbn [cut]. rewrite Hh.
  assert (P : forallb (fun a => negb (heading a)) (rule_lines r p sdp v ++ tail) = true).
  { rewrite forallb_app, rule_lines_plain. cbn. rewrite forallb_forall in *. intros a Ha. specialize (Ht a Ha). now destruct a. }
  rewrite (cut_plain _ P). cbn [fst snd flat_map]. unfold read. cbn [fst snd]. destruct (rule_lines_read r p sdp v) as (E1 & E2 & E3 & _).
  assert (T : conds tail = [] /\ outputs tail = [] /\ probabilities tail = []).
  { clear -Ht. induction tail as [|a l IH]; [now repeat split|]. cbn in Ht. apply andb_prop in Ht as [Ha Hl]. destruct (IH Hl) as (T1 & T2 & T3). destruct a; try discriminate. now repeat split. }
  destruct T as (T1 & T2 & T3). unfold conds, outputs, probabilities in *. rewrite !flat_map_app, E1, E2, E3, T1, T2, T3, !app_nil_r. destruct h; reflexivity.
Qed.
Lemma counter_sheet yt i lc : sheet (counter_lines yt i lc) = [counter_reading yt i lc].
Proof. unfold counter_lines. rewrite section_read; reflexivity. Qed.
Lemma counter_points yt i lc : points (counter_lines yt i lc) = [].
Proof.
  unfold counter_lines, points. cbn [flat_map app]. rewrite flat_map_app. fold (points (rule_lines (fst (fst (snd lc))) (snd (fst (snd lc))) false (value_of yt i (snd (snd lc))))).
  now rewrite (proj2 (proj2 (proj2 (rule_lines_read _ _ _ _)))).
Qed.
Definition counters_lines (yt : list Q) (i : nat) (es : list entry_t) : list line := flat_map (counter_lines yt i) (enumerated es) ++ [Blank false].
Lemma show_counters_says outs yt i es : nth_error outs i = Some es -> (classifier = true -> es <> [] -> i < length yt) ->
  show_counters names d classifier Y (Some outs) yt i = (counters_lines yt i es, true).
Proof.
  intros E H. unfold show_counters. rewrite E. rewrite (each_all _ (counter_lines yt i)); [reflexivity|].
  intros a Ha. apply show_counter_says. intro C. apply H; [exact C|]. intros ->. destruct Ha.
Qed.
Lemma quiet_blank b : quiet [Blank b]. Proof. now repeat split. Qed.
Lemma counters_quiet yt i es : quiet (counters_lines yt i es).
Proof. apply quiet_app; [|apply quiet_blank]. apply quiet_flat. intros a _. now apply quiet_head. Qed.
Lemma counters_sheet yt i es : sheet (counters_lines yt i es) = map (counter_reading yt i) (enumerated es).
Proof.
  unfold counters_lines. destruct (cut_app (flat_map (counter_lines yt i) (enumerated es)) [Blank false] (quiet_blank _)) as (_ & _ & _ & E). rewrite E. clear E.
  rewrite sheet_flat by (intros a _; now apply quiet_head). replace (sheet [Blank false]) with (@nil reading) by reflexivity. rewrite app_nil_r.
  induction (enumerated es) as [|a l IH]; [reflexivity|]. cbn [flat_map map]. rewrite counter_sheet, IH. reflexivity.
Qed.
Lemma counters_points yt i es : points (counters_lines yt i es) = [].
Proof.
  unfold counters_lines. rewrite points_app, points_flat. replace (points [Blank false]) with (@nil (nat * list Q)) by reflexivity. rewrite app_nil_r. induction (enumerated es) as [|a l IH]; [reflexivity|]. cbn [flat_map]. now rewrite counter_points, IH.
Qed.

(** ** The methods *)
Definition local_lines (yt : list Q) (outs : list (list entry_t)) (ix : nat * pt) : list line :=
  [Columns names; Point (fst ix) (map (snd ix) (seq 0 d)); Blank true; Blank true; Blank true] ++ counters_lines yt (fst ix) (nth (fst ix) outs []).
Lemma show_local_says outs X yt : length outs = length X -> (classifier = true -> length yt = length X) ->
  show_local names d classifier Y (Some outs) X yt = (flat_map (local_lines yt outs) (enumerated X), true).
Proof.
  intros Lo Ly. unfold show_local. apply each_all. intros [i x] H. apply enumerated_in in H. assert (Hi : i < length X) by (apply nth_error_Some; congruence).
  rewrite (show_counters_says outs yt i (nth i outs [])); [reflexivity|apply nth_error_nth'; lia|]. intros C _. rewrite (Ly C). exact Hi.
Qed.
Definition expected (yt : list Q) (outs : list (list entry_t)) (i : nat) : list reading := map (counter_reading yt i) (enumerated (nth i outs [])).
Lemma local_sheet yt outs X : sheet (flat_map (local_lines yt outs) (enumerated X)) = flat_map (expected yt outs) (seq 0 (length X)).
Proof.
  rewrite sheet_flat by (intros a _; now apply quiet_head). rewrite <- enumerated_fst. induction (enumerated X) as [|a l IH]; [reflexivity|]. cbn [flat_map map].
  rewrite IH. f_equal. unfold local_lines. destruct (cut_app [Columns names; Point (fst a) (map (snd a) (seq 0 d)); Blank true; Blank true; Blank true]
    (counters_lines yt (fst a) (nth (fst a) outs [])) (counters_quiet _ _ _)) as (_ & _ & _ & E). rewrite E, counters_sheet. reflexivity.
Qed.
Lemma local_points yt outs X : points (flat_map (local_lines yt outs) (enumerated X)) = map (fun ix : nat * pt => (fst ix, map (snd ix) (seq 0 d))) (enumerated X).
Proof.
  rewrite points_flat. induction (enumerated X) as [|a l IH]; [reflexivity|]. cbn [flat_map map]. rewrite IH. unfold local_lines. rewrite points_app, counters_points. reflexivity.
Qed.
Definition global_lines (sdp_rules y_rules yt : list Q) (outs : list (list entry_t)) (ir : nat * rule) : list line :=
  Rule_of (fst ir) :: (rule_lines (snd ir) (nth (fst ir) sdp_rules 0%Q) true (Some (nth (fst ir) y_rules 0%Q)) ++ [Blank true; Blank true; Blank true])
    ++ counters_lines yt (fst ir) (nth (fst ir) outs []).
Lemma show_global_says rules sdp_rules y_rules outs yt :
  length sdp_rules = length rules -> length y_rules = length rules -> length outs = length rules -> (classifier = true -> length yt = length rules) ->
  show_global names d classifier Y (Some rules) sdp_rules y_rules (Some outs) yt = (flat_map (global_lines sdp_rules y_rules yt outs) (enumerated rules), true).
Proof.
  intros L1 L2 Lo Ly. unfold show_global. apply each_all. intros [i r] H. apply enumerated_in in H. assert (Hi : i < length rules) by (apply nth_error_Some; congruence).
  rewrite (nth_error_nth' sdp_rules 0%Q) by lia. rewrite (nth_error_nth' y_rules 0%Q) by lia. rewrite print_rule_says by lia.
  rewrite (show_counters_says outs yt i (nth i outs [])); [|apply nth_error_nth'; lia|intros C _; rewrite (Ly C); exact Hi].
  unfold global_lines, andthen, say. cbn [fst snd]. rewrite <- !app_assoc. reflexivity.
Qed.
Definition rule_reading (sdp_rules y_rules : list Q) (ir : nat * rule) : reading :=
  mkRead (fst ir) None (rule_conds (snd ir)) [(true, Some (nth (fst ir) y_rules 0%Q))] [(true, nth (fst ir) sdp_rules 0%Q)].
Lemma global_sheet sdp_rules y_rules yt outs rules : sheet (flat_map (global_lines sdp_rules y_rules yt outs) (enumerated rules)) =
  flat_map (fun ir : nat * rule => rule_reading sdp_rules y_rules ir :: expected yt outs (fst ir)) (enumerated rules).
Proof.
  rewrite sheet_flat by (intros a _; now apply quiet_head). induction (enumerated rules) as [|a l IH]; [reflexivity|]. cbn [flat_map].
  rewrite IH. f_equal. unfold global_lines. rewrite app_comm_cons.
  match goal with |- sheet (?A ++ ?B) = _ => destruct (cut_app A B (counters_quiet _ _ _)) as (_ & _ & _ & E) end. rewrite E, counters_sheet, section_read; reflexivity.
Qed.
End Printer.

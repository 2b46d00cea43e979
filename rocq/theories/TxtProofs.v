(** Proofs about the text dumps of XGBoost. *)
From Verif Require Import Base TreeModel LoadModel LoadSpec LoadProofs TxtModel TxtSpec.
From Coq Require Import Ascii String Decimal DecimalString DecimalNat DecimalFacts.
Import List ListNotations.
Local Open Scope nat_scope.

(** ** characters *)
Definition absent (c : ascii) (s : text) : bool := forallb (fun x => negb (Ascii.eqb x c)) s.
Lemma absent_app c a b : absent c (a ++ b) = absent c a && absent c b.
Proof. apply forallb_app. Qed.
Lemma absent_plain c s : plain s -> absent c (lit "0123456789.+-e") = true -> absent c s = true.
Proof. intros P H. apply forallb_forall. intros x Hx. exact (proj1 (forallb_forall _ _) H x (P x Hx)). Qed.
Lemma spelled_plain n : plain (spelled n).
Proof.
  unfold spelled. generalize (Nat.to_uint n). intro u. intros c Hc. induction u; cbn in Hc; [destruct Hc|..];
    (destruct Hc as [<-|Hc]; [cbn; tauto|now apply IHu]).
Qed.
Lemma spelled_first n : exists c r, spelled n = c :: r /\ In c (lit "0123456789").
Proof.
  unfold spelled. destruct (Nat.to_uint n) eqn:E; [exfalso|..]; try (do 2 eexists; split; [reflexivity|cbn; tauto]).
  pose proof E as E0. apply (f_equal Nat.of_uint) in E. rewrite Unsigned.of_to in E. cbn in E. subst. discriminate E0.
Qed.
Lemma int_spelled n : int_of (spelled n) = Some n.
Proof.
  unfold int_of. destruct (spelled_first n) as (c & r & E & _). rewrite E. rewrite <- E. unfold spelled, lit.
  rewrite string_of_list_ascii_of_string, NilEmpty.usu. cbn. now rewrite Unsigned.of_to.
Qed.

(** ** [split] *)
Lemma starts_self p s : starts p (p ++ s) = true.
Proof. induction p as [|a p IH]; [now destruct s|]. cbn. now rewrite Ascii.eqb_refl, IH. Qed.
Lemma split_absent c p a : absent c a = true -> forall cur s, split_from (c :: p) 0 cur (a ++ s) = split_from (c :: p) 0 (rev a ++ cur) s.
Proof.
  induction a as [|x a IH]; intros H cur s; [reflexivity|]. cbn [absent forallb] in H. apply andb_prop in H. destruct H as [H1 H2].
  apply negb_true_iff, Ascii.eqb_neq in H1. cbn [app split_from starts].
  assert (E : Ascii.eqb c x = false) by (apply Ascii.eqb_neq; congruence). rewrite E. cbn [andb]. rewrite IH by exact H2. cbn [rev]. now rewrite <- app_assoc.
Qed.
Lemma split_skip sep l : forall cur s, split_from sep (length l) cur (l ++ s) = split_from sep 0 cur s.
Proof. induction l as [|x l IH]; intros cur s; [reflexivity|]. cbn. apply IH. Qed.
Lemma split_at c p a b : absent c a = true -> split_from (c :: p) 0 [] (a ++ (c :: p) ++ b) = a :: split_from (c :: p) 0 [] b.
Proof.
  intro H. rewrite (split_absent c p a H), app_nil_r. rewrite <- app_comm_cons. cbn [split_from]. rewrite app_comm_cons, starts_self, rev_involutive.
  cbn [length]. replace (S (length p) - 1) with (length p) by lia. now rewrite split_skip.
Qed.
Lemma split_none c p a : absent c a = true -> split_from (c :: p) 0 [] a = [a].
Proof. intro H. rewrite <- (app_nil_r a) at 1. rewrite (split_absent c p a H). cbn. now rewrite app_nil_r, rev_involutive. Qed.
Lemma split_hd sep : forall s k cur, exists t, nth_error (split_from sep k cur s) 0 = Some (rev cur ++ t).
Proof.
  induction s as [|c s IH]; intros k cur; cbn [split_from]; [exists []; now rewrite app_nil_r|].
  destruct k; [|apply IH]. destruct (starts sep (c :: s)); [exists []; now rewrite app_nil_r|].
  destruct (IH 0 (c :: cur)) as [t E]. exists (c :: t). rewrite E. cbn [rev]. now rewrite <- app_assoc.
Qed.
Lemma split_head c p a s : absent c a = true -> exists t, nth_error (split_from (c :: p) 0 [] (a ++ s)) 0 = Some (a ++ t).
Proof.
  intro H. rewrite (split_absent c p a H), app_nil_r. destruct (split_hd (c :: p) s 0 (rev a)) as [t E]. exists t. now rewrite rev_involutive in E.
Qed.
Lemma occurs_absent c p s : absent c s = true -> occurs (c :: p) s = false.
Proof.
  induction s as [|x s IH]; intro H; [reflexivity|]. cbn [absent forallb] in H. apply andb_prop in H. destruct H as [H1 H2].
  apply negb_true_iff, Ascii.eqb_neq in H1. cbn [occurs starts]. assert (E : Ascii.eqb c x = false) by (apply Ascii.eqb_neq; congruence). rewrite E. exact (IH H2).
Qed.
Lemma before_at s c p a b : lit s = c :: p -> absent c a = true -> before s (a ++ lit s ++ b) = Some a.
Proof. intros E H. unfold before, pieces. rewrite E, split_at by exact H. reflexivity. Qed.
Lemma before_none s c p a : lit s = c :: p -> absent c a = true -> before s a = Some a.
Proof. intros E H. unfold before, pieces. rewrite E, split_none by exact H. reflexivity. Qed.
Lemma after_at s c p a b : lit s = c :: p -> absent c a = true -> absent c b = true -> after s (a ++ lit s ++ b) = Some b.
Proof. intros E H H2. unfold after, pieces. rewrite E, split_at by exact H. now rewrite split_none by exact H2. Qed.
Lemma after_absent s c p a : lit s = c :: p -> absent c a = true -> after s a = None.
Proof. intros E H. unfold after, pieces. rewrite E, split_none by exact H. reflexivity. Qed.
Lemma field_at s c p a x r : lit s = c :: p -> absent c a = true -> absent c x = true -> c <> ","%char -> absent "," x = true ->
  field s (a ++ lit s ++ x ++ lit "," ++ r) = Some x.
Proof.
  intros E H Hx Hc Hx2. unfold field, after, pieces. rewrite E, split_at by exact H. cbn [nth_error].
  destruct (split_head c p (x ++ lit ",") r) as [t Et].
  { rewrite absent_app, Hx. change (absent c (lit ",")) with (negb (Ascii.eqb "," c) && true). destruct (Ascii.eqb_spec "," c); [congruence|reflexivity]. }
  rewrite <- app_assoc in Et. destruct (split_from (c :: p) 0 [] (x ++ lit "," ++ r)) as [|h l]; [discriminate|]. cbn in Et. injection Et as ->. cbn [nth_error bind].
  rewrite <- app_assoc. now apply (before_at "," "," []).
Qed.
Lemma field_end s c p a x : lit s = c :: p -> absent c a = true -> absent c x = true -> absent "," x = true -> field s (a ++ lit s ++ x) = Some x.
Proof. intros E H Hx Hx2. unfold field. rewrite (after_at s c p a x E H Hx). cbn [bind]. now apply (before_none "," "," []). Qed.

(** ** one line *)
Section Line.
Variables (float_of : text -> option Q) (show : Q -> text) (gain : nat -> text).
Hypothesis Hgain : forall i, plain (gain i).
Notation readable := (readable float_of show).
Notation body := (body show index_name gain true).

Ltac gone := rewrite ?absent_app, ?andb_true_iff; repeat split; try reflexivity;
  try (apply absent_plain; [first [apply spelled_plain|apply Hgain|match goal with H : readable ?q |- plain (show ?q) => exact (proj1 H) end]|reflexivity]).

Lemma leaf_line i x c key st : readable x -> readable c ->
  read_node float_of key (body (XLeaf i x c)) st =
  Some (mkTurn (let a := v_arrays st in mkArrays (a_cl a) (a_cr a) (a_cd a) (a_ft a) (a_th a) (upd (a_vl a) key x) (upd (a_w a) key c)) (v_feature st) (v_threshold st)).
Proof.
  intros Hx Hc. unfold read_node. change (body (XLeaf i x c)) with (lit "leaf=" ++ show x ++ lit ",cover=" ++ show c).
  assert (E0 : occurs (lit "leaf") (lit "leaf=" ++ show x ++ lit ",cover=" ++ show c) = true) by reflexivity. rewrite E0.
  change (lit ",cover=" ++ show c) with (lit "," ++ lit "cover=" ++ show c).
  assert (F1 : field "leaf=" (lit "leaf=" ++ show x ++ lit "," ++ lit "cover=" ++ show c) = Some (show x))
    by (apply (field_at "leaf=" "l" (lit "eaf=") [] (show x) (lit "cover=" ++ show c)); [reflexivity|reflexivity|gone|discriminate|gone]).
  rewrite F1. cbn [bind]. rewrite (proj2 Hx). cbn [bind].
  replace (lit "leaf=" ++ show x ++ lit "," ++ lit "cover=" ++ show c) with ((lit "leaf=" ++ show x ++ lit ",") ++ lit "cover=" ++ show c) by now rewrite <- !app_assoc.
  rewrite (after_at "cover=" "c" (lit "over=")); [|reflexivity|gone|gone]. cbn [bind]. now rewrite (proj2 Hc).
Qed.
Lemma removelast_snoc {A} (l : list A) a : removelast (l ++ [a]) = l.
Proof. apply removelast_last. Qed.
Lemma test_line s t p : readable t -> read_test float_of "<" (lit "[" ++ index_name s ++ lit "<" ++ show t ++ lit "]") p = Some (Some s, Some t) /\
  forall p, read_test float_of "=" (lit "[" ++ index_name s ++ lit "<" ++ show t ++ lit "]") p = Some p.
Proof.
  intro Ht. unfold index_name. split.
  - unfold read_test. assert (E : occurs (lit "<") (lit "[" ++ (lit "f" ++ spelled s) ++ lit "<" ++ show t ++ lit "]") = true).
    { rewrite app_assoc. generalize (lit "[" ++ lit "f" ++ spelled s) as a. induction a as [|x a IH]; [reflexivity|]. cbn [app occurs]. rewrite IH. apply orb_true_r. }
    rewrite E. replace (lit "[" ++ (lit "f" ++ spelled s) ++ lit "<" ++ show t ++ lit "]") with ((lit "[f" ++ spelled s) ++ lit "<" ++ (show t ++ lit "]")) by now rewrite <- !app_assoc.
    rewrite (before_at "<" "<" []); [|reflexivity|gone]. cbn [bind]. change (skipn 2 (lit "[f" ++ spelled s)) with (spelled s). rewrite int_spelled. cbn [bind].
    rewrite (after_at "<" "<" []); [|reflexivity|gone|gone]. cbn [bind]. change (lit "]") with ["]"%char]. rewrite removelast_snoc, (proj2 Ht). reflexivity.
  - intro p'. unfold read_test. change (lit "=") with ["="%char]. rewrite (occurs_absent "=" []); [reflexivity|gone].
Qed.
Lemma node_line i s t y n m c l r key st : readable t -> readable c ->
  read_node float_of key (body (XNode i s t y n m c l r)) st =
  Some (mkTurn (let a := v_arrays st in mkArrays (upd (a_cl a) key (Z.of_nat y)) (upd (a_cr a) key (Z.of_nat n)) (upd (a_cd a) key (Z.of_nat m))
                              (upd (a_ft a) key (Z.of_nat s)) (upd (a_th a) key t) (a_vl a) (upd (a_w a) key c)) (Some s) (Some t)).
Proof.
  intros Ht Hc. unfold read_node. 
  set (head := lit "[" ++ index_name s ++ lit "<" ++ show t ++ lit "]").
  assert (EB : body (XNode i s t y n m c l r) = head ++ lit " " ++ lit "yes=" ++ spelled y ++ lit "," ++ lit "no=" ++ spelled n ++ lit "," ++ lit "missing=" ++
    spelled m ++ lit "," ++ lit "gain=" ++ gain i ++ lit "," ++ lit "cover=" ++ show c).
  { unfold head. cbn [TxtSpec.body stat]. rewrite <- !app_assoc. reflexivity. }
  assert (HH : forall c0, absent c0 (lit "[f<]") = true -> absent c0 (lit "0123456789.+-e") = true -> absent c0 head = true).
  { intros c0 H1 H2. unfold head, index_name. cbn [lit list_ascii_of_string absent forallb] in H1. rewrite !andb_true_iff in H1. destruct H1 as (A & B & C & D & _).
    rewrite !absent_app. cbn [lit list_ascii_of_string absent forallb]. rewrite A, B, C, D. cbn.
    rewrite (absent_plain c0 (spelled s) (spelled_plain s) H2), (absent_plain c0 (show t) (proj1 Ht) H2). reflexivity. }
  assert (E0 : occurs (lit "leaf") (body (XNode i s t y n m c l r)) = false).
  { change (lit "leaf") with ("l"%char :: lit "eaf"). apply occurs_absent. rewrite EB. gone. now apply HH. }
  rewrite E0.
  assert (F1 : field "yes=" (body (XNode i s t y n m c l r)) = Some (spelled y)).
  { rewrite EB. rewrite (app_assoc head). eapply (field_at "yes=" "y" (lit "es=")); [reflexivity|gone; now apply HH|gone|discriminate|gone]. }
  assert (F2 : field "no=" (body (XNode i s t y n m c l r)) = Some (spelled n)).
  { rewrite EB. replace (head ++ lit " " ++ lit "yes=" ++ spelled y ++ lit "," ++ lit "no=" ++ spelled n ++ lit "," ++ lit "missing=" ++
    spelled m ++ lit "," ++ lit "gain=" ++ gain i ++ lit "," ++ lit "cover=" ++ show c) with ((head ++ lit " " ++ lit "yes=" ++ spelled y ++ lit ",") ++ lit "no=" ++ spelled n ++ lit "," ++ lit "missing=" ++
    spelled m ++ lit "," ++ lit "gain=" ++ gain i ++ lit "," ++ lit "cover=" ++ show c) by now rewrite <- !app_assoc.
    eapply (field_at "no=" "n" (lit "o=")); [reflexivity|gone; now apply HH|gone|discriminate|gone]. }
  assert (F3 : field "missing=" (body (XNode i s t y n m c l r)) = Some (spelled m)).
  { rewrite EB. replace (head ++ lit " " ++ lit "yes=" ++ spelled y ++ lit "," ++ lit "no=" ++ spelled n ++ lit "," ++ lit "missing=" ++
    spelled m ++ lit "," ++ lit "gain=" ++ gain i ++ lit "," ++ lit "cover=" ++ show c) with ((head ++ lit " " ++ lit "yes=" ++ spelled y ++ lit "," ++ lit "no=" ++ spelled n ++ lit ",") ++ lit "missing=" ++
    spelled m ++ lit "," ++ lit "gain=" ++ gain i ++ lit "," ++ lit "cover=" ++ show c) by now rewrite <- !app_assoc.
    eapply (field_at "missing=" "m" (lit "issing=")); [reflexivity|gone; now apply HH|gone|discriminate|gone]. }
  assert (F4 : before " " (body (XNode i s t y n m c l r)) = Some head).
  { rewrite EB. eapply (before_at " " " " []); [reflexivity|now apply HH]. }
  assert (F5 : field "cover=" (body (XNode i s t y n m c l r)) = Some (show c)).
  { rewrite EB. replace (head ++ lit " " ++ lit "yes=" ++ spelled y ++ lit "," ++ lit "no=" ++ spelled n ++ lit "," ++ lit "missing=" ++
    spelled m ++ lit "," ++ lit "gain=" ++ gain i ++ lit "," ++ lit "cover=" ++ show c) with ((head ++ lit " " ++ lit "yes=" ++ spelled y ++ lit "," ++ lit "no=" ++ spelled n ++ lit "," ++ lit "missing=" ++
    spelled m ++ lit "," ++ lit "gain=" ++ gain i ++ lit ",") ++ lit "cover=" ++ show c) by now rewrite <- !app_assoc.
    eapply (field_end "cover=" "c" (lit "over=")); [reflexivity|gone; now apply HH|gone|gone]. }
  rewrite F1, F2, F3, F4, F5. cbn [bind]. rewrite !int_spelled. cbn [bind]. destruct (test_line s t (v_feature st, v_threshold st) Ht) as [T1 T2].
  unfold head. rewrite T1. cbn [bind]. rewrite T2. cbn [bind fst snd]. rewrite (proj2 Hc). reflexivity.
Qed.
(** neither a colon nor a newline *)
Lemma body_quiet stats v ch : (forall q, In q (numbers v) -> plain (show q)) -> absent ch (lit "[f<] yes=,no=,missing=,gain=,cover=leaf") = true -> absent ch (lit "0123456789.+-e") = true -> absent ch (TxtSpec.body show index_name gain stats v) = true.
Proof.
  intros Hq H1 H2.
  assert (K : forall s, (forall x, In x s -> In x (lit "[f<] yes=,no=,missing=,gain=,cover=leaf")) -> absent ch s = true).
  { intros s Hs. apply forallb_forall. intros x Hx. exact (proj1 (forallb_forall _ _) H1 x (Hs x Hx)). }
  destruct v as [i x c|i s t y n m c l r], stats; cbn [TxtSpec.body stat]; rewrite !absent_app, !andb_true_iff; unfold index_name; rewrite ?absent_app, ?andb_true_iff;
    repeat split; try (apply absent_plain; [first [apply spelled_plain|apply Hgain|apply Hq; cbn; tauto]|exact H2]); try (apply K; cbn; tauto).
Qed.
End Line.

(** ** all lines *)
Lemma lstrip_line depth n r : lstrip (repeat "009"%char depth ++ spelled n ++ r) = spelled n ++ r.
Proof.
  induction depth as [|k IH]; [|cbn; exact IH]. cbn [repeat app]. destruct (spelled_first n) as (c & u & E & Hc). rewrite E. cbn [app].
  cbn in Hc. decompose [or] Hc; subst; try reflexivity. contradiction.
Qed.
Lemma split_lines (ls : list text) : ls <> [] -> (forall l, In l ls -> absent "010" l = true) ->
  pieces (String "010" EmptyString) (removelast (concat (map (fun l => l ++ ["010"%char]) ls))) = ls.
Proof.
  intros Hne H. unfold pieces. change (lit (String "010" EmptyString)) with ["010"%char].
  induction ls as [|l ls IH]; [congruence|]. destruct ls as [|l' ls].
  - cbn [map concat]. rewrite app_nil_r, removelast_last. apply split_none, H. now left.
  - remember (l' :: ls) as tl. cbn [map concat]. rewrite <- app_assoc. rewrite removelast_app by (subst; cbn; discriminate).
    assert (E : removelast (["010"%char] ++ concat (map (fun l => l ++ ["010"%char]) tl)) = ["010"%char] ++ removelast (concat (map (fun l => l ++ ["010"%char]) tl))).
    { apply removelast_app. subst. cbn. destruct l'; discriminate. }
    rewrite E. rewrite (split_at "010" []) by (apply H; now left). f_equal. apply IH; [subst; discriminate|]. intros u Hu. apply H. now right.
Qed.
Lemma dict_set_new d k v : ~ In k (map fst d) -> dict_set d k v = d ++ [(k, v)].
Proof.
  induction d as [|[k' v'] d IH]; intro H; [reflexivity|]. cbn [dict_set]. destruct (Nat.eqb_spec k' k) as [->|Hk]; [exfalso; apply H; now left|].
  rewrite IH; [reflexivity|]. intro Hi. apply H. now right.
Qed.

Section Dump.
Variables (float_of : text -> option Q) (show : Q -> text) (gain : nat -> text).
Hypothesis Hgain : forall i, plain (gain i).
Notation readable := (readable float_of show).
Section Stats.
Variable stats : bool.
Notation body := (body show index_name gain stats).
Notation dump := (dump show index_name gain stats).
Lemma numbers_sub v u : In u (xjs_sub v) -> forall q, In q (numbers u) -> In q (numbers v).
Proof.
  induction v as [i x c|i s t y n m c l IHl r IHr]; intros Hu q Hq; [destruct Hu as [<-|[]]; exact Hq|]. cbn [xjs_sub] in Hu. destruct Hu as [<-|Hu]; [exact Hq|].
  apply in_app_iff in Hu. cbn [numbers]. right. right. apply in_app_iff. destruct Hu as [Hu|Hu]; [left; now apply IHl|right; now apply IHr].
Qed.
Lemma dump_lines v : forall depth, map lstrip (dump depth v) = map (fun u => spelled (xjs_id u) ++ lit ":" ++ body u) (xjs_sub v).
Proof.
  induction v as [i x c|i s t y n m c l IHl r IHr]; intro depth; cbn [TxtSpec.dump xjs_sub map]; rewrite lstrip_line; [reflexivity|].
  f_equal. now rewrite !map_app, IHl, IHr.
Qed.
Lemma dump_quiet v : (forall q, In q (numbers v) -> plain (show q)) -> forall depth l, In l (dump depth v) -> absent "010" l = true.
Proof.
  induction v as [i x c|i s t y n m c l IHl r IHr]; intros Hq depth ln Hl; cbn [TxtSpec.dump] in Hl.
  - destruct Hl as [<-|[]]. rewrite !absent_app, !andb_true_iff. repeat split; [|apply absent_plain; [apply spelled_plain|reflexivity]|now apply body_quiet].
    apply forallb_forall. intros z Hz. apply repeat_spec in Hz. subst. reflexivity.
  - destruct Hl as [<-|Hl].
    + rewrite !absent_app, !andb_true_iff. repeat split; [|apply absent_plain; [apply spelled_plain|reflexivity]|now apply body_quiet].
      apply forallb_forall. intros z Hz. apply repeat_spec in Hz. subst. reflexivity.
    + apply in_app_iff in Hl. destruct Hl as [Hl|Hl]; [apply (IHl (fun q H => Hq q ltac:(cbn [numbers]; right; right; apply in_app_iff; now left)) _ _ Hl)|
        apply (IHr (fun q H => Hq q ltac:(cbn [numbers]; right; right; apply in_app_iff; now right)) _ _ Hl)].
Qed.
Lemma read_all us : forall d, (forall u, In u us -> forall q, In q (numbers u) -> plain (show q)) -> NoDup (map fst d ++ map xjs_id us) ->
  read_lines (map (fun u => spelled (xjs_id u) ++ lit ":" ++ body u) us) d = Some (d ++ map (fun u => (xjs_id u, body u)) us).
Proof.
  induction us as [|u us IH]; intros d Hq Hn; [cbn; now rewrite app_nil_r|]. cbn [map read_lines].
  assert (Hb : absent ":" (body u) = true) by (apply body_quiet; try reflexivity; [exact Hgain|apply Hq; now left]).
  rewrite (before_at ":" ":" []); [|reflexivity|apply absent_plain; [apply spelled_plain|reflexivity]]. cbn [bind]. rewrite int_spelled. cbn [bind].
  rewrite (after_at ":" ":" []); [|reflexivity|apply absent_plain; [apply spelled_plain|reflexivity]|exact Hb]. cbn [bind].
  cbn [map] in Hn. rewrite dict_set_new by (apply NoDup_remove_2 in Hn; intro Hi; apply Hn; apply in_or_app; now left).
  rewrite IH.
  - now rewrite <- app_assoc.
  - intros w Hw. apply Hq. now right.
  - rewrite map_app, <- app_assoc. exact Hn.
Qed.
End Stats.
Notation body := (body show index_name gain true).
(** one line as an assignment *)
Definition write (a : arrays) (u : xjs) : arrays :=
  match u with
  | XLeaf i x c => mkArrays (a_cl a) (a_cr a) (a_cd a) (a_ft a) (a_th a) (upd (a_vl a) i x) (upd (a_w a) i c)
  | XNode i s t y n m c _ _ => mkArrays (upd (a_cl a) i (Z.of_nat y)) (upd (a_cr a) i (Z.of_nat n)) (upd (a_cd a) i (Z.of_nat m))
                              (upd (a_ft a) i (Z.of_nat s)) (upd (a_th a) i t) (a_vl a) (upd (a_w a) i c)
  end.
Lemma nodes_all us : (forall u, In u us -> forall q, In q (numbers u) -> readable q) -> forall st, exists st',
  read_nodes float_of (map (fun u => (xjs_id u, body u)) us) st = Some st' /\ v_arrays st' = fold_left write us (v_arrays st).
Proof.
  induction us as [|u us IH]; intros Hq st; [exists st; auto|]. cbn [map read_nodes fold_left].
  assert (Hu := Hq u (or_introl eq_refl)). destruct u as [i x c|i s t y n m c l r]; cbn [xjs_id].
  - rewrite (leaf_line float_of show gain) by (apply Hu; cbn; tauto). cbn [bind]. destruct (IH (fun w Hw => Hq w (or_intror Hw))
      (mkTurn (write (v_arrays st) (XLeaf i x c)) (v_feature st) (v_threshold st))) as (st' & A & B). exists st'. split; [exact A|exact B].
  - rewrite (node_line float_of show gain Hgain) by (apply Hu; cbn; tauto). cbn [bind]. destruct (IH (fun w Hw => Hq w (or_intror Hw))
      (mkTurn (write (v_arrays st) (XNode i s t y n m c l r)) (Some s) (Some t))) as (st' & A & B). exists st'. split; [exact A|exact B].
Qed.
Lemma max_ids v : list_max (map xjs_id (xjs_sub v)) = xjs_max v.
Proof.
  induction v as [i x c|i s t y n m c l IHl r IHr]; cbn [xjs_sub map xjs_id xjs_max]; [cbn; lia|]. rewrite map_app. transitivity (Nat.max i (list_max (map xjs_id (xjs_sub l) ++ map xjs_id (xjs_sub r)))); [reflexivity|].
  now rewrite list_max_app, IHl, IHr.
Qed.
Lemma load_dump scaling v : (forall q, In q (numbers v) -> readable q) -> NoDup (map xjs_id (xjs_sub v)) ->
  load_txt float_of scaling (dumped show index_name gain true v) =
  Some (finish (xjs_max v + 1) scaling (fold_left write (xjs_sub v) blank), a_w (fold_left write (xjs_sub v) blank)).
Proof.
  intros Hq Hn. unfold load_txt, dumped. rewrite split_lines; [|destruct v; discriminate|intros l Hl; exact (dump_quiet true v (fun q H => proj1 (Hq q H)) 0 l Hl)].
  rewrite dump_lines. assert (Hs : forall u, In u (xjs_sub v) -> forall q, In q (numbers u) -> readable q) by (intros u Hu q H; apply Hq; now apply (numbers_sub v u)).
  rewrite (read_all true (xjs_sub v) [] (fun u Hu q H => proj1 (Hs u Hu q H))) by exact Hn. cbn [bind app]. destruct (nodes_all (xjs_sub v) Hs (mkTurn blank None None)) as (st & -> & E). cbn [bind].
  rewrite map_map. cbn [fst]. rewrite max_ids. rewrite E. reflexivity.
Qed.
End Dump.

(** ** the arrays *)
Definition cell_of (a a' : arrays) (v : xjs) : Prop :=
  match v with
  | XLeaf i q c => a_cl a' i = a_cl a i /\ a_cr a' i = a_cr a i /\ a_vl a' i = q /\ a_w a' i = c
  | XNode i s t y n m c l r =>
      a_cl a' i = Z.of_nat y /\ a_cr a' i = Z.of_nat n /\ a_cd a' i = Z.of_nat m /\ a_ft a' i = Z.of_nat s /\ a_th a' i = t /\ a_w a' i = c
  end.
Lemma write_other a u i : i <> xjs_id u -> same_at (write a u) a i.
Proof. intro H. destruct u; unfold same_at; cbn [write xjs_id a_cl a_cr a_cd a_ft a_th a_vl a_w] in *; rewrite ?upd_other by assumption; repeat split. Qed.
Lemma writes_other us : forall a i, ~ In i (map xjs_id us) -> same_at (fold_left write us a) a i.
Proof.
  induction us as [|u us IH]; intros a i H; [apply same_refl|]. cbn [fold_left map In] in *. eapply same_trans; [apply IH; tauto|]. apply write_other. intros ->. tauto.
Qed.
Lemma writes_cell us : forall a, NoDup (map xjs_id us) -> forall u, In u us -> cell_of a (fold_left write us a) u.
Proof.
  induction us as [|w us IH]; intros a Hn u Hu; [destruct Hu|]. cbn [map] in Hn. inversion Hn as [|? ? Hi Hn']; subst. cbn [fold_left]. destruct Hu as [->|Hu].
  - pose proof (writes_other us (write a u) (xjs_id u) Hi) as K. unfold same_at in K. destruct K as (K1 & K2 & K3 & K4 & K5 & K6 & K7).
    destruct u; cbn [cell_of xjs_id] in *; rewrite ?K1, ?K2, ?K3, ?K4, ?K5, ?K6, ?K7; cbn [write a_cl a_cr a_cd a_ft a_th a_vl a_w]; rewrite ?upd_same; repeat split.
  - pose proof (IH (write a w) Hn' u Hu) as K. assert (Hne : xjs_id u <> xjs_id w) by (intro E; apply Hi; rewrite <- E; now apply in_map).
    destruct (write_other a w (xjs_id u) Hne) as (K1 & K2 & _). destruct u; cbn [cell_of xjs_id] in *; [|exact K]. rewrite <- K1, <- K2. exact K.
Qed.
Lemma txt_shows scaling n a v : xjs_id v < n -> xjs_names v -> cell_of blank a v -> shows (finish n scaling a) (xjs_nt scaling v).
Proof.
  intros Hlt Hnm H. destruct (finish_cells n scaling a (xjs_id v) Hlt) as [E1 [E2 [E3 [E4 [E5 E6]]]]].
  destruct v as [i q c|i s t y no m c l r]; cbn [xjs_id cell_of xjs_nt xjs_names] in *.
  - destruct H as [H1 [H2 [H3 _]]]. cbn [shows]. rewrite E1, E2, E6, H1, H2, H3. cbn [blank a_cl a_cr]. split; [lia|]. split; [lia|]. reflexivity.
  - destruct H as [H1 [H2 [H3 [H4 [H5 _]]]]]. destruct Hnm as [Hy [Hm _]].
    destruct (Nat.eqb_spec y (xjs_id l)); cbn [shows]; rewrite E1, E2, E3, E4, E5, H1, H2, H3, H4, H5, !xjs_nt_id;
      destruct (Nat.eqb_spec m y); rewrite ?xjs_nt_id; repeat split; f_equal; lia.
Qed.

Section Loaded.
Variables (float_of : text -> option Q) (show : Q -> text) (gain : nat -> text) (scaling : Q) (v : xjs).
Hypothesis Hgain : forall i, plain (gain i).
Hypothesis Hq : forall q, In q (numbers v) -> readable float_of show q.
Hypothesis Hok : xjs_ok v.
Lemma txt_ok : exists t w, load_txt float_of scaling (dumped show index_name gain true v) = Some (t, w) /\
  (forall x miss, exists q, predict_value t x miss = Some q /\ (q == xjs_follow qleb v x miss * scaling)%Q) /\
  (forall u, In u (xjs_sub v) -> w (xjs_id u) = covered_by u) /\
  (Permutation (map xjs_id (xjs_sub v)) (seq 0 (length (xjs_sub v))) -> xjs_ordered v -> forall d, xjs_features d v ->
   nn t = length (xjs_sub v) /\ wf_tree t d = true).
Proof.
  destruct Hok as [Hn [H0 Hnm]]. do 2 eexists. split; [exact (load_dump float_of show gain Hgain scaling v Hq Hn)|].
  set (a := fold_left write (xjs_sub v) blank). pose proof (writes_cell (xjs_sub v) blank Hn) as Hc. fold a in Hc. set (t := finish (xjs_max v + 1) scaling a).
  assert (Hlt : forall u, In u (xjs_sub v) -> xjs_id u < xjs_max v + 1).
  { intros u Hu. pose proof (xjs_max_ge v u Hu). lia. }
  destruct (finish_lengths (xjs_max v + 1) scaling a) as [L0 [L1 [L2 [L3 [L4 L5]]]]]. fold t in L0, L1, L2, L3, L4, L5.
  pose proof (xjs_nt_sub scaling v) as Hsub.
  assert (Hshow : forall u, In u (nsub (xjs_nt scaling v)) -> shows t u).
  { intros u Hu. apply (Permutation_in _ Hsub) in Hu. apply in_map_iff in Hu. destruct Hu as [w [<- Hw]].
    apply txt_shows; auto. exact (xjs_names_sub v w Hnm Hw). }
  assert (Hids : Permutation (map nid (nsub (xjs_nt scaling v))) (map xjs_id (xjs_sub v))).
  { rewrite (Permutation_map nid Hsub), map_map. erewrite map_ext; [reflexivity|]. intro. apply xjs_nt_id. }
  assert (Hroot : nid (xjs_nt scaling v) = 0) by (rewrite xjs_nt_id; exact H0).
  split; [|split].
  - intros x miss. destruct (npredict t x miss (xjs_nt scaling v) Hroot Hshow) as [q [Q1 Q2]].
    + apply (Permutation_NoDup (Permutation_sym Hids)), Hn.
    + intros u Hu. rewrite L0. apply (Permutation_in _ Hsub) in Hu. apply in_map_iff in Hu. destruct Hu as [w [<- Hw]].
      rewrite xjs_nt_id. auto.
    + exists q. split; [exact Q1|]. rewrite Q2. apply xjs_nt_follow; assumption.
  - intros u Hu. specialize (Hc u Hu). destruct u; cbn [cell_of xjs_id covered_by] in *; tauto.
  - intros HP Ho d Hf.
    assert (Hm : xjs_max v + 1 = length (xjs_sub v)).
    { pose proof (max_ids v) as A. rewrite <- A. 
      assert (In (list_max (map xjs_id (xjs_sub v))) (map xjs_id (xjs_sub v))).
      { rewrite A. clear. induction v as [i q c|i s t y n m c l IHl r IHr]; [now left|]. cbn [xjs_max xjs_sub map xjs_id].
        rewrite map_app. destruct (Nat.max_spec i (Nat.max (xjs_max l) (xjs_max r))) as [[_ ->]|[_ ->]]; [|now left].
        right. apply in_or_app. destruct (Nat.max_spec (xjs_max l) (xjs_max r)) as [[_ ->]|[_ ->]]; tauto. }
      apply (Permutation_in _ HP) in H. apply in_seq in H.
      assert (B : In (length (xjs_sub v) - 1) (map xjs_id (xjs_sub v))).
      { apply (Permutation_in _ (Permutation_sym HP)). apply in_seq. lia. }
      apply in_map_iff in B. destruct B as [u [B1 B2]]. specialize (Hlt u B2). lia. }
    split; [now rewrite L0|]. apply (nwf _ d (xjs_nt scaling v)); auto.
    + rewrite Hids, L0, Hm. exact HP.
    + now apply xjs_nt_ordered.
    + now apply xjs_nt_features.
Qed.
End Loaded.

(** without the statistics *)
Lemma no_cover float_of show gain scaling v : (forall i, plain (gain i)) -> (forall q, In q (numbers v) -> plain (show q)) -> NoDup (map xjs_id (xjs_sub v)) ->
  load_txt float_of scaling (dumped show index_name gain false v) = None.
Proof.
  intros Hgain Hq Hn. unfold load_txt, dumped. rewrite split_lines; [|destruct v; discriminate|intros l Hl; exact (dump_quiet show gain Hgain false v Hq 0 l Hl)].
  rewrite dump_lines. rewrite (read_all show gain Hgain false (xjs_sub v) [] (fun u Hu q H => Hq q (numbers_sub v u Hu q H))) by exact Hn. cbn [bind app].
  assert (E : forall st, read_node float_of (xjs_id v) (body show index_name gain false v) st = None).
  { intro st. assert (A : absent "c" (body show index_name gain false v) = true).
    { destruct v as [i x c|i s t y n m c l r]; cbn [body stat]; unfold index_name; rewrite ?absent_app, ?andb_true_iff; repeat split; try reflexivity;
        (apply absent_plain; [first [apply spelled_plain|apply Hq; cbn; tauto]|reflexivity]). }
    unfold read_node. unfold field at 5. rewrite (after_absent "cover=" "c" (lit "over=") _ eq_refl A). cbn [bind].
    destruct (occurs (lit "leaf") _); [now destruct (bind (field "leaf=" _) float_of)|].
    destruct (bind (field "yes=" _) int_of); [|reflexivity]. cbn [bind]. destruct (bind (field "no=" _) int_of); [|reflexivity]. cbn [bind].
    destruct (bind (field "missing=" _) int_of); [|reflexivity]. cbn [bind]. destruct (before " " _); [|reflexivity]. cbn [bind].
    destruct (read_test float_of "<" _ _); [|reflexivity]. cbn [bind]. now destruct (read_test float_of "=" _ _). }
  assert (E2 : exists r, map (fun u => (xjs_id u, body show index_name gain false u)) (xjs_sub v) = (xjs_id v, body show index_name gain false v) :: r) by (destruct v; eexists; reflexivity).
  destruct E2 as [r ->]. cbn [read_nodes]. rewrite E. reflexivity.
Qed.

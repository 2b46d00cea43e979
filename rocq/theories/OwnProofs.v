(** Proofs about active Shapley values with one explanation per observation. *)
From Verif Require Import Base TreeModel TreeSpec TreeProofs GameSpec GameProofs ShapModel ShapSpec ShapProofs NopaModel AcvModel AcvSpec AcvProofs
  FlatModel FlatSpec FlatProofs SkModel SkSpec SkProofs
  SdpModel SdpSpec SdpProofs ArrModel ArrSpec ArrProofs ArrProofs2 ArrProofs3 ArrProofs4 EntryModel EntrySpec EntryProofs EntryProofs2 EntryProofs3 SbufModel SbufSpec SbufProofs SbufProofs2
  AbufModel AbufSpec AbufProofs AbufProofs2 AbufProofs3 AbufProofs4 OwnModel OwnSpec.
Local Open Scope nat_scope.

(** ** The arguments *)

Lemma longs_nat a : longs (map Z.of_nat a) = Some a.
Proof. induction a as [|c a IH]; [reflexivity|]. cbn [map longs]. rewrite IH. destruct (Z.ltb_spec (Z.of_nat c) 0); [lia|]. now rewrite Nat2Z.id. Qed.
Lemma longs_some l a : longs l = Some a -> l = map Z.of_nat a.
Proof.
  revert a. induction l as [|z l IH]; intros a H; cbn [longs] in H; [now injection H as <-|].
  destruct (longs l) as [cs|]; [|discriminate]. destruct (Z.ltb_spec z 0); [discriminate|]. injection H as <-. cbn [map]. rewrite Z2Nat.id by lia. f_equal. now apply IH.
Qed.
Lemma longs_negative l z : In z l -> (z < 0)%Z -> longs l = None.
Proof.
  intros H Hz. destruct (longs l) as [a|] eqn:E; [|reflexivity]. apply longs_some in E. subst l. apply in_map_iff in H. destruct H as (c & <- & _). lia.
Qed.
Lemma ztable_checked a c rs : is_ztable a c rs -> check_long a = if (length rs =? 0) || (c =? 0) then Raised EValue else Returned rs.
Proof. now intros [->|[->|[dt ->]]]. Qed.
Lemma ztable_ok a c rs : is_ztable a c rs -> rs <> [] -> 0 < c -> check_long a = Returned rs.
Proof.
  intros H H1 H2. rewrite (ztable_checked a c rs H). destruct rs; [congruence|]. destruct c; [lia|]. reflexivity.
Qed.
Lemma table_ok X m xs : is_table X m xs -> xs <> [] -> 0 < m -> check_array X = Returned (M_array F64 m xs).
Proof.
  intros H H1 H2. rewrite (table_checked X m xs H). destruct xs; [congruence|]. destruct m; [lia|]. reflexivity.
Qed.
Lemma sizes_ok a ks : is_sizes a ks -> ks <> [] -> buffer1 (column_or_1d a) = Returned ks.
Proof. intros [->|[->| ->]] H; [destruct ks; [congruence|reflexivity]|reflexivity|reflexivity]. Qed.
Lemma indexed_nth {B} (l : list B) i : nth_error (indexed l) i = option_map (fun b => (i, b)) (nth_error l i).
Proof.
  unfold indexed. cut (forall n, nth_error (combine (seq n (length l)) l) i = option_map (fun b => (n + i, b)) (nth_error l i)); [intro H; apply (H 0)|].
  revert i. induction l as [|b l IH]; intros [|i] n; cbn [length seq combine nth_error option_map]; try reflexivity.
  - now rewrite Nat.add_0_r.
  - rewrite IH. destruct (nth_error l i); [cbn; f_equal; f_equal; lia|reflexivity].
Qed.
Lemma all_some_nth {B} (l : list (option B)) s : all_some l = Some s <-> length s = length l /\ forall i o, nth_error l i = Some o -> exists b, o = Some b /\ nth_error s i = Some b.
Proof.
  rewrite all_some_iff. split.
  - intros ->. split; [now rewrite map_length|]. intros i o H. rewrite nth_error_map in H. destruct (nth_error s i) as [b|]; [|discriminate]. cbn in H. injection H as <-. eauto.
  - intros [Hl H]. apply nth_ext with (d := None) (d' := None); [now rewrite map_length|]. intros i Hi.
    destruct (nth_error l i) as [o|] eqn:E; [|apply nth_error_None in E; lia]. destruct (H i o E) as (b & -> & Hb).
    rewrite (nth_error_nth _ _ None E). symmetry. apply nth_error_nth. now rewrite nth_error_map, Hb.
Qed.
Lemma points_are m xs : points (mkMat m xs) = map point xs.
Proof. reflexivity. Qed.

(** ** One observation *)

Section Rows.
Variables (h : shap_acv) (m : nat) (C : list (list nat)).
Hypothesis Hm : 0 < m.
Notation T := (o_tabs (h_acv h)).
Lemma shap_alone order x : acv_shap h order (M_array F64 m [x]) C =
  cube 1 m (t_out T) (shap_prog T (h_nid h) (cols (h_data h)) (points (h_data h)) (h_max h) m [point x] C order).
Proof. unfold acv_shap, check_array. cbn [length]. destruct m; [lia|]. reflexivity. Qed.
Lemma active_alone order x a o : acv_active h order (M_array F64 m [x]) (S_array I64 a) (S_array I64 o) C =
  ncube 1 m (t_out T) (active_prog T (h_nid h) (cols (h_data h)) (points (h_data h)) (h_max h) m [point x] C a o order).
Proof. unfold acv_active, check_array. cbn [length]. destruct m; [lia|]. reflexivity. Qed.
Variables (ss ns : list (list Z)) (ks : list nat) (order : nat -> nat -> list nat).
Lemma one_row_alone i x k s n table : nth_error ks i = Some k -> (k <> m -> nth_error ss i = Some s /\ nth_error ns i = Some n) ->
  option_map (copy_row h m) (one_row h m C ss ns ks order i (point x)) = Some table <-> alone h (order i) m C x k s n table.
Proof.
  intros Hk Hrow. unfold one_row, alone. rewrite Hk, shap_alone. destruct (Nat.eqb_spec k m) as [E|E].
  - destruct (shap_prog _ _ _ _ _ _ _ _ _) as [phi|]; cbn [option_map cube seq map]; unfold copy_row.
    + split.
      * intro H. left. split; [exact E|]. eexists. split; [reflexivity|]. injection H as <-. rewrite map_map. apply map_ext. intro c. now rewrite map_map.
      * intros [[_ (t & Ht & ->)]|[H _]]; [|contradiction]. injection Ht as <-. f_equal. rewrite map_map. apply map_ext. intro c. now rewrite map_map.
    + split; [discriminate|]. intros [[_ (t & Ht & _)]|[H _]]; [discriminate|contradiction].
  - destruct (Hrow E) as [Hs Hn]. rewrite Hs, Hn. split.
    + intro H. right. split; [exact E|]. destruct (longs (firstn k s)) as [a|] eqn:Ea; [|discriminate]. destruct (longs (skipn k n)) as [o|] eqn:Eo; [|discriminate].
      exists a, o. split; [now apply longs_some|]. split; [now apply longs_some|]. rewrite active_alone.
      destruct (active_prog _ _ _ _ _ _ _ _ _ _ _) as [phi|]; [|discriminate]. cbn [option_map] in H. injection H as <-. reflexivity.
    + intros [[H _]|[_ (a & o & Ea & Eo & H)]]; [contradiction|]. rewrite Ea, Eo, !longs_nat. rewrite active_alone in H.
      destruct (active_prog _ _ _ _ _ _ _ _ _ _ _) as [phi|]; [|discriminate]. cbn [option_map]. unfold ncube in H. cbn [seq map] in H. injection H as <-. reflexivity.
Qed.
Lemma own_rows_nth xs res : own_rows h m C ss ns ks order (map point xs) = Returned res <->
  length res = length xs /\ forall i x, nth_error xs i = Some x -> exists table, nth_error res i = Some table /\
    option_map (copy_row h m) (one_row h m C ss ns ks order i (point x)) = Some table.
Proof.
  unfold own_rows.
  assert (G : all_some (map (fun ix => option_map (copy_row h m) (one_row h m C ss ns ks order (fst ix) (snd ix))) (indexed (map point xs))) = Some res <->
    length res = length xs /\ forall i x, nth_error xs i = Some x -> exists table, nth_error res i = Some table /\
      option_map (copy_row h m) (one_row h m C ss ns ks order i (point x)) = Some table).
  { rewrite all_some_nth, map_length. unfold indexed at 1. rewrite combine_length, seq_length, map_length, Nat.min_id. split.
    - intros [Hl H]. split; [exact Hl|]. intros i x Hx. destruct (H i (option_map (copy_row h m) (one_row h m C ss ns ks order i (point x)))) as (b & Hb & Hn).
      + rewrite nth_error_map, indexed_nth, nth_error_map, Hx. reflexivity.
      + exists b. now split.
    - intros [Hl H]. split; [exact Hl|]. intros i o Ho. rewrite nth_error_map, indexed_nth, nth_error_map in Ho. destruct (nth_error xs i) as [x|] eqn:Hx; [|discriminate].
      cbn in Ho. injection Ho as <-. destruct (H i x Hx) as (table & H1 & H2). exists table. now split. }
  destruct (all_some _) as [r|].
  - rewrite <- G. split; intro H; [now injection H as ->|now injection H as ->].
  - split; [discriminate|]. intro H. apply G in H. discriminate.
Qed.
Lemma own_rows_stray xs i x : nth_error xs i = Some x -> one_row h m C ss ns ks order i (point x) = None ->
  own_rows h m C ss ns ks order (map point xs) = Stray.
Proof.
  intros Hx H. destruct (own_rows h m C ss ns ks order (map point xs)) as [res|e|] eqn:E; [exfalso| |reflexivity].
  - apply own_rows_nth in E. destruct (proj2 E i x Hx) as (t & _ & Ht). rewrite H in Ht. discriminate.
  - unfold own_rows in E. destruct (all_some _); discriminate.
Qed.
End Rows.

Lemma own_call h order X S_star N_star size C m xs cs ss cn ns ks : is_table X m xs -> xs <> [] -> 0 < m ->
  is_ztable S_star cs ss -> 0 < cs -> is_ztable N_star cn ns -> 0 < cn -> ns <> [] -> is_sizes size ks -> ks <> [] -> length ss = length xs ->
  acv_own h order X S_star N_star size C = own_rows h m C ss ns ks order (map point xs).
Proof.
  intros HX Hx Hm HS Hcs HN Hcn Hns Hk Hks Hl. unfold acv_own.
  rewrite (table_ok X m xs HX Hx Hm). cbn [andthen]. rewrite (ztable_ok S_star cs ss HS) by (try (intros ->; destruct xs; [congruence|discriminate]); exact Hcs).
  cbn [andthen]. rewrite (ztable_ok N_star cn ns HN Hns Hcn). cbn [andthen buffer2 same_dtype rows cols].
  unfold same_length. rewrite Hl, Nat.eqb_refl. cbn [andthen]. rewrite (sizes_ok size ks Hk Hks). reflexivity.
Qed.
Lemma own_nopa h X S_star N_star size C : acv_own_nopa h X S_star N_star size C =
  acv_own h (fun _ b => seq 0 (t_nb (o_tabs (h_acv h)) b)) X S_star N_star size C.
Proof.
  unfold acv_own_nopa, acv_own. destruct (check_array X) as [a|e|] eqn:E; try reflexivity. cbn [andthen].
  assert (Ea : exists c r, a = M_array F64 c r).
  { destruct X as [c r|c r|dt c r|dt l]; cbn [check_array] in E; [| | |discriminate];
      destruct (_ || _); try discriminate; injection E as <-; eauto. }
  destruct Ea as (c & r & ->). reflexivity.
Qed.
(** every observation gets what the methods for one set of columns return for it alone *)
Lemma own_is_alone h order X S_star N_star size C m xs cs ss cn ns ks : is_table X m xs -> xs <> [] -> 0 < m ->
  is_ztable S_star cs ss -> 0 < cs -> is_ztable N_star cn ns -> 0 < cn -> ns <> [] -> is_sizes size ks -> length ss = length xs ->
  length xs <= length ks -> (forall i k, nth_error ks i = Some k -> i < length xs -> k <> m -> i < length ns) ->
  forall res, acv_own h order X S_star N_star size C = Returned res <->
    length res = length xs /\ forall i x, nth_error xs i = Some x -> exists table, nth_error res i = Some table /\
      alone h (order i) m C x (nth i ks 0) (nth i ss []) (nth i ns []) table.
Proof.
  intros HX Hx Hm HS Hcs HN Hcn Hns Hk Hl Hkl Hn res.
  assert (Hks : ks <> []) by (intros ->; destruct xs; [congruence|cbn in Hkl; lia]).
  rewrite (own_call h order X S_star N_star size C m xs cs ss cn ns ks HX Hx Hm HS Hcs HN Hcn Hns Hk Hks Hl), own_rows_nth.
  apply and_iff_compat_l. split; intros H i x Hi; destruct (H i x Hi) as (table & H1 & H2); exists table; (split; [exact H1|]);
    pose proof (nth_error_lt _ _ _ Hi) as Hlt; assert (Ek : nth_error ks i = Some (nth i ks 0)) by (apply nth_error_nth'; lia);
    assert (Er : nth i ks 0 <> m -> nth_error ss i = Some (nth i ss []) /\ nth_error ns i = Some (nth i ns []))
      by (intro E; split; apply nth_error_nth'; [lia|now apply (Hn i _ Ek)]);
    apply (one_row_alone h m C Hm ss ns ks order i x _ _ _ table Ek Er); exact H2.
Qed.

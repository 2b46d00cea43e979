(** Proofs about the reader of binary XGBoost models. *)
From Verif Require Import Base TreeModel XgbModel XgbSpec.

(** ** Reading back what was written *)

Lemma le_bytes_length k z : length (le_bytes k z) = k.
Proof. revert z; induction k as [|k IH]; intros z; cbn [le_bytes length]; [reflexivity|]. now rewrite IH. Qed.
Lemma le_value_bytes k z : (0 <= z < 256 ^ Z.of_nat k)%Z -> le_value (le_bytes k z) = z.
Proof.
  revert z; induction k as [|k IH]; intros z Hz.
  - cbn in *. lia.
  - cbn [le_bytes le_value]. rewrite IH.
    + pose proof (Z.div_mod z 256). lia.
    + rewrite Nat2Z.inj_succ, Z.pow_succ_r in Hz by lia. split; [apply Z.div_pos; lia|].
      apply Z.div_lt_upper_bound; lia.
Qed.
Lemma firstn_exact {A} (a b : list A) k : length a = k -> firstn k (a ++ b) = a.
Proof. intros <-. rewrite firstn_app, Nat.sub_diag, firstn_all. cbn. apply app_nil_r. Qed.
Lemma skipn_exact {A} (a b : list A) k : length a = k -> skipn k (a ++ b) = b.
Proof. intros <-. rewrite skipn_app, Nat.sub_diag, skipn_all. reflexivity. Qed.
Lemma read_u_write k z r : (0 <= z < 256 ^ Z.of_nat k)%Z -> read_u k (le_bytes k z ++ r) = Some (z, r).
Proof.
  intros Hz. unfold read_u. rewrite app_length, le_bytes_length.
  replace (k <=? k + length r) with true by (symmetry; apply Nat.leb_le; lia).
  rewrite firstn_exact, skipn_exact by apply le_bytes_length. now rewrite le_value_bytes.
Qed.
Lemma read_w_write z r : uint32 z -> read_w (w32 z ++ r) = Some (z, r).
Proof.
  intros Hz. unfold read_w, w32. rewrite Z.mod_small by exact Hz. apply read_u_write. exact Hz.
Qed.
Lemma read_q_write z r : uint64 z -> read_q (w64 z ++ r) = Some (z, r).
Proof. intros Hz. unfold read_q, w64. apply read_u_write. exact Hz. Qed.
Lemma signed_mod z : int32 z -> signed (z mod 2 ^ 32) = z.
Proof.
  unfold int32, signed. change (2 ^ 31)%Z with 2147483648%Z. change (2 ^ 32)%Z with 4294967296%Z. intros Hz.
  destruct (Z_lt_le_dec z 0) as [Hn|Hn].
  - replace (z mod 4294967296)%Z with (z + 4294967296)%Z
      by (apply Z.mod_unique with (-1)%Z; lia).
    destruct (Z.ltb_spec (z + 4294967296) 2147483648); lia.
  - rewrite Z.mod_small by lia. destruct (Z.ltb_spec z 2147483648); lia.
Qed.
Lemma read_i_write z r : int32 z -> read_i (w32 z ++ r) = Some (z, r).
Proof.
  intros Hz. unfold read_i, w32. rewrite read_u_write.
  - now rewrite signed_mod.
  - change (256 ^ Z.of_nat 4)%Z with (2 ^ 32)%Z. apply Z.mod_pos_bound. reflexivity.
Qed.
Lemma skip_i_write n p r : length p = 4 * n -> skip_i n (p ++ r) = Some r.
Proof.
  intros Hp. unfold skip_i. rewrite app_length.
  replace (4 * n <=? length p + length r) with true by (symmetry; apply Nat.leb_le; lia).
  now rewrite skipn_exact.
Qed.
Lemma read_str_write s r : read_str (Z.of_nat (length s)) (s ++ r) = (s, r).
Proof. unfold read_str. rewrite Nat2Z.id. now rewrite firstn_exact, skipn_exact. Qed.

Lemma read_node_write n r : node_ok n -> read_node (write_node n ++ r) = Some (n, r).
Proof.
  intros (H1 & H2 & H3 & H4 & H5). unfold read_node, write_node. rewrite <- !app_assoc.
  rewrite read_i_write by assumption. cbn [bind]. rewrite read_i_write by assumption. cbn [bind].
  rewrite read_i_write by assumption. cbn [bind]. rewrite read_w_write by assumption. cbn [bind].
  rewrite read_w_write by assumption. cbn [bind]. now destruct n.
Qed.
Lemma read_stat_write n r : stat_ok n -> read_stat (write_stat n ++ r) = Some (n, r).
Proof.
  intros (H1 & H2 & H3 & H4). unfold read_stat, write_stat. rewrite <- !app_assoc.
  rewrite read_w_write by assumption. cbn [bind]. rewrite read_w_write by assumption. cbn [bind].
  rewrite read_w_write by assumption. cbn [bind]. rewrite read_i_write by assumption. cbn [bind]. now destruct n.
Qed.
Lemma read_many_write {A B} (rd : list Z -> option (A * list Z)) (wr : B -> list Z) (g : B -> A) (ok : B -> Prop) :
  (forall a r, ok a -> rd (wr a ++ r) = Some (g a, r)) ->
  forall l r, Forall ok l -> read_many rd (length l) (flat_map wr l ++ r) = Some (map g l, r).
Proof.
  intros H l; induction l as [|a l IH]; intros r Hl; [reflexivity|].
  inversion Hl; subst. cbn [length flat_map read_many map]. rewrite <- app_assoc, H by assumption. cbn [bind].
  rewrite IH by assumption. reflexivity.
Qed.
Lemma read_tree_write p t r : length p = 4 * 31 -> tree_ok t -> read_tree (write_tree p t ++ r) = Some (t, r).
Proof.
  intros Hp (H1 & H2 & H3 & H4 & H5 & H6 & Hn & Hs & Fn & Fs).
  unfold read_tree, write_tree. rewrite <- !app_assoc.
  do 6 (rewrite read_i_write by assumption; cbn [bind]).
  rewrite skip_i_write by exact Hp.
  destruct (Z.ltb_spec (t_num t) 0); [lia|].
  replace (Z.to_nat (t_num t)) with (length (t_nodes t)) by lia.
  rewrite (read_many_write read_node write_node (fun n => n) node_ok) by (auto using read_node_write).
  cbn [bind].
  replace (length (t_nodes t)) with (length (t_stats t)) by lia.
  rewrite (read_many_write read_stat write_stat (fun n => n) stat_ok) by (auto using read_stat_write).
  cbn [bind]. rewrite !map_id. now destruct t.
Qed.
Lemma read_trees_write pads ts r : length pads = length ts -> Forall (fun p => length p = 4 * 31) pads ->
  Forall tree_ok ts -> read_many read_tree (length ts) (write_trees pads ts ++ r) = Some (ts, r).
Proof.
  intros Hl Hp Ht. unfold write_trees.
  replace (length ts) with (length (combine pads ts)) by (rewrite combine_length; lia).
  rewrite (read_many_write read_tree (fun p => write_tree (fst p) (snd p)) snd
             (fun p => length (fst p) = 4 * 31 /\ tree_ok (snd p))).
  - f_equal. f_equal. clear Hp Ht. revert ts Hl; induction pads as [|p pads IH]; intros [|t ts] Hl; cbn in *;
      try discriminate; [reflexivity|]. f_equal. apply IH. lia.
  - intros [p t] r' [H1 H2]. now apply read_tree_write.
  - rewrite Forall_forall in *. intros [p t] Hin. split.
    + apply Hp. eapply in_combine_l; eassumption.
    + apply Ht. eapply in_combine_r; eassumption.
Qed.

Lemma lstrip_binf b : lstrip (binf ++ b) = lstrip b.
Proof. reflexivity. Qed.
Lemma lstrip_keep b r : ~ In b binf -> lstrip (b :: r) = b :: r.
Proof.
  intros H. cbn [lstrip].
  destruct ((b =? 98) || (b =? 105) || (b =? 110) || (b =? 102))%Z eqn:E; [|reflexivity].
  exfalso. apply H. rewrite !orb_true_iff, !Z.eqb_eq in E. cbn. intuition.
Qed.
Lemma lstrip_write m r1 r2 pads rest : uint32 (m_base m) -> ~ In (m_base m mod 256)%Z binf ->
  lstrip (write m r1 r2 pads rest) = write m r1 r2 pads rest.
Proof.
  intros Hb H. unfold write.
  replace (w32 (m_base m)) with ((m_base m mod 256)%Z :: le_bytes 3 (m_base m / 256)).
  - cbn [app]. now apply lstrip_keep.
  - unfold w32. rewrite (Z.mod_small (m_base m) (2 ^ 32)) by exact Hb. reflexivity.
Qed.

Lemma parse_write m r1 r2 pads rest : model_ok m -> pads_ok m r1 r2 pads -> ~ In (m_base m mod 256)%Z binf ->
  parse (write m r1 r2 pads rest) = Some m /\ parse (binf ++ write m r1 r2 pads rest) = Some m.
Proof.
  intros (H1 & H2 & H3 & H4 & H5 & Ho & Hg & H6 & H7 & H8 & H9 & H10 & H11 & H12 & Hn & Ft) (P1 & P2 & P3 & P4) Hb.
  assert (E : parse (write m r1 r2 pads rest) = Some m).
  { unfold parse. rewrite lstrip_write by assumption. unfold write.
    do 2 (rewrite read_w_write by assumption; cbn [bind]).
    do 3 (rewrite read_i_write by assumption; cbn [bind]).
    rewrite skip_i_write by exact P1.
    rewrite read_q_write by assumption; cbn [bind]. rewrite read_str_write.
    rewrite read_q_write by (rewrite Hg; cbv; repeat split; congruence); cbn [bind]. rewrite read_str_write.
    replace (same_bytes (m_gbm m) gbtree) with true
      by (unfold same_bytes; destruct (list_eq_dec Z.eq_dec (m_gbm m) gbtree); [reflexivity|contradiction]).
    cbn [negb].
    do 4 (rewrite read_i_write by assumption; cbn [bind]).
    rewrite read_q_write by assumption; cbn [bind].
    do 2 (rewrite read_i_write by assumption; cbn [bind]).
    rewrite skip_i_write by exact P2.
    destruct (Z.ltb_spec (m_num m) 0); [lia|].
    replace (Z.to_nat (m_num m)) with (length (m_trees m)) by lia.
    rewrite read_trees_write by assumption. cbn [bind]. now destruct m. }
  split; [exact E|]. unfold parse in *. rewrite lstrip_binf. exact E.
Qed.

(** ** Whatever is accepted was written *)

Lemma le_bytes_value l : Forall is_byte l -> le_bytes (length l) (le_value l) = l.
Proof.
  induction l as [|b l IH]; intros H; [reflexivity|]. inversion H; subst. cbn [length le_bytes le_value].
  unfold is_byte in *. f_equal.
  - rewrite Z.mul_comm, Z.mod_add by lia. apply Z.mod_small. assumption.
  - rewrite Z.mul_comm, Z.div_add by lia. rewrite Z.div_small by assumption. cbn. now apply IH.
Qed.
Lemma le_value_range l : Forall is_byte l -> (0 <= le_value l < 256 ^ Z.of_nat (length l))%Z.
Proof.
  induction l as [|b l IH]; intros H; [cbn; lia|]. inversion H; subst. cbn [length le_value].
  rewrite Nat2Z.inj_succ, Z.pow_succ_r by lia. unfold is_byte in *. specialize (IH ltac:(assumption)). lia.
Qed.
Lemma Forall_firstn {A} (P : A -> Prop) k l : Forall P l -> Forall P (firstn k l).
Proof. rewrite !Forall_forall. intros H x Hx. apply H. rewrite <- (firstn_skipn k l). apply in_or_app. now left. Qed.
Lemma Forall_skipn {A} (P : A -> Prop) k l : Forall P l -> Forall P (skipn k l).
Proof. rewrite !Forall_forall. intros H x Hx. apply H. rewrite <- (firstn_skipn k l). apply in_or_app. now right. Qed.
Lemma read_u_inv k buf z r : Forall is_byte buf -> read_u k buf = Some (z, r) ->
  buf = le_bytes k z ++ r /\ (0 <= z < 256 ^ Z.of_nat k)%Z /\ Forall is_byte r.
Proof.
  intros HB H. unfold read_u in H. destruct (Nat.leb_spec k (length buf)) as [Hk|]; [|discriminate].
  injection H as <- <-. pose proof (firstn_length_le buf Hk) as L.
  pose proof (Forall_firstn _ k _ HB) as HF. split; [|split].
  - rewrite <- L at 1. rewrite le_bytes_value by exact HF. rewrite firstn_skipn. reflexivity.
  - rewrite <- L at 3. now apply le_value_range.
  - now apply Forall_skipn.
Qed.
Lemma read_w_inv buf z r : Forall is_byte buf -> read_w buf = Some (z, r) ->
  buf = w32 z ++ r /\ uint32 z /\ Forall is_byte r.
Proof.
  intros HB H. apply read_u_inv in H; [|exact HB]. destruct H as (-> & Hz & Hr).
  change (256 ^ Z.of_nat 4)%Z with (2 ^ 32)%Z in Hz.
  unfold w32. rewrite Z.mod_small by exact Hz. auto.
Qed.
Lemma read_q_inv buf z r : Forall is_byte buf -> read_q buf = Some (z, r) ->
  buf = w64 z ++ r /\ uint64 z /\ Forall is_byte r.
Proof. intros HB H. apply read_u_inv in H; [|exact HB]. exact H. Qed.
Lemma read_i_inv buf z r : Forall is_byte buf -> read_i buf = Some (z, r) ->
  buf = w32 z ++ r /\ int32 z /\ Forall is_byte r.
Proof.
  intros HB H. unfold read_i in H. destruct (read_u 4 buf) as [[y r']|] eqn:E; [|discriminate].
  injection H as <- <-. apply read_u_inv in E; [|exact HB]. destruct E as (-> & Hz & Hr).
  change (256 ^ Z.of_nat 4)%Z with 4294967296%Z in Hz.
  unfold w32, int32, signed. change (2 ^ 31)%Z with 2147483648%Z. change (2 ^ 32)%Z with 4294967296%Z.
  destruct (Z.ltb_spec y 2147483648).
  - rewrite Z.mod_small by lia. repeat split; auto; lia.
  - replace ((y - 4294967296) mod 4294967296)%Z with y by (apply Z.mod_unique with (-1)%Z; lia).
    repeat split; auto; lia.
Qed.
Lemma skip_i_inv n buf r : Forall is_byte buf -> skip_i n buf = Some r ->
  exists p, length p = 4 * n /\ buf = p ++ r /\ Forall is_byte r.
Proof.
  intros HB H. unfold skip_i in H. destruct (Nat.leb_spec (4 * n) (length buf)) as [Hk|]; [|discriminate].
  injection H as <-. exists (firstn (4 * n) buf). split; [now apply firstn_length_le|].
  split; [now rewrite firstn_skipn|]. now apply Forall_skipn.
Qed.
(** A slice followed by a successful read was complete. *)
Lemma read_str_inv z buf s r : Forall is_byte buf -> read_str z buf = (s, r) -> (0 <= z)%Z -> r <> [] ->
  z = Z.of_nat (length s) /\ buf = s ++ r /\ Forall is_byte r.
Proof.
  intros HB H Hz Hr. unfold read_str in H. injection H as <- <-.
  assert (Hk : Z.to_nat z <= length buf).
  { destruct (Nat.le_gt_cases (Z.to_nat z) (length buf)) as [L|L]; [exact L|].
    exfalso. apply Hr. apply skipn_all2. lia. }
  rewrite firstn_length_le by exact Hk. rewrite firstn_skipn. repeat split; [lia|]. now apply Forall_skipn.
Qed.

Ltac step H := match type of H with
  | bind ?o _ = Some _ => let E := fresh "E" in destruct o as [[? ?]|] eqn:E; cbn [bind] in H; [|discriminate H]
  end.
Ltac inv_i := match goal with
  | HB : Forall is_byte ?b, E : read_i ?b = Some _ |- _ =>
      apply read_i_inv in E; [|exact HB]; destruct E as (-> & ? & ?); clear HB
  | HB : Forall is_byte ?b, E : read_w ?b = Some _ |- _ =>
      apply read_w_inv in E; [|exact HB]; destruct E as (-> & ? & ?); clear HB
  | HB : Forall is_byte ?b, E : read_q ?b = Some _ |- _ =>
      apply read_q_inv in E; [|exact HB]; destruct E as (-> & ? & ?); clear HB
  end.
Lemma read_node_inv buf n r : Forall is_byte buf -> read_node buf = Some (n, r) ->
  buf = write_node n ++ r /\ node_ok n /\ Forall is_byte r.
Proof.
  intros HB H. unfold read_node in H. repeat (step H; inv_i). injection H as <- <-.
  unfold write_node, node_ok. cbn [x_parent x_cleft x_cright x_sindex x_info]. rewrite <- !app_assoc. auto 10.
Qed.
Lemma read_stat_inv buf n r : Forall is_byte buf -> read_stat buf = Some (n, r) ->
  buf = write_stat n ++ r /\ stat_ok n /\ Forall is_byte r.
Proof.
  intros HB H. unfold read_stat in H. repeat (step H; inv_i). injection H as <- <-.
  unfold write_stat, stat_ok. cbn [x_loss x_hess x_weight x_cnt]. rewrite <- !app_assoc. auto 10.
Qed.
Lemma read_many_inv {A} (rd : list Z -> option (A * list Z)) (wr : A -> list Z) (ok : A -> Prop) :
  (forall buf a r, Forall is_byte buf -> rd buf = Some (a, r) -> buf = wr a ++ r /\ ok a /\ Forall is_byte r) ->
  forall n buf l r, Forall is_byte buf -> read_many rd n buf = Some (l, r) ->
  buf = flat_map wr l ++ r /\ Forall ok l /\ length l = n /\ Forall is_byte r.
Proof.
  intros Hrd n; induction n as [|n IH]; intros buf l r HB H; cbn [read_many] in H.
  - injection H as <- <-. repeat split; auto.
  - step H. destruct (Hrd _ _ _ HB E) as (-> & Ha & HB'). step H. destruct (IH _ _ _ HB' E0) as (-> & Hl & <- & HB'').
    injection H as <- <-. cbn [flat_map length]. rewrite <- app_assoc. repeat split; auto.
Qed.
Lemma read_tree_inv buf t r : Forall is_byte buf -> read_tree buf = Some (t, r) ->
  exists p, length p = 4 * 31 /\ buf = write_tree p t ++ r /\ tree_ok t /\ Forall is_byte r.
Proof.
  intros HB H. unfold read_tree in H. repeat (step H; inv_i).
  destruct (skip_i 31 _) as [b|] eqn:E in H; [|discriminate H].
  apply skip_i_inv in E; [|assumption]. destruct E as (p & Hp & -> & HB1).
  destruct (Z.ltb_spec z0 0) as [|Hz]; [discriminate H|].
  step H. apply (read_many_inv read_node write_node node_ok read_node_inv) in E; [|assumption].
  destruct E as (-> & Hn & Ln & HB2).
  step H. apply (read_many_inv read_stat write_stat stat_ok read_stat_inv) in E; [|assumption].
  destruct E as (-> & Hs & Ls & HB3). injection H as <- <-.
  exists p. unfold write_tree, tree_ok.
  cbn [t_roots t_num t_deleted t_depth t_features t_vector t_nodes t_stats]. rewrite <- !app_assoc.
  repeat (split; auto); lia.
Qed.
Lemma read_trees_inv n buf l r : Forall is_byte buf -> read_many read_tree n buf = Some (l, r) ->
  exists pads, length pads = length l /\ Forall (fun p => length p = 4 * 31) pads /\
    buf = write_trees pads l ++ r /\ Forall tree_ok l /\ length l = n.
Proof.
  revert buf l r; induction n as [|n IH]; intros buf l r HB H; cbn [read_many] in H.
  - injection H as <- <-. exists []. repeat split; auto.
  - step H. destruct (read_tree_inv _ _ _ HB E) as (p & Hp & -> & Ha & HB'). step H.
    destruct (IH _ _ _ HB' E0) as (pads & Lp & Fp & -> & Hl & <-).
    injection H as <- <-. exists (p :: pads). unfold write_trees. cbn [combine flat_map length fst snd].
    rewrite <- app_assoc. repeat split; auto.
Qed.
Lemma lstrip_inv buf : exists h, Forall (fun b => In b binf) h /\ buf = h ++ lstrip buf.
Proof.
  induction buf as [|b r (h & Hh & E)]; [exists []; auto|]. cbn [lstrip].
  destruct ((b =? 98) || (b =? 105) || (b =? 110) || (b =? 102))%Z eqn:Eb.
  - exists (b :: h). split; [constructor; [|exact Hh]|cbn [app]; now rewrite <- E].
    rewrite !orb_true_iff, !Z.eqb_eq in Eb. cbn. intuition.
  - exists []. auto.
Qed.
Lemma read_u_nonempty k buf z r : read_u (S k) buf = Some (z, r) -> buf <> [].
Proof. intros H ->. discriminate H. Qed.
Lemma read_i_nonempty buf z r : read_i buf = Some (z, r) -> buf <> [].
Proof. intros H ->. discriminate H. Qed.

Lemma parse_inv raw m : Forall is_byte raw -> parse raw = Some m ->
  model_ok m /\ exists h r1 r2 pads rest, Forall (fun b => In b binf) h /\ pads_ok m r1 r2 pads /\
    raw = h ++ write m r1 r2 pads rest.
Proof.
  intros HB0 H. destruct (lstrip_inv raw) as (h & Hh & Eraw).
  assert (HB : Forall is_byte (lstrip raw)).
  { rewrite Eraw in HB0. apply Forall_app in HB0. apply HB0. }
  clear HB0. unfold parse in H. remember (lstrip raw) as buf eqn:Eb. clear Eb.
  do 5 (step H; inv_i).
  destruct (skip_i 29 _) as [b|] eqn:E in H; [|discriminate H].
  apply skip_i_inv in E; [|assumption]. destruct E as (r1 & L1 & -> & HB1).
  step H. inv_i. destruct (read_str _ _) as [ob b1] eqn:Eo in H. step H.
  assert (Hb1 : b1 <> []) by (eapply read_u_nonempty; eassumption).
  apply read_str_inv in Eo; [|assumption|unfold uint64 in *; lia|exact Hb1]. destruct Eo as (-> & -> & HB2).
  inv_i. destruct (read_str _ _) as [gb b2] eqn:Eg in H.
  destruct (same_bytes gb gbtree) eqn:Esb; [cbn [negb] in H|discriminate H].
  step H. assert (Hb2 : b2 <> []) by (eapply read_i_nonempty; eassumption).
  apply read_str_inv in Eg; [|assumption|unfold uint64 in *; lia|exact Hb2]. destruct Eg as (-> & -> & HB3).
  assert (gb = gbtree) by (unfold same_bytes in Esb; destruct (list_eq_dec Z.eq_dec gb gbtree); congruence).
  inv_i. do 6 (step H; inv_i).
  destruct (skip_i 32 _) as [b|] eqn:E in H; [|discriminate H].
  apply skip_i_inv in E; [|assumption]. destruct E as (r2 & L2 & -> & HB4).
  match type of H with (if (?z <? 0)%Z then _ else _) = _ => destruct (Z.ltb_spec z 0); [discriminate H|] end.
  step H. apply read_trees_inv in E; [|assumption]. destruct E as (pads & Lp & Fp & -> & Ft & Ln).
  injection H as <-. split.
  - unfold model_ok. cbn. repeat (split; auto); lia.
  - exists h, r1, r2, pads, l0. split; [exact Hh|]. split.
    + repeat split; cbn; auto.
    + rewrite Eraw. reflexivity.
Qed.

(** ** Bits *)

Lemma packed_bits n dl c : (0 <= c < 2 ^ 31)%Z -> x_sindex n = packed dl c ->
  x_feature n = c /\ x_default n = (if dl then x_cleft n else x_cright n).
Proof.
  intros Hc E. unfold x_feature, x_default. rewrite E. unfold packed.
  change (2 ^ 31 - 1)%Z with (Z.ones 31). rewrite Z.land_ones by lia. rewrite Z.shiftr_div_pow2 by lia.
  destruct dl.
  - split.
    + replace (2 ^ 31 + c)%Z with (c + 1 * 2 ^ 31)%Z by lia. rewrite Z.mod_add by discriminate. now apply Z.mod_small.
    + replace ((2 ^ 31 + c) / 2 ^ 31)%Z with 1%Z; [reflexivity|].
      apply Z.div_unique with c; lia.
  - rewrite Z.add_0_l. split; [now apply Z.mod_small|]. rewrite Z.div_small by exact Hc. reflexivity.
Qed.
Lemma packed_exists s : uint32 s -> exists dl c, s = packed dl (Z.of_nat c) /\ (Z.of_nat c < 2 ^ 31)%Z.
Proof.
  unfold uint32, packed. change (2 ^ 31)%Z with 2147483648%Z. change (2 ^ 32)%Z with 4294967296%Z. intros Hs.
  destruct (Z_lt_le_dec s 2147483648).
  - exists false, (Z.to_nat s). lia.
  - exists true, (Z.to_nat (s - 2147483648)). lia.
Qed.

(** ** Order of the patterns *)

Lemma mag_lt p q : (0 <= p < q)%Z -> (f_mag p < f_mag q)%Z.
Proof.
  intros H. unfold f_mag. change (2 ^ 23)%Z with 8388608%Z.
  pose proof (Z.div_mod p 8388608 ltac:(lia)) as Dp. pose proof (Z.mod_pos_bound p 8388608 ltac:(lia)) as Mp.
  pose proof (Z.div_mod q 8388608 ltac:(lia)) as Dq. pose proof (Z.mod_pos_bound q 8388608 ltac:(lia)) as Mq.
  remember (p / 8388608)%Z as e eqn:Ee. remember (q / 8388608)%Z as e' eqn:Ee'.
  remember (p mod 8388608)%Z as m eqn:Em. remember (q mod 8388608)%Z as m' eqn:Em'. clear Ee Ee' Em Em'.
  destruct (Z.ltb_spec p 8388608) as [Hp|Hp]; destruct (Z.ltb_spec q 8388608) as [Hq|Hq].
  - lia.
  - assert (1 <= 2 ^ (e' - 1))%Z by (apply (Z.pow_le_mono_r 2 0); lia). nia.
  - lia.
  - assert (e <= e')%Z by lia. assert (1 <= e)%Z by lia.
    destruct (Z.eq_dec e e') as [<-|Hne].
    + assert (0 < 2 ^ (e - 1))%Z by (apply Z.pow_pos_nonneg; lia). nia.
    + assert (2 ^ e <= 2 ^ (e' - 1))%Z by (apply Z.pow_le_mono_r; lia).
      assert (E2 : (2 ^ e = 2 * 2 ^ (e - 1))%Z) by (rewrite <- Z.pow_succ_r by lia; f_equal; lia).
      assert (0 < 2 ^ (e - 1))%Z by (apply Z.pow_pos_nonneg; lia). nia.
Qed.
Lemma mag_nonneg p : (0 <= p)%Z -> (0 <= f_mag p)%Z.
Proof.
  intros H. destruct (Z.eq_dec p 0) as [->|]; [cbn; lia|]. pose proof (mag_lt 0 p ltac:(lia)).
  change (f_mag 0) with 0%Z in *. lia.
Qed.
Lemma mag_zero p : (0 < p)%Z -> (0 < f_mag p)%Z.
Proof. intros H. apply (mag_lt 0 p). lia. Qed.
(** position of a finite pattern *)
Definition key (p : Z) : Z := if (p <? 2 ^ 31)%Z then p else (- (p - 2 ^ 31))%Z.
Lemma int_key p : (0 <= p)%Z -> f_int p = if (0 <=? key p)%Z then f_mag (key p) else (- f_mag (- key p))%Z.
Proof.
  intros H. unfold f_int, key. destruct (Z.ltb_spec p (2 ^ 31)) as [L|L].
  - destruct (Z.leb_spec 0 p); [reflexivity|lia].
  - destruct (Z.leb_spec 0 (- (p - 2 ^ 31))) as [L2|L2].
    + replace (p - 2 ^ 31)%Z with 0%Z by lia. reflexivity.
    + f_equal. f_equal. lia.
Qed.
Lemma int_lt p q : (0 <= p)%Z -> (0 <= q)%Z -> ((f_int p < f_int q)%Z <-> (key p < key q)%Z).
Proof.
  intros Hp Hq.
  assert (G : forall a b, (0 <= a)%Z -> (0 <= b)%Z -> (key a < key b)%Z -> (f_int a < f_int b)%Z).
  { intros a b Ha Hb H. rewrite (int_key a Ha), (int_key b Hb).
    destruct (Z.leb_spec 0 (key a)); destruct (Z.leb_spec 0 (key b)).
    - apply mag_lt. lia.
    - lia.
    - pose proof (mag_zero (- key a) ltac:(lia)). pose proof (mag_nonneg (key b) ltac:(lia)). lia.
    - pose proof (mag_lt (- key b) (- key a) ltac:(lia)). lia. }
  assert (E : key p = key q -> f_int p = f_int q).
  { intros E. rewrite (int_key p Hp), (int_key q Hq), E. reflexivity. }
  split; intros H; [|now apply G].
  destruct (Z.lt_trichotomy (key p) (key q)) as [L|[L|L]]; [exact L| |].
  - apply E in L. lia.
  - pose proof (G q p Hq Hp L). lia.
Qed.
Lemma num_lt p q : (f_num p < f_num q)%Q <-> (f_int p < f_int q)%Z.
Proof.
  unfold f_num, Qlt. cbn [Qnum Qden]. symmetry. apply Z.mul_lt_mono_pos_r. reflexivity.
Qed.
Lemma finite_pos p : finite p -> (0 <= p)%Z.
Proof. unfold finite. lia. Qed.
Lemma num_key p q : finite p -> finite q -> ((f_num p < f_num q)%Q <-> (key p < key q)%Z).
Proof. intros Hp Hq. rewrite num_lt. apply int_lt; now apply finite_pos. Qed.
Lemma key_prev p : finite p -> key (f_prev p) = (key p - 1)%Z.
Proof.
  unfold finite, key, f_prev. change (2 ^ 31)%Z with 2147483648%Z. change (2 ^ 23)%Z with 8388608%Z. intros H.
  destruct (Z.eqb_spec p 0) as [->|]; [reflexivity|]. destruct (Z.eqb_spec p 2147483648) as [->|]; [reflexivity|].
  cbn [orb]. destruct (Z.ltb_spec p 2147483648).
  - destruct (Z.ltb_spec (p - 1) 2147483648); lia.
  - destruct (Z.eqb_spec p (255 * 8388608 + 2147483648)); [lia|].
    destruct (Z.ltb_spec (p + 1) 2147483648); lia.
Qed.
(** the moved threshold separates the 32-bit numbers as the strict test does *)
Lemma prev_test v p : finite v -> finite p -> finite (f_prev p) ->
  ((f_num v <= f_num (f_prev p))%Q <-> (f_num v < f_num p)%Q).
Proof.
  intros Hv Hp Hq. rewrite (num_key v p Hv Hp).
  pose proof (num_key (f_prev p) v Hq Hv) as K. rewrite key_prev in K by exact Hp.
  split; intros H.
  - destruct (Z_lt_le_dec (key v) (key p)); [assumption|]. exfalso.
    apply (Qle_not_lt _ _ H). apply K. lia.
  - apply Qnot_lt_le. intros C. apply K in C. lia.
Qed.

(** ** Prediction *)

Lemma node_at t i n d : nth_error (t_nodes t) i = Some n ->
  clz (fst (x_tree t)) i = x_cleft n /\ crz (fst (x_tree t)) i = x_cright n /\ cdz (fst (x_tree t)) i = x_default n /\
  nth i (ft (fst (x_tree t))) d = x_feature n /\ thq (fst (x_tree t)) i = x_threshold n /\
  vlq (fst (x_tree t)) i = (x_value n * 1)%Q.
Proof.
  intros H. unfold clz, crz, cdz, thq, vlq, x_tree. cbn [fst cl cr cd ft th vl].
  assert (L : i < length (t_nodes t)) by (apply nth_error_Some; congruence).
  assert (G : forall B (f : xnode -> B) e, nth i (map f (t_nodes t)) e = f n).
  { intros B f e. rewrite nth_indep with (d' := f n) by (rewrite map_length; exact L).
    rewrite map_nth. f_equal. now apply nth_error_nth. }
  rewrite !G. auto 10.
Qed.
Section Predict.
Variable t : xtree.
Variable x : nat -> Z.
Variable miss : nat -> bool.
Hypothesis Hok : nodes_ok (t_nodes t).
Hypothesis Hx : forall c, finite (x c).

Let T := fst (x_tree t).
Let y : pt := fun c => f_num (x c).

Lemma node_facts i n : nth_error (t_nodes t) i = Some n ->
  uint32 (x_sindex n) /\ finite (x_info n) /\
     (x_cleft n = (-1)%Z \/
      (0 <= x_cleft n < Z.of_nat (length (t_nodes t)))%Z /\ (0 <= x_cright n < Z.of_nat (length (t_nodes t)))%Z /\
      finite (f_prev (x_info n))).
Proof using Hok.
  intros H. unfold nodes_ok in Hok. rewrite Forall_forall in Hok. apply Hok. eapply nth_error_In; eassumption.
Qed.
Lemma next_goes i n : nth_error (t_nodes t) i = Some n -> x_cleft n <> (-1)%Z ->
  goes x miss n (Z.of_nat (next_node T y miss i)) /\ next_node T y miss i < length (t_nodes t) /\
  (forall j, goes x miss n j -> j = Z.of_nat (next_node T y miss i)).
Proof using Hok Hx.
  intros Hn Hl. destruct (node_facts i n Hn) as (Hs & Hi & [C|(Cl & Cr & Hp)]); [contradiction|].
  destruct (packed_exists _ Hs) as (dl & c & Es & Hc).
  destruct (packed_bits n dl (Z.of_nat c) ltac:(lia) Es) as [Ef Ed].
  destruct (node_at t i n (-1)%Z Hn) as (E1 & E2 & E3 & E4 & E5 & _).
  assert (Eft : ftn T i = c) by (unfold ftn, T; rewrite E4, Ef; lia).
  assert (Uniq : forall dl' c', x_sindex n = packed dl' (Z.of_nat c') -> (Z.of_nat c' < 2 ^ 31)%Z -> dl' = dl /\ c' = c).
  { intros dl' c' E' L'. rewrite Es in E'. unfold packed in E'. revert Hc L' E'. clear.
    change (2 ^ 31)%Z with 2147483648%Z. destruct dl, dl'; split; try reflexivity; lia. }
  assert (Eth : thq T i = f_num (f_prev (x_info n))).
  { unfold T. rewrite E5. unfold x_threshold. destruct (Z.leb_spec 0 (x_cleft n)); [reflexivity|lia]. }
  pose proof (prev_test (x c) (x_info n) (Hx c) Hi Hp) as Test.
  assert (Enx : next_node T y miss i =
    Z.to_nat (if miss c then (if dl then x_cleft n else x_cright n)
              else if qleb (y c) (f_num (f_prev (x_info n))) then x_cleft n else x_cright n)).
  { unfold next_node. rewrite Eft, Eth. unfold T. rewrite E1, E2, E3, Ed.
    destruct (miss c); [reflexivity|]. destruct (qleb _ _); reflexivity. }
  rewrite Enx.
  split; [|split].
  - exists dl, c. split; [exact Es|]. split; [exact Hc|]. destruct (miss c).
    + destruct dl; rewrite Z2Nat.id; auto; lia.
    + destruct (qleb_spec (y c) (f_num (f_prev (x_info n)))) as [Hq|Hq].
      * left. split; [now apply Test|]. rewrite Z2Nat.id; auto; lia.
      * right. split; [apply Qnot_lt_le; intros C; apply Test in C; exact (Hq C)|].
        rewrite Z2Nat.id; auto; lia.
  - destruct (miss c); [destruct dl; lia|]. destruct (qleb _ _); lia.
  - intros j (dl' & c' & Es' & Hc' & Hj). destruct (Uniq _ _ Es' Hc') as [-> ->]. destruct (miss c).
    + destruct dl; rewrite Z2Nat.id; auto; lia.
    + destruct (qleb_spec (y c) (f_num (f_prev (x_info n)))) as [Hq|Hq]; rewrite Z2Nat.id by lia.
      * destruct Hj as [[_ ->]|[Hj _]]; [reflexivity|]. exfalso. apply Test in Hq. apply (Qle_not_lt _ _ Hj Hq).
      * destruct Hj as [[Hj _]|[_ ->]]; [|reflexivity]. exfalso. apply Test in Hj. exact (Hq Hj).
Qed.
Lemma leaf_iff i n : nth_error (t_nodes t) i = Some n -> (is_leaf T i = true <-> x_cleft n = (-1)%Z).
Proof using Hok.
  intros Hn. destruct (node_facts i n Hn) as (_ & _ & C).
  destruct (node_at t i n (-1)%Z Hn) as (E1 & _). unfold is_leaf, T. rewrite E1, Z.ltb_lt. lia.
Qed.
Lemma walk_reaches fuel i k : i < length (t_nodes t) -> walk fuel T y miss i = Some k ->
  reaches (t_nodes t) x miss i k.
Proof using Hok Hx.
  revert i; induction fuel as [|f IH]; intros i Hi H; [discriminate|].
  cbn [walk] in H. destruct (nth_error (t_nodes t) i) as [n|] eqn:En; [|apply nth_error_None in En; lia].
  pose proof (leaf_iff i n En) as L. destruct (is_leaf T i).
  - injection H as <-. eapply re_leaf; [exact En|]. now apply L.
  - assert (Hl : x_cleft n <> (-1)%Z) by (intros C; apply L in C; discriminate).
    destruct (next_goes i n En Hl) as (G & B & _). eapply re_step; eauto.
Qed.
Lemma reaches_walk i k : reaches (t_nodes t) x miss i k -> exists fuel, walk fuel T y miss i = Some k.
Proof using Hok Hx.
  induction 1 as [i n En Hl|i n j k En Hl G _ (f & IH)].
  - exists 1. cbn [walk]. now rewrite (proj2 (leaf_iff i n En) Hl).
  - exists (S f). cbn [walk]. destruct (next_goes i n En Hl) as (_ & _ & U).
    apply U in G. apply Nat2Z.inj in G. subst j.
    destruct (is_leaf T i) eqn:E; [|exact IH]. apply (leaf_iff i n En) in E. contradiction.
Qed.
End Predict.

Lemma xgb_walk t x miss i k : nodes_ok (t_nodes t) -> (forall c, finite (x c)) -> i < length (t_nodes t) ->
  ((exists fuel, walk fuel (fst (x_tree t)) (fun c => f_num (x c)) miss i = Some k) <->
   reaches (t_nodes t) x miss i k).
Proof.
  intros Hok Hx Hi. split.
  - intros [f H]. eapply walk_reaches; eassumption.
  - now apply reaches_walk.
Qed.
Lemma reaches_in ns x miss i k : reaches ns x miss i k -> exists n, nth_error ns k = Some n /\ x_cleft n = (-1)%Z.
Proof. induction 1; eauto. Qed.
Lemma xgb_value t x miss i k n : reaches (t_nodes t) x miss i k -> nth_error (t_nodes t) k = Some n ->
  (vlq (fst (x_tree t)) k == f_num (x_info n))%Q.
Proof.
  intros H Hn. destruct (reaches_in _ _ _ _ _ H) as (n' & Hn' & Hl).
  destruct (node_at t k n (-1)%Z Hn) as (_ & _ & _ & _ & _ & ->). rewrite Hn in Hn'. injection Hn' as <-.
  unfold x_value. rewrite Hl. cbn. apply Qmult_1_r.
Qed.
(** ** Totality and the refutations *)

Lemma forward_total t x miss f i : nodes_ok (t_nodes t) -> forward (t_nodes t) -> (forall c, finite (x c)) ->
  i < length (t_nodes t) -> length (t_nodes t) - i <= f ->
  exists k, walk f (fst (x_tree t)) (fun c => f_num (x c)) miss i = Some k.
Proof.
  intros Hok Hf Hx. revert i; induction f as [|f IH]; intros i Hi Hle; [lia|]. cbn [walk].
  destruct (nth_error (t_nodes t) i) as [n|] eqn:En; [|apply nth_error_None in En; lia].
  destruct (is_leaf (fst (x_tree t)) i) eqn:El; [eauto|].
  assert (Hl : x_cleft n <> (-1)%Z) by (intros C; apply (leaf_iff t Hok i n En) in C; congruence).
  destruct (next_goes t x miss Hok Hx i n En Hl) as ((dl & c & _ & _ & G) & B & _).
  destruct (Hf i n En Hl) as [F1 F2]. apply IH; [exact B|].
  destruct (miss c); [destruct dl; lia|]. lia.
Qed.
Lemma xgb_predicts t x miss : nodes_ok (t_nodes t) -> forward (t_nodes t) -> t_nodes t <> [] -> (forall c, finite (x c)) ->
  exists k n q, reaches (t_nodes t) x miss 0 k /\ nth_error (t_nodes t) k = Some n /\
    predict_value (fst (x_tree t)) (fun c => f_num (x c)) miss = Some q /\ (q == f_num (x_info n))%Q.
Proof.
  intros Hok Hf Hne Hx. assert (L : 0 < length (t_nodes t)) by (destruct (t_nodes t); [contradiction|cbn; lia]).
  unfold predict_value, predict_leaf.
  assert (En : nn (fst (x_tree t)) = length (t_nodes t)) by (unfold nn, x_tree; cbn [fst cl]; apply map_length).
  rewrite En. destruct (forward_total t x miss (length (t_nodes t)) 0 Hok Hf Hx L ltac:(lia)) as [k Hk].
  rewrite Hk. pose proof (walk_reaches t x miss Hok Hx _ 0 k L Hk) as R.
  destruct (reaches_in _ _ _ _ _ R) as (n & Hn & _). exists k, n, (vlq (fst (x_tree t)) k).
  repeat split; auto. eapply xgb_value; eassumption.
Qed.
Lemma xgb_cells t i n dl c : nth_error (t_nodes t) i = Some n -> x_sindex n = packed dl (Z.of_nat c) ->
  (Z.of_nat c < 2 ^ 31)%Z -> x_cleft n <> (-1)%Z ->
  let T := fst (x_tree t) in
  clz T i = x_cleft n /\ crz T i = x_cright n /\ cdz T i = (if dl then clz T i else crz T i) /\ ftn T i = c.
Proof.
  intros Hn Es Hc Hl T. destruct (packed_bits n dl (Z.of_nat c) ltac:(lia) Es) as [Ef Ed].
  destruct (node_at t i n (-1)%Z Hn) as (E1 & E2 & E3 & E4 & _ & _).
  unfold T. rewrite E1, E2, E3. unfold ftn. rewrite E4, Ef, Ed. repeat split. lia.
Qed.

Definition refuted_node : xnode := mkXnode (-1) (-1) (-1) 0 1065353216.
Definition refuted_stat : xstat := mkXstat 0 1065353216 0 0.
Definition refuted_tree : xtree := mkXtree 1 1 0 0 2 0 [refuted_node] [refuted_stat].
Definition refuted_model : xmodel :=
  mkXmodel 1056964706 2 0 0 0 [114; 101; 103]%Z gbtree 1 1 2 0 0 1 0 [refuted_tree].
Lemma refuted_ok : model_ok refuted_model.
Proof.
  assert (Ht : tree_ok refuted_tree).
  { unfold tree_ok, int32; cbn [refuted_tree t_roots t_num t_deleted t_depth t_features t_vector t_nodes t_stats length].
    repeat split; try lia; repeat constructor; cbn; try lia. }
  unfold model_ok, int32, uint32, uint64. cbn [refuted_model m_base m_features m_class m_extra m_metrics m_obj m_gbm m_num
    m_roots m_features2 m_pad m_pbuffer m_group m_vector m_trees length].
  repeat split; try lia. constructor; [exact Ht|constructor].
Qed.
Lemma lstrip_head buf b r : lstrip buf = b :: r -> ~ In b binf.
Proof.
  induction buf as [|c buf IH]; cbn [lstrip]; [discriminate|].
  destruct ((c =? 98) || (c =? 105) || (c =? 110) || (c =? 102))%Z eqn:E; [exact IH|].
  intros H. injection H as -> ->. rewrite !orb_false_iff, !Z.eqb_neq in E. cbn. intuition.
Qed.
Lemma parse_base raw m : parse raw = Some m -> exists r, read_w (lstrip raw) = Some (m_base m, r).
Proof.
  intros H. unfold parse in H.
  do 5 step H. exists l.
  destruct (skip_i 29 _) as [b|] in H; [|discriminate H].
  step H. destruct (read_str _ _) as [ob b1] in H. step H. destruct (read_str _ _) as [gb b2] in H.
  destruct (negb _) in H; [discriminate H|]. do 7 step H.
  destruct (skip_i 32 _) as [b3|] in H; [|discriminate H].
  destruct (_ <? 0)%Z in H; [discriminate H|]. step H. injection H as <-. reflexivity.
Qed.
Lemma parse_low raw m : Forall is_byte raw -> parse raw = Some m -> ~ In (m_base m mod 256)%Z binf.
Proof.
  intros HB H. destruct (parse_base _ _ H) as [r Hr]. destruct (lstrip_inv raw) as (h & _ & Eraw).
  assert (HB' : Forall is_byte (lstrip raw)) by (rewrite Eraw in HB; apply Forall_app in HB; apply HB).
  apply read_w_inv in Hr; [|exact HB']. destruct Hr as (E & Hu & _).
  apply (lstrip_head raw _ (le_bytes 3 (m_base m / 256) ++ r)). rewrite E. unfold w32.
  rewrite (Z.mod_small (m_base m) (2 ^ 32)) by exact Hu. reflexivity.
Qed.
Lemma parse_exact m r1 r2 pads rest : model_ok m -> pads_ok m r1 r2 pads ->
  Forall is_byte (write m r1 r2 pads rest) ->
  (parse (binf ++ write m r1 r2 pads rest) = Some m <-> ~ In (m_base m mod 256)%Z binf).
Proof.
  intros Hm Hp HB. split.
  - intros H. apply (parse_low _ _) in H; [exact H|]. apply Forall_app. split; [|exact HB].
    repeat constructor; unfold is_byte; lia.
  - intros H. now apply parse_write.
Qed.
Lemma parse_refuted : exists m r1 r2 pads rest, model_ok m /\ pads_ok m r1 r2 pads /\
  Forall is_byte (write m r1 r2 pads rest) /\ parse (binf ++ write m r1 r2 pads rest) <> Some m.
Proof.
  exists refuted_model, (repeat 0%Z 116), (repeat 0%Z 128), [repeat 0%Z 124], [].
  assert (Hp : pads_ok refuted_model (repeat 0%Z 116) (repeat 0%Z 128) [repeat 0%Z 124]).
  { unfold pads_ok. repeat split. repeat constructor. }
  assert (HB : Forall is_byte (write refuted_model (repeat 0%Z 116) (repeat 0%Z 128) [repeat 0%Z 124] [])).
  { set (w := write _ _ _ _ _).
    assert (E : forallb (fun b => (0 <=? b) && (b <? 256))%Z w = true) by (vm_compute; reflexivity).
    rewrite forallb_forall in E. apply Forall_forall. intros b Hb. apply E in Hb.
    apply andb_true_iff in Hb. rewrite Z.leb_le, Z.ltb_lt in Hb. exact Hb. }
  split; [exact refuted_ok|]. split; [exact Hp|]. split; [exact HB|].
  intros C. apply (parse_exact _ _ _ _ _ refuted_ok Hp HB) in C. apply C. left. reflexivity.
Qed.

(** 1 - 2^-24 + 2^-60 *)
Definition just_above : Q := (1152921435887370241 # 1152921504606846976)%Q.
Lemma nearest_above : nearest just_above 1065353215.
Proof.
  assert (F0 : finite 1065353215) by (unfold finite; lia).
  assert (F1 : finite 1065353216) by (unfold finite; lia).
  split; [exact F0|]. intros p Hp Hne.
  assert (Ep : (f_num 1065353215 == (16777215 # 16777216))%Q) by (vm_compute; reflexivity).
  assert (E1 : (f_num 1065353216 == 1)%Q) by (vm_compute; reflexivity).
  assert (Ev : (just_above == (16777215 # 16777216) + (1 # 1152921504606846976))%Q) by (vm_compute; reflexivity).
  rewrite Ep, Ev. rewrite (Qabs_neg (_ - _)) by lra.
  destruct (Z_lt_le_dec (key p) (key 1065353216)) as [L|L].
  - assert (H : (f_num p <= f_num 1065353215)%Q).
    { apply Qnot_lt_le. intros C. apply (num_key _ _ F0 Hp) in C.
      change (key 1065353216) with 1065353216%Z in L. change (key 1065353215) with 1065353215%Z in C. lia. }
    assert (H2 : (f_num p < f_num 1065353215)%Q).
    { apply Qle_lteq in H. destruct H as [H|H]; [exact H|]. contradiction. }
    rewrite Ep in H2. rewrite Qabs_neg by lra. lra.
  - assert (H : (f_num 1065353216 <= f_num p)%Q).
    { apply Qnot_lt_le. intros C. apply (num_key _ _ Hp F1) in C. lia. }
    rewrite E1 in H. rewrite Qabs_pos by lra. lra.
Qed.
Definition double_tree : xtree :=
  mkXtree 1 3 0 1 1 0
    [mkXnode (-1) 1 2 0 1065353216; mkXnode 0 (-1) (-1) 0 1073741824; mkXnode 0 (-1) (-1) 0 1077936128]
    [refuted_stat; refuted_stat; refuted_stat].
Lemma double_refuted : exists t v p k q n, nodes_ok (t_nodes t) /\ forward (t_nodes t) /\ nearest v p /\
  reaches (t_nodes t) (fun _ => p) (fun _ => false) 0 k /\ nth_error (t_nodes t) k = Some n /\
  predict_value (fst (x_tree t)) (fun _ => v) (fun _ => false) = Some q /\ ~ (q == f_num (x_info n))%Q.
Proof.
  exists double_tree, just_above, 1065353215%Z, 1, (f_num 1077936128 * 1)%Q, (mkXnode 0 (-1) (-1) 0 1073741824).
  assert (Hok : nodes_ok (t_nodes double_tree)).
  { unfold nodes_ok, uint32, finite; cbn [double_tree t_nodes length].
    repeat (constructor; [cbn; lia|]). constructor. }
  split; [exact Hok|]. split.
  { intros [|[|[|[|i]]]] n H; cbn in H; try discriminate; injection H as <-; cbn; lia. }
  split; [exact nearest_above|]. split.
  { eapply re_step with (j := 1); [reflexivity|cbn; lia| |eapply re_leaf; reflexivity].
    exists false, 0. split; [reflexivity|]. split; [reflexivity|]. cbn [x_info x_cleft].
    left. split; [vm_compute; reflexivity|reflexivity]. }
  split; [reflexivity|]. split; [vm_compute; reflexivity|]. vm_compute. discriminate.
Qed.

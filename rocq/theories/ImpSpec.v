(** Vocabulary for the statements about the explanations of an [ACVTree], from its trees. *)
From Verif Require Import Base TreeModel TreeSpec GameSpec ShapSpec FlatModel FlatSpec SearchModel SearchSpec ClfSpec ExplSpec EntryModel EntrySpec SbufSpec
  ArrModel ArrSpec ImpModel.

(** what [compute_sdp_clf] of the same object returns for observation [k] and the columns [S] *)
Definition told (a : acv) (proba : mat -> outcome (list (list Q))) (order : nat -> list (nat * nat)) (X data : marg) (k : nat) (S : list nat) : Q :=
  match acv_sdp a proba order X (S_array I64 S) data with Returned l => nth k l 0%Q | _ => 0%Q end.
(** row [k] of the answer *)
Definition row_of (e : answer) (k : nat) : row := mkRow (nth k (e_sdp e) 0%Q) (nth k (e_size e) 0) (nth k (e_index e) []).
(** [n] leaves of the ensemble are below a split on column [s] *)
Definition leaves_below (ts : list mtree) (s n : nat) : Prop :=
  exists L : list (nat * nat), NoDup L /\ length L = n /\
    forall b i, In (b, i) L <-> exists m, nth_error ts b = Some m /\ is_leaf_of m i /\ above (as_tree m 0) s i.
(** ten columns above the most leaves, ties in any way; all columns that the ensemble splits on if there are fewer *)
Definition most_used (ts : list mtree) (sp : list nat) : Prop :=
  NoDup sp /\ length sp <= 10 /\ (forall s, In s sp -> exists n, 0 < n /\ leaves_below ts s n) /\
  forall s n, ~ In s sp -> 0 < n -> leaves_below ts s n ->
    length sp = 10 /\ forall s' n', In s' sp -> leaves_below ts s' n' -> n <= n'.
(** the groups that are searched: up to ten columns all of them, otherwise those that meet the most used columns *)
Definition searched (ts : list mtree) (d : nat) (C va : list (list nat)) : Prop :=
  NoDup va /\ NoDup (concat va) /\ length va <= 10 /\
  (d <= 10 -> is_players C d va) /\
  (10 < d -> exists sp, most_used ts sp /\
     forall g, In g va <-> (In g C /\ exists s, In s g /\ In s sp) \/ exists s, g = [s] /\ In s sp /\ ~ In s (concat C)).
(** an ensemble over [d] columns with [k] outputs, the object built on it with some background, tables of observations [xs] and of
    background rows [zs], the classes that the model decides for them, disjoint coalitions of columns *)
Definition explainable (listed : list nat -> list nat) (sig : Q -> Q) (ts : list mtree) (stacked : nat) (boosted : bool) (d w k : nat) (h : SbufModel.shap_acv)
  (proba : mat -> outcome (list (list Q))) (X data : marg) (xs zs : list (list Q)) (fX ys : list nat) (C : list (list nat)) : Prop :=
  lists_set listed /\ ensemble_ok ts stacked d w k /\
  (exists data0 zs0, is_table data0 d zs0 /\ SbufModel.construct_shap listed sig ts stacked boosted data0 = Some h) /\
  is_table X d xs /\ xs <> [] /\ is_table data d zs /\ zs <> [] /\
  decides_as proba d xs (used_classes boosted k) fX /\ decides_as proba d zs (used_classes boosted k) ys /\
  coal_ok C d /\ C <> [].
(** for every set of columns, the leaves of all trees in some order *)
Definition all_leaves (ts : list mtree) (sched : list nat -> list (nat * nat)) : Prop :=
  forall S, NoDup (sched S) /\ forall b l, In (b, l) (sched S) <-> exists m, nth_error ts b = Some m /\ l < leaf_count m.
(** for every tree, all pairs (leaf, observation) in some order *)
Definition all_pairs (ts : list mtree) (N : nat) (order : nat -> list (nat * nat)) : Prop :=
  forall b m, nth_error ts b = Some m -> Permutation (order b) (list_prod (seq 0 (leaf_count m)) (seq 0 N)).
(** the four arrays for [N] observations over [d] columns *)
Definition shaped (e : answer) (N d : nat) : Prop :=
  length (e_importance e) = d /\ length (e_index e) = N /\ (forall r, In r (e_index e) -> length r = d) /\
  length (e_size e) = N /\ length (e_sdp e) = N.

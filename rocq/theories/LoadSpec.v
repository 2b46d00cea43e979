(** What the dumps of the other libraries mean: how an observation is sent to a
    leaf, and which dumps are well numbered.  Nothing here mirrors the loaders. *)
From Verif Require Import Base LoadModel.

(** ** LightGBM: at most the threshold goes left, missing follows the flag *)
Fixpoint lgb_follow (v : lgb) (x : pt) (miss : nat -> bool) : Q :=
  match v with
  | LLeaf _ q _ => q
  | LNode _ f t dl _ _ l r =>
      if (if miss f then dl else qleb (x f) t) then lgb_follow l x miss else lgb_follow r x miss
  end.
(** all the vertices, the root first *)
Fixpoint lgb_sub (v : lgb) : list lgb :=
  v :: match v with LLeaf _ _ _ => [] | LNode _ _ _ _ _ _ l r => lgb_sub l ++ lgb_sub r end.
(** numbers of the splits *)
Fixpoint lgb_splits (v : lgb) : list nat :=
  match v with LLeaf _ _ _ => [] | LNode i _ _ _ _ _ l r => i :: lgb_splits l ++ lgb_splits r end.
(** numbers of the leaves *)
Fixpoint lgb_leaves (v : lgb) : list nat :=
  match v with LLeaf i _ _ => [i] | LNode _ _ _ _ _ _ l r => lgb_leaves l ++ lgb_leaves r end.
(** a dump of [n] leaves: splits and leaves numbered from 0, the root is split 0 *)
Definition lgb_ok (n : nat) (v : lgb) : Prop :=
  Permutation (lgb_splits v) (seq 0 (n - 1)) /\ Permutation (lgb_leaves v) (seq 0 n) /\
  match v with LLeaf _ _ _ => True | LNode i _ _ _ _ _ _ _ => i = 0 end.
(** a split is numbered after the split above it *)
Fixpoint lgb_ordered (v : lgb) : Prop :=
  match v with
  | LLeaf _ _ _ => True
  | LNode i _ _ _ _ _ l r =>
      match l with LNode j _ _ _ _ _ _ _ => i < j | LLeaf _ _ _ => True end /\
      match r with LNode j _ _ _ _ _ _ _ => i < j | LLeaf _ _ _ => True end /\
      lgb_ordered l /\ lgb_ordered r
  end.
(** features among [d] columns *)
Fixpoint lgb_features (d : nat) (v : lgb) : Prop :=
  match v with
  | LLeaf _ _ _ => True
  | LNode _ f _ _ _ _ l r => f < d /\ lgb_features d l /\ lgb_features d r
  end.

(** ** XGBoost: strictly less than the condition goes to [yes] *)
Definition xjs_id (v : xjs) : nat := match v with XLeaf i _ _ => i | XNode i _ _ _ _ _ _ _ _ => i end.
(** the name of the child taken when the comparison with the condition is [lt] *)
Definition xjs_name (lt : Q -> Q -> bool) (x : pt) (miss : nat -> bool) (s : nat) (t : Q) (yes no missing : nat) : nat :=
  if miss s then missing else if lt (x s) t then yes else no.
Fixpoint xjs_follow (lt : Q -> Q -> bool) (v : xjs) (x : pt) (miss : nat -> bool) : Q :=
  match v with
  | XLeaf _ q _ => q
  | XNode _ s t y n m _ l r =>
      if xjs_name lt x miss s t y n m =? xjs_id l then xjs_follow lt l x miss else xjs_follow lt r x miss
  end.
Fixpoint xjs_sub (v : xjs) : list xjs :=
  v :: match v with XLeaf _ _ _ => [] | XNode _ _ _ _ _ _ _ l r => xjs_sub l ++ xjs_sub r end.
(** the names are those of the two children *)
Fixpoint xjs_names (v : xjs) : Prop :=
  match v with
  | XLeaf _ _ _ => True
  | XNode _ _ _ y n m _ l r =>
      ((y = xjs_id l /\ n = xjs_id r) \/ (y = xjs_id r /\ n = xjs_id l)) /\ (m = y \/ m = n) /\
      xjs_names l /\ xjs_names r
  end.
(** distinct numbers, the root is 0 *)
Definition xjs_ok (v : xjs) : Prop := NoDup (map xjs_id (xjs_sub v)) /\ xjs_id v = 0 /\ xjs_names v.
(** a node is numbered after the one above it *)
Fixpoint xjs_ordered (v : xjs) : Prop :=
  match v with
  | XLeaf _ _ _ => True
  | XNode i _ _ _ _ _ _ l r => i < xjs_id l /\ i < xjs_id r /\ xjs_ordered l /\ xjs_ordered r
  end.
(** features among [d] columns *)
Fixpoint xjs_features (d : nat) (v : xjs) : Prop :=
  match v with
  | XLeaf _ _ _ => True
  | XNode _ s _ _ _ _ _ l r => s < d /\ xjs_features d l /\ xjs_features d r
  end.
(** no value of the observation equals the condition of a split on its column *)
Fixpoint xjs_off (v : xjs) (x : pt) : Prop :=
  match v with
  | XLeaf _ _ _ => True
  | XNode _ s t _ _ _ _ l r => ~ (x s == t)%Q /\ xjs_off l x /\ xjs_off r x
  end.

(** ** Spark: at most the threshold goes left *)
Fixpoint spk_follow (v : spk) (x : pt) : Q :=
  match v with
  | SLeaf q _ => q
  | SNode f t _ _ l r => if qleb (x f) t then spk_follow l x else spk_follow r x
  end.
(** features among [d] columns *)
Fixpoint spk_features (d : nat) (v : spk) : Prop :=
  match v with
  | SLeaf _ _ => True
  | SNode f _ _ _ l r => f < d /\ spk_features d l /\ spk_features d r
  end.
(** nodes in prefix order *)
Fixpoint spk_nodes (v : spk) : list spk :=
  v :: match v with SLeaf _ _ => [] | SNode _ _ _ _ l r => spk_nodes l ++ spk_nodes r end.
(** number of training rows through a node *)
Definition spk_count (v : spk) : Q := match v with SLeaf _ c => c | SNode _ _ _ c _ _ => c end.

(** ** CatBoost: the answers to the splits are the bits of the leaf number, the first
    split giving the lowest bit *)
Fixpoint cb_leaf (answers : list bool) : nat :=
  match answers with [] => 0 | a :: r => (if a then 1 else 0) + 2 * cb_leaf r end.
(** answer to a split: above the border, or equal to the category *)
Definition cb_answer (x : pt) (s : cbsplit) : bool :=
  match s with
  | FloatFeature f b => qltb b (x f)
  | OneHotFeature f v => qeqb (x f) v
  | OnlineCtr f b => qltb b (x f)
  end.
(** a split on a numerical column *)
Definition is_float (s : cbsplit) : Prop := match s with FloatFeature _ _ => True | _ => False end.
(** total weight of the leaves [lo .. lo + k - 1] *)
Definition block (w : list Q) (lo k : nat) : Q := sumf (fun i => nth i w 0%Q) (seq lo k).

(** Vocabulary for the sessions of the class [CR]: the arguments as given, what the methods of the explainer answer, which training rows
    have the target.  Nothing here mirrors code. *)
From Verif Require Import Base GameSpec SkModel SearchSpec ExplSpec RfModel RfSpec ApiModel ApiSpec AgnModel AgnSpec AxsModel AxsSpec BoxSpec RulesSpec CrSpec.
Local Open Scope nat_scope.

(** an optional argument: one entry for each of [n] observations; an entry that is not given is zero *)
Definition fits {A} (n : nat) (o : option (list A)) : Prop := match o with Some l => length l = n | None => True end.
Definition entry (o : option (list Q)) (i : nat) : Q := match o with Some l => nth i l 0%Q | None => 0%Q end.
Definition bound (o : option (list (list Q))) (k i : nat) : Q := match o with Some l => nth k (nth i l []) 0%Q | None => 0%Q end.
Definition entries (n : nat) (o : option (list Q)) : list Q := map (entry o) (seq 0 n).

(** a forest over [d] columns held by the arrays of skranger, and the training rows *)
Definition trained (d w : nat) (es : list sk) (Ts : list rtree) (D : list pt) (Y : list Q) : Prop :=
  es <> [] /\ Forall2 (holds d w) es Ts /\ d <> 1 /\ table D Y.
(** the levels given for the search in regression *)
Definition levels_fit (classifier : bool) (n : nat) (t : targ) : Prop :=
  classifier = true \/ t = T_none \/ exists l, t = T_matrix l /\ length l = n /\ forall r, In r l -> 2 <= length r.

(** the answer of [compute_cdp_cond_weights] for one observation, one set and one box *)
Definition conditional (d : nat) (es : list sk) (stray : row) (classifier : bool) (q : pt -> Q * Q) (D : list pt) (Y : list Q) (m : nat)
  (order : list nat) (x : pt) (yt down up : Q) (Sv : list nat) (c : rule) : Q * (nat -> Q) :=
  match explain d es stray classifier q cdp_cond (mkArgs [x] [yt] [down] [up] (S_rows [Sv]) [c]) D Y m T_none order with
  | Some (Returned res) => (nth 0 (r_sdp res) 0%Q, match r_weights res with Some ws => nth 0 ws (fun _ => 0%Q) | None => fun _ => 0%Q end)
  | _ => (0%Q, fun _ => 0%Q)
  end.
(** the mean over the trees of the share of the rows kept that have the target *)
Definition target_share (classifier : bool) (yt down up : Q) (Y : list Q) (g : guide) (Ts : list rtree) (D : list pt) : Q :=
  mean_over (fun T => mean_over (fun j => if agrees classifier yt down up (nth j Y 0%Q) then 1%Q else 0%Q) (companions g T D)) Ts.
(** [z] is in the same leaf as [x] in every tree *)
Definition same_leaves (Ts : list rtree) (x z : pt) : Prop := forall T, In T Ts -> way T x = way T z.
(** every leaf that holds a training row with the target holds at least [m] rows, for all trees *)
Definition full_leaves (m : nat) (classifier : bool) (yt down up : Q) (Ts : list rtree) (D : list pt) (Y : list Q) : Prop :=
  forall j T, j < length D -> agrees classifier yt down up (nth j Y 0%Q) = true -> In T Ts ->
    m <= length (filter (fun k => if list_eq_dec Bool.bool_dec (way T (nth j D (fun _ => 0%Q))) (way T (nth k D (fun _ => 0%Q))) then true else false) (seq 0 (length D))).
(** [Sv] is a set found by a search among the groups [va] for the probabilities [P]: it reaches the level [pi], no smaller one does, and no
    other of its size has a larger probability; or no set that is searched reaches the level (with [stop]: none of at most half of
    the columns) *)
Definition divergent_set (d : nat) (va : list (list nat)) (stop : bool) (pi : Q) (P : list nat -> Q) (Sv : list nat) : Prop :=
  (exists T p, Sv = concat T /\ minimal_sufficient d va 1 pi P T p) \/
  (forall T, In T (subs va) -> 1 <= length T -> (stop = true -> length T <= Nat.max 1 (d / 2)) -> (P (concat T) < pi)%Q).
(** the intervals of the regional session: two numbers for each observation; zero when they are not given *)
Definition intervals (n : nat) (o : option (list (list Q))) : list (list Q) := match o with Some l => l | None => repeat [0%Q; 0%Q] n end.
Definition intervals_fit (n : nat) (o : option (list (list Q))) : Prop :=
  match o with Some l => length l = n /\ forall r, In r l -> 2 <= length r | None => True end.
(** a row for which the leaves of the forest are taken: it has the target, and a weight unless no row with the target has one *)
Definition drawn (classifier : bool) (yt down up : Q) (w : nat -> Q) (Y : list Q) (j : nat) : Prop :=
  j < length Y /\ agrees classifier yt down up (nth j Y 0%Q) = true /\
  ((exists k, k < length Y /\ agrees classifier yt down up (nth k Y 0%Q) = true /\ ~ (w k == 0)%Q) -> ~ (w j == 0)%Q).
(** the box [b] holds every point that is in the same leaf as the row [j] in all trees *)
Definition holds_leaves (d : nat) (Ts : list rtree) (D : list pt) (j : nat) (b : nat -> Q * Q) : Prop :=
  forall z, moderate (seq 0 d) z -> same_leaves Ts (nth j D (fun _ => 0%Q)) z -> inside_open d b z.
(** the share of rows with the target in the leaf of row [j], averaged over the trees *)
Definition leaf_share (classifier : bool) (yt down up : Q) (Ts : list rtree) (D : list pt) (Y : list Q) (j : nat) : Q :=
  mean_over (fun T => mean_over (fun k => if agrees classifier yt down up (nth k Y 0%Q) then 1%Q else 0%Q)
    (filter (fun k => if list_eq_dec Bool.bool_dec (way T (nth j D (fun _ => 0%Q))) (way T (nth k D (fun _ => 0%Q))) then true else false) (seq 0 (length D)))) Ts.
(** the leaves of row [j] reach the level if those of some row with the target and a weight do *)
Definition surest (level : Q) (classifier : bool) (yt down up : Q) (w : nat -> Q) (Ts : list rtree) (D : list pt) (Y : list Q) (j : nat) : Prop :=
  forall k, k < length Y -> agrees classifier yt down up (nth k Y 0%Q) = true -> ~ (w k == 0)%Q ->
    (level <= leaf_share classifier yt down up Ts D Y k)%Q -> (level <= leaf_share classifier yt down up Ts D Y j)%Q.

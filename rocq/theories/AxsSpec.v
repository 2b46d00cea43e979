(** Vocabulary for the statements about the searches of [ACXplainer]: what its other methods answer for one observation and one set. *)
From Verif Require Import Base GameSpec ShapSpec SkModel SearchSpec ExplSpec RfModel RfSpec ApiModel ApiSpec AgnModel AgnSpec AxsModel.
From Verif Require SearchModel ImpModel ImpSpec.
Local Open Scope nat_scope.

(** the method that gives the probability of a set, the set it is asked for, and its arguments: [compute_ddp_rf] and
    [compute_cdp_rf] are asked for the columns outside the set, [compute_ddp_intv_same] and [compute_cdp_intv_same] for the set *)
Definition method (kd : kind) : routine :=
  match kd with by_sdp => sdp_rf | by_ddp => ddp_rf | by_cdp => cdp_rf | by_ddp_intv => ddp_intv_same | by_cdp_intv => cdp_intv_same end.
Definition asked (kd : kind) (d : nat) (S : list nat) : list nat :=
  match kd with by_ddp | by_cdp => complement d S | _ => S end.
Definition question (kd : kind) (a : args) (d : nat) (S : list nat) : args :=
  mkArgs (g_X a) (g_y a) (g_down a) (g_up a)
    (match kd with by_ddp_intv | by_cdp_intv => S_same (asked kd d S) | _ => S_rows (repeat (asked kd d S) (length (g_X a))) end) (g_cond a).
(** its answer for observation [k] *)
Definition told (d : nat) (es : list sk) (stray : row) (classifier : bool) (q : pt -> Q * Q) (sched : list nat)
  (kd : kind) (a : args) (D : list pt) (Y : list Q) (m : nat) (t : targ) (k : nat) (S : list nat) : Q :=
  match explain d es stray classifier q (method kd) (question kd a d S) D Y m t sched with
  | Some (Returned res) => nth k (r_sdp res) 0%Q
  | _ => 0%Q
  end.

(** the arguments as documented: one target, interval, box and pair of levels per observation *)
Definition complete_args (kd : kind) (classifier : bool) (a : args) (D : list pt) (Y : list Q) (t : targ) : Prop :=
  table (g_X a) (g_y a) /\ table D Y /\
  (kd = by_cdp -> length (g_down a) = length (g_X a) /\ length (g_up a) = length (g_X a)) /\
  (kd = by_ddp_intv \/ kd = by_cdp_intv -> length (g_cond a) = length (g_X a)) /\
  (classifier = true \/ t = T_none \/ exists l, t = T_matrix l /\ length l = length (g_X a) /\ forall r, In r l -> 2 <= length r).
(** the workers treat the selected rows, each with all [trees] trees, in some order *)
Definition fair (trees : nat) (N : nat) (sched : list nat -> list nat -> list nat) : Prop :=
  forall R S, complete (Datatypes.S trees) (length (filter (fun k => memb k R) (seq 0 N))) (sched R S).

(** the groups that are searched: up to ten columns all of them, otherwise those that meet ten columns of largest importance *)
Definition chosen (imp : nat -> Q) (d : nat) (C va : list (list nat)) : Prop :=
  NoDup va /\ NoDup (concat va) /\ length va <= 10 /\
  (d <= 10 -> is_players C d va) /\
  (10 < d -> exists sp, NoDup sp /\ length sp = 10 /\ (forall s, In s sp -> s < d) /\
     (forall s s', In s sp -> s' < d -> ~ In s' sp -> (imp s' <= imp s)%Q) /\
     forall g, In g va <-> (In g C /\ exists s, In s g /\ In s sp) \/ exists s, g = [s] /\ In s sp /\ ~ In s (concat C)).

(** a forest over [d] columns held by the arrays of skranger, documented arguments, disjoint coalitions, the columns by decreasing
    importance, fair workers *)
Definition searchable (d w : nat) (es : list sk) (Ts : list rtree) (classifier : bool) (imp : nat -> Q) (by_importance : list nat)
  (sched : list nat -> list nat -> list nat) (kd : kind) (a : args) (D : list pt) (Y : list Q) (t : targ) (C : list (list nat)) : Prop :=
  es <> [] /\ Forall2 (holds d w) es Ts /\ d <> 1 /\ complete_args kd classifier a D Y t /\ coal_ok C d /\ C <> [] /\
  ranked imp d by_importance /\ fair (length Ts) (length (g_X a)) sched.
(** the levels that the answers refer to in regression *)
Definition levels_at (q : pt -> Q * Q) (X : list pt) (t : targ) (i : nat) : Q * Q :=
  match t with
  | T_matrix l => (nth 0 (nth i l []) 0%Q, nth 1 (nth i l []) 0%Q)
  | _ => q (nth i X (fun _ => 0%Q))
  end.

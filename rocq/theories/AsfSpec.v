(** Vocabulary for the statements about [sufficient_expl_rf] and [sufficient_cxpl_rf] of [ACXplainer]. *)
From Verif Require Import Base ShapSpec SkModel ExplSpec RfModel ApiModel ApiSpec AgnModel AgnSpec AxsModel AxsSpec.
Local Open Scope nat_scope.

(** what the method [r] answers for observation [k] and the set [S] *)
Definition answered (d : nat) (es : list sk) (stray : row) (classifier : bool) (q : pt -> Q * Q) (order : list nat) (r : routine)
  (X : list pt) (y : list Q) (D : list pt) (Y : list Q) (m : nat) (t : targ) (k : nat) (S : list nat) : Q :=
  match explain d es stray classifier q r (mkArgs X y [] [] (S_rows (repeat S (length X))) []) D Y m t order with
  | Some (Returned res) => nth k (r_sdp res) 0%Q
  | _ => 0%Q
  end.
(** the method that each of the two searches refers to *)
Definition judge (divergent : bool) : routine := if divergent then ddp_rf else sdp_rf.

(** a forest over [d] columns held by the arrays of skranger, documented arguments, disjoint coalitions, the columns by decreasing
    importance, workers that treat every row with every tree *)
Definition explorable (d w : nat) (es : list sk) (Ts : list rtree) (classifier : bool) (imp : nat -> Q) (by_importance : list nat)
  (sched : list nat -> list nat) (X : list pt) (y : list Q) (D : list pt) (Y : list Q) (t : targ) (C : list (list nat)) : Prop :=
  es <> [] /\ Forall2 (holds d w) es Ts /\ d <> 1 /\ complete_args by_sdp classifier (mkArgs X y [] [] (S_same []) []) D Y t /\
  coal_ok C d /\ C <> [] /\ ranked imp d by_importance /\ forall S, complete (Datatypes.S (length Ts)) (length X) (sched S).

(** Vocabulary for [run_sufficient_rules]: what the methods of the explainer answer for a single observation.  Nothing here mirrors code. *)
From Verif Require Import Base SkModel RfModel ApiModel AgnModel.
Local Open Scope nat_scope.

(** probability, rule and weights that a method answers for one observation [z] with its target, levels and set *)
Definition single (r : routine) (d : nat) (es : list sk) (stray : row) (classifier : bool) (q : pt -> Q * Q) (D : list pt) (Y : list Q) (m : nat)
  (order : list nat) (z : pt) (yz : Q) (lv : Q * Q) (Sv : list nat) : Q * rule * (nat -> Q) :=
  match explain d es stray classifier q r (mkArgs [z] [yz] [] [] (S_rows [Sv]) []) D Y m (T_matrix [[fst lv; snd lv]]) order with
  | Some (Returned res) => (nth 0 (r_sdp res) 0%Q, match r_rules res with Some l => nth 0 l rule0 | None => rule0 end,
                            match r_weights res with Some l => nth 0 l (fun _ => 0%Q) | None => fun _ => 0%Q end)
  | _ => (0%Q, rule0, fun _ => 0%Q)
  end.
(** the same decision probability, by [compute_sdp_rf] *)
Definition same_decision d es stray classifier q D Y m order z yz lv Sv : Q := fst (fst (single sdp_rf d es stray classifier q D Y m order z yz lv Sv)).
(** the rule of an observation, by [compute_sdp_rule] *)
Definition cell d es stray classifier q D Y m order z yz lv Sv : rule := snd (fst (single sdp_rule d es stray classifier q D Y m order z yz lv Sv)).
(** the weights of the training rows, by [compute_ddp_weights] *)
Definition row_weights d es stray classifier q D Y m order z yz lv Sv : nat -> Q := snd (single ddp_weights d es stray classifier q D Y m order z yz lv Sv).

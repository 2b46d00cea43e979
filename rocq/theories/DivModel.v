(** Model of the divergent-set sessions of class [CR] (counterfactual_rules.py):
    [run_local_divergent_set] and [run_regional_divergent_set].  No proofs here. *)
From Verif Require Import Base TreeModel RfModel SearchModel ExplModel.

(** What a session keeps for one observation: [S_star], [S_bar_set], the
    probability and the weights of the training samples (counterfactual_rules.py
    56-62 and 173-180). *)
Record divrow := mkDiv { dv_star : list Z; dv_bar : list Z; dv_p : Q; dv_w : nat -> Q }.
(** What a session returns: the importance of the columns and one row per
    observation (counterfactual_rules.py 52-62 and 165-180). *)
Record divset := mkDivset { ds_importance : nat -> Q; ds_row : nat -> divrow }.

Section Sessions.
(** the arrays of the explainer ([self.ACXplainer], acv_agnosticX.py 1066-1071) *)
Variable M : fmem.
(** [self.x_train], [self.y_train] and their number of rows (counterfactual_rules.py 10-12) *)
Variables (data : nat -> pt) (y : nat -> Q) (N : nat).
(** [max_depth], [min_node_size] (5 by default) and [self.classifier] (acv_agnosticX.py 1069-1070) *)
Variables (depth m : nat) (classifier : bool).
(** number of columns, [np.argsort] of the importances (acv_agnosticX.py 1053-1062) *)
Variables (d : nat) (order : list nat).
(** [pi_level] and [stop] (counterfactual_rules.py 43, 156) *)
Variables (pi : Q) (stop : bool).

(** C int conversion of the sets handed back to the compiled code
    ([vector[vector[int]]], cyext_acv.pyx 7373-7420 and 7530-7555); no negative entry occurs. *)
Definition as_columns (l : list Z) : list nat := map Z.to_nat l.
(** utils.py 820-827 then the call of the weights: one row of the session from the row of
    the search.  [after S] is the answer of the weights routine for the set [S]
    (counterfactual_rules.py 56-62 and 173-180). *)
Definition session_row (after : list nat -> Q * rule * (nat -> Q)) (r : SearchModel.row) : divrow :=
  let an := active_null d (r_star r) (r_len r) in
  let res := after (as_columns (snd an)) in
  mkDiv (fst an) (snd an) (fst (fst res)) (snd res).
(** counterfactual_rules.py 52-62 and 165-180: a search, then the weights row by row; [n] is
    the number of observations.  None: an exception. *)
Definition session (P : nat -> list nat -> Q) (after : nat -> list nat -> Q * rule * (nat -> Q)) (n : nat)
  : option divset :=
  match agnostic_search d order [[]] pi P stop n 1 with
  | None => None
  | Some st => Some (mkDivset (importance n st) (fun k => session_row (after k) (s_rows st k)))
  end.

Section Local.
(** [x], [y_target], [down], [up] (counterfactual_rules.py 43-49); [t] is handed to the
    search, which does not read it (cyext_acv.pyx 7099-7108), and not to the weights *)
Variables (x : nat -> pt) (target down up : nat -> Q).
(** counterfactual_rules.py 43-62 ([run_local_divergent_set]). *)
Definition local_divergent (n : nat) : option divset :=
  session
    (on_complement d (fun k S => compute_cdp_rf M data y N depth m classifier S (x k) (target k) (down k) (up k)))
    (fun k S => compute_cdp_rule_weights M data y N depth m classifier S (x k) (target k) (down k) (up k)) n.
End Local.

Section Regional.
(** [self.rules], [y_rules_target], the two columns of [down_up]
    (counterfactual_rules.py 156-163) *)
Variables (rules : nat -> rule) (target down up : nat -> Q).
(** counterfactual_rules.py 156-180 ([run_regional_divergent_set]); the search asks for the
    candidate itself (cyext_acv.pyx 7682-7685), the weights for the complement
    (counterfactual_rules.py 180). *)
Definition regional_divergent (n : nat) : option divset :=
  let intv k S := compute_cdp_intv_weights M data y N depth m classifier (down k) (up k) S (target k) (rules k) in
  session (fun k S => fst (fst (intv k S))) intv n.
End Regional.
End Sessions.

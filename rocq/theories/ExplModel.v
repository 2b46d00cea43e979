(** Model of the objects that carry the explanations: the life cycle of
    [ACXplainer] (acv_agnosticX.py), the columns handed to the searches by
    [ACXplainer] and [ACVTree], and the choice between cached and direct Shapley
    values.  No proofs here. *)
From Verif Require Import Base TreeModel ShapModel SearchModel.

(** ** Life cycle of [ACXplainer] *)
Section Life.
(** what [self.model] holds after a call of [fit] (acv_agnosticX.py 161) *)
Variable F : Type.
(** what [fit_global_rules] leaves in [rules], [rules_output], ... (acv_agnosticX.py 168-184) *)
Variable R : Type.
(** [self.classifier], acv_agnosticX.py 20 *)
Variable classifier : bool.

(** the calls a user can make (acv_agnosticX.py 139-1310).  [Fit f d]: a call of [fit]
    that leaves the forest [f] and [self.d = d]; [Explain]: any of the methods that call
    [check_is_explainer], with [t] left to its default; [FitRules r]: a call of
    [fit_global_rules] that computes [r].  Simplification: calls rejected by the
    validation of their arguments change nothing and are left out. *)
Inductive op := Fit (f : F) (d : nat) | Explain | Predict | FitRules (r : R) | PredictRules.

(** acv_agnosticX.py 233-278 and the like: [Used f d lv] is an explanation computed by
    walking the forest [f] converted for [d] columns, with the default levels [lv] given
    by [predict_quantiles]; [Predicted f], [Ruled r]: answers of the model and of the
    rules; [Unfitted] is NotFittedError. *)
Inductive answer := Done | Used (f : F) (d : nat) (lv : option F) | Predicted (f : F) | Ruled (r : R) | Unfitted.

(** the attributes [model], [d], [check_is_explain], [ACXplainer], [check_is_globalrule]
    and [rules] (acv_agnosticX.py 90-104). *)
Record acx := mkAcx { a_model : option F; a_d : option nat; a_flag : bool;
                      a_expl : option (F * nat); a_globalrule : bool; a_rules : option R }.
(** acv_agnosticX.py 90-104: attributes after [__init__]. *)
Definition acx0 : acx := mkAcx None None false None false None.

(** acv_agnosticX.py 225-231 ([check_is_explainer]); None is NotFittedError.
    [BaseAgnosTree(self.model, self.d)] copies the arrays (base_agnostree.py 217-231). *)
Definition check_is_explainer (a : acx) : option acx :=
  match a_model a with
  | None => None
  | Some f =>
      if a_flag a then Some a
      else Some (mkAcx (a_model a) (a_d a) true
                       (match a_d a with Some d => Some (f, d) | None => None end)
                       (a_globalrule a) (a_rules a))
  end.

(** acv_agnosticX.py 268-271: [t] when the user gives none.  The model is fitted there. *)
Definition default_levels (a : acx) : option F := if classifier then None else a_model a.

(** acv_agnosticX.py 139-224 and 267-277: one call. *)
Definition step (a : acx) (o : op) : acx * answer :=
  match o with
  | Fit f d => (mkAcx (Some f) (Some d) (a_flag a) (a_expl a) (a_globalrule a) (a_rules a), Done)
  | Explain =>
      match check_is_explainer a with
      | None => (a, Unfitted)
      | Some a' => match a_expl a' with
                   | Some (f, d) => (a', Used f d (default_levels a'))
                   | None => (a', Unfitted)
                   end
      end
  | Predict => match a_model a with Some f => (a, Predicted f) | None => (a, Unfitted) end
  | FitRules r => (mkAcx (a_model a) (a_d a) (a_flag a) (a_expl a) true (Some r), Done)
  | PredictRules => if a_globalrule a
                    then match a_rules a with Some r => (a, Ruled r) | None => (a, Unfitted) end
                    else (a, Unfitted)
  end.
(** acv_agnosticX.py 18-137 then any calls: the object after a history. *)
Definition after (h : list op) : acx := fold_left (fun a o => fst (step a o)) h acx0.
(** acv_agnosticX.py 18-1310: the answer of one more call. *)
Definition ask (h : list op) (o : op) : answer := snd (step (after h) o).
End Life.
Arguments Fit {F R}. Arguments Explain {F R}. Arguments Predict {F R}.
Arguments FitRules {F R}. Arguments PredictRules {F R}.
Arguments Done {F R}. Arguments Used {F R}. Arguments Predicted {F R}.
Arguments Ruled {F R}. Arguments Unfitted {F R}.
Arguments ask {F R}.

(** ** Columns handed to the searches *)

(** acv_agnosticX.py 903-913 and 924 ([search_space[:10]]; same text in 979-988, 1053-1062,
    1119-1129, 1194-1204): beyond ten columns, the first ten in the order of
    [np.argsort(-feature_importances_)]. *)
Definition agnostic_space (d : nat) (by_importance : list nat) : list nat :=
  firstn 10 (if 10 <? d then by_importance else seq 0 d).
(** acv_agnosticX.py 849-923 ([importance_sdp_rf]), with the estimator as a parameter; the
    ddp, cdp and intv versions differ in the estimator only. *)
Definition agnostic_search (d : nat) (by_importance : list nat) (C : list group) (pi : Q)
  (P : nat -> list nat -> Q) (stop : bool) (N minimal : nat) : option sstate :=
  search v_rf d pi P cut15 stop N (search_groups C (agnostic_space d by_importance)) minimal.

(** acv_tree.py 140 ([flat_list]): the variables of all leaves of all trees. *)
Definition flat_vars (forest : list (list leaf)) : list nat :=
  concat (map (fun ls => concat (map l_vars ls)) forest).
(** acv_tree.py 139-147 ([importance_sdp_clf]): beyond ten columns, the ten first keys of
    [value_counts] are searched by [global_sdp_clf_approx]; otherwise all columns by
    [global_sdp_clf]. *)
Definition tree_space_groups (d : nat) (by_count : list nat) (C : list group) : list group :=
  if 10 <? d then search_groups C (firstn 10 by_count) else tree_groups C d.
(** acv_tree.py 99-147 ([importance_sdp_clf]) with the estimator as a parameter. *)
Definition tree_search (d : nat) (by_count : list nat) (C : list group) (pi : Q)
  (P : nat -> list nat -> Q) (stop : bool) (N minimal : nat) : option sstate :=
  search_clf v_tree d pi P cut15 stop N (tree_space_groups d by_count C) minimal.

(** ** Cached Shapley values *)

(** base_tree.py 638-640 and acv_tree.py 30-36 ([ACVTree.shap_values]): the counts are
    computed by the constructor for its own coalitions [C0] and read for the coalitions
    [C] of the call. *)
Definition api_shap_values (cache_on : bool) (C0 C : list group) (m : nat) (data : list pt)
  (forest : list (list leaf)) (x : pt) (j : nat) : Q :=
  if cache_on
  then shap_values_leaves_cache (leaves_cache C0 m data forest) C m (length data) forest x j
  else shap_values_leaves C m data forest x j.

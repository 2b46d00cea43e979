(** Model of what the class [CR] prints: [print_rule] (utils_cr.py 271-282), [show_global_counterfactuals]
    and [show_local_counterfactuals] (counterfactual_rules.py 295-359).  No proofs here.
    Simplification, for the whole file: a line is its kind and the values put into it, not its characters; numbers are not rounded
    when they are printed. *)
From Coq Require Import String.
From Verif Require Import Base RfModel.
Local Open Scope nat_scope.
Local Open Scope list_scope.

(** The lines: [print('  ')] ([true]) and [print(' ')] ([false]) (counterfactual_rules.py 303-305, 312), the names of the columns (333),
    'Example {} = {}' (334), 'Example {}' (298), 'Example {} - Counterfactual {}' (307), 'If {} in [{}, {}] and ' (utils_cr.py 274),
    'Then the output is = {}' ([true]) and 'Then the output is  {}' ([false]) (278, 281; [None] is a NaN), 'SDP Probability = {}' ([true]) and
    'Counterfactual CDP Probability = {}' ([false]) (279, 282). *)
Inductive line :=
| Blank (wide : bool) | Columns (names : list string) | Point (i : nat) (x : list Q) | Rule_of (i : nat) | Counter (i l : nat)
| Cond (c : string) (lo hi : Q) | Output (sdp : bool) (v : option Q) | Probability (sdp : bool) (p : Q).
(** What a method has printed, and whether it has returned ([false]: it has raised), counterfactual_rules.py 295-359 *)
Definition printed : Type := list line * bool.
(** [print] (counterfactual_rules.py 298) *)
Definition say (ls : list line) : printed := (ls, true).
(** an exception (counterfactual_rules.py 306: no such entry, or no session before) *)
Definition halt : printed := ([], false).
(** one statement after the other (counterfactual_rules.py 298-306) *)
Definition andthen (p q : printed) : printed := if snd p then (fst p ++ fst q, snd q) else p.
(** a loop (counterfactual_rules.py 297, 306) *)
Fixpoint each {A} (f : A -> printed) (l : list A) : printed :=
  match l with [] => say [] | a :: r => andthen (f a) (each f r) end.
(** [enumerate] (utils_cr.py 272) *)
Definition enumerated {A} (l : list A) : list (nat * A) := combine (seq 0 (length l)) l.

Section Show.
(** [self.columns_name], the number of columns of the tables, [self.acv_explainer.classifier], [self.y_train] (counterfactual_rules.py 6-13) *)
Variables (names : list string) (d : nat) (classifier : bool) (Y : list Q).
(** utils_cr.py 273-275: one column; a rule has [d] columns *)
Definition print_column (r : rule) (ic : nat * string) : printed :=
  let '(i, c) := ic in
  if i <? d
  then if qleb (fst (r i)) (- (10000000000 # 1))%Q && qleb (10000000000 # 1)%Q (snd (r i)) then say []
       else say [Cond c (fst (r i)) (snd (r i)); Blank false]
  else halt.
(** utils_cr.py 271-282 ([print_rule]) *)
Definition print_rule (r : rule) (decision : Q) (sdp : bool) (output : option Q) : printed :=
  andthen (each (print_column r) (enumerated names)) (say [Output sdp output; Probability sdp decision]).
(** [np.mean(self.y_train[w != 0])] (counterfactual_rules.py 310, 343): a NaN without such rows *)
Definition mean_kept (w : nat -> Q) : option Q :=
  let ids := filter (fun j => negb (qeqb (w j) 0)) (seq 0 (length Y)) in
  match ids with [] => None | _ => Some (sumf (fun j => nth j Y 0%Q) ids / Qn (length ids))%Q end.
(** counterfactual_rules.py 307-311, 324-327, 340-344, 355-358: one counterfactual; the rule, its probability and its weights are the entries
    [l] of three lists of the same length; in classification the target [yt[i]] is printed *)
Definition show_counter (yt : list Q) (i : nat) (lc : nat * (rule * Q * (nat -> Q))) : printed :=
  let '(l, (c, p, w)) := lc in
  andthen (say [Counter i l])
    (match (if classifier then option_map Some (nth_error yt i) else Some (mean_kept w)) with
     | Some v => andthen (print_rule c p false v) (say [Blank true])
     | None => halt end).
(** counterfactual_rules.py 306-312, 323-328, 339-345, 354-359: all counterfactuals of one observation or rule; [st] is [None] before the session *)
Definition show_counters (st : option (list (list (rule * Q * (nat -> Q))))) (yt : list Q) (i : nat) : printed :=
  match st with
  | Some outs => match nth_error outs i with
                 | Some es => andthen (each (show_counter yt i) (enumerated es)) (say [Blank false])
                 | None => halt end
  | None => halt
  end.
(** counterfactual_rules.py 330-359 ([show_local_counterfactuals]) *)
Definition show_local (st : option (list (list (rule * Q * (nat -> Q))))) (X : list pt) (yt : list Q) : printed :=
  each (fun ix : nat * pt => let '(i, x) := ix in
          andthen (say [Columns names; Point i (map x (seq 0 d)); Blank true; Blank true; Blank true]) (show_counters st yt i)) (enumerated X).
(** counterfactual_rules.py 295-328 ([show_global_counterfactuals]): the sufficient rules, their probabilities, the targets of their
    observations; before [run_sufficient_rules] there are no rules *)
Definition show_global (rules : option (list rule)) (sdp_rules y_rules : list Q) (st : option (list (list (rule * Q * (nat -> Q))))) (yt : list Q) : printed :=
  match rules with
  | None => halt
  | Some rs =>
      each (fun ir : nat * rule => let '(i, r) := ir in
              andthen (say [Rule_of i])
                (match nth_error sdp_rules i, nth_error y_rules i with
                 | Some p, Some v => andthen (print_rule r p true (Some v)) (andthen (say [Blank true; Blank true; Blank true]) (show_counters st yt i))
                 | _, _ => halt end)) (enumerated rs)
  end.
End Show.

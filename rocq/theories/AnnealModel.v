(** Model of the simulated-annealing searches of utils.py 1545-1605, 2015-2175 and
    utils_cr.py 285-348, 620-787.  The random generator is arbitrary: a state [G]
    with [rand] and [randint]; [exp] and the logarithms are arbitrary functions. *)
From Verif Require Import Base RfModel RulesModel.

(** utils_cr.py 620-635: values that may replace the lower bound of variable [k]:
    smaller bounds of the other rules, and the bound itself.  The order of the
    list made from a [set] is immaterial, the index drawn being arbitrary. *)
Definition left_values_cr (r : rule) (others : list rule) (k : nat) : list Q :=
  map (fun o => lo o k) (filter (fun o => qltb (lo o k) (lo r k)) others) ++ [lo r k].
(** utils_cr.py 620-635: same for upper bounds. *)
Definition right_values_cr (r : rule) (others : list rule) (k : nat) : list Q :=
  map (fun o => hi o k) (filter (fun o => qltb (hi r k) (hi o k)) others) ++ [hi r k].
(** utils.py 2015-2031: same with [<=], on the rules of the samples reaching the
    level (2017); see [adjacent]. *)
Definition left_values (r : rule) (others : list rule) (k : nat) : list Q :=
  map (fun o => lo o k) (filter (fun o => qleb (lo o k) (lo r k)) others) ++ [lo r k].
(** utils.py 2015-2031. *)
Definition right_values (r : rule) (others : list rule) (k : nat) : list Q :=
  map (fun o => hi o k) (filter (fun o => qleb (hi r k) (hi o k)) others) ++ [hi r k].
(** utils.py 2017: the rules of the samples reaching the level. *)
Definition adjacent (M : nat) (rule_data : nat -> rule) (sdp : nat -> Q) (pi : Q) : list rule :=
  map rule_data (filter (fun i => qleb pi (sdp i)) (seq 0 M)).
(** utils_cr.py 660-663, utils.py 2056-2059: no weight of [bad] inside the rule;
    [N] samples. *)
Definition check_rule (d N : nat) (data : nat -> pt) (bad : nat -> Q) (r : rule) : bool :=
  qeqb (sumf (fun i => Qb (in_rule (seq 0 d) r (data i)) * bad i)%Q (seq 0 N)) 0.
(** utils_cr.py 684-694, utils.py 2081-2091: infinite bounds replaced by extreme
    values of the data, in this order. *)
Definition convert_bound (mn mx v : Q) : Q :=
  let v := if qleb v (- big) then mn else v in if qleb big v then mx else v.
(** utils_cr.py 697-704, utils.py 2094-2101. *)
Definition volume_rectangle (d : nat) (mx mn : nat -> Q) (r : rule) : Q :=
  fold_left (fun v i => v * (convert_bound (mn i) (mx i) (hi r i) - convert_bound (mn i) (mx i) (lo r i)))%Q (seq 0 d) 1%Q.
(** utils_cr.py 711-715 ([strict = false]) and utils.py 2108-2112 ([strict = true]:
    the lower bound is excluded); [None] is 0/0. *)
Definition max_dens (strict : bool) (d N : nat) (data : nat -> pt) (bad : nat -> Q) (r : rule) : option Q :=
  let x_in i := forallb (fun s => qleb (data i s) (hi r s) &&
                  (if strict then qltb (lo r s) (data i s) else qleb (lo r s) (data i s))) (seq 0 d) in
  let t := sumf (fun i => 1 - bad i)%Q (seq 0 N) in
  if qeqb t 0 then None else Some (sumf (fun i => Qb (x_in i) * (1 - bad i))%Q (seq 0 N) / t)%Q.
(** utils_cr.py 771-778: samples in none of the rules. *)
Definition bad_sample_cr (d : nat) (data : nat -> pt) (r : rule) (others : list rule) (i : nat) : Q :=
  if in_rule (seq 0 d) r (data i) || existsb (fun o => in_rule (seq 0 d) o (data i)) others then 0%Q else 1%Q.
(** utils.py 2165: samples below the level. *)
Definition bad_sample (sdp : nat -> Q) (pi : Q) (i : nat) : Q := if qleb pi (sdp i) then 0%Q else 1%Q.

Section Random.
Context {G : Type}.
Variables (rand : G -> Q * G) (randint : nat -> G -> nat * G) (exp : Q -> Q) (lg : nat -> Q) (temp : Q).

(** utils_cr.py 638-639, utils.py 2034-2035: [np.random.randint(0, 0)] raises. *)
Definition rdm_sample {A} (l : list A) (g : G) : option (A * G) :=
  match l with
  | [] => None
  | _ => let (k, g') := randint (length l) g in option_map (fun a => (a, g')) (nth_error l k)
  end.
(** utils_cr.py 646-655, utils.py 2041-2051: both loops; [keep] restricts the
    values to those that do not shrink the current rule. *)
Fixpoint draw_bounds (left right : nat -> list Q) (keep : bool) (vars : list nat) (r : rule) (g : G) : option (rule * G) :=
  match vars with
  | [] => Some (r, g)
  | i :: rest =>
      let L := if keep then filter (fun v => qleb v (lo r i)) (left i) else left i in
      let R := if keep then filter (fun v => qleb (hi r i) v) (right i) else right i in
      match rdm_sample L g with
      | None => None
      | Some (a, g1) => match rdm_sample R g1 with
                        | None => None
                        | Some (b, g2) => draw_bounds left right keep rest (upd r i (a, b)) g2
                        end
      end
  end.
(** utils_cr.py 642-657, utils.py 2038-2053. *)
Definition generate_newrule (d : nat) (r : rule) (left right : nat -> list Q) (p_best : Q) (g : G) : option (rule * G) :=
  let (u, g1) := rand g in draw_bounds left right (negb (qltb p_best u)) (seq 0 d) r g1.
(** utils_cr.py 669-676, utils.py 2065-2072: at most [tries] attempts. *)
Fixpoint try_rules (tries d N : nat) (data : nat -> pt) (bad : nat -> Q) (r : rule) (left right : nat -> list Q)
  (p_best : Q) (g : G) : option (rule * G) :=
  match tries with
  | O => Some (r, g)
  | S t => match generate_newrule d r left right p_best g with
           | None => None
           | Some (r', g') => if check_rule d N data bad r' then Some (r', g')
                              else try_rules t d N data bad r left right p_best g'
           end
  end.
(** utils_cr.py 666-676, utils.py 2062-2072: [it <= n_try]. *)
Definition generate_valid_rule (n_try : nat) := try_rules (S n_try).
(** utils_cr.py 679-681, utils.py 2075-2078. *)
Fixpoint generate_rules (n_gen n_try d N : nat) (data : nat -> pt) (bad : nat -> Q) (r : rule) (left right : nat -> list Q)
  (p_best : Q) (g : G) : option (list rule * G) :=
  match n_gen with
  | O => Some ([], g)
  | S n => match generate_valid_rule n_try d N data bad r left right p_best g with
           | None => None
           | Some (r', g') =>
               option_map (fun q => (r' :: fst q, snd q)) (generate_rules n n_try d N data bad r left right p_best g')
           end
  end.

(** utils_cr.py 752-754, 341-343: [np.exp(-diff / t)], [t = temp / np.log(i + 1)],
    infinite at [i = 0]. *)
Definition metropolis (i : nat) (diff : Q) : Q :=
  exp (if i =? 0 then 0%Q else (- diff / (temp / lg i))%Q).
(** utils_cr.py 756, 345: [diff > 0 or rand() < metropolis]; the number is drawn
    only if needed. *)
Definition accept (i : nat) (diff : Q) (g : G) : bool * G :=
  if qltb 0 diff then (true, g) else let (u, g') := rand g in (qltb u (metropolis i diff), g').

(** The loop shared by utils_cr.py 733-757, 322-346 and utils.py 2130-2154,
    1578-1602.  [gen] draws a batch around the current state, [stop] is the test of
    convergence.  The last component lists the candidates evaluated; it is not in
    the code.  [None]: an exception, or [np.max] of an empty batch. *)
Fixpoint anneal_loop {A} (gen : A -> G -> option (list A * G)) (value : A -> Q) (stop : Q -> nat -> bool)
  (iters i : nat) (best curr : A) (best_eval curr_eval : Q) (move : nat) (g : G) (log : list A)
  : option (A * Q * list A) :=
  match iters with
  | O => Some (best, best_eval, log)
  | S n =>
      match gen curr g with
      | None => None
      | Some (cands, g1) =>
          match argmax (map value cands) with
          | None => None
          | Some b =>
              match nth_error cands b with
              | None => None
              | Some cand =>
                  let ev := value cand in
                  let up := qltb best_eval ev in
                  let best' := if up then cand else best in
                  let best_eval' := if up then ev else best_eval in
                  let move' := if up then 0 else S move in
                  let log' := log ++ cands in
                  if stop best_eval' move' then Some (best', best_eval', log')
                  else let (ok, g2) := accept i (ev - curr_eval)%Q g1 in
                       anneal_loop gen value stop n (S i) best' (if ok then cand else curr) best_eval'
                         (if ok then ev else curr_eval) move' g2 log'
              end
          end
      end
  end.

(** utils_cr.py 722-759, utils.py 2119-2156.  With one variable, [np.squeeze] makes
    a flat array of the first rule, and indexing it with two indices raises. *)
Definition rules_simulated_annealing (value : rule -> Q) (r : rule) (left right : nat -> list Q)
  (d N : nat) (data : nat -> pt) (bad : nat -> Q) (p_best : Q) (n_try batch max_iter conv : nat) (g : G)
  : option (rule * Q * list rule) :=
  match generate_rules 1 n_try d N data bad r left right p_best g with
  | Some ([best], g1) =>
      if (d =? 1) && negb (max_iter =? 0) then None
      else anneal_loop (fun c g => generate_rules batch n_try d N data bad c left right p_best g) value
             (fun _ move => conv <? move) max_iter 0 best best (value best) (value best) 0 g1 [best]
  | _ => None
  end.
(** utils_cr.py 762-787 for one rule. *)
Definition rules_by_annealing_cr (value : rule -> Q) (r : rule) (others : list rule) (d N : nat) (data : nat -> pt)
  (p_best : Q) (n_try batch max_iter conv : nat) (g : G) : option (rule * Q * list rule) :=
  rules_simulated_annealing value r (left_values_cr r others) (right_values_cr r others) d N data
    (bad_sample_cr d data r others) p_best n_try batch max_iter conv g.
(** utils.py 2159-2175 for one rule; [N] training samples, one rule for each. *)
Definition rules_by_annealing (value : rule -> Q) (r : rule) (rule_data : nat -> rule) (sdp : nat -> Q) (pi : Q)
  (d N : nat) (data : nat -> pt) (p_best : Q) (n_try batch max_iter conv : nat) (g : G) : option (rule * Q * list rule) :=
  rules_simulated_annealing value r (left_values r (adjacent N rule_data sdp pi)) (right_values r (adjacent N rule_data sdp pi))
    d N data (bad_sample sdp pi) p_best n_try batch max_iter conv g.

(** utils_cr.py 39-43, 399-403: the rules of the samples reaching the level, without
    repetition, or the rules of the first five samples in the order of [np.argsort]. *)
Definition start_leaves (d n : nat) (rules : nat -> rule) (sdp : nat -> Q) (pi : Q) (order : list nat) : list rule :=
  match filter (fun i => qleb pi (sdp i)) (seq 0 n) with
  | [] => map rules (firstn 5 order)
  | l => unique (rule_cmp d) (map rules l)
  end.
(** utils_cr.py 47-54, 407-416: every rule is enlarged with the initial rules of the
    others.  [gs i] is the state of the generator before the search of rule [i]: any
    state, instead of the one the previous search ends in. *)
Fixpoint grow_leaves (value : rule -> Q) (all : list rule) (d N : nat) (data : nat -> pt) (p_best : Q)
  (n_try batch max_iter conv : nat) (gs : nat -> G) (i : nat) (leaves : list rule) : option (list rule) :=
  match leaves with
  | [] => Some []
  | r :: rest =>
      match rules_by_annealing_cr value r (filter (fun q => negb (allclose d q r)) all) d N data p_best n_try batch max_iter conv (gs i) with
      | None => None
      | Some (b, _, _) => option_map (cons b) (grow_leaves value all d N data p_best n_try batch max_iter conv gs (S i) rest)
      end
  end.
(** utils_cr.py 28-55 (and 383-417), after the same-decision probabilities and rules. *)
Definition return_leaf_cnt (value : rule -> Q) (d n : nat) (rules : nat -> rule) (sdp : nat -> Q) (pi : Q) (order : list nat)
  (N : nat) (data : nat -> pt) (p_best : Q) (n_try batch max_iter conv : nat) (gs : nat -> G) : option (list rule) :=
  let l := start_leaves d n rules sdp pi order in
  grow_leaves value l d N data p_best n_try batch max_iter conv gs 0 l.

(** ** Samples *)
(** [np.random.randint(0, k, n)], utils_cr.py 294. *)
Fixpoint randints (n k : nat) (g : G) : list nat * G :=
  match n with
  | O => ([], g)
  | S m => let (a, g1) := randint k g in let (l, g2) := randints m k g1 in (a :: l, g2)
  end.
(** utils_cr.py 286, utils.py 1546: training values of variable [k] inside the rule. *)
Definition possible (N : nat) (data : nat -> pt) (cond : rule) (k : nat) : list Q :=
  map (fun i => data i k) (filter (fun i => qleb (lo cond k) (data i k) && qleb (data i k) (hi cond k)) (seq 0 N)).
(** assignment of a column, utils_cr.py 292-295. *)
Definition set_column (k : nat) (vals : list Q) (xs : list pt) : list pt :=
  map (fun p => upd (fst p) k (snd p)) (combine xs vals).
(** utils_cr.py 285-297 ([fallback = true]: the lower bound if there is no
    training value) and utils.py 1545-1553 ([fallback = false]: [randint] raises). *)
Fixpoint fill_columns (fallback : bool) (N : nat) (data : nat -> pt) (cond : rule) (S : list nat) (n : nat)
  (xs : list pt) (g : G) : option (list pt * G) :=
  match S with
  | [] => Some (xs, g)
  | k :: rest =>
      match possible N data cond k with
      | [] => if fallback then fill_columns fallback N data cond rest n (set_column k (repeat (lo cond k) n) xs) g else None
      | p => let (ids, g') := randints n (length p) g in
             fill_columns fallback N data cond rest n (set_column k (map (fun j => nth j p 0%Q) ids) xs) g'
      end
  end.
(** utils_cr.py 285-297, utils.py 1545-1553. *)
Definition generate_candidate (fallback : bool) (x : pt) (S : list nat) (N : nat) (data : nat -> pt) (cond : rule) (n : nat)
  (g : G) : option (list pt * G) := fill_columns fallback N data cond S n (repeat x n) g.
(** utils_cr.py 300-348, utils.py 1556-1605. *)
Definition simulated_annealing (fallback : bool) (score : pt -> Q) (x : pt) (S : list nat) (N : nat) (data : nat -> pt)
  (cond : rule) (batch max_iter conv : nat) (g : G) : option (pt * Q * list pt) :=
  match generate_candidate fallback x S N data cond 1 g with
  | Some ([best], g1) =>
      anneal_loop (fun c g => generate_candidate fallback c S N data cond batch g) score
        (fun best_eval move => qltb 0 best_eval && (conv <? move)) max_iter 0 best best (score best) (score best) 0 g1 [best]
  | _ => None
  end.
End Random.

(** Model of the helpers that enlarge, filter, evaluate and apply rules
    (rectangles), utils.py 927-1115 and 1369-1480, utils_cr.py 57-200, 790-809. *)
From Verif Require Import Base RfModel.
From Coq Require Import Qround.

(** Rules are those of the compiled routines (RfModel): [rule[k, 0]] and
    [rule[k, 1]], utils.py 930-935. *)
Definition lo (r : rule) (k : nat) : Q := fst (r k).
(** [rule[k, 1]], utils.py 930-935. *)
Definition hi (r : rule) (k : nat) : Q := snd (r k).
(** [rec_a[k, dim] = v], utils.py 948; [true] is the column 1. *)
Definition set_bound (r : rule) (k : nat) (dim : bool) (v : Q) : rule :=
  upd r k (if dim then (lo r k, v) else (v, hi r k)).

(** ** Enlarging a rule with its neighbours *)
(** utils.py 927-937: the axes [k] of [S] on which the rectangles touch, with
    the side of [a] that touches. *)
Fixpoint find_nbor (a b : rule) (Sv : list nat) : list (nat * bool) :=
  match Sv with
  | [] => []
  | k :: r => if qeqb (lo a k) (hi b k) then (k, false) :: find_nbor a b r
              else if qeqb (hi a k) (lo b k) then (k, true) :: find_nbor a b r
              else find_nbor a b r
  end.
(** utils.py 944: [not b0 <= a0 and b1 >= a1], which Python reads as
    [(not b0 <= a0) and (b1 >= a1)]. *)
Definition blocked (a b : rule) (k : nat) : bool :=
  negb (qleb (lo b k) (lo a k)) && qleb (hi a k) (hi b k).
(** utils.py 940-949; [ax] is the list of pairs ([axs], [dim]). *)
Definition extend_rec (a b : rule) (Sv : list nat) (ax : list (nat * bool)) : rule :=
  if existsb (fun k => negb (memb k (map fst ax)) && blocked a b k) Sv then a
  else fold_left (fun r p => set_bound r (fst p) (snd p) (if snd p then hi b (fst p) else lo b (fst p))) ax a.
(** utils.py 954-957, 961: the first rectangle of the list touching [a], and
    the list without it. *)
Fixpoint first_nbor (a : rule) (l : list rule) (Sv : list nat) : option (rule * list rule) :=
  match l with
  | [] => None
  | b :: r => match find_nbor a b Sv with
              | [] => match first_nbor a r Sv with Some (c, r') => Some (c, b :: r') | None => None end
              | _ :: _ => Some (b, r)
              end
  end.
(** utils.py 952-963; the recursion removes one rectangle per call, [None] would
    be running out of fuel. *)
Fixpoint find_union_n (n : nat) (a : rule) (l : list rule) (Sv : list nat) : option rule :=
  match n with
  | O => None
  | S n' => match first_nbor a l Sv with
            | None => Some a
            | Some (b, l') => find_union_n n' (extend_rec a b Sv (find_nbor a b Sv)) l' Sv
            end
  end.
(** utils.py 952-963. *)
Definition find_union (a : rule) (l : list rule) (Sv : list nat) : option rule :=
  find_union_n (S (length l)) a l Sv.
(** utils.py 966-969: rule [i] is enlarged with the rules of the samples of
    probability at least [pi]; [M] samples. *)
Definition extend_partition (rules : nat -> rule) (rules_data : nat -> nat -> rule)
  (sdp_all : nat -> nat -> Q) (M : nat) (pi : Q) (Ss : nat -> list nat) (i : nat) : option rule :=
  find_union (rules i) (map (rules_data i) (filter (fun j => qleb pi (sdp_all i j)) (seq 0 M))) (Ss i).

(** ** Sorted distinct rows *)
(** comparison of two rows, used by [np.unique], utils.py 1077, 1388. *)
Fixpoint qlist_cmp (a b : list Q) : comparison :=
  match a, b with
  | [], [] => Eq
  | [], _ => Lt
  | _, [] => Gt
  | x :: r, y :: s => if qltb x y then Lt else if qltb y x then Gt else qlist_cmp r s
  end.
(** the entries of a rule with [d] variables in memory order, utils.py 1388. *)
Definition flat (d : nat) (r : rule) : list Q := flat_map (fun k => [lo r k; hi r k]) (seq 0 d).
(** the order of [np.unique(.., axis=0)] on rules, utils.py 1388. *)
Definition rule_cmp (d : nat) (a b : rule) : comparison := qlist_cmp (flat d a) (flat d b).
(** insertion without repetition, as in [np.unique] (utils.py 1388). *)
Fixpoint uinsert {A} (cmp : A -> A -> comparison) (a : A) (l : list A) : list A :=
  match l with
  | [] => [a]
  | b :: r => match cmp a b with Lt => a :: l | Eq => l | Gt => b :: uinsert cmp a r end
  end.
(** [np.unique(.., axis=0)], utils.py 1077, 1388, 2186: sorted and distinct. *)
Definition unique {A} (cmp : A -> A -> comparison) (l : list A) : list A := fold_right (uinsert cmp) [] l.
(** order of [np.unique] on numbers, utils.py 2186. *)
Definition q_cmp (a b : Q) : comparison := qlist_cmp [a] [b].

(** ** Removing rules contained in others *)
(** utils.py 1386, utils_cr.py 63: [a] is contained in [b] on all variables. *)
Definition contained (d : nat) (a b : rule) : bool :=
  forallb (fun s => qleb (hi a s) (hi b s) && qleb (lo b s) (lo a s)) (seq 0 d).
(** utils.py 1385-1388, utils_cr.py 62-65: body of the double loop. *)
Definition absorb (d i : nat) (ra : nat -> rule) (j : nat) : nat -> rule :=
  if negb (i =? j) && contained d (ra i) (ra j) then upd ra i (ra j) else ra.
(** utils.py 1384-1388, utils_cr.py 61-65: the double loop over [n] rules, in place. *)
Definition absorb_all (d n : nat) (ra : nat -> rule) : nat -> rule :=
  fold_left (fun ra i => fold_left (absorb d i) (seq 0 n) ra) (seq 0 n) ra.
(** utils.py 1380-1389, utils_cr.py 57-66. *)
Definition remove_in (d n : nat) (ra : nat -> rule) : list rule :=
  unique (rule_cmp d) (map (absorb_all d n ra) (seq 0 n)).
(** utils.py 2183-2188: rules and probabilities together. *)
Definition absorb_pair (d i : nat) (ra : nat -> rule * Q) (j : nat) : nat -> rule * Q :=
  if negb (i =? j) && contained d (fst (ra i)) (fst (ra j)) then upd ra i (ra j) else ra.
(** utils.py 2178-2189: rules and probabilities are sorted separately at the end. *)
Definition remove_in_wsdp (d n : nat) (ra : nat -> rule * Q) : list rule * list Q :=
  let out := fold_left (fun ra i => fold_left (absorb_pair d i) (seq 0 n) ra) (seq 0 n) ra in
  (unique (rule_cmp d) (map (fun i => fst (out i)) (seq 0 n)),
   unique q_cmp (map (fun i => snd (out i)) (seq 0 n))).
(** utils_cr.py 797-805: the indices put in [remove_list]. *)
Definition remove_list (d n : nat) (ra : nat -> rule) : list nat :=
  flat_map (fun i => filter (fun j => negb (i =? j) && contained d (ra i) (ra j)) (seq 0 n)) (seq 0 n).
(** utils_cr.py 790-809: [np.delete] of rules, probabilities and weights. *)
Definition remove_in_wsdp_cr {W} (d n : nat) (ra : nat -> rule) (sa : nat -> Q) (wa : nat -> W)
  : list (rule * Q * W) :=
  map (fun i => (ra i, sa i, wa i)) (filter (fun i => negb (memb i (remove_list d n ra))) (seq 0 n)).

(** ** Metrics of rules and prediction with rules *)
(** utils.py 980, 1050-1051: membership on the variables [S] ([np.prod] of an
    empty list is 1). *)
Definition in_rule (Sv : list nat) (r : rule) (x : pt) : bool :=
  forallb (fun s => qleb (x s) (hi r s) && qleb (lo r s) (x s)) Sv.
(** [np.mean], utils.py 1053-1058; [None] is the NaN of an empty array. *)
Definition mean (l : list Q) : option Q :=
  match l with [] => None | _ => Some (sumf (fun a => a) l / Qn (length l))%Q end.
(** [np.var], utils.py 1061. *)
Definition variance (l : list Q) : option Q :=
  match mean l with
  | None => None
  | Some m => mean (map (fun a => (a - m) * (a - m))%Q l)
  end.

(** one row of the results of utils.py 1040-1064. *)
Record metrics := mkMetrics { m_cov : Q; m_acc : option Q; m_var : option Q; m_out : option Q; m_proba : option Q }.
(** utils.py 1047-1061 for one rule; [N] samples.  With an empty [S] the mask
    [where] is a scalar and its sum is 1. *)
Definition rule_metrics (classifier : bool) (data : nat -> pt) (y : nat -> Q) (N : nat)
  (Sv : list nat) (r : rule) : metrics :=
  let inside := filter (fun i => in_rule Sv r (data i)) (seq 0 N) in
  let ys := map y inside in
  let cov := match Sv with [] => (1 / Qn N)%Q | _ => (Qn (length inside) / Qn N)%Q end in
  if classifier then
    let out := match mean ys with Some m => Qb (qltb (1 # 2) m) | None => 0%Q end in
    mkMetrics cov (mean (map (fun v => Qb (qeqb v out)) ys)) (variance ys) (Some out) (mean ys)
  else
    let out := mean ys in
    mkMetrics cov (match out with Some m => mean (map (fun v => (v - m) * (v - m))%Q ys) | None => None end)
              (variance ys) out None.
(** utils.py 1040-1064. *)
Definition compute_rules_metrics (classifier : bool) (data : nat -> pt) (y : nat -> Q) (N n : nat)
  (Ss : nat -> list nat) (rules : nat -> rule) : list metrics :=
  map (fun i => rule_metrics classifier data y N (Ss i) (rules i)) (seq 0 n).

(** What the rule predictor does with one sample: utils.py 988-1001. *)
Inductive verdict := Raises | Abstains | Answers (i : nat).
(** [np.max] / [np.min] of a non-empty array, NaN if one entry is, utils.py 989. *)
Definition extreme (better : Q -> Q -> bool) (a : option Q) (l : list (option Q)) : option Q :=
  fold_left (fun m b => match m, b with
                        | Some m, Some b => Some (if better b m then b else m)
                        | _, _ => None
                        end) l a.
(** [np.argmax(y_weights == m)], utils.py 991: the first equal entry; [0] if none. *)
Fixpoint first_equal (m : Q) (l : list (nat * option Q)) (default : nat) : nat :=
  match l with
  | [] => default
  | (i, Some a) :: r => if qeqb a m then i else first_equal m r default
  | (_, None) :: r => first_equal m r default
  end.
(** utils.py 972-1003 for one sample, [n] rules: [acc] may be NaN; the answer
    is the index of the chosen rule, whose output, rectangle and variables are
    reported. *)
Definition rules_model (better enough : Q -> Q -> bool) (n : nat) (rules : nat -> rule)
  (cov : nat -> Q) (acc : nat -> option Q) (Ss : nat -> list nat) (min_cov level : Q) (x : pt) : verdict :=
  let y_in := filter (fun i => in_rule (Ss i) (rules i) x) (seq 0 n) in
  match y_in with
  | [] => Abstains
  | i0 :: _ =>
      match map acc (filter (fun i => qleb min_cov (cov i)) y_in) with
      | [] => Raises
      | a :: l =>
          match extreme better a l with
          | None => Abstains
          | Some m => if enough m level
                      then Answers (first_equal m (map (fun i => (i, acc i)) y_in) i0)
                      else Abstains
          end
      end
  end.
(** utils.py 972-1003: [np.max], [>= min_acc]. *)
Definition global_rules_model := rules_model (fun b m => qltb m b) (fun m level => qleb level m).
(** utils.py 1006-1037: [np.min], [<= min_mse]. *)
Definition global_rules_model_reg := rules_model (fun b m => qltb b m) (fun m level => qleb m level).

(** [np.allclose] on the entries of two rules (default tolerances), utils.py
    1072, 1083, 1096. *)
Definition allclose (d : nat) (a b : rule) : bool :=
  forallb (fun p => qleb (Qabs (fst p - snd p)) ((1 # 100000000) + (1 # 100000) * Qabs (snd p)))
          (combine (flat d a) (flat d b)).
(** utils.py 1067-1075: share of the rules close to rule [i]. *)
Definition rules_frequency (d n : nat) (rules : nat -> rule) (i : nat) : Q :=
  (Qn (length (filter (fun j => allclose d (rules j) (rules i)) (seq 0 n))) / Qn n)%Q.
(** utils.py 1078-1099: the distinct rules, each with the output (or set of
    variables) of the first rule close to it. *)
Definition unique_rules {B} (d n : nat) (rules : nat -> rule) (outputs : nat -> B) : list (rule * option B) :=
  map (fun u => (u, option_map outputs (find (fun j => allclose d u (rules j)) (seq 0 n))))
      (unique (rule_cmp d) (map rules (seq 0 n))).

(** ** Counterfactual rules *)
(** utils_cr.py 121-130: bounds -1e10 and 1e10, the observation's values on
    [S_bar_set], then the leaf on [S_star]. *)
Definition cond_local (S_star S_bar : list nat) (x : pt) (leaf : rule) : rule :=
  fold_left (fun c s => upd c s (leaf s)) S_star (fold_left (fun c s => upd c s (x s, x s)) S_bar rule0).
(** utils_cr.py 207-210: the rule [cond_s] with the leaf on [S_star]. *)
Definition cond_regional (S_star : list nat) (cond_s leaf : rule) : rule :=
  fold_left (fun c s => upd c s (leaf s)) S_star cond_s.
(** [np.argmax] of a list of numbers, utils_cr.py 145: the first maximal index. *)
Fixpoint argmax_from (l : list Q) (i best : nat) (m : Q) : nat :=
  match l with [] => best | a :: r => if qltb m a then argmax_from r (S i) i a else argmax_from r (S i) best m end.
(** [np.argmax], utils_cr.py 145. *)
Definition argmax (l : list Q) : option nat := match l with [] => None | a :: r => Some (argmax_from r 1 0 a) end.
(** utils_cr.py 111-161 (and 200-235, 460-505, 535-560): [mk] builds the
    condition from a leaf, [est] is the estimator of probability and weights.
    [None]: [np.argmax] of an empty list raises. *)
Definition return_counterfactuals {W} (est : rule -> Q * W) (mk : rule -> rule) (leaves : list rule) (pi : Q)
  : option (list (rule * Q * W)) :=
  let all := map (fun leaf => (mk leaf, fst (est (mk leaf)), snd (est (mk leaf)))) leaves in
  match filter (fun p => qleb pi (snd (fst p))) all with
  | [] => match argmax (map (fun p => snd (fst p)) all) with
          | None => None
          | Some b => match nth_error leaves b with
                      | Some leaf => Some [(mk leaf, fst (est (mk leaf)), snd (est (mk leaf)))]
                      | None => None
                      end
          end
  | l => Some l
  end.
(** utils.py 1425-1455: the conditions reaching the level, then rules and
    probabilities sorted separately (weights, treated alike, are left out). *)
Definition return_counterfactuals_v1 {W} (d : nat) (est : rule -> Q * W) (mk : rule -> rule) (leaves : list rule)
  (pi : Q) : list rule * list Q :=
  let l := filter (fun c => qleb pi (fst (est c))) (map mk leaves) in
  (unique (rule_cmp d) l, unique q_cmp (map (fun c => fst (est c)) l)).

(** [np.rint] (half to even), used by [np.round(.., 2)], utils_cr.py 86. *)
Definition rint (q : Q) : Z :=
  let f := Qfloor q in
  let r := (q - inject_Z f)%Q in
  if qltb r (1 # 2) then f else if qltb (1 # 2) r then (f + 1)%Z else if Z.even f then f else (f + 1)%Z.
(** [np.round(.., 2)], utils_cr.py 86. *)
Definition round2 (q : Q) : Q := (inject_Z (rint (q * 100)) / 100)%Q.
(** utils_cr.py 86: all bounds of a leaf are rounded. *)
Definition round_rule (r : rule) : rule := fun k => (round2 (lo r k), round2 (hi r k)).
(** utils_cr.py 95-98 (ind: [y_in == y_target]) and 440-445 (ind: inside the
    interval): share of the samples of the leaf with the target. *)
Definition leaf_acc (d N : nat) (data : nat -> pt) (ind : nat -> bool) (leaf : rule) : option Q :=
  mean (map (fun i => Qb (ind i)) (filter (fun i => in_rule (seq 0 d) leaf (data i)) (seq 0 N))).
(** [np.argmax] with NaN: the first NaN wins, utils_cr.py 104. *)
Fixpoint nan_argmax_from (l : list (option Q)) (i best : nat) (m : Q) : nat :=
  match l with
  | [] => best
  | None :: _ => i
  | Some a :: r => if qltb m a then nan_argmax_from r (S i) i a else nan_argmax_from r (S i) best m
  end.
(** [np.argmax] with NaN, utils_cr.py 104. *)
Definition nan_argmax (l : list (option Q)) : option nat :=
  match l with [] => None | None :: _ => Some 0 | Some a :: r => Some (nan_argmax_from r 1 0 a) end.
(** utils_cr.py 83-108 (and 430-455): duplicates and contained leaves removed,
    bounds rounded, the accurate leaves kept, else the best one ([None]: no leaf,
    [np.argmax] raises). *)
Definition get_compatible_leaf (d N : nat) (data : nat -> pt) (ind : nat -> bool) (acc_level : Q)
  (leaves : list rule) : option (list rule) :=
  let l0 := unique (rule_cmp d) leaves in
  let parts := map round_rule (remove_in d (length l0) (fun i => nth i l0 rule0)) in
  let accs := map (leaf_acc d N data ind) parts in
  match nan_argmax accs with
  | None => None
  | Some b =>
      let suf := filter (fun p => match leaf_acc d N data ind p with Some a => qleb acc_level a | None => false end)
                        parts in
      Some (match suf with [] => [nth b parts rule0] | _ => suf end)
  end.
(** utils_cr.py 12-23, 366-375: the samples of positive weight with the target,
    else the first ten with the target. *)
Definition return_xy_cnt (N : nat) (w : nat -> Q) (ind : nat -> bool) : list nat :=
  match filter (fun i => negb (qeqb (w i) 0) && ind i) (seq 0 N) with
  | [] => firstn 10 (filter ind (seq 0 N))
  | l => l
  end.

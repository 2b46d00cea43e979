(** Model of the conditional expectations of one tree in the experiments: experiments/exp_linear.py 54-371 and 398-436
    (cond_exp_tree, cond_exp_tree_intv; the same text in experiments/exp_syn.py 64-446 and experiments/shap_linear.py 54-445, and in
    experiments/exp_linear_gmm.py 870-1124 on the mixture), and of the distance and the same-decision probability of
    experiments/exp_linear_gmm.py 1239-1666.  Numbers are rationals: no rounding to float32.  No proofs here. *)
From Verif Require Import Base TreeModel RulesModel ShapModel SdpModel PartModel MvnModel GmmModel McModel SwingModel PermModel.
Local Open Scope nat_scope.

Section Tree.
(** [tree], experiments/exp_linear.py 74-79. *)
Variable t : tree.
(** [tree.weighted_n_node_samples], experiments/exp_linear.py 78. *)
Variable w : nat -> Q.
(** [x] and [S], experiments/exp_linear.py 54. *)
Variables (x : pt) (Sv : list nat).

(** [f[i] == -2], experiments/exp_linear.py 84, 97, 135, 174. *)
Definition marked (i : nat) : bool := (nth i (ft t) 0 =? -2)%Z.
(** [a[i]] and [b[i]], experiments/exp_linear.py 89-93. *)
Definition lchild (i : nat) : nat := Z.to_nat (clz t i).
(** [b[i]], experiments/exp_linear.py 91. *)
Definition rchild (i : nat) : nat := Z.to_nat (crz t i).
(** [x[f[i]] <= t[i]], experiments/exp_linear.py 88. *)
Definition goes_left (i : nat) : bool := qleb (x (ftn t i)) (thq t i).

(** Sum of two numbers, experiments/exp_linear.py 93; None is an exhausted recursion or a NaN. *)
Definition add2 (a b : option Q) : option Q := match a, b with Some p, Some q => Some (p + q)%Q | _, _ => None end.

(** experiments/exp_linear.py 82-93 ([G]); the fuel bounds the recursion; a node without weight divides by zero. *)
Fixpoint G (fuel i : nat) (q : Q) : option Q :=
  match fuel with
  | O => None
  | S k =>
    if marked i then Some (q * vlq t i)%Q
    else if memb (ftn t i) Sv then (if goes_left i then G k (lchild i) q else G k (rchild i) q)
    else if qeqb (w i) 0 then None
    else add2 (G k (lchild i) (q * w (lchild i) / w i)%Q) (G k (rchild i) (q * w (rchild i) / w i)%Q)
  end.
(** experiments/exp_linear.py 219-220 (algo 'shap'). *)
Definition exp_shap : option Q := G (nn t) 0 1.

(** experiments/exp_linear.py 95-107 ([explore]): the array [tab]. *)
Fixpoint mark (fuel i : nat) (tab : nat -> bool) : option (nat -> bool) :=
  match fuel with
  | O => None
  | S k =>
    if marked i then Some (upd tab i true)
    else if memb (ftn t i) Sv then (if goes_left i then mark k (lchild i) tab else mark k (rchild i) tab)
    else match mark k (lchild i) tab with Some tab' => mark k (rchild i) tab' | None => None end
  end.
(** [[i for i in range(tree.node_count) if compatible_leaves[i] == 1]], experiments/exp_linear.py 224-226, 346-349, 408-411. *)
Definition marked_leaves : option (list nat) :=
  option_map (fun tab => filter tab (seq 0 (nn t))) (mark (nn t) 0 (fun _ => false)).

(** experiments/exp_linear.py 134-170 ([explore_part]) and 172-216 ([explore_partition]): the entries appended to [compatible_leaves]
    and their [partition_global].  Simplification: what is computed at a leaf is computed from the list afterwards. *)
Fixpoint parts (fuel i : nat) (p : rect) : option (list (nat * rect)) :=
  match fuel with
  | O => None
  | S k =>
    let l := parts k (lchild i) (narrow p (ftn t i) NInf (Fin (thq t i))) in
    let r := parts k (rchild i) (narrow p (ftn t i) (Fin (thq t i)) PInf) in
    if marked i then Some [(i, p)]
    else if memb (ftn t i) Sv then (if goes_left i then l else r)
    else match l, r with Some u, Some v => Some (u ++ v) | _, _ => None end
  end.
(** experiments/exp_linear.py 235-241, 262-268, 327-333. *)
Definition all_parts : option (list (nat * rect)) := parts (nn t) 0 whole.

(** experiments/exp_linear.py 109-126 ([get_partition]): the intervals met from a leaf to the root, listed by column. *)
Fixpoint boxes (fuel i : nat) (part : nat -> list (ext * ext)) : option (nat -> list (ext * ext)) :=
  match fuel with
  | O => None
  | S k =>
    match where_eq (cr t) i, where_eq (cl t) i with
    | [], [] => Some part
    | r :: _, _ => boxes k r (upd part (ftn t r) (part (ftn t r) ++ [(Fin (thq t r), PInf)]))
    | [], l :: _ => boxes k l (upd part (ftn t l) (part (ftn t l) ++ [(NInf, Fin (thq t l))]))
    end
  end.
(** np.max and np.min of the columns of an array, experiments/exp_linear.py 131. *)
Definition fold_itv (l : list (ext * ext)) : ext * ext :=
  (fold_left (fun a i => ext_max a (fst i)) l NInf, fold_left (fun a i => ext_min a (snd i)) l PInf).
(** experiments/exp_linear.py 128-132 ([get_final_partition]), 352-354, 414-417. *)
Definition final_box (i : nat) : option rect :=
  option_map (fun part k => fold_itv (part k)) (boxes (nn t) i (fun _ => [(NInf, PInf)])).
(** experiments/exp_linear.py 351-354, 413-417: the boxes of several leaves. *)
Fixpoint final_boxes (ls : list nat) : option (list (nat * rect)) :=
  match ls with
  | [] => Some []
  | l :: r => match final_box l, final_boxes r with Some p, Some ps => Some ((l, p) :: ps) | _, _ => None end
  end.

(** ** The estimators *)
(** Number of columns, [self.index], [data]: experiments/exp_linear.py 33-34, 71-72; the index of the mixture leaves out the
    indicators (experiments/exp_linear_gmm.py 30). *)
Variables (d : nat) (idx : list nat) (data : list pt).

(** [tree.predict(x)], experiments/exp_linear.py 230-231. *)
Definition predicted : option Q := predict_value t x no_missing.
(** np.sum(section_x), experiments/exp_linear.py 180-189, 421-423; np.prod of an empty list is the number 1. *)
Definition section (F : list nat) (p : rect) : nat :=
  match F with [] => 1 | _ => length (filter (in_sides p F) data) end.
(** Weighted mean over leaves, experiments/exp_linear.py 227 and 246; a zero total gives NaN. *)
Definition weighted (ls : list nat) : option Q :=
  let tot := sumf w ls in
  if qeqb tot 0 then None else Some (sumf (fun l => w l / tot * vlq t l)%Q ls).
(** [S == []], experiments/exp_linear.py 223-227, 252-256. *)
Definition exp_empty : option Q := match marked_leaves with Some ls => weighted ls | None => None end.

(** [p = r_w[compatible_leaves] / nbs_leaf], experiments/exp_linear.py 243-244; a division by zero gives NaN or an infinity. *)
Definition ratios (ls : list (nat * rect)) : option (list (nat * Q)) :=
  if forallb (fun lp => negb (section Sv (snd lp) =? 0)) ls
  then Some (map (fun lp => (fst lp, (w (fst lp) / Qn (section Sv (snd lp)))%Q)) ls)
  else None.
(** np.sum(p * v[compatible_leaves]), experiments/exp_linear.py 246. *)
Definition total (h : nat -> Q) (ps : list (nat * Q)) : Q := sumf (fun lp => snd lp * h (fst lp))%Q ps.

(** experiments/exp_linear.py 222-246 (algo 'plugin').  None: an exception, a NaN or an infinity. *)
Definition exp_plugin : option Q :=
  match Sv with
  | [] => exp_empty
  | _ =>
    if length Sv =? d then predicted
    else if subscripts_ok d Sv then
      match all_parts with
      | Some ls => option_map (total (vlq t)) (ratios ls)
      | None => None
      end
    else None
  end.
(** experiments/exp_linear_gmm.py 991-1000 (algo 'plugin_v1'). *)
Definition exp_plugin_v1 : option Q :=
  match marked_leaves with
  | Some ls => let D := sumf w ls in
      if qeqb D 0 then None else Some (sumf (fun l => w l * vlq t l) ls / D)%Q
  | None => None
  end.

(** [S_bar], experiments/exp_linear.py 234, 251, 401. *)
Definition rest : list nat := filter (fun i => negb (memb i Sv)) idx.
(** experiments/exp_linear.py 269, 427-431: the shares of the rows, then the sum; [len(data)] is not zero. *)
Definition shares (ls : list (nat * rect)) : option Q :=
  match data with
  | [] => None
  | _ => Some (sumf (fun lp => Qn (section rest (snd lp)) / Qn (length data) * vlq t (fst lp))%Q ls)
  end.
(** experiments/exp_linear.py 250-271 (algo 'plugin_interventional'). *)
Definition exp_intv : option Q :=
  match Sv with
  | [] => exp_empty
  | _ =>
    if length Sv =? d then predicted
    else if subscripts_ok d rest then
      match all_parts with Some ls => shares ls | None => None end
    else None
  end.
(** experiments/exp_linear.py 398-436 ([cond_exp_tree_intv], algo 'plugin_interventionalv2'). *)
Definition exp_intv2 : option Q :=
  if length Sv =? d then predicted
  else match marked_leaves with
       | Some ls => match final_boxes ls with Some ps => shares ps | None => None end
       | None => None
       end.

(** [cond.pcmvnorm(low, up, mean, cov, c_index, given, x[S])], experiments/exp_linear.py 147, 359-360: R's probability of a box of the
    columns [c_index] given the values of the columns [given]; None is an exception. *)
Variable pcmvnorm : list nat -> list nat -> list Q -> list ext -> list ext -> option Q.
(** experiments/exp_linear.py 144-147, 356-360: the probability of the sides of a box. *)
Definition box_prob (p : rect) : option Q :=
  pcmvnorm (PartModel.others d Sv) Sv (map x Sv) (map (fun s => fst (p s)) (PartModel.others d Sv)) (map (fun s => snd (p s)) (PartModel.others d Sv)).
(** experiments/exp_linear.py 335-339, 362-363. *)
Fixpoint prob_sum (ls : list (nat * rect)) : option Q :=
  match ls with
  | [] => Some 0%Q
  | (l, p) :: r => match box_prob p, prob_sum r with Some q, Some s => Some (q * vlq t l + s)%Q | _, _ => None end
  end.
(** experiments/exp_linear.py 308-339 (algo 'exact'); np.squeeze of a single column leaves one axis, which raises. *)
Definition exp_exact : option Q :=
  if length Sv =? d then predicted
  else if d =? 1 then None
  else match all_parts with Some ls => prob_sum ls | None => None end.
(** experiments/exp_linear.py 341-367 (algo 'exact_v1'). *)
Definition exp_exact_v1 : option Q :=
  if length Sv =? d then predicted
  else match marked_leaves with
       | Some ls => match final_boxes ls with Some ps => prob_sum ps | None => None end
       | None => None
       end.

(** experiments/exp_linear.py 287-306 (algo 'monte_carlo_interventional'): [rg] is what sampleMarMVN returns (experiments/utils.py 377-380). *)
Definition exp_mc_intv (rg : list (list Q)) : option Q :=
  if length Sv =? d then mean_of (fun z => predict_value t z no_missing) [x]
  else match filled_rows idx rg Sv x with
       | Some rows => mean_of (fun z => predict_value t z no_missing) rows
       | None => None
       end.

(** ** Distance to a number *)
(** [fx], experiments/exp_linear_gmm.py 1239, 1441. *)
Variable fx : Q.
(** [(. - fx) ** 2], experiments/exp_linear_gmm.py 1386, 1403, 1470. *)
Definition sq (v : Q) : Q := ((v - fx) * (v - fx))%Q.
(** experiments/exp_linear_gmm.py 1379-1400, 1408-1429: the weights [p] before [p / np.sum(p)]; [S == []] divides by the sum of the weights. *)
Definition dist_weights : option (list (nat * Q)) :=
  match Sv with
  | [] => match marked_leaves with
          | Some ls => let tot := sumf w ls in if qeqb tot 0 then None else Some (map (fun l => (l, (w l / tot)%Q)) ls)
          | None => None
          end
  | _ => if subscripts_ok d Sv then match all_parts with Some ls => ratios ls | None => None end else None
  end.
(** [p = p / np.sum(p)], experiments/exp_linear_gmm.py 1402, 1433. *)
Definition normalised (ps : list (nat * Q)) : option (list (nat * Q)) :=
  let s := sumf snd ps in if qeqb s 0 then None else Some (map (fun lp => (fst lp, (snd lp / s)%Q)) ps).
(** The full set of columns is not the empty one, experiments/exp_linear_gmm.py 1379, 1385. *)
Definition all_columns : bool := match Sv with [] => false | _ => length Sv =? d end.
(** experiments/exp_linear_gmm.py 1378-1405 (algo 'plugin'). *)
Definition dist_plugin : option Q :=
  if all_columns then option_map sq predicted
  else match dist_weights with
       | Some ps => option_map (total (fun l => sq (vlq t l))) (normalised ps)
       | None => None
       end.
(** experiments/exp_linear_gmm.py 1407-1436 (algo 'plugin2'). *)
Definition dist_plugin2 : option Q :=
  if all_columns then option_map sq predicted
  else match dist_weights with
       | Some ps => option_map (fun qs => total (fun l => vlq t l * vlq t l) qs + fx * fx - 2 * fx * total (vlq t) qs)%Q (normalised ps)
       | None => None
       end.
(** experiments/exp_linear_gmm.py 1375-1376 (algo 'shap'): the text of cond_exp_tree. *)
Definition dist_shap : option Q := exp_shap.

(** ** Same-decision probability of one tree *)
(** [t_x], experiments/exp_linear_gmm.py 1441. *)
Variable tx : Q.
(** [down_tx], experiments/exp_linear_gmm.py 1469-1473. *)
Definition close_row (z : pt) : bool :=
  match predict_value t z no_missing with Some v => qleb (sq v) tx | None => false end.
(** The rows of 'all', 'up' and 'down', experiments/exp_linear_gmm.py 1472-1473. *)
Definition row_kind (nm : part) (z : pt) : bool :=
  match nm with All => true | Up => negb (close_row z) | Down => close_row z end.
(** experiments/exp_linear_gmm.py 1542-1567 ([prob_all], [prob_up], [prob_down]): 0 / 0 is replaced by 0; [S] and [S_bar] are not
    empty. *)
Definition kind_prob (nm : part) (p : rect) : Q :=
  gdiv (Qn (length (filter (fun z => in_sides p Sv z && in_sides p rest z && row_kind nm z) data)))
       (length (filter (fun z => in_sides p Sv z && row_kind nm z) data)).
(** experiments/exp_linear_gmm.py 1619-1634 ([mean_up], [mean_down], [mean_all]). *)
Definition kind_mean (ls : list (nat * rect)) (nm : part) : Q :=
  (sumf (fun lp => kind_prob nm (snd lp) * (vlq t (fst lp) * vlq t (fst lp))) ls + fx * fx
   - 2 * fx * sumf (fun lp => kind_prob nm (snd lp) * vlq t (fst lp)) ls)%Q.
(** experiments/exp_linear_gmm.py 1597-1636 (cond_sdp_tree, algo 'plugin'). *)
Definition sdp_tree : option Q :=
  match Sv with
  | [] => exp_empty
  | _ =>
    if length Sv =? d then predicted
    else if subscripts_ok d Sv && subscripts_ok d rest then
      match all_parts with
      | Some ls => let m := kind_mean ls in
          if qeqb (m Up - m Down) 0 then None else Some ((m Up - m All) / (m Up - m Down))%Q
      | None => None
      end
    else None
  end.
(** np.mean, then NaN replaced by 0, experiments/exp_linear_gmm.py 1645-1653. *)
Definition mean0 (l : list Q) : Q := gdiv (sumf (fun v => v) l) (length l).
(** experiments/exp_linear_gmm.py 1638-1662 (cond_sdp_tree, algo 'monte_carlo'); [ys] are the predictions on the sampled rows
    (cond_data_monte_carlo_gen).  A zero denominator gives NaN.  Simplification: one number per row, where
    sklearn's Tree.predict gives a matrix of one column, whose comparison is a two-dimensional mask. *)
Definition sdp_mc (ys : list Q) : option Q :=
  if length Sv =? d then option_map sq predicted
  else
    let dist := map sq ys in
    let up := mean0 (filter (fun v => negb (qleb v tx)) dist) in
    let down := mean0 (filter (fun v => qleb v tx) dist) in
    let m := mean0 dist in
    if length ys =? 0 then None
    else if qeqb (up + m + down) 0 then Some 1%Q
    else if qeqb (up - down) 0 then None
    else Some ((up - m) / (up - down))%Q.
End Tree.

(** ** Shapley values *)
(** The names of the estimators, experiments/exp_linear.py 219-371; 'monte_carlo' is modelled in McModel.v. *)
Inductive algorithm := Shap | Plugin | Intv | Intv2 | Exact | ExactV1.
(** experiments/exp_linear.py 219-371 ([algo]). *)
Definition estimate (t : tree) (w : nat -> Q) (d : nat) (data : list pt)
  (pcmvnorm : list nat -> list nat -> list Q -> list ext -> list ext -> option Q) (a : algorithm) (x : pt) (Sv : list nat) : option Q :=
  match a with
  | Shap => exp_shap t w x Sv
  | Plugin => exp_plugin t w x Sv d data
  | Intv => exp_intv t w x Sv d (seq 0 d) data
  | Intv2 => exp_intv2 t x Sv d (seq 0 d) data
  | Exact => exp_exact t x Sv d pcmvnorm
  | ExactV1 => exp_exact_v1 t x Sv d pcmvnorm
  end.
(** experiments/exp_linear.py 516-557 ([tree_shap]), entry [j]. *)
Definition tree_shap (t : tree) (w : nat -> Q) (d : nat) (data : list pt)
  (pcmvnorm : list nat -> list nat -> list Q -> list ext -> list ext -> option Q) (a : algorithm) (x : pt) (C : list group) (j : nat) : option Q :=
  perm_shap (estimate t w d data pcmvnorm a x) C d j.

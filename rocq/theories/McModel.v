(** Model of the Monte Carlo expectations on the mixture, experiments/exp_linear_gmm.py 270-410 (cond_exp_monte_carlo_linear; the same
    text with another model in cond_exp_monte_carlo_gen, 412-553, and with the squared distance to a number in
    cond_dist_monte_carlo_gen, 555-697) and 838-868 (mar_exp_linear_mc), and of the one on a single
    Gaussian vector, experiments/exp_linear.py 272-285.  Numbers are rationals: no rounding to float32, no NaN. *)
From Verif Require Import Base MvnModel GmmModel.
Local Open Scope nat_scope.

(** ** Names of columns *)
(** str(i), experiments/exp_linear_gmm.py 306: the decimal digits, the first one first; [fuel] bounds their number. *)
Fixpoint digits_fuel (fuel i : nat) : list nat :=
  match fuel with
  | O => []
  | S k => if i <? 10 then [i] else digits_fuel k (i / 10) ++ [i mod 10]
  end.
(** str(i), experiments/exp_linear_gmm.py 306. *)
Definition digits (i : nat) : list nat := digits_fuel (S i) i.
(** The comparison of two strings of digits, experiments/exp_linear_gmm.py 311: character by character, a prefix is smaller. *)
Fixpoint str_leb (s t : list nat) : bool :=
  match s, t with
  | [], _ => true
  | _, [] => false
  | a :: s', b :: t' => if a <? b then true else if b <? a then false else str_leb s' t'
  end.
(** sorted, experiments/exp_linear_gmm.py 311: one name put in its place. *)
Fixpoint insert_name (i : nat) (l : list nat) : list nat :=
  match l with
  | [] => [i]
  | j :: r => if str_leb (digits i) (digits j) then i :: l else j :: insert_name i r
  end.
(** [sorted(rg_data.columns)], experiments/exp_linear_gmm.py 311, 340, 862.  A name is represented by the number it is the string of. *)
Definition sorted_names (l : list nat) : list nat := fold_right insert_name [] l.

(** ** Tables *)
(** A pandas DataFrame, experiments/exp_linear_gmm.py 306, 335, 857: names and columns. *)
Definition table := list (nat * list Q).
(** [rg_data[str(k)] = col], experiments/exp_linear_gmm.py 309, 338, 860: replaced in place, or added at the end. *)
Fixpoint set_col (k : nat) (col : list Q) (t : table) : table :=
  match t with
  | [] => [(k, col)]
  | (j, c) :: r => if j =? k then (j, col) :: r else (j, c) :: set_col k col r
  end.
(** [rg_data[str(k)]], experiments/exp_linear_gmm.py 311: simplification, a name that is missing gives an empty column. *)
Fixpoint get_col (k : nat) (t : table) : list Q :=
  match t with
  | [] => []
  | (j, c) :: r => if j =? k then c else get_col k r
  end.
(** pd.DataFrame(rg, columns=names), experiments/exp_linear_gmm.py 306, 335, 857; None is the ValueError of a wrong number of columns. *)
Definition frame (names : list nat) (rg : list (list Q)) : option table :=
  if forallb (fun r => length r =? length names) rg
  then Some (map (fun j => (nth j names 0, map (fun r => nth j r 0%Q) rg)) (seq 0 (length names)))
  else None.
(** experiments/exp_linear_gmm.py 306-311, 335-340, 857-862: the known columns are filled with the observation, the columns sorted by name;
    the rows of [rg_data.values].  Simplification: the number of values of a filled column is the number of rows. *)
Definition filled_rows (names : list nat) (rg : list (list Q)) (Sv : list nat) (x : vec) : option (list vec) :=
  match frame names rg with
  | None => None
  | Some t =>
    let t' := fold_left (fun t k => set_col k (repeat (x k) (length rg)) t) Sv t in
    let ord := sorted_names (map fst t') in
    Some (map (fun i => fun j => nth i (get_col (nth j ord 0) t') 0%Q) (seq 0 (length rg)))
  end.
(** np.mean(model(rows)), experiments/exp_linear_gmm.py 367, 410, 863, 868; None is an exception, or the mean of nothing. *)
Definition mean_of (f : vec -> option Q) (rows : list vec) : option Q :=
  match fold_right (fun r acc => match f r, acc with Some a, Some b => Some (a + b)%Q | _, _ => None end) (Some 0%Q) rows with
  | Some s => if length rows =? 0 then None else Some (s / Qn (length rows))%Q
  | None => None
  end.

(** ** A single Gaussian vector *)
(** [rg_data[:, idx] = rg], experiments/exp_linear.py 277: one row of the array. *)
Definition assign_row (x : vec) (Sv S_bar : list nat) (r : list Q) : vec :=
  write_at (write_at (fun _ => 0%Q) Sv (fun i => x (nth i Sv 0))) S_bar (fun i => nth i r 0%Q).
(** experiments/exp_linear.py 272-285 (algo 'monte_carlo'); [f] is the prediction of the tree, [rows] what sampleMVN returns
    (experiments/utils.py 372-375). *)
Definition mc_single (f : vec -> option Q) (d : nat) (x : vec) (Sv : list nat) (rows : option (list (list Q))) : option Q :=
  if length Sv =? d then mean_of f [x]
  else
    let S_bar := filter (fun i => negb (memb i Sv)) (seq 0 d) in
    match rows with Some l => mean_of f (map (assign_row x Sv S_bar) l) | None => None end.

(** ** The mixture *)
(** [self.dummy], experiments/exp_linear_gmm.py 38. *)
Definition dummy (y : cls) : list Q := match y with Ka => [1; 0]%Q | Kb => [0; 1]%Q | Kc => [0; 0]%Q end.
(** [np.sum(mixture_idx == key)], experiments/exp_linear_gmm.py 297. *)
Definition count_cls (y : cls) (draws : list cls) : nat := length (filter (cls_eqb y) draws).

Section Mc.
(** np.linalg.inv, utils.py 279. *)
Variable inv : nat -> mat -> option mat.
(** the density, experiments/exp_linear_gmm.py 147-148. *)
Variable pdf : nat -> vec -> mat -> vec -> option Q.
(** scipy's sampler, experiments/utils.py 374. *)
Variable rvs : gauss -> nat -> option (list Q).
(** np.random.choice(classes, size=N, replace=True, p=prob), experiments/exp_linear_gmm.py 295, 324, 326, 379, 397. *)
Variable choice : list cls -> list Q -> nat -> option (list cls).
(** the model, experiments/exp_linear_gmm.py 367 (linear_gmm_batch), 510 (predict of any model): one row. *)
Variable f : vec -> option Q.

(** [sampleMVN(np.sum(mixture_idx == key), ...)], experiments/exp_linear_gmm.py 297-299. *)
Definition class_rows (G : gmm) (x : vec) (Sv : list nat) (y : cls) (c : nat) : option (list (list Q)) :=
  sampleMVN inv rvs c (gm_d G) (gm_mean G y) (gm_cov G y) (filter (fun i => negb (memb i Sv)) (seq 0 (gm_d G))) Sv (map x Sv).
(** experiments/exp_linear_gmm.py 297-303, 328-333: the samples of the classes that were drawn, with their indicators; None is an exception. *)
Fixpoint mixture_rows (G : gmm) (x : vec) (Sv : list nat) (draws : list cls) (classes : list cls) : option (list (list Q)) :=
  match classes with
  | [] => Some []
  | y :: r =>
    if count_cls y draws =? 0 then mixture_rows G x Sv draws r
    else match class_rows G x Sv y (count_cls y draws), mixture_rows G x Sv draws r with
         | Some a, Some b => Some (map (fun row => row ++ dummy y) a ++ b)
         | _, _ => None
         end
  end.
(** experiments/exp_linear_gmm.py 292-312 ([gen_data_by_cat]) and 324-340, then the mean of 410; np.concatenate of nothing raises. *)
Definition mc_mix (G : gmm) (x : vec) (Sv : list nat) (classes : list cls) (prob : list Q) (N : nat) : option Q :=
  match choice classes prob N with
  | None => None
  | Some draws =>
    match mixture_rows G x Sv draws classes with
    | None => None
    | Some rg =>
      if length rg =? 0 then None
      else match filled_rows (filter (fun i => negb (memb i Sv)) (seq 0 (gm_d G)) ++ gm_cat G) rg Sv x with
           | Some rows => mean_of f rows
           | None => None
           end
    end
  end.
(** The weights of the classes, experiments/exp_linear_gmm.py 321, 357, 375, 393: prior times density; None is an exception. *)
Fixpoint weights (G : gmm) (x : vec) (Sv : list nat) (classes : list cls) : option (list Q) :=
  match classes with
  | [] => Some []
  | y :: r => match density pdf G x y Sv, weights G x Sv r with Some p, Some l => Some (gm_pi G y * p :: l)%Q | _, _ => None end
  end.
(** [[p / p_x for p in prob]], experiments/exp_linear_gmm.py 322-323, 358-359, 363-364, 376-377, 394-395; a zero total has no value. *)
Definition normal (l : list Q) : option (list Q) :=
  let t := sumf (fun p => p) l in if qeqb t 0 then None else Some (map (fun p => p / t)%Q l).
(** [np.tile(np.concatenate([x_in[S], dummy]), (count, 1))], experiments/exp_linear_gmm.py 380-386, 399-404: the values in the order of the list. *)
Definition tiles (x : vec) (Sv : list nat) (draws : list cls) (classes : list cls) : list vec :=
  flat_map (fun y => repeat (fun j => nth j (map x Sv ++ dummy y) 0%Q) (count_cls y draws)) classes.
(** experiments/exp_linear_gmm.py 375-388, 391-406: all the numeric variables are known. *)
Definition mc_tiles (G : gmm) (x : vec) (Sv : list nat) (classes : list cls) (N : nat) : option Q :=
  match weights G x Sv classes with
  | None => None
  | Some w => match normal w with
              | None => None
              | Some p => match choice classes p N with Some draws => mean_of f (tiles x Sv draws classes) | None => None end
              end
  end.
(** experiments/exp_linear_gmm.py 270-410 ([cond_exp_monte_carlo_linear]); [n] is the length of the observation. *)
Definition cond_mc (G : gmm) (n : nat) (x : vec) (S0 : list nat) (N : nat) : option Q :=
  let cat_va := filter (fun k => memb k (gm_cat G)) S0 in
  let Sv := filter (fun k => negb (memb k (gm_cat G))) S0 in
  if negb (length Sv =? gm_d G) then
    match cat_va with
    | [] => match Sv with
            | [] => mc_mix G x Sv keys (map (gm_pi G) keys) N
            | _ => match weights G x Sv keys with
                   | Some w => match normal w with Some p => mc_mix G x Sv keys p N | None => None end
                   | None => None end
            end
    | [k] =>
      if k <? n then
        match index_cat G k with
        | None => None
        | Some z =>
          if qeqb (x k) 1 then mc_mix G x Sv [z] [1%Q] N
          else
            let cat_sample := filter (fun y => negb (cls_eqb y z)) keys in
            match (match Sv with [] => Some (map (gm_pi G) cat_sample) | _ => weights G x Sv cat_sample end) with
            | Some w => match normal w with Some p => mc_mix G x Sv cat_sample p N | None => None end
            | None => None
            end
        end
      else None
    | _ => if in_range n cat_va then
             match revers_dummy (map x cat_va) with Some y => mc_mix G x Sv [y] [1%Q] N | None => None end
           else None
    end
  else if length S0 =? n then mean_of f [x]
  else
    match cat_va with
    | [] => mc_tiles G x Sv keys N
    | [k] =>
      if k <? n then
        if qeqb (x k) 0 then
          match index_cat G k with Some z => mc_tiles G x Sv (filter (fun y => negb (cls_eqb y z)) keys) N | None => None end
        else mean_of f [x]
      else None
    | _ => mean_of f [x]
    end.
(** experiments/exp_linear_gmm.py 838-868 ([mar_exp_linear_mc]); [rg] is what gen_data returns (851). *)
Definition mar_mc (G : gmm) (n : nat) (x : vec) (S0 : list nat) (rg : list (list Q)) : option Q :=
  if length S0 =? n then mean_of f [x]
  else match filled_rows (seq 0 (gm_d G) ++ gm_cat G) rg S0 x with Some rows => mean_of f rows | None => None end.
End Mc.

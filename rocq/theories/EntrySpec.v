(** Vocabulary for the statements about an [ACVTree] from its trees to its results. *)
From Verif Require Import Base TreeModel TreeSpec FlatModel FlatSpec SkModel SkSpec SdpSpec EntryModel.

(** a row of numbers as a point *)
Definition point (r : list Q) : pt := fun s => nth s r 0%Q.
(** a two-dimensional argument with the rows [rs] of [d] numbers, in whatever form *)
Definition is_table (X : marg) (d : nat) (rs : list (list Q)) : Prop :=
  X = M_frame d rs \/ X = M_list d rs \/ exists dt, X = M_array dt d rs.
(** an ensemble over [d] features with [k] outputs: either all trees have [k], or one each for [k] classes in turn *)
Definition ensemble_ok (ts : list mtree) (stacked d w k : nat) : Prop :=
  ts <> [] /\ (forall m, In m ts -> well_formed d w m) /\
  (if 1 <? stacked then w = 1 /\ k = stacked /\ length ts mod stacked = 0 else k = w).
(** what tree [b] with the leaf values [r] adds to output [j] *)
Definition raw_share (stacked b j : nat) (r : list Q) : Q :=
  if 1 <? stacked then (if j =? b mod stacked then nth 0 r 0%Q else 0%Q) else nth j r 0%Q.
(** the same for the probabilities of two classes, average over [n] trees of [sig] of the leaf value *)
Definition binary_share (sig : Q -> Q) (n b j : nat) (r : list Q) : Q :=
  ((if j =? 0 then 1 - sig (nth 0 r 0) else sig (nth 0 r 0)) / Qn n)%Q.
(** what the methods for probabilities take: those of the boosted classifiers for two classes have one raw output *)
Definition used_share (sig : Q -> Q) (ts : list mtree) (stacked : nat) (boosted : bool) (k : nat) : nat -> nat -> list Q -> Q :=
  if boosted && (k =? 1) then binary_share sig (length ts) else raw_share stacked.
Definition used_classes (boosted : bool) (k : nat) : nat := if boosted && (k =? 1) then 2 else k.
(** the trees with one number for every node, their shares of output [j] *)
Definition shared_tree (share : nat -> nat -> list Q -> Q) (j b : nat) (m : mtree) : tree :=
  mkTree (m_cl m) (m_cr m) (m_cd m) (m_ft m) (m_th m) (map (share b j) (m_vl m)).
Definition shared (share : nat -> nat -> list Q -> Q) (ts : list mtree) (j : nat) : list tree :=
  map (fun b => shared_tree share j b (nth b ts no_tree)) (seq 0 (length ts)).
(** [v] is the sum of the shares of the trees at the leaves where the decision paths of [z] end *)
Definition adds_up (share : nat -> nat -> list Q -> Q) (ts : list mtree) (j : nat) (z : list Q) (v : Q) : Prop :=
  exists rs, all_give ts (point z) no_missing rs /\
    (v == sumf (fun b => share b j (nth b rs [])) (seq 0 (length rs)))%Q.
(** no coordinate that a tree splits on equals the threshold *)
Definition off_thresholds (ts : list mtree) (z : list Q) : Prop :=
  forall m i, In m ts -> i < length (m_cl m) -> (0 <= nth i (m_cl m) (-1))%Z ->
    ~ (nth (Z.to_nat (nth i (m_ft m) (-1)%Z)) z 0 == nth i (m_th m) 0)%Q.
(** the decision paths of [x] and [z] in a tree end in the same leaf *)
Definition same_leaf (m : mtree) (x z : list Q) : Prop :=
  exists l, lands (as_tree m 0) (point x) no_missing l /\ lands (as_tree m 0) (point z) no_missing l.
(** rows that have the values of [x] on the columns [S] *)
Definition matching (S : list nat) (x : list Q) (Z : list (list Q)) : list (list Q) :=
  filter (fun z => same_on S (point x) (point z)) Z.
(** [c] is the first class with the greatest probability *)
Definition decided (p : list Q) (c : nat) : Prop :=
  c < length p /\ (forall j, j < length p -> (nth j p 0 <= nth c p 0)%Q) /\ (forall j, j < c -> (nth j p 0 < nth c p 0)%Q).
(** the method returns one row of [k] entries for every observation, and they satisfy [P] *)
Definition entries {V} (o : outcome (list (list V))) (xs : list (list Q)) (k : nat) (P : list Q -> nat -> V -> Prop) : Prop :=
  exists res, o = Returned res /\ length res = length xs /\
  forall i x, nth_error xs i = Some x -> exists row, nth_error res i = Some row /\ length row = k /\
    forall j v, nth_error row j = Some v -> P x j v.
(** the method returns one number for every observation; [f] is its class *)
Definition numbers (o : outcome (list Q)) (xs : list (list Q)) (fX : list nat) (P : list Q -> nat -> Q -> Prop) : Prop :=
  exists res, o = Returned res /\ length res = length xs /\
  forall i x f v, nth_error xs i = Some x -> nth_error fX i = Some f -> nth_error res i = Some v -> P x f v.
(** the two methods return the same table *)
Definition same_table {V} (R : V -> V -> Prop) (o o' : outcome (list (list V))) : Prop :=
  exists res res', o = Returned res /\ o' = Returned res' /\ Forall2 (Forall2 R) res res'.
(** the two methods return the same numbers *)
Definition same_numbers (o o' : outcome (list Q)) : Prop :=
  exists res res', o = Returned res /\ o' = Returned res' /\ Forall2 Qeq res res'.
(** the model has [n] classes and decides [fs] for the rows *)
Definition decides_as (proba : mat -> outcome (list (list Q))) (c : nat) (rs : list (list Q)) (n : nat) (fs : list nat) : Prop :=
  exists p, proba (mkMat c rs) = Returned p /\ length p = length rs /\ (forall r, In r p -> length r = n) /\ Forall2 decided p fs.
(** the columns [l] in one of the forms that the methods for probabilities take *)
Definition is_columns (S : sarg) (l : list nat) : Prop :=
  (S = S_list l /\ l <> []) \/ S = S_array I64 l \/ S = S_column I64 l.

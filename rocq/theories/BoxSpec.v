(** Vocabulary for the methods of [ACXplainer] with boxes: which side of a split is followed, and which rows follow.  Nothing here
    mirrors code. *)
From Verif Require Import Base RfModel RfSpec ApiModel ApiSpec AgnSpec.
Local Open Scope nat_scope.

(** the side followed at a split of a column at a threshold: left ([Some true]), right ([Some false]), or both *)
Definition guide := nat -> Q -> option bool.
(** a box: the side on which it lies, both when the threshold cuts it *)
Definition box_guide (box : rule) : guide := fun c t =>
  if Qlt_le_dec t (snd (box c)) then (if Qlt_le_dec t (fst (box c)) then Some false else None) else Some true.
(** on the columns [Sv] the side of [x], on the others the box *)
Definition cond_guide (Sv : list nat) (x : pt) (box : rule) : guide := fun c t =>
  if in_dec Nat.eq_dec c Sv then (if Qlt_le_dec t (x c) then Some false else Some true) else box_guide box c t.
(** on the columns [Sv] both sides, on the others the box *)
Definition intv_guide (Sv : list nat) (box : rule) : guide := fun c t =>
  if in_dec Nat.eq_dec c Sv then None else box_guide box c t.
(** [z] is on the side followed at every split that is met *)
Fixpoint follows (g : guide) (T : rtree) (z : pt) : bool :=
  match T with
  | Leaf => true
  | Fork c t l r =>
      match g c t with
      | Some true => if Qlt_le_dec t (z c) then false else follows g l z
      | Some false => if Qlt_le_dec t (z c) then follows g r z else false
      | None => follows g l z && follows g r z
      end
  end.
Definition companions (g : guide) (T : rtree) (D : list pt) : list nat :=
  filter (fun j => follows g T (nth j D (fun _ => 0%Q))) (seq 0 (length D)).

(** the methods with boxes, how they walk, what they average *)
Definition walked (r : routine) (Sv : list nat) (x : pt) (box : rule) : guide :=
  match r with ddp_cond | cdp_cond => cond_guide Sv x box | _ => intv_guide Sv box end.
Definition averaged (r : routine) (classifier : bool) (yx t0 t1 down up v : Q) : Q :=
  match r with
  | cdp_cond => if agrees classifier yx down up v then 1 else 0
  | cdp_intv | cdp_intv_same => if classifier then (if Qeq_bool yx v then 0 else 1) else (if agrees false yx t0 t1 v then 1 else 0)
  | _ => if agrees classifier yx t0 t1 v then 0 else 1
  end.
(** what lies before the arrays of the first tree does no harm: it is a leaf, or the walk in the first tree never gets past one *)
Definition calm (stray : row) (Ts : list rtree) : Prop :=
  ((r_feat stray (-1) < 0)%Z /\ r_left stray (-1) = (-1)%Z /\ r_right stray (-1) = (-1)%Z) \/ bushy (tallest Ts - 1) (nth 0 Ts Leaf).
(** the set given for observation [i]: its own, or the one for all *)
Definition set_at (s : sarg) (i : nat) : list nat := match s with S_rows l => nth i l [] | S_same c => c end.
(** documented arguments of the methods with boxes *)
Definition well_called (r : routine) (a : args) : Prop :=
  match r with
  | ddp_intv_same | cdp_intv_same => (exists s, g_S a = S_same s) /\ length (g_cond a) = length (g_X a)
  | _ => boxed r /\ exists l, documented r a l
  end.
(** every tree keeps at least [m] rows for every observation *)
Definition plenty (r : routine) (m : nat) (a : args) (D : list pt) (Ts : list rtree) : Prop :=
  forall i T, i < length (g_X a) -> In T Ts ->
    m <= length (companions (walked r (set_at (g_S a) i) (nth i (g_X a) (fun _ => 0%Q)) (nth i (g_cond a) rule0)) T D).
(** the splits of a tree *)
Fixpoint cuts (T : rtree) : list (nat * Q) := match T with Leaf => [] | Fork c t l r => (c, t) :: cuts l ++ cuts r end.

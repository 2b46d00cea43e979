(** Independent notions used by the statements about marginal sufficient explanations. *)
From Verif Require Import Base GameSpec.

(** the background point [z] with the columns [S] of the observation [x] *)
Definition replaced (S : list nat) (x z : pt) : pt := fun i => if in_dec Nat.eq_dec i S then x i else z i.
(** share of the background for which the prediction stays acceptable once the columns [S] are those of [x] *)
Definition kept_share {Y} (predict : pt -> Y) (same : Y -> Y -> bool) (data : list pt) (x : pt) (S : list nat) : Q :=
  (Qn (length (filter (fun z => same (predict (replaced S x z)) (predict x)) data)) / Qn (length data))%Q.
(** the model only reads the first [d] columns *)
Definition reads {Y} (d : nat) (predict : pt -> Y) : Prop :=
  forall u v : pt, (forall i, i < d -> u i = v i) -> predict u = predict v.
(** [T] is a smallest choice of at least [lo] groups whose value [f] reaches the level, best among those of its size *)
Definition smallest_best (va : list (list nat)) (lo : nat) (pi : Q) (f : list nat -> Q) (T : list (list nat)) : Prop :=
  In T (subs va) /\ lo <= length T /\ (pi <= f (concat T))%Q /\
  (forall T', In T' (subs va) -> lo <= length T' -> (pi <= f (concat T'))%Q ->
     length T < length T' \/ (length T' = length T /\ (f (concat T') <= f (concat T))%Q)).
(** the columns [S] followed by -1 up to the number of columns *)
Definition padded (d : nat) (S : list nat) : list Z := map Z.of_nat S ++ repeat (-1)%Z (d - length S).
(** the distance of two numbers is at most [t] *)
Definition near (t a b : Q) : bool := Qle_bool (Qabs.Qabs (a - b)) t.

(** Independent notions used by the statements about the searches. *)
From Verif Require Import Base GameSpec SearchModel.

(** pairwise disjoint, non-empty groups of columns below [d], without repetition *)
Definition groups_ok (d : nat) (va : list (list nat)) : Prop :=
  NoDup (concat va) /\ (forall x, In x (concat va) -> x < d) /\ ~ In [] va.

(** variables reported for a row: the first [r_len] entries of its index row *)
Definition reported (r : row) : list Z := firstn (r_len r) (r_star r).
(** non-negative entries of an index row *)
Definition listed (r : row) : list Z := filter (fun z => (0 <=? z)%Z) (r_star r).

(** [T] is a minimal sufficient choice of groups, at least [lo] of them, for an
    estimator [f] at level [pi], and [s] is its probability; a choice covering
    all [d] columns has probability 1 by convention *)
Definition minimal_sufficient (d : nat) (va : list (list nat)) (lo : nat) (pi : Q)
  (f : list nat -> Q) (T : list (list nat)) (s : Q) : Prop :=
  In T (subs va) /\ lo <= length T /\ (pi <= s)%Q /\
  ((s == f (concat T))%Q \/ (length (concat T) = d /\ (s == 1)%Q)) /\
  (forall T', In T' (subs va) -> lo <= length T' < length T -> (f (concat T') < pi)%Q) /\
  (forall T', In T' (subs va) -> length T' = length T -> T' <> T -> (f (concat T') <= s)%Q).

(** the row reached the level and its explanation contains column [j] *)
Definition explains (pi : Q) (r : row) (j : nat) : bool :=
  qleb pi (r_sdp r) && existsb (Z.eqb (Z.of_nat j)) (reported r).

(** columns outside [S] *)
Definition complement (d : nat) (S : list nat) : list nat :=
  filter (fun x => if in_dec Nat.eq_dec x S then false else true) (seq 0 d).

(** [L] lists the minimal elements, for inclusion, of the choices of at least
    [lo] groups that reach the level: all its members are such choices, no
    member is contained in another one, and each such choice contains a member *)
Definition minimal_family (va : list (list nat)) (lo : nat) (pi : Q) (f : list nat -> Q)
  (L : list (list Z)) : Prop :=
  (forall l, In l L -> exists T, In T (subs va) /\ lo <= length T /\ (pi <= f (concat T))%Q /\
                                 l = map Z.of_nat (concat T)) /\
  (forall i j l l', nth_error L i = Some l -> nth_error L j = Some l' -> incl l l' -> i = j) /\
  (forall T, In T (subs va) -> lo <= length T -> (pi <= f (concat T))%Q ->
     exists l, In l L /\ incl l (map Z.of_nat (concat T))).

(** in the answer for all rows, the probabilities of each row are listed in the
    order of its sets *)
Definition aligned (f : nat -> list nat -> Q) (ans : list (list (list Z)) * list (list Q)) : Prop :=
  length (snd ans) = length (fst ans) /\
  forall k sets ps, nth_error (fst ans) k = Some sets -> nth_error (snd ans) k = Some ps ->
    length ps = length sets /\
    forall i S, nth_error sets i = Some (map Z.of_nat S) -> nth_error ps i = Some (f k S).

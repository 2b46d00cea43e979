(** Vocabulary for the statements about the regression methods of an [ACVTree], from its trees. *)
From Verif Require Import Base TreeModel TreeSpec GameSpec FlatModel FlatSpec SdpSpec SearchModel SearchSpec ExplSpec EntryModel EntrySpec RcatModel.

(** the prediction of the ensemble for the row [z]: the offset and the values of the leaves where its decision paths end *)
Definition predicts (ts : list mtree) (b : offset) (z : list Q) (v : Q) : Prop :=
  exists rs, all_give ts (point z) no_missing rs /\ (v == offset_of b 0 + sumf (fun r => nth 0 r 0) rs)%Q.
(** the object [o] built on an ensemble of trees with one output over [d] columns and the offset [b] *)
Definition regressor (sig : Q -> Q) (ts : list mtree) (boosted : bool) (b : offset) (d : nat) (o : reg_acv) : Prop :=
  ensemble_ok ts 1 d 1 1 /\ offset_fits b 1 /\ fits ts 1 d /\ construct_reg sig ts 1 boosted b d = Some o.
(** a frame or an array with the rows [xs] of [d] numbers *)
Definition has_shape (X : marg) (d : nat) (xs : list (list Q)) : Prop := X = M_frame d xs \/ exists dt, X = M_array dt d xs.
(** the predictions of [x] and [z] are within the tolerance: their squared difference is at most [t] *)
Definition close (f : list Q -> Q) (t : Q) (x z : list Q) : bool := qleb ((f x - f z) * (f x - f z)) t.
(** share of the rows for which [P] holds *)
Definition frequency {A} (P : A -> bool) (l : list A) : Q := (Qn (length (filter P l)) / Qn (length l))%Q.
(** squared distance of [z]'s prediction without the offset [c] to the prediction of [x], less the square of the latter *)
Definition excess (f : list Q -> Q) (c : Q) (x z : list Q) : Q := ((f z - c - f x) * (f z - c - f x) - f x * f x)%Q.
(** the method returns one number for every observation, and they satisfy [P] *)
Definition one_each (out : outcome (list Q)) (xs : list (list Q)) (P : list Q -> Q -> Prop) : Prop :=
  exists res, out = Returned res /\ length res = length xs /\
  forall i x v, nth_error xs i = Some x -> nth_error res i = Some v -> P x v.
(** what [compute_sdp_reg_cat] of the same object returns for observation [k] and the columns [S] *)
Definition reg_told (o : reg_acv) (tX : Q) (X data : marg) (k : nat) (S : list nat) : Q :=
  match acv_reg_cat o tX X (S_array I64 S) data with Returned l => nth k l 0%Q | _ => 0%Q end.

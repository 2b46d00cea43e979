(** Vocabulary for the statements about active Shapley values with one explanation per observation. *)
From Verif Require Import Base TreeModel TreeSpec GameSpec ShapSpec AcvSpec FlatModel FlatSpec EntryModel EntrySpec SbufModel SbufSpec AbufModel AbufSpec OwnModel.

(** a table of integers with the rows [rs] of [c] entries, in whatever form *)
Definition is_ztable (a : zarg) (c : nat) (rs : list (list Z)) : Prop :=
  a = Z_frame c rs \/ a = Z_list c rs \/ exists dt, a = Z_array dt c rs.
(** the sizes, in whatever form *)
Definition is_sizes (a : sarg) (ks : list nat) : Prop := a = S_list ks \/ a = S_array I64 ks \/ a = S_column I64 ks.
(** what the methods for one set of active columns return when they are called with observation [x] alone *)
Definition alone (h : shap_acv) (order : nat -> list nat) (m : nat) (C : list (list nat)) (x : list Q) (k : nat) (s n : list Z)
  (table : list (list (option Q))) : Prop :=
  (k = m /\ exists t, acv_shap h order (M_array F64 m [x]) C = Returned [t] /\ table = map (map Some) t) \/
  (k <> m /\ exists a o, firstn k s = map Z.of_nat a /\ skipn k n = map Z.of_nat o /\
     acv_active h order (M_array F64 m [x]) (S_array I64 a) (S_array I64 o) C = Returned [table]).
(** one of the two methods is called, and gives [o] *)
Definition called (ts : list mtree) (h : shap_acv) (X : marg) (S_star N_star : zarg) (size : sarg) (C : list (list nat))
  (o : outcome (list (list (list (option Q))))) : Prop :=
  o = acv_own_nopa h X S_star N_star size C \/
  exists order, (forall i, leaf_orders ts (order i)) /\ o = acv_own h order X S_star N_star size C.
(** [m] rows of [k] entries for every observation, [f c j] is entry [j] of row [c] for observation [i] *)
Definition entries_at (o : outcome (list (list (list (option Q))))) (xs : list (list Q)) (m k : nat)
  (P : nat -> list Q -> (nat -> nat -> option Q) -> Prop) : Prop :=
  exists res, o = Returned res /\ length res = length xs /\
  forall i x, nth_error xs i = Some x -> exists table, nth_error res i = Some table /\ length table = m /\
    (forall r, In r table -> length r = k) /\ P i x (fun c j => nth j (nth c table []) None).
(** observation [i] has the active columns [A i], the null columns [O i] and the players [P i]: the first entries of its row of [S_star] are the
    active columns, [size] says how many, the entries of its row of [N_star] from there on are the null columns *)
Definition adapted (ts : list mtree) (stacked d w k : nat) (data : marg) (zs : list (list Q)) (X : marg) (xs : list (list Q)) (m : nat)
  (C : list (list nat)) (S_star N_star : zarg) (size : sarg) (A O : nat -> list nat) (P : nat -> list (list nat)) : Prop :=
  is_table X m xs /\ xs <> [] /\ 0 < m /\ exists cs cn ss ns ks, is_ztable S_star cs ss /\ 0 < cs /\ is_ztable N_star cn ns /\ 0 < cn /\ ns <> [] /\ is_sizes size ks /\
  length ss = length xs /\ forall i x, nth_error xs i = Some x -> nth_error ks i = Some (length (A i)) /\
    (length (A i) = m -> explained ts stacked d w k data zs (M_array F64 m [x]) [x] m C (P i)) /\
    (length (A i) <> m -> activated ts stacked d w k data zs (M_array F64 m [x]) [x] m C (A i) (O i) (P i) /\
       exists s n, nth_error ss i = Some s /\ nth_error ns i = Some n /\
         firstn (length (A i)) s = map Z.of_nat (A i) /\ skipn (length (A i)) n = map Z.of_nat (O i)).

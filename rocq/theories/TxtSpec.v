(** The text dumps of XGBoost, written independently of the loader: one line for each node, indented by its depth, the node before
    its children. *)
From Verif Require Import Base LoadModel LoadSpec TxtModel.
From Coq Require Import Ascii String Decimal DecimalString.
Import List ListNotations.
Local Open Scope nat_scope.

(** a number of a node or of a column in decimal digits *)
Definition spelled (n : nat) : text := lit (NilEmpty.string_of_uint (Nat.to_uint n)).
(** characters of a printed number *)
Definition plain (s : text) : Prop := forall c, In c s -> In c (lit "0123456789.+-e").

Section Writer.
(** how a number is printed; the names of the columns; what is printed as the gain of a node, and if the statistics are printed *)
Variables (show : Q -> text) (name : nat -> text) (gain : nat -> text) (stats : bool).
Definition stat (s : text) : text := if stats then s else [].
Definition body (v : xjs) : text :=
  match v with
  | XLeaf _ x c => lit "leaf=" ++ show x ++ stat (lit ",cover=" ++ show c)
  | XNode i s t y n m c _ _ =>
      lit "[" ++ name s ++ lit "<" ++ show t ++ lit "] yes=" ++ spelled y ++ lit ",no=" ++ spelled n ++ lit ",missing=" ++ spelled m ++
      stat (lit ",gain=" ++ gain i ++ lit ",cover=" ++ show c)
  end.
Fixpoint dump (depth : nat) (v : xjs) : list text :=
  (repeat "009"%char depth ++ spelled (xjs_id v) ++ lit ":" ++ body v) ::
  match v with XLeaf _ _ _ => [] | XNode _ _ _ _ _ _ _ l r => dump (S depth) l ++ dump (S depth) r end.
(** every line ends with a newline *)
Definition dumped (v : xjs) : text := concat (map (fun l => l ++ ["010"%char]) (dump 0 v)).
End Writer.
(** the names that XGBoost gives to columns without names *)
Definition index_name (s : nat) : text := lit "f" ++ spelled s.
(** the numbers printed in a dump *)
Fixpoint numbers (v : xjs) : list Q :=
  match v with XLeaf _ x c => [x; c] | XNode _ _ t _ _ _ c l r => t :: c :: numbers l ++ numbers r end.
(** printed numbers are read back *)
Definition readable (float_of : text -> option Q) (show : Q -> text) (q : Q) : Prop := plain (show q) /\ float_of (show q) = Some q.
(** cover of a node *)
Definition covered_by (v : xjs) : Q := match v with XLeaf _ _ c => c | XNode _ _ _ _ _ _ c _ _ => c end.

(** Model of the routines of utils.py that read a tree again on data: rebuild_tree and rebuild_acvtree (230-271), the
    rectangle of a node collected from the leaf upwards (182-212), the rows of a rectangle (178-179, 214-223).
    Simplification: no value is NaN, arrays are not padded. *)
From Verif Require Import Base TreeModel.
Local Open Scope nat_scope.

(** A row of [data] with the row of [y], utils.py 230, 252. *)
Definition obs := (pt * (nat -> Q))%type.
(** np.mean of one column of [y], utils.py 232, 254; None is the NaN of an empty column. *)
Definition mean_col (rows : list obs) (k : nat) : option Q :=
  match rows with [] => None | _ => Some (sumf (fun r => snd r k) rows / Qn (length rows))%Q end.
(** The two arrays written, utils.py 231-232 and 253-254: weights and values (node, output). *)
Definition node_state := ((nat -> nat) * (nat -> nat -> option Q))%type.

Section Rebuild.
Variable t : tree.
(** true: rebuild_acvtree, utils.py 254, which writes every output; false: rebuild_tree, 232, which writes the first. *)
Variable every : bool.
(** utils.py 231-232, 253-254. *)
Definition write_node (i : nat) (rows : list obs) (st : node_state) : node_state :=
  (upd (fst st) i (length rows),
   upd (snd st) i (fun k => if every || (k =? 0) then mean_col rows k else snd st i k)).
(** utils.py 230-249 and 252-271; None: the recursion is not finished. *)
Fixpoint rebuild (fuel i : nat) (rows : list obs) (st : node_state) : option node_state :=
  match fuel with
  | O => None
  | S f =>
    let st1 := write_node i rows st in
    if (crz t i <? 0)%Z then Some st1
    else
      match rebuild f (Z.to_nat (clz t i)) (filter (fun r => qleb (fst r (ftn t i)) (thq t i)) rows) st1 with
      | Some st2 => rebuild f (Z.to_nat (crz t i)) (filter (fun r => qltb (thq t i) (fst r (ftn t i))) rows) st2
      | None => None
      end
  end.
End Rebuild.

(** [part], utils.py 182, 215: the intervals collected for every column. *)
Definition parts := nat -> list (ext * ext).
(** utils.py 215. *)
Definition parts0 : parts := fun _ => [(NInf, PInf)].
(** utils.py 182-204 ([get_partition_tree]); None: the recursion is not finished. *)
Fixpoint get_partition_tree (fuel : nat) (t : tree) (i : nat) (part : parts) : option parts :=
  match fuel with
  | O => None
  | S f =>
    match where_eq (cr t) i, where_eq (cl t) i with
    | [], [] => Some part
    | r :: _, _ => get_partition_tree f t r (upd part (ftn t r) (part (ftn t r) ++ [(Fin (thq t r), PInf)]))
    | [], l :: _ => get_partition_tree f t l (upd part (ftn t l) (part (ftn t l) ++ [(NInf, Fin (thq t l))]))
    end
  end.
(** utils.py 207-211 ([get_final_partition]); a column always has an interval (215). *)
Definition final_partition (part : parts) : rect :=
  fun f => match part f with
           | [] => (NInf, PInf)
           | a :: r => (fold_left ext_max (map fst r) (fst a), fold_left ext_min (map snd r) (snd a))
           end.
(** utils.py 214-223 ([leaves_proba]): the number of rows between the bounds, both included; the product over no
    variable is the number 1, whose sum is 1. *)
Definition leaves_proba (t : tree) (leaf : nat) (data : list pt) (Sv : list nat) : option nat :=
  match get_partition_tree (nn t) t leaf parts0 with
  | None => None
  | Some part =>
    let p := final_partition part in
    Some match Sv with
         | [] => 1
         | _ => length (filter (fun x => forallb (fun s => q_leb_ext (x s) (snd (p s)) && ext_leb_q (fst (p s)) (x s)) Sv) data)
         end
  end.
(** utils.py 178-179 ([nb_row]). *)
Definition nb_row (x : pt) (p : rect) (Sv : list nat) : bool :=
  forallb (fun s => q_leb_ext (x s) (snd (p s)) && ext_ltb_q (fst (p s)) (x s)) Sv.

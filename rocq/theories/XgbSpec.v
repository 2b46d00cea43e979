(** The binary format written by XGBoost, and how XGBoost follows a tree.  Nothing
    here mirrors the reader. *)
From Verif Require Import Base XgbModel.

(** ** Format *)

(** [k] bytes of an integer, lowest first *)
Fixpoint le_bytes (k : nat) (z : Z) : list Z :=
  match k with O => [] | S j => (z mod 256)%Z :: le_bytes j (z / 256)%Z end.
(** a signed or unsigned 32-bit word, a 64-bit word *)
Definition w32 (z : Z) : list Z := le_bytes 4 (z mod 2 ^ 32).
Definition w64 (z : Z) : list Z := le_bytes 8 z.
(** ranges of the fields *)
Definition int32 (z : Z) : Prop := (- 2 ^ 31 <= z < 2 ^ 31)%Z.
Definition uint32 (z : Z) : Prop := (0 <= z < 2 ^ 32)%Z.
Definition uint64 (z : Z) : Prop := (0 <= z < 2 ^ 64)%Z.
Definition node_ok (n : xnode) : Prop :=
  int32 (x_parent n) /\ int32 (x_cleft n) /\ int32 (x_cright n) /\ uint32 (x_sindex n) /\ uint32 (x_info n).
Definition stat_ok (s : xstat) : Prop :=
  uint32 (x_loss s) /\ uint32 (x_hess s) /\ uint32 (x_weight s) /\ int32 (x_cnt s).
(** the declared number of nodes is the number of nodes and of statistics *)
Definition tree_ok (t : xtree) : Prop :=
  int32 (t_roots t) /\ int32 (t_num t) /\ int32 (t_deleted t) /\ int32 (t_depth t) /\ int32 (t_features t) /\
  int32 (t_vector t) /\ t_num t = Z.of_nat (length (t_nodes t)) /\ t_num t = Z.of_nat (length (t_stats t)) /\
  Forall node_ok (t_nodes t) /\ Forall stat_ok (t_stats t).
Definition model_ok (m : xmodel) : Prop :=
  uint32 (m_base m) /\ uint32 (m_features m) /\ int32 (m_class m) /\ int32 (m_extra m) /\ int32 (m_metrics m) /\
  uint64 (Z.of_nat (length (m_obj m))) /\ m_gbm m = gbtree /\ int32 (m_num m) /\ int32 (m_roots m) /\
  int32 (m_features2 m) /\ int32 (m_pad m) /\ uint64 (m_pbuffer m) /\ int32 (m_group m) /\ int32 (m_vector m) /\
  m_num m = Z.of_nat (length (m_trees m)) /\ Forall tree_ok (m_trees m).
(** what is written *)
Definition write_node (n : xnode) : list Z :=
  w32 (x_parent n) ++ w32 (x_cleft n) ++ w32 (x_cright n) ++ w32 (x_sindex n) ++ w32 (x_info n).
Definition write_stat (s : xstat) : list Z := w32 (x_loss s) ++ w32 (x_hess s) ++ w32 (x_weight s) ++ w32 (x_cnt s).
(** [pad]: content of the 31 reserved words *)
Definition write_tree (pad : list Z) (t : xtree) : list Z :=
  w32 (t_roots t) ++ w32 (t_num t) ++ w32 (t_deleted t) ++ w32 (t_depth t) ++ w32 (t_features t) ++ w32 (t_vector t) ++
  pad ++ flat_map write_node (t_nodes t) ++ flat_map write_stat (t_stats t).
Definition write_trees (pads : list (list Z)) (ts : list xtree) : list Z :=
  flat_map (fun p => write_tree (fst p) (snd p)) (combine pads ts).
(** [r1], [r2]: the 29 and 32 reserved words; [rest]: what follows the trees *)
Definition write (m : xmodel) (r1 r2 : list Z) (pads : list (list Z)) (rest : list Z) : list Z :=
  w32 (m_base m) ++ w32 (m_features m) ++ w32 (m_class m) ++ w32 (m_extra m) ++ w32 (m_metrics m) ++ r1 ++
  w64 (Z.of_nat (length (m_obj m))) ++ m_obj m ++ w64 (Z.of_nat (length (m_gbm m))) ++ m_gbm m ++
  w32 (m_num m) ++ w32 (m_roots m) ++ w32 (m_features2 m) ++ w32 (m_pad m) ++ w64 (m_pbuffer m) ++
  w32 (m_group m) ++ w32 (m_vector m) ++ r2 ++ write_trees pads (m_trees m) ++ rest.
(** sizes of the reserved parts *)
Definition pads_ok (m : xmodel) (r1 r2 : list Z) (pads : list (list Z)) : Prop :=
  length r1 = 4 * 29 /\ length r2 = 4 * 32 /\ length pads = length (m_trees m) /\
  Forall (fun p => length p = 4 * 31) pads.
Definition is_byte (b : Z) : Prop := (0 <= b < 256)%Z.
(** the header of recent versions: the four letters b, i, n, f *)
Definition binf : list Z := [98; 105; 110; 102]%Z.

(** ** Trees *)

(** a pattern that is neither infinite nor NaN *)
Definition finite (p : Z) : Prop := (0 <= p < 255 * 2 ^ 23 \/ 2 ^ 31 <= p < 2 ^ 31 + 255 * 2 ^ 23)%Z.
(** XGBoost's node: default direction in the highest bit, column in the others *)
Definition packed (default_left : bool) (column : Z) : Z := ((if default_left then 2 ^ 31 else 0) + column)%Z.
(** child taken: missing follows the default, otherwise strictly below goes left;
    [x] gives the 32-bit patterns of the observation *)
Definition goes (x : nat -> Z) (miss : nat -> bool) (n : xnode) (j : Z) : Prop :=
  exists dl c, x_sindex n = packed dl (Z.of_nat c) /\ (Z.of_nat c < 2 ^ 31)%Z /\
    (if miss c then j = (if dl then x_cleft n else x_cright n)
     else (f_num (x c) < f_num (x_info n))%Q /\ j = x_cleft n \/
          (f_num (x_info n) <= f_num (x c))%Q /\ j = x_cright n).
(** leaf reached from a node *)
Inductive reaches (ns : list xnode) (x : nat -> Z) (miss : nat -> bool) : nat -> nat -> Prop :=
| re_leaf i n : nth_error ns i = Some n -> x_cleft n = (-1)%Z -> reaches ns x miss i i
| re_step i n j k : nth_error ns i = Some n -> x_cleft n <> (-1)%Z -> goes x miss n (Z.of_nat j) ->
    reaches ns x miss j k -> reaches ns x miss i k.
(** both children exist, or there is none; columns and thresholds are proper *)
Definition nodes_ok (ns : list xnode) : Prop :=
  Forall (fun n => uint32 (x_sindex n) /\ finite (x_info n) /\
     (x_cleft n = (-1)%Z \/
      (0 <= x_cleft n < Z.of_nat (length ns))%Z /\ (0 <= x_cright n < Z.of_nat (length ns))%Z /\
      finite (f_prev (x_info n)))) ns.
(** children are numbered after their parent (no recycled node) *)
Definition forward (ns : list xnode) : Prop :=
  forall i n, nth_error ns i = Some n -> x_cleft n <> (-1)%Z ->
    (Z.of_nat i < x_cleft n)%Z /\ (Z.of_nat i < x_cright n)%Z.
(** the only nearest 32-bit number *)
Definition nearest (v : Q) (p : Z) : Prop :=
  finite p /\ forall p', finite p' -> ~ (f_num p' == f_num p)%Q -> (Qabs (f_num p - v) < Qabs (f_num p' - v))%Q.

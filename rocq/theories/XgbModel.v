(** Model of [XGBTreeModelLoader], base_tree.py 1200-1344: the reader of the binary
    dump of an XGBoost model and the trees made from it.  No proofs here.
    Bytes are integers 0..255.  A 32-bit float is its bit pattern; [f_num] is the
    number of a finite pattern.  None is an exception. *)
From Verif Require Import Base TreeModel.

(** ** Reader *)

(** The buffer from [self.pos] on, base_tree.py 1210-1211; reading drops a prefix. *)
Notation bytes := (list Z).
(** struct.unpack, base_tree.py 1328-1332: little-endian unsigned value. *)
Fixpoint le_value (l : bytes) : Z :=
  match l with [] => 0%Z | b :: r => (b + 256 * le_value r)%Z end.
(** base_tree.py 1328-1332 for a type of [k] bytes: struct.error when the buffer is short. *)
Definition read_u (k : nat) (buf : bytes) : option (Z * bytes) :=
  if k <=? length buf then Some (le_value (firstn k buf), skipn k buf) else None.
(** struct.unpack('i'), base_tree.py 1330: two's complement on 32 bits. *)
Definition signed (z : Z) : Z := if (z <? 2 ^ 31)%Z then z else (z - 2 ^ 32)%Z.
(** [self.read('i')], base_tree.py 1328-1332. *)
Definition read_i (buf : bytes) : option (Z * bytes) :=
  match read_u 4 buf with Some (z, r) => Some (signed z, r) | None => None end.
(** [self.read('I')] and [self.read('f')] (the pattern), base_tree.py 1328-1332. *)
Definition read_w (buf : bytes) : option (Z * bytes) := read_u 4 buf.
(** [self.read('Q')], base_tree.py 1328-1332. *)
Definition read_q (buf : bytes) : option (Z * bytes) := read_u 8 buf.
(** [self.read_arr('i', n)], base_tree.py 1334-1339; the value is not used. *)
Definition skip_i (n : nat) (buf : bytes) : option bytes :=
  if 4 * n <=? length buf then Some (skipn (4 * n) buf) else None.
(** base_tree.py 1341-1344 ([read_str]): a slice never fails.  Simplification: the
    string is kept as its bytes, so UnicodeDecodeError is not modelled. *)
Definition read_str (size : Z) (buf : bytes) : bytes * bytes :=
  (firstn (Z.to_nat size) buf, skipn (Z.to_nat size) buf).

(** Five fields of a node, base_tree.py 1277-1282. *)
Record xnode := mkXnode { x_parent : Z; x_cleft : Z; x_cright : Z; x_sindex : Z; x_info : Z }.
(** Four statistics of a node, base_tree.py 1289-1293. *)
Record xstat := mkXstat { x_loss : Z; x_hess : Z; x_weight : Z; x_cnt : Z }.
(** One tree, base_tree.py 1263-1293. *)
Record xtree := mkXtree {
  t_roots : Z; t_num : Z; t_deleted : Z; t_depth : Z; t_features : Z; t_vector : Z;
  t_nodes : list xnode; t_stats : list xstat
}.
(** Attributes of the loader, base_tree.py 1214-1241. *)
Record xmodel := mkXmodel {
  m_base : Z; m_features : Z; m_class : Z; m_extra : Z; m_metrics : Z; m_obj : bytes; m_gbm : bytes;
  m_num : Z; m_roots : Z; m_features2 : Z; m_pad : Z; m_pbuffer : Z; m_group : Z; m_vector : Z;
  m_trees : list xtree
}.
(** Sequencing of reads: the exception of a read ends the constructor, base_tree.py 1210-1293. *)
Definition bind {A B} (o : option (A * bytes)) (f : A -> bytes -> option B) : option B :=
  match o with Some (a, r) => f a r | None => None end.
(** base_tree.py 1277-1282: one node. *)
Definition read_node (buf : bytes) : option (xnode * bytes) :=
  bind (read_i buf) (fun p buf => bind (read_i buf) (fun l buf => bind (read_i buf) (fun r buf =>
  bind (read_w buf) (fun s buf => bind (read_w buf) (fun i buf => Some (mkXnode p l r s i, buf)))))).
(** base_tree.py 1289-1293: the statistics of one node. *)
Definition read_stat (buf : bytes) : option (xstat * bytes) :=
  bind (read_w buf) (fun l buf => bind (read_w buf) (fun h buf => bind (read_w buf) (fun w buf =>
  bind (read_i buf) (fun c buf => Some (mkXstat l h w c, buf))))).
(** [for j in range(n)] appending what is read, base_tree.py 1277, 1289. *)
Fixpoint read_many {A} (read1 : bytes -> option (A * bytes)) (n : nat) (buf : bytes) : option (list A * bytes) :=
  match n with
  | O => Some ([], buf)
  | S k => bind (read1 buf) (fun a buf => bind (read_many read1 k buf) (fun l buf => Some (a :: l, buf)))
  end.
(** base_tree.py 1263-1293: one tree; np.zeros of a negative size raises. *)
Definition read_tree (buf : bytes) : option (xtree * bytes) :=
  bind (read_i buf) (fun ro buf => bind (read_i buf) (fun nu buf => bind (read_i buf) (fun de buf =>
  bind (read_i buf) (fun dp buf => bind (read_i buf) (fun fe buf => bind (read_i buf) (fun ve buf =>
  match skip_i 31 buf with
  | None => None
  | Some buf =>
      if (nu <? 0)%Z then None else
      bind (read_many read_node (Z.to_nat nu) buf) (fun ns buf =>
      bind (read_many read_stat (Z.to_nat nu) buf) (fun ss buf =>
      Some (mkXtree ro nu de dp fe ve ns ss, buf)))
  end)))))).
(** bytes.lstrip(b'binf'), base_tree.py 1210: leading bytes among b, i, n, f. *)
Fixpoint lstrip (buf : bytes) : bytes :=
  match buf with
  | [] => []
  | b :: r => if ((b =? 98) || (b =? 105) || (b =? 110) || (b =? 102))%Z then lstrip r else buf
  end.
(** The string "gbtree", base_tree.py 1232. *)
Definition gbtree : bytes := [103; 98; 116; 114; 101; 101]%Z.
(** Equality of two strings, base_tree.py 1232. *)
Definition same_bytes (a b : bytes) : bool := if list_eq_dec Z.eq_dec a b then true else false.
(** base_tree.py 1208-1293 ([__init__]).  Simplification: the transformation of the base
    score for logistic objectives (1227-1230) is left out. *)
Definition parse (raw : bytes) : option xmodel :=
  let buf := lstrip raw in
  bind (read_w buf) (fun ba buf => bind (read_w buf) (fun fe buf => bind (read_i buf) (fun cl buf =>
  bind (read_i buf) (fun ex buf => bind (read_i buf) (fun me buf =>
  match skip_i 29 buf with
  | None => None
  | Some buf =>
      bind (read_q buf) (fun lo buf => let (ob, buf) := read_str lo buf in
      bind (read_q buf) (fun lg buf => let (gb, buf) := read_str lg buf in
      if negb (same_bytes gb gbtree) then None else
      bind (read_i buf) (fun nt buf => bind (read_i buf) (fun ro buf => bind (read_i buf) (fun f2 buf =>
      bind (read_i buf) (fun pa buf => bind (read_q buf) (fun pb buf => bind (read_i buf) (fun gr buf =>
      bind (read_i buf) (fun ve buf =>
      match skip_i 32 buf with
      | None => None
      | Some buf =>
          if (nt <? 0)%Z then None else
          bind (read_many read_tree (Z.to_nat nt) buf) (fun ts _ =>
          Some (mkXmodel ba fe cl ex me ob gb nt ro f2 pa pb gr ve ts))
      end)))))))))
  end))))).

(** ** Trees *)

(** Magnitude of a finite pattern without its sign bit, in units of 2^-149 (32-bit
    floats of base_tree.py 1276, 1299). *)
Definition f_mag (p : Z) : Z :=
  (if p <? 2 ^ 23 then p else (p mod 2 ^ 23 + 2 ^ 23) * 2 ^ (p / 2 ^ 23 - 1))%Z.
(** Signed magnitude of a pattern, base_tree.py 1276. *)
Definition f_int (p : Z) : Z := (if p <? 2 ^ 31 then f_mag p else - f_mag (p - 2 ^ 31))%Z.
(** The number of a finite pattern, base_tree.py 1276. *)
Definition f_num (p : Z) : Q := Qmake (f_int p) (2 ^ 149).
(** np.nextafter(v, -inf) on patterns that are not NaN, base_tree.py 1312. *)
Definition f_prev (p : Z) : Z :=
  (if (p =? 0) || (p =? 2 ^ 31) then 2 ^ 31 + 1
   else if p <? 2 ^ 31 then p - 1
   else if p =? 255 * 2 ^ 23 + 2 ^ 31 then p else p + 1)%Z.
(** base_tree.py 1304-1307: default child of a node. *)
Definition x_default (n : xnode) : Z :=
  if negb (Z.shiftr (x_sindex n) 31 =? 0)%Z then x_cleft n else x_cright n.
(** base_tree.py 1308: the feature is made of the low 31 bits. *)
Definition x_feature (n : xnode) : Z := Z.land (x_sindex n) (2 ^ 31 - 1).
(** base_tree.py 1309-1312, 1299: the threshold stays 0 for a leaf. *)
Definition x_threshold (n : xnode) : Q := if (0 <=? x_cleft n)%Z then f_num (f_prev (x_info n)) else 0%Q.
(** base_tree.py 1313-1314, 1300: the value stays 0 for an inner node. *)
Definition x_value (n : xnode) : Q := if (0 <=? x_cleft n)%Z then 0%Q else f_num (x_info n).
(** base_tree.py 1295-1326 for one tree, [values * scaling] with scaling 1 (895).
    Simplification: thresholds and values are finite. *)
Definition x_tree (t : xtree) : tree * list Q :=
  let ns := t_nodes t in
  (mkTree (map x_cleft ns) (map x_cright ns) (map x_default ns) (map x_feature ns)
          (map x_threshold ns) (map (fun n => x_value n * 1)%Q ns),
   map (fun s => f_num (x_hess s)) (t_stats t)).

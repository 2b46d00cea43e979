(** Model of the constructor of a single tree from the text dump of XGBoost (base_tree.py 1041-1092).  Exceptions are None.  No proofs
    here. *)
From Verif Require Import Base TreeModel LoadModel.
From Coq Require Import Ascii String Decimal DecimalString.
Import List ListNotations.
Local Open Scope nat_scope.

(** a str of Python, base_tree.py 1041 *)
Definition text : Type := list ascii.
(** a literal of the source, base_tree.py 1045-1080 *)
Definition lit (s : string) : text := list_ascii_of_string s.
(** [str.startswith], used by [find] below (base_tree.py 1060-1075) *)
Fixpoint starts (p s : text) : bool :=
  match p, s with
  | [], _ => true
  | a :: p, b :: s => Ascii.eqb a b && starts p s
  | _ :: _, [] => false
  end.
(** [p in s], base_tree.py 1060, 1072, 1075 *)
Fixpoint occurs (p s : text) : bool :=
  starts p s || match s with [] => false | _ :: s => occurs p s end.
(** [s.split(sep)], base_tree.py 1045-1080: from left to right; [skip] characters of a separator are left, [cur] is the piece so
    far, backwards *)
Fixpoint split_from (sep : text) (skip : nat) (cur : text) (s : text) : list text :=
  match s with
  | [] => [rev cur]
  | c :: r =>
      match skip with
      | S k => split_from sep k cur r
      | O => if starts sep s then rev cur :: split_from sep (length sep - 1) [] r else split_from sep 0 (c :: cur) r
      end
  end.
(** base_tree.py 1045-1080 *)
Definition pieces (sep : string) (s : text) : list text := split_from (lit sep) 0 [] s.
(** [str.lstrip()], base_tree.py 1045.  Simplification: the ASCII blanks. *)
Fixpoint lstrip (s : text) : text :=
  match s with
  | c :: r => if existsb (Ascii.eqb c) [" "; "009"; "010"; "011"; "012"; "013"]%char then lstrip r else s
  | [] => []
  end.
(** [int(s)], base_tree.py 1047, 1068-1076.  Simplification: decimal digits only (no blanks, signs, underscores, which the dumps do
    not contain). *)
Definition int_of (s : text) : option nat :=
  match s with [] => None | _ => option_map Nat.of_uint (NilEmpty.uint_of_string (string_of_list_ascii s)) end.
(** one more line in [nodes_dict], base_tree.py 1047: an earlier line with the same number is replaced in its place *)
Fixpoint dict_set (d : list (nat * text)) (k : nat) (v : text) : list (nat * text) :=
  match d with
  | [] => [(k, v)]
  | (k', v') :: d => if k' =? k then (k, v) :: d else (k', v') :: dict_set d k v
  end.
(** None as soon as one is missing, base_tree.py 1045-1080 *)
Definition bind {A B} (o : option A) (f : A -> option B) : option B := match o with Some a => f a | None => None end.

Section Loader.
(** [float(s)] (base_tree.py 1062-1077), any reading of numbers *)
Variable float_of : text -> option Q.

(** [s.split(sep)[1]], base_tree.py 1062-1078 *)
Definition after (sep : string) (s : text) : option text := nth_error (pieces sep s) 1.
(** [s.split(sep)[0]], base_tree.py 1062-1078 *)
Definition before (sep : string) (s : text) : option text := nth_error (pieces sep s) 0.
(** [s.split(sep)[1].split(",")[0]], base_tree.py 1062, 1068-1070, 1078 *)
Definition field (sep : string) (s : text) : option text := bind (after sep s) (before ",").
(** base_tree.py 1045-1047: the lines and the dictionary *)
Fixpoint read_lines (ls : list text) (d : list (nat * text)) : option (list (nat * text)) :=
  match ls with
  | [] => Some d
  | l :: ls =>
      bind (bind (before ":" l) int_of) (fun k => bind (after ":" l) (fun v => read_lines ls (dict_set d k v)))
  end.
(** what survives from one turn of the loop to the next, base_tree.py 1057-1086: the arrays and the variables [feature] and
    [threshold], unbound at first *)
Record turn := mkTurn { v_arrays : arrays; v_feature : option nat; v_threshold : option Q }.
(** base_tree.py 1072-1077: one of the two [if]s *)
Definition read_test (sep : string) (ft : text) (old : option nat * option Q) : option (option nat * option Q) :=
  if occurs (lit sep) ft
  then bind (bind (before sep ft) (fun s => int_of (skipn 2 s))) (fun f =>
       bind (bind (after sep ft) (fun s => float_of (removelast s))) (fun t => Some (Some f, Some t)))
  else Some old.
(** base_tree.py 1058-1086: one line *)
Definition read_node (key : nat) (value : text) (st : turn) : option turn :=
  let a := v_arrays st in
  if occurs (lit "leaf") value
  then bind (bind (field "leaf=" value) float_of) (fun v =>
       bind (bind (after "cover=" value) float_of) (fun c =>
       Some (mkTurn (mkArrays (a_cl a) (a_cr a) (a_cd a) (a_ft a) (a_th a) (upd (a_vl a) key v) (upd (a_w a) key c)) (v_feature st) (v_threshold st))))
  else bind (bind (field "yes=" value) int_of) (fun l =>
       bind (bind (field "no=" value) int_of) (fun r =>
       bind (bind (field "missing=" value) int_of) (fun df =>
       bind (before " " value) (fun ft =>
       bind (read_test "<" ft (v_feature st, v_threshold st)) (fun p =>
       bind (read_test "=" ft p) (fun p =>
       bind (bind (field "cover=" value) float_of) (fun c =>
       bind (fst p) (fun f => bind (snd p) (fun t =>
       Some (mkTurn (mkArrays (upd (a_cl a) key (Z.of_nat l)) (upd (a_cr a) key (Z.of_nat r)) (upd (a_cd a) key (Z.of_nat df))
                              (upd (a_ft a) key (Z.of_nat f)) (upd (a_th a) key t) (a_vl a) (upd (a_w a) key c)) (Some f) (Some t)))))))))))
  .
(** base_tree.py 1057-1086: the loop *)
Fixpoint read_nodes (d : list (nat * text)) (st : turn) : option turn :=
  match d with
  | [] => Some st
  | (k, v) :: d => bind (read_node k v st) (read_nodes d)
  end.
(** base_tree.py 1049-1055: the arrays at the start *)
Definition blank : arrays :=
  mkArrays (fun _ => (-1)%Z) (fun _ => (-1)%Z) (fun _ => (-1)%Z) (fun _ => (-2)%Z) (fun _ => (-1)%Q) (fun _ => 1%Q) (fun _ => 0%Q).
(** base_tree.py 1041-1094: the tree and its weights *)
Definition load_txt (scaling : Q) (s : text) : option (tree * (nat -> Q)) :=
  bind (read_lines (map lstrip (pieces (String "010" EmptyString) (removelast s))) []) (fun d =>
  bind (read_nodes d (mkTurn blank None None)) (fun st =>
  Some (finish (list_max (map fst d) + 1) scaling (v_arrays st), a_w (v_arrays st)))).
End Loader.

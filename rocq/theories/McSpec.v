(** Vocabulary for the Monte Carlo expectations. *)
From Verif Require Import Base MvnModel MvnSpec GmmModel GmmSpec McModel.
Local Open Scope nat_scope.

(** the same number, or no number *)
Definition same (a b : option Q) : Prop := match a, b with Some u, Some v => (u == v)%Q | None, None => True | _, _ => False end.
(** the model reads the [n] variables *)
Definition reads (n : nat) (f : vec -> option Q) : Prop := forall u v, (forall k, k < n -> (u k == v k)%Q) -> same (f u) (f v).
(** how many of the unknown variables come before [k] *)
Definition rank (S : list nat) (k : nat) : nat := length (filter (fun i => negb (memb i S)) (seq 0 k)).
(** the observation completed with a draw of the unknown numeric variables and the indicators of a class *)
Definition point (G : gmm) (x : vec) (S : list nat) (y : cls) (row : list Q) : vec :=
  fun k => if k <? gm_d G then (if memb k S then x k else nth (rank S k) row 0%Q) else indicator G y k.
(** the observation completed with a row of all the variables *)
Definition mixed (x : vec) (S : list nat) (row : list Q) : vec := fun k => if memb k S then x k else nth k row 0%Q.
(** np.random.choice returns [N] classes of the list *)
Definition choice_ok (choice : list cls -> list Q -> nat -> option (list cls)) : Prop := forall classes p N draws,
  choice classes p N = Some draws -> length draws = N /\ forall y, In y draws -> In y classes.
(** the sampler returns the values it is asked for *)
Definition rvs_ok (rvs : gauss -> nat -> option (list Q)) : Prop := forall g N l, rvs g N = Some l -> length l = N * g_dim g.
(** the frequencies of the classes are the probabilities *)
Definition choice_exact (choice : list cls -> list Q -> nat -> option (list cls)) : Prop := forall classes p N draws,
  NoDup classes -> choice classes p N = Some draws -> forall i, i < length classes -> (Qn (count_cls (nth i classes Ka) draws) == Qn N * nth i p 0)%Q.
(** the mean of the sample is the mean *)
Definition rvs_exact (rvs : gauss -> nat -> option (list Q)) : Prop := forall g N l, rvs g N = Some l ->
  forall j, j < g_dim g -> (sumf (fun i => nth (i * g_dim g + j)%nat l 0) (seq 0 N) == Qn N * g_mean g j)%Q.

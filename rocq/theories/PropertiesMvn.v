(** C110: the parameters of conditional Gaussian distributions. *)
From Verif Require Import Base MvnModel MvnSpec MvnProofs.
Local Open Scope nat_scope.

(** ** an inverse for the examples: matrices with one or two rows *)
Definition ex_inv (k : nat) (A : mat) : option mat :=
  match k with
  | 1 => if qeqb (A 0 0) 0 then None else Some (fun _ _ => / A 0%nat 0%nat)%Q
  | 2 => let e := (A 0%nat 0%nat * A 1%nat 1%nat - A 0%nat 1%nat * A 1%nat 0%nat)%Q in
         if qeqb e 0 then None
         else Some (fun i j => match i, j with
                               | O, O => (A 1%nat 1%nat / e)%Q | O, _ => (- A 0%nat 1%nat / e)%Q
                               | _, O => (- A 1%nat 0%nat / e)%Q | _, _ => (A 0%nat 0%nat / e)%Q end)
  | _ => None
  end.
Lemma ex_inv_sound : inv_sound ex_inv.
Proof.
  intros k A B H. destruct k as [|[|[|k]]]; cbn [ex_inv] in H; try discriminate.
  - destruct (qeqb_spec (A 0 0) 0) as [|Hn]; [discriminate|]. injection H as <-. intros i j Hi Hj.
    assert (i = 0) by lia. assert (j = 0) by lia. subst. cbn. split; field; exact Hn.
  - cbv zeta in H. destruct (qeqb_spec (A 0%nat 0%nat * A 1%nat 1%nat - A 0%nat 1%nat * A 1%nat 0%nat) 0)%Q as [|Hn]; [discriminate|]. injection H as <-.
    intros i j Hi Hj. destruct i as [|[|i]]; [| |lia]; (destruct j as [|[|j]]; [| |lia]); cbn; split; field; exact Hn.
Qed.
Definition ex_mean : vec := fun i => nth i [1; 2; 3]%Q 0%Q.
Definition ex_cov : mat := fun i j => nth j (nth i [[2; 1; 0]; [1; 3; 1]; [0; 1; 4]]%Q []) 0%Q.
Lemma ex_symm : symm 3 ex_cov.
Proof. intros i j Hi Hj. destruct i as [|[|[|i]]]; [| | |lia]; (destruct j as [|[|[|j]]]; [| | |lia]); reflexivity. Qed.
Lemma ex_psd : psd 3 ex_cov.
Proof.
  intro u. assert (E : (covar 3 ex_cov u u == (u 0%nat + u 1%nat) * (u 0%nat + u 1%nat) + (u 1%nat + u 2%nat) * (u 1%nat + u 2%nat) + u 0%nat * u 0%nat + u 1%nat * u 1%nat + 3 * (u 2%nat * u 2%nat))%Q).
  { unfold covar. cbn [seq sumf ex_cov nth]. ring. }
  rewrite E. assert (Hs : forall a, (0 <= a * a)%Q) by (intro a; nra).
  pose proof (Hs (u 0%nat + u 1%nat)%Q). pose proof (Hs (u 1%nat + u 2%nat)%Q). pose proof (Hs (u 0)). pose proof (Hs (u 1)). pose proof (Hs (u 2)). lra.
Qed.
Definition ex_table (o : option gauss) : option (nat * list Q * list (list Q)) :=
  match o with
  | Some g => Some (g_dim g, map (fun i => Qred (g_mean g i)) (seq 0 (g_dim g)), map (fun i => map (fun j => Qred (g_cov g i j)) (seq 0 (g_dim g))) (seq 0 (g_dim g)))
  | None => None
  end.
Definition ex_some {A} (o : option A) : bool := match o with Some _ => true | None => false end.

(** The mean is the linear regression on the known variables, the covariance is the one of what the regression leaves. *)
Theorem C110_conditional : forall inv n mean cov bar set x g, inv_sound inv -> set <> [] -> length x = length set ->
  condMVN inv n mean cov bar set x = Some g ->
  g_dim g = length bar /\ exists W, regression n cov bar set W /\
    (forall i, i < length bar -> (g_mean g i == mean (nth i bar 0%nat) + sumf (fun j => W i j * (nth j x 0 - mean (nth j set 0%nat))) (seq 0 (length set)))%Q) /\
    (forall i j, i < length bar -> j < length bar ->
       (g_cov g i j == covar n cov (resid (nth i bar 0%nat) set (W i)) (resid (nth j bar 0%nat) set (W j)))%Q).
Proof. exact conditional_spec. Qed.
Print Assumptions C110_conditional.
Example C110_conditional_example : inv_sound ex_inv /\
  ex_table (condMVN ex_inv 3 ex_mean ex_cov [0; 2] [1] [5%Q]) = Some (2, [2; 4]%Q, [[5 # 3; - 1 # 3]; [- 1 # 3; 11 # 3]]%Q) /\
  ex_table (condMVN ex_inv 3 ex_mean ex_cov [0] [2; 1] [3%Q; 5%Q]) = Some (1, [23 # 11]%Q, [[18 # 11]]%Q).
Proof. split; [exact ex_inv_sound|]. vm_compute. auto. Qed.

(** A covariance stays a covariance. *)
Theorem C110_symmetric : forall inv n mean cov bar set x g, inv_sound inv -> set <> [] -> symm n cov ->
  condMVN inv n mean cov bar set x = Some g -> symm (g_dim g) (g_cov g).
Proof. exact cond_symm. Qed.
Print Assumptions C110_symmetric.
Theorem C110_positive : forall inv n mean cov bar set x g, inv_sound inv -> set <> [] -> psd n cov ->
  condMVN inv n mean cov bar set x = Some g -> psd (g_dim g) (g_cov g).
Proof. exact cond_psd. Qed.
Print Assumptions C110_positive.
(** No linear prediction leaves less variance. *)
Theorem C110_best : forall inv n mean cov bar set x g, inv_sound inv -> set <> [] -> symm n cov -> psd n cov ->
  condMVN inv n mean cov bar set x = Some g ->
  forall i w, i < length bar -> (g_cov g i i <= covar n cov (resid (nth i bar 0%nat) set w) (resid (nth i bar 0%nat) set w))%Q.
Proof. exact cond_best. Qed.
Print Assumptions C110_best.
(** The covariance is what is explained and what is left. *)
Theorem C110_total : forall inv n mean cov bar set x g, inv_sound inv -> set <> [] -> symm n cov ->
  condMVN inv n mean cov bar set x = Some g ->
  exists W, regression n cov bar set W /\ forall i j, i < length bar -> j < length bar ->
    (cov (nth i bar 0%nat) (nth j bar 0%nat) == g_cov g i j + covar n cov (comb set (W i)) (comb set (W j)))%Q.
Proof. exact cond_total. Qed.
Print Assumptions C110_total.
Example C110_covariance_example : symm 3 ex_cov /\ psd 3 ex_cov /\ ex_some (condMVN ex_inv 3 ex_mean ex_cov [0; 2] [1] [5%Q]) = true /\
  (covar 3 ex_cov (resid 0 [1%nat] (fun _ => 1 # 2)) (resid 0 [1%nat] (fun _ => 1 # 2)) == 7 # 4)%Q.
Proof. split; [exact ex_symm|]. split; [exact ex_psd|]. split; vm_compute; reflexivity. Qed.

(** A variable that is known has its value and no variance; at the means nothing is learnt; without correlation the
    distribution is the marginal one. *)
Theorem C110_known : forall inv n mean cov bar set x g i j, inv_sound inv -> length x = length set ->
  condMVN inv n mean cov bar set x = Some g -> i < length bar -> j < length set -> nth i bar 0 = nth j set 0 ->
  (g_mean g i == nth j x 0%Q)%Q /\ forall k, (g_cov g i k == 0)%Q.
Proof. exact cond_known. Qed.
Print Assumptions C110_known.
Theorem C110_at_mean : forall inv n mean cov bar set g, set <> [] ->
  condMVN inv n mean cov bar set (map mean set) = Some g ->
  forall i, i < length bar -> (g_mean g i == mean (nth i bar 0%nat))%Q.
Proof. exact cond_at_mean. Qed.
Print Assumptions C110_at_mean.
Theorem C110_uncorrelated : forall inv n mean cov bar set x g, inv_sound inv -> set <> [] ->
  condMVN inv n mean cov bar set x = Some g ->
  (forall i j, i < length bar -> j < length set -> (cov (nth i bar 0%nat) (nth j set 0%nat) == 0)%Q) ->
  exists h, marMVN n mean cov bar set x = Some h /\ same_gauss g h.
Proof. exact cond_uncorrelated. Qed.
Print Assumptions C110_uncorrelated.
Example C110_known_example :
  ex_table (condMVN ex_inv 3 ex_mean ex_cov [1; 0] [2; 1] [7%Q; 5%Q]) = Some (2, [5; 19 # 11]%Q, [[0; 0]; [0; 18 # 11]]%Q) /\
  ex_table (condMVN ex_inv 3 ex_mean ex_cov [0] [2; 1] (map ex_mean [2; 1])) = Some (1, [1]%Q, [[18 # 11]]%Q) /\
  ex_table (condMVN ex_inv 3 ex_mean ex_cov [0] [2] [7%Q]) = Some (1, [1]%Q, [[2]]%Q) /\ (ex_cov 0%nat 2%nat == 0)%Q.
Proof. vm_compute. auto. Qed.

(** The order of the known variables does not matter; the variables of interest can be taken apart. *)
Theorem C110_order : forall inv n mean cov bar set set' xv g g', inv_sound inv -> Permutation set set' ->
  condMVN inv n mean cov bar set (map xv set) = Some g -> condMVN inv n mean cov bar set' (map xv set') = Some g' -> same_gauss g g'.
Proof. exact cond_order. Qed.
Print Assumptions C110_order.
Theorem C110_select : forall inv n mean cov bar set x g I, set <> [] -> (forall a, In a I -> a < length bar) ->
  condMVN inv n mean cov bar set x = Some g ->
  exists h, condMVN inv n mean cov (map (fun a => nth a bar 0) I) set x = Some h /\ same_gauss h (marginal (g_mean g) (g_cov g) I).
Proof. exact cond_select. Qed.
Print Assumptions C110_select.
(** Learning some variables and then others is learning them together. *)
Theorem C110_chain : forall inv n mean cov b s t xs xt g1 g2 g, inv_sound inv -> s <> [] -> t <> [] ->
  length xs = length s -> length xt = length t ->
  condMVN inv n mean cov (t ++ b) s xs = Some g1 ->
  condMVN inv (g_dim g1) (g_mean g1) (g_cov g1) (seq (length t) (length b)) (seq 0 (length t)) xt = Some g2 ->
  condMVN inv n mean cov b (s ++ t) (xs ++ xt) = Some g -> same_gauss g2 g.
Proof. exact cond_chain. Qed.
Print Assumptions C110_chain.
Example C110_chain_example :
  ex_table (condMVN ex_inv 3 ex_mean ex_cov [0] ([2] ++ [1]) ([7%Q] ++ [5%Q])) = Some (1, [19 # 11]%Q, [[18 # 11]]%Q) /\
  match condMVN ex_inv 3 ex_mean ex_cov ([1] ++ [0]) [2] [7%Q] with
  | Some g1 => ex_table (condMVN ex_inv (g_dim g1) (g_mean g1) (g_cov g1) (seq 1 1) (seq 0 1) [5%Q])
  | None => None
  end = Some (1, [19 # 11]%Q, [[18 # 11]]%Q) /\
  ex_table (condMVN ex_inv 3 ex_mean ex_cov [0] [1; 2] [5%Q; 7%Q]) = Some (1, [19 # 11]%Q, [[18 # 11]]%Q).
Proof. vm_compute. auto. Qed.
(** The density of all the variables is the density of the known ones times the density of the result: the quadratic forms
    in the exponents add up. *)
Theorem C110_density : forall inv n mean cov b s xs g B P D, inv_sound inv -> s <> [] -> length xs = length s -> symm n cov ->
  condMVN inv n mean cov b s xs = Some g ->
  is_inverse (length s) (msub cov s s) B -> is_inverse (length (s ++ b)) (msub cov (s ++ b) (s ++ b)) P ->
  is_inverse (g_dim g) (g_cov g) D ->
  forall xb : vec,
  (energy (length (s ++ b)) P (fun i => (if (i <? length s)%nat then nth i xs 0 else xb (i - length s)%nat) - mean (nth i (s ++ b) 0%nat)) ==
   energy (length s) B (fun i => nth i xs 0 - mean (nth i s 0%nat)) +
   energy (g_dim g) D (fun i => xb i - g_mean g i))%Q.
Proof. exact cond_density. Qed.
Print Assumptions C110_density.
Example C110_density_example :
  ex_some (ex_inv 1 (msub ex_cov [1] [1])) = true /\ ex_some (ex_inv 2 (msub ex_cov ([1] ++ [0]) ([1] ++ [0]))) = true /\
  match condMVN ex_inv 3 ex_mean ex_cov [0] [1] [5%Q] with Some g => ex_some (ex_inv (g_dim g) (g_cov g)) | None => false end = true.
Proof. vm_compute. auto. Qed.

(** The full statement, for every set of known variables, is: the result is the distribution of the variables of interest.
    Without known variables it holds when all the variables are asked for in order. *)
Theorem C110_empty_partial : forall inv n mean cov x, exists g,
  condMVN inv n mean cov (seq 0 n) [] x = Some g /\ same_gauss g (marginal mean cov (seq 0 n)).
Proof.
  intros inv n mean cov x. eexists. split; [reflexivity|]. unfold same_gauss, marginal. cbn [g_dim g_mean g_cov]. rewrite seq_length.
  split; [reflexivity|]. split.
  - intros i Hi. rewrite seq_nth by exact Hi. reflexivity.
  - intros i j Hi Hj. rewrite !seq_nth by assumption. reflexivity.
Qed.
Print Assumptions C110_empty_partial.
Theorem C110_empty_refuted : exists inv n mean cov bar x g, condMVN inv n mean cov bar [] x = Some g /\ g_dim g <> length bar.
Proof. exists ex_inv, 3, ex_mean, ex_cov, [1], [], {| g_dim := 3; g_mean := ex_mean; g_cov := ex_cov |}. split; [reflexivity|discriminate]. Qed.
Print Assumptions C110_empty_refuted.
Theorem C110_empty_order_refuted : exists inv n mean cov bar x g, Permutation bar (seq 0 n) /\
  condMVN inv n mean cov bar [] x = Some g /\ ~ same_gauss g (marginal mean cov bar).
Proof.
  exists ex_inv, 3, ex_mean, ex_cov, [1; 0; 2], [], {| g_dim := 3; g_mean := ex_mean; g_cov := ex_cov |}.
  split; [apply perm_swap|]. split; [reflexivity|]. intros [_ [H _]]. specialize (H 0 (ltac:(cbn; lia))). vm_compute in H. discriminate.
Qed.
Print Assumptions C110_empty_order_refuted.
(** One value given for several known variables is spread over them, no error is raised. *)
Theorem C110_lengths_refuted : exists inv n mean cov bar set x g, inv_sound inv /\ length x <> length set /\
  condMVN inv n mean cov bar set x = Some g.
Proof.
  destruct (condMVN ex_inv 3 ex_mean ex_cov [0] [2; 1] [5%Q]) as [g|] eqn:E; [|vm_compute in E; discriminate].
  exists ex_inv, 3, ex_mean, ex_cov, [0], [2; 1], [5%Q], g. split; [exact ex_inv_sound|]. split; [discriminate|exact E].
Qed.
Print Assumptions C110_lengths_refuted.

(** A sample has a row for each draw, in the order of the generator. *)
Theorem C110_sample : forall inv rvs N n mean cov bar set x rows, (forall g M l, rvs g M = Some l -> length l = M * g_dim g) ->
  sampleMVN inv rvs N n mean cov bar set x = Some rows ->
  exists g l, condMVN inv n mean cov bar set x = Some g /\ rvs g N = Some l /\ N * g_dim g = N * length bar /\
    length rows = N /\ (forall i, i < N -> length (nth i rows []) = length bar) /\ concat rows = l.
Proof. exact sample_spec. Qed.
Print Assumptions C110_sample.
(** Without known variables and with a part of the variables asked for, sampling raises. *)
Theorem C110_sample_raises : forall inv rvs N n mean cov bar x, (forall g M l, rvs g M = Some l -> length l = M * g_dim g) ->
  0 < N -> length bar <> n -> sampleMVN inv rvs N n mean cov bar [] x = None.
Proof. exact sample_empty_raises. Qed.
Print Assumptions C110_sample_raises.
Definition ex_rvs (g : gauss) (N : nat) : option (list Q) := Some (flat_map (fun _ => map (g_mean g) (seq 0 (g_dim g))) (seq 0 N)).
Lemma ex_rvs_size : forall g M l, ex_rvs g M = Some l -> length l = M * g_dim g.
Proof.
  intros g M l H. injection H as <-.
  assert (G : forall a, length (flat_map (fun _ : nat => map (g_mean g) (seq 0 (g_dim g))) (seq a M)) = M * g_dim g); [|apply G].
  induction M as [|M IH]; intro a; [reflexivity|]. cbn [seq flat_map]. rewrite app_length, map_length, seq_length, IH. reflexivity.
Qed.
Example C110_sample_example : (forall g M l, ex_rvs g M = Some l -> length l = M * g_dim g) /\
  match sampleMVN ex_inv ex_rvs 2 3 ex_mean ex_cov [0; 2] [1] [5%Q] with
  | Some rows => map (map Qred) rows = [[2; 4]; [2; 4]]%Q | None => False end /\
  sampleMVN ex_inv ex_rvs 2 3 ex_mean ex_cov [0; 2] [] [] = None.
Proof. split; [exact ex_rvs_size|]. vm_compute. auto. Qed.
(** Sampling from the marginal distribution never works, though the parameters and the generator are fine. *)
Theorem C110_marginal_sample_refuted : exists rvs N n mean cov bar set g l,
  marMVN n mean cov bar set [] = Some g /\ rvs g N = Some l /\ length l = N * length bar /\
  sampleMarMVN rvs N n mean cov bar set = None.
Proof.
  exists ex_rvs, 2, 3, ex_mean, ex_cov, [0; 2], [1], {| g_dim := 2; g_mean := vsub ex_mean [0; 2]; g_cov := msub ex_cov [0; 2] [0; 2] |}.
  eexists. split; [reflexivity|]. split; [reflexivity|]. split; reflexivity.
Qed.
Print Assumptions C110_marginal_sample_refuted.

(** The expectations of a linear model: with the marginal distribution the unknown variables are at their means, with the
    conditional distribution the answer is the linear regression of the model on the known variables. *)
Theorem C110_linear_marginal : forall d mean cov coefs x Sv, NoDup Sv -> (forall k, In k Sv -> k < d) ->
  exists r, mar_exp_linear d mean cov coefs x Sv = Some r /\
    (r == sumf (fun k => coefs k * (if memb k Sv then x k else mean k)) (seq 0 d))%Q.
Proof. exact mar_linear_spec. Qed.
Print Assumptions C110_linear_marginal.
Theorem C110_linear_conditional : forall inv d mean cov coefs Sv x0 r0, inv_sound inv -> (forall k, In k Sv -> k < d) ->
  cond_exp_linear inv d mean cov coefs x0 Sv = Some r0 ->
  exists w, (forall j, j < length Sv -> (covar d cov (fun k => coefs k - comb Sv w k) (coord (nth j Sv 0%nat)) == 0)%Q) /\
    forall x, exists r, cond_exp_linear inv d mean cov coefs x Sv = Some r /\
      (r == sumf (fun k => coefs k * mean k) (seq 0 d) + sumf (fun j => w j * (x (nth j Sv 0%nat) - mean (nth j Sv 0%nat))) (seq 0 (length Sv)))%Q.
Proof. exact cond_linear_spec. Qed.
Print Assumptions C110_linear_conditional.
Example C110_linear_example :
  option_map Qred (mar_exp_linear 3 ex_mean ex_cov (fun _ => 1%Q) (fun _ => 5%Q) [1]) = Some 9%Q /\
  option_map Qred (cond_exp_linear ex_inv 3 ex_mean ex_cov (fun _ => 1%Q) (fun _ => 5%Q) [1]) = Some 11%Q /\
  option_map Qred (cond_exp_linear ex_inv 3 ex_mean ex_cov (fun _ => 1%Q) (fun _ => 5%Q) []) = Some 6%Q.
Proof. vm_compute. auto. Qed.

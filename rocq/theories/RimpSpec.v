(** Vocabulary for the statements about [importance_sdp_reg]. *)
From Verif Require Import Base EntryModel RcatModel.

(** what [compute_sdp_reg] of the same object returns for observation [k] and the columns [S] *)
Definition reg_said (o : reg_acv) (tX : Q) (X data : marg) (k : nat) (S : list nat) : Q :=
  match acv_reg o tX X (S_array I64 S) data with Returned l => nth k l 0%Q | _ => 0%Q end.

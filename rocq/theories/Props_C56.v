(** C56: the container helpers with code of their own. *)
From Coq Require Import ZArith QArith Reals List Lra Lia.
From Verif Require Import Num ER Vec Multi MatVec SpecMat MatVecP Witness WitnessSF.
Import ListNotations.
Local Open Scope R_scope.
From Verif Require Import Rand Multin MatB64 RandMore.


(** [partial_sums], [dist1]: SpecMat.v. *)

Theorem C56_cumsum : forall (S : SF) (l : list R), exists out, cumsum (N:=ER_Num S) (map Fin l) = Ok (map Fin out) /\ partial_sums l out.
Proof. exact cumsum_val. Qed.
Print Assumptions C56_cumsum.
Example C56_cumsum_ex : cumsum (N:=ER_Num SF0) [Fin 1; Fin 2; Fin 6] = Ok [Fin 1; Fin 3; Fin 9].
Proof. cbn. repeat f_equal; lra. Qed.

Theorem C56_cumsum_last : forall (S : SF) (l : list R) (x : R), exists out, cumsum (N:=ER_Num S) (map Fin (l ++ [x])) = Ok (out ++ [accu (N:=ER_Num S) (map Fin (l ++ [x]))]).
Proof. exact cumsum_last. Qed.
Print Assumptions C56_cumsum_last.
Example C56_cumsum_last_ex : exists out, cumsum (N:=ER_Num SF0) (map Fin ([1; 2] ++ [6])) = Ok (out ++ [accu (N:=ER_Num SF0) (map Fin ([1; 2] ++ [6]))]).
Proof. exact (C56_cumsum_last SF0 [1; 2] 6). Qed.

(** In any arithmetic: no access leaves the vector, and each element is the old one plus its new predecessor. *)

Theorem C56_cumsum_total : forall (T : Type) (N : Num T) (X : list T), exists out, cumsum X = Ok out /\ length out = length X.
Proof. exact @cumsum_ok. Qed.
Print Assumptions C56_cumsum_total.
Example C56_cumsum_total_ex : exists out, cumsum (N:=ER_Num SF0) [PInf; NaN; MInf] = Ok out /\ length out = 3%nat.
Proof. exact (C56_cumsum_total ER (ER_Num SF0) [PInf; NaN; MInf]). Qed.

Theorem C56_cumsum_step : forall (T : Type) (N : Num T) (X out : list T), cumsum X = Ok out ->
  nth_error out 0 = nth_error X 0 /\
  forall i a b, nth_error X (S i) = Some a -> nth_error out i = Some b -> nth_error out (S i) = Some (add a b).
Proof. exact @cumsum_rec. Qed.
Print Assumptions C56_cumsum_step.
Example C56_cumsum_step_ex : forall out, cumsum (N:=ER_Num SF0) [Fin 1; PInf] = Ok out -> nth_error out 1 = Some PInf.
Proof. intros out E. destruct (C56_cumsum_step _ _ _ _ E) as (H & R). exact (R 0%nat PInf (Fin 1) eq_refl H). Qed.

(** rmultinom reads the cumulative vector at index j-1; the model carries it as a running sum.  In any
    arithmetic the two loops are the same.  ([rmultinom_src]: MatB64.v.) *)

Theorem C56_rmultinom : forall (T : Type) (N : Num T) (E : Type) (G : Rng T E) (to_u64 : T -> option Z) (p : T) (ps cs : list T)
    (n ret_sum : Z) (e : E), cumsum (p :: ps) = Ok cs ->
  rmultinom_src G to_u64 (p :: ps) cs n (length ps) 1 ret_sum e = rmultinom_loop G to_u64 n ps p ret_sum e.
Proof. exact @rmultinom_src_ok. Qed.
Print Assumptions C56_rmultinom.
Example C56_rmultinom_ex : exists cs, cumsum (N:=ER_Num SF0) [Fin (1 / 2); Fin (1 / 4); Fin (1 / 4)] = Ok cs /\ length cs = 3%nat.
Proof. exact (C56_cumsum_total ER (ER_Num SF0) [Fin (1 / 2); Fin (1 / 4); Fin (1 / 4)]). Qed.

Theorem C56_sum_absdiff : forall (S : SF) (a b : list R), length a = length b -> sum_absdiff (N:=ER_Num S) (map Fin a) (map Fin b) = Ok (Fin (dist1 a b)).
Proof. exact sum_absdiff_val. Qed.
Print Assumptions C56_sum_absdiff.
Example C56_sum_absdiff_ex : sum_absdiff (N:=ER_Num SF0) (map Fin [1; 5]) (map Fin [3; 2]) = Ok (Fin 5).
Proof.
  rewrite C56_sum_absdiff by reflexivity. unfold dist1. cbn. do 2 f_equal.
  rewrite (Rabs_left (1 - 3)), (Rabs_right (5 - 2)); lra.
Qed.

Theorem C56_sum_absdiff_metric : forall (S : SF) (a b c : list R), length a = length b -> length b = length c ->
  exists dab dba dac dbc,
    sum_absdiff (N:=ER_Num S) (map Fin a) (map Fin b) = Ok (Fin dab) /\ sum_absdiff (N:=ER_Num S) (map Fin b) (map Fin a) = Ok (Fin dba) /\
    sum_absdiff (N:=ER_Num S) (map Fin a) (map Fin c) = Ok (Fin dac) /\ sum_absdiff (N:=ER_Num S) (map Fin b) (map Fin c) = Ok (Fin dbc) /\
    0 <= dab /\ dab = dba /\ dac <= dab + dbc /\ (dab = 0 <-> a = b).
Proof. exact absdiff_metric. Qed.
Print Assumptions C56_sum_absdiff_metric.
Example C56_sum_absdiff_metric_ex : exists d, sum_absdiff (N:=ER_Num SF0) (map Fin [1; 5]) (map Fin [1; 5]) = Ok (Fin d) /\ d = 0.
Proof.
  destruct (C56_sum_absdiff_metric SF0 [1; 5] [1; 5] [1; 5] eq_refl eq_refl) as (d & _ & _ & _ & E & _ & _ & _ & _ & _ & _ & Z).
  exists d. split; [exact E|]. now apply Z.
Qed.

(** A second vector shorter than the first is read out of range. *)

Theorem C56_sum_absdiff_short : forall (T : Type) (N : Num T) (X Y : list T), (length Y < length X)%nat -> sum_absdiff X Y = UB.
Proof. exact @sum_absdiff_short. Qed.
Print Assumptions C56_sum_absdiff_short.
Example C56_sum_absdiff_short_ex : sum_absdiff (N:=ER_Num SF0) [Fin 1; Fin 2] [Fin 1] = UB.
Proof. apply C56_sum_absdiff_short. cbn. lia. Qed.

Theorem C56_exp : forall (S : SF) (l : list R), vexp (N:=ER_Num S) (map Fin l) = map (fun x => Fin (Rtrigo_def.exp x)) l.
Proof. exact exp_elem. Qed.
Print Assumptions C56_exp.
Example C56_exp_ex : vexp (N:=ER_Num SF0) (map Fin [0; 1]) = [Fin 1; Fin (Rtrigo_def.exp 1)].
Proof. rewrite C56_exp. cbn. now rewrite exp_0. Qed.

Theorem C56_log_exp : forall (S : SF) (l : list R), vlog (N:=ER_Num S) (vexp (N:=ER_Num S) (map Fin l)) = map Fin l.
Proof. exact vlog_vexp. Qed.
Print Assumptions C56_log_exp.
Example C56_log_exp_ex : vlog (N:=ER_Num SF0) (vexp (N:=ER_Num SF0) (map Fin [3; -7])) = [Fin 3; Fin (-7)].
Proof. exact (C56_log_exp SF0 [3; -7]). Qed.

Theorem C56_fill : forall (T : Type) (X : list T) (v : T),
  length (vfill X v) = length X /\ forall i, (i < length X)%nat -> nth_error (vfill X v) i = Some v.
Proof. exact @vfill_all. Qed.
Print Assumptions C56_fill.
Example C56_fill_ex : nth_error (vfill [1%nat; 2%nat; 3%nat] 7%nat) 2 = Some 7%nat.
Proof. apply (proj2 (C56_fill nat [1%nat; 2%nat; 3%nat] 7%nat)). cbn. lia. Qed.

Theorem C56_resize : forall (T : Type) (N : Num T) (X : list T) (n k : Z), (0 <= n)%Z -> (0 <= k)%Z -> (n * k < W64)%Z ->
  Z.of_nat (length (resize X n k)) = (n * k)%Z /\
  forall i, (Z.of_nat i < n * k)%Z -> nth_error (resize X n k) i = Some (nth i X (ofZ 0)).
Proof. exact @resize_shape. Qed.
Print Assumptions C56_resize.
Example C56_resize_ex : nth_error (resize (N:=ER_Num SF0) [Fin 5; Fin 6] 2 2) 3 = Some (Fin 0).
Proof. exact (proj2 (C56_resize ER (ER_Num SF0) [Fin 5; Fin 6] 2 2 ltac:(lia) ltac:(lia) ltac:(unfold W64; lia)) 3%nat ltac:(lia)). Qed.

Theorem C56_zeros : forall (T : Type) (N : Num T) (n k : Z), (0 <= n)%Z -> (0 <= k)%Z -> (n * k < W64)%Z ->
  zeros [] n k = repeat (ofZ 0) (Z.to_nat (n * k)).
Proof. exact @zeros_fresh. Qed.
Print Assumptions C56_zeros.
Example C56_zeros_ex : zeros (N:=ER_Num SF0) [] 2 1 = [Fin 0; Fin 0].
Proof. exact (C56_zeros ER (ER_Num SF0) 2 1 ltac:(lia) ltac:(lia) ltac:(unfold W64; lia)). Qed.

(** A vector that already has elements keeps them. *)

Theorem C56_zeros_keeps : forall (T : Type) (N : Num T) (X : list T) (n k : Z), (0 <= n)%Z -> (0 <= k)%Z -> (n * k < W64)%Z ->
  forall i, (Z.of_nat i < n * k)%Z -> nth_error (zeros X n k) i = Some (nth i X (ofZ 0)).
Proof. exact @zeros_keeps. Qed.
Print Assumptions C56_zeros_keeps.
Example C56_zeros_keeps_ex : nth_error (zeros (N:=ER_Num SF0) [Fin 5] 1 2) 0 = Some (Fin 5).
Proof. exact (C56_zeros_keeps ER (ER_Num SF0) [Fin 5] 1 2 ltac:(lia) ltac:(lia) ltac:(unfold W64; lia) 0%nat ltac:(lia)). Qed.

Theorem C56_zeros_refuted : forall (S : SF), exists X n k i, (Z.of_nat i < n * k < W64)%Z /\ nth_error (zeros (N:=ER_Num S) X n k) i <> Some (ofZ (Num:=ER_Num S) 0).
Proof. exact zeros_ref. Qed.
Print Assumptions C56_zeros_refuted.

(** Blaze matrices.  [eye] for any old content; [repmat] into a matrix whose elements hold [junk]. *)

Theorem C56_eye : forall (T : Type) (N : Num T) (X : mat T) (n i j : nat), (i < n)%nat -> eye X n i j = if Nat.eqb i j then ofZ 1 else ofZ 0.
Proof. exact @eye_val. Qed.
Print Assumptions C56_eye.
Example C56_eye_ex : eye (N:=ER_Num SF0) (fun _ _ => Fin 7) 3 2%nat 2%nat = Fin 1 /\ eye (N:=ER_Num SF0) (fun _ _ => Fin 7) 3 2%nat 1%nat = Fin 0.
Proof. split; apply C56_eye; lia. Qed.

Theorem C56_repmat : forall (T : Type) (junk : mat T) (r c : nat) (X : mat T) (n i j : nat),
  (0 < r)%nat -> (i < r * n)%nat -> (j < c)%nat -> repmat junk r c X n 1 i j = X (i mod r)%nat j.
Proof. exact @repmat_1. Qed.
Print Assumptions C56_repmat.
Example C56_repmat_ex : (repmat (fun _ _ => 9) 2 2 (fun i j => 10 * i + j) 3 1 5 1 = 11)%nat.
Proof. apply (C56_repmat nat (fun _ _ => 9%nat) 2%nat 2%nat (fun i j => (10 * i + j)%nat) 3%nat 5%nat 1%nat); lia. Qed.

(** With two or more copies side by side every element comes from the uninitialised columns, not from [X]. *)

Theorem C56_repmat_cols : forall (T : Type) (junk : mat T) (r c : nat) (X : mat T) (n k i j : nat),
  (0 < r)%nat -> (0 < c)%nat -> (2 <= k)%nat -> (i < r * n)%nat -> (j < c * k)%nat ->
  repmat junk r c X n k i j = junk i (c + j mod c)%nat.
Proof. exact @repmat_2. Qed.
Print Assumptions C56_repmat_cols.
Example C56_repmat_cols_ex : (repmat (fun _ _ => 9) 2 2 (fun i j => 10 * i + j) 1 2 0 0 = 9)%nat.
Proof. apply (C56_repmat_cols nat (fun _ _ => 9%nat) 2%nat 2%nat (fun i j => (10 * i + j)%nat) 1%nat 2%nat 0%nat 0%nat); lia. Qed.

Theorem C56_repmat_refuted : exists (junk : mat ER) r c (X : mat ER) n k i j, (i < r * n)%nat /\ (j < c * k)%nat /\
  repmat junk r c X n k i j <> X (i mod r)%nat (j mod c)%nat.
Proof. exact repmat_ref. Qed.
Print Assumptions C56_repmat_refuted.

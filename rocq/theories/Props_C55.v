(** C55: sums, means and variances of a vector in exact arithmetic. *)
From Coq Require Import ZArith QArith Reals List Lra Lia.
From Verif Require Import Num ER Vec Multi MatVec SpecMat MatVecP Witness WitnessSF.
Import ListNotations.
Local Open Scope R_scope.


(** [Rsum], [average], [variance], [sample_variance]: SpecMat.v.  [1; 2; 6] has mean 3 and variance 14/3. *)

Theorem C55_accu : forall (S : SF) (l : list R), accu (N:=ER_Num S) (map Fin l) = Fin (Rsum l).
Proof. exact accu_val. Qed.
Print Assumptions C55_accu.
Example C55_accu_ex : accu (N:=ER_Num SF0) [Fin 1; Fin 2; Fin 6] = Fin 9.
Proof. change [Fin 1; Fin 2; Fin 6] with (map Fin [1; 2; 6]). rewrite (C55_accu SF0 [1; 2; 6]). cbn. f_equal. lra. Qed.

Theorem C55_sqaccu : forall (S : SF) (l : list R), sqaccu (N:=ER_Num S) (map Fin l) = Fin (Rsum (map (fun x => x * x) l)).
Proof. exact sqaccu_val. Qed.
Print Assumptions C55_sqaccu.
Example C55_sqaccu_ex : sqaccu (N:=ER_Num SF0) [Fin 1; Fin 2; Fin 6] = Fin 41.
Proof. change [Fin 1; Fin 2; Fin 6] with (map Fin [1; 2; 6]). rewrite (C55_sqaccu SF0 [1; 2; 6]). cbn. f_equal. lra. Qed.

Theorem C55_mean : forall (S : SF) (l : list R), l <> [] -> mean (N:=ER_Num S) (map Fin l) = Fin (average l).
Proof. exact mean_val. Qed.
Print Assumptions C55_mean.
Example C55_mean_ex : mean (N:=ER_Num SF0) [Fin 1; Fin 2; Fin 6] = Fin 3.
Proof. change [Fin 1; Fin 2; Fin 6] with (map Fin [1; 2; 6]). rewrite (C55_mean SF0 [1; 2; 6]) by discriminate. unfold average. cbn. f_equal. field. Qed.

Theorem C55_mean_bounds : forall (S : SF) (a b : R) (l : list R), l <> [] -> (forall x, In x l -> a <= x <= b) ->
  exists m, mean (N:=ER_Num S) (map Fin l) = Fin m /\ a <= m <= b.
Proof. exact mean_bounds. Qed.
Print Assumptions C55_mean_bounds.
Example C55_mean_bounds_ex : exists m, mean (N:=ER_Num SF0) (map Fin [1; 2; 6]) = Fin m /\ 1 <= m <= 6.
Proof. apply C55_mean_bounds; [discriminate|]. cbn. intros x H. decompose [or] H; try contradiction; lra. Qed.

Theorem C55_mean_affine : forall (S : SF) (a b : R) (l : list R), l <> [] -> mean (N:=ER_Num S) (map (fun x => Fin (a * x + b)) l) = Fin (a * average l + b).
Proof. exact mean_affine_v. Qed.
Print Assumptions C55_mean_affine.
Example C55_mean_affine_ex : mean (N:=ER_Num SF0) (map (fun x => Fin (2 * x + 5)) [1; 2; 6]) = Fin 11.
Proof. rewrite C55_mean_affine by discriminate. unfold average. cbn. f_equal. field. Qed.

Theorem C55_var : forall (S : SF) (l : list R), l <> [] -> var (N:=ER_Num S) (map Fin l) = Fin (variance l).
Proof. exact var_val. Qed.
Print Assumptions C55_var.
Example C55_var_ex : var (N:=ER_Num SF0) [Fin 1; Fin 2; Fin 6] = Fin (14 / 3).
Proof. change [Fin 1; Fin 2; Fin 6] with (map Fin [1; 2; 6]). rewrite (C55_var SF0 [1; 2; 6]) by discriminate. unfold variance, average. cbn. f_equal. field. Qed.

Theorem C55_var_sign : forall (S : SF) (l : list R), l <> [] ->
  exists v, var (N:=ER_Num S) (map Fin l) = Fin v /\ 0 <= v /\ (v = 0 <-> exists c, forall x, In x l -> x = c).
Proof. exact var_sign_v. Qed.
Print Assumptions C55_var_sign.
Example C55_var_sign_ex : exists v, var (N:=ER_Num SF0) (map Fin [1; 2; 6]) = Fin v /\ 0 < v.
Proof.
  destruct (C55_var_sign SF0 [1; 2; 6]) as (v & E & H & Z); [discriminate|]. exists v. split; [exact E|].
  destruct (Req_dec v 0) as [Q|Q]; [|lra]. destruct (proj1 Z Q) as (c & C).
  pose proof (C 1 ltac:(cbn; auto)). pose proof (C 2 ltac:(cbn; auto)). lra.
Qed.

Theorem C55_var_affine : forall (S : SF) (a b : R) (l : list R), l <> [] -> var (N:=ER_Num S) (map (fun x => Fin (a * x + b)) l) = Fin (a ^ 2 * variance l).
Proof. exact var_affine_v. Qed.
Print Assumptions C55_var_affine.
Example C55_var_affine_ex : var (N:=ER_Num SF0) (map (fun x => Fin (2 * x + 5)) [1; 2; 6]) = Fin (56 / 3).
Proof. rewrite C55_var_affine by discriminate. unfold variance, average. cbn. f_equal. field. Qed.

(** Without elements both are NaN. *)

Theorem C55_empty : forall (S : SF), mean (N:=ER_Num S) [] = NaN /\ var (N:=ER_Num S) [] = NaN.
Proof. exact mean_nil. Qed.
Print Assumptions C55_empty.
Example C55_empty_ex : mean (N:=ER_Num SF0) [] = NaN.
Proof. exact (proj1 (C55_empty SF0)). Qed.

(** The Armadillo back end calls arma::var, which divides by n - 1: for every vector that is not
    constant the back ends disagree. *)

Theorem C55_var_backend_refuted : forall (S : SF) (l : list R), (2 <= length l)%nat -> ~ (exists c, forall x, In x l -> x = c) ->
  var (N:=ER_Num S) (map Fin l) <> Fin (sample_variance l).
Proof. exact var_arma_ref. Qed.
Print Assumptions C55_var_backend_refuted.
Example C55_var_backend_ex : exists l, (2 <= length l)%nat /\ var (N:=ER_Num SF0) (map Fin l) <> Fin (sample_variance l).
Proof.
  exists [1; 2; 6]. split; [cbn; lia|]. apply C55_var_backend_refuted; [cbn; lia|]. intros (c & C).
  pose proof (C 1 ltac:(cbn; auto)). pose proof (C 2 ltac:(cbn; auto)). lra.
Qed.

(** C43: dmvnorm is the documented density, for every dimension. *)
From Coq Require Import ZArith Reals Lra Lia.
From mathcomp Require Import all_ssreflect ssralg matrix binomial.
From Verif Require Import MxR Num ER ERTac B64 Dens SpecER Rand SpecRand RandMore Multi SpecMulti MxLin MultiER MultiRand MultiWit MultiWit2 MultiCap Witness WitnessSF.
Local Open Scope ring_scope.
Local Open Scope R_scope.


(** [holds A X]: the array [A] holds the real matrix [X]; [lib_ok M]: the linear algebra library is
    exact (exact_lib_ok shows that such a library exists). *)

Theorem C43_dmvnorm : forall (S : SF) (M : MatLib ER), lib_ok M -> forall (K : nat) (v m : nat -> ER) (A : mat ER)
    (x mu : 'cV[R]_K) (Sigma : 'M[R]_K) (lf : bool),
  holds_vec v x -> holds_vec m mu -> holds A Sigma -> pos_def Sigma ->
  dmvnorm (N:=ER_Num S) M K v m A lf = val lf (mvnorm_pdf x mu Sigma).
Proof. exact dmvnorm_val. Qed.
Print Assumptions C43_dmvnorm.
Example C43_dmvnorm_ex (S : SF) : dmvnorm (N:=ER_Num S) exact_lib 2 (fun _ => Fin 3) (fun _ => Fin 3) (tab (1%:M : 'M[R]_2)) false = Fin (Rpower (2 * Rtrigo1.PI) (- 2 / 2)).
Proof.
rewrite (C43_dmvnorm S _ exact_lib_ok 2 _ _ _ (const_mx 3) (const_mx 3) 1%:M); [|by move=> i; rewrite mxE|by move=> i; rewrite mxE|exact: tab_holds|exact: pd_id].
by rewrite /val mvnorm_id.
Qed.
(** a covariance with correlation *)
Example C43_dmvnorm_ex2 (S : SF) : dmvnorm (N:=ER_Num S) exact_lib 2 (fun i => Fin (INR i)) (fun _ => Fin 3) (tab Sig2) true =
  val true (mvnorm_pdf (\col_(i < 2) INR i) (const_mx 3) Sig2).
Proof. apply: (C43_dmvnorm S _ exact_lib_ok); [by move=> i; rewrite mxE|by move=> i; rewrite mxE|exact: tab_holds|exact: Sig2_pd]. Qed.

Theorem C43_dim1 : forall (S : SF) (M : MatLib ER), lib_ok M -> forall (x mu s : R) (lf : bool), 0 < s ->
  dmvnorm (N:=ER_Num S) M 1 (fun _ => Fin x) (fun _ => Fin mu) (fun _ _ => Fin s) lf =
  dnorm (N:=ER_Num S) (Fin x) (Fin mu) (esqrt (Fin s)) lf.
Proof. exact dmvnorm_dim1. Qed.
Print Assumptions C43_dim1.
Example C43_dim1_ex (S : SF) : dmvnorm (N:=ER_Num S) exact_lib 1 (fun _ => Fin 5) (fun _ => Fin 3) (fun _ _ => Fin 4) true =
  dnorm (N:=ER_Num S) (Fin 5) (Fin 3) (esqrt (Fin 4)) true.
Proof. apply: C43_dim1; [exact: exact_lib_ok|lra]. Qed.

Theorem C43_plain : forall (T : Type) (N : Num T) (M : MatLib T) (K : nat) (x mu : nat -> T) (Sigma : mat T),
  (is_inf (exp (dmvnorm M K x mu Sigma true)) = false -> dmvnorm M K x mu Sigma false = exp (dmvnorm M K x mu Sigma true)) /\
  (is_inf (exp (dmvnorm M K x mu Sigma true)) = true -> dmvnorm M K x mu Sigma false = ml_max M).
Proof. exact @dmvnorm_plain. Qed.
Print Assumptions C43_plain.
(** in double precision, with functions for which the logarithm of the density is 999 and its exponential overflows *)
Example C43_plain_ex : dmvnorm (N:=B64_Num TFI) lib64 1 (fun _ => bofZ 0) (fun _ => bofZ 0) (fun _ _ => blit (QArith_base.Qmake 1 2)) false = bmax.
Proof. apply (C43_plain b64 (B64_Num TFI)). vm_compute. reflexivity. Qed.

Theorem C43_capped : forall (T : Type) (N : Num T) (M : MatLib T) (K : nat) (x mu : nat -> T) (Sigma : mat T),
  is_inf (ml_max M) = false -> is_inf (dmvnorm M K x mu Sigma false) = false.
Proof. exact @dmvnorm_capped. Qed.
Print Assumptions C43_capped.
Example C43_capped_ex : is_inf (N:=B64_Num TFI) (dmvnorm (N:=B64_Num TFI) lib64 2 (fun _ => bofZ 0) (fun _ => bofZ 0) (fun _ _ => blit (QArith_base.Qmake 1 2)) false) = false.
Proof. apply (C43_capped b64 (B64_Num TFI)). vm_compute. reflexivity. Qed.

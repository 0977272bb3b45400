(** C44: dwish and dinvwish are the documented densities, for every dimension; dwish fails when nu is of integral type and equal to K. *)
From Coq Require Import ZArith Reals Lra Lia.
From mathcomp Require Import all_ssreflect ssralg matrix binomial.
From Verif Require Import MxR Num ER ERTac B64 Dens SpecER Rand SpecRand RandMore Multi SpecMulti MxLin MultiER MultiRand MultiWit MultiWit2 MultiCap Witness WitnessSF.
Local Open Scope ring_scope.
Local Open Scope R_scope.


(** [nu_is S nu r]: the value of the degrees of freedom is [r]; [NuF] is a floating, [NuI] an integral
    argument.  [no_wrap_minus]: if integral, nu >= K + 1, so that nu-K-1 does not wrap around. *)

Theorem C44_dwish_partial : forall (S : SF) (M : MatLib ER), lib_ok M -> forall (K : nat) (A B : mat ER) (X Psi : 'M[R]_K)
    (nu : nu_t ER) (r : R) (lf : bool),
  holds A X -> holds B Psi -> pos_def X -> pos_def Psi -> nu_is S nu r -> INR K - 1 < r -> no_wrap_minus nu K ->
  dwish (N:=ER_Num S) M K A B nu lf = val lf (wish_pdf X Psi r).
Proof. exact dwish_val. Qed.
Print Assumptions C44_dwish_partial.
Example C44_dwish_partial_ex (S : SF) : dwish (N:=ER_Num S) exact_lib 2 (tab Sig2) (tab (1%:M : 'M[R]_2)) (NuF (Fin (3 / 2))) true = val true (wish_pdf Sig2 1%:M (3 / 2)).
Proof. apply: (C44_dwish_partial S _ exact_lib_ok); [exact: tab_holds|exact: tab_holds|exact: Sig2_pd|exact: pd_id|by []|rewrite /=; lra|by []]. Qed.
Example C44_dwish_partial_ex2 (S : SF) : dwish (N:=ER_Num S) exact_lib 2 (tab Sig2) (tab (1%:M : 'M[R]_2)) (NuI 3) true = val true (wish_pdf Sig2 1%:M 3).
Proof. apply: (C44_dwish_partial S _ exact_lib_ok); [exact: tab_holds|exact: tab_holds|exact: Sig2_pd|exact: pd_id|by []|rewrite /=; lra|rewrite /=; lia]. Qed.

(** What is missing: an integral nu = K, the only remaining integral value with nu > K-1.  There
    nu-K-1 is 2^64-1 and the log density is off by 2^63 ln det X. *)

Theorem C44_dwish_refuted : forall (S : SF) (M : MatLib ER), lib_ok M -> forall (K : nat) (A B : mat ER) (X Psi : 'M[R]_K),
  (Z.of_nat K < 2 ^ 64)%Z -> holds A X -> holds B Psi -> pos_def X -> pos_def Psi -> \det X <> 1 ->
  dwish (N:=ER_Num S) M K A B (NuI (Z.of_nat K)) true <> Fin (ln (wish_pdf X Psi (INR K))).
Proof. exact dwish_wrap_refuted. Qed.
Print Assumptions C44_dwish_refuted.

Theorem C44_dwish_wrap : forall (S : SF) (M : MatLib ER), lib_ok M -> forall (K : nat) (A B : mat ER) (X Psi : 'M[R]_K),
  (Z.of_nat K < 2 ^ 64)%Z -> holds A X -> holds B Psi -> pos_def X -> pos_def Psi ->
  dwish (N:=ER_Num S) M K A B (NuI (Z.of_nat K)) true = Fin (ln (wish_pdf X Psi (INR K)) + IZR (2 ^ 63) * ln (\det X)).
Proof. exact dwish_wrap. Qed.
Print Assumptions C44_dwish_wrap.
Example C44_dwish_refuted_ex (S : SF) : dwish (N:=ER_Num S) exact_lib 1 (tab ((IZR 2)%:M : 'M[R]_1)) (tab (1%:M : 'M[R]_1)) (NuI 1) true <>
  Fin (ln (wish_pdf ((IZR 2)%:M : 'M[R]_1) 1%:M 1)).
Proof. apply: (C44_dwish_refuted S _ exact_lib_ok 1); [by []|exact: tab_holds|exact: tab_holds|apply: pd_scalar1; lra|exact: pd_id|rewrite det_scalar1; lra]. Qed.
Example C44_dwish_wrap_ex (S : SF) : dwish (N:=ER_Num S) exact_lib 2 (tab Sig2) (tab (1%:M : 'M[R]_2)) (NuI 2) true =
  Fin (ln (wish_pdf Sig2 1%:M 2) + IZR (2 ^ 63) * ln (\det Sig2)).
Proof. apply: (C44_dwish_wrap S _ exact_lib_ok 2); [by []|exact: tab_holds|exact: tab_holds|exact: Sig2_pd|exact: pd_id]. Qed.

Theorem C44_dinvwish : forall (S : SF) (M : MatLib ER), lib_ok M -> forall (K : nat) (A B : mat ER) (X Psi : 'M[R]_K)
    (nu : nu_t ER) (r : R) (lf : bool),
  holds A X -> holds B Psi -> pos_def X -> pos_def Psi -> nu_is S nu r -> INR K - 1 < r -> no_wrap_plus nu K ->
  dinvwish (N:=ER_Num S) M K A B nu lf = val lf (invwish_pdf X Psi r).
Proof. exact dinvwish_val. Qed.
Print Assumptions C44_dinvwish.
Example C44_dinvwish_ex (S : SF) : dinvwish (N:=ER_Num S) exact_lib 2 (tab Sig2) (tab (1%:M : 'M[R]_2)) (NuI 2) false = val false (invwish_pdf Sig2 1%:M 2).
Proof. apply: (C44_dinvwish S _ exact_lib_ok); [exact: tab_holds|exact: tab_holds|exact: Sig2_pd|exact: pd_id|by []|rewrite /=; lra|rewrite /=; lia]. Qed.

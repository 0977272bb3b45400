(** C45: Wishart draws are symmetric positive (semi)definite; multivariate normal draws are mu + L z. *)
From Coq Require Import ZArith Reals Lra Lia.
From mathcomp Require Import all_ssreflect ssralg matrix binomial.
From Verif Require Import MxR Num ER ERTac B64 Dens SpecER Rand SpecRand RandMore Multi SpecMulti MxLin MultiER MultiRand MultiWit MultiWit2 MultiCap Witness WitnessSF.
Local Open Scope ring_scope.
Local Open Scope R_scope.


(** [pre]: the caller passes the Cholesky factor (of the inverse, for rinvwish) instead of the matrix.
    [fuel] bounds the rejection loops of the chi-square draws; see C40 for when they return. *)

Theorem C45_rwish : forall (S : SF) (E : Type) (G : Rng ER E), rng_ok G -> forall M : MatLib ER, lib_ok M ->
    forall (fuel K : nat) (P : mat ER) (Psi : 'M[R]_K) (nu : nu_t ER) (r : R) (pre : bool) (e : E) (W : mat ER) (e' : E),
  0 < sf_eps S <= 2 -> nu_is S nu r -> nu_in_range nu -> INR K - 1 < r -> holds P Psi ->
  (pre = false -> pos_def Psi) -> rwish (N:=ER_Num S) M G fuel K P nu pre e = Some (W, e') ->
  exists X : 'M[R]_K, holds W X /\ pos_semidef X /\ ((pre -> Psi \in unitmx) -> pos_def X).
Proof. exact rwish_psd. Qed.
Print Assumptions C45_rwish.
(** an engine on which the sampler returns in every dimension *)
Example C45_rwish_ex (S : SF) K : 0 < sf_eps S <= 2 -> exists (fuel : nat) (W : mat ER) (X : 'M[R]_K),
  rwish (N:=ER_Num S) exact_lib mid fuel K (tab (1%:M : 'M[R]_K)) (NuF (Fin (INR K))) false tt = Some (W, tt) /\ holds W X /\ pos_def X.
Proof.
move=> He. have Hk : INR K - 1 < INR K by lra.
have [fuel [A HA]] : exists fuel A, bartlett (N:=ER_Num S) mid fuel K (NuF (Fin (INR K))) tt = Some (A, tt).
  apply: (mid_bartlett S (NuF (Fin (INR K))) _ He) => k /ltP Hki. have [Q P] := @nu_minus_i S (NuF (Fin (INR K))) _ _ _ erefl Logic.I Hk Hki.
  exists (INR K - INR k). by split; [exact: P|exact: Q].
have [W R0] : exists W, rwish (N:=ER_Num S) exact_lib mid fuel K (tab (1%:M : 'M[R]_K)) (NuF (Fin (INR K))) false tt = Some (W, tt) by rewrite /rwish HA; eexists; reflexivity.
have [X [H1 [_ H3]]] := C45_rwish S unit mid mid_ok _ exact_lib_ok fuel K _ 1%:M (NuF (Fin (INR K))) (INR K) false tt W tt He erefl Logic.I Hk (tab_holds _) (fun _ => pd_id K) R0.
exists fuel, W, X. split; first exact: R0. split=> //. exact: H3.
Qed.

(** How the matrix is made: Bartlett's factor, holding C(K,2) standard normals below the diagonal, read
    row by row, and the square roots of chi-square draws with nu, nu-1, ... degrees of freedom. *)

Theorem C45_rwish_draws : forall (S : SF) (E : Type) (G : Rng ER E), rng_ok G -> forall M : MatLib ER, lib_ok M ->
    forall (fuel K : nat) (P : mat ER) (Psi : 'M[R]_K) (nu : nu_t ER) (r : R) (pre : bool) (e : E) (W : mat ER) (e' : E),
  0 < sf_eps S <= 2 -> nu_is S nu r -> nu_in_range nu -> INR K - 1 < r -> holds P Psi ->
  (pre = false -> pos_def Psi) -> rwish (N:=ER_Num S) M G fuel K P nu pre e = Some (W, e') ->
  exists L zs e1 cs, (if pre then L = Psi else cholesky L Psi) /\
    normal_draws G e zs e1 /\ size zs = 'C(K, 2) /\
    chisq_draws (fun d => rchisq (N:=ER_Num S) G fuel (Fin d)) r e1 cs e' /\ size cs = K /\
    (forall k, (k < K)%N -> 0 < nth 0 cs k) /\
    holds W (L *m bart_mx K zs cs *m (L *m bart_mx K zs cs)^T).
Proof. exact rwish_F. Qed.
Print Assumptions C45_rwish_draws.

Theorem C45_rinvwish : forall (S : SF) (E : Type) (G : Rng ER E), rng_ok G -> forall M : MatLib ER, lib_ok M ->
    forall (fuel K : nat) (P : mat ER) (Psi : 'M[R]_K) (nu : nu_t ER) (r : R) (pre : bool) (e : E) (W : mat ER) (e' : E),
  0 < sf_eps S <= 2 -> nu_is S nu r -> nu_in_range nu -> INR K - 1 < r -> holds P Psi ->
  (pre = false -> pos_def Psi) -> (pre -> Psi \in unitmx) ->
  rinvwish (N:=ER_Num S) M G fuel K P nu pre e = Some (W, e') ->
  exists X : 'M[R]_K, holds W X /\ pos_def X.
Proof. exact rinvwish_pd. Qed.
Print Assumptions C45_rinvwish.

Theorem C45_rinvwish_draws : forall (S : SF) (E : Type) (G : Rng ER E), rng_ok G -> forall M : MatLib ER, lib_ok M ->
    forall (fuel K : nat) (P : mat ER) (Psi : 'M[R]_K) (nu : nu_t ER) (r : R) (pre : bool) (e : E) (W : mat ER) (e' : E),
  0 < sf_eps S <= 2 -> nu_is S nu r -> nu_in_range nu -> INR K - 1 < r -> holds P Psi ->
  (pre = false -> pos_def Psi) -> (pre -> Psi \in unitmx) ->
  rinvwish (N:=ER_Num S) M G fuel K P nu pre e = Some (W, e') ->
  exists L zs e1 cs, (if pre then L = Psi else cholesky L (invmx Psi)) /\
    normal_draws G e zs e1 /\ size zs = 'C(K, 2) /\
    chisq_draws (fun d => rchisq (N:=ER_Num S) G fuel (Fin d)) r e1 cs e' /\ size cs = K /\
    (forall k, (k < K)%N -> 0 < nth 0 cs k) /\ L \in unitmx /\
    holds W (invmx (L *m bart_mx K zs cs *m (L *m bart_mx K zs cs)^T)).
Proof. exact rinvwish_F. Qed.
Print Assumptions C45_rinvwish_draws.
Example C45_rinvwish_ex (S : SF) : 0 < sf_eps S <= 2 -> exists (fuel : nat) (W : mat ER) (X : 'M[R]_3),
  rinvwish (N:=ER_Num S) exact_lib mid fuel 3 (tab (1%:M : 'M[R]_3)) (NuI 3) false tt = Some (W, tt) /\ holds W X /\ pos_def X.
Proof.
move=> He. have Hk : INR 3 - 1 < 3 by rewrite /=; lra.
have [fuel [A HA]] : exists fuel A, bartlett (N:=ER_Num S) mid fuel 3 (NuI 3) tt = Some (A, tt).
  apply: (mid_bartlett S (NuI 3) _ He) => k /ltP Hki. have [Q P] := @nu_minus_i S (NuI 3) _ _ _ erefl erefl Hk Hki.
  exists (3 - INR k). by split; [exact: P|exact: Q].
have [W R0] : exists W, rinvwish (N:=ER_Num S) exact_lib mid fuel 3 (tab (1%:M : 'M[R]_3)) (NuI 3) false tt = Some (W, tt) by rewrite /rinvwish HA; eexists; reflexivity.
have [] := C45_rinvwish S unit mid mid_ok _ exact_lib_ok fuel 3%N _ 1%:M (NuI 3) 3 false tt W tt He erefl erefl Hk (tab_holds _) (fun _ => pd_id 3) _ R0 => // X [H1 H2].
by exists fuel, W, X.
Qed.

(** rmvnorm: [fill] is what rnorm<mT>(n,k,engine) delivers; any fill, then the sequential one. *)

Theorem C45_rmvnorm : forall (S : SF) (E : Type) (M : MatLib ER), lib_ok M -> forall (fill : nat -> nat -> E -> mat ER * E) (K : nat) (m : nat -> ER)
    (A : mat ER) (mu : 'cV[R]_K) (Sigma : 'M[R]_K) (pre : bool) (e : E) (z : 'cV[R]_K),
  holds_vec m mu -> holds A Sigma -> (pre = false -> pos_def Sigma) -> holds (fill K 1%N e).1 z ->
  exists (L : 'M[R]_K) (v : nat -> ER), (if pre then L = Sigma else cholesky L Sigma) /\
    rmvnorm (N:=ER_Num S) M fill K K m A pre e = (Some v, (fill K 1%N e).2) /\ holds_vec v (mu + L *m z)%R.
Proof. exact rmvnorm_F. Qed.
Print Assumptions C45_rmvnorm.

Theorem C45_rmvnorm_n : forall (S : SF) (E : Type) (M : MatLib ER), lib_ok M -> forall (fill : nat -> nat -> E -> mat ER * E) (n K : nat) (m : nat -> ER)
    (A : mat ER) (mu : 'cV[R]_K) (Sigma : 'M[R]_K) (pre : bool) (e : E) (Z : 'M[R]_(n, K)),
  holds_vec m mu -> holds A Sigma -> (pre = false -> pos_def Sigma) -> holds (fill n K e).1 Z ->
  exists (L : 'M[R]_K) (B : mat ER) (X : 'M[R]_(n, K)), (if pre then L = Sigma else cholesky L Sigma) /\
    rmvnorm_n (N:=ER_Num S) M fill n K K m A pre e = (Some B, (fill n K e).2) /\ holds B X /\
    forall i, (row i X)^T = (mu + L *m (row i Z)^T)%R.
Proof. exact rmvnorm_n_F. Qed.
Print Assumptions C45_rmvnorm_n.

Theorem C45_seq_fill : forall (S : SF) (E : Type) (G : Rng ER E), rng_ok G -> forall (n k : nat) (e : E),
  exists (zs : seq R) (e' : E), normal_draws G e zs e' /\ size zs = (n * k)%N /\
    (seq_fill (N:=ER_Num S) G n k e).2 = e' /\
    holds (seq_fill (N:=ER_Num S) G n k e).1 (\matrix_(i < n, j < k) nth 0 zs (i + j * n)).
Proof. exact seq_fill_F. Qed.
Print Assumptions C45_seq_fill.
Example C45_rmvnorm_ex (S : SF) : exists (L : 'M[R]_2) (v : nat -> ER) (zs : seq R), cholesky L Sig2 /\ size zs = 2%N /\
  rmvnorm (N:=ER_Num S) exact_lib (seq_fill (N:=ER_Num S) mid) 2 2 (fun _ => Fin 3) (tab Sig2) false tt = (Some v, tt) /\
  holds_vec v ((const_mx 3 : 'cV[R]_2) + L *m (\matrix_(i < 2, j < 1) nth 0 zs (i + j * 2)))%R.
Proof.
have [zs [[] [H1 [H2 [H3 H4]]]]] := C45_seq_fill S unit mid mid_ok 2 1 tt.
have [] := C45_rmvnorm S unit _ exact_lib_ok (seq_fill (N:=ER_Num S) mid) 2 (fun _ => Fin 3) (tab Sig2) (const_mx 3) Sig2 false tt _ _ (tab_holds _) (fun _ => Sig2_pd) H4.
  by move=> i; rewrite mxE.
move=> L [v [C [Q HV]]]. rewrite H3 in Q. by exists L, v, zs.
Qed.
Example C45_rmvnorm_n_ex (S : SF) : exists (L : 'M[R]_2) (B : mat ER) (X : 'M[R]_(5, 2)), cholesky L Sig2 /\
  rmvnorm_n (N:=ER_Num S) exact_lib (seq_fill (N:=ER_Num S) mid) 5 2 2 (fun _ => Fin 3) (tab Sig2) false tt = (Some B, tt) /\ holds B X.
Proof.
have [zs [[] [H1 [H2 [H3 H4]]]]] := C45_seq_fill S unit mid mid_ok 5 2 tt.
have [] := C45_rmvnorm_n S unit _ exact_lib_ok (seq_fill (N:=ER_Num S) mid) 5 2 (fun _ => Fin 3) (tab Sig2) (const_mx 3) Sig2 false tt _ _ (tab_holds _) (fun _ => Sig2_pd) H4.
  by move=> i; rewrite mxE.
move=> L [B [X [C [Q [HB _]]]]]. rewrite H3 in Q. by exists L, B, X.
Qed.

(** A mismatch between mu and Sigma gives the empty result and leaves the engine alone. *)

Theorem C45_mismatch : forall (S : SF) (E : Type) (M : MatLib ER) (fill : nat -> nat -> E -> mat ER * E) (n_mu K : nat) (m : nat -> ER) (A : mat ER)
    (pre : bool) (e : E), n_mu <> K -> rmvnorm (N:=ER_Num S) M fill n_mu K m A pre e = (None, e).
Proof. exact rmvnorm_mismatch. Qed.
Print Assumptions C45_mismatch.

Theorem C45_mismatch_n : forall (S : SF) (E : Type) (M : MatLib ER) (fill : nat -> nat -> E -> mat ER * E) (n n_mu K : nat) (m : nat -> ER) (A : mat ER)
    (pre : bool) (e : E), n_mu <> K -> rmvnorm_n (N:=ER_Num S) M fill n n_mu K m A pre e = (None, e).
Proof. exact rmvnorm_n_mismatch. Qed.
Print Assumptions C45_mismatch_n.
Example C45_mismatch_ex (S : SF) : rmvnorm (N:=ER_Num S) exact_lib (seq_fill (N:=ER_Num S) mid) 3 2 (fun _ => Fin 3) (tab Sig2) false tt = (None, tt).
Proof. exact: C45_mismatch. Qed.
Example C45_mismatch_n_ex (S : SF) : rmvnorm_n (N:=ER_Num S) exact_lib (seq_fill (N:=ER_Num S) mid) 5 3 2 (fun _ => Fin 3) (tab Sig2) false tt = (None, tt).
Proof. exact: C45_mismatch_n. Qed.

(** With a Cholesky routine that works in place and leaves the upper triangle of its argument there, as
    misc/matrix_ops/chol.hpp does for Blaze, the draws are not mu + L z for any L with L L' = Sigma. *)

Theorem C45_rmvnorm_inplace_refuted : forall (S : SF) (M : MatLib ER), chol_in_place M ->
  ~ exists L : 'M[R]_2, L *m L^T = Sig2 /\ forall e : nat -> R, exists (v : nat -> ER) (e' : nat -> R),
      rmvnorm (N:=ER_Num S) M state_fill 2 2 (fun _ => Fin 0)
        (fun i j => if (i == 0)%N || (j == 0)%N then Fin 1 else Fin 2) false e = (Some v, e') /\
      holds_vec v (L *m (\col_(i < 2) e i)).
Proof. exact rmvnorm_inplace. Qed.
Print Assumptions C45_rmvnorm_inplace_refuted.
Example C45_rmvnorm_inplace_refuted_ex : chol_in_place inplace_lib.
Proof. exact: inplace_lib_ok. Qed.

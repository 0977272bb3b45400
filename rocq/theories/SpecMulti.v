(** The multivariate densities as documented (dens/dmvnorm.hpp, dens/dwish.hpp, dens/dinvwish.hpp),
    over real matrices, and what is expected of the linear algebra library. *)
From Coq Require Import Reals.
From mathcomp Require Import all_ssreflect ssralg matrix.
From mathcomp Require Import binomial.
From Verif Require Import MxR ER Rand SpecRand Multi GammaFn.
Set Implicit Arguments. Unset Strict Implicit. Unset Printing Implicit Defensive.
Local Open Scope ring_scope.
Local Open Scope R_scope.

(** the entry of a 1 x 1 matrix *)
Definition entry (A : 'M[R]_1) : R := A ord0 ord0.
(** v' A v *)
Definition quad K (A : 'M[R]_K) (v : 'cV[R]_K) : R := entry (v^T *m A *m v).

Definition symmetric K (A : 'M[R]_K) : Prop := A^T = A.
Definition pos_def K (A : 'M[R]_K) : Prop := symmetric A /\ forall v : 'cV_K, v <> const_mx 0 -> 0 < quad A v.
Definition pos_semidef K (A : 'M[R]_K) : Prop := symmetric A /\ forall v : 'cV_K, 0 <= quad A v.
(** [L] is the Cholesky factor of [A] *)
Definition cholesky K (L A : 'M[R]_K) : Prop :=
  (forall i j : 'I_K, (i < j)%N -> L i j = 0) /\ (forall i, 0 < L i i) /\ L *m L^T = A.

Definition mvnorm_pdf K (x mu : 'cV[R]_K) (Sigma : 'M[R]_K) : R :=
  Rpower (2 * PI) (- INR K / 2) * Rpower (\det Sigma) (- / 2) * exp (- / 2 * quad (invmx Sigma) (x - mu)%R).

(** Gamma_K(a), the multivariate gamma function *)
Fixpoint mgamma_prod (K : nat) (a : R) : R :=
  match K with O => 1 | S n => mgamma_prod n a * Gam (a - INR n / 2) end.
Definition mgamma (K : nat) (a : R) : R := Rpower PI (INR K * (INR K - 1) / 4) * mgamma_prod K a.

Definition wish_pdf K (X Psi : 'M[R]_K) (nu : R) : R :=
  Rpower (\det X) ((nu - INR K - 1) / 2) * exp (- / 2 * \tr (invmx Psi *m X)) /
  (Rpower 2 (nu * INR K / 2) * Rpower (\det Psi) (nu / 2) * mgamma K (nu / 2)).
Definition invwish_pdf K (X Psi : 'M[R]_K) (nu : R) : R :=
  Rpower (\det Psi) (nu / 2) * Rpower (\det X) (- ((nu + INR K + 1) / 2)) * exp (- / 2 * \tr (Psi *m invmx X)) /
  (Rpower 2 (nu * INR K / 2) * mgamma K (nu / 2)).

(** [A] holds the real matrix [X]; [v] the vector [x] *)
Definition holds n c (A : mat ER) (X : 'M[R]_(n, c)) : Prop := forall (i : 'I_n) (j : 'I_c), A i j = Fin (X i j).
Definition holds_vec n (v : nat -> ER) (x : 'cV[R]_n) : Prop := forall i : 'I_n, v i = Fin (x i ord0).

(** What the library must deliver, in exact arithmetic. *)
Record lib_ok (M : MatLib ER) : Prop := {
  lib_chol : forall K A (X : 'M_K), holds A X -> pos_def X ->
    exists L, holds (ml_chol M K A) L /\ cholesky L X;
  lib_det : forall K A (X : 'M_K), holds A X -> ml_det M K A = Fin (\det X);
  lib_inv : forall K A (X : 'M_K), holds A X -> X \in unitmx -> holds (ml_inv M K A) (invmx X);
  lib_solve : forall K c A B (X : 'M_K) (Y : 'M_(K, c)), holds A X -> holds B Y -> X \in unitmx ->
    holds (ml_solve M K c A B) (invmx X *m Y);
  lib_lmgamma : forall K a, (INR K - 1) / 2 < a -> ml_lmgamma M (Fin a) K = Fin (ln (mgamma K a))
}.

(** [zs] are the standard normal draws read from the state [e] on, leaving [e'] *)
Inductive normal_draws {E} (G : Rng ER E) : E -> seq R -> E -> Prop :=
| nd_nil e : normal_draws G e [::] e
| nd_cons e z e1 zs e2 : normal_draw G e z e1 -> normal_draws G e1 zs e2 -> normal_draws G e (z :: zs) e2.
(** [cs] are draws from [chi nu], [chi (nu-1)], ... in order *)
Inductive chisq_draws {E} (chi : R -> E -> option (ER * E)) : R -> E -> seq R -> E -> Prop :=
| cd_nil r e : chisq_draws chi r e [::] e
| cd_cons r e c e1 cs e2 : chi r e = Some (Fin c, e1) -> chisq_draws chi (r - 1) e1 cs e2 ->
    chisq_draws chi r e (c :: cs) e2.
(** Bartlett's factor: the normals below the diagonal row by row, the square roots on it *)
Definition bart_mx K (zs cs : seq R) : 'M[R]_K :=
  \matrix_(i < K, j < K) if (j < i)%N then nth 0 zs ('C(i, 2) + j) else if i == j then R_sqrt.sqrt (nth 0 cs i) else 0.

(** A Cholesky routine that overwrites the lower triangle of its argument and leaves the upper one
    (LAPACK's potrf with uplo = 'L', which misc/matrix_ops/chol.hpp 45-47 calls through Blaze). *)
Definition chol_in_place (M : MatLib ER) : Prop := forall K A (X : 'M_K), holds A X -> pos_def X ->
  exists L, cholesky L X /\ forall i j : 'I_K, ml_chol M K A i j = if (i < j)%N then A i j else Fin (L i j).

(** The multivariate functions: dens/dmvnorm.ipp, dens/dwish.ipp, dens/dinvwish.ipp,
    rand/rmvnorm.ipp, rand/rwish.ipp, rand/rinvwish.ipp and misc/matrix_ops/*.hpp.

    A matrix is a function of the row and column index, read only within its dimensions, which are
    passed along.  The linear algebra that mat_ops forwards to Armadillo, Blaze or Eigen is
    collected in [MatLib]; nothing is assumed about it here.  Products, transposes, traces and dot
    products are written out, summing from the first index up. *)
From Coq Require Import ZArith QArith Bool List.
From Verif Require Import Num Sanity Rand.
Import ListNotations.
Local Open Scope num_scope.

Definition mat (T : Type) := nat -> nat -> T.
Record MatLib (T : Type) := {
  ml_chol : nat -> mat T -> mat T;                  (* mat_ops/chol.hpp, n x n *)
  ml_det : nat -> mat T -> T;                       (* mat_ops/det.hpp *)
  ml_inv : nat -> mat T -> mat T;                   (* mat_ops/inv.hpp *)
  ml_solve : nat -> nat -> mat T -> mat T -> mat T; (* mat_ops/solve.hpp, n x n and n x c *)
  ml_lmgamma : T -> nat -> T;                       (* gcem::lmgamma *)
  ml_max : T                                        (* std::numeric_limits<T>::max() *)
}.
Arguments ml_chol {T}. Arguments ml_det {T}. Arguments ml_inv {T}. Arguments ml_solve {T}.
Arguments ml_lmgamma {T}. Arguments ml_max {T}.

(** The degrees of freedom: [pT] is a floating type, or an integral type no wider than ullint_t.
    Combined with the ullint_t K, an integral value is converted to ullint_t, so the arithmetic is
    modulo 2^64 (dens/dwish.ipp 40, rand/rwish.ipp 52). *)
Inductive nu_t (T : Type) := NuF (x : T) | NuI (n : Z).
Arguments NuF {T}. Arguments NuI {T}.

Section M.
Context {T : Type} {N : Num T}.

Fixpoint sum_to (n : nat) (f : nat -> T) : T :=
  match n with O => ofZ 0 | S n => sum_to n f + f n end.
(** A * B, the inner dimension being [k] *)
Definition mmul (k : nat) (A B : mat T) : mat T := fun i j => sum_to k (fun l => A i l * B l j).
Definition mtrans (A : mat T) : mat T := fun i j => A j i.
Definition mtrace (n : nat) (A : mat T) : T := sum_to n (fun i => A i i).
Definition col (v : nat -> T) : mat T := fun i _ => v i.

Variable M : MatLib T.

(** misc/matrix_ops/log_det.hpp 28-37 *)
Definition log_det (n : nat) (X : mat T) : T := ofZ 2 * sum_to n (fun i => log (ml_chol M n X i i)).
(** misc/matrix_ops/quad_form.hpp 29-39, with inv_A = true *)
Definition quad_form (n : nat) (x : nat -> T) (A : mat T) : T :=
  sum_to n (fun i => x i * ml_solve M n 1 A (col x) i 0%nat).

(** dens/dmvnorm.ipp 28-51 *)
Definition dmvnorm (K : nat) (x mu : nat -> T) (Sigma : mat T) (lf : bool) : T :=
  let cons_term := - lit (1#2) * ofZ (Z.of_nat K) * LOG_2PI in
  let x_cent := fun i => x i - mu i in
  let quad_term := quad_form K x_cent Sigma in
  let ret := cons_term - lit (1#2) * (log_det K Sigma + quad_term) in
  if lf then ret else
  let ret := exp ret in if is_inf ret then ml_max M else ret.

Definition nu_val (nu : nu_t T) : T := match nu with NuF x => x | NuI n => ofZ n end.
Definition nu_minus (nu : nu_t T) (k : Z) : T :=
  match nu with NuF x => x - ofZ k | NuI n => ofZ ((n - k) mod 2 ^ 64) end.
(** nu_par-K-1 and nu_par+K+1: two operations on a floating value *)
Definition nu_minus_K_1 (nu : nu_t T) (K : Z) : T :=
  match nu with NuF x => x - ofZ K - ofZ 1 | NuI n => ofZ ((n - K - 1) mod 2 ^ 64) end.
Definition nu_plus_K_1 (nu : nu_t T) (K : Z) : T :=
  match nu with NuF x => x + ofZ K + ofZ 1 | NuI n => ofZ ((n + K + 1) mod 2 ^ 64) end.

(** dens/dwish.ipp 28-49 *)
Definition dwish (K : nat) (X Psi : mat T) (nu : nu_t T) (lf : bool) : T :=
  let nu2 := nu_val nu / ofZ 2 in
  let lmg_term := ml_lmgamma M nu2 K in
  let norm_term := - nu2 * log (ml_det M K Psi) - nu2 * ofZ (Z.of_nat K) * LOG_2 - lmg_term in
  let ret := norm_term + lit (1#2) *
    (nu_minus_K_1 nu (Z.of_nat K) * log (ml_det M K X) - mtrace K (ml_solve M K K Psi X)) in
  if lf then ret else exp ret.
(** dens/dinvwish.ipp 28-49 *)
Definition dinvwish (K : nat) (X Psi : mat T) (nu : nu_t T) (lf : bool) : T :=
  let nu2 := nu_val nu / ofZ 2 in
  let lmg_term := ml_lmgamma M nu2 K in
  let norm_term := nu2 * log_det K Psi - nu2 * ofZ (Z.of_nat K) * LOG_2 - lmg_term in
  let ret := norm_term - lit (1#2) *
    (nu_plus_K_1 nu (Z.of_nat K) * log_det K X + mtrace K (ml_solve M K K X Psi)) in
  if lf then ret else exp ret.

Section Samplers.
Context {E : Type} (G : Rng T E).
(** rnorm<mT>(n,k,engine): what the fill delivers; see [seq_fill] and Vec.v for the macro *)
Variable fill : nat -> nat -> E -> mat T * E.

(** rand/rmvnorm.ipp 28-49: [None] is the empty result.  [n_mu] is n_elem(mu_par). *)
Definition rmvnorm (n_mu K : nat) (mu : nat -> T) (Sigma : mat T) (pre_chol : bool) (e : E) : option (nat -> T) * E :=
  if negb (Nat.eqb n_mu K) then (None, e) else
  let A := if pre_chol then Sigma else ml_chol M K Sigma in
  let '(z, e') := fill K 1 e in
  (Some (fun i => mu i + mmul K A z i 0%nat), e').
(** rand/rmvnorm.ipp 87-108: the n x K matrix of n draws *)
Definition rmvnorm_n (n n_mu K : nat) (mu : nat -> T) (Sigma : mat T) (pre_chol : bool) (e : E) : option (mat T) * E :=
  if negb (Nat.eqb n_mu K) then (None, e) else
  let A := if pre_chol then Sigma else ml_chol M K Sigma in
  let '(Z, e') := fill n K e in
  (Some (fun i j => mu j + mmul K Z (mtrans A) i j), e').

Definition mset (A : mat T) (i j : nat) (v : T) : mat T :=
  fun i' j' => if Nat.eqb i' i && Nat.eqb j' j then v else A i' j'.
(** for (i=1; i<K; i++) for (j=0; j<i; j++) *)
Definition below (K : nat) : list (nat * nat) := flat_map (fun i => map (fun j => (i, j)) (seq 0 i)) (seq 1 (K - 1)).
Fixpoint fill_below (l : list (nat * nat)) (A : mat T) (e : E) : mat T * E :=
  match l with
  | [] => (A, e)
  | (i, j) :: l => let '(z, e') := rnorm01 G e in fill_below l (mset A i j z) e'
  end.
(** for (i=0; i<K; i++) A(i,i) = sqrt(rchisq(eT(nu_par-i),engine)) *)
Fixpoint fill_diag (fuel : nat) (nu : nu_t T) (l : list nat) (A : mat T) (e : E) : option (mat T * E) :=
  match l with
  | [] => Some (A, e)
  | i :: l =>
      match rchisq G fuel (nu_minus nu (Z.of_nat i)) e with
      | None => None
      | Some (c, e') => fill_diag fuel nu l (mset A i i (sqrt c)) e'
      end
  end.
(** rand/rwish.ipp 40-57, rand/rinvwish.ipp 40-57: the factor [A] *)
Definition bartlett (fuel K : nat) (nu : nu_t T) (e : E) : option (mat T * E) :=
  let '(A, e1) := fill_below (below K) (fun _ _ => ofZ 0) e in fill_diag fuel nu (seq 0 K) A e1.
(** rand/rwish.ipp 28-60 *)
Definition rwish (fuel K : nat) (Psi : mat T) (nu : nu_t T) (pre_chol : bool) (e : E) : option (mat T * E) :=
  let C := if pre_chol then Psi else ml_chol M K Psi in
  match bartlett fuel K nu e with
  | None => None
  | Some (A, e') => let B := mmul K C A in Some (mmul K B (mtrans B), e')
  end.
(** rand/rinvwish.ipp 28-62 *)
Definition rinvwish (fuel K : nat) (Psi : mat T) (nu : nu_t T) (pre_inv_chol : bool) (e : E) : option (mat T * E) :=
  let C := if pre_inv_chol then Psi else ml_chol M K (ml_inv M K Psi) in
  match bartlett fuel K nu e with
  | None => None
  | Some (A, e') => let B := mmul K C A in Some (ml_inv M K (mmul K B (mtrans B)), e')
  end.
End Samplers.
End M.

(** The sequential fill (no OpenMP, or fewer elements than the threshold): column by column, element
    i of the column-major storage being the i-th draw. *)
Section Fill.
Context {T : Type} {N : Num T} {E : Type} (G : Rng T E).
Fixpoint seq_draws (n : nat) (e : E) : list T * E :=
  match n with
  | O => ([], e)
  | S n => let '(z, e') := rnorm01 G e in let '(l, e'') := seq_draws n e' in (z :: l, e'')
  end.
Definition seq_fill (n k : nat) (e : E) : mat T * E :=
  let '(l, e') := seq_draws (n * k) e in (fun i j => nth (i + j * n) l (ofZ 0), e').
End Fill.

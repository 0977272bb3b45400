(** C62: the symmetric and the exponential densities are unimodal in binary64. *)
From Coq Require Import ZArith QArith Bool.
From Verif Require Import Num Dens B64 SpecB64 SpecB64D B64Thm B64Thm2 B64CR B64CR2 B64CR3 B64CdfBad B64DensBad.
From Flocq Require Import IEEE754.BinarySingleNaN.
Local Open Scope Z_scope.
Local Open Scope b64_scope.


(** [b64_unimodal m d]: x <= y <= m gives d x <= d y, and m <= x <= y gives d y <= d x, infinities included, all
    comparisons being those of IEEE 754 (so no value is NaN).  Rounding does not create a second bump. *)

Theorem C62_dnorm : forall (F : TF) (mu sigma : b64), exp_all_ok F -> log_std F -> small_const (t_LOG_2PI F) -> b64_fin mu -> b64_pos sigma -> forall lf, b64_unimodal mu (fun x => dnorm (N:=B64_Num F) x mu sigma lf).
Proof. exact t_u_dnorm. Qed.
Print Assumptions C62_dnorm.
Example C62_dnorm_ex : forall lf, b64_unimodal (bofZ 1) (fun x => dnorm (N:=B64_Num TFR) x (bofZ 1) (bofZ 2) lf).
Proof. apply (C62_dnorm TFR (bofZ 1) (bofZ 2)); ex_tf2. Qed.

Theorem C62_dlaplace : forall (F : TF) (mu sigma : b64), exp_all_ok F -> log_std F -> b64_fin mu -> b64_pos sigma -> forall lf, b64_unimodal mu (fun x => dlaplace (N:=B64_Num F) x mu sigma lf).
Proof. exact t_u_dlaplace. Qed.
Print Assumptions C62_dlaplace.
Example C62_dlaplace_ex : forall lf, b64_unimodal (bofZ 1) (fun x => dlaplace (N:=B64_Num TFR) x (bofZ 1) (bofZ 2) lf).
Proof. apply (C62_dlaplace TFR (bofZ 1) (bofZ 2)); ex_tf2. Qed.

Theorem C62_dcauchy : forall (F : TF) (mu sigma : b64), log_std F -> b64_fin (t_PI F) -> bofZ 1 ≤ t_PI F -> b64_fin mu -> b64_pos sigma -> forall lf, b64_unimodal mu (fun x => dcauchy (N:=B64_Num F) x mu sigma lf).
Proof. exact t_u_dcauchy. Qed.
Print Assumptions C62_dcauchy.
Example C62_dcauchy_ex : forall lf, b64_unimodal (bofZ 1) (fun x => dcauchy (N:=B64_Num TFR) x (bofZ 1) (bofZ 2) lf).
Proof. apply (C62_dcauchy TFR (bofZ 1) (bofZ 2)); ex_tf2. Qed.

Theorem C62_dexp : forall (F : TF) (rate : b64), exp_all_ok F -> log_std F -> b64_pos rate -> b64_unimodal (bofZ 0) (fun x => dexp (N:=B64_Num F) x rate false).
Proof. exact t_u_dexp. Qed.
Print Assumptions C62_dexp.
Example C62_dexp_ex : b64_unimodal (bofZ 0) (fun x => dexp (N:=B64_Num TFR) x (bofZ 3) false).
Proof. apply (C62_dexp TFR (bofZ 3)); ex_tf2. Qed.

(** ** Where it fails: the log form of the exponential density is 0 at infinity instead of minus infinity *)

Theorem C62_dexp_log_refuted : forall F : TF, t_log F (bofZ 1) = bofZ 0 -> exists x y, bofZ 0 ≺ x /\ x ≺ y /\ dexp (N:=B64_Num F) x (bofZ 1) true ≺ dexp (N:=B64_Num F) y (bofZ 1) true.
Proof. exact t_dexp_log_refuted. Qed.
Print Assumptions C62_dexp_log_refuted.
Example C62_dexp_log_ex : dexp (N:=B64_Num TFR) (bofZ 1) (bofZ 1) true ≺ dexp (N:=B64_Num TFR) plus_inf (bofZ 1) true.
Proof. rewrite dexp_log_inf, (dexp_log_1 TFR TFR_log_1). vm_compute. reflexivity. Qed.

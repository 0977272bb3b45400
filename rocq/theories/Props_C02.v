(** C02: invalid probability or parameters give NaN from every quantile function. *)
From Coq Require Import ZArith QArith Bool.
From Coq Require Import Reals Lra.
From Flocq Require Import IEEE754.BinarySingleNaN.
From Verif Require Import ER ERTac B64.
From Verif Require Import Num Sanity Prob Dens Quant Laws NanSpec NanPolicy.

Theorem C02_qnorm : forall (T : Type) (N : Num T) (L : NumLaws T) (p : T) (mu : T) (sigma : T),
  not_prob p \/ NaNv mu \/ NaNv sigma \/ negative sigma ->
  is_nan (qnorm p mu sigma) = true.
Proof. exact qnorm_nan. Qed.
Print Assumptions C02_qnorm.

Theorem C02_qcauchy : forall (T : Type) (N : Num T) (L : NumLaws T) (p : T) (mu : T) (sigma : T),
  not_prob p \/ NaNv mu \/ NaNv sigma \/ negative sigma ->
  is_nan (qcauchy p mu sigma) = true.
Proof. exact qcauchy_nan. Qed.
Print Assumptions C02_qcauchy.

Theorem C02_qlaplace : forall (T : Type) (N : Num T) (L : NumLaws T) (p : T) (mu : T) (sigma : T),
  not_prob p \/ NaNv mu \/ NaNv sigma \/ negative sigma ->
  is_nan (qlaplace p mu sigma) = true.
Proof. exact qlaplace_nan. Qed.
Print Assumptions C02_qlaplace.

Theorem C02_qlogis : forall (T : Type) (N : Num T) (L : NumLaws T) (p : T) (mu : T) (sigma : T),
  not_prob p \/ NaNv mu \/ NaNv sigma \/ negative sigma ->
  is_nan (qlogis p mu sigma) = true.
Proof. exact qlogis_nan. Qed.
Print Assumptions C02_qlogis.

Theorem C02_qlnorm : forall (T : Type) (N : Num T) (L : NumLaws T) (p : T) (mu : T) (sigma : T),
  not_prob p \/ NaNv mu \/ NaNv sigma \/ negative sigma ->
  is_nan (qlnorm p mu sigma) = true.
Proof. exact qlnorm_nan. Qed.
Print Assumptions C02_qlnorm.

Theorem C02_qbeta : forall (T : Type) (N : Num T) (L : NumLaws T) (p : T) (a : T) (b : T),
  not_prob p \/ NaNv a \/ NaNv b \/ negative a \/ negative b ->
  is_nan (qbeta p a b) = true.
Proof. exact qbeta_nan. Qed.
Print Assumptions C02_qbeta.

Theorem C02_qchisq : forall (T : Type) (N : Num T) (L : NumLaws T) (p : T) (dof : T),
  not_prob p \/ NaNv dof \/ negative dof ->
  is_nan (qchisq p dof) = true.
Proof. exact qchisq_nan. Qed.
Print Assumptions C02_qchisq.

Theorem C02_qexp : forall (T : Type) (N : Num T) (L : NumLaws T) (p : T) (rate : T),
  not_prob p \/ NaNv rate \/ negative rate ->
  is_nan (qexp p rate) = true.
Proof. exact qexp_nan. Qed.
Print Assumptions C02_qexp.

Theorem C02_qf : forall (T : Type) (N : Num T) (L : NumLaws T) (p : T) (df1 : T) (df2 : T),
  not_prob p \/ NaNv df1 \/ NaNv df2 \/ negative df1 \/ negative df2 ->
  is_nan (qf p df1 df2) = true.
Proof. exact qf_nan. Qed.
Print Assumptions C02_qf.

Theorem C02_qgamma : forall (T : Type) (N : Num T) (L : NumLaws T) (p : T) (shape : T) (scale : T),
  not_prob p \/ NaNv shape \/ NaNv scale \/ negative shape \/ negative scale ->
  is_nan (qgamma p shape scale) = true.
Proof. exact qgamma_nan. Qed.
Print Assumptions C02_qgamma.

Theorem C02_qinvgamma : forall (T : Type) (N : Num T) (L : NumLaws T) (p : T) (shape : T) (rate : T),
  not_prob p \/ NaNv shape \/ NaNv rate \/ negative shape \/ negative rate ->
  is_nan (qinvgamma p shape rate) = true.
Proof. exact qinvgamma_nan. Qed.
Print Assumptions C02_qinvgamma.

Theorem C02_qinvgauss : forall (T : Type) (N : Num T) (L : NumLaws T) (p : T) (mu : T) (lambda : T),
  not_prob p \/ NaNv mu \/ NaNv lambda \/ negative mu \/ negative lambda ->
  is_nan (qinvgauss p mu lambda) = true.
Proof. exact qinvgauss_nan. Qed.
Print Assumptions C02_qinvgauss.

Theorem C02_qt : forall (T : Type) (N : Num T) (L : NumLaws T) (p : T) (dof : T),
  not_prob p \/ NaNv dof \/ negative dof ->
  is_nan (qt p dof) = true.
Proof. exact qt_nan. Qed.
Print Assumptions C02_qt.

Theorem C02_qunif : forall (T : Type) (N : Num T) (L : NumLaws T) (p : T) (a : T) (b : T),
  not_prob p \/ NaNv a \/ NaNv b \/ leb b a = true ->
  is_nan (qunif p a b) = true.
Proof. exact qunif_nan. Qed.
Print Assumptions C02_qunif.

Theorem C02_qweibull : forall (T : Type) (N : Num T) (L : NumLaws T) (p : T) (shape : T) (scale : T),
  not_prob p \/ NaNv shape \/ NaNv scale \/ negative shape \/ negative scale ->
  is_nan (qweibull p shape scale) = true.
Proof. exact qweibull_nan. Qed.
Print Assumptions C02_qweibull.

Theorem C02_qbern : forall (T : Type) (N : Num T) (L : NumLaws T) (p : T) (prob : T),
  not_prob p \/ not_prob prob ->
  is_nan (qbern p prob) = true.
Proof. exact qbern_nan. Qed.
Print Assumptions C02_qbern.

Theorem C02_qradem : forall (T : Type) (N : Num T) (L : NumLaws T) (p : T) (prob : T),
  not_prob p \/ not_prob prob ->
  is_nan (qradem p prob) = true.
Proof. exact qradem_nan. Qed.
Print Assumptions C02_qradem.

Theorem C02_qbinom : forall (T : Type) (N : Num T) (L : NumLaws T) (p : T) (n : Z) (prob : T),
  not_prob p \/ (n < 0)%Z \/ not_prob prob ->
  is_nan (qbinom p n prob) = true.
Proof. exact qbinom_nan. Qed.
Print Assumptions C02_qbinom.

Theorem C02_qpois : forall (T : Type) (N : Num T) (L : NumLaws T) (trunc : T -> option Z) (fuel : nat) (p rate : T),
  not_prob p \/ NaNv rate \/ negative rate ->
  qpois_run trunc fuel p rate = Some nan /\ is_nan (nan : T) = true.
Proof. exact qpois_nan. Qed.
Print Assumptions C02_qpois.

Theorem C02_qnorm_std : forall (T : Type) (N : Num T) (L : NumLaws T) (p : T),
  not_prob p ->
  is_nan (qnorm_std p) = true.
Proof. exact qnorm_std_nan. Qed.
Print Assumptions C02_qnorm_std.

(** Cases that meet the hypotheses, in both arithmetics. *)
Example C02_case_b64 (F : TF) : let N := B64_Num F in
  NumLaws b64 /\ negative (bofZ (-1)) /\ not_prob (bofZ 2) /\ not_prob (bofZ (-1))
  /\ leb (bofZ 1) (bofZ 1) = true /\ NaNv (Bdiv mode_NE (bofZ 0) (bofZ 0)).
Proof.
  split; [apply B64_Laws|]. unfold negative, not_prob, NaNv. cbn -[bofZ]. vm_compute.
  repeat split; auto.
Qed.
Example C02_case_er (S : SF) : (0 <= sf_eps S)%R -> let N := ER_Num S in
  NumLaws ER /\ negative (Fin (-1)) /\ not_prob (Fin 2) /\ not_prob PInf
  /\ leb PInf PInf = true /\ NaNv (ediv PInf PInf).
Proof.
  split; [now apply ER_Laws|]. unfold negative, not_prob, NaNv. cbn.
  rewrite !Rltb_true. repeat split; auto; try lra.
Qed.

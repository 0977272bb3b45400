(** The multivariate densities in exact arithmetic. *)
From Coq Require Import Reals Lra Lia ZArith QArith.
From mathcomp Require Import all_ssreflect ssralg matrix.
From Verif Require Import MxR Num ER ERTac SpecER Multi GammaFn SpecMulti MxLin.
Set Implicit Arguments. Unset Strict Implicit. Unset Printing Implicit Defensive.
Import GRing.Theory.
Local Open Scope ring_scope.
Local Open Scope R_scope.

Section S.
Variable S : SF.
Notation NS := (ER_Num S).

Lemma sum_to_F n (f : nat -> ER) (g : 'I_n -> R) : (forall i : 'I_n, f i = Fin (g i)) ->
  sum_to (N:=NS) n f = Fin (\sum_i g i).
Proof.
elim: n f g => [|n IH] f g H; first by rewrite big_ord0.
rewrite big_ord_recr /= (IH f (fun i => g (widen_ord (leqnSn n) i))).
  by have := H ord_max => /= ->; rewrite /add /= addE.
by move=> i; have := H (widen_ord (leqnSn n) i).
Qed.
Lemma mmul_holds n k c A B (X : 'M[R]_(n, k)) (Y : 'M[R]_(k, c)) :
  holds A X -> holds B Y -> holds (mmul (N:=NS) k A B) (X *m Y).
Proof.
move=> HA HB i j. rewrite /mmul (@sum_to_F _ _ (fun l => (X i l * Y l j)%R)) ?mxE //.
by move=> l; rewrite HA HB /mul /= mulE.
Qed.
Lemma mtrans_holds n c A (X : 'M[R]_(n, c)) : holds A X -> holds (mtrans A) X^T.
Proof. by move=> H i j; rewrite /mtrans H mxE. Qed.
Lemma mtrace_F n A (X : 'M[R]_n) : holds A X -> mtrace (N:=NS) n A = Fin (\tr X).
Proof. move=> H. rewrite /mtrace (@sum_to_F _ _ (fun i => X i i)) //. Qed.
Lemma col_holds n v (x : 'cV[R]_n) : holds_vec v x -> holds (col v) x.
Proof. by move=> H i j; rewrite /col H ord1. Qed.

Variable M : MatLib ER.
Hypothesis OK : lib_ok M.

Lemma ln_prod K (f : 'I_K -> R) : (forall i, 0 < f i) -> ln (\prod_i f i) = \sum_i ln (f i).
Proof.
elim: K f => [|n IH] f H; first by rewrite !big_ord0; exact: ln_1.
rewrite !big_ord_recr /= mulE ln_mult; [|exact: prod_gt0|exact: H].
by rewrite IH.
Qed.
Lemma log_det_F K A (X : 'M[R]_K) : holds A X -> pos_def X -> log_det (N:=NS) M K A = Fin (ln (\det X)) /\ 0 < \det X.
Proof.
move=> HA PX. have [L [HL CL]] := lib_chol OK HA PX. split; last exact: chol_det_gt0 CL.
rewrite /log_det (@sum_to_F _ _ (fun i => ln (L i i))).
  rewrite (chol_det CL). have [_ [P _]] := CL. have P1 := prod_gt0 P.
  change (mul (Num:=NS) (ofZ (Num:=NS) 2) (Fin (\sum_i ln (L i i)))) with (Fin (2 * \sum_i ln (L i i))).
  rewrite ln_mult // ln_prod //. congr Fin. lra.
move=> i. have [_ [P _]] := CL. rewrite (HL i i). exact: elog_F.
Qed.
Lemma pd_det K (X : 'M[R]_K) : pos_def X -> 0 < \det X.
Proof. move=> /chol_exists [L]. exact: chol_det_gt0. Qed.
Lemma pd_unit K (X : 'M[R]_K) : pos_def X -> X \in unitmx.
Proof. move=> /pd_det. exact: unit_of_det. Qed.
Lemma quad_form_F K v A (x : 'cV[R]_K) (X : 'M[R]_K) : holds_vec v x -> holds A X -> pos_def X ->
  quad_form (N:=NS) M K v A = Fin (quad (invmx X) x).
Proof.
move=> Hv HA PX. rewrite /quad_form (@sum_to_F _ _ (fun i => (x i ord0 * (invmx X *m x) i ord0)%R)).
  rewrite /quad /entry -mulmxA (mxE _ _ ord0 ord0). apply: f_equal. apply: eq_bigr => i _. by rewrite [in RHS]mxE.
move=> i. have H := lib_solve OK HA (col_holds Hv) (pd_unit PX). have -> := H i ord0.
by rewrite Hv.
Qed.

Lemma ofZ_INR K : ofZ (Num:=NS) (Z.of_nat K) = Fin (INR K).
Proof. by rewrite /ofZ /= INR_IZR_INZ. Qed.

Lemma ln_mvnorm K (x mu : 'cV[R]_K) (Sg : 'M[R]_K) : 0 < \det Sg ->
  0 < mvnorm_pdf x mu Sg /\
  ln (mvnorm_pdf x mu Sg) = - / 2 * INR K * ln (2 * Rtrigo1.PI) - / 2 * (ln (\det Sg) + quad (invmx Sg) (x - mu)%R).
Proof.
move=> HD. have P0 := PI_RGT_0. rewrite /mvnorm_pdf.
have P1 : 0 < Rpower (2 * Rtrigo1.PI) (- INR K / 2) by exact: exp_pos.
have P2 : 0 < Rpower (\det Sg) (- / 2) by exact: exp_pos.
have P3 := exp_pos (- / 2 * quad (invmx Sg) (x - mu)%R).
split; first by apply: Rmult_lt_0_compat => //; apply: Rmult_lt_0_compat.
rewrite ln_mult //; last exact: Rmult_lt_0_compat. rewrite ln_mult // ln_exp /Rpower !ln_exp. field.
Qed.
Lemma dmvnorm_val K v m A (x mu : 'cV[R]_K) (Sg : 'M[R]_K) lf :
  holds_vec v x -> holds_vec m mu -> holds A Sg -> pos_def Sg ->
  dmvnorm (N:=NS) M K v m A lf = val lf (mvnorm_pdf x mu Sg).
Proof.
move=> Hv Hm HA PS. have [LD D0] := log_det_F HA PS.
have [P0 L0] := ln_mvnorm x mu D0.
have QF : quad_form (N:=NS) M K (fun i => sub (Num:=NS) (v i) (m i)) A = Fin (quad (invmx Sg) (x - mu)%R).
  apply: quad_form_F => // i. by rewrite Hv Hm !mxE.
rewrite /dmvnorm QF LD ofZ_INR.
have -> : sub (Num:=NS) (mul (Num:=NS) (mul (Num:=NS) (neg (Num:=NS) (lit (Num:=NS) (1#2))) (Fin (INR K))) (LOG_2PI (Num:=NS)))
   (mul (Num:=NS) (lit (Num:=NS) (1#2)) (add (Num:=NS) (Fin (ln (\det Sg))) (Fin (quad (invmx Sg) (x - mu)%R)))) = Fin (ln (mvnorm_pdf x mu Sg)).
  rewrite L0. un_cls. er_arith. congr Fin. by field.
case: lf; rewrite /val; first by rewrite elog_F.
by rewrite /exp /= exp_ln.
Qed.

(** ** Wishart *)
Lemma mgamma_pos K a : (INR K - 1) / 2 < a -> 0 < mgamma K a.
Proof.
move=> Ha. apply: Rmult_lt_0_compat; first exact: exp_pos.
elim: K Ha => [|n IH] Ha; first exact: Rlt_0_1.
rewrite S_INR in Ha. apply: Rmult_lt_0_compat; first by apply: IH; lra.
apply: Gam_pos. lra.
Qed.
Lemma ln_div a b : 0 < a -> 0 < b -> ln (a / b) = ln a - ln b.
Proof. move=> Ha Hb. rewrite /Rdiv ln_mult // ?ln_Rinv //. exact: Rinv_0_lt_compat. Qed.
Lemma ln_wish K (X Psi : 'M[R]_K) nu : 0 < \det X -> 0 < \det Psi -> INR K - 1 < nu ->
  0 < wish_pdf X Psi nu /\
  ln (wish_pdf X Psi nu) = - (nu / 2) * ln (\det Psi) - nu / 2 * INR K * ln 2 - ln (mgamma K (nu / 2)) +
    / 2 * ((nu - INR K - 1) * ln (\det X) - \tr (invmx Psi *m X)).
Proof.
move=> DX DP Hn. have PG : 0 < mgamma K (nu / 2) by apply: mgamma_pos; lra.
rewrite /wish_pdf.
have P1 : 0 < Rpower (\det X) ((nu - INR K - 1) / 2) by exact: exp_pos.
have P2 := exp_pos (- / 2 * \tr (invmx Psi *m X)).
have P3 : 0 < Rpower 2 (nu * INR K / 2) by exact: exp_pos.
have P4 : 0 < Rpower (\det Psi) (nu / 2) by exact: exp_pos.
have P5 := Rmult_lt_0_compat _ _ P1 P2. have P6 := Rmult_lt_0_compat _ _ P3 P4.
have P7 := Rmult_lt_0_compat _ _ P6 PG.
split; first exact: Rdiv_lt_0_compat.
rewrite ln_div // (ln_mult _ _ P1 P2) (ln_mult _ _ P6 PG) (ln_mult _ _ P3 P4) ln_exp /Rpower !ln_exp. field.
Qed.
Lemma ln_invwish K (X Psi : 'M[R]_K) nu : 0 < \det X -> 0 < \det Psi -> INR K - 1 < nu ->
  0 < invwish_pdf X Psi nu /\
  ln (invwish_pdf X Psi nu) = nu / 2 * ln (\det Psi) - nu / 2 * INR K * ln 2 - ln (mgamma K (nu / 2)) -
    / 2 * ((nu + INR K + 1) * ln (\det X) + \tr (invmx X *m Psi)).
Proof.
move=> DX DP Hn. have PG : 0 < mgamma K (nu / 2) by apply: mgamma_pos; lra.
rewrite /invwish_pdf (mxtrace_mulC Psi).
have P1 : 0 < Rpower (\det X) (- ((nu + INR K + 1) / 2)) by exact: exp_pos.
have P2 := exp_pos (- / 2 * \tr (invmx X *m Psi)).
have P3 : 0 < Rpower 2 (nu * INR K / 2) by exact: exp_pos.
have P4 : 0 < Rpower (\det Psi) (nu / 2) by exact: exp_pos.
have P5 := Rmult_lt_0_compat _ _ P4 P1. have P6 := Rmult_lt_0_compat _ _ P5 P2.
have P7 := Rmult_lt_0_compat _ _ P3 PG.
split; first exact: Rdiv_lt_0_compat.
rewrite ln_div // (ln_mult _ _ P5 P2) (ln_mult _ _ P4 P1) (ln_mult _ _ P3 PG) ln_exp /Rpower !ln_exp. field.
Qed.

(** the value of the degrees of freedom, and the case in which nu-K-1 does not wrap *)
Definition nu_is (nu : nu_t ER) (r : R) : Prop := nu_val (N:=NS) nu = Fin r.
Definition no_wrap_minus (nu : nu_t ER) (K : nat) : Prop :=
  match nu with NuF _ => True | NuI n => (Z.of_nat K + 1 <= n < 2 ^ 64)%Z end.
Definition no_wrap_plus (nu : nu_t ER) (K : nat) : Prop :=
  match nu with NuF _ => True | NuI n => (0 <= n /\ n + Z.of_nat K + 1 < 2 ^ 64)%Z end.

Lemma nu_minus_F nu r K : nu_is nu r -> no_wrap_minus nu K ->
  nu_minus_K_1 (N:=NS) nu (Z.of_nat K) = Fin (r - INR K - 1).
Proof.
case: nu => [x|n] /=; rewrite /nu_is /=.
  by move=> -> _; rewrite INR_IZR_INZ.
move=> [<-] H. rewrite Z.mod_small ?minus_IZR ?INR_IZR_INZ //. lia.
Qed.
Lemma nu_plus_F nu r K : nu_is nu r -> no_wrap_plus nu K ->
  nu_plus_K_1 (N:=NS) nu (Z.of_nat K) = Fin (r + INR K + 1).
Proof.
case: nu => [x|n] /=; rewrite /nu_is /=.
  by move=> -> _; rewrite INR_IZR_INZ.
move=> [<-] H. rewrite Z.mod_small ?plus_IZR ?INR_IZR_INZ //. lia.
Qed.

Lemma dwish_val K A B (X Psi : 'M[R]_K) nu r lf : holds A X -> holds B Psi -> pos_def X -> pos_def Psi ->
  nu_is nu r -> INR K - 1 < r -> no_wrap_minus nu K ->
  dwish (N:=NS) M K A B nu lf = val lf (wish_pdf X Psi r).
Proof.
move=> HA HB PX PP Hn Hr Hw. have DX := pd_det PX. have DP := pd_det PP.
have [P0 L0] := ln_wish DX DP Hr. rewrite /dwish.
have -> : div (Num:=NS) (nu_val (N:=NS) nu) (ofZ (Num:=NS) 2) = Fin (r / 2) by rewrite Hn; un_cls; er_arith.
rewrite (lib_lmgamma OK); last by lra.
rewrite !(lib_det OK HA) !(lib_det OK HB) (nu_minus_F Hn Hw) ofZ_INR.
rewrite (mtrace_F (lib_solve OK HB HA (pd_unit PP))).
set e := add _ _. have -> : e = Fin (ln (wish_pdf X Psi r)).
  rewrite /e L0. un_cls. rewrite !elog_F //. er_arith. congr Fin. by rewrite /Rdiv (Rmult_1_l (/ 2)).
case: lf; rewrite /val; first by rewrite elog_F.
by rewrite /exp /= exp_ln.
Qed.
Lemma dinvwish_val K A B (X Psi : 'M[R]_K) nu r lf : holds A X -> holds B Psi -> pos_def X -> pos_def Psi ->
  nu_is nu r -> INR K - 1 < r -> no_wrap_plus nu K ->
  dinvwish (N:=NS) M K A B nu lf = val lf (invwish_pdf X Psi r).
Proof.
move=> HA HB PX PP Hn Hr Hw. have [LX DX] := log_det_F HA PX. have [LP DP] := log_det_F HB PP.
have [P0 L0] := ln_invwish DX DP Hr. rewrite /dinvwish.
have -> : div (Num:=NS) (nu_val (N:=NS) nu) (ofZ (Num:=NS) 2) = Fin (r / 2) by rewrite Hn; un_cls; er_arith.
rewrite (lib_lmgamma OK); last by lra.
rewrite LX LP (nu_plus_F Hn Hw) ofZ_INR.
rewrite (mtrace_F (lib_solve OK HA HB (pd_unit PX))).
set e := sub _ (mul _ _). have -> : e = Fin (ln (invwish_pdf X Psi r)).
  rewrite /e L0. un_cls. er_arith. congr Fin. by rewrite /Rdiv (Rmult_1_l (/ 2)).
case: lf; rewrite /val; first by rewrite elog_F.
by rewrite /exp /= exp_ln.
Qed.
End S.

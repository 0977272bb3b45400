(** One dimension, an exact library, and the two ways in which the statements fail. *)
From Coq Require Import Reals Lra Lia ZArith QArith ClassicalEpsilon.
From mathcomp Require Import all_ssreflect ssralg matrix.
From Verif Require Import MxR Num ER ERTac Dens Spec SpecER ClosedElem Rand SpecRand Multi GammaFn SpecMulti MxLin MultiER MultiRand.
Set Implicit Arguments. Unset Strict Implicit. Unset Printing Implicit Defensive.
Import GRing.Theory.
Local Open Scope ring_scope.
Local Open Scope R_scope.

(** ** An exact library *)
Definition getR (x : ER) : R := match x with Fin r => r | _ => 0 end.
Definition untab n c (A : mat ER) : 'M[R]_(n, c) := \matrix_(i < n, j < c) getR (A i j).
Definition tab n c (X : 'M[R]_(n, c)) : mat ER := fun i j =>
  match insub i, insub j with Some i', Some j' => Fin (X i' j') | _, _ => ER.NaN end.
Lemma untab_holds n c A (X : 'M[R]_(n, c)) : holds A X -> untab n c A = X.
Proof. move=> H. apply/matrixP => i j. by rewrite mxE H. Qed.
Lemma tab_holds n c (X : 'M[R]_(n, c)) : holds (tab X) X.
Proof. move=> i j. by rewrite /tab !valK. Qed.
Definition the_chol K (X : 'M[R]_K) : 'M[R]_K := ClassicalEpsilon.epsilon (inhabits X) (fun L => cholesky L X).
Lemma the_chol_ok K (X : 'M[R]_K) : pos_def X -> cholesky (the_chol X) X.
Proof. move=> /chol_exists. exact: epsilon_spec. Qed.
Definition exact_lib : MatLib ER := {|
  ml_chol := fun K A => tab (the_chol (untab K K A));
  ml_det := fun K A => Fin (\det (untab K K A));
  ml_inv := fun K A => tab (invmx (untab K K A));
  ml_solve := fun K c A B => tab (invmx (untab K K A) *m untab K c B);
  ml_lmgamma := fun a K => Fin (ln (mgamma K (getR a)));
  ml_max := PInf
|}.
Lemma exact_lib_ok : lib_ok exact_lib.
Proof.
split => /=.
- move=> K A X H P. exists (the_chol X). rewrite (untab_holds H). split; [exact: tab_holds|exact: the_chol_ok].
- move=> K A X H. by rewrite (untab_holds H).
- move=> K A X H U. rewrite (untab_holds H). exact: tab_holds.
- move=> K c A B X Y HA HB U. rewrite (untab_holds HA) (untab_holds HB). exact: tab_holds.
- by [].
Qed.
(** the same library with the Cholesky factor computed in place *)
Definition inplace_lib : MatLib ER := {|
  ml_chol := fun K A i j => if (i < j)%N then A i j else tab (the_chol (untab K K A)) i j;
  ml_det := ml_det exact_lib; ml_inv := ml_inv exact_lib; ml_solve := ml_solve exact_lib;
  ml_lmgamma := ml_lmgamma exact_lib; ml_max := ml_max exact_lib
|}.
Lemma inplace_lib_ok : chol_in_place inplace_lib.
Proof.
move=> K A X H P. exists (the_chol X). split; first exact: the_chol_ok. move=> i j /=.
by case: ifP => // _; rewrite (untab_holds H) tab_holds.
Qed.

(** ** Identity matrices *)
Lemma pd_id K : @pos_def K (1%:M).
Proof. have := @pd_gram K 1%:M (unitmx1 _ _). by rewrite trmx1 mulmx1. Qed.
Lemma mvnorm_id K (x : 'cV[R]_K) : mvnorm_pdf x x 1%:M = Rpower (2 * Rtrigo1.PI) (- INR K / 2).
Proof.
rewrite /mvnorm_pdf det1 subrr /quad mulmx0 /entry mxE.
change (@GRing.zero R_zmodType) with 0. change (GRing.one R_ringType) with 1.
by rewrite Rmult_0_r exp_0 /Rpower ln_1 Rmult_0_r exp_0 !Rmult_1_r.
Qed.

(** ** One dimension *)
Lemma mvnorm_dim1 (x mu s : R) : 0 < s -> mvnorm_pdf (K:=1) x%:M mu%:M s%:M = norm_pdf mu (R_sqrt.sqrt s) x.
Proof.
move=> Hs. rewrite /mvnorm_pdf /norm_pdf det_scalar1.
have -> : quad (invmx s%:M) (x%:M - mu%:M)%R = (x - mu) * / s * (x - mu).
  rewrite invmx_scalar /quad -raddfB /= tr_scalar_mx -!scalar_mxM entry_scalar.
  congr (_ * _ * _). rewrite /GRing.inv /= /invr. case: eqP => // Q. rewrite Q in Hs. case: (Rlt_irrefl _ Hs).
have P := PI_RGT_0. have S2 : 0 < R_sqrt.sqrt s by exact: sqrt_lt_R0. have S3 : 0 < R_sqrt.sqrt (2 * Rtrigo1.PI) by apply: sqrt_lt_R0; lra.
rewrite (_ : - INR 1 / 2 = - / 2); last by rewrite /= /Rdiv; lra.
rewrite !Rpower_Ropp !Rpower_sqrt //; last by lra.
have -> : R_sqrt.sqrt s ^ 2 = s by rewrite /= Rmult_1_r sqrt_sqrt //; lra.
have -> : - / 2 * ((x - mu) * / s * (x - mu)) = - ((x - mu) ^ 2 / (2 * s)) by field; lra.
by field; lra.
Qed.
Lemma pd_scalar1 (s : R) : 0 < s -> pos_def (K:=1) s%:M.
Proof.
move=> Hs. split; first exact: tr_scalar_mx. move=> v Hv. rewrite /quad mul_mx_scalar -scalemxAl entryZ.
apply: Rmult_lt_0_compat => //. exact: vec_norm_gt0.
Qed.

Section S.
Variable S : SF.
Notation NS := (ER_Num S).
Variable M : MatLib ER.

Lemma dmvnorm_dim1 (OK : lib_ok M) (x mu s : R) lf : 0 < s ->
  dmvnorm (N:=NS) M 1 (fun _ => Fin x) (fun _ => Fin mu) (fun _ _ => Fin s) lf =
  dnorm (N:=NS) (Fin x) (Fin mu) (esqrt (Fin s)) lf.
Proof.
move=> Hs. rewrite (@dmvnorm_val S M OK 1 _ _ _ x%:M mu%:M s%:M lf); try by move=> i; rewrite !ord1 !mxE eqxx mulr1n.
- rewrite esqrt_F; last by lra. rewrite dnorm_val; last exact: sqrt_lt_R0. by rewrite mvnorm_dim1.
- by move=> i j; rewrite !ord1 mxE eqxx mulr1n.
- exact: pd_scalar1.
Qed.

(** ** dwish with an integral number of degrees of freedom equal to the dimension *)
Lemma dwish_wrap (OK : lib_ok M) K A B (X Psi : 'M[R]_K) : (Z.of_nat K < 2 ^ 64)%Z -> holds A X -> holds B Psi -> pos_def X -> pos_def Psi ->
  dwish (N:=NS) M K A B (NuI (Z.of_nat K)) true = Fin (ln (wish_pdf X Psi (INR K)) + IZR (2 ^ 63) * ln (\det X)).
Proof.
move=> HK HA HB PX PP. have DX := pd_det PX. have DP := pd_det PP.
have Hr : INR K - 1 < INR K by lra. have [P0 L0] := ln_wish DX DP Hr. rewrite /dwish.
have -> : div (Num:=NS) (nu_val (N:=NS) (NuI (Z.of_nat K))) (ofZ (Num:=NS) 2) = Fin (INR K / 2).
  rewrite (_ : nu_val (N:=NS) (NuI (Z.of_nat K)) = Fin (INR K)); last exact: ofZ_INR. by un_cls; er_arith.
rewrite (lib_lmgamma OK); last by lra.
rewrite !(lib_det OK HA) !(lib_det OK HB) ofZ_INR.
rewrite (mtrace_F S (lib_solve OK HB HA (pd_unit PP))).
have -> : nu_minus_K_1 (N:=NS) (NuI (Z.of_nat K)) (Z.of_nat K) = Fin (2 * IZR (2 ^ 63) - 1).
  rewrite /nu_minus_K_1. have -> : ((Z.of_nat K - Z.of_nat K - 1) mod 2 ^ 64 = 2 * 2 ^ 63 - 1)%Z.
    by rewrite Z.sub_diag.
  change (Fin (IZR (2 * 2 ^ 63 - 1)) = Fin (2 * IZR (2 ^ 63) - 1)). by rewrite minus_IZR mult_IZR.
rewrite L0. un_cls. rewrite !elog_F //. er_arith. congr Fin.
set a := ln (mgamma _ _). set t := \tr _. set c := IZR (2 ^ 63). set d := ln (\det X). set b := ln (\det Psi). clearbody a t c d b.
rewrite /Rdiv. lra.
Qed.
Lemma dwish_wrap_refuted (OK : lib_ok M) K A B (X Psi : 'M[R]_K) : (Z.of_nat K < 2 ^ 64)%Z -> holds A X -> holds B Psi -> pos_def X -> pos_def Psi ->
  \det X <> 1 -> dwish (N:=NS) M K A B (NuI (Z.of_nat K)) true <> Fin (ln (wish_pdf X Psi (INR K))).
Proof.
move=> HK HA HB PX PP D. rewrite (dwish_wrap OK HK HA HB PX PP). move=> [Q].
have Q2 : IZR (2 ^ 63) * ln (\det X) = 0 by lra.
apply: D. apply: ln_inv; [exact: pd_det|lra|]. rewrite ln_1.
apply: (Rmult_eq_reg_l (IZR (2 ^ 63))); first by rewrite Q2 Rmult_0_r. apply: IZR_neq. lia.
Qed.

(** ** rmvnorm with a Cholesky routine that works in place *)
Definition Sig2 : 'M[R]_2 := \matrix_(i < 2, j < 2) (if (i == ord0) || (j == ord0) then 1 else 2).
Definition L2 : 'M[R]_2 := \matrix_(i < 2, j < 2) (if (i == ord0) && (j != ord0) then 0 else 1).
Lemma Sig2_pd : pos_def Sig2.
Proof.
have -> : Sig2 = L2 *m L2^T.
  apply/matrixP => i j. rewrite !mxE !big_ord_recl big_ord0 !mxE !addE !mulE. change (@GRing.zero _) with 0.
  by case: i => [[|[|i]] Hi] //; case: j => [[|[|j]] Hj] //=; lra.
apply: pd_gram. rewrite unitmxE det_trig.
  rewrite !big_ord_recl big_ord0 !mxE /=. change (@GRing.one _) with 1. rewrite !mulr1. exact: unitr1.
apply/is_trig_mxP => i j. by case: i => [[|[|i]] Hi] //; case: j => [[|[|j]] Hj] //=; rewrite mxE.
Qed.
(** an engine whose state is the list of the draws it is about to deliver *)
Definition state_fill (n k : nat) (e : nat -> R) : mat ER * (nat -> R) := (fun i _ => Fin (e i), e).
Definition unit_state (i : nat) : nat -> R := fun k => if (k == i)%N then 1 else 0.
Lemma rmvnorm_inplace (IP : chol_in_place M) :
  ~ exists L : 'M[R]_2, L *m L^T = Sig2 /\ forall e : nat -> R, exists v e',
      rmvnorm (N:=NS) M state_fill 2 2 (fun _ => Fin 0) (fun i j => if (i == 0)%N || (j == 0)%N then Fin 1 else Fin 2) false e = (Some v, e') /\
      holds_vec v (L *m (\col_(i < 2) e i)).
Proof.
move=> [L [HL H]].
have HA : holds (fun i j => if (i == 0)%N || (j == 0)%N then Fin 1 else Fin 2) Sig2.
  by move=> i j; case: i => [[|[|i]] Hi] //; case: j => [[|[|j]] Hj] //; rewrite mxE.
have [C [CC HC]] := IP _ _ _ HA Sig2_pd. have [_ [Cp CE]] := CC.
pose o1 : 'I_2 := Ordinal (isT : (1 < 2)%N).
have C00 : C ord0 ord0 = 1.
  have := Cp ord0. have /matrixP /(_ ord0 ord0) := CE. rewrite !mxE !big_ord_recl big_ord0 !mxE /=.
  have -> : C ord0 (lift ord0 ord0) = 0 by case: CC => -> .
  rewrite !addE !mulE. change (@GRing.zero _) with 0. move=> Q P. nra.
have E0 : L ord0 ord0 = 1.
  have [v [e' []]] := H (unit_state 0). move=> [<- _] /(_ ord0). 
  rewrite /mmul /=. rewrite (HC ord0 ord0) (HC ord0 o1) /= !mxE !big_ord_recl big_ord0 !mxE /= C00 /unit_state /=.
  rewrite !addE !mulE. change (@GRing.zero _) with 0. case => Q. lra.
have E1 : L ord0 o1 = 1.
  have [v [e' []]] := H (unit_state 1). move=> [<- _] /(_ ord0).
  rewrite /mmul /=. rewrite (HC ord0 ord0) (HC ord0 o1) /= !mxE !big_ord_recl big_ord0 !mxE /= C00 /unit_state /=.
  rewrite (_ : lift ord0 ord0 = o1); last exact: val_inj.
  rewrite !addE !mulE. change (@GRing.zero _) with 0. case => Q. lra.
have := f_equal (fun X : 'M_2 => X ord0 ord0) HL. rewrite !mxE !big_ord_recl big_ord0 !mxE /=.
rewrite (_ : lift ord0 ord0 = o1); last exact: val_inj. rewrite E0 E1 !addE !mulE. change (@GRing.zero _) with 0. lra.
Qed.
End S.

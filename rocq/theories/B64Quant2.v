(** More quantile functions in binary64: Laplace, inverse gamma, F and binomial. *)
From Coq Require Import ZArith QArith Reals Bool Lra Lia.
From Verif Require Import Num Sanity Prob Dens Quant Discrete B64 B64R B64Ord SpecB64 B64Cdf B64Cdf2 B64Cdf3 B64Unif B64Quant.
From Flocq Require Import Core IEEE754.BinarySingleNaN.
Local Open Scope R_scope.

(** multiplication by a negative constant *)
Lemma mul_negc c x : bfin c -> B2R c < 0 -> nn x -> nn (bmul c x) /\ ev (bmul c x) = - ev (bmul (Bopp c) x).
Proof.
  intros Fc Lc N. assert (Fo : bfin (Bopp c)) by now rewrite is_finite_Bopp.
  destruct (nn_cases x N) as [Fx | [-> | ->]].
  - destruct (mul_ff c x Fc Fx) as [A B], (mul_ff _ x Fo Fx) as [A' B']. split; auto. rewrite B, B', B2R_Bopp, <- rc_opp. f_equal. lra.
  - assert (P : bpos (Bopp c)) by (split; [auto|rewrite B2R_Bopp; lra]). destruct (bpos_shape _ P) as (m & e & Bd & E).
    assert (Ec : c = B754_finite true m e Bd) by (apply (f_equal Bopp) in E; rewrite Bopp_involutive in E; exact E). rewrite Ec. change (bmul (Bopp (B754_finite true m e Bd)) (B754_infinity false)) with (B754_infinity false : b64).
    change (bmul (B754_finite true m e Bd) (B754_infinity false)) with (B754_infinity true : b64). rewrite ev_p, ev_m. split; [reflexivity|lra].
  - assert (P : bpos (Bopp c)) by (split; [auto|rewrite B2R_Bopp; lra]). destruct (bpos_shape _ P) as (m & e & Bd & E).
    assert (Ec : c = B754_finite true m e Bd) by (apply (f_equal Bopp) in E; rewrite Bopp_involutive in E; exact E). rewrite Ec. change (bmul (Bopp (B754_finite true m e Bd)) (B754_infinity true)) with (B754_infinity true : b64).
    change (bmul (B754_finite true m e Bd) (B754_infinity true)) with (B754_infinity false : b64). rewrite ev_p, ev_m. split; [reflexivity|lra].
Qed.
(** a product of positive numbers, and the quotient by it, never meet a negative zero *)
Lemma mul_sign x y : bpos x -> bpos y -> Bsign (bmul x y) = false.
Proof.
  intros [Fx Px] [Fy Py]. pose proof (bpos_shape x (conj Fx Px)) as (m & e & B & ->). pose proof (bpos_shape y (conj Fy Py)) as (m' & e' & B' & ->).
  pose proof (Bmult_correct 53 1024 b64_prec_gt_0 b64_prec_lt_emax mode_NE (B754_finite false m e B) (B754_finite false m' e' B')) as C.
  destruct (Rlt_bool _ _) in C.
  - destruct C as (_ & Ff & S). apply S. revert Ff. set (w := Bmult _ _ _). destruct w; cbn; auto; discriminate.
  - apply overflow_val in C. unfold bmul. rewrite C. reflexivity.
Qed.
Definition nonneg (d : b64) : Prop := nn d /\ 0 <= ev d /\ d <> B754_zero true.
Lemma div_nonneg c d : bpos c -> nonneg d -> nn (bdiv c d) /\ 0 <= ev (bdiv c d).
Proof.
  intros P (N & L & Z). pose proof maxR_pos. destruct (Rle_lt_or_eq_dec _ _ L) as [L1|L1].
  - split; [apply bdiv_l_nn; auto; apply P|]. apply bdiv_pos_nonneg; auto; [apply P|left; apply P].
  - assert (Fd : bfin d) by (apply ev_lt_fin; auto; lra). rewrite ev_fin in L1 by auto. assert (E : d = B754_zero false).
    { destruct d as [s|s| |s m e B]; try discriminate Fd; [destruct s; congruence|]. exfalso. cbn in L1. symmetry in L1. apply eq_0_F2R in L1. destruct s; discriminate L1. }
    subst d. destruct (bpos_shape c P) as (m & e & B & ->). change (bdiv (B754_finite false m e B) (B754_zero false)) with (B754_infinity false : b64). rewrite ev_p. split; [reflexivity|lra].
Qed.
Lemma nonneg_0 d : nonneg d -> ev d = 0 -> d = B754_zero false.
Proof.
  intros (N & L & Z) E. pose proof maxR_pos. assert (Fd : bfin d) by (apply ev_lt_fin; auto; lra). rewrite ev_fin in E by auto.
  destruct d as [s|s| |s m e B]; try discriminate Fd; [destruct s; congruence|]. exfalso. cbn in E. apply eq_0_F2R in E. destruct s; discriminate E.
Qed.
Lemma div_anti c d d' : bpos c -> nonneg d -> nonneg d' -> ev d <= ev d' -> ev (bdiv c d') <= ev (bdiv c d).
Proof.
  intros P D D' L. destruct (Req_dec (ev d) 0) as [E|E].
  - rewrite (nonneg_0 d D E). destruct (bpos_shape c P) as (m & e & B & ->). change (bdiv (B754_finite false m e B) (B754_zero false)) with (B754_infinity false : b64). rewrite ev_p. apply ev_bound.
  - destruct D as (N & L0 & _), D' as (N' & L0' & _). apply (bdiv_l c (ev d)); auto; try lra; split; auto; (split; [lra|apply ev_bound]).
Qed.

Section Q2.
Variable F : TF.
Notation NB := (B64_Num F).
Ltac eqs := change (@eqb b64 NB) with (Beqb (prec:=53) (emax:=1024)); change (@ofZ b64 NB) with bofZ.

(** *** Laplace *)
Lemma abs2 u : bfin u -> - / 2 <= B2R u <= / 2 -> nn (bsub (bofZ 1) (bmul (bofZ 2) (Babs u))) /\
  ev (bsub (bofZ 1) (bmul (bofZ 2) (Babs u))) = rc (1 - rc (2 * Rabs (B2R u))) /\ 0 <= ev (bsub (bofZ 1) (bmul (bofZ 2) (Babs u))) <= 1.
Proof.
  intros Fu Ru. destruct (bofZ_R 2 ltac:(sm)) as [A2 F2]. assert (Fa : bfin (Babs u)) by now rewrite is_finite_Babs. pose proof maxR_1.
  destruct (mul_ff _ _ F2 Fa) as [U V]. rewrite A2, B2R_Babs in V. assert (Ra : 0 <= Rabs (B2R u) <= / 2) by (split; [apply Rabs_pos|apply Rabs_le; lra]).
  assert (W : 0 <= ev (bmul (bofZ 2) (Babs u)) <= 1) by (rewrite V; apply (rc_range 0 1); try sm; lra).
  destruct (one_minus _ U W) as (X & Y & Z). rewrite V in Y. auto.
Qed.
Lemma qlaplace_qinc mu sigma : log01_ok F -> bfin mu -> bpos sigma -> qinc (fun p => qlaplace (N:=NB) p mu sigma).
Proof.
  intros H Fm Ps. pose proof maxR_pos as M. destruct z0 as [Z0 E0]. destruct (incr_ev _ plus_inf _ _ _ Z0 eq_refl (proj1 H)) as [_ W2]. rewrite E0 in W2.
  pose (u := fun p => bsub p (blit (1#2))). pose (L := fun p => t_log F (bsub (bofZ 1) (bmul (bofZ 2) (Babs (u p))))).
  pose (h := fun p => bmul (bmul sigma (bofZ (sgn (N:=NB) (u p)))) (L p)).
  destruct (bofZ_R 0 ltac:(sm)) as [A0 F0], (bofZ_R 1 ltac:(sm)) as [A1 F1], (bofZ_R (-1) ltac:(sm)) as [Am Fmm].
  assert (HL : forall p, in01 p -> nn (L p) /\ ev (L p) <= 0).
  { intros p I. destruct (minus_half p I) as (Fu & Ru & _). destruct (abs2 _ Fu Ru) as (X & _ & Y). now apply log_neg. }
  assert (ML : forall p q, in01 p -> in01 q -> Rabs (B2R (u p)) <= Rabs (B2R (u q)) -> ev (L q) <= ev (L p)).
  { intros p q Ip Iq Q. destruct (minus_half p Ip) as (Fu & Ru & _), (minus_half q Iq) as (Fv & Rv & _).
    destruct (abs2 _ Fu Ru) as (X & E & Y), (abs2 _ Fv Rv) as (X' & E' & Y'). fold (u p) in X, E, Y. fold (u q) in X', E', Y'. unfold L. apply W2; auto; [lra| |apply ev_bound]. rewrite E, E'. apply rc_mono.
    apply Rplus_le_compat_l, Ropp_le_contravar, rc_mono. lra. }
  assert (Mu : forall p q, in01 p -> in01 q -> ev p <= ev q -> B2R (u p) <= B2R (u q)).
  { intros p q Ip Iq Q. destruct (minus_half p Ip) as (Fu & _ & Eu), (minus_half q Iq) as (Fv & _ & Ev). unfold u. rewrite <- !ev_fin, Eu, Ev by auto. apply rc_mono. lra. }
  pose (sp := bmul sigma (bofZ 1)). pose (sm' := bmul sigma (bofZ (-1))).
  assert (S1 : bpos sp).
  { destruct Ps as [Fs Ps]. destruct (mul_ff sigma _ Fs F1) as [U V]. rewrite A1, Rmult_1_r, <- ev_fin, rc_ev in V by auto. pose proof (fin_lt _ Fs).
    assert (Fsp : bfin sp) by (apply ev_lt_fin; auto; unfold sp; rewrite V; auto). split; auto. rewrite <- ev_fin by auto. unfold sp. rewrite V, ev_fin by auto. auto. }
  assert (S2 : bfin sm' /\ B2R sm' < 0).
  { destruct Ps as [Fs Ps]. destruct (mul_ff sigma _ Fs Fmm) as [U V]. rewrite Am in V. replace (B2R sigma * -1) with (- B2R sigma) in V by lra. rewrite rc_opp, <- ev_fin, rc_ev in V by auto. pose proof (fin_lt _ Fs).
    assert (Fsp : bfin sm') by (apply ev_lt_fin; auto; unfold sm'; rewrite V; lra). split; auto. rewrite <- ev_fin by auto. unfold sm'. rewrite V, ev_fin by auto. lra. }
  assert (S3 : bpos (Bopp sm')) by (destruct S2; split; [now rewrite is_finite_Bopp|rewrite B2R_Bopp; lra]).
  assert (Z : forall c, bfin c -> ev (bmul c (bofZ 0)) = 0) by (intros c Fc; rewrite (proj2 (mul_ff c _ Fc F0)), A0, Rmult_0_r; apply rc_0).
  assert (Hh : forall p, in01 p -> (0 < B2R (u p) /\ h p = bmul sp (L p) /\ nn (h p) /\ ev (h p) <= 0) \/ (B2R (u p) < 0 /\ h p = bmul sm' (L p) /\ nn (h p) /\ 0 <= ev (h p)) \/ (B2R (u p) = 0 /\ nn (h p) /\ ev (h p) = 0)).
  { intros p I. destruct (minus_half p I) as (Fu & Ru & _). fold (u p) in *. destruct (HL p I) as [NL LL].
    unfold h, sgn. change (ltb (ofZ 0) (u p)) with (Bltb (bofZ 0) (u p)). change (ltb (u p) (ofZ 0)) with (Bltb (u p) (bofZ 0)).
    destruct (Rtotal_order 0 (B2R (u p))) as [Q|[Q|Q]].
    - left. rewrite (proj2 (bltb_R (bofZ 0) (u p) F0 Fu)) by lra. fold sp. split; auto. split; auto. split; [now apply bmul_l_nn|].
      rewrite <- (Z sp) by apply S1. apply bmul_l; auto; try now apply in_dom.
    - right; right. rewrite (proj2 (bltb_R_f (bofZ 0) (u p) F0 Fu)), (proj2 (bltb_R_f (u p) (bofZ 0) Fu F0)) by lra. split; [lra|].
      assert (FL : bfin (L p)).
      { destruct (proj1 (eqb_ev (t_log F (bofZ 1)) (bofZ 0) (proj1 (log_neg F (bofZ 1) H (proj1 z1) ltac:(rewrite (proj2 z1); lra))) Z0) (proj2 H)).
        apply ev_lt_fin; auto. pose proof (W2 (bofZ 1) (bsub (bofZ 1) (bmul (bofZ 2) (Babs (u p)))) (proj1 z1)) as K.
        destruct (abs2 _ Fu Ru) as (X & E & Y). rewrite <- Q, Rabs_R0, Rmult_0_r, rc_0, Rminus_0_r in E. rewrite (rc_Z 1) in E by sm. rewrite (proj2 z1) in K.
        specialize (K X ltac:(lra) ltac:(lra) ltac:(apply ev_bound)). fold (L p) in K. lra. }
      destruct (mul_ff sigma (bofZ 0) (proj1 Ps) F0) as [U V]. rewrite A0, Rmult_0_r, rc_0 in V.
      destruct (fin_of _ 0 0 U ltac:(lra) ltac:(lra) ltac:(lra)) as [Fz Rz]. destruct (mul_ff _ (L p) Fz FL) as [X Y]. split; auto. rewrite Y.
      replace (B2R (bmul sigma (bofZ 0))) with 0 by lra. rewrite Rmult_0_l. apply rc_0.
    - right; left. rewrite (proj2 (bltb_R_f (bofZ 0) (u p) F0 Fu)), (proj2 (bltb_R (u p) (bofZ 0) Fu F0)) by lra. fold sm'. split; auto. split; auto.
      destruct (mul_negc sm' (L p) (proj1 S2) (proj2 S2) NL) as [X Y]. split; auto. rewrite Y.
      assert (ev (bmul (Bopp sm') (L p)) <= 0); [|lra]. rewrite <- (Z (Bopp sm')) by apply S3. apply bmul_l; auto; try now apply in_dom. }
  assert (Mh : forall p q, in01 p -> in01 q -> ev p <= ev q -> ev (h q) <= ev (h p)).
  { intros p q Ip Iq Q. pose proof (Mu p q Ip Iq Q) as Q1. destruct (HL p Ip) as [Np _], (HL q Iq) as [Nq _].
    destruct (Hh p Ip) as [(A & Ep & N1 & V1)|[(A & Ep & N1 & V1)|(A & N1 & V1)]], (Hh q Iq) as [(B & Eq & N2 & V2)|[(B & Eq & N2 & V2)|(B & N2 & V2)]]; try lra.
    - rewrite Ep, Eq. apply bmul_l; auto; try now apply in_dom. apply ML; auto. rewrite !Rabs_pos_eq; lra.
    - rewrite Ep, Eq. rewrite (proj2 (mul_negc sm' (L p) (proj1 S2) (proj2 S2) Np)), (proj2 (mul_negc sm' (L q) (proj1 S2) (proj2 S2) Nq)).
      apply Ropp_le_contravar. apply bmul_l; auto; try now apply in_dom. apply ML; auto. rewrite !Rabs_left; lra. }
  assert (Nh : forall p, in01 p -> nn (h p)) by (intros p I; destruct (Hh p I) as [(_ & _ & ? & _)|[(_ & _ & ? & _)|(_ & ? & _)]]; auto).
  apply (qinc_tri _ mI pI (fun p => bsub mu (h p))); try reflexivity; try (unfold mI, pI; rewrite ev_m, ev_p; lra).
  - intros p I. unfold qlaplace. change (laplace_sanity2 (N:=NB) mu sigma) with (norm_sanity2 (N:=NB) mu sigma). rewrite ls_sanity, pvc by auto. cbn [negb]. eqs. rewrite eq0_f by auto.
    rewrite (posinf_fin F sigma), (posinf_fin F mu), (neginf_fin F mu) by (auto; apply Ps). reflexivity.
  - intros p O. split; [apply bsub_l_nn; auto; apply Nh; now apply o_in|]. apply ev_bound.
  - intros p q Op Oq Q. apply o_in in Op, Oq. apply bsub_l; auto; try (apply in_dom; auto).
Qed.

(** *** inverse gamma *)
Lemma qinvgamma_qinc shape rate : incgamma_inv_ok F -> incgamma_inv_pz F -> b64_pos shape -> b64_pos rate ->
  qinc (fun p => qinvgamma (N:=NB) p shape rate).
Proof.
  intros H Hz Psh Prt. pose proof (pos_bpos _ Psh) as Psh'. pose proof (pos_bpos _ Prt) as Prt'. pose proof maxR_pos.
  destruct z0 as [Z0 E0], z1 as [Z1 E1]. destruct (incr_ev _ _ _ _ _ Z0 Z1 (H shape Psh)) as [W1 W2]. rewrite E0, E1 in W1. rewrite E0, E1 in W2.
  assert (D : forall p, in01 p -> nonneg (t_incgamma_inv F shape (bsub (bofZ 1) p))).
  { intros p [N B]. destruct (one_minus p N B) as (U & _ & V). destruct (W1 _ U V) as [X Y]. split; auto. split; [lra|].
    apply Hz; auto; apply leb_ev; rewrite ?E0, ?E1; intuition. }
  apply (qinc_tri _ (bofZ 0) pI (fun p => bdiv rate (t_incgamma_inv F shape (bsub (bofZ 1) p)))); auto; try reflexivity; try (unfold pI; rewrite ?E0, ?ev_p; lra).
  - intros p I. unfold qinvgamma, invgamma_sanity2, any_nan2. rewrite pvc, (nan_nn F shape), (nan_nn F rate) by (auto; apply nn_fin; apply Psh' || apply Prt'). cbn [orb].
    change (ltb shape (ofZ 0)) with (Bltb shape (bofZ 0)). change (ltb rate (ofZ 0)) with (Bltb rate (bofZ 0)). rewrite !lt0_f by (try apply Psh'; try apply Prt'; left; apply Psh' || apply Prt'). cbn [negb]. eqs.
    rewrite (eq0_f shape), (eq0_f rate) by auto. unfold any_posinf2. rewrite !posinf_fin by (apply Psh' || apply Prt'). reflexivity.
  - intros p O. destruct (div_nonneg rate _ Prt' (D p (o_in p O))) as [X Y]. split; auto. rewrite E0. split; auto. apply ev_bound.
  - intros p q Op Oq L. apply o_in in Op, Oq. apply div_anti; auto. destruct Op as [Np Bp], Oq as [Nq Bq].
    destruct (one_minus p Np Bp) as (U1 & _ & V1), (one_minus q Nq Bq) as (U2 & _ & V2). apply W2; auto; try lra. apply one_minus_mono; auto; split; auto.
Qed.

(** *** F *)
Lemma f_denom r v : bpos r -> nn v -> 0 <= ev v <= 1 -> nonneg (bmul r (bsub (bofZ 1) v)) /\ bfin (bmul r (bsub (bofZ 1) v)) /\ (ev v = 0 -> 0 < ev (bmul r (bsub (bofZ 1) v))).
Proof.
  intros Pr N B. destruct (one_minus v N B) as (U & E & W). pose proof maxR_1.
  destruct (fin_of _ 0 1 U W ltac:(lra) ltac:(lra)) as [Fu Ru]. destruct Pr as [Fr Pr]. destruct (mul_ff r _ Fr Fu) as [X Y].
  assert (B0 : 0 <= ev (bmul r (bsub (bofZ 1) v))) by (rewrite Y, <- rc_0; apply rc_mono; nra).
  assert (B1 : ev (bmul r (bsub (bofZ 1) v)) <= B2R r) by (rewrite Y; assert (Rr : rc (B2R r) = B2R r) by (rewrite <- ev_fin by auto; now apply rc_ev); apply Rle_trans with (rc (B2R r)); [apply rc_mono; nra|lra]).
  pose proof (fin_lt _ Fr) as Mr. rewrite ev_fin in Mr by auto. assert (Fp : bfin (bmul r (bsub (bofZ 1) v))) by (apply ev_lt_fin; auto; lra).
  split; [|split; auto].
  - split; auto. split; auto. destruct (Rle_lt_or_eq_dec 0 (B2R (bsub (bofZ 1) v)) (proj1 Ru)) as [L|L].
    + intros Z. pose proof (mul_sign r _ (conj Fr Pr) (conj Fu L)) as S. rewrite Z in S. discriminate S.
    + assert (S : bsub (bofZ 1) v = B754_zero false).
      { rewrite <- ev_fin in L by auto. rewrite E in L. destruct (bofZ_R 1 ltac:(sm)) as [A1 F1]. assert (Fv : bfin v) by (apply ev_lt_fin; auto; lra).
        pose proof (Bminus_correct 53 1024 b64_prec_gt_0 b64_prec_lt_emax mode_NE (bofZ 1) v F1 Fv) as C. rewrite A1 in C.
        assert (V1 : B2R v = 1).
        { destruct (Req_dec (B2R v) 1) as [|NE]; auto. exfalso. rewrite (ev_fin v Fv) in *. pose proof (below_1 v Fv ltac:(lra)) as Q. destruct bpow53 as [P1 P2].
          assert (bpow radix2 (-53) <= rc (1 - B2R v)) by (rewrite <- P2; apply rc_mono; lra). lra. }
        rewrite V1, Rminus_diag_eq, round_0, Rabs_R0 in C by (auto; typeclasses eauto). rewrite Rlt_bool_true in C by apply bpow_gt_0. destruct C as (C1 & C2 & C3). rewrite Rcompare_Eq in C3 by auto.
        unfold bsub. destruct (Bminus mode_NE (bofZ 1) v) as [s|s| |s m e Bd]; try discriminate C2; [cbn in C3; rewrite C3|cbn in C1; apply eq_0_F2R in C1; destruct s; discriminate C1].
        reflexivity. }
      rewrite S. destruct (bpos_shape r (conj Fr Pr)) as (m & e & Bd & ->). discriminate.
  - intros V0. rewrite Y. rewrite V0, Rminus_0_r in E. rewrite (rc_Z 1) in E by sm. rewrite ev_fin in E by auto. rewrite E, Rmult_1_r. rewrite <- ev_fin, rc_ev, ev_fin by auto. auto.
Qed.
Lemma half_pos df : big_eps df -> b64_pos (bdiv df (bofZ 2)).
Proof.
  intros H. destruct (big_eps_pos _ H) as (_ & [Fd Pd] & Ed). destruct (bofZ_R 2 ltac:(sm)) as [A2 F2]. destruct z0 as [Z0 E0]. pose proof maxR_pos as M.
  destruct (div_ff df (bofZ 2) Fd F2 ltac:(lra)) as [U V]. rewrite A2 in V. pose proof (fin_lt _ Fd) as Md.
  assert (L1 : bpow radix2 (-53) <= B2R df / 2).
  { rewrite <- (ev_fin df Fd). assert (ev beps = bpow radix2 (-52)) as Ee by (rewrite ev_fin by apply eps_pos; vm_compute; lra). rewrite Ee in Ed.
    change (-53)%Z with (-52 + -1)%Z. rewrite bpow_plus. change (bpow radix2 (-1)) with (/ 2). lra. }
  assert (L2 : B2R df / 2 <= B2R df) by lra.
  apply rc_mono in L1, L2. destruct bpow53 as [P1 P2]. rewrite P2 in L1. rewrite <- (ev_fin df Fd), rc_ev in L2 by auto.
  split; apply ltb_ev; auto; try reflexivity; rewrite V; unfold plus_inf; rewrite ?E0, ?ev_p, <- ?(ev_fin df Fd); rewrite <- ?(ev_fin df Fd) in L1; lra.
Qed.
Lemma qf_qinc df1 df2 : incbeta_inv_ok F -> big_eps df1 -> big_eps df2 ->
  b64_pos (bdiv (bdiv df1 (bofZ 2)) (bdiv df2 (bofZ 2))) -> qinc (fun p => qf (N:=NB) p df1 df2).
Proof.
  intros H B1 B2 Pr. apply pos_bpos in Pr. pose proof (half_pos _ B1) as P1. pose proof (half_pos _ B2) as P2. pose proof maxR_pos as M.
  destruct (big_eps_pos _ B1) as (_ & Pd1 & Ed1), (big_eps_pos _ B2) as (_ & Pd2 & Ed2).
  destruct z0 as [Z0 E0], z1 as [Z1 E1]. destruct (incr_ev _ _ _ _ _ Z0 Z1 (H _ _ P1 P2)) as [W1 W2]. rewrite E0, E1 in W1. rewrite E0, E1 in W2.
  set (a := bdiv df1 (bofZ 2)) in *. set (b := bdiv df2 (bofZ 2)) in *. set (r := bdiv a b) in *.
  assert (D : forall v, nn v -> 0 <= ev v <= 1 -> nn (bdiv v (bmul r (bsub (bofZ 1) v))) /\ 0 <= ev (bdiv v (bmul r (bsub (bofZ 1) v))) /\ (ev v = 0 -> ev (bdiv v (bmul r (bsub (bofZ 1) v))) = 0)).
  { intros v N B. destruct (f_denom r v Pr N B) as (Dn & Df & D0). pose proof maxR_1. destruct (fin_of v 0 1 N B ltac:(lra) ltac:(lra)) as [Fv Rv].
    destruct (Rle_lt_or_eq_dec 0 (B2R v) (proj1 Rv)) as [L|L].
    - destruct (div_nonneg v _ (conj Fv L) Dn) as [X Y]. split; auto. split; auto. rewrite ev_fin by auto. lra.
    - assert (V0 : ev v = 0) by (rewrite ev_fin by auto; lra). specialize (D0 V0). rewrite ev_fin in D0 by auto. destruct (div_ff v _ Fv Df ltac:(lra)) as [X Y].
      assert (Y0 : ev (bdiv v (bmul r (bsub (bofZ 1) v))) = 0) by (rewrite Y, <- L; unfold Rdiv; rewrite Rmult_0_l; apply rc_0). split; auto. split; [lra|auto]. }
  apply (qinc_tri _ (bofZ 0) pI (fun p => bdiv (t_incbeta_inv F a b p) (bmul r (bsub (bofZ 1) (t_incbeta_inv F a b p))))); auto; try reflexivity; try (unfold pI; rewrite ?E0, ?ev_p; lra).
  - intros p I. unfold qf, f_sanity2, any_nan2. rewrite pvc, (nan_nn F df1), (nan_nn F df2) by (auto; apply nn_fin; apply Pd1 || apply Pd2). cbn [orb].
    rewrite (proj2 (eps_lt_f F df1 (nn_fin _ (proj1 Pd1))) Ed1), (proj2 (eps_lt_f F df2 (nn_fin _ (proj1 Pd2))) Ed2). cbn [negb]. eqs.
    unfold any_posinf2. rewrite !posinf_fin by (apply Pd1 || apply Pd2). reflexivity.
  - intros p [N B]. destruct (W1 p N ltac:(lra)) as [X Y]. destruct (D _ X Y) as (U & V & _). split; auto. rewrite E0. split; auto. apply ev_bound.
  - intros p q [Np Bp] [Nq Bq] L. destruct (W1 p Np ltac:(lra)) as [X Y], (W1 q Nq ltac:(lra)) as [X' Y']. pose proof (W2 p q Np Nq ltac:(lra) L ltac:(lra)) as K.
    destruct (D _ X Y) as (U & V & U0), (D _ X' Y') as (U' & V' & _). destruct (Req_dec (ev (t_incbeta_inv F a b p)) 0) as [Q|Q]; [rewrite U0 by auto; auto|].
    destruct (f_denom r _ Pr X Y) as (Dn & Df & _), (f_denom r _ Pr X' Y') as (Dn' & Df' & _).
    set (v := t_incbeta_inv F a b p) in *. set (w := t_incbeta_inv F a b q) in *. pose proof maxR_1.
    destruct (fin_of v 0 1 X Y ltac:(lra) ltac:(lra)) as [Fv Rv], (fin_of w 0 1 X' Y' ltac:(lra) ltac:(lra)) as [Fw Rw]. rewrite (ev_fin v), (ev_fin w) in K by auto. rewrite ev_fin in Q by auto.
    assert (Ld : ev (bmul r (bsub (bofZ 1) w)) <= ev (bmul r (bsub (bofZ 1) v))).
    { destruct (one_minus v X Y) as (N1 & -> & _) || idtac. apply bmul_l; auto; try (apply in_dom; apply one_minus; auto). apply one_minus_mono; [split; auto|split; auto|]. now rewrite !ev_fin. }
    apply Rle_trans with (ev (bdiv v (bmul r (bsub (bofZ 1) w)))).
    + apply div_anti; auto. split; auto. lra.
    + destruct (Req_dec (ev (bmul r (bsub (bofZ 1) w))) 0) as [Q0|Q0].
      * rewrite (nonneg_0 _ Dn' Q0). assert (Pw : bpos w) by (split; auto; lra). destruct (bpos_shape w Pw) as (m & e & Bd & ->). change (bdiv (B754_finite false m e Bd) (B754_zero false)) with (B754_infinity false : b64). rewrite ev_p. apply ev_bound.
      * apply bdiv_r; try (apply in_dom; auto); [|rewrite !ev_fin by auto; lra]. split; auto. rewrite <- ev_fin by auto. destruct Dn' as (_ & ? & _). lra.
Qed.

(** *** binomial *)
Lemma recur_spec n prob p : forall fuel v c r, (0 <= c)%Z -> qbinom_recur (N:=NB) fuel p n prob v c = Some r ->
  (Bltb v p = false /\ r = bofZ (c - 1)) \/
  (Bltb v p = true /\ exists k, (c <= k)%Z /\ r = bofZ k /\ (forall j, (c <= j < k)%Z -> Bltb (pbinom (N:=NB) j n prob false) p = true) /\ Bltb (pbinom (N:=NB) k n prob false) p = false).
Proof.
  induction fuel as [|fuel IH]; intros v c r Hc H; [discriminate H|]. cbn [qbinom_recur] in H. change (ltb v p) with (Bltb v p) in H.
  destruct (Bltb v p) eqn:E; [right|left; injection H as <-; auto]. split; auto.
  apply IH in H; [|lia]. destruct H as [[A ->]|(A & k & L & -> & B & C)].
  - exists c. replace (c + 1 - 1)%Z with c by lia. repeat split; auto; try lia.
  - exists k. repeat split; auto; try lia. intros j Hj. destruct (Z.eq_dec j c) as [->|]; auto. apply B. lia.
Qed.
Lemma qbinom_first n prob p : binom_sanity (N:=NB) n prob = true -> in01o p ->
  exists k, (0 <= k <= n)%Z /\ qbinom (N:=NB) p n prob = bofZ k /\
    (forall j, (0 <= j < k)%Z -> Bltb (pbinom (N:=NB) j n prob false) p = true) /\ Bltb (pbinom (N:=NB) k n prob false) p = false.
Proof.
  intros S O. pose proof (binom_sanity_n n prob S) as Hn. destruct (in01o_fin p O) as [Fp Rp]. destruct (bofZ_R 0 ltac:(sm)) as [A0 F0], (bofZ_R 1 ltac:(sm)) as [A1 F1].
  pose proof (qbinom_total (N:=NB) n p prob) as T. unfold qbinom. destruct (qbinom_run (Z.to_nat n + 2) p n prob) as [r|] eqn:E; [|tauto]. clear T.
  unfold qbinom_run in E. rewrite S, (pvc F p (o_in p O)) in E. cbn [negb] in E.
  change (eqb p (ofZ 0)) with (Beqb p (bofZ 0)) in E. change (eqb p (ofZ 1)) with (Beqb p (bofZ 1)) in E. rewrite (proj1 (neq01 p O)), (proj2 (neq01 p O)) in E.
  apply recur_spec in E; [|lia]. destruct E as [[A _]|(_ & k & L & -> & B & C)].
  - exfalso. change (ofZ 0) with (bofZ 0) in A. apply (bltb_R_f (bofZ 0) p F0 Fp) in A. lra.
  - exists k. repeat split; auto. destruct (Z_le_gt_dec k n); auto. specialize (B n ltac:(lia)). rewrite (pbinom_top n n prob S) in B by lia.
    change (ofZ 1) with (bofZ 1) in B. apply (bltb_R (bofZ 1) p F1 Fp) in B. lra.
Qed.
Lemma bofZ_mono j k : (j <= k)%Z -> (Z.abs j <= 2 ^ 53)%Z -> (Z.abs k <= 2 ^ 53)%Z -> ev (bofZ j) <= ev (bofZ k).
Proof. intros L A B. rewrite (proj2 (ev_Z j A)), (proj2 (ev_Z k B)). now apply IZR_le. Qed.
Lemma qbinom_qinc n prob : (0 <= n <= 2 ^ 53)%Z -> Bleb (bofZ 0) prob = true -> Bleb prob (bofZ 1) = true -> qinc (fun p => qbinom (N:=NB) p n prob).
Proof.
  intros Hn A B.
  assert (S : binom_sanity (N:=NB) n prob = true).
  { pose proof (bern_ok F prob A B) as K. unfold bern_sanity in K. unfold binom_sanity. rewrite (proj2 (Z.ltb_ge n 0)) by lia.
    destruct (Num.is_nan (Num:=NB) prob); [discriminate|]. destruct (is_inf (N:=NB) prob); [discriminate|]. exact K. }
  assert (An : (Z.abs n <= 2 ^ 53)%Z) by lia. destruct (ev_Z n An) as [Nn En].
  pose (K := fun p => qbinom (N:=NB) p n prob).
  apply (qinc_tri _ (bofZ 0) (bofZ n) K); auto; try apply z0; [apply bofZ_mono; lia| | |].
  - intros p I. unfold K. destruct (Beqb p (bofZ 0)) eqn:E0; [|destruct (Beqb p (bofZ 1)) eqn:E1; auto]; unfold qbinom, qbinom_run; rewrite S, pvc by auto; cbn [negb];
      change (eqb p (ofZ 0)) with (Beqb p (bofZ 0)); change (eqb p (ofZ 1)) with (Beqb p (bofZ 1)); rewrite E0; auto. now rewrite E1.
  - intros p O. destruct (qbinom_first n prob p S O) as (k & L & E & _). unfold K. rewrite E. split; [apply ev_Z; lia|]. split; apply bofZ_mono; lia.
  - intros p q Op Oq L. destruct (qbinom_first n prob p S Op) as (k & Lk & Ek & Bk & Ck), (qbinom_first n prob q S Oq) as (l & Ll & El & Bl & Cl).
    unfold K. rewrite Ek, El. apply bofZ_mono; try lia. destruct (Z_le_gt_dec k l) as [|G]; auto. exfalso.
    specialize (Bk l ltac:(lia)). rewrite <- not_true_iff_false in Cl. apply Cl.
    assert (Nv : nn (pbinom (N:=NB) l n prob false)) by (revert Bk; generalize (pbinom (N:=NB) l n prob false); intros w; destruct w; intros; try reflexivity; discriminate).
    apply ltb_ev in Bk; auto; [|apply Op]. apply ltb_ev; auto; [apply Oq|lra].
Qed.
End Q2.

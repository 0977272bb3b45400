(** Distribution and support of the samplers in exact arithmetic: lemmas for C37, C38 and C39. *)
From Coq Require Import Reals ZArith QArith Bool Lra Lia Psatz.
From Verif Require Import Num Sanity ER ERTac Prob Dens Quant Spec SpecER RealElem ClosedElem LogForm Support Rand SpecRand.
Local Open Scope R_scope.

Section S.
Variable S : SF.
Notation NS := (ER_Num S).
Notation eps := (sf_eps S).
Context {E : Type} (G : Rng ER E) (OK : rng_ok G).

Lemma runif01_ok e : exists u e', unit_draw G e u e' /\ 0 < u < 1 /\ runif01 (N:=NS) G e = (Fin u, e').
Proof.
  destruct (ok_next G OK) as (c & Hc & C). destruct (ok_unif G OK c 1 e) as (u & e' & Hu & U); [lra|].
  exists u, e'. unfold unit_draw, runif01, runif. un_cls. er_arith. rdecide. rewrite !Hc. repeat split; auto; lra.
Qed.
Lemma runif01_det e u e' : unit_draw G e u e' -> runif01 (N:=NS) G e = (Fin u, e').
Proof. intros H. unfold runif01, runif. un_cls. er_arith. rdecide. exact H. Qed.
Lemma unit_draw_range e u e' : unit_draw G e u e' -> 0 < u < 1.
Proof.
  intros H. destruct (runif01_ok e) as (u0 & e0 & H0 & U & _). unfold unit_draw in *.
  rewrite H in H0. inversion H0. auto.
Qed.
Lemma runif01_draw e v e' : runif01 (N:=NS) G e = (v, e') -> exists u, v = Fin u /\ unit_draw G e u e' /\ 0 < u < 1.
Proof.
  intros H. destruct (runif01_ok e) as (u & e1 & D & U & H1). rewrite H in H1. inversion H1; subst. eauto.
Qed.
Lemma rnorm_det mu s e z e' : 0 <= s -> normal_draw G e z e' ->
  rnorm (N:=NS) G (Fin mu) (Fin s) e = (Fin (mu + s * z), e').
Proof. intros Hs H. unfold rnorm. un_cls. er_arith. rdecide. rewrite H. reflexivity. Qed.
Lemma rnorm01_det e z e' : normal_draw G e z e' -> rnorm01 (N:=NS) G e = (Fin z, e').
Proof.
  intros H. unfold rnorm01. change (ofZ (Num:=NS) 0) with (Fin 0). change (ofZ (Num:=NS) 1) with (Fin 1).
  rewrite (rnorm_det _ _ _ z e') by (auto; lra). do 2 f_equal. lra.
Qed.
Lemma norm_ex e : exists z e', normal_draw G e z e'.
Proof. apply (ok_norm G OK). Qed.

(** ** Distribution *)
Lemma galois (Q F : R -> R) u x :
  F (Q u) = u -> (forall a b, a <= b -> F a <= F b) -> (forall b, u <= b -> b < 1 -> Q u <= Q b) ->
  F x < 1 -> Q (F x) = x -> (Q u <= x <-> u <= F x).
Proof.
  intros E1 M1 M2 L E2. split; intros H.
  - rewrite <- E1. now apply M1.
  - rewrite <- E2. now apply M2.
Qed.

Lemma rexp_cdf rate : 0 < rate -> samples_cdf G (rexp (N:=NS) G (Fin rate)) (from0 (exp_cdf rate)).
Proof.
  intros Hr e. destruct (runif01_ok e) as (u & e' & D & U & H). exists u, e', (exp_qf rate u).
  repeat split; try tauto.
  - unfold rexp. replace (exp_sanity1 (N:=NS) (Fin rate)) with true by (un_cls; er_arith; rdecide; auto).
    cbn [negb]. rewrite H, qexp_val by auto. reflexivity.
  - intros Hx. pose proof (exp_qf_pos rate u Hr U). unfold from0. destruct Rle_dec; [lra|].
    rewrite <- (exp_cdf_qf rate u) by auto. apply exp_cdf_mono; lra.
  - unfold from0. destruct Rle_dec; [lra|]. intros Hx.
    rewrite <- (exp_qf_cdf rate x) by auto. apply exp_qf_mono; auto. pose proof (exp_cdf_range rate x). lra.
Qed.
Lemma rcauchy_cdf mu s : 0 < s -> samples_cdf G (rcauchy (N:=NS) G (Fin mu) (Fin s)) (cauchy_cdf mu s).
Proof.
  intros Hr e. destruct (runif01_ok e) as (u & e' & D & U & H). exists u, e', (cauchy_qf mu s u).
  split; [auto|]. split; [auto|]. split.
  - unfold rcauchy. replace (cauchy_sanity2 (N:=NS) (Fin mu) (Fin s)) with true by (un_cls; er_arith; rdecide; auto).
    cbn [negb]. rewrite H, qcauchy_val by auto. reflexivity.
  - intros x. apply (galois (cauchy_qf mu s) (cauchy_cdf mu s)).
    + now apply cauchy_cdf_qf.
    + intros; now apply cauchy_cdf_mono.
    + intros; apply cauchy_qf_mono; auto; tauto.
    + apply cauchy_cdf_range.
    + now apply cauchy_qf_cdf.
Qed.
Lemma rlaplace_cdf mu s : 0 < s -> samples_cdf G (rlaplace (N:=NS) G (Fin mu) (Fin s)) (laplace_cdf mu s).
Proof.
  intros Hr e. destruct (runif01_ok e) as (u & e' & D & U & H). exists u, e', (laplace_qf mu s u).
  split; [auto|]. split; [auto|]. split.
  - unfold rlaplace. replace (laplace_sanity2 (N:=NS) (Fin mu) (Fin s)) with true by (un_cls; er_arith; rdecide; auto).
    cbn [negb]. rewrite H, qlaplace_val by auto. reflexivity.
  - intros x. apply (galois (laplace_qf mu s) (laplace_cdf mu s)).
    + now apply laplace_cdf_qf.
    + intros; now apply laplace_cdf_mono.
    + intros; apply laplace_qf_mono; auto; tauto.
    + now apply laplace_cdf_range.
    + now apply laplace_qf_cdf.
Qed.
Lemma rlogis_cdf mu s : 0 < s -> samples_cdf G (rlogis (N:=NS) G (Fin mu) (Fin s)) (logis_cdf mu s).
Proof.
  intros Hr e. destruct (runif01_ok e) as (u & e' & D & U & H). exists u, e', (logis_qf mu s u).
  split; [auto|]. split; [auto|]. split.
  - unfold rlogis. replace (logis_sanity2 (N:=NS) (Fin mu) (Fin s)) with true by (un_cls; er_arith; rdecide; auto).
    cbn [negb]. rewrite H, qlogis_val by auto. reflexivity.
  - intros x. apply (galois (logis_qf mu s) (logis_cdf mu s)).
    + now apply logis_cdf_qf.
    + intros; now apply logis_cdf_mono.
    + intros; apply logis_qf_mono; auto; tauto.
    + apply logis_cdf_range.
    + now apply logis_qf_cdf.
Qed.
Lemma rweibull_cdf k th : 0 < eps -> eps <= k -> eps <= th ->
  samples_cdf G (rweibull (N:=NS) G (Fin k) (Fin th)) (from0 (weibull_cdf k th)).
Proof.
  intros He Hk Ht e. destruct (runif01_ok e) as (u & e' & D & U & H). exists u, e', (weibull_qf k th u).
  split; [auto|]. split; [auto|]. split.
  - unfold rweibull. replace (weibull_sanity2 (N:=NS) (Fin k) (Fin th)) with true by (un_cls; er_arith; rdecide; auto).
    cbn [negb]. rewrite H, qweibull_val by auto. reflexivity.
  - intros x. pose proof (weibull_qf_pos k th u ltac:(lra)). unfold from0. destruct Rle_dec as [L|L]; [lra|].
    split; intros Hx.
    + rewrite <- (weibull_cdf_qf k th u) by (auto; lra). apply weibull_cdf_mono; lra.
    + rewrite <- (weibull_qf_cdf k th x) by lra. apply weibull_qf_mono; try lra.
      pose proof (weibull_cdf_range k th x). lra.
Qed.

Lemma rbern_val pr e u e' : 0 <= pr <= 1 -> unit_draw G e u e' ->
  rbern (N:=NS) G (Fin pr) e = (Fin (if Rle_dec u pr then 1 else 0), e').
Proof.
  intros Hp D. unfold rbern. replace (bern_sanity (N:=NS) (Fin pr)) with true by (un_cls; er_arith; rdecide; auto).
  cbn [negb]. rewrite (runif01_det e u e' D). change (leb (Num:=NS) (Fin u) (Fin pr)) with (Rleb u pr).
  unfold Rleb. destruct Rle_dec; reflexivity.
Qed.
Lemma rradem_val pr e u e' : 0 <= pr <= 1 -> unit_draw G e u e' ->
  rradem (N:=NS) G (Fin pr) e = (Fin (if Rle_dec u pr then 1 else -1), e').
Proof.
  intros Hp D. unfold rradem. replace (radem_sanity (N:=NS) (Fin pr)) with true by (un_cls; er_arith; rdecide; auto).
  cbn [negb]. rewrite (runif01_det e u e' D). change (leb (Num:=NS) (Fin u) (Fin pr)) with (Rleb u pr).
  unfold Rleb. destruct Rle_dec; reflexivity.
Qed.
Lemma rbern_dist pr : 0 <= pr <= 1 -> forall e, exists u e' v, unit_draw G e u e' /\ 0 < u < 1 /\
  rbern (N:=NS) G (Fin pr) e = (Fin v, e') /\ (v = 1 <-> u <= pr) /\ (v = 0 <-> pr < u).
Proof.
  intros Hp e. destruct (runif01_ok e) as (u & e' & D & U & H). do 3 eexists.
  split; [exact D|]. split; [auto|]. split; [apply rbern_val; eauto|].
  destruct Rle_dec; split; split; intros; lra.
Qed.
Lemma rradem_dist pr : 0 <= pr <= 1 -> forall e, exists u e' v, unit_draw G e u e' /\ 0 < u < 1 /\
  rradem (N:=NS) G (Fin pr) e = (Fin v, e') /\ (v = 1 <-> u <= pr) /\ (v = -1 <-> pr < u).
Proof.
  intros Hp e. destruct (runif01_ok e) as (u & e' & D & U & H). do 3 eexists.
  split; [exact D|]. split; [auto|]. split; [apply rradem_val; eauto|].
  destruct Rle_dec; split; split; intros; lra.
Qed.

(** The transforms of a standard normal. *)
Lemma rnorm_dist mu s : 0 < s -> forall e, exists z e' v, normal_draw G e z e' /\
  rnorm (N:=NS) G (Fin mu) (Fin s) e = (Fin v, e') /\ forall x, v <= x <-> z <= (x - mu) / s.
Proof.
  intros Hs e. destruct (norm_ex e) as (z & e' & D). exists z, e', (mu + s * z).
  split; [auto|]. split; [apply rnorm_det; auto; lra|]. intros x. split; intros Hx.
  - apply (Rmult_le_reg_l s); auto. replace (s * ((x - mu) / s)) with (x - mu) by (field; lra). lra.
  - apply (Rmult_le_compat_l s) in Hx; [|lra]. replace (s * ((x - mu) / s)) with (x - mu) in Hx by (field; lra). lra.
Qed.
Lemma rlnorm_det mu s e z e' : 0 <= s -> normal_draw G e z e' ->
  rlnorm (N:=NS) G (Fin mu) (Fin s) e = (Fin (Rtrigo_def.exp (mu + s * z)), e').
Proof.
  intros Hs D. unfold rlnorm. replace (lnorm_sanity2 (N:=NS) (Fin mu) (Fin s)) with true by (un_cls; er_arith; rdecide; auto).
  cbn [negb]. rewrite (rnorm_det mu s e z e') by auto. reflexivity.
Qed.
Lemma rlnorm_dist mu s : 0 < s -> forall e, exists z e' v, normal_draw G e z e' /\
  rlnorm (N:=NS) G (Fin mu) (Fin s) e = (Fin v, e') /\ forall x, 0 < x -> v <= x <-> z <= (ln x - mu) / s.
Proof.
  intros Hs e. destruct (rnorm_dist mu s Hs e) as (z & e' & v & D & H & I). exists z, e', (Rtrigo_def.exp v).
  rewrite (rnorm_det mu s e z e') in H by (auto; lra). inversion H; subst v.
  split; [auto|]. split; [apply rlnorm_det; auto; lra|]. intros x Hx. rewrite <- I. split; intros L.
  - apply Rnot_lt_le. intros C. apply exp_increasing in C. rewrite exp_ln in C by auto. lra.
  - rewrite <- (exp_ln x) by auto. destruct L as [L| ->]; [left; now apply exp_increasing|right; auto].
Qed.

(** ** Support *)
Lemma runif_in a b : a < b -> (exists c, g_next G (Fin a) (Fin b) = Fin c /\ a < c < b) ->
  draws_in (runif (N:=NS) G (Fin a) (Fin b)) (fun v => a < v < b).
Proof.
  intros Hab (c & Hc & C) e. destruct (ok_unif G OK c b e) as (u & e' & Hu & U); [lra|].
  exists u, e'. unfold runif. un_cls. er_arith. rdecide. rewrite Hc. split; auto; lra.
Qed.
Lemma rnorm_in mu s : 0 <= s -> draws_in (rnorm (N:=NS) G (Fin mu) (Fin s)) (fun _ => True).
Proof. intros Hs e. destruct (norm_ex e) as (z & e' & D). do 2 eexists. split; [eapply rnorm_det; eauto|auto]. Qed.
Lemma rlnorm_in mu s : 0 <= s -> draws_in (rlnorm (N:=NS) G (Fin mu) (Fin s)) (fun v => 0 < v).
Proof.
  intros Hs e. destruct (norm_ex e) as (z & e' & D). do 2 eexists. split; [eapply rlnorm_det; eauto|].
  apply exp_pos.
Qed.
Lemma samples_fin r F : samples_cdf G r F -> draws_in r (fun _ => True).
Proof. intros H e. destruct (H e) as (u & e' & v & _ & _ & R & _). eauto. Qed.
Lemma samples_pos r F : samples_cdf G r (from0 F) -> draws_in r (fun v => 0 < v).
Proof.
  intros H e. destruct (H e) as (u & e' & v & _ & U & R & I). exists v, e'. split; auto.
  apply Rnot_le_lt. intros L. pose proof (proj1 (I v) ltac:(lra)) as X. unfold from0 in X.
  destruct Rle_dec; lra.
Qed.
Lemma rexp_in rate : 0 < rate -> draws_in (rexp (N:=NS) G (Fin rate)) (fun v => 0 < v).
Proof. intros. eapply samples_pos. now apply rexp_cdf. Qed.
Lemma rweibull_in k th : 0 < eps -> eps <= k -> eps <= th ->
  draws_in (rweibull (N:=NS) G (Fin k) (Fin th)) (fun v => 0 < v).
Proof. intros. eapply samples_pos. now apply rweibull_cdf. Qed.
Lemma rcauchy_in mu s : 0 < s -> draws_in (rcauchy (N:=NS) G (Fin mu) (Fin s)) (fun _ => True).
Proof. intros. eapply samples_fin. now apply rcauchy_cdf. Qed.
Lemma rlaplace_in mu s : 0 < s -> draws_in (rlaplace (N:=NS) G (Fin mu) (Fin s)) (fun _ => True).
Proof. intros. eapply samples_fin. now apply rlaplace_cdf. Qed.
Lemma rlogis_in mu s : 0 < s -> draws_in (rlogis (N:=NS) G (Fin mu) (Fin s)) (fun _ => True).
Proof. intros. eapply samples_fin. now apply rlogis_cdf. Qed.
Lemma rbern_in pr : 0 <= pr <= 1 -> draws_in (rbern (N:=NS) G (Fin pr)) (fun v => v = 0 \/ v = 1).
Proof.
  intros Hp e. destruct (runif01_ok e) as (u & e' & D & U & H). do 2 eexists. split; [eapply rbern_val; eauto|].
  destruct Rle_dec; auto.
Qed.
Lemma rradem_in pr : 0 <= pr <= 1 -> draws_in (rradem (N:=NS) G (Fin pr)) (fun v => v = -1 \/ v = 1).
Proof.
  intros Hp e. destruct (runif01_ok e) as (u & e' & D & U & H). do 2 eexists. split; [eapply rradem_val; eauto|].
  destruct Rle_dec; auto.
Qed.
Lemma rbinom_loop_in pr : 0 <= pr <= 1 -> forall n k e, exists j e',
  rbinom_loop (N:=NS) G n (Fin pr) (Fin (IZR k)) e = (Fin (IZR (k + j)), e') /\ (0 <= j <= Z.of_nat n)%Z.
Proof.
  intros Hp. induction n as [|n IH]; intros k e.
  - exists 0%Z, e. cbn [rbinom_loop]. rewrite Z.add_0_r. split; auto; lia.
  - cbn [rbinom_loop]. destruct (runif01_ok e) as (u & e' & D & U & H). rewrite (rbern_val pr e u e') by auto.
    destruct (Rle_dec u pr).
    + destruct (IH (k + 1)%Z e') as (j & e2 & Hj & B). exists (1 + j)%Z, e2. un_cls. rewrite eadd_F, <- plus_IZR.
      refold S. rewrite Hj. split; [do 3 f_equal; lia|lia].
    + destruct (IH k e') as (j & e2 & Hj & B). exists j, e2. un_cls. rewrite eadd_F, Rplus_0_r. refold S.
      rewrite Hj. split; [auto|lia].
Qed.
Lemma rbinom_in n pr : (0 <= n)%Z -> 0 <= pr <= 1 ->
  draws_in (rbinom (N:=NS) G n (Fin pr)) (fun v => exists j, v = IZR j /\ (0 <= j <= n)%Z).
Proof.
  intros Hn Hp e. destruct (rbinom_loop_in pr Hp (Z.to_nat n) 0 e) as (j & e' & H & B).
  exists (IZR j), e'. split; [|exists j; split; auto; lia].
  unfold rbinom. replace (binom_sanity (N:=NS) n (Fin pr)) with true.
  - cbn [negb]. change (ofZ (Num:=NS) 0) with (Fin (IZR 0)). rewrite H. reflexivity.
  - un_cls. rewrite (proj2 (Z.ltb_ge n 0)) by lia. er_arith. rdecide. auto.
Qed.

(** ** Certain events *)
Lemma rbern_0 e : exists e', rbern (N:=NS) G (Fin 0) e = (Fin 0, e').
Proof.
  destruct (runif01_ok e) as (u & e' & D & U & H). exists e'. rewrite (rbern_val 0 e u e') by (auto; lra).
  destruct Rle_dec; [lra|auto].
Qed.
Lemma rbern_1 e : exists e', rbern (N:=NS) G (Fin 1) e = (Fin 1, e').
Proof.
  destruct (runif01_ok e) as (u & e' & D & U & H). exists e'. rewrite (rbern_val 1 e u e') by (auto; lra).
  destruct Rle_dec; [auto|lra].
Qed.
Lemma rradem_0 e : exists e', rradem (N:=NS) G (Fin 0) e = (Fin (-1), e').
Proof.
  destruct (runif01_ok e) as (u & e' & D & U & H). exists e'. rewrite (rradem_val 0 e u e') by (auto; lra).
  destruct Rle_dec; [lra|auto].
Qed.
Lemma rradem_1 e : exists e', rradem (N:=NS) G (Fin 1) e = (Fin 1, e').
Proof.
  destruct (runif01_ok e) as (u & e' & D & U & H). exists e'. rewrite (rradem_val 1 e u e') by (auto; lra).
  destruct Rle_dec; [auto|lra].
Qed.
Lemma rbinom_0 n e : (0 <= n)%Z -> exists e', rbinom (N:=NS) G n (Fin 0) e = (Fin 0, e').
Proof.
  intros Hn. unfold rbinom. replace (binom_sanity (N:=NS) n (Fin 0)) with true.
  2:{ un_cls. rewrite (proj2 (Z.ltb_ge n 0)) by lia. er_arith. rdecide. auto. }
  cbn [negb]. change (ofZ (Num:=NS) 0) with (Fin 0). generalize (Z.to_nat n). clear n Hn. intros n.
  revert e. induction n as [|n IH]; intros e; cbn [rbinom_loop]; eauto.
  destruct (rbern_0 e) as [e' ->]. un_cls. rewrite eadd_F, Rplus_0_r. refold S. apply IH.
Qed.
Lemma rbinom_1 n e : (0 <= n)%Z -> exists e', rbinom (N:=NS) G n (Fin 1) e = (Fin (IZR n), e').
Proof.
  intros Hn. unfold rbinom. replace (binom_sanity (N:=NS) n (Fin 1)) with true.
  2:{ un_cls. rewrite (proj2 (Z.ltb_ge n 0)) by lia. er_arith. rdecide. auto. }
  cbn [negb]. change (ofZ (Num:=NS) 0) with (Fin (IZR 0)).
  assert (H : forall m k e, exists e', rbinom_loop (N:=NS) G m (Fin 1) (Fin (IZR k)) e = (Fin (IZR (k + Z.of_nat m)), e')).
  { clear - OK. induction m as [|m IH]; intros k e; cbn [rbinom_loop].
    - exists e. rewrite Z.add_0_r. auto.
    - destruct (rbern_1 e) as [e' ->]. un_cls. rewrite eadd_F, <- plus_IZR. refold S.
      destruct (IH (k + 1)%Z e') as [e2 ->]. exists e2. do 3 f_equal. lia. }
  destruct (H (Z.to_nat n) 0%Z e) as [e' ->]. exists e'. do 3 f_equal. lia.
Qed.
End S.

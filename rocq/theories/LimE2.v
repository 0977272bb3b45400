(** Boundary parameters (C54): exponential, uniform, Weibull, gamma-type, beta, inverse Gaussian
    and Poisson families. *)
From Coq Require Import Reals ZArith QArith Bool Lra Lia.
From Coquelicot Require Import Coquelicot.
From Verif Require Import Num Sanity ER ERTac Prob Dens Quant Spec SpecER ClosedElem RealElem
  LogForm Support Elem Norm NormR SpecSF FamR FamG FamB Discrete SpecLim LawR LimR LimR2 LimR3 LimR4 LimR5 LimE GammaFn BetaFn.
Local Open Scope R_scope.

Lemma ext_fin d f g v : f (bound d) = Fin v -> filt d (fun s => f (Fin s) = Fin (g s)) ->
  filterlim g (filt d) (locally v) -> extends d f.
Proof. intros E H L. unfold extends. rewrite E. now apply (tends_fin d _ g). Qed.
Lemma ext_pinf d f g : f (bound d) = PInf -> filt d (fun s => f (Fin s) = Fin (g s)) ->
  filterlim g (filt d) (Rbar_locally p_infty) -> extends d f.
Proof. intros E H L. unfold extends. rewrite E. now apply (tends_pinf d _ g). Qed.
(** limits are unique *)
Lemma ev_two d P Q : eventually d P -> eventually d Q -> exists s, P s /\ Q s.
Proof.
  destruct d; cbn.
  - intros (M & H) (N & K). exists (Rmax M N + 1). pose proof (Rmax_l M N). pose proof (Rmax_r M N). split; [apply H|apply K]; lra.
  - intros (M & H) (N & K). exists (Rmin M N - 1). pose proof (Rmin_l M N). pose proof (Rmin_r M N). split; [apply H|apply K]; lra.
  - intros (M & Hm & H) (N & Hn & K). exists (Rmin M N / 2). pose proof (Rmin_l M N). pose proof (Rmin_r M N).
    pose proof (Rmin_glb_lt _ _ _ Hm Hn). split; [apply H|apply K]; lra.
Qed.
Lemma tends_uniq d g l v : tends d g (Fin l) -> tends d g v -> v = Fin l.
Proof.
  intros A B. destruct v as [| | |r].
  - destruct (ev_two d _ _ (A 1 Rlt_0_1) (B 1 Rlt_0_1)) as (s & _ & H). destruct H.
  - set (e := / (Rabs l + 2)). assert (0 < e) by (apply Rinv_0_lt_compat; pose proof (Rabs_pos l); lra).
    destruct (ev_two d _ _ (A 1 Rlt_0_1) (B e H)) as (s & (r & E & H1) & [H2|(r' & E' & H2)]); [congruence|].
    assert (r = r') as <- by congruence. unfold e in H2. rewrite Rinv_inv in H2. apply Rabs_def2 in H1. pose proof (Rle_abs l). lra.
  - set (e := / (Rabs l + 2)). assert (0 < e) by (apply Rinv_0_lt_compat; pose proof (Rabs_pos l); lra).
    destruct (ev_two d _ _ (A 1 Rlt_0_1) (B e H)) as (s & (r & E & H1) & [H2|(r' & E' & H2)]); [congruence|].
    assert (r = r') as <- by congruence. unfold e in H2. rewrite Rinv_inv in H2. apply Rabs_def2 in H1. pose proof (Rle_abs (- l)).
    rewrite Rabs_Ropp in H0. lra.
  - f_equal. destruct (Req_dec r l) as [|D]; auto. exfalso.
    set (e := Rabs (r - l) / 2). assert (0 < e) by (assert (0 < Rabs (r - l)) by (apply Rabs_pos_lt; lra); unfold e; lra).
    destruct (ev_two d _ _ (A e H) (B e H)) as (s & (u & E & H1) & (u' & E' & H2)). assert (u = u') as <- by congruence.
    pose proof (Rabs_triang (r - u) (u - l)) as T. replace (r - u + (u - l)) with (r - l) in T by ring.
    rewrite (Rabs_minus_sym r u) in T. unfold e in *. lra.
Qed.
Lemma not_ext d f l : tends d (fun s => f (Fin s)) (Fin l) -> f (bound d) <> Fin l -> ~ extends d f.
Proof. intros A N B. apply N. eapply tends_uniq; eauto. Qed.
Lemma filt_ge d c : d = Up -> filt d (fun s => c < s).
Proof. intros ->. apply inf_gt. Qed.

Section S.
Variable S : SF.
Notation NS := (ER_Num S).
Notation eps := (sf_eps S).
Ltac zpos := generalize right_pos; apply filter_imp; intros ? ?.
Ltac upos := exists 0; intros ? ?.

(** ** exponential *)
Lemma pexp_rate x : 0 < x -> extends Zero (fun r => pexp (N:=NS) (Fin x) r false) /\ extends Up (fun r => pexp (N:=NS) (Fin x) r false).
Proof.
  intros Hx. split.
  - apply (ext_fin Zero _ (fun r => exp_cdf r x) 0).
    + cbn [bound]. rewrite pexp_val by (auto; lra). unfold val. f_equal. unfold exp_cdf. replace (- 0 * x) with 0 by ring. rewrite Rtrigo_def.exp_0. ring.
    + zpos. rewrite pexp_val by (auto; lra). reflexivity.
    + apply exp_cdf_r0.
  - apply (ext_fin Up _ (fun r => exp_cdf r x) 1).
    + cbn [bound]. unfold pexp, pexp_compute. un_cls. er_arith. rdecide. reflexivity.
    + upos. rewrite pexp_val by (auto; lra). reflexivity.
    + now apply exp_cdf_rinf.
Qed.
Lemma dexp_rate x : 0 <= x -> extends Zero (fun r => dexp (N:=NS) (Fin x) r false).
Proof.
  intros Hx. apply (ext_fin Zero _ (fun r => exp_pdf r x) 0).
  - cbn [bound]. unfold dexp, dexp_log_compute. un_cls. er_arith. rdecide. rewrite ?elog_0. er_arith. reflexivity.
  - zpos. rewrite dexp_val by auto. reflexivity.
  - apply exp_pdf_r0.
Qed.
Lemma dexp_rate_inf x : 0 < x -> ~ extends Up (fun r => dexp (N:=NS) (Fin x) r false).
Proof.
  intros Hx. apply (not_ext Up _ 0).
  - apply (tends_fin Up _ (fun r => exp_pdf r x)).
    + upos. rewrite dexp_val by (auto; lra). reflexivity.
    + unfold exp_pdf. apply (filterlim_ext (fun r => r * Rpower (Rtrigo_def.exp (- x)) r)).
      { intros r. unfold Rpower. rewrite ln_exp. do 2 f_equal. ring. }
      apply lin_geo. split; [apply exp_pos|]. rewrite <- exp_0. apply exp_increasing. lra.
  - cbn [bound]. unfold dexp. un_cls. er_arith. rdecide. discriminate.
Qed.
(** ** uniform *)
Lemma dunif_ab x a b : a <= x <= b -> extends Up (fun b => dunif (N:=NS) (Fin x) (Fin a) b false) /\
  extends Down (fun a => dunif (N:=NS) (Fin x) a (Fin b) false).
Proof.
  intros Hx. split.
  - apply (ext_fin Up _ (fun b => unif_pdf a b) 0).
    + cbn [bound]. unfold dunif. un_cls. er_arith. rdecide. reflexivity.
    + exists x. intros b' Hb. rewrite dunif_val by lra. reflexivity.
    + apply unif_pdf_binf.
  - apply (ext_fin Down _ (fun a => unif_pdf a b) 0).
    + cbn [bound]. unfold dunif. un_cls. er_arith. rdecide. reflexivity.
    + exists x. intros a' Ha. rewrite dunif_val by lra. reflexivity.
    + apply unif_pdf_ainf.
Qed.
Lemma punif_b x a : extends Up (fun b => punif (N:=NS) (Fin x) (Fin a) b false).
Proof.
  destruct (Rle_lt_dec x a) as [L|L].
  - apply (ext_fin Up _ (fun b => 0) 0).
    + cbn [bound]. unfold punif, punif_compute. un_cls. er_arith. rdecide. reflexivity.
    + exists a. intros b Hb. rewrite punif_low by lra. reflexivity.
    + apply filterlim_const.
  - apply (ext_fin Up _ (fun b => unif_cdf a b x) 0).
    + cbn [bound]. unfold punif, punif_compute. un_cls. er_arith. rdecide. reflexivity.
    + exists x. intros b Hb. rewrite punif_val by lra. reflexivity.
    + apply unif_cdf_binf.
Qed.
Lemma punif_a x b : x < b -> tends Down (fun a => punif (N:=NS) (Fin x) (Fin a) (Fin b) false) (Fin 1) /\
  punif (N:=NS) (Fin x) MInf (Fin b) false = NaN.
Proof.
  intros Hx. split.
  - apply (tends_fin Down _ (fun a => unif_cdf a b x)); [|apply unif_cdf_ainf].
    exists x. intros a Ha. rewrite punif_val by lra. reflexivity.
  - unfold punif, punif_compute. un_cls. er_arith. rdecide. reflexivity.
Qed.
(** ** Weibull *)
Lemma pweibull_shape x th : 0 < eps -> eps <= x -> eps <= th -> extends Up (fun k => pweibull (N:=NS) (Fin x) k (Fin th) false).
Proof.
  intros He Hx Ht. assert (Q : filt Up (fun k => pweibull (N:=NS) (Fin x) (Fin k) (Fin th) false = Fin (weibull_cdf k th x))).
  { exists eps. intros k Hk. rewrite pweibull_val by lra. reflexivity. }
  assert (D : x / th * th = x) by (field; lra).
  destruct (Rtotal_order x th) as [L|[->|L]].
  - assert (x / th < 1) by (apply quot_lt1; lra). apply (ext_fin Up _ (fun k => weibull_cdf k th x) 0); auto.
    + cbn [bound]. unfold pweibull, pweibull_limit_vals. un_cls. er_arith. rdecide. reflexivity.
    + apply weib_k_inf_lo; lra.
  - assert (th / th = 1) by (field; lra).
    apply (ext_fin Up _ (fun k => weibull_cdf k th th) (1 - Rtrigo_def.exp (- (1)))); auto.
    + cbn [bound]. unfold pweibull, pweibull_limit_vals. un_cls. er_arith. rdecide. cbn. f_equal. replace (-1) with (- (1)) by ring. ring.
    + apply weib_k_inf_mid; lra.
  - assert (1 < x / th) by nra. apply (ext_fin Up _ (fun k => weibull_cdf k th x) 1); auto.
    + cbn [bound]. unfold pweibull, pweibull_limit_vals. un_cls. er_arith. rdecide. reflexivity.
    + apply weib_k_inf_hi; lra.
Qed.
Lemma pweibull_scale x k : 0 < eps -> eps <= x -> eps <= k -> extends Up (fun th => pweibull (N:=NS) (Fin x) (Fin k) th false).
Proof.
  intros He Hx Hk. apply (ext_fin Up _ (fun th => weibull_cdf k th x) 0).
  - cbn [bound]. unfold pweibull, pweibull_limit_vals. un_cls. er_arith. rdecide. reflexivity.
  - exists eps. intros th Ht. rewrite pweibull_val by lra. reflexivity.
  - apply weib_th_inf; lra.
Qed.
Lemma dweibull_scale_tends x k : 0 < eps -> 0 < x -> eps <= k -> tends Up (fun th => dweibull (N:=NS) (Fin x) (Fin k) (Fin th) false) (Fin 0).
Proof.
  intros He Hx Hk. apply (tends_fin Up _ (fun th => weibull_pdf k th x)); [|apply weib_pdf_th_inf; lra].
  exists eps. intros th Ht. rewrite dweibull_val by lra. reflexivity.
Qed.
Lemma dweibull_scale x k : 0 < eps -> 0 < x -> eps <= k -> 1 < k -> extends Up (fun th => dweibull (N:=NS) (Fin x) (Fin k) th false).
Proof.
  intros He Hx Hk H1. unfold extends, bound.
  replace (dweibull (N:=NS) (Fin x) (Fin k) PInf false) with (Fin 0); [now apply dweibull_scale_tends|].
  unfold dweibull, dweibull_log_compute. un_cls. er_arith. rdecide. cbn [ediv]. rewrite ?elog_0, ?epow_0 by lra. er_arith.
  cbn. unfold scale_inf. destruct (Rlt_dec 0 (k - 1)); [reflexivity|lra].
Qed.
Lemma dweibull_scale_nan x k : 0 < eps -> 0 < x -> eps <= k -> k <= 1 -> dweibull (N:=NS) (Fin x) (Fin k) PInf false = NaN.
Proof.
  intros He Hx Hk H1. 
  unfold dweibull, dweibull_log_compute. un_cls. er_arith. rdecide. cbn [ediv]. rewrite ?elog_0, ?epow_0 by lra. er_arith.
  cbn. unfold scale_inf. destruct (Rlt_dec 0 (k - 1)); [lra|]. destruct (Rlt_dec (k - 1) 0); reflexivity.
Qed.
End S.

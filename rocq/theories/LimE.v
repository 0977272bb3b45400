(** Boundary parameters (C54): the location-scale families, exponential and Weibull. *)
From Coq Require Import Reals ZArith QArith Bool Lra Lia.
From Coquelicot Require Import Coquelicot.
From Verif Require Import Num Sanity ER ERTac Prob Dens Quant Spec SpecER ClosedElem RealElem
  LogForm Support Elem Norm NormR SpecSF FamR SpecLim LawR LimR.
Local Open Scope R_scope.

(** ** From real filters to the specification *)
Definition filt (d : dir) : (R -> Prop) -> Prop :=
  match d with Up => Rbar_locally p_infty | Down => Rbar_locally m_infty | Zero => at_right 0 end.
Global Instance filt_filter d : Filter (filt d).
Proof. destruct d; cbn [filt]; typeclasses eauto. Qed.
Lemma filt_ev d P : filt d P -> eventually d P.
Proof.
  destruct d; cbn; auto.
  intros [r H]. exists r. split; [apply cond_pos|]. intros s Hs. apply H; [|lra].
  unfold ball. cbn. unfold AbsRing_ball, abs, minus, plus, opp. cbn. rewrite Rabs_right; lra.
Qed.
Lemma tends_fin d g f l : filt d (fun s => g s = Fin (f s)) -> filterlim f (filt d) (locally l) -> tends d g (Fin l).
Proof.
  intros H L e He. apply filt_ev.
  assert (B : filt d (fun s => Rabs (f s - l) < e)).
  { apply (L (fun y => Rabs (y - l) < e)). exists (mkposreal e He). intros y Hy. exact Hy. }
  generalize (filter_and _ _ H B). apply filter_imp. intros s (-> & H2). exists (f s). auto.
Qed.
Lemma tends_pinf d g f : filt d (fun s => g s = Fin (f s)) -> filterlim f (filt d) (Rbar_locally p_infty) -> tends d g PInf.
Proof.
  intros H L e He. apply filt_ev.
  assert (B : filt d (fun s => / e < f s)) by exact (L (fun y => / e < y) (ex_intro _ (/ e) (fun x h => h))).
  generalize (filter_and _ _ H B). apply filter_imp. intros s (-> & H2). right. exists (f s). auto.
Qed.
Lemma filt_pos d : d <> Down -> filt d (fun s => 0 < s).
Proof. destruct d; intros; [exists 0; auto|contradiction|apply right_pos]. Qed.
Lemma filt_all d (P : R -> Prop) : (forall s, P s) -> filt d P.
Proof. intros. now apply filter_forall. Qed.

Section S.
Variable S : SF.
Notation NS := (ER_Num S).
Notation eps := (sf_eps S).

Lemma cdf_loc f H : loc_cdf H ->
  (forall x m s, 0 < s -> f (Fin x) (Fin m) (Fin s) = Fin (H ((x - m) / s))) ->
  (forall x s, 0 < s -> f (Fin x) MInf (Fin s) = Fin 1 /\ f (Fin x) PInf (Fin s) = Fin 0) ->
  (forall x m, f (Fin x) (Fin m) PInf = Fin (1 / 2)) ->
  loc_limits f.
Proof.
  intros L E B1 B2 x m s Hs. destruct (B1 x s Hs) as (E1 & E2). unfold extends, bound. rewrite E1, E2, B2. repeat split.
  - apply (tends_fin Down _ (fun m => H ((x - m) / s))); [apply filt_all; auto|now apply lc_mu_minf].
  - apply (tends_fin Up _ (fun m => H ((x - m) / s))); [apply filt_all; auto|now apply lc_mu_inf].
  - apply (tends_fin Up _ (fun s => H ((x - m) / s))); [exists 0; intros; auto|now apply lc_s_inf].
Qed.
Lemma pdf_loc f h : loc_pdf h ->
  (forall x m s, 0 < s -> f (Fin x) (Fin m) (Fin s) = Fin (h ((x - m) / s) / s)) ->
  (forall x s, 0 < s -> f (Fin x) MInf (Fin s) = Fin 0 /\ f (Fin x) PInf (Fin s) = Fin 0) ->
  (forall x m, f (Fin x) (Fin m) PInf = Fin 0) ->
  loc_limits f.
Proof.
  intros L E B1 B2 x m s Hs. destruct (B1 x s Hs) as (E1 & E2). unfold extends, bound. rewrite E1, E2, B2. repeat split.
  - apply (tends_fin Down _ (fun m => h ((x - m) / s) / s)); [apply filt_all; auto|now apply lp_mu_minf].
  - apply (tends_fin Up _ (fun m => h ((x - m) / s) / s)); [apply filt_all; auto|now apply lp_mu_inf].
  - apply (tends_fin Up _ (fun s => h ((x - m) / s) / s)); [exists 0; intros; auto|now apply lp_s_inf].
Qed.
Ltac lv := intros; unfold pnorm, plaplace, plogis, pcauchy, dnorm, dlaplace, dlogis, dcauchy,
  pnorm_limit_vals, plaplace_limit_vals, plogis_limit_vals, pcauchy_limit_vals,
  dnorm_limit_vals, dlaplace_limit_vals, dlogis_limit_vals, dcauchy_limit_vals; repeat split; un_cls; er_arith; rdecide;
  try reflexivity; cbn; f_equal; lra.
Lemma pnorm_loc : erf_spec S -> loc_limits (fun x m s => pnorm (N:=NS) x m s false).
Proof.
  intros HE. apply (cdf_loc _ _ norm_lc); [|lv|lv].
  intros. rewrite pnorm_val by auto. unfold val. now rewrite norm_cdf_std.
Qed.
Lemma plaplace_loc : loc_limits (fun x m s => plaplace (N:=NS) x m s false).
Proof.
  apply (cdf_loc _ _ laplace_lc); [|lv|lv].
  intros. rewrite plaplace_val by auto. unfold val. now rewrite laplace_cdf_std.
Qed.
Lemma plogis_loc : loc_limits (fun x m s => plogis (N:=NS) x m s false).
Proof.
  apply (cdf_loc _ _ logis_lc); [|lv|lv].
  intros. rewrite plogis_val by auto. unfold val. now rewrite logis_cdf_std.
Qed.
Lemma pcauchy_loc : loc_limits (fun x m s => pcauchy (N:=NS) x m s false).
Proof.
  apply (cdf_loc _ _ cauchy_lc); [|lv|lv].
  intros. rewrite pcauchy_val by auto. unfold val. now rewrite cauchy_cdf_std.
Qed.
Lemma dnorm_loc : loc_limits (fun x m s => dnorm (N:=NS) x m s false).
Proof.
  apply (pdf_loc _ _ norm_lp); [|lv|lv].
  intros. rewrite dnorm_val by auto. unfold val. now rewrite norm_pdf_std.
Qed.
Lemma dlaplace_loc : loc_limits (fun x m s => dlaplace (N:=NS) x m s false).
Proof.
  apply (pdf_loc _ _ laplace_lp); [|lv|lv].
  intros. rewrite dlaplace_val by auto. unfold val. now rewrite laplace_pdf_std.
Qed.
Lemma dlogis_loc : loc_limits (fun x m s => dlogis (N:=NS) x m s false).
Proof.
  apply (pdf_loc _ _ logis_lp); [|lv|lv].
  intros. rewrite dlogis_val by auto. unfold val. now rewrite logis_pdf_std.
Qed.
Lemma dcauchy_loc : loc_limits (fun x m s => dcauchy (N:=NS) x m s false).
Proof.
  apply (pdf_loc _ _ cauchy_lp); [|lv|lv].
  intros. rewrite dcauchy_val by auto. unfold val. now rewrite cauchy_pdf_std.
Qed.

(** scale to zero *)
Lemma cdf_scale f H : loc_cdf H ->
  (forall x m s, 0 < s -> f (Fin x) (Fin m) (Fin s) = Fin (H ((x - m) / s))) ->
  forall x m, f (Fin x) (Fin m) (Fin 0) = Fin (if Rlt_dec x m then 0 else if Rlt_dec m x then 1 else 1 / 2) ->
  extends Zero (fun s => f (Fin x) (Fin m) s).
Proof.
  intros L E x m E0. unfold extends, bound. rewrite E0.
  apply (tends_fin Zero _ (fun s => H ((x - m) / s))).
  - generalize right_pos. apply filter_imp. auto.
  - destruct (Rlt_dec x m); [now apply lc_s_0_lo|]. destruct (Rlt_dec m x); [now apply lc_s_0_hi|].
    assert (x = m) as -> by lra. now apply lc_s_0_mid.
Qed.
Lemma pdf_scale f h : loc_pdf h -> filterlim (fun z => z * h z) (Rbar_locally p_infty) (locally 0) ->
  filterlim (fun z => z * h z) (Rbar_locally m_infty) (locally 0) -> 0 < h 0 ->
  (forall x m s, 0 < s -> f (Fin x) (Fin m) (Fin s) = Fin (h ((x - m) / s) / s)) ->
  forall x m, f (Fin x) (Fin m) (Fin 0) = (if Req_EM_T x m then PInf else Fin 0) ->
  extends Zero (fun s => f (Fin x) (Fin m) s).
Proof.
  intros L Z Z' P E x m E0. unfold extends, bound. rewrite E0. destruct Req_EM_T as [->|D].
  - apply (tends_pinf Zero _ (fun s => h ((m - m) / s) / s)).
    + generalize right_pos. apply filter_imp. auto.
    + now apply lp_s_0_mid.
  - apply (tends_fin Zero _ (fun s => h ((x - m) / s) / s)).
    + generalize right_pos. apply filter_imp. auto.
    + now apply lp_s_0.
Qed.
Ltac l0 := unfold pnorm, plaplace, plogis, pcauchy, dnorm, dlaplace,
  pnorm_limit_vals, plaplace_limit_vals, plogis_limit_vals, pcauchy_limit_vals, dnorm_limit_vals, dlaplace_limit_vals.
Lemma pnorm_scale x m : erf_spec S -> x <> m -> extends Zero (fun s => pnorm (N:=NS) (Fin x) (Fin m) s false).
Proof.
  intros HE D. apply (cdf_scale (fun x m s => pnorm (N:=NS) x m s false) _ norm_lc).
  - intros. rewrite pnorm_val by auto. unfold val. now rewrite norm_cdf_std.
  - l0. un_cls. er_arith. destruct (Rlt_dec x m), (Rlt_dec m x); try lra; rdecide; reflexivity.
Qed.
Lemma plaplace_scale x m : extends Zero (fun s => plaplace (N:=NS) (Fin x) (Fin m) s false).
Proof.
  apply (cdf_scale (fun x m s => plaplace (N:=NS) x m s false) _ laplace_lc).
  - intros. rewrite plaplace_val by auto. unfold val. now rewrite laplace_cdf_std.
  - l0. un_cls. er_arith. destruct (Rlt_dec x m), (Rlt_dec m x); try lra; rdecide; cbn; f_equal; lra.
Qed.
Lemma plogis_scale x m : extends Zero (fun s => plogis (N:=NS) (Fin x) (Fin m) s false).
Proof.
  apply (cdf_scale (fun x m s => plogis (N:=NS) x m s false) _ logis_lc).
  - intros. rewrite plogis_val by auto. unfold val. now rewrite logis_cdf_std.
  - l0. un_cls. er_arith. destruct (Rlt_dec x m), (Rlt_dec m x); try lra; rdecide; cbn; f_equal; lra.
Qed.
Lemma pcauchy_scale x m : x <> m -> extends Zero (fun s => pcauchy (N:=NS) (Fin x) (Fin m) s false).
Proof.
  intros D. apply (cdf_scale (fun x m s => pcauchy (N:=NS) x m s false) _ cauchy_lc).
  - intros. rewrite pcauchy_val by auto. unfold val. now rewrite cauchy_cdf_std.
  - l0. unfold pcauchy_compute. un_cls. er_arith. rdecide. pose proof PI_RGT_0.
    destruct (Rlt_dec x m), (Rlt_dec m x); try lra.
    + rewrite ediv_neg_0 by lra. cbn [eatan]. er_arith. cbn. f_equal. field. lra.
    + rewrite ediv_pos_0 by lra. cbn [eatan]. er_arith. cbn. f_equal. field. lra.
Qed.
Lemma dnorm_scale x m : extends Zero (fun s => dnorm (N:=NS) (Fin x) (Fin m) s false).
Proof.
  apply (pdf_scale (fun x m s => dnorm (N:=NS) x m s false) _ norm_lp (even_z _ _ norm_bd) (even_z' _ _ norm_even norm_bd)).
  - unfold norm_pdf. pose proof PI_RGT_0. apply Rmult_lt_0_compat; [|apply exp_pos].
    apply Rdiv_lt_0_compat; [lra|]. rewrite Rmult_1_r. apply sqrt_lt_R0. lra.
  - intros. rewrite dnorm_val by auto. unfold val. now rewrite norm_pdf_std.
  - l0. un_cls. er_arith. destruct (Req_EM_T x m); rdecide; reflexivity.
Qed.
Lemma dlaplace_scale x m : extends Zero (fun s => dlaplace (N:=NS) (Fin x) (Fin m) s false).
Proof.
  apply (pdf_scale (fun x m s => dlaplace (N:=NS) x m s false) _ laplace_lp (even_z _ _ laplace_bd) (even_z' _ _ laplace_even laplace_bd)).
  - unfold laplace_pdf. apply Rmult_lt_0_compat; [lra|apply exp_pos].
  - intros. rewrite dlaplace_val by auto. unfold val. now rewrite laplace_pdf_std.
  - l0. un_cls. er_arith. destruct (Req_EM_T x m); rdecide; reflexivity.
Qed.

(** log-normal: through the logarithm *)
Lemma plnorm_pnorm x m s : eps <= x -> 0 < x -> m <> NaN -> s = PInf \/ (exists r, s = Fin r /\ 0 <= r) ->
  plnorm (N:=NS) (Fin x) m s false = pnorm (N:=NS) (Fin (ln x)) m s false.
Proof.
  intros He Hx Hm Hs. unfold plnorm, lnorm_sanity3, lnorm_sanity2.
  destruct Hs as [->|(r & -> & Hr)]; destruct m; try congruence; un_cls; er_arith; rdecide; reflexivity.
Qed.
Lemma dlnorm_lim x m s : 0 < x -> (m = MInf \/ m = PInf) /\ (exists r, s = Fin r /\ 0 < r) \/ (exists r, m = Fin r) /\ s = PInf \/
  (exists r, m = Fin r /\ r <> ln x) /\ s = Fin 0 -> dlnorm (N:=NS) (Fin x) m s false = Fin 0.
Proof.
  intros Hx H. unfold dlnorm, dlnorm_limit_vals.
  destruct H as [([->| ->] & r & -> & Hr)|[((r & ->) & ->)|((r & -> & Hr) & ->)]]; un_cls; er_arith; rdecide; reflexivity.
Qed.
Lemma plnorm_loc x m s : erf_spec S -> eps <= x -> 0 < x -> 0 < s ->
  extends Down (fun m => plnorm (N:=NS) (Fin x) m (Fin s) false) /\
  extends Up (fun m => plnorm (N:=NS) (Fin x) m (Fin s) false) /\
  extends Up (fun s => plnorm (N:=NS) (Fin x) (Fin m) s false) /\
  (ln x <> m -> extends Zero (fun s => plnorm (N:=NS) (Fin x) (Fin m) s false)).
Proof.
  intros HE He Hx Hs. destruct (pnorm_loc HE (ln x) m s Hs) as (L1 & L2 & L3).
  unfold extends, bound in *. assert (P : forall m s, m <> NaN -> 0 <= s -> plnorm (N:=NS) (Fin x) m (Fin s) false = pnorm (N:=NS) (Fin (ln x)) m (Fin s) false).
  { intros. apply plnorm_pnorm; auto. right. eauto. }
  rewrite !P by (discriminate || lra). rewrite (plnorm_pnorm x (Fin m) PInf) by (auto; discriminate).
  assert (T : forall d g h v, tends d h v -> eventually d (fun s => g s = h s) -> tends d g v).
  { intros d g h v T E e H. specialize (T e H). destruct d; cbn in *.
    - destruct T as (M1 & T), E as (M2 & E). exists (Rmax M1 M2). intros z Hz. pose proof (Rmax_l M1 M2). pose proof (Rmax_r M1 M2).
      rewrite E by lra. apply T. lra.
    - destruct T as (M1 & T), E as (M2 & E). exists (Rmin M1 M2). intros z Hz. pose proof (Rmin_l M1 M2). pose proof (Rmin_r M1 M2).
      rewrite E by lra. apply T. lra.
    - destruct T as (M1 & Q1 & T), E as (M2 & Q2 & E). exists (Rmin M1 M2). split; [now apply Rmin_glb_lt|].
      intros z Hz. pose proof (Rmin_l M1 M2). pose proof (Rmin_r M1 M2). rewrite E by lra. apply T. lra. }
  repeat split.
  - eapply T; [exact L1|]. exists 0. intros. apply plnorm_pnorm; auto; [discriminate|right; exists s; split; [auto|lra]].
  - eapply T; [exact L2|]. exists 0. intros. apply plnorm_pnorm; auto; [discriminate|right; exists s; split; [auto|lra]].
  - eapply T; [exact L3|]. exists 0. intros z Hz. apply plnorm_pnorm; auto; [discriminate|right; exists z; split; [auto|lra]].
  - intros D.     eapply T; [exact (pnorm_scale (ln x) m HE D)|]. exists 1. split; [lra|]. intros z Hz. apply plnorm_pnorm; auto; [discriminate|right; exists z; split; [auto|lra]].
Qed.
Lemma lnorm_norm m s x : 0 < x -> lnorm_pdf m s x = / x * norm_pdf m s (ln x).
Proof. intros. unfold lnorm_pdf, norm_pdf. unfold Rdiv. ring. Qed.
Lemma dlnorm_loc x m s : 0 < x -> 0 < s ->
  extends Down (fun m => dlnorm (N:=NS) (Fin x) m (Fin s) false) /\
  extends Up (fun m => dlnorm (N:=NS) (Fin x) m (Fin s) false) /\
  extends Up (fun s => dlnorm (N:=NS) (Fin x) (Fin m) s false) /\
  (m <> ln x -> extends Zero (fun s => dlnorm (N:=NS) (Fin x) (Fin m) s false)).
Proof.
  intros Hx Hs. unfold extends, bound.
  assert (E : forall m s, 0 < s -> dlnorm (N:=NS) (Fin x) (Fin m) (Fin s) false = Fin (/ x * (norm_pdf 0 1 ((ln x - m) / s) / s))).
  { intros. rewrite dlnorm_val by auto. unfold val. now rewrite lnorm_norm, norm_pdf_std. }
  assert (Z : forall (F : (R -> Prop) -> Prop), Filter F -> forall g : R -> R, filterlim g F (locally 0) -> filterlim (fun s => / x * g s) F (locally 0)).
  { intros F FF g G. replace (locally 0) with (locally (/ x * 0)) by (f_equal; ring). now apply scal_lim. }
  repeat split; [rewrite (dlnorm_lim x MInf)|rewrite (dlnorm_lim x PInf)|rewrite (dlnorm_lim x _ PInf)|intros D; rewrite (dlnorm_lim x _ (Fin 0))]; eauto 8.
  - eapply (tends_fin Down); [apply filt_all; intros; now apply E|]. apply Z; [typeclasses eauto|]. apply lp_mu_minf; [apply norm_lp|auto].
  - eapply (tends_fin Up); [apply filt_all; intros; now apply E|]. apply Z; [typeclasses eauto|]. apply lp_mu_inf; [apply norm_lp|auto].
  - eapply (tends_fin Up); [exists 0; intros; now apply E|]. apply Z; [typeclasses eauto|]. apply lp_s_inf, norm_lp.
  - eapply (tends_fin Zero); [generalize right_pos; apply filter_imp; intros; now apply E|]. apply Z; [typeclasses eauto|].
    apply lp_s_0; [apply (even_z _ _ norm_bd)|apply (even_z' _ _ norm_even norm_bd)|auto].
Qed.
End S.

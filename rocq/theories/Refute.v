(** Counterexamples, as existence statements, for the properties the code does
    not have. *)
From Coq Require Import Reals ZArith QArith Bool Lra Lia.
From Verif Require Import Num Sanity ER ERTac Prob Dens Quant Spec SpecER ClosedElem LogForm
  Support Degenerate Discrete DiscreteQ Witness.
Local Open Scope R_scope.

Lemma eps0 : sf_eps SF0 = / 4503599627370496.
Proof. reflexivity. Qed.
Ltac eps0 := rewrite ?eps0; lra.

(** C04 *)
Lemma df_out_refuted : exists (S : SF) d1 d2 lf,
  0 < sf_eps S /\ sf_eps S <= d1 /\ sf_eps S <= d2 /\
  df (N:=ER_Num S) PInf (Fin d1) (Fin d2) lf <> zero_form lf.
Proof.
  exists SF0, 1, 1, false. repeat split; try eps0.
  rewrite df_inf_bad by (eps0 || (left; lra)). discriminate.
Qed.
(** C05 *)
Lemma pexp_above_refuted : exists (S : SF) rate lf, 0 <= rate /\
  pexp (N:=ER_Num S) PInf (Fin rate) lf <> one_form lf.
Proof. exists SF0, 0, false. split; [lra|]. rewrite pexp_above_bad. discriminate. Qed.
(** C06 *)
Lemma dexp_log_refuted : exists (S : SF) x rate, 0 < rate /\
  dexp (N:=ER_Num S) x (Fin rate) true <> elog (dexp (N:=ER_Num S) x (Fin rate) false).
Proof.
  exists SF0, PInf, 1. split; [lra|]. destruct (dexp_log_bad SF0 1 ltac:(lra)) as [-> ->].
  discriminate.
Qed.
Lemma dunif_log_refuted : exists (S : SF) x a b, 
  dunif (N:=ER_Num S) (Fin x) a b true <> elog (dunif (N:=ER_Num S) (Fin x) a b false).
Proof.
  exists SF0, 0, MInf, (Fin 1). destruct (dunif_log_bad SF0 0 1) as [-> ->]. discriminate.
Qed.
(** a value of the incomplete gamma function strictly inside (0,1) suffices *)
Definition SF_half : SF := {|
  sf_eps := / 4503599627370496; sf_tmin := 0;
  sf_pow_special := fun _ _ => NaN; sf_erf := fun _ => NaN; sf_erf_inv := fun _ => NaN;
  sf_lgamma := fun _ => NaN; sf_incgamma := fun _ _ => Fin (1 / 2);
  sf_incgamma_inv := fun _ _ => NaN; sf_incbeta := fun _ _ _ => NaN;
  sf_incbeta_inv := fun _ _ _ => NaN |}.
Lemma pf_log_refuted_gen (S : SF) (x d2 c : R) :
  0 < sf_eps S -> sf_eps S <= x -> sf_eps S <= d2 -> sf_eps S <= d2 / x ->
  0 < c < 1 -> sf_incgamma S (Fin (d2 / 2)) (Fin (d2 / x / 2)) = Fin c ->
  pf (N:=ER_Num S) (Fin x) PInf (Fin d2) true <> elog (pf (N:=ER_Num S) (Fin x) PInf (Fin d2) false).
Proof.
  intros. destruct (pf_log_bad S x d2 c) as (-> & -> & ?); auto. intros [= E]. lra.
Qed.
Lemma pf_log_refuted : exists (S : SF) x d1 d2,
  pf (N:=ER_Num S) x d1 d2 true <> elog (pf (N:=ER_Num S) x d1 d2 false).
Proof.
  exists SF_half, (Fin 1), PInf, (Fin 1).
  apply (pf_log_refuted_gen SF_half 1 1 (1 / 2)); cbn [sf_eps SF_half]; try lra. reflexivity.
Qed.
(** C28 *)
Lemma dnorm_std_refuted : forall S : SF, exists x lf,
  dnorm_std (N:=ER_Num S) x lf <> dnorm (N:=ER_Num S) x (Fin 0) (Fin 1) lf.
Proof.
  intros S. exists PInf, false. unfold dnorm_std.
  destruct (pnorm_ends S 0 1 false ltac:(lra)) as [_ E].
  destruct (dnorm_inf S 0 1 false ltac:(lra)) as [E' _]. unfold pnorm_std. cbn [ofZ ER_Num].
  rewrite E, E'. unfold one_form, zero_form. intros [= H]. lra.
Qed.
(** C46 *)
Lemma deg_refuted (S : SF) :
  (exists x m, dlogis (N:=ER_Num S) (Fin x) (Fin m) (Fin 0) false <> mass_pdf m x) /\
  (exists x m, dcauchy (N:=ER_Num S) (Fin x) (Fin m) (Fin 0) false <> mass_pdf m x) /\
  (exists x m, plaplace (N:=ER_Num S) (Fin x) (Fin m) (Fin 0) false <> Fin (mass_cdf m x)) /\
  (exists x m, plogis (N:=ER_Num S) (Fin x) (Fin m) (Fin 0) false <> Fin (mass_cdf m x)) /\
  (exists x m, pcauchy (N:=ER_Num S) (Fin x) (Fin m) (Fin 0) false <> Fin (mass_cdf m x)) /\
  (exists x m, 0 < x /\
     dlnorm (N:=ER_Num S) (Fin x) (Fin m) (Fin 0) false <> mass_pdf (Rtrigo_def.exp m) x).
Proof.
  repeat split.
  - exists 0, 0. rewrite dlogis_deg. unfold mass_pdf. destruct Req_EM_T; discriminate.
  - exists 0, 0. rewrite dcauchy_deg. unfold mass_pdf. destruct Req_EM_T; discriminate.
  - exists 0, 0. rewrite plaplace_deg_at. unfold mass_cdf. destruct Rle_dec; [|lra].
    intros [= H]. lra.
  - exists 0, 0. rewrite plogis_deg_at. unfold mass_cdf. destruct Rle_dec; [|lra].
    intros [= H]. lra.
  - exists 0, 0. rewrite pcauchy_deg_at. discriminate.
  - exists 1, 0. split; [lra|]. rewrite dlnorm_deg by lra. rewrite exp_0. unfold mass_pdf.
    destruct Req_EM_T; [discriminate|lra].
Qed.
Lemma dlogis_deg_refuted : forall S : SF, exists x m,
  dlogis (N:=ER_Num S) (Fin x) (Fin m) (Fin 0) false <> mass_pdf m x.
Proof. apply deg_refuted. Qed.
Lemma dcauchy_deg_refuted : forall S : SF, exists x m,
  dcauchy (N:=ER_Num S) (Fin x) (Fin m) (Fin 0) false <> mass_pdf m x.
Proof. apply deg_refuted. Qed.
Lemma plaplace_deg_refuted : forall S : SF, exists x m,
  plaplace (N:=ER_Num S) (Fin x) (Fin m) (Fin 0) false <> Fin (mass_cdf m x).
Proof. apply deg_refuted. Qed.
Lemma plogis_deg_refuted : forall S : SF, exists x m,
  plogis (N:=ER_Num S) (Fin x) (Fin m) (Fin 0) false <> Fin (mass_cdf m x).
Proof. apply deg_refuted. Qed.
Lemma pcauchy_deg_refuted : forall S : SF, exists x m,
  pcauchy (N:=ER_Num S) (Fin x) (Fin m) (Fin 0) false <> Fin (mass_cdf m x).
Proof. apply deg_refuted. Qed.
Lemma dlnorm_deg_refuted : forall S : SF, exists x m, 0 < x /\
  dlnorm (N:=ER_Num S) (Fin x) (Fin m) (Fin 0) false <> mass_pdf (Rtrigo_def.exp m) x.
Proof. apply deg_refuted. Qed.
(** C49 *)
Lemma pinvgamma_refuted : forall S : SF, 0 < sf_eps S -> exists x k r,
  0 < x /\ 0 < k /\ 0 < r /\ ~ in_unit (pinvgamma (N:=ER_Num S) (Fin x) (Fin k) (Fin r) false).
Proof.
  intros S He. exists 1, 1, (2 / sf_eps S). repeat split; try lra.
  - apply Rdiv_lt_0_compat; lra.
  - rewrite pinvgamma_big_rate; try lra.
    + intros (v & H & _). discriminate.
    + apply Rdiv_lt_0_compat; lra.
    + replace (1 / (2 / sf_eps S)) with (sf_eps S / 2) by (field; lra). lra.
Qed.
(** C17 *)
Lemma qbinom_refuted : forall S : SF, exists n p pr,
  (0 <= n)%Z /\ 0 < p <= 1 /\ 0 <= pr <= 1 /\
  forall k, qbinom (N:=ER_Num S) (Fin p) n (Fin pr) = Fin (IZR k) ->
  ~ is_quantile (fun j => pbinom (N:=ER_Num S) j n (Fin pr) false) (fun j => 0 <= j <= n)%Z (Fin p) k.
Proof.
  intros S. exists 1%Z, 1, 0. repeat split; try lra; try lia.
  intros k Hk (_ & _ & Hq). destruct (qbinom_one_bad S 1 ltac:(lia)) as [E (_ & H0 & _)].
  change (Z.of_nat 1) with 1%Z in *. rewrite E in Hk. injection Hk as Hk.
  change (INR 1) with (IZR 1) in Hk. apply eq_IZR in Hk. subst k.
  specialize (Hq 0%Z ltac:(lia) ltac:(lia)). unfold Elt, Ele in *.
  destruct (pbinom 0 1 (Fin 0) false) as [| | |v]; cbn in H0, Hq; try discriminate.
  apply Rleb_true in H0. apply Rltb_true in Hq. lra.
Qed.

(** C18 *)
Lemma qpois_refuted : forall (S : SF) tr, incgamma_int_ok S -> sf_eps S <= 1 ->
  exists fuel r p k, 0 < r /\ 0 < p < 1 /\
  qpois_run (N:=ER_Num S) tr fuel (Fin p) (Fin r) = Some (Fin (IZR k)) /\
  ~ is_quantile (fun j => ppois (N:=ER_Num S) j (Fin r) false) (fun j => 0 <= j)%Z (Fin p) k.
Proof.
  intros S tr IG He. destruct (qpois_tie S IG tr 1 0 ltac:(lra) He) as (p & Hp & Hp01 & fuel & E).
  exists fuel, 1, p, 1%Z. repeat split; try lra.
  - rewrite E. do 2 f_equal. cbn. lra.
  - intros (_ & _ & Hq). specialize (Hq 0%Z ltac:(lia) ltac:(lia)).
    change (Z.of_nat 0) with 0%Z in Hp. rewrite Hp in Hq. apply Elt_Fin in Hq. lra.
Qed.
(** C19 *)
Lemma qpois_diverges_refuted : forall (S : SF) tr, trunc_ok tr -> exists p r,
  0 < p < 1 /\ pois_sanity (N:=ER_Num S) r = true /\
  forall fuel, qpois_run (N:=ER_Num S) tr fuel (Fin p) r = None.
Proof.
  intros S tr Ht. exists (1 / 2), PInf. repeat split; try lra. apply qpois_inf; auto. lra.
Qed.

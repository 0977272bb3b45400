(** Normal and log-normal families, for an erf and an inverse erf that are the
    mathematical functions. *)
From Coq Require Import Reals ZArith QArith Bool Lra Lia Psatz.
From Coquelicot Require Import Coquelicot.
From Verif Require Import Num Sanity ER ERTac Prob Dens Quant Spec SpecER ClosedElem RealElem
  LogForm Support Elem Analysis Erf NormR.
Local Open Scope R_scope.

(** the values of the outside functions at finite arguments *)
Definition erf_spec (S : SF) : Prop := forall r, sf_erf S (Fin r) = Fin (erfR r).
Definition erf_inv_spec (S : SF) : Prop :=
  forall y, -1 < y < 1 -> exists z, sf_erf_inv S (Fin y) = Fin z /\ erfR z = y.

Section S.
Variable S : SF.
Notation NS := (ER_Num S).
Notation eps := (sf_eps S).

Lemma pnorm_val x mu s lf : erf_spec S -> 0 < s ->
  pnorm (N:=NS) (Fin x) (Fin mu) (Fin s) lf = val lf (norm_cdf mu s x).
Proof.
  intros HE Hs. pose proof sqrt2_pos as H2. unfold pnorm, pnorm_compute. un_cls. er_arith.
  rewrite HE. er_arith. rdecide. unfold val, norm_cdf.
  replace ((x - mu) / s / R_sqrt.sqrt 2) with ((x - mu) / (R_sqrt.sqrt 2 * s)) by (field; lra).
  destruct lf; reflexivity.
Qed.
Lemma qnorm_val p mu s : erf_inv_spec S -> 0 < s -> 0 < p < 1 ->
  exists q, qnorm (N:=NS) (Fin p) (Fin mu) (Fin s) = Fin q /\ norm_cdf mu s q = p.
Proof.
  intros HI Hs Hp. destruct (HI (2 * p - 1) ltac:(lra)) as (z & Ez & Hz). pose proof sqrt2_pos as H2.
  exists (mu + R_sqrt.sqrt 2 * s * z). split.
  - unfold qnorm, qnorm_compute. un_cls. er_arith. rewrite Ez. er_arith. rdecide. reflexivity.
  - unfold norm_cdf. replace ((mu + R_sqrt.sqrt 2 * s * z - mu) / (R_sqrt.sqrt 2 * s)) with z by (field; lra).
    rewrite Hz. lra.
Qed.
Lemma pnorm_like mu s : erf_spec S -> 0 < s ->
  cdf_like (fun x => pnorm (N:=NS) x (Fin mu) (Fin s) false) (norm_cdf mu s).
Proof.
  intros HE Hs. repeat split.
  - intros. now apply pnorm_val.
  - apply (pnorm_ends S mu s false); lra.
  - apply (pnorm_ends S mu s false); lra.
  - left. apply norm_cdf_range.
  - left. apply norm_cdf_range.
  - intros. now apply norm_cdf_mono.
Qed.
Lemma pnorm_density mu s x : erf_spec S -> 0 < s ->
  density_of (fun y => pnorm (N:=NS) y (Fin mu) (Fin s) false)
    (fun y => dnorm (N:=NS) y (Fin mu) (Fin s) false) x.
Proof.
  intros. apply (density_of_intro _ _ (norm_cdf mu s) x (norm_pdf mu s x)).
  - apply locally_all. intros. now apply pnorm_val.
  - now apply dnorm_val.
  - now apply norm_cdf_derive.
Qed.
Lemma pnorm_qnorm mu s p : erf_spec S -> erf_inv_spec S -> 0 < s -> 0 < p < 1 ->
  pnorm (N:=NS) (qnorm (N:=NS) (Fin p) (Fin mu) (Fin s)) (Fin mu) (Fin s) false = Fin p.
Proof.
  intros HE HI Hs Hp. destruct (qnorm_val p mu s HI Hs Hp) as (q & -> & Hq).
  rewrite pnorm_val by auto. unfold val. now rewrite Hq.
Qed.
Lemma qnorm_pnorm mu s x : erf_spec S -> erf_inv_spec S -> 0 < s ->
  qnorm (N:=NS) (pnorm (N:=NS) (Fin x) (Fin mu) (Fin s) false) (Fin mu) (Fin s) = Fin x.
Proof.
  intros HE HI Hs. rewrite pnorm_val by auto. unfold val.
  destruct (qnorm_val (norm_cdf mu s x) mu s HI Hs (norm_cdf_range mu s x)) as (q & -> & Hq).
  f_equal. now apply (norm_cdf_inj mu s).
Qed.
(** monotone quantiles from inverse CDFs *)
Lemma qf_like_inv q (G : R -> R) lo hi (P : R -> Prop) :
  q (Fin 0) = lo -> q (Fin 1) = hi -> Ele lo lo -> Ele hi hi -> Ele lo hi ->
  (forall p, 0 < p < 1 -> exists x, q (Fin p) = Fin x /\ P x /\ G x = p) ->
  (forall x, P x -> Ele lo (Fin x) /\ Ele (Fin x) hi) ->
  (forall x y, P x -> P y -> x < y -> G x < G y) ->
  quantile_like q lo hi.
Proof.
  intros H0 H1 Hll Hhh Hlh Hq Hr Hm.
  assert (Hb : forall p, 0 <= p <= 1 -> Ele lo (q (Fin p)) /\ Ele (q (Fin p)) hi).
  { intros p Hp. destruct (Req_dec p 0) as [->|]; [rewrite H0; auto|].
    destruct (Req_dec p 1) as [->|]; [rewrite H1; auto|].
    destruct (Hq p) as (x & -> & Hx & _); [lra|]. now apply Hr. }
  repeat split; auto; try (apply Hb; auto; fail).
  intros p1 p2 A B C. destruct (Req_dec p1 0) as [->|]; [rewrite H0; apply Hb; lra|].
  destruct (Req_dec p2 1) as [->|]; [rewrite H1; apply Hb; lra|].
  destruct (Hq p1) as (x1 & -> & P1 & E1); [lra|]. destruct (Hq p2) as (x2 & -> & P2 & E2); [lra|].
  apply Ele_Fin. destruct (Rle_lt_dec x1 x2) as [|L]; auto. apply Hm in L; auto. lra.
Qed.
Lemma qnorm_like mu s : erf_inv_spec S -> 0 < s ->
  quantile_like (fun p => qnorm (N:=NS) p (Fin mu) (Fin s)) MInf PInf.
Proof.
  intros HI Hs. apply (qf_like_inv _ (norm_cdf mu s) MInf PInf (fun _ => True)); try reflexivity.
  - unfold qnorm. un_cls. er_arith. rdecide. reflexivity.
  - unfold qnorm. un_cls. er_arith. rdecide. reflexivity.
  - intros p Hp. destruct (qnorm_val p mu s HI Hs Hp) as (q & E & H). eauto.
  - intros x _. split; reflexivity.
  - intros. now apply norm_cdf_smono.
Qed.

(** ** a CDF that is constant 0 near a point where the density is positive *)
Lemma density_bad (F f : ER -> ER) x g :
  locally x (fun y => F (Fin y) = Fin 0) -> f (Fin x) = Fin g -> 0 < g -> ~ density_of F f x.
Proof.
  intros HF Hf Hg (G & g' & HG & Hg' & Hd).
  assert (g' = g) as -> by congruence.
  assert (H0 : is_derive (fun _ : R => 0) x g).
  { apply (is_derive_ext_loc G); auto.
    generalize (filter_and _ _ HG HF). apply filter_imp. intros y [A B]. congruence. }
  pose proof (is_derive_unique _ _ _ H0) as H1. rewrite Derive_const in H1. lra.
Qed.

(** ** Log-normal; the CDF is cut off below epsilon (plnorm.ipp 39-40) *)
Definition lnorm_G mu s x := if Rlt_dec x eps then 0 else lnorm_cdf mu s x.
Lemma plnorm_val x mu s lf : erf_spec S -> 0 < eps -> 0 < s -> eps <= x ->
  plnorm (N:=NS) (Fin x) (Fin mu) (Fin s) lf = val lf (lnorm_cdf mu s x).
Proof.
  intros HE He Hs Hx. unfold plnorm.
  change (log (Fin x)) with (elog (Fin x)). rewrite elog_F by lra.
  rewrite pnorm_val by auto. un_cls. er_arith. rdecide. reflexivity.
Qed.
Lemma plnorm_low x mu s lf : 0 <= s -> x < eps ->
  plnorm (N:=NS) (Fin x) (Fin mu) (Fin s) lf = val lf 0.
Proof.
  intros. unfold plnorm. un_cls. er_arith. rdecide. destruct lf; unfold val; rewrite ?elog_0; auto.
Qed.
Lemma plnorm_like mu s : erf_spec S -> 0 < eps -> 0 < s ->
  cdf_like (fun x => plnorm (N:=NS) x (Fin mu) (Fin s) false) (lnorm_G mu s).
Proof.
  intros HE He Hs. repeat split.
  - intros x. unfold lnorm_G. destruct Rlt_dec; [rewrite plnorm_low|rewrite plnorm_val]; auto; lra.
  - rewrite plnorm_below by (lra || reflexivity). reflexivity.
  - rewrite plnorm_above by lra. reflexivity.
  - unfold lnorm_G. destruct Rlt_dec; [lra|]. left. apply norm_cdf_range.
  - unfold lnorm_G. destruct Rlt_dec; [lra|]. left. apply norm_cdf_range.
  - intros x y Hxy. unfold lnorm_G. destruct (Rlt_dec x eps), (Rlt_dec y eps); try lra.
    + left. apply norm_cdf_range.
    + apply norm_cdf_mono; auto. destruct Hxy as [Hxy| ->]; [|lra]. left. apply ln_increasing; lra.
Qed.
Lemma plnorm_density mu s x : erf_spec S -> 0 < eps -> 0 < s -> eps < x ->
  density_of (fun y => plnorm (N:=NS) y (Fin mu) (Fin s) false)
    (fun y => dlnorm (N:=NS) y (Fin mu) (Fin s) false) x.
Proof.
  intros. apply (density_of_intro _ _ (lnorm_cdf mu s) x (lnorm_pdf mu s x)).
  - apply (locally_gt _ eps); auto. intros. rewrite plnorm_val by (auto; lra). reflexivity.
  - rewrite dlnorm_val by (auto; lra). reflexivity.
  - apply lnorm_cdf_derive; lra.
Qed.
Lemma plnorm_density_bad mu s x : 0 < eps -> 0 < s -> 0 < x < eps ->
  ~ density_of (fun y => plnorm (N:=NS) y (Fin mu) (Fin s) false)
    (fun y => dlnorm (N:=NS) y (Fin mu) (Fin s) false) x.
Proof.
  intros He Hs Hx. apply (density_bad _ _ x (lnorm_pdf mu s x)).
  - apply (locally_lt _ eps); [lra|]. intros. now rewrite plnorm_low by lra.
  - rewrite dlnorm_val by lra. reflexivity.
  - apply lnorm_pdf_pos; lra.
Qed.
Lemma qlnorm_val p mu s : erf_inv_spec S -> 0 < s -> 0 < p < 1 ->
  exists q, qlnorm (N:=NS) (Fin p) (Fin mu) (Fin s) = Fin q /\ 0 < q /\ lnorm_cdf mu s q = p.
Proof.
  intros HI Hs Hp. destruct (qnorm_val p mu s HI Hs Hp) as (z & Ez & Hz).
  exists (Rtrigo_def.exp z). unfold qlnorm. rewrite Ez. un_cls. er_arith. rdecide.
  repeat split; [apply exp_pos|]. unfold lnorm_cdf. now rewrite ln_exp.
Qed.
Lemma plnorm_qlnorm mu s p : erf_spec S -> erf_inv_spec S -> 0 < eps -> 0 < s -> 0 < p < 1 ->
  Ele (Fin eps) (qlnorm (N:=NS) (Fin p) (Fin mu) (Fin s)) ->
  plnorm (N:=NS) (qlnorm (N:=NS) (Fin p) (Fin mu) (Fin s)) (Fin mu) (Fin s) false = Fin p.
Proof.
  intros HE HI He Hs Hp. destruct (qlnorm_val p mu s HI Hs Hp) as (q & -> & Hq0 & Hq).
  intros H. apply Ele_Fin in H. rewrite plnorm_val by auto. unfold val. now rewrite Hq.
Qed.
Lemma qlnorm_plnorm mu s x : erf_spec S -> erf_inv_spec S -> 0 < eps -> 0 < s -> eps <= x ->
  qlnorm (N:=NS) (plnorm (N:=NS) (Fin x) (Fin mu) (Fin s) false) (Fin mu) (Fin s) = Fin x.
Proof.
  intros HE HI He Hs Hx. rewrite plnorm_val by auto. unfold val.
  destruct (qlnorm_val (lnorm_cdf mu s x) mu s HI Hs (norm_cdf_range mu s (ln x))) as (q & -> & Hq0 & Hq).
  f_equal. apply (norm_cdf_inj mu s) in Hq; auto. apply ln_inv in Hq; lra.
Qed.
Lemma qlnorm_like mu s : erf_inv_spec S -> 0 < s ->
  quantile_like (fun p => qlnorm (N:=NS) p (Fin mu) (Fin s)) (Fin 0) PInf.
Proof.
  intros HI Hs. apply (qf_like_inv _ (lnorm_cdf mu s) _ _ (fun x => 0 < x)); try reflexivity.
  - unfold qlnorm, qnorm. un_cls. er_arith. rdecide. reflexivity.
  - unfold qlnorm, qnorm. un_cls. er_arith. rdecide. reflexivity.
  - apply Ele_Fin. lra.
  - intros p Hp. destruct (qlnorm_val p mu s HI Hs Hp) as (q & E & H). eauto.
  - intros x Hx. split; [|reflexivity]. apply Ele_Fin. lra.
  - intros. apply norm_cdf_smono; auto. now apply ln_increasing.
Qed.
(** ** symmetry and equivariance of the normal quantile follow from those of the CDF *)
Lemma qnorm_sym mu s p : erf_inv_spec S -> 0 < s -> 0 < p < 1 ->
  qnorm (N:=NS) (Fin (1 - p)) (Fin mu) (Fin s)
  = esub (Fin (2 * mu)) (qnorm (N:=NS) (Fin p) (Fin mu) (Fin s)).
Proof.
  intros HI Hs Hp. destruct (qnorm_val p mu s HI Hs Hp) as (q & -> & Hq).
  destruct (qnorm_val (1 - p) mu s HI Hs ltac:(lra)) as (q' & -> & Hq').
  rewrite esub_F. f_equal. apply (norm_cdf_inj mu s); auto. rewrite Hq', <- Hq.
  replace (2 * mu - q) with (mu - (q - mu)) by ring. rewrite norm_cdf_sym by auto.
  do 2 f_equal. ring.
Qed.
End S.

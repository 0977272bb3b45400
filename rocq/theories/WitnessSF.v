(** The mathematical special functions, packed as a choice of the external
    functions: the hypotheses on them used by the theorems are satisfiable
    together.  The inverses are given as suprema. *)
From Coq Require Import Reals ZArith QArith Bool Lra Lia.
From Coquelicot Require Import Coquelicot.
From Verif Require Import Num ER ERTac Witness Erf Norm GammaFn BetaFn FamG FamB.
Local Open Scope R_scope.

Definition sup_inv (F : R -> R) (y : R) : R := real (Lub_Rbar (fun x => F x <= y)).
Lemma sup_inv_spec F y x : (forall t, t <= x -> F t <= y) -> (forall t, x < t -> y < F t) ->
  sup_inv F y = x.
Proof.
  intros H1 H2. unfold sup_inv. rewrite (is_lub_Rbar_unique _ (Finite x)); auto. split.
  - intros t Ht. destruct (Rle_lt_dec t x) as [L|L]; auto. specialize (H2 t L). lra.
  - intros u Hu. apply Hu. apply H1. lra.
Qed.

Definition SFR : SF := {|
  sf_eps := / 4503599627370496;   (* 2^-52 *)
  sf_tmin := / 2 ^ 1022;
  sf_pow_special := fun _ _ => NaN;
  sf_erf := fun x => match x with Fin r => Fin (erfR r) | PInf => Fin 1 | MInf => Fin (-1) | NaN => NaN end;
  sf_erf_inv := fun x => match x with Fin r => Fin (sup_inv erfR r) | _ => NaN end;
  sf_lgamma := fun x => match x with Fin a => Fin (ln (Gam a)) | _ => NaN end;
  sf_incgamma := fun a x => match a, x with Fin a, Fin x => Fin (PG a x) | _, _ => NaN end;
  sf_incgamma_inv := fun a p => match a, p with Fin a, Fin p => Fin (sup_inv (PG a) p) | _, _ => NaN end;
  sf_incbeta := fun a b x => match a, b, x with
    Fin a, Fin b, Fin x => Fin (IB a b x) | _, _, _ => NaN end;
  sf_incbeta_inv := fun a b p => match a, b, p with
    Fin a, Fin b, Fin p => Fin (sup_inv (IB a b) p) | _, _, _ => NaN end |}.

Lemma SFR_erf : erf_spec SFR. Proof. intros r. reflexivity. Qed.
Lemma SFR_lgamma : lgamma_spec SFR. Proof. intros a _. reflexivity. Qed.
Lemma SFR_incgamma : incgamma_spec SFR. Proof. intros a x _ _. reflexivity. Qed.
Lemma SFR_incbeta : incbeta_spec SFR. Proof. intros a b x _ _ _. reflexivity. Qed.
Lemma SFR_erf_inv : erf_inv_spec SFR.
Proof.
  intros y Hy. destruct (erfR_surj y Hy) as [x Hx]. exists x. split; auto. cbn. f_equal.
  apply sup_inv_spec; intros t Ht; rewrite <- Hx; [now apply erfR_le|now apply erfR_slt].
Qed.
Lemma SFR_incgamma_inv : incgamma_inv_spec SFR.
Proof.
  intros a p Ha Hp. destruct (PG_surj a p Ha Hp) as (x & Hx & E). exists x. split; auto. cbn. f_equal.
  apply sup_inv_spec; intros t Ht; rewrite <- E.
  - destruct (Rle_lt_dec t 0) as [L|L].
    + unfold PG. rewrite lgam_np by auto. pose proof (PG_range a x Ha ltac:(lra)) as P. unfold PG in P. lra.
    + apply PG_le; lra.
  - apply PG_slt; lra.
Qed.
Lemma SFR_incbeta_inv : incbeta_inv_spec SFR.
Proof.
  intros a b p Ha Hb Hp. destruct (IB_surj a b p Ha Hb Hp) as (x & Hx & E). exists x. split; auto.
  cbn. f_equal. pose proof (Beta_pos a b Ha Hb) as HB.
  apply sup_inv_spec; intros t Ht.
  - destruct (Rle_lt_dec t 0) as [L|L].
    + rewrite IB_low, betaL_np by (auto; lra). lra.
    + rewrite <- E. apply IB_le; lra.
  - destruct (Rle_lt_dec 1 t) as [L|L].
    + rewrite IB_high, betaL_np by (auto; lra). lra.
    + rewrite <- E. apply IB_slt; lra.
Qed.

Ltac ex_sf :=
  try change (sf_eps SFR) with (/ 4503599627370496);
  first [ exact SFR_erf | exact SFR_erf_inv | exact SFR_lgamma | exact SFR_incgamma | exact SFR_incgamma_inv
        | exact SFR_incbeta | exact SFR_incbeta_inv
        | lra | lia | discriminate | reflexivity | apply Elt_Fin; lra | apply Ele_Fin; lra
        | split; ex_sf | left; ex_sf | right; ex_sf ].

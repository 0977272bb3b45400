(** quant/qinvgauss.ipp: the iteration never leaves the segment between the mode and the
    exact quantile, so it returns a finite positive number; with an error bound. *)
From Coq Require Import Reals ZArith QArith Bool Lra Lia.
From Verif Require Import Num Sanity ER ERTac Prob Dens Quant Spec SpecER ClosedElem RealElem
  LogForm Support Elem Norm NormR SpecSF FamR FamB InvGaussR.
Local Open Scope R_scope.

Section S.
Variable S : SF.
Notation NS := (ER_Num S).

Lemma qinvgauss_iter_step n p mu l q : erf_spec S -> 0 < mu -> 0 < l -> 0 < q ->
  qinvgauss_iter (N:=NS) n (Fin q) (Fin p) (Fin mu) (Fin l) =
  if Rlt_dec (Rabs (p - invgauss_cdf mu l q)) (sf_tmin S) then Fin q else
  match n with
  | O => Fin q
  | Datatypes.S n => qinvgauss_iter (N:=NS) n (Fin (ig_step mu l p q)) (Fin p) (Fin mu) (Fin l)
  end.
Proof.
  intros HE Hm Hl Hq. assert (Pq : 0 < invgauss_pdf mu l q) by (apply invgauss_pdf_pos; lra).
  unfold ig_step. destruct n; cbn [qinvgauss_iter]; rewrite pinvgauss_val, ?dinvgauss_val by auto;
    unfold val; un_cls; refold S; er_arith; unfold Rltb; destruct Rlt_dec; auto.
Qed.
Lemma qinvgauss_iter_ok n p mu l s q : erf_spec S -> 0 < mu -> 0 < l -> 0 < s -> invgauss_cdf mu l s = p ->
  between mu l s q ->
  exists r, qinvgauss_iter (N:=NS) n (Fin q) (Fin p) (Fin mu) (Fin l) = Fin r /\ between mu l s r /\
    (Rabs (p - invgauss_cdf mu l r) < sf_tmin S \/ r = ig_newton mu l n p q).
Proof.
  intros HE Hm Hl Hs E. revert q. induction n as [|n IH]; intros q B;
    rewrite qinvgauss_iter_step by (auto; apply B); destruct Rlt_dec as [L|L].
  - exists q. auto.
  - exists q. auto.
  - exists q. auto.
  - destruct (IH (ig_step mu l p q)) as (r & -> & Br & H); [now apply between_step|].
    exists r. auto.
Qed.
Lemma invgauss_mode_val mu l : 0 < mu -> 0 < l ->
  invgauss_mode (N:=NS) (Fin mu) (ediv (Fin mu) (Fin l)) = Fin (ig_mode mu l).
Proof.
  intros. unfold invgauss_mode, ig_mode. assert (0 < mu / l) by now apply Rdiv_lt_0_compat.
  un_cls. er_arith. reflexivity.
Qed.
Lemma qinvgauss_eq p mu l : 0 < mu -> 0 < l -> 0 < p < 1 ->
  qinvgauss (N:=NS) (Fin p) (Fin mu) (Fin l) =
  qinvgauss_iter (N:=NS) 100 (Fin (ig_mode mu l)) (Fin p) (Fin mu) (Fin l).
Proof.
  intros Hm Hl Hp. rewrite <- invgauss_mode_val by auto.
  unfold qinvgauss, qinvgauss_compute. un_cls. refold S. er_arith. rdecide. reflexivity.
Qed.
(** the exact quantile s, the returned q between the mode and s, and the CDF error *)
Lemma qinvgauss_val p mu l : erf_spec S -> 0 < mu -> 0 < l -> 0 < p < 1 ->
  exists q s, qinvgauss (N:=NS) (Fin p) (Fin mu) (Fin l) = Fin q /\
    0 < q /\ 0 < s /\ pinvgauss (N:=NS) (Fin s) (Fin mu) (Fin l) false = Fin p /\
    (s <= q <= ig_mode mu l \/ ig_mode mu l <= q <= s) /\
    (Rabs (p - invgauss_cdf mu l q) < sf_tmin S \/
     100 * Rabs (p - invgauss_cdf mu l q) <= invgauss_pdf mu l (ig_mode mu l) * Rabs (s - ig_mode mu l)).
Proof.
  intros HE Hm Hl Hp. destruct (ig_quantile mu l Hm Hl p Hp) as (s & Hs & E).
  destruct (qinvgauss_iter_ok 100 p mu l s (ig_mode mu l)) as (q & Eq & B & H); auto; [now apply between_mode|].
  exists q, s. rewrite qinvgauss_eq by auto. split; [exact Eq|]. destruct B as (Bq & B).
  repeat split; auto.
  - rewrite pinvgauss_val by auto. unfold val. now rewrite E.
  - destruct H as [H| ->]; [auto|right].
    destruct (ig_newton_err mu l Hm Hl 100 p s (ig_mode mu l) Hs E (between_mode mu l Hm Hl s Hs)) as (I & _).
    replace (INR 100) with 100 in I by (rewrite INR_IZR_INZ; reflexivity).
    assert (0 < invgauss_pdf mu l (ig_mode mu l)) by (apply invgauss_pdf_pos; auto; apply ig_mode_root; auto).
    pose proof (Rabs_pos (s - ig_newton mu l 100 p (ig_mode mu l))). nra.
Qed.
(** end values *)
Lemma qinvgauss_01 mu l : 0 < mu -> 0 < l ->
  qinvgauss (N:=NS) (Fin 0) (Fin mu) (Fin l) = Fin 0 /\ qinvgauss (N:=NS) (Fin 1) (Fin mu) (Fin l) = PInf.
Proof. intros. split; unfold qinvgauss; un_cls; er_arith; rdecide; reflexivity. Qed.
End S.

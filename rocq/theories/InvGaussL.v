(** quant/qinvgauss.ipp: the value returned by the iteration is monotone in the probability. *)
From Coq Require Import Reals ZArith QArith Bool Lra Lia.
From Verif Require Import Num Sanity ER ERTac Prob Dens Quant Spec SpecER ClosedElem RealElem
  LogForm Support Elem Norm NormR SpecSF FamR FamB InvGaussR InvGaussQ InvGaussM.
Local Open Scope R_scope.

Section S.
Variable S : SF.
Notation NS := (ER_Num S).
Variables mu l : R.
Hypothesis HE : erf_spec S.
Hypothesis Hmu : 0 < mu.
Hypothesis Hl : 0 < l.
Notation F := (invgauss_cdf mu l).
Notation m := (ig_mode mu l).
Notation it n q p := (qinvgauss_iter (N:=NS) n (Fin q) (Fin p) (Fin mu) (Fin l)).

Let cdf_le x y : 0 < x -> x <= y -> F x <= F y.
Proof. intros Hx [L| ->]; [left; now apply invgauss_cdf_slt|lra]. Qed.
Let mode_pos : 0 < m.
Proof. now apply ig_mode_root. Qed.

(** the iteration moves away from the mode *)
Lemma iter_away n p s q : 0 < s -> F s = p -> between mu l s q ->
  exists r, it n q p = Fin r /\ between mu l s r /\ (m <= q <= s -> q <= r) /\ (s <= q <= m -> r <= q).
Proof.
  intros Hs E. revert q. induction n as [|n IH]; intros q B;
    rewrite qinvgauss_iter_step by (auto; apply B); destruct Rlt_dec as [L|L];
    try (exists q; repeat split; try apply B; lra).
  destruct (IH (ig_step mu l p q)) as (r & -> & Br & H1 & H2); [now apply between_step|].
  exists r. split; auto. split; auto. split; intros H.
  - pose proof (ig_step_right mu l Hmu Hl p s q E ltac:(lra) ltac:(lra)). specialize (H1 ltac:(lra)). lra.
  - pose proof (ig_step_left mu l Hmu Hl p s q Hs E ltac:(lra) ltac:(lra)). specialize (H2 ltac:(lra)). lra.
Qed.
Lemma iter_right n p s q p' s' q' : 0 < s -> 0 < s' -> F s = p -> F s' = p' -> m <= q <= s -> m <= q' <= s' ->
  ordered mu l p q p' q' -> exists r r', it n q p = Fin r /\ it n q' p' = Fin r' /\ r <= r'.
Proof.
  intros Hs Hs' E E'. revert q q'. induction n as [|n IH]; intros q q' B B' O;
    rewrite (qinvgauss_iter_step S _ p mu l q), (qinvgauss_iter_step S _ p' mu l q') by (auto; lra);
    assert (P : 0 <= p - F q) by (rewrite <- E; pose proof (cdf_le q s ltac:(lra) ltac:(lra)); lra);
    destruct O as (O1 & O2); rewrite !Rabs_right by lra.
  - exists q, q'. destruct (Rlt_dec (p - F q) (sf_tmin S)) as [T1|T1], (Rlt_dec (p' - F q') (sf_tmin S)) as [T2|T2]; auto.
  - destruct (Rlt_dec (p - F q) (sf_tmin S)) as [T1|T1], (Rlt_dec (p' - F q') (sf_tmin S)) as [T2|T2]; try lra.
    + exists q, q'. auto.
    + destruct (iter_away n p' s' (ig_step mu l p' q')) as (r' & E1 & _ & H1 & _); auto.
      { apply between_step; auto. split; lra. }
      exists q, r'. pose proof (ig_step_right mu l Hmu Hl p' s' q' E' ltac:(lra) ltac:(lra)).
      specialize (H1 ltac:(lra)). repeat split; auto. lra.
    + apply IH.
      * pose proof (ig_step_right mu l Hmu Hl p s q E ltac:(lra) ltac:(lra)). lra.
      * pose proof (ig_step_right mu l Hmu Hl p' s' q' E' ltac:(lra) ltac:(lra)). lra.
      * eapply step_right; eauto. split; auto.
Qed.
Lemma iter_left n p s q p' s' q' : 0 < s -> 0 < s' -> F s = p -> F s' = p' -> s <= q <= m -> s' <= q' <= m ->
  ordered mu l p q p' q' -> exists r r', it n q p = Fin r /\ it n q' p' = Fin r' /\ r <= r'.
Proof.
  intros Hs Hs' E E'. revert q q'. induction n as [|n IH]; intros q q' B B' O;
    rewrite (qinvgauss_iter_step S _ p mu l q), (qinvgauss_iter_step S _ p' mu l q') by (auto; lra);
    assert (P : p' - F q' <= 0) by (rewrite <- E'; pose proof (cdf_le s' q' ltac:(lra) ltac:(lra)); lra);
    destruct O as (O1 & O2); rewrite !Rabs_left1 by lra.
  - exists q, q'. destruct (Rlt_dec (- (p - F q)) (sf_tmin S)) as [T1|T1], (Rlt_dec (- (p' - F q')) (sf_tmin S)) as [T2|T2]; auto.
  - destruct (Rlt_dec (- (p - F q)) (sf_tmin S)) as [T1|T1], (Rlt_dec (- (p' - F q')) (sf_tmin S)) as [T2|T2]; try lra.
    + exists q, q'. auto.
    + destruct (iter_away n p s (ig_step mu l p q)) as (r & E1 & _ & _ & H1); auto.
      { apply between_step; auto. split; lra. }
      exists r, q'. pose proof (ig_step_left mu l Hmu Hl p s q Hs E ltac:(lra) ltac:(lra)).
      specialize (H1 ltac:(lra)). repeat split; auto. lra.
    + apply IH.
      * pose proof (ig_step_left mu l Hmu Hl p s q Hs E ltac:(lra) ltac:(lra)). lra.
      * pose proof (ig_step_left mu l Hmu Hl p' s' q' Hs' E' ltac:(lra) ltac:(lra)). lra.
      * apply (step_left mu l Hmu Hl p q s p' q' s'); auto. split; auto.
Qed.
Lemma qinvgauss_mono_in p p' : 0 < p -> p <= p' -> p' < 1 ->
  exists r r', qinvgauss (N:=NS) (Fin p) (Fin mu) (Fin l) = Fin r /\
    qinvgauss (N:=NS) (Fin p') (Fin mu) (Fin l) = Fin r' /\ 0 < r /\ r <= r'.
Proof.
  intros Hp Hpp Hp'. rewrite !qinvgauss_eq by (auto; lra).
  destruct (ig_quantile mu l Hmu Hl p ltac:(lra)) as (s & Hs & E).
  destruct (ig_quantile mu l Hmu Hl p' ltac:(lra)) as (s' & Hs' & E').
  assert (L : s <= s').
  { destruct (Rle_dec s s'); auto. pose proof (invgauss_cdf_slt mu l Hmu Hl s' s Hs' ltac:(lra)). lra. }
  pose proof (between_mode mu l Hmu Hl s Hs) as B. pose proof (between_mode mu l Hmu Hl s' Hs') as B'.
  assert (O : ordered mu l p m p' m) by (split; lra).
  destruct (iter_away 100 p s m Hs E B) as (x & Ex & Bx & X1 & X2).
  destruct (iter_away 100 p' s' m Hs' E' B') as (x' & Ex' & Bx' & X1' & X2').
  exists x, x'. repeat split; auto; [apply Bx|].
  destruct (Rle_dec m s) as [H|H]; [|destruct (Rle_dec s' m) as [H'|H']].
  - destruct (iter_right 100 p s m p' s' m) as (r & r' & R1 & R2 & R3); auto; try lra.
    rewrite Ex in R1. rewrite Ex' in R2. inversion R1; inversion R2; subst; auto.
  - destruct (iter_left 100 p s m p' s' m) as (r & r' & R1 & R2 & R3); auto; try lra.
    rewrite Ex in R1. rewrite Ex' in R2. inversion R1; inversion R2; subst; auto.
  - specialize (X2 ltac:(lra)). specialize (X1' ltac:(lra)). lra.
Qed.
Lemma qinvgauss_like : quantile_like (fun p => qinvgauss (N:=NS) p (Fin mu) (Fin l)) (Fin 0) PInf.
Proof.
  destruct (qinvgauss_01 S mu l Hmu Hl) as (Q0 & Q1).
  assert (V : forall p, 0 < p < 1 -> exists r, qinvgauss (N:=NS) (Fin p) (Fin mu) (Fin l) = Fin r /\ 0 < r).
  { intros p Hp. destruct (qinvgauss_mono_in p p) as (r & _ & E & _ & H & _); try lra. eauto. }
  split; [exact Q0|]. split; [exact Q1|]. split.
  - intros p1 p2 H1 H2 H3.
    destruct (Req_dec p1 0) as [->|]; [|destruct (Req_dec p2 1) as [->|]].
    + rewrite Q0. destruct (Req_dec p2 1) as [->|]; [rewrite Q1; reflexivity|].
      destruct (Req_dec p2 0) as [->|]; [rewrite Q0; apply Ele_Fin; lra|].
      destruct (V p2) as (r & -> & Hr); [lra|]. apply Ele_Fin; lra.
    + rewrite Q1. destruct (Req_dec p1 1) as [->|]; [rewrite Q1; reflexivity|].
      destruct (V p1) as (r & -> & Hr); [lra|]. reflexivity.
    + destruct (qinvgauss_mono_in p1 p2) as (r & r' & -> & -> & _ & H4); try lra. now apply Ele_Fin.
  - intros p Hp. destruct (Req_dec p 0) as [->|]; [rewrite Q0; split; [apply Ele_Fin; lra|reflexivity]|].
    destruct (Req_dec p 1) as [->|]; [rewrite Q1; split; reflexivity|].
    destruct (V p) as (r & -> & Hr); [lra|]. split; [apply Ele_Fin; lra|reflexivity].
Qed.
End S.

(** An engine on which the Wishart samplers return, whatever the dimension. *)
From Coq Require Import Reals ZArith Lra Lia List.
From Verif Require Import Num Sanity ER ERTac Rand SpecRand RandER RandGamma RandMore RandWit Multi MultiBart Witness WitnessSF.
Local Open Scope R_scope.

Section Mono.
Context {T : Type} {N : Num T} {E : Type} (G : Rng T E).
Lemma chi_draws_mono f1 f2 nu n : (f1 <= f2)%nat -> forall i e r, chi_draws G f1 nu i n e = Some r -> chi_draws G f2 nu i n e = Some r.
Proof.
  intros L. induction n as [|n IH]; intros i e r H; cbn [chi_draws] in *; auto.
  destruct (rchisq G f1 _ e) as [[c e1]|] eqn:Q; [|discriminate]. rewrite (rchisq_mono G f1 f2 _ _ _ L Q).
  destruct (chi_draws G f1 nu (S i) n e1) as [[l e2]|] eqn:Q2; [|discriminate]. now rewrite (IH _ _ _ Q2).
Qed.
End Mono.

Lemma mid_chisq S d : 0 < sf_eps S <= 2 -> 0 < d -> exists fuel v, rchisq (N:=ER_Num S) mid fuel (Fin d) tt = Some (v, tt).
Proof.
  intros He Hd. assert (Q : exists fuel v, rgamma (N:=ER_Num S) mid fuel (Fin (d / 2)) (Fin 2) tt = Some (v, tt)).
  { destruct (Rle_or_lt (d / 2) 1).
    - destruct (ok_next mid mid_ok) as (c & Hc & C). destruct (ok_unif mid mid_ok c 1 tt) as (u & [] & Hu & _); [lra|].
      assert (D : unit_draw mid tt u tt) by (unfold unit_draw; now rewrite Hc).
      destruct (proj2 (rgamma_small_iff S mid mid_ok (d / 2) 2 tt (Fin ((1 + d / 2 - 1 / 3) * 1 * 2 * Rpower u (1 / (d / 2)))) tt u tt ltac:(lra) ltac:(lra) D)) as [f Hf].
      + exists 1. split; [reflexivity|apply mid_accepts].
      + eauto.
    - destruct (proj2 (rgamma_big_iff S mid mid_ok (d / 2) 2 tt (Fin ((d / 2 - 1 / 3) * 1 * 2)) tt ltac:(lra) ltac:(lra))) as [f Hf].
      + exists 1. split; [reflexivity|apply mid_accepts].
      + eauto. }
  destruct Q as (f & v & Q). exists f, v. unfold rchisq.
  replace (chisq_sanity1 (N:=ER_Num S) (Fin d)) with true by (un_cls; er_arith; rdecide; auto). cbn [negb].
  replace (div (Num:=ER_Num S) (Fin d) (ofZ (Num:=ER_Num S) 2)) with (Fin (d / 2)) by (un_cls; er_arith; auto). exact Q.
Qed.
Lemma mid_chi_draws S nu n : 0 < sf_eps S <= 2 -> forall i,
  (forall k, (i <= k < i + n)%nat -> exists d, 0 < d /\ nu_minus (N:=ER_Num S) nu (Z.of_nat k) = Fin d) ->
  exists fuel l, chi_draws (N:=ER_Num S) mid fuel nu i n tt = Some (l, tt).
Proof.
  intros He. induction n as [|n IH]; intros i H; cbn [chi_draws]; [exists O; eauto|].
  destruct (H i ltac:(lia)) as (d & Hd & ->). destruct (mid_chisq S d He Hd) as (f1 & v & Q1).
  destruct (IH (Datatypes.S i)) as (f2 & l & Q2); [intros; apply H; lia|]. exists (f1 + f2)%nat.
  rewrite (rchisq_mono (N:=ER_Num S) mid f1 (f1 + f2) _ _ _ ltac:(lia) Q1).
  rewrite (chi_draws_mono (N:=ER_Num S) mid f2 (f1 + f2) _ _ ltac:(lia) _ _ _ Q2). eauto.
Qed.
Lemma mid_bartlett S nu K : 0 < sf_eps S <= 2 ->
  (forall k, (k < K)%nat -> exists d, 0 < d /\ nu_minus (N:=ER_Num S) nu (Z.of_nat k) = Fin d) ->
  exists fuel A, bartlett (N:=ER_Num S) mid fuel K nu tt = Some (A, tt).
Proof.
  intros He H. destruct (mid_chi_draws S nu K He 0) as (f & l & Q); [intros; apply H; lia|].
  pose proof (bartlett_spec (N:=ER_Num S) mid f K nu tt) as B. cbv zeta in B.
  destruct (snd (seq_draws (N:=ER_Num S) mid (tri K) tt)). rewrite Q in B. destruct B as (_ & A & B & _). eauto.
Qed.

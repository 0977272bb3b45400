(** The binomial distribution function in binary64: the sum of the masses, nested to the right
    (prob/pbinom.ipp 34-40), never is a NaN, is non-negative and does not decrease below n. *)
From Coq Require Import ZArith QArith Reals Bool Lra Lia.
From Verif Require Import Num Sanity Prob Dens Discrete B64 B64R B64Ord SpecB64 SpecB64D B64Cdf B64Cdf3 B64Dens B64Dens5.
From Flocq Require Import Core IEEE754.BinarySingleNaN.
Local Open Scope R_scope.

(** sums of values that are not negative *)
Definition nneg (v : b64) : Prop := nn v /\ 0 <= ev v.
Lemma nneg_cases v : nneg v -> v = B754_infinity false \/ bfin v.
Proof. intros [N L]. pose proof maxR_pos. destruct (nn_cases v N) as [Fv|[->| ->]]; auto. rewrite ev_m in L. lra. Qed.
Lemma inf_add b : nneg b -> badd (B754_infinity false) b = B754_infinity false.
Proof. intros P. destruct (nneg_cases b P) as [->|Fb]; [reflexivity|now apply addr_inf]. Qed.
Lemma add_nneg a b : nneg a -> nneg b -> nneg (badd a b) /\ ev a <= ev (badd a b).
Proof.
  intros Pa Pb. pose proof maxR_pos. destruct (nneg_cases a Pa) as [->|Fa]; [rewrite inf_add by auto; split; [exact Pa|lra]|].
  destruct (nneg_cases b Pb) as [->|Fb]; [rewrite addl_inf by auto; split; [exact Pb|rewrite ev_p; apply ev_bound]|].
  destruct (add_ff a b Fa Fb) as [N E]. destruct Pa as [_ La], Pb as [_ Lb]. rewrite (ev_fin a Fa) in La. rewrite (ev_fin b Fb) in Lb.
  assert (Q : ev a <= ev (badd a b)) by (rewrite E, <- (rc_ev a Fa), (ev_fin a Fa); apply rc_mono; lra).
  split; auto. split; auto. rewrite (ev_fin a Fa) in Q. lra.
Qed.
Lemma add_mono a b c : nneg a -> nneg b -> nneg c -> ev b <= ev c -> ev (badd a b) <= ev (badd a c).
Proof.
  intros Pa Pb Pc L. destruct (nneg_cases a Pa) as [->|Fa]; [rewrite !inf_add by auto; lra|]. apply (badd_l a Fa); auto; apply dom_all; [apply Pb|apply Pc].
Qed.

Section PBINOM.
Variable F : TF.
Notation NB := (B64_Num F).
Variables (n : Z) (p : b64).
Hypothesis (LS : log_std F) (EX : exp_all_ok F) (LB : log_binom_ok F) (Hn : (0 <= n <= 2 ^ 53)%Z) (P0 : Bleb (bofZ 0) p = true) (P1 : Bleb p (bofZ 1) = true).
Lemma mass k : nneg (dbinom (N:=NB) k n p false).
Proof. destruct (dbinom_okd F LS EX n p LB Hn P0 P1 false k) as [A B]. split; auto. Qed.
Lemma recur_nneg x : forall fuel c v, pbinom_recur (N:=NB) fuel x n p c = Some v -> nneg v.
Proof.
  induction fuel as [|fuel IH]; intros c v; cbn [pbinom_recur]; [discriminate|]. destruct (c =? x)%Z; [intros E; injection E as <-; apply mass|].
  destruct (pbinom_recur fuel x n p (c + 1)) as [w|] eqn:W; [|discriminate]. cbn [option_map]. intros E. injection E as <-.
  exact (proj1 (add_nneg _ _ (mass c) (IH _ _ W))).
Qed.
Lemma recur_mono x : forall fuel c v w, (c <= x)%Z -> pbinom_recur (N:=NB) fuel x n p c = Some v -> pbinom_recur (N:=NB) (S fuel) (x + 1) n p c = Some w -> ev v <= ev w.
Proof.
  induction fuel as [|fuel IH]; intros c v w Lc; [discriminate|]. remember (S fuel) as f. rewrite Heqf at 1. cbn [pbinom_recur]. replace (c =? x + 1)%Z with false by (symmetry; apply Z.eqb_neq; lia).
  destruct (c =? x)%Z eqn:E.
  - apply Z.eqb_eq in E. subst c. intros Ev. injection Ev as <-. destruct (pbinom_recur f (x + 1) n p (x + 1)) as [u|] eqn:U; [|discriminate]. cbn [option_map]. intros Ew. injection Ew as <-.
    exact (proj2 (add_nneg _ _ (mass x) (recur_nneg _ _ _ _ U))).
  - apply Z.eqb_neq in E. destruct (pbinom_recur fuel x n p (c + 1)) as [u|] eqn:U; [|discriminate]. destruct (pbinom_recur f (x + 1) n p (c + 1)) as [u'|] eqn:U'; [|discriminate].
    cbn [option_map]. intros Ev Ew. injection Ev as <-. injection Ew as <-. subst f.
    exact (add_mono _ _ _ (mass c) (recur_nneg _ _ _ _ U) (recur_nneg _ _ _ _ U') (IH (c + 1)%Z u u' ltac:(lia) U U')).
Qed.
Lemma sane : binom_sanity (N:=NB) n p = true.
Proof.
  pose proof (bern_san F p P0 P1) as Q. unfold bern_sanity in Q. unfold binom_sanity. rewrite (proj2 (Z.ltb_ge n 0)) by lia. exact Q.
Qed.
(** below n the function is the nested sum *)
Lemma pbinom_in x : (0 <= x < n)%Z -> (n <> 1)%Z -> exists v, pbinom_recur (N:=NB) (Z.to_nat x + 1) x n p 0 = Some v /\ pbinom (N:=NB) x n p false = v.
Proof.
  intros Hx H1. pose proof (pbinom_recur_total (N:=NB) x n p (Z.to_nat x + 1) 0 ltac:(lia) ltac:(lia)) as T. unfold pbinom. rewrite sane. cbn [negb].
  replace (x <? 0)%Z with false by (symmetry; apply Z.ltb_ge; lia). replace (n <=? x)%Z with false by (symmetry; apply Z.leb_gt; lia). replace (n =? 1)%Z with false by (symmetry; apply Z.eqb_neq; lia).
  destruct (pbinom_recur (Z.to_nat x + 1) x n p 0) as [v|] eqn:E; [|congruence]. exists v. auto.
Qed.
Lemma pbinom_one x : n = 1%Z -> (0 <= x < n)%Z -> nneg (pbinom (N:=NB) x n p false).
Proof.
  intros E1 Hx. assert (x = 0)%Z by lia. subst x. unfold pbinom. rewrite sane. rewrite E1. cbn [negb]. change (0 <? 0)%Z with false. change (1 <=? 0)%Z with false. change (1 =? 1)%Z with true. cbv iota.
  destruct (pbern_cdfZ F p P0 P1) as [A _]. destruct (A 0%Z) as [A0 _]. apply leb_ev in A0. destruct A0 as (_ & N & L). rewrite (proj2 (ev_Z 0 ltac:(sm))) in L. now split.
Qed.
Lemma pbinom_nneg x : nneg (pbinom (N:=NB) x n p false).
Proof.
  destruct (ev_Z 0 ltac:(sm)) as [Z0 E0], (ev_Z 1 ltac:(sm)) as [Z1 E1]. destruct (Z_lt_le_dec x 0) as [L|L].
  - unfold pbinom. rewrite sane. cbn [negb]. replace (x <? 0)%Z with true by (symmetry; apply Z.ltb_lt; lia). change (nneg (bofZ 0)). split; auto. lra.
  - destruct (Z_lt_le_dec x n) as [K|K].
    + destruct (Z.eq_dec n 1) as [En|N1]; [apply pbinom_one; auto; lia|]. destruct (pbinom_in x ltac:(lia) N1) as (v & E & ->). exact (recur_nneg _ _ _ _ E).
    + rewrite pbinom_top by (apply sane || lia). change (nneg (bofZ 1)). split; auto. lra.
Qed.
Lemma pbinom_step x : (x + 1 < n)%Z -> ev (pbinom (N:=NB) x n p false) <= ev (pbinom (N:=NB) (x + 1) n p false).
Proof.
  intros H. destruct (Z_lt_le_dec x 0) as [L|L].
  - replace (pbinom (N:=NB) x n p false) with (bofZ 0). { rewrite (proj2 (ev_Z 0 ltac:(sm))). apply pbinom_nneg. }
    unfold pbinom. rewrite sane. cbn [negb]. replace (x <? 0)%Z with true by (symmetry; apply Z.ltb_lt; lia). reflexivity.
  - destruct (pbinom_in x ltac:(lia) ltac:(lia)) as (v & E & ->). destruct (pbinom_in (x + 1) ltac:(lia) ltac:(lia)) as (w & E' & ->).
    replace (Z.to_nat (x + 1) + 1)%nat with (S (Z.to_nat x + 1)) in E' by lia. exact (recur_mono x _ 0%Z v w ltac:(lia) E E').
Qed.
Lemma pbinom_mono x y : (x <= y < n)%Z -> ev (pbinom (N:=NB) x n p false) <= ev (pbinom (N:=NB) y n p false).
Proof.
  intros [L K]. replace y with (x + Z.of_nat (Z.to_nat (y - x)))%Z by lia. assert (Hk : (x + Z.of_nat (Z.to_nat (y - x)) < n)%Z) by lia. revert Hk.
  generalize (Z.to_nat (y - x)). induction n0 as [|k IH]; intros Hk; [replace (x + Z.of_nat 0)%Z with x by lia; lra|].
  apply Rle_trans with (ev (pbinom (N:=NB) (x + Z.of_nat k) n p false)); [apply IH; lia|]. replace (x + Z.of_nat (S k))%Z with (x + Z.of_nat k + 1)%Z by lia. apply pbinom_step. lia.
Qed.
End PBINOM.

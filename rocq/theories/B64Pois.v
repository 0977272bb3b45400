(** The Poisson quantile in binary64: what the search returns, that it grows with p, and that it ends. *)
From Coq Require Import ZArith QArith Reals Lra Lia Bool.
From Verif Require Import GammaFn RealPois Spec.
From Verif Require Import Num Sanity Prob Quant B64 SpecB64 SpecPois SpecAcc B64R B64Ord B64Cdf B64Cdf2 B64Cdf3 B64Acc B64AccW B64AccCdf B64AccCdf3 B64AccPois B64Quant2 B64Thm B64Unif.
From Flocq Require Import Core IEEE754.BinarySingleNaN.
Local Open Scope Z_scope.

Section Pois.
Context (F : TF).
Local Notation NB := (B64_Num F).
Local Notation PP rate := (fun k : Z => ppois (N:=NB) k rate false).

Lemma search_S fuel p rate v c : qpois_search (N:=NB) (S fuel) p rate v c =
  if Bleb v p then qpois_search (N:=NB) fuel p rate (PP rate c) (c + 1) else if 0 <? c then Some (bofZ (c - 1)) else Some (bofZ 0).
Proof. reflexivity. Qed.
Lemma search_spec fuel : forall p rate v c w, 0 <= c -> qpois_search (N:=NB) fuel p rate v c = Some w ->
  (Bleb v p = false /\ w = bofZ (Z.max 0 (c - 1))) \/ (Bleb v p = true /\ exists n, w = bofZ n /\ first_above (PP rate) p c n).
Proof.
  induction fuel as [|fuel IH]; intros p rate v c w C H; [discriminate|]. rewrite search_S in H. destruct (Bleb v p) eqn:E.
  - right. split; auto. apply IH in H; [|lia]. destruct H as [[L ->]|[L (n & -> & A & B & D)]].
    + exists c. rewrite Z.max_r by lia. replace (c + 1 - 1) with c by ring. split; auto. split; [lia|]. split; [now rewrite L|]. intros; lia.
    + exists n. split; auto. split; [lia|]. split; auto. intros k K. destruct (Z.eq_dec k c) as [->|]; auto. apply D. lia.
  - left. split; auto. destruct (0 <? c) eqn:Z0; injection H as <-; [apply Z.ltb_lt in Z0; now rewrite Z.max_r by lia|apply Z.ltb_ge in Z0; now rewrite Z.max_l by lia].
Qed.
Lemma search_run p rate : forall k v c, 0 <= c -> Bleb v p = true -> (forall j, c <= j < c + Z.of_nat k -> (PP rate j ≤ p)%b64) -> Bleb (PP rate (c + Z.of_nat k)) p = false ->
  qpois_search (N:=NB) (S (S k)) p rate v c = Some (bofZ (c + Z.of_nat k)).
Proof.
  induction k as [|k IH]; intros v c C V L N; rewrite search_S, V.
  - rewrite search_S. replace (c + Z.of_nat 0) with c in * by lia. rewrite N. rewrite (proj2 (Z.ltb_lt 0 (c + 1))) by lia. f_equal. f_equal. lia.
  - rewrite IH; [f_equal; f_equal; lia|lia|apply L; lia| |].
    + intros j J. apply L. lia.
    + replace (c + 1 + Z.of_nat k) with (c + Z.of_nat (S k)) by lia. exact N.
Qed.
Lemma search_complete p rate v c n : 0 <= c -> Bleb v p = true -> first_above (PP rate) p c n -> exists fuel, qpois_search (N:=NB) fuel p rate v c = Some (bofZ n).
Proof.
  intros C V (A & B & D). exists (S (S (Z.to_nat (n - c)))). replace n with (c + Z.of_nat (Z.to_nat (n - c))) at 2 by lia.
  apply search_run; auto; [intros j J; apply D; lia|]. replace (c + Z.of_nat (Z.to_nat (n - c))) with n by lia. now apply not_true_is_false.
Qed.
(** the least integer, by searching *)
Lemma first_exists (G : Z -> b64) p s m : s <= m -> ~ (G m ≤ p)%b64 -> exists n, first_above G p s n /\ n <= m.
Proof.
  intros S H. assert (K : forall j : nat, (exists n, first_above G p s n /\ n <= s + Z.of_nat j) \/ forall k, s <= k <= s + Z.of_nat j -> (G k ≤ p)%b64).
  { induction j as [|j [ (n & A & B) | IH]].
    - destruct (Bleb (G s) p) eqn:E; [right; intros k K; replace k with s by lia; auto|left; exists s]. split; [|lia]. split; [lia|]. rewrite E. split; [discriminate|intros; lia].
    - left. exists n. split; auto. lia.
    - destruct (Bleb (G (s + Z.of_nat (Datatypes.S j))) p) eqn:E.
      + right. intros k K. destruct (Z.eq_dec k (s + Z.of_nat (Datatypes.S j))) as [->|]; auto. apply IH. lia.
      + left. exists (s + Z.of_nat (Datatypes.S j)). split; [|lia]. split; [lia|]. rewrite E. split; [discriminate|]. intros k K2. apply IH. lia. }
  destruct (K (Z.to_nat (m - s))) as [(n & A & B)|N]; [exists n; split; auto; lia|]. exfalso. apply H, N. lia.
Qed.

Lemma le_tr (x y z : b64) : (x ≤ y)%b64 -> (y ≤ z)%b64 -> (x ≤ z)%b64.
Proof. rewrite !leb_ev. intros (A & B & C) (_ & D & E). repeat split; auto. lra. Qed.
(** the tests before the search *)
Definition open01 (p : b64) : Prop := (bofZ 0 ≺ p)%b64 /\ (p ≺ bofZ 1)%b64.
Lemma open_nn p : open01 p -> nn p /\ (0 < ev p < 1)%R.
Proof.
  intros [A B]. assert (N : nn p) by (destruct p; try discriminate; reflexivity). destruct (bofZ_R 0 ltac:(sm)) as [A0 F0], (bofZ_R 1 ltac:(sm)) as [A1 F1].
  apply ltb_ev in A, B; auto; try now apply nn_fin. split; auto. rewrite (ev_fin (bofZ 0)) in A by auto. rewrite (ev_fin (bofZ 1)) in B by auto. lra.
Qed.
Lemma tests p rate : open01 p -> big_eps rate -> forall tr fuel, qpois_run (N:=NB) tr fuel p rate =
  if Bltb rate (bofZ 11) then qpois_search (N:=NB) fuel p rate (bofZ 0) 0 else
  match tr (qpois_normal_approx (N:=NB) p rate) with Some s => qpois_search_begin (N:=NB) fuel p rate s | None => None end.
Proof.
  intros O B tr fuel. destruct (open_nn p O) as [N [P0 P1]]. destruct (big_eps_pos _ B) as (_ & [Fr Pr] & Er). destruct (bofZ_R 0 ltac:(sm)) as [A0 F0], (bofZ_R 1 ltac:(sm)) as [A1 F1].
  unfold qpois_run, pois_sanity, prob_val_check. rewrite (nan_nn F rate), (nan_nn F p) by (auto; now apply nn_fin).
  change (ltb rate (ofZ 0)) with (Bltb rate (bofZ 0)). rewrite lt0_f by (auto; lra).
  change (ltb p (ofZ 0)) with (Bltb p (bofZ 0)). change (ltb (ofZ 1) p) with (Bltb (bofZ 1) p). change (eqb p (ofZ 0)) with (Beqb p (bofZ 0)). change (eqb p (ofZ 1)) with (Beqb p (bofZ 1)).
  rewrite (proj2 (ltb_ev_f p (bofZ 0) N (nn_fin _ F0))) by (rewrite (ev_fin (bofZ 0)) by auto; lra). rewrite (proj2 (ltb_ev_f (bofZ 1) p (nn_fin _ F1) N)) by (rewrite (ev_fin (bofZ 1)) by auto; lra).
  rewrite (proj2 (eqb_ev_f p (bofZ 0) N (nn_fin _ F0))) by (rewrite (ev_fin (bofZ 0)) by auto; lra). rewrite (proj2 (eqb_ev_f p (bofZ 1) N (nn_fin _ F1))) by (rewrite (ev_fin (bofZ 1)) by auto; lra).
  cbn [negb]. rewrite (proj2 (eps_lt_f F rate (nn_fin _ Fr)) Er). reflexivity.
Qed.
Lemma zero_le p : open01 p -> Bleb (bofZ 0) p = true.
Proof. intros O. destruct (open_nn p O) as [N P]. destruct (bofZ_R 0 ltac:(sm)) as [A0 F0]. apply leb_ev. repeat split; auto; try now apply nn_fin. rewrite (ev_fin (bofZ 0)) by auto. lra. Qed.

(** rates below 11 *)
Lemma small_spec tr fuel p rate w : open01 p -> big_eps rate -> (rate ≺ bofZ 11)%b64 -> qpois_run (N:=NB) tr fuel p rate = Some w ->
  exists n, w = bofZ n /\ first_above (PP rate) p 0 n.
Proof.
  intros O B L H. rewrite tests, L in H by auto. apply search_spec in H; [|lia]. destruct H as [[C _]|[_ H]]; auto. rewrite zero_le in C by auto. discriminate.
Qed.
Lemma small_complete tr p rate n : open01 p -> big_eps rate -> (rate ≺ bofZ 11)%b64 -> first_above (PP rate) p 0 n -> exists fuel, qpois_run (N:=NB) tr fuel p rate = Some (bofZ n).
Proof.
  intros O B L H. destruct (search_complete p rate (bofZ 0) 0 n ltac:(lia) (zero_le p O) H) as [fuel E]. exists fuel. now rewrite tests, L.
Qed.
Lemma first_mono (G : Z -> b64) p q s t n m : (p ≤ q)%b64 -> s <= t -> first_above G p s n -> first_above G q t m -> n <= Z.max t m.
Proof.
  intros L S (A & B & C) (A' & B' & C'). destruct (Z_le_gt_dec n (Z.max t m)) as [|N]; auto. exfalso. apply B'. eapply le_tr; [apply C; lia|auto].
Qed.
Lemma small_mono tr fuel fuel' p q rate v w : open01 p -> open01 q -> (p ≤ q)%b64 -> big_eps rate -> (rate ≺ bofZ 11)%b64 ->
  qpois_run (N:=NB) tr fuel p rate = Some v -> qpois_run (N:=NB) tr fuel' q rate = Some w -> exists n m, v = bofZ n /\ w = bofZ m /\ 0 <= n <= m.
Proof.
  intros O O' L B R H H'. apply small_spec in H, H'; auto. destruct H as (n & -> & Hn), H' as (m & -> & Hm). exists n, m. repeat split; auto; [apply Hn|].
  pose proof (first_mono _ _ _ _ _ _ _ L (Z.le_refl 0) Hn Hm). destruct Hm as [Hm _]. lia.
Qed.
(** the value at an attained probability is larger than the integer it belongs to *)
Lemma small_tie tr fuel rate k w : 0 <= k -> open01 (PP rate k) -> (forall j, 0 <= j < k -> (PP rate j ≤ PP rate k)%b64) -> big_eps rate -> (rate ≺ bofZ 11)%b64 ->
  qpois_run (N:=NB) tr fuel (PP rate k) rate = Some w -> exists n, w = bofZ n /\ k < n.
Proof.
  intros K O M B R H. apply small_spec in H; auto. destruct H as (n & -> & A & C & D). exists n. split; auto. destruct (Z_le_gt_dec n k) as [L|]; [|lia]. exfalso. apply C.
  destruct (Z.eq_dec n k) as [->|]; [|apply M; lia]. destruct (open_nn _ O) as [N _]. apply leb_ev. repeat split; auto. lra.
Qed.

(** rates from 11 on *)
Lemma large_spec tr fuel p rate s w : open01 p -> big_eps rate -> Bltb rate (bofZ 11) = false -> tr (qpois_normal_approx (N:=NB) p rate) = Some s -> 0 <= s -> qpois_run (N:=NB) tr fuel p rate = Some w ->
  (~ (PP rate s ≤ p)%b64 /\ w = bofZ (Z.max 0 (s - 1))) \/ ((PP rate s ≤ p)%b64 /\ exists n, w = bofZ n /\ first_above (PP rate) p s n).
Proof.
  intros O B R T S H. rewrite tests, R, T in H by auto. apply search_spec in H; auto. destruct H as [[A C]|H]; [left|right; auto]. split; auto. now rewrite A.
Qed.
Lemma large_complete tr p rate s n : open01 p -> big_eps rate -> Bltb rate (bofZ 11) = false -> tr (qpois_normal_approx (N:=NB) p rate) = Some s -> 0 <= s -> (PP rate s ≤ p)%b64 -> first_above (PP rate) p s n ->
  exists fuel, qpois_run (N:=NB) tr fuel p rate = Some (bofZ n).
Proof.
  intros O B R T S L H. destruct (search_complete p rate (PP rate s) s n S L H) as [fuel E]. exists fuel. rewrite tests, R, T by auto. exact E.
Qed.
(** the starting point grows with p *)
Lemma approx_mono p q rate : erf_inv_ok F -> b64_fin rate -> b64_pos (Bsqrt mode_NE rate) -> b64_pos (bmul (t_SQRT_2 F) (Bsqrt mode_NE rate)) -> open01 p -> open01 q -> (p ≤ q)%b64 ->
  (qpois_normal_approx (N:=NB) p rate ≤ qpois_normal_approx (N:=NB) q rate)%b64.
Proof.
  intros EI Fr Ps Pm O O' L. pose proof (t_qnorm F rate (Bsqrt mode_NE rate) EI Fr Ps Pm) as M. destruct (open_nn p O) as [Np Ep], (open_nn q O') as [Nq Eq].
  destruct (bofZ_R 0 ltac:(sm)) as [A0 F0], (bofZ_R 1 ltac:(sm)) as [A1 F1], (bofZ_R 3 ltac:(sm)) as [A3 F3].
  specialize (M p q (zero_le p O) L). assert (Q1 : (q ≤ bofZ 1)%b64) by (apply leb_ev; repeat split; auto; try (now apply nn_fin); rewrite (ev_fin (bofZ 1)) by auto; lra). specialize (M Q1). cbv beta in M.
  apply leb_ev in M. destruct M as (N1 & N2 & M). change (Num.sqrt (Num:=NB) rate) with (Bsqrt mode_NE rate) in *.
  unfold qpois_normal_approx, tmax. change (Num.sqrt rate) with (Bsqrt mode_NE rate). set (x := qnorm p rate _) in *. set (y := qnorm q rate _) in *.
  change (sub x (ofZ 3)) with (bsub x (bofZ 3)). change (sub y (ofZ 3)) with (bsub y (bofZ 3)). change (ofZ 0) with (bofZ 0). change (ltb (bofZ 0) (bsub x (bofZ 3))) with (Bltb (bofZ 0) (bsub x (bofZ 3))). change (ltb (bofZ 0) (bsub y (bofZ 3))) with (Bltb (bofZ 0) (bsub y (bofZ 3))).
  assert (I : (ev (bsub x (bofZ 3)) <= ev (bsub y (bofZ 3)))%R) by (apply (bsub_r (bofZ 3) F3); auto; now apply dom_all).
  pose proof (bsub_r_nn (bofZ 3) x F3 N1) as X. pose proof (bsub_r_nn (bofZ 3) y F3 N2) as Y. set (x' := bsub x (bofZ 3)) in *. set (y' := bsub y (bofZ 3)) in *. pose proof (nn_fin _ F0) as N0.
  destruct (Bltb (bofZ 0) x') eqn:E1, (Bltb (bofZ 0) y') eqn:E2; apply leb_ev; repeat split; auto; try lra.
  - apply ltb_ev in E1; auto. apply ltb_ev_f in E2; auto. lra.
  - apply ltb_ev in E2; auto. lra.
Qed.
Lemma large_mono tr fuel fuel' p q rate s t v w : open01 p -> open01 q -> (p ≤ q)%b64 -> big_eps rate -> Bltb rate (bofZ 11) = false ->
  tr (qpois_normal_approx (N:=NB) p rate) = Some s -> tr (qpois_normal_approx (N:=NB) q rate) = Some t -> 0 <= s <= t ->
  qpois_run (N:=NB) tr fuel p rate = Some v -> qpois_run (N:=NB) tr fuel' q rate = Some w ->
  exists n m, v = bofZ n /\ w = bofZ m /\ 0 <= n /\ 0 <= m /\ n <= m + 1 /\ ((PP rate t ≤ q)%b64 -> n <= m).
Proof.
  intros O O' L B R T T' S H H'. eapply large_spec in H; eauto; [|lia]. eapply large_spec in H'; eauto; [|lia].
  destruct H as [[A ->]|[A (n & -> & Hn)]], H' as [[A' ->]|[A' (m & -> & Hm)]].
  - exists (Z.max 0 (s - 1)), (Z.max 0 (t - 1)). repeat split; auto; lia.
  - exists (Z.max 0 (s - 1)), m. destruct Hm as [Hm _]. repeat split; auto; try lia.
  - exists n, (Z.max 0 (t - 1)). assert (n <= t). { destruct (Z_le_gt_dec n t) as [|G]; auto. exfalso. apply A'. destruct Hn as (_ & _ & C). eapply le_tr; [apply C; lia|auto]. }
    destruct Hn as [Hn _]. repeat split; auto; try lia. intros Z. now exfalso.
  - exists n, m. pose proof (first_mono _ _ _ _ _ _ _ L (proj2 S) Hn Hm). destruct Hn as [Hn _], Hm as [Hm _]. repeat split; auto; lia.
Qed.

(** ** the search ends *)
Context (e : R).
Hypothesis He : unit_ok e.
Lemma ppois_one x rate : incgamma_acc F e -> 64 <= x < 2 ^ 53 -> bpos rate -> (16 * B2R rate <= IZR x)%R -> (1 <= B2R (PP rate x))%R /\ bfin (PP rate x).
Proof.
  intros HF Hx [Fr Pr] L. destruct (bofZ_R 1 ltac:(sm)) as [A1 F1]. destruct (bofZ_R (x + 1)) as [Ax Fk]; [rewrite Z.abs_eq; lia|].
  assert (S : PP rate x = bsub (bofZ 1) (t_incgamma F (bofZ (x + 1)) rate)).
  { unfold ppois, pois_sanity. rewrite (nan_nn F rate) by now apply nn_fin. change (ltb rate (ofZ 0)) with (Bltb rate (bofZ 0)). rewrite lt0_f by (auto; lra). cbn [negb andb].
    rewrite (proj2 (Z.ltb_ge x 0)) by lia. rewrite posinf_fin by auto. cbn [log_if]. unfold ppois_compute. rewrite (proj2 (Z.ltb_lt 15 x)) by lia. rewrite orb_true_r. reflexivity. }
  rewrite S. assert (Kp : (0 < B2R (bofZ (x + 1)))%R) by (rewrite Ax; apply (IZR_lt 0); lia).
  pose proof (HF _ Fk Kp rate Fr Pr) as N. rewrite Ax in N. assert (X64 : (64 <= IZR x)%R) by (apply IZR_le; lia).
  rewrite plus_IZR in N. pose proof (PG_range (IZR x + 1) (B2R rate) ltac:(lra) ltac:(lra)) as PR. pose proof (PG_tiny (IZR x + 1) (B2R rate) ltac:(lra) ltac:(lra) ltac:(lra)) as PT.
  pose proof He as [_ Hb]. pose proof (e_pos e He) as (E1 & E2 & E3). pose proof tiny_pos. assert (T60 : (tiny <= bpow radix2 (-70))%R) by (apply bpow_le; lia).
  destruct (near_within _ _ _ _ N ltac:(lra)) as [Fv Dv]. set (g := PG (IZR x + 1) (B2R rate)) in *. rewrite (Rabs_pos_eq g) in Dv by lra. apply Rabs_le_inv in Dv.
  assert (EG : (e * g <= / 1000000 * g)%R) by (apply Rmult_le_compat_r; lra). assert (EG0 : (0 <= e * g)%R) by (apply Rmult_le_pos; lra).
  assert (V60 : (/ 2 ^ 61 = bpow radix2 (-61))%R) by (change (bpow radix2 (-61)) with (/ IZR (2 ^ 61))%R; f_equal; rewrite (pow_IZR 2 61); reflexivity). rewrite V60 in PT.
  assert (B70 : (bpow radix2 (-70) <= / 100 * bpow radix2 (-61))%R). { replace (-70) with (-61 + -9) by lia. rewrite bpow_plus. pose proof (bpow_gt_0 radix2 (-61)). assert (B9 : (bpow radix2 (-9) <= / 100)%R) by (cbn; lra). rewrite Rmult_comm. apply Rmult_le_compat_r; lra. }
  assert (B60 : (bpow radix2 (-60) = 2 * bpow radix2 (-61))%R) by (replace (-60) with (1 + -61) by lia; rewrite bpow_plus; reflexivity).
  set (v := t_incgamma F (bofZ (x + 1)) rate) in *. assert (R1 : rnd (1 - bpow radix2 (-60)) = 1%R) by (apply rnd_one; pose proof (bpow_gt_0 radix2 (-60)); lra).
  assert (RV : (1 <= rnd (1 - B2R v) <= 2)%R). { split; [rewrite <- R1; apply rnd_le; lra|]. rewrite <- (rnd_Z 2) by sm. apply rnd_le. assert ((bpow radix2 (-61) <= / 2)%R) by (change (/ 2)%R with (bpow radix2 (-1)); apply bpow_le; lia). lra. }
  destruct (bsub_R (bofZ 1) v F1 Fv) as [E Ff]; [rewrite A1; pose proof maxR_1; rewrite Rabs_pos_eq; lra|]. rewrite A1 in E. rewrite E. now split.
Qed.
Lemma not_le p rate x : incgamma_acc F e -> 64 <= x < 2 ^ 53 -> bpos rate -> (16 * B2R rate <= IZR x)%R -> open01 p -> ~ (PP rate x ≤ p)%b64.
Proof.
  intros HF Hx Pr L O H. destruct (ppois_one x rate HF Hx Pr L) as [V Fv]. destruct (open_nn p O) as [_ P]. apply leb_ev in H. rewrite (ev_fin (ppois x rate false)) in H by exact Fv. cbv beta in V. lra.
Qed.
Lemma small_ends tr p rate : incgamma_acc F e -> open01 p -> big_eps rate -> (rate ≺ bofZ 11)%b64 -> exists fuel n, qpois_run (N:=NB) tr fuel p rate = Some (bofZ n) /\ first_above (PP rate) p 0 n /\ n <= 176.
Proof.
  intros HF O B L. destruct (big_eps_pos _ B) as (_ & Pr & _). pose proof Pr as [Fr Pr']. destruct (bofZ_R 11 ltac:(sm)) as [A11 F11]. assert (R11 : (B2R rate < 11)%R).
  { apply ltb_ev in L; try now apply nn_fin. rewrite !ev_fin in L by auto. lra. }
  destruct (first_exists (PP rate) p 0 176 ltac:(lia)) as (n & A & C); [apply not_le; auto; [lia|lra]|].
  destruct (small_complete tr p rate n O B L A) as [fuel E]. now exists fuel, n.
Qed.
Lemma large_ends tr p rate s : incgamma_acc F e -> open01 p -> big_eps rate -> Bltb rate (bofZ 11) = false -> (B2R rate <= IZR (2 ^ 48))%R -> tr (qpois_normal_approx (N:=NB) p rate) = Some s -> 0 <= s < 2 ^ 53 ->
  exists fuel n, qpois_run (N:=NB) tr fuel p rate = Some (bofZ n) /\ 0 <= n < 2 ^ 53.
Proof.
  intros HF O B R L48 T S. destruct (big_eps_pos _ B) as (_ & Pr & _). pose proof Pr as [Fr Pr'].
  destruct (Bleb (PP rate s) p) eqn:E.
  - set (m := up (16 * B2R rate)). destruct (archimed (16 * B2R rate)) as [U1 U2]. fold m in U1, U2.
    assert (M : m <= 2 ^ 52 + 1) by (apply le_IZR; change (IZR (2 ^ 52 + 1)) with (IZR (16 * 2 ^ 48 + 1)); rewrite plus_IZR, mult_IZR; lra).
    destruct (first_exists (PP rate) p s (Z.max s (Z.max 64 m)) ltac:(lia)) as (n & A & C).
    { apply not_le; auto; [lia|]. apply Rle_trans with (IZR m); [lra|apply IZR_le; lia]. }
    destruct (large_complete tr p rate s n O B R T (proj1 S) E A) as [fuel Q]. exists fuel, n. split; auto. destruct A as [A _]. lia.
  - exists 1%nat, (Z.max 0 (s - 1)). split; [|lia]. rewrite tests, R, T by auto. unfold qpois_search_begin. rewrite search_S. cbv beta in E. rewrite E.
    destruct (0 <? s) eqn:Z0; [apply Z.ltb_lt in Z0; now rewrite Z.max_r by lia|apply Z.ltb_ge in Z0; now rewrite Z.max_l by lia].
Qed.
(** ** the answer is the quantile up to the error of the distribution function *)
Lemma above_cdf p rate n : powZ_acc F e -> fact_acc F e -> exp_acc F e -> incgamma_acc F e -> open01 p -> bpos rate -> 0 <= n < 2 ^ 53 -> ~ (PP rate n ≤ p)%b64 -> (B2R p - 24 * e <= pois_cdfZ (B2R rate) n)%R.
Proof.
  intros H1 H2 H3 H4 O Pr Hn N. destruct (ppois_all_acc F e n rate He H1 H2 H3 H4 Hn Pr) as [Fv D]. fold (pois_cdfZ (B2R rate) n) in D. destruct (open_nn p O) as [Np P].
  apply not_true_is_false in N. apply leb_ev_f in N; auto; [|now apply nn_fin]. rewrite (ev_fin (ppois n rate false)) in N by exact Fv.
  rewrite ev_fin in N by (apply ev_lt_fin; auto; pose proof maxR_1; lra). apply Rabs_le_inv in D. lra.
Qed.
Lemma below_cdf p rate n : powZ_acc F e -> fact_acc F e -> exp_acc F e -> incgamma_acc F e -> open01 p -> bpos rate -> 0 <= n < 2 ^ 53 -> (PP rate n ≤ p)%b64 -> (pois_cdfZ (B2R rate) n <= B2R p + 24 * e)%R.
Proof.
  intros H1 H2 H3 H4 O Pr Hn N. destruct (ppois_all_acc F e n rate He H1 H2 H3 H4 Hn Pr) as [Fv D]. fold (pois_cdfZ (B2R rate) n) in D. destruct (open_nn p O) as [Np P].
  apply leb_ev in N. destruct N as (_ & _ & N). rewrite (ev_fin (ppois n rate false)) in N by exact Fv.
  rewrite ev_fin in N by (apply ev_lt_fin; auto; pose proof maxR_1; lra). apply Rabs_le_inv in D. lra.
Qed.
Lemma first_uniq (G : Z -> b64) p s n m : first_above G p s n -> first_above G p s m -> n = m.
Proof.
  intros (A & B & C) (A' & B' & C'). destruct (Z.lt_trichotomy n m) as [L|[L|L]]; auto; exfalso; [apply B, C'; lia|apply B', C; lia].
Qed.
Lemma small_accurate tr fuel p rate w : powZ_acc F e -> fact_acc F e -> exp_acc F e -> incgamma_acc F e -> open01 p -> big_eps rate -> (rate ≺ bofZ 11)%b64 -> qpois_run (N:=NB) tr fuel p rate = Some w ->
  exists n, w = bofZ n /\ 0 <= n <= 176 /\ quantile_upto (24 * e) (B2R rate) (B2R p) n.
Proof.
  intros H1 H2 H3 H4 O B L H. destruct (big_eps_pos _ B) as (_ & Pr & _). apply small_spec in H; auto. destruct H as (n & -> & A). destruct (small_ends tr p rate H4 O B L) as (f' & m & _ & A' & M).
  pose proof (first_uniq _ _ _ _ _ A A') as <-. pose proof A as (A0 & A1 & A2). exists n. split; auto. split; [lia|]. split.
  - apply above_cdf; auto. lia.
  - intros Hn. apply below_cdf; auto; [lia|]. apply A2. lia.
Qed.
Lemma large_accurate tr fuel p rate s w : powZ_acc F e -> fact_acc F e -> exp_acc F e -> incgamma_acc F e -> open01 p -> big_eps rate -> Bltb rate (bofZ 11) = false -> (B2R rate <= IZR (2 ^ 48))%R ->
  tr (qpois_normal_approx (N:=NB) p rate) = Some s -> 0 <= s < 2 ^ 53 -> qpois_run (N:=NB) tr fuel p rate = Some w ->
  (w = bofZ (Z.max 0 (s - 1)) /\ (B2R p - 24 * e <= pois_cdfZ (B2R rate) s)%R) \/ exists n, w = bofZ n /\ s < n < 2 ^ 53 /\ quantile_upto (24 * e) (B2R rate) (B2R p) n.
Proof.
  intros H1 H2 H3 H4 O B R L48 T S H. destruct (big_eps_pos _ B) as (_ & Pr & _). pose proof Pr as [Fr Pr']. eapply large_spec in H; eauto; [|lia]. destruct H as [[N ->]|[N (n & -> & A)]].
  - left. split; auto. apply above_cdf; auto.
  - right. exists n. split; auto. pose proof A as (A0 & A1 & A2).
    set (m := up (16 * B2R rate)). destruct (archimed (16 * B2R rate)) as [U1 U2]. fold m in U1, U2.
    assert (M : m <= 2 ^ 52 + 1) by (apply le_IZR; change (IZR (2 ^ 52 + 1)) with (IZR (16 * 2 ^ 48 + 1)); rewrite plus_IZR, mult_IZR; lra).
    destruct (first_exists (PP rate) p s (Z.max s (Z.max 64 m)) ltac:(lia)) as (n' & A' & C).
    { apply not_le; auto; [lia|]. apply Rle_trans with (IZR m); [lra|apply IZR_le; lia]. }
    pose proof (first_uniq _ _ _ _ _ A A') as <-. assert (SN : s < n). { destruct (Z.eq_dec n s) as [->|]; [|lia]. now exfalso. }
    split; [lia|]. split; [apply above_cdf; auto; lia|]. intros Hn. apply below_cdf; auto; [lia|]. apply A2. lia.
Qed.
(** ** the conversion to an integer *)
Lemma approx_nonneg p rate : nn (qpois_normal_approx (N:=NB) p rate) -> (0 <= ev (qpois_normal_approx (N:=NB) p rate))%R.
Proof.
  destruct (bofZ_R 0 ltac:(sm)) as [A0 F0]. unfold qpois_normal_approx, tmax. change (ofZ 0) with (bofZ 0). set (y := sub _ _). change (ltb (bofZ 0) y) with (Bltb (bofZ 0) y). destruct (Bltb (bofZ 0) y) eqn:E; intros N.
  - apply ltb_ev in E; auto; [|now apply nn_fin]. rewrite (ev_fin (bofZ 0)) in E by auto. lra.
  - rewrite ev_fin by auto. lra.
Qed.
Lemma start_mono tr p q rate s t : rounds_to_zero tr -> erf_inv_ok F -> b64_fin rate -> b64_pos (Bsqrt mode_NE rate) -> b64_pos (bmul (t_SQRT_2 F) (Bsqrt mode_NE rate)) -> open01 p -> open01 q -> (p ≤ q)%b64 ->
  tr (qpois_normal_approx (N:=NB) p rate) = Some s -> tr (qpois_normal_approx (N:=NB) q rate) = Some t -> 0 <= s <= t.
Proof.
  intros HT EI Fr Ps Pm O O' L T T'. pose proof (approx_mono p q rate EI Fr Ps Pm O O' L) as A. apply leb_ev in A. destruct A as (N1 & N2 & A). apply HT in T, T'. destruct T as [F1 ->], T' as [F2 ->].
  pose proof (approx_nonneg p rate N1) as Z0. rewrite !ev_fin in * by auto. split; [|now apply Ztrunc_le].
  rewrite <- (Ztrunc_IZR 0). now apply Ztrunc_le.
Qed.
End Pois.

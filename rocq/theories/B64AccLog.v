(** Sums and products of terms known up to an error proportional to a bound on their size. *)
From Coq Require Import ZArith QArith Reals Lra Lia.
From Verif Require Import GammaFn.
From Verif Require Import Num Prob Dens B64 SpecB64 SpecAcc SpecAccD B64R B64Ord B64Cdf B64Acc B64AccCdf.
From Flocq Require Import Core IEEE754.BinarySingleNaN.
Local Open Scope R_scope.
Notation exp := Rtrigo_def.exp.
Lemma abs_prod a b A B : Rabs a <= A -> Rabs b <= B -> Rabs (a * b) <= A * B.
Proof. intros. rewrite Rabs_mult. apply Rmult_le_compat; auto; apply Rabs_pos. Qed.
Section L.
Variable F : TF.
Notation NB := (B64_Num F).
Variable e : R.
Hypothesis He : unit_ok e.
Definition acc (k S : R) (y : b64) (r : R) : Prop :=
  finite y /\ Rabs (B2R y - r) <= k * (e * S) /\ Rabs r <= S /\ 1 <= S <= huge.
Lemma e_r : 0 < ulp1 /\ ulp1 <= e /\ 0 <= e <= / 1000000 /\ tiny <= e / 1000000.
Proof. destruct He as [A B]. pose proof ulp1_val. pose proof tiny_small. lra. Qed.
Lemma eS_pos S : 1 <= S -> e <= e * S /\ 0 <= e * S.
Proof. intros. destruct e_r as (A & B & C & D). split; nra. Qed.
Lemma acc_le k S k' S' y r : acc k S y r -> 0 <= k <= k' -> S <= S' <= huge -> acc k' S' y r.
Proof.
  intros (A & B & C & D) K L. split; [auto|]. split; [|split; lra]. destruct (eS_pos S) as [P Q]; [lra|]. destruct e_r as (U & V & W & _).
  assert (e * S <= e * S') by (apply Rmult_le_compat_l; lra). apply Rle_trans with (k' * (e * S)); [|apply Rmult_le_compat_l; lra].
  eapply Rle_trans; [exact B|]. apply Rmult_le_compat_r; lra.
Qed.
Lemma acc_size k S y r : acc k S y r -> 0 <= k <= 100 -> Rabs (B2R y) <= 101 / 100 * S.
Proof.
  intros (A & B & C & D) K. replace (B2R y) with (r + (B2R y - r)) by ring. eapply Rle_trans; [apply Rabs_triang|]. destruct e_r as (U & V & W & _).
  assert (k * (e * S) <= 100 * (/ 1000000 * S)); [|lra]. apply Rmult_le_compat; try nra. 
Qed.
Lemma acc_rel k S x y a b t : Rabs a <= 101 / 100 * S -> 1 <= S -> Rabs (a - b) <= k * (e * S) -> Rabs t <= ulp1 -> x = a * exp t -> y = b -> Rabs (x - y) <= (k + 2) * (e * S).
Proof.
  intros A P B T -> ->. replace (a * exp t - b) with (a * (exp t - 1) + (a - b)) by ring. eapply Rle_trans; [apply Rabs_triang|].
  destruct e_r as (U & V & W & _). pose proof ulp1_val. pose proof (exp_abs' t ulp1 T ltac:(lra)) as X.
  pose proof (abs_prod _ _ _ _ A X). destruct (eS_pos S P). assert (101 / 100 * S * (101 / 100 * ulp1) <= 2 * (e * S)) by nra. lra.
Qed.
Lemma acc_add k S1 S2 x y a b : acc k S1 x a -> acc k S2 y b -> 0 <= k <= 98 -> S1 + S2 <= huge -> acc (k + 2) (S1 + S2) (badd x y) (a + b).
Proof.
  intros X Y K H. pose proof (acc_size _ _ _ _ X ltac:(lra)) as PX. pose proof (acc_size _ _ _ _ Y ltac:(lra)) as PY.
  destruct X as (Fx & EX & BX & SX), Y as (Fy & EY & BY & SY). pose proof (abs_sum _ _ _ _ PX PY) as PS. pose proof huge_pos.
  destruct (near_add x y Fx Fy ltac:(lra)) as (Fz & t & s & T & Hs & E). apply abs_le0 in Hs. subst s. split; [auto|]. split; [|split; [now apply abs_sum|lra]].
  eapply (acc_rel k (S1 + S2) _ _ (B2R x + B2R y) (a + b) t); try lra; auto.
  replace (B2R x + B2R y - (a + b)) with ((B2R x - a) + (B2R y - b)) by ring. eapply Rle_trans; [now apply abs_sum; [exact EX|exact EY]|]. lra.
Qed.
Lemma acc_opp k S x a : acc k S x a -> acc k S (Bopp x) (- a).
Proof.
  intros (A & B & C & D). split; [unfold finite; now rewrite is_finite_Bopp|]. rewrite B2R_Bopp, Rabs_Ropp. split; [|auto].
  replace (- B2R x - - a) with (- (B2R x - a)) by ring. now rewrite Rabs_Ropp.
Qed.
Lemma acc_sub k S1 S2 x y a b : acc k S1 x a -> acc k S2 y b -> 0 <= k <= 98 -> S1 + S2 <= huge -> acc (k + 2) (S1 + S2) (bsub x y) (a - b).
Proof.
  intros X Y K H. pose proof (acc_size _ _ _ _ X ltac:(lra)) as PX. pose proof (acc_size _ _ _ _ Y ltac:(lra)) as PY.
  destruct X as (Fx & EX & BX & SX), Y as (Fy & EY & BY & SY). pose proof (abs_dif _ _ _ _ PX PY) as PS. pose proof huge_pos.
  destruct (near_sub x y Fx Fy ltac:(lra)) as (Fz & t & s & T & Hs & E). apply abs_le0 in Hs. subst s. split; [auto|]. split; [|split; [now apply abs_dif|lra]].
  eapply (acc_rel k (S1 + S2) _ _ (B2R x - B2R y) (a - b) t); try lra; auto.
  replace (B2R x - B2R y - (a - b)) with ((B2R x - a) - (B2R y - b)) by ring. eapply Rle_trans; [now apply abs_dif; [exact EX|exact EY]|]. lra.
Qed.
(** a number known with a relative error *)
Lemma acc_near k S y r : near (k * e) tiny y r -> 0 <= k <= 98 -> Rabs r <= S -> 1 <= S <= huge -> acc (k + 1) S y r.
Proof.
  intros N K R S1. destruct e_r as (U & V & W & T). split; [apply N|]. split; [|auto].
  destruct (near_within _ _ _ _ N) as [_ Q]; [nra|]. eapply Rle_trans; [exact Q|]. destruct (eS_pos S) as [P P']; [lra|].
  assert (k * e * Rabs r <= k * (e * S)) by (rewrite Rmult_assoc; apply Rmult_le_compat_l; [lra|apply Rmult_le_compat_l; lra]). assert (k * (e * S) <= 98 * (e * S)) by (apply Rmult_le_compat_r; lra). lra.
Qed.
(** a product with a number known with a relative error *)
Lemma acc_mul k kc S S' c x c0 a : near (kc * e) 0 c c0 -> acc k S x a -> 0 <= k <= 40 -> 0 <= kc <= 20 -> Rabs c0 * S <= S' -> 1 <= S' <= huge ->
  acc (k + 2 * kc + 2) S' (bmul c x) (c0 * a).
Proof.
  intros (Fc & u & s & U & Hs & Ec) X K Kc HS L. apply abs_le0 in Hs. subst s. rewrite Rplus_0_r in Ec. pose proof (acc_size _ _ _ _ X ltac:(lra)) as PX. destruct X as (Fx & EX & BX & SX).
  destruct e_r as (U1 & V & W & T). pose proof huge_pos. assert (Ku : kc * e <= / 200) by nra.
  pose proof (exp_abs' u _ U Ku) as Q. pose proof (Rabs_pos c0) as P0. pose proof (Rabs_pos (exp u - 1)).
  assert (Xu : Rabs (exp u) <= 101 / 100). { replace (exp u) with (1 + (exp u - 1)) by ring. eapply Rle_trans; [apply Rabs_triang|]. rewrite Rabs_R1. nra. }
  assert (PC : Rabs (B2R c) <= Rabs c0 * (101 / 100)) by (rewrite Ec; apply abs_prod; [apply Rle_refl|exact Xu]).
  assert (PP : Rabs (B2R c * B2R x) <= 103 / 100 * S'). { eapply Rle_trans; [apply (abs_prod _ _ _ _ PC PX)|]. nra. }
  destruct (near_mul0 c x Fc Fx ltac:(lra)) as (Fz & t & s & T1 & S1 & E). split; [auto|]. split.
  2:{ split; [|auto]. rewrite Rabs_mult. eapply Rle_trans; [|exact HS]. now apply Rmult_le_compat_l. }
  destruct (eS_pos S') as [Q1 Q2]; [lra|]. pose proof ulp1_val. pose proof (exp_abs' t ulp1 T1 ltac:(lra)) as Qt.
  replace (B2R (bmul c x) - c0 * a) with (B2R c * B2R x * (exp t - 1) + s + (c0 * (exp u) * (B2R x - a) + c0 * (exp u - 1) * a)) by (rewrite E, Ec; ring).
  assert (A1 : Rabs (B2R c * B2R x * (exp t - 1)) <= 11 / 10 * (e * S')). { eapply Rle_trans; [apply (abs_prod _ _ _ _ PP Qt)|]. nra. }
  assert (A2 : Rabs (c0 * exp u * (B2R x - a)) <= 101 / 100 * (k * (e * S'))).
  { rewrite Rmult_assoc, (Rabs_mult c0). pose proof (abs_prod _ _ _ _ Xu EX) as Z. apply Rle_trans with (Rabs c0 * (101 / 100 * (k * (e * S)))); [apply Rmult_le_compat_l; lra|].
    replace (Rabs c0 * (101 / 100 * (k * (e * S)))) with (101 / 100 * (k * (e * (Rabs c0 * S)))) by ring. repeat (apply Rmult_le_compat_l; [lra|]). auto. }
  assert (A3 : Rabs (c0 * (exp u - 1) * a) <= 101 / 100 * kc * (e * S')).
  { rewrite Rmult_assoc, (Rabs_mult c0). pose proof (abs_prod _ _ _ _ Q BX) as Z. apply Rle_trans with (Rabs c0 * (101 / 100 * (kc * e) * S)); [apply Rmult_le_compat_l; lra|].
    replace (Rabs c0 * (101 / 100 * (kc * e) * S)) with (101 / 100 * kc * (e * (Rabs c0 * S))) by ring. apply Rmult_le_compat_l; [lra|]. apply Rmult_le_compat_l; lra. }
  pose proof (abs_sum _ _ _ _ (abs_sum _ _ _ _ A1 S1) (abs_sum _ _ _ _ A2 A3)) as Z. eapply Rle_trans; [exact Z|].
  assert (k * (e * S') <= 40 * (e * S')) by (apply Rmult_le_compat_r; lra). assert (0 <= kc * (e * S')) by (apply Rmult_le_pos; lra). lra.
Qed.
Lemma acc_mul_r k kc S S' c x c0 a : near (kc * e) 0 c c0 -> acc k S x a -> 0 <= k <= 40 -> 0 <= kc <= 20 -> Rabs c0 * S <= S' -> 1 <= S' <= huge ->
  acc (k + 2 * kc + 2) S' (bmul x c) (a * c0).
Proof.
  intros (Fc & u & s & U & Hs & Ec) X K Kc HS L. assert (A := acc_mul k kc S S' c x c0 a (conj Fc (ex_intro _ u (ex_intro _ s (conj U (conj Hs Ec))))) X K Kc HS L).
  destruct A as (A1 & A2 & A3 & A4). destruct X as (Fx & EX & BX & SX).
  assert (R : B2R (bmul x c) = B2R (bmul c x) /\ finite (bmul x c)).
  { assert (PX := acc_size k S x a (conj Fx (conj EX (conj BX SX))) ltac:(lra)). apply abs_le0 in Hs. subst s. rewrite Rplus_0_r in Ec. destruct e_r as (U1 & V & W & T).
    assert (Ku : kc * e <= / 200) by nra. pose proof (exp_abs' u _ U Ku) as Q. pose proof (Rabs_pos c0) as P0. pose proof huge_pos.
    assert (Xu : Rabs (exp u) <= 101 / 100). { replace (exp u) with (1 + (exp u - 1)) by ring. eapply Rle_trans; [apply Rabs_triang|]. rewrite Rabs_R1. nra. }
    assert (PC : Rabs (B2R c) <= Rabs c0 * (101 / 100)) by (rewrite Ec; apply abs_prod; [apply Rle_refl|exact Xu]).
    assert (PP : Rabs (B2R c * B2R x) <= 103 / 100 * S'). { eapply Rle_trans; [apply (abs_prod _ _ _ _ PC PX)|]. nra. }
    assert (LT := rnd_bound (B2R c * B2R x) ltac:(lra)). destruct (bmul_R c x Fc Fx LT) as [E1 _]. rewrite (Rmult_comm (B2R c)) in LT, E1. destruct (bmul_R x c Fx Fc LT) as [E2 G2]. split; [congruence|exact G2]. }
  destruct R as [R1 R2]. split; [auto|]. rewrite R1, (Rmult_comm a). auto.
Qed.
(** the logarithm of a number known with a relative error *)
Lemma acc_log kc S x a : log_acc F e -> near (kc * e) 0 x a -> 0 <= kc <= 40 -> 0 < a -> 1 <= S <= huge / 2 -> Rabs (ln a) <= S -> acc (kc + 3) S (t_log F x) (ln a).
Proof.
  intros L (Fx & u & s & U & Hs & E) K P HS HL. apply abs_le0 in Hs. subst s. rewrite Rplus_0_r in E. destruct e_r as (U1 & V & W & T).
  assert (Px : 0 < B2R x) by (rewrite E; apply Rmult_lt_0_compat; auto; apply exp_pos).
  assert (EL : ln (B2R x) = ln a + u) by (rewrite E, ln_mult by (auto; apply exp_pos); now rewrite ln_exp).
  pose proof (L x Fx Px) as Q. cbv beta in Q. destruct (near_within _ _ _ _ Q ltac:(lra)) as [Fl W1]. split; [auto|]. destruct (eS_pos S) as [Q1 Q2]; [lra|]. split; [|split; [auto|lra]].
  replace (B2R (t_log F x) - ln a) with ((B2R (t_log F x) - ln (B2R x)) + u) by (rewrite EL; ring). eapply Rle_trans; [apply (abs_sum _ _ _ _ W1 U)|].
  assert (Rabs (ln (B2R x)) <= S + kc * e) by (rewrite EL; now apply abs_sum). assert (e * Rabs (ln (B2R x)) <= e * (S + kc * e)) by (apply Rmult_le_compat_l; lra).
  assert (kc * e <= / 1000) by nra. assert (kc * e <= kc * (e * S)) by (apply Rmult_le_compat_l; lra). nra.
Qed.
(** a quotient by a number known with a relative error *)
Lemma acc_div k kc S S' c x c0 a : near (kc * e) 0 c c0 -> c0 <> 0 -> acc k S x a -> 0 <= k <= 40 -> 0 <= kc <= 20 -> S / Rabs c0 <= S' -> 1 <= S' <= huge ->
  acc (k + 2 * kc + 2) S' (bdiv x c) (a / c0).
Proof.
  intros (Fc & u & s & U & Hs & Ec) C0 X K Kc HS L. apply abs_le0 in Hs. subst s. rewrite Rplus_0_r in Ec. pose proof (acc_size _ _ _ _ X ltac:(lra)) as PX. destruct X as (Fx & EX & BX & SX).
  destruct e_r as (U1 & V & W & T). pose proof huge_pos. assert (Ku : kc * e <= / 200) by nra. rewrite <- Rabs_Ropp in U.
  pose proof (exp_abs' (- u) _ U Ku) as Q. assert (P0 : 0 < / Rabs c0) by (apply Rinv_0_lt_compat, Rabs_pos_lt; auto). pose proof (Rabs_pos (exp (- u) - 1)).
  assert (Xu : Rabs (exp (- u)) <= 101 / 100). { replace (exp (- u)) with (1 + (exp (- u) - 1)) by ring. eapply Rle_trans; [apply Rabs_triang|]. rewrite Rabs_R1. nra. }
  assert (Cn : B2R c <> 0) by (rewrite Ec; pose proof (exp_pos u); apply Rmult_integral_contrapositive; split; auto; lra).
  assert (Q0 : B2R x / B2R c = B2R x * exp (- u) * / c0) by (rewrite Ec, exp_Ropp; field; split; auto; pose proof (exp_pos u); lra).
  unfold Rdiv in HS.
  assert (PP : Rabs (B2R x / B2R c) <= 103 / 100 * S').
  { rewrite Q0, Rabs_mult, Rabs_inv. pose proof (abs_prod _ _ _ _ PX Xu) as Z. apply Rle_trans with (101 / 100 * S * (101 / 100) * / Rabs c0); [apply Rmult_le_compat_r; lra|]. nra. }
  destruct (near_div0 x c Fx Cn ltac:(lra)) as (Fz & t & s & T1 & S1 & E). split; [auto|]. split.
  2:{ split; [|auto]. unfold Rdiv. rewrite Rabs_mult, Rabs_inv. eapply Rle_trans; [|exact HS]. apply Rmult_le_compat_r; lra. }
  destruct (eS_pos S') as [Q1 Q2]; [lra|]. pose proof ulp1_val. pose proof (exp_abs' t ulp1 T1 ltac:(lra)) as Qt.
  replace (B2R (bdiv x c) - a / c0) with (B2R x / B2R c * (exp t - 1) + s + (/ c0 * (exp (- u) * (B2R x - a)) + / c0 * ((exp (- u) - 1) * a))) by (rewrite E, Q0; unfold Rdiv; ring).
  assert (A1 : Rabs (B2R x / B2R c * (exp t - 1)) <= 11 / 10 * (e * S')). { eapply Rle_trans; [apply (abs_prod _ _ _ _ PP Qt)|]. nra. }
  assert (A2 : Rabs (/ c0 * (exp (- u) * (B2R x - a))) <= 101 / 100 * (k * (e * S'))).
  { rewrite (Rabs_mult (/ c0)), Rabs_inv. pose proof (abs_prod _ _ _ _ Xu EX) as Z. apply Rle_trans with (/ Rabs c0 * (101 / 100 * (k * (e * S)))); [apply Rmult_le_compat_l; lra|].
    replace (/ Rabs c0 * (101 / 100 * (k * (e * S)))) with (101 / 100 * (k * (e * (S * / Rabs c0)))) by ring. repeat (apply Rmult_le_compat_l; [lra|]). auto. }
  assert (A3 : Rabs (/ c0 * ((exp (- u) - 1) * a)) <= 101 / 100 * kc * (e * S')).
  { rewrite (Rabs_mult (/ c0)), Rabs_inv. pose proof (abs_prod _ _ _ _ Q BX) as Z. apply Rle_trans with (/ Rabs c0 * (101 / 100 * (kc * e) * S)); [apply Rmult_le_compat_l; lra|].
    replace (/ Rabs c0 * (101 / 100 * (kc * e) * S)) with (101 / 100 * kc * (e * (S * / Rabs c0))) by ring. apply Rmult_le_compat_l; [lra|]. apply Rmult_le_compat_l; lra. }
  pose proof (abs_sum _ _ _ _ (abs_sum _ _ _ _ A1 S1) (abs_sum _ _ _ _ A2 A3)) as Z. eapply Rle_trans; [exact Z|].
  assert (k * (e * S') <= 40 * (e * S')) by (apply Rmult_le_compat_r; lra). assert (0 <= kc * (e * S')) by (apply Rmult_le_pos; lra). lra.
Qed.
(** a product of two numbers known up to a relative error and underflow *)
Lemma acc_nn k1 k2 S x y a b : near (k1 * e) tiny x a -> near (k2 * e) tiny y b -> 0 <= k1 <= 20 -> 0 <= k2 <= 20 -> Rabs a <= S -> Rabs b <= S -> Rabs (a * b) <= S -> 1 <= S <= huge ->
  acc (2 * k1 + 2 * k2 + 3) S (bmul x y) (a * b).
Proof.
  intros (Fx & t & s & T & Hs & Ex) (Fy & u & w & U & Hw & Ey) K1 K2 SA SB SP L. destruct e_r as (U1 & V & W & T0). pose proof tiny_pos as TP. pose proof tiny_huge as TH.
  assert (KT : Rabs (t + u) <= (k1 + k2) * e) by (rewrite Rmult_plus_distr_r; now apply abs_sum).
  assert (Ku : (k1 + k2) * e <= / 200) by nra. pose proof (exp_abs' _ _ KT Ku) as Q.
  assert (Kt1 : k1 * e <= / 2) by nra. assert (Kt2 : k2 * e <= / 2) by nra. pose proof (exp_2 t (k1 * e) T Kt1) as Xt. pose proof (exp_2 u (k2 * e) U Kt2) as Xu.
  set (P := B2R x * B2R y). assert (EP : P - a * b = a * b * (exp (t + u) - 1) + (a * exp t * w + (b * exp u * s + s * w))) by (unfold P; rewrite Ex, Ey, exp_plus; ring).
  destruct (eS_pos S) as [Q1 Q2]; [lra|].
  assert (TS : tiny * S <= e * S / 1000000) by (apply Rle_trans with (e / 1000000 * S); [apply Rmult_le_compat_r; lra|lra]).
  assert (A1 : Rabs (a * b * (exp (t + u) - 1)) <= 101 / 100 * (k1 + k2) * (e * S)). { eapply Rle_trans; [apply (abs_prod _ _ _ _ SP Q)|]. right. ring. }
  assert (A2 : Rabs (a * exp t * w) <= 2 * (tiny * S)). { eapply Rle_trans; [apply (abs_prod _ _ (S * 2) _ (abs_prod a (exp t) S 2 SA ltac:(rewrite Rabs_pos_eq; lra)) Hw)|]. right. ring. }
  assert (A3 : Rabs (b * exp u * s) <= 2 * (tiny * S)). { eapply Rle_trans; [apply (abs_prod _ _ (S * 2) _ (abs_prod b (exp u) S 2 SB ltac:(rewrite Rabs_pos_eq; lra)) Hs)|]. right. ring. }
  assert (A4 : Rabs (s * w) <= tiny * S). { eapply Rle_trans; [apply (abs_prod _ _ _ _ Hs Hw)|]. apply Rmult_le_compat_l; lra. }
  assert (D : Rabs (P - a * b) <= (102 / 100 * (k1 + k2) + / 1000) * (e * S)).
  { rewrite EP. pose proof (abs_sum _ _ _ _ A1 (abs_sum _ _ _ _ A2 (abs_sum _ _ _ _ A3 A4))) as Z. assert (0 <= (k1 + k2) * (e * S)) by (apply Rmult_le_pos; lra). lra. }
  assert (PB : Rabs P <= 101 / 100 * S).
  { replace P with (a * b + (P - a * b)) by ring. pose proof (abs_sum _ _ _ _ SP D) as Z. assert ((102 / 100 * (k1 + k2) + / 1000) * (e * S) <= 41 * (/ 1000000 * S)); [|lra]. apply Rmult_le_compat; try lra. apply Rmult_le_compat_r; lra. }
  destruct (near_mul0 x y Fx Fy ltac:(fold P; lra)) as (Fz & t3 & s3 & T3 & S3 & E). fold P in E. split; [auto|]. split; [|auto]. pose proof ulp1_val. pose proof (exp_abs' t3 ulp1 T3 ltac:(lra)) as Q3.
  replace (B2R (bmul x y) - a * b) with (P * (exp t3 - 1) + (s3 + (P - a * b))) by (rewrite E; ring).
  pose proof (abs_sum _ _ _ _ (abs_prod _ _ _ _ PB Q3) (abs_sum _ _ _ _ S3 D)) as Z. eapply Rle_trans; [exact Z|].
  assert (101 / 100 * S * (101 / 100 * ulp1) <= 11 / 10 * (e * S)) by nra. assert (0 <= (k1 + k2) * (e * S)) by (apply Rmult_le_pos; lra). lra.
Qed.
(** a sum without cancellation is known with a relative error *)
Lemma near_of_acc k c S y r : acc k S y r -> 0 <= k <= 100 -> 1 <= c <= 4 -> 0 < r -> S <= c * r -> near (2 * c * k * e) 0 y r.
Proof.
  intros (Fy & EY & BY & SY) K C R H. split; [auto|]. destruct e_r as (U1 & V & W & T0).
  assert (D : Rabs ((B2R y - r) / r) <= c * k * e).
  { unfold Rdiv. rewrite Rabs_mult, Rabs_inv, (Rabs_pos_eq r) by lra. apply (Rmult_le_reg_r r); [lra|]. rewrite Rmult_assoc, Rinv_l, Rmult_1_r by lra.
    eapply Rle_trans; [exact EY|]. apply Rle_trans with (k * (e * (c * r))); [|right; ring]. apply Rmult_le_compat_l; [lra|]. apply Rmult_le_compat_l; lra. }
  assert (CK : c * k <= 400) by nra. assert (CE : c * k * e <= / 2). { apply Rle_trans with (400 * / 1000000); [|lra]. apply Rmult_le_compat; nra. }
  exists (ln (1 + (B2R y - r) / r)), 0. split; [|split].
  - eapply Rle_trans; [apply ln_abs; lra|]. lra.
  - rewrite Rabs_R0. lra.
  - apply Rabs_le_inv in D. rewrite exp_ln by lra. field. lra.
Qed.
(** the logarithm of a number whose logarithm is known *)
Lemma acc_log' k S x r : log_acc F e -> finite x -> 0 < B2R x -> Rabs (ln (B2R x) - r) <= k * (e * S) -> Rabs r <= S -> 1 <= S <= huge -> 0 <= k <= 90 -> acc (k + 2) S (t_log F x) r.
Proof.
  intros L Fx Px D HR HS K. destruct e_r as (U1 & V & W & T).
  pose proof (L x Fx Px) as Q. cbv beta in Q. destruct (near_within _ _ _ _ Q ltac:(lra)) as [Fl W1]. split; [auto|]. destruct (eS_pos S) as [Q1 Q2]; [lra|]. split; [|split; [auto|lra]].
  replace (B2R (t_log F x) - r) with ((B2R (t_log F x) - ln (B2R x)) + (ln (B2R x) - r)) by ring. eapply Rle_trans; [apply (abs_sum _ _ _ _ W1 D)|].
  assert (B : Rabs (ln (B2R x)) <= S + k * (e * S)) by (replace (ln (B2R x)) with (r + (ln (B2R x) - r)) by ring; now apply abs_sum).
  assert (k * (e * S) <= 90 * (/ 1000000 * S)) by (apply Rmult_le_compat; try lra; apply Rmult_le_compat_r; lra).
  assert (e * Rabs (ln (B2R x)) <= e * (101 / 100 * S)) by (apply Rmult_le_compat_l; lra). lra.
Qed.
(** the two forms of a density computed through its logarithm *)
Lemma acc_dens k S v r (d : bool -> b64) : exp_up_acc F e -> acc k S v (ln r) -> 0 <= k <= 100 -> 0 < r -> d true = v -> d false = t_exp F v -> density_acc e k S d r.
Proof.
  intros X (Fv & EV & BV & SV) K P D1 D2. split.
  - rewrite D1. split; auto. eapply Rle_trans; [exact EV|]. right. ring.
  - intros H1 H2. rewrite D2. assert (EV' : Rabs (B2R v - ln r) <= k * e * S) by (rewrite Rmult_assoc; exact EV).
    pose proof (Rle_abs (B2R v - ln r)). destruct (X v Fv ltac:(lra)) as (Fy & t & s & T & Hs & E). split; auto. exists (B2R v - ln r + t), s. split; [now apply abs_sum|]. split; auto.
    rewrite E. f_equal. replace r with (exp (ln r)) at 1 by now apply exp_ln. rewrite <- !exp_plus. f_equal. ring.
Qed.
End L.

(** Overflow and conversion over the extended reals and binary64: the conversions to llint_t, and
    arguments at which the checked functions of [Ints.v] are undefined. *)
From Coq Require Import ZArith Bool List Lia Reals Lra.
From Verif Require Import Num Sanity Prob Dens Quant Vec Ints IntsProof ER ERTac Spec SpecER Support Discrete
  DiscreteQ Erf Norm B64 B64R.
From Flocq Require Import Core IEEE754.BinarySingleNaN.
Import ListNotations.
Local Open Scope R_scope.

(** static_cast<llint_t>: truncation towards zero; undefined when the result does not fit *)
Definition fits_ll (z : Z) : option Z := if in64 z then Some z else None.
Definition er_to_ll (x : ER) : option Z := match x with Fin r => fits_ll (Ztrunc r) | _ => None end.
Definition b64_to_ll (x : b64) : option Z := if is_finite x then fits_ll (Btrunc x) else None.
Lemma fits_ll_some z : ll z -> fits_ll z = Some z.
Proof. intros H. pose proof (chk_ok z H) as C. unfold chk in C. unfold fits_ll. now destruct (in64 z). Qed.
Lemma fits_ll_none z : ~ ll z -> fits_ll z = None.
Proof. intros H. pose proof (chk_bad z H) as C. unfold chk in C. unfold fits_ll. now destruct (in64 z). Qed.
Lemma fits_ll_inv z w : fits_ll z = Some w -> w = z /\ ll z.
Proof.
  unfold fits_ll. destruct (in64 z) eqn:E; [|discriminate]. intros H; injection H as <-. split; [auto|].
  unfold in64, LMIN, LMAX in E. unfold ll. apply andb_true_iff in E. destruct E as [E1 E2]. lia.
Qed.
Definition p63 : R := IZR (2 ^ 63).
Lemma ll_trunc r : ll (Ztrunc r) <-> - p63 - 1 < r < p63.
Proof.
  unfold ll, p63. set (M := (2 ^ 63)%Z). assert (HM : (0 < M)%Z) by reflexivity.
  destruct (Rle_lt_dec 0 r) as [H|H].
  - rewrite Ztrunc_floor by auto. pose proof (Zfloor_lb r) as A. pose proof (Zfloor_ub r) as B.
    assert (Z0 : (0 <= Zfloor r)%Z) by (apply Zfloor_lub; auto). assert (0 < IZR M) by (now apply IZR_lt). split.
    + intros [_ H2]. split; [lra|]. apply Rlt_le_trans with (1 := B). rewrite <- plus_IZR. apply IZR_le. lia.
    + intros [_ H2]. split; [lia|]. assert (Zfloor r < M)%Z; [|lia]. apply lt_IZR. lra.
  - rewrite Ztrunc_ceil by lra. pose proof (Zceil_ub r) as A.
    assert (B : IZR (Zceil r) < r + 1).
    { destruct (Z.eq_dec (Zfloor r) (Zceil r)) as [E|E]; [|].
      - pose proof (Zfloor_lb r). rewrite <- E. lra.
      - rewrite Zceil_floor_neq. + rewrite plus_IZR. pose proof (Zfloor_lb r).
          assert (IZR (Zfloor r) <> r). { intros Q. apply E. rewrite <- Q. now rewrite Zfloor_IZR, Zceil_IZR. } lra.
        + intros Q. apply E. rewrite <- Q. now rewrite Zfloor_IZR, Zceil_IZR. }
    assert (Z0 : (Zceil r <= 0)%Z) by (apply Zceil_glb; lra). assert (0 < IZR M) by (now apply IZR_lt). split.
    + intros [H1 _]. split; [|lra]. apply IZR_le in H1. rewrite opp_IZR in H1. lra.
    + intros [H1 _]. split; [|lia]. assert (- M - 1 < Zceil r)%Z; [|lia]. apply lt_IZR. rewrite minus_IZR, opp_IZR. lra.
Qed.
Lemma er_to_ll_none (x : ER) : er_to_ll x = None <->
  match x with Fin r => ~ (- p63 - 1 < r < p63) | _ => True end.
Proof.
  destruct x as [| | |r]; try (now split). cbn [er_to_ll]. rewrite <- ll_trunc. split.
  - intros H Q. rewrite fits_ll_some in H by auto. discriminate.
  - apply fits_ll_none.
Qed.
Lemma b64_to_ll_none (x : b64) : b64_to_ll x = None <->
  (is_finite x = true -> ~ (- p63 - 1 < B2R x < p63)).
Proof.
  unfold b64_to_ll. destruct (is_finite x); [|split; [intros _ H; discriminate|auto]].
  rewrite btrunc_R, <- ll_trunc. split.
  - intros H _ Q. rewrite fits_ll_some in H by auto. discriminate.
  - intros H. apply fits_ll_none. auto.
Qed.
Lemma er_to_ll_ok : trunc_ok er_to_ll.
Proof.
  intros r Hr. cbn [er_to_ll]. replace (2 ^ 63) with p63 in Hr by (unfold p63; simpl; lra).
  rewrite fits_ll_some by (apply ll_trunc; unfold p63 in *; lra). f_equal.
  rewrite Ztrunc_floor by apply Hr. destruct (base_Int_part r) as [A B].
  apply Zfloor_imp. rewrite plus_IZR. lra.
Qed.

Section ERInts.
Variable S : SF.
Local Notation NS := (ER_Num S).

(** the largest argument *)
Lemma dpois_max_er r lf : 0 < r -> dpois_chk (N:=NS) (2 ^ 63 - 1) (Fin r) lf = UB.
Proof. intros H. apply dpois_chk_max. unfold dpois_formula. un_cls. er_arith. rdecide. auto. Qed.
Lemma ppois_max_er r lf : 0 <= r -> ppois_chk (N:=NS) (2 ^ 63 - 1) (Fin r) lf = UB.
Proof. intros H. apply ppois_chk_max. un_cls. er_arith. rdecide. auto. Qed.

(** qpois with a large rate: the starting point of the search does not fit *)
Lemma qpois_approx_val p r : erf_inv_spec S -> 0 < r -> 1 / 2 <= p < 1 ->
  exists m, r - 3 <= m /\ qpois_normal_approx (N:=NS) (Fin p) (Fin r) = Fin (Rmax 0 m).
Proof.
  intros HI Hr Hp. destruct (HI (2 * p - 1) ltac:(lra)) as (z & Ez & Hz). pose proof NormR.sqrt2_pos as H2.
  assert (Z0 : 0 <= z).
  { destruct (Rle_lt_dec 0 z) as [|Q]; [auto|]. exfalso. pose proof (erfR_slt z 0 Q) as L. rewrite erfR_0 in L. lra. }
  assert (R0 : 0 < R_sqrt.sqrt r) by now apply sqrt_lt_R0.
  exists (r + R_sqrt.sqrt 2 * R_sqrt.sqrt r * z - 3). split.
  { pose proof (Rmult_le_pos (R_sqrt.sqrt 2 * R_sqrt.sqrt r) z ltac:(apply Rmult_le_pos; lra) Z0). lra. }
  assert (Q : qnorm (N:=NS) (Fin p) (Fin r) (Fin (R_sqrt.sqrt r)) = Fin (r + R_sqrt.sqrt 2 * R_sqrt.sqrt r * z)).
  { unfold qnorm, qnorm_compute. un_cls. er_arith. rewrite Ez. er_arith. rdecide. reflexivity. }
  unfold qpois_normal_approx.
  replace (sqrt (Num:=NS) (Fin r)) with (Fin (R_sqrt.sqrt r)) by (symmetry; apply esqrt_F; lra).
  rewrite Q. unfold tmax. un_cls. er_arith. unfold Rmax.
  destruct (Rle_dec 0 (r + R_sqrt.sqrt 2 * R_sqrt.sqrt r * z - 3)) as [L|L].
  - destruct (Rltb 0 (r + R_sqrt.sqrt 2 * R_sqrt.sqrt r * z - 3)) eqn:B; [reflexivity|].
    apply Rltb_false in B. f_equal. lra.
  - rdecide. reflexivity.
Qed.
Lemma qpois_large_ub p r : erf_inv_spec S -> sf_eps S <= 11 -> p63 + 3 <= r -> 1 / 2 <= p < 1 -> forall fuel,
  qpois_run_chk (N:=NS) er_to_ll fuel (Fin p) (Fin r) = Some UB.
Proof.
  intros HI He Hr Hp fuel. assert (P : 11 < p63) by (apply IZR_lt; reflexivity).
  destruct (qpois_approx_val p r HI ltac:(lra) Hp) as (m & Hm & E).
  apply qpois_run_chk_conv; try (un_cls; er_arith; rdecide; reflexivity).
  rewrite E. apply er_to_ll_none. intros [_ Q]. pose proof (Rmax_r 0 m). lra.
Qed.
(** with an infinite rate the search counts until it overflows *)
Lemma qpois_inf_chk p v c : 0 < p -> v <= p -> ll c -> (0 <= c)%Z ->
  exists fuel, qpois_search_chk (N:=NS) fuel (Fin p) PInf (Fin v) c = Some UB.
Proof.
  intros Hp Hv Hc H0. unfold ll in Hc.
  assert (PZ : forall c, ppois_chk (N:=NS) c PInf false = Ok (Fin 0)).
  { intros k. unfold ppois_chk. un_cls. cbn [eltb]. now destruct (k <? 0)%Z. }
  remember (Z.to_nat (2 ^ 63 - 1 - c)) as d eqn:Ed.
  exists (Datatypes.S d). revert v c Hv Hc H0 Ed. induction d as [|d IH]; intros v c Hv Hc H0 Ed.
  - cbn [qpois_search_chk]. change (leb (Fin v) (Fin p)) with (Rleb v p). rewrite (proj2 (Rleb_true v p) Hv), PZ.
    cbn [rbind rlift]. rewrite chk_bad; [reflexivity|]. unfold ll. lia.
  - cbn [qpois_search_chk]. change (leb (Fin v) (Fin p)) with (Rleb v p). rewrite (proj2 (Rleb_true v p) Hv), PZ.
    cbn [rbind rlift]. rewrite chk_ok by (unfold ll; lia). apply IH; try lra; lia.
Qed.
Lemma qpois_inf_ub p : sf_eps S <= 11 -> 0 < p < 1 -> exists fuel,
  qpois_run_chk (N:=NS) er_to_ll fuel (Fin p) PInf = Some UB.
Proof.
  intros He Hp. destruct (qpois_inf_chk p 0 0 ltac:(lra) ltac:(lra) ltac:(unfold ll; lia) ltac:(lia)) as (fuel & F).
  exists fuel. unfold qpois_run_chk.
  assert (E : qpois_normal_approx (N:=NS) (Fin p) PInf = Fin 0).
  { unfold qpois_normal_approx, qnorm. un_cls. cbn [esqrt eltb eisnan]. er_arith. rdecide.
    reflexivity. }
  rewrite E. rewrite er_to_ll_ok by (simpl; lra).
  replace (Int_part 0) with 0%Z.
  2:{ destruct (base_Int_part 0) as [A B]. apply le_IZR in A. assert (-1 < Int_part 0)%Z by (apply lt_IZR; lra). lia. }
  replace (ppois_chk (N:=NS) 0 PInf false) with (@Ok ER (Fin 0)).
  2:{ unfold ppois_chk. un_cls. reflexivity. }
  cbn [rbind rlift]. rewrite F. un_cls. cbn [eltb]. er_arith. rdecide. reflexivity.
Qed.

(** qbinom with the largest number of trials *)
Lemma qbinom_max_step p fuel v c : 0 < p -> v < p -> (0 <= c <= 2 ^ 63 - 1)%Z ->
  fuel = Datatypes.S (Z.to_nat (2 ^ 63 - 1 - c)) ->
  qbinom_recur_chk (N:=NS) fuel (Fin p) (2 ^ 63 - 1) (Fin 1) (Fin v) c = Some UB.
Proof.
  intros Hp Hv Hc ->. remember (Z.to_nat (2 ^ 63 - 1 - c)) as d eqn:Ed.
  revert v c Hv Hc Ed. induction d as [|d IH]; intros v c Hv Hc Ed;
    cbn [qbinom_recur_chk]; change (ltb (Fin v) (Fin p)) with (Rltb v p); rewrite (proj2 (Rltb_true v p) Hv);
    rewrite pbinom_chk_ok by (unfold ll; lia); cbn [rbind rlift].
  - rewrite chk_bad; [reflexivity|]. unfold ll. lia.
  - rewrite chk_ok by (unfold ll; lia).
    assert (E : pbinom (N:=NS) c (2 ^ 63 - 1) (Fin 1) false = Fin 0).
    { rewrite <- (Z2Nat.id c), <- (Z2Nat.id (2 ^ 63 - 1)) by lia. rewrite pbinom_val by lra. unfold val. f_equal.
      apply sum_eq_R0. intros k Hk. unfold binom_pmf. destruct (Nat.leb_spec k (Z.to_nat (2 ^ 63 - 1))); [|reflexivity].
      replace (1 - 1) with 0 by lra. rewrite (pow_i (Z.to_nat (2 ^ 63 - 1) - k)) by lia. lra. }
    rewrite E. apply IH; try lra; lia.
Qed.
Lemma qbinom_max_ub p : 0 < p < 1 -> exists fuel,
  qbinom_run_chk (N:=NS) fuel (Fin p) (2 ^ 63 - 1) (Fin 1) = Some UB.
Proof.
  intros Hp. pose proof (qbinom_max_step p _ 0 0 ltac:(lra) ltac:(lra) ltac:(lia) eq_refl) as Q.
  set (fuel := Datatypes.S _) in Q. exists fuel. clearbody fuel. unfold qbinom_run_chk.
  change (ofZ (Num:=NS) 0) with (Fin 0). rewrite Q.
  un_cls. change (2 ^ 63 - 1 <? 0)%Z with false. er_arith. rdecide. reflexivity.
Qed.
End ERInts.

(** no double truncates to the largest llint_t: the doubles below 2^63 are even there *)
Lemma b64_to_ll_max (v : b64) z : b64_to_ll v = Some z -> (z <> 2 ^ 63 - 1)%Z.
Proof.
  unfold b64_to_ll. destruct (is_finite v) eqn:F; [|discriminate]. intros H. apply fits_ll_inv in H.
  destruct H as [-> H]. intros E. rewrite btrunc_R in E.
  assert (P : ~ B2R v < 0).
  { intros Q. rewrite Ztrunc_ceil in E by lra. assert (Zceil (B2R v) <= 0)%Z by (apply Zceil_glb; lra). lia. }
  rewrite Ztrunc_floor in E by lra. pose proof (Zfloor_lb (B2R v)) as A. pose proof (Zfloor_ub (B2R v)) as B.
  rewrite E in A, B. rewrite <- plus_IZR in B. change (2 ^ 63 - 1 + 1)%Z with (2 ^ 63)%Z in B.
  destruct v as [s|s| |s m e Hb]; try discriminate F; cbn [B2R] in *.
  { revert A. apply Rlt_not_le. now apply IZR_lt. }
  destruct s; cbn [cond_Zopp] in *.
  { apply P. change (Z.neg m) with (- Z.pos m)%Z. rewrite F2R_Zopp. apply Ropp_lt_gt_0_contravar.
    apply F2R_gt_0. reflexivity. }
  unfold F2R in A, B; cbn [Fnum Fexp] in A, B.
  assert (M : (Zpos m < 2 ^ 53)%Z).
  { pose proof Hb as Hb2. clear - Hb2. rename Hb2 into Hb. unfold SpecFloat.bounded in Hb. apply andb_true_iff in Hb. destruct Hb as [Hb _]. unfold SpecFloat.canonical_mantissa in Hb.
    apply Zeq_bool_eq in Hb. unfold SpecFloat.fexp in Hb.
    assert (D : (Z.pos (SpecFloat.digits2_pos m) <= 53)%Z) by (unfold SpecFloat.emin in Hb; lia).
    rewrite Digits.Zpos_digits2_pos in D. pose proof (Digits.Zdigits_correct radix2 (Zpos m)) as [_ Q].
    cbn [Z.abs] in Q. apply Z.lt_le_trans with (1 := Q). now apply (Zpower_le radix2 _ 53). }
  destruct (Z_le_gt_dec e 0) as [He|He].
  - assert (bpow radix2 e <= 1) by (apply (bpow_le radix2 e 0); auto).
    assert (IZR (Zpos m) < IZR (2 ^ 53)) by now apply IZR_lt.
    assert (IZR (Zpos m) * bpow radix2 e <= IZR (Zpos m) * 1) by (apply Rmult_le_compat_l; [left; apply (IZR_lt 0 (Zpos m)); reflexivity|assumption]).
    assert (IZR (2 ^ 53) < IZR (2 ^ 63 - 1)) by now apply IZR_lt. lra.
  - rewrite <- (IZR_Zpower radix2) in A, B by lia. rewrite <- mult_IZR in A, B. apply le_IZR in A. apply lt_IZR in B.
    change (radix_val radix2) with 2%Z in *. replace e with (1 + (e - 1))%Z in A, B by lia.
    rewrite Zpower_plus in A, B by lia. change (2 ^ 1)%Z with 2%Z in A, B.
    set (q := (2 ^ (e - 1))%Z) in *. assert (K : (Z.pos m * (2 * q) = 2 * (Z.pos m * q))%Z) by ring. lia.
Qed.

Section VecInts.
Context {T : Type} {N : Num T}.
(** element-wise evaluation of a function that is defined on all of llint_t *)
Lemma vec_chk_iff tr (f : Z -> outcome T) (g : Z -> T) vals :
  (forall v z, tr v = Some z -> f z = Ok (g z)) ->
  (vec_chk tr f vals = UB <-> exists v, In v vals /\ tr v = None).
Proof.
  intros H. split; [|now apply vec_chk_ub]. induction vals as [|v vs IH]; [discriminate|]. cbn [vec_chk].
  destruct (tr v) as [z|] eqn:E; [|intros _; exists v; split; [now left|auto]].
  rewrite (H v z E). cbn [obind]. destruct (vec_chk tr f vs) as [ws|]; [discriminate|]. intros _.
  destruct (IH eq_refl) as (w & Hw & Ew). exists w. split; [now right|auto].
Qed.
End VecInts.
Section VecB64.
Variable F : TF.
Local Notation NF := (B64_Num F).
Lemma b64_to_ll_ll v z : b64_to_ll v = Some z -> ll z.
Proof. unfold b64_to_ll. destruct (is_finite v); [|discriminate]. intros H. apply fits_ll_inv in H. now destruct H as [-> ?]. Qed.
(** the vectors of doubles at which the integer conversion is undefined *)
Definition bad_elem (vals : list b64) : Prop :=
  exists v, In v vals /\ (is_finite v = true -> ~ (- p63 - 1 < B2R v < p63)).
Lemma vec_b64_iff (f : Z -> outcome b64) g vals : (forall z, ll z -> (z <> 2 ^ 63 - 1)%Z -> f z = Ok (g z)) ->
  (vec_chk b64_to_ll f vals = UB <-> bad_elem vals).
Proof.
  intros H. rewrite (vec_chk_iff b64_to_ll f g).
  - unfold bad_elem. split; intros (v & Hv & E); exists v; (split; [auto|]); now apply b64_to_ll_none.
  - intros v z E. apply H; [now apply b64_to_ll_ll with v|now apply b64_to_ll_max with v].
Qed.
Lemma vec_b64_ok (f : Z -> outcome b64) g vals : (forall z, ll z -> (z <> 2 ^ 63 - 1)%Z -> f z = Ok (g z)) ->
  ~ bad_elem vals -> exists ws, vec_chk b64_to_ll f vals = Ok ws /\
    Forall2 (fun v w => w = g (Btrunc v)) vals ws.
Proof.
  intros H B. destruct (vec_chk_ok b64_to_ll f g vals) as (ws & W & Q).
  - intros v Hv. destruct (b64_to_ll v) as [z|] eqn:E.
    + exists z. split; [auto|]. apply H; [now apply b64_to_ll_ll with v|now apply b64_to_ll_max with v].
    + exfalso. apply B. exists v. split; [auto|]. now apply b64_to_ll_none.
  - exists ws. split; [auto|]. clear W. induction Q as [|v w vs ws' (z & E & ->) Q IH]; constructor; auto.
    + unfold b64_to_ll in E. destruct (is_finite v); [|discriminate]. apply fits_ll_inv in E. now destruct E as [-> _].
    + apply IH. intros (x & Hx & Ex). apply B. exists x. split; [now right|auto].
Qed.
End VecB64.
Lemma pois_max_wit (S : SF) (r : R) (lf : bool) : (0 < r)%R -> exists x : Z, ll x /\
  dpois_chk (N:=ER_Num S) x (Fin r) lf = UB /\ ppois_chk (N:=ER_Num S) x (Fin r) lf = UB.
Proof.
  intros H. exists (2 ^ 63 - 1)%Z. split; [unfold ll; lia|]. split; [now apply dpois_max_er|apply ppois_max_er; lra].
Qed.
Lemma qbinom_max_wit (S : SF) (p : R) : (0 < p < 1)%R -> exists (n : Z) (fuel : nat), ll n /\
  qbinom_run_chk (N:=ER_Num S) fuel (Fin p) n (Fin 1) = Some UB.
Proof.
  intros H. exists (2 ^ 63 - 1)%Z. destruct (qbinom_max_ub S p H) as [fuel Q]. exists fuel. split; [unfold ll; lia|auto].
Qed.
Lemma bofZ_p63 : p63 = B2R (bofZ (2 ^ 63)).
Proof.
  replace (bofZ (2 ^ 63)) with (@B754_finite 53 1024 false (2 ^ 52) 11 eq_refl).
  - cbn [B2R cond_Zopp]. unfold F2R, p63. cbn [Fnum Fexp]. rewrite <- (IZR_Zpower radix2) by lia.
    rewrite <- mult_IZR. reflexivity.
  - apply B2SF_inj. vm_compute. reflexivity.
Qed.
Lemma vec_wit (f : Z -> outcome b64) : exists vals : list b64, vec_chk b64_to_ll f vals = UB.
Proof. exists [B754_nan]. reflexivity. Qed.

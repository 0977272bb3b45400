(** Real analysis behind the shape <= 1 case of rgamma and behind rinvgauss. *)
From Coq Require Import Reals Lra Lia Psatz.
From Coquelicot Require Import Coquelicot.
From Verif Require Import RealElem Analysis Spec SpecSF NormR PowInt GammaFn BetaFn FamR SpecRand SpecLaw LawR.
Local Open Scope R_scope.

(** ** X U^(1/k) with X gamma of shape k+1 *)
Section Boost.
Variables k x : R.
Hypothesis Hk : 0 < k.
Hypothesis Hx : 0 < x.
Definition bst_y (u : R) : R := x * Rpower u (- / k).
Lemma bst_y_pos u : 0 < bst_y u. Proof. unfold bst_y. apply Rmult_lt_0_compat; [auto|apply Rpower_pos]. Qed.
Lemma bst_y_k u : 0 < u -> Rpower (bst_y u) k = Rpower x k / u.
Proof.
  intros Hu. unfold bst_y. rewrite <- Rpower_mult_distr by (auto; apply Rpower_pos).
  rewrite Rpower_mult. replace (- / k * k) with (- (1)) by (field; lra).
  rewrite Rpower_Ropp, Rpower_1 by auto. reflexivity.
Qed.
Definition bst_P (u : R) : R := u * PG (k + 1) (bst_y u) + Rpower x k * exp (- bst_y u) / Gam (k + 1).
Lemma bst_y_derive u : 0 < u -> is_derive bst_y u (- bst_y u / (k * u)).
Proof.
  intros Hu. unfold bst_y. unfold Rpower. auto_derive; [lra|]. field. lra.
Qed.
Lemma bst_derive u : 0 < u -> is_derive bst_P u (PG (k + 1) (bst_y u)).
Proof.
  intros Hu. pose proof (bst_y_pos u) as Hy. pose proof (Gam_pos (k + 1) ltac:(lra)) as HG.
  unfold bst_P.
  apply (d_eq _ _ ((1 * PG (k + 1) (bst_y u) + u * (- bst_y u / (k * u) * (Rpower (bst_y u) (k + 1 - 1) * exp (- bst_y u) / Gam (k + 1))))
    + (Rpower x k * (- (- bst_y u / (k * u)) * exp (- bst_y u)) / Gam (k + 1)))).
  - apply (is_derive_plus (fun u => u * PG (k + 1) (bst_y u)) (fun u => Rpower x k * exp (- bst_y u) / Gam (k + 1))).
    + apply (is_derive_mult (fun u => u) (fun u => PG (k + 1) (bst_y u)) u 1).
      * apply (@is_derive_id R_AbsRing).
      * apply (d_comp (PG (k + 1)) bst_y); [|now apply bst_y_derive]. apply PG_derive; auto; lra.
      * intros; apply Rmult_comm.
    + apply (d_eq _ _ (scal (Rpower x k / Gam (k + 1)) (- (- bst_y u / (k * u)) * exp (- bst_y u)))).
      2:{ unfold scal. cbn. unfold mult. cbn. field. lra. }
      apply (is_derive_ext (fun u => Rpower x k / Gam (k + 1) * exp (- bst_y u))).
      { intros t. lazymatch goal with |- ?a = ?b => change (@eq R a b) end. field. lra. }
      apply (is_derive_scal (fun u => exp (- bst_y u)) u (Rpower x k / Gam (k + 1))).
      apply (d_comp exp (fun u => - bst_y u)); [apply is_derive_exp|].
      apply (is_derive_opp bst_y). now apply bst_y_derive.
  - replace (k + 1 - 1) with k by ring. rewrite bst_y_k by auto. field. lra.
Qed.
Lemma bst_bound u : 0 < u -> 0 <= bst_P u <= u * (1 + gam_C k / Gam (k + 1)).
Proof.
  intros Hu. pose proof (bst_y_pos u) as Hy. pose proof (Gam_pos (k + 1) ltac:(lra)) as HG.
  pose proof (PG_range (k + 1) (bst_y u) ltac:(lra) ltac:(lra)) as P.
  pose proof (pow_exp_bound k (bst_y u) Hk Hy) as B. rewrite bst_y_k in B by auto.
  unfold bst_P.
  assert (E : Rpower x k * exp (- bst_y u) = u * (Rpower x k / u * exp (- bst_y u))) by (field; lra).
  rewrite E. set (q := Rpower x k / u * exp (- bst_y u)) in *.
  assert (0 < q). { unfold q. apply Rmult_lt_0_compat; [|apply exp_pos]. apply Rdiv_lt_0_compat; auto. apply Rpower_pos. }
  assert (I : 0 < / Gam (k + 1)) by now apply Rinv_0_lt_compat.
  unfold Rdiv. split.
  - assert (0 <= u * PG (k + 1) (bst_y u)) by nra. assert (0 <= u * q * / Gam (k + 1)) by (apply Rmult_le_pos; nra). lra.
  - assert (u * PG (k + 1) (bst_y u) <= u) by nra.
    assert (u * q * / Gam (k + 1) <= u * gam_C k * / Gam (k + 1)). { apply Rmult_le_compat_r; [lra|]. nra. }
    lra.
Qed.
Lemma bst_lim : filterlim bst_P (at_right 0) (locally 0).
Proof.
  pose proof (Gam_pos (k + 1) ltac:(lra)) as HG. pose proof (gam_C_pos k) as HC.
  set (M := 1 + gam_C k / Gam (k + 1)). assert (HM : 0 < M). { unfold M. assert (0 < gam_C k / Gam (k + 1)) by now apply Rdiv_lt_0_compat. lra. }
  apply lim_right. intros e He. exists (e / M). split; [now apply Rdiv_lt_0_compat|].
  intros u Hu. pose proof (bst_bound u ltac:(lra)) as B. fold M in B.
  assert (u * M < e). { apply Rlt_le_trans with (e / M * M); [apply Rmult_lt_compat_r; lra|]. right. field. lra. }
  rewrite Rminus_0_r, Rabs_right; lra.
Qed.
Lemma bst_1 : bst_P 1 = PG k x.
Proof.
  unfold bst_P, bst_y. replace (Rpower 1 (- / k)) with 1 by (unfold Rpower; rewrite ln_1, Rmult_0_r; now rewrite exp_0).
  rewrite Rmult_1_r, Rmult_1_l. unfold PG. rewrite (lgam_rec k x), (Gam_rec k), pw_pos by lra.
  pose proof (Gam_pos k Hk). field. lra.
Qed.
Lemma boost : is_RInt_gen (fun u => PG (k + 1) (x * Rpower u (- / k))) (at_right 0) (at_point 1) (PG k x).
Proof.
  rewrite <- (Rminus_0_r (PG k x)), <- bst_1.
  apply (rig _ bst_P _ _ (fun u => 0 < u)).
  - apply bst_derive.
  - intros u Hu. apply cont_pt. apply (continuity_pt_comp bst_y (PG (k + 1))).
    + apply (derive_cont_pt _ _ _ (bst_y_derive u Hu)).
    + apply PG_cont. lra.
  - intros; lra.
  - exists (mkposreal 1 Rlt_0_1). auto.
  - unfold at_point. lra.
  - apply bst_lim.
  - apply rig_point.
Qed.
End Boost.

(** ** Michael, Schucany and Haas *)
Section IG.
Variables mu l : R.
Hypothesis Hmu : 0 < mu.
Hypothesis Hl : 0 < l.
Definition igW (z : R) : R := sqrt (z * z + 4 * l / mu).
Lemma ig4 : 0 < 4 * l / mu. Proof. apply Rdiv_lt_0_compat; lra. Qed.
Lemma igW_sq z : igW z * igW z = z * z + 4 * l / mu.
Proof. unfold igW. apply sqrt_sqrt. pose proof ig4. nra. Qed.
Lemma igW_pos z : 0 < igW z. Proof. unfold igW. apply sqrt_lt_R0. pose proof ig4. nra. Qed.
Lemma igW_gt z : Rabs z < igW z.
Proof.
  pose proof (igW_sq z). pose proof (igW_pos z). pose proof ig4. pose proof (Rabs_pos z).
  assert (Rabs z * Rabs z = z * z) by (rewrite <- Rabs_mult; apply Rabs_right; nra). nra.
Qed.
Lemma igW_even z : igW (- z) = igW z. Proof. unfold igW. f_equal. ring. Qed.
Lemma igW_derive z : is_derive igW z (z / igW z).
Proof.
  pose proof (igW_pos z). pose proof ig4. unfold igW in *. auto_derive; [nra|]. field. lra.
Qed.
(** the smaller root, and the probability of taking it *)
Definition ig_x1 (z : R) : R := mu + (mu * mu * (z * z) - mu * sqrt (4 * mu * l * (z * z) + mu * mu * (z * z) * (z * z))) / (2 * l).
Definition ig_h (z : R) : R := mu / (mu + ig_x1 z).
Lemma ig_sqrt z : sqrt (4 * mu * l * (z * z) + mu * mu * (z * z) * (z * z)) = mu * (Rabs z * igW z).
Proof.
  replace (4 * mu * l * (z * z) + mu * mu * (z * z) * (z * z)) with ((mu * (Rabs z * igW z)) * (mu * (Rabs z * igW z))).
  - apply sqrt_square. pose proof (Rabs_pos z). pose proof (igW_pos z). apply Rmult_le_pos; [lra|]. nra.
  - replace (mu * (Rabs z * igW z) * (mu * (Rabs z * igW z))) with (mu * mu * (Rabs z * Rabs z) * (igW z * igW z)) by ring.
    rewrite igW_sq. replace (Rabs z * Rabs z) with (z * z) by (rewrite <- Rabs_mult; symmetry; apply Rabs_right; nra).
    field. lra.
Qed.
Lemma ig_x1_val z : ig_x1 z = mu * (igW z - Rabs z) / (igW z + Rabs z).
Proof.
  unfold ig_x1. rewrite ig_sqrt. pose proof (igW_pos z). pose proof (Rabs_pos z). pose proof (igW_sq z) as Q.
  replace (z * z) with (Rabs z * Rabs z) in * by (rewrite <- Rabs_mult; apply Rabs_right; nra).
  set (a := Rabs z) in *. set (w := igW z) in *.
  assert (E : l = mu * (w * w - a * a) / 4) by (rewrite Q; field; lra).
  assert (w * w - a * a <> 0) by (intros C; rewrite C in E; lra).
  rewrite E. field. lra.
Qed.
Lemma ig_h_val z : ig_h z = (1 + Rabs z / igW z) / 2.
Proof.
  unfold ig_h. rewrite ig_x1_val. pose proof (igW_pos z). pose proof (Rabs_pos z). set (w := igW z) in *. set (a := Rabs z) in *.
  assert (mu * (w + a) + mu * (w - a) <> 0) by nra. field. repeat split; lra.
Qed.
Lemma ig_x1_pos z : 0 < ig_x1 z <= mu.
Proof.
  rewrite ig_x1_val. pose proof (igW_pos z). pose proof (Rabs_pos z). pose proof (igW_gt z).
  split; [apply Rdiv_lt_0_compat; nra|]. apply (Rmult_le_reg_r (igW z + Rabs z)); [lra|].
  unfold Rdiv. rewrite Rmult_assoc, Rinv_l by lra. nra.
Qed.

(** position of x on the z axis *)
Definition ig_z (x : R) : R := sqrt (l / x) * (x / mu - 1).
Lemma ig_z_sq x : 0 < x -> ig_z x * ig_z x = l * (x - mu) ^ 2 / (mu ^ 2 * x).
Proof.
  intros Hx. unfold ig_z. assert (0 < l / x) by now apply Rdiv_lt_0_compat.
  replace (sqrt (l / x) * (x / mu - 1) * (sqrt (l / x) * (x / mu - 1))) with (sqrt (l / x) * sqrt (l / x) * (x / mu - 1) ^ 2) by ring.
  rewrite sqrt_sqrt by lra. field. lra.
Qed.
Lemma ig_W_z x : 0 < x -> igW (ig_z x) = sqrt (l / x) * (x / mu + 1).
Proof.
  intros Hx. assert (0 < l / x) by now apply Rdiv_lt_0_compat. assert (0 < x / mu) by now apply Rdiv_lt_0_compat.
  unfold igW. rewrite ig_z_sq by auto.
  rewrite <- (sqrt_square (x / mu + 1)) by lra. rewrite <- sqrt_mult by nra. f_equal. field. lra.
Qed.
Lemma ig_cdf_z x : 0 < x -> invgauss_cdf mu l x = norm_cdf 0 1 (ig_z x) + exp (2 * l / mu) * norm_cdf 0 1 (- igW (ig_z x)).
Proof. intros Hx. unfold invgauss_cdf. rewrite ig_W_z by auto. fold (ig_z x). f_equal. f_equal. f_equal. ring. Qed.
(** x = mu (W + z) / (W - z) recovers x from its position *)
Lemma ig_z_inv x : 0 < x -> x = mu * (igW (ig_z x) + ig_z x) / (igW (ig_z x) - ig_z x).
Proof.
  intros Hx. rewrite ig_W_z by auto. unfold ig_z. assert (0 < sqrt (l / x)) by (apply sqrt_lt_R0; now apply Rdiv_lt_0_compat).
  set (s := sqrt (l / x)) in *.
  replace (s * (x / mu + 1) + s * (x / mu - 1)) with (2 * s * (x / mu)) by ring.
  replace (s * (x / mu + 1) - s * (x / mu - 1)) with (2 * s) by ring. field. lra.
Qed.
Lemma ig_pos_slt z1 z2 : z1 < z2 -> mu * (igW z1 + z1) / (igW z1 - z1) < mu * (igW z2 + z2) / (igW z2 - z2).
Proof.
  intros H. assert (S : forall z, 0 < igW z - z /\ 0 < igW z + z /\ (igW z - z) * (igW z + z) = 4 * l / mu).
  { intros z. pose proof (igW_gt z). pose proof (Rle_abs z). pose proof (Rle_abs (- z)). rewrite Rabs_Ropp in *.
    split; [lra|]. split; [lra|]. pose proof (igW_sq z). nra. }
  destruct (S z1) as (A1 & B1 & C1). destruct (S z2) as (A2 & B2 & C2).
  assert (M : igW z1 + z1 < igW z2 + z2).
  { pose proof (igW_sq z1). pose proof (igW_sq z2). pose proof (igW_pos z1). pose proof (igW_pos z2).
    apply Rnot_le_lt. intros C. assert (D : igW z1 - z1 <= igW z2 - z2 -> False) by (intros; lra).
    assert (igW z2 - z2 < igW z1 - z1) by (apply Rnot_le_lt; auto). nra. }
  pose proof ig4. assert (N : igW z2 - z2 < igW z1 - z1) by (apply Rnot_le_lt; intros C; nra).
  apply (Rmult_lt_reg_r (igW z1 - z1)); auto. apply (Rmult_lt_reg_r (igW z2 - z2)); auto.
  replace (mu * (igW z1 + z1) / (igW z1 - z1) * (igW z1 - z1) * (igW z2 - z2)) with (mu * ((igW z1 + z1) * (igW z2 - z2))) by (field; lra).
  replace (mu * (igW z2 + z2) / (igW z2 - z2) * (igW z1 - z1) * (igW z2 - z2)) with (mu * ((igW z2 + z2) * (igW z1 - z1))) by (field; lra).
  apply Rmult_lt_compat_l; auto. apply Rlt_trans with ((igW z2 + z2) * (igW z2 - z2)); nra.
Qed.
Lemma ig_pos_le_iff z1 z2 : mu * (igW z1 + z1) / (igW z1 - z1) <= mu * (igW z2 + z2) / (igW z2 - z2) <-> z1 <= z2.
Proof.
  split; intros H.
  - apply Rnot_lt_le. intros C. apply ig_pos_slt in C. lra.
  - destruct H as [H| ->]; [|lra]. left. now apply ig_pos_slt.
Qed.
Lemma ig_x1_pos_form z : ig_x1 z = mu * (igW (- Rabs z) + - Rabs z) / (igW (- Rabs z) - - Rabs z).
Proof.
  rewrite ig_x1_val, igW_even. replace (igW (Rabs z)) with (igW z); [f_equal; ring_simplify; ring|].
  unfold igW. f_equal. f_equal. rewrite <- Rabs_mult. symmetry. apply Rabs_right. nra.
Qed.
Lemma ig_x2_pos_form z : mu * mu / ig_x1 z = mu * (igW (Rabs z) + Rabs z) / (igW (Rabs z) - Rabs z).
Proof.
  rewrite ig_x1_val. replace (igW (Rabs z)) with (igW z).
  2:{ unfold igW. f_equal. f_equal. rewrite <- Rabs_mult. symmetry. apply Rabs_right. nra. }
  pose proof (igW_gt z). pose proof (Rabs_pos z). field. repeat split; lra.
Qed.
Lemma ig_x1_le_iff z x : 0 < x -> ig_x1 z <= x <-> - Rabs z <= ig_z x.
Proof. intros Hx. rewrite ig_x1_pos_form. rewrite (ig_z_inv x Hx) at 1. apply ig_pos_le_iff. Qed.
Lemma ig_x2_le_iff z x : 0 < x -> mu * mu / ig_x1 z <= x <-> Rabs z <= ig_z x.
Proof. intros Hx. rewrite ig_x2_pos_form. rewrite (ig_z_inv x Hx) at 1. apply ig_pos_le_iff. Qed.

(** length of the set of u for which the draw is at most x *)
Definition ig_len (x z : R) : R := if Rlt_dec (ig_z x) (- Rabs z) then 0 else if Rle_dec (Rabs z) (ig_z x) then 1 else ig_h z.
Lemma ig_h_range z : 0 < ig_h z < 1.
Proof.
  rewrite ig_h_val. pose proof (igW_gt z). pose proof (igW_pos z). pose proof (Rabs_pos z).
  assert (0 <= Rabs z / igW z). { apply Rmult_le_pos; [auto|]. left. now apply Rinv_0_lt_compat. }
  assert (Rabs z / igW z < 1). { apply (Rmult_lt_reg_r (igW z)); auto. unfold Rdiv. rewrite Rmult_assoc, Rinv_l; lra. }
  lra.
Qed.
Lemma ig_len_iff x z u : 0 < x -> 0 < u < 1 ->
  (if Rle_dec u (mu / (mu + ig_x1 z)) then ig_x1 z else mu * mu / ig_x1 z) <= x <-> u <= ig_len x z.
Proof.
  intros Hx Hu. fold (ig_h z). pose proof (ig_h_range z) as Hh. pose proof (Rabs_pos z).
  unfold ig_len. destruct (Rle_dec u (ig_h z)).
  - rewrite ig_x1_le_iff by auto. destruct Rlt_dec; [split; lra|]. destruct Rle_dec; split; lra.
  - rewrite ig_x2_le_iff by auto. destruct Rlt_dec; [split; lra|]. destruct Rle_dec; split; lra.
Qed.

Notation e2 := (exp (2 * l / mu)).
Lemma ig_phi z : e2 * norm_pdf 0 1 (igW z) = norm_pdf 0 1 z.
Proof.
  unfold norm_pdf. set (k := 1 / (sqrt (2 * PI) * 1)).
  transitivity (k * (e2 * exp (- ((igW z - 0) ^ 2 / (2 * 1 ^ 2))))); [ring|].
  rewrite <- exp_plus. do 2 f_equal. pose proof (igW_sq z) as Q.
  replace ((igW z - 0) ^ 2) with (z * z + 4 * l / mu) by (rewrite <- Q; ring). field. lra.
Qed.
Lemma ig_phi_even z : norm_pdf 0 1 (- z) = norm_pdf 0 1 z.
Proof. unfold norm_pdf. do 2 f_equal. replace ((- z - 0) ^ 2) with ((z - 0) ^ 2) by ring. reflexivity. Qed.
Definition igT (z : R) : R := e2 * norm_cdf 0 1 (- igW z).
Lemma igT_derive z : is_derive igT z (- (norm_pdf 0 1 z * (z / igW z))).
Proof.
  apply (d_eq _ _ (e2 * (- (z / igW z) * norm_pdf 0 1 (- igW z)))).
  - unfold igT. apply d_scal. apply (d_comp (norm_cdf 0 1) (fun z => - igW z)).
    + apply norm_cdf_derive. lra.
    + apply d_opp, igW_derive.
  - rewrite ig_phi_even. rewrite <- (ig_phi z). ring.
Qed.
Lemma igT_even z : igT (- z) = igT z. Proof. unfold igT. now rewrite igW_even. Qed.
Lemma igT_small e : 0 < e -> exists m, 0 < m /\ forall z, m <= Rabs z -> 0 < igT z < e.
Proof.
  intros He. pose proof (exp_pos (2 * l / mu)) as P. destruct (norm_cdf_low (e / e2)) as (m & Hm & H).
  { now apply Rdiv_lt_0_compat. }
  exists m. split; auto. intros z Hz. pose proof (igW_gt z). specialize (H (- igW z) ltac:(lra)).
  pose proof (norm_cdf_range 0 1 (- igW z)) as Q. unfold igT. split; [nra|].
  replace e with (e2 * (e / e2)) at 1 by (field; lra). apply Rmult_lt_compat_l; auto.
Qed.
(** primitives of the weighted normal density on each side *)
Definition igR (z : R) : R := (norm_cdf 0 1 z - igT z) / 2.
Definition igL (z : R) : R := (norm_cdf 0 1 z + igT z) / 2.
Lemma igR_derive z : 0 <= z -> is_derive igR z (norm_pdf 0 1 z * ig_h z).
Proof.
  intros Hz. apply (d_eq _ _ (/ 2 * (norm_pdf 0 1 z - - (norm_pdf 0 1 z * (z / igW z))))).
  - apply (is_derive_ext (fun z => / 2 * (norm_cdf 0 1 z - igT z))).
    { intros t. unfold igR. apply Rmult_comm. }
    apply d_scal, d_minus; [apply norm_cdf_derive; lra|apply igT_derive].
  - rewrite ig_h_val, Rabs_right by lra. pose proof (igW_pos z). field. lra.
Qed.
Lemma igL_derive z : z <= 0 -> is_derive igL z (norm_pdf 0 1 z * ig_h z).
Proof.
  intros Hz. apply (d_eq _ _ (/ 2 * (norm_pdf 0 1 z + - (norm_pdf 0 1 z * (z / igW z))))).
  - apply (is_derive_ext (fun z => / 2 * (norm_cdf 0 1 z + igT z))).
    { intros t. unfold igL. apply Rmult_comm. }
    apply d_scal, d_plus; [apply norm_cdf_derive; lra|apply igT_derive].
  - rewrite ig_h_val. rewrite (Rabs_left1 z) by lra. pose proof (igW_pos z). field. lra.
Qed.
Lemma norm_pdf_cont z : continuous (norm_pdf 0 1) z.
Proof. apply (@ex_derive_continuous R_AbsRing R_NormedModule). unfold norm_pdf. auto_derive. auto. Qed.
Lemma igh_cont z : continuous (fun z => norm_pdf 0 1 z * ig_h z) z.
Proof.
  apply (continuous_mult (norm_pdf 0 1) ig_h); [apply norm_pdf_cont|].
  apply (continuous_ext (fun z => / 2 + / 2 * (Rabs z * / igW z))).
  { intros t. rewrite ig_h_val. pose proof (igW_pos t). lazymatch goal with |- ?a = ?b => change (@eq R a b) end. field. lra. }
  apply (continuous_plus (fun _ => / 2) (fun z => / 2 * (Rabs z * / igW z))); [apply continuous_const|].
  apply (continuous_mult (fun _ => / 2) (fun z => Rabs z * / igW z)); [apply continuous_const|].
  apply (continuous_mult Rabs (fun z => / igW z)); [apply continuous_Rabs|].
  apply cont_pt. apply (continuity_pt_inv igW).
  - apply (derive_cont_pt _ _ _ (igW_derive z)).
  - pose proof (igW_pos z). lra.
Qed.
Lemma igR_int a : 0 <= a -> is_RInt_gen (fun z => norm_pdf 0 1 z * ig_h z) (at_point a) (Rbar_locally p_infty) (1 / 2 - igR a).
Proof.
  intros Ha. apply (rig _ igR _ _ (fun z => 0 <= z)).
  - apply igR_derive.
  - intros; apply igh_cont.
  - intros; lra.
  - exact Ha.
  - exists 0. intros; lra.
  - apply (rig_point igR).
  - apply lim_inf. intros e He. destruct (norm_cdf_high e He) as (m1 & Hm1 & B1). destruct (igT_small e He) as (m2 & Hm2 & B2).
    exists (Rmax m1 m2). intros x Hx. pose proof (Rmax_l m1 m2). pose proof (Rmax_r m1 m2).
    specialize (B1 x ltac:(lra)). specialize (B2 x ltac:(rewrite Rabs_right; lra)). pose proof (norm_cdf_range 0 1 x).
    unfold igR. apply Rabs_def1; lra.
Qed.
Lemma igL_int a : a <= 0 -> is_RInt_gen (fun z => norm_pdf 0 1 z * ig_h z) (Rbar_locally m_infty) (at_point a) (igL a).
Proof.
  intros Ha. replace (igL a) with (igL a - 0) by ring. apply (rig _ igL _ _ (fun z => z <= 0)).
  - apply igL_derive.
  - intros; apply igh_cont.
  - intros; lra.
  - exists 0. intros; lra.
  - exact Ha.
  - apply lim_minf. intros e He. destruct (norm_cdf_low e He) as (m1 & Hm1 & B1). destruct (igT_small e He) as (m2 & Hm2 & B2).
    exists (- Rmax m1 m2). intros x Hx. pose proof (Rmax_l m1 m2). pose proof (Rmax_r m1 m2).
    specialize (B1 x ltac:(lra)). specialize (B2 x ltac:(rewrite Rabs_left; lra)). pose proof (norm_cdf_range 0 1 x).
    unfold igL. apply Rabs_def1; lra.
  - apply (rig_point igL).
Qed.
Lemma ig_mid (f : R -> R) v a : 0 <= a -> (forall z, - a < z < a -> f z = v) ->
  is_RInt_gen (fun z => norm_pdf 0 1 z * f z) (at_point (- a)) (at_point a) (v * (norm_cdf 0 1 a - norm_cdf 0 1 (- a))).
Proof.
  intros Ha Hf. apply is_RInt_gen_at_point.
  apply (is_RInt_ext (fun z => v * norm_pdf 0 1 z)).
  { intros z Hz. rewrite Rmin_left, Rmax_right in Hz by lra. rewrite Hf by lra. apply Rmult_comm. }
  apply (@is_RInt_scal R_NormedModule (norm_pdf 0 1)).
  apply (@is_RInt_derive R_CompleteNormedModule (norm_cdf 0 1)); intros; [apply norm_cdf_derive; lra|apply norm_pdf_cont].
Qed.
Lemma ig_mass x : 0 < x -> normal_mass (Rbar_locally m_infty) (Rbar_locally p_infty) (ig_len x) (invgauss_cdf mu l x).
Proof.
  intros Hx. unfold normal_mass. rewrite ig_cdf_z by auto. fold (igT (ig_z x)).
  set (a := Rabs (ig_z x)). assert (Ha : 0 <= a) by apply Rabs_pos.
  set (v := if Rle_dec 0 (ig_z x) then 1 else 0).
  assert (Hmid : forall z, - a < z < a -> ig_len x z = v).
  { intros z Hz. unfold ig_len, v. assert (Rabs z < a) by (apply Rabs_def1; lra). unfold a in *.
    destruct (Rle_dec 0 (ig_z x)).
    - rewrite (Rabs_right (ig_z x)) in * by lra. pose proof (Rabs_pos z).
      destruct Rlt_dec; [lra|]. destruct Rle_dec; lra.
    - rewrite (Rabs_left (ig_z x)) in * by lra. destruct Rlt_dec; lra. }
  assert (Hout : forall z, z < - a \/ a < z -> ig_len x z = ig_h z).
  { intros z Hz. assert (a < Rabs z). { destruct Hz; [rewrite Rabs_left|rewrite Rabs_right]; lra. }
    unfold ig_len, a in *. pose proof (Rle_abs (ig_z x)) as Q1. pose proof (Rle_abs (- ig_z x)) as Q2. rewrite Rabs_Ropp in Q2.
    destruct Rlt_dec; [exfalso; lra|]. destruct (Rle_dec (Rabs z) (ig_z x)); [exfalso; lra|reflexivity]. }
  assert (E : norm_cdf 0 1 (ig_z x) + igT (ig_z x) =
    plus (plus (igL (- a)) (v * (norm_cdf 0 1 a - norm_cdf 0 1 (- a)))) (1 / 2 - igR a)).
  { unfold plus. cbn. unfold igL, igR. rewrite igT_even. pose proof (norm_cdf_sym 0 1 a ltac:(lra)) as Sy.
    rewrite Rminus_0_l, Rplus_0_l in Sy. rewrite Sy.
    assert (ET : igT a = igT (ig_z x)).
    { unfold a, Rabs. destruct Rcase_abs; [apply igT_even|reflexivity]. }
    rewrite ET. unfold v, a. destruct (Rle_dec 0 (ig_z x)).
    - rewrite Rabs_right by lra. field.
    - rewrite Rabs_left by lra. pose proof (norm_cdf_sym 0 1 (ig_z x) ltac:(lra)) as Sy2.
      rewrite Rminus_0_l, Rplus_0_l in Sy2. rewrite Sy2. field. }
  rewrite E.
  apply (@is_RInt_gen_Chasles R_NormedModule (Rbar_locally m_infty) (Rbar_locally p_infty) _ _ _ a);
    [apply (@is_RInt_gen_Chasles R_NormedModule (Rbar_locally m_infty) (at_point a) _ _ _ (- a))|].
  - apply (is_RInt_gen_ext (fun z => norm_pdf 0 1 z * ig_h z)); [|apply igL_int; lra].
    exists (fun z => z < - a) (fun z => z = - a).
    + exists (- a). auto.
    + reflexivity.
    + intros y z Hy -> t Ht. cbn [fst snd] in Ht. rewrite Rmin_left, Rmax_right in Ht by lra. now rewrite Hout by lra.
  - now apply ig_mid.
  - apply (is_RInt_gen_ext (fun z => norm_pdf 0 1 z * ig_h z)); [|apply igR_int; lra].
    exists (fun z => z = a) (fun z => a < z).
    + reflexivity.
    + exists a. auto.
    + intros y z -> Hz t Ht. cbn [fst snd] in Ht. rewrite Rmin_left, Rmax_right in Ht by lra. now rewrite Hout by lra.
Qed.
End IG.

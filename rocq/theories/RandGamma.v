(** Gamma sampler and what is built on it: termination (C40) and support (C38). *)
From Coq Require Import Reals ZArith QArith Bool Lra Lia Psatz.
From Verif Require Import Num Sanity ER ERTac Prob Dens Quant Spec SpecER RealElem ClosedElem LogForm Support
  Rand SpecRand RandER.
Local Open Scope R_scope.

Lemma mt_c_pos d : 0 < d -> 0 < mt_c d.
Proof. intros. unfold mt_c. apply Rdiv_lt_0_compat; [lra|now apply sqrt_lt_R0]. Qed.
Lemma mt_v_pos d z : 0 < 1 + mt_c d * z -> 0 < mt_v d z.
Proof. intros. unfold mt_v. now apply pow_lt. Qed.

(** ** Fuel *)
Section Fuel.
Context {T : Type} {N : Num T} {E : Type} (G : Rng T E).
Lemma rgamma_loop_mono d c : forall f1 f2 e r, (f1 <= f2)%nat ->
  rgamma_loop G f1 d c e = Some r -> rgamma_loop G f2 d c e = Some r.
Proof.
  induction f1 as [|f1 IH]; intros f2 e r L H; [discriminate|]. destruct f2 as [|f2]; [lia|].
  cbn [rgamma_loop] in *. destruct (rgamma_round G d c e) as [[v|] e']; auto. apply IH; auto; lia.
Qed.
Lemma rgamma_rec_mono : forall D1 D2 f1 f2 k th e r, (D1 <= D2)%nat -> (f1 <= f2)%nat ->
  rgamma_rec G D1 f1 k th e = Some r -> rgamma_rec G D2 f2 k th e = Some r.
Proof.
  induction D1 as [|D1 IH]; intros D2 f1 f2 k th e r L1 L2 H; [discriminate|]. destruct D2 as [|D2]; [lia|].
  cbn [rgamma_rec] in *. destruct (negb _); auto. destruct (ltb _ _).
  - destruct (rgamma_loop G f1 _ _ e) as [[v e']|] eqn:L; [|discriminate].
    now rewrite (rgamma_loop_mono _ _ f1 f2 _ _ L2 L).
  - destruct (runif01 G e) as [U e1]. destruct (rgamma_rec G D1 f1 _ _ e1) as [[X e2]|] eqn:R; [|discriminate].
    rewrite (IH D2 f1 f2 _ _ _ _ ltac:(lia) L2 R). exact H.
Qed.
Lemma rgamma_mono f1 f2 k th e r : (f1 <= f2)%nat -> rgamma G f1 k th e = Some r -> rgamma G f2 k th e = Some r.
Proof. intros. eapply rgamma_rec_mono; eauto. Qed.
Lemma rchisq_mono f1 f2 k e r : (f1 <= f2)%nat -> rchisq G f1 k e = Some r -> rchisq G f2 k e = Some r.
Proof. unfold rchisq. destruct (negb _); auto. apply rgamma_mono. Qed.
Lemma rinvgamma_mono f1 f2 k th e r : (f1 <= f2)%nat -> rinvgamma G f1 k th e = Some r -> rinvgamma G f2 k th e = Some r.
Proof.
  unfold rinvgamma. intros L. destruct (negb _); auto. destruct (rgamma G f1 _ _ e) as [[x e']|] eqn:R; [|discriminate].
  now rewrite (rgamma_mono _ _ _ _ _ _ L R).
Qed.
Lemma rbeta_mono f1 f2 k th e r : (f1 <= f2)%nat -> rbeta G f1 k th e = Some r -> rbeta G f2 k th e = Some r.
Proof.
  unfold rbeta. intros L. destruct (negb _); auto. destruct (rgamma G f1 k _ e) as [[x e']|] eqn:R; [|discriminate].
  rewrite (rgamma_mono _ _ _ _ _ _ L R). destruct (rgamma G f1 th _ e') as [[y e2]|] eqn:R2; [|discriminate].
  now rewrite (rgamma_mono _ _ _ _ _ _ L R2).
Qed.
Lemma rf_mono f1 f2 k th e r : (f1 <= f2)%nat -> rf G f1 k th e = Some r -> rf G f2 k th e = Some r.
Proof.
  unfold rf. intros L. destruct (negb _); auto. destruct (rchisq G f1 k e) as [[x e']|] eqn:R; [|discriminate].
  rewrite (rchisq_mono _ _ _ _ _ L R). destruct (rchisq G f1 th e') as [[y e2]|] eqn:R2; [|discriminate].
  now rewrite (rchisq_mono _ _ _ _ _ L R2).
Qed.
Lemma rt_mono f1 f2 k e r : (f1 <= f2)%nat -> rt G f1 k e = Some r -> rt G f2 k e = Some r.
Proof.
  unfold rt. intros L. destruct (negb _); auto. destruct (rnorm01 G e) as [n e1].
  destruct (rchisq G f1 k e1) as [[x e']|] eqn:R; [|discriminate].
  now rewrite (rchisq_mono _ _ _ _ _ L R).
Qed.
End Fuel.

Section S.
Variable S : SF.
Notation NS := (ER_Num S).
Notation eps := (sf_eps S).
Context {E : Type} (G : Rng ER E) (OK : rng_ok G).
Notation cF d := (rgamma_c (N:=NS) (Fin d)).

Lemma rgamma_c_val d : 0 < d -> cF d = Fin (mt_c d).
Proof.
  intros Hd. unfold rgamma_c, mt_c. un_cls. rewrite esqrt_F by lra. pose proof (sqrt_lt_R0 d Hd).
  rewrite !ediv_F by lra. reflexivity.
Qed.
Lemma rgamma_d_val k : rgamma_d (N:=NS) (Fin k) = Fin (k - 1 / 3).
Proof. unfold rgamma_d. un_cls. er_arith. reflexivity. Qed.
Lemma skip_test d z : 0 < d -> ltb (Num:=NS) (div (Num:=NS) (neg (Num:=NS) (ofZ (Num:=NS) 1)) (Fin (mt_c d))) (Fin z) = Rltb 0 (1 + mt_c d * z).
Proof.
  intros Hd. pose proof (mt_c_pos d Hd) as C. un_cls. rewrite eneg_F, ediv_F, eltb_F by lra.
  assert (H : - (1) / mt_c d < z <-> 0 < 1 + mt_c d * z).
  { split; intros H.
    - apply (Rmult_lt_compat_l (mt_c d)) in H; auto. field_simplify in H; lra.
    - apply (Rmult_lt_reg_l (mt_c d)); auto. replace (mt_c d * (- (1) / mt_c d)) with (-1) by (field; lra). lra. }
  unfold Rltb. destruct Rlt_dec, Rlt_dec; tauto.
Qed.

Lemma round_skip d e z e1 : 0 < d -> normal_draw G e z e1 -> 1 + mt_c d * z <= 0 ->
  rgamma_round (N:=NS) G (Fin d) (cF d) e = (None, e1).
Proof.
  intros Hd D Hz. unfold rgamma_round. rewrite (rnorm01_det S G e z e1 D), rgamma_c_val, skip_test by auto.
  now rewrite (proj2 (Rltb_false _ _)) by lra.
Qed.
Lemma check_val d z : 0 < d -> 0 < 1 + mt_c d * z ->
  powZ (Num:=NS) (add (Num:=NS) (ofZ (Num:=NS) 1) (mul (Num:=NS) (Fin (mt_c d)) (Fin z))) 3 = Fin (mt_v d z) /\
  add (Num:=NS) (mul (Num:=NS) (mul (Num:=NS) (lit (Num:=NS) (1#2)) (Fin z)) (Fin z))
    (mul (Num:=NS) (Fin d) (add (Num:=NS) (sub (Num:=NS) (ofZ (Num:=NS) 1) (Fin (mt_v d z))) (log (Num:=NS) (Fin (mt_v d z)))))
  = Fin (1 / 2 * z * z + d * (1 - mt_v d z + ln (mt_v d z))).
Proof.
  intros Hd Hz. pose proof (mt_v_pos d z Hz). un_cls. er_arith. split; reflexivity.
Qed.
Lemma round_test d e z e1 u e2 : 0 < d -> normal_draw G e z e1 -> 0 < 1 + mt_c d * z -> unit_draw G e1 u e2 ->
  (mt_accept d z u -> rgamma_round (N:=NS) G (Fin d) (cF d) e = (Some (Fin (mt_v d z)), e2)) /\
  (~ mt_accept d z u -> rgamma_round (N:=NS) G (Fin d) (cF d) e = (None, e2)).
Proof.
  intros Hd D Hz Du. pose proof (unit_draw_range S G OK _ _ _ Du) as U.
  unfold rgamma_round. rewrite (rnorm01_det S G e z e1 D), rgamma_c_val, skip_test by auto.
  rewrite (proj2 (Rltb_true _ _)) by lra. rewrite (runif01_det S G e1 u e2 Du).
  destruct (check_val d z Hd Hz) as [H1 H2]. cbv zeta. rewrite !H1, H2.
  assert (L : log (Num:=NS) (Fin u) = Fin (ln u)) by (un_cls; er_arith; auto). rewrite L.
  change (ltb (Num:=NS) (Fin (ln u)) (Fin (1 / 2 * z * z + d * (1 - mt_v d z + ln (mt_v d z)))))
    with (Rltb (ln u) (1 / 2 * z * z + d * (1 - mt_v d z + ln (mt_v d z)))).
  unfold mt_accept, Rltb. destruct Rlt_dec; split; intros A; auto; tauto.
Qed.
Lemma accept_dec d z u : mt_accept d z u \/ ~ mt_accept d z u.
Proof.
  unfold mt_accept. destruct (Rlt_dec 0 (1 + mt_c d * z)), (Rlt_dec (ln u) (1 / 2 * z * z + d * (1 - mt_v d z + ln (mt_v d z)))); tauto.
Qed.

Lemma loop_complete d e v e' : 0 < d -> accepts G d e v e' ->
  exists fuel, rgamma_loop (N:=NS) G fuel (Fin d) (cF d) e = Some (Fin v, e').
Proof.
  intros Hd. induction 1 as [e z e1 u e2 Dz Du A|e z e1 v e' Dz Hz _ [f IH]|e z e1 u e2 v e' Dz Hz Du A _ [f IH]].
  - exists 1%nat. cbn [rgamma_loop]. now rewrite (proj1 (round_test d e z e1 u e2 Hd Dz (proj1 A) Du) A).
  - exists (Datatypes.S f). cbn [rgamma_loop]. now rewrite (round_skip d e z e1 Hd Dz Hz).
  - exists (Datatypes.S f). cbn [rgamma_loop]. now rewrite (proj2 (round_test d e z e1 u e2 Hd Dz Hz Du) A).
Qed.
Lemma loop_sound d : 0 < d -> forall fuel e v e',
  rgamma_loop (N:=NS) G fuel (Fin d) (cF d) e = Some (v, e') -> exists x, v = Fin x /\ accepts G d e x e'.
Proof.
  intros Hd. induction fuel as [|f IH]; intros e v e' H; [discriminate|]. cbn [rgamma_loop] in H.
  destruct (norm_ex G OK e) as (z & e1 & Dz). destruct (Rle_lt_dec (1 + mt_c d * z) 0) as [Hz|Hz].
  - rewrite (round_skip d e z e1 Hd Dz Hz) in H. destruct (IH _ _ _ H) as (x & -> & A). exists x.
    split; auto. eapply acc_skip; eauto.
  - destruct (runif01_ok S G OK e1) as (u & e2 & Du & U & _).
    destruct (round_test d e z e1 u e2 Hd Dz Hz Du) as [R1 R2]. destruct (accept_dec d z u) as [A|A].
    + rewrite (R1 A) in H. inversion H; subst. exists (mt_v d z). split; auto. eapply acc_now; eauto.
    + rewrite (R2 A) in H. destruct (IH _ _ _ H) as (x & -> & A'). exists x. split; auto. eapply acc_reject; eauto.
Qed.
Lemma accepts_pos d e v e' : accepts G d e v e' -> 0 < v.
Proof. induction 1; auto. apply mt_v_pos. apply H1. Qed.

(** ** One call of rgamma *)
Lemma gamma_ok k th : 0 <= k -> eps <= th -> negb (gamma_sanity2 (N:=NS) (Fin k) (Fin th)) = false.
Proof. intros. un_cls. er_arith. rdecide. auto. Qed.
Lemma lt1 k : ltb (Num:=NS) (ofZ (Num:=NS) 1) (Fin k) = Rltb 1 k. Proof. reflexivity. Qed.
Lemma add1 k : add (Num:=NS) (ofZ (Num:=NS) 1) (Fin k) = Fin (1 + k). Proof. reflexivity. Qed.

Lemma rec_big D f k th e : 1 < k -> eps <= th ->
  rgamma_rec (N:=NS) G (Datatypes.S D) f (Fin k) (Fin th) e =
  match rgamma_loop (N:=NS) G f (Fin (k - 1 / 3)) (cF (k - 1 / 3)) e with
  | Some (V, e') => Some (mul (Num:=NS) (mul (Num:=NS) (Fin (k - 1 / 3)) V) (Fin th), e')
  | None => None
  end.
Proof.
  intros Hk Ht. cbn [rgamma_rec]. rewrite gamma_ok, lt1, rgamma_d_val by lra.
  rewrite (proj2 (Rltb_true _ _)) by lra. reflexivity.
Qed.
Lemma rec_small D f k th e u e1 : 0 < k <= 1 -> eps <= th -> unit_draw G e u e1 ->
  rgamma_rec (N:=NS) G (Datatypes.S D) f (Fin k) (Fin th) e =
  match rgamma_rec (N:=NS) G D f (Fin (1 + k)) (Fin th) e1 with
  | Some (X, e2) => Some (mul (Num:=NS) X (Fin (Rpower u (1 / k))), e2)
  | None => None
  end.
Proof.
  intros Hk Ht Du. pose proof (unit_draw_range S G OK _ _ _ Du) as U. cbn [rgamma_rec].
  rewrite gamma_ok, lt1, (runif01_det S G e u e1 Du), add1 by lra.
  rewrite (proj2 (Rltb_false _ _)) by lra. replace (pow (Num:=NS) (Fin u) _) with (Fin (Rpower u (1 / k))); auto.
  un_cls. rewrite ediv_F, epow_F by lra. reflexivity.
Qed.
Lemma rec_zero D f th e u e1 : eps <= th -> unit_draw G e u e1 ->
  rgamma_rec (N:=NS) G (Datatypes.S D) f (Fin 0) (Fin th) e =
  match rgamma_rec (N:=NS) G D f (Fin 1) (Fin th) e1 with
  | Some (X, e2) => Some (mul (Num:=NS) X (pow (Num:=NS) (Fin u) PInf), e2)
  | None => None
  end.
Proof.
  intros Ht Du. cbn [rgamma_rec].
  rewrite gamma_ok, lt1, (runif01_det S G e u e1 Du), add1 by lra.
  rewrite (proj2 (Rltb_false _ _)) by lra. replace (1 + 0) with 1 by lra.
  replace (div (Num:=NS) (ofZ (Num:=NS) 1) (Fin 0)) with PInf; auto. un_cls. now rewrite ediv_pos_0 by lra.
Qed.

(** Values returned, for positive shape. *)
Lemma rgamma_big_iff k th e v e' : 1 < k -> eps <= th ->
  (exists fuel, rgamma (N:=NS) G fuel (Fin k) (Fin th) e = Some (v, e')) <->
  exists x, v = Fin ((k - 1 / 3) * x * th) /\ accepts G (k - 1 / 3) e x e'.
Proof.
  intros Hk Ht. split.
  - intros [[|f] H]; [discriminate|]. unfold rgamma in H. rewrite rec_big in H by auto.
    destruct (rgamma_loop G _ _ _ e) as [[V e2]|] eqn:L; [|discriminate]. inversion H; subst.
    apply loop_sound in L; [|lra]. destruct L as (x & -> & A). exists x. split; auto.
  - intros (x & -> & A). destruct (loop_complete (k - 1 / 3) e x e' ltac:(lra) A) as [f L]. exists (Datatypes.S f).
    unfold rgamma. rewrite rec_big by auto. now rewrite (rgamma_loop_mono (N:=NS) G (Fin (k - 1 / 3)) (cF (k - 1 / 3)) f (Datatypes.S f) e _ ltac:(lia) L).
Qed.
Lemma rgamma_small_iff k th e v e' u e1 : 0 < k <= 1 -> eps <= th -> unit_draw G e u e1 ->
  (exists fuel, rgamma (N:=NS) G fuel (Fin k) (Fin th) e = Some (v, e')) <->
  exists x, v = Fin ((1 + k - 1 / 3) * x * th * Rpower u (1 / k)) /\ accepts G (1 + k - 1 / 3) e1 x e'.
Proof.
  intros Hk Ht Du. split.
  - intros [[|f] H]; [discriminate|]. unfold rgamma in H. rewrite (rec_small f _ k th e u e1) in H by auto.
    destruct (rgamma_rec G f _ _ _ e1) as [[X e2]|] eqn:R; [|discriminate]. inversion H; subst.
    apply (rgamma_rec_mono (N:=NS) G f (Datatypes.S f) _ (Datatypes.S f)) in R; try lia.
    destruct (proj1 (rgamma_big_iff (1 + k) th e1 X e' ltac:(lra) Ht)) as (x & -> & A); [eexists; exact R|].
    exists x. split; auto.
  - intros (x & -> & A). destruct (proj2 (rgamma_big_iff (1 + k) th e1 (Fin ((1 + k - 1 / 3) * x * th)) e' ltac:(lra) Ht)) as [f R]; [eauto|].
    exists (Datatypes.S f). unfold rgamma in *. rewrite (rec_small f _ k th e u e1) by auto.
    rewrite (rgamma_rec_mono (N:=NS) G f f f (Datatypes.S f) _ _ _ _ ltac:(lia) ltac:(lia) R). reflexivity.
Qed.

(** ** Termination *)
Lemma rgamma_big_returns k th e : 1 < k -> eps <= th ->
  ((exists fuel r, rgamma (N:=NS) G fuel (Fin k) (Fin th) e = Some r) <->
   exists x e', accepts G (k - 1 / 3) e x e').
Proof.
  intros Hk Ht. split.
  - intros (f & [v e'] & H). destruct (proj1 (rgamma_big_iff k th e v e' Hk Ht)) as (x & _ & A); eauto.
  - intros (x & e' & A). destruct (proj2 (rgamma_big_iff k th e (Fin ((k - 1 / 3) * x * th)) e' Hk Ht)) as (f & H); eauto.
Qed.
Lemma rgamma_small_returns k th e u e1 : 0 < k <= 1 -> eps <= th -> unit_draw G e u e1 ->
  ((exists fuel r, rgamma (N:=NS) G fuel (Fin k) (Fin th) e = Some r) <->
   exists x e', accepts G (1 + k - 1 / 3) e1 x e').
Proof.
  intros Hk Ht Du. split.
  - intros (f & [v e'] & H). destruct (proj1 (rgamma_small_iff k th e v e' u e1 Hk Ht Du)) as (x & _ & A); eauto.
  - intros (x & e' & A). destruct (proj2 (rgamma_small_iff k th e (Fin ((1 + k - 1 / 3) * x * th * Rpower u (1 / k))) e' u e1 Hk Ht Du)) as (f & H); eauto.
Qed.
Lemma rgamma_zero_returns th e u e1 u1 e2 : eps <= th -> unit_draw G e u e1 -> unit_draw G e1 u1 e2 ->
  ((exists fuel r, rgamma (N:=NS) G fuel (Fin 0) (Fin th) e = Some r) <->
   exists x e', accepts G (5 / 3) e2 x e').
Proof.
  intros Ht Du Du1. replace (5 / 3) with (1 + 1 - 1 / 3) by lra.
  rewrite <- (rgamma_small_returns 1 th e1 u1 e2) by (auto; lra). split.
  - intros ([|f] & r & H); [discriminate|]. unfold rgamma in H. rewrite (rec_zero f _ th e u e1) in H by auto.
    destruct (rgamma_rec G f _ _ _ e1) as [[X e3]|] eqn:R; [|discriminate].
    exists (Datatypes.S f), (X, e3). unfold rgamma. apply (rgamma_rec_mono (N:=NS) G f (Datatypes.S f) (Datatypes.S f) (Datatypes.S f)); auto; lia.
  - intros (f & [X e3] & R). exists (Datatypes.S f). eexists. unfold rgamma in *. rewrite (rec_zero f _ th e u e1) by auto.
    rewrite (rgamma_rec_mono (N:=NS) G f f f (Datatypes.S f) _ _ _ _ ltac:(lia) ltac:(lia) R). reflexivity.
Qed.
(** Recursion: none above 1, one call for a shape in (0,1], two for 0. *)
Lemma depth_big D f k th e : 1 < k -> eps <= th ->
  rgamma_rec (N:=NS) G (Datatypes.S D) f (Fin k) (Fin th) e = rgamma_rec (N:=NS) G 1 f (Fin k) (Fin th) e.
Proof. intros. now rewrite !rec_big. Qed.
Lemma depth_small D f k th e : 0 < k <= 1 -> eps <= th ->
  rgamma_rec (N:=NS) G (2 + D) f (Fin k) (Fin th) e = rgamma_rec (N:=NS) G 2 f (Fin k) (Fin th) e.
Proof.
  intros Hk Ht. destruct (runif01_ok S G OK e) as (u & e1 & Du & U & _). cbn [Nat.add].
  rewrite !(rec_small _ _ k th e u e1) by auto. now rewrite depth_big by lra.
Qed.
Lemma depth_zero D f th e : eps <= th ->
  rgamma_rec (N:=NS) G (3 + D) f (Fin 0) (Fin th) e = rgamma_rec (N:=NS) G 3 f (Fin 0) (Fin th) e.
Proof.
  intros Ht. destruct (runif01_ok S G OK e) as (u & e1 & Du & U & _). cbn [Nat.add].
  rewrite !(rec_zero _ _ th e u e1) by auto. now rewrite (depth_small D) by lra.
Qed.
Lemma rgamma_depth D f k th e : 0 <= k -> eps <= th ->
  rgamma_rec (N:=NS) G (3 + D) f (Fin k) (Fin th) e = rgamma_rec (N:=NS) G 3 f (Fin k) (Fin th) e.
Proof.
  intros Hk Ht. destruct (Rle_lt_dec k 1) as [L|L].
  - destruct Hk as [Hk|<-]; [|now apply depth_zero].
    change (3 + D)%nat with (2 + (1 + D))%nat. rewrite (depth_small (1 + D)) by lra.
    change 3%nat with (2 + 1)%nat. now rewrite (depth_small 1) by lra.
  - cbn [Nat.add]. rewrite (depth_big (2 + D)), (depth_big 2) by auto. auto.
Qed.

(** ** Support *)
Ltac some_inj H :=
  match type of H with Some (?a, ?b) = Some (?v, ?w) =>
    assert (v = a) by congruence; assert (w = b) by congruence; clear H; subst v w end.
Notation pos := (fun v : R => 0 < v).
Lemma rgamma_in k th : 0 < eps -> 0 < k -> eps <= th -> forall fuel, draws_in_if (rgamma (N:=NS) G fuel (Fin k) (Fin th)) pos.
Proof.
  intros He Hk Ht fuel e v e' H. destruct (Rle_lt_dec k 1) as [L|L].
  - destruct (runif01_ok S G OK e) as (u & e1 & Du & U & _).
    destruct (proj1 (rgamma_small_iff k th e v e' u e1 ltac:(lra) Ht Du)) as (x & -> & A); [eauto|].
    eexists; split; [reflexivity|]. apply accepts_pos in A.
    repeat apply Rmult_lt_0_compat; try lra. apply Rpower_pos.
  - destruct (proj1 (rgamma_big_iff k th e v e' L Ht)) as (x & -> & A); [eauto|].
    eexists; split; [reflexivity|]. apply accepts_pos in A. repeat apply Rmult_lt_0_compat; lra.
Qed.
Lemma rchisq_in d : 0 < eps <= 2 -> 0 < d -> forall fuel, draws_in_if (rchisq (N:=NS) G fuel (Fin d)) pos.
Proof.
  intros He Hd fuel e v e' H. unfold rchisq in H.
  replace (chisq_sanity1 (N:=NS) (Fin d)) with true in H by (un_cls; er_arith; rdecide; auto). cbn [negb] in H.
  replace (div (Num:=NS) (Fin d) (ofZ (Num:=NS) 2)) with (Fin (d / 2)) in H by (un_cls; er_arith; auto).
  change (ofZ (Num:=NS) 2) with (Fin 2) in H. eapply (rgamma_in (d / 2) 2); eauto; lra.
Qed.
Lemma rinvgamma_in k rate : 0 < eps -> 0 < k -> 0 < rate -> eps <= 1 / rate ->
  forall fuel, draws_in_if (rinvgamma (N:=NS) G fuel (Fin k) (Fin rate)) pos.
Proof.
  intros He Hk Hr Hr2 fuel e v e' H. unfold rinvgamma in H.
  replace (invgamma_sanity2 (N:=NS) (Fin k) (Fin rate)) with true in H by (un_cls; er_arith; rdecide; auto). cbn [negb] in H.
  replace (div (Num:=NS) (ofZ (Num:=NS) 1) (Fin rate)) with (Fin (1 / rate)) in H by (un_cls; er_arith; auto).
  destruct (rgamma G fuel _ _ e) as [[X e1]|] eqn:HR; [|discriminate]. some_inj H.
  destruct (rgamma_in k (1 / rate) He Hk Hr2 fuel _ _ _ HR) as (x & -> & Hx). exists (1 / x).
  split; [un_cls; er_arith; auto|]. apply Rdiv_lt_0_compat; lra.
Qed.
Lemma rinvgamma_nan k rate : 0 < rate -> 0 <= k -> 1 / rate < eps -> forall fuel e,
  rinvgamma (N:=NS) G (Datatypes.S fuel) (Fin k) (Fin rate) e = Some (NaN, e).
Proof.
  intros Hr Hk He fuel e. unfold rinvgamma, rgamma. cbn [rgamma_rec].
  replace (invgamma_sanity2 (N:=NS) (Fin k) (Fin rate)) with true by (un_cls; er_arith; rdecide; auto). cbn [negb].
  replace (div (Num:=NS) (ofZ (Num:=NS) 1) (Fin rate)) with (Fin (1 / rate)) by (un_cls; er_arith; auto).
  replace (gamma_sanity2 (N:=NS) (Fin k) (Fin (1 / rate))) with false by (un_cls; er_arith; rdecide; auto).
  cbn [negb]. reflexivity.
Qed.
Lemma rbeta_in a b : 0 < eps <= 1 -> 0 < a -> 0 < b ->
  forall fuel, draws_in_if (rbeta (N:=NS) G fuel (Fin a) (Fin b)) (fun v => 0 < v < 1).
Proof.
  intros He Ha Hb fuel e v e' H. unfold rbeta in H.
  replace (beta_sanity2 (N:=NS) (Fin a) (Fin b)) with true in H by (un_cls; er_arith; rdecide; auto). cbn [negb] in H.
  change (ofZ (Num:=NS) 1) with (Fin 1) in H.
  destruct (rgamma G fuel (Fin a) _ e) as [[X e1]|] eqn:HR; [|discriminate].
  destruct (rgamma G fuel (Fin b) _ e1) as [[Y e2]|] eqn:HR2; [|discriminate]. some_inj H.
  destruct (rgamma_in a 1 ltac:(lra) Ha ltac:(lra) fuel _ _ _ HR) as (x & -> & Hx).
  destruct (rgamma_in b 1 ltac:(lra) Hb ltac:(lra) fuel _ _ _ HR2) as (y & -> & Hy). exists (x / (x + y)).
  split; [un_cls; er_arith; auto|]. split; [apply Rdiv_lt_0_compat; lra|].
  apply (Rmult_lt_reg_r (x + y)); [lra|]. unfold Rdiv. rewrite Rmult_assoc, Rinv_l; lra.
Qed.
Lemma rf_in a b : 0 < eps <= 2 -> eps <= a -> eps <= b ->
  forall fuel, draws_in_if (rf (N:=NS) G fuel (Fin a) (Fin b)) pos.
Proof.
  intros He Ha Hb fuel e v e' H. unfold rf in H.
  replace (f_sanity2 (N:=NS) (Fin a) (Fin b)) with true in H by (un_cls; er_arith; rdecide; auto). cbn [negb] in H.
  destruct (rchisq G fuel (Fin a) e) as [[X e1]|] eqn:HR; [|discriminate].
  destruct (rchisq G fuel (Fin b) e1) as [[Y e2]|] eqn:HR2; [|discriminate]. some_inj H.
  destruct (rchisq_in a He ltac:(lra) fuel _ _ _ HR) as (x & -> & Hx).
  destruct (rchisq_in b He ltac:(lra) fuel _ _ _ HR2) as (y & -> & Hy). exists (b / a * x / y).
  split; [un_cls; er_arith; auto|]. apply Rdiv_lt_0_compat; [|lra]. apply Rmult_lt_0_compat; [|lra].
  apply Rdiv_lt_0_compat; lra.
Qed.
Lemma rt_in d : 0 < eps <= 2 -> eps <= d -> forall fuel, draws_in_if (rt (N:=NS) G fuel (Fin d)) (fun _ => True).
Proof.
  intros He Hd fuel e v e' H. unfold rt in H.
  replace (t_sanity1 (N:=NS) (Fin d)) with true in H by (un_cls; er_arith; rdecide; auto). cbn [negb] in H.
  destruct (norm_ex G OK e) as (z & e1 & Dz). rewrite (rnorm01_det S G e z e1 Dz) in H.
  destruct (rchisq G fuel (Fin d) e1) as [[X e2]|] eqn:HR; [|discriminate]. some_inj H.
  destruct (rchisq_in d He ltac:(lra) fuel _ _ _ HR) as (x & -> & Hx). eexists. split; [|auto].
  un_cls. assert (P : 0 < x / d) by (apply Rdiv_lt_0_compat; lra). pose proof (sqrt_lt_R0 _ P).
  rewrite (ediv_F x d), esqrt_F, ediv_F by lra. reflexivity.
Qed.

(** rinvgauss: the smaller root of lambda (x-mu)^2 = mu^2 y x *)
Definition ig_root (mu l y : R) : R := mu + (mu * mu * y - mu * R_sqrt.sqrt (4 * mu * l * y + mu * mu * y * y)) / (2 * l).
Lemma ig_root_pos mu l y : 0 < mu -> 0 < l -> 0 <= y -> 0 < ig_root mu l y <= mu.
Proof.
  intros Hm Hl Hy. unfold ig_root. set (D := 4 * mu * l * y + mu * mu * y * y).
  assert (HD : 0 <= D) by (unfold D; assert (0 <= mu * l) by nra; assert (0 <= mu * l * y) by nra; nra).
  pose proof (sqrt_sqrt D HD) as Hs. pose proof (sqrt_pos D) as Hp. set (s := R_sqrt.sqrt D) in *.
  assert (0 < mu * l) by nra. assert (0 <= mu * y) by nra.
  assert (B1 : mu * y <= s). { apply Rnot_lt_le. intros C. assert (s * s < mu * y * (mu * y)) by nra.
    unfold D in Hs. assert (0 <= mu * l * y) by nra. nra. }
  assert (B2 : s < 2 * l + mu * y). { apply Rnot_le_lt. intros C.
    assert ((2 * l + mu * y) * (2 * l + mu * y) <= s * s) by nra. unfold D in Hs. nra. }
  assert (I : 0 < / (2 * l)) by (apply Rinv_0_lt_compat; lra). unfold Rdiv.
  replace (mu * mu * y - mu * s) with (mu * (mu * y - s)) by ring. split.
  - assert (- 1 < (mu * y - s) * / (2 * l)).
    { apply (Rmult_lt_reg_r (2 * l)); [lra|]. rewrite Rmult_assoc, Rinv_l by lra. lra. }
    rewrite Rmult_assoc. nra.
  - assert ((mu * y - s) * / (2 * l) <= 0) by nra. rewrite Rmult_assoc. nra.
Qed.
Lemma ig_root_eq mu l y : 0 < mu -> 0 < l -> 0 <= y ->
  l * (ig_root mu l y - mu) ^ 2 = mu ^ 2 * y * ig_root mu l y.
Proof.
  intros Hm Hl Hy. unfold ig_root. set (D := 4 * mu * l * y + mu * mu * y * y).
  assert (HD : 0 <= D) by (unfold D; assert (0 <= mu * l) by nra; assert (0 <= mu * l * y) by nra; nra).
  pose proof (sqrt_sqrt D HD) as Hs. set (s := R_sqrt.sqrt D) in *.
  apply (Rmult_eq_reg_l (4 * l)); [|lra]. field_simplify; [|lra|lra].
  replace (s ^ 2) with D by (simpl; lra). unfold D. field.
Qed.
Lemma rinvgauss_val mu l e z e1 u e2 : 0 < mu -> 0 < l -> normal_draw G e z e1 -> unit_draw G e1 u e2 ->
  let x := ig_root mu l (z * z) in
  rinvgauss (N:=NS) G (Fin mu) (Fin l) e = (Fin (if Rle_dec u (mu / (mu + x)) then x else mu * mu / x), e2).
Proof.
  intros Hm Hl Dz Du x. pose proof (ig_root_pos mu l (z * z) Hm Hl ltac:(nra)) as P. fold x in P.
  unfold rinvgauss. rewrite (rnorm01_det S G e z e1 Dz), (runif01_det S G e1 u e2 Du).
  replace (rinvgauss_root (N:=NS) (Fin mu) (Fin l) (Fin z)) with (Fin x).
  - un_cls. rewrite eadd_F, emul_F, !ediv_F, eleb_F by lra. unfold Rleb. destruct Rle_dec; reflexivity.
  - unfold rinvgauss_root. un_cls. er_arith. rewrite esqrt_F; [|assert (0 <= mu * l) by nra; assert (0 <= z * z) by nra; assert (0 <= mu * l * (z * z)) by nra; nra].
    er_arith. unfold x, ig_root. auto.
Qed.
Lemma rinvgauss_in mu l : 0 < mu -> 0 < l -> draws_in (rinvgauss (N:=NS) G (Fin mu) (Fin l)) pos.
Proof.
  intros Hm Hl e. destruct (norm_ex G OK e) as (z & e1 & Dz). destruct (runif01_ok S G OK e1) as (u & e2 & Du & U & _).
  do 2 eexists. split; [eapply rinvgauss_val; eauto|]. cbv beta.
  pose proof (ig_root_pos mu l (z * z) Hm Hl ltac:(nra)). destruct Rle_dec; [lra|].
  apply Rdiv_lt_0_compat; nra.
Qed.
End S.

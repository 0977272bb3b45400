(** Poisson sampler; witnesses and the infinite shape. *)
From Coq Require Import Reals ZArith QArith Bool Lra Lia Psatz.
From Verif Require Import Num Sanity ER ERTac Prob Dens Quant Spec SpecER RealElem ClosedElem LogForm Support
  Discrete DiscreteQ Rand SpecRand RandER RandGamma.
Local Open Scope R_scope.

(** ** Engines for the examples *)
(** uniforms are midpoints, normals 0 *)
Definition mid : Rng ER unit :=
  {| g_unif := fun a b e => (match a, b with Fin x, Fin y => Fin ((x + y) / 2) | _, _ => NaN end, e);
     g_norm := fun e => (Fin 0, e); g_next := fun _ _ => Fin (1 / 4); g_mk := fun _ => tt |}.
Lemma mid_ok : rng_ok mid.
Proof.
  split.
  - exists (1 / 4). split; auto; lra.
  - intros a b e Hab. exists ((a + b) / 2), e. split; auto; lra.
  - intros e. exists 0, e. reflexivity.
Qed.
(** the state counts the calls; the first normal is -100, which is skipped, the others are 0 *)
Definition counting : Rng ER nat :=
  {| g_unif := fun a b e => (match a, b with Fin x, Fin y => Fin ((x + y) / 2) | _, _ => NaN end, Datatypes.S e);
     g_norm := fun e => (Fin (match e with O => -100 | _ => 0 end), Datatypes.S e); g_next := fun _ _ => Fin (1 / 4);
     g_mk := fun s => Z.to_nat s |}.
Lemma counting_ok : rng_ok counting.
Proof.
  split.
  - exists (1 / 4). split; auto; lra.
  - intros a b e Hab. exists ((a + b) / 2), (Datatypes.S e). split; auto; lra.
  - intros e. do 2 eexists. reflexivity.
Qed.
Lemma zero_accepted d u : 0 < u < 1 -> mt_accept d 0 u.
Proof.
  intros U. unfold mt_accept, mt_v. rewrite Rmult_0_r, Rplus_0_r, pow1, ln_1. split; [lra|].
  replace (1 / 2 * 0 * 0 + d * (1 - 1 + 0)) with 0 by lra. rewrite <- ln_1. apply ln_increasing; lra.
Qed.
Lemma mid_accepts d e : accepts mid d e 1 tt.
Proof.
  replace 1 with (mt_v d 0) by (unfold mt_v; rewrite Rmult_0_r, Rplus_0_r; lra).
  apply (acc_now mid d e 0 e ((1 / 4 + 1) / 2) tt); destruct e; [reflexivity|reflexivity|apply zero_accepted; lra].
Qed.
Lemma counting_accepts : accepts counting 1 0%nat 1 3%nat.
Proof.
  assert (C : mt_c 1 = 1 / 3) by (unfold mt_c; rewrite sqrt_1; lra).
  apply (acc_skip counting 1 0%nat (-100) 1%nat); [reflexivity|rewrite C; lra|].
  replace 1 with (mt_v 1 0) at 2 by (unfold mt_v; rewrite Rmult_0_r, Rplus_0_r; lra).
  apply (acc_now counting 1 1%nat 0 2%nat ((1 / 4 + 1) / 2) 3%nat); [reflexivity|reflexivity|apply zero_accepted; lra].
Qed.

Section S.
Variable S : SF.
Notation NS := (ER_Num S).
Notation eps := (sf_eps S).

(** Every valid parameter value has engines on which rgamma returns. *)
Lemma rgamma_returns_mid k th : 0 <= k -> eps <= th ->
  exists fuel r, rgamma (N:=NS) mid fuel (Fin k) (Fin th) tt = Some r.
Proof.
  intros Hk Ht. assert (U : unit_draw mid tt ((1 / 4 + 1) / 2) tt) by reflexivity.
  destruct (Rle_lt_dec k 1) as [L|L].
  - destruct Hk as [Hk|<-].
    + apply (rgamma_small_returns S mid mid_ok k th tt _ tt ltac:(lra) Ht U). do 2 eexists. apply mid_accepts.
    + apply (rgamma_zero_returns S mid mid_ok th tt _ tt _ tt Ht U U). do 2 eexists. apply mid_accepts.
  - apply (rgamma_big_returns S mid mid_ok k th tt L Ht). do 2 eexists. apply mid_accepts.
Qed.
Lemma rgamma_streams k th : 0 <= k -> eps <= th ->
  exists (E : Type) (G : Rng ER E) (e : E), rng_ok G /\ exists fuel r, rgamma (N:=NS) G fuel (Fin k) (Fin th) e = Some r.
Proof. intros. exists unit, mid, tt. split; [apply mid_ok|now apply rgamma_returns_mid]. Qed.

(** An infinite shape passes the sanity check and the loop never ends. *)
Lemma inf_round {E} (G : Rng ER E) e : rng_ok G ->
  fst (rgamma_round (N:=NS) G (rgamma_d (N:=NS) PInf) (rgamma_c (N:=NS) (rgamma_d (N:=NS) PInf)) e) = None.
Proof.
  intros OK.
  assert (Hd : rgamma_d (N:=NS) PInf = PInf) by (unfold rgamma_d; un_cls; rewrite ediv_F by lra; reflexivity).
  assert (Hc : rgamma_c (N:=NS) PInf = Fin 0) by (unfold rgamma_c; un_cls; rewrite ediv_F by lra; reflexivity).
  rewrite Hd, Hc. unfold rgamma_round. destruct (norm_ex G OK e) as (z & e1 & Dz).
  rewrite (rnorm01_det S G e z e1 Dz). destruct (ltb _ _); [|reflexivity].
  destruct (runif01_ok S G OK e1) as (u & e2 & Du & U & H). rewrite H. un_cls. er_arith.
  replace ((1 + 0 * z) ^ Z.to_nat 3) with 1 by (simpl; lra). rewrite elog_1. er_arith.
  replace (1 - 1 + 0) with 0 by lra.
  replace (emul PInf (Fin 0)) with NaN.
  - cbn [eadd eltb]. reflexivity.
  - cbv beta iota delta [emul scale_inf]. destruct Rlt_dec; [lra|auto].
Qed.
Lemma rgamma_inf {E} (G : Rng ER E) th e fuel : rng_ok G -> eps <= th ->
  rgamma (N:=NS) G fuel PInf (Fin th) e = None.
Proof.
  intros OK Ht. unfold rgamma. destruct fuel as [|f]; [reflexivity|]. cbn [rgamma_rec].
  replace (gamma_sanity2 (N:=NS) PInf (Fin th)) with true by (un_cls; er_red; rdecide; auto). cbn [negb].
  change (ltb (Num:=NS) (ofZ (Num:=NS) 1) PInf) with true. cbn match.
  assert (L : forall m e, rgamma_loop (N:=NS) G m (rgamma_d (N:=NS) PInf) (rgamma_c (N:=NS) (rgamma_d (N:=NS) PInf)) e = None).
  { induction m as [|m IH]; intros e0; [reflexivity|]. cbn [rgamma_loop].
    pose proof (inf_round G e0 OK) as R. destruct (rgamma_round _ _ _ e0) as [[v|] e1]; [discriminate|apply IH]. }
  now rewrite L.
Qed.
Lemma rgamma_inf_refuted : 0 < eps -> exists (E : Type) (G : Rng ER E) (e : E) (shape scale : ER), rng_ok G /\
  gamma_sanity2 (N:=NS) shape scale = true /\ (exists v e', accepts G 1 e v e') /\
  forall fuel, rgamma (N:=NS) G fuel shape scale e = None.
Proof.
  intros He. exists unit, mid, tt, PInf, (Fin eps). split; [apply mid_ok|].
  split; [un_cls; er_red; rdecide; auto|]. split; [do 2 eexists; apply mid_accepts|].
  intros fuel. apply rgamma_inf; [apply mid_ok|lra].
Qed.

(** ** Support of rpois *)
Definition trunc_nonneg (tr : ER -> option Z) : Prop := forall v s, Ele (Fin 0) v -> tr v = Some s -> (0 <= s)%Z.
Lemma qpois_search_int (p r : ER) : forall fuel v c res, (0 <= c)%Z -> qpois_search (N:=NS) fuel p r v c = Some res ->
  exists j, res = Fin (IZR j) /\ (0 <= j)%Z.
Proof.
  induction fuel as [|f IH]; intros v c res Hc H; [discriminate|]. cbn [qpois_search] in H.
  destruct (leb v p); [eapply IH; [|exact H]; lia|]. destruct (Z.ltb_spec 0 c) as [L|L].
  - inversion H. exists (c - 1)%Z. split; auto; lia.
  - inversion H. exists 0%Z. split; auto; lia.
Qed.
Lemma rpois_in {E} (G : Rng ER E) (OK : rng_ok G) tr rate : 0 <= rate -> trunc_nonneg tr ->
  forall fuel, draws_in_if (rpois (N:=NS) G tr fuel (Fin rate)) (fun v => exists j, v = IZR j /\ (0 <= j)%Z).
Proof.
  intros Hr Ht fuel e v e' H. unfold rpois in H.
  replace (pois_sanity (N:=NS) (Fin rate)) with true in H by (un_cls; er_arith; rdecide; auto). cbn [negb] in H.
  destruct (runif01_ok S G OK e) as (u & e1 & Du & U & R). rewrite R in H.
  destruct (qpois_run tr fuel (Fin u) (Fin rate)) as [q|] eqn:Q; [|discriminate].
  assert (v = q) by congruence. subst v. clear H.
  enough (exists j, q = Fin (IZR j) /\ (0 <= j)%Z) as (j & -> & Hj) by (exists (IZR j); split; eauto).
  unfold qpois_run in Q.
  replace (pois_sanity (N:=NS) (Fin rate)) with true in Q by (un_cls; er_arith; rdecide; auto).
  replace (prob_val_check (N:=NS) (Fin u)) with true in Q by (un_cls; er_arith; rdecide; auto). cbn [negb] in Q.
  replace (eqb (Num:=NS) (Fin u) (ofZ (Num:=NS) 0)) with false in Q by (un_cls; er_arith; rdecide; auto).
  replace (eqb (Num:=NS) (Fin u) (ofZ (Num:=NS) 1)) with false in Q by (un_cls; er_arith; rdecide; auto).
  destruct (ltb (Fin rate) epsilon).
  { inversion Q. exists 0%Z. split; auto; lia. }
  destruct (ltb (Fin rate) _); [eapply qpois_search_int; [|exact Q]; lia|].
  destruct (tr _) as [s|] eqn:T; [|discriminate]. eapply qpois_search_int; [|exact Q].
  eapply Ht; [|exact T]. unfold qpois_normal_approx, tmax. change (ofZ (Num:=NS) 0) with (Fin 0).
  destruct (ltb _ _) eqn:L.
  - destruct (sub _ _) eqn:X; unfold Ele; cbn in *; auto; try discriminate.
    apply Rltb_true in L. apply Rleb_true. lra.
  - apply Ele_Fin. lra.
Qed.

(** ** Distribution of rpois below rate 11 *)
Lemma rpois_dist {E} (G : Rng ER E) (OK : rng_ok G) tr rate : incgamma_int_ok S -> 0 < rate < 11 -> eps <= rate ->
  forall e, exists u e' fuel k, unit_draw G e u e' /\ 0 < u < 1 /\
    rpois (N:=NS) G tr fuel (Fin rate) e = Some (Fin (IZR k), e') /\ (0 <= k)%Z /\
    forall j : nat, (k <= Z.of_nat j)%Z <-> u < sum_f_R0 (pois_pmf rate) j.
Proof.
  intros IG Hr He e. destruct (runif01_ok S G OK e) as (u & e1 & Du & U & R).
  destruct (qpois_small S IG tr rate u Hr He U) as (fuel & k & Q & Hk & H1 & H2).
  exists u, e1, fuel, k. split; [auto|]. split; [auto|]. split; [|split; [auto|]].
  - unfold rpois. replace (pois_sanity (N:=NS) (Fin rate)) with true by (un_cls; er_arith; rdecide; auto). cbn [negb].
    now rewrite R, Q.
  - assert (V : forall j : nat, ppois (N:=NS) (Z.of_nat j) (Fin rate) false = Fin (sum_f_R0 (pois_pmf rate) j)).
    { intros j. rewrite (ppois_val S j rate false IG) by lra. reflexivity. }
    replace k with (Z.of_nat (Z.to_nat k)) in H1 by lia. rewrite V in H1. apply Elt_Fin in H1.
    intros j. split; intros L.
    + eapply Rlt_le_trans; [exact H1|]. apply (G_mono rate); [lra|lia].
    + apply Z.le_ngt. intros C. specialize (H2 (Z.of_nat j) ltac:(lia) C). rewrite V in H2. apply Ele_Fin in H2. lra.
Qed.
End S.

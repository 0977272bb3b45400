(** Properties of the elementary continuous families (exponential, uniform,
    Laplace, logistic, Cauchy, Weibull): ranges, monotonicity, derivatives,
    inverses, symmetry, location-scale equivariance. *)
From Coq Require Import Reals ZArith QArith Bool Lra Lia Psatz.
From Coquelicot Require Import Coquelicot.
From Verif Require Import Num Sanity ER ERTac Prob Dens Quant Spec SpecER ClosedElem RealElem
  LogForm Support.
Local Open Scope R_scope.

(** ** Generic: a CDF given by a real function *)
Definition cdf_like (F : ER -> ER) (G : R -> R) : Prop :=
  (forall x, F (Fin x) = Fin (G x)) /\ F MInf = Fin 0 /\ F PInf = Fin 1 /\
  (forall x, 0 <= G x <= 1) /\ (forall x y, x <= y -> G x <= G y).
Lemma cdf_like_unit F G : cdf_like F G -> unit_valued F.
Proof.
  intros (H & HM & HP & Hr & _) [| | |x] Hx; [tauto| | |].
  - exists 1. split; auto. lra.
  - exists 0. split; auto. lra.
  - exists (G x). auto.
Qed.
Lemma cdf_like_mono F G : cdf_like F G -> monotone F.
Proof.
  intros (H & HM & HP & Hr & Hm) [| | |x] [| | |y] Hxy; try discriminate Hxy;
    rewrite ?HM, ?HP, ?H; apply Ele_Fin; try lra; try apply Hr.
  apply Ele_Fin in Hxy. now apply Hm.
Qed.
Lemma qf_like_intro q (Q : R -> R) lo hi :
  q (Fin 0) = lo -> q (Fin 1) = hi -> Ele lo lo -> Ele hi hi -> Ele lo hi ->
  (forall p, 0 < p < 1 -> q (Fin p) = Fin (Q p)) ->
  (forall p, 0 < p < 1 -> Ele lo (Fin (Q p)) /\ Ele (Fin (Q p)) hi) ->
  (forall p1 p2, 0 < p1 -> p1 <= p2 -> p2 < 1 -> Q p1 <= Q p2) ->
  quantile_like q lo hi.
Proof.
  intros H0 H1 Hll Hhh Hlh Hq Hr Hm.
  assert (Hb : forall p, 0 <= p <= 1 -> Ele lo (q (Fin p)) /\ Ele (q (Fin p)) hi).
  { intros p Hp. destruct (Req_dec p 0) as [->|]; [rewrite H0; auto|].
    destruct (Req_dec p 1) as [->|]; [rewrite H1; auto|].
    rewrite Hq by lra. apply Hr. lra. }
  repeat split; auto; try (apply Hb; auto; fail).
  intros p1 p2 A B C. destruct (Req_dec p1 0) as [->|]; [rewrite H0; apply Hb; lra|].
  destruct (Req_dec p2 1) as [->|]; [rewrite H1; apply Hb; lra|].
  rewrite !Hq by lra. apply Ele_Fin, Hm; lra.
Qed.
Lemma density_of_intro F f (G : R -> R) x g :
  locally x (fun y => F (Fin y) = Fin (G y)) -> f (Fin x) = Fin g -> is_derive G x g ->
  density_of F f x.
Proof. intros. now exists G, g. Qed.
Lemma locally_all (P : R -> Prop) x : (forall y, P y) -> locally x P.
Proof. intros. exists (mkposreal 1 Rlt_0_1). auto. Qed.
Lemma locally_gt (P : R -> Prop) c x : c < x -> (forall y, c < y -> P y) -> locally x P.
Proof.
  intros Hc H. assert (He : 0 < x - c) by lra. exists (mkposreal _ He). intros y Hy.
  apply H. unfold ball in Hy. cbn in Hy. unfold AbsRing_ball, abs, minus, plus, opp in Hy.
  cbn in Hy. apply Rabs_def2 in Hy. lra.
Qed.
Lemma locally_lt (P : R -> Prop) c x : x < c -> (forall y, y < c -> P y) -> locally x P.
Proof.
  intros Hc H. assert (He : 0 < c - x) by lra. exists (mkposreal _ He). intros y Hy.
  apply H. unfold ball in Hy. cbn in Hy. unfold AbsRing_ball, abs, minus, plus, opp in Hy.
  cbn in Hy. apply Rabs_def2 in Hy. lra.
Qed.
Lemma locally_between (P : R -> Prop) a b x : a < x < b -> (forall y, a < y < b -> P y) -> locally x P.
Proof.
  intros Hx H. apply (filter_imp (fun y => a < y /\ y < b)); [auto|].
  apply filter_and; [apply (locally_gt _ a)|apply (locally_lt _ b)]; auto; lra.
Qed.

Section S.
Variable S : SF.
Notation NS := (ER_Num S).
Notation eps := (sf_eps S).

(** *** Exponential *)
Definition exp_G r x := if Rle_dec x 0 then 0 else exp_cdf r x.
Lemma pexp_like r : 0 < r -> cdf_like (fun x => pexp (N:=NS) x (Fin r) false) (exp_G r).
Proof.
  intros Hr. repeat split.
  - intros x. unfold exp_G. destruct Rle_dec; [rewrite pexp_low|rewrite pexp_val]; auto; lra.
  - rewrite pexp_below by (lra || reflexivity). reflexivity.
  - rewrite pexp_above by auto. reflexivity.
  - unfold exp_G. destruct Rle_dec; [lra|]. apply exp_cdf_range; lra.
  - unfold exp_G. destruct Rle_dec; [lra|]. pose proof (exp_cdf_range r x). lra.
  - intros x y Hxy. unfold exp_G. destruct (Rle_dec x 0), (Rle_dec y 0); try lra.
    + apply exp_cdf_range; lra.
    + apply exp_cdf_mono; lra.
Qed.
Lemma pexp_density r x : 0 < r -> 0 < x ->
  density_of (fun y => pexp (N:=NS) y (Fin r) false) (fun y => dexp (N:=NS) y (Fin r) false) x.
Proof.
  intros. apply (density_of_intro _ _ (exp_cdf r) x (exp_pdf r x)).
  - apply (locally_gt _ 0); auto. intros. rewrite pexp_val by (auto; lra). reflexivity.
  - rewrite dexp_val by (auto; lra). reflexivity.
  - apply exp_cdf_derive.
Qed.
Lemma pexp_qexp r p : 0 < r -> 0 < p < 1 ->
  pexp (N:=NS) (qexp (N:=NS) (Fin p) (Fin r)) (Fin r) false = Fin p.
Proof.
  intros. rewrite qexp_val by auto. pose proof (exp_qf_pos r p).
  rewrite pexp_val by (auto; lra). unfold val. now rewrite exp_cdf_qf.
Qed.
Lemma qexp_pexp r x : 0 < r -> 0 < x ->
  qexp (N:=NS) (pexp (N:=NS) (Fin x) (Fin r) false) (Fin r) = Fin x.
Proof.
  intros. rewrite pexp_val by (auto; lra). unfold val.
  pose proof (exp_cdf_range r x ltac:(lra) ltac:(lra)). pose proof (exp_cdf_pos r x).
  rewrite qexp_val by (auto; lra). now rewrite exp_qf_cdf.
Qed.
Lemma qexp_like r : 0 < r -> quantile_like (fun p => qexp (N:=NS) p (Fin r)) (Fin 0) PInf.
Proof.
  intros Hr. apply (qf_like_intro _ (exp_qf r)); try reflexivity.
  - unfold qexp. un_cls. er_arith. rdecide. reflexivity.
  - unfold qexp. un_cls. er_arith. rdecide. reflexivity.
  - apply Ele_Fin. lra.
  - intros. now apply qexp_val.
  - intros p Hp. split; [|reflexivity]. apply Ele_Fin. left. now apply exp_qf_pos.
  - intros. apply exp_qf_mono; auto.
Qed.

(** *** Uniform *)
Definition unif_G a b x := if Rle_dec x a then 0 else if Rlt_dec x b then unif_cdf a b x else 1.
Lemma punif_like a b : a < b -> cdf_like (fun x => punif (N:=NS) x (Fin a) (Fin b) false) (unif_G a b).
Proof.
  intros Hab. repeat split.
  - intros x. unfold unif_G. destruct Rle_dec; [rewrite punif_low; auto|].
    destruct Rlt_dec; [rewrite punif_val|rewrite punif_high]; auto; lra.
  - rewrite punif_below by (auto; reflexivity). reflexivity.
  - rewrite punif_above by (auto; reflexivity). reflexivity.
  - unfold unif_G. destruct Rle_dec; [lra|]. destruct Rlt_dec; [|lra]. apply unif_cdf_range; lra.
  - unfold unif_G. destruct Rle_dec; [lra|]. destruct Rlt_dec; [|lra]. apply unif_cdf_range; lra.
  - intros x y Hxy. unfold unif_G.
    destruct (Rle_dec x a), (Rlt_dec x b), (Rle_dec y a), (Rlt_dec y b); try lra;
      try (apply unif_cdf_range; lra). apply unif_cdf_mono; lra.
Qed.
Lemma punif_density a b x : a < x < b ->
  density_of (fun y => punif (N:=NS) y (Fin a) (Fin b) false)
    (fun y => dunif (N:=NS) y (Fin a) (Fin b) false) x.
Proof.
  intros. apply (density_of_intro _ _ (unif_cdf a b) x (unif_pdf a b)).
  - apply (locally_between _ a b); auto. intros. rewrite punif_val by (auto; lra). reflexivity.
  - rewrite dunif_val by (auto; lra). reflexivity.
  - apply unif_cdf_derive. lra.
Qed.
Lemma punif_qunif a b p : a < b -> 0 < p < 1 ->
  punif (N:=NS) (qunif (N:=NS) (Fin p) (Fin a) (Fin b)) (Fin a) (Fin b) false = Fin p.
Proof.
  intros. rewrite qunif_val by (auto; lra). pose proof (unif_qf_srange a b p).
  rewrite punif_val by (auto; lra). unfold val. now rewrite unif_cdf_qf.
Qed.
Lemma qunif_punif a b x : a < x < b ->
  qunif (N:=NS) (punif (N:=NS) (Fin x) (Fin a) (Fin b) false) (Fin a) (Fin b) = Fin x.
Proof.
  intros. rewrite punif_val by (auto; lra). unfold val.
  pose proof (unif_cdf_srange a b x ltac:(lra) ltac:(lra)).
  rewrite qunif_val by lra. rewrite unif_qf_cdf by lra. reflexivity.
Qed.
Lemma qunif_like a b : a < b ->
  quantile_like (fun p => qunif (N:=NS) p (Fin a) (Fin b)) (Fin a) (Fin b).
Proof.
  intros Hab. apply (qf_like_intro _ (unif_qf a b)); try (apply Ele_Fin; lra).
  - rewrite qunif_val by lra. unfold unif_qf. f_equal. ring.
  - rewrite qunif_val by lra. unfold unif_qf. f_equal. ring.
  - intros. apply qunif_val; lra.
  - intros p Hp. pose proof (unif_qf_range a b p Hab). split; apply Ele_Fin; lra.
  - intros. now apply unif_qf_mono.
Qed.

(** *** Laplace, logistic, Cauchy *)
Lemma plaplace_like mu s : 0 < s ->
  cdf_like (fun x => plaplace (N:=NS) x (Fin mu) (Fin s) false) (laplace_cdf mu s).
Proof.
  intros Hs. repeat split.
  - intros. now apply plaplace_val.
  - apply (plaplace_ends S mu s false); lra.
  - apply (plaplace_ends S mu s false); lra.
  - left. now apply laplace_cdf_range.
  - left. now apply laplace_cdf_range.
  - intros. now apply laplace_cdf_mono.
Qed.
Lemma plogis_like mu s : 0 < s ->
  cdf_like (fun x => plogis (N:=NS) x (Fin mu) (Fin s) false) (logis_cdf mu s).
Proof.
  intros Hs. repeat split.
  - intros. now apply plogis_val.
  - apply (plogis_ends S mu s false); lra.
  - apply (plogis_ends S mu s false); lra.
  - left. now apply logis_cdf_range.
  - left. now apply logis_cdf_range.
  - intros. now apply logis_cdf_mono.
Qed.
Lemma pcauchy_like mu s : 0 < s ->
  cdf_like (fun x => pcauchy (N:=NS) x (Fin mu) (Fin s) false) (cauchy_cdf mu s).
Proof.
  intros Hs. repeat split.
  - intros. now apply pcauchy_val.
  - apply (pcauchy_ends S mu s false); lra.
  - apply (pcauchy_ends S mu s false); lra.
  - left. now apply cauchy_cdf_range.
  - left. now apply cauchy_cdf_range.
  - intros. now apply cauchy_cdf_mono.
Qed.
Lemma plaplace_density mu s x : 0 < s -> x <> mu ->
  density_of (fun y => plaplace (N:=NS) y (Fin mu) (Fin s) false)
    (fun y => dlaplace (N:=NS) y (Fin mu) (Fin s) false) x.
Proof.
  intros. apply (density_of_intro _ _ (laplace_cdf mu s) x (laplace_pdf mu s x)).
  - apply locally_all. intros. now apply plaplace_val.
  - now apply dlaplace_val.
  - now apply laplace_cdf_derive.
Qed.
Lemma plogis_density mu s x : 0 < s ->
  density_of (fun y => plogis (N:=NS) y (Fin mu) (Fin s) false)
    (fun y => dlogis (N:=NS) y (Fin mu) (Fin s) false) x.
Proof.
  intros. apply (density_of_intro _ _ (logis_cdf mu s) x (logis_pdf mu s x)).
  - apply locally_all. intros. now apply plogis_val.
  - now apply dlogis_val.
  - now apply logis_cdf_derive.
Qed.
Lemma pcauchy_density mu s x : 0 < s ->
  density_of (fun y => pcauchy (N:=NS) y (Fin mu) (Fin s) false)
    (fun y => dcauchy (N:=NS) y (Fin mu) (Fin s) false) x.
Proof.
  intros. apply (density_of_intro _ _ (cauchy_cdf mu s) x (cauchy_pdf mu s x)).
  - apply locally_all. intros. now apply pcauchy_val.
  - now apply dcauchy_val.
  - now apply cauchy_cdf_derive.
Qed.
Lemma plaplace_qlaplace mu s p : 0 < s -> 0 < p < 1 ->
  plaplace (N:=NS) (qlaplace (N:=NS) (Fin p) (Fin mu) (Fin s)) (Fin mu) (Fin s) false = Fin p.
Proof.
  intros. rewrite qlaplace_val, plaplace_val by auto. unfold val. now rewrite laplace_cdf_qf.
Qed.
Lemma plogis_qlogis mu s p : 0 < s -> 0 < p < 1 ->
  plogis (N:=NS) (qlogis (N:=NS) (Fin p) (Fin mu) (Fin s)) (Fin mu) (Fin s) false = Fin p.
Proof.
  intros. rewrite qlogis_val, plogis_val by auto. unfold val. now rewrite logis_cdf_qf.
Qed.
Lemma pcauchy_qcauchy mu s p : 0 < s -> 0 < p < 1 ->
  pcauchy (N:=NS) (qcauchy (N:=NS) (Fin p) (Fin mu) (Fin s)) (Fin mu) (Fin s) false = Fin p.
Proof.
  intros. rewrite qcauchy_val, pcauchy_val by auto. unfold val. now rewrite cauchy_cdf_qf.
Qed.
Lemma qlaplace_plaplace mu s x : 0 < s ->
  qlaplace (N:=NS) (plaplace (N:=NS) (Fin x) (Fin mu) (Fin s) false) (Fin mu) (Fin s) = Fin x.
Proof.
  intros. rewrite plaplace_val by auto. unfold val.
  rewrite qlaplace_val by (auto; now apply laplace_cdf_range). now rewrite laplace_qf_cdf.
Qed.
Lemma qlogis_plogis mu s x : 0 < s ->
  qlogis (N:=NS) (plogis (N:=NS) (Fin x) (Fin mu) (Fin s) false) (Fin mu) (Fin s) = Fin x.
Proof.
  intros. rewrite plogis_val by auto. unfold val.
  rewrite qlogis_val by (auto; now apply logis_cdf_range). now rewrite logis_qf_cdf.
Qed.
Lemma qcauchy_pcauchy mu s x : 0 < s ->
  qcauchy (N:=NS) (pcauchy (N:=NS) (Fin x) (Fin mu) (Fin s) false) (Fin mu) (Fin s) = Fin x.
Proof.
  intros. rewrite pcauchy_val by auto. unfold val.
  rewrite qcauchy_val by (auto; now apply cauchy_cdf_range). now rewrite cauchy_qf_cdf.
Qed.
Lemma qlaplace_like mu s : 0 < s ->
  quantile_like (fun p => qlaplace (N:=NS) p (Fin mu) (Fin s)) MInf PInf.
Proof.
  intros Hr. apply (qf_like_intro _ (laplace_qf mu s)); try reflexivity.
  - unfold qlaplace. un_cls. er_arith. rdecide. reflexivity.
  - unfold qlaplace. un_cls. er_arith. rdecide. reflexivity.
  - intros. now apply qlaplace_val.
  - intros p Hp. split; reflexivity.
  - intros. now apply laplace_qf_mono.
Qed.
Lemma qlogis_like mu s : 0 < s ->
  quantile_like (fun p => qlogis (N:=NS) p (Fin mu) (Fin s)) MInf PInf.
Proof.
  intros Hr. apply (qf_like_intro _ (logis_qf mu s)); try reflexivity.
  - unfold qlogis. un_cls. er_arith. rdecide. reflexivity.
  - unfold qlogis. un_cls. er_arith. rdecide. reflexivity.
  - intros. now apply qlogis_val.
  - intros p Hp. split; reflexivity.
  - intros. now apply logis_qf_mono.
Qed.
Lemma qcauchy_like mu s : 0 < s ->
  quantile_like (fun p => qcauchy (N:=NS) p (Fin mu) (Fin s)) MInf PInf.
Proof.
  intros Hr. apply (qf_like_intro _ (cauchy_qf mu s)); try reflexivity.
  - unfold qcauchy. un_cls. er_arith. rdecide. reflexivity.
  - unfold qcauchy. un_cls. er_arith. rdecide. reflexivity.
  - intros. now apply qcauchy_val.
  - intros p Hp. split; reflexivity.
  - intros. now apply cauchy_qf_mono.
Qed.

(** *** Weibull; the CDF is cut off below epsilon (pweibull.ipp) *)
Definition weibull_G k th x := if Rlt_dec x eps then 0 else weibull_cdf k th x.
Lemma pweibull_like k th : 0 < eps -> eps <= k -> eps <= th ->
  cdf_like (fun x => pweibull (N:=NS) x (Fin k) (Fin th) false) (weibull_G k th).
Proof.
  intros He Hk Ht. repeat split.
  - intros x. unfold weibull_G. destruct Rlt_dec; [rewrite pweibull_low|rewrite pweibull_val];
      auto; lra.
  - rewrite pweibull_below by (auto; reflexivity). reflexivity.
  - rewrite pweibull_above by auto. reflexivity.
  - unfold weibull_G. destruct Rlt_dec; [lra|]. left. apply weibull_cdf_range.
  - unfold weibull_G. destruct Rlt_dec; [lra|]. left. apply weibull_cdf_range.
  - intros x y Hxy. unfold weibull_G. destruct (Rlt_dec x eps), (Rlt_dec y eps); try lra.
    + left. apply weibull_cdf_range.
    + apply weibull_cdf_mono; lra.
Qed.
Lemma pweibull_density k th x : 0 < eps -> eps <= k -> eps <= th -> eps < x ->
  density_of (fun y => pweibull (N:=NS) y (Fin k) (Fin th) false)
    (fun y => dweibull (N:=NS) y (Fin k) (Fin th) false) x.
Proof.
  intros. apply (density_of_intro _ _ (weibull_cdf k th) x (weibull_pdf k th x)).
  - apply (locally_gt _ eps); auto. intros. rewrite pweibull_val by (auto; lra).
    reflexivity.
  - rewrite dweibull_val by (auto; lra). reflexivity.
  - apply weibull_cdf_derive; lra.
Qed.
(** in (0,eps) the returned CDF is constant while the density is positive *)
Lemma pweibull_density_bad k th x : 0 < eps -> eps <= k -> eps <= th -> 0 < x < eps ->
  ~ density_of (fun y => pweibull (N:=NS) y (Fin k) (Fin th) false)
    (fun y => dweibull (N:=NS) y (Fin k) (Fin th) false) x.
Proof.
  intros He Hk Ht Hx (G & g & HG & Hg & Hd).
  rewrite dweibull_val in Hg by (auto; lra). injection Hg as Hg.
  assert (Hp : 0 < weibull_pdf k th x) by (apply weibull_pdf_pos; lra).
  assert (H0 : is_derive (fun _ : R => 0) x g).
  { apply (is_derive_ext_loc G); auto.
    assert (locally x (fun y => pweibull (N:=NS) (Fin y) (Fin k) (Fin th) false = Fin 0)) as H0.
    { apply (locally_lt _ eps); [lra|]. intros y Hy. rewrite pweibull_low by auto. reflexivity. }
    generalize (filter_and _ _ HG H0). apply filter_imp. intros y [A B]. congruence. }
  pose proof (is_derive_unique _ _ _ H0) as H1. rewrite Derive_const in H1. lra.
Qed.
Lemma pweibull_qweibull k th p : 0 < eps -> eps <= k -> eps <= th -> 0 < p < 1 ->
  Ele (Fin eps) (qweibull (N:=NS) (Fin p) (Fin k) (Fin th)) ->
  pweibull (N:=NS) (qweibull (N:=NS) (Fin p) (Fin k) (Fin th)) (Fin k) (Fin th) false = Fin p.
Proof.
  intros He Hk Ht Hp. rewrite qweibull_val by auto. intros Hq. apply Ele_Fin in Hq.
  rewrite pweibull_val by auto. unfold val. rewrite weibull_cdf_qf; auto; lra.
Qed.
Lemma qweibull_pweibull k th x : 0 < eps -> eps <= k -> eps <= th -> eps <= x ->
  qweibull (N:=NS) (pweibull (N:=NS) (Fin x) (Fin k) (Fin th) false) (Fin k) (Fin th) = Fin x.
Proof.
  intros. rewrite pweibull_val by auto. unfold val.
  rewrite qweibull_val by (auto; apply weibull_cdf_range). rewrite weibull_qf_cdf; auto; lra.
Qed.
Lemma qweibull_like k th : 0 < eps -> eps <= k -> eps <= th ->
  quantile_like (fun p => qweibull (N:=NS) p (Fin k) (Fin th)) (Fin 0) PInf.
Proof.
  intros He Hk Ht. apply (qf_like_intro _ (weibull_qf k th)); try reflexivity.
  - unfold qweibull. un_cls. er_arith. rdecide. reflexivity.
  - unfold qweibull. un_cls. er_arith. rdecide. reflexivity.
  - apply Ele_Fin. lra.
  - intros. now apply qweibull_val.
  - intros p Hp. split; [|reflexivity]. apply Ele_Fin. left. apply weibull_qf_pos. lra.
  - intros. apply weibull_qf_mono; auto; lra.
Qed.
End S.

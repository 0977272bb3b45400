(** C05: CDF values below and above the support and at the infinities (exact arithmetic). *)
From Coq Require Import Reals ZArith QArith Bool Lra Lia.
From Verif Require Import Num Sanity Prob Dens Quant ER ERTac Spec SpecER Witness.
From Verif Require Import ClosedElem LogForm Support NonNeg Degenerate Refute Support2.
Local Open Scope R_scope.

Theorem C05_pnorm_ends : forall (S : SF) mu s lf,
  0 <= s -> pnorm (N:=ER_Num S) MInf (Fin mu) (Fin s) lf = zero_form lf /\ pnorm (N:=ER_Num S)
  PInf (Fin mu) (Fin s) lf = one_form lf.
Proof. exact pnorm_ends. Qed.
Print Assumptions C05_pnorm_ends.
Example C05_pnorm_ends_ex :
  pnorm (N:=ER_Num SF0) MInf (Fin 3) (Fin 2) true = zero_form true /\ pnorm (N:=ER_Num SF0)
  PInf (Fin 3) (Fin 2) true = one_form true.
Proof. apply C05_pnorm_ends; ex_side. Qed.

Theorem C05_plaplace_ends : forall (S : SF) mu s lf,
  0 <= s -> plaplace (N:=ER_Num S) MInf (Fin mu) (Fin s) lf = zero_form lf /\ plaplace
  (N:=ER_Num S) PInf (Fin mu) (Fin s) lf = one_form lf.
Proof. exact plaplace_ends. Qed.
Print Assumptions C05_plaplace_ends.
Example C05_plaplace_ends_ex :
  plaplace (N:=ER_Num SF0) MInf (Fin 3) (Fin 2) true = zero_form true /\ plaplace (N:=ER_Num
  SF0) PInf (Fin 3) (Fin 2) true = one_form true.
Proof. apply C05_plaplace_ends; ex_side. Qed.

Theorem C05_plogis_ends : forall (S : SF) mu s lf,
  0 <= s -> plogis (N:=ER_Num S) MInf (Fin mu) (Fin s) lf = zero_form lf /\ plogis (N:=ER_Num
  S) PInf (Fin mu) (Fin s) lf = one_form lf.
Proof. exact plogis_ends. Qed.
Print Assumptions C05_plogis_ends.
Example C05_plogis_ends_ex :
  plogis (N:=ER_Num SF0) MInf (Fin 3) (Fin 2) false = zero_form false /\ plogis (N:=ER_Num SF0)
  PInf (Fin 3) (Fin 2) false = one_form false.
Proof. apply C05_plogis_ends; ex_side. Qed.

Theorem C05_pcauchy_ends : forall (S : SF) mu s lf,
  0 <= s -> pcauchy (N:=ER_Num S) MInf (Fin mu) (Fin s) lf = zero_form lf /\ pcauchy (N:=ER_Num
  S) PInf (Fin mu) (Fin s) lf = one_form lf.
Proof. exact pcauchy_ends. Qed.
Print Assumptions C05_pcauchy_ends.
Example C05_pcauchy_ends_ex :
  pcauchy (N:=ER_Num SF0) MInf (Fin 3) (Fin 2) true = zero_form true /\ pcauchy (N:=ER_Num SF0)
  PInf (Fin 3) (Fin 2) true = one_form true.
Proof. apply C05_pcauchy_ends; ex_side. Qed.

Theorem C05_pt_ends : forall (S : SF) d lf,
  (sf_eps S) <= d -> pt (N:=ER_Num S) MInf (Fin d) lf = zero_form lf /\ pt (N:=ER_Num S) PInf
  (Fin d) lf = one_form lf.
Proof. exact pt_ends. Qed.
Print Assumptions C05_pt_ends.
Example C05_pt_ends_ex :
  pt (N:=ER_Num SF0) MInf (Fin 3) true = zero_form true /\ pt (N:=ER_Num SF0) PInf (Fin 3) true
  = one_form true.
Proof. apply C05_pt_ends; ex_side. Qed.

Theorem C05_pexp_below : forall (S : SF) x rate lf,
  0 <= rate -> Ele x (Fin 0) -> pexp (N:=ER_Num S) x (Fin rate) lf = zero_form lf.
Proof. exact pexp_below. Qed.
Print Assumptions C05_pexp_below.
Example C05_pexp_below_ex :
  pexp (N:=ER_Num SF0) (Fin (-1)) (Fin 2) true = zero_form true.
Proof. apply C05_pexp_below; ex_side. Qed.

Theorem C05_pexp_above : forall (S : SF) rate lf,
  0 < rate -> pexp (N:=ER_Num S) PInf (Fin rate) lf = one_form lf.
Proof. exact pexp_above. Qed.
Print Assumptions C05_pexp_above.
Example C05_pexp_above_ex :
  pexp (N:=ER_Num SF0) PInf (Fin 2) true = one_form true.
Proof. apply C05_pexp_above; ex_side. Qed.

Theorem C05_punif_below : forall (S : SF) x a b lf,
  a < b -> Ele x (Fin a) -> punif (N:=ER_Num S) x (Fin a) (Fin b) lf = zero_form lf.
Proof. exact punif_below. Qed.
Print Assumptions C05_punif_below.
Example C05_punif_below_ex :
  punif (N:=ER_Num SF0) (Fin (-1)) (Fin 2) (Fin 3) true = zero_form true.
Proof. apply C05_punif_below; ex_side. Qed.

Theorem C05_punif_above : forall (S : SF) x a b lf,
  a < b -> Ele (Fin b) x -> punif (N:=ER_Num S) x (Fin a) (Fin b) lf = one_form lf.
Proof. exact punif_above. Qed.
Print Assumptions C05_punif_above.
Example C05_punif_above_ex :
  punif (N:=ER_Num SF0) PInf (Fin 2) (Fin 3) true = one_form true.
Proof. apply C05_punif_above; ex_side. Qed.

Theorem C05_pweibull_below : forall (S : SF) x k th lf,
  0 < (sf_eps S) -> (sf_eps S) <= k -> (sf_eps S) <= th -> Ele x (Fin 0) -> pweibull (N:=ER_Num
  S) x (Fin k) (Fin th) lf = zero_form lf.
Proof. exact pweibull_below. Qed.
Print Assumptions C05_pweibull_below.
Example C05_pweibull_below_ex :
  pweibull (N:=ER_Num SF0) (Fin (-1)) (Fin 2) (Fin 3) true = zero_form true.
Proof. apply C05_pweibull_below; ex_side. Qed.

Theorem C05_pweibull_above : forall (S : SF) k th lf,
  0 < (sf_eps S) -> (sf_eps S) <= k -> (sf_eps S) <= th -> pweibull (N:=ER_Num S) PInf (Fin k)
  (Fin th) lf = one_form lf.
Proof. exact pweibull_above. Qed.
Print Assumptions C05_pweibull_above.
Example C05_pweibull_above_ex :
  pweibull (N:=ER_Num SF0) PInf (Fin 2) (Fin 3) true = one_form true.
Proof. apply C05_pweibull_above; ex_side. Qed.

Theorem C05_pchisq_below : forall (S : SF) x k lf,
  0 < (sf_eps S) -> 0 <= k -> Ele x (Fin 0) -> pchisq (N:=ER_Num S) x (Fin k) lf = zero_form lf.
Proof. exact pchisq_below. Qed.
Print Assumptions C05_pchisq_below.
Example C05_pchisq_below_ex :
  pchisq (N:=ER_Num SF0) (Fin (-1)) (Fin 3) true = zero_form true.
Proof. apply C05_pchisq_below; ex_side. Qed.

Theorem C05_pchisq_above : forall (S : SF) k lf,
  0 <= k -> pchisq (N:=ER_Num S) PInf (Fin k) lf = one_form lf.
Proof. exact pchisq_above. Qed.
Print Assumptions C05_pchisq_above.
Example C05_pchisq_above_ex :
  pchisq (N:=ER_Num SF0) PInf (Fin 3) true = one_form true.
Proof. apply C05_pchisq_above; ex_side. Qed.

Theorem C05_pgamma_below : forall (S : SF) x k th lf,
  0 < (sf_eps S) -> 0 <= k -> (sf_eps S) <= th -> Ele x (Fin 0) -> pgamma (N:=ER_Num S) x (Fin
  k) (Fin th) lf = zero_form lf.
Proof. exact pgamma_below. Qed.
Print Assumptions C05_pgamma_below.
Example C05_pgamma_below_ex :
  pgamma (N:=ER_Num SF0) (Fin (-1)) (Fin 2) (Fin 3) true = zero_form true.
Proof. apply C05_pgamma_below; ex_side. Qed.

Theorem C05_pgamma_above : forall (S : SF) k th lf,
  0 <= k -> (sf_eps S) <= th -> pgamma (N:=ER_Num S) PInf (Fin k) (Fin th) lf = one_form lf.
Proof. exact pgamma_above. Qed.
Print Assumptions C05_pgamma_above.
Example C05_pgamma_above_ex :
  pgamma (N:=ER_Num SF0) PInf (Fin 2) (Fin 3) true = one_form true.
Proof. apply C05_pgamma_above; ex_side. Qed.

Theorem C05_pf_below : forall (S : SF) x d1 d2 lf,
  0 < (sf_eps S) -> (sf_eps S) <= d1 -> (sf_eps S) <= d2 -> Ele x (Fin 0) -> pf (N:=ER_Num S) x
  (Fin d1) (Fin d2) lf = zero_form lf.
Proof. exact pf_below. Qed.
Print Assumptions C05_pf_below.
Example C05_pf_below_ex :
  pf (N:=ER_Num SF0) (Fin (-1)) (Fin 2) (Fin 3) true = zero_form true.
Proof. apply C05_pf_below; ex_side. Qed.

Theorem C05_pf_above : forall (S : SF) d1 d2 lf,
  (sf_eps S) <= d1 -> (sf_eps S) <= d2 -> pf (N:=ER_Num S) PInf (Fin d1) (Fin d2) lf = one_form
  lf.
Proof. exact pf_above. Qed.
Print Assumptions C05_pf_above.
Example C05_pf_above_ex :
  pf (N:=ER_Num SF0) PInf (Fin 2) (Fin 3) true = one_form true.
Proof. apply C05_pf_above; ex_side. Qed.

Theorem C05_plnorm_below : forall (S : SF) x mu s lf,
  0 < (sf_eps S) -> 0 <= s -> Ele x (Fin 0) -> plnorm (N:=ER_Num S) x (Fin mu) (Fin s) lf =
  zero_form lf.
Proof. exact plnorm_below. Qed.
Print Assumptions C05_plnorm_below.
Example C05_plnorm_below_ex :
  plnorm (N:=ER_Num SF0) (Fin (-1)) (Fin 2) (Fin 3) true = zero_form true.
Proof. apply C05_plnorm_below; ex_side. Qed.

Theorem C05_plnorm_above : forall (S : SF) mu s lf,
  0 <= s -> plnorm (N:=ER_Num S) PInf (Fin mu) (Fin s) lf = one_form lf.
Proof. exact plnorm_above. Qed.
Print Assumptions C05_plnorm_above.
Example C05_plnorm_above_ex :
  plnorm (N:=ER_Num SF0) PInf (Fin 2) (Fin 3) true = one_form true.
Proof. apply C05_plnorm_above; ex_side. Qed.

Theorem C05_pbeta_below : forall (S : SF) x a b lf,
  0 <= a -> 0 <= b -> Ele x (Fin 0) -> pbeta (N:=ER_Num S) x (Fin a) (Fin b) lf = zero_form lf.
Proof. exact pbeta_below. Qed.
Print Assumptions C05_pbeta_below.
Example C05_pbeta_below_ex :
  pbeta (N:=ER_Num SF0) (Fin (-1)) (Fin 2) (Fin 3) true = zero_form true.
Proof. apply C05_pbeta_below; ex_side. Qed.

Theorem C05_pbeta_above : forall (S : SF) x a b lf,
  0 <= a -> 0 <= b -> Ele (Fin 1) x -> pbeta (N:=ER_Num S) x (Fin a) (Fin b) lf = one_form lf.
Proof. exact pbeta_above. Qed.
Print Assumptions C05_pbeta_above.
Example C05_pbeta_above_ex :
  pbeta (N:=ER_Num SF0) (Fin 5) (Fin 2) (Fin 3) true = one_form true.
Proof. apply C05_pbeta_above; ex_side. Qed.

Theorem C05_pinvgauss_below : forall (S : SF) x mu l lf,
  0 < mu -> 0 < l -> Ele x (Fin 0) -> pinvgauss (N:=ER_Num S) x (Fin mu) (Fin l) lf = zero_form
  lf.
Proof. exact pinvgauss_below. Qed.
Print Assumptions C05_pinvgauss_below.
Example C05_pinvgauss_below_ex :
  pinvgauss (N:=ER_Num SF0) (Fin (-1)) (Fin 2) (Fin 3) true = zero_form true.
Proof. apply C05_pinvgauss_below; ex_side. Qed.

Theorem C05_pinvgauss_above : forall (S : SF) mu l lf,
  0 < mu -> 0 < l -> pinvgauss (N:=ER_Num S) PInf (Fin mu) (Fin l) lf = one_form lf.
Proof. exact pinvgauss_above. Qed.
Print Assumptions C05_pinvgauss_above.
Example C05_pinvgauss_above_ex :
  pinvgauss (N:=ER_Num SF0) PInf (Fin 2) (Fin 3) true = one_form true.
Proof. apply C05_pinvgauss_above; ex_side. Qed.

Theorem C05_pinvgamma_below : forall (S : SF) x k r lf,
  0 < (sf_eps S) -> 0 < k -> 0 < r -> (sf_eps S) <= 1 / r -> Ele x (Fin 0) -> pinvgamma
  (N:=ER_Num S) x (Fin k) (Fin r) lf = zero_form lf.
Proof. exact pinvgamma_below. Qed.
Print Assumptions C05_pinvgamma_below.
Example C05_pinvgamma_below_ex :
  pinvgamma (N:=ER_Num SF0) (Fin (-1)) (Fin 2) (Fin 3) true = zero_form true.
Proof. apply C05_pinvgamma_below; ex_side. Qed.

Theorem C05_pinvgamma_above : forall (S : SF) k r lf,
  0 < (sf_eps S) -> 0 < k -> 0 < r -> (sf_eps S) <= 1 / r -> pinvgamma (N:=ER_Num S) PInf (Fin
  k) (Fin r) lf = one_form lf.
Proof. exact pinvgamma_above. Qed.
Print Assumptions C05_pinvgamma_above.
Example C05_pinvgamma_above_ex :
  pinvgamma (N:=ER_Num SF0) PInf (Fin 2) (Fin 3) true = one_form true.
Proof. apply C05_pinvgamma_above; ex_side. Qed.

Theorem C05_pbern_below : forall (S : SF) x pr lf,
  0 <= pr <= 1 -> (x < 0)%Z -> pbern (N:=ER_Num S) x (Fin pr) lf = zero_form lf.
Proof. exact pbern_below. Qed.
Print Assumptions C05_pbern_below.
Example C05_pbern_below_ex :
  pbern (N:=ER_Num SF0) (-1)%Z (Fin (1/3)) true = zero_form true.
Proof. apply C05_pbern_below; ex_side. Qed.

Theorem C05_pbern_above : forall (S : SF) x pr lf,
  0 <= pr <= 1 -> (1 <= x)%Z -> pbern (N:=ER_Num S) x (Fin pr) lf = one_form lf.
Proof. exact pbern_above. Qed.
Print Assumptions C05_pbern_above.
Example C05_pbern_above_ex :
  pbern (N:=ER_Num SF0) 4%Z (Fin (1/3)) true = one_form true.
Proof. apply C05_pbern_above; ex_side. Qed.

Theorem C05_pradem_below : forall (S : SF) x pr lf,
  0 <= pr <= 1 -> (x < -1)%Z -> pradem (N:=ER_Num S) x (Fin pr) lf = zero_form lf.
Proof. exact pradem_below. Qed.
Print Assumptions C05_pradem_below.
Example C05_pradem_below_ex :
  pradem (N:=ER_Num SF0) (-2)%Z (Fin (1/3)) true = zero_form true.
Proof. apply C05_pradem_below; ex_side. Qed.

Theorem C05_pradem_above : forall (S : SF) x pr lf,
  0 <= pr <= 1 -> (1 <= x)%Z -> pradem (N:=ER_Num S) x (Fin pr) lf = one_form lf.
Proof. exact pradem_above. Qed.
Print Assumptions C05_pradem_above.
Example C05_pradem_above_ex :
  pradem (N:=ER_Num SF0) 4%Z (Fin (1/3)) true = one_form true.
Proof. apply C05_pradem_above; ex_side. Qed.

Theorem C05_pbinom_below : forall (S : SF) x n pr lf,
  (0 <= n)%Z -> 0 <= pr <= 1 -> (x < 0)%Z -> pbinom (N:=ER_Num S) x n (Fin pr) lf = zero_form
  lf.
Proof. exact pbinom_below. Qed.
Print Assumptions C05_pbinom_below.
Example C05_pbinom_below_ex :
  pbinom (N:=ER_Num SF0) (-2)%Z 7%Z (Fin (1/3)) true = zero_form true.
Proof. apply C05_pbinom_below; ex_side. Qed.

Theorem C05_pbinom_above : forall (S : SF) x n pr lf,
  (0 <= n)%Z -> 0 <= pr <= 1 -> (n <= x)%Z -> pbinom (N:=ER_Num S) x n (Fin pr) lf = one_form
  lf.
Proof. exact pbinom_above. Qed.
Print Assumptions C05_pbinom_above.
Example C05_pbinom_above_ex :
  pbinom (N:=ER_Num SF0) 8%Z 7%Z (Fin (1/3)) true = one_form true.
Proof. apply C05_pbinom_above; ex_side. Qed.

Theorem C05_ppois_below : forall (S : SF) x rate lf,
  0 <= rate -> (x < 0)%Z -> ppois (N:=ER_Num S) x (Fin rate) lf = zero_form lf.
Proof. exact ppois_below. Qed.
Print Assumptions C05_ppois_below.
Example C05_ppois_below_ex :
  ppois (N:=ER_Num SF0) (-2)%Z (Fin 7) true = zero_form true.
Proof. apply C05_ppois_below; ex_side. Qed.

(** pexp with rate 0 is accepted but gives NaN at +inf; pinvgamma needs a rate of at most
    1/epsilon, see C49 *)

Theorem C05_pexp_above_refuted :
  exists (S : SF) rate lf, 0 <= rate /\ pexp (N:=ER_Num S) PInf (Fin rate) lf <> one_form lf.
Proof. exact pexp_above_refuted. Qed.
Print Assumptions C05_pexp_above_refuted.

(** ** Infinite parameters: the values at the ends stay zero and one *)

Theorem C05_pgamma_above_ext : forall (S : SF) (k : ER) (th : R) lf, Ele (Fin 0) k -> sf_eps S <= th -> pgamma (N:=ER_Num S) PInf k (Fin th) lf = one_form lf.
Proof. exact pgamma_above_ext. Qed.
Print Assumptions C05_pgamma_above_ext.
Example C05_pgamma_above_ext_ex : pgamma (N:=ER_Num SF0) PInf PInf (Fin 3) true = one_form true.
Proof. apply (C05_pgamma_above_ext SF0); ex_side; try reflexivity; apply Ele_Fin; lra. Qed.

Theorem C05_pgamma_below_ext : forall (S : SF) (x k th : ER) lf, 0 < sf_eps S -> Ele x (Fin 0) -> Ele (Fin 0) k -> Ele (Fin (sf_eps S)) th -> pgamma (N:=ER_Num S) x k th lf = zero_form lf.
Proof. exact pgamma_below_ext. Qed.
Print Assumptions C05_pgamma_below_ext.
Example C05_pgamma_below_ext_ex : pgamma (N:=ER_Num SF0) (Fin (-1)) PInf PInf false = zero_form false.
Proof. apply (C05_pgamma_below_ext SF0); ex_side; try reflexivity; apply Ele_Fin; lra. Qed.

Theorem C05_pchisq_above_ext : forall (S : SF) (k : ER) lf, Ele (Fin 0) k -> pchisq (N:=ER_Num S) PInf k lf = one_form lf.
Proof. exact pchisq_above_ext. Qed.
Print Assumptions C05_pchisq_above_ext.
Example C05_pchisq_above_ext_ex : pchisq (N:=ER_Num SF0) PInf PInf true = one_form true.
Proof. apply (C05_pchisq_above_ext SF0); ex_side; try reflexivity; apply Ele_Fin; lra. Qed.

Theorem C05_pf_above_ext : forall (S : SF) (d1 d2 : ER) lf, Ele (Fin (sf_eps S)) d1 -> Ele (Fin (sf_eps S)) d2 -> pf (N:=ER_Num S) PInf d1 d2 lf = one_form lf.
Proof. exact pf_above_ext. Qed.
Print Assumptions C05_pf_above_ext.
Example C05_pf_above_ext_ex : pf (N:=ER_Num SF0) PInf PInf PInf true = one_form true.
Proof. apply (C05_pf_above_ext SF0); ex_side; try reflexivity; apply Ele_Fin; lra. Qed.

Theorem C05_pweibull_above_ext : forall (S : SF) (k : ER) (th : R) lf, 0 < sf_eps S -> Ele (Fin (sf_eps S)) k -> sf_eps S <= th -> pweibull (N:=ER_Num S) PInf k (Fin th) lf = one_form lf.
Proof. exact pweibull_above_ext. Qed.
Print Assumptions C05_pweibull_above_ext.
Example C05_pweibull_above_ext_ex : pweibull (N:=ER_Num SF0) PInf PInf (Fin 3) true = one_form true.
Proof. apply (C05_pweibull_above_ext SF0); ex_side; try reflexivity; apply Ele_Fin; lra. Qed.

Theorem C05_pinvgauss_above_ext : forall (S : SF) (mu l : ER) lf, Ele (Fin 0) mu -> Ele (Fin 0) l -> pinvgauss (N:=ER_Num S) PInf mu l lf = one_form lf.
Proof. exact pinvgauss_above_ext. Qed.
Print Assumptions C05_pinvgauss_above_ext.
Example C05_pinvgauss_above_ext_ex : pinvgauss (N:=ER_Num SF0) PInf PInf (Fin 0) true = one_form true.
Proof. apply (C05_pinvgauss_above_ext SF0); ex_side; try reflexivity; apply Ele_Fin; lra. Qed.

Theorem C05_pbeta_ext : forall (S : SF) (x a b : ER) lf, Ele (Fin 0) a -> Ele (Fin 0) b -> (Ele x (Fin 0) -> pbeta (N:=ER_Num S) x a b lf = zero_form lf) /\ (Ele (Fin 1) x -> pbeta (N:=ER_Num S) x a b lf = one_form lf).
Proof. exact pbeta_ext. Qed.
Print Assumptions C05_pbeta_ext.
Example C05_pbeta_ext_ex : pbeta (N:=ER_Num SF0) (Fin 1) PInf (Fin 0) true = one_form true.
Proof. apply (C05_pbeta_ext SF0); ex_side; try reflexivity; apply Ele_Fin; lra. Qed.

Theorem C05_pt_ends_ext : forall (S : SF) (d : ER) lf, Ele (Fin (sf_eps S)) d -> pt (N:=ER_Num S) MInf d lf = zero_form lf /\ pt (N:=ER_Num S) PInf d lf = one_form lf.
Proof. exact pt_ends_ext. Qed.
Print Assumptions C05_pt_ends_ext.
Example C05_pt_ends_ext_ex : pt (N:=ER_Num SF0) PInf PInf true = one_form true.
Proof. apply (C05_pt_ends_ext SF0); ex_side; try reflexivity; apply Ele_Fin; lra. Qed.

(** C70: the binomial quantile in binary64: what its search returns, how long it takes, and that it is accurate. *)
From Coq Require Import ZArith QArith Reals Lia.
From Verif Require Import Spec.
From Verif Require Import Num Prob Dens Quant B64 SpecB64 SpecBin SpecAcc SpecAccQ SpecAccD B64CR B64AccW B64Thm10.
From Flocq Require Import Core IEEE754.BinarySingleNaN.
Local Open Scope Z_scope.


(** [first_reach G p k]: k is the first count from zero on with not (G k < p).  [binom_cdfZ n pr x]: the probability of
    at most x successes in n trials.  [binom_size n pr] = 3 + n (2 + |ln pr| + |ln (1 - pr)|).
    [binom_quantile_upto d n pr p k]: the mathematical distribution function is at least p - d at k and at most p + d
    at k - 1 (SpecBin.v).  [qbinom_run fuel p n pr] is the model of qbinom with at most [fuel] loop tests; [None] means
    that it has not finished.  The functions of the backend are arbitrary in the first three theorems, and accurate to
    the unit e in the next two; the correctly rounded functions [TFR] satisfy this with e = 2^-51. *)

Theorem C70_search : forall (F : TF) (n : Z) (pr p : b64), 0 <= n -> (bofZ 0 ≤ pr)%b64 -> (pr ≤ bofZ 1)%b64 -> prob p -> 
  exists k, 0 <= k <= n /\ qbinom (N:=B64_Num F) p n pr = bofZ k /\ first_reach (fun j => pbinom (N:=B64_Num F) j n pr false) p k.
Proof. exact bi_search. Qed.
Print Assumptions C70_search.
Example C70_search_ex : exists k, 0 <= k <= 10 /\ qbinom (N:=B64_Num TFR) (blit (3#4)) 10 (blit (1#2)) = bofZ k /\ first_reach (fun j => pbinom (N:=B64_Num TFR) j 10 (blit (1#2)) false) (blit (3#4)) k.
Proof. apply (C70_search TFR 10 (blit (1#2)) (blit (3#4))); ex70. Qed.

Theorem C70_tests : forall (F : TF) (n k : Z) (pr p : b64), 0 <= n -> (bofZ 0 ≤ pr)%b64 -> (pr ≤ bofZ 1)%b64 -> prob p -> first_reach (fun j => pbinom (N:=B64_Num F) j n pr false) p k -> 
  qbinom_run (N:=B64_Num F) (Z.to_nat k + 2) p n pr = Some (bofZ k) /\ qbinom_run (N:=B64_Num F) (Z.to_nat k + 1) p n pr = None.
Proof. exact bi_tests. Qed.
Print Assumptions C70_tests.
Example C70_tests_ex : exists k, 0 <= k <= 10 /\ qbinom_run (N:=B64_Num TFR) (Z.to_nat k + 2) (blit (3#4)) 10 (blit (1#2)) = Some (bofZ k).
Proof. destruct (C70_search TFR 10 (blit (1#2)) (blit (3#4))) as (k & A & _ & B); try ex70. exists k. split; [exact A|]. apply (C70_tests TFR 10 k (blit (1#2)) (blit (3#4))); ex70. Qed.

Theorem C70_attained : forall (F : TF) (n k : Z) (pr : b64), 0 <= n -> (bofZ 0 ≤ pr)%b64 -> (pr ≤ bofZ 1)%b64 -> 0 <= k -> prob (pbinom (N:=B64_Num F) k n pr false) -> (forall j, 0 <= j < k -> (pbinom (N:=B64_Num F) j n pr false ≺ pbinom (N:=B64_Num F) k n pr false)%b64) -> 
  qbinom (N:=B64_Num F) (pbinom (N:=B64_Num F) k n pr false) n pr = bofZ k.
Proof. exact bi_attained. Qed.
Print Assumptions C70_attained.
Example C70_attained_ex : qbinom (N:=B64_Num TFR) (pbinom (N:=B64_Num TFR) 1 2 (blit (1#2)) false) 2 (blit (1#2)) = bofZ 1.
Proof. apply (C70_attained TFR 2 1 (blit (1#2))); ex70. Qed.

Theorem C70_accurate : forall (F : TF) (e : R) (n : Z) (pr p : b64), unit_ok e -> log_binom_acc F e -> log_acc F e -> exp_up_acc F e -> 2 <= n <= 2 ^ 53 -> finite pr -> (0 < B2R pr < 1)%R -> (2000 * e * binom_size n (B2R pr) <= 1)%R -> prob p -> 
  exists k, 0 <= k <= n /\ qbinom (N:=B64_Num F) p n pr = bofZ k /\ binom_quantile_upto (11 * e * binom_size n (B2R pr)) n (B2R pr) (B2R p) k.
Proof. exact bi_accurate. Qed.
Print Assumptions C70_accurate.
Example C70_accurate_ex : exists k, 0 <= k <= 10 /\ qbinom (N:=B64_Num TFR) (blit (3#4)) 10 (blit (1#2)) = bofZ k /\ binom_quantile_upto (11 * e2 * binom_size 10 (B2R (blit (1#2)))) 10 (B2R (blit (1#2))) (B2R (blit (3#4))) k.
Proof. apply (C70_accurate TFR e2 10 (blit (1#2)) (blit (3#4))); ex70. Qed.

Theorem C70_exact : forall (F : TF) (e : R) (n k : Z) (pr p : b64), unit_ok e -> log_binom_acc F e -> log_acc F e -> exp_up_acc F e -> 2 <= n <= 2 ^ 53 -> finite pr -> (0 < B2R pr < 1)%R -> (2000 * e * binom_size n (B2R pr) <= 1)%R -> prob p -> 0 <= k -> (B2R p + 11 * e * binom_size n (B2R pr) <= binom_cdfZ n (B2R pr) k)%R -> (0 < k -> (binom_cdfZ n (B2R pr) (k - 1) + 11 * e * binom_size n (B2R pr) < B2R p)%R) -> 
  qbinom (N:=B64_Num F) p n pr = bofZ k.
Proof. exact bi_exact. Qed.
Print Assumptions C70_exact.
Example C70_exact_ex : qbinom (N:=B64_Num TFR) (blit (1#2)) 2 (blit (1#2)) = bofZ 1.
Proof. apply (C70_exact TFR e2 2 1 (blit (1#2)) (blit (1#2))); ex70. Qed.

(** a success probability of 2^-60 is lost in 1 - p: the computed distribution function is already 1 at count 0, whose
    quantile is n *)

Theorem C70_attained_refuted : forall F : TF, t_log F (bofZ 1) = bofZ 0 -> t_exp F (bofZ 0) = bofZ 1 ->
  exists (n : Z) (pr : b64), 0 <= n /\ (bofZ 0 ≺ pr)%b64 /\ (pr ≺ bofZ 1)%b64 /\ qbinom (N:=B64_Num F) (pbinom (N:=B64_Num F) 0 n pr false) n pr <> bofZ 0.
Proof. exact bi_tie. Qed.
Print Assumptions C70_attained_refuted.
Example C70_attained_refuted_ex : exists (n : Z) (pr : b64), 0 <= n /\ (bofZ 0 ≺ pr)%b64 /\ (pr ≺ bofZ 1)%b64 /\ qbinom (N:=B64_Num TFR) (pbinom (N:=B64_Num TFR) 0 n pr false) n pr <> bofZ 0.
Proof. apply C70_attained_refuted; ex70. Qed.

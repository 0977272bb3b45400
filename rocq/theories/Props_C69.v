(** C69: the Poisson quantile in binary64: what its search returns, that it ends, that it is accurate and ordered. *)
From Coq Require Import ZArith QArith Reals Lia.
From Verif Require Import Spec.
From Verif Require Import Num Prob Quant B64 SpecB64 SpecAcc SpecAccQ SpecPois B64CR B64AccW B64Thm B64Thm3 B64Thm4 B64AccPois B64Thm9.
From Flocq Require Import Core IEEE754.BinarySingleNaN.
Local Open Scope Z_scope.


(** [qpois_run trunc fuel p rate] is the model of qpois with the conversion of a floating-point number to an integer
    as [trunc] ([None] where C++ leaves it undefined) and at most [fuel] rounds of the search; it is [Some] of the
    answer, or [None].  [first_above G p s n]: n is the first integer from s on with not (G n <= p).
    [quantile_upto d rate p n]: the mathematical Poisson distribution function is at least p - d at n and at most
    p + d at n - 1 (SpecPois.v).  [rounds_to_zero trunc]: where defined, [trunc] drops the fraction.
    The functions of the backend are arbitrary except that those called are accurate to the unit e (SpecAcc.v,
    SpecPois.v); the correctly rounded functions [TFR] satisfy this with e = 2^-51. *)

(** ** Rates below 11: the search starts at zero *)

Theorem C69_small : forall (F : TF) (trunc : b64 -> option Z) (fuel : nat) (p rate w : b64), prob p -> big_eps rate -> (rate ≺ bofZ 11)%b64 -> qpois_run (N:=B64_Num F) trunc fuel p rate = Some w -> 
  exists n, w = bofZ n /\ first_above (fun k => ppois (N:=B64_Num F) k rate false) p 0 n.
Proof. exact po_small. Qed.
Print Assumptions C69_small.
Example C69_small_ex : exists fuel w n, qpois_run (N:=B64_Num TFR) tr0 fuel (blit (1#2)) (bofZ 3) = Some w /\ w = bofZ n /\ first_above (fun k => ppois (N:=B64_Num TFR) k (bofZ 3) false) (blit (1#2)) 0 n.
Proof. destruct (po_small_ends TFR e2 tr0 (blit (1#2)) (bofZ 3)) as (fuel & n & E & A & B); try ex69. destruct (C69_small TFR tr0 fuel (blit (1#2)) (bofZ 3) (bofZ n)) as (m & M1 & M2); try ex69. exists fuel, (bofZ n), m. split; [exact E|]. split; assumption. Qed.

Theorem C69_small_ends : forall (F : TF) (e : R) (trunc : b64 -> option Z) (p rate : b64), unit_ok e -> incgamma_acc F e -> prob p -> big_eps rate -> (rate ≺ bofZ 11)%b64 -> 
  exists fuel n, qpois_run (N:=B64_Num F) trunc fuel p rate = Some (bofZ n) /\ first_above (fun k => ppois (N:=B64_Num F) k rate false) p 0 n /\ n <= 176.
Proof. exact po_small_ends. Qed.
Print Assumptions C69_small_ends.
Example C69_small_ends_ex : exists fuel n, qpois_run (N:=B64_Num TFR) tr0 fuel (blit (1#2)) (bofZ 3) = Some (bofZ n) /\ first_above (fun k => ppois (N:=B64_Num TFR) k (bofZ 3) false) (blit (1#2)) 0 n /\ n <= 176.
Proof. apply (C69_small_ends TFR e2); ex69. Qed.

Theorem C69_small_accurate : forall (F : TF) (e : R) (trunc : b64 -> option Z) (fuel : nat) (p rate w : b64), unit_ok e -> powZ_acc F e -> fact_acc F e -> exp_acc F e -> incgamma_acc F e -> prob p -> big_eps rate -> (rate ≺ bofZ 11)%b64 -> qpois_run (N:=B64_Num F) trunc fuel p rate = Some w -> 
  exists n, w = bofZ n /\ 0 <= n <= 176 /\ quantile_upto (24 * e) (B2R rate) (B2R p) n.
Proof. exact po_small_accurate. Qed.
Print Assumptions C69_small_accurate.
Example C69_small_accurate_ex : exists n, 0 <= n <= 176 /\ quantile_upto (24 * e2) (B2R (bofZ 3)) (B2R (blit (1#2))) n.
Proof. destruct (po_small_ends TFR e2 tr0 (blit (1#2)) (bofZ 3)) as (fuel & n & E & A & B); try ex69. destruct (C69_small_accurate TFR e2 tr0 fuel (blit (1#2)) (bofZ 3) (bofZ n)) as (m & _ & M); try ex69; auto. now exists m. Qed.

Theorem C69_small_monotone : forall (F : TF) (trunc : b64 -> option Z) (fuel fuel2 : nat) (p q rate v w : b64), prob p -> prob q -> (p ≤ q)%b64 -> big_eps rate -> (rate ≺ bofZ 11)%b64 -> qpois_run (N:=B64_Num F) trunc fuel p rate = Some v -> qpois_run (N:=B64_Num F) trunc fuel2 q rate = Some w -> 
  exists n m, v = bofZ n /\ w = bofZ m /\ 0 <= n <= m.
Proof. exact po_small_monotone. Qed.
Print Assumptions C69_small_monotone.
Example C69_small_monotone_ex : exists fuel fuel2 n m, qpois_run (N:=B64_Num TFR) tr0 fuel (blit (1#2)) (bofZ 3) = Some (bofZ n) /\ qpois_run (N:=B64_Num TFR) tr0 fuel2 (blit (3#4)) (bofZ 3) = Some (bofZ m) /\ 0 <= n <= m.
Proof. destruct (po_small_ends TFR e2 tr0 (blit (1#2)) (bofZ 3)) as (fuel & n & E & _); try ex69. destruct (po_small_ends TFR e2 tr0 (blit (3#4)) (bofZ 3)) as (fuel2 & m & E2 & _); try ex69. destruct (C69_small_monotone TFR tr0 fuel fuel2 (blit (1#2)) (blit (3#4)) (bofZ 3) (bofZ n) (bofZ m)) as (n2 & m2 & A & B & C); try ex69; auto. exists fuel, fuel2, n2, m2. rewrite E, E2, A, B. repeat split; auto; apply C. Qed.

(** the quantile of an attained probability is a larger integer than the one it belongs to *)

Theorem C69_attained : forall (F : TF) (trunc : b64 -> option Z) (fuel : nat) (rate w : b64) (k : Z), 0 <= k -> prob (ppois (N:=B64_Num F) k rate false) -> (forall j, 0 <= j < k -> (ppois (N:=B64_Num F) j rate false ≤ ppois (N:=B64_Num F) k rate false)%b64) -> big_eps rate -> (rate ≺ bofZ 11)%b64 -> qpois_run (N:=B64_Num F) trunc fuel (ppois (N:=B64_Num F) k rate false) rate = Some w -> 
  exists n, w = bofZ n /\ k < n.
Proof. exact po_attained. Qed.
Print Assumptions C69_attained.
Example C69_attained_ex : exists fuel n, qpois_run (N:=B64_Num TFR) tr0 fuel (ppois (N:=B64_Num TFR) 0 (bofZ 3) false) (bofZ 3) = Some (bofZ n) /\ 0 < n.
Proof. destruct (po_small_ends TFR e2 tr0 (ppois (N:=B64_Num TFR) 0 (bofZ 3) false) (bofZ 3)) as (fuel & n & E & _); try ex69. destruct (C69_attained TFR tr0 fuel (bofZ 3) (bofZ n) 0) as (m & M & K); try ex69; auto; [lia|intros; lia|]. exists fuel, m. now rewrite E, M. Qed.

(** ** Rates from 11 on: the search starts at s, three below the normal approximation, and only goes up *)

Theorem C69_large : forall (F : TF) (trunc : b64 -> option Z) (fuel : nat) (p rate w : b64) (s : Z), prob p -> big_eps rate -> Bltb rate (bofZ 11) = false -> trunc (qpois_normal_approx (N:=B64_Num F) p rate) = Some s -> 0 <= s -> qpois_run (N:=B64_Num F) trunc fuel p rate = Some w -> 
  (~ (ppois (N:=B64_Num F) s rate false ≤ p)%b64 /\ w = bofZ (Z.max 0 (s - 1))) \/ ((ppois (N:=B64_Num F) s rate false ≤ p)%b64 /\ exists n, w = bofZ n /\ first_above (fun k => ppois (N:=B64_Num F) k rate false) p s n).
Proof. exact po_large. Qed.
Print Assumptions C69_large.
Example C69_large_ex : exists s fuel w, tr0 (qpois_normal_approx (N:=B64_Num TFR) (blit (1#2)) (bofZ 16)) = Some s /\ qpois_run (N:=B64_Num TFR) tr0 fuel (blit (1#2)) (bofZ 16) = Some w /\ ((~ (ppois (N:=B64_Num TFR) s (bofZ 16) false ≤ (blit (1#2)))%b64 /\ w = bofZ (Z.max 0 (s - 1))) \/ ((ppois (N:=B64_Num TFR) s (bofZ 16) false ≤ (blit (1#2)))%b64 /\ exists n, w = bofZ n /\ first_above (fun k => ppois (N:=B64_Num TFR) k (bofZ 16) false) (blit (1#2)) s n)).
Proof. destruct start_ex as (s & S & R). destruct (po_large_ends TFR e2 tr0 (blit (1#2)) (bofZ 16) s) as (fuel & n & E & A); try ex69; auto. exists s, fuel, (bofZ n). split; auto. split; auto. apply (C69_large TFR tr0 fuel (blit (1#2)) (bofZ 16) (bofZ n) s); try ex69; auto; lia. Qed.

Theorem C69_large_ends : forall (F : TF) (e : R) (trunc : b64 -> option Z) (p rate : b64) (s : Z), unit_ok e -> incgamma_acc F e -> prob p -> big_eps rate -> Bltb rate (bofZ 11) = false -> (B2R rate <= IZR (2 ^ 48))%R -> trunc (qpois_normal_approx (N:=B64_Num F) p rate) = Some s -> 0 <= s < 2 ^ 53 -> 
  exists fuel n, qpois_run (N:=B64_Num F) trunc fuel p rate = Some (bofZ n) /\ 0 <= n < 2 ^ 53.
Proof. exact po_large_ends. Qed.
Print Assumptions C69_large_ends.
Example C69_large_ends_ex : exists fuel n, qpois_run (N:=B64_Num TFR) tr0 fuel (blit (1#2)) (bofZ 16) = Some (bofZ n) /\ 0 <= n < 2 ^ 53.
Proof. destruct start_ex as (s & S & R). apply (C69_large_ends TFR e2 tr0 (blit (1#2)) (bofZ 16) s); try ex69; auto. Qed.

Theorem C69_large_accurate : forall (F : TF) (e : R) (trunc : b64 -> option Z) (fuel : nat) (p rate w : b64) (s : Z), unit_ok e -> powZ_acc F e -> fact_acc F e -> exp_acc F e -> incgamma_acc F e -> prob p -> big_eps rate -> Bltb rate (bofZ 11) = false -> (B2R rate <= IZR (2 ^ 48))%R -> trunc (qpois_normal_approx (N:=B64_Num F) p rate) = Some s -> 0 <= s < 2 ^ 53 -> qpois_run (N:=B64_Num F) trunc fuel p rate = Some w -> 
  (w = bofZ (Z.max 0 (s - 1)) /\ (B2R p - 24 * e <= pois_cdfZ (B2R rate) s)%R) \/ exists n, w = bofZ n /\ s < n < 2 ^ 53 /\ quantile_upto (24 * e) (B2R rate) (B2R p) n.
Proof. exact po_large_accurate. Qed.
Print Assumptions C69_large_accurate.
Example C69_large_accurate_ex : exists s fuel n, qpois_run (N:=B64_Num TFR) tr0 fuel (blit (1#2)) (bofZ 16) = Some (bofZ n) /\ ((B2R (blit (1#2)) - 24 * e2 <= pois_cdfZ (B2R (bofZ 16)) s)%R \/ exists m, bofZ n = bofZ m /\ s < m < 2 ^ 53 /\ quantile_upto (24 * e2) (B2R (bofZ 16)) (B2R (blit (1#2))) m).
Proof. destruct start_ex as (s & S & R). destruct (po_large_ends TFR e2 tr0 (blit (1#2)) (bofZ 16) s) as (fuel & n & E & A); try ex69; auto. exists s, fuel, n. split; auto. destruct (C69_large_accurate TFR e2 tr0 fuel (blit (1#2)) (bofZ 16) (bofZ n) s) as [[_ B]|B]; try ex69; auto. Qed.

Theorem C69_large_monotone : forall (F : TF) (trunc : b64 -> option Z) (fuel fuel2 : nat) (p q rate v w : b64) (s t : Z), rounds_to_zero trunc -> erf_inv_ok F -> prob p -> prob q -> (p ≤ q)%b64 -> big_eps rate -> Bltb rate (bofZ 11) = false -> b64_pos (Bsqrt mode_NE rate) -> b64_pos (bmul (t_SQRT_2 F) (Bsqrt mode_NE rate)) -> trunc (qpois_normal_approx (N:=B64_Num F) p rate) = Some s -> trunc (qpois_normal_approx (N:=B64_Num F) q rate) = Some t -> qpois_run (N:=B64_Num F) trunc fuel p rate = Some v -> qpois_run (N:=B64_Num F) trunc fuel2 q rate = Some w -> 
  0 <= s <= t /\ exists n m, v = bofZ n /\ w = bofZ m /\ 0 <= n /\ 0 <= m /\ n <= m + 1 /\ ((ppois (N:=B64_Num F) t rate false ≤ q)%b64 -> n <= m).
Proof. exact po_large_monotone. Qed.
Print Assumptions C69_large_monotone.
Example C69_large_monotone_ex : exists fuel fuel2 n m, qpois_run (N:=B64_Num TFR) tr0 fuel (blit (1#2)) (bofZ 16) = Some (bofZ n) /\ qpois_run (N:=B64_Num TFR) tr0 fuel2 (blit (1#2)) (bofZ 16) = Some (bofZ m) /\ n <= m + 1.
Proof. destruct start_ex as (s & S & R). destruct (po_large_ends TFR e2 tr0 (blit (1#2)) (bofZ 16) s) as (fuel & n & E & A); try ex69; auto. destruct (C69_large_monotone TFR tr0 fuel fuel (blit (1#2)) (blit (1#2)) (bofZ 16) (bofZ n) (bofZ n) s s) as (_ & n2 & m2 & A1 & A2 & _ & _ & C & _); try ex69; auto. exists fuel, fuel, n2, m2. rewrite <- A1, <- A2. auto. Qed.

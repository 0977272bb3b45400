(** C42: integer arithmetic and conversions of the discrete functions; where they overflow. *)
From Coq Require Import ZArith List Reals Lra Lia.
From Verif Require Import Num Sanity Prob Dens Quant Vec ER ERTac SpecER Norm B64 Ints IntsProof IntsER Witness WitnessSF.
From Flocq Require Import Core IEEE754.BinarySingleNaN.
Import ListNotations.
Local Open Scope Z_scope.


(** [ll z]: z is a 64-bit signed integer.  The [_chk] functions return [UB] when an addition,
    subtraction or conversion to llint_t does not fit.  [None] means "still running". *)

Theorem C42_dbinom : forall (T : Type) (N : Num T) (x n : Z) (prob : T) (lf : bool), ll x -> ll n ->
  dbinom_chk x n prob lf = Ok (dbinom x n prob lf).
Proof. exact @dbinom_chk_ok. Qed.
Print Assumptions C42_dbinom.
Example C42_dbinom_ex (F : TF) (prob : b64) : dbinom_chk (N:=B64_Num F) (2 ^ 63 - 1) (- 2 ^ 63) prob true = Ok (dbinom (N:=B64_Num F) (2 ^ 63 - 1) (- 2 ^ 63) prob true).
Proof. apply C42_dbinom; unfold ll; lia. Qed.

Theorem C42_pbinom : forall (T : Type) (N : Num T) (x n : Z) (prob : T) (lf : bool), ll x -> ll n ->
  pbinom_chk x n prob lf = Ok (pbinom x n prob lf).
Proof. exact @pbinom_chk_ok. Qed.
Print Assumptions C42_pbinom.
Example C42_pbinom_ex (F : TF) (prob : b64) : pbinom_chk (N:=B64_Num F) (2 ^ 63 - 2) (2 ^ 63 - 1) prob true = Ok (pbinom (N:=B64_Num F) (2 ^ 63 - 2) (2 ^ 63 - 1) prob true).
Proof. apply C42_pbinom; unfold ll; lia. Qed.

Theorem C42_dpois_partial : forall (T : Type) (N : Num T) (x : Z) (rate : T) (lf : bool), ll x -> x <> 2 ^ 63 - 1 ->
  dpois_chk x rate lf = Ok (dpois x rate lf).
Proof. exact @dpois_chk_ok. Qed.
Print Assumptions C42_dpois_partial.
Example C42_dpois_partial_ex (F : TF) (rate : b64) : dpois_chk (N:=B64_Num F) (2 ^ 63 - 2) rate true = Ok (dpois (N:=B64_Num F) (2 ^ 63 - 2) rate true).
Proof. apply C42_dpois_partial; unfold ll; lia. Qed.

Theorem C42_ppois_partial : forall (T : Type) (N : Num T) (x : Z) (rate : T) (lf : bool), ll x -> x <> 2 ^ 63 - 1 ->
  ppois_chk x rate lf = Ok (ppois x rate lf).
Proof. exact @ppois_chk_ok. Qed.
Print Assumptions C42_ppois_partial.
Example C42_ppois_partial_ex (F : TF) (rate : b64) : ppois_chk (N:=B64_Num F) 15 rate true = Ok (ppois (N:=B64_Num F) 15 rate true).
Proof. apply C42_ppois_partial; unfold ll; lia. Qed.

Theorem C42_dpois_max : forall (T : Type) (N : Num T) (rate : T) (lf : bool),
  dpois_chk (2 ^ 63 - 1) rate lf = UB <->
  pois_sanity rate = true /\ eqb rate (ofZ 0) = false /\ is_posinf rate = false.
Proof. exact @dpois_chk_max. Qed.
Print Assumptions C42_dpois_max.

Theorem C42_ppois_max : forall (T : Type) (N : Num T) (rate : T) (lf : bool),
  ppois_chk (2 ^ 63 - 1) rate lf = UB <-> pois_sanity rate = true /\ is_posinf rate = false.
Proof. exact @ppois_chk_max. Qed.
Print Assumptions C42_ppois_max.

Theorem C42_pois_refuted : forall (S : SF) (r : R) (lf : bool), (0 < r)%R -> exists x : Z, ll x /\
  dpois_chk (N:=ER_Num S) x (Fin r) lf = UB /\ ppois_chk (N:=ER_Num S) x (Fin r) lf = UB.
Proof. exact pois_max_wit. Qed.
Print Assumptions C42_pois_refuted.
Example C42_pois_refuted_ex (S : SF) : exists x : Z, ll x /\ dpois_chk (N:=ER_Num S) x (Fin 3) true = UB /\ ppois_chk (N:=ER_Num S) x (Fin 3) true = UB.
Proof. apply C42_pois_refuted. lra. Qed.

Theorem C42_qbinom_partial : forall (T : Type) (N : Num T) (fuel : nat) (p : T) (n : Z) (prob : T), ll n -> n <> 2 ^ 63 - 1 ->
  qbinom_run_chk fuel p n prob = option_map Ok (qbinom_run fuel p n prob).
Proof. exact @qbinom_run_chk_ok. Qed.
Print Assumptions C42_qbinom_partial.
Example C42_qbinom_partial_ex (F : TF) (fuel : nat) (p prob : b64) : qbinom_run_chk (N:=B64_Num F) fuel p (2 ^ 63 - 2) prob = option_map Ok (qbinom_run (N:=B64_Num F) fuel p (2 ^ 63 - 2) prob).
Proof. apply C42_qbinom_partial; unfold ll; lia. Qed.

Theorem C42_qbinom_refuted : forall (S : SF) (p : R), (0 < p < 1)%R -> exists (n : Z) (fuel : nat), ll n /\
  qbinom_run_chk (N:=ER_Num S) fuel (Fin p) n (Fin 1) = Some UB.
Proof. exact qbinom_max_wit. Qed.
Print Assumptions C42_qbinom_refuted.
Example C42_qbinom_refuted_ex (S : SF) : exists (n : Z) (fuel : nat), ll n /\ qbinom_run_chk (N:=ER_Num S) fuel (Fin (1 / 2)) n (Fin 1) = Some UB.
Proof. apply C42_qbinom_refuted. lra. Qed.

(** qpois: no overflow when the starting point fits and the search is not too long. *)

Theorem C42_qpois_partial : forall (T : Type) (N : Num T) (tr : T -> option Z) (fuel : nat) (p rate : T),
  (forall s : Z, ltb rate (ofZ 11) = false -> tr (qpois_normal_approx p rate) = Some s ->
     0 <= s /\ s + Z.of_nat fuel <= 2 ^ 63 - 1) ->
  (ltb rate (ofZ 11) = false -> tr (qpois_normal_approx p rate) <> None) ->
  (0 < fuel)%nat -> Z.of_nat fuel <= 2 ^ 63 - 1 ->
  qpois_run_chk tr fuel p rate = option_map Ok (qpois_run tr fuel p rate).
Proof. exact @qpois_run_chk_ok. Qed.
Print Assumptions C42_qpois_partial.
Example C42_qpois_partial_ex (S : SF) : qpois_run_chk (N:=ER_Num S) er_to_ll 1000 (Fin (1 / 2)) (Fin 4) = option_map Ok (qpois_run (N:=ER_Num S) er_to_ll 1000 (Fin (1 / 2)) (Fin 4)).
Proof.
  assert (L : ltb (Num:=ER_Num S) (Fin 4) (ofZ (Num:=ER_Num S) 11) = true) by (un_cls; er_arith; rdecide; reflexivity).
  apply C42_qpois_partial; try lia; rewrite L; discriminate.
Qed.

Theorem C42_qpois_conv_refuted : forall (S : SF) (p r : R), erf_inv_spec S -> (sf_eps S <= 11)%R -> (p63 + 3 <= r)%R -> (1 / 2 <= p < 1)%R ->
  forall fuel : nat, qpois_run_chk (N:=ER_Num S) er_to_ll fuel (Fin p) (Fin r) = Some UB.
Proof. exact qpois_large_ub. Qed.
Print Assumptions C42_qpois_conv_refuted.
Example C42_qpois_conv_refuted_ex : qpois_run_chk (N:=ER_Num SFR) er_to_ll 5 (Fin (1 / 2)) (Fin (p63 + 3)) = Some UB.
Proof. apply C42_qpois_conv_refuted; [exact SFR_erf_inv|cbn; lra|lra|lra]. Qed.

Theorem C42_qpois_inf_refuted : forall (S : SF) (p : R), (sf_eps S <= 11)%R -> (0 < p < 1)%R -> exists fuel : nat,
  qpois_run_chk (N:=ER_Num S) er_to_ll fuel (Fin p) PInf = Some UB.
Proof. exact qpois_inf_ub. Qed.
Print Assumptions C42_qpois_inf_refuted.
Example C42_qpois_inf_refuted_ex : exists fuel, qpois_run_chk (N:=ER_Num SFR) er_to_ll fuel (Fin (1 / 3)) PInf = Some UB.
Proof. apply C42_qpois_inf_refuted; [cbn; lra|lra]. Qed.

(** A vector of doubles: each element is converted to llint_t.  [bad_elem vals]: some element is
    NaN, infinite, or outside (-2^63-1, 2^63). *)

Theorem C42_vec : forall (f : Z -> outcome b64) (g : Z -> b64) (vals : list b64),
  (forall z : Z, ll z -> z <> 2 ^ 63 - 1 -> f z = Ok (g z)) ->
  (vec_chk b64_to_ll f vals = UB <-> bad_elem vals).
Proof. exact vec_b64_iff. Qed.
Print Assumptions C42_vec.
Example C42_vec_ex (F : TF) (rate : b64) : vec_chk b64_to_ll (fun x => dpois_chk (N:=B64_Num F) x rate false) [bofZ 3; B754_nan] = UB.
Proof.
  apply (C42_vec _ (fun x => dpois (N:=B64_Num F) x rate false)).
  - intros z H1 H2. now apply dpois_chk_ok.
  - exists B754_nan. split; [right; now left|discriminate].
Qed.
Example C42_vec_ex2 (F : TF) (n : Z) (prob : b64) : ll n -> vec_chk b64_to_ll (fun x => pbinom_chk (N:=B64_Num F) x n prob false) [bofZ (2 ^ 63)] = UB.
Proof.
  intros Hn. apply (C42_vec _ (fun x => pbinom (N:=B64_Num F) x n prob false)).
  - intros z H1 H2. now apply pbinom_chk_ok.
  - exists (bofZ (2 ^ 63)). split; [now left|]. intros _.
    replace (B2R (bofZ (2 ^ 63))) with p63; [lra|]. exact bofZ_p63.
Qed.

Theorem C42_vec_partial : forall (f : Z -> outcome b64) (g : Z -> b64) (vals : list b64),
  (forall z : Z, ll z -> z <> 2 ^ 63 - 1 -> f z = Ok (g z)) -> ~ bad_elem vals ->
  exists ws : list b64, vec_chk b64_to_ll f vals = Ok ws /\ Forall2 (fun v w => w = g (Btrunc v)) vals ws.
Proof. exact vec_b64_ok. Qed.
Print Assumptions C42_vec_partial.
Example C42_vec_partial_ex (F : TF) (rate : b64) : exists ws : list b64,
  vec_chk b64_to_ll (fun x => ppois_chk (N:=B64_Num F) x rate false) [bofZ 0] = Ok ws /\
  Forall2 (fun v w => w = ppois (N:=B64_Num F) (Btrunc v) rate false) [bofZ 0] ws.
Proof.
  apply (C42_vec_partial _ (fun x => ppois (N:=B64_Num F) x rate false)).
  - intros z H1 H2. now apply ppois_chk_ok.
  - intros (v & [<-|[]] & H). apply H; [reflexivity|]. change (B2R (bofZ 0)) with 0%R. assert (0 < p63)%R by now apply IZR_lt. lra.
Qed.

Theorem C42_vec_refuted : forall f : Z -> outcome b64, exists vals : list b64, vec_chk b64_to_ll f vals = UB.
Proof. exact vec_wit. Qed.
Print Assumptions C42_vec_refuted.

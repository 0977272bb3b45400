(** Multinomial sampler: /repo/include/stats_incl/rand/rmultinom.ipp. *)
From Coq Require Import Reals ZArith QArith Bool List Lra Lia Psatz.
From Verif Require Import Num Sanity ER ERTac B64 Vec Prob Quant Rand MT Seed SpecRand RandER RandMore Support.
From Flocq Require Import Core.
Import ListNotations.

Section M.
Context {T : Type} {N : Num T} {E D : Type} (G : Rng T E).
(** std::random_device{}() : the entropy source has a state of type [D];
    conversion of the element type to ullint_t, [None] where it is undefined *)
Variable dev : D -> Z * D.
Variable to_u64 : T -> option Z.

(** conversion of ullint_t to the llint_t parameter of rbinom (two's complement) *)
Definition to_s64 (n : Z) : Z := if (n <? 2 ^ 63)%Z then n else (n - 2 ^ 64)%Z.

(** rand/rmultinom.ipp 47-55, from index j on: [ps] are the remaining probabilities, [csum] is
    prob_vec_csum(j-1) (cumsum.hpp 28-46; C56 proves that the two agree).
    [ret_sum += ret(j,0)] adds in the element type and converts back. *)
Fixpoint rmultinom_loop (n : Z) (ps : list T) (csum : T) (ret_sum : Z) (e : E) : outcome (list T * E) :=
  match ps with
  | [] => Ok ([], e)
  | p :: ps' =>
      let n_j := ((n - ret_sum) mod 2 ^ 64)%Z in
      let '(r, e1) := rbinom G (to_s64 n_j) (div p (sub (ofZ 1) csum)) e in
      match to_u64 (add (ofZ ret_sum) r) with
      | None => UB
      | Some ret_sum' =>
          match rmultinom_loop n ps' (add p csum) ret_sum' e1 with
          | Ok (rs, e2) => Ok (r :: rs, e2)
          | UB => UB
          end
      end
  end.
(** rand/rmultinom.ipp 27-61.  Line 41 calls rbinom without the engine: the default argument of
    rbinom.hpp builds a fresh engine from std::random_device.  An empty vector is read out of
    range. *)
Definition rmultinom (prob : list T) (e : E) (w : D) : outcome (list T * E * D) :=
  match prob with
  | [] => UB
  | p :: ps =>
      let n := Z.of_nat (length prob) in
      let '(s, w1) := dev w in
      let r := rbinom_seed G (to_s64 n) p s in
      match ps with
      | [] => Ok ([r], e, w1)
      | _ => match to_u64 r with
             | None => UB
             | Some ret_sum =>
                 match rmultinom_loop n ps p ret_sum e with
                 | Ok (rs, e') => Ok (r :: rs, e', w1)
                 | UB => UB
                 end
             end
      end
  end.
End M.


(** ** C36: the entropy source is visible.
    Double precision, std::mt19937_64 seeded with 7, probabilities 1/2 and 1/2: the first count
    depends on the word [w] that the random device delivers. *)
Definition half : b64 := blit (1 # 2).
Definition entropy (w : Z) : Z * Z := (w, w).
Definition counts (r : outcome (list b64 * mt * Z)) : list (option Z) :=
  match r with Ok (a, _, _) => map b64_to_size a | UB => [] end.
Notation two_halves F w := (rmultinom (N:=B64_Num F) mt_rng entropy b64_to_size [half; half] (mt_seed 7) w%Z).
Lemma device_1 (F : TF) : counts (two_halves F 1) = [Some 2; Some 0]%Z.
Proof. vm_compute. reflexivity. Qed.
Lemma device_2 (F : TF) : counts (two_halves F 2) = [Some 0; Some 2]%Z.
Proof. vm_compute. reflexivity. Qed.
Lemma two_device (f : list b64 -> mt -> Z -> outcome (list b64 * mt * Z)) prob e :
  counts (f prob e 1%Z) = [Some 2; Some 0]%Z -> counts (f prob e 2%Z) = [Some 0; Some 2]%Z ->
  exists (prob : list b64) (e : mt) (w1 w2 : Z) (a1 a2 : list b64) (e1 e2 : mt) (v1 v2 : Z),
  f prob e w1 = Ok (a1, e1, v1) /\ f prob e w2 = Ok (a2, e2, v2) /\
  map b64_to_size a1 = [Some 2; Some 0]%Z /\ map b64_to_size a2 = [Some 0; Some 2]%Z /\ a1 <> a2.
Proof.
  intros H1 H2. destruct (f prob e 1%Z) as [[[a1 e1] v1]|] eqn:R1; [|discriminate].
  destruct (f prob e 2%Z) as [[[a2 e2] v2]|] eqn:R2; [|discriminate].
  cbn [counts] in *. exists prob, e, 1%Z, 2%Z, a1, a2, e1, e2, v1, v2.
  repeat split; auto. intros ->. rewrite H1 in H2. discriminate.
Qed.
Lemma rmultinom_refuted (F : TF) : exists (prob : list b64) (e : mt) (w1 w2 : Z) (a1 a2 : list b64) (e1 e2 : mt) (v1 v2 : Z),
  rmultinom (N:=B64_Num F) mt_rng entropy b64_to_size prob e w1 = Ok (a1, e1, v1) /\
  rmultinom (N:=B64_Num F) mt_rng entropy b64_to_size prob e w2 = Ok (a2, e2, v2) /\
  map b64_to_size a1 = [Some 2; Some 0]%Z /\ map b64_to_size a2 = [Some 0; Some 2]%Z /\ a1 <> a2.
Proof.
  apply (two_device (fun prob e w => rmultinom (N:=B64_Num F) mt_rng entropy b64_to_size prob e w) [half; half] (mt_seed 7)).
  - exact (device_1 F).
  - exact (device_2 F).
Qed.

(** The word delivered by the device is the only outside influence. *)
Lemma rmultinom_word {T E D} (N : Num T) (G : Rng T E) (dev : D -> Z * D) to_u64 prob e w1 w2 r1 e1 v1 r2 e2 v2 :
  fst (dev w1) = fst (dev w2) ->
  rmultinom G dev to_u64 prob e w1 = Ok (r1, e1, v1) -> rmultinom G dev to_u64 prob e w2 = Ok (r2, e2, v2) ->
  r1 = r2 /\ e1 = e2.
Proof.
  unfold rmultinom. destruct prob as [|p ps]; [discriminate|]. destruct (dev w1) as [s1 x1], (dev w2) as [s2 x2].
  cbn [fst]. intros <-. destruct ps as [|q ps]; [intros [= <- <- _] [= <- <- _]; auto|].
  destruct (to_u64 _); [|discriminate]. destruct (rmultinom_loop _ _ _ _ _ _ _) as [[rs e']|]; [|discriminate].
  intros [= <- <- _] [= <- <- _]; auto.
Qed.

(** ** The counts add up (exact arithmetic, positive probabilities) *)
Local Open Scope R_scope.
Fixpoint Rsum (l : list R) : R := match l with [] => 0 | x :: l => x + Rsum l end.
Fixpoint Zsum (l : list Z) : Z := match l with [] => 0%Z | x :: l => (x + Zsum l)%Z end.
Section ER.
Variable S : SF.
Notation NS := (ER_Num S).
Context {E D : Type} (G : Rng ER E) (OK : rng_ok G) (dev : D -> Z * D).

Lemma er_to_size_Z z : (0 <= z < 2 ^ 64)%Z -> er_to_size (Fin (IZR z)) = Some z.
Proof. intros H. cbn [er_to_size]. rewrite Ztrunc_IZR. now apply fits_some. Qed.
Lemma Rsum_pos l : Forall (fun p => 0 < p) l -> l <> [] -> 0 < Rsum l.
Proof.
  induction 1 as [|p l Hp Hl IH]; intros H; [congruence|]. cbn [Rsum]. destruct l; [cbn; lra|].
  specialize (IH ltac:(discriminate)). lra.
Qed.

Lemma multinom_loop_sum (n : Z) : (0 < n < 2 ^ 63)%Z -> forall ps c s e,
  ps <> [] -> Forall (fun p => 0 < p) ps -> c + Rsum ps = 1 -> (0 <= s <= n)%Z ->
  exists ks e', rmultinom_loop (N:=NS) G er_to_size n (map Fin ps) (Fin c) s e = Ok (map (fun k => Fin (IZR k)) ks, e') /\
    length ks = length ps /\ Forall (fun k => 0 <= k)%Z ks /\ Zsum ks = (n - s)%Z.
Proof.
  intros Hn. induction ps as [|p ps IH]; intros c s e Hne Hpos Hsum Hs; [congruence|].
  inversion Hpos as [|? ? Hp Hps]; subst. cbn [map rmultinom_loop]. cbn [Rsum] in Hsum.
  assert (Hm : ((n - s) mod 2 ^ 64 = n - s)%Z) by (apply Z.mod_small; lia). rewrite Hm.
  assert (Hts : to_s64 (n - s) = (n - s)%Z) by (unfold to_s64; now rewrite (proj2 (Z.ltb_lt _ _)) by lia). rewrite Hts.
  assert (Hc : 0 < 1 - c). { destruct ps; cbn [Rsum] in *; [lra|]. pose proof (Rsum_pos _ Hps ltac:(discriminate)). cbn [Rsum] in *. lra. }
  replace (div (Num:=NS) (Fin p) (sub (Num:=NS) (ofZ (Num:=NS) 1) (Fin c))) with (Fin (p / (1 - c))) by (un_cls; er_arith; auto).
  destruct ps as [|q ps].
  - cbn [Rsum] in Hsum. replace (p / (1 - c)) with 1 by (replace (1 - c) with p by lra; field; lra).
    destruct (rbinom_1 S G OK (n - s) e ltac:(lia)) as [e1 ->].
    replace (add (Num:=NS) (ofZ (Num:=NS) s) (Fin (IZR (n - s)))) with (Fin (IZR n)).
    2:{ un_cls. rewrite eadd_F, <- plus_IZR. do 2 f_equal. lia. }
    rewrite er_to_size_Z by lia. cbn [map rmultinom_loop]. exists [(n - s)%Z], e1.
    split; [reflexivity|]. split; [reflexivity|]. split; [repeat constructor; lia|cbn [Zsum]; lia].
  - pose proof (Rsum_pos _ Hps ltac:(discriminate)) as HS.
    assert (Hpr : 0 <= p / (1 - c) <= 1).
    { split; [left; apply Rdiv_lt_0_compat; lra|]. apply (Rmult_le_reg_r (1 - c)); [lra|].
      unfold Rdiv. rewrite Rmult_assoc, Rinv_l; lra. }
    destruct (rbinom_in S G OK (n - s) (p / (1 - c)) ltac:(lia) Hpr e) as (v & e1 & -> & j & -> & Hj).
    replace (add (Num:=NS) (ofZ (Num:=NS) s) (Fin (IZR j))) with (Fin (IZR (s + j))).
    2:{ un_cls. now rewrite eadd_F, <- plus_IZR. }
    rewrite er_to_size_Z by lia. replace (add (Num:=NS) (Fin p) (Fin c)) with (Fin (c + p)) by (un_cls; rewrite eadd_F; f_equal; ring).
    destruct (IH (c + p) (s + j)%Z e1 ltac:(discriminate) Hps ltac:(lra) ltac:(lia)) as (ks & e' & -> & L & P & Q).
    exists (j :: ks), e'. split; [reflexivity|]. split; [cbn [length] in *; lia|].
    split; [constructor; [lia|auto]|]. cbn [Zsum]. lia.
Qed.
Lemma rmultinom_sum ps e w : ps <> [] -> (Z.of_nat (length ps) < 2 ^ 63)%Z -> Forall (fun p => 0 < p) ps -> Rsum ps = 1 ->
  exists ks e' w', rmultinom (N:=NS) G dev er_to_size (map Fin ps) e w = Ok (map (fun k => Fin (IZR k)) ks, e', w') /\
    length ks = length ps /\ Forall (fun k => 0 <= k)%Z ks /\ Zsum ks = Z.of_nat (length ps).
Proof.
  intros Hne Hlen Hpos Hsum. destruct ps as [|p ps]; [congruence|]. unfold rmultinom. cbn [map].
  inversion Hpos as [|? ? Hp Hps]; subst. cbn [Rsum] in Hsum.
  rewrite <- (map_length Fin (p :: ps)) in Hlen. cbn [map] in Hlen.
  set (n := Z.of_nat (length (Fin p :: map Fin ps))) in *.
  assert (Hn : (0 < n)%Z) by (unfold n; cbn [length]; lia).
  assert (En : n = Z.of_nat (length (p :: ps))) by (unfold n; cbn [length]; now rewrite map_length). rewrite <- En.
  assert (Hts : to_s64 n = n) by (unfold to_s64; now rewrite (proj2 (Z.ltb_lt _ _)) by lia). rewrite Hts.
  destruct (dev w) as [sd w1]. unfold rbinom_seed. destruct ps as [|q ps].
  - cbn [Rsum] in Hsum. replace p with 1 by lra. destruct (rbinom_1 S G OK n (g_mk G sd) ltac:(lia)) as [e1 H].
    rewrite H. cbn [map fst]. exists [n], e, w1. split; [reflexivity|]. split; [reflexivity|]. split; [repeat constructor; lia|cbn [Zsum]; lia].
  - pose proof (Rsum_pos _ Hps ltac:(discriminate)) as HS. cbn [map].
    destruct (rbinom_in S G OK n p ltac:(lia) ltac:(lra) (g_mk G sd)) as (v & e1 & H & j & -> & Hj).
    rewrite H. cbn [fst]. rewrite er_to_size_Z by lia.
    destruct (multinom_loop_sum n ltac:(lia) (q :: ps) p j e ltac:(discriminate) Hps Hsum ltac:(lia)) as (ks & e' & R & L & P & Q).
    cbn [map] in R. rewrite R. exists (j :: ks), e', w1. split; [reflexivity|]. split; [cbn [length] in *; lia|].
    split; [constructor; [lia|auto]|]. cbn [Zsum]. lia.
Qed.

(** A zero after the probabilities have reached 1: 0/0, NaN count, undefined conversion. *)
Lemma rmultinom_zero_ub e w : rmultinom (N:=NS) G dev er_to_size [Fin 1; Fin 0] e w = UB.
Proof.
  unfold rmultinom. change (to_s64 (Z.of_nat (length [Fin 1; Fin 0]))) with 2%Z. destruct (dev w) as [sd w1].
  unfold rbinom_seed. destruct (rbinom_1 S G OK 2 (g_mk G sd) ltac:(lia)) as [e1 H]. rewrite H. cbn [fst].
  rewrite er_to_size_Z by lia. cbn [rmultinom_loop].
  replace (div (Num:=NS) (Fin 0) (sub (Num:=NS) (ofZ (Num:=NS) 1) (Fin 1))) with NaN.
  2:{ un_cls. rewrite esub_F. replace (1 - 1) with 0 by lra. now rewrite ediv_0_0. }
  unfold rbinom. replace (binom_sanity (N:=NS) _ NaN) with false; [reflexivity|].
  change (to_s64 ((Z.of_nat (length [Fin 1; Fin 0]) - 2) mod 2 ^ 64)) with 0%Z. reflexivity.
Qed.
End ER.

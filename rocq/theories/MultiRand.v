(** The multivariate samplers in exact arithmetic. *)
From Coq Require Import Reals Lra Lia ZArith QArith.
From mathcomp Require Import all_ssreflect ssralg matrix binomial.
From Verif Require Import MxR Num ER ERTac SpecER Rand SpecRand RandER RandGamma Multi MultiBart GammaFn SpecMulti MxLin MultiER.
Set Implicit Arguments. Unset Strict Implicit. Unset Printing Implicit Defensive.
Import GRing.Theory.
Local Open Scope ring_scope.
Local Open Scope R_scope.

Lemma tri_bin i : tri i = 'C(i, 2).
Proof. by elim: i => [|n IH] //=; rewrite binS bin1 IH. Qed.
Lemma ltbE a b : Nat.ltb a b = (a < b)%N.
Proof. by apply/Nat.ltb_spec0/ltP. Qed.
Lemma eqbE a b : Nat.eqb a b = (a == b)%N.
Proof. by apply/Nat.eqb_spec/eqP. Qed.
Lemma nthE T (d : T) l i : List.nth i l d = nth d l i.
Proof. by elim: l i => [|x l IH] [|i] //=. Qed.
Lemma lengthE T (l : seq T) : length l = size l.
Proof. by []. Qed.
Lemma nth_F (zs : seq R) i : nth (Fin 0) [seq Fin z | z <- zs] i = Fin (nth 0 zs i).
Proof. by elim: zs i => [|x l IH] [|i] //=. Qed.

Section S.
Variable S : SF.
Notation NS := (ER_Num S).
Notation eps := (sf_eps S).
Context {E : Type} (G : Rng ER E) (GOK : rng_ok G).

Lemma seq_draws_F n e : exists zs e', seq_draws (N:=NS) G n e = ([seq Fin z | z <- zs], e') /\
  normal_draws G e zs e' /\ size zs = n.
Proof.
elim: n e => [|n IH] e; first by exists [::], e; split => //; split => //; constructor.
have [z [e1 H]] := norm_ex G GOK e. have [zs [e2 [H1 [H2 H3]]]] := IH e1.
exists (z :: zs), e2. rewrite /= (rnorm01_det S G _ _ _ H) H1. split=> //. split; last by rewrite /= H3.
by constructor 2 with e1.
Qed.
Lemma seq_fill_F n k e : exists zs e', normal_draws G e zs e' /\ size zs = (n * k)%N /\
  snd (seq_fill (N:=NS) G n k e) = e' /\
  holds (fst (seq_fill (N:=NS) G n k e)) (\matrix_(i < n, j < k) nth 0 zs (i + j * n)).
Proof.
have [zs [e' [H1 [H2 H3]]]] := seq_draws_F (n * k) e. exists zs, e'. rewrite /seq_fill H1 /=.
do 3 split => //. move=> i j. by rewrite nthE nth_F !mxE.
Qed.

Definition nu_in_range (nu : nu_t ER) : Prop := match nu with NuF _ => True | NuI n => (n < 2 ^ 64)%Z end.
Lemma nu_minus_i nu r K i : nu_is S nu r -> nu_in_range nu -> INR K - 1 < r -> (i < K)%N ->
  nu_minus (N:=NS) nu (Z.of_nat i) = Fin (r - INR i) /\ 0 < r - INR i.
Proof.
move=> Hn Hr Hk /ltP Hi. have Hi' : INR i <= INR K - 1.
  case: K Hk Hi => [|K] Hk Hi; first lia. rewrite S_INR. have := le_INR i K ltac:(lia). lra.
split; last lra. case: nu Hn Hr => [x|n]; rewrite /nu_is /=.
  by move=> -> _; rewrite INR_IZR_INZ.
move=> [E0] Hr. rewrite Z.mod_small ?minus_IZR ?INR_IZR_INZ ?E0 //.
rewrite !INR_IZR_INZ -E0 in Hk Hi'. have : (-1 < IZR (n - Z.of_nat i)) by rewrite minus_IZR; lra.
move=> /(lt_IZR (-1)). lia.
Qed.
Lemma chi_draws_F fuel K nu r : 0 < eps <= 2 -> nu_is S nu r -> nu_in_range nu -> INR K - 1 < r ->
  forall n i e cs' e', (i + n = K)%N -> chi_draws (N:=NS) G fuel nu i n e = Some (cs', e') ->
  exists cs, cs' = [seq Fin c | c <- cs] /\ size cs = n /\ (forall k, (k < n)%N -> 0 < nth 0 cs k) /\
    chisq_draws (fun d => rchisq (N:=NS) G fuel (Fin d)) (r - INR i) e cs e'.
Proof.
move=> He Hn Hr Hk. elim=> [|n IH] i e cs' e' Hi /=.
  by move=> [<- <-]; exists [::]; do 3 split => //; constructor.
have Hi' : (i < K)%N by rewrite -Hi addnS ltnS leq_addr.
have [-> P] := nu_minus_i Hn Hr Hk Hi'. case Q: (rchisq _ _ _ _) => [[c e1]|] //.
have [x [Ex Px]] := rchisq_in S G GOK _ He P _ _ _ _ Q. subst c.
case Q2: (chi_draws _ _ _ _ _ _) => [[l e2]|] // [<- <-].
have [] := IH _ _ _ _ _ Q2; first by rewrite addSn -addnS.
move=> cs [-> [Hs [Hp Hc]]]. exists (x :: cs). split => //. split; first by rewrite /= Hs.
split; first by case.
constructor 2 with e1 => //. rewrite (_ : r - INR i - 1 = r - INR i.+1) // S_INR. lra.
Qed.

Lemma bart_unit K zs cs : size cs = K -> (forall k, (k < K)%N -> 0 < nth 0 cs k) -> bart_mx K zs cs \in unitmx.
Proof.
move=> Hs Hp. rewrite unitmxE det_trig; last first.
  apply/is_trig_mxP => i j Hij. rewrite mxE ltnNge (ltnW Hij) /=.
  case: eqP => // Q. by rewrite Q ltnn in Hij.
rewrite unitfE. apply/eqP. have : 0 < \prod_i (bart_mx K zs cs) i i.
  apply: prod_gt0 => i. rewrite mxE ltnn eqxx. apply: sqrt_lt_R0. exact: Hp.
move=> H Q. rewrite Q in H. exact: (Rlt_irrefl 0).
Qed.
Lemma bartlett_F fuel K nu r e A e' : 0 < eps <= 2 -> nu_is S nu r -> nu_in_range nu -> INR K - 1 < r ->
  bartlett (N:=NS) G fuel K nu e = Some (A, e') ->
  exists zs e1 cs, normal_draws G e zs e1 /\ size zs = 'C(K, 2) /\
    chisq_draws (fun d => rchisq (N:=NS) G fuel (Fin d)) r e1 cs e' /\ size cs = K /\
    (forall k, (k < K)%N -> 0 < nth 0 cs k) /\ holds A (bart_mx K zs cs).
Proof.
move=> He Hn Hr Hk HB. have := bartlett_spec (N:=NS) G fuel K nu e. cbv zeta.
have [zs [e1 [H1 [H2 H3]]]] := seq_draws_F (tri K) e. rewrite H1 /=.
case Q: (chi_draws _ _ _ _ _ _) => [[cs' e2]|]; last by rewrite HB.
move=> [_ [A' [HA' HE]]]. rewrite HB in HA'. case: HA' => ? ?; subst A' e2.
have [] := chi_draws_F He Hn Hr Hk _ Q => // cs [Ec [Hs [Hp Hc]]]. subst cs'.
exists zs, e1, cs. rewrite -tri_bin. do 2 split => //. split; first by rewrite (_ : r = r - INR 0) //= Rminus_0_r.
do 2 split => //. move=> i j. rewrite HE; try exact/ltP. rewrite ltbE eqbE !nthE !nth_F mxE -tri_bin.
case: ifP => // _. rewrite (_ : (i == j :> nat) = (i == j)) //. case: ifP => // _.
rewrite esqrt_F //. exact/Rlt_le/Hp.
Qed.

Variable M : MatLib ER.
Hypothesis OK : lib_ok M.

(** ** rwish, rinvwish *)
Lemma rwish_F fuel K P (Psi : 'M[R]_K) nu r pre e W e' : 0 < eps <= 2 -> nu_is S nu r -> nu_in_range nu ->
  INR K - 1 < r -> holds P Psi -> (pre = false -> pos_def Psi) ->
  rwish (N:=NS) M G fuel K P nu pre e = Some (W, e') ->
  exists L zs e1 cs, (if pre then L = Psi else cholesky L Psi) /\
    normal_draws G e zs e1 /\ size zs = 'C(K, 2) /\
    chisq_draws (fun d => rchisq (N:=NS) G fuel (Fin d)) r e1 cs e' /\ size cs = K /\
    (forall k, (k < K)%N -> 0 < nth 0 cs k) /\
    holds W (L *m bart_mx K zs cs *m (L *m bart_mx K zs cs)^T).
Proof.
move=> He Hn Hr Hk HP HD. rewrite /rwish.
have [L [HL CL]] : exists L, holds (if pre then P else ml_chol M K P) L /\ (if pre then L = Psi else cholesky L Psi).
  case: pre HD => HD; first by exists Psi. exact: (lib_chol OK HP (HD erefl)).
case Q: (bartlett _ _ _ _ _) => [[A e2]|] // [<- <-].
have [zs [e1 [cs [H1 [H2 [H3 [H4 [H5 H6]]]]]]]] := bartlett_F He Hn Hr Hk Q.
exists L, zs, e1, cs. do 6 split => //.
have HB := mmul_holds S HL H6. exact: (mmul_holds S HB (mtrans_holds HB)).
Qed.
Lemma rinvwish_F fuel K P (Psi : 'M[R]_K) nu r pre e W e' : 0 < eps <= 2 -> nu_is S nu r -> nu_in_range nu ->
  INR K - 1 < r -> holds P Psi -> (pre = false -> pos_def Psi) -> (pre -> Psi \in unitmx) ->
  rinvwish (N:=NS) M G fuel K P nu pre e = Some (W, e') ->
  exists L zs e1 cs, (if pre then L = Psi else cholesky L (invmx Psi)) /\
    normal_draws G e zs e1 /\ size zs = 'C(K, 2) /\
    chisq_draws (fun d => rchisq (N:=NS) G fuel (Fin d)) r e1 cs e' /\ size cs = K /\
    (forall k, (k < K)%N -> 0 < nth 0 cs k) /\ L \in unitmx /\
    holds W (invmx (L *m bart_mx K zs cs *m (L *m bart_mx K zs cs)^T)).
Proof.
move=> He Hn Hr Hk HP HD HU. rewrite /rinvwish.
have [L [HL [CL UL]]] : exists L, holds (if pre then P else ml_chol M K (ml_inv M K P)) L /\
    (if pre then L = Psi else cholesky L (invmx Psi)) /\ L \in unitmx.
  case: pre HD HU => HD HU; first by exists Psi; do 2 split => //; exact: HU.
  have PD := HD erefl. have U := pd_unit PD. have [L [H1 H2]] := lib_chol OK (lib_inv OK HP U) (pd_inv U PD).
  exists L. do 2 split => //. exact: chol_unit_L H2.
case Q: (bartlett _ _ _ _ _) => [[A e2]|] // [<- <-].
have [zs [e1 [cs [H1 [H2 [H3 [H4 [H5 H6]]]]]]]] := bartlett_F He Hn Hr Hk Q.
exists L, zs, e1, cs. do 7 split => //.
have HB := mmul_holds S HL H6. have UB := bart_unit zs H4 H5.
apply: (lib_inv OK (mmul_holds S HB (mtrans_holds HB))). by rewrite !(unitmx_mul, unitmx_tr) UL UB.
Qed.
Lemma rwish_psd fuel K P (Psi : 'M[R]_K) nu r pre e W e' : 0 < eps <= 2 -> nu_is S nu r -> nu_in_range nu ->
  INR K - 1 < r -> holds P Psi -> (pre = false -> pos_def Psi) ->
  rwish (N:=NS) M G fuel K P nu pre e = Some (W, e') ->
  exists X : 'M[R]_K, holds W X /\ pos_semidef X /\ ((pre -> Psi \in unitmx) -> pos_def X).
Proof.
move=> He Hn Hr Hk HP HD HW.
have [L [zs [e1 [cs [H0 [H1 [H2 [H3 [H4 [H5 H6]]]]]]]]]] := rwish_F He Hn Hr Hk HP HD HW.
eexists; split; first exact: H6. split; first exact: psd_gram.
move=> HU. apply: pd_gram. rewrite unitmx_mul (bart_unit zs H4 H5) andbT.
case: pre H0 HU HD {HW} => [->|C] HU HD; [exact: HU|exact: chol_unit_L C].
Qed.
Lemma rinvwish_pd fuel K P (Psi : 'M[R]_K) nu r pre e W e' : 0 < eps <= 2 -> nu_is S nu r -> nu_in_range nu ->
  INR K - 1 < r -> holds P Psi -> (pre = false -> pos_def Psi) -> (pre -> Psi \in unitmx) ->
  rinvwish (N:=NS) M G fuel K P nu pre e = Some (W, e') ->
  exists X : 'M[R]_K, holds W X /\ pos_def X.
Proof.
move=> He Hn Hr Hk HP HD HU HW.
have [L [zs [e1 [cs [H0 [H1 [H2 [H3 [H4 [H5 [H6 H7]]]]]]]]]]] := rinvwish_F He Hn Hr Hk HP HD HU HW.
eexists; split; first exact: H7.
have U : L *m bart_mx K zs cs \in unitmx by rewrite unitmx_mul (bart_unit zs H4 H5) H6.
apply: pd_inv; last exact: pd_gram. by rewrite unitmx_mul unitmx_tr U.
Qed.

(** ** rmvnorm *)
Lemma rmvnorm_F (fill : nat -> nat -> E -> mat ER * E) K m A (mu : 'cV[R]_K) (Sg : 'M[R]_K) pre e (z : 'cV[R]_K) : holds_vec m mu -> holds A Sg ->
  (pre = false -> pos_def Sg) -> holds (fst (fill K 1%N e)) z ->
  exists (L : 'M[R]_K) (v : nat -> ER), (if pre then L = Sg else cholesky L Sg) /\
    rmvnorm (N:=NS) M fill K K m A pre e = (Some v, snd (fill K 1%N e)) /\
    holds_vec v (mu + L *m z)%R.
Proof.
move=> Hm HA HD Hz. rewrite /rmvnorm Nat.eqb_refl /=.
have [L [HL CL]] : exists L, holds (if pre then A else ml_chol M K A) L /\ (if pre then L = Sg else cholesky L Sg).
  case: pre HD => HD; first by exists Sg. exact: (lib_chol OK HA (HD erefl)).
exists L. case: (fill K 1%N e) Hz => Z e' /= Hz. eexists; split => //; split; first reflexivity.
move=> i. have -> := mmul_holds S HL Hz i ord0. by rewrite Hm [in RHS]mxE.
Qed.
Lemma rmvnorm_n_F (fill : nat -> nat -> E -> mat ER * E) n K m A (mu : 'cV[R]_K) (Sg : 'M[R]_K) pre e (Z : 'M[R]_(n, K)) : holds_vec m mu -> holds A Sg ->
  (pre = false -> pos_def Sg) -> holds (fst (fill n K e)) Z ->
  exists L B (X : 'M[R]_(n, K)), (if pre then L = Sg else cholesky L Sg) /\
    rmvnorm_n (N:=NS) M fill n K K m A pre e = (Some B, snd (fill n K e)) /\ holds B X /\
    forall i, (row i X)^T = (mu + L *m (row i Z)^T)%R.
Proof.
move=> Hm HA HD Hz. rewrite /rmvnorm_n Nat.eqb_refl /=.
have [L [HL CL]] : exists L, holds (if pre then A else ml_chol M K A) L /\ (if pre then L = Sg else cholesky L Sg).
  case: pre HD => HD; first by exists Sg. exact: (lib_chol OK HA (HD erefl)).
exists L. case: (fill n K e) Hz => Z' e' /= Hz. eexists.
exists (\matrix_(i < n, j < K) (mu j ord0 + (Z *m L^T) i j)). split => //; split; first reflexivity. split.
  move=> i j. have -> := mmul_holds S Hz (mtrans_holds HL) i j. by rewrite Hm [in RHS]mxE.
move=> i. apply/matrixP => j k. rewrite !mxE ord1 addE. congr (_ + _). apply: eq_bigr => l _. rewrite !mxE.
exact: mulrC.
Qed.
Lemma rmvnorm_mismatch (fill : nat -> nat -> E -> mat ER * E) n_mu K m A pre e : n_mu <> K -> rmvnorm (N:=NS) M (E:=E) fill n_mu K m A pre e = (None, e).
Proof. by move=> H; rewrite /rmvnorm eqbE; case: eqP. Qed.
Lemma rmvnorm_n_mismatch (fill : nat -> nat -> E -> mat ER * E) n n_mu K m A pre e : n_mu <> K -> rmvnorm_n (N:=NS) M (E:=E) fill n n_mu K m A pre e = (None, e).
Proof. by move=> H; rewrite /rmvnorm_n eqbE; case: eqP. Qed.
End S.

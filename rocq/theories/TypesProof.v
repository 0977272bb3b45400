(** Lemmas about [Types.v]. *)
From Coq Require Import ZArith Bool List Lia Permutation Reals Lra.
From Verif Require Import Num Sanity Dens Rand Vec ER ERTac Spec SpecER Support Discrete Sym B64 Types SpecTypes.
From Flocq Require Import IEEE754.BinarySingleNaN.
Import ListNotations.

Definition rank (t : cty) : nat := match t with I _ => 0 | Flt => 1 | Dbl => 2 | LDbl => 3 end.
Lemma common2_rank a b : rank (common2 a b) = Nat.max (rank a) (rank b).
Proof. unfold common2. destruct (cty_eq_dec a b) as [->|H]; [now rewrite Nat.max_id|]. now destruct a, b. Qed.
Lemma common_t_rank ts : forall t, rank (common_t t ts) = fold_right (fun s r => Nat.max (rank s) r) (rank t) ts.
Proof.
  induction ts as [|s ts IH]; intros t; [reflexivity|]. unfold common_t in *. cbn [fold_left fold_right].
  rewrite IH, common2_rank. clear. induction ts as [|s' ts IH]; cbn; lia.
Qed.
Lemma rank_max t ts : rank (common_t t ts) = match widest (t :: ts) with
  | LDbl => 3 | Flt => 1 | _ => if in_dec cty_eq_dec Dbl (t :: ts) then 2 else 0 end.
Proof.
  rewrite common_t_rank.
  assert (G : forall n, fold_right (fun s r => Nat.max (rank s) r) (rank t) ts <= n <->
    (forall s, In s (t :: ts) -> rank s <= n)).
  { intros n. induction ts as [|s l IH]; cbn [fold_right].
    - split; [intros H s' [<-|[]]; auto|intros H; apply H; now left].
    - rewrite Nat.max_lub_iff, IH. split.
      + intros [H1 H2] s' [<-|[<-|H]]; [apply H2; now left|auto|apply H2; now right].
      + intros H. split; [apply H; right; now left|]. intros s' [<-|H']; apply H; [now left|right; now right]. }
  set (m := fold_right _ _ _) in *.
  assert (Lo : forall s, In s (t :: ts) -> rank s <= m) by now apply G.
  unfold widest.
  destruct (in_dec cty_eq_dec LDbl (t :: ts)) as [H3|H3].
  { apply Nat.le_antisymm; [|exact (Lo _ H3)]. apply G. intros s _. destruct s; cbn; lia. }
  destruct (in_dec cty_eq_dec Dbl (t :: ts)) as [H2|H2].
  { apply Nat.le_antisymm; [|exact (Lo _ H2)]. apply G. intros s Hs. destruct s; cbn; try lia. tauto. }
  destruct (in_dec cty_eq_dec Flt (t :: ts)) as [H1|H1].
  { apply Nat.le_antisymm; [|exact (Lo _ H1)]. apply G. intros s Hs. destruct s; cbn; try lia; tauto. }
  apply Nat.le_antisymm; [|lia]. apply G. intros s Hs. destruct s; cbn; try lia; tauto.
Qed.
Lemma common_return_widest t ts : common_return_t t ts = widest (t :: ts).
Proof.
  pose proof (rank_max t ts) as H. unfold common_return_t, return_t.
  unfold widest in *.
  destruct (in_dec cty_eq_dec LDbl (t :: ts)); [destruct (common_t t ts); now cbn in *|].
  destruct (in_dec cty_eq_dec Dbl (t :: ts)); [destruct (common_t t ts); now cbn in *|].
  destruct (in_dec cty_eq_dec Flt (t :: ts)); destruct (common_t t ts); now cbn in *.
Qed.
Lemma common_return_floating t ts : exists p e, ieee_el (common_return_t t ts) = binary_float p e.
Proof.
  unfold common_return_t. destruct (common_t t ts); cbn; eexists; eexists; reflexivity.
Qed.
Lemma common_return_not_int t ts i : common_return_t t ts <> I i.
Proof. unfold common_return_t. now destruct (common_t t ts). Qed.
Lemma widest_ext l l' : (forall t, In t l <-> In t l') -> widest l = widest l'.
Proof.
  intros H. unfold widest.
  repeat match goal with |- context [in_dec cty_eq_dec ?t ?l] => destruct (in_dec cty_eq_dec t l) end;
    auto; exfalso; match goal with
    | A : In ?t l, B : ~ In ?t l' |- _ => apply B; now apply H
    | A : In ?t l', B : ~ In ?t l |- _ => apply B; now apply H end.
Qed.
Lemma common_return_perm t ts s ss : Permutation (t :: ts) (s :: ss) ->
  common_return_t t ts = common_return_t s ss.
Proof.
  intros H. rewrite !common_return_widest. apply widest_ext. intros x. split; apply Permutation_in; auto.
  now apply Permutation_sym.
Qed.
Lemma widest_in l : In (widest l) l \/ (widest l = Dbl /\ forall t, In t l -> exists i, t = I i).
Proof.
  unfold widest. destruct (in_dec cty_eq_dec LDbl l); [auto|]. destruct (in_dec cty_eq_dec Dbl l); [auto|].
  destruct (in_dec cty_eq_dec Flt l); [auto|]. right. split; [auto|]. intros t H. destruct t; try tauto. eauto.
Qed.
Lemma common_return_rep t n : (forall i, t <> I i) -> common_return_t t (repeat t n) = t.
Proof.
  intros H. unfold common_return_t, common_t. assert (E : forall m, fold_left common2 (repeat t m) t = t).
  { induction m as [|m IH]; [reflexivity|]. cbn. unfold common2 at 2. destruct (cty_eq_dec t t); tauto. }
  rewrite E. destruct t; try reflexivity. now destruct (H i).
Qed.

Section CallProof.
Variable A : Arith.
Lemma types_conv R l : map (@projT1 _ _) (map (conv_arg A R) l) = repeat R (length l).
Proof. induction l as [|a l IH]; [reflexivity|]. cbn. now rewrite IH. Qed.
Lemma cast_conv R a : cast_to A R (conv_arg A R a) = cast_to A R a.
Proof. unfold conv_arg, cast_to at 1. cbn. apply cast_id. Qed.
Lemma call_converted f a l :
  let R := common_return_t (projT1 a) (map (@projT1 _ _) l) in
  call A f a l = call A f (conv_arg A R a) (map (conv_arg A R) l).
Proof.
  intros R. unfold call. cbn [projT1 conv_arg]. fold (conv_arg A R a). rewrite types_conv.
  rewrite common_return_rep by (intros i; apply common_return_not_int). fold R.
  cbn [map]. rewrite cast_conv, map_map. do 3 f_equal. apply map_ext. intros b. now rewrite cast_conv.
Qed.
Lemma promote_dbl a : int_or_double A a -> promote_arg A a = conv_arg A Dbl a.
Proof.
  intros [H|[i H]]; unfold promote_arg; rewrite H; auto.
  destruct a as [t v]. cbn in H. subst t. unfold conv_arg, cast_to. cbn. now rewrite cast_id.
Qed.
Lemma iod_dbl a l : Forall (int_or_double A) (a :: l) ->
  common_return_t (projT1 a) (map (@projT1 _ _) l) = Dbl.
Proof.
  intros H. rewrite common_return_widest. change (_ :: map _ _) with (map (@projT1 _ (el A)) (a :: l)).
  assert (K : forall t, In t (map (@projT1 _ (el A)) (a :: l)) -> t = Dbl \/ exists i, t = I i).
  { intros t Ht. apply in_map_iff in Ht. destruct Ht as (b & <- & Hb). rewrite Forall_forall in H. exact (H b Hb). }
  destruct (widest_in (map (@projT1 _ (el A)) (a :: l))) as [H1|[H1 _]]; [|auto].
  destruct (K _ H1) as [E|[i E]]; [auto|]. exfalso. revert E. unfold widest.
  repeat match goal with |- context [in_dec ?d ?t ?l] => destruct (in_dec d t l) end; discriminate.
Qed.
Lemma call_promoted f a l : Forall (int_or_double A) (a :: l) ->
  call A f a l = call A f (promote_arg A a) (map (promote_arg A) l).
Proof.
  intros H. rewrite (call_converted f a l). cbv zeta. rewrite (iod_dbl a l H).
  inversion H as [|? ? Ha Hl]; subst. rewrite (promote_dbl a Ha). f_equal.
  apply map_ext_in. intros b Hb. rewrite promote_dbl; auto. rewrite Forall_forall in Hl. auto.
Qed.
Lemma call_type f a l : projT1 (call A f a l) = common_return_t (projT1 a) (map (@projT1 _ _) l).
Proof. reflexivity. Qed.
Lemma call_floating f a l i : projT1 (call A f a l) <> I i.
Proof. apply common_return_not_int. Qed.
End CallProof.

(** ** The functions on a raw T *)
Lemma bern_sanity_int_valid inf prob : inf prob = false -> valid_prob prob -> bern_sanity_int inf prob = true.
Proof. intros H [->| ->]; unfold bern_sanity_int; rewrite H; reflexivity. Qed.
Lemma radem_sanity_int_valid inf prob : inf prob = false -> valid_prob prob -> radem_sanity_int inf prob = true.
Proof. intros H [->| ->]; unfold radem_sanity_int; rewrite H; reflexivity. Qed.
Lemma binom_sanity_int_valid inf n prob : inf prob = false -> (0 <= n)%Z -> valid_prob prob -> binom_sanity_int inf n prob = true.
Proof.
  intros H Hn [->| ->]; unfold binom_sanity_int; rewrite H, (proj2 (Z.ltb_ge n 0)) by lia; reflexivity.
Qed.
Lemma bern_sanity_int_bad inf prob : (prob < 0 \/ 1 < prob)%Z -> bern_sanity_int inf prob = false.
Proof.
  intros H. unfold bern_sanity_int. destruct (inf prob); [auto|].
  destruct (prob <? 0)%Z eqn:E; [auto|]. destruct (1 <? prob)%Z eqn:E'; [auto|]. lia.
Qed.
Lemma radem_sanity_int_bad inf prob : (prob < 0 \/ 1 < prob)%Z -> radem_sanity_int inf prob = false.
Proof. exact (bern_sanity_int_bad inf prob). Qed.
Lemma binom_sanity_int_bad inf n prob : (n < 0 \/ prob < 0 \/ 1 < prob)%Z -> binom_sanity_int inf n prob = false.
Proof.
  intros H. unfold binom_sanity_int. destruct (inf prob); [auto|]. destruct (n <? 0)%Z eqn:E0; [auto|].
  destruct (prob <? 0)%Z eqn:E; [auto|]. destruct (1 <? prob)%Z eqn:E'; [auto|]. lia.
Qed.
Lemma wrap_bern i z : (z = 0 \/ z = 1)%Z -> wrap (cond_t i Bool) z = z.
Proof. intros [->| ->]; now destruct i. Qed.
Lemma wrap_radem i z : radem_signed i -> (z = 0 \/ z = 1 \/ z = -1)%Z -> wrap (cond_t i Int) z = z.
Proof. intros H [->|[->| ->]]; destruct i; destruct H; reflexivity. Qed.
Lemma wrap_radem_unsigned i : ~ radem_signed i -> (1 < wrap (cond_t i Int) (-1))%Z.
Proof. destruct i; cbn; intros H; try tauto; lia. Qed.

Section RawGen.
Context {D : Type} {N : Num D} {E : Type} (G : Rng D E).
Variable inf : Z -> bool.
Lemma rbern_int_agree i prob e : inf prob = false -> valid_prob prob -> bern_sanity (ofZ prob : D) = true ->
  rbern_int inf G i prob e = rbern G (ofZ prob) e.
Proof.
  intros H V B. unfold rbern_int, rbern. rewrite bern_sanity_int_valid, B by auto. cbn [negb].
  unfold runif01. destruct (runif G (ofZ 0) (ofZ 1) e) as [u e'].
  destruct (leb u (ofZ prob)); rewrite wrap_bern by auto; reflexivity.
Qed.
Lemma rradem_int_agree i prob e : inf prob = false -> valid_prob prob -> radem_sanity (ofZ prob : D) = true ->
  radem_signed i -> rradem_int inf G i prob e = rradem G (ofZ prob) e.
Proof.
  intros H V B Sg. unfold rradem_int, rradem. rewrite radem_sanity_int_valid, B by auto. cbn [negb].
  unfold runif01. destruct (runif G (ofZ 0) (ofZ 1) e) as [u e'].
  destruct (leb u (ofZ prob)); rewrite wrap_radem by auto; reflexivity.
Qed.
Lemma rbinom_int_agree i n prob e : inf prob = false -> (0 <= n)%Z -> valid_prob prob ->
  bern_sanity (ofZ prob : D) = true -> binom_sanity n (ofZ prob : D) = true ->
  rbinom_int inf G i n prob e = rbinom G n (ofZ prob) e.
Proof.
  intros H Hn V B1 B2. unfold rbinom_int, rbinom. rewrite binom_sanity_int_valid, B2 by auto. cbn [negb].
  generalize (ofZ 0 : D). revert e. induction (Z.to_nat n) as [|m IH]; intros e r; [reflexivity|].
  cbn [rbinom_int_loop rbinom_loop]. rewrite rbern_int_agree by auto. destruct (rbern G (ofZ prob) e). apply IH.
Qed.
Lemma rbern_int_bad i prob e : (prob < 0 \/ 1 < prob)%Z -> rbern_int inf G i prob e = (ofZ 0, e).
Proof. intros H. unfold rbern_int. rewrite bern_sanity_int_bad by auto. cbn [negb]. unfold int_nan. now rewrite wrap_bern by auto. Qed.
Lemma rradem_int_bad i prob e : (prob < 0 \/ 1 < prob)%Z -> rradem_int inf G i prob e = (ofZ 0, e).
Proof. intros H. unfold rradem_int. rewrite radem_sanity_int_bad by auto. cbn [negb]. unfold int_nan. now destruct i. Qed.
Lemma rbinom_int_bad i n prob e : (n < 0 \/ prob < 0 \/ 1 < prob)%Z -> rbinom_int inf G i n prob e = (ofZ 0, e).
Proof. intros H. unfold rbinom_int. rewrite binom_sanity_int_bad by auto. reflexivity. Qed.
End RawGen.

Section RawER.
Variable S : SF.
Local Notation NS := (ER_Num S).
Local Open Scope R_scope.
Variable inf : Z -> bool.
Lemma prob_R prob : valid_prob prob -> 0 <= IZR prob <= 1.
Proof. intros [->| ->]; lra. Qed.
Lemma bern_sanity_er prob : valid_prob prob -> bern_sanity (N:=NS) (ofZ (Num:=NS) prob) = true.
Proof. intros H. apply prob_R in H. un_cls. er_arith. rdecide. auto. Qed.
Lemma radem_sanity_er prob : valid_prob prob -> radem_sanity (N:=NS) (ofZ (Num:=NS) prob) = true.
Proof. intros H. apply prob_R in H. un_cls. er_arith. rdecide. auto. Qed.
Lemma binom_sanity_er n prob : (0 <= n)%Z -> valid_prob prob -> binom_sanity (N:=NS) n (ofZ (Num:=NS) prob) = true.
Proof. intros Hn H. apply prob_R in H. un_cls. rewrite (proj2 (Z.ltb_ge n 0)) by lia. er_arith. rdecide. auto. Qed.

Variable tr : ER -> option Z.
Hypothesis tr_ok : trunc_ok tr.
Lemma tr_int z : (0 <= z <= 1)%Z -> tr (Fin (IZR z)) = Some z.
Proof.
  intros H. assert (P : 0 <= IZR z < 2 ^ 63).
  { split; [apply IZR_le; lia|]. apply Rle_lt_trans with 1; [apply IZR_le; lia|]. simpl; lra. }
  rewrite (tr_ok _ P). f_equal. symmetry. destruct (base_Int_part (IZR z)) as [A B].
  apply le_IZR in A. assert (IZR (Int_part (IZR z)) > IZR (z - 1)) by (rewrite minus_IZR; lra).
  apply Rgt_lt, lt_IZR in H0. lia.
Qed.
(** at an integral probability the mass is 0 or 1 *)
Definition point_mass (n : nat) (prob : Z) (k : nat) : Z :=
  if Nat.eqb k (if (prob =? 0)%Z then 0%nat else n) then 1%Z else 0%Z.
Lemma pmf_int n prob k : valid_prob prob -> binom_pmf n (IZR prob) k = IZR (point_mass n prob k).
Proof.
  intros [->| ->]; unfold binom_pmf, point_mass; cbn [Z.eqb].
  - destruct (Nat.leb k n) eqn:K.
    + destruct (Nat.eqb_spec k 0) as [->|H0].
      * rewrite C_0. replace (1 - 0) with 1 by lra. rewrite pow1. simpl. lra.
      * rewrite pow_i by lia. lra.
    + destruct (Nat.eqb_spec k 0) as [->|H0]; [discriminate|reflexivity].
  - destruct (Nat.leb k n) eqn:K.
    + apply Nat.leb_le in K. destruct (Nat.eqb_spec k n) as [->|H0].
      * replace (n - n)%nat with 0%nat by lia. rewrite C_n, pow1. simpl. lra.
      * replace (1 - 1) with 0 by lra. rewrite (pow_i (n - k)) by lia. lra.
    + apply Nat.leb_gt in K. destruct (Nat.eqb_spec k n) as [->|H0]; [lia|reflexivity].
Qed.
Lemma mass_sum n prob c d : (0 <= fold_right Z.add 0 (map (point_mass n prob) (seq c d)) <= 1)%Z.
Proof.
  set (k := if (prob =? 0)%Z then 0%nat else n).
  assert (H : (fold_right Z.add 0 (map (point_mass n prob) (seq c d)) = 0 /\ ~ (c <= k < c + d)%nat \/
     fold_right Z.add 0 (map (point_mass n prob) (seq c d)) = 1 /\ (c <= k < c + d)%nat)%Z).
  { revert c. induction d as [|d IH]; intros c; cbn [seq map fold_right]; [left; lia|].
    specialize (IH (Datatypes.S c)). unfold point_mass at 1 3. fold k. destruct (Nat.eqb_spec c k); lia. }
  lia.
Qed.
Lemma pbinom_int_recur_val (x n : nat) prob : valid_prob prob ->
  forall d c fuel, (c + d = x)%nat -> (d < fuel)%nat ->
  pbinom_int_recur (N:=NS) tr fuel (Z.of_nat x) (Z.of_nat n) prob (Z.of_nat c)
  = Some (Ok (fold_right Z.add 0 (map (point_mass n prob) (seq c (Datatypes.S d)))))%Z.
Proof.
  intros V. pose proof (prob_R _ V) as P. induction d as [|d IH]; intros c fuel Hc Hf; (destruct fuel as [|fuel]; [lia|]);
    cbn [pbinom_int_recur]; change (ofZ (Num:=NS) prob) with (Fin (IZR prob)); rewrite dbinom_val by auto;
    rewrite pmf_int by auto.
  - rewrite (proj2 (Z.eqb_eq (Z.of_nat c) (Z.of_nat x))) by lia. unfold of_double.
    rewrite tr_int; [cbn; do 2 f_equal; lia|]. unfold point_mass. destruct (Nat.eqb _ _); lia.
  - rewrite (proj2 (Z.eqb_neq (Z.of_nat c) (Z.of_nat x))) by lia.
    replace (Z.of_nat c + 1)%Z with (Z.of_nat (Datatypes.S c)) by lia. rewrite IH by lia.
    set (r := fold_right Z.add 0%Z (map (point_mass n prob) (seq (Datatypes.S c) (Datatypes.S d)))).
    change (add (Num:=NS) (Fin (IZR (point_mass n prob c))) (ofZ (Num:=NS) r)) with (eadd (Fin (IZR (point_mass n prob c))) (Fin (IZR r))).
    rewrite eadd_F, <- plus_IZR. unfold of_double. rewrite tr_int; [reflexivity|].
    exact (mass_sum n prob c (Datatypes.S (Datatypes.S d))).
Qed.
Lemma sum_mass n prob c d : valid_prob prob ->
  sum_f_R0 (fun i => binom_pmf n (IZR prob) (c + i)) d = IZR (fold_right Z.add 0%Z (map (point_mass n prob) (seq c (Datatypes.S d)))).
Proof.
  intros V. revert c. induction d as [|d IH]; intros c.
  - cbn. rewrite Nat.add_0_r, Z.add_0_r. now apply pmf_int.
  - rewrite decomp_sum by lia. cbn [Nat.pred]. rewrite Nat.add_0_r, pmf_int by auto.
    cbn [seq map fold_right]. rewrite plus_IZR. f_equal. specialize (IH (Datatypes.S c)). cbn [seq map fold_right] in IH.
    rewrite <- IH. apply sum_eq. intros. f_equal. lia.
Qed.
Lemma pbinom_int_agree x n prob : inf prob = false -> (0 <= n)%Z -> valid_prob prob ->
  exists z, pbinom_int (N:=NS) inf tr x n prob false = Ok z /\
            pbinom (N:=NS) x n (ofZ (Num:=NS) prob) false = Fin (IZR z).
Proof.
  intros HI Hn V. pose proof (prob_R _ V) as P. change (ofZ (Num:=NS) prob) with (Fin (IZR prob)).
  unfold pbinom_int. rewrite binom_sanity_int_valid by auto. cbn [negb].
  destruct (x <? 0)%Z eqn:Ex.
  { exists 0%Z. split; [reflexivity|]. apply Z.ltb_lt in Ex. rewrite (Support.pbinom_below S) by (auto; lia). reflexivity. }
  apply Z.ltb_ge in Ex. destruct (n <=? x)%Z eqn:En.
  { exists 1%Z. split; [reflexivity|]. apply Z.leb_le in En. rewrite (Support.pbinom_above S) by (auto; lia). reflexivity. }
  apply Z.leb_gt in En. destruct (n =? 1)%Z eqn:E1.
  { apply Z.eqb_eq in E1. subst n. assert (x = 0)%Z by lia. subst x.
    rewrite (Sym.pbinom_1_bern S) by auto. change (ofZ (Num:=NS) prob) with (Fin (IZR prob)).
    pose proof (pbern_val S 0 (IZR prob) false P) as B. cbn [Z.of_nat] in B.
    assert (B' : Prob.pbern (N:=NS) 0 (Fin (IZR prob)) false = Fin (IZR (1 - prob))).
    { rewrite B, minus_IZR. reflexivity. }
    exists (1 - prob)%Z. rewrite B'. split; [|auto]. unfold of_double. rewrite tr_int; [auto|]. destruct V; lia. }
  rewrite <- (Z2Nat.id x), <- (Z2Nat.id n) by lia. rewrite Nat2Z.id. change 0%Z with (Z.of_nat 0).
  rewrite (pbinom_int_recur_val (Z.to_nat x) (Z.to_nat n) prob V (Z.to_nat x) 0) by lia.
  eexists. split; [reflexivity|]. rewrite pbinom_val by auto. unfold val.
  rewrite <- (sum_mass (Z.to_nat n) prob 0 (Z.to_nat x) V). f_equal.
Qed.
(** refutations *)
Lemma pbinom_int_nan : pbinom_int (N:=NS) inf tr 1 5 2 false = Ok 0%Z /\
  pbinom (N:=NS) 1 5 (ofZ (Num:=NS) 2) false = NaN.
Proof.
  split.
  - unfold pbinom_int. rewrite binom_sanity_int_bad by lia. reflexivity.
  - unfold pbinom. un_cls. er_arith. rdecide. reflexivity.
Qed.
Lemma pbinom_int_minf : pbinom_int (N:=NS) inf tr (-1) 5 1 true = Ok 0%Z /\
  pbinom (N:=NS) (-1) 5 (ofZ (Num:=NS) 1) true = MInf.
Proof.
  split.
  - unfold pbinom_int, binom_sanity_int. destruct (inf 1); reflexivity.
  - unfold pbinom. un_cls. er_arith. rdecide. reflexivity.
Qed.
Lemma pbinom_int_ub : inf 1%Z = false -> tr MInf = None ->
  pbinom_int (N:=NS) inf tr 1 5 1 true = UB /\ pbinom (N:=NS) 1 5 (ofZ (Num:=NS) 1) true = MInf.
Proof.
  intros HI HM. pose proof (pbinom_int_recur_val 1 5 1 ltac:(now right) 1 0 2 eq_refl ltac:(lia)) as Q. split.
  - unfold pbinom_int. rewrite binom_sanity_int_valid by (auto; try lia; now right). cbn [negb].
    change (1 <? 0)%Z with false. change (5 <=? 1)%Z with false. change (5 =? 1)%Z with false. cbv iota.
    change (Z.to_nat 1 + 1)%nat with 2%nat. change (Z.of_nat 0) with 0%Z in Q.
    change (Z.of_nat 1) with 1%Z in Q. change (Z.of_nat 5) with 5%Z in Q. rewrite Q.
    cbn [seq map fold_right]. change (point_mass 5 1 0) with 0%Z. change (point_mass 5 1 1) with 0%Z. cbn [Z.add].
    unfold log_if_int, of_double. change (log (Num:=NS) (ofZ (Num:=NS) 0)) with (elog (Fin 0)).
    now rewrite elog_0, HM.
  - pose proof (pbinom_val S 1 5 1 true ltac:(lra)) as B. change (ofZ (Num:=NS) 1) with (Fin 1).
    change (Z.of_nat 1) with 1%Z in B. change (Z.of_nat 5) with 5%Z in B. rewrite B. unfold val.
    replace (sum_f_R0 (binom_pmf 5 1) 1) with 0; [exact elog_0|].
    pose proof (sum_mass 5 1 0 1 ltac:(now right)) as Q'. cbn [seq map fold_right] in Q'.
    change (point_mass 5 1 0) with 0%Z in Q'. change (point_mass 5 1 1) with 0%Z in Q'.
    symmetry. exact Q'.
Qed.
(** if is_inf compares with numeric_limits<T>::infinity(), which is 0 *)
Lemma pbinom_int_zero : inf 0%Z = true ->
  pbinom_int (N:=NS) inf tr 1 5 0 false = Ok 0%Z /\ pbinom (N:=NS) 1 5 (ofZ (Num:=NS) 0) false = Fin 1.
Proof.
  intros HI. split.
  - unfold pbinom_int, binom_sanity_int. rewrite HI. reflexivity.
  - pose proof (pbinom_val S 1 5 0 false ltac:(lra)) as B. change (ofZ (Num:=NS) 0) with (Fin 0).
    change (Z.of_nat 1) with 1%Z in B. change (Z.of_nat 5) with 5%Z in B. rewrite B. unfold val. f_equal.
    exact (sum_mass 5 0 0 1 ltac:(now left)).
Qed.
Section DrawER.
Context {E : Type} (G : Rng ER E).
Lemma rradem_unsigned_bad i e : ~ radem_signed i -> (forall u e', runif (N:=NS) G (Fin 0) (Fin 1) e = (u, e') -> exists r, u = Fin r /\ 0 < r) ->
  fst (rradem (N:=NS) G (Fin 0) e) = Fin (-1) /\ fst (rradem_int (N:=NS) inf G i 0 e) <> Fin (-1).
Proof.
  intros Hi Hu. unfold rradem, rradem_int.
  pose proof (radem_sanity_er 0 ltac:(now left)) as Q. change (ofZ (Num:=NS) 0) with (Fin 0) in Q.
  rewrite Q. cbn [negb]. unfold runif01.
  change (ofZ (Num:=NS) 0) with (Fin 0). change (ofZ (Num:=NS) 1) with (Fin 1).
  destruct (runif (N:=NS) G (Fin 0) (Fin 1) e) as [u e'] eqn:Eu. destruct (Hu u e' eq_refl) as (r & -> & Hr).
  assert (L : leb (Num:=NS) (Fin r) (Fin 0) = false). { un_cls. er_arith. rdecide. auto. }
  rewrite L. split; [reflexivity|]. destruct (radem_sanity_int inf 0); cbn [negb fst].
  - intros H. change (ofZ (Num:=NS) (wrap (cond_t i Int) (2 * 0 - 1))) with (Fin (IZR (wrap (cond_t i Int) (-1)))) in H.
    injection H as H. apply eq_IZR in H. pose proof (wrap_radem_unsigned i Hi). lia.
  - intros H. replace (wrap (cond_t i Int) int_nan) with 0%Z in H by now destruct i.
    change (ofZ (Num:=NS) 0) with (Fin 0) in H. injection H. lra.
Qed.
End DrawER.
End RawER.

Section RawB64.
Variable F : TF.
Local Notation NF := (B64_Num F).
Lemma bern_sanity_b64 prob : valid_prob prob -> bern_sanity (N:=NF) (ofZ (Num:=NF) prob) = true.
Proof. intros [->| ->]; vm_compute; reflexivity. Qed.
Lemma radem_sanity_b64 prob : valid_prob prob -> radem_sanity (N:=NF) (ofZ (Num:=NF) prob) = true.
Proof. intros [->| ->]; vm_compute; reflexivity. Qed.
Lemma binom_sanity_b64 n prob : (0 <= n)%Z -> valid_prob prob -> binom_sanity (N:=NF) n (ofZ (Num:=NF) prob) = true.
Proof.
  intros Hn H. unfold binom_sanity. rewrite (proj2 (Z.ltb_ge n 0)) by lia.
  destruct H as [->| ->]; vm_compute; reflexivity.
Qed.
End RawB64.

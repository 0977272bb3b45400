(** The two fills of the Bartlett factor, for any arithmetic. *)
From Coq Require Import ZArith Bool List Lia Arith.
From Verif Require Import Num Rand Multi.
Import ListNotations.

(** 0 + 1 + ... + (i-1): the number of elements below the diagonal in the first i rows *)
Fixpoint tri (i : nat) : nat := match i with O => O | S n => (tri n + n)%nat end.

Section B.
Context {T : Type} {N : Num T} {E : Type} (G : Rng T E).

Lemma seq_draws_app n m e : seq_draws G (n + m) e =
  let '(l1, e1) := seq_draws G n e in let '(l2, e2) := seq_draws G m e1 in (l1 ++ l2, e2).
Proof.
  revert e. induction n as [|n IH]; intros e; cbn [seq_draws Nat.add].
  - destruct (seq_draws G m e); reflexivity.
  - destruct (rnorm01 G e) as [z e']. rewrite IH. destruct (seq_draws G n e') as [l1 e1].
    destruct (seq_draws G m e1); reflexivity.
Qed.
Lemma seq_draws_len n e : length (fst (seq_draws G n e)) = n.
Proof.
  revert e. induction n as [|n IH]; intros e; cbn [seq_draws]; auto.
  destruct (rnorm01 G e) as [z e']. specialize (IH e'). destruct (seq_draws G n e'). cbn in *. lia.
Qed.
Lemma fill_below_app l1 l2 A e : fill_below G (l1 ++ l2) A e =
  let '(A1, e1) := fill_below G l1 A e in fill_below G l2 A1 e1.
Proof.
  revert A e. induction l1 as [|[i j] l1 IH]; intros A e; cbn [fill_below app]; auto.
  destruct (rnorm01 G e). apply IH.
Qed.
Lemma fill_row i m A e : exists A',
  fill_below G (map (fun j => (i, j)) (seq 0 m)) A e = (A', snd (seq_draws G m e)) /\
  forall i' j', A' i' j' = if Nat.eqb i' i && Nat.ltb j' m then nth j' (fst (seq_draws G m e)) (ofZ 0) else A i' j'.
Proof.
  induction m as [|m (A1 & H1 & H2)].
  - exists A. split; auto. intros. now rewrite andb_false_r.
  - rewrite seq_S, map_app, fill_below_app, H1. cbn [map fill_below Nat.add].
    replace (S m) with (m + 1)%nat by lia. rewrite seq_draws_app.
    pose proof (seq_draws_len m e) as L. destruct (seq_draws G m e) as [l1 e1]. cbn [fst snd seq_draws] in *.
    destruct (rnorm01 G e1) as [z e2]. exists (mset A1 i m z). split; [reflexivity|].
    intros i' j'. unfold mset. rewrite H2.
    destruct (Nat.eqb_spec i' i); cbn [andb]; [|reflexivity].
    destruct (Nat.eqb_spec j' m).
    + subst j'. replace (Nat.ltb m (m + 1)) with true by (symmetry; apply Nat.ltb_lt; lia).
      cbn [fst]. rewrite app_nth2 by lia. rewrite L, Nat.sub_diag. reflexivity.
    + destruct (Nat.ltb_spec j' m), (Nat.ltb_spec j' (m + 1)); try lia; auto.
      cbn [fst]. rewrite app_nth1 by lia. reflexivity.
Qed.
Lemma below_S K : (1 <= K)%nat -> below (S K) = below K ++ map (fun j => (K, j)) (seq 0 K).
Proof.
  intros H. unfold below. replace (S K - 1)%nat with (S (K - 1)) by lia. rewrite seq_S, flat_map_app.
  replace (1 + (K - 1))%nat with K by lia. cbn [flat_map]. now rewrite app_nil_r.
Qed.
(** the strictly lower triangle, row by row *)
Lemma fill_lower K A e : exists A',
  fill_below G (below K) A e = (A', snd (seq_draws G (tri K) e)) /\
  forall i j, A' i j = if Nat.ltb i K && Nat.ltb j i then nth (tri i + j) (fst (seq_draws G (tri K) e)) (ofZ 0) else A i j.
Proof.
  induction K as [|K (A1 & H1 & H2)].
  - exists A. split; auto.
  - destruct K as [|K].
    + exists A. split; auto. intros. destruct (Nat.ltb_spec i 1), (Nat.ltb_spec j i); auto; lia.
    + rewrite below_S by lia. rewrite fill_below_app, H1. cbn [tri].
      change (tri K + K)%nat with (tri (S K)) in *. rewrite (seq_draws_app (tri (S K)) (S K)).
      pose proof (seq_draws_len (tri (S K)) e) as L. destruct (seq_draws G (tri (S K)) e) as [l1 e1]. cbn [fst snd] in *.
      destruct (fill_row (S K) (S K) A1 e1) as (A2 & F1 & F2). rewrite F1.
      destruct (seq_draws G (S K) e1) as [l2 e2]. cbn [fst snd] in *. exists A2. split; [reflexivity|].
      intros i j. rewrite F2, H2.
      assert (TM : forall a b, (a < b)%nat -> (tri a + a <= tri b)%nat).
      { intros a b Hab. induction Hab; cbn [tri]; lia. }
      destruct (Nat.eqb_spec i (S K)).
      * subst. cbn [andb]. replace (Nat.ltb (S K) (S (S K))) with true by (symmetry; apply Nat.ltb_lt; lia).
        replace (Nat.ltb (S K) (S K)) with false by (symmetry; apply Nat.ltb_ge; lia). cbn [andb].
        destruct (Nat.ltb_spec j (S K)); auto. rewrite app_nth2 by lia. f_equal. lia.
      * cbn [andb]. destruct (Nat.ltb_spec i (S K)), (Nat.ltb_spec i (S (S K))); try lia; cbn [andb]; auto.
        destruct (Nat.ltb_spec j i); auto. specialize (TM i (S K) ltac:(lia)). rewrite app_nth1 by lia. reflexivity.
Qed.

(** the diagonal: one chi-square draw per row, in order *)
Fixpoint chi_draws (fuel : nat) (nu : nu_t T) (i n : nat) (e : E) : option (list T * E) :=
  match n with
  | O => Some ([], e)
  | S n =>
      match rchisq G fuel (nu_minus nu (Z.of_nat i)) e with
      | None => None
      | Some (c, e1) => match chi_draws fuel nu (S i) n e1 with None => None | Some (l, e2) => Some (c :: l, e2) end
      end
  end.
Lemma fill_diag_spec fuel nu n : forall i A e,
  match chi_draws fuel nu i n e with
  | None => fill_diag G fuel nu (seq i n) A e = None
  | Some (l, e') => length l = n /\ exists A', fill_diag G fuel nu (seq i n) A e = Some (A', e') /\
      forall a b, A' a b = if Nat.eqb a b && Nat.leb i a && Nat.ltb a (i + n) then sqrt (nth (a - i) l (ofZ 0)) else A a b
  end.
Proof.
  induction n as [|n IH]; intros i A e; cbn [chi_draws fill_diag seq].
  - split; auto. exists A. split; auto. intros. destruct (Nat.eqb_spec a b), (Nat.leb_spec i a), (Nat.ltb_spec a (i + 0)); auto; lia.
  - destruct (rchisq G fuel (nu_minus nu (Z.of_nat i)) e) as [[c e1]|]; auto.
    specialize (IH (S i) (mset A i i (sqrt c)) e1). destruct (chi_draws fuel nu (S i) n e1) as [[l e2]|]; auto.
    destruct IH as (L & A' & F & H). split; [cbn; lia|]. exists A'. split; auto.
    intros a b. rewrite H. unfold mset.
    destruct (Nat.eqb_spec a b).
    + subst b. cbn [andb]. destruct (Nat.leb_spec (S i) a), (Nat.leb_spec i a); try lia; cbn [andb].
      * replace (Nat.ltb a (i + S n)) with (Nat.ltb a (S i + n)) by (f_equal; lia).
        destruct (Nat.ltb a (S i + n)) eqn:Q.
        -- replace (a - i)%nat with (S (a - S i)) by lia. reflexivity.
        -- destruct (Nat.eqb_spec a i); [lia|]. reflexivity.
      * assert (a = i) by lia. subst a. rewrite Nat.eqb_refl. cbn [andb].
        replace (Nat.ltb i (i + S n)) with true by (symmetry; apply Nat.ltb_lt; lia).
        rewrite Nat.sub_diag. reflexivity.
      * destruct (Nat.eqb_spec a i); [lia|]. reflexivity.
    + cbn [andb]. destruct (Nat.eqb_spec a i), (Nat.eqb_spec b i); cbn [andb]; auto; lia.
Qed.

(** the factor: normals below the diagonal, square roots of chi-squares on it, zero above *)
Lemma bartlett_spec fuel K nu e :
  let zs := fst (seq_draws G (tri K) e) in
  match chi_draws fuel nu 0 K (snd (seq_draws G (tri K) e)) with
  | None => bartlett G fuel K nu e = None
  | Some (cs, e') => length cs = K /\ exists A, bartlett G fuel K nu e = Some (A, e') /\
      forall i j, (i < K)%nat -> (j < K)%nat ->
        A i j = if Nat.ltb j i then nth (tri i + j) zs (ofZ 0)
                else if Nat.eqb i j then sqrt (nth i cs (ofZ 0)) else ofZ 0
  end.
Proof.
  intros zs. unfold bartlett. destruct (fill_lower K (fun _ _ => ofZ 0) e) as (A1 & F1 & H1). rewrite F1.
  pose proof (fill_diag_spec fuel nu K 0 A1 (snd (seq_draws G (tri K) e))) as D.
  destruct (chi_draws fuel nu 0 K _) as [[cs e']|]; auto. destruct D as (L & A & F & H). split; auto.
  exists A. split; auto. intros i j Hi Hj. rewrite H, H1. cbn [Nat.add].
  destruct (Nat.eqb_spec i j), (Nat.leb_spec 0 i), (Nat.ltb_spec i K), (Nat.ltb_spec j i); cbn [andb]; try lia; auto.
  now rewrite Nat.sub_0_r.
Qed.
End B.

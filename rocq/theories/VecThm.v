(** Results of the vector macros for every schedule. *)
From Coq Require Import ZArith List Bool Lia.
From Verif Require Import Vec SpecVec VecProof VecPlan.
Import ListNotations.
Local Open Scope Z_scope.

Lemma forall2_nth {X Y} (P : X -> Y -> Prop) l l' : length l = length l' ->
  (forall q x y, nth_error l q = Some x -> nth_error l' q = Some y -> P x y) -> Forall2 P l l'.
Proof.
  revert l'. induction l as [|x l IH]; intros [|y l'] Hl H; try discriminate; constructor.
  - apply (H 0%nat); reflexivity.
  - apply IH; [now injection Hl|]. intros q. apply (H (S q)).
Qed.
Lemma nth_forall2 {X Y} (P : X -> Y -> Prop) l l' q x y : Forall2 P l l' ->
  nth_error l q = Some x -> nth_error l' q = Some y -> P x y.
Proof.
  intros H. revert q. induction H as [|a b l l' Hab H IH]; intros [|q] Hx Hy; cbn in *; try discriminate.
  - congruence.
  - eauto.
Qed.

Section Det.
Context {L E B : Type} (start : Z -> option L) (rstep : L -> E -> (L + B) * E).
Lemma returns_det l e b1 e1 b2 e2 : returns rstep l e b1 e1 -> returns rstep l e b2 e2 -> b1 = b2 /\ e1 = e2.
Proof.
  intros H. revert b2 e2. induction H as [l e b e' H|l e l1 e1 b e' H R IH]; intros b2 e2 R2;
    inversion R2 as [? ? ? ? H2|? ? ? ? ? ? H2 R3]; subst; rewrite H in H2.
  - now injection H2 as -> ->.
  - discriminate.
  - discriminate.
  - injection H2 as -> ->. auto.
Qed.
Lemma calls_det l0 n e b1 e1 b2 e2 : calls l0 rstep n e b1 e1 -> calls l0 rstep n e b2 e2 -> b1 = b2 /\ e1 = e2.
Proof.
  intros H. revert b2 e2. induction H as [e|n e b e1 bs e' R C IH]; intros b2 e2 C2; inversion C2; subst; auto.
  match goal with H1 : returns rstep l0 e b0 _ |- _ => destruct (returns_det _ _ _ _ _ _ R H1) as (-> & ->) end.
  match goal with H1 : calls l0 rstep n _ bs0 _ |- _ => destruct (IH _ _ H1) as (-> & ->) end. auto.
Qed.
Lemma calls_len l0 n e bs e' : calls l0 rstep n e bs e' -> length bs = n.
Proof. induction 1; cbn; congruence. Qed.
Lemma block_calls_det l0 n es b1 e1 b2 e2 : block_calls l0 rstep n es b1 e1 ->
  block_calls l0 rstep n es b2 e2 -> b1 = b2 /\ e1 = e2.
Proof.
  intros H. revert b2 e2. induction H as [|e bs e' es bss es' C H IH]; intros b2 e2 H2; inversion H2; subst; auto.
  match goal with H1 : calls l0 rstep n e bs0 _ |- _ => destruct (calls_det _ _ _ _ _ _ _ C H1) as (-> & ->) end.
  match goal with H1 : block_calls l0 rstep n es bss0 _ |- _ => destruct (IH _ _ H1) as (-> & ->) end. auto.
Qed.
Lemma filled_det l0 n rem es o1 o2 : filled l0 rstep n rem es o1 -> filled l0 rstep n rem es o2 -> o1 = o2.
Proof.
  intros (bss & es' & H & T) (bss2 & es2 & H2 & T2). destruct (block_calls_det _ _ _ _ _ _ _ H H2) as (-> & ->).
  destruct rem as [|rem]; [congruence|].
  destruct T as (e1 & l1 & tv & e2 & -> & C & ->), T2 as (e1' & l1' & tv' & e2' & Q & C' & ->).
  injection Q as <- <-. destruct (calls_det _ _ _ _ _ _ _ C C') as (-> & _). reflexivity.
Qed.
Lemma block_calls_len l0 n es bss es' : block_calls l0 rstep n es bss es' ->
  length bss = length es /\ length es' = length es /\ forall b, In b bss -> length b = n.
Proof.
  induction 1 as [|e bs e' es bss es' C H (A & B0 & D)]; [repeat split; auto; intros ? []|].
  cbn. repeat split; try lia. intros b [<-|Hb]; [eapply calls_len; eauto|auto].
Qed.
Lemma filled_len l0 n rem es out : (0 < n)%nat -> (0 < length es)%nat -> filled l0 rstep n rem es out ->
  length out = (length es * n + rem)%nat.
Proof.
  intros Hn He (bss & es' & H & T). destruct (block_calls_len _ _ _ _ _ H) as (A & _ & D).
  pose proof (concat_len bss n D) as Lc. destruct rem as [|rem].
  - subst out. rewrite Lc. lia.
  - destruct T as (e1 & l1 & tv & e2 & -> & C & ->). rewrite app_length, firstn_length, (calls_len _ _ _ _ _ C), Lc.
    assert (1 <= length es * n)%nat by nia. lia.
Qed.
End Det.

(** ** element-wise evaluation *)
Section EvalThm.
Context {A L B : Type} (call : A -> L) (fstep : L -> L + B).
Notation ev := (evaluates call fstep).

Lemma load_nth (v : list A) q : load v (Z.of_nat q) = nth_error v q.
Proof. unfold load. replace (0 <=? Z.of_nat q) with true by (symmetry; apply Z.leb_le; lia). now rewrite Nat2Z.id. Qed.
Lemma load_some (v : list A) i : 0 <= i < Z.of_nat (length v) -> estart call v i <> None.
Proof.
  intros H. unfold estart. replace i with (Z.of_nat (Z.to_nat i)) by lia. rewrite load_nth.
  destruct (nth_lt v (Z.to_nat i)) as (a & ->); [lia|]. discriminate.
Qed.

Lemma eval_draws v is e bs e' : draws (estart call v) (estep fstep) is e bs e' ->
  Forall2 (fun i b => exists a, load v i = Some a /\ ev a b) is bs.
Proof.
  induction 1 as [|i l is e b e1 bs e' Hl R D IH]; constructor; auto.
  unfold estart in Hl. destruct (load v i) as [a|]; [|discriminate]. cbn in Hl. injection Hl as <-.
  exists a. split; auto. unfold evaluates. destruct e, e1. exact R.
Qed.
Lemma draws_eval v is bs e : Forall2 (fun i b => exists a, load v i = Some a /\ ev a b) is bs ->
  draws (estart call v) (estep fstep) is e bs tt.
Proof.
  intros H. revert e. induction H as [|i b is bs (a & Hl & R) H IH]; intros e; [destruct e; constructor|].
  apply (draws_cons _ _ i (call a) is e b tt bs tt); [unfold estart; now rewrite Hl| |auto]. destruct e; exact R.
Qed.

Lemma eval_serial_ok v m r : length m = length v ->
  eval_serial call fstep v (Z.of_nat (length v)) m r -> exists out, r = Ok out /\ Forall2 ev v out.
Proof.
  intros Lm (r' & X & ->).
  destruct (exec_all (estart call v) (estep fstep) (length v) tt m r' Lm) as (bs & e' & -> & D).
  { intros i Hi. now apply load_some. } { exact X. }
  exists bs. split; auto. pose proof (draws_len _ _ _ _ _ _ D) as Lb. rewrite upto_len in Lb.
  apply eval_draws in D. apply forall2_nth; [lia|]. intros q a b Ha Hb.
  pose proof (nth_is _ _ _ Ha) as Kq.
  destruct (nth_forall2 _ _ _ q (Z.of_nat q) b D) as (a' & Ha' & R); auto.
  { rewrite upto_nth by lia. f_equal. }
  rewrite load_nth in Ha'. congruence.
Qed.

Lemma eval_omp_ok omp v m r : 1 <= omp -> Z.of_nat (length v) < W64 -> length m = length v ->
  eval_omp call fstep omp v (Z.of_nat (length v)) m r -> exists out, r = Ok out /\ Forall2 ev v out.
Proof.
  intros Ho Hv Lm X.
  set (num := Z.of_nat (length v)) in *.
  assert (Hn : 0 <= num < W64) by lia.
  assert (Hs : forall i, 0 <= i < num -> estart call v i <> None) by (intros; now apply load_some).
  assert (Le : length (map (fun _ : list Z => tt) (blocks omp num)) = Z.to_nat (n_threads omp))
    by (rewrite map_length; apply blocks_len).
  inversion X as [Hp X1|es m1 r' Hp X1 X2 Er|r' Hp X1]; subst.
  - destruct (exec_blocks (estart call v) (estep fstep) omp num _ m _ Ho Hn Le ltac:(lia) Hs X1) as (bss & es' & Q & _). discriminate.
  - destruct (exec_blocks (estart call v) (estep fstep) omp num _ m _ Ho Hn Le ltac:(lia) Hs X1) as (bss & es' & Q & D & Lb).
    injection Q as -> ->. destruct D as (D1 & D2 & D3 & D4). rewrite blocks_len in D2.
    pose proof (concat_len bss _ Lb) as Lc. rewrite D2 in Lc.
    pose proof (num_split omp num Ho) as Sp. pose proof (rem_range omp num Ho) as Rr.
    pose proof (par_npb omp num Hp) as Pn. pose proof (nt_range omp Ho) as Nt.
    set (t := Z.to_nat (n_threads omp)) in *. set (n := Z.to_nat (n_per_block omp num)) in *.
    assert (tn : Z.of_nat (t * n) = num - n_remainder omp num).
    { subst t n. rewrite Nat2Z.inj_mul, !Z2Nat.id by lia. lia. }
    set (m1 := concat bss ++ skipn (t * n) m) in *.
    assert (Lm1 : length m1 = length v).
    { unfold m1. rewrite app_length, skipn_length, Lc. subst num. lia. }
    assert (P1 : forall q a b, (q < t * n)%nat -> nth_error v q = Some a -> nth_error m1 q = Some b -> ev a b).
    { intros q a b Hq Ha Hb. unfold m1 in Hb. rewrite nth_error_app1 in Hb by lia.
      assert (n <> 0)%nat by (subst n; lia).
      assert (Qe : q = (q / n * n + q mod n)%nat) by (rewrite (Nat.div_mod q n) at 1 by assumption; lia).
      assert (Qm : (q mod n < n)%nat) by (apply Nat.mod_upper_bound; assumption).
      assert (Qk : (q / n < t)%nat) by (apply Nat.div_lt_upper_bound; lia).
      destruct (nth_lt bss (q / n)) as (bs & Hbs); [lia|].
      destruct (nth_lt (blocks omp num) (q / n)) as (is & His); [rewrite blocks_len; exact Qk|].
      destruct (nth_lt (map (fun _ : list Z => tt) (blocks omp num)) (q / n)) as (e & He); [lia|].
      destruct (nth_lt es' (q / n)) as (e' & He'); [rewrite D3, blocks_len; exact Qk|].
      pose proof (D4 _ _ _ _ _ His He Hbs He') as D. apply eval_draws in D.
      rewrite Qe in Hb. rewrite (concat_nth bss n _ _ bs Lb Hbs Qm) in Hb.
      destruct (blocks_nth omp num _ _ His) as (-> & R).
      destruct (nth_forall2 _ _ _ (q mod n)%nat (Z.of_nat q) b D) as (a' & Ha' & R'); auto.
      { rewrite block_nth by assumption. f_equal. rewrite Qe at 3. subst n.
        rewrite Nat2Z.inj_add, Nat2Z.inj_mul, Z2Nat.id by lia. reflexivity. }
      rewrite load_nth in Ha'. congruence. }
    destruct (exec_tail (estart call v) (estep fstep) omp num tt m1 r' Ho Hn Hp) as (tv & e' & D & ->); auto; [lia|].
    eexists. split; [reflexivity|].
    pose proof (draws_len _ _ _ _ _ _ D) as Lt. rewrite (tail_len omp num Ho Hn Hp) in Lt.
    apply eval_draws in D. rewrite (tail_eq omp num Ho Hn Hp) in D.
    fold t n. destruct (0 <? n_remainder omp num) eqn:Q.
    + apply Z.ltb_lt in Q. apply forall2_nth.
      { rewrite app_length, firstn_length. subst num. lia. }
      intros q a b Ha Hb. pose proof (nth_is _ _ _ Ha) as Kq.
      destruct (Nat.lt_ge_cases q (t * n - 1)) as [C|C].
      * rewrite nth_error_app1 in Hb by (rewrite firstn_length; lia). rewrite nth_firstn_lt in Hb by lia.
        eapply P1; eauto. lia.
      * rewrite nth_error_app2 in Hb by (rewrite firstn_length; lia). rewrite firstn_length in Hb.
        replace (Nat.min (t * n - 1) (length m1)) with (t * n - 1)%nat in Hb by lia.
        destruct (nth_forall2 _ _ _ (q - (t * n - 1))%nat (Z.of_nat q) b D) as (a' & Ha' & R'); auto.
        { rewrite upto_nth by (subst num; lia). f_equal. lia. }
        rewrite load_nth in Ha'. congruence.
    + apply Z.ltb_ge in Q. apply forall2_nth; [lia|]. intros q a b Ha Hb. pose proof (nth_is _ _ _ Ha) as Kq.
      eapply P1; eauto. subst num. lia.
  - now apply (eval_serial_ok v m).
Qed.

Definition omp_ok (omp : option Z) : Prop := match omp with Some k => 1 <= k | None => True end.

Lemma eval_vec_ok omp v m r : omp_ok omp -> Z.of_nat (length v) < W64 -> length m = length v ->
  eval_vec call fstep omp v (Z.of_nat (length v)) m r -> exists out, r = Ok out /\ Forall2 ev v out.
Proof.
  destruct omp as [k|]; cbn; intros Ho Hv Lm X.
  - eapply eval_omp_ok; eauto.
  - eapply eval_serial_ok; eauto.
Qed.

Lemma evals_nth v out q a : Forall2 ev v out -> nth_error v q = Some a -> exists b, nth_error out q = Some b /\ ev a b.
Proof.
  intros H. revert q. induction H as [|x y v out Hxy H IH]; intros [|q] Ha; cbn in *; try discriminate.
  - injection Ha as <-. eauto.
  - eauto.
Qed.

Lemma evals_idx v out is : Forall2 ev v out -> (forall i, In i is -> 0 <= i < Z.of_nat (length v)) ->
  exists bs, Forall2 (fun i b => exists a, load v i = Some a /\ ev a b) is bs.
Proof.
  intros F. induction is as [|i is IH]; intros H; [exists []; constructor|].
  destruct IH as (bs & G); [intros; apply H; now right|].
  assert (Hi : 0 <= i < Z.of_nat (length v)) by (apply H; now left).
  destruct (nth_lt v (Z.to_nat i)) as (a & Ha); [lia|].
  destruct (evals_nth _ _ _ _ F Ha) as (b & _ & R).
  exists (b :: bs). constructor; auto. exists a. split; auto.
  replace i with (Z.of_nat (Z.to_nat i)) by lia. now rewrite load_nth.
Qed.

(** When every scalar call returns, the vector call can finish. *)
Lemma eval_vec_exists omp v m out : omp_ok omp -> Z.of_nat (length v) < W64 -> length m = length v ->
  Forall2 ev v out -> exists r, eval_vec call fstep omp v (Z.of_nat (length v)) m r.
Proof.
  intros Ho Hv Lm F.
  set (num := Z.of_nat (length v)) in *.
  assert (Hn : 0 <= num < W64) by lia.
  assert (Hs : forall i, 0 <= i < num -> estart call v i <> None) by (intros; now apply load_some).
  assert (ser : exists r, eval_serial call fstep v num m r).
  { destruct (evals_idx v out (upto 0 num) F) as (bs & G); [intros i Hi; apply upto_in in Hi; lia|].
    destruct (exec_one_exists (estart call v) (estep fstep) (upto 0 num) tt m bs tt) as (r & X).
    - apply upto_nodup.
    - intros i Hi. apply upto_in in Hi. split; [lia|]. apply Hs. lia.
    - now apply draws_eval.
    - eexists. exists r. split; eauto. }
  destruct omp as [omp|]; cbn in *; [|exact ser].
  destruct (parallel omp num) eqn:Hp.
  2:{ destruct ser as (r & X). exists r. now apply eo_ser. }
  assert (Le : length (map (fun _ : list Z => tt) (blocks omp num)) = Z.to_nat (n_threads omp))
    by (rewrite map_length; apply blocks_len).
  assert (DD : exists bss es', all_draws (estart call v) (estep fstep) (blocks omp num)
     (map (fun _ => tt) (blocks omp num)) bss es').
  { assert (Y : forall loops, (forall is, In is loops -> forall i, In i is -> 0 <= i < num) ->
      exists bss, length bss = length loops /\ forall k is bs, nth_error loops k = Some is -> nth_error bss k = Some bs ->
        Forall2 (fun i b => exists a, load v i = Some a /\ ev a b) is bs).
    { induction loops as [|is loops IH]; intros H; [exists []; split; auto; intros [|k] ? ? ?; discriminate|].
      destruct IH as (bss & L1 & G); [intros; eapply H; [right|]; eauto|].
      destruct (evals_idx v out is F) as (bs & G1); [intros; apply (H is); [now left|auto]|].
      exists (bs :: bss). split; [cbn; lia|]. intros [|k] is' bs' H1 H2; cbn in *.
      - now injection H1 as <-; injection H2 as <-.
      - eauto. }
    destruct (Y (blocks omp num)) as (bss & L1 & G).
    { intros is Hi i Hin. apply In_nth_error in Hi. destruct Hi as (k & Hk).
      destruct (blocks_nth omp num _ _ Hk) as (-> & R). apply block_in in Hin; auto.
      pose proof (num_split omp num Ho). pose proof (rem_range omp num Ho). nia. }
    exists bss, (map (fun _ => tt) (blocks omp num)). repeat split; rewrite ?map_length; auto.
    intros k is e bs e' H1 H2 H3 H4. destruct e'. apply draws_eval. eauto. }
  destruct DD as (bss & es' & DD).
  destruct (exec_blocks_exists (estart call v) (estep fstep) omp num _ m bss es' Ho Hn Le ltac:(lia) Hs DD) as (r & X).
  destruct (exec_blocks (estart call v) (estep fstep) omp num _ m r Ho Hn Le ltac:(lia) Hs X) as (bss' & es2 & -> & D2 & Lb).
  set (m1 := concat bss' ++ skipn (Z.to_nat (n_threads omp) * Z.to_nat (n_per_block omp num)) m) in *.
  assert (Lm1 : Z.of_nat (length m1) = num).
  { unfold m1. rewrite app_length, skipn_length, (concat_len _ _ Lb). destruct D2 as (_ & D2 & _).
    rewrite D2, blocks_len. pose proof (num_split omp num Ho). pose proof (rem_range omp num Ho).
    pose proof (nt_range omp Ho). pose proof (npb_pos omp num Ho Hn).
    assert (Z.of_nat (Z.to_nat (n_threads omp) * Z.to_nat (n_per_block omp num)) = num - n_remainder omp num).
    { rewrite Nat2Z.inj_mul, !Z2Nat.id by lia. lia. } lia. }
  destruct (evals_idx v out (tail omp num) F) as (tv & G); [intros i Hi; now apply (tail_in omp num Ho Hn Hp)|].
  destruct (exec_one_exists (estart call v) (estep fstep) (tail omp num) tt m1 tv tt) as (r2 & X2).
  - now apply tail_nodup.
  - intros i Hi. apply (tail_in omp num Ho Hn Hp) in Hi. split; [lia|]. now apply Hs.
  - now apply draws_eval.
  - eexists. eapply eo_par; eauto.
Qed.

Lemma evaluates_det a b1 b2 : ev a b1 -> ev a b2 -> b1 = b2.
Proof. intros H1 H2. exact (proj1 (returns_det _ _ _ _ _ _ _ H1 H2)). Qed.

Lemma stdvec_ok omp fill0 x r : omp_ok omp -> Z.of_nat (length x) < W64 -> stdvec_fn call fstep omp fill0 x r ->
  exists out, r = Ok out /\ Forall2 ev x out.
Proof. intros Ho Hx (L1 & X). eapply eval_vec_ok; eauto. Qed.

Lemma mat_ok omp fill0 X r : omp_ok omp -> Z.of_nat (length (m_data X)) = m_rows X * m_cols X ->
  m_rows X * m_cols X < W64 -> mat_fn call fstep omp fill0 X r ->
  exists Y, r = Ok Y /\ m_rows Y = m_rows X /\ m_cols Y = m_cols X /\ Forall2 ev (m_data X) (m_data Y).
Proof.
  intros Ho Hd Hx (L1 & r' & H & ->). rewrite <- Hd in H.
  destruct (eval_vec_ok omp (m_data X) fill0 r') as (out & -> & F); auto; [lia|lia|].
  exists (Mat (m_rows X) (m_cols X) out). auto.
Qed.
End EvalThm.

(** ** random filling *)
Section RandThm.
Context {L E B U : Type} (l0 : L) (rstep : L -> E -> (L + B) * E).
Context (uni : E -> U * E) (seed : Z -> Z -> U -> Z) (mk : Z -> E).
Notation rs := (@rstart L l0).

Lemma draws_calls is e bs e' : draws rs rstep is e bs e' -> calls l0 rstep (length is) e bs e'.
Proof.
  induction 1 as [|i l is e b e1 bs e' Hl R D IH]; cbn; econstructor; eauto.
  unfold rstart in Hl. now injection Hl as <-.
Qed.
Lemma calls_draws is : forall e bs e', calls l0 rstep (length is) e bs e' -> draws rs rstep is e bs e'.
Proof.
  induction is as [|i is IH]; intros e bs e' H; inversion H; subst; econstructor; eauto. reflexivity.
Qed.

Lemma rand_serial_ok num e0 m r : 0 <= num -> Z.of_nat (length m) = num -> rand_serial l0 rstep num e0 m r ->
  exists out e', r = Ok (e', out) /\ calls l0 rstep (Z.to_nat num) e0 out e'.
Proof.
  intros Hn Lm (r' & X & ->). rewrite <- Lm in X.
  destruct (exec_all rs rstep (length m) e0 m r') as (bs & e' & -> & D); auto.
  { intros; discriminate. }
  exists bs, e'. split; auto. apply draws_calls in D. rewrite upto_len in D.
  replace (Z.to_nat num) with (Z.to_nat (Z.of_nat (length m) - 0)) by lia. exact D.
Qed.

Lemma seed_loop_len ks n e0 : length (fst (seed_loop uni seed mk ks n e0)) = length ks.
Proof.
  revert e0. induction ks as [|k ks IH]; intros e0; cbn; auto.
  destruct (uni e0) as [u e1]. specialize (IH e1). destruct (seed_loop uni seed mk ks n e1). cbn in *. lia.
Qed.
Lemma seeded_len omp e0 : 1 <= omp -> length (fst (seeded uni seed mk omp e0)) = Z.to_nat (n_threads omp).
Proof. intros. unfold seeded. rewrite seed_loop_len, upto_len. f_equal. lia. Qed.

Lemma seed_loop_eq ks n : forall e0,
  seed_loop uni seed mk ks n e0 =
  (map (fun ku => mk (seed (fst ku) n (snd ku))) (combine ks (fst (advance uni (length ks) e0))),
   snd (advance uni (length ks) e0)).
Proof.
  induction ks as [|k ks IH]; intros e0; cbn; auto.
  destruct (uni e0) as [u e1]. cbn. rewrite IH. destruct (advance uni (length ks) e1). reflexivity.
Qed.

Lemma all_draws_blocks omp num es bss es' : all_draws rs rstep (blocks omp num) es bss es' ->
  block_calls l0 rstep (Z.to_nat (n_per_block omp num)) es bss es'.
Proof.
  assert (Lb : forall is, In is (blocks omp num) -> length is = Z.to_nat (n_per_block omp num)).
  { intros is H. unfold blocks in H. apply in_map_iff in H. destruct H as (j & <- & _). apply block_len. }
  revert Lb. generalize (Z.to_nat (n_per_block omp num)) as n. generalize (blocks omp num) as loops.
  intros loops n. revert es bss es'. induction loops as [|is loops IH]; intros es bss es' Lb (D1 & D2 & D3 & D4).
  - destruct es, bss, es'; try discriminate. constructor.
  - destruct es as [|e es], bss as [|bs bss], es' as [|e' es']; try discriminate. constructor.
    + rewrite <- (Lb is) by now left. apply draws_calls. apply (D4 0%nat); reflexivity.
    + apply IH; [intros; apply Lb; now right|]. repeat split; try (cbn in *; lia).
      intros k. apply (D4 (S k)).
Qed.
Lemma blocks_all_draws omp num es bss es' : length es = length (blocks omp num) ->
  block_calls l0 rstep (Z.to_nat (n_per_block omp num)) es bss es' -> all_draws rs rstep (blocks omp num) es bss es'.
Proof.
  assert (Lb : forall is, In is (blocks omp num) -> length is = Z.to_nat (n_per_block omp num)).
  { intros is H. unfold blocks in H. apply in_map_iff in H. destruct H as (j & <- & _). apply block_len. }
  revert Lb. generalize (Z.to_nat (n_per_block omp num)) as n. generalize (blocks omp num) as loops.
  intros loops n Lb Le H. revert loops Lb Le. induction H as [|e bs e' es bss es' C H IH]; intros loops Lb Le.
  - destruct loops; [|discriminate]. repeat split. intros [|k]; discriminate.
  - destruct loops as [|is loops]; [discriminate|].
    destruct (IH loops) as (D1 & D2 & D3 & D4); [intros; apply Lb; now right|cbn in Le; lia|].
    repeat split; try (cbn; lia). intros [|k] is' e0 bs0 e0' H1 H2 H3 H4; cbn in *; [|eauto].
    injection H1 as <-. injection H2 as <-. injection H3 as <-. injection H4 as <-.
    apply calls_draws. rewrite (Lb is) by now left. exact C.
Qed.

Lemma rand_omp_ok omp num e0 m r : 1 <= omp -> 0 <= num < W64 -> Z.of_nat (length m) = num ->
  parallel omp num = true -> rand_omp l0 rstep uni seed mk omp num e0 m r ->
  exists out, r = Ok (snd (seeded uni seed mk omp e0), out) /\
    filled l0 rstep (Z.to_nat (n_per_block omp num)) (Z.to_nat (n_remainder omp num)) (fst (seeded uni seed mk omp e0)) out.
Proof.
  intros Ho Hn Lm Hp X.
  assert (Hs : forall i, 0 <= i < num -> rs i <> None) by (intros; discriminate).
  pose proof (seeded_len omp e0 Ho) as Le.
  inversion X as [_ X1|es m1 r' _ X1 X2 Er|r' Hp' X1]; subst r; [| |congruence].
  - destruct (exec_blocks rs rstep omp num _ m _ Ho Hn Le Lm Hs X1) as (bss & es' & Q & _). discriminate.
  - destruct (exec_blocks rs rstep omp num _ m _ Ho Hn Le Lm Hs X1) as (bss & es' & Q & D & Lb).
    injection Q as -> ->.
    pose proof (all_draws_blocks _ _ _ _ _ D) as BC. destruct D as (D1 & D2 & D3 & D4).
    rewrite blocks_len in D2, D3.
    pose proof (concat_len bss _ Lb) as Lc. rewrite D2 in Lc.
    pose proof (num_split omp num Ho) as Sp. pose proof (rem_range omp num Ho) as Rr.
    pose proof (par_npb omp num Hp) as Pn. pose proof (nt_range omp Ho) as Nt.
    set (t := Z.to_nat (n_threads omp)) in *. set (n := Z.to_nat (n_per_block omp num)) in *.
    assert (tn : Z.of_nat (t * n) = num - n_remainder omp num).
    { subst t n. rewrite Nat2Z.inj_mul, !Z2Nat.id by lia. lia. }
    assert (Lm1 : Z.of_nat (length (concat bss ++ skipn (t * n) m)) = num).
    { rewrite app_length, skipn_length, Lc. lia. }
    destruct (exec_tail rs rstep omp num _ _ r' Ho Hn Hp Lm1 Hs X2) as (tv & e' & D & ->).
    eexists. split; [reflexivity|]. exists bss, es'. split; [exact BC|].
    apply draws_calls in D. rewrite (tail_len omp num Ho Hn Hp) in D. fold t n.
    destruct (0 <? n_remainder omp num) eqn:Q.
    + apply Z.ltb_lt in Q. destruct (Z.to_nat (n_remainder omp num)) as [|rm] eqn:Er; [lia|].
      destruct es' as [|e1 es1]; [cbn in D3; lia|]. cbn [hd] in D.
      exists e1, es1, tv, e'. split; [reflexivity|]. split; [exact D|]. rewrite Le. f_equal.
      rewrite firstn_app. replace (t * n - 1 - length (concat bss))%nat with 0%nat by lia.
      cbn [firstn]. now rewrite app_nil_r.
    + apply Z.ltb_ge in Q. replace (Z.to_nat (n_remainder omp num)) with 0%nat by lia.
      rewrite skipn_all2 by lia. now rewrite app_nil_r.
Qed.

(** The number of uniform draws taken from the caller's engine. *)
Lemma seeded_advance omp e0 : 1 <= omp ->
  snd (seeded uni seed mk omp e0) = snd (advance uni (Z.to_nat (n_threads omp)) e0) /\
  fst (seeded uni seed mk omp e0) =
    map (fun ku => mk (seed (fst ku) (n_threads omp) (snd ku)))
      (combine (upto 0 (n_threads omp)) (fst (advance uni (Z.to_nat (n_threads omp)) e0))).
Proof.
  intros Ho. unfold seeded. rewrite seed_loop_eq. rewrite upto_len.
  replace (Z.to_nat (n_threads omp - 0)) with (Z.to_nat (n_threads omp)) by (f_equal; lia). auto.
Qed.

Lemma rand_vec_det omp num e0 m r1 r2 : omp_ok omp -> 0 <= num < W64 -> Z.of_nat (length m) = num ->
  rand_vec l0 rstep uni seed mk omp num e0 m r1 -> rand_vec l0 rstep uni seed mk omp num e0 m r2 -> r1 = r2.
Proof.
  intros Ho Hn Lm.
  assert (ser : forall r1 r2, rand_serial l0 rstep num e0 m r1 -> rand_serial l0 rstep num e0 m r2 -> r1 = r2).
  { clear r1 r2. intros r1 r2 H1 H2. destruct (rand_serial_ok num e0 m r1) as (o1 & e1 & -> & C1); auto; [lia|].
    destruct (rand_serial_ok num e0 m r2) as (o2 & e2 & -> & C2); auto; [lia|].
    destruct (calls_det _ _ _ _ _ _ _ _ C1 C2) as (-> & ->). reflexivity. }
  destruct omp as [omp|]; cbn in *; [|apply ser].
  destruct (parallel omp num) eqn:Hp.
  - intros H1 H2. destruct (rand_omp_ok omp num e0 m r1) as (o1 & -> & F1); auto.
    destruct (rand_omp_ok omp num e0 m r2) as (o2 & -> & F2); auto.
    now rewrite (filled_det _ _ _ _ _ _ _ F1 F2).
  - intros H1 H2. inversion H1; inversion H2; subst; try congruence. now apply ser.
Qed.

(** When the scalar call returns from every engine state, the fill can finish. *)
Lemma calls_exist : (forall e, exists b e', returns rstep l0 e b e') -> forall n e, exists bs e', calls l0 rstep n e bs e'.
Proof.
  intros H. induction n as [|n IH]; intros e; [exists [], e; constructor|].
  destruct (H e) as (b & e1 & R). destruct (IH e1) as (bs & e' & C). exists (b :: bs), e'. econstructor; eauto.
Qed.
Lemma block_calls_exist : (forall e, exists b e', returns rstep l0 e b e') -> forall n es,
  exists bss es', block_calls l0 rstep n es bss es'.
Proof.
  intros H n. induction es as [|e es (bss & es' & IH)]; [exists [], []; constructor|].
  destruct (calls_exist H n e) as (bs & e' & C). exists (bs :: bss), (e' :: es'). constructor; auto.
Qed.

Lemma rand_vec_exists omp num e0 m : (forall e, exists b e', returns rstep l0 e b e') ->
  omp_ok omp -> 0 <= num < W64 -> Z.of_nat (length m) = num ->
  exists r, rand_vec l0 rstep uni seed mk omp num e0 m r.
Proof.
  intros HR Ho Hn Lm.
  assert (ser : exists r, rand_serial l0 rstep num e0 m r).
  { destruct (calls_exist HR (length (upto 0 num)) e0) as (bs & e' & C).
    destruct (exec_one_exists rs rstep (upto 0 num) e0 m bs e') as (r & X).
    - apply upto_nodup.
    - intros i Hi. apply upto_in in Hi. split; [lia|discriminate].
    - now apply calls_draws.
    - eexists. exists r. split; eauto. }
  destruct omp as [omp|]; cbn in *; [|exact ser].
  destruct (parallel omp num) eqn:Hp.
  2:{ destruct ser as (r & X). exists r. now apply ro_ser. }
  assert (Hs : forall i, 0 <= i < num -> rs i <> None) by (intros; discriminate).
  pose proof (seeded_len omp e0 Ho) as Le.
  destruct (block_calls_exist HR (Z.to_nat (n_per_block omp num)) (fst (seeded uni seed mk omp e0))) as (bss & es' & BC).
  assert (DD := blocks_all_draws omp num _ _ _ ltac:(rewrite blocks_len; exact Le) BC).
  destruct (exec_blocks_exists rs rstep omp num _ m _ _ Ho Hn Le Lm Hs DD) as (r & X).
  destruct (exec_blocks rs rstep omp num _ m r Ho Hn Le Lm Hs X) as (bss' & es2 & -> & D2 & Lb).
  set (m1 := concat bss' ++ skipn (Z.to_nat (n_threads omp) * Z.to_nat (n_per_block omp num)) m) in *.
  assert (Lm1 : Z.of_nat (length m1) = num).
  { unfold m1. rewrite app_length, skipn_length, (concat_len _ _ Lb). destruct D2 as (_ & D2 & _).
    rewrite D2, blocks_len. pose proof (num_split omp num Ho). pose proof (rem_range omp num Ho).
    pose proof (nt_range omp Ho). pose proof (npb_pos omp num Ho Hn).
    assert (Z.of_nat (Z.to_nat (n_threads omp) * Z.to_nat (n_per_block omp num)) = num - n_remainder omp num).
    { rewrite Nat2Z.inj_mul, !Z2Nat.id by lia. lia. } lia. }
  destruct (calls_exist HR (length (tail omp num)) (hd e0 es2)) as (tv & e' & C).
  destruct (exec_one_exists rs rstep (tail omp num) (hd e0 es2) m1 tv e') as (r2 & X2).
  - now apply tail_nodup.
  - intros i Hi. apply (tail_in omp num Ho Hn Hp) in Hi. split; [lia|discriminate].
  - now apply calls_draws.
  - eexists. eapply ro_par; eauto.
Qed.

(** No race: the next accesses of two different block loops never meet. *)
Lemma blocks_no_race omp num es (m : list B) sched s k1 k2 t1 e1 t2 e2 a : 1 <= omp -> 0 <= num < W64 ->
  length es = Z.to_nat (n_threads omp) -> Z.of_nat (length m) = num ->
  run rs rstep sched (init (blocks omp num) es m) = Ok s -> k1 <> k2 ->
  nth_error (fst s) k1 = Some (t1, e1) -> nth_error (fst s) k2 = Some (t2, e2) ->
  In a (accesses k1 t1) -> ~ In a (accesses k2 t2).
Proof.
  intros Ho Hn Le Lm R N H1 H2.
  destruct (combine_split_jobs (blocks omp num) es) as (E1 & E2); [now rewrite blocks_len|].
  assert (G := good_blocks rs omp num es Ho Hn Le ltac:(intros; discriminate)).
  replace (Z.to_nat num) with (length m) in G by lia.
  eapply (run_race rs rstep _ m sched s k1 k2); eauto. unfold istate. rewrite E1, E2. exact R.
Qed.
End RandThm.

(** The same for evaluation. *)
Lemma eval_no_race {A L B} (call : A -> L) (fstep : L -> L + B) omp v (m : list B) sched s k1 k2 t1 e1 t2 e2 a :
  1 <= omp -> Z.of_nat (length v) < W64 -> length m = length v ->
  run (estart call v) (estep fstep) sched
    (init (blocks omp (Z.of_nat (length v))) (map (fun _ => tt) (blocks omp (Z.of_nat (length v)))) m) = Ok s ->
  k1 <> k2 -> nth_error (fst s) k1 = Some (t1, e1) -> nth_error (fst s) k2 = Some (t2, e2) ->
  In a (accesses k1 t1) -> ~ In a (accesses k2 t2).
Proof.
  intros Ho Hv Lm R N H1 H2. set (num := Z.of_nat (length v)) in *.
  destruct (combine_split_jobs (blocks omp num) (map (fun _ => tt) (blocks omp num))) as (E1 & E2);
    [now rewrite map_length|].
  assert (G := good_blocks (estart call v) omp num (map (fun _ => tt) (blocks omp num)) Ho ltac:(lia)
    ltac:(rewrite map_length; apply blocks_len) ltac:(intros; now apply load_some)).
  replace (Z.to_nat num) with (length m) in G by lia.
  eapply (run_race (estart call v) (estep fstep) _ m sched s k1 k2); eauto. unfold istate. rewrite E1, E2. exact R.
Qed.

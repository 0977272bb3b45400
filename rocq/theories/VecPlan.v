(** The index arithmetic of the vector macros and their results. *)
From Coq Require Import ZArith List Bool Lia.
From Verif Require Import Vec SpecVec VecProof.
Import ListNotations.
Local Open Scope Z_scope.

Section Plan.
Variables (omp num : Z).
Hypotheses (Ho : 1 <= omp) (Hn : 0 <= num < W64).
Notation nt := (n_threads omp).
Notation npb := (n_per_block omp num).
Notation rem := (n_remainder omp num).

Lemma nt_range : 1 <= nt <= 4.
Proof. unfold n_threads. lia. Qed.
Lemma num_split : num = nt * npb + rem.
Proof. unfold n_per_block, n_remainder. pose proof nt_range. apply Z.div_mod. lia. Qed.
Lemma rem_range : 0 <= rem < nt.
Proof. unfold n_remainder. pose proof nt_range. apply Z.mod_pos_bound. lia. Qed.
Lemma npb_pos : 0 <= npb.
Proof. unfold n_per_block. pose proof nt_range. apply Z.div_pos; lia. Qed.
Lemma par_npb : parallel omp num = true -> 5 <= npb.
Proof. unfold parallel. intros H. apply Z.ltb_lt in H. lia. Qed.

Lemma small i : 0 <= i < num -> i mod W64 = i.
Proof. intros. apply Z.mod_small. lia. Qed.

Lemma blk_lt j i : 0 <= j < nt -> 0 <= i < npb -> 0 <= i + j * npb < num.
Proof. intros Hj Hi. pose proof num_split. pose proof rem_range. pose proof npb_pos. nia. Qed.

Lemma blk_idx j i : 0 <= j < nt -> 0 <= i < npb -> uadd i (umul j npb) = i + j * npb.
Proof.
  intros Hj Hi. pose proof (blk_lt j i Hj Hi) as R. unfold uadd, umul.
  assert (0 <= j * npb <= i + j * npb) by nia.
  rewrite (small (j * npb)) by lia. now apply small.
Qed.

Lemma block_len j : length (block omp num j) = Z.to_nat npb.
Proof. unfold block. rewrite map_length, upto_len. f_equal. lia. Qed.
Lemma block_nth j p : 0 <= j < nt -> (p < Z.to_nat npb)%nat ->
  nth_error (block omp num j) p = Some (j * npb + Z.of_nat p).
Proof.
  intros Hj Hp. unfold block. rewrite nth_error_map, upto_nth by (rewrite Z.sub_0_r; exact Hp). cbn [option_map].
  rewrite blk_idx by lia. f_equal. lia.
Qed.
Lemma block_in j i : 0 <= j < nt -> In i (block omp num j) <-> j * npb <= i < j * npb + npb.
Proof.
  intros Hj. unfold block. rewrite in_map_iff. split.
  - intros (x & <- & Hx). apply upto_in in Hx. rewrite blk_idx by lia. lia.
  - intros H. exists (i - j * npb). split; [|apply upto_in; lia]. rewrite blk_idx by lia. lia.
Qed.
Lemma block_nodup j : 0 <= j < nt -> NoDup (block omp num j).
Proof.
  intros Hj. apply NoDup_nth_error. intros p q Hp E1. rewrite block_len in Hp.
  rewrite block_nth in E1 by assumption.
  assert (Hq : (q < Z.to_nat npb)%nat).
  { rewrite <- (block_len j). apply nth_error_Some. congruence. }
  rewrite block_nth in E1 by assumption. injection E1 as E1. lia.
Qed.
Lemma blocks_len : length (blocks omp num) = Z.to_nat nt.
Proof. unfold blocks. rewrite map_length, upto_len. f_equal. lia. Qed.
Lemma blocks_nth k is : nth_error (blocks omp num) k = Some is ->
  is = block omp num (Z.of_nat k) /\ 0 <= Z.of_nat k < nt.
Proof.
  intros H. pose proof (nth_is _ _ _ H) as Hk. rewrite blocks_len in Hk. unfold blocks in H.
  rewrite nth_error_map, upto_nth in H by (rewrite Z.sub_0_r; exact Hk). cbn in H. injection H as <-.
  split; [reflexivity|]. lia.
Qed.
Lemma blocks_disjoint k1 k2 is1 is2 i : nth_error (blocks omp num) k1 = Some is1 ->
  nth_error (blocks omp num) k2 = Some is2 -> k1 <> k2 -> In i is1 -> ~ In i is2.
Proof.
  intros H1 H2 N I1 I2. apply blocks_nth in H1, H2. destruct H1 as (-> & R1), H2 as (-> & R2).
  apply block_in in I1, I2; auto. assert (Z.of_nat k1 <> Z.of_nat k2) by lia. nia.
Qed.

Hypothesis (Hp : parallel omp num = true).

(** The subtractions of line 60/107 do not wrap. *)
Lemma tail_start : usub (usub num rem) 1 = num - rem - 1 /\ 0 <= num - rem - 1.
Proof.
  pose proof (par_npb Hp). pose proof num_split. pose proof rem_range. pose proof nt_range.
  unfold usub. assert (5 <= num - rem) by nia.
  rewrite (Z.mod_small (num - rem)) by lia. rewrite Z.mod_small by lia. lia.
Qed.
Lemma tail_eq : tail omp num = if 0 <? rem then upto (num - rem - 1) num else [].
Proof. unfold tail. now rewrite (proj1 tail_start). Qed.
Lemma tail_in i : In i (tail omp num) -> 0 <= i < num.
Proof.
  rewrite tail_eq. destruct (0 <? rem); [|intros []]. intros H. apply upto_in in H.
  pose proof (proj2 tail_start). lia.
Qed.
Lemma tail_nodup : NoDup (tail omp num).
Proof. rewrite tail_eq. destruct (0 <? rem); [apply upto_nodup|constructor]. Qed.
Lemma tail_len : length (tail omp num) = if 0 <? rem then S (Z.to_nat rem) else 0%nat.
Proof. rewrite tail_eq. destruct (0 <? rem) eqn:Q; [|reflexivity]. rewrite upto_len. apply Z.ltb_lt in Q. lia. Qed.
End Plan.

(** ** one loop *)
Section One.
Context {L E B : Type} (start : Z -> option L) (rstep : L -> E -> (L + B) * E).

Lemma good_one is e n : NoDup is -> (forall i, In i is -> 0 <= i < Z.of_nat n /\ start i <> None) ->
  good start [@Job E is e] n.
Proof.
  intros H1 H2. split.
  - intros [|[|k]] j Hj; cbn in Hj; try discriminate. injection Hj as <-. auto.
  - intros [|[|k1]] [|[|k2]] j1 j2 i A1 A2 N; cbn in A1, A2; try discriminate. lia.
Qed.

Lemma exec_one is e m r : NoDup is -> (forall i, In i is -> 0 <= i < Z.of_nat (length m) /\ start i <> None) ->
  exec start rstep [is] [e] m r ->
  exists bs e' m', r = Ok ([e'], m') /\ draws start rstep is e bs e' /\ length m' = length m /\
    (forall p i, nth_error is p = Some i -> nth_error m' (Z.to_nat i) = nth_error bs p) /\
    (forall q, ~ In (Z.of_nat q) is -> nth_error m' q = nth_error m q).
Proof.
  intros H1 H2 X. destruct (exec_jobs start rstep [@Job E is e] m r) as (bss & es' & m' & -> & D & W).
  { now apply good_one. } { exact X. }
  destruct D as (_ & L1 & L2 & D). cbn in L1, L2.
  destruct bss as [|bs [|? ?]]; try discriminate. destruct es' as [|e' [|? ?]]; try discriminate.
  destruct W as (W1 & W2 & W3).
  exists bs, e', m'. repeat split; auto.
  - apply (D 0%nat is e bs e'); reflexivity.
  - intros p i Hp. apply (W2 0%nat is bs p i); auto.
  - intros q Hq. apply W3. intros [|[|k]] is' A; cbn in A; try discriminate. now injection A as <-.
Qed.

Lemma exec_one_exists is e m bs e' : NoDup is ->
  (forall i, In i is -> 0 <= i < Z.of_nat (length m) /\ start i <> None) ->
  draws start rstep is e bs e' -> exists r, exec start rstep [is] [e] m r.
Proof.
  intros H1 H2 D. apply (exec_exists start rstep [@Job E is e]).
  - now apply good_one.
  - intros [|[|k]] j Hj; cbn in Hj; try discriminate. injection Hj as <-. eauto.
Qed.

(** the plain loop over the whole array *)
Lemma exec_all n e m r : length m = n -> (forall i, 0 <= i < Z.of_nat n -> start i <> None) ->
  exec start rstep [upto 0 (Z.of_nat n)] [e] m r ->
  exists bs e', r = Ok ([e'], bs) /\ draws start rstep (upto 0 (Z.of_nat n)) e bs e'.
Proof.
  intros Hl Hs X. destruct (exec_one _ e m r (upto_nodup 0 (Z.of_nat n))) as (bs & e' & m' & -> & D & L1 & W1 & W2); [|exact X|].
  { intros i Hi. apply upto_in in Hi. rewrite Hl. split; [lia|]. apply Hs. lia. }
  exists bs, e'. split; [|exact D]. f_equal. f_equal. apply nth_ext. intros q.
  pose proof (draws_len _ _ _ _ _ _ D) as Lb. rewrite upto_len in Lb.
  destruct (Nat.lt_ge_cases q n) as [Q|Q].
  - rewrite <- (W1 q (Z.of_nat q)). { now rewrite Nat2Z.id. }
    rewrite upto_nth by lia. f_equal.
  - transitivity (@None B); [apply nth_error_None; lia|symmetry; apply nth_error_None; lia].
Qed.

(** ** the blocks *)
Lemma good_blocks omp num es : 1 <= omp -> 0 <= num < W64 -> length es = Z.to_nat (n_threads omp) ->
  (forall i, 0 <= i < num -> start i <> None) ->
  good start (map (fun x => @Job E (fst x) (snd x)) (combine (blocks omp num) es)) (Z.to_nat num).
Proof.
  intros Ho Hn Le Hs.
  assert (X : forall k j, nth_error (map (fun x => Job (fst x) (snd x)) (combine (blocks omp num) es)) k = Some j ->
    nth_error (blocks omp num) k = Some (j_is j)).
  { intros k j H. rewrite nth_error_map in H. destruct (nth_error (combine _ _) k) as [[is e]|] eqn:Q; [|discriminate].
    cbn in H. injection H as <-. cbn [j_is].
    clear Hs. revert k es Le Q. generalize (blocks omp num). intros l. 
    induction l as [|x l IH]; intros [|k] [|y es] Le Q; cbn in Q; try discriminate.
    - now injection Q as -> _.
    - cbn [nth_error]. revert Q. clear. revert k es. induction l as [|x l IH]; intros [|k] [|y es] Q; cbn in Q; try discriminate.
      + now injection Q as -> _.
      + cbn. eapply IH; eauto. }
  split.
  - intros k j Hj. apply X in Hj. destruct (blocks_nth omp num _ _ Hj) as (Q & R). rewrite Q. split.
    + now apply block_nodup.
    + intros i Hi. apply block_in in Hi; auto. pose proof (npb_pos omp num Ho Hn). 
      pose proof (num_split omp num Ho). pose proof (rem_range omp num Ho).
      assert (0 <= i < num) by nia. split; [lia|]. now apply Hs.
  - intros k1 k2 j1 j2 i H1 H2 N. apply X in H1, H2. now apply (blocks_disjoint omp num Ho Hn k1 k2).
Qed.

Lemma combine_split_jobs (loops : list (list Z)) (es : list E) : length es = length loops ->
  map j_is (map (fun x => Job (fst x) (snd x)) (combine loops es)) = loops /\
  map j_e (map (fun x => Job (fst x) (snd x)) (combine loops es)) = es.
Proof.
  revert es. induction loops as [|l loops IH]; intros [|e es] H; cbn in *; try discriminate; auto.
  destruct (IH es) as (A & B0); [lia|]. split; f_equal; auto.
Qed.

Lemma concat_nth {X} (bss : list (list X)) n k p bs : (forall b, In b bss -> length b = n) ->
  nth_error bss k = Some bs -> (p < n)%nat -> nth_error (concat bss) (k * n + p) = nth_error bs p.
Proof.
  revert k. induction bss as [|b bss IH]; intros [|k] Hl Hk Hp; cbn in Hk; try discriminate.
  - injection Hk as ->. cbn. apply nth_error_app1. rewrite Hl by now left. exact Hp.
  - cbn [concat]. rewrite nth_error_app2 by (rewrite (Hl b) by (now left); lia).
    rewrite (Hl b) by now left. replace (S k * n + p - n)%nat with (k * n + p)%nat by lia.
    apply IH; auto. intros b' Hb'. apply Hl. now right.
Qed.
Lemma concat_len {X} (bss : list (list X)) n : (forall b, In b bss -> length b = n) ->
  length (concat bss) = (length bss * n)%nat.
Proof.
  induction bss as [|b bss IH]; intros H; cbn; auto. rewrite app_length, H by now left.
  rewrite IH; auto. intros b' Hb'. apply H. now right.
Qed.

Lemma exec_blocks omp num es m r : 1 <= omp -> 0 <= num < W64 ->
  length es = Z.to_nat (n_threads omp) -> Z.of_nat (length m) = num ->
  (forall i, 0 <= i < num -> start i <> None) ->
  exec start rstep (blocks omp num) es m r ->
  exists bss es', r = Ok (es', concat bss ++ skipn (Z.to_nat (n_threads omp) * Z.to_nat (n_per_block omp num)) m) /\
    all_draws start rstep (blocks omp num) es bss es' /\
    (forall b, In b bss -> length b = Z.to_nat (n_per_block omp num)).
Proof.
  intros Ho Hn Le Lm Hs X.
  pose proof (blocks_len omp num) as Lb.
  destruct (combine_split_jobs (blocks omp num) es) as (E1 & E2); [congruence|].
  pose proof (good_blocks omp num es Ho Hn Le Hs) as G.
  replace (Z.to_nat num) with (length m) in G by lia.
  destruct (exec_jobs start rstep _ m r G) as (bss & es' & m' & -> & D & W).
  { now rewrite E1, E2. }
  rewrite E1, E2 in D. rewrite E1 in W. destruct D as (D1 & D2 & D3 & D4), W as (W1 & W2 & W3).
  assert (Lbs : forall b, In b bss -> length b = Z.to_nat (n_per_block omp num)).
  { intros b Hb. apply In_nth_error in Hb. destruct Hb as (k & Hk). pose proof (nth_is _ _ _ Hk) as Kk.
    rewrite D2 in Kk. destruct (nth_lt (blocks omp num) k Kk) as (is & Hi).
    destruct (nth_lt es k) as (e & He); [lia|]. destruct (nth_lt es' k) as (e' & He'); [lia|].
    pose proof (D4 _ _ _ _ _ Hi He Hk He') as DD. apply draws_len in DD.
    destruct (blocks_nth omp num _ _ Hi) as (-> & R). rewrite block_len in DD. congruence. }
  exists bss, es'. split; [|split; [repeat split; auto|exact Lbs]].
  f_equal. f_equal. apply nth_ext. intros q.
  pose proof (concat_len bss _ Lbs) as Lc. rewrite D2, Lb in Lc.
  pose proof (num_split omp num Ho) as Sp. pose proof (rem_range omp num Ho) as Rr.
  pose proof (npb_pos omp num Ho Hn) as Pn. pose proof (nt_range omp Ho) as Nt.
  set (n := Z.to_nat (n_per_block omp num)) in *. set (t := Z.to_nat (n_threads omp)) in *.
  destruct (Nat.lt_ge_cases q (t * n)) as [Q|Q].
  - rewrite nth_error_app1 by lia.
    assert (n <> 0)%nat by (intros Q0; rewrite Q0 in Q; lia).
    assert (Qe : q = (q / n * n + q mod n)%nat).
    { rewrite (Nat.div_mod q n) at 1 by assumption. lia. }
    assert (Qm : (q mod n < n)%nat) by (apply Nat.mod_upper_bound; assumption).
    assert (Qk : (q / n < t)%nat) by (apply Nat.div_lt_upper_bound; lia).
    destruct (nth_lt (blocks omp num) (q / n)) as (is & Hi); [lia|].
    destruct (nth_lt bss (q / n)) as (bs & Hb); [lia|].
    rewrite Qe at 2. rewrite (concat_nth bss n _ _ bs Lbs Hb Qm).
    rewrite <- (W2 (q / n)%nat is bs (q mod n)%nat (Z.of_nat q) Hi Hb); [now rewrite Nat2Z.id|].
    destruct (blocks_nth omp num _ _ Hi) as (-> & R). rewrite block_nth by assumption.
    f_equal. subst n. rewrite Qe at 3. rewrite Nat2Z.inj_add, Nat2Z.inj_mul, Z2Nat.id by lia. reflexivity.
  - rewrite nth_error_app2 by lia. rewrite Lc, nth_skipn. rewrite W3.
    + f_equal. lia.
    + intros k is Hi. destruct (blocks_nth omp num _ _ Hi) as (-> & R). rewrite block_in by assumption.
      intros C. subst n t. nia.
Qed.

Lemma exec_blocks_exists omp num es m bss es' : 1 <= omp -> 0 <= num < W64 ->
  length es = Z.to_nat (n_threads omp) -> Z.of_nat (length m) = num ->
  (forall i, 0 <= i < num -> start i <> None) ->
  all_draws start rstep (blocks omp num) es bss es' ->
  exists r, exec start rstep (blocks omp num) es m r.
Proof.
  intros Ho Hn Le Lm Hs (D1 & D2 & D3 & D4).
  pose proof (blocks_len omp num) as Lb.
  destruct (combine_split_jobs (blocks omp num) es) as (E1 & E2); [congruence|].
  pose proof (good_blocks omp num es Ho Hn Le Hs) as G.
  replace (Z.to_nat num) with (length m) in G by lia.
  destruct (exec_exists start rstep _ m G) as (r & X).
  - intros k j Hj.
    assert (A1 : nth_error (blocks omp num) k = Some (j_is j)) by (rewrite <- E1, nth_error_map, Hj; reflexivity).
    assert (A2 : nth_error es k = Some (j_e j)) by (rewrite <- E2, nth_error_map, Hj; reflexivity).
    pose proof (nth_is _ _ _ A1) as K.
    destruct (nth_lt bss k) as (bs & Hb); [lia|]. destruct (nth_lt es' k) as (e' & He); [lia|]. eauto.
  - rewrite E1, E2 in X. eauto.
Qed.

(** the trailing loop *)
Lemma exec_tail omp num e m1 r : 1 <= omp -> 0 <= num < W64 -> parallel omp num = true ->
  Z.of_nat (length m1) = num -> (forall i, 0 <= i < num -> start i <> None) ->
  exec start rstep [tail omp num] [e] m1 r ->
  exists tv e', draws start rstep (tail omp num) e tv e' /\
    r = Ok ([e'], if 0 <? n_remainder omp num
                  then firstn (Z.to_nat (n_threads omp) * Z.to_nat (n_per_block omp num) - 1) m1 ++ tv else m1).
Proof.
  intros Ho Hn Hp Lm Hs X.
  destruct (exec_one _ e m1 r (tail_nodup omp num Ho Hn Hp)) as (bs & e' & m' & -> & D & L1 & W1 & W2); [|exact X|].
  { intros i Hi. apply (tail_in omp num Ho Hn Hp) in Hi. rewrite Lm. split; auto. }
  exists bs, e'. split; [exact D|]. f_equal. f_equal.
  pose proof (num_split omp num Ho) as Sp. pose proof (rem_range omp num Ho) as Rr.
  pose proof (par_npb omp num Hp) as Pn. pose proof (nt_range omp Ho) as Nt.
  pose proof (draws_len _ _ _ _ _ _ D) as Lb.
  rewrite (tail_eq omp num Ho Hn Hp) in W1, W2, Lb.
  destruct (0 <? n_remainder omp num) eqn:Q.
  - apply Z.ltb_lt in Q. rewrite upto_len in Lb.
    set (c := (Z.to_nat (n_threads omp) * Z.to_nat (n_per_block omp num) - 1)%nat).
    assert (Hc : Z.of_nat c = num - n_remainder omp num - 1).
    { subst c. rewrite Nat2Z.inj_sub by nia. rewrite Nat2Z.inj_mul, !Z2Nat.id by lia. lia. }
    apply nth_ext. intros q. destruct (Nat.lt_ge_cases q c) as [A|A].
    + rewrite nth_error_app1 by (rewrite firstn_length; lia). rewrite nth_firstn_lt by lia.
      apply W2. rewrite upto_in. lia.
    + rewrite nth_error_app2 by (rewrite firstn_length; lia). rewrite firstn_length.
      replace (Nat.min c (length m1)) with c by lia.
      destruct (Nat.lt_ge_cases q (length m1)) as [A2|A2].
      * rewrite <- (W1 (q - c)%nat (Z.of_nat q)); [now rewrite Nat2Z.id|].
        rewrite upto_nth by lia. f_equal. lia.
      * transitivity (@None B); [apply nth_error_None; lia|symmetry; apply nth_error_None; lia].
  - apply nth_ext. intros q. apply W2. intros [].
Qed.
End One.

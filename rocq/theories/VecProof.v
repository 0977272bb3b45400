(** Any interleaving of loops over disjoint index lists has the effect of the loops run one after
    the other. *)
From Coq Require Import ZArith List Bool Lia FinFun.
From Verif Require Import Vec SpecVec.
Import ListNotations.
Local Open Scope Z_scope.

(** ** lists *)
Lemma upto_len b n : length (upto b n) = Z.to_nat (n - b).
Proof. unfold upto. rewrite map_length, seq_length. reflexivity. Qed.
Lemma upto_in b n i : In i (upto b n) <-> b <= i < n.
Proof.
  unfold upto. rewrite in_map_iff. split.
  - intros (k & <- & H). apply in_seq in H. lia.
  - intros H. exists (Z.to_nat (i - b)). split; [lia|]. apply in_seq. lia.
Qed.
Lemma nth_map_seq {X} (f : nat -> X) n k : (k < n)%nat -> nth_error (map f (seq 0 n)) k = Some (f k).
Proof.
  intros H. rewrite nth_error_map.
  replace (nth_error (seq 0 n) k) with (Some k). { reflexivity. }
  symmetry. rewrite nth_error_nth' with (d := 0%nat) by (now rewrite seq_length).
  rewrite seq_nth by assumption. reflexivity.
Qed.
Lemma upto_nth b n k : (k < Z.to_nat (n - b))%nat -> nth_error (upto b n) k = Some (b + Z.of_nat k).
Proof. intros H. unfold upto. now rewrite nth_map_seq. Qed.
Lemma upto_nodup b n : NoDup (upto b n).
Proof.
  unfold upto. apply Injective_map_NoDup; [|apply seq_NoDup]. intros x y H. lia.
Qed.

Lemma set_len {X} (m : list X) k b : (k < length m)%nat -> length (set_nth m k b) = length m.
Proof.
  intros H. unfold set_nth. rewrite app_length, firstn_length. cbn [length]. rewrite skipn_length. lia.
Qed.
Lemma set_same {X} (m : list X) k b : (k < length m)%nat -> nth_error (set_nth m k b) k = Some b.
Proof.
  intros H. unfold set_nth. rewrite nth_error_app2; rewrite firstn_length; [|lia].
  replace (k - Nat.min k (length m))%nat with 0%nat by lia. reflexivity.
Qed.
Lemma nth_firstn_lt {X} (m : list X) k i : (i < k)%nat -> nth_error (firstn k m) i = nth_error m i.
Proof.
  revert m i. induction k as [|k IH]; intros [|x m] [|i] H; try lia; cbn; auto.
  - apply IH. lia.
Qed.
Lemma nth_skipn {X} (m : list X) k i : nth_error (skipn k m) i = nth_error m (k + i).
Proof. revert m. induction k as [|k IH]; intros [|x m]; cbn; auto. destruct i; reflexivity. Qed.
Lemma set_other {X} (m : list X) k b i : (k < length m)%nat -> i <> k ->
  nth_error (set_nth m k b) i = nth_error m i.
Proof.
  intros H Hi. unfold set_nth.
  destruct (Nat.lt_ge_cases i k).
  - rewrite nth_error_app1 by (rewrite firstn_length; lia). now apply nth_firstn_lt.
  - rewrite nth_error_app2 by (rewrite firstn_length; lia). rewrite firstn_length.
    replace (i - Nat.min k (length m))%nat with (S (i - k - 1)) by lia. cbn [nth_error].
    rewrite nth_skipn. f_equal. lia.
Qed.
Lemma skipn_nth {X} (l : list X) d x r : skipn d l = x :: r -> nth_error l d = Some x /\ skipn (S d) l = r.
Proof.
  revert l. induction d as [|d IH]; intros [|y l] H; cbn in H; try discriminate.
  - injection H as -> ->. auto.
  - apply IH in H. exact H.
Qed.
Lemma skipn_nth' {X} (l : list X) d x : nth_error l d = Some x -> skipn d l = x :: skipn (S d) l.
Proof.
  revert l. induction d as [|d IH]; intros [|y l] H; cbn in H; try discriminate.
  - now injection H as ->.
  - apply IH in H. exact H.
Qed.
Lemma nth_ext {X} (l l' : list X) : (forall i, nth_error l i = nth_error l' i) -> l = l'.
Proof.
  revert l'. induction l as [|x l IH]; intros [|y l'] H; auto.
  - specialize (H 0%nat). discriminate.
  - specialize (H 0%nat). discriminate.
  - pose proof (H 0%nat) as H0. cbn in H0. injection H0 as ->. f_equal. apply IH.
    intros i. exact (H (S i)).
Qed.

(** ** interleavings *)
Section M.
Context {L E B : Type} (start : Z -> option L) (rstep : L -> E -> (L + B) * E).
Notation draws := (draws start rstep).
Notation returns := (returns rstep).
Notation thread := (@thread L).

Lemma draws_len is e bs e' : draws is e bs e' -> length is = length bs.
Proof. induction 1; cbn; congruence. Qed.

(** The call started in [l] on [e] has reached [l'] on [e']. *)
Inductive steps : L -> E -> L -> E -> Prop :=
| steps_0 l e : steps l e l e
| steps_S l e l1 e1 l2 e2 : steps l e l1 e1 -> rstep l1 e1 = (inl l2, e2) -> steps l e l2 e2.

Lemma steps_returns l e l1 e1 b e' : steps l e l1 e1 -> returns l1 e1 b e' -> returns l e b e'.
Proof.
  intros H. revert b e'. induction H as [|l e l1 e1 l2 e2 H IH H2]; intros b e' R; auto.
  apply IH. eapply ret_later; eauto.
Qed.

Lemma draws_snoc is e bs e1 i l b e2 : draws is e bs e1 -> start i = Some l -> returns l e1 b e2 ->
  draws (is ++ [i]) e (bs ++ [b]) e2.
Proof.
  induction 1 as [e|i' l' is e b' e1 bs e' Hl R D IH]; intros H1 H2; cbn [app].
  - econstructor; eauto. constructor.
  - econstructor; eauto.
Qed.

(** A loop over [is] begun on engine [e0], after the iterations that returned [bs]. *)
Definition tinv (is : list Z) (e0 : E) (bs : list B) (t : thread) (e : E) : Prop :=
  (t = Idle (skipn (length bs) is) /\ draws (firstn (length bs) is) e0 bs e) \/
  (exists i l0 l e1, t = Busy i (skipn (S (length bs)) is) l /\ nth_error is (length bs) = Some i /\
     draws (firstn (length bs) is) e0 bs e1 /\ start i = Some l0 /\ steps l0 e1 l e).

Record job := Job { j_is : list Z; j_e : E }.

Definition good (jobs : list job) (n : nat) : Prop :=
  (forall k j, nth_error jobs k = Some j -> NoDup (j_is j) /\
     forall i, In i (j_is j) -> 0 <= i < Z.of_nat n /\ start i <> None) /\
  (forall k1 k2 j1 j2 i, nth_error jobs k1 = Some j1 -> nth_error jobs k2 = Some j2 -> k1 <> k2 ->
     In i (j_is j1) -> ~ In i (j_is j2)).

Record ginv (jobs : list job) (m0 : list B) (bss : nat -> list B) (s : @state L E B) : Prop := {
  gi_len : length (fst s) = length jobs;
  gi_thr : forall k j t e, nth_error jobs k = Some j -> nth_error (fst s) k = Some (t, e) ->
    tinv (j_is j) (j_e j) (bss k) t e;
  gi_mem : length (snd s) = length m0;
  gi_done : forall k j p i b, nth_error jobs k = Some j -> nth_error (bss k) p = Some b ->
    nth_error (j_is j) p = Some i -> nth_error (snd s) (Z.to_nat i) = Some b;
  gi_rest : forall q, (forall k j p i b, nth_error jobs k = Some j -> nth_error (bss k) p = Some b ->
    nth_error (j_is j) p = Some i -> Z.to_nat i <> q) -> nth_error (snd s) q = nth_error m0 q
}.

Lemma nodup_nth {X} (l : list X) p q x : NoDup l -> nth_error l p = Some x -> nth_error l q = Some x -> p = q.
Proof.
  intros H Hp Hq. apply (proj1 (NoDup_nth_error l) H).
  - apply nth_error_Some. congruence.
  - congruence.
Qed.
Lemma firstn_snoc {X} (l : list X) d x : nth_error l d = Some x -> firstn (S d) l = firstn d l ++ [x].
Proof.
  revert l. induction d as [|d IH]; intros [|y l] H; cbn in H; try discriminate.
  - now injection H as ->.
  - cbn [firstn app]. f_equal. now apply IH.
Qed.
Lemma nth_snoc {X} (l : list X) x p y : nth_error (l ++ [x]) p = Some y ->
  (nth_error l p = Some y /\ (p < length l)%nat) \/ (p = length l /\ y = x).
Proof.
  intros H. destruct (Nat.lt_ge_cases p (length l)) as [Q|Q].
  - left. rewrite nth_error_app1 in H; auto.
  - right. rewrite nth_error_app2 in H by assumption.
    destruct (p - length l)%nat as [|z] eqn:Z1; cbn in H.
    + split; [lia|congruence].
    + destruct z; discriminate.
Qed.

Lemma pick_inv jobs m0 bss s k : good jobs (length m0) -> ginv jobs m0 bss s ->
  exists s' bss', pick start rstep k s = Ok s' /\ ginv jobs m0 bss' s'.
Proof.
  intros (G1 & G2) I. unfold pick.
  destruct (nth_error (fst s) k) as [[t e]|] eqn:Ht; [|exists s, bss; auto].
  assert (Hk : (k < length (fst s))%nat) by (apply nth_error_Some; congruence).
  destruct (nth_error jobs k) as [j|] eqn:Hj.
  2:{ apply nth_error_None in Hj. rewrite (gi_len _ _ _ _ I) in Hk. lia. }
  destruct (G1 _ _ Hj) as (Hnd & Hr).
  pose proof (gi_thr _ _ _ _ I _ _ _ _ Hj Ht) as T.
  assert (thr : forall bss' t' e', (forall k', k' <> k -> bss' k' = bss k') ->
     tinv (j_is j) (j_e j) (bss' k) t' e' ->
     forall k0 j0 t0 e0, nth_error jobs k0 = Some j0 -> nth_error (set_nth (fst s) k (t', e')) k0 = Some (t0, e0) ->
       tinv (j_is j0) (j_e j0) (bss' k0) t0 e0).
  { intros bss' t' e' E1 E2 k0 j0 t0 e0 A1 A2. destruct (Nat.eq_dec k0 k) as [->|N].
    - rewrite set_same in A2 by assumption. injection A2 as <- <-. congruence.
    - rewrite set_other in A2 by assumption. rewrite E1 by assumption.
      eapply gi_thr; eauto. }
  assert (lenok : forall t', length (set_nth (fst s) k t') = length jobs).
  { intros. rewrite set_len by assumption. apply (gi_len _ _ _ _ I). }
  destruct T as [(-> & D)|(i & l0 & l & e1 & -> & Hi & D & Hl0 & St)]; cbn [thread_step].
  - destruct (skipn (length (bss k)) (j_is j)) as [|i rest] eqn:Hs.
    + eexists _, bss. split; [reflexivity|]. constructor; cbn [fst snd].
      * apply lenok.
      * apply thr; auto. left. rewrite Hs. auto.
      * apply (gi_mem _ _ _ _ I).
      * apply (gi_done _ _ _ _ I).
      * apply (gi_rest _ _ _ _ I).
    + destruct (skipn_nth _ _ _ _ Hs) as (N1 & N2).
      destruct (Hr i) as (_ & Hst). { eapply nth_error_In; eauto. }
      destruct (start i) as [l|] eqn:Hl; [|congruence].
      eexists _, bss. split; [reflexivity|]. constructor; cbn [fst snd].
      * apply lenok.
      * apply thr; auto. right. exists i, l, l, e. rewrite N2. repeat split; auto. constructor.
      * apply (gi_mem _ _ _ _ I).
      * apply (gi_done _ _ _ _ I).
      * apply (gi_rest _ _ _ _ I).
  - destruct (rstep l e) as [[l2|b] e2] eqn:Hst.
    + eexists _, bss. split; [reflexivity|]. constructor; cbn [fst snd].
      * apply lenok.
      * apply thr; auto. right. exists i, l0, l2, e1. repeat split; auto. eapply steps_S; eauto.
      * apply (gi_mem _ _ _ _ I).
      * apply (gi_done _ _ _ _ I).
      * apply (gi_rest _ _ _ _ I).
    + assert (Hin : In i (j_is j)) by (eapply nth_error_In; eauto).
      destruct (Hr i Hin) as (Hir & _).
      unfold store. rewrite (gi_mem _ _ _ _ I).
      replace ((0 <=? i) && (i <? Z.of_nat (length m0))) with true
        by (symmetry; apply andb_true_iff; split; [apply Z.leb_le|apply Z.ltb_lt]; lia).
      assert (Hil : (Z.to_nat i < length (snd s))%nat) by (rewrite (gi_mem _ _ _ _ I); lia).
      assert (R : returns l0 e1 b e2). { eapply steps_returns; eauto. now constructor. }
      set (bss' := fun k' => if Nat.eqb k' k then bss k ++ [b] else bss k').
      assert (Bk : bss' k = bss k ++ [b]) by (unfold bss'; now rewrite Nat.eqb_refl).
      assert (Bo : forall k', k' <> k -> bss' k' = bss k').
      { intros k' N. unfold bss'. apply Nat.eqb_neq in N. now rewrite N. }
      eexists _, bss'. split; [reflexivity|]. constructor; cbn [fst snd].
      * apply lenok.
      * apply thr; [exact Bo|]. rewrite Bk. left. rewrite app_length. cbn [length].
        replace (length (bss k) + 1)%nat with (S (length (bss k))) by lia. split; [reflexivity|].
        rewrite (firstn_snoc _ _ _ Hi). eapply draws_snoc; eauto.
      * rewrite set_len by assumption. apply (gi_mem _ _ _ _ I).
      * intros k0 j0 p i0 b0 A1 A2 A3. destruct (Nat.eq_dec k0 k) as [->|N].
        -- assert (j0 = j) by congruence. subst j0. rewrite Bk in A2.
           destruct (nth_snoc _ _ _ _ A2) as [(A4 & A5)|(-> & ->)].
           ++ rewrite set_other; [eapply gi_done; eauto|assumption|].
              intros Q. assert (p = length (bss k)); [|lia].
              apply (nodup_nth (j_is j) _ _ i Hnd); auto.
              rewrite A3. f_equal. assert (0 <= i0) by (apply Hr; eapply nth_error_In; eauto). lia.
           ++ assert (i0 = i) by congruence. subst i0. now rewrite set_same.
        -- rewrite Bo in A2 by assumption. rewrite set_other; [eapply gi_done; eauto|assumption|].
           intros Q. apply (G2 k0 k j0 j i0 A1 Hj N).
           { eapply nth_error_In; eauto. }
           replace i0 with i; [assumption|]. destruct (G1 _ _ A1) as (_ & Hr0).
           assert (0 <= i0) by (apply Hr0; eapply nth_error_In; eauto). lia.
      * intros q A. rewrite set_other; [|assumption|].
        -- apply (gi_rest _ _ _ _ I). intros k0 j0 p i0 b0 A1 A2 A3. apply (A k0 j0 p i0 b0); auto.
           destruct (Nat.eq_dec k0 k) as [->|N]; [|rewrite Bo; auto].
           rewrite Bk. rewrite nth_error_app1; auto. apply nth_error_Some. congruence.
        -- intros Q. apply (A k j (length (bss k)) i b Hj); auto. rewrite Bk.
           rewrite nth_error_app2 by lia. rewrite Nat.sub_diag. reflexivity.
Qed.

Lemma run_inv sched : forall jobs m0 ds s, good jobs (length m0) -> ginv jobs m0 ds s ->
  exists s' ds', run start rstep sched s = Ok s' /\ ginv jobs m0 ds' s'.
Proof.
  induction sched as [|k sched IH]; intros jobs m0 ds s G I; cbn [run].
  - exists s, ds. auto.
  - destruct (pick_inv _ _ _ _ k G I) as (s' & ds' & -> & I'). eapply IH; eauto.
Qed.

Definition istate (jobs : list job) (m : list B) : @state L E B := init (map j_is jobs) (map j_e jobs) m.

Lemma init_threads jobs m : fst (istate jobs m) = map (fun j => (Idle (j_is j), j_e j)) jobs.
Proof.
  unfold istate, init. cbn [fst]. induction jobs as [|j jobs IH]; cbn; [reflexivity|]. now rewrite IH.
Qed.

Lemma init_inv jobs m : ginv jobs m (fun _ => []) (istate jobs m).
Proof.
  constructor.
  - rewrite init_threads. now rewrite map_length.
  - intros k j t e Hj Ht. rewrite init_threads, nth_error_map, Hj in Ht. cbn in Ht. injection Ht as <- <-.
    left. cbn [skipn length firstn]. split; auto. constructor.
  - reflexivity.
  - intros k j p i b _ H. destruct p; discriminate.
  - reflexivity.
Qed.

(** Memory after all loops, described without an order; [bss k] are the values of loop [k]. *)
Definition written (loops : list (list Z)) (bss : list (list B)) (m m' : list B) : Prop :=
  length m' = length m /\
  (forall k is bs p i, nth_error loops k = Some is -> nth_error bss k = Some bs -> nth_error is p = Some i ->
     nth_error m' (Z.to_nat i) = nth_error bs p) /\
  (forall q, (forall k is, nth_error loops k = Some is -> ~ In (Z.of_nat q) is) ->
     nth_error m' q = nth_error m q).

Lemma skipn_nil_len {X} (l : list X) d : skipn d l = [] -> (length l <= d)%nat.
Proof. intros H. pose proof (skipn_length d l) as E1. rewrite H in E1. cbn in E1. lia. Qed.

Lemma nth_lt {X} (l : list X) k : (k < length l)%nat -> exists x, nth_error l k = Some x.
Proof. intros H. destruct (nth_error l k) eqn:Q; [eauto|]. apply nth_error_None in Q. lia. Qed.
Lemma nth_is {X} (l : list X) k x : nth_error l k = Some x -> (k < length l)%nat.
Proof. intros H. apply nth_error_Some. congruence. Qed.

(** The scalar calls of the loops, loop by loop. *)
Definition all_draws (loops : list (list Z)) (es : list E) (bss : list (list B)) (es' : list E) : Prop :=
  length es = length loops /\ length bss = length loops /\ length es' = length loops /\
  forall k is e bs e', nth_error loops k = Some is -> nth_error es k = Some e -> nth_error bss k = Some bs ->
    nth_error es' k = Some e' -> draws is e bs e'.

Lemma exec_jobs jobs m r : good jobs (length m) -> exec start rstep (map j_is jobs) (map j_e jobs) m r ->
  exists bss es' m', r = Ok (es', m') /\ all_draws (map j_is jobs) (map j_e jobs) bss es' /\
    written (map j_is jobs) bss m m'.
Proof.
  intros G X. pose proof (init_inv jobs m) as I0.
  destruct X as [sched s Hs F|sched Hs]; destruct (run_inv sched _ _ _ _ G I0) as (s' & bf & R & I);
    fold (istate jobs m) in Hs; rewrite R in Hs; [|discriminate].
  injection Hs as ->.
  assert (fin : forall k j t e, nth_error jobs k = Some j -> nth_error (fst s) k = Some (t, e) ->
     draws (j_is j) (j_e j) (bf k) e).
  { intros k j t e Hj Ht. pose proof (gi_thr _ _ _ _ I _ _ _ _ Hj Ht) as T.
    assert (Ft : finished t). { apply (proj1 (Forall_forall _ _) F (t, e)). eapply nth_error_In; eauto. }
    unfold finished in Ft. destruct T as [(-> & D)|(i & l0 & l & e1 & -> & _)]; [|discriminate].
    injection Ft as Ft. apply skipn_nil_len in Ft. rewrite firstn_all2 in D by assumption. exact D. }
  assert (Ls : length (fst s) = length jobs) by apply (gi_len _ _ _ _ I).
  exists (map bf (seq 0 (length jobs))), (map snd (fst s)), (snd s). split; [reflexivity|].
  assert (Bn : forall k bs, nth_error (map bf (seq 0 (length jobs))) k = Some bs -> bs = bf k).
  { intros k bs H. pose proof (nth_is _ _ _ H) as Hk. rewrite map_length, seq_length in Hk.
    rewrite nth_map_seq in H by assumption. congruence. }
  split.
  - repeat split; rewrite ?map_length, ?seq_length; auto.
    intros k is e bs e' H1 H2 H3 H4. apply Bn in H3. subst bs. rewrite nth_error_map in H1, H2, H4.
    destruct (nth_error jobs k) as [j|] eqn:Hj; [|discriminate].
    destruct (nth_error (fst s) k) as [[t e0]|] eqn:Ht; [|discriminate].
    cbn in H1, H2, H4. injection H1 as <-. injection H2 as <-. injection H4 as <-. eapply fin; eauto.
  - repeat split.
    + apply (gi_mem _ _ _ _ I).
    + intros k is bs p i H1 H2 H3. apply Bn in H2. subst bs. rewrite nth_error_map in H1.
      destruct (nth_error jobs k) as [j|] eqn:Hj; [|discriminate]. cbn in H1. injection H1 as <-.
      destruct (nth_lt (fst s) k) as ((t & e) & Ht). { rewrite Ls. eapply nth_is; eauto. }
      pose proof (fin _ _ _ _ Hj Ht) as D. apply draws_len in D.
      destruct (nth_lt (bf k) p) as (b & Hb). { rewrite <- D. eapply nth_is; eauto. }
      rewrite Hb. eapply gi_done; eauto.
    + intros q A. apply (gi_rest _ _ _ _ I). intros k j p i b Hj _ Hp Q. apply (A k (j_is j)).
      { rewrite nth_error_map, Hj. reflexivity. }
      destruct (proj1 G _ _ Hj) as (_ & Hr). pose proof (nth_error_In _ _ Hp) as Hin.
      destruct (Hr _ Hin) as (Hr1 & _). replace (Z.of_nat q) with i by lia. exact Hin.
Qed.

(** ** some schedule finishes all loops *)
Lemma run_app s1 : forall s2 s s', run start rstep s1 s = Ok s' ->
  run start rstep (s1 ++ s2) s = run start rstep s2 s'.
Proof.
  induction s1 as [|k s1 IH]; intros s2 s s' H; cbn in *; [now injection H as ->|].
  destruct (pick start rstep k s); [now apply IH|discriminate].
Qed.

Lemma set_set {X} (l : list X) k x y : (k < length l)%nat -> set_nth (set_nth l k x) k y = set_nth l k y.
Proof.
  intros H. apply nth_ext. intros i. destruct (Nat.eq_dec i k) as [->|N].
  - rewrite !set_same; auto. now rewrite set_len.
  - rewrite !set_other; auto. now rewrite set_len.
Qed.

Lemma finish_call k l e b e1 : returns l e b e1 -> forall ts m i todo m',
  (k < length ts)%nat -> nth_error ts k = Some (Busy i todo l, e) -> store m i b = Ok m' ->
  exists sched, run start rstep sched (ts, m) = Ok (set_nth ts k (Idle todo, e1), m').
Proof.
  induction 1 as [l e b e' H|l e l1 e1 b e' H R IH]; intros ts m i todo m' Hk Ht Hm.
  - exists [k]. cbn [run]. unfold pick. cbn [fst snd]. rewrite Ht. cbn [thread_step]. rewrite H, Hm. reflexivity.
  - destruct (IH (set_nth ts k (Busy i todo l1, e1)) m i todo m') as (sched & Q); auto.
    { now rewrite set_len. } { now rewrite set_same. }
    exists (k :: sched). cbn [run]. unfold pick. cbn [fst snd]. rewrite Ht. cbn [thread_step]. rewrite H.
    rewrite Q. now rewrite set_set.
Qed.

Lemma finish_loop k is e bs e1 : draws is e bs e1 -> forall ts m,
  (k < length ts)%nat -> nth_error ts k = Some (Idle is, e) ->
  (forall i, In i is -> 0 <= i < Z.of_nat (length m)) ->
  exists sched m', run start rstep sched (ts, m) = Ok (set_nth ts k (Idle [], e1), m') /\ length m' = length m.
Proof.
  induction 1 as [e|i l is e b e1 bs e' Hl R D IH]; intros ts m Hk Ht Hr.
  - exists [], m. split; auto. cbn. f_equal. f_equal. apply nth_ext. intros i.
    destruct (Nat.eq_dec i k) as [->|N]; [rewrite set_same; auto|rewrite set_other; auto].
  - assert (Hi : 0 <= i < Z.of_nat (length m)) by (apply Hr; now left).
    assert (Hs : store m i b = Ok (set_nth m (Z.to_nat i) b)).
    { unfold store. replace ((0 <=? i) && (i <? Z.of_nat (length m))) with true; auto.
      symmetry; apply andb_true_iff; split; [apply Z.leb_le|apply Z.ltb_lt]; lia. }
    assert (Lm : length (set_nth m (Z.to_nat i) b) = length m) by (apply set_len; lia).
    destruct (finish_call k l e b e1 R (set_nth ts k (Busy i is l, e)) m i is (set_nth m (Z.to_nat i) b)) as (s1 & Q1); auto.
    { now rewrite set_len. } { now rewrite set_same. }
    rewrite set_set in Q1 by assumption.
    destruct (IH (set_nth ts k (Idle is, e1)) (set_nth m (Z.to_nat i) b)) as (s2 & m' & Q2 & Lm').
    { now rewrite set_len. } { now rewrite set_same. }
    { intros i' Hi'. rewrite Lm. apply Hr. now right. }
    rewrite set_set in Q2 by assumption.
    exists (k :: s1 ++ s2), m'. split; [|congruence]. cbn [run]. unfold pick. cbn [fst snd]. rewrite Ht.
    cbn [thread_step]. rewrite Hl. erewrite run_app by exact Q1. exact Q2.
Qed.

Lemma exec_exists jobs m : good jobs (length m) ->
  (forall k j, nth_error jobs k = Some j -> exists bs e', draws (j_is j) (j_e j) bs e') -> exists r, exec start rstep (map j_is jobs) (map j_e jobs) m r.
Proof.
  intros G DD.
  assert (H : forall n, (n <= length jobs)%nat -> exists sched ts m', run start rstep sched (istate jobs m) = Ok (ts, m') /\
     length m' = length m /\ length ts = length jobs /\
     (forall k, (k < n)%nat -> exists e, nth_error ts k = Some (Idle [], e)) /\
     (forall k, (n <= k)%nat -> nth_error ts k = nth_error (fst (istate jobs m)) k)).
  { induction n as [|n IH]; intros Hn.
    - exists [], (fst (istate jobs m)), m. repeat split; auto; [rewrite init_threads; now rewrite map_length|].
      intros; lia.
    - destruct IH as (sched & ts & m' & R & Lm & Lt & A1 & A2); [lia|].
      destruct (nth_error jobs n) as [j|] eqn:Hj; [|apply nth_error_None in Hj; lia].
      destruct (proj1 G _ _ Hj) as (_ & Hr). destruct (DD _ _ Hj) as (bs & e' & D).
      destruct (finish_loop n _ _ _ _ D ts m') as (s2 & m2 & R2 & Lm2); [lia| |rewrite Lm; intros; now apply Hr|].
      { rewrite A2 by lia. now rewrite init_threads, nth_error_map, Hj. }
      exists (sched ++ s2), (set_nth ts n (Idle [], e')), m2. split; [erewrite run_app by exact R; exact R2|].
      repeat split; [congruence|rewrite set_len; lia| |].
      + intros k Hk. destruct (Nat.eq_dec k n) as [->|N].
        * exists e'. rewrite set_same; auto. lia.
        * rewrite set_other by lia. apply A1. lia.
      + intros k Hk. rewrite set_other by lia. apply A2. lia. }
  destruct (H (length jobs) (le_n _)) as (sched & ts & m' & R & Lm & Lt & A1 & _).
  eexists. eapply exec_done; [exact R|]. unfold all_finished. cbn [fst]. apply Forall_forall.
  intros te Hin. apply In_nth_error in Hin. destruct Hin as (k & Hk).
  destruct (A1 k) as (e & Q). { rewrite <- Lt. apply nth_error_Some. congruence. }
  rewrite Q in Hk. injection Hk as <-. reflexivity.
Qed.

(** ** no two threads touch the same location *)
Lemma run_race jobs m sched s k1 k2 t1 e1 t2 e2 a : good jobs (length m) ->
  run start rstep sched (istate jobs m) = Ok s -> k1 <> k2 ->
  nth_error (fst s) k1 = Some (t1, e1) -> nth_error (fst s) k2 = Some (t2, e2) ->
  In a (accesses k1 t1) -> ~ In a (accesses k2 t2).
Proof.
  intros G R N H1 H2. destruct (run_inv sched _ _ _ _ G (init_inv jobs m)) as (s' & ds & R' & I).
  rewrite R' in R. injection R as ->.
  assert (X : forall k t e, nth_error (fst s) k = Some (t, e) -> exists j, nth_error jobs k = Some j /\
     forall i todo l, t = Busy i todo l -> In i (j_is j)).
  { intros k t e H. destruct (nth_error jobs k) as [j|] eqn:Hj.
    - exists j. split; auto. intros i todo l ->. destruct (gi_thr _ _ _ _ I _ _ _ _ Hj H) as [(Q & _)|(i' & l0 & l' & e3 & Q & Hi & _)];
        [discriminate|]. injection Q as -> _ _. eapply nth_error_In; eauto.
    - apply nth_error_None in Hj. rewrite <- (gi_len _ _ _ _ I) in Hj. apply nth_error_None in Hj. congruence. }
  destruct (X _ _ _ H1) as (j1 & J1 & X1). destruct (X _ _ _ H2) as (j2 & J2 & X2).
  destruct t1 as [?|i1 td1 l1]; [intros []|]. destruct t2 as [?|i2 td2 l2]; [intros _ []|].
  cbn [accesses In]. intros [<-|[<-|[]]] [Q|[Q|[]]]; try discriminate.
  - injection Q as Q. congruence.
  - injection Q as ->. apply (proj2 G k1 k2 j1 j2 i1 J1 J2 N); eauto.
Qed.
End M.

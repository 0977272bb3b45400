(** Facts about the container helpers (C55, C56). *)
From Coq Require Import Reals ZArith QArith Bool List Lra Lia Psatz.
From Verif Require Import Num ER ERTac Vec Multi MatVec SpecMat.
Import ListNotations.
Local Open Scope R_scope.

(** ** reals *)
Lemma Rsum_app a b : Rsum (a ++ b) = Rsum a + Rsum b.
Proof. induction a; cbn; [ring|rewrite IHa; ring]. Qed.
Lemma Rsum_map_lin (f g : R -> R) c d l : Rsum (map (fun x => c * f x + d * g x) l) = c * Rsum (map f l) + d * Rsum (map g l).
Proof. induction l; cbn; [ring|rewrite IHl; ring]. Qed.
Lemma Rsum_const c l : Rsum (map (fun _ : R => c) l) = INR (length l) * c.
Proof. induction l; [cbn; ring|]. change (length (a :: l)) with (S (length l)). rewrite S_INR. cbn [map Rsum]. rewrite IHl. ring. Qed.
Lemma Rsum_ext (f g : R -> R) l : (forall x, In x l -> f x = g x) -> Rsum (map f l) = Rsum (map g l).
Proof. induction l; cbn; intros H; auto. rewrite IHl, H; auto. Qed.
Lemma Rsum_id l : Rsum (map (fun x => x) l) = Rsum l. Proof. now rewrite map_id. Qed.
Lemma Rsum_nonneg (f : R -> R) l : (forall x, In x l -> 0 <= f x) -> 0 <= Rsum (map f l).
Proof. induction l; cbn; intros H; [lra|]. pose proof (H a (or_introl eq_refl)). pose proof (IHl (fun x h => H x (or_intror h))). lra. Qed.
Lemma Rsum_zero (f : R -> R) l : (forall x, In x l -> 0 <= f x) -> Rsum (map f l) = 0 -> forall x, In x l -> f x = 0.
Proof.
  induction l; cbn; intros H E x Hx; [contradiction|].
  pose proof (H a (or_introl eq_refl)). pose proof (Rsum_nonneg f l (fun x h => H x (or_intror h))).
  destruct Hx as [<-|Hx]; [lra|]. apply IHl; auto. lra.
Qed.
Lemma len_pos {A} (l : list A) : l <> [] -> 0 < INR (length l).
Proof. intros. destruct l; [congruence|]. apply lt_0_INR. cbn. lia. Qed.

Lemma variance_alt l : l <> [] -> Rsum (map (fun x => x * x) l) / INR (length l) - average l * average l = variance l.
Proof.
  intros H. pose proof (len_pos l H). unfold variance. unfold average at 3. rewrite map_length.
  set (m := average l). assert (E : Rsum l = INR (length l) * m) by (unfold m, average; field; lra).
  rewrite (Rsum_ext (fun x => (x - m) ^ 2) (fun x => 1 * (x * x) + 1 * ((fun x => (- 2 * m) * x + 1 * (m * m)) x))) by (intros; ring).
  rewrite (Rsum_map_lin (fun x => x * x)). rewrite (Rsum_map_lin (fun x => x) (fun _ => m * m)). rewrite Rsum_id, Rsum_const, E. field. lra.
Qed.
Lemma variance_nonneg l : 0 <= variance l.
Proof.
  unfold variance. unfold average at 1. rewrite map_length. destruct l; [cbn; unfold Rdiv; rewrite Rmult_0_l; lra|].
  apply Rmult_le_pos; [apply Rsum_nonneg; intros; apply pow2_ge_0|]. left. apply Rinv_0_lt_compat, len_pos. discriminate.
Qed.
Lemma average_const c l : l <> [] -> (forall x, In x l -> x = c) -> average l = c.
Proof.
  intros H E. pose proof (len_pos l H). unfold average. rewrite <- (Rsum_id l), (Rsum_ext (fun x => x) (fun _ => c)), Rsum_const by auto. field. lra.
Qed.
Lemma variance_zero l : l <> [] -> (variance l = 0 <-> exists c, forall x, In x l -> x = c).
Proof.
  intros H. pose proof (len_pos l H). unfold variance. unfold average at 1. rewrite map_length. split.
  - intros E. exists (average l). intros x Hx.
    assert (Z : Rsum (map (fun x => (x - average l) ^ 2) l) = 0).
    { apply (Rmult_eq_reg_r (/ INR (length l))); [|apply Rinv_neq_0_compat; lra]. unfold Rdiv in E. rewrite E. ring. }
    pose proof (Rsum_zero _ l (fun y _ => pow2_ge_0 (y - average l)) Z x Hx) as Q. cbv beta in Q. nra.
  - intros (c & Hc). rewrite (average_const c) by auto. rewrite (Rsum_ext _ (fun _ => 0)), Rsum_const; [field; lra|].
    intros x Hx. rewrite (Hc x Hx). ring.
Qed.
Lemma average_affine a b l : l <> [] -> average (map (fun x => a * x + b) l) = a * average l + b.
Proof.
  intros H. pose proof (len_pos l H). unfold average. rewrite map_length.
  rewrite (Rsum_ext _ (fun x => a * x + b * 1)) by (intros; ring). rewrite (Rsum_map_lin (fun x => x) (fun _ => 1)), Rsum_id, Rsum_const. field. lra.
Qed.
Lemma variance_affine a b l : l <> [] -> variance (map (fun x => a * x + b) l) = a ^ 2 * variance l.
Proof.
  intros H. pose proof (len_pos l H). unfold variance. rewrite average_affine by auto. rewrite map_map.
  set (m := average l). unfold average. rewrite !map_length.
  rewrite (Rsum_ext (fun x => (a * x + b - (a * m + b)) ^ 2) (fun x => a ^ 2 * (fun x => (x - m) ^ 2) x + 0 * (fun _ => 0) x)) by (intros; cbv beta; ring).
  rewrite Rsum_map_lin. field. lra.
Qed.
Lemma sample_variance_scale l : l <> [] -> length l <> 1%nat -> sample_variance l = INR (length l) / (INR (length l) - 1) * variance l.
Proof.
  intros H H1. pose proof (len_pos l H). assert (INR (length l) <> 1) by (apply not_1_INR; auto).
  unfold sample_variance, variance. unfold average at 2. rewrite map_length. field. split; lra.
Qed.

Lemma dist1_nonneg a b : 0 <= dist1 a b.
Proof. unfold dist1. induction (combine a b) as [|p l IH]; cbn; [lra|]. pose proof (Rabs_pos (fst p - snd p)). lra. Qed.
Lemma dist1_sym a : forall b, dist1 a b = dist1 b a.
Proof.
  unfold dist1. induction a as [|x a IH]; intros [|y b]; cbn; auto. rewrite Rabs_minus_sym. f_equal. apply IH.
Qed.
Lemma dist1_zero a : forall b, length a = length b -> (dist1 a b = 0 <-> a = b).
Proof.
  unfold dist1. induction a as [|x a IH]; intros [|y b] H; cbn in H |- *; try lia; [tauto|]. injection H as H.
  pose proof (Rabs_pos (x - y)). pose proof (dist1_nonneg a b) as D. unfold dist1 in D. specialize (IH b H). split.
  - intros E. f_equal; [|apply IH; lra]. assert (E0 : Rabs (x - y) = 0) by lra. destruct (Req_dec (x - y) 0); [lra|]. pose proof (Rabs_pos_lt _ H1). lra.
  - intros E. injection E as -> ->. rewrite Rminus_diag_eq by auto. rewrite Rabs_R0. rewrite (proj2 IH eq_refl). ring.
Qed.
Lemma dist1_tri a : forall b c, length a = length b -> length b = length c -> dist1 a c <= dist1 a b + dist1 b c.
Proof.
  unfold dist1. induction a as [|x a IH]; intros [|y b] [|z c] H H'; cbn in H, H' |- *; try lia; [lra|]. injection H as H. injection H' as H'.
  specialize (IH b c H H'). pose proof (Rabs_triang (x - y) (y - z)) as Q. replace (x - y + (y - z)) with (x - z) in Q by ring. lra.
Qed.

Lemma nth_ext_err {A} : forall (a b : list A), (forall i, nth_error a i = nth_error b i) -> a = b.
Proof.
  induction a as [|x a IH]; intros [|y b] H; auto; [discriminate (H 0%nat)|discriminate (H 0%nat)|].
  pose proof (H 0%nat) as H0. cbn in H0. injection H0 as ->. f_equal. apply IH. intros i. exact (H (S i)).
Qed.

(** ** generic *)
Section G.
Context {T : Type} {N : Num T}.
Lemma set_nth_len {B} (m : list B) k b : (k < length m)%nat -> length (set_nth m k b) = length m.
Proof. intros. unfold set_nth. rewrite app_length, firstn_length_le by lia. cbn [length]. rewrite skipn_length. lia. Qed.
Lemma set_nth_get {B} (m : list B) k b i : (k < length m)%nat ->
  nth_error (set_nth m k b) i = if Nat.eqb i k then Some b else nth_error m i.
Proof.
  intros H. unfold set_nth. destruct (Nat.eqb_spec i k) as [->|D].
  - rewrite nth_error_app2; rewrite firstn_length_le by lia; [|lia]. now rewrite Nat.sub_diag.
  - destruct (Nat.lt_ge_cases i k).
    + rewrite nth_error_app1 by (rewrite firstn_length_le; lia). clear D b. revert k i H H0.
      induction m; cbn; intros; [lia|]. destruct k; [lia|]. destruct i; cbn; auto. apply IHm; lia.
    + rewrite nth_error_app2 by (rewrite firstn_length_le; lia). rewrite firstn_length_le by lia.
      replace (i - k)%nat with (S (i - S k)) by lia. cbn. clear b. revert k i D H H0.
      induction m; cbn; intros; [lia|]. destruct k; [|destruct i; [lia|]; cbn; apply IHm; lia].
      destruct i; [lia|]. cbn. now rewrite Nat.sub_0_r.
Qed.
(** cumsum never leaves the vector *)
Lemma cumsum_loop_ok k : forall j (mem : list T), (1 <= j)%nat -> (j + k <= length mem)%nat ->
  exists out, cumsum_loop k j mem = Ok out /\ length out = length mem.
Proof.
  induction k; intros j mem Hj H; cbn; [eauto|].
  destruct (nth_error mem j) eqn:E1; [|apply nth_error_None in E1; lia].
  destruct (nth_error mem (j - 1)) eqn:E2; [|apply nth_error_None in E2; lia].
  destruct (IHk (S j) (set_nth mem j (add t t0))) as (out & -> & L); [lia|rewrite set_nth_len; lia|].
  exists out. split; auto. rewrite L. apply set_nth_len. lia.
Qed.
Lemma cumsum_ok X : exists out, cumsum X = Ok out /\ length out = length X.
Proof.
  destruct X as [|x X]; [exists []; auto|]. apply cumsum_loop_ok; cbn; lia.
Qed.
(** each element is its predecessor's sum added to the old element *)
Lemma cumsum_loop_rec k : forall j (mem out : list T), (1 <= j)%nat -> (j + k = length mem)%nat ->
  cumsum_loop k j mem = Ok out ->
  (forall i, (i < j)%nat -> nth_error out i = nth_error mem i) /\
  (forall i a b, (j <= i)%nat -> nth_error mem i = Some a -> nth_error out (i - 1) = Some b -> nth_error out i = Some (add a b)).
Proof.
  induction k; intros j mem out Hj H E.
  - cbn in E. injection E as <-. split; auto. intros i a b Hi Ha. assert (i < length mem)%nat by (apply nth_error_Some; congruence). lia.
  - cbn in E. destruct (nth_error mem j) as [a0|] eqn:E1; [|discriminate]. destruct (nth_error mem (j - 1)) as [b0|] eqn:E2; [|discriminate].
    assert (Hl : (j < length mem)%nat) by lia.
    destruct (IHk (S j) (set_nth mem j (add a0 b0)) out ltac:(lia) ltac:(rewrite set_nth_len; lia) E) as (A & B). split.
    + intros i Hi. rewrite A by lia. rewrite set_nth_get by auto. destruct (Nat.eqb_spec i j); [lia|auto].
    + intros i a b Hi Ha Hb. destruct (Nat.eq_dec i j) as [->|D].
      * rewrite A in Hb by lia. rewrite set_nth_get in Hb by auto. destruct (Nat.eqb_spec (j - 1) j); [lia|].
        rewrite A by lia. rewrite set_nth_get by auto. rewrite Nat.eqb_refl. congruence.
      * apply B; [lia| |auto]. rewrite set_nth_get by auto. destruct (Nat.eqb_spec i j); [lia|auto].
Qed.
Lemma cumsum_rec X out : cumsum X = Ok out ->
  nth_error out 0 = nth_error X 0 /\
  forall i a b, nth_error X (S i) = Some a -> nth_error out i = Some b -> nth_error out (S i) = Some (add a b).
Proof.
  intros E. destruct X as [|x X]; [injection E as <-; split; auto; intros [|i] a b H; discriminate|].
  destruct (cumsum_loop_rec (length (x :: X) - 1) 1 (x :: X) out (le_n 1) ltac:(cbn; lia) E) as (A & B).
  split; [apply A; lia|]. intros i a b Ha Hb. apply (B (S i)); auto; [lia|]. now rewrite Nat.sub_succ, Nat.sub_0_r.
Qed.
(** sum_absdiff reads Y over the indices of X *)
Lemma absdiff_ub k : forall i X Y s, (length Y < i + k)%nat -> (i <= length Y)%nat -> absdiff_loop k i X Y s = UB.
Proof.
  induction k; intros i X Y s H H'; [lia|]. cbn. destruct (nth_error X i) as [a|]; [|auto].
  destruct (nth_error Y i) as [b|] eqn:E; [|auto]. assert (i < length Y)%nat by (apply nth_error_Some; congruence). apply IHk; lia.
Qed.
Lemma sum_absdiff_short X Y : (length Y < length X)%nat -> sum_absdiff X Y = UB.
Proof. intros. apply absdiff_ub; lia. Qed.
(** fill, resize, zeros *)
Lemma vfill_all (X : list T) (v : T) : length (vfill X v) = length X /\ forall i, (i < length X)%nat -> nth_error (vfill X v) i = Some v.
Proof.
  split; [apply map_length|]. intros i H. unfold vfill. destruct (nth_error X i) eqn:E; [|apply nth_error_None in E; lia].
  erewrite map_nth_error; eauto.
Qed.
Lemma resize_len (X : list T) n (v : T) : length (vec_resize X n v) = n.
Proof. unfold vec_resize. rewrite app_length, firstn_length, repeat_length. lia. Qed.
Lemma resize_get (X : list T) n (v : T) i : (i < n)%nat -> nth_error (vec_resize X n v) i = Some (nth i X v).
Proof.
  intros H. unfold vec_resize. destruct (Nat.lt_ge_cases i (length X)) as [L|L].
  - rewrite nth_error_app1 by (rewrite firstn_length; lia). rewrite (nth_error_nth' _ v) by (rewrite firstn_length; lia). f_equal.
    rewrite <- (firstn_skipn n X) at 2. rewrite app_nth1; auto. rewrite firstn_length. lia.
  - rewrite nth_overflow by auto. rewrite nth_error_app2 by (rewrite firstn_length; lia).
    rewrite firstn_length. rewrite Nat.min_r by lia. apply nth_error_repeat. lia.
Qed.
Lemma umul_small n k : (0 <= n)%Z -> (0 <= k)%Z -> (n * k < W64)%Z -> umul n k = (n * k)%Z.
Proof. intros. unfold umul. apply Z.mod_small. nia. Qed.
Lemma resize_shape X n k : (0 <= n)%Z -> (0 <= k)%Z -> (n * k < W64)%Z ->
  Z.of_nat (length (resize X n k)) = (n * k)%Z /\
  forall i, (Z.of_nat i < n * k)%Z -> nth_error (resize X n k) i = Some (nth i X (ofZ 0)).
Proof.
  intros Hn Hk H. unfold resize. rewrite umul_small by auto. assert (0 <= n * k)%Z by nia. split.
  - rewrite resize_len. lia.
  - intros i Hi. apply resize_get. lia.
Qed.
Lemma zeros_fresh n k : (0 <= n)%Z -> (0 <= k)%Z -> (n * k < W64)%Z ->
  zeros [] n k = repeat (ofZ 0) (Z.to_nat (n * k)).
Proof. intros. unfold zeros, vec_resize. rewrite umul_small by auto. rewrite firstn_nil. cbn [length app]. now rewrite Nat.sub_0_r. Qed.
(** zeros keeps what the vector held *)
Lemma zeros_keeps X n k : (0 <= n)%Z -> (0 <= k)%Z -> (n * k < W64)%Z ->
  forall i, (Z.of_nat i < n * k)%Z -> nth_error (zeros X n k) i = Some (nth i X (ofZ 0)).
Proof. intros Hn Hk H i Hi. unfold zeros. rewrite umul_small by auto. apply resize_get. lia. Qed.

(** ** Blaze *)
Lemma eye_loop n : forall s (A : mat T) i j,
  fold_left (fun A j => mset A j j (ofZ 1)) (seq s n) A i j =
  if (Nat.eqb i j && (s <=? i)%nat && (i <? s + n)%nat)%bool then ofZ 1 else A i j.
Proof.
  induction n; intros s A i j; cbn [seq fold_left].
  - destruct (Nat.eqb_spec i j), (Nat.leb_spec s i), (Nat.ltb_spec i (s + 0)); cbn; auto; lia.
  - rewrite IHn. unfold mset.
    destruct (Nat.eqb_spec i j), (Nat.leb_spec (S s) i), (Nat.ltb_spec i (S s + n)), (Nat.leb_spec s i), (Nat.ltb_spec i (s + S n)),
      (Nat.eqb_spec i s), (Nat.eqb_spec j s); cbn; auto; lia.
Qed.
Lemma eye_val (X : mat T) n i j : (i < n)%nat -> eye X n i j = if Nat.eqb i j then ofZ 1 else ofZ 0.
Proof.
  intros H. unfold eye. rewrite eye_loop. cbn [Nat.add]. rewrite (proj2 (Nat.ltb_lt i n) H). now destruct (Nat.eqb i j).
Qed.
(** the first loop of repmat *)
Lemma rep_rows X r c n : (0 < r)%nat -> forall s (A : mat T) i j,
  fold_left (fun A j => set_sub A (j * r) 0 r c X) (seq s n) A i j =
  if ((s * r <=? i)%nat && (i <? (s + n) * r)%nat && (j <? c)%nat)%bool then X (i mod r)%nat j else A i j.
Proof.
  intros Hr. induction n; intros s A i j; cbn [seq fold_left].
  - rewrite Nat.add_0_r. destruct (Nat.leb_spec (s * r) i), (Nat.ltb_spec i (s * r)); cbn; auto; lia.
  - rewrite IHn. unfold set_sub.
    destruct (Nat.leb_spec (S s * r) i), (Nat.ltb_spec i ((S s + n) * r)), (Nat.leb_spec (s * r) i),
      (Nat.ltb_spec i ((s + S n) * r)), (Nat.ltb_spec i (s * r + r)), (Nat.leb_spec 0 j), (Nat.ltb_spec j c), (Nat.ltb_spec j (0 + c)); cbn [andb]; auto; try nia.
    f_equal; [|lia]. apply (Nat.mod_unique _ _ s); [|]; lia.
Qed.
Lemma repmat_1 (junk : mat T) r c (X : mat T) n i j : (0 < r)%nat -> (i < r * n)%nat -> (j < c)%nat ->
  repmat junk r c X n 1 i j = X (i mod r)%nat j.
Proof.
  intros Hr Hi Hj. unfold repmat. change (1 <? 1)%nat with false. cbv iota. rewrite rep_rows by auto.
  destruct (Nat.leb_spec (0 * r) i), (Nat.ltb_spec i ((0 + n) * r)), (Nat.ltb_spec j c); cbn; auto; nia.
Qed.
Lemma rep_cols r c n (junk : mat T) : (0 < c)%nat -> forall k s (A : mat T),
  (forall i j, (i < r * n)%nat -> (c <= j < 2 * c)%nat -> A i j = junk i j) ->
  (forall i j, (i < r * n)%nat -> (j < s * c)%nat -> A i j = junk i (c + j mod c)%nat) ->
  forall i j, (i < r * n)%nat -> (j < (s + k) * c)%nat ->
  fold_left (fun A j => set_sub A 0 (j * c) (r * n) c (get_sub A 0 c)) (seq s k) A i j = junk i (c + j mod c)%nat.
Proof.
  intros Hc. induction k; intros s A H1 H2 i j Hi Hj; cbn [seq fold_left].
  - apply H2; auto. now rewrite Nat.add_0_r in Hj.
  - assert (V : forall i j, (i < r * n)%nat -> (s * c <= j < S s * c)%nat -> set_sub A 0 (s * c) (r * n) c (get_sub A 0 c) i j = junk i (c + j mod c)%nat).
    { intros i' j' Hi' Hj'. unfold set_sub, get_sub.
      destruct (Nat.leb_spec 0 i'), (Nat.ltb_spec i' (0 + r * n)), (Nat.leb_spec (s * c) j'), (Nat.ltb_spec j' (s * c + c)); cbn [andb]; try nia.
      rewrite H1 by nia. rewrite Nat.sub_0_r. cbn [Nat.add]. f_equal. f_equal. apply (Nat.mod_unique _ _ s); nia. }
    assert (O : forall i j, (i < r * n)%nat -> (j < s * c \/ S s * c <= j)%nat -> set_sub A 0 (s * c) (r * n) c (get_sub A 0 c) i j = A i j).
    { intros i' j' Hi' Hj'. unfold set_sub.
      destruct (Nat.leb_spec 0 i'), (Nat.ltb_spec i' (0 + r * n)), (Nat.leb_spec (s * c) j'), (Nat.ltb_spec j' (s * c + c)); cbn [andb]; auto; nia. }
    apply IHk; auto.
    + intros i' j' Hi' Hj'. destruct (Nat.lt_ge_cases j' (s * c)) as [L|L]; [rewrite O; auto|].
      destruct (Nat.lt_ge_cases j' (S s * c)) as [L'|L']; [|rewrite O; auto].
      rewrite V by auto. f_equal. assert (j' = c * 1 + (j' - c))%nat by lia.
      rewrite <- (Nat.mod_unique j' c 1 (j' - c)); lia.
    + intros i' j' Hi' Hj'. destruct (Nat.lt_ge_cases j' (s * c)) as [L|L]; [rewrite O by auto; apply H2; auto|]. apply V; auto. 
    + now replace (S s + k)%nat with (s + S k)%nat by lia.
Qed.
(** with two or more column copies the result does not depend on [X] *)
Lemma repmat_2 (junk : mat T) r c (X : mat T) n k i j : (0 < r)%nat -> (0 < c)%nat -> (2 <= k)%nat -> (i < r * n)%nat -> (j < c * k)%nat ->
  repmat junk r c X n k i j = junk i (c + j mod c)%nat.
Proof.
  intros Hr Hc Hk Hi Hj. unfold repmat. destruct (Nat.ltb_spec 1 k); [|lia].
  apply (rep_cols r c n junk); auto; try nia. intros i' j' Hi' Hj'. rewrite rep_rows by auto.
  destruct (Nat.ltb_spec j' c); [lia|]. now rewrite andb_false_r.
Qed.
End G.

(** ** exact arithmetic *)
Section ERs.
Variable S : SF.
Notation NS := (ER_Num S).
Lemma accu_fold l : forall s, fold_left (fun s x => add (Num:=NS) s x) (map Fin l) (Fin s) = Fin (s + Rsum l).
Proof. induction l; intros; cbn [map fold_left Rsum]; [f_equal; ring|]. change (add (Num:=NS) (Fin s) (Fin a)) with (Fin (s + a)). rewrite IHl. f_equal. ring. Qed.
Lemma accu_val l : accu (N:=NS) (map Fin l) = Fin (Rsum l).
Proof. unfold accu. change (ofZ (Num:=NS) 0) with (Fin 0). rewrite accu_fold. f_equal. ring. Qed.
Lemma sqaccu_fold l : forall s, fold_left (fun s x => add (Num:=NS) s (mul (Num:=NS) x x)) (map Fin l) (Fin s) = Fin (s + Rsum (map (fun x => x * x) l)).
Proof.
  induction l; intros; cbn [map fold_left Rsum]; [f_equal; ring|]. change (add (Num:=NS) (Fin s) (mul (Num:=NS) (Fin a) (Fin a))) with (Fin (s + a * a)).
  rewrite IHl. f_equal. ring.
Qed.
Lemma sqaccu_val l : sqaccu (N:=NS) (map Fin l) = Fin (Rsum (map (fun x => x * x) l)).
Proof. unfold sqaccu. change (ofZ (Num:=NS) 0) with (Fin 0). rewrite sqaccu_fold. f_equal. ring. Qed.
Lemma size_v l : size_val (N:=NS) (map Fin l) = Fin (INR (length l)).
Proof. unfold size_val. rewrite map_length. cbn. now rewrite <- INR_IZR_INZ. Qed.
Lemma div_F a b : b <> 0 -> div (Num:=NS) (Fin a) (Fin b) = Fin (a / b).
Proof. intros. cbn. destruct (Req_EM_T b 0); [lra|auto]. Qed.
Lemma mean_val l : l <> [] -> mean (N:=NS) (map Fin l) = Fin (average l).
Proof. intros H. pose proof (len_pos l H). unfold mean. rewrite accu_val, size_v, div_F by lra. reflexivity. Qed.
Lemma var_val l : l <> [] -> var (N:=NS) (map Fin l) = Fin (variance l).
Proof.
  intros H. pose proof (len_pos l H). unfold var. rewrite mean_val, sqaccu_val, size_v, div_F by (auto; lra).
  rewrite <- variance_alt by auto. reflexivity.
Qed.
Lemma mean_nil : mean (N:=NS) [] = NaN /\ var (N:=NS) [] = NaN.
Proof.
  assert (E : mean (N:=NS) [] = NaN).
  { unfold mean, accu, size_val. cbn. destruct (Req_EM_T 0 0); [|lra]. unfold scale_inf. destruct (Rlt_dec 0 0); [lra|auto]. }
  split; auto. unfold var. rewrite E. cbn [sub]. destruct (div _ _); reflexivity.
Qed.
Lemma cumsum_val l : exists out, cumsum (N:=NS) (map Fin l) = Ok (map Fin out) /\ partial_sums l out.
Proof.
  destruct (cumsum_ok (N:=NS) (map Fin l)) as (o & E & L). rewrite map_length in L. destruct (cumsum_rec (N:=NS) _ _ E) as (A & B).
  assert (P : forall i, (i < length l)%nat -> nth_error o i = Some (Fin (Rsum (firstn (Datatypes.S i) l)))).
  { induction i; intros Hi.
    - rewrite A. destruct l as [|x l]; [cbn in Hi; lia|]. cbn. f_equal. f_equal. destruct l; cbn; ring.
    - destruct (nth_error l (Datatypes.S i)) as [x|] eqn:Ex; [|apply nth_error_None in Ex; lia].
      rewrite (B i (Fin x) (Fin (Rsum (firstn (Datatypes.S i) l)))); [|now rewrite nth_error_map, Ex|apply IHi; lia].
      f_equal. cbn [add ER_Num eadd]. f_equal.
      destruct (nth_error_split _ _ Ex) as (l1 & l2 & -> & Hl).
      replace (firstn (Datatypes.S (Datatypes.S i)) (l1 ++ x :: l2)) with (l1 ++ [x]).
      + rewrite Rsum_app. replace (firstn (Datatypes.S i) (l1 ++ x :: l2)) with l1; [cbn; ring|]. rewrite firstn_app, <- Hl, firstn_all, Nat.sub_diag. cbn. now rewrite app_nil_r.
      + rewrite firstn_app, <- Hl. rewrite firstn_all2 by lia. now replace (Datatypes.S (length l1) - length l1)%nat with 1%nat by lia. }
  exists (map (fun i => Rsum (firstn (Datatypes.S i) l)) (seq 0 (length l))).
  assert (Q : forall i, (i < length l)%nat -> nth_error (map (fun i => Rsum (firstn (Datatypes.S i) l)) (seq 0 (length l))) i = Some (Rsum (firstn (Datatypes.S i) l))).
  { intros i Hi. rewrite nth_error_map. rewrite (nth_error_nth' _ 0%nat) by (rewrite seq_length; auto). now rewrite seq_nth. }
  split; [|split; auto; now rewrite map_length, seq_length].
  rewrite E. f_equal. apply nth_ext_err. intros i. destruct (Nat.lt_ge_cases i (length l)) as [H|H].
  - rewrite P by auto. rewrite nth_error_map, Q by auto. reflexivity.
  - rewrite !(proj2 (nth_error_None _ _)); auto; rewrite ?map_length, ?seq_length; lia.
Qed.
Lemma absdiff_val k : forall i a b s, (i + k = length a)%nat -> length a = length b ->
  absdiff_loop (N:=NS) k i (map Fin a) (map Fin b) (Fin s) = Ok (Fin (s + dist1 (skipn i a) (skipn i b))).
Proof.
  induction k; intros i a b s H L; cbn [absdiff_loop].
  - rewrite (skipn_all2 a) by lia. unfold dist1. cbn. do 2 f_equal. ring.
  - rewrite !nth_error_map. destruct (nth_error a i) as [x|] eqn:Ex; [|apply nth_error_None in Ex; lia].
    destruct (nth_error b i) as [y|] eqn:Ey; [|apply nth_error_None in Ey; lia]. cbn [option_map].
    change (add (Num:=NS) (Fin s) (abs (Num:=NS) (sub (Num:=NS) (Fin x) (Fin y)))) with (Fin (s + Rabs (x - y))).
    rewrite IHk by lia. do 2 f_equal.
    destruct (nth_error_split _ _ Ex) as (a1 & a2 & -> & Ha). destruct (nth_error_split _ _ Ey) as (b1 & b2 & -> & Hb).
    assert (S1 : forall (u v : list R) z n, length u = n -> skipn n (u ++ z :: v) = z :: v /\ skipn (Datatypes.S n) (u ++ z :: v) = v).
    { intros u v z n <-. split; [|]; rewrite skipn_app.
      - now rewrite skipn_all, Nat.sub_diag.
      - rewrite skipn_all2 by lia. now replace (Datatypes.S (length u) - length u)%nat with 1%nat by lia. }
    destruct (S1 a1 a2 x i Ha) as (-> & ->). destruct (S1 b1 b2 y i Hb) as (-> & ->). unfold dist1. cbn. ring.
Qed.
Lemma sum_absdiff_val a b : length a = length b -> sum_absdiff (N:=NS) (map Fin a) (map Fin b) = Ok (Fin (dist1 a b)).
Proof. intros H. unfold sum_absdiff. change (ofZ (Num:=NS) 0) with (Fin 0). rewrite map_length, absdiff_val by (auto; lia). cbn [skipn]. do 2 f_equal. ring. Qed.
Lemma vlog_vexp l : vlog (N:=NS) (vexp (N:=NS) (map Fin l)) = map Fin l.
Proof.
  unfold vlog, vexp. rewrite !map_map. apply map_ext. intros x. cbn. pose proof (exp_pos x).
  destruct (Rlt_dec (Rtrigo_def.exp x) 0); [lra|]. destruct (Req_EM_T (Rtrigo_def.exp x) 0); [lra|]. f_equal. apply ln_exp.
Qed.
Lemma zeros_ref : exists X n k i, (Z.of_nat i < n * k < W64)%Z /\ nth_error (zeros (N:=NS) X n k) i <> Some (ofZ (Num:=NS) 0).
Proof.
  exists [Fin 5], 1%Z, 2%Z, 0%nat. split; [unfold W64; lia|]. rewrite zeros_keeps by (unfold W64; lia). cbn. intros E. injection E. lra.
Qed.
Lemma repmat_ref : exists junk r c X n k i j, (i < r * n)%nat /\ (j < c * k)%nat /\
  repmat (T:=ER) junk r c X n k i j <> X (i mod r)%nat (j mod c)%nat.
Proof.
  exists (fun _ _ => Fin 0), 1%nat, 1%nat, (fun _ _ => Fin 5), 1%nat, 2%nat, 0%nat, 0%nat. split; [lia|]. split; [lia|].
  rewrite repmat_2 by lia. intros E. injection E. lra.
Qed.
End ERs.

Lemma Rsum_bounds a b l : (forall x, In x l -> a <= x <= b) -> INR (length l) * a <= Rsum l <= INR (length l) * b.
Proof.
  induction l as [|x l IH]; intros H; [cbn; lra|]. change (length (x :: l)) with (S (length l)). rewrite S_INR. cbn [Rsum].
  pose proof (H x (or_introl eq_refl)). pose proof (IH (fun y h => H y (or_intror h))). lra.
Qed.
Lemma average_bounds a b l : l <> [] -> (forall x, In x l -> a <= x <= b) -> a <= average l <= b.
Proof.
  intros H B. pose proof (len_pos l H) as P. pose proof (Rsum_bounds a b l B). unfold average.
  split; apply (Rmult_le_reg_r (INR (length l))); try lra; unfold Rdiv; rewrite Rmult_assoc, Rinv_l by lra; lra.
Qed.
Section ERs2.
Variable S : SF.
Notation NS := (ER_Num S).
Lemma mean_bounds a b l : l <> [] -> (forall x, In x l -> a <= x <= b) -> exists m, mean (N:=NS) (map Fin l) = Fin m /\ a <= m <= b.
Proof. intros H B. exists (average l). split; [now apply mean_val|now apply average_bounds]. Qed.
Lemma mean_affine_v a b l : l <> [] -> mean (N:=NS) (map (fun x => Fin (a * x + b)) l) = Fin (a * average l + b).
Proof.
  intros H. rewrite <- (map_map (fun x => a * x + b) Fin), mean_val; [now rewrite average_affine|]. destruct l; cbn; congruence.
Qed.
Lemma var_affine_v a b l : l <> [] -> var (N:=NS) (map (fun x => Fin (a * x + b)) l) = Fin (a ^ 2 * variance l).
Proof.
  intros H. rewrite <- (map_map (fun x => a * x + b) Fin), var_val; [now rewrite variance_affine|]. destruct l; cbn; congruence.
Qed.
Lemma var_sign_v l : l <> [] -> exists v, var (N:=NS) (map Fin l) = Fin v /\ 0 <= v /\ (v = 0 <-> exists c, forall x, In x l -> x = c).
Proof. intros H. exists (variance l). split; [now apply var_val|]. split; [apply variance_nonneg|now apply variance_zero]. Qed.
(** the divisor n - 1 of Armadillo *)
Lemma var_arma_ref l : (2 <= length l)%nat -> ~ (exists c, forall x, In x l -> x = c) -> var (N:=NS) (map Fin l) <> Fin (sample_variance l).
Proof.
  intros H C E. assert (Hn : l <> []) by (intros ->; cbn in H; lia). rewrite var_val in E by auto. injection E as E.
  rewrite sample_variance_scale in E by (auto; lia). pose proof (variance_nonneg l). assert (V : variance l <> 0) by (intros Z; apply C, variance_zero; auto).
  assert (1 < INR (length l)) by (apply lt_1_INR; lia).
  apply (Rmult_eq_compat_l (INR (length l) - 1)) in E. field_simplify in E; [|lra]. apply V. lra.
Qed.
Lemma absdiff_metric a b c : length a = length b -> length b = length c ->
  exists dab dba dac dbc,
    sum_absdiff (N:=NS) (map Fin a) (map Fin b) = Ok (Fin dab) /\ sum_absdiff (N:=NS) (map Fin b) (map Fin a) = Ok (Fin dba) /\
    sum_absdiff (N:=NS) (map Fin a) (map Fin c) = Ok (Fin dac) /\ sum_absdiff (N:=NS) (map Fin b) (map Fin c) = Ok (Fin dbc) /\
    0 <= dab /\ dab = dba /\ dac <= dab + dbc /\ (dab = 0 <-> a = b).
Proof.
  intros H H'. exists (dist1 a b), (dist1 b a), (dist1 a c), (dist1 b c). rewrite !sum_absdiff_val by congruence.
  repeat (split; [reflexivity|]). split; [apply dist1_nonneg|]. split; [apply dist1_sym|]. split; [now apply dist1_tri|now apply dist1_zero].
Qed.
Lemma cumsum_last l x : exists out, cumsum (N:=NS) (map Fin (l ++ [x])) = Ok (out ++ [accu (N:=NS) (map Fin (l ++ [x]))]).
Proof.
  destruct (cumsum_val S (l ++ [x])) as (o & E & L & P). rewrite app_length in L. cbn in L. rewrite accu_val.
  destruct (exists_last (l:=o)) as (o' & y & ->); [intros ->; cbn in L; lia|]. rewrite app_length in L. cbn in L.
  exists (map Fin o'). rewrite E, map_app. do 2 f_equal. cbn. do 2 f_equal.
  assert (Q : nth_error (o' ++ [y]) (length l) = Some (Rsum (firstn (Datatypes.S (length l)) (l ++ [x])))) by (apply P; rewrite app_length; cbn; lia).
  rewrite firstn_all2 in Q by (rewrite app_length; cbn; lia). replace (length l) with (length o') in Q at 1 by lia. rewrite nth_error_app2, Nat.sub_diag in Q by lia. cbn [nth_error] in Q. injection Q as ->.
  auto.
Qed.
Lemma exp_elem l : vexp (N:=NS) (map Fin l) = map (fun x => Fin (Rtrigo_def.exp x)) l.
Proof. unfold vexp. rewrite map_map. reflexivity. Qed.
End ERs2.

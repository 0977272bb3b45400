(** rbinom: the number of successes in n tosses. *)
From Coq Require Import Reals ZArith List Bool Lra Lia Psatz.
From Coquelicot Require Import Coquelicot.
From Verif Require Import Spec SpecLaw Discrete.
Import ListNotations.
Local Open Scope R_scope.

Lemma wp_app (f : list bool -> R) a b : fold_right Rplus 0 (map f (a ++ b)) = fold_right Rplus 0 (map f a) + fold_right Rplus 0 (map f b).
Proof. induction a as [|x a IH]; cbn; [ring|]. rewrite IH. ring. Qed.
Lemma wp_scal (f g : list bool -> R) c a : (forall x, f x = c * g x) -> fold_right Rplus 0 (map f a) = c * fold_right Rplus 0 (map g a).
Proof. intros H. induction a as [|x a IH]; cbn; [ring|]. rewrite IH, H. ring. Qed.
Lemma wins_true bs : wins (true :: bs) = S (wins bs). Proof. reflexivity. Qed.
Lemma wins_false bs : wins (false :: bs) = wins bs. Proof. reflexivity. Qed.
Lemma win_prob_S0 n p : win_prob (S n) p 0 = (1 - p) * win_prob n p 0.
Proof.
  unfold win_prob. cbn [outcomes]. rewrite wp_app, !map_map.
  rewrite (wp_scal _ (fun _ => 0) 0); [|intros x; rewrite wins_true; cbn; ring].
  rewrite (wp_scal (fun x => if Nat.eqb (wins (false :: x)) 0 then weight p (false :: x) else 0)
    (fun bs => if Nat.eqb (wins bs) 0 then weight p bs else 0) (1 - p)).
  - ring.
  - intros x. rewrite wins_false. destruct Nat.eqb; cbn; ring.
Qed.
Lemma win_prob_S n p k : win_prob (S n) p (S k) = p * win_prob n p k + (1 - p) * win_prob n p (S k).
Proof.
  unfold win_prob. cbn [outcomes]. rewrite wp_app, !map_map. f_equal.
  - apply wp_scal. intros x. rewrite wins_true. cbn [Nat.eqb]. destruct Nat.eqb; cbn; ring.
  - apply wp_scal. intros x. rewrite wins_false. destruct Nat.eqb; cbn; ring.
Qed.

Lemma win_prob_binom n p k : win_prob n p k = binom_pmf n p k.
Proof.
  revert k. induction n as [|n IH]; intros k.
  - unfold win_prob, binom_pmf. cbn. destruct k as [|k]; cbn; [rewrite C_0; ring|ring].
  - destruct k as [|k].
    + rewrite win_prob_S0, IH. unfold binom_pmf. cbn [Nat.leb]. rewrite !C_0, !Nat.sub_0_r. cbn [pow]. ring.
    + rewrite win_prob_S, !IH. unfold binom_pmf. change (Nat.leb (S k) (S n)) with (Nat.leb k n).
      destruct (Nat.leb k n) eqn:L.
      * apply Nat.leb_le in L. destruct (Nat.leb (S k) n) eqn:L2.
        -- apply Nat.leb_le in L2. rewrite <- (pascal n k) by lia. replace (S n - S k)%nat with (n - k)%nat by lia.
           replace (n - k)%nat with (S (n - S k)) by lia. cbn [pow]. ring.
        -- apply Nat.leb_gt in L2. assert (k = n) by lia. subst k. rewrite !C_n.
           rewrite !Nat.sub_diag. cbn [pow]. ring.
      * apply Nat.leb_gt in L. rewrite (proj2 (Nat.leb_gt (S k) n)) by lia. ring.
Qed.

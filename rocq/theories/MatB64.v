(** The reductions of std::vector in binary64 (C55), and the running sums of rmultinom (C56). *)
From Coq Require Import ZArith Reals QArith Bool List Lra Lia Psatz.
From Verif Require Import Num Sanity ER ERTac B64 Vec Prob Quant Rand Multin MT Multi MatVec MatVecP B64R RandB64 RandB64b.
From Flocq Require Import Core IEEE754.BinarySingleNaN.
Import ListNotations.

(** 1/10 three times; 10^200 twice; 10^8 and 10^8+1; the largest double twice *)
Definition tenths : list b64 := repeat (blit (1 # 10)) 3.
Definition huges : list b64 := repeat (bofZ (10 ^ 200)) 2.
Definition nears : list b64 := [bofZ (10 ^ 8); bofZ (10 ^ 8 + 1)].
Definition tops : list b64 := repeat (bofZ ((2 ^ 53 - 1) * 2 ^ 971)) 2.

Section F.
Variable F : TF.
Notation NB := (B64_Num F).
Lemma var_b_neg : Forall (fun x : b64 => is_finite x = true) tenths /\ ltb (Num:=NB) (var (N:=NB) tenths) (ofZ (Num:=NB) 0) = true.
Proof. split; [repeat (constructor; [vm_compute; reflexivity|]); constructor|]. vm_compute. reflexivity. Qed.
Lemma var_b_nan : Forall (fun x : b64 => is_finite x = true) huges /\ Num.is_nan (Num:=NB) (var (N:=NB) huges) = true.
Proof. split; [repeat (constructor; [vm_compute; reflexivity|]); constructor|]. vm_compute. reflexivity. Qed.
Lemma var_b_zero : Forall (fun x : b64 => is_finite x = true) nears /\ (exists x y, nears = [x; y] /\ ltb (Num:=NB) x y = true) /\
  eqb (Num:=NB) (var (N:=NB) nears) (ofZ (Num:=NB) 0) = true.
Proof.
  split; [repeat (constructor; [vm_compute; reflexivity|]); constructor|].
  split; [exists (bofZ (10 ^ 8)), (bofZ (10 ^ 8 + 1)); split; [reflexivity|]; vm_compute; reflexivity|]. vm_compute. reflexivity.
Qed.
Lemma mean_b_inf : Forall (fun x : b64 => is_finite x = true) tops /\ is_posinf (Num:=NB) (mean (N:=NB) tops) = true.
Proof. split; [repeat (constructor; [vm_compute; reflexivity|]); constructor|]. vm_compute. reflexivity. Qed.
Lemma var_b_neg_ex : exists l : list b64, l <> [] /\ (forall x, In x l -> is_finite x = true) /\ ltb (Num:=NB) (var (N:=NB) l) (ofZ (Num:=NB) 0) = true.
Proof. destruct var_b_neg as (A & B). exists tenths. split; [discriminate|]. split; [now apply Forall_forall|auto]. Qed.
Lemma var_b_nan_ex : exists l : list b64, l <> [] /\ (forall x, In x l -> is_finite x = true) /\ Num.is_nan (Num:=NB) (var (N:=NB) l) = true.
Proof. destruct var_b_nan as (A & B). exists huges. split; [discriminate|]. split; [now apply Forall_forall|auto]. Qed.
Lemma mean_b_inf_ex : exists l : list b64, l <> [] /\ (forall x, In x l -> is_finite x = true) /\ is_posinf (Num:=NB) (mean (N:=NB) l) = true.
Proof. destruct mean_b_inf as (A & B). exists tops. split; [discriminate|]. split; [now apply Forall_forall|auto]. Qed.
Lemma var_b_zero_ex : exists x y : b64, is_finite x = true /\ is_finite y = true /\ ltb (Num:=NB) x y = true /\ eqb (Num:=NB) (var (N:=NB) [x; y]) (ofZ (Num:=NB) 0) = true.
Proof.
  destruct var_b_zero as (A & (x & y & E & L) & B). rewrite E in A, B. exists x, y. inversion A as [|? ? A1 A2]; subst. inversion A2; subst. auto.
Qed.

(** integer vectors whose partial sums stay within 2^53 are summed without rounding *)
Fixpoint sums_in (s : Z) (l : list Z) : Prop :=
  match l with
  | [] => True
  | x :: l => (Z.abs x <= 2 ^ 53)%Z /\ (Z.abs (s + x) <= 2 ^ 53)%Z /\ sums_in (s + x) l
  end.
Lemma accu_b_fold l : forall s (a : b64), (Z.abs s <= 2 ^ 53)%Z -> fin a -> B2R a = IZR s -> sums_in s l ->
  let r := fold_left (fun s x => badd s x) (map bofZ l) a in
  fin r /\ B2R r = IZR (fold_left Z.add l s).
Proof.
  induction l as [|x l IH]; intros s a Hs Fa Ra H; [cbn; auto|]. destruct H as (Hx & Hsx & H). cbn [map fold_left].
  destruct (bofZ_R x ltac:(lia)) as [Rx Fx].
  assert (Q : rnd (B2R a + B2R (bofZ x)) = IZR (s + x)) by (rewrite Ra, Rx, <- plus_IZR; apply rnd_Z; lia).
  destruct (badd_R a (bofZ x) Fa Fx) as [RA FA].
  { rewrite Q. rewrite <- abs_IZR. apply maxR_big. lia. }
  apply IH; auto. now rewrite RA.
Qed.
Lemma accu_b_int l : sums_in 0 l -> fin (accu (N:=NB) (map bofZ l)) /\ B2R (accu (N:=NB) (map bofZ l)) = IZR (fold_left Z.add l 0%Z).
Proof.
  intros H. destruct (bofZ_R 0 ltac:(lia)) as [R0 F0]. apply (accu_b_fold l 0 (bofZ 0)); auto. lia.
Qed.
End F.

(** ** the sampler written with the cumulative vector, as in the source *)
Section M.
Context {T : Type} {N : Num T} {E D : Type} (G : Rng T E).
Variable to_u64 : T -> option Z.
(** rand/rmultinom.ipp 47-55: the loop at index j, [k] iterations left *)
Fixpoint rmultinom_src (prob csum : list T) (n : Z) (k j : nat) (ret_sum : Z) (e : E) : outcome (list T * E) :=
  match k with
  | O => Ok ([], e)
  | S k' =>
      match nth_error prob j, nth_error csum (j - 1) with
      | Some p, Some c =>
          let n_j := ((n - ret_sum) mod 2 ^ 64)%Z in
          let '(r, e1) := rbinom G (to_s64 n_j) (div p (sub (ofZ 1) c)) e in
          match to_u64 (add (ofZ ret_sum) r) with
          | None => UB
          | Some ret_sum' =>
              match rmultinom_src prob csum n k' (S j) ret_sum' e1 with
              | Ok (rs, e2) => Ok (r :: rs, e2)
              | UB => UB
              end
          end
      | _, _ => UB
      end
  end.
Lemma rmultinom_src_loop prob cs n : cumsum prob = Ok cs -> forall k j c ret_sum e,
  (1 <= j)%nat -> (j + k = length prob)%nat -> nth_error cs (j - 1) = Some c ->
  rmultinom_src prob cs n k j ret_sum e = rmultinom_loop G to_u64 n (skipn j prob) c ret_sum e.
Proof.
  intros C. destruct (cumsum_rec prob cs C) as (_ & R). induction k; intros j c rs e Hj H Hc.
  - rewrite skipn_all2 by lia. reflexivity.
  - cbn [rmultinom_src]. destruct (nth_error prob j) as [p|] eqn:Ep; [|apply nth_error_None in Ep; lia]. rewrite Hc.
    destruct (nth_error_split _ _ Ep) as (p1 & p2 & Ep' & Hl).
    assert (S1 : skipn j prob = p :: skipn (S j) prob).
    { rewrite Ep', <- Hl, !skipn_app, skipn_all, Nat.sub_diag. rewrite (skipn_all2 p1) by lia.
      now replace (S (length p1) - length p1)%nat with 1%nat by lia. }
    rewrite S1. cbn [rmultinom_loop]. destruct (rbinom _ _ _ _) as [r e1]. destruct (to_u64 _); [|reflexivity].
    rewrite (IHk (S j) (add p c)); [reflexivity|lia|lia|]. rewrite Nat.sub_succ, Nat.sub_0_r.
    replace j with (S (j - 1)) by lia. apply R; [|auto]. now replace (S (j - 1)) with j by lia.
Qed.
Lemma rmultinom_src_ok p ps cs n ret_sum e : cumsum (p :: ps) = Ok cs ->
  rmultinom_src (p :: ps) cs n (length ps) 1 ret_sum e = rmultinom_loop G to_u64 n ps p ret_sum e.
Proof.
  intros C. apply (rmultinom_src_loop _ _ _ C); [lia|reflexivity|]. exact (proj1 (cumsum_rec _ _ C)).
Qed.
End M.

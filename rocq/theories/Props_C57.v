(** C57: sums, means and variances of a vector in double precision. *)
From Coq Require Import ZArith QArith Reals List Lia.
From Verif Require Import Num B64 MatVec MatB64.
From Flocq Require Import IEEE754.BinarySingleNaN.
Import ListNotations.


(** Integers are summed exactly as long as the partial sums stay within 2^53.  ([sums_in]: MatB64.v.) *)

Theorem C57_accu : forall (F : TF) (l : list Z), sums_in 0 l ->
  is_finite (accu (N:=B64_Num F) (map bofZ l)) = true /\ B2R (accu (N:=B64_Num F) (map bofZ l)) = IZR (fold_left Z.add l 0%Z).
Proof. exact accu_b_int. Qed.
Print Assumptions C57_accu.
Example C57_accu_ex : forall F : TF, B2R (accu (N:=B64_Num F) (map bofZ [1; -20; 300]%Z)) = 281%R.
Proof. intros F. apply (C57_accu F [1; -20; 300]%Z). cbn. lia. Qed.

(** The variance of three times 0.1 is negative. *)

Theorem C57_var_negative_refuted : forall (F : TF), exists l : list b64, l <> [] /\ (forall x, In x l -> is_finite x = true) /\
  ltb (Num:=B64_Num F) (var (N:=B64_Num F) l) (ofZ (Num:=B64_Num F) 0) = true.
Proof. exact var_b_neg_ex. Qed.
Print Assumptions C57_var_negative_refuted.

(** The variance of twice 1e200 is NaN. *)

Theorem C57_var_nan_refuted : forall (F : TF), exists l : list b64, l <> [] /\ (forall x, In x l -> is_finite x = true) /\
  Num.is_nan (Num:=B64_Num F) (var (N:=B64_Num F) l) = true.
Proof. exact var_b_nan_ex. Qed.
Print Assumptions C57_var_nan_refuted.

(** The variance of two different numbers is 0. *)

Theorem C57_var_zero_refuted : forall (F : TF), exists x y : b64, is_finite x = true /\ is_finite y = true /\
  ltb (Num:=B64_Num F) x y = true /\
  eqb (Num:=B64_Num F) (var (N:=B64_Num F) [x; y]) (ofZ (Num:=B64_Num F) 0) = true.
Proof. exact var_b_zero_ex. Qed.
Print Assumptions C57_var_zero_refuted.

(** The mean of finite numbers is infinite. *)

Theorem C57_mean_infinite_refuted : forall (F : TF), exists l : list b64, l <> [] /\ (forall x, In x l -> is_finite x = true) /\
  is_posinf (Num:=B64_Num F) (mean (N:=B64_Num F) l) = true.
Proof. exact mean_b_inf_ex. Qed.
Print Assumptions C57_mean_infinite_refuted.

(** Vocabulary of the theorem statements over the extended reals. *)
From Coq Require Import Reals Lra.
From Coquelicot Require Import Coquelicot.
From Verif Require Import Num ER.
Local Open Scope R_scope.

(** The real value [v] as returned in normal or in log form. *)
Definition val (lf : bool) (v : R) : ER := if lf then elog (Fin v) else Fin v.

(** Zero and one as returned in normal or in log form. *)
Definition zero_form (lf : bool) : ER := if lf then MInf else Fin 0.
Definition one_form (lf : bool) : ER := if lf then Fin 0 else Fin 1.

(** NaN or a value in [0,+inf]. *)
Definition nan_or_nonneg (v : ER) : Prop := v = NaN \/ Ele (Fin 0) v.

(** A number in [0,1]. *)
Definition in_unit (v : ER) : Prop := exists r, v = Fin r /\ 0 <= r <= 1.

(** Near [x] the function [F] takes finite values, is differentiable at [x], and its
    derivative is the (finite) value of [f] at [x]. *)
Definition density_of (F f : ER -> ER) (x : R) : Prop :=
  exists (G : R -> R) (g : R),
    locally x (fun y => F (Fin y) = Fin (G y)) /\ f (Fin x) = Fin g /\ is_derive G x g.

(** [k] is the smallest point of [supp] at which [F] reaches [p] *)
Definition is_quantile (F : Z -> ER) (supp : Z -> Prop) (p : ER) (k : Z) : Prop :=
  supp k /\ Ele p (F k) /\ forall j, supp j -> (j < k)%Z -> Elt (F j) p.
(** [k] is the smallest point of [supp] at which [F] exceeds [p] *)
Definition is_strict_quantile (F : Z -> ER) (supp : Z -> Prop) (p : ER) (k : Z) : Prop :=
  supp k /\ Elt p (F k) /\ forall j, supp j -> (j < k)%Z -> Ele (F j) p.
(** float-to-integer conversion of a non-negative value in the range of llint_t *)
Definition trunc_ok (tr : ER -> option Z) : Prop :=
  forall r, (0 <= r < 2 ^ 63)%R -> tr (Fin r) = Some (Int_part r).

(** [F] takes values in [0,1] on the non-NaN extended reals. *)
Definition unit_valued (F : ER -> ER) : Prop := forall x, x <> NaN -> in_unit (F x).
(** [F] is non-decreasing on the non-NaN extended reals. *)
Definition monotone (F : ER -> ER) : Prop := forall x y, Ele x y -> Ele (F x) (F y).
(** [q] is non-decreasing on [0,1], takes the end values [lo], [hi], and stays
    between them. *)
Definition quantile_like (q : ER -> ER) (lo hi : ER) : Prop :=
  q (Fin 0) = lo /\ q (Fin 1) = hi /\
  (forall p1 p2, 0 <= p1 -> p1 <= p2 -> p2 <= 1 -> Ele (q (Fin p1)) (q (Fin p2))) /\
  (forall p, 0 <= p <= 1 -> Ele lo (q (Fin p)) /\ Ele (q (Fin p)) hi).

(** One-sided limits: [f x] tends to [v] as [x] decreases to [a], increases to [a]. *)
Definition limit_right (f : R -> R) (a : R) (v : ER) : Prop :=
  match v with
  | Fin l => forall e, 0 < e -> exists d, 0 < d /\ forall x, a < x < a + d -> Rabs (f x - l) < e
  | PInf => forall m, exists d, 0 < d /\ forall x, a < x < a + d -> m < f x
  | _ => False
  end.
Definition limit_left (f : R -> R) (a : R) (v : ER) : Prop :=
  limit_right (fun x => f (- x)) (- a) v.
(** The extended real value [v] as returned in normal or in log form. *)
Definition ev (lf : bool) (v : ER) : ER := if lf then elog v else v.

(** Specification: limits of extended-real-valued functions of a real parameter.  Nothing here refers
    to the model of the code. *)
From Coq Require Import Reals.
From Verif Require Import ER.
Local Open Scope R_scope.

(** [w] is within [e] of [v]; near an infinity, beyond [1/e] *)
Definition near (v : ER) (e : R) (w : ER) : Prop :=
  match v with
  | Fin l => exists r, w = Fin r /\ Rabs (r - l) < e
  | PInf => w = PInf \/ exists r, w = Fin r /\ / e < r
  | MInf => w = MInf \/ exists r, w = Fin r /\ r < - / e
  | NaN => False
  end.
(** the parameter grows without bound, falls without bound, or decreases to zero *)
Inductive dir := Up | Down | Zero.
Definition eventually (d : dir) (P : R -> Prop) : Prop :=
  match d with
  | Up => exists M, forall s, M < s -> P s
  | Down => exists M, forall s, s < M -> P s
  | Zero => exists r, 0 < r /\ forall s, 0 < s < r -> P s
  end.
Definition tends (d : dir) (g : R -> ER) (v : ER) : Prop :=
  forall e, 0 < e -> eventually d (fun s => near v e (g s)).
(** the value of a parameter in the limit *)
Definition bound (d : dir) : ER := match d with Up => PInf | Down => MInf | Zero => Fin 0 end.
(** [f] at the bound of the parameter is the limit of its values at finite parameters *)
Definition extends (d : dir) (f : ER -> ER) : Prop := tends d (fun s => f (Fin s)) (f (bound d)).
(** location parameter to either infinity, scale to infinity; scale to zero at the points given *)
Definition loc_limits (f : ER -> ER -> ER -> ER) : Prop :=
  forall x m s, 0 < s ->
    extends Down (fun m => f (Fin x) m (Fin s)) /\ extends Up (fun m => f (Fin x) m (Fin s)) /\
    extends Up (fun s => f (Fin x) (Fin m) s).

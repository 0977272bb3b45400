(** What a vector call should do, in terms of scalar calls only. *)
From Coq Require Import ZArith List.
From Verif Require Import Vec.
Import ListNotations.
Local Open Scope Z_scope.

Section Spec.
Context {L E B : Type} (start : Z -> option L) (rstep : L -> E -> (L + B) * E).

(** Run alone from local state [l] on engine [e], the scalar call returns [b] and leaves the
    engine in state [e']. *)
Inductive returns : L -> E -> B -> E -> Prop :=
| ret_now l e b e' : rstep l e = (inr b, e') -> returns l e b e'
| ret_later l e l1 e1 b e' : rstep l e = (inl l1, e1) -> returns l1 e1 b e' -> returns l e b e'.

(** The scalar calls for the given indices, one after the other, return the values [bs] and leave
    the engine in state [e']. *)
Inductive draws : list Z -> E -> list B -> E -> Prop :=
| draws_nil e : draws [] e [] e
| draws_cons i l is e b e1 bs e' : start i = Some l -> returns l e b e1 -> draws is e1 bs e' ->
    draws (i :: is) e (b :: bs) e'.
End Spec.

(** [n] scalar calls in a row on one engine. *)
Inductive calls {L E B} (l0 : L) (rstep : L -> E -> (L + B) * E) : nat -> E -> list B -> E -> Prop :=
| calls_0 e : calls l0 rstep 0 e [] e
| calls_S n e b e1 bs e' : returns rstep l0 e b e1 -> calls l0 rstep n e1 bs e' ->
    calls l0 rstep (S n) e (b :: bs) e'.

(** A call without an engine. *)
Definition evaluates {A L B} (call : A -> L) (fstep : L -> L + B) (a : A) (b : B) : Prop :=
  returns (estep fstep) (call a) tt b tt.

Section Fill.
Context {L E B : Type} (l0 : L) (rstep : L -> E -> (L + B) * E).

(** Each engine serves [n] calls of its own block. *)
Inductive block_calls (n : nat) : list E -> list (list B) -> list E -> Prop :=
| bc_nil : block_calls n [] [] []
| bc_cons e bs e' es bss es' : calls l0 rstep n e bs e' -> block_calls n es bss es' ->
    block_calls n (e :: es) (bs :: bss) (e' :: es').

(** A parallel fill with one block of [n] elements per engine and [rem] elements left over: the
    blocks in order; when elements are left over, the first engine goes on with [rem + 1] calls,
    whose values replace the last element of the last block and follow it. *)
Definition filled (n rem : nat) (es : list E) (out : list B) : Prop :=
  exists bss es', block_calls n es bss es' /\
    match rem with
    | O => out = concat bss
    | S _ => exists e1 es1 tv e2, es' = e1 :: es1 /\ calls l0 rstep (S rem) e1 tv e2 /\
        out = firstn (length es * n - 1) (concat bss) ++ tv
    end.

(** [n] calls of [uni], one after the other. *)
Fixpoint advance {U} (uni : E -> U * E) (n : nat) (e : E) : list U * E :=
  match n with
  | O => ([], e)
  | S n' => let '(us, e') := advance uni n' (snd (uni e)) in (fst (uni e) :: us, e')
  end.
End Fill.

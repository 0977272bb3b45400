(** Programs that call the samplers: several engines, seed calls and engine calls in any order.
    A sampler is a function from an engine state to a value and the next state; the seed overloads
    (the last overload of each scalar section of rand/*.ipp) construct a local engine
    [rand_engine_t engine(seed_val)] and pass it on.  The distribution objects used by the samplers
    are local to the call, so the engines are the only state. *)
From Coq Require Import ZArith List Lia.
From Verif Require Import Rand.
Import ListNotations.

Section S.
Context {T E : Type} (G : Rng T E).

Inductive call :=
| with_seed (f : E -> T * E) (s : Z)        (* f(pars, seed) *)
| with_engine (f : E -> T * E) (i : nat).   (* f(pars, engine_i) *)

Fixpoint upd (l : list E) (i : nat) (e : E) : list E :=
  match l, i with
  | [], _ => []
  | _ :: l, O => e :: l
  | x :: l, S i => x :: upd l i e
  end.

(** one call: the engines afterwards and the value ([None]: no such engine) *)
Definition do_call (es : list E) (c : call) : list E * option T :=
  match c with
  | with_seed f s => (es, Some (fst (f (g_mk G s))))
  | with_engine f i =>
      match nth_error es i with
      | None => (es, None)
      | Some e => let '(v, e') := f e in (upd es i e', Some v)
      end
  end.
Fixpoint do_calls (es : list E) (cs : list call) : list E * list (option T) :=
  match cs with
  | [] => (es, [])
  | c :: cs => let '(es1, v) := do_call es c in let '(es2, vs) := do_calls es1 cs in (es2, v :: vs)
  end.

Lemma nth_upd_eq l i e x : nth_error l i = Some x -> nth_error (upd l i e) i = Some e.
Proof. revert i; induction l; destruct i; cbn; try discriminate; auto. Qed.
Lemma nth_upd_ne l i j e : i <> j -> nth_error (upd l i e) j = nth_error l j.
Proof. revert i j; induction l; destruct i, j; cbn; auto; try congruence. Qed.

(** After any history a seed call returns the draw of the fresh engine and changes no engine. *)
Lemma seed_call_history es h f s :
  do_call (fst (do_calls es h)) (with_seed f s) = (fst (do_calls es h), Some (fst (f (g_mk G s)))).
Proof. reflexivity. Qed.
Lemma seed_calls_erase es h1 f s h2 :
  fst (do_calls es (h1 ++ with_seed f s :: h2)) = fst (do_calls es (h1 ++ h2)).
Proof.
  revert es. induction h1 as [|c h1 IH]; intros es; cbn [app do_calls].
  - cbn [do_call]. destruct (do_calls es h2); reflexivity.
  - destruct (do_call es c) as [es1 v]. specialize (IH es1).
    destruct (do_calls es1 (h1 ++ with_seed f s :: h2)), (do_calls es1 (h1 ++ h2)). exact IH.
Qed.

(** An engine call depends on its own engine only, and changes no other. *)
Lemma engine_call_frame es f i j : i <> j -> nth_error (fst (do_call es (with_engine f i))) j = nth_error es j.
Proof.
  intros H. cbn [do_call]. destruct (nth_error es i) as [e|]; [|reflexivity]. destruct (f e). now apply nth_upd_ne.
Qed.
Lemma engine_call_local es1 es2 f i : nth_error es1 i = nth_error es2 i ->
  snd (do_call es1 (with_engine f i)) = snd (do_call es2 (with_engine f i)) /\
  nth_error (fst (do_call es1 (with_engine f i))) i = nth_error (fst (do_call es2 (with_engine f i))) i.
Proof.
  intros H. cbn [do_call]. rewrite <- H. destruct (nth_error es1 i) as [e|] eqn:E1; [|cbn; split; congruence].
  destruct (f e) as [v e']. cbn. split; auto. rewrite (nth_upd_eq es1 i e' e) by auto. now rewrite (nth_upd_eq es2 i e' e) by auto.
Qed.
(** The draws from one engine over a whole history depend only on that engine and on the calls
    made on it, whatever is interleaved. *)
Definition on (i : nat) (c : call) : bool := match c with with_engine _ j => Nat.eqb i j | _ => false end.
Fixpoint pick (i : nat) (cs : list call) (vs : list (option T)) : list (option T) :=
  match cs, vs with
  | c :: cs, v :: vs => if on i c then v :: pick i cs vs else pick i cs vs
  | _, _ => []
  end.
Lemma engine_history i cs : forall es1 es2, nth_error es1 i = nth_error es2 i ->
  pick i cs (snd (do_calls es1 cs)) = snd (do_calls es2 (filter (on i) cs)) /\
  nth_error (fst (do_calls es1 cs)) i = nth_error (fst (do_calls es2 (filter (on i) cs))) i.
Proof.
  induction cs as [|c cs IH]; intros es1 es2 H; [auto|].
  cbn [do_calls filter].
  destruct (on i c) eqn:O.
  - destruct c as [|f j]; [discriminate|]. cbn [on] in O. apply Nat.eqb_eq in O. subst j.
    pose proof (engine_call_local es1 es2 f i H) as [L1 L2]. cbn [do_calls].
    destruct (do_call es1 (with_engine f i)) as [a v]. destruct (do_call es2 (with_engine f i)) as [b w].
    cbn [fst snd] in L1, L2. subst w. specialize (IH a b L2).
    destruct (do_calls a cs), (do_calls b (filter (on i) cs)). cbn [fst snd pick on] in *.
    rewrite Nat.eqb_refl. destruct IH as [-> ->]. auto.
  - assert (K : nth_error (fst (do_call es1 c)) i = nth_error es1 i).
    { destruct c as [|f j]; [reflexivity|]. apply engine_call_frame. intros ->. cbn in O. rewrite Nat.eqb_refl in O. discriminate. }
    destruct (do_call es1 c) as [a v]. cbn [fst] in K. specialize (IH a es2 ltac:(congruence)).
    destruct (do_calls a cs). cbn [fst snd pick] in *. rewrite O. exact IH.
Qed.
End S.
Arguments call : clear implicits.

(** C35: the seed overload of every sampler is the engine overload on a fresh engine; no state survives a call. *)
From Coq Require Import ZArith List.
From Verif Require Import Num B64 Rand MT Session RandWit.
Import ListNotations.


Theorem C35_overloads : forall (T E : Type) (N : Num T) (G : Rng T E) (trunc : T -> option Z) (fuel : nat) (n : Z) (a b : T) (s : Z),
  runif_seed G a b s = fst (runif G a b (g_mk G s)) /\
  rnorm_seed G a b s = fst (rnorm G a b (g_mk G s)) /\
  rexp_seed G a s = fst (rexp G a (g_mk G s)) /\
  rcauchy_seed G a b s = fst (rcauchy G a b (g_mk G s)) /\
  rlaplace_seed G a b s = fst (rlaplace G a b (g_mk G s)) /\
  rlogis_seed G a b s = fst (rlogis G a b (g_mk G s)) /\
  rweibull_seed G a b s = fst (rweibull G a b (g_mk G s)) /\
  rlnorm_seed G a b s = fst (rlnorm G a b (g_mk G s)) /\
  rbern_seed G a s = fst (rbern G a (g_mk G s)) /\
  rradem_seed G a s = fst (rradem G a (g_mk G s)) /\
  rinvgauss_seed G a b s = fst (rinvgauss G a b (g_mk G s)) /\
  rbinom_seed G n a s = fst (rbinom G n a (g_mk G s)) /\
  rgamma_seed G fuel a b s = option_map fst (rgamma G fuel a b (g_mk G s)) /\
  rchisq_seed G fuel a s = option_map fst (rchisq G fuel a (g_mk G s)) /\
  rbeta_seed G fuel a b s = option_map fst (rbeta G fuel a b (g_mk G s)) /\
  rf_seed G fuel a b s = option_map fst (rf G fuel a b (g_mk G s)) /\
  rt_seed G fuel a s = option_map fst (rt G fuel a (g_mk G s)) /\
  rinvgamma_seed G fuel a b s = option_map fst (rinvgamma G fuel a b (g_mk G s)) /\
  rpois_seed G trunc fuel a s = option_map fst (rpois G trunc fuel a (g_mk G s)).
Proof. exact @seed_overloads. Qed.
Print Assumptions C35_overloads.
Example C35_overloads_ex (F : TF) (s : Z) : runif_seed (N:=B64_Num F) mt_rng (bofZ 0) (bofZ 1) s = fst (runif (N:=B64_Num F) mt_rng (bofZ 0) (bofZ 1) (g_mk mt_rng s)).
Proof. exact (proj1 (C35_overloads b64 mt (B64_Num F) mt_rng (fun _ => None) 0 0 (bofZ 0) (bofZ 1) s)). Qed.

(** Any history: a list of calls on any number of engines, with seed calls anywhere.
    A seed call returns the draw of the fresh engine and leaves every engine as it was; *)

Theorem C35_history : forall (T E : Type) (G : Rng T E) (es : list E) (h : list (call T E)) (f : E -> T * E) (s : Z),
  do_call G (fst (do_calls G es h)) (with_seed f s) = (fst (do_calls G es h), Some (fst (f (g_mk G s)))).
Proof. exact @seed_call_history. Qed.
Print Assumptions C35_history.

Theorem C35_erase : forall (T E : Type) (G : Rng T E) (es : list E) (h1 : list (call T E)) (f : E -> T * E) (s : Z) (h2 : list (call T E)),
  fst (do_calls G es (h1 ++ with_seed f s :: h2)) = fst (do_calls G es (h1 ++ h2)).
Proof. exact @seed_calls_erase. Qed.
Print Assumptions C35_erase.

(** an engine call depends on its own engine and on nothing else. *)

Theorem C35_engine : forall (T E : Type) (G : Rng T E) (i : nat) (cs : list (call T E)) (es1 es2 : list E),
  nth_error es1 i = nth_error es2 i ->
  pick i cs (snd (do_calls G es1 cs)) = snd (do_calls G es2 (filter (on i) cs)) /\
  nth_error (fst (do_calls G es1 cs)) i = nth_error (fst (do_calls G es2 (filter (on i) cs))) i.
Proof. exact @engine_history. Qed.
Print Assumptions C35_engine.
(** Two engines, three engine calls and a seed call; an engine that counts. *)
Definition tick : Rng Z Z := {| g_unif := fun a _ e => (a + e, e + 1)%Z; g_norm := fun e => (e, e + 1)%Z; g_next := fun a _ => a; g_mk := fun s => (100 * s)%Z |}.
Definition prog : list (call Z Z) :=
  [with_engine (g_norm tick) 0; with_seed (g_norm tick) 3; with_engine (g_norm tick) 1; with_engine (g_norm tick) 0].
Example C35_engine_ex :
  do_calls tick [5; 8]%Z prog = ([7; 9], [Some 5; Some 300; Some 8; Some 6])%Z /\
  pick 0 prog (snd (do_calls tick [5; 8]%Z prog)) = [Some 5; Some 6]%Z.
Proof. split; reflexivity. Qed.
Example C35_history_ex : snd (do_call tick (fst (do_calls tick [5; 8]%Z prog)) (with_seed (g_norm tick) 3)) = Some 300%Z.
Proof. rewrite C35_history. reflexivity. Qed.
Example C35_erase_ex : fst (do_calls tick [5; 8]%Z ([with_engine (g_norm tick) 0] ++ with_seed (g_norm tick) 3 :: [with_engine (g_norm tick) 1; with_engine (g_norm tick) 0])) = [7; 9]%Z.
Proof. rewrite C35_erase. reflexivity. Qed.

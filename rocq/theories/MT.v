(** rand_engine_t is std::mt19937_64 (misc/statslib_options.hpp).  The engine is specified by the
    C++ standard ([rand.eng.mers], [rand.predef]); this is the textbook recurrence, used to give
    concrete streams to examples and refutations.  The uniform distribution on top of it follows
    libstdc++'s generate_canonical (one 64-bit word per double); its algorithm is not fixed by
    the standard. *)
From Coq Require Import ZArith List Bool.
From Verif Require Import Num B64 Rand.
From Flocq Require Import IEEE754.BinarySingleNaN.
Import ListNotations.
Local Open Scope Z_scope.

Definition u64 (x : Z) : Z := Z.land x 18446744073709551615.

(** the last 312 words, oldest first *)
Definition mt := list Z.

Fixpoint mt_fill (n : nat) (i x : Z) : list Z :=
  match n with
  | O => []
  | S n' => x :: mt_fill n' (i + 1) (u64 (6364136223846793005 * Z.lxor x (Z.shiftr x 62) + (i + 1)))
  end.
Definition mt_seed (s : Z) : mt := mt_fill 312 0 (u64 s).

Definition mt_temper (x : Z) : Z :=
  let x := Z.lxor x (Z.land (Z.shiftr x 29) 6148914691236517205) in
  let x := Z.lxor x (Z.land (u64 (Z.shiftl x 17)) 8202884508482404352) in
  let x := Z.lxor x (Z.land (u64 (Z.shiftl x 37)) 18444473444759240704) in
  Z.lxor x (Z.shiftr x 43).

Definition mt_next (s : mt) : Z * mt :=
  match s with
  | x0 :: ((x1 :: _) as tl) =>
      let y := Z.lor (Z.land x0 18446744071562067968) (Z.land x1 2147483647) in
      let z := Z.lxor (Z.lxor (nth 156 s 0) (Z.shiftr y 1)) (if Z.odd y then 13043109905998158313 else 0) in
      (mt_temper z, tl ++ [z])
  | _ => (0, s)
  end.

(** the check value of [rand.predef]: the 10000th word from the default seed *)
Definition mt_skip (s : mt) : mt := snd (mt_next s).
Example mt_10000 : fst (mt_next (Z.iter 9999 mt_skip (mt_seed 5489))) = 9981545732273789042.
Proof. vm_compute. reflexivity. Qed.

(** libstdc++ std::generate_canonical<double,53> on a 64-bit engine, then a + u (b - a) *)
Definition two64 : b64 := bofZ 18446744073709551616.
Definition below1 : b64 := binary_normalize 53 1024 b64_prec_gt_0 b64_prec_lt_emax mode_NE 9007199254740991 (-53) false.
Definition mt_canonical (s : mt) : b64 * mt :=
  let '(w, s') := mt_next s in
  let r := bdiv (bofZ w) two64 in
  ((if Bleb (bofZ 1) r then below1 else r), s').
Definition mt_uniform (a b : b64) (s : mt) : b64 * mt :=
  let '(u, s') := mt_canonical s in (badd (bmul u (bsub b a)) a, s').
(** std::nextafter(a,b) for a < b *)
Definition b64_next (a b : b64) : b64 := Bsucc a.

(** Normal draws are not needed by the examples. *)
Definition mt_rng : Rng b64 mt :=
  {| g_unif := mt_uniform; g_norm := fun s => (bofZ 0, s); g_next := b64_next; g_mk := mt_seed |}.

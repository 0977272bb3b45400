(** The scalar assertions of the project's test suite (tests/dens, tests/prob, tests/quant), as data.

    Generated from the test files: one entry for every STATS_TEST_EXPECTED_VAL and
    STATS_TEST_EXPECTED_QUANT_VAL that is not commented out (1326 of them), with its line number, the
    arguments of the file's variables substituted, and the file's TEST_ERR_TOL (1e-05 in qt.cpp and
    qchisq.cpp, line 23).  [limit_f] collects the assertions that hold whatever the backend computes
    at ordinary arguments, [value_f] those that compare with a computed reference value. *)
From Coq Require Import ZArith QArith Bool List.
From Verif Require Import Num B64 Dens Prob Quant SpecTests.
From Flocq Require Import IEEE754.BinarySingleNaN.
Import ListNotations.
Local Open Scope Z_scope.

Section Suite.
Variable F : TF.
Local Instance NF : Num b64 := B64_Num F.

(** quant/qpois.ipp 66-86, run for at most 300 steps; no assertion of the suite runs longer
    ("still running" is mapped to a value no assertion expects). *)
Definition qpois p r : b64 :=
  match qpois_run trunc64 300 p r with Some v => v | None => Bopp (bofZ 7) end.

(** tests/dens/dbern.cpp *)
Definition limit_dbern : list (Z * bool) := [
   (42, passes F (1#1000000) (dbern 1 (blit (4#10)) false) (blit (4#10)) false);
   (43, passes F (1#1000000) (dbern 0 (blit (4#10)) false) (bsub (bofZ 1) (blit (4#10))) false);
   (47, passes F (1#1000000) (dbern 1 B754_nan false) B754_nan false);
   (49, passes F (1#1000000) (dbern 1 (Bopp (blit (1#10))) false) B754_nan false);
   (50, passes F (1#1000000) (dbern 1 (blit (11#10)) false) B754_nan false);
   (52, passes F (1#1000000) (dbern (-1) (blit (4#10)) false) (bofZ 0) false);
   (53, passes F (1#1000000) (dbern 2 (blit (4#10)) false) (bofZ 0) false)].
Definition value_dbern : list (Z * bool) := [
   (44, passes F (1#1000000) (dbern 1 (blit (4#10)) true) (blit (4#10)) true)].
(** tests/dens/dbeta.cpp *)
Definition limit_dbeta : list (Z * bool) := [
   (48, passes F (1#1000000) (dbeta B754_nan (bofZ 2) (bofZ 3) false) B754_nan false);
   (49, passes F (1#1000000) (dbeta (blit (5#10)) B754_nan (bofZ 3) false) B754_nan false);
   (50, passes F (1#1000000) (dbeta (blit (5#10)) (bofZ 1) B754_nan false) B754_nan false);
   (51, passes F (1#1000000) (dbeta (blit (5#10)) B754_nan B754_nan false) B754_nan false);
   (52, passes F (1#1000000) (dbeta B754_nan B754_nan B754_nan false) B754_nan false);
   (54, passes F (1#1000000) (dbeta (blit (5#10)) (Bopp (bofZ 1)) (bofZ 1) false) B754_nan false);
   (55, passes F (1#1000000) (dbeta (blit (5#10)) (bofZ 1) (Bopp (bofZ 1)) false) B754_nan false);
   (56, passes F (1#1000000) (dbeta (blit (5#10)) (Bopp (bofZ 1)) (Bopp (bofZ 1)) false) B754_nan false);
   (58, passes F (1#1000000) (dbeta (Bopp (blit (1#10))) (bofZ 5) (bofZ 4) false) (bofZ 0) false);
   (59, passes F (1#1000000) (dbeta (blit (11#10)) (bofZ 5) (bofZ 4) false) (bofZ 0) false);
   (61, passes F (1#1000000) (dbeta (bofZ 0) (bofZ 0) (bofZ 0) false) pinf64 false);
   (62, passes F (1#1000000) (dbeta (bofZ 1) (bofZ 0) (bofZ 0) false) pinf64 false);
   (63, passes F (1#1000000) (dbeta (blit (5#10)) (bofZ 0) (bofZ 0) false) (bofZ 0) false);
   (65, passes F (1#1000000) (dbeta (bofZ 0) (bofZ 0) (bofZ 1) false) pinf64 false);
   (66, passes F (1#1000000) (dbeta (bofZ 1) (bofZ 0) (bofZ 1) false) (bofZ 0) false);
   (67, passes F (1#1000000) (dbeta (bofZ 0) (bofZ 0) pinf64 false) pinf64 false);
   (68, passes F (1#1000000) (dbeta (bofZ 1) (bofZ 0) pinf64 false) (bofZ 0) false);
   (70, passes F (1#1000000) (dbeta (bofZ 0) (bofZ 1) (bofZ 0) false) (bofZ 0) false);
   (71, passes F (1#1000000) (dbeta (bofZ 1) (bofZ 1) (bofZ 0) false) pinf64 false);
   (72, passes F (1#1000000) (dbeta (bofZ 0) pinf64 (bofZ 1) false) (bofZ 0) false);
   (73, passes F (1#1000000) (dbeta (bofZ 1) pinf64 (bofZ 1) false) pinf64 false);
   (75, passes F (1#1000000) (dbeta (blit (5#10)) pinf64 pinf64 false) pinf64 false);
   (76, passes F (1#1000000) (dbeta (blit (1#10)) pinf64 pinf64 false) (bofZ 0) false);
   (78, passes F (1#1000000) (dbeta (bofZ 0) (blit (5#10)) (bofZ 1) false) pinf64 false);
   (79, passes F (1#1000000) (dbeta (bofZ 0) (bofZ 1) (bofZ 4) false) (bofZ 4) false);
   (80, passes F (1#1000000) (dbeta (bofZ 0) (blit (11#10)) (bofZ 4) false) (bofZ 0) false);
   (82, passes F (1#1000000) (dbeta (bofZ 1) (bofZ 1) (blit (5#10)) false) pinf64 false);
   (83, passes F (1#1000000) (dbeta (bofZ 1) (bofZ 5) (bofZ 1) false) (bofZ 5) false);
   (84, passes F (1#1000000) (dbeta (bofZ 1) (bofZ 1) (blit (11#10)) false) (bofZ 0) false)].
Definition value_dbeta : list (Z * bool) := [
   (43, passes F (1#1000000) (dbeta (blit (1#10)) (bofZ 5) (bofZ 4) false) (blit (20412#1000000)) false);
   (44, passes F (1#1000000) (dbeta (blit (5#10)) (bofZ 5) (bofZ 4) false) (blit (21875#10000)) false);
   (45, passes F (1#1000000) (dbeta (blit (97#100)) (bofZ 5) (bofZ 4) false) (blit (6692814#1000000000)) false);
   (46, passes F (1#1000000) (dbeta (blit (5#10)) (bofZ 5) (bofZ 4) true) (blit (21875#10000)) true)].
(** tests/dens/dbinom.cpp *)
Definition limit_dbinom : list (Z * bool) := [
   (48, passes F (1#1000000) (dbinom 1 2 B754_nan false) B754_nan false);
   (50, passes F (1#1000000) (dbinom (-1) 4 (blit (6#10)) false) (bofZ 0) false);
   (51, passes F (1#1000000) (dbinom (4 + 1)%Z 4 (blit (6#10)) false) (bofZ 0) false);
   (53, passes F (1#1000000) (dbinom 0 (-1) (blit (5#10)) false) B754_nan false);
   (54, passes F (1#1000000) (dbinom 0 1 (Bopp (blit (1#10))) false) B754_nan false);
   (55, passes F (1#1000000) (dbinom 0 1 (blit (11#10)) false) B754_nan false);
   (57, passes F (1#1000000) (dbinom 0 0 (blit (5#10)) false) (bofZ 1) false);
   (58, passes F (1#1000000) (dbinom 1 0 (blit (5#10)) false) (bofZ 0) false);
   (60, passes F (1#1000000) (dbinom 1 1 (blit (6#10)) false) (blit (6#10)) false)].
Definition value_dbinom : list (Z * bool) := [
   (43, passes F (1#1000000) (dbinom 3 4 (blit (6#10)) false) (blit (3456#10000)) false);
   (44, passes F (1#1000000) (dbinom 2 4 (blit (6#10)) false) (blit (3456#10000)) false);
   (45, passes F (1#1000000) (dbinom 1 4 (blit (6#10)) false) (blit (1536#10000)) false);
   (46, passes F (1#1000000) (dbinom 2 4 (blit (6#10)) true) (blit (3456#10000)) true)].
(** tests/dens/dcauchy.cpp *)
Definition limit_dcauchy : list (Z * bool) := [
   (43, passes F (1#1000000) (dcauchy (bofZ 2) (bofZ 1) (bofZ 2) false) (blit (127324#1000000)) false);
   (45, passes F (1#1000000) (dcauchy (bofZ 0) (bofZ 1) (bofZ 2) false) (blit (127324#1000000)) false);
   (47, passes F (1#1000000) (dcauchy B754_nan (bofZ 0) (bofZ 1) false) B754_nan false);
   (48, passes F (1#1000000) (dcauchy (bofZ 0) B754_nan (bofZ 1) false) B754_nan false);
   (49, passes F (1#1000000) (dcauchy (bofZ 0) (bofZ 0) B754_nan false) B754_nan false);
   (50, passes F (1#1000000) (dcauchy B754_nan B754_nan B754_nan false) B754_nan false);
   (52, passes F (1#1000000) (dcauchy (bofZ 0) (bofZ 0) (bofZ 0) false) B754_nan false);
   (53, passes F (1#1000000) (dcauchy (bofZ 0) (bofZ 0) (Bopp (bofZ 1)) false) B754_nan false);
   (54, passes F (1#1000000) (dcauchy (bofZ 0) (bofZ 0) ninf64 false) B754_nan false);
   (56, passes F (1#1000000) (dcauchy (bofZ 0) (bofZ 1) pinf64 false) (bofZ 0) false);
   (57, passes F (1#1000000) (dcauchy pinf64 (bofZ 1) pinf64 false) B754_nan false);
   (58, passes F (1#1000000) (dcauchy (bofZ 0) pinf64 pinf64 false) B754_nan false);
   (59, passes F (1#1000000) (dcauchy pinf64 pinf64 pinf64 false) B754_nan false);
   (60, passes F (1#1000000) (dcauchy ninf64 (bofZ 1) pinf64 false) B754_nan false);
   (61, passes F (1#1000000) (dcauchy (bofZ 0) ninf64 pinf64 false) B754_nan false);
   (62, passes F (1#1000000) (dcauchy ninf64 ninf64 pinf64 false) B754_nan false);
   (64, passes F (1#1000000) (dcauchy pinf64 pinf64 (bofZ 0) false) B754_nan false);
   (65, passes F (1#1000000) (dcauchy pinf64 pinf64 (bofZ 1) false) B754_nan false);
   (66, passes F (1#1000000) (dcauchy ninf64 ninf64 (bofZ 0) false) B754_nan false);
   (67, passes F (1#1000000) (dcauchy ninf64 ninf64 (bofZ 1) false) B754_nan false);
   (69, passes F (1#1000000) (dcauchy pinf64 ninf64 (bofZ 0) false) (bofZ 0) false);
   (70, passes F (1#1000000) (dcauchy pinf64 ninf64 (bofZ 1) false) (bofZ 0) false);
   (71, passes F (1#1000000) (dcauchy ninf64 pinf64 (bofZ 0) false) (bofZ 0) false);
   (72, passes F (1#1000000) (dcauchy ninf64 pinf64 (bofZ 1) false) (bofZ 0) false);
   (74, passes F (1#1000000) (dcauchy pinf64 (bofZ 0) (bofZ 1) false) (bofZ 0) false);
   (75, passes F (1#1000000) (dcauchy ninf64 (bofZ 0) (bofZ 1) false) (bofZ 0) false);
   (77, passes F (1#1000000) (dcauchy (bofZ 0) pinf64 (bofZ 1) false) (bofZ 0) false);
   (78, passes F (1#1000000) (dcauchy (bofZ 0) ninf64 (bofZ 1) false) (bofZ 0) false)].
Definition value_dcauchy : list (Z * bool) := [
   (44, passes F (1#1000000) (dcauchy (bofZ 1) (bofZ 1) (bofZ 2) true) (blit (1591549#10000000)) true)].
(** tests/dens/dchisq.cpp *)
Definition limit_dchisq : list (Z * bool) := [
   (46, passes F (1#1000000) (dchisq B754_nan (bofZ 3) false) B754_nan false);
   (47, passes F (1#1000000) (dchisq (bofZ 1) B754_nan false) B754_nan false);
   (48, passes F (1#1000000) (dchisq B754_nan B754_nan false) B754_nan false);
   (51, passes F (1#1000000) (dchisq (bofZ 0) (bofZ 0) false) pinf64 false);
   (52, passes F (1#1000000) (dchisq (bofZ 1) (Bopp (bofZ 1)) false) B754_nan false);
   (53, passes F (1#1000000) (dchisq (bofZ 1) ninf64 false) B754_nan false);
   (55, passes F (1#1000000) (dchisq (bofZ 1) pinf64 false) (bofZ 0) false);
   (57, passes F (1#1000000) (dchisq (bofZ 0) (bofZ 0) false) pinf64 false);
   (58, passes F (1#1000000) (dchisq (bofZ 0) (bofZ 1) false) pinf64 false);
   (59, passes F (1#1000000) (dchisq (bofZ 0) (bofZ 2) false) (blit (5#10)) false);
   (60, passes F (1#1000000) (dchisq (bofZ 0) (bofZ 3) false) (bofZ 0) false);
   (62, passes F (1#1000000) (dchisq pinf64 (bofZ 2) false) (bofZ 0) false);
   (63, passes F (1#1000000) (dchisq pinf64 pinf64 false) (bofZ 0) false);
   (64, passes F (1#1000000) (dchisq ninf64 (bofZ 2) false) (bofZ 0) false);
   (65, passes F (1#1000000) (dchisq ninf64 ninf64 false) B754_nan false)].
Definition value_dchisq : list (Z * bool) := [
   (42, passes F (1#1000000) (dchisq (bofZ 1) (bofZ 3) false) (blit (2419707#10000000)) false);
   (43, passes F (1#1000000) (dchisq (bofZ 2) (bofZ 3) true) (blit (2075537#10000000)) true);
   (44, passes F (1#1000000) (dchisq (bofZ 3) (bofZ 3) false) (blit (1541803#10000000)) false);
   (50, passes F (1#1000000) (dchisq (bofZ 1) (bofZ 0) false) (bofZ 0) false)].
(** tests/dens/dexp.cpp *)
Definition limit_dexp : list (Z * bool) := [
   (46, passes F (1#1000000) (dexp B754_nan (bofZ 3) false) B754_nan false);
   (47, passes F (1#1000000) (dexp (bofZ 1) B754_nan false) B754_nan false);
   (49, passes F (1#1000000) (dexp (bofZ 1) (bofZ 0) false) (bofZ 0) false);
   (50, passes F (1#1000000) (dexp (bofZ 0) (bofZ 0) false) (bofZ 0) false);
   (51, passes F (1#1000000) (dexp (bofZ 1) (Bopp (bofZ 1)) false) B754_nan false);
   (52, passes F (1#1000000) (dexp (bofZ 1) ninf64 false) B754_nan false);
   (54, passes F (1#1000000) (dexp (bofZ 1) pinf64 false) B754_nan false);
   (56, passes F (1#1000000) (dexp (bofZ 0) (bofZ 0) false) (bofZ 0) false);
   (57, passes F (1#1000000) (dexp (bofZ 0) (bofZ 1) false) (bofZ 1) false);
   (59, passes F (1#1000000) (dexp pinf64 (bofZ 0) false) B754_nan false);
   (60, passes F (1#1000000) (dexp pinf64 (bofZ 1) false) (bofZ 0) false);
   (61, passes F (1#1000000) (dexp pinf64 pinf64 false) B754_nan false);
   (62, passes F (1#1000000) (dexp ninf64 (bofZ 2) false) (bofZ 0) false);
   (63, passes F (1#1000000) (dexp ninf64 ninf64 false) B754_nan false)].
Definition value_dexp : list (Z * bool) := [
   (42, passes F (1#1000000) (dexp (bofZ 1) (bofZ 2) false) (blit (2706706#10000000)) false);
   (43, passes F (1#1000000) (dexp (bofZ 2) (bofZ 2) true) (blit (3663128#100000000)) true);
   (44, passes F (1#1000000) (dexp (bofZ 3) (bofZ 2) false) (blit (4957504#1000000000)) false)].
(** tests/dens/df.cpp *)
Definition limit_df : list (Z * bool) := [
   (48, passes F (1#1000000) (df B754_nan (bofZ 10) (bofZ 12) false) B754_nan false);
   (49, passes F (1#1000000) (df (bofZ 2) B754_nan (bofZ 12) false) B754_nan false);
   (50, passes F (1#1000000) (df (bofZ 2) (bofZ 10) B754_nan false) B754_nan false);
   (52, passes F (1#1000000) (df (bofZ 2) (bofZ 0) (bofZ 3) false) B754_nan false);
   (53, passes F (1#1000000) (df (bofZ 2) (bofZ 4) (bofZ 0) false) B754_nan false);
   (54, passes F (1#1000000) (df (bofZ 2) (bofZ 3) (bofZ (-1)) false) B754_nan false);
   (55, passes F (1#1000000) (df (bofZ 2) (bofZ (-1)) (bofZ 4) false) B754_nan false);
   (56, passes F (1#1000000) (df (bofZ 2) (bofZ (-1)) (bofZ (-1)) false) B754_nan false);
   (58, passes F (1#1000000) (df (bofZ (-1)) (bofZ 10) (bofZ 12) false) (bofZ 0) false);
   (60, passes F (1#1000000) (df (bofZ 0) (bofZ 1) (bofZ 3) false) pinf64 false);
   (61, passes F (1#1000000) (df (bofZ 0) (bofZ 2) (bofZ 2) false) (bofZ 1) false);
   (62, passes F (1#1000000) (df (bofZ 0) (bofZ 3) (bofZ 3) false) (bofZ 0) false);
   (64, passes F (1#1000000) (df (bofZ 1) pinf64 pinf64 false) pinf64 false);
   (65, passes F (1#1000000) (df (bofZ 2) pinf64 pinf64 false) (bofZ 0) false);
   (71, passes F (1#1000000) (df pinf64 (bofZ 2) (bofZ 1) false) (bofZ 0) false);
   (72, passes F (1#1000000) (df pinf64 (blit (15#10)) (bofZ 1) false) B754_nan false);
   (73, passes F (1#1000000) (df pinf64 (bofZ 2) (blit (9#10)) false) B754_nan false);
   (75, passes F (1#1000000) (df pinf64 pinf64 (blit (19#10)) false) B754_nan false);
   (76, passes F (1#1000000) (df pinf64 pinf64 (bofZ 2) false) (bofZ 0) false);
   (77, passes F (1#1000000) (df pinf64 pinf64 pinf64 false) (bofZ 0) false);
   (78, passes F (1#1000000) (df pinf64 (bofZ 0) pinf64 false) B754_nan false);
   (79, passes F (1#1000000) (df pinf64 (blit (1#10)) pinf64 false) (bofZ 0) false)].
Definition value_df : list (Z * bool) := [
   (43, passes F (1#1000000) (df (bofZ 1) (bofZ 10) (bofZ 12) false) (blit (6438853#10000000)) false);
   (44, passes F (1#1000000) (df (bofZ 2) (bofZ 10) (bofZ 12) false) (blit (1670815#10000000)) false);
   (45, passes F (1#1000000) (df (bofZ 3) (bofZ 10) (bofZ 12) false) (blit (424816#10000000)) false);
   (46, passes F (1#1000000) (df (bofZ 2) (bofZ 10) (bofZ 12) true) (blit (1670815#10000000)) true);
   (67, passes F (1#1000000) (df (bofZ 2) pinf64 (bofZ 3) false) (blit (1730996#10000000)) false);
   (69, passes F (1#1000000) (df (bofZ 3) (bofZ 2) pinf64 false) (blit (4978707#100000000)) false)].
(** tests/dens/dgamma.cpp *)
Definition limit_dgamma : list (Z * bool) := [
   (48, passes F (1#1000000) (dgamma B754_nan (bofZ 2) (bofZ 3) false) B754_nan false);
   (49, passes F (1#1000000) (dgamma (bofZ 2) B754_nan (bofZ 3) false) B754_nan false);
   (50, passes F (1#1000000) (dgamma (bofZ 2) (bofZ 2) B754_nan false) B754_nan false);
   (51, passes F (1#1000000) (dgamma (bofZ 2) B754_nan B754_nan false) B754_nan false);
   (52, passes F (1#1000000) (dgamma B754_nan B754_nan B754_nan false) B754_nan false);
   (54, passes F (1#1000000) (dgamma (bofZ 2) (bofZ (-1)) (bofZ 2) false) B754_nan false);
   (55, passes F (1#1000000) (dgamma (bofZ 2) ninf64 (bofZ 2) false) B754_nan false);
   (57, passes F (1#1000000) (dgamma (bofZ 2) (bofZ 1) (bofZ 0) false) B754_nan false);
   (58, passes F (1#1000000) (dgamma (bofZ 2) (bofZ 4) (bofZ (-1)) false) B754_nan false);
   (59, passes F (1#1000000) (dgamma (bofZ 2) (bofZ 3) ninf64 false) B754_nan false);
   (61, passes F (1#1000000) (dgamma (bofZ (-1)) (bofZ 2) (bofZ 3) false) (bofZ 0) false);
   (64, passes F (1#1000000) (dgamma (bofZ 0) (bofZ 0) (bofZ 2) false) pinf64 false);
   (65, passes F (1#1000000) (dgamma (bofZ 1) (bofZ 0) (bofZ 2) false) (bofZ 0) false);
   (67, passes F (1#1000000) (dgamma (bofZ 0) (blit (5#10)) (bofZ 3) false) pinf64 false);
   (68, passes F (1#1000000) (dgamma (bofZ 0) (bofZ 1) (bofZ 3) false) (bdiv (bofZ 1) (bofZ 3)) false);
   (69, passes F (1#1000000) (dgamma (bofZ 0) (bofZ 2) (bofZ 3) false) (bofZ 0) false);
   (71, passes F (1#1000000) (dgamma pinf64 pinf64 pinf64 false) (bofZ 0) false);
   (72, passes F (1#1000000) (dgamma pinf64 (bofZ 2) (bofZ 2) false) (bofZ 0) false);
   (73, passes F (1#1000000) (dgamma (bofZ 2) pinf64 (bofZ 2) false) (bofZ 0) false);
   (74, passes F (1#1000000) (dgamma (bofZ 2) (bofZ 2) pinf64 false) (bofZ 0) false)].
Definition value_dgamma : list (Z * bool) := [
   (43, passes F (1#1000000) (dgamma (bofZ 1) (bofZ 2) (bofZ 3) false) (blit (7961459#100000000)) false);
   (44, passes F (1#1000000) (dgamma (bofZ 2) (bofZ 2) (bofZ 3) false) (blit (1140927#10000000)) false);
   (45, passes F (1#1000000) (dgamma (bofZ 3) (bofZ 2) (bofZ 3) false) (blit (1226265#10000000)) false);
   (46, passes F (1#1000000) (dgamma (bofZ 2) (bofZ 2) (bofZ 3) true) (blit (1140927#10000000)) true)].
(** tests/dens/dgamma.cpp, tests/prob/pgamma.cpp *)
Definition limit_pgamma : list (Z * bool) := [
   (62, passes F (1#1000000) (pgamma ninf64 (bofZ 2) (bofZ 3) false) (bofZ 0) false);
   (48, passes F (1#1000000) (pgamma B754_nan (bofZ 2) (bofZ 3) false) B754_nan false);
   (49, passes F (1#1000000) (pgamma (bofZ 2) B754_nan (bofZ 3) false) B754_nan false);
   (50, passes F (1#1000000) (pgamma (bofZ 2) (bofZ 2) B754_nan false) B754_nan false);
   (51, passes F (1#1000000) (pgamma (bofZ 2) B754_nan B754_nan false) B754_nan false);
   (52, passes F (1#1000000) (pgamma B754_nan B754_nan B754_nan false) B754_nan false);
   (54, passes F (1#1000000) (pgamma (bofZ 2) (bofZ (-1)) (bofZ 2) false) B754_nan false);
   (55, passes F (1#1000000) (pgamma (bofZ 2) ninf64 (bofZ 2) false) B754_nan false);
   (57, passes F (1#1000000) (pgamma (bofZ 2) (bofZ 1) (bofZ 0) false) B754_nan false);
   (58, passes F (1#1000000) (pgamma (bofZ 2) (bofZ 4) (bofZ (-1)) false) B754_nan false);
   (59, passes F (1#1000000) (pgamma (bofZ 2) (bofZ 3) ninf64 false) B754_nan false);
   (61, passes F (1#1000000) (pgamma (bofZ (-1)) (bofZ 2) (bofZ 3) false) (bofZ 0) false);
   (62, passes F (1#1000000) (pgamma ninf64 (bofZ 2) (bofZ 3) false) (bofZ 0) false);
   (64, passes F (1#1000000) (pgamma (bofZ 0) (bofZ 0) (bofZ 2) false) (bofZ 0) false);
   (65, passes F (1#1000000) (pgamma (bofZ 1) (bofZ 0) (bofZ 2) false) (bofZ 1) false);
   (66, passes F (1#1000000) (pgamma (bofZ 1) (bofZ 0) pinf64 false) (bofZ 0) false);
   (68, passes F (1#1000000) (pgamma (bofZ 0) (blit (5#10)) (bofZ 3) false) (bofZ 0) false);
   (70, passes F (1#1000000) (pgamma pinf64 pinf64 pinf64 false) B754_nan false);
   (71, passes F (1#1000000) (pgamma pinf64 (bofZ 2) (bofZ 2) false) (bofZ 1) false);
   (72, passes F (1#1000000) (pgamma (bofZ 2) pinf64 (bofZ 2) false) (bofZ 0) false);
   (73, passes F (1#1000000) (pgamma (bofZ 2) (bofZ 2) pinf64 false) (bofZ 0) false)].
Definition value_pgamma : list (Z * bool) := [
   (43, passes F (1#1000000) (pgamma (bofZ 1) (bofZ 2) (bofZ 3) false) (blit (4462492#100000000)) false);
   (44, passes F (1#1000000) (pgamma (bofZ 2) (bofZ 2) (bofZ 3) false) (blit (1443048#10000000)) false);
   (45, passes F (1#1000000) (pgamma (bofZ 3) (bofZ 2) (bofZ 3) false) (blit (2642411#10000000)) false);
   (46, passes F (1#1000000) (pgamma (bofZ 2) (bofZ 2) (bofZ 3) true) (blit (1443048#10000000)) true)].
(** tests/dens/dinvgamma.cpp *)
Definition limit_dinvgamma : list (Z * bool) := [
   (48, passes F (1#1000000) (dinvgamma B754_nan (bofZ 3) (bofZ 2) false) B754_nan false);
   (49, passes F (1#1000000) (dinvgamma (bofZ 2) B754_nan (bofZ 2) false) B754_nan false);
   (50, passes F (1#1000000) (dinvgamma (bofZ 2) (bofZ 3) B754_nan false) B754_nan false);
   (52, passes F (1#1000000) (dinvgamma (bofZ 2) (bofZ (-1)) (bofZ 2) false) B754_nan false);
   (54, passes F (1#1000000) (dinvgamma (bofZ 2) (bofZ 1) (bofZ 0) false) (bofZ 0) false);
   (55, passes F (1#1000000) (dinvgamma (bofZ 2) (bofZ 4) (bofZ (-1)) false) B754_nan false);
   (56, passes F (1#1000000) (dinvgamma (bofZ 2) (bofZ 3) ninf64 false) B754_nan false);
   (58, passes F (1#1000000) (dinvgamma (bofZ (-1)) (bofZ 3) (bofZ 2) false) (bofZ 0) false);
   (60, passes F (1#1000000) (dinvgamma (bofZ 1) (bofZ 0) (bofZ 2) false) pinf64 false);
   (61, passes F (1#1000000) (dinvgamma (bofZ 0) (bofZ 0) (bofZ 2) false) (bofZ 0) false);
   (63, passes F (1#1000000) (dinvgamma (bofZ 0) (bofZ 2) (bofZ 0) false) pinf64 false);
   (64, passes F (1#1000000) (dinvgamma (bofZ 0) (bofZ 1) (bofZ 2) false) (bofZ 0) false);
   (66, passes F (1#1000000) (dinvgamma pinf64 pinf64 pinf64 false) (bofZ 0) false);
   (67, passes F (1#1000000) (dinvgamma pinf64 (bofZ 2) (bofZ 2) false) (bofZ 0) false);
   (68, passes F (1#1000000) (dinvgamma (bofZ 2) pinf64 (bofZ 2) false) (bofZ 0) false);
   (69, passes F (1#1000000) (dinvgamma (bofZ 2) (bofZ 2) pinf64 false) (bofZ 0) false)].
Definition value_dinvgamma : list (Z * bool) := [
   (43, passes F (1#1000000) (dinvgamma (bofZ 1) (bofZ 3) (bofZ 2) false) (blit (5413411#10000000)) false);
   (44, passes F (1#1000000) (dinvgamma (bofZ 2) (bofZ 3) (bofZ 2) false) (blit (9196986#100000000)) false);
   (45, passes F (1#1000000) (dinvgamma (bofZ 3) (bofZ 3) (bofZ 2) false) (blit (2535393#100000000)) false);
   (46, passes F (1#1000000) (dinvgamma (bofZ 2) (bofZ 3) (bofZ 2) true) (blit (9196986#100000000)) true)].
(** tests/dens/dinvgauss.cpp *)
Definition limit_dinvgauss : list (Z * bool) := [
   (48, passes F (1#1000000) (dinvgauss B754_nan (bofZ 2) (bofZ 3) false) B754_nan false);
   (49, passes F (1#1000000) (dinvgauss (bofZ 2) B754_nan (bofZ 3) false) B754_nan false);
   (50, passes F (1#1000000) (dinvgauss (bofZ 2) (bofZ 2) B754_nan false) B754_nan false);
   (51, passes F (1#1000000) (dinvgauss (bofZ 2) B754_nan B754_nan false) B754_nan false);
   (52, passes F (1#1000000) (dinvgauss B754_nan B754_nan B754_nan false) B754_nan false);
   (54, passes F (1#1000000) (dinvgauss (bofZ 2) (bofZ (-1)) (bofZ 2) false) B754_nan false);
   (55, passes F (1#1000000) (dinvgauss (bofZ 2) ninf64 (bofZ 1) false) B754_nan false);
   (56, passes F (1#1000000) (dinvgauss (bofZ 2) (bofZ (-1)) (bofZ 0) false) B754_nan false);
   (57, passes F (1#1000000) (dinvgauss (bofZ 0) (bofZ (-1)) (bofZ 0) false) B754_nan false);
   (58, passes F (1#1000000) (dinvgauss (bofZ (-2)) (bofZ (-1)) (bofZ 0) false) B754_nan false);
   (60, passes F (1#1000000) (dinvgauss (bofZ 0) (bofZ 1) (bofZ 0) false) pinf64 false);
   (61, passes F (1#1000000) (dinvgauss (bofZ 0) (bofZ 0) (bofZ 0) false) pinf64 false);
   (62, passes F (1#1000000) (dinvgauss (bofZ 1) (bofZ 0) (bofZ 0) false) (bofZ 0) false);
   (63, passes F (1#1000000) (dinvgauss (bofZ 1) (bofZ 1) (bofZ 0) false) (bofZ 0) false);
   (64, passes F (1#1000000) (dinvgauss (bofZ 2) (bofZ 2) (bofZ (-1)) false) B754_nan false);
   (65, passes F (1#1000000) (dinvgauss (bofZ 2) (bofZ 3) ninf64 false) B754_nan false);
   (67, passes F (1#1000000) (dinvgauss (bofZ (-1)) (bofZ 2) (bofZ 3) false) (bofZ 0) false);
   (68, passes F (1#1000000) (dinvgauss (bofZ (-1)) (bofZ 0) (bofZ 3) false) (bofZ 0) false);
   (69, passes F (1#1000000) (dinvgauss (bofZ (-1)) (bofZ 2) (bofZ 0) false) (bofZ 0) false);
   (70, passes F (1#1000000) (dinvgauss (bofZ (-1)) (bofZ 0) (bofZ 0) false) (bofZ 0) false);
   (71, passes F (1#1000000) (dinvgauss ninf64 (bofZ 2) (bofZ 3) false) (bofZ 0) false);
   (74, passes F (1#1000000) (dinvgauss (bofZ 1) (bofZ 0) (bofZ 0) false) (bofZ 0) false);
   (75, passes F (1#1000000) (dinvgauss (bofZ 0) (bofZ 0) (bofZ 0) false) pinf64 false);
   (77, passes F (1#1000000) (dinvgauss (bofZ 0) (bofZ 2) (bofZ 0) false) pinf64 false);
   (78, passes F (1#1000000) (dinvgauss (bofZ 0) (bofZ 1) (bofZ 3) false) (bofZ 0) false);
   (79, passes F (1#1000000) (dinvgauss (bofZ 0) (bofZ 0) (bofZ 3) false) pinf64 false);
   (81, passes F (1#1000000) (dinvgauss pinf64 pinf64 pinf64 false) (bofZ 0) false);
   (82, passes F (1#1000000) (dinvgauss pinf64 pinf64 (bofZ 2) false) (bofZ 0) false);
   (83, passes F (1#1000000) (dinvgauss pinf64 (bofZ 2) (bofZ 2) false) (bofZ 0) false);
   (84, passes F (1#1000000) (dinvgauss (bofZ 2) pinf64 (bofZ 2) false) (bofZ 0) false);
   (85, passes F (1#1000000) (dinvgauss (bofZ 2) (bofZ 2) pinf64 false) pinf64 false)].
Definition value_dinvgauss : list (Z * bool) := [
   (43, passes F (1#1000000) (dinvgauss (bofZ 1) (bofZ 2) (bofZ 3) false) (blit (4749088#10000000)) false);
   (44, passes F (1#1000000) (dinvgauss (bofZ 2) (bofZ 2) (bofZ 3) false) (blit (2443013#10000000)) false);
   (45, passes F (1#1000000) (dinvgauss (bofZ 3) (bofZ 2) (bofZ 3) false) (blit (1173551#10000000)) false);
   (46, passes F (1#1000000) (dinvgauss (bofZ 2) (bofZ 2) (bofZ 3) true) (blit (2443013#10000000)) true);
   (73, passes F (1#1000000) (dinvgauss (bofZ 1) (bofZ 0) (bofZ 1) false) (bofZ 0) false)].
(** tests/dens/dlaplace.cpp *)
Definition limit_dlaplace : list (Z * bool) := [
   (47, passes F (1#1000000) (dlaplace B754_nan (bofZ 0) (bofZ 1) false) B754_nan false);
   (48, passes F (1#1000000) (dlaplace (bofZ 0) B754_nan (bofZ 1) false) B754_nan false);
   (49, passes F (1#1000000) (dlaplace (bofZ 0) (bofZ 0) B754_nan false) B754_nan false);
   (51, passes F (1#1000000) (dlaplace (bofZ 0) (bofZ 0) (Bopp (bofZ 1)) false) B754_nan false);
   (52, passes F (1#1000000) (dlaplace (bofZ 0) (bofZ 0) ninf64 false) B754_nan false);
   (54, passes F (1#1000000) (dlaplace (bofZ 0) (bofZ 1) pinf64 false) (bofZ 0) false);
   (55, passes F (1#1000000) (dlaplace pinf64 (bofZ 1) pinf64 false) (bofZ 0) false);
   (56, passes F (1#1000000) (dlaplace (bofZ 0) pinf64 pinf64 false) (bofZ 0) false);
   (57, passes F (1#1000000) (dlaplace pinf64 pinf64 pinf64 false) (bofZ 0) false);
   (58, passes F (1#1000000) (dlaplace ninf64 (bofZ 1) pinf64 false) (bofZ 0) false);
   (59, passes F (1#1000000) (dlaplace (bofZ 0) ninf64 pinf64 false) (bofZ 0) false);
   (60, passes F (1#1000000) (dlaplace ninf64 ninf64 pinf64 false) (bofZ 0) false);
   (62, passes F (1#1000000) (dlaplace pinf64 pinf64 (bofZ 0) false) B754_nan false);
   (63, passes F (1#1000000) (dlaplace pinf64 pinf64 (bofZ 1) false) B754_nan false);
   (64, passes F (1#1000000) (dlaplace ninf64 ninf64 (bofZ 0) false) B754_nan false);
   (65, passes F (1#1000000) (dlaplace ninf64 ninf64 (bofZ 1) false) B754_nan false);
   (67, passes F (1#1000000) (dlaplace pinf64 ninf64 (bofZ 0) false) (bofZ 0) false);
   (68, passes F (1#1000000) (dlaplace pinf64 ninf64 (bofZ 1) false) (bofZ 0) false);
   (69, passes F (1#1000000) (dlaplace ninf64 pinf64 (bofZ 0) false) (bofZ 0) false);
   (70, passes F (1#1000000) (dlaplace ninf64 pinf64 (bofZ 1) false) (bofZ 0) false);
   (72, passes F (1#1000000) (dlaplace (bofZ 1) (bofZ 0) (bofZ 0) false) (bofZ 0) false);
   (73, passes F (1#1000000) (dlaplace (bofZ 1) (bofZ 1) (bofZ 0) false) pinf64 false);
   (75, passes F (1#1000000) (dlaplace pinf64 (bofZ 0) (bofZ 1) false) (bofZ 0) false);
   (76, passes F (1#1000000) (dlaplace ninf64 (bofZ 0) (bofZ 1) false) (bofZ 0) false);
   (78, passes F (1#1000000) (dlaplace (bofZ 0) pinf64 (bofZ 1) false) (bofZ 0) false);
   (79, passes F (1#1000000) (dlaplace (bofZ 0) ninf64 (bofZ 1) false) (bofZ 0) false)].
Definition value_dlaplace : list (Z * bool) := [
   (43, passes F (1#1000000) (dlaplace (bofZ 2) (bofZ 1) (bofZ 2) false) (blit (1516327#10000000)) false);
   (44, passes F (1#1000000) (dlaplace (bofZ 1) (bofZ 1) (bofZ 2) true) (blit (25#100)) true);
   (45, passes F (1#1000000) (dlaplace (bofZ 0) (bofZ 1) (bofZ 2) false) (blit (1516327#10000000)) false)].
(** tests/dens/dlnorm.cpp *)
Definition limit_dlnorm : list (Z * bool) := [
   (47, passes F (1#1000000) (dlnorm B754_nan (bofZ 0) (bofZ 1) false) B754_nan false);
   (48, passes F (1#1000000) (dlnorm (bofZ 1) B754_nan (bofZ 1) false) B754_nan false);
   (49, passes F (1#1000000) (dlnorm (bofZ 1) (bofZ 0) B754_nan false) B754_nan false);
   (51, passes F (1#1000000) (dlnorm (bofZ (-1)) (bofZ 1) (bofZ 2) false) (bofZ 0) false);
   (52, passes F (1#1000000) (dlnorm ninf64 (bofZ 1) (bofZ 2) false) (bofZ 0) false);
   (54, passes F (1#1000000) (dlnorm (bofZ 0) (bofZ 0) (Bopp (bofZ 1)) false) B754_nan false);
   (55, passes F (1#1000000) (dlnorm (bofZ 0) (bofZ 0) ninf64 false) B754_nan false);
   (57, passes F (1#1000000) (dlnorm (bofZ 0) (bofZ 1) pinf64 false) (bofZ 0) false);
   (58, passes F (1#1000000) (dlnorm pinf64 (bofZ 1) pinf64 false) (bofZ 0) false);
   (59, passes F (1#1000000) (dlnorm (bofZ 0) pinf64 pinf64 false) (bofZ 0) false);
   (60, passes F (1#1000000) (dlnorm pinf64 pinf64 pinf64 false) (bofZ 0) false);
   (61, passes F (1#1000000) (dlnorm ninf64 (bofZ 1) pinf64 false) (bofZ 0) false);
   (62, passes F (1#1000000) (dlnorm (bofZ 0) ninf64 pinf64 false) (bofZ 0) false);
   (63, passes F (1#1000000) (dlnorm ninf64 ninf64 pinf64 false) (bofZ 0) false);
   (65, passes F (1#1000000) (dlnorm pinf64 pinf64 (bofZ 0) false) pinf64 false);
   (66, passes F (1#1000000) (dlnorm pinf64 pinf64 (bofZ 1) false) B754_nan false);
   (67, passes F (1#1000000) (dlnorm (bofZ 0) ninf64 (bofZ 0) false) pinf64 false);
   (68, passes F (1#1000000) (dlnorm (bofZ 0) ninf64 (bofZ 1) false) (bofZ 0) false);
   (70, passes F (1#1000000) (dlnorm pinf64 ninf64 (bofZ 0) false) (bofZ 0) false);
   (71, passes F (1#1000000) (dlnorm pinf64 ninf64 (bofZ 1) false) (bofZ 0) false);
   (72, passes F (1#1000000) (dlnorm (bofZ 0) pinf64 (bofZ 0) false) (bofZ 0) false);
   (73, passes F (1#1000000) (dlnorm (bofZ 0) pinf64 (bofZ 1) false) (bofZ 0) false);
   (75, passes F (1#1000000) (dlnorm (bofZ 1) (bofZ 0) (bofZ 0) false) (bofZ 0) false);
   (77, passes F (1#1000000) (dlnorm pinf64 (bofZ 0) (bofZ 1) false) (bofZ 0) false);
   (78, passes F (1#1000000) (dlnorm ninf64 (bofZ 0) (bofZ 1) false) (bofZ 0) false);
   (80, passes F (1#1000000) (dlnorm (bofZ 0) pinf64 (bofZ 1) false) (bofZ 0) false);
   (81, passes F (1#1000000) (dlnorm (bofZ 0) ninf64 (bofZ 1) false) (bofZ 0) false)].
Definition value_dlnorm : list (Z * bool) := [
   (43, passes F (1#1000000) (dlnorm (bofZ 2) (bofZ 1) (bofZ 2) false) (blit (9856858#100000000)) false);
   (44, passes F (1#1000000) (dlnorm (bofZ 1) (bofZ 1) (bofZ 2) true) (blit (1760327#10000000)) true);
   (45, passes F (1#1000000) (dlnorm (blit (2#10)) (bofZ 1) (bofZ 2) false) (blit (4257966#10000000)) false)].
(** tests/dens/dlogis.cpp *)
Definition limit_dlogis : list (Z * bool) := [
   (48, passes F (1#1000000) (dlogis B754_nan (bofZ 0) (bofZ 1) false) B754_nan false);
   (49, passes F (1#1000000) (dlogis (bofZ 0) B754_nan (bofZ 1) false) B754_nan false);
   (50, passes F (1#1000000) (dlogis (bofZ 0) (bofZ 0) B754_nan false) B754_nan false);
   (52, passes F (1#1000000) (dlogis (bofZ 0) (bofZ 0) (Bopp (bofZ 1)) false) B754_nan false);
   (53, passes F (1#1000000) (dlogis (bofZ 0) (bofZ 0) ninf64 false) B754_nan false);
   (55, passes F (1#1000000) (dlogis (bofZ 0) (bofZ 1) pinf64 false) (bofZ 0) false);
   (56, passes F (1#1000000) (dlogis pinf64 (bofZ 1) pinf64 false) (bofZ 0) false);
   (57, passes F (1#1000000) (dlogis (bofZ 0) pinf64 pinf64 false) (bofZ 0) false);
   (58, passes F (1#1000000) (dlogis pinf64 pinf64 pinf64 false) (bofZ 0) false);
   (59, passes F (1#1000000) (dlogis ninf64 (bofZ 1) pinf64 false) (bofZ 0) false);
   (60, passes F (1#1000000) (dlogis (bofZ 0) ninf64 pinf64 false) (bofZ 0) false);
   (61, passes F (1#1000000) (dlogis ninf64 ninf64 pinf64 false) (bofZ 0) false);
   (63, passes F (1#1000000) (dlogis pinf64 pinf64 (bofZ 0) false) B754_nan false);
   (64, passes F (1#1000000) (dlogis pinf64 pinf64 (bofZ 1) false) B754_nan false);
   (65, passes F (1#1000000) (dlogis ninf64 ninf64 (bofZ 0) false) B754_nan false);
   (66, passes F (1#1000000) (dlogis ninf64 ninf64 (bofZ 1) false) B754_nan false);
   (68, passes F (1#1000000) (dlogis pinf64 ninf64 (bofZ 0) false) (bofZ 0) false);
   (69, passes F (1#1000000) (dlogis pinf64 ninf64 (bofZ 1) false) (bofZ 0) false);
   (70, passes F (1#1000000) (dlogis ninf64 pinf64 (bofZ 0) false) (bofZ 0) false);
   (71, passes F (1#1000000) (dlogis ninf64 pinf64 (bofZ 1) false) (bofZ 0) false);
   (73, passes F (1#1000000) (dlogis (bofZ 1) (bofZ 0) (bofZ 0) false) B754_nan false);
   (75, passes F (1#1000000) (dlogis pinf64 (bofZ 0) (bofZ 1) false) (bofZ 0) false);
   (76, passes F (1#1000000) (dlogis ninf64 (bofZ 0) (bofZ 1) false) (bofZ 0) false);
   (78, passes F (1#1000000) (dlogis (bofZ 0) pinf64 (bofZ 1) false) (bofZ 0) false);
   (79, passes F (1#1000000) (dlogis (bofZ 0) ninf64 (bofZ 1) false) (bofZ 0) false)].
Definition value_dlogis : list (Z * bool) := [
   (43, passes F (1#1000000) (dlogis (bofZ 2) (bofZ 1) (bofZ 2) false) (blit (1175019#10000000)) false);
   (44, passes F (1#1000000) (dlogis (bofZ 1) (bofZ 1) (bofZ 2) true) (blit (125#1000)) true);
   (45, passes F (1#1000000) (dlogis (bofZ 0) (bofZ 1) (bofZ 2) false) (blit (1175019#10000000)) false);
   (46, passes F (1#1000000) (dlogis (Bopp (bofZ 3)) (bofZ 1) (bofZ 2) false) (blit (5249679#100000000)) false)].
(** tests/dens/dnorm.cpp *)
Definition limit_dnorm : list (Z * bool) := [
   (47, passes F (1#1000000) (dnorm B754_nan (bofZ 0) (bofZ 1) false) B754_nan false);
   (48, passes F (1#1000000) (dnorm (bofZ 0) B754_nan (bofZ 1) false) B754_nan false);
   (49, passes F (1#1000000) (dnorm (bofZ 0) (bofZ 0) B754_nan false) B754_nan false);
   (51, passes F (1#1000000) (dnorm (bofZ 0) (bofZ 0) (Bopp (bofZ 1)) false) B754_nan false);
   (52, passes F (1#1000000) (dnorm (bofZ 0) (bofZ 0) ninf64 false) B754_nan false);
   (54, passes F (1#1000000) (dnorm (bofZ 0) (bofZ 1) pinf64 false) (bofZ 0) false);
   (55, passes F (1#1000000) (dnorm pinf64 (bofZ 1) pinf64 false) (bofZ 0) false);
   (56, passes F (1#1000000) (dnorm (bofZ 0) pinf64 pinf64 false) (bofZ 0) false);
   (57, passes F (1#1000000) (dnorm pinf64 pinf64 pinf64 false) (bofZ 0) false);
   (58, passes F (1#1000000) (dnorm ninf64 (bofZ 1) pinf64 false) (bofZ 0) false);
   (59, passes F (1#1000000) (dnorm (bofZ 0) ninf64 pinf64 false) (bofZ 0) false);
   (60, passes F (1#1000000) (dnorm ninf64 ninf64 pinf64 false) (bofZ 0) false);
   (62, passes F (1#1000000) (dnorm pinf64 pinf64 (bofZ 0) false) B754_nan false);
   (63, passes F (1#1000000) (dnorm pinf64 pinf64 (bofZ 1) false) B754_nan false);
   (64, passes F (1#1000000) (dnorm ninf64 ninf64 (bofZ 0) false) B754_nan false);
   (65, passes F (1#1000000) (dnorm ninf64 ninf64 (bofZ 1) false) B754_nan false);
   (67, passes F (1#1000000) (dnorm pinf64 ninf64 (bofZ 0) false) (bofZ 0) false);
   (68, passes F (1#1000000) (dnorm pinf64 ninf64 (bofZ 1) false) (bofZ 0) false);
   (69, passes F (1#1000000) (dnorm ninf64 pinf64 (bofZ 0) false) (bofZ 0) false);
   (70, passes F (1#1000000) (dnorm ninf64 pinf64 (bofZ 1) false) (bofZ 0) false);
   (72, passes F (1#1000000) (dnorm (bofZ 1) (bofZ 0) (bofZ 0) false) (bofZ 0) false);
   (73, passes F (1#1000000) (dnorm (bofZ 1) (bofZ 1) (bofZ 0) false) pinf64 false);
   (75, passes F (1#1000000) (dnorm pinf64 (bofZ 0) (bofZ 1) false) (bofZ 0) false);
   (76, passes F (1#1000000) (dnorm ninf64 (bofZ 0) (bofZ 1) false) (bofZ 0) false);
   (78, passes F (1#1000000) (dnorm (bofZ 0) pinf64 (bofZ 1) false) (bofZ 0) false);
   (79, passes F (1#1000000) (dnorm (bofZ 0) ninf64 (bofZ 1) false) (bofZ 0) false)].
Definition value_dnorm : list (Z * bool) := [
   (43, passes F (1#1000000) (dnorm (bofZ 2) (bofZ 1) (bofZ 2) false) (blit (17603266#100000000)) false);
   (44, passes F (1#1000000) (dnorm (bofZ 1) (bofZ 1) (bofZ 2) true) (blit (1994711#10000000)) true);
   (45, passes F (1#1000000) (dnorm (bofZ 0) (bofZ 1) (bofZ 2) false) (blit (17603266#100000000)) false)].
(** tests/dens/dpois.cpp *)
Definition limit_dpois : list (Z * bool) := [
   (47, passes F (1#1000000) (dpois 1 B754_nan false) B754_nan false);
   (49, passes F (1#1000000) (dpois 0 (bofZ 0) false) (bofZ 1) false);
   (50, passes F (1#1000000) (dpois 0 (bofZ 0) true) (bofZ 1) true);
   (51, passes F (1#1000000) (dpois 1 (bofZ 0) false) (bofZ 0) false);
   (52, passes F (1#1000000) (dpois 1 (bofZ 0) true) (bofZ 0) true);
   (57, passes F (1#1000000) (dpois 1 (Bopp (bofZ 1)) false) B754_nan false);
   (58, passes F (1#1000000) (dpois 1 ninf64 false) B754_nan false);
   (60, passes F (1#1000000) (dpois 1 pinf64 false) (bofZ 0) false);
   (65, passes F (1#1000000) (dpois (-1) (bofZ 2) false) (bofZ 0) false)].
Definition value_dpois : list (Z * bool) := [
   (42, passes F (1#1000000) (dpois 8 (bofZ 10) false) (blit (112599#1000000)) false);
   (43, passes F (1#1000000) (dpois 9 (bofZ 10) true) (blit (12511#100000)) true);
   (44, passes F (1#1000000) (dpois 10 (bofZ 10) false) (blit (12511#100000)) false);
   (54, passes F (1#1000000) (dpois 0 (bofZ 1) false) (blit (3678794#10000000)) false);
   (63, passes F (1#1000000) (dpois 0 (bofZ 5) false) (blit (6737947#1000000000)) false)].
(** tests/dens/dradem.cpp *)
Definition limit_dradem : list (Z * bool) := [
   (42, passes F (1#1000000) (dradem 1 (blit (4#10)) false) (blit (4#10)) false);
   (43, passes F (1#1000000) (dradem (-1) (blit (4#10)) false) (bsub (bofZ 1) (blit (4#10))) false);
   (47, passes F (1#1000000) (dradem 1 B754_nan false) B754_nan false);
   (49, passes F (1#1000000) (dradem 1 (Bopp (blit (1#10))) false) B754_nan false);
   (50, passes F (1#1000000) (dradem 1 (blit (11#10)) false) B754_nan false);
   (52, passes F (1#1000000) (dradem (-2) (blit (4#10)) false) (bofZ 0) false);
   (53, passes F (1#1000000) (dradem 2 (blit (4#10)) false) (bofZ 0) false)].
Definition value_dradem : list (Z * bool) := [
   (44, passes F (1#1000000) (dradem 1 (blit (4#10)) true) (blit (4#10)) true)].
(** tests/dens/dt.cpp *)
Definition limit_dt : list (Z * bool) := [
   (46, passes F (1#1000000) (dt B754_nan (bofZ 30) false) B754_nan false);
   (47, passes F (1#1000000) (dt (bofZ 0) B754_nan false) B754_nan false);
   (49, passes F (1#1000000) (dt (bofZ 0) (bofZ 0) false) B754_nan false);
   (50, passes F (1#1000000) (dt (bofZ 0) (Bopp (bofZ 1)) false) B754_nan false);
   (51, passes F (1#1000000) (dt (bofZ 0) ninf64 false) B754_nan false);
   (54, passes F (1#1000000) (dt pinf64 pinf64 false) (bofZ 0) false);
   (56, passes F (1#1000000) (dt pinf64 (bofZ 30) false) (bofZ 0) false);
   (57, passes F (1#1000000) (dt ninf64 (bofZ 30) false) (bofZ 0) false)].
Definition value_dt : list (Z * bool) := [
   (42, passes F (1#1000000) (dt (bofZ 2) (bofZ 11) false) (blit (6065432#100000000)) false);
   (43, passes F (1#1000000) (dt (Bopp (bofZ 1)) (bofZ 11) true) (blit (2313779#10000000)) true);
   (44, passes F (1#1000000) (dt (bofZ 0) (bofZ 11) false) (blit (3899898#10000000)) false);
   (53, passes F (1#1000000) (dt (bofZ 0) pinf64 false) (blit (3989423#10000000)) false)].
(** tests/dens/dunif.cpp *)
Definition limit_dunif : list (Z * bool) := [
   (43, passes F (1#1000000) (dunif (Bopp (blit (12#10))) (Bopp (bofZ 2)) (bofZ 3) false) (blit (2#10)) false);
   (44, passes F (1#1000000) (dunif (bofZ 1) (Bopp (bofZ 2)) (bofZ 3) false) (blit (2#10)) false);
   (45, passes F (1#1000000) (dunif (blit (25#10)) (Bopp (bofZ 2)) (bofZ 3) false) (blit (2#10)) false);
   (48, passes F (1#1000000) (dunif (blit (5#10)) (Bopp (bofZ 2)) (Bopp (bofZ 2)) false) B754_nan false);
   (49, passes F (1#1000000) (dunif (blit (5#10)) (bofZ 3) (Bopp (bofZ 2)) false) B754_nan false);
   (51, passes F (1#1000000) (dunif (Bopp (bofZ 2)) (Bopp (bofZ 2)) (bofZ 3) false) (bdiv (bofZ 1) (bsub (bofZ 3) (Bopp (bofZ 2)))) false);
   (52, passes F (1#1000000) (dunif (bsub (Bopp (bofZ 2)) (blit (1#10))) (Bopp (bofZ 2)) (bofZ 3) false) (bofZ 0) false);
   (54, passes F (1#1000000) (dunif (bofZ 3) (Bopp (bofZ 2)) (bofZ 3) false) (bdiv (bofZ 1) (bsub (bofZ 3) (Bopp (bofZ 2)))) false);
   (55, passes F (1#1000000) (dunif (badd (bofZ 3) (blit (1#10))) (Bopp (bofZ 2)) (bofZ 3) false) (bofZ 0) false);
   (57, passes F (1#1000000) (dunif (bofZ 0) pinf64 pinf64 false) B754_nan false);
   (58, passes F (1#1000000) (dunif (bofZ 0) ninf64 ninf64 false) B754_nan false);
   (59, passes F (1#1000000) (dunif (bofZ 0) ninf64 pinf64 false) (bofZ 0) false)].
Definition value_dunif : list (Z * bool) := [
   (46, passes F (1#1000000) (dunif (bofZ 1) (Bopp (bofZ 2)) (bofZ 3) true) (blit (2#10)) true)].
(** tests/dens/dweibull.cpp *)
Definition limit_dweibull : list (Z * bool) := [
   (48, passes F (1#1000000) (dweibull B754_nan (bofZ 2) (bofZ 3) false) B754_nan false);
   (49, passes F (1#1000000) (dweibull (bofZ 2) B754_nan (bofZ 3) false) B754_nan false);
   (50, passes F (1#1000000) (dweibull (bofZ 2) (bofZ 2) B754_nan false) B754_nan false);
   (52, passes F (1#1000000) (dweibull (bofZ 2) (bofZ 0) (bofZ 1) false) B754_nan false);
   (53, passes F (1#1000000) (dweibull (bofZ 2) (bofZ (-1)) (bofZ 2) false) B754_nan false);
   (54, passes F (1#1000000) (dweibull (bofZ 2) ninf64 (bofZ 2) false) B754_nan false);
   (56, passes F (1#1000000) (dweibull (bofZ 2) (bofZ 1) (bofZ 0) false) B754_nan false);
   (57, passes F (1#1000000) (dweibull (bofZ 2) (bofZ 4) (bofZ (-1)) false) B754_nan false);
   (58, passes F (1#1000000) (dweibull (bofZ 2) (bofZ 3) ninf64 false) B754_nan false);
   (60, passes F (1#1000000) (dweibull (bofZ (-1)) (bofZ 2) (bofZ 3) false) (bofZ 0) false);
   (62, passes F (1#1000000) (dweibull (bofZ 0) (blit (5#10)) (bofZ 3) false) pinf64 false)].
Definition value_dweibull : list (Z * bool) := [
   (43, passes F (1#1000000) (dweibull (bofZ 1) (bofZ 2) (bofZ 3) false) (blit (1988532#10000000)) false);
   (44, passes F (1#1000000) (dweibull (bofZ 2) (bofZ 2) (bofZ 3) false) (blit (2849691#10000000)) false);
   (45, passes F (1#1000000) (dweibull (bofZ 3) (bofZ 2) (bofZ 3) false) (blit (245253#1000000)) false);
   (46, passes F (1#1000000) (dweibull (bofZ 2) (bofZ 2) (bofZ 3) true) (blit (2849691#10000000)) true)].
(** tests/prob/pbern.cpp *)
Definition limit_pbern : list (Z * bool) := [
   (42, passes F (1#1000000) (pbern 1 (blit (4#10)) false) (bofZ 1) false);
   (43, passes F (1#1000000) (pbern 2 (blit (4#10)) false) (bofZ 1) false);
   (47, passes F (1#1000000) (pbern 1 B754_nan false) B754_nan false);
   (49, passes F (1#1000000) (pbern 1 (Bopp (blit (1#10))) false) B754_nan false);
   (50, passes F (1#1000000) (pbern 1 (blit (11#10)) false) B754_nan false);
   (52, passes F (1#1000000) (pbern (-1) (blit (4#10)) false) (bofZ 0) false);
   (53, passes F (1#1000000) (pbern 5 (blit (4#10)) false) (bofZ 1) false)].
Definition value_pbern : list (Z * bool) := [
   (44, passes F (1#1000000) (pbern 0 (blit (4#10)) true) (bsub (bofZ 1) (blit (4#10))) true)].
(** tests/prob/pbeta.cpp *)
Definition limit_pbeta : list (Z * bool) := [
   (51, passes F (1#1000000) (pbeta B754_nan (bofZ 2) (bofZ 3) false) B754_nan false);
   (52, passes F (1#1000000) (pbeta (blit (5#10)) B754_nan (bofZ 3) false) B754_nan false);
   (53, passes F (1#1000000) (pbeta (blit (5#10)) (bofZ 1) B754_nan false) B754_nan false);
   (54, passes F (1#1000000) (pbeta (blit (5#10)) B754_nan B754_nan false) B754_nan false);
   (55, passes F (1#1000000) (pbeta B754_nan B754_nan B754_nan false) B754_nan false);
   (57, passes F (1#1000000) (pbeta (blit (5#10)) (Bopp (bofZ 1)) (bofZ 1) false) B754_nan false);
   (58, passes F (1#1000000) (pbeta (blit (5#10)) (bofZ 1) (Bopp (bofZ 1)) false) B754_nan false);
   (60, passes F (1#1000000) (pbeta (Bopp (blit (1#10))) (bofZ 3) (bofZ 2) false) (bofZ 0) false);
   (61, passes F (1#1000000) (pbeta (blit (11#10)) (bofZ 3) (bofZ 2) false) (bofZ 1) false);
   (63, passes F (1#1000000) (pbeta (bofZ 0) (bofZ 0) (bofZ 0) false) (bofZ 0) false);
   (64, passes F (1#1000000) (pbeta (bofZ 1) (bofZ 0) (bofZ 0) false) (bofZ 1) false);
   (65, passes F (1#1000000) (pbeta (blit (5#10)) (bofZ 0) (bofZ 0) false) (blit (5#10)) false);
   (67, passes F (1#1000000) (pbeta (blit (5#10)) (bofZ 0) (bofZ 1) false) (bofZ 1) false);
   (68, passes F (1#1000000) (pbeta (blit (5#10)) (bofZ 1) pinf64 false) (bofZ 1) false);
   (70, passes F (1#1000000) (pbeta (blit (5#10)) (bofZ 1) (bofZ 0) false) (bofZ 0) false);
   (71, passes F (1#1000000) (pbeta (blit (5#10)) pinf64 (bofZ 1) false) (bofZ 0) false);
   (73, passes F (1#1000000) (pbeta (blit (4#10)) pinf64 pinf64 false) (bofZ 0) false);
   (74, passes F (1#1000000) (pbeta (blit (6#10)) pinf64 pinf64 false) (bofZ 1) false)].
Definition value_pbeta : list (Z * bool) := [
   (43, passes F (1#1000000) (pbeta (blit (15#100)) (bofZ 3) (bofZ 2) false) (blit (1198125#100000000)) false);
   (44, passes F (1#1000000) (pbeta (blit (5#10)) (bofZ 3) (bofZ 2) false) (blit (3125#10000)) false);
   (45, passes F (1#1000000) (pbeta (blit (95#100)) (bofZ 3) (bofZ 2) false) (blit (9859813#10000000)) false);
   (46, passes F (1#1000000) (pbeta (blit (5#10)) (bofZ 3) (bofZ 2) true) (blit (3125#10000)) true);
   (48, passes F (1#1000000) (pbeta (blit (1#100)) (bofZ 3) (bofZ 2) false) (blit (397#100000000)) false);
   (49, passes F (1#1000000) (pbeta (blit (99#100)) (bofZ 3) (bofZ 2) false) (blit (999408#1000000)) false)].
(** tests/prob/pbinom.cpp *)
Definition limit_pbinom : list (Z * bool) := [
   (48, passes F (1#1000000) (pbinom 1 2 B754_nan false) B754_nan false);
   (50, passes F (1#1000000) (pbinom (-1) 4 (blit (6#10)) false) (bofZ 0) false);
   (51, passes F (1#1000000) (pbinom 4 4 (blit (6#10)) false) (bofZ 1) false);
   (52, passes F (1#1000000) (pbinom (4 + 1)%Z 4 (blit (6#10)) false) (bofZ 1) false);
   (54, passes F (1#1000000) (pbinom 0 (-1) (blit (5#10)) false) B754_nan false);
   (55, passes F (1#1000000) (pbinom 0 1 (Bopp (blit (1#10))) false) B754_nan false);
   (56, passes F (1#1000000) (pbinom 0 1 (blit (11#10)) false) B754_nan false);
   (58, passes F (1#1000000) (pbinom 0 0 (blit (5#10)) false) (bofZ 1) false);
   (59, passes F (1#1000000) (pbinom 1 0 (blit (5#10)) false) (bofZ 1) false);
   (61, passes F (1#1000000) (pbinom 0 1 (blit (6#10)) false) (bsub (bofZ 1) (blit (6#10))) false);
   (62, passes F (1#1000000) (pbinom 1 1 (blit (6#10)) false) (bofZ 1) false)].
Definition value_pbinom : list (Z * bool) := [
   (43, passes F (1#1000000) (pbinom 1 4 (blit (6#10)) false) (blit (1792#10000)) false);
   (44, passes F (1#1000000) (pbinom 2 4 (blit (6#10)) false) (blit (5248#10000)) false);
   (45, passes F (1#1000000) (pbinom 3 4 (blit (6#10)) false) (blit (8704#10000)) false);
   (46, passes F (1#1000000) (pbinom 2 4 (blit (6#10)) true) (blit (5248#10000)) true)].
(** tests/prob/pcauchy.cpp *)
Definition limit_pcauchy : list (Z * bool) := [
   (49, passes F (1#1000000) (pcauchy B754_nan (bofZ 0) (bofZ 1) false) B754_nan false);
   (50, passes F (1#1000000) (pcauchy (bofZ 0) B754_nan (bofZ 1) false) B754_nan false);
   (51, passes F (1#1000000) (pcauchy (bofZ 0) (bofZ 0) B754_nan false) B754_nan false);
   (52, passes F (1#1000000) (pcauchy B754_nan B754_nan B754_nan false) B754_nan false);
   (54, passes F (1#1000000) (pcauchy (bofZ 0) (bofZ 0) (bofZ 0) false) B754_nan false);
   (55, passes F (1#1000000) (pcauchy (bofZ 0) (bofZ 0) (Bopp (bofZ 1)) false) B754_nan false);
   (56, passes F (1#1000000) (pcauchy (bofZ 0) (bofZ 0) ninf64 false) B754_nan false);
   (58, passes F (1#1000000) (pcauchy (bofZ 0) (bofZ 1) pinf64 false) (blit (5#10)) false);
   (59, passes F (1#1000000) (pcauchy pinf64 (bofZ 1) pinf64 false) B754_nan false);
   (60, passes F (1#1000000) (pcauchy (bofZ 0) pinf64 pinf64 false) B754_nan false);
   (61, passes F (1#1000000) (pcauchy pinf64 pinf64 pinf64 false) B754_nan false);
   (62, passes F (1#1000000) (pcauchy ninf64 (bofZ 1) pinf64 false) B754_nan false);
   (63, passes F (1#1000000) (pcauchy (bofZ 0) ninf64 pinf64 false) B754_nan false);
   (64, passes F (1#1000000) (pcauchy ninf64 ninf64 pinf64 false) B754_nan false);
   (66, passes F (1#1000000) (pcauchy pinf64 pinf64 (bofZ 1) false) B754_nan false);
   (67, passes F (1#1000000) (pcauchy ninf64 ninf64 (bofZ 1) false) B754_nan false);
   (69, passes F (1#1000000) (pcauchy pinf64 ninf64 (bofZ 1) false) (bofZ 1) false);
   (70, passes F (1#1000000) (pcauchy ninf64 pinf64 (bofZ 1) false) (bofZ 0) false);
   (72, passes F (1#1000000) (pcauchy pinf64 (bofZ 0) (bofZ 1) false) (bofZ 1) false);
   (73, passes F (1#1000000) (pcauchy ninf64 (bofZ 0) (bofZ 1) false) (bofZ 0) false);
   (75, passes F (1#1000000) (pcauchy (bofZ 0) pinf64 (bofZ 1) false) (bofZ 0) false);
   (76, passes F (1#1000000) (pcauchy (bofZ 0) ninf64 (bofZ 1) false) (bofZ 1) false)].
Definition value_pcauchy : list (Z * bool) := [
   (43, passes F (1#1000000) (pcauchy (bofZ 0) (bofZ 1) (bofZ 2) false) (blit (3524164#10000000)) false);
   (44, passes F (1#1000000) (pcauchy (bofZ 1) (bofZ 1) (bofZ 2) true) (blit (5#10)) true);
   (45, passes F (1#1000000) (pcauchy (bofZ 2) (bofZ 1) (bofZ 2) false) (blit (6475836#10000000)) false);
   (47, passes F (1#1000000) (pcauchy (bofZ 1001) (bofZ 0) (bofZ 1) false) (blit (999682#1000000)) false)].
(** tests/prob/pchisq.cpp *)
Definition limit_pchisq : list (Z * bool) := [
   (46, passes F (1#1000000) (pchisq B754_nan (bofZ 3) false) B754_nan false);
   (47, passes F (1#1000000) (pchisq (bofZ 1) B754_nan false) B754_nan false);
   (48, passes F (1#1000000) (pchisq B754_nan B754_nan false) B754_nan false);
   (50, passes F (1#1000000) (pchisq (bofZ 0) (bofZ 0) false) (bofZ 0) false);
   (51, passes F (1#1000000) (pchisq (bofZ 1) (bofZ 0) false) (bofZ 1) false);
   (52, passes F (1#1000000) (pchisq (bofZ 1) (Bopp (bofZ 1)) false) B754_nan false);
   (53, passes F (1#1000000) (pchisq (bofZ 1) ninf64 false) B754_nan false);
   (55, passes F (1#1000000) (pchisq (bofZ 1) pinf64 false) (bofZ 0) false);
   (56, passes F (1#1000000) (pchisq pinf64 pinf64 false) (bofZ 1) false);
   (58, passes F (1#1000000) (pchisq (bofZ 0) (bofZ 3) false) (bofZ 0) false);
   (59, passes F (1#1000000) (pchisq (bofZ 0) (bofZ 0) false) (bofZ 0) false);
   (60, passes F (1#1000000) (pchisq (bofZ (-1)) (bofZ 3) false) (bofZ 0) false);
   (61, passes F (1#1000000) (pchisq ninf64 (bofZ 3) false) (bofZ 0) false);
   (63, passes F (1#1000000) (pchisq pinf64 (bofZ 2) false) (bofZ 1) false);
   (64, passes F (1#1000000) (pchisq pinf64 pinf64 false) (bofZ 1) false)].
Definition value_pchisq : list (Z * bool) := [
   (42, passes F (1#1000000) (pchisq (bofZ 1) (bofZ 3) false) (blit (198748#1000000)) false);
   (43, passes F (1#1000000) (pchisq (bofZ 2) (bofZ 3) true) (blit (4275933#10000000)) true);
   (44, passes F (1#1000000) (pchisq (bofZ 3) (bofZ 3) false) (blit (6083748#10000000)) false)].
(** tests/prob/pexp.cpp *)
Definition limit_pexp : list (Z * bool) := [
   (46, passes F (1#1000000) (pexp B754_nan (bofZ 3) false) B754_nan false);
   (47, passes F (1#1000000) (pexp (bofZ 1) B754_nan false) B754_nan false);
   (48, passes F (1#1000000) (pexp B754_nan B754_nan false) B754_nan false);
   (50, passes F (1#1000000) (pexp (bofZ 0) (bofZ 0) false) (bofZ 0) false);
   (51, passes F (1#1000000) (pexp (bofZ 1) (bofZ 0) false) (bofZ 0) false);
   (52, passes F (1#1000000) (pexp (bofZ 1) (Bopp (bofZ 1)) false) B754_nan false);
   (53, passes F (1#1000000) (pexp (bofZ 1) ninf64 false) B754_nan false);
   (55, passes F (1#1000000) (pexp (bofZ 0) pinf64 false) (bofZ 0) false);
   (56, passes F (1#1000000) (pexp (bofZ 1) pinf64 false) (bofZ 1) false);
   (58, passes F (1#1000000) (pexp (bofZ 0) (bofZ 0) false) (bofZ 0) false);
   (59, passes F (1#1000000) (pexp (bofZ 0) (bofZ 1) false) (bofZ 0) false);
   (61, passes F (1#1000000) (pexp pinf64 (bofZ 0) false) B754_nan false);
   (62, passes F (1#1000000) (pexp pinf64 (bofZ 1) false) (bofZ 1) false);
   (63, passes F (1#1000000) (pexp pinf64 pinf64 false) (bofZ 1) false);
   (65, passes F (1#1000000) (pexp ninf64 (bofZ 2) false) (bofZ 0) false)].
Definition value_pexp : list (Z * bool) := [
   (42, passes F (1#1000000) (pexp (bofZ 1) (bofZ 2) false) (blit (8646647#10000000)) false);
   (43, passes F (1#1000000) (pexp (bofZ 2) (bofZ 2) true) (blit (9816844#10000000)) true);
   (44, passes F (1#1000000) (pexp (bofZ 3) (bofZ 2) false) (blit (9975212#10000000)) false)].
(** tests/prob/pf.cpp *)
Definition limit_pf : list (Z * bool) := [
   (48, passes F (1#1000000) (pf B754_nan (bofZ 10) (bofZ 12) false) B754_nan false);
   (49, passes F (1#1000000) (pf (bofZ 2) B754_nan (bofZ 12) false) B754_nan false);
   (50, passes F (1#1000000) (pf (bofZ 2) (bofZ 10) B754_nan false) B754_nan false);
   (52, passes F (1#1000000) (pf (bofZ 2) (bofZ 0) (bofZ 3) false) B754_nan false);
   (53, passes F (1#1000000) (pf (bofZ 2) (bofZ 4) (bofZ 0) false) B754_nan false);
   (54, passes F (1#1000000) (pf (bofZ 2) (bofZ 3) (bofZ (-1)) false) B754_nan false);
   (55, passes F (1#1000000) (pf (bofZ 2) (bofZ (-1)) (bofZ 4) false) B754_nan false);
   (56, passes F (1#1000000) (pf (bofZ 2) (bofZ (-1)) (bofZ (-1)) false) B754_nan false);
   (58, passes F (1#1000000) (pf (bofZ 0) (bofZ 1) (bofZ 3) false) (bofZ 0) false);
   (59, passes F (1#1000000) (pf (bofZ (-1)) (bofZ 2) (bofZ 2) false) (bofZ 0) false);
   (60, passes F (1#1000000) (pf ninf64 (bofZ 10) (bofZ 12) false) (bofZ 0) false);
   (62, passes F (1#1000000) (pf (bofZ 2) pinf64 pinf64 false) (bofZ 1) false);
   (63, passes F (1#1000000) (pf (bofZ 1) pinf64 pinf64 false) (blit (5#10)) false);
   (64, passes F (1#1000000) (pf (blit (5#10)) pinf64 pinf64 false) (bofZ 0) false)].
Definition value_pf : list (Z * bool) := [
   (43, passes F (1#1000000) (pf (bofZ 1) (bofZ 10) (bofZ 12) false) (blit (5074083#10000000)) false);
   (44, passes F (1#1000000) (pf (bofZ 2) (bofZ 10) (bofZ 12) false) (blit (8724921#10000000)) false);
   (45, passes F (1#1000000) (pf (bofZ 3) (bofZ 10) (bofZ 12) false) (blit (962352#1000000)) false);
   (46, passes F (1#1000000) (pf (bofZ 2) (bofZ 10) (bofZ 12) true) (blit (8724921#10000000)) true);
   (66, passes F (1#1000000) (pf (bofZ 2) pinf64 (bofZ 3) false) (blit (6822703#10000000)) false);
   (68, passes F (1#1000000) (pf (bofZ 2) (bofZ 2) pinf64 false) (blit (8646647#10000000)) false)].
(** tests/prob/pinvgamma.cpp *)
Definition limit_pinvgamma : list (Z * bool) := [
   (53, passes F (1#1000000) (pinvgamma B754_nan (bofZ 3) (bofZ 2) false) B754_nan false);
   (54, passes F (1#1000000) (pinvgamma (bofZ 2) B754_nan (bofZ 2) false) B754_nan false);
   (55, passes F (1#1000000) (pinvgamma (bofZ 2) (bofZ 3) B754_nan false) B754_nan false);
   (56, passes F (1#1000000) (pinvgamma (bofZ 2) B754_nan B754_nan false) B754_nan false);
   (57, passes F (1#1000000) (pinvgamma B754_nan B754_nan B754_nan false) B754_nan false);
   (59, passes F (1#1000000) (pinvgamma (bofZ 2) (bofZ (-1)) (bofZ 2) false) B754_nan false);
   (60, passes F (1#1000000) (pinvgamma (bofZ 2) ninf64 (bofZ 2) false) B754_nan false);
   (62, passes F (1#1000000) (pinvgamma (bofZ 2) (bofZ 1) (bofZ 0) false) (bofZ 1) false);
   (63, passes F (1#1000000) (pinvgamma (bofZ 2) (bofZ 4) (bofZ (-1)) false) B754_nan false);
   (64, passes F (1#1000000) (pinvgamma (bofZ 2) (bofZ 3) ninf64 false) B754_nan false);
   (66, passes F (1#1000000) (pinvgamma (bofZ (-1)) (bofZ 3) (bofZ 2) false) (bofZ 0) false);
   (67, passes F (1#1000000) (pinvgamma ninf64 (bofZ 3) (bofZ 2) false) (bofZ 0) false);
   (69, passes F (1#1000000) (pinvgamma (bofZ 0) (bofZ 0) (bofZ 2) false) (bofZ 0) false);
   (70, passes F (1#1000000) (pinvgamma (bofZ 1) (bofZ 0) (bofZ 2) false) (bofZ 0) false);
   (71, passes F (1#1000000) (pinvgamma (bofZ 1) (bofZ 0) (bofZ 0) false) (bofZ 1) false);
   (73, passes F (1#1000000) (pinvgamma (bofZ 0) (blit (5#10)) (bofZ 3) false) (bofZ 0) false);
   (75, passes F (1#1000000) (pinvgamma pinf64 pinf64 pinf64 false) B754_nan false);
   (76, passes F (1#1000000) (pinvgamma pinf64 (bofZ 2) (bofZ 2) false) (bofZ 1) false);
   (77, passes F (1#1000000) (pinvgamma (bofZ 2) pinf64 (bofZ 2) false) (bofZ 1) false);
   (78, passes F (1#1000000) (pinvgamma (bofZ 2) (bofZ 2) pinf64 false) B754_nan false)].
Definition value_pinvgamma : list (Z * bool) := [
   (43, passes F (1#1000000) (pinvgamma (blit (7#10)) (bofZ 3) (bofZ 2) false) (blit (4559447#10000000)) false);
   (44, passes F (1#1000000) (pinvgamma (blit (101#100)) (bofZ 3) (bofZ 2) false) (blit (6820361#10000000)) false);
   (45, passes F (1#1000000) (pinvgamma (blit (25#10)) (bofZ 3) (bofZ 2) false) (blit (9525774#10000000)) false);
   (46, passes F (1#1000000) (pinvgamma (blit (101#100)) (bofZ 3) (bofZ 2) true) (blit (6820361#10000000)) true);
   (48, passes F (1#1000000) (pinvgamma (blit (3#10)) (bofZ 3) (bofZ 2) false) (blit (3803761#100000000)) false);
   (49, passes F (1#1000000) (pinvgamma (blit (35#10)) (bofZ 3) (bofZ 2) false) (blit (9796131#10000000)) false);
   (50, passes F (1#1000000) (pinvgamma (blit (75#10)) (bofZ 3) (bofZ 2) false) (blit (9974089#10000000)) false);
   (51, passes F (1#1000000) (pinvgamma (bofZ 10) (bofZ 3) (bofZ 2) false) (blit (9988515#10000000)) false)].
(** tests/prob/pinvgauss.cpp *)
Definition limit_pinvgauss : list (Z * bool) := [
   (48, passes F (1#1000000) (pinvgauss B754_nan (bofZ 2) (bofZ 3) false) B754_nan false);
   (49, passes F (1#1000000) (pinvgauss (bofZ 2) B754_nan (bofZ 3) false) B754_nan false);
   (50, passes F (1#1000000) (pinvgauss (bofZ 2) (bofZ 2) B754_nan false) B754_nan false);
   (51, passes F (1#1000000) (pinvgauss (bofZ 2) B754_nan B754_nan false) B754_nan false);
   (52, passes F (1#1000000) (pinvgauss B754_nan B754_nan B754_nan false) B754_nan false);
   (54, passes F (1#1000000) (pinvgauss (bofZ 2) (bofZ (-1)) (bofZ 2) false) B754_nan false);
   (55, passes F (1#1000000) (pinvgauss (bofZ 2) ninf64 (bofZ 2) false) B754_nan false);
   (56, passes F (1#1000000) (pinvgauss (bofZ 2) (bofZ (-1)) (bofZ 0) false) B754_nan false);
   (57, passes F (1#1000000) (pinvgauss (bofZ 0) (bofZ (-1)) (bofZ 0) false) B754_nan false);
   (58, passes F (1#1000000) (pinvgauss (bofZ (-2)) (bofZ (-1)) (bofZ 0) false) B754_nan false);
   (60, passes F (1#1000000) (pinvgauss (bofZ 2) (bofZ 1) (bofZ 0) false) (bofZ 1) false);
   (61, passes F (1#1000000) (pinvgauss (bofZ 1) (bofZ 1) (bofZ 0) false) (bofZ 1) false);
   (62, passes F (1#1000000) (pinvgauss (bofZ 0) (bofZ 1) (bofZ 0) false) (bofZ 1) false);
   (63, passes F (1#1000000) (pinvgauss (bofZ 2) (bofZ 4) (bofZ (-1)) false) B754_nan false);
   (64, passes F (1#1000000) (pinvgauss (bofZ 2) (bofZ 3) ninf64 false) B754_nan false);
   (66, passes F (1#1000000) (pinvgauss (bofZ (-1)) (bofZ 2) (bofZ 3) false) (bofZ 0) false);
   (67, passes F (1#1000000) (pinvgauss (bofZ (-1)) (bofZ 0) (bofZ 3) false) (bofZ 0) false);
   (68, passes F (1#1000000) (pinvgauss (bofZ (-1)) (bofZ 2) (bofZ 0) false) (bofZ 0) false);
   (69, passes F (1#1000000) (pinvgauss (bofZ (-1)) (bofZ 0) (bofZ 0) false) (bofZ 0) false);
   (70, passes F (1#1000000) (pinvgauss ninf64 (bofZ 2) (bofZ 3) false) (bofZ 0) false);
   (72, passes F (1#1000000) (pinvgauss (bofZ 0) (bofZ 0) (bofZ 2) false) (bofZ 1) false);
   (73, passes F (1#1000000) (pinvgauss (bofZ 0) (bofZ 0) (bofZ 0) false) (bofZ 1) false);
   (74, passes F (1#1000000) (pinvgauss (bofZ 1) (bofZ 0) (bofZ 2) false) (bofZ 1) false);
   (75, passes F (1#1000000) (pinvgauss (bofZ 1) (bofZ 0) pinf64 false) (bofZ 1) false);
   (76, passes F (1#1000000) (pinvgauss (blit (5#10)) (bofZ 1) pinf64 false) (bofZ 0) false);
   (78, passes F (1#1000000) (pinvgauss (bofZ 0) (blit (5#10)) (bofZ 3) false) (bofZ 0) false);
   (80, passes F (1#1000000) (pinvgauss pinf64 pinf64 pinf64 false) (bofZ 1) false);
   (81, passes F (1#1000000) (pinvgauss pinf64 (bofZ 2) (bofZ 2) false) (bofZ 1) false);
   (82, passes F (1#1000000) (pinvgauss (bofZ 2) pinf64 (bofZ 2) false) (bofZ 0) false);
   (83, passes F (1#1000000) (pinvgauss (bofZ 2) (bofZ 2) pinf64 false) (bofZ 1) false)].
Definition value_pinvgauss : list (Z * bool) := [
   (43, passes F (1#1000000) (pinvgauss (bofZ 1) (bofZ 2) (bofZ 3) false) (blit (2873867#10000000)) false);
   (44, passes F (1#1000000) (pinvgauss (bofZ 2) (bofZ 2) (bofZ 3) false) (blit (6436706#10000000)) false);
   (45, passes F (1#1000000) (pinvgauss (bofZ 3) (bofZ 2) (bofZ 3) false) (blit (8161869#10000000)) false);
   (46, passes F (1#1000000) (pinvgauss (bofZ 2) (bofZ 2) (bofZ 3) true) (blit (6436706#10000000)) true)].
(** tests/prob/plaplace.cpp *)
Definition limit_plaplace : list (Z * bool) := [
   (47, passes F (1#1000000) (plaplace B754_nan (bofZ 0) (bofZ 1) false) B754_nan false);
   (48, passes F (1#1000000) (plaplace (bofZ 0) B754_nan (bofZ 1) false) B754_nan false);
   (49, passes F (1#1000000) (plaplace (bofZ 0) (bofZ 0) B754_nan false) B754_nan false);
   (51, passes F (1#1000000) (plaplace (bofZ 0) (bofZ 0) (Bopp (bofZ 1)) false) B754_nan false);
   (52, passes F (1#1000000) (plaplace (bofZ 0) (bofZ 0) ninf64 false) B754_nan false);
   (54, passes F (1#1000000) (plaplace (bofZ 0) (bofZ 1) pinf64 false) (blit (5#10)) false);
   (55, passes F (1#1000000) (plaplace pinf64 (bofZ 1) pinf64 false) B754_nan false);
   (56, passes F (1#1000000) (plaplace (bofZ 0) pinf64 pinf64 false) B754_nan false);
   (57, passes F (1#1000000) (plaplace pinf64 pinf64 pinf64 false) B754_nan false);
   (58, passes F (1#1000000) (plaplace ninf64 (bofZ 1) pinf64 false) B754_nan false);
   (59, passes F (1#1000000) (plaplace (bofZ 0) ninf64 pinf64 false) B754_nan false);
   (60, passes F (1#1000000) (plaplace ninf64 ninf64 pinf64 false) B754_nan false);
   (62, passes F (1#1000000) (plaplace pinf64 pinf64 (bofZ 0) false) B754_nan false);
   (63, passes F (1#1000000) (plaplace pinf64 pinf64 (bofZ 1) false) B754_nan false);
   (64, passes F (1#1000000) (plaplace ninf64 ninf64 (bofZ 0) false) B754_nan false);
   (65, passes F (1#1000000) (plaplace ninf64 ninf64 (bofZ 1) false) B754_nan false);
   (67, passes F (1#1000000) (plaplace pinf64 ninf64 (bofZ 0) false) (bofZ 1) false);
   (68, passes F (1#1000000) (plaplace pinf64 ninf64 (bofZ 1) false) (bofZ 1) false);
   (69, passes F (1#1000000) (plaplace ninf64 pinf64 (bofZ 0) false) (bofZ 0) false);
   (70, passes F (1#1000000) (plaplace ninf64 pinf64 (bofZ 1) false) (bofZ 0) false);
   (72, passes F (1#1000000) (plaplace (bofZ 1) (bofZ 0) (bofZ 0) false) (bofZ 1) false);
   (73, passes F (1#1000000) (plaplace (bofZ 0) (bofZ 1) (bofZ 0) false) (bofZ 0) false);
   (74, passes F (1#1000000) (plaplace (bofZ 1) (bofZ 1) (bofZ 0) false) (blit (5#10)) false);
   (75, passes F (1#1000000) (plaplace pinf64 (bofZ 1) (bofZ 0) false) (bofZ 1) false);
   (76, passes F (1#1000000) (plaplace ninf64 (bofZ 1) (bofZ 0) false) (bofZ 0) false);
   (77, passes F (1#1000000) (plaplace (bofZ 1) pinf64 (bofZ 0) false) (bofZ 0) false);
   (78, passes F (1#1000000) (plaplace (bofZ 1) ninf64 (bofZ 0) false) (bofZ 1) false);
   (80, passes F (1#1000000) (plaplace pinf64 (bofZ 0) (bofZ 1) false) (bofZ 1) false);
   (81, passes F (1#1000000) (plaplace ninf64 (bofZ 0) (bofZ 1) false) (bofZ 0) false);
   (83, passes F (1#1000000) (plaplace (bofZ 0) pinf64 (bofZ 1) false) (bofZ 0) false);
   (84, passes F (1#1000000) (plaplace (bofZ 0) ninf64 (bofZ 1) false) (bofZ 1) false)].
Definition value_plaplace : list (Z * bool) := [
   (43, passes F (1#1000000) (plaplace (Bopp (blit (37#100))) (bofZ 1) (bofZ 2) false) (blit (2520451#10000000)) false);
   (44, passes F (1#1000000) (plaplace (bofZ 0) (bofZ 1) (bofZ 2) true) (blit (3032653#10000000)) true);
   (45, passes F (1#1000000) (plaplace (blit (25#10)) (bofZ 1) (bofZ 2) false) (blit (7638167#10000000)) false)].
(** tests/prob/plnorm.cpp *)
Definition limit_plnorm : list (Z * bool) := [
   (47, passes F (1#1000000) (plnorm B754_nan (bofZ 0) (bofZ 1) false) B754_nan false);
   (48, passes F (1#1000000) (plnorm (bofZ 0) B754_nan (bofZ 1) false) B754_nan false);
   (49, passes F (1#1000000) (plnorm (bofZ 0) (bofZ 0) B754_nan false) B754_nan false);
   (51, passes F (1#1000000) (plnorm (bofZ 0) (bofZ 0) (Bopp (bofZ 1)) false) B754_nan false);
   (52, passes F (1#1000000) (plnorm (bofZ 0) (bofZ 0) ninf64 false) B754_nan false);
   (54, passes F (1#1000000) (plnorm (bofZ 1) (bofZ 3) pinf64 false) (blit (5#10)) false);
   (55, passes F (1#1000000) (plnorm (bofZ 1) (bofZ 0) pinf64 false) (blit (5#10)) false);
   (57, passes F (1#1000000) (plnorm pinf64 (bofZ 1) pinf64 false) (bofZ 1) false);
   (58, passes F (1#1000000) (plnorm (bofZ 1) pinf64 pinf64 false) (bofZ 0) false);
   (59, passes F (1#1000000) (plnorm pinf64 pinf64 pinf64 false) B754_nan false);
   (60, passes F (1#1000000) (plnorm (bofZ 1) (bofZ 1) pinf64 false) (blit (5#10)) false);
   (61, passes F (1#1000000) (plnorm (bofZ 1) ninf64 pinf64 false) (bofZ 1) false);
   (62, passes F (1#1000000) (plnorm (bofZ 0) ninf64 pinf64 false) (bofZ 0) false);
   (64, passes F (1#1000000) (plnorm pinf64 pinf64 (bofZ 0) false) B754_nan false);
   (65, passes F (1#1000000) (plnorm pinf64 pinf64 (bofZ 1) false) B754_nan false);
   (66, passes F (1#1000000) (plnorm (bofZ 0) ninf64 (bofZ 0) false) (bofZ 0) false);
   (67, passes F (1#1000000) (plnorm (bofZ 0) ninf64 (bofZ 1) false) (bofZ 0) false);
   (69, passes F (1#1000000) (plnorm pinf64 ninf64 (bofZ 0) false) (bofZ 1) false);
   (70, passes F (1#1000000) (plnorm pinf64 ninf64 (bofZ 1) false) (bofZ 1) false);
   (71, passes F (1#1000000) (plnorm (bofZ 0) pinf64 (bofZ 0) false) (bofZ 0) false);
   (72, passes F (1#1000000) (plnorm (bofZ 0) pinf64 (bofZ 1) false) (bofZ 0) false);
   (75, passes F (1#1000000) (plnorm (bofZ 1) (bofZ 1) (bofZ 0) false) (bofZ 0) false);
   (76, passes F (1#1000000) (plnorm (bofZ 1) (bofZ 0) (bofZ 0) false) (bofZ 1) false);
   (77, passes F (1#1000000) (plnorm pinf64 (bofZ 1) (bofZ 0) false) (bofZ 1) false);
   (78, passes F (1#1000000) (plnorm (bofZ 0) (bofZ 1) (bofZ 0) false) (bofZ 0) false);
   (79, passes F (1#1000000) (plnorm (bofZ 1) pinf64 (bofZ 0) false) (bofZ 0) false);
   (80, passes F (1#1000000) (plnorm (bofZ 1) ninf64 (bofZ 0) false) (bofZ 1) false);
   (82, passes F (1#1000000) (plnorm pinf64 (bofZ 0) (bofZ 1) false) (bofZ 1) false);
   (83, passes F (1#1000000) (plnorm ninf64 (bofZ 0) (bofZ 1) false) (bofZ 0) false);
   (85, passes F (1#1000000) (plnorm (bofZ 1) pinf64 (bofZ 1) false) (bofZ 0) false);
   (86, passes F (1#1000000) (plnorm (bofZ 1) ninf64 (bofZ 1) false) (bofZ 1) false)].
Definition value_plnorm : list (Z * bool) := [
   (43, passes F (1#1000000) (plnorm (bofZ 2) (bofZ 1) (bofZ 2) false) (blit (439031#1000000)) false);
   (44, passes F (1#1000000) (plnorm (bofZ 5) (bofZ 1) (bofZ 2) true) (blit (6197099#10000000)) true);
   (45, passes F (1#1000000) (plnorm (bofZ 9) (bofZ 1) (bofZ 2) false) (blit (7252843#10000000)) false);
   (56, passes F (1#1000000) (plnorm (bofZ 3) (bofZ 1) pinf64 false) (blit (5#10)) false);
   (74, passes F (1#1000000) (plnorm (bofZ 3) (bofZ 0) (bofZ 0) false) (bofZ 1) false)].
(** tests/prob/plogis.cpp *)
Definition limit_plogis : list (Z * bool) := [
   (47, passes F (1#1000000) (plogis B754_nan (bofZ 0) (bofZ 1) false) B754_nan false);
   (48, passes F (1#1000000) (plogis (bofZ 0) B754_nan (bofZ 1) false) B754_nan false);
   (49, passes F (1#1000000) (plogis (bofZ 0) (bofZ 0) B754_nan false) B754_nan false);
   (51, passes F (1#1000000) (plogis (bofZ 0) (bofZ 0) (Bopp (bofZ 1)) false) B754_nan false);
   (52, passes F (1#1000000) (plogis (bofZ 0) (bofZ 0) ninf64 false) B754_nan false);
   (54, passes F (1#1000000) (plogis (bofZ 0) (bofZ 1) pinf64 false) (blit (5#10)) false);
   (55, passes F (1#1000000) (plogis pinf64 (bofZ 1) pinf64 false) B754_nan false);
   (56, passes F (1#1000000) (plogis (bofZ 0) pinf64 pinf64 false) B754_nan false);
   (57, passes F (1#1000000) (plogis pinf64 pinf64 pinf64 false) B754_nan false);
   (58, passes F (1#1000000) (plogis ninf64 (bofZ 1) pinf64 false) B754_nan false);
   (59, passes F (1#1000000) (plogis (bofZ 0) ninf64 pinf64 false) B754_nan false);
   (60, passes F (1#1000000) (plogis ninf64 ninf64 pinf64 false) B754_nan false);
   (62, passes F (1#1000000) (plogis pinf64 pinf64 (bofZ 0) false) B754_nan false);
   (63, passes F (1#1000000) (plogis pinf64 pinf64 (bofZ 1) false) B754_nan false);
   (64, passes F (1#1000000) (plogis ninf64 ninf64 (bofZ 0) false) B754_nan false);
   (65, passes F (1#1000000) (plogis ninf64 ninf64 (bofZ 1) false) B754_nan false);
   (67, passes F (1#1000000) (plogis pinf64 ninf64 (bofZ 0) false) (bofZ 1) false);
   (68, passes F (1#1000000) (plogis pinf64 ninf64 (bofZ 1) false) (bofZ 1) false);
   (69, passes F (1#1000000) (plogis ninf64 pinf64 (bofZ 0) false) (bofZ 0) false);
   (70, passes F (1#1000000) (plogis ninf64 pinf64 (bofZ 1) false) (bofZ 0) false);
   (72, passes F (1#1000000) (plogis (bofZ 1) (bofZ 0) (bofZ 0) false) (bofZ 1) false);
   (73, passes F (1#1000000) (plogis (bofZ 0) (bofZ 1) (bofZ 0) false) (bofZ 0) false);
   (74, passes F (1#1000000) (plogis (bofZ 1) (bofZ 1) (bofZ 0) false) (blit (5#10)) false);
   (75, passes F (1#1000000) (plogis pinf64 (bofZ 1) (bofZ 0) false) (bofZ 1) false);
   (76, passes F (1#1000000) (plogis ninf64 (bofZ 1) (bofZ 0) false) (bofZ 0) false);
   (77, passes F (1#1000000) (plogis (bofZ 1) pinf64 (bofZ 0) false) (bofZ 0) false);
   (78, passes F (1#1000000) (plogis (bofZ 1) ninf64 (bofZ 0) false) (bofZ 1) false);
   (80, passes F (1#1000000) (plogis pinf64 (bofZ 0) (bofZ 1) false) (bofZ 1) false);
   (81, passes F (1#1000000) (plogis ninf64 (bofZ 0) (bofZ 1) false) (bofZ 0) false);
   (83, passes F (1#1000000) (plogis (bofZ 0) pinf64 (bofZ 1) false) (bofZ 0) false);
   (84, passes F (1#1000000) (plogis (bofZ 0) ninf64 (bofZ 1) false) (bofZ 1) false)].
Definition value_plogis : list (Z * bool) := [
   (43, passes F (1#1000000) (plogis (Bopp (blit (37#100))) (bofZ 1) (bofZ 2) false) (blit (3351463#10000000)) false);
   (44, passes F (1#1000000) (plogis (bofZ 0) (bofZ 1) (bofZ 2) true) (blit (3775407#10000000)) true);
   (45, passes F (1#1000000) (plogis (blit (25#10)) (bofZ 1) (bofZ 2) false) (blit (6791787#10000000)) false)].
(** tests/prob/pnorm.cpp *)
Definition limit_pnorm : list (Z * bool) := [
   (47, passes F (1#1000000) (pnorm B754_nan (bofZ 0) (bofZ 1) false) B754_nan false);
   (48, passes F (1#1000000) (pnorm (bofZ 0) B754_nan (bofZ 1) false) B754_nan false);
   (49, passes F (1#1000000) (pnorm (bofZ 0) (bofZ 0) B754_nan false) B754_nan false);
   (51, passes F (1#1000000) (pnorm (bofZ 0) (bofZ 0) (Bopp (bofZ 1)) false) B754_nan false);
   (52, passes F (1#1000000) (pnorm (bofZ 0) (bofZ 0) ninf64 false) B754_nan false);
   (54, passes F (1#1000000) (pnorm (bofZ 0) (bofZ 1) pinf64 false) (blit (5#10)) false);
   (55, passes F (1#1000000) (pnorm (bofZ 1) (bofZ 0) pinf64 false) (blit (5#10)) false);
   (56, passes F (1#1000000) (pnorm (bofZ 1) (bofZ 1) pinf64 false) (blit (5#10)) false);
   (57, passes F (1#1000000) (pnorm pinf64 (bofZ 1) pinf64 false) (bofZ 1) false);
   (58, passes F (1#1000000) (pnorm (bofZ 0) pinf64 pinf64 false) (bofZ 0) false);
   (59, passes F (1#1000000) (pnorm pinf64 pinf64 pinf64 false) B754_nan false);
   (60, passes F (1#1000000) (pnorm ninf64 (bofZ 1) pinf64 false) (bofZ 0) false);
   (61, passes F (1#1000000) (pnorm (bofZ 0) ninf64 pinf64 false) (bofZ 1) false);
   (62, passes F (1#1000000) (pnorm ninf64 ninf64 pinf64 false) B754_nan false);
   (64, passes F (1#1000000) (pnorm pinf64 pinf64 (bofZ 0) false) B754_nan false);
   (65, passes F (1#1000000) (pnorm pinf64 pinf64 (bofZ 1) false) B754_nan false);
   (66, passes F (1#1000000) (pnorm ninf64 ninf64 (bofZ 0) false) B754_nan false);
   (67, passes F (1#1000000) (pnorm ninf64 ninf64 (bofZ 1) false) B754_nan false);
   (69, passes F (1#1000000) (pnorm pinf64 ninf64 (bofZ 0) false) (bofZ 1) false);
   (70, passes F (1#1000000) (pnorm pinf64 ninf64 (bofZ 1) false) (bofZ 1) false);
   (71, passes F (1#1000000) (pnorm ninf64 pinf64 (bofZ 0) false) (bofZ 0) false);
   (72, passes F (1#1000000) (pnorm ninf64 pinf64 (bofZ 1) false) (bofZ 0) false);
   (74, passes F (1#1000000) (pnorm (bofZ 1) (bofZ 0) (bofZ 0) false) (bofZ 1) false);
   (75, passes F (1#1000000) (pnorm (bofZ 0) (bofZ 1) (bofZ 0) false) (bofZ 0) false);
   (76, passes F (1#1000000) (pnorm (bofZ 1) (bofZ 1) (bofZ 0) false) (bofZ 1) false);
   (77, passes F (1#1000000) (pnorm pinf64 (bofZ 1) (bofZ 0) false) (bofZ 1) false);
   (78, passes F (1#1000000) (pnorm ninf64 (bofZ 1) (bofZ 0) false) (bofZ 0) false);
   (79, passes F (1#1000000) (pnorm (bofZ 1) pinf64 (bofZ 0) false) (bofZ 0) false);
   (80, passes F (1#1000000) (pnorm (bofZ 1) ninf64 (bofZ 0) false) (bofZ 1) false);
   (82, passes F (1#1000000) (pnorm pinf64 (bofZ 0) (bofZ 1) false) (bofZ 1) false);
   (83, passes F (1#1000000) (pnorm ninf64 (bofZ 0) (bofZ 1) false) (bofZ 0) false);
   (85, passes F (1#1000000) (pnorm (bofZ 0) pinf64 (bofZ 1) false) (bofZ 0) false);
   (86, passes F (1#1000000) (pnorm (bofZ 0) ninf64 (bofZ 1) false) (bofZ 1) false)].
Definition value_pnorm : list (Z * bool) := [
   (43, passes F (1#1000000) (pnorm (Bopp (blit (37#100))) (bofZ 1) (bofZ 2) false) (blit (246672#1000000)) false);
   (44, passes F (1#1000000) (pnorm (bofZ 0) (bofZ 1) (bofZ 2) true) (blit (3085375#10000000)) true);
   (45, passes F (1#1000000) (pnorm (blit (25#10)) (bofZ 1) (bofZ 2) false) (blit (7733726#10000000)) false)].
(** tests/prob/ppois.cpp *)
Definition limit_ppois : list (Z * bool) := [
   (46, passes F (1#1000000) (ppois 1 B754_nan false) B754_nan false);
   (48, passes F (1#1000000) (ppois 0 (bofZ 0) false) (bofZ 1) false);
   (49, passes F (1#1000000) (ppois 1 (bofZ 0) false) (bofZ 1) false);
   (50, passes F (1#1000000) (ppois 1 (Bopp (bofZ 1)) false) B754_nan false);
   (51, passes F (1#1000000) (ppois 1 ninf64 false) B754_nan false);
   (53, passes F (1#1000000) (ppois 1 pinf64 false) (bofZ 0) false);
   (57, passes F (1#1000000) (ppois (-1) (bofZ 2) false) (bofZ 0) false)].
Definition value_ppois : list (Z * bool) := [
   (42, passes F (1#1000000) (ppois 8 (bofZ 10) false) (blit (3328197#10000000)) false);
   (43, passes F (1#1000000) (ppois 10 (bofZ 10) true) (blit (5830398#10000000)) true);
   (44, passes F (1#1000000) (ppois 12 (bofZ 10) false) (blit (7915565#10000000)) false);
   (55, passes F (1#1000000) (ppois 0 (bofZ 5) false) (blit (6737947#1000000000)) false);
   (59, passes F (1#1000000) (ppois 15 (bofZ 10) false) (blit (9512596#10000000)) false);
   (60, passes F (1#1000000) (ppois 20 (bofZ 10) false) (blit (9984117#10000000)) false);
   (61, passes F (1#1000000) (ppois 100 (bofZ 10) false) (bofZ 1) false)].
(** tests/prob/pradem.cpp *)
Definition limit_pradem : list (Z * bool) := [
   (42, passes F (1#1000000) (pradem 1 (blit (4#10)) false) (bofZ 1) false);
   (43, passes F (1#1000000) (pradem 2 (blit (4#10)) false) (bofZ 1) false);
   (48, passes F (1#1000000) (pradem 1 B754_nan false) B754_nan false);
   (50, passes F (1#1000000) (pradem 1 (Bopp (blit (1#10))) false) B754_nan false);
   (51, passes F (1#1000000) (pradem 1 (blit (11#10)) false) B754_nan false);
   (53, passes F (1#1000000) (pradem (-2) (blit (4#10)) false) (bofZ 0) false);
   (54, passes F (1#1000000) (pradem 5 (blit (4#10)) false) (bofZ 1) false)].
Definition value_pradem : list (Z * bool) := [
   (44, passes F (1#1000000) (pradem (-1) (blit (4#10)) true) (bsub (bofZ 1) (blit (4#10))) true);
   (45, passes F (1#1000000) (pradem 0 (blit (4#10)) true) (bsub (bofZ 1) (blit (4#10))) true)].
(** tests/prob/pt.cpp *)
Definition limit_pt : list (Z * bool) := [
   (46, passes F (1#1000000) (pt B754_nan (bofZ 30) false) B754_nan false);
   (47, passes F (1#1000000) (pt (bofZ 0) B754_nan false) B754_nan false);
   (49, passes F (1#1000000) (pt (bofZ 0) (bofZ 0) false) B754_nan false);
   (50, passes F (1#1000000) (pt (bofZ 0) (Bopp (bofZ 1)) false) B754_nan false);
   (51, passes F (1#1000000) (pt (bofZ 0) ninf64 false) B754_nan false);
   (54, passes F (1#1000000) (pt (bofZ 1) (bofZ 2) false) (blit (7886751#10000000)) false);
   (64, passes F (1#1000000) (pt (bofZ 0) pinf64 false) (blit (5#10)) false);
   (65, passes F (1#1000000) (pt pinf64 pinf64 false) (bofZ 1) false);
   (67, passes F (1#1000000) (pt pinf64 (bofZ 30) false) (bofZ 1) false);
   (68, passes F (1#1000000) (pt ninf64 (bofZ 30) false) (bofZ 0) false)].
Definition value_pt : list (Z * bool) := [
   (42, passes F (1#1000000) (pt (Bopp (blit (37#100))) (bofZ 11) false) (blit (3592038#10000000)) false);
   (43, passes F (1#1000000) (pt (bofZ 0) (bofZ 11) true) (blit (5#10)) true);
   (44, passes F (1#1000000) (pt (blit (25#10)) (bofZ 11) false) (blit (9852468#10000000)) false);
   (53, passes F (1#1000000) (pt (bofZ 1) (bofZ 1) false) (blit (75#100)) false);
   (55, passes F (1#1000000) (pt (bofZ 1) (bofZ 3) false) (blit (8044989#10000000)) false);
   (56, passes F (1#1000000) (pt (bofZ 1) (bofZ 4) false) (blit (8130495#10000000)) false);
   (57, passes F (1#1000000) (pt (bofZ 1) (bofZ 5) false) (blit (8183913#10000000)) false);
   (58, passes F (1#1000000) (pt (bofZ 1) (bofZ 6) false) (blit (8220412#10000000)) false);
   (59, passes F (1#1000000) (pt (bofZ 1) (bofZ 7) false) (blit (8246917#10000000)) false);
   (60, passes F (1#1000000) (pt (bofZ 1) (bofZ 8) false) (blit (8267032#10000000)) false);
   (61, passes F (1#1000000) (pt (bofZ 1) (bofZ 9) false) (blit (8282818#10000000)) false);
   (62, passes F (1#1000000) (pt (bofZ 1) (bofZ 10) false) (blit (8295534#10000000)) false)].
(** tests/prob/punif.cpp *)
Definition limit_punif : list (Z * bool) := [
   (43, passes F (1#1000000) (punif (Bopp (blit (12#10))) (Bopp (bofZ 2)) (bofZ 3) false) (blit (16#100)) false);
   (44, passes F (1#1000000) (punif (bofZ 1) (Bopp (bofZ 2)) (bofZ 3) false) (blit (6#10)) false);
   (45, passes F (1#1000000) (punif (blit (25#10)) (Bopp (bofZ 2)) (bofZ 3) false) (blit (9#10)) false);
   (48, passes F (1#1000000) (punif (blit (5#10)) (Bopp (bofZ 2)) (Bopp (bofZ 2)) false) B754_nan false);
   (49, passes F (1#1000000) (punif (blit (5#10)) (bofZ 3) (Bopp (bofZ 2)) false) B754_nan false);
   (51, passes F (1#1000000) (punif (Bopp (bofZ 2)) (Bopp (bofZ 2)) (bofZ 3) false) (bofZ 0) false);
   (52, passes F (1#1000000) (punif (bsub (Bopp (bofZ 2)) (blit (1#10))) (Bopp (bofZ 2)) (bofZ 3) false) (bofZ 0) false);
   (54, passes F (1#1000000) (punif (bofZ 3) (Bopp (bofZ 2)) (bofZ 3) false) (bofZ 1) false);
   (55, passes F (1#1000000) (punif (badd (bofZ 3) (blit (1#10))) (Bopp (bofZ 2)) (bofZ 3) false) (bofZ 1) false);
   (57, passes F (1#1000000) (punif (bofZ 0) pinf64 pinf64 false) B754_nan false);
   (58, passes F (1#1000000) (punif (bofZ 0) ninf64 ninf64 false) B754_nan false);
   (59, passes F (1#1000000) (punif (bofZ 0) ninf64 pinf64 false) B754_nan false)].
Definition value_punif : list (Z * bool) := [
   (46, passes F (1#1000000) (punif (bofZ 1) (Bopp (bofZ 2)) (bofZ 3) true) (blit (6#10)) true)].
(** tests/prob/pweibull.cpp *)
Definition limit_pweibull : list (Z * bool) := [
   (48, passes F (1#1000000) (pweibull B754_nan (bofZ 2) (bofZ 3) false) B754_nan false);
   (49, passes F (1#1000000) (pweibull (bofZ 2) B754_nan (bofZ 3) false) B754_nan false);
   (50, passes F (1#1000000) (pweibull (bofZ 2) (bofZ 2) B754_nan false) B754_nan false);
   (52, passes F (1#1000000) (pweibull (bofZ 2) (bofZ 0) (bofZ 1) false) B754_nan false);
   (53, passes F (1#1000000) (pweibull (bofZ 2) (bofZ (-1)) (bofZ 2) false) B754_nan false);
   (54, passes F (1#1000000) (pweibull (bofZ 2) ninf64 (bofZ 2) false) B754_nan false);
   (56, passes F (1#1000000) (pweibull (bofZ 2) (bofZ 1) (bofZ 0) false) B754_nan false);
   (57, passes F (1#1000000) (pweibull (bofZ 2) (bofZ 4) (bofZ (-1)) false) B754_nan false);
   (58, passes F (1#1000000) (pweibull (bofZ 2) (bofZ 3) ninf64 false) B754_nan false);
   (60, passes F (1#1000000) (pweibull (bofZ 0) (bofZ 2) (bofZ 3) false) (bofZ 0) false);
   (61, passes F (1#1000000) (pweibull (bofZ (-1)) (bofZ 2) (bofZ 3) false) (bofZ 0) false);
   (62, passes F (1#1000000) (pweibull ninf64 (bofZ 2) (bofZ 3) false) (bofZ 0) false);
   (64, passes F (1#1000000) (pweibull pinf64 (bofZ 2) (bofZ 3) false) (bofZ 1) false);
   (65, passes F (1#1000000) (pweibull pinf64 pinf64 (bofZ 3) false) (bofZ 1) false);
   (66, passes F (1#1000000) (pweibull pinf64 (bofZ 2) pinf64 false) B754_nan false);
   (68, passes F (1#1000000) (pweibull (bofZ 0) (blit (5#10)) (bofZ 3) false) (bofZ 0) false);
   (70, passes F (1#1000000) (pweibull (bofZ 2) pinf64 (bofZ 1) false) (bofZ 1) false);
   (72, passes F (1#1000000) (pweibull (blit (5#10)) pinf64 (bofZ 3) false) (bofZ 0) false)].
Definition value_pweibull : list (Z * bool) := [
   (43, passes F (1#1000000) (pweibull (bofZ 1) (bofZ 2) (bofZ 3) false) (blit (1051607#10000000)) false);
   (44, passes F (1#1000000) (pweibull (bofZ 2) (bofZ 2) (bofZ 3) false) (blit (3588196#10000000)) false);
   (45, passes F (1#1000000) (pweibull (bofZ 3) (bofZ 2) (bofZ 3) false) (blit (6321206#10000000)) false);
   (46, passes F (1#1000000) (pweibull (bofZ 2) (bofZ 2) (bofZ 3) true) (blit (3588196#10000000)) true);
   (71, passes F (1#1000000) (pweibull (bofZ 1) pinf64 (bofZ 1) false) (blit (6321206#10000000)) false)].
(** tests/quant/qbern.cpp *)
Definition limit_qbern : list (Z * bool) := [
   (44, passes F (1#1000000) (qbern (blit (2#10)) (blit (4#10))) (bofZ 0) false);
   (45, passes F (1#1000000) (qbern (blit (4#10)) (blit (4#10))) (bofZ 0) false);
   (46, passes F (1#1000000) (qbern (blit (9#10)) (blit (4#10))) (bofZ 1) false);
   (48, passes F (1#1000000) (qbern B754_nan (blit (5#10))) B754_nan false);
   (49, passes F (1#1000000) (qbern (blit (5#10)) B754_nan) B754_nan false);
   (50, passes F (1#1000000) (qbern B754_nan B754_nan) B754_nan false);
   (52, passes F (1#1000000) (qbern (bofZ 1) (Bopp (blit (1#10)))) B754_nan false);
   (53, passes F (1#1000000) (qbern (bofZ 1) (blit (11#10))) B754_nan false);
   (55, passes F (1#1000000) (qbern (bofZ (-1)) (blit (4#10))) B754_nan false);
   (56, passes F (1#1000000) (qbern (bofZ 5) (blit (4#10))) B754_nan false)].
Definition value_qbern : list (Z * bool) := [].
(** tests/quant/qbeta.cpp *)
Definition limit_qbeta : list (Z * bool) := [
   (52, passes F (1#1000000) (qbeta B754_nan (bofZ 2) (bofZ 3)) B754_nan false);
   (53, passes F (1#1000000) (qbeta (blit (5#10)) B754_nan (bofZ 3)) B754_nan false);
   (54, passes F (1#1000000) (qbeta (blit (5#10)) (bofZ 1) B754_nan) B754_nan false);
   (55, passes F (1#1000000) (qbeta (blit (5#10)) B754_nan B754_nan) B754_nan false);
   (56, passes F (1#1000000) (qbeta B754_nan B754_nan B754_nan) B754_nan false);
   (58, passes F (1#1000000) (qbeta (blit (5#10)) (Bopp (bofZ 1)) (bofZ 1)) B754_nan false);
   (59, passes F (1#1000000) (qbeta (blit (5#10)) (bofZ 1) (Bopp (bofZ 1))) B754_nan false);
   (61, passes F (1#1000000) (qbeta (Bopp (blit (1#10))) (bofZ 3) (bofZ 2)) B754_nan false);
   (62, passes F (1#1000000) (qbeta (blit (11#10)) (bofZ 3) (bofZ 2)) B754_nan false);
   (64, passes F (1#1000000) (qbeta (bofZ 0) (bofZ 3) (bofZ 2)) (bofZ 0) false);
   (65, passes F (1#1000000) (qbeta (bofZ 0) (bofZ 0) (bofZ 0)) (bofZ 0) false);
   (66, passes F (1#1000000) (qbeta (bofZ 0) pinf64 (bofZ 2)) (bofZ 0) false);
   (67, passes F (1#1000000) (qbeta (bofZ 0) (bofZ 3) pinf64) (bofZ 0) false);
   (68, passes F (1#1000000) (qbeta (bofZ 0) pinf64 pinf64) (bofZ 0) false);
   (70, passes F (1#1000000) (qbeta (bofZ 1) (bofZ 3) (bofZ 2)) (bofZ 1) false);
   (71, passes F (1#1000000) (qbeta (bofZ 1) (bofZ 0) (bofZ 0)) (bofZ 1) false);
   (72, passes F (1#1000000) (qbeta (bofZ 1) pinf64 (bofZ 2)) (bofZ 1) false);
   (73, passes F (1#1000000) (qbeta (bofZ 1) (bofZ 3) pinf64) (bofZ 1) false);
   (74, passes F (1#1000000) (qbeta (bofZ 1) pinf64 pinf64) (bofZ 1) false);
   (76, passes F (1#1000000) (qbeta (blit (3#10)) (bofZ 0) (bofZ 0)) (bofZ 0) false);
   (77, passes F (1#1000000) (qbeta (blit (5#10)) (bofZ 0) (bofZ 0)) (blit (5#10)) false);
   (78, passes F (1#1000000) (qbeta (blit (7#10)) (bofZ 0) (bofZ 0)) (bofZ 1) false);
   (80, passes F (1#1000000) (qbeta (blit (5#10)) (bofZ 0) (bofZ 1)) (bofZ 0) false);
   (81, passes F (1#1000000) (qbeta (blit (5#10)) (bofZ 1) pinf64) (bofZ 0) false);
   (83, passes F (1#1000000) (qbeta (blit (5#10)) (bofZ 1) (bofZ 0)) (bofZ 1) false);
   (84, passes F (1#1000000) (qbeta (blit (5#10)) pinf64 (bofZ 1)) (bofZ 1) false);
   (86, passes F (1#1000000) (qbeta (blit (4#10)) pinf64 pinf64) (blit (5#10)) false);
   (87, passes F (1#1000000) (qbeta (blit (6#10)) pinf64 pinf64) (blit (5#10)) false)].
Definition value_qbeta : list (Z * bool) := [
   (45, passes F (1#1000000) (qbeta (blit (15#100)) (bofZ 3) (bofZ 2)) (blit (3734678#10000000)) false);
   (46, passes F (1#1000000) (qbeta (blit (5#10)) (bofZ 3) (bofZ 2)) (blit (6142724#10000000)) false);
   (47, passes F (1#1000000) (qbeta (blit (95#100)) (bofZ 3) (bofZ 2)) (blit (9023885#10000000)) false);
   (49, passes F (1#1000000) (qbeta (blit (1#100)) (bofZ 3) (bofZ 2)) (blit (1408675#10000000)) false);
   (50, passes F (1#1000000) (qbeta (blit (99#100)) (bofZ 3) (bofZ 2)) (blit (9580014#10000000)) false)].
(** tests/quant/qbinom.cpp *)
Definition limit_qbinom : list (Z * bool) := [
   (49, passes F (1#1000000) (qbinom (blit (5#10)) 2 B754_nan) B754_nan false);
   (50, passes F (1#1000000) (qbinom B754_nan 4 (blit (6#10))) B754_nan false);
   (51, passes F (1#1000000) (qbinom B754_nan 4 B754_nan) B754_nan false);
   (53, passes F (1#1000000) (qbinom (Bopp (blit (1#10))) 4 (blit (6#10))) B754_nan false);
   (54, passes F (1#1000000) (qbinom (blit (11#10)) 4 (blit (6#10))) B754_nan false);
   (56, passes F (1#1000000) (qbinom (blit (5#10)) (-1) (blit (5#10))) B754_nan false);
   (57, passes F (1#1000000) (qbinom (blit (5#10)) 1 (Bopp (blit (1#10)))) B754_nan false);
   (58, passes F (1#1000000) (qbinom (blit (5#10)) 1 (blit (11#10))) B754_nan false);
   (60, passes F (1#1000000) (qbinom (bofZ 0) 0 (blit (5#10))) (bofZ 0) false);
   (61, passes F (1#1000000) (qbinom (bofZ 0) 0 (bofZ 1)) (bofZ 0) false);
   (62, passes F (1#1000000) (qbinom (bofZ 1) 0 (blit (5#10))) (bofZ 0) false);
   (63, passes F (1#1000000) (qbinom (bofZ 1) 0 (bofZ 1)) (bofZ 0) false);
   (65, passes F (1#1000000) (qbinom (bsub (bofZ 1) (blit (6#10))) 1 (blit (6#10))) (bofZ 0) false);
   (66, passes F (1#1000000) (qbinom (badd (bsub (bofZ 1) (blit (6#10))) (blit (1#10000))) 1 (blit (6#10))) (bofZ 1) false)].
Definition value_qbinom : list (Z * bool) := [
   (45, passes F (1#1000000) (qbinom (blit (15#100)) 4 (blit (6#10))) (bofZ 1) false);
   (46, passes F (1#1000000) (qbinom (blit (5#10)) 4 (blit (6#10))) (bofZ 2) false);
   (47, passes F (1#1000000) (qbinom (blit (9#10)) 4 (blit (6#10))) (bofZ 4) false)].
(** tests/quant/qcauchy.cpp *)
Definition limit_qcauchy : list (Z * bool) := [
   (46, passes F (1#1000000) (qcauchy (blit (5#10)) (bofZ 1) (bofZ 2)) (bofZ 1) false);
   (51, passes F (1#1000000) (qcauchy B754_nan (bofZ 0) (bofZ 1)) B754_nan false);
   (52, passes F (1#1000000) (qcauchy (bofZ 0) B754_nan (bofZ 1)) B754_nan false);
   (53, passes F (1#1000000) (qcauchy (bofZ 0) (bofZ 0) B754_nan) B754_nan false);
   (54, passes F (1#1000000) (qcauchy B754_nan B754_nan B754_nan) B754_nan false);
   (56, passes F (1#1000000) (qcauchy (Bopp (blit (1#10))) (bofZ 1) (bofZ 2)) B754_nan false);
   (57, passes F (1#1000000) (qcauchy (blit (11#10)) (bofZ 1) (bofZ 2)) B754_nan false);
   (59, passes F (1#1000000) (qcauchy (bofZ 0) (bofZ 1) (bofZ 2)) ninf64 false);
   (60, passes F (1#1000000) (qcauchy (bofZ 0) (bofZ 1) (bofZ 0)) (bofZ 1) false);
   (61, passes F (1#1000000) (qcauchy (bofZ 0) pinf64 (bofZ 2)) B754_nan false);
   (62, passes F (1#1000000) (qcauchy (bofZ 0) ninf64 (bofZ 2)) ninf64 false);
   (63, passes F (1#1000000) (qcauchy (bofZ 0) (bofZ 1) pinf64) B754_nan false);
   (64, passes F (1#1000000) (qcauchy (bofZ 0) pinf64 pinf64) B754_nan false);
   (66, passes F (1#1000000) (qcauchy (bofZ 1) (bofZ 1) (bofZ 2)) pinf64 false);
   (67, passes F (1#1000000) (qcauchy (bofZ 1) (bofZ 1) (bofZ 0)) (bofZ 1) false);
   (68, passes F (1#1000000) (qcauchy (bofZ 1) pinf64 (bofZ 2)) pinf64 false);
   (69, passes F (1#1000000) (qcauchy (bofZ 1) ninf64 (bofZ 2)) B754_nan false);
   (70, passes F (1#1000000) (qcauchy (bofZ 1) (bofZ 1) pinf64) B754_nan false);
   (71, passes F (1#1000000) (qcauchy (bofZ 1) pinf64 pinf64) B754_nan false);
   (73, passes F (1#1000000) (qcauchy (bofZ 0) (bofZ 1) (bofZ 0)) (bofZ 1) false);
   (74, passes F (1#1000000) (qcauchy (bofZ 0) (bofZ 0) (Bopp (bofZ 1))) B754_nan false);
   (75, passes F (1#1000000) (qcauchy (bofZ 0) (bofZ 0) ninf64) B754_nan false);
   (77, passes F (1#1000000) (qcauchy (bofZ 0) (bofZ 1) pinf64) B754_nan false);
   (78, passes F (1#1000000) (qcauchy pinf64 (bofZ 1) pinf64) B754_nan false);
   (79, passes F (1#1000000) (qcauchy (bofZ 0) pinf64 pinf64) B754_nan false);
   (80, passes F (1#1000000) (qcauchy pinf64 pinf64 pinf64) B754_nan false);
   (81, passes F (1#1000000) (qcauchy ninf64 (bofZ 1) pinf64) B754_nan false);
   (82, passes F (1#1000000) (qcauchy (bofZ 0) ninf64 pinf64) B754_nan false);
   (83, passes F (1#1000000) (qcauchy ninf64 ninf64 pinf64) B754_nan false);
   (85, passes F (1#1000000) (qcauchy (blit (5#10)) pinf64 (bofZ 1)) pinf64 false);
   (86, passes F (1#1000000) (qcauchy (blit (5#10)) ninf64 (bofZ 1)) ninf64 false)].
Definition value_qcauchy : list (Z * bool) := [
   (45, passes F (1#1000000) (qcauchy (blit (35#100)) (bofZ 1) (bofZ 2)) (Bopp (blit (190509#10000000))) false);
   (47, passes F (1#1000000) (qcauchy (blit (7#10)) (bofZ 1) (bofZ 2)) (blit (2453085#1000000)) false);
   (49, passes F (1#1000000) (qcauchy (blit (9995#10000)) (bofZ 0) (bofZ 1)) (blit (6366192#10000)) false)].
(** tests/quant/qchisq.cpp *)
Definition limit_qchisq : list (Z * bool) := [
   (49, passes F (1#100000) (qchisq B754_nan (bofZ 3)) B754_nan false);
   (50, passes F (1#100000) (qchisq (blit (5#10)) B754_nan) B754_nan false);
   (51, passes F (1#100000) (qchisq B754_nan B754_nan) B754_nan false);
   (53, passes F (1#100000) (qchisq (Bopp (blit (1#10))) (bofZ 6)) B754_nan false);
   (54, passes F (1#100000) (qchisq (blit (11#10)) (bofZ 6)) B754_nan false);
   (56, passes F (1#100000) (qchisq (bofZ 0) (bofZ 0)) (bofZ 0) false);
   (57, passes F (1#100000) (qchisq (bofZ 1) (bofZ 0)) pinf64 false);
   (58, passes F (1#100000) (qchisq (bofZ 1) (Bopp (bofZ 1))) B754_nan false);
   (59, passes F (1#100000) (qchisq (bofZ 1) ninf64) B754_nan false);
   (61, passes F (1#100000) (qchisq (bofZ 0) pinf64) (bofZ 0) false);
   (62, passes F (1#100000) (qchisq (bofZ 1) pinf64) pinf64 false)].
Definition value_qchisq : list (Z * bool) := [
   (45, passes F (1#100000) (qchisq (blit (1#10)) (bofZ 6)) (blit (2204131#1000000)) false);
   (46, passes F (1#100000) (qchisq (blit (6#10)) (bofZ 6)) (blit (6210757#1000000)) false);
   (47, passes F (1#100000) (qchisq (blit (95#100)) (bofZ 6)) (blit (1259159#100000)) false)].
(** tests/quant/qexp.cpp *)
Definition limit_qexp : list (Z * bool) := [
   (50, passes F (1#1000000) (qexp B754_nan (bofZ 3)) B754_nan false);
   (51, passes F (1#1000000) (qexp (blit (5#10)) B754_nan) B754_nan false);
   (52, passes F (1#1000000) (qexp B754_nan B754_nan) B754_nan false);
   (54, passes F (1#1000000) (qexp (Bopp (blit (1#10))) (blit (8#10))) B754_nan false);
   (55, passes F (1#1000000) (qexp (blit (11#10)) (blit (8#10))) B754_nan false);
   (57, passes F (1#1000000) (qexp (bofZ 0) (bofZ 0)) (bofZ 0) false);
   (58, passes F (1#1000000) (qexp (bofZ 1) (bofZ 0)) pinf64 false);
   (59, passes F (1#1000000) (qexp (bofZ 1) (Bopp (bofZ 1))) B754_nan false);
   (60, passes F (1#1000000) (qexp (bofZ 1) ninf64) B754_nan false);
   (62, passes F (1#1000000) (qexp (bofZ 0) pinf64) (bofZ 0) false);
   (63, passes F (1#1000000) (qexp (bofZ 1) pinf64) pinf64 false)].
Definition value_qexp : list (Z * bool) := [
   (44, passes F (1#1000000) (qexp (blit (1#10)) (blit (8#10))) (blit (1317006#10000000)) false);
   (45, passes F (1#1000000) (qexp (blit (6#10)) (blit (8#10))) (blit (1145363#1000000)) false);
   (46, passes F (1#1000000) (qexp (blit (95#100)) (blit (8#10))) (blit (3744665#1000000)) false);
   (48, passes F (1#1000000) (qexp (blit (999664537372097#1000000000000000)) (blit (8#10))) (bofZ 10) false)].
(** tests/quant/qf.cpp *)
Definition limit_qf : list (Z * bool) := [
   (49, passes F (1#1000000) (qf B754_nan (bofZ 10) (bofZ 12)) B754_nan false);
   (50, passes F (1#1000000) (qf (bofZ 2) B754_nan (bofZ 12)) B754_nan false);
   (51, passes F (1#1000000) (qf (bofZ 2) (bofZ 10) B754_nan) B754_nan false);
   (53, passes F (1#1000000) (qf (Bopp (blit (1#10))) (bofZ 10) (bofZ 12)) B754_nan false);
   (54, passes F (1#1000000) (qf (blit (11#10)) (bofZ 10) (bofZ 12)) B754_nan false);
   (56, passes F (1#1000000) (qf (blit (5#10)) (bofZ 0) (bofZ 3)) B754_nan false);
   (57, passes F (1#1000000) (qf (blit (5#10)) (bofZ 4) (bofZ 0)) B754_nan false);
   (58, passes F (1#1000000) (qf (blit (5#10)) (bofZ 3) (bofZ (-1))) B754_nan false);
   (59, passes F (1#1000000) (qf (blit (5#10)) (bofZ (-1)) (bofZ 4)) B754_nan false);
   (60, passes F (1#1000000) (qf (blit (5#10)) (bofZ (-1)) (bofZ (-1))) B754_nan false);
   (62, passes F (1#1000000) (qf (bofZ 0) pinf64 pinf64) (bofZ 0) false);
   (63, passes F (1#1000000) (qf (blit (5#10)) pinf64 pinf64) (bofZ 1) false);
   (64, passes F (1#1000000) (qf (bofZ 1) pinf64 pinf64) pinf64 false)].
Definition value_qf : list (Z * bool) := [
   (45, passes F (1#1000000) (qf (blit (5075#10000)) (bofZ 10) (bofZ 12)) (blit (1000142#1000000)) false);
   (46, passes F (1#1000000) (qf (blit (88#100)) (bofZ 10) (bofZ 12)) (blit (2046451#1000000)) false);
   (47, passes F (1#1000000) (qf (blit (96#100)) (bofZ 10) (bofZ 12)) (blit (2946521#1000000)) false);
   (66, passes F (1#1000000) (qf (blit (9#10)) pinf64 (bofZ 3)) (blit (5133695#1000000)) false);
   (68, passes F (1#1000000) (qf (blit (9#10)) (bofZ 2) pinf64) (blit (2302585#1000000)) false)].
(** tests/quant/qgamma.cpp *)
Definition limit_qgamma : list (Z * bool) := [
   (49, passes F (1#1000000) (qgamma B754_nan (bofZ 2) (bofZ 3)) B754_nan false);
   (50, passes F (1#1000000) (qgamma (blit (5#10)) B754_nan (bofZ 3)) B754_nan false);
   (51, passes F (1#1000000) (qgamma (blit (5#10)) (bofZ 2) B754_nan) B754_nan false);
   (52, passes F (1#1000000) (qgamma (blit (5#10)) B754_nan B754_nan) B754_nan false);
   (53, passes F (1#1000000) (qgamma B754_nan B754_nan B754_nan) B754_nan false);
   (55, passes F (1#1000000) (qgamma (Bopp (blit (1#10))) (bofZ 2) (bofZ 3)) B754_nan false);
   (56, passes F (1#1000000) (qgamma (blit (11#10)) (bofZ 2) (bofZ 3)) B754_nan false);
   (58, passes F (1#1000000) (qgamma (blit (5#10)) (bofZ (-1)) (bofZ 2)) B754_nan false);
   (59, passes F (1#1000000) (qgamma (blit (5#10)) ninf64 (bofZ 2)) B754_nan false);
   (61, passes F (1#1000000) (qgamma (blit (5#10)) (bofZ 1) (bofZ 0)) B754_nan false);
   (62, passes F (1#1000000) (qgamma (blit (5#10)) (bofZ 4) (bofZ (-1))) B754_nan false);
   (63, passes F (1#1000000) (qgamma (blit (5#10)) (bofZ 3) ninf64) B754_nan false);
   (65, passes F (1#1000000) (qgamma (bofZ 0) (bofZ 0) (bofZ 2)) (bofZ 0) false);
   (66, passes F (1#1000000) (qgamma (blit (5#10)) (bofZ 0) (bofZ 2)) (bofZ 0) false);
   (67, passes F (1#1000000) (qgamma (bofZ 1) (bofZ 0) (bofZ 2)) pinf64 false);
   (68, passes F (1#1000000) (qgamma (bofZ 0) (bofZ 0) pinf64) (bofZ 0) false);
   (69, passes F (1#1000000) (qgamma (bofZ 1) (bofZ 0) pinf64) pinf64 false);
   (70, passes F (1#1000000) (qgamma (blit (4#10)) (bofZ 0) pinf64) B754_nan false);
   (71, passes F (1#1000000) (qgamma (blit (6#10)) (bofZ 0) pinf64) B754_nan false);
   (73, passes F (1#1000000) (qgamma (blit (5#10)) pinf64 pinf64) B754_nan false);
   (74, passes F (1#1000000) (qgamma (blit (5#10)) pinf64 (bofZ 2)) B754_nan false);
   (75, passes F (1#1000000) (qgamma (blit (5#10)) (bofZ 2) pinf64) B754_nan false)].
Definition value_qgamma : list (Z * bool) := [
   (45, passes F (1#1000000) (qgamma (blit (5#100)) (bofZ 2) (bofZ 3)) (blit (1066085#1000000)) false);
   (46, passes F (1#1000000) (qgamma (blit (35#100)) (bofZ 2) (bofZ 3)) (blit (3705131#1000000)) false);
   (47, passes F (1#1000000) (qgamma (blit (79#100)) (bofZ 2) (bofZ 3)) (blit (8787132#1000000)) false)].
(** tests/quant/qinvgamma.cpp *)
Definition limit_qinvgamma : list (Z * bool) := [
   (49, passes F (1#1000000) (qinvgamma B754_nan (bofZ 3) (bofZ 2)) B754_nan false);
   (50, passes F (1#1000000) (qinvgamma (blit (5#10)) B754_nan (bofZ 2)) B754_nan false);
   (51, passes F (1#1000000) (qinvgamma (blit (5#10)) (bofZ 3) B754_nan) B754_nan false);
   (52, passes F (1#1000000) (qinvgamma (blit (5#10)) B754_nan B754_nan) B754_nan false);
   (53, passes F (1#1000000) (qinvgamma B754_nan B754_nan B754_nan) B754_nan false);
   (55, passes F (1#1000000) (qinvgamma (Bopp (blit (1#10))) (bofZ 3) (bofZ 2)) B754_nan false);
   (56, passes F (1#1000000) (qinvgamma (blit (11#10)) (bofZ 3) (bofZ 2)) B754_nan false);
   (58, passes F (1#1000000) (qinvgamma (blit (5#10)) (bofZ (-1)) (bofZ 2)) B754_nan false);
   (59, passes F (1#1000000) (qinvgamma (blit (5#10)) ninf64 (bofZ 2)) B754_nan false);
   (61, passes F (1#1000000) (qinvgamma (blit (5#10)) (bofZ 1) (bofZ 0)) (bofZ 0) false);
   (62, passes F (1#1000000) (qinvgamma (blit (5#10)) (bofZ 0) (bofZ 0)) B754_nan false);
   (63, passes F (1#1000000) (qinvgamma (blit (5#10)) (bofZ 4) (bofZ (-1))) B754_nan false);
   (64, passes F (1#1000000) (qinvgamma (blit (5#10)) (bofZ 3) ninf64) B754_nan false);
   (66, passes F (1#1000000) (qinvgamma (bofZ 0) (bofZ 0) (bofZ 2)) (bofZ 0) false);
   (67, passes F (1#1000000) (qinvgamma (blit (5#10)) (bofZ 0) (bofZ 2)) B754_nan false);
   (68, passes F (1#1000000) (qinvgamma (bofZ 1) (bofZ 0) (bofZ 2)) pinf64 false);
   (69, passes F (1#1000000) (qinvgamma (bofZ 0) (bofZ 0) pinf64) (bofZ 0) false);
   (70, passes F (1#1000000) (qinvgamma (bofZ 1) (bofZ 0) pinf64) pinf64 false);
   (71, passes F (1#1000000) (qinvgamma (blit (4#10)) (bofZ 0) pinf64) B754_nan false);
   (72, passes F (1#1000000) (qinvgamma (blit (6#10)) (bofZ 0) pinf64) B754_nan false);
   (74, passes F (1#1000000) (qinvgamma (blit (5#10)) pinf64 pinf64) B754_nan false);
   (75, passes F (1#1000000) (qinvgamma (blit (5#10)) pinf64 (bofZ 2)) B754_nan false);
   (76, passes F (1#1000000) (qinvgamma (blit (5#10)) (bofZ 2) pinf64) B754_nan false)].
Definition value_qinvgamma : list (Z * bool) := [
   (45, passes F (1#1000000) (qinvgamma (blit (3803761#100000000)) (bofZ 3) (bofZ 2)) (blit (3#10)) false);
   (46, passes F (1#1000000) (qinvgamma (blit (4559447#10000000)) (bofZ 3) (bofZ 2)) (blit (7#10)) false);
   (47, passes F (1#1000000) (qinvgamma (blit (9525774#10000000)) (bofZ 3) (bofZ 2)) (blit (25#10)) false)].
(** tests/quant/qinvgauss.cpp *)
Definition limit_qinvgauss : list (Z * bool) := [
   (49, passes F (1#1000000) (qinvgauss B754_nan (bofZ 2) (bofZ 3)) B754_nan false);
   (50, passes F (1#1000000) (qinvgauss (bofZ 2) B754_nan (bofZ 3)) B754_nan false);
   (51, passes F (1#1000000) (qinvgauss (bofZ 2) (bofZ 2) B754_nan) B754_nan false);
   (52, passes F (1#1000000) (qinvgauss (bofZ 2) B754_nan B754_nan) B754_nan false);
   (53, passes F (1#1000000) (qinvgauss B754_nan B754_nan B754_nan) B754_nan false);
   (55, passes F (1#1000000) (qinvgauss (blit (5#10)) (bofZ (-1)) (bofZ 2)) B754_nan false);
   (56, passes F (1#1000000) (qinvgauss (blit (5#10)) ninf64 (bofZ 2)) B754_nan false);
   (57, passes F (1#1000000) (qinvgauss (blit (5#10)) (bofZ (-1)) (bofZ 0)) B754_nan false);
   (58, passes F (1#1000000) (qinvgauss (bofZ 1) (bofZ (-1)) (bofZ 0)) B754_nan false);
   (59, passes F (1#1000000) (qinvgauss (bofZ 0) (bofZ (-1)) (bofZ 0)) B754_nan false);
   (60, passes F (1#1000000) (qinvgauss (bofZ (-2)) (bofZ (-1)) (bofZ 0)) B754_nan false);
   (62, passes F (1#1000000) (qinvgauss (blit (5#10)) (bofZ 1) (bofZ 0)) (bofZ 0) false);
   (63, passes F (1#1000000) (qinvgauss (bofZ 1) (bofZ 1) (bofZ 0)) pinf64 false);
   (64, passes F (1#1000000) (qinvgauss (bofZ 0) (bofZ 1) (bofZ 0)) (bofZ 0) false);
   (65, passes F (1#1000000) (qinvgauss (blit (5#10)) (bofZ 4) (bofZ (-1))) B754_nan false);
   (66, passes F (1#1000000) (qinvgauss (blit (5#10)) (bofZ 3) ninf64) B754_nan false);
   (68, passes F (1#1000000) (qinvgauss (bofZ (-1)) (bofZ 2) (bofZ 3)) B754_nan false);
   (69, passes F (1#1000000) (qinvgauss (bofZ (-1)) (bofZ 0) (bofZ 3)) B754_nan false);
   (70, passes F (1#1000000) (qinvgauss (bofZ (-1)) (bofZ 2) (bofZ 0)) B754_nan false);
   (71, passes F (1#1000000) (qinvgauss (bofZ (-1)) (bofZ 0) (bofZ 0)) B754_nan false);
   (72, passes F (1#1000000) (qinvgauss ninf64 (bofZ 2) (bofZ 3)) B754_nan false);
   (73, passes F (1#1000000) (qinvgauss (blit (11#10)) (bofZ 2) (bofZ 3)) B754_nan false);
   (74, passes F (1#1000000) (qinvgauss (blit (11#10)) (bofZ 0) (bofZ 3)) B754_nan false);
   (75, passes F (1#1000000) (qinvgauss (blit (11#10)) (bofZ 2) (bofZ 0)) B754_nan false);
   (76, passes F (1#1000000) (qinvgauss (blit (11#10)) (bofZ 0) (bofZ 0)) B754_nan false);
   (77, passes F (1#1000000) (qinvgauss pinf64 (bofZ 2) (bofZ 3)) B754_nan false);
   (79, passes F (1#1000000) (qinvgauss (blit (5#10)) (bofZ 0) (bofZ 2)) B754_nan false);
   (80, passes F (1#1000000) (qinvgauss (bofZ 0) (bofZ 0) (bofZ 2)) B754_nan false);
   (81, passes F (1#1000000) (qinvgauss (bofZ 0) (bofZ 0) (bofZ 0)) B754_nan false);
   (82, passes F (1#1000000) (qinvgauss (bofZ 1) (bofZ 0) (bofZ 2)) B754_nan false);
   (83, passes F (1#1000000) (qinvgauss (bofZ 1) (bofZ 0) pinf64) B754_nan false);
   (85, passes F (1#1000000) (qinvgauss (bofZ 0) (blit (5#10)) (bofZ 3)) (bofZ 0) false);
   (87, passes F (1#1000000) (qinvgauss pinf64 pinf64 pinf64) B754_nan false);
   (88, passes F (1#1000000) (qinvgauss pinf64 (bofZ 2) (bofZ 2)) B754_nan false);
   (89, passes F (1#1000000) (qinvgauss (blit (5#10)) pinf64 (bofZ 2)) B754_nan false);
   (90, passes F (1#1000000) (qinvgauss (blit (5#10)) (bofZ 2) pinf64) B754_nan false)].
Definition value_qinvgauss : list (Z * bool) := [
   (45, passes F (1#1000000) (qinvgauss (blit (5#100)) (bofZ 2) (bofZ 3)) (blit (4853662#10000000)) false);
   (46, passes F (1#1000000) (qinvgauss (blit (35#100)) (bofZ 2) (bofZ 3)) (blit (1135769#1000000)) false);
   (47, passes F (1#1000000) (qinvgauss (blit (79#100)) (bofZ 2) (bofZ 3)) (blit (2792909#1000000)) false)].
(** tests/quant/qlaplace.cpp *)
Definition limit_qlaplace : list (Z * bool) := [
   (46, passes F (1#1000000) (qlaplace (blit (5#10)) (bofZ 1) (bofZ 2)) (bofZ 1) false);
   (49, passes F (1#1000000) (qlaplace B754_nan (bofZ 0) (bofZ 1)) B754_nan false);
   (50, passes F (1#1000000) (qlaplace (bofZ 0) B754_nan (bofZ 1)) B754_nan false);
   (51, passes F (1#1000000) (qlaplace (bofZ 0) (bofZ 0) B754_nan) B754_nan false);
   (52, passes F (1#1000000) (qlaplace B754_nan B754_nan B754_nan) B754_nan false);
   (54, passes F (1#1000000) (qlaplace (Bopp (blit (1#10))) (bofZ 1) (bofZ 2)) B754_nan false);
   (55, passes F (1#1000000) (qlaplace (blit (11#10)) (bofZ 1) (bofZ 2)) B754_nan false);
   (57, passes F (1#1000000) (qlaplace (bofZ 0) (bofZ 1) (bofZ 2)) ninf64 false);
   (58, passes F (1#1000000) (qlaplace (bofZ 0) (bofZ 1) (bofZ 0)) (bofZ 1) false);
   (59, passes F (1#1000000) (qlaplace (bofZ 0) pinf64 (bofZ 2)) B754_nan false);
   (60, passes F (1#1000000) (qlaplace (bofZ 0) ninf64 (bofZ 2)) ninf64 false);
   (61, passes F (1#1000000) (qlaplace (bofZ 0) (bofZ 1) pinf64) B754_nan false);
   (62, passes F (1#1000000) (qlaplace (bofZ 0) pinf64 pinf64) B754_nan false);
   (64, passes F (1#1000000) (qlaplace (bofZ 1) (bofZ 1) (bofZ 2)) pinf64 false);
   (65, passes F (1#1000000) (qlaplace (bofZ 1) (bofZ 1) (bofZ 0)) (bofZ 1) false);
   (66, passes F (1#1000000) (qlaplace (bofZ 1) pinf64 (bofZ 2)) pinf64 false);
   (67, passes F (1#1000000) (qlaplace (bofZ 1) ninf64 (bofZ 2)) B754_nan false);
   (68, passes F (1#1000000) (qlaplace (bofZ 1) (bofZ 1) pinf64) B754_nan false);
   (69, passes F (1#1000000) (qlaplace (bofZ 1) pinf64 pinf64) B754_nan false);
   (71, passes F (1#1000000) (qlaplace (bofZ 0) (bofZ 1) (bofZ 0)) (bofZ 1) false);
   (72, passes F (1#1000000) (qlaplace (bofZ 0) (bofZ 0) (Bopp (bofZ 1))) B754_nan false);
   (73, passes F (1#1000000) (qlaplace (bofZ 0) (bofZ 0) ninf64) B754_nan false);
   (75, passes F (1#1000000) (qlaplace (bofZ 0) (bofZ 1) pinf64) B754_nan false);
   (76, passes F (1#1000000) (qlaplace pinf64 (bofZ 1) pinf64) B754_nan false);
   (77, passes F (1#1000000) (qlaplace (bofZ 0) pinf64 pinf64) B754_nan false);
   (78, passes F (1#1000000) (qlaplace pinf64 pinf64 pinf64) B754_nan false);
   (79, passes F (1#1000000) (qlaplace ninf64 (bofZ 1) pinf64) B754_nan false);
   (80, passes F (1#1000000) (qlaplace (bofZ 0) ninf64 pinf64) B754_nan false);
   (81, passes F (1#1000000) (qlaplace ninf64 ninf64 pinf64) B754_nan false);
   (83, passes F (1#1000000) (qlaplace (blit (5#10)) pinf64 (bofZ 1)) pinf64 false);
   (84, passes F (1#1000000) (qlaplace (blit (5#10)) ninf64 (bofZ 1)) ninf64 false)].
Definition value_qlaplace : list (Z * bool) := [
   (45, passes F (1#1000000) (qlaplace (blit (15#100)) (bofZ 1) (bofZ 2)) (Bopp (blit (1407946#1000000))) false);
   (47, passes F (1#1000000) (qlaplace (blit (79#100)) (bofZ 1) (bofZ 2)) (blit (2735001#1000000)) false)].
(** tests/quant/qlnorm.cpp *)
Definition limit_qlnorm : list (Z * bool) := [
   (53, passes F (1#1000000) (qlnorm B754_nan (bofZ 0) (bofZ 1)) B754_nan false);
   (54, passes F (1#1000000) (qlnorm (bofZ 0) B754_nan (bofZ 1)) B754_nan false);
   (55, passes F (1#1000000) (qlnorm (bofZ 0) (bofZ 0) B754_nan) B754_nan false);
   (56, passes F (1#1000000) (qlnorm B754_nan B754_nan B754_nan) B754_nan false);
   (58, passes F (1#1000000) (qlnorm (Bopp (blit (1#10))) (bofZ 1) (bofZ 2)) B754_nan false);
   (59, passes F (1#1000000) (qlnorm (blit (11#10)) (bofZ 1) (bofZ 2)) B754_nan false);
   (61, passes F (1#1000000) (qlnorm (bofZ 0) (bofZ 1) (bofZ 2)) (bofZ 0) false);
   (63, passes F (1#1000000) (qlnorm (bofZ 0) pinf64 (bofZ 2)) B754_nan false);
   (64, passes F (1#1000000) (qlnorm (bofZ 0) ninf64 (bofZ 2)) (bofZ 0) false);
   (65, passes F (1#1000000) (qlnorm (bofZ 0) (bofZ 1) pinf64) B754_nan false);
   (66, passes F (1#1000000) (qlnorm (bofZ 0) pinf64 pinf64) B754_nan false);
   (68, passes F (1#1000000) (qlnorm (bofZ 1) (bofZ 1) (bofZ 2)) pinf64 false);
   (70, passes F (1#1000000) (qlnorm (bofZ 1) pinf64 (bofZ 2)) pinf64 false);
   (71, passes F (1#1000000) (qlnorm (bofZ 1) ninf64 (bofZ 2)) B754_nan false);
   (72, passes F (1#1000000) (qlnorm (bofZ 1) (bofZ 1) pinf64) B754_nan false);
   (73, passes F (1#1000000) (qlnorm (bofZ 1) pinf64 pinf64) B754_nan false);
   (76, passes F (1#1000000) (qlnorm (bofZ 0) (bofZ 0) (Bopp (bofZ 1))) B754_nan false);
   (77, passes F (1#1000000) (qlnorm (bofZ 0) (bofZ 0) ninf64) B754_nan false);
   (79, passes F (1#1000000) (qlnorm (bofZ 0) (bofZ 1) pinf64) B754_nan false);
   (80, passes F (1#1000000) (qlnorm pinf64 (bofZ 1) pinf64) B754_nan false);
   (81, passes F (1#1000000) (qlnorm (bofZ 0) pinf64 pinf64) B754_nan false);
   (82, passes F (1#1000000) (qlnorm pinf64 pinf64 pinf64) B754_nan false);
   (83, passes F (1#1000000) (qlnorm ninf64 (bofZ 1) pinf64) B754_nan false);
   (84, passes F (1#1000000) (qlnorm (bofZ 0) ninf64 pinf64) B754_nan false);
   (85, passes F (1#1000000) (qlnorm ninf64 ninf64 pinf64) B754_nan false);
   (87, passes F (1#1000000) (qlnorm (blit (5#10)) pinf64 (bofZ 1)) pinf64 false);
   (88, passes F (1#1000000) (qlnorm (blit (5#10)) ninf64 (bofZ 1)) (bofZ 0) false)].
Definition value_qlnorm : list (Z * bool) := [
   (47, passes F (1#1000000) (qlnorm (blit (15#100)) (bofZ 1) (bofZ 2)) (blit (3420266#10000000)) false);
   (48, passes F (1#1000000) (qlnorm (blit (5#10)) (bofZ 1) (bofZ 2)) (blit (2718282#1000000)) false);
   (49, passes F (1#1000000) (qlnorm (blit (79#100)) (bofZ 1) (bofZ 2)) (blit (1363776#100000)) false);
   (51, passes F (1#1000000) (qlnorm (blit (99#100)) (bofZ 1) (bofZ 2)) (blit (2850589#10000)) false);
   (62, passes F (1#1000000) (qlnorm (bofZ 0) (bofZ 1) (bofZ 0)) (t_exp F (bofZ 1)) false);
   (69, passes F (1#1000000) (qlnorm (bofZ 1) (bofZ 1) (bofZ 0)) (t_exp F (bofZ 1)) false);
   (75, passes F (1#1000000) (qlnorm (bofZ 0) (bofZ 1) (bofZ 0)) (t_exp F (bofZ 1)) false)].
(** tests/quant/qlogis.cpp *)
Definition limit_qlogis : list (Z * bool) := [
   (46, passes F (1#1000000) (qlogis (blit (5#10)) (bofZ 1) (bofZ 2)) (bofZ 1) false);
   (51, passes F (1#1000000) (qlogis B754_nan (bofZ 0) (bofZ 1)) B754_nan false);
   (52, passes F (1#1000000) (qlogis (bofZ 0) B754_nan (bofZ 1)) B754_nan false);
   (53, passes F (1#1000000) (qlogis (bofZ 0) (bofZ 0) B754_nan) B754_nan false);
   (54, passes F (1#1000000) (qlogis B754_nan B754_nan B754_nan) B754_nan false);
   (56, passes F (1#1000000) (qlogis (Bopp (blit (1#10))) (bofZ 1) (bofZ 2)) B754_nan false);
   (57, passes F (1#1000000) (qlogis (blit (11#10)) (bofZ 1) (bofZ 2)) B754_nan false);
   (59, passes F (1#1000000) (qlogis (bofZ 0) (bofZ 1) (bofZ 2)) ninf64 false);
   (60, passes F (1#1000000) (qlogis (bofZ 0) (bofZ 1) (bofZ 0)) (bofZ 1) false);
   (61, passes F (1#1000000) (qlogis (bofZ 0) pinf64 (bofZ 2)) B754_nan false);
   (62, passes F (1#1000000) (qlogis (bofZ 0) ninf64 (bofZ 2)) ninf64 false);
   (63, passes F (1#1000000) (qlogis (bofZ 0) (bofZ 1) pinf64) B754_nan false);
   (64, passes F (1#1000000) (qlogis (bofZ 0) pinf64 pinf64) B754_nan false);
   (66, passes F (1#1000000) (qlogis (bofZ 1) (bofZ 1) (bofZ 2)) pinf64 false);
   (67, passes F (1#1000000) (qlogis (bofZ 1) (bofZ 1) (bofZ 0)) (bofZ 1) false);
   (68, passes F (1#1000000) (qlogis (bofZ 1) pinf64 (bofZ 2)) pinf64 false);
   (69, passes F (1#1000000) (qlogis (bofZ 1) ninf64 (bofZ 2)) B754_nan false);
   (70, passes F (1#1000000) (qlogis (bofZ 1) (bofZ 1) pinf64) B754_nan false);
   (71, passes F (1#1000000) (qlogis (bofZ 1) pinf64 pinf64) B754_nan false);
   (73, passes F (1#1000000) (qlogis (bofZ 0) (bofZ 1) (bofZ 0)) (bofZ 1) false);
   (74, passes F (1#1000000) (qlogis (bofZ 0) (bofZ 0) (Bopp (bofZ 1))) B754_nan false);
   (75, passes F (1#1000000) (qlogis (bofZ 0) (bofZ 0) ninf64) B754_nan false);
   (77, passes F (1#1000000) (qlogis (bofZ 0) (bofZ 1) pinf64) B754_nan false);
   (78, passes F (1#1000000) (qlogis pinf64 (bofZ 1) pinf64) B754_nan false);
   (79, passes F (1#1000000) (qlogis (bofZ 0) pinf64 pinf64) B754_nan false);
   (80, passes F (1#1000000) (qlogis pinf64 pinf64 pinf64) B754_nan false);
   (81, passes F (1#1000000) (qlogis ninf64 (bofZ 1) pinf64) B754_nan false);
   (82, passes F (1#1000000) (qlogis (bofZ 0) ninf64 pinf64) B754_nan false);
   (83, passes F (1#1000000) (qlogis ninf64 ninf64 pinf64) B754_nan false);
   (85, passes F (1#1000000) (qlogis (blit (5#10)) pinf64 (bofZ 1)) pinf64 false);
   (86, passes F (1#1000000) (qlogis (blit (5#10)) ninf64 (bofZ 1)) ninf64 false)].
Definition value_qlogis : list (Z * bool) := [
   (45, passes F (1#1000000) (qlogis (blit (15#100)) (bofZ 1) (bofZ 2)) (Bopp (blit (2469202#1000000))) false);
   (47, passes F (1#1000000) (qlogis (blit (79#100)) (bofZ 1) (bofZ 2)) (blit (3649851#1000000)) false);
   (49, passes F (1#1000000) (qlogis (blit (9995#10000)) (bofZ 0) (bofZ 1)) (blit (7600402#1000000)) false)].
(** tests/quant/qnorm.cpp *)
Definition limit_qnorm : list (Z * bool) := [
   (46, passes F (1#1000000) (qnorm (blit (5#10)) (bofZ 1) (bofZ 2)) (bofZ 1) false);
   (51, passes F (1#1000000) (qnorm B754_nan (bofZ 0) (bofZ 1)) B754_nan false);
   (52, passes F (1#1000000) (qnorm (bofZ 0) B754_nan (bofZ 1)) B754_nan false);
   (53, passes F (1#1000000) (qnorm (bofZ 0) (bofZ 0) B754_nan) B754_nan false);
   (54, passes F (1#1000000) (qnorm B754_nan B754_nan B754_nan) B754_nan false);
   (56, passes F (1#1000000) (qnorm (Bopp (blit (1#10))) (bofZ 1) (bofZ 2)) B754_nan false);
   (57, passes F (1#1000000) (qnorm (blit (11#10)) (bofZ 1) (bofZ 2)) B754_nan false);
   (59, passes F (1#1000000) (qnorm (bofZ 0) (bofZ 1) (bofZ 2)) ninf64 false);
   (60, passes F (1#1000000) (qnorm (bofZ 0) (bofZ 1) (bofZ 0)) (bofZ 1) false);
   (61, passes F (1#1000000) (qnorm (bofZ 0) pinf64 (bofZ 2)) B754_nan false);
   (62, passes F (1#1000000) (qnorm (bofZ 0) ninf64 (bofZ 2)) ninf64 false);
   (63, passes F (1#1000000) (qnorm (bofZ 0) (bofZ 1) pinf64) B754_nan false);
   (64, passes F (1#1000000) (qnorm (bofZ 0) pinf64 pinf64) B754_nan false);
   (66, passes F (1#1000000) (qnorm (bofZ 1) (bofZ 1) (bofZ 2)) pinf64 false);
   (67, passes F (1#1000000) (qnorm (bofZ 1) (bofZ 1) (bofZ 0)) (bofZ 1) false);
   (68, passes F (1#1000000) (qnorm (bofZ 1) pinf64 (bofZ 2)) pinf64 false);
   (69, passes F (1#1000000) (qnorm (bofZ 1) ninf64 (bofZ 2)) B754_nan false);
   (70, passes F (1#1000000) (qnorm (bofZ 1) (bofZ 1) pinf64) B754_nan false);
   (71, passes F (1#1000000) (qnorm (bofZ 1) pinf64 pinf64) B754_nan false);
   (73, passes F (1#1000000) (qnorm (bofZ 0) (bofZ 1) (bofZ 0)) (bofZ 1) false);
   (74, passes F (1#1000000) (qnorm (bofZ 0) (bofZ 0) (Bopp (bofZ 1))) B754_nan false);
   (75, passes F (1#1000000) (qnorm (bofZ 0) (bofZ 0) ninf64) B754_nan false);
   (77, passes F (1#1000000) (qnorm (bofZ 0) (bofZ 1) pinf64) B754_nan false);
   (78, passes F (1#1000000) (qnorm pinf64 (bofZ 1) pinf64) B754_nan false);
   (79, passes F (1#1000000) (qnorm (bofZ 0) pinf64 pinf64) B754_nan false);
   (80, passes F (1#1000000) (qnorm pinf64 pinf64 pinf64) B754_nan false);
   (81, passes F (1#1000000) (qnorm ninf64 (bofZ 1) pinf64) B754_nan false);
   (82, passes F (1#1000000) (qnorm (bofZ 0) ninf64 pinf64) B754_nan false);
   (83, passes F (1#1000000) (qnorm ninf64 ninf64 pinf64) B754_nan false);
   (85, passes F (1#1000000) (qnorm (blit (5#10)) pinf64 (bofZ 1)) pinf64 false);
   (86, passes F (1#1000000) (qnorm (blit (5#10)) ninf64 (bofZ 1)) ninf64 false)].
Definition value_qnorm : list (Z * bool) := [
   (45, passes F (1#1000000) (qnorm (blit (15#100)) (bofZ 1) (bofZ 2)) (Bopp (blit (1072867#1000000))) false);
   (47, passes F (1#1000000) (qnorm (blit (79#100)) (bofZ 1) (bofZ 2)) (blit (2612842#1000000)) false);
   (49, passes F (1#1000000) (qnorm (blit (9995#10000)) (bofZ 0) (bofZ 1)) (blit (3290527#1000000)) false)].
(** tests/quant/qpois.cpp *)
Definition limit_qpois : list (Z * bool) := [
   (68, passes F (1#1000000) (qpois B754_nan (bofZ 3)) B754_nan false);
   (69, passes F (1#1000000) (qpois (blit (5#10)) B754_nan) B754_nan false);
   (70, passes F (1#1000000) (qpois B754_nan B754_nan) B754_nan false);
   (72, passes F (1#1000000) (qpois (Bopp (blit (1#10))) (bofZ 10)) B754_nan false);
   (73, passes F (1#1000000) (qpois (blit (11#10)) (bofZ 10)) B754_nan false);
   (75, passes F (1#1000000) (qpois (bofZ 0) (bofZ 1)) (bofZ 0) false);
   (76, passes F (1#1000000) (qpois (bofZ 1) (bofZ 1)) pinf64 false);
   (78, passes F (1#1000000) (qpois (bofZ 0) (bofZ 0)) (bofZ 0) false);
   (79, passes F (1#1000000) (qpois (bofZ 1) (bofZ 0)) (bofZ 0) false);
   (80, passes F (1#1000000) (qpois (bofZ 1) (Bopp (bofZ 1))) B754_nan false);
   (81, passes F (1#1000000) (qpois (bofZ 1) ninf64) B754_nan false);
   (83, passes F (1#1000000) (qpois (bofZ 0) pinf64) (bofZ 0) false);
   (84, passes F (1#1000000) (qpois (bofZ 1) pinf64) pinf64 false)].
Definition value_qpois : list (Z * bool) := [
   (44, passes F (1#1000000) (qpois (blit (1#10)) (bofZ 10)) (bofZ 6) false);
   (45, passes F (1#1000000) (qpois (blit (6#10)) (bofZ 10)) (bofZ 11) false);
   (46, passes F (1#1000000) (qpois (blit (95#100)) (bofZ 10)) (bofZ 15) false);
   (48, passes F (1#1000000) (qpois (blit (9984#10000)) (bofZ 10)) (bofZ 20) false);
   (50, passes F (1#1000000) (qpois (blit (1#100)) (bofZ 11)) (bofZ 4) false);
   (51, passes F (1#1000000) (qpois (blit (1#1000)) (bofZ 11)) (bofZ 2) false);
   (52, passes F (1#1000000) (qpois (blit (1#10000)) (bofZ 11)) (bofZ 1) false);
   (53, passes F (1#1000000) (qpois (blit (1#100000)) (bofZ 11)) (bofZ 0) false);
   (55, passes F (1#1000000) (qpois (blit (5#10)) (bofZ 11)) (bofZ 11) false);
   (57, passes F (1#1000000) (qpois (blit (99#100)) (bofZ 11)) (bofZ 19) false);
   (58, passes F (1#1000000) (qpois (blit (999#1000)) (bofZ 11)) (bofZ 23) false);
   (59, passes F (1#1000000) (qpois (blit (9999#10000)) (bofZ 11)) (bofZ 25) false);
   (60, passes F (1#1000000) (qpois (blit (999999#1000000)) (bofZ 11)) (bofZ 30) false);
   (62, passes F (1#1000000) (qpois (blit (25#100)) (bofZ 1000)) (bofZ 979) false);
   (63, passes F (1#1000000) (qpois (blit (75#100)) (bofZ 1000)) (bofZ 1021) false);
   (64, passes F (1#1000000) (qpois (blit (999#1000)) (bofZ 1000)) (bofZ 1099) false)].
(** tests/quant/qradem.cpp *)
Definition limit_qradem : list (Z * bool) := [
   (44, passes F (1#1000000) (qradem (blit (2#10)) (blit (4#10))) (bofZ (-1)) false);
   (45, passes F (1#1000000) (qradem (blit (4#10)) (blit (4#10))) (bofZ (-1)) false);
   (46, passes F (1#1000000) (qradem (blit (9#10)) (blit (4#10))) (bofZ 1) false);
   (48, passes F (1#1000000) (qradem B754_nan (blit (5#10))) B754_nan false);
   (49, passes F (1#1000000) (qradem (blit (5#10)) B754_nan) B754_nan false);
   (50, passes F (1#1000000) (qradem B754_nan B754_nan) B754_nan false);
   (52, passes F (1#1000000) (qradem (bofZ 1) (Bopp (blit (1#10)))) B754_nan false);
   (53, passes F (1#1000000) (qradem (bofZ 1) (blit (11#10))) B754_nan false);
   (55, passes F (1#1000000) (qradem (bofZ (-1)) (blit (4#10))) B754_nan false);
   (56, passes F (1#1000000) (qradem (bofZ 5) (blit (4#10))) B754_nan false)].
Definition value_qradem : list (Z * bool) := [].
(** tests/quant/qt.cpp *)
Definition limit_qt : list (Z * bool) := [
   (49, passes F (1#100000) (qt B754_nan (bofZ 30)) B754_nan false);
   (50, passes F (1#100000) (qt (bofZ 0) B754_nan) B754_nan false);
   (52, passes F (1#100000) (qt (blit (5#10)) (bofZ 0)) B754_nan false);
   (53, passes F (1#100000) (qt (blit (5#10)) (Bopp (bofZ 1))) B754_nan false);
   (54, passes F (1#100000) (qt (blit (5#10)) ninf64) B754_nan false);
   (56, passes F (1#100000) (qt (Bopp (blit (1#10))) (bofZ 11)) B754_nan false);
   (57, passes F (1#100000) (qt (blit (11#10)) (bofZ 11)) B754_nan false);
   (59, passes F (1#100000) (qt (bofZ 0) (bofZ 11)) ninf64 false);
   (60, passes F (1#100000) (qt (bofZ 0) (bofZ 0)) B754_nan false);
   (62, passes F (1#100000) (qt (bofZ 1) (bofZ 11)) pinf64 false);
   (63, passes F (1#100000) (qt (bofZ 1) (bofZ 0)) B754_nan false);
   (66, passes F (1#100000) (qt (blit (7#10)) (bofZ 2)) (blit (6172134#10000000)) false)].
Definition value_qt : list (Z * bool) := [
   (45, passes F (1#100000) (qt (blit (15#100)) (bofZ 11)) (Bopp (blit (1087666#1000000))) false);
   (46, passes F (1#100000) (qt (blit (5#10)) (bofZ 11)) (bofZ 0) false);
   (47, passes F (1#100000) (qt (blit (79#100)) (bofZ 11)) (blit (8377524#10000000)) false);
   (65, passes F (1#100000) (qt (blit (7#10)) (bofZ 1)) (blit (7265425#10000000)) false);
   (67, passes F (1#100000) (qt (blit (7#10)) (bofZ 3)) (blit (5843897#10000000)) false);
   (68, passes F (1#100000) (qt (blit (7#10)) (bofZ 4)) (blit (5686491#10000000)) false);
   (69, passes F (1#100000) (qt (blit (7#10)) (bofZ 5)) (blit (5594296#10000000)) false);
   (70, passes F (1#100000) (qt (blit (7#10)) (bofZ 6)) (blit (5533809#10000000)) false);
   (71, passes F (1#100000) (qt (blit (7#10)) (bofZ 7)) (blit (5491097#10000000)) false);
   (72, passes F (1#100000) (qt (blit (7#10)) (bofZ 8)) (blit (5459338#10000000)) false);
   (73, passes F (1#100000) (qt (blit (7#10)) (bofZ 9)) (blit (5434802#10000000)) false);
   (74, passes F (1#100000) (qt (blit (7#10)) (bofZ 10)) (blit (541528#1000000)) false);
   (76, passes F (1#100000) (qt (blit (7#10)) pinf64) (blit (5244005#10000000)) false)].
(** tests/quant/qunif.cpp *)
Definition limit_qunif : list (Z * bool) := [
   (45, passes F (1#1000000) (qunif (blit (15#100)) (Bopp (bofZ 1)) (bofZ 3)) (Bopp (blit (4#10))) false);
   (46, passes F (1#1000000) (qunif (blit (5#10)) (Bopp (bofZ 1)) (bofZ 3)) (bofZ 1) false);
   (47, passes F (1#1000000) (qunif (blit (95#100)) (Bopp (bofZ 1)) (bofZ 3)) (blit (28#10)) false);
   (49, passes F (1#1000000) (qunif B754_nan (bofZ 2) (bofZ 3)) B754_nan false);
   (50, passes F (1#1000000) (qunif (blit (5#10)) B754_nan (bofZ 3)) B754_nan false);
   (51, passes F (1#1000000) (qunif (blit (5#10)) (bofZ 1) B754_nan) B754_nan false);
   (52, passes F (1#1000000) (qunif (blit (5#10)) B754_nan B754_nan) B754_nan false);
   (53, passes F (1#1000000) (qunif B754_nan B754_nan B754_nan) B754_nan false);
   (55, passes F (1#1000000) (qunif (blit (5#10)) (bofZ 1) (bofZ 1)) B754_nan false);
   (56, passes F (1#1000000) (qunif (blit (5#10)) (bofZ 2) (bofZ 1)) B754_nan false);
   (58, passes F (1#1000000) (qunif (Bopp (blit (1#10))) (Bopp (bofZ 1)) (bofZ 3)) B754_nan false);
   (59, passes F (1#1000000) (qunif (blit (11#10)) (Bopp (bofZ 1)) (bofZ 3)) B754_nan false);
   (61, passes F (1#1000000) (qunif (bofZ 0) (Bopp (bofZ 1)) (bofZ 3)) (Bopp (bofZ 1)) false);
   (62, passes F (1#1000000) (qunif (bofZ 0) (bofZ 0) (bofZ 0)) B754_nan false);
   (63, passes F (1#1000000) (qunif (bofZ 0) pinf64 (bofZ 3)) B754_nan false);
   (64, passes F (1#1000000) (qunif (bofZ 0) (Bopp (bofZ 1)) pinf64) B754_nan false);
   (65, passes F (1#1000000) (qunif (bofZ 0) pinf64 pinf64) B754_nan false);
   (67, passes F (1#1000000) (qunif (bofZ 1) (Bopp (bofZ 1)) (bofZ 3)) (bofZ 3) false);
   (68, passes F (1#1000000) (qunif (bofZ 1) (bofZ 0) (bofZ 0)) B754_nan false);
   (69, passes F (1#1000000) (qunif (bofZ 1) pinf64 (bofZ 3)) B754_nan false);
   (70, passes F (1#1000000) (qunif (bofZ 1) (Bopp (bofZ 1)) pinf64) B754_nan false);
   (71, passes F (1#1000000) (qunif (bofZ 1) pinf64 pinf64) B754_nan false);
   (73, passes F (1#1000000) (qunif (blit (5#10)) (bofZ 1) pinf64) B754_nan false);
   (74, passes F (1#1000000) (qunif (blit (5#10)) ninf64 (bofZ 1)) B754_nan false);
   (76, passes F (1#1000000) (qunif (blit (4#10)) pinf64 pinf64) B754_nan false);
   (77, passes F (1#1000000) (qunif (blit (6#10)) ninf64 ninf64) B754_nan false)].
Definition value_qunif : list (Z * bool) := [].
(** tests/quant/qweibull.cpp *)
Definition limit_qweibull : list (Z * bool) := [
   (49, passes F (1#1000000) (qweibull B754_nan (bofZ 3) (bofZ 2)) B754_nan false);
   (50, passes F (1#1000000) (qweibull (blit (5#10)) B754_nan (bofZ 2)) B754_nan false);
   (51, passes F (1#1000000) (qweibull (blit (5#10)) (bofZ 3) B754_nan) B754_nan false);
   (52, passes F (1#1000000) (qweibull (blit (5#10)) B754_nan B754_nan) B754_nan false);
   (53, passes F (1#1000000) (qweibull B754_nan B754_nan B754_nan) B754_nan false);
   (55, passes F (1#1000000) (qweibull (Bopp (blit (1#10))) (bofZ 3) (bofZ 2)) B754_nan false);
   (56, passes F (1#1000000) (qweibull (blit (11#10)) (bofZ 3) (bofZ 2)) B754_nan false);
   (58, passes F (1#1000000) (qweibull (blit (5#10)) (bofZ (-1)) (bofZ 2)) B754_nan false);
   (59, passes F (1#1000000) (qweibull (blit (5#10)) ninf64 (bofZ 2)) B754_nan false);
   (61, passes F (1#1000000) (qweibull (blit (5#10)) (bofZ 1) (bofZ 0)) B754_nan false);
   (62, passes F (1#1000000) (qweibull (blit (5#10)) (bofZ 4) (bofZ (-1))) B754_nan false);
   (63, passes F (1#1000000) (qweibull (blit (5#10)) (bofZ 3) ninf64) B754_nan false);
   (65, passes F (1#1000000) (qweibull (bofZ 0) (bofZ 0) (bofZ 2)) B754_nan false);
   (66, passes F (1#1000000) (qweibull (blit (5#10)) (bofZ 0) (bofZ 2)) B754_nan false);
   (67, passes F (1#1000000) (qweibull (bofZ 1) (bofZ 0) (bofZ 2)) B754_nan false);
   (68, passes F (1#1000000) (qweibull (bofZ 0) (bofZ 0) pinf64) B754_nan false);
   (69, passes F (1#1000000) (qweibull (bofZ 1) (bofZ 0) pinf64) B754_nan false);
   (70, passes F (1#1000000) (qweibull (blit (4#10)) (bofZ 0) pinf64) B754_nan false);
   (71, passes F (1#1000000) (qweibull (blit (6#10)) (bofZ 0) pinf64) B754_nan false);
   (73, passes F (1#1000000) (qweibull (bofZ 0) pinf64 pinf64) (bofZ 0) false);
   (74, passes F (1#1000000) (qweibull (blit (5#10)) pinf64 pinf64) pinf64 false);
   (75, passes F (1#1000000) (qweibull (bofZ 1) pinf64 pinf64) pinf64 false);
   (76, passes F (1#1000000) (qweibull (blit (5#10)) pinf64 (bofZ 2)) (bofZ 2) false)].
Definition value_qweibull : list (Z * bool) := [
   (45, passes F (1#1000000) (qweibull (blit (5#100)) (bofZ 3) (bofZ 2)) (blit (743105#1000000)) false);
   (46, passes F (1#1000000) (qweibull (blit (35#100)) (bofZ 3) (bofZ 2)) (blit (1510484#1000000)) false);
   (47, passes F (1#1000000) (qweibull (blit (79#100)) (bofZ 3) (bofZ 2)) (blit (2319877#1000000)) false);
   (77, passes F (1#1000000) (qweibull (blit (5#10)) (bofZ 2) pinf64) pinf64 false)].
Definition dens_limits : list (Z * bool) := concat
  [limit_dbern; limit_dbeta; limit_dbinom; limit_dcauchy; limit_dchisq; limit_dexp; limit_df; limit_dgamma; limit_dinvgamma; limit_dinvgauss; limit_dlaplace; limit_dlnorm; limit_dlogis; limit_dnorm; limit_dpois; limit_dradem; limit_dt; limit_dunif; limit_dweibull].
Definition dens_values : list (Z * bool) := concat
  [value_dbern; value_dbeta; value_dbinom; value_dcauchy; value_dchisq; value_dexp; value_df; value_dgamma; value_dinvgamma; value_dinvgauss; value_dlaplace; value_dlnorm; value_dlogis; value_dnorm; value_dpois; value_dradem; value_dt; value_dunif; value_dweibull].
Definition prob_limits : list (Z * bool) := concat
  [limit_pgamma; limit_pbern; limit_pbeta; limit_pbinom; limit_pcauchy; limit_pchisq; limit_pexp; limit_pf; limit_pinvgamma; limit_pinvgauss; limit_plaplace; limit_plnorm; limit_plogis; limit_pnorm; limit_ppois; limit_pradem; limit_pt; limit_punif; limit_pweibull].
Definition prob_values : list (Z * bool) := concat
  [value_pgamma; value_pbern; value_pbeta; value_pbinom; value_pcauchy; value_pchisq; value_pexp; value_pf; value_pinvgamma; value_pinvgauss; value_plaplace; value_plnorm; value_plogis; value_pnorm; value_ppois; value_pradem; value_pt; value_punif; value_pweibull].
Definition quant_limits : list (Z * bool) := concat
  [limit_qbern; limit_qbeta; limit_qbinom; limit_qcauchy; limit_qchisq; limit_qexp; limit_qf; limit_qgamma; limit_qinvgamma; limit_qinvgauss; limit_qlaplace; limit_qlnorm; limit_qlogis; limit_qnorm; limit_qpois; limit_qradem; limit_qt; limit_qunif; limit_qweibull].
Definition quant_values : list (Z * bool) := concat
  [value_qbinom; value_qcauchy; value_qexp; value_qlaplace; value_qlnorm; value_qlogis; value_qt; value_qweibull].
(** The assertions that take long to evaluate; they are not used in the theorems. *)
Definition slow_values : list (Z * bool) := concat
  [value_qbeta; value_qchisq; value_qf; value_qgamma; value_qinvgamma; value_qinvgauss; value_qnorm; value_qpois].
End Suite.

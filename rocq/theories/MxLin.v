(** Linear algebra for the multivariate functions: Cholesky factors, positive definiteness. *)
From Coq Require Import Reals Lra.
From mathcomp Require Import all_ssreflect ssralg matrix.
From Verif Require Import MxR ER Multi SpecMulti.
Set Implicit Arguments. Unset Strict Implicit. Unset Printing Implicit Defensive.
Import GRing.Theory.
Local Open Scope ring_scope.
Local Open Scope R_scope.

Lemma entryD (A B : 'M[R]_1) : entry (A + B)%R = entry A + entry B. Proof. by rewrite /entry mxE. Qed.
Lemma entryN (A : 'M[R]_1) : entry (- A)%R = - entry A. Proof. by rewrite /entry mxE. Qed.
Lemma entryZ c (A : 'M[R]_1) : entry (c *: A) = c * entry A. Proof. by rewrite /entry mxE. Qed.
Lemma entry_scalar c : entry (c%:M) = c. Proof. by rewrite /entry mxE eqxx mulr1n. Qed.
Lemma entry_tr (A : 'M[R]_1) : entry A^T = entry A. Proof. by rewrite /entry mxE. Qed.
Lemma mx11_entry (A : 'M[R]_1) : A = (entry A)%:M. Proof. exact: mx11_scalar. Qed.
Lemma sqr_entry (A : 'M[R]_1) : entry (A^T *m A) = entry A * entry A.
Proof. by rewrite {1 2}(mx11_entry A) tr_scalar_mx -scalar_mxM entry_scalar. Qed.
Lemma vec_norm K (v : 'cV[R]_K) : entry (v^T *m v) = \sum_i (v i ord0 * v i ord0).
Proof. by rewrite /entry mxE; apply: eq_bigr => i _; rewrite mxE. Qed.
Lemma sq_ge0 (x : R) : 0 <= (x * x)%R. Proof. rewrite mulE. exact: Rle_0_sqr. Qed.
Lemma sum_ge0 K (f : 'I_K -> R) : (forall i, 0 <= f i) -> 0 <= \sum_i f i.
Proof. move=> H; apply: (big_ind (fun x : R => 0 <= x)); [exact: Rle_refl| |by move=> i _; exact: H].
by move=> x y Hx Hy; rewrite addE; lra. Qed.
Lemma vec_norm_ge0 K (v : 'cV[R]_K) : 0 <= entry (v^T *m v).
Proof. by rewrite vec_norm; apply: sum_ge0 => i; exact: sq_ge0. Qed.
Lemma sum_0 K (f : 'I_K -> R) : (forall i, 0 <= f i) -> \sum_i f i = 0 -> forall i, f i = 0.
Proof.
move=> H H0 i. have := H i. rewrite (bigD1 i) //= addE in H0.
set s := (\sum_(j < K | j != i) f j)%R in H0. have : 0 <= s.
  apply: (big_ind (fun x : R => 0 <= x)); [exact: Rle_refl| |by move=> j _; exact: H].
  by move=> x y Hx Hy; rewrite addE; lra.
move: H0. rewrite /GRing.zero /=. move=> H0 H1 H2. lra.
Qed.
Lemma vec_norm_gt0 K (v : 'cV[R]_K) : v <> const_mx 0 -> 0 < entry (v^T *m v).
Proof.
move=> H. case: (Rle_lt_or_eq_dec _ _ (vec_norm_ge0 v)) => // E. exfalso. apply: H.
symmetry in E. rewrite vec_norm in E. apply/matrixP => i j. rewrite ord1 mxE.
have := @sum_0 K (fun i => (v i ord0 * v i ord0)%R) (fun i => sq_ge0 _) E i.
rewrite mulE => P. exact: Rsqr_0_uniq.
Qed.

(** B B' is positive semidefinite, and positive definite if B is invertible *)
Lemma psd_gram K n (B : 'M[R]_(K, n)) : pos_semidef (B *m B^T).
Proof.
split; first by rewrite /symmetric trmx_mul trmxK.
move=> v. rewrite /quad. have -> : v^T *m (B *m B^T) *m v = (B^T *m v)^T *m (B^T *m v).
  by rewrite trmx_mul trmxK !mulmxA.
exact: vec_norm_ge0.
Qed.
Lemma pd_gram K (B : 'M[R]_K) : B \in unitmx -> pos_def (B *m B^T).
Proof.
move=> U. split; first by rewrite /symmetric trmx_mul trmxK.
move=> v Hv. rewrite /quad. have -> : v^T *m (B *m B^T) *m v = (B^T *m v)^T *m (B^T *m v).
  by rewrite trmx_mul trmxK !mulmxA.
apply: vec_norm_gt0 => H0. apply: Hv.
have -> : v = invmx (B^T) *m (B^T *m v) by rewrite mulKmx // unitmx_tr.
by rewrite H0; apply/matrixP => i j; rewrite !mxE big1 // => k _; rewrite mxE mulr0.
Qed.
Lemma pd_psd K (A : 'M[R]_K) : pos_def A -> pos_semidef A.
Proof.
move=> [S P]. split=> // v. case: (v =P const_mx 0) => [->|H]; last by left; apply: P.
right. rewrite /quad /entry. rewrite !mxE big1 // => i _. by rewrite [const_mx _ _ _]mxE mulr0.
Qed.
Lemma pd_inv K (A : 'M[R]_K) : A \in unitmx -> pos_def A -> pos_def (invmx A).
Proof.
move=> U [S P]. split; first by rewrite /symmetric trmx_inv S.
move=> v Hv. have -> : quad (invmx A) v = quad A (invmx A *m v).
  by rewrite /quad trmx_mul trmx_inv S !mulmxA mulmxKV.
apply: P => H. apply: Hv. rewrite -(mulKVmx U v) H.
by apply/matrixP => i j; rewrite !mxE big1 // => k _; rewrite mxE mulr0.
Qed.

(** ** The determinant from the Cholesky factor *)
Lemma chol_det K (L A : 'M[R]_K) : cholesky L A -> \det A = (\prod_i L i i) * (\prod_i L i i).
Proof.
move=> [T [_ <-]]. rewrite det_mulmx det_tr.
have -> : \det L = \prod_i L i i; last by [].
apply: det_trig. apply/is_trig_mxP => i j H. exact: T.
Qed.
Lemma prod_gt0 K (f : 'I_K -> R) : (forall i, 0 < f i) -> 0 < \prod_i f i.
Proof. move=> H; apply: (big_ind (fun x : R => 0 < x)); [exact: Rlt_0_1| |by move=> i _; exact: H].
by move=> x y Hx Hy; rewrite mulE; nra. Qed.
Lemma chol_det_gt0 K (L A : 'M[R]_K) : cholesky L A -> 0 < \det A.
Proof. move=> H. rewrite (chol_det H). case: H => _ [P _]. have := prod_gt0 P. nra. Qed.
Lemma unit_of_det K (A : 'M[R]_K) : 0 < \det A -> A \in unitmx.
Proof. move=> H. rewrite unitmxE unitfE. apply/eqP. change (\det A <> 0). lra. Qed.
Lemma chol_unit K (L A : 'M[R]_K) : cholesky L A -> A \in unitmx.
Proof. by move=> /chol_det_gt0 /unit_of_det. Qed.
Lemma chol_unit_L K (L A : 'M[R]_K) : cholesky L A -> L \in unitmx.
Proof.
move=> C. have := chol_unit C. case: C => _ [_ <-]. by rewrite unitmx_mul => /andP [].
Qed.

Lemma const0 m n : (const_mx 0 : 'M[R]_(m, n)) = 0%R.
Proof. apply/matrixP => i j. by rewrite !mxE. Qed.

(** ** Every positive definite matrix has a Cholesky factor *)
Lemma chol_exists K (A : 'M[R]_K) : pos_def A -> exists L, cholesky L A.
Proof.
elim: K A => [|n IH] A [S P].
  exists A; split; first by case. split; first by case. by apply/matrixP; case.
pose a := entry (@ulsubmx R 1 n 1 n A). pose b := @dlsubmx R 1 n 1 n A. pose D := @drsubmx R 1 n 1 n A.
have SA : @block_mx R 1 n 1 n a%:M b^T b D = A.
  rewrite -[RHS](@submxK R 1 n 1 n) -/b -/D. congr block_mx; first by rewrite -mx11_entry.
  by rewrite /b trmx_dlsub S.
have SD : D^T = D by rewrite /D trmx_drsub S.
have quadE (t : R) (w : 'cV_n) : quad A (@col_mx R 1 n 1 t%:M w) =
    a * t * t + 2 * (t * entry (b^T *m w)) + quad D w.
  rewrite /quad -SA (@tr_col_mx R 1 n 1) tr_scalar_mx.
  rewrite (@mul_row_block _ 1 1 n 1 n) (@mul_row_col _ 1 1 n 1) !mulmxDl !entryD.
  rewrite -!scalar_mxM entry_scalar mul_scalar_mx -scalemxAl entryZ.
  have -> : entry (w^T *m b *m t%:M) = t * entry (b^T *m w).
    rewrite -entry_tr trmx_mul tr_scalar_mx trmx_mul trmxK mul_scalar_mx entryZ. by [].
  change ((t * a)%R * t)%R with (t * a * t). lra.
have Pa : 0 < a.
  have := P (@col_mx R 1 n 1 1%:M (const_mx 0)).
  rewrite quadE /quad. 
  have -> : entry (b^T *m const_mx 0) = 0.
    by rewrite /entry mxE big1 // => i _; rewrite [const_mx _ _ _]mxE mulr0.
  have -> : entry ((const_mx 0)^T *m D *m const_mx 0) = 0.
    by rewrite /entry mxE big1 // => i _; rewrite [const_mx _ _ _]mxE mulr0.
  move=> H. suff : 0 < a * 1 * 1 + 2 * (1 * 0) + 0 by lra. apply: H => /matrixP /(_ ord0 ord0).
  rewrite (_ : ord0 = @lshift 1 n ord0); last by apply: val_inj.
  rewrite (@col_mxEu R 1 n 1) !mxE eqxx mulr1n. exact: R1_neq_R0.
pose Sc := (D - (/ a) *: (b *m b^T))%R.
have PS : pos_def Sc.
  split; first by rewrite /symmetric /Sc linearB linearZ /= trmx_mul trmxK SD.
  move=> w Hw.
  pose t : R := Rdiv (Ropp (entry (b^T *m w))) a.
  have E : quad Sc w = quad A (@col_mx R 1 n 1 t%:M w).
    rewrite quadE /quad /Sc mulmxBr mulmxBl entryD entryN -scalemxAr -scalemxAl entryZ.
    have -> : w^T *m (b *m b^T) *m w = (b^T *m w)^T *m (b^T *m w) by rewrite trmx_mul trmxK !mulmxA.
    rewrite sqr_entry /t. field. lra.
  rewrite E. apply: P => /matrixP H. apply: Hw. apply/matrixP => i j.
  have := H (@rshift 1 n i) j. by rewrite (@col_mxEd R 1 n 1) !mxE.
have [L' [T' [D' E']]] := IH Sc PS.
exists (@block_mx R 1 n 1 n (sqrt a)%:M (const_mx 0) ((/ sqrt a) *: b) L').
have Sa : 0 < sqrt a by exact: sqrt_lt_R0.
have Sq : sqrt a * sqrt a = a by apply: sqrt_sqrt; lra.
have CB (A1 A2 : 'M[R]_1) (B1 B2 : 'M[R]_(1, n)) (C1 C2 : 'M[R]_(n, 1)) (D1 D2 : 'M[R]_n) :
    A1 = A2 -> B1 = B2 -> C1 = C2 -> D1 = D2 -> @block_mx R 1 n 1 n A1 B1 C1 D1 = @block_mx R 1 n 1 n A2 B2 C2 D2.
  by move=> -> -> -> ->.
split; [|split].
- move=> i j. case: (@splitP 1 n i) => i' Hi; case: (@splitP 1 n j) => j' Hj.
  + by rewrite Hi Hj !ord1.
  + move=> _. have -> : i = lshift n i' by apply: val_inj. have -> : j = rshift 1 j' by apply: val_inj.
    by rewrite (@block_mxEur R 1 n 1 n) mxE.
  + by rewrite Hi Hj !ord1.
  + rewrite Hi Hj ltn_add2l => H. have -> : i = rshift 1 i' by apply: val_inj. have -> : j = rshift 1 j' by apply: val_inj.
    rewrite (@block_mxEdr R 1 n 1 n). exact: T'.
- move=> i. case: (@splitP 1 n i) => i' Hi.
  + have -> : i = lshift n i' by apply: val_inj. by rewrite (@block_mxEul R 1 n 1 n) !ord1 mxE eqxx mulr1n.
  + have -> : i = rshift 1 i' by apply: val_inj. by rewrite (@block_mxEdr R 1 n 1 n).
- rewrite (@tr_block_mx R 1 n 1 n) (@mulmx_block _ 1 n 1 n 1 n) -[RHS]SA. apply: CB.
  + rewrite tr_scalar_mx -scalar_mxM. 
    rewrite !const0 mul0mx addr0. by congr (_%:M); rewrite mulE.
  + rewrite const0 mul0mx addr0 linearZ /= mul_scalar_mx scalerA.
    have -> : (sqrt a * / sqrt a)%R = 1%R by rewrite mulE Rinv_r //; lra.
    by rewrite scale1r.
  + rewrite tr_scalar_mx mul_mx_scalar scalerA.
    have -> : (sqrt a * / sqrt a)%R = 1%R by rewrite mulE Rinv_r //; lra.
    by rewrite const0 trmx0 mulmx0 scale1r addr0.
  + rewrite E' linearZ /= -scalemxAl -scalemxAr scalerA /Sc.
    have -> : (/ sqrt a * / sqrt a)%R = / a by rewrite mulE -Rinv_mult Sq.
    by rewrite addrC subrK.
Qed.

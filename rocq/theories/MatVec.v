(** The container helpers of misc/matrix_ops/*.hpp that contain code of their own: the std::vector
    versions, and the Blaze versions of eye and repmat.  The Armadillo and Eigen versions forward to
    the matrix library in one call.

    A std::vector is a list; a Blaze matrix is a function of the row and column index, as in Multi.v.
    An access out of range is the outcome [UB]. *)
From Coq Require Import ZArith QArith Bool List.
From Verif Require Import Num Vec Multi.
Import ListNotations.
Local Open Scope num_scope.

Section MV.
Context {T : Type} {N : Num T}.
Implicit Types X Y : list T.

(** accu.hpp 29-40 and 42-51 *)
Definition accu X : T := fold_left (fun s x => s + x) X (ofZ 0).
Definition sqaccu X : T := fold_left (fun s x => s + x * x) X (ofZ 0).
(** mean.hpp 28-36: the size converted to the element type *)
Definition size_val X : T := ofZ (Z.of_nat (length X)).
Definition mean X : T := accu X / size_val X.
(** var.hpp 28-38 *)
Definition var X : T := let m := mean X in let q := sqaccu X / size_val X in q - m * m.
(** cumsum.hpp 28-46 (also 59-76 and 79-96 on the memory of a matrix): the loop from index [j],
    [k] iterations left *)
Fixpoint cumsum_loop (k : nat) (j : nat) (mem : list T) : outcome (list T) :=
  match k with
  | O => Ok mem
  | S k' =>
      match nth_error mem j, nth_error mem (j - 1) with
      | Some a, Some b => cumsum_loop k' (S j) (set_nth mem j (a + b))
      | _, _ => UB
      end
  end.
Definition cumsum X : outcome (list T) := cumsum_loop (length X - 1) 1 X.
(** sum_absdiff.hpp 28-43 *)
Fixpoint absdiff_loop (k i : nat) X Y (s : T) : outcome T :=
  match k with
  | O => Ok s
  | S k' =>
      match nth_error X i, nth_error Y i with
      | Some a, Some b => absdiff_loop k' (S i) X Y (s + abs (a - b))
      | _, _ => UB
      end
  end.
Definition sum_absdiff X Y : outcome T := absdiff_loop (length X) 0 X Y (ofZ 0).
(** exp.hpp 28-37, log.hpp 28-37 *)
Definition vexp X : list T := map exp X.
Definition vlog X : list T := map log X.
(** fill.hpp 28-35 *)
Definition vfill X (v : T) : list T := map (fun _ => v) X.
(** std::vector::resize(n, v): drop from the end, or append copies of [v] *)
Definition vec_resize X (n : nat) (v : T) : list T := firstn n X ++ repeat v (n - length X).
(** resize.hpp 28-35 and zeros.hpp 28-35; the product is taken in ullint_t *)
Definition resize X (n k : Z) : list T := vec_resize X (Z.to_nat (umul n k)) (ofZ 0).
Definition zeros X (n k : Z) : list T := vec_resize X (Z.to_nat (umul n k)) (ofZ 0).
(** n_elem.hpp 28-36, spacing.hpp 28-37 *)
Definition n_elem X : Z := Z.of_nat (length X).
Definition spacing X : Z := 1.

(** eye.hpp 38-51 (Blaze): the matrix filled with 0, then its diagonal set.  [X] is the old content. *)
Definition eye (X : mat T) (n : nat) : mat T :=
  fold_left (fun A j => mset A j j (ofZ 1)) (seq 0 n) (fun _ _ => ofZ 0).

(** submatrix(A,r0,c0,nr,nc) = B *)
Definition set_sub (A : mat T) (r0 c0 nr nc : nat) (B : mat T) : mat T :=
  fun i j => if (r0 <=? i)%nat && (i <? r0 + nr)%nat && (c0 <=? j)%nat && (j <? c0 + nc)%nat
             then B (i - r0)%nat (j - c0)%nat else A i j.
(** submatrix(A,r0,c0,nr,nc) as a value *)
Definition get_sub (A : mat T) (r0 c0 : nat) : mat T := fun i j => A (r0 + i)%nat (c0 + j)%nat.
(** repmat.hpp 37-58 (Blaze); [junk] is what the constructor of mat_out leaves in its elements, which
    it does not initialise.  The dimensions are not reduced modulo 2^64. *)
Definition repmat (junk : mat T) (r c : nat) (X : mat T) (n k : nat) : mat T :=
  let A := fold_left (fun A j => set_sub A (j * r) 0 r c X) (seq 0 n) junk in
  if (1 <? k)%nat
  then fold_left (fun A j => set_sub A 0 (j * c) (r * n) c (get_sub A 0 c)) (seq 0 k) A
  else A.
End MV.

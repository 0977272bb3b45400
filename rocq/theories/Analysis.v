(** Mean-value helpers used for the special functions. *)
From Coq Require Import Reals Ranalysis5 Lra Psatz.
From Coquelicot Require Import Coquelicot.
From Verif Require Import RealElem.
Local Open Scope R_scope.

Lemma cont_pt (f : R -> R) x : continuous f x <-> continuity_pt f x.
Proof. split; apply continuity_pt_filterlim. Qed.
Lemma derive_cont_pt (f : R -> R) x l : is_derive f x l -> continuity_pt f x.
Proof. intros. apply cont_pt, (ex_derive_continuous f x). now exists l. Qed.

Lemma mvt (f df : R -> R) (a b : R) : a < b ->
  (forall x, a < x < b -> is_derive f x (df x)) ->
  (forall x, a <= x <= b -> continuity_pt f x) ->
  exists c, a < c < b /\ f b - f a = df c * (b - a).
Proof.
  intros Hab Hf Cf.
  assert (pr : forall c, a < c < b -> derivable_pt f c).
  { intros c Hc. exists (df c). now apply is_derive_Reals, Hf. }
  assert (pri : forall c, a < c < b -> derivable_pt id c) by (intros; apply derivable_pt_id).
  destruct (MVT f id a b pr pri Hab Cf) as (c & P & E).
  { intros. apply derivable_continuous_pt, derivable_pt_id. }
  exists c. split; [auto|].
  rewrite (derive_pt_eq_0 f c (df c)) in E by now apply is_derive_Reals, Hf.
  rewrite (derive_pt_eq_0 id c 1) in E by apply derivable_pt_lim_id.
  unfold id in E. lra.
Qed.
Lemma mono_of_derive (f df : R -> R) (a b : R) : a <= b ->
  (forall x, a < x < b -> is_derive f x (df x)) -> (forall x, a < x < b -> 0 <= df x) ->
  (forall x, a <= x <= b -> continuity_pt f x) -> f a <= f b.
Proof.
  intros [Hab| ->] Hf Hp Cf; [|lra].
  destruct (mvt f df a b Hab Hf Cf) as (c & Hc & E). specialize (Hp c Hc). nra.
Qed.
Lemma smono_of_derive (f df : R -> R) (a b : R) : a < b ->
  (forall x, a < x < b -> is_derive f x (df x)) -> (forall x, a < x < b -> 0 < df x) ->
  (forall x, a <= x <= b -> continuity_pt f x) -> f a < f b.
Proof.
  intros Hab Hf Hp Cf.
  destruct (mvt f df a b Hab Hf Cf) as (c & Hc & E). specialize (Hp c Hc). nra.
Qed.
Lemma eq_of_derive (f g df : R -> R) (a b : R) : a <= b ->
  (forall x, a < x < b -> is_derive f x (df x)) ->
  (forall x, a < x < b -> is_derive g x (df x)) ->
  (forall x, a <= x <= b -> continuity_pt f x) -> (forall x, a <= x <= b -> continuity_pt g x) ->
  f b - f a = g b - g a.
Proof.
  intros [Hab| ->] Hf Hg Cf Cg; [|lra].
  destruct (mvt (fun x => f x - g x) (fun _ => 0) a b Hab) as (c & _ & E); [| |lra].
  - intros x Hx. apply (d_eq _ _ (df x - df x)); [|lra].
    now apply d_minus; [apply Hf|apply Hg].
  - intros x Hx. apply continuity_pt_minus; [now apply Cf|now apply Cg].
Qed.
(** intermediate values *)
Lemma ivt (f : R -> R) a b y : a < b -> (forall x, a <= x <= b -> continuity_pt f x) ->
  f a < y < f b -> exists x, a < x < b /\ f x = y.
Proof.
  intros Hab Cf Hy.
  destruct (IVT_interv (fun x => f x - y) a b) as (z & Hz & E); [| | | |].
  - intros x Hx. apply continuity_pt_minus; [now apply Cf|apply continuity_pt_const; red; auto].
  - auto.
  - lra.
  - lra.
  - exists z. assert (f z = y) by lra. repeat split; try lra.
    + destruct Hz as [[Hz| <-] _]; [auto|lra].
    + destruct Hz as [_ [Hz|Hz]]; [auto|subst; lra].
Qed.
(** integrals of real functions *)
Lemma rint_ext (f g : R -> R) (a b : R) :
  (forall x, Rmin a b < x < Rmax a b -> f x = g x) -> RInt f a b = RInt g a b :> R.
Proof. intros H. apply (@RInt_ext R_CompleteNormedModule). exact H. Qed.
Lemma ex_rint (f : R -> R) a b :
  (forall x, Rmin a b <= x <= Rmax a b -> continuous f x) -> ex_RInt f a b.
Proof. apply (@ex_RInt_continuous R_CompleteNormedModule). Qed.
Lemma rint_scal (f : R -> R) (a b k : R) : ex_RInt f a b -> RInt (fun x => k * f x) a b = k * RInt f a b :> R.
Proof. intros H. exact (@RInt_scal R_CompleteNormedModule f a b k H). Qed.
Lemma rint_const (a b c : R) : RInt (fun _ => c) a b = (b - a) * c :> R.
Proof. exact (@RInt_const R_CompleteNormedModule a b c). Qed.
Lemma rint_point (f : R -> R) a : RInt f a a = 0 :> R.
Proof. exact (@RInt_point R_CompleteNormedModule a f). Qed.
Lemma rint_chasles (f : R -> R) a b c : ex_RInt f a b -> ex_RInt f b c ->
  RInt f a b + RInt f b c = RInt f a c :> R.
Proof. exact (@RInt_Chasles R_CompleteNormedModule f a b c). Qed.
Lemma rint_swap (f : R -> R) a b : ex_RInt f a b -> - RInt f a b = RInt f b a :> R.
Proof. exact (@opp_RInt_swap R_CompleteNormedModule f a b). Qed.
Lemma rint_derive (f df : R -> R) (a b : R) :
  (forall x, Rmin a b <= x <= Rmax a b -> is_derive f x (df x)) ->
  (forall x, Rmin a b <= x <= Rmax a b -> continuous df x) ->
  RInt df a b = f b - f a :> R.
Proof. intros H C. apply is_RInt_unique. exact (@is_RInt_derive R_CompleteNormedModule f df a b H C). Qed.

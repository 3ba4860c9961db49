(* C51: the geometric mean in double precision (AverageEdgeModel.cc:121-126: sqrt(x*y)). *)
From Coq Require Import ZArith Reals Lra.
From Flocq Require Import IEEE754.BinarySingleNaN Core.
From Verif Require Import CMatrixFloat.
Open Scope R_scope.
Definition dsqrt : double -> double := Bsqrt mode_NE.
(* Geometric::operator()(x, y) *)
Definition dgeometric (x y : double) : double := dsqrt (dmul x y).
(* a double close to sqrt(xy), within a thousandth *)
Definition near_geometric (r : double) (x y : double) : Prop :=
  is_finite r = true /\ Rabs (B2R r - sqrt (B2R x * B2R y)) <= / 1000 * sqrt (B2R x * B2R y).
Definition p2 (e : Z) : double := binary_normalize 53 1024 eq_refl eq_refl mode_NE 1 e false.
Lemma p2_val : forall k, k = 600%Z \/ k = (-600)%Z -> is_finite (p2 k) = true /\ B2R (p2 k) = bpow radix2 k.
Proof.
  assert (A : B2SF (p2 600) = SpecFloat.S754_finite false 4503599627370496 548) by (vm_compute; reflexivity).
  assert (B : B2SF (p2 (-600)) = SpecFloat.S754_finite false 4503599627370496 (-652)) by (vm_compute; reflexivity).
  intros k [-> | ->].
  - split; [rewrite <- is_finite_SF_B2SF, A; reflexivity|]. rewrite <- SF2R_B2SF, A. cbn [SF2R]. unfold F2R. cbn [Fnum Fexp cond_Zopp].
    change (IZR 4503599627370496) with (bpow radix2 52). rewrite <- bpow_plus. reflexivity.
  - split; [rewrite <- is_finite_SF_B2SF, B; reflexivity|]. rewrite <- SF2R_B2SF, B. cbn [SF2R]. unfold F2R. cbn [Fnum Fexp cond_Zopp].
    change (IZR 4503599627370496) with (bpow radix2 52). rewrite <- bpow_plus. reflexivity.
Qed.
(* Two equal doubles 2^600 have an infinite geometric mean, two equal doubles 2^-600 the mean zero. *)
Theorem C51_geometric_overflow_refuted : exists x, is_finite x = true /\ 0 < B2R x /\ sqrt (B2R x * B2R x) = B2R x /\ is_finite (dgeometric x x) = false /\ ~ near_geometric (dgeometric x x) x x.
Proof.
  exists (p2 600). destruct (p2_val 600 (or_introl eq_refl)) as [F V]. assert (I : is_finite (dgeometric (p2 600) (p2 600)) = false) by (rewrite <- is_finite_SF_B2SF; vm_compute; reflexivity).
  split; [exact F|]. split; [rewrite V; apply bpow_gt_0|]. split; [apply sqrt_square; rewrite V; apply bpow_ge_0|]. split; [exact I|]. intros [H _]. congruence.
Qed.
Theorem C51_geometric_underflow_refuted : exists x, is_finite x = true /\ 0 < B2R x /\ sqrt (B2R x * B2R x) = B2R x /\ B2R (dgeometric x x) = 0 /\ ~ near_geometric (dgeometric x x) x x.
Proof.
  exists (p2 (-600)). destruct (p2_val (-600) (or_intror eq_refl)) as [F V]. assert (I : B2SF (dgeometric (p2 (-600)) (p2 (-600))) = SpecFloat.S754_zero false) by (vm_compute; reflexivity).
  assert (Z : B2R (dgeometric (p2 (-600)) (p2 (-600))) = 0) by (rewrite <- SF2R_B2SF, I; reflexivity).
  assert (P : 0 < B2R (p2 (-600))) by (rewrite V; apply bpow_gt_0). assert (Q : sqrt (B2R (p2 (-600)) * B2R (p2 (-600))) = B2R (p2 (-600))) by (apply sqrt_square; lra).
  split; [exact F|]. split; [exact P|]. split; [exact Q|]. split; [exact Z|]. intros [_ H]. rewrite Z, Q in H. replace (0 - B2R (p2 (-600))) with (- B2R (p2 (-600))) in H by ring. rewrite Rabs_Ropp, Rabs_right in H by lra. lra.
Qed.
Print Assumptions C51_geometric_overflow_refuted.
Print Assumptions C51_geometric_underflow_refuted.

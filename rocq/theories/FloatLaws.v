From Coq Require Import Bool ZArith Reals Lia Lra.
From Flocq Require Import Core IEEE754.BinarySingleNaN.
From Verif Require Import CMatrixFloat.
Definition done : double := Bone.
Definition dopp : double -> double := Bopp.
Lemma dmul_one : forall x, dmul done x = x.
Proof.
  intros x. destruct x as [s|s| |s m e H]; try (destruct s; reflexivity); [reflexivity|].
  set (x := B754_finite s m e H : double).
  pose proof (Bmult_correct 53 1024 _ _ mode_NE done x) as C.
  unfold done in C. rewrite Bone_correct, Rmult_1_l in C.
  rewrite round_generic in C; [|apply valid_rnd_N|apply (generic_format_B2R 53 1024)].
  rewrite Rlt_bool_true in C by apply abs_B2R_lt_emax. destruct C as (C1 & C2 & C3).
  assert (F : is_finite (Bmult mode_NE (Bone : double) x) = true) by (rewrite C2; reflexivity).
  apply B2R_Bsign_inj; [exact F|reflexivity|exact C1|].
  unfold dmul, done. rewrite C3; [|destruct (Bmult mode_NE (Bone : double) x); try reflexivity; discriminate].
  rewrite Bsign_Bone. destruct (Bsign x); reflexivity.
Qed.
Lemma dmul_minus_one : forall x, dmul (dopp done) x = dopp x.
Proof.
  intros x. destruct x as [s|s| |s m e H]; try (destruct s; reflexivity); [reflexivity|].
  set (x := B754_finite s m e H : double).
  pose proof (Bmult_correct 53 1024 _ _ mode_NE (dopp done) x) as C.
  unfold dopp, done in C. rewrite B2R_Bopp, Bone_correct in C. replace (- (1) * B2R x)%R with (B2R (dopp x)) in C by (unfold dopp; rewrite B2R_Bopp; lra).
  rewrite round_generic in C; [|apply valid_rnd_N|apply (generic_format_B2R 53 1024)].
  rewrite Rlt_bool_true in C by apply abs_B2R_lt_emax. destruct C as (C1 & C2 & C3).
  assert (F : is_finite (dmul (dopp done) x) = true) by (unfold dmul, dopp, done; rewrite C2; reflexivity).
  apply B2R_Bsign_inj; [exact F|reflexivity|exact C1|].
  unfold dmul, dopp, done in *. rewrite C3; [|destruct (Bmult mode_NE _ x); try reflexivity; discriminate].
  rewrite !Bsign_Bopp by reflexivity. rewrite Bsign_Bone. destruct (Bsign x); reflexivity.
Qed.
Lemma dadd_opp : forall x, is_finite x = true -> deqz (dadd x (dopp x)) = true.
Proof.
  intros x Hx. pose proof (Bplus_correct 53 1024 _ _ mode_NE x (dopp x) Hx) as C.
  unfold dopp in C. rewrite is_finite_Bopp, B2R_Bopp in C. specialize (C Hx).
  replace (B2R x + - B2R x)%R with 0%R in C by lra. rewrite round_0 in C by apply valid_rnd_N.
  rewrite Rabs_R0, Rlt_bool_true in C by apply bpow_gt_0. destruct C as (C1 & C2 & _).
  unfold dadd, dopp. destruct (Bplus mode_NE x (Bopp x)) as [s|s| |s m e H]; try discriminate; [reflexivity|].
  exfalso. cbn in C1. destruct s; cbn in C1.
  - assert (F2R (Float radix2 (Z.neg m) e) < 0)%R by (apply F2R_lt_0; reflexivity). lra.
  - assert (0 < F2R (Float radix2 (Z.pos m) e))%R by (apply F2R_gt_0; reflexivity). lra.
Qed.

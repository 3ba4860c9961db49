(* Doubles written and read again. *)
From Coq Require Import Ascii String List Bool Arith ZArith Reals Lia Lra Psatz.
From Flocq Require Import Core IEEE754.BinarySingleNaN Relative.
Import ListNotations.
Require Import Verif.CMatrixFloat Verif.RestartText Verif.RestartTextSpec Verif.RestartNumber Verif.RestartNumberProofs.
Local Open Scope R_scope.
Local Arguments Z.pow : simpl never.
Local Arguments Z.mul : simpl never.

Notation rnd := (round radix2 fexp ZnearestE).
Lemma fexp_valid : Valid_exp fexp.
Proof. apply FLT_exp_valid. reflexivity. Qed.
Local Existing Instance fexp_valid.
Lemma nearest_double_correct : forall v s, Rabs (rnd v) < bpow radix2 1024 ->
  is_finite (nearest_double v s) = true /\ B2R (nearest_double v s) = rnd v /\
  (rnd v <> 0 -> Bsign (nearest_double v s) = Rlt_bool v 0) /\ (rnd v = 0 -> Bsign (nearest_double v s) = s).
Proof.
  intros v s H. unfold nearest_double.
  pose proof (binary_normalize_correct 53 1024 eq_refl eq_refl mode_NE (ZnearestE (scaled_mantissa radix2 fexp v)) (cexp radix2 fexp v) s) as C. cbv zeta in C.
  change (F2R (Float radix2 (ZnearestE (scaled_mantissa radix2 fexp v)) (cexp radix2 fexp v))) with (rnd v) in C.
  change (SpecFloat.fexp 53 1024) with fexp in C. change (round_mode mode_NE) with ZnearestE in C.
  rewrite (round_generic radix2 fexp ZnearestE (rnd v)) in C by (apply generic_format_round; [apply fexp_valid|apply valid_rnd_N]).
  rewrite Rlt_bool_true in C by exact H. destruct C as (C1 & C2 & C3). split; [exact C2|]. split; [exact C1|].
  destruct (Rcompare_spec (rnd v) 0) as [L|E|G].
  - split; [|lra]. intros _. rewrite C3. symmetry. apply Rlt_bool_true. apply Rnot_le_lt. intros X. apply (round_le radix2 fexp ZnearestE) in X. rewrite round_0 in X by apply valid_rnd_N. lra.
  - split; [congruence|]. intros _. exact C3.
  - split; [|lra]. intros _. rewrite C3. symmetry. apply Rlt_bool_false. apply Rnot_lt_le. intros X. apply Rlt_le in X. apply (round_le radix2 fexp ZnearestE) in X. rewrite round_0 in X by apply valid_rnd_N. lra.
Qed.
Lemma nearest_double_overflow : forall v s, 0 < v -> bpow radix2 1024 <= rnd v -> nearest_double v s = B754_infinity false.
Proof.
  intros v s P H. unfold nearest_double.
  pose proof (binary_normalize_correct 53 1024 eq_refl eq_refl mode_NE (ZnearestE (scaled_mantissa radix2 fexp v)) (cexp radix2 fexp v) s) as C. cbv zeta in C.
  change (F2R (Float radix2 (ZnearestE (scaled_mantissa radix2 fexp v)) (cexp radix2 fexp v))) with (rnd v) in C.
  change (SpecFloat.fexp 53 1024) with fexp in C. change (round_mode mode_NE) with ZnearestE in C.
  rewrite (round_generic radix2 fexp ZnearestE (rnd v)) in C by (apply generic_format_round; [apply fexp_valid|apply valid_rnd_N]).
  pose proof (bpow_gt_0 radix2 1024). rewrite Rlt_bool_false in C by (rewrite Rabs_right by lra; exact H). rewrite Rlt_bool_false in C by lra. cbn in C.
  destruct (binary_normalize 53 1024 _ _ _ _ _ _) as [? |[]| |]; try discriminate. reflexivity.
Qed.

(* the value of a positive double as a fraction *)
Lemma fraction : forall m e, (0 < 2 ^ Z.max (- e) 0)%Z /\ IZR (Zpos m * 2 ^ Z.max e 0) / IZR (2 ^ Z.max (- e) 0) = F2R (Float radix2 (Zpos m) e).
Proof.
  intros m e. split; [apply Z.pow_pos_nonneg; lia|]. unfold F2R. cbn [Fnum Fexp]. rewrite mult_IZR.
  assert (P : forall z, (0 <= z)%Z -> IZR (2 ^ z) = bpow radix2 z) by (intros z Hz; apply (IZR_Zpower radix2 z Hz)). rewrite !P by lia.
  replace (bpow radix2 (Z.max e 0)) with (bpow radix2 e * bpow radix2 (Z.max (- e) 0)) by (rewrite <- bpow_plus; f_equal; lia).
  pose proof (bpow_gt_0 radix2 (Z.max (- e) 0)). field. lra.
Qed.
Lemma finite_range : forall s m e H, power10 (-324) <= F2R (Float radix2 (Zpos m) e) < power10 316 /\ F2R (Float radix2 (Zpos m) e) < bpow radix2 1024 /\
  Rabs (B2R (B754_finite s m e H : double)) = F2R (Float radix2 (Zpos m) e).
Proof.
  intros s m e H. assert (E : Rabs (B2R (B754_finite s m e H : double)) = F2R (Float radix2 (Zpos m) e)) by (cbn [B2R]; rewrite <- F2R_Zabs; f_equal; destruct s; reflexivity).
  pose proof (abs_B2R_lt_emax 53 1024 (B754_finite s m e H)) as U.
  assert (L : bpow radix2 (-1074) <= Rabs (B2R (B754_finite s m e H : double))) by (apply (abs_B2R_ge_emin 53 1024); reflexivity).
  rewrite E in *. split; [split|auto].
  - eapply Rle_trans; [|exact L]. unfold power10. change (-324)%Z with (Z.opp 324). change (-1074)%Z with (Z.opp 1074). rewrite !bpow_opp. apply Rinv_le; [apply bpow_gt_0|].
    rewrite <- !IZR_Zpower by lia. apply IZR_le. vm_compute. discriminate.
  - eapply Rlt_le_trans; [exact U|]. unfold power10. rewrite <- !IZR_Zpower by lia. apply IZR_le. vm_compute. discriminate.
Qed.

(* what the text of a finite double says *)
Definition signed (s : bool) (v : R) : R := if s then - v else v.
Lemma show_finite : forall s m e H, exists k d k', show_double (B754_finite s m e H) = scientific s d k' /\ (-324 <= k <= 316)%Z /\ (10 ^ 15 <= d < 10 ^ 16)%Z /\ (-324 <= k' <= 317)%Z /\
  let x := F2R (Float radix2 (Zpos m) e) in
  power10 k <= x < power10 (k + 1) /\ Rabs (IZR d * power10 (k' - 15) - x) <= / 2 * power10 (k - 15) /\
  exists d0, IZR d0 * power10 (k - 15) = IZR d * power10 (k' - 15) /\ Rabs (IZR d0 - x * power10 (15 - k)) <= / 2.
Proof.
  intros s m e H. destruct (finite_range s m e H) as (R1 & _ & _). destruct (fraction m e) as [D F]. rewrite <- F in R1.
  destruct (digits_of_spec _ _ D R1) as (k & d & k' & E & X). rewrite F in X. exists k, d, k'. split; [|exact X]. cbn [show_double]. rewrite E. reflexivity.
Qed.
Lemma show_numeral : forall x, is_finite x = true -> numeral (show_double x).
Proof.
  intros [s|s| |s m e H] F; try discriminate; [apply scientific_numeral; lia|]. destruct (show_finite s m e H) as (k & d & k' & E & _ & D & _). rewrite E. apply scientific_numeral. lia.
Qed.
Lemma atof_scientific : forall s d k, (0 <= d < 10 ^ 16)%Z -> (Z.abs k < 1000)%Z -> atof_double (scientific s d k) = nearest_double (signed s (IZR d * power10 (k - 15))) s.
Proof. intros s d k Hd Hk. unfold atof_double. rewrite read_scientific by assumption. reflexivity. Qed.
Lemma B2R_signed : forall s m e H, B2R (B754_finite s m e H : double) = signed s (F2R (Float radix2 (Zpos m) e)).
Proof. intros s m e H. cbn [B2R]. destruct s; cbn [SpecFloat.cond_Zopp signed]; [|reflexivity]. rewrite <- F2R_Zopp. reflexivity. Qed.

(* 16 digits are enough: nothing is lost *)
Lemma reread_exact : forall x n j, is_finite x = true -> B2R x = IZR n * power10 j -> (Z.abs n < 10 ^ 16)%Z -> atof_double (show_double x) = x.
Proof.
  intros [s|s| |s m e H] n j F E N; try discriminate.
  - cbn [show_double]. rewrite atof_scientific by lia. replace (signed s (IZR 0 * power10 (0 - 15))) with 0 by (unfold signed; destruct s; ring).
    unfold nearest_double. rewrite scaled_mantissa_0. change 0 with (IZR 0). rewrite (@Zrnd_IZR ZnearestE (valid_rnd_N _)). reflexivity.
  - destruct (show_finite s m e H) as (k & d & k' & ES & _ & D & K & [X1 X2] & _ & d0 & V & N0). cbv zeta in *. rewrite ES, atof_scientific by lia.
    rewrite B2R_signed in E. set (x := F2R (Float radix2 (Zpos m) e)) in *.
    pose proof (power10_pos k) as PK. pose proof (power10_pos j) as PJ.
    assert (EX : x = IZR (Z.abs n) * power10 j).
    { rewrite abs_IZR. assert (XP : 0 < x) by lra. rewrite <- (Rabs_right (power10 j)) by lra. rewrite <- Rabs_mult, <- E. unfold signed. destruct s; [rewrite Rabs_Ropp|]; rewrite Rabs_right; lra. }
    assert (J : (k - 15 <= j)%Z).
    { destruct (Z.le_gt_cases (k - 15) j) as [J|J]; [exact J|exfalso]. assert (power10 j <= power10 (k - 16)) by (apply power10_le; lia).
      assert (IZR (Z.abs n) <= power10 16) by (rewrite power10_IZR by lia; apply IZR_le; lia).
      assert (IZR (Z.abs n) < power10 16) by (rewrite power10_IZR by lia; apply IZR_lt; lia).
      assert (0 <= IZR (Z.abs n)) by (apply IZR_le; lia).
      assert (power10 16 * power10 (k - 16) = power10 k) by (rewrite <- power10_plus; f_equal; lia). pose proof (power10_pos (k - 16)).
      assert (x < power10 k) by (rewrite EX; nra). lra. }
    assert (ID : x * power10 (15 - k) = IZR (Z.abs n * 10 ^ (j + 15 - k))).
    { rewrite EX, mult_IZR, <- power10_IZR by lia. rewrite Rmult_assoc, <- power10_plus. f_equal. f_equal. lia. }
    assert (d0 = Z.abs n * 10 ^ (j + 15 - k))%Z.
    { rewrite ID, <- minus_IZR, <- abs_IZR in N0. assert (IZR (Z.abs (d0 - Z.abs n * 10 ^ (j + 15 - k))) < 1) by lra. apply lt_IZR in H0. lia. }
    subst d0. rewrite <- V, <- ID. rewrite Rmult_assoc, <- power10_plus. replace (15 - k + (k - 15))%Z with 0%Z by lia. change (power10 0) with 1. rewrite Rmult_1_r.
    set (y := B754_finite s m e H : double). change (signed s x) with (signed s (F2R (Float radix2 (Zpos m) e))). rewrite <- (B2R_signed s m e H). fold y.
    assert (G : rnd (B2R y) = B2R y) by (apply round_generic; [apply valid_rnd_N|apply (generic_format_B2R 53 1024)]).
    destruct (nearest_double_correct (B2R y) s) as (C1 & C2 & C3 & C4); [rewrite G; apply abs_B2R_lt_emax|].
    apply B2R_Bsign_inj; [exact C1|reflexivity|rewrite C2; exact G|]. rewrite G in C3. unfold y in *. rewrite B2R_signed in *. fold x in C3 |- *. assert (XP : 0 < x) by lra.
    rewrite C3 by (unfold signed; destruct s; lra). cbn [Bsign]. unfold signed. destruct s; [apply Rlt_bool_true; lra|apply Rlt_bool_false; lra].
Qed.
(* otherwise the error is less than 7 units of the 16th digit *)
Definition greatest : R := IZR 1797693134862314 * power10 293.
Lemma reread_close : forall x, is_finite x = true -> Rabs (B2R x) <= greatest ->
  is_finite (atof_double (show_double x)) = true /\ Rabs (B2R (atof_double (show_double x)) - B2R x) <= 7 / 10 ^ 16 * Rabs (B2R x) + / 2 * bpow radix2 (-1074).
Proof.
  intros [s|s| |s m e H] F G; try discriminate.
  - rewrite (reread_exact (B754_zero s) 0 0); [|reflexivity|cbn; ring|reflexivity]. split; [reflexivity|]. cbn [B2R]. rewrite Rminus_0_r, Rabs_R0. pose proof (bpow_gt_0 radix2 (-1074)). lra.
  - destruct (show_finite s m e H) as (k & d & k' & ES & K0 & D & K & [X1 X2] & V & _). cbv zeta in *. rewrite ES, atof_scientific by lia.
    destruct (finite_range s m e H) as (_ & _ & EA). rewrite EA in G. rewrite EA, B2R_signed. set (x := F2R (Float radix2 (Zpos m) e)) in *. set (v := IZR d * power10 (k' - 15)) in *.
    pose proof (power10_pos (k - 15)) as P.
    assert (K15 : power10 (k - 15) * 10 ^ 15 <= x).
    { replace (10 ^ 15) with (power10 15) by (rewrite power10_IZR by lia; change (10 ^ 15)%Z with 1000000000000000%Z; lra). rewrite <- power10_plus. replace (k - 15 + 15)%Z with k by lia. exact X1. }
    assert (V1 : Rabs (v - x) <= 5 / 10 ^ 16 * x) by lra.
    destruct (error_N_FLT radix2 (-1074) 53 eq_refl (fun z => negb (Z.even z)) v) as (eps & eta & E1 & E2 & _ & E3). change (Znearest (fun z => negb (Z.even z))) with ZnearestE in E3. change (FLT_exp (-1074) 53) with fexp in E3.
    assert (B52 : bpow radix2 (- (53) + 1) = / 4503599627370496) by reflexivity. rewrite B52 in E1.
    assert (XP : 0 < x) by lra. apply Rabs_le_inv in V1. assert (VP : 0 <= v <= 2 * x) by lra.
    assert (EV : Rabs (v * eps) <= 112 / 10 ^ 18 * x).
    { rewrite Rabs_mult, (Rabs_right v) by lra. assert (0 <= Rabs eps) by apply Rabs_pos. assert (v <= x * (1 + 5 / 10 ^ 16)) by lra. nra. }
    assert (RV : Rabs (rnd v - x) <= 7 / 10 ^ 16 * x + / 2 * bpow radix2 (-1074)).
    { rewrite E3. replace (v * (1 + eps) + eta - x) with ((v - x) + v * eps + eta) by ring. eapply Rle_trans; [apply Rabs_triang|]. eapply Rle_trans; [apply Rplus_le_compat; [apply Rabs_triang|exact E2]|].
      assert (Rabs (v - x) <= 5 / 10 ^ 16 * x) by (apply Rabs_le; lra). lra. }
    assert (SR : rnd (signed s v) = signed s (rnd v)) by (destruct s; [apply round_NE_opp|reflexivity]).
    assert (AB : Rabs (rnd v) < bpow radix2 1024).
    { assert (V2 : v <= IZR 1797693134862315 * power10 293).
      { destruct (Z.le_gt_cases k 308) as [L|L].
        - assert (power10 (k - 15) <= power10 293) by (apply power10_le; lia). apply Rabs_le_inv in V. unfold greatest in G. pose proof (power10_pos 293). lra.
        - exfalso. assert (power10 309 <= power10 k) by (apply power10_le; lia). unfold greatest in G. assert (IZR 1797693134862314 * power10 293 < power10 309); [|lra]. rewrite !power10_IZR by lia. rewrite <- mult_IZR. apply IZR_lt. reflexivity. }
      rewrite E3. eapply Rle_lt_trans; [apply Rabs_triang|]. 
      assert (A1 : Rabs (v * (1 + eps)) <= v * (1 + / 4503599627370496)).
      { rewrite Rabs_mult, (Rabs_right v) by lra. apply Rmult_le_compat_l; [lra|]. eapply Rle_trans; [apply Rabs_triang|]. rewrite Rabs_R1. lra. }
      assert (A2 : Rabs eta <= 1). { eapply Rle_trans; [exact E2|]. pose proof (bpow_le radix2 (-1074) 0 ltac:(lia)) as Q. change (bpow radix2 0) with 1 in Q. lra. }
      assert (A3 : IZR 1797693134862315 * power10 293 * (1 + / 4503599627370496) + 1 < bpow radix2 1024).
      { rewrite <- (IZR_Zpower radix2) by lia. rewrite power10_IZR by lia. rewrite <- mult_IZR.
        apply (Rmult_lt_reg_r 4503599627370496); [lra|]. replace ((IZR (1797693134862315 * 10 ^ 293) * (1 + / 4503599627370496) + 1) * 4503599627370496) with (IZR (1797693134862315 * 10 ^ 293) * 4503599627370497 + 4503599627370496) by field.
        rewrite <- !mult_IZR, <- plus_IZR. apply IZR_lt. vm_compute. reflexivity. }
      assert (v * (1 + / 4503599627370496) <= IZR 1797693134862315 * power10 293 * (1 + / 4503599627370496)) by (apply Rmult_le_compat_r; lra). lra. }
    destruct (nearest_double_correct (signed s v) s) as (C1 & C2 & _); [rewrite SR; destruct s; [cbn [signed]; rewrite Rabs_Ropp|]; exact AB|].
    split; [exact C1|]. rewrite C2, SR. destruct s; cbn [signed]; [|exact RV]. replace (- rnd v - - x) with (- (rnd v - x)) by ring. rewrite Rabs_Ropp. exact RV.
Qed.

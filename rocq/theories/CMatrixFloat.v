(* The scalar laws used by C03-C06 hold for IEEE double precision, rounding to
   nearest (Flocq's binary64 with a single NaN).  [Feqz] is the comparison
   with 0.0 of CompressedMatrix.cc:264 (true for +0 and -0, false for NaN). *)
From Coq Require Import Bool ZArith Reals Lia Lra.
From Flocq Require Import Core IEEE754.BinarySingleNaN Plus_error.

Definition double := binary_float 53 1024.
Definition dzero : double := B754_zero false.
#[export] Instance prec53 : FLX.Prec_gt_0 53 := eq_refl.
#[export] Instance prec53_emax : Prec_lt_emax 53 1024 := eq_refl.
Definition dadd : double -> double -> double := Bplus mode_NE.
Definition dmul : double -> double -> double := Bmult mode_NE.
Definition deqz (v : double) : bool := match v with B754_zero _ => true | _ => false end.

Lemma deqz_zero : deqz dzero = true.
Proof. reflexivity. Qed.

Lemma dadd_zero v : deqz v = false -> dadd dzero v = v.
Proof. destruct v; intros H; try discriminate; reflexivity. Qed.

Lemma dadd_canon a v : deqz v = false -> deqz (dadd a v) = true -> dadd a v = dzero.
Proof.
  intros Hv Hz. unfold dadd in *.
  destruct v as [sv|sv| |sv mv ev Bv]; [discriminate| | |].
  - destruct a as [sa|sa| |sa ma ea Ba]; cbn in Hz; try discriminate.
    destruct (eqb sa sv); discriminate.
  - destruct a; cbn in Hz; discriminate.
  - destruct a as [sa|sa| |sa ma ea Ba]; try (cbn in Hz; discriminate).
    set (a := B754_finite sa ma ea Ba : double) in *.
    set (v := B754_finite sv mv ev Bv : double) in *.
    pose proof (Bplus_correct 53 1024 _ _ mode_NE a v eq_refl eq_refl) as H.
    destruct (Bplus mode_NE a v) as [sr| | |] eqn:E; try discriminate.
    clear Hz. rewrite <- E in H.
    destruct (Rlt_bool _ _) in H.
    + destruct H as (HR & _ & HS). rewrite E in HR, HS.
      cbn [B2R] in HR. symmetry in HR. 
      assert (Hsum : (B2R a + B2R v = 0)%R).
      { apply round_plus_eq_0 in HR; [exact HR|apply fexp_correct; exact prec53| | | |].
        - apply (@monotone_exp_not_FTZ (SpecFloat.fexp 53 1024)); [apply fexp_correct; exact prec53|apply fexp_monotone].
        - apply valid_rnd_N.
        - apply (generic_format_B2R 53 1024).
        - apply (generic_format_B2R 53 1024). }
      rewrite Hsum in HS. rewrite Rcompare_Eq in HS by reflexivity.
      cbn [Bsign] in HS. cbn in HS.
      destruct sa, sv; cbn in HS; subst sr; try reflexivity.
      exfalso. assert (B2R a < 0)%R by (apply F2R_lt_0; reflexivity).
      assert (B2R v < 0)%R by (apply F2R_lt_0; reflexivity). lra.
    + destruct H as [H _]. rewrite E in H. destruct (Bsign a); discriminate.
Qed.

Lemma dmul_comm a b : dmul a b = dmul b a.
Proof.
  apply B2SF_inj.
  destruct a as [sa|sa| |sa ma ea Ba], b as [sb|sb| |sb mb eb Bb];
    unfold dmul, Bmult; try reflexivity; try (rewrite (xorb_comm sa sb); reflexivity).
  rewrite !B2SF_SF2B, (xorb_comm sa sb), (Pos.mul_comm ma mb), (Z.add_comm ea eb). reflexivity.
Qed.

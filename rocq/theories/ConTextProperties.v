(* C31: when constants are taken for equal. *)
From Coq Require Import Ascii String List Bool ZArith Reals Lia Lra Permutation.
From Flocq Require Import Core.
From Verif Require Import Sym SymSpec SymProofs Simplify ConText ConTextProofs.
Import ListNotations.
Open Scope R_scope.

(* a decimal number of at most p significant digits *)
Definition decimal (p : Z) (x : R) : Prop := exists m k : Z, (Z.abs m < 10 ^ p)%Z /\ x = IZR m * powerRZ 10 k.
Definition integer (x : R) : Prop := exists n : Z, x = IZR n.

Lemma whole_iff : forall x, whole x = true <-> integer x.
Proof. intros x. split; [apply whole_ex|intros [n ->]; apply whole_IZR]. Qed.
Lemma bpow10 : forall k, powerRZ 10 k = bpow r10 k.
Proof. intros k. symmetry. apply (bpow_powerRZ r10). Qed.
Lemma bpow2 : forall k, powerRZ 2 k = bpow radix2 k.
Proof. intros k. symmetry. apply (bpow_powerRZ radix2). Qed.
Lemma decimal_rnd : forall p x, (0 < p)%Z -> decimal p x -> rnd p x = x.
Proof.
  intros p x P (m & k & M & ->). assert (Q : Prec_gt_0 p) by exact P. apply round_generic; [typeclasses eauto|]. apply generic_format_FLX. exists (Float r10 m k); [unfold F2R; cbn [Fnum Fexp]; now rewrite bpow10|exact M].
Qed.
(* An integer and a number which is not one have different texts. *)
Theorem C31_kinds : forall x y, con_text x = con_text y -> (integer x <-> integer y).
Proof. intros x y E. apply texts in E. destruct E as [W _]. rewrite <- !whole_iff, W. tauto. Qed.
(* Integers of at most 6 significant digits, and other numbers of at most 16, have the same text only if they are equal. *)
Theorem C31_exact_partial : forall x y, con_text x = con_text y ->
  (integer x -> decimal 6 x -> decimal 6 y -> x = y) /\ (~ integer x -> decimal 16 x -> decimal 16 y -> x = y).
Proof.
  intros x y E. apply texts in E. destruct E as [W E]. split; intros I X Y.
  - apply whole_iff in I. rewrite I in E. rewrite !decimal_rnd in E by (reflexivity || assumption). exact E.
  - destruct (whole x) eqn:Wx; [exfalso; now apply I, whole_iff|]. rewrite !decimal_rnd in E by (reflexivity || assumption). exact E.
Qed.
Corollary C31_small : forall n m : Z, (Z.abs n < 10 ^ 6)%Z -> (Z.abs m < 10 ^ 6)%Z -> con_text (IZR n) = con_text (IZR m) -> n = m.
Proof.
  intros n m N M E. apply C31_exact_partial in E. destruct E as [E _]. apply eq_IZR, E; [now exists n|exists n, 0%Z|exists m, 0%Z]; (split; [assumption|cbn; ring]).
Qed.
(* Numbers with the same text are close together. *)
Theorem C31_close : forall x y, con_text x = con_text y ->
  (integer x -> Rabs (x - y) <= / 2 * powerRZ 10 (-5) * (Rabs x + Rabs y)) /\
  (~ integer x -> Rabs (x - y) <= / 2 * powerRZ 10 (-15) * (Rabs x + Rabs y)).
Proof.
  intros x y E. apply texts in E. destruct E as [W E]. rewrite !bpow10. split; intros I.
  - apply whole_iff in I. rewrite I in E. exact (rnd_close 6 x y eq_refl E).
  - destruct (whole x) eqn:Wx; [exfalso; now apply I, whole_iff|]. exact (rnd_close 16 x y eq_refl E).
Qed.
Lemma decimals_apart : forall p a b, (0 < p)%Z -> decimal p a -> decimal p b -> a <> b -> Rabs a + Rabs b <= (2 * powerRZ 10 p + 1) * Rabs (a - b).
Proof.
  assert (H : forall p a b m k n j, (0 < p)%Z -> (Z.abs m < 10 ^ p)%Z -> (Z.abs n < 10 ^ p)%Z -> a = IZR m * powerRZ 10 k -> b = IZR n * powerRZ 10 j -> (j <= k)%Z -> a <> b ->
    Rabs a + Rabs b <= (2 * powerRZ 10 p + 1) * Rabs (a - b)).
  { intros p a b m k n j P M N -> -> L D. rewrite !bpow10 in *.
    assert (U : 0 < bpow r10 j) by apply bpow_gt_0.
    assert (A : bpow r10 j <= Rabs (IZR m * bpow r10 k - IZR n * bpow r10 j)).
    { replace (IZR m * bpow r10 k - IZR n * bpow r10 j) with (IZR (m * 10 ^ (k - j) - n) * bpow r10 j).
      - rewrite Rabs_mult, (Rabs_pos_eq (bpow r10 j)) by lra. rewrite <- (Rmult_1_l (bpow r10 j)) at 1. apply Rmult_le_compat_r; [lra|]. rewrite <- abs_IZR. apply IZR_le.
        assert (m * 10 ^ (k - j) - n <> 0)%Z; [|lia]. intros Q. apply D. replace n with (m * 10 ^ (k - j))%Z by lia. rewrite mult_IZR. change 10%Z with (radix_val r10). rewrite IZR_Zpower by lia.
        rewrite Rmult_assoc, <- bpow_plus. do 2 f_equal. lia.
      - rewrite minus_IZR, mult_IZR. change 10%Z with (radix_val r10). rewrite IZR_Zpower by lia. rewrite Rmult_minus_distr_r, Rmult_assoc, <- bpow_plus. f_equal. do 2 f_equal. lia. }
    assert (B : Rabs (IZR n * bpow r10 j) <= bpow r10 p * bpow r10 j).
    { rewrite Rabs_mult, (Rabs_pos_eq (bpow r10 j)) by lra. apply Rmult_le_compat_r; [lra|]. rewrite <- abs_IZR, <- IZR_Zpower by lia. apply IZR_le. change (Zpower r10 p) with (10 ^ p)%Z. lia. }
    set (a := IZR m * bpow r10 k) in *. set (b := IZR n * bpow r10 j) in *.
    assert (T : Rabs a <= Rabs b + Rabs (a - b)) by (replace a with (b + (a - b)) at 1 by ring; apply Rabs_triang).
    assert (bpow r10 p * bpow r10 j <= bpow r10 p * Rabs (a - b)) by (apply Rmult_le_compat_l; [apply bpow_ge_0|exact A]). lra. }
  intros p a b P (m & k & M & Ea) (n & j & N & Eb) D. destruct (Z.le_ge_cases j k) as [L|L].
  - now apply (H p a b m k n j).
  - rewrite Rplus_comm, Rabs_minus_sym. apply (H p b a n j m k); auto.
Qed.
(* So two different numbers with at most 14 digits, as they are held by the program with relative error at most 2^-53, have different texts, unless both are integers. *)
Theorem C31_written : forall a b x y, decimal 14 a -> decimal 14 b -> a <> b ->
  Rabs (x - a) <= powerRZ 2 (-53) * Rabs a -> Rabs (y - b) <= powerRZ 2 (-53) * Rabs b -> ~ integer x -> con_text x <> con_text y.
Proof.
  intros a b x y A B D X Y I E. apply C31_close in E. destruct E as [_ E]. specialize (E I). pose proof (decimals_apart 14 a b eq_refl A B D) as H.
  set (e := powerRZ 2 (-53)) in *. set (d := powerRZ 10 (-15)) in *.
  assert (He : 0 <= e <= / 1000000000000000) by (unfold e; rewrite bpow2; change (bpow radix2 (-53)) with (/ 9007199254740992); lra).
  assert (Hd : d = / 1000000000000000) by (unfold d; rewrite bpow10; reflexivity). rewrite Hd in E.
  assert (Hp : powerRZ 10 14 = 100000000000000) by (rewrite bpow10; reflexivity). rewrite Hp in H.
  assert (Tx : Rabs x <= Rabs a + Rabs (x - a)) by (replace x with (a + (x - a)) at 1 by ring; apply Rabs_triang).
  assert (Ty : Rabs y <= Rabs b + Rabs (y - b)) by (replace y with (b + (y - b)) at 1 by ring; apply Rabs_triang).
  assert (Tab : Rabs (a - b) <= Rabs (x - a) + Rabs (x - y) + Rabs (y - b)).
  { replace (a - b) with (- (x - a) + (x - y) + (y - b)) by ring. eapply Rle_trans; [apply Rabs_triang|]. apply Rplus_le_compat_r. eapply Rle_trans; [apply Rabs_triang|]. rewrite Rabs_Ropp. lra. }
  pose proof (Rabs_pos a). pose proof (Rabs_pos b). assert (P : 0 < Rabs (a - b)) by (apply Rabs_pos_lt; lra).
  assert (Xa : Rabs (x - a) <= / 1000000000000000 * Rabs a) by (apply Rle_trans with (1 := X); apply Rmult_le_compat_r; lra).
  assert (Yb : Rabs (y - b) <= / 1000000000000000 * Rabs b) by (apply Rle_trans with (1 := Y); apply Rmult_le_compat_r; lra). lra.
Qed.
Example C31_written_case : decimal 14 (1 / 10) /\ decimal 14 (2 / 10).
Proof. split; [exists 1%Z, (-1)%Z|exists 2%Z, (-1)%Z]; (split; [reflexivity|rewrite bpow10; change (bpow r10 (-1)) with (/ 10); lra]). Qed.

(* ---- numbers taken for equal although they are not ---- *)
Lemma mag_between : forall x e, bpow r10 (e - 1) <= x < bpow r10 e -> mag r10 x = e :> Z.
Proof. intros x e H. apply mag_unique_pos. exact H. Qed.
(* rounding to p digits a number given with the fraction f/2 of the last one *)
Lemma rnd_to : forall p x k (m : Z), bpow r10 (k + p - 1) <= x < bpow r10 (k + p) -> Rabs (x * bpow r10 (- k) - IZR m) < / 2 -> rnd p x = IZR m * bpow r10 k.
Proof.
  intros p x k m H E. unfold rnd, round, F2R. cbn [Fnum Fexp]. unfold scaled_mantissa, cexp, FLX_exp. rewrite (mag_between x (k + p) H). replace (k + p - p)%Z with k by lia. f_equal. f_equal. now apply Znearest_imp.
Qed.
Theorem C31_refuted : con_text 1234567 = con_text 1234568 /\ con_text (1 + powerRZ 2 (-52)) = con_text (1 + powerRZ 2 (-51)) /\
  1 + powerRZ 2 (-52) <> 1 + powerRZ 2 (-51).
Proof.
  split; [|split].
  - apply texts. rewrite (whole_IZR 1234567), (whole_IZR 1234568). split; [reflexivity|].
    rewrite (rnd_to 6 1234567 1 123457), (rnd_to 6 1234568 1 123457); [reflexivity| | | |]; cbn -[IZR]; try (split; lra); apply Rabs_def1; lra.
  - assert (W : forall x, 1 < x < 2 -> whole x = false).
    { intros x H. destruct (whole x) eqn:Q; [|reflexivity]. apply whole_iff in Q. destruct Q as [n ->]. destruct H as [H1 H2]. apply lt_IZR in H1. apply lt_IZR in H2. lia. }
    rewrite !bpow2. change (bpow radix2 (-52)) with (/ 4503599627370496). change (bpow radix2 (-51)) with (/ 2251799813685248). apply texts. rewrite !W by (split; lra). split; [reflexivity|].
    rewrite (rnd_to 16 (1 + / 4503599627370496) (-15) 1000000000000000), (rnd_to 16 (1 + / 2251799813685248) (-15) 1000000000000000); [reflexivity| | | |]; cbn -[IZR]; try (split; lra); apply Rabs_def1; lra.
  - rewrite !bpow2. change (bpow radix2 (-52)) with (/ 4503599627370496). change (bpow radix2 (-51)) with (/ 2251799813685248). lra.
Qed.

(* some texts *)
Lemma expo_to : forall p x k m, (0 < p)%Z -> bpow r10 (k + p - 1) <= IZR m * bpow r10 k < bpow r10 (k + p) -> rnd p x = IZR m * bpow r10 k -> expo p x = (k + p - 1)%Z /\ man p x = m.
Proof.
  intros p x k m P H E. unfold expo, man, scaled_mantissa, cexp, FLX_exp. rewrite E, (mag_between _ (k + p) H). split; [lia|].
  replace (- (k + p - p))%Z with (- k)%Z by lia. rewrite Rmult_assoc, <- bpow_plus. replace (k + - k)%Z with 0%Z by lia. rewrite Rmult_1_r. apply Ztrunc_IZR.
Qed.
Lemma Zdigits_6 : Zdigits r10 6 = 1%Z. Proof. reflexivity. Qed.
Example C31_text_case : con_text 1234567 = "1.23457e+06"%string /\ con_text (-5) = "(-5)"%string /\ con_text (/ 2) = "5.000000000000000e-01"%string.
Proof.
  split; [|split].
  - unfold con_text. rewrite (whole_IZR 1234567). destruct (Rlt_dec 1234567 0) as [L|_]; [lra|]. unfold int_text. destruct (Req_EM_T 1234567 0) as [L|_]; [lra|].
    assert (E : rnd 6 1234567 = IZR 123457 * bpow r10 1) by (apply rnd_to; cbn -[IZR]; [split; lra|apply Rabs_def1; lra]).
    destruct (expo_to 6 _ 1 123457 eq_refl ltac:(cbn -[IZR]; split; lra) E) as [K M]. rewrite K, M. reflexivity.
  - unfold con_text. rewrite (whole_IZR (-5)). destruct (Rlt_dec (-5) 0) as [_|L]; [|lra]. unfold int_text. destruct (Req_EM_T (-5) 0) as [L|_]; [lra|].
    assert (M : mag r10 (-5) = 1%Z :> Z) by (apply mag_unique; rewrite Rabs_left by lra; cbn -[IZR]; lra).
    unfold expo. rewrite (rnd_small (-5)) by reflexivity. rewrite M, Ztrunc_IZR. reflexivity.
  - assert (W : whole (/ 2) = false). { destruct (whole (/ 2)) eqn:Q; [|reflexivity]. apply whole_iff in Q. destruct Q as [n Q]. assert (IZR (2 * n) = 1) by (rewrite mult_IZR; lra). apply eq_IZR in H. lia. }
    unfold con_text. rewrite W. destruct (Rlt_dec (/ 2) 0) as [L|_]; [lra|]. unfold sci_text.
    assert (E : rnd 16 (/ 2) = IZR 5000000000000000 * bpow r10 (-16)) by (apply rnd_to; cbn -[IZR]; [split; lra|apply Rabs_def1; lra]).
    destruct (expo_to 16 _ (-16) 5000000000000000 eq_refl ltac:(cbn -[IZR]; split; lra) E) as [K M]. rewrite K, M. reflexivity.
Qed.
Print Assumptions C31_kinds.
Print Assumptions C31_exact_partial.
Print Assumptions C31_small.
Print Assumptions C31_close.
Print Assumptions C31_written.
Print Assumptions C31_refuted.

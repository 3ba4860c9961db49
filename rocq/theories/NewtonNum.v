(* Two instances of the numbers of Newton.v:
   - xq: exact rationals with a NaN (comparisons with NaN are false), used for
     witnesses; logdamp is not used by any witness and is a placeholder;
   - dops: IEEE double (Flocq binary64, one NaN), logdamp arbitrary.
   Both meet the laws [num_laws] assumed by C10. *)
From Coq Require Import Bool ZArith QArith Qabs Reals Lia Lra.
From Flocq Require Import Core IEEE754.BinarySingleNaN.
From Verif Require Import Newton NewtonProofs NewtonConv CMatrixFloat.

Definition xlift2 (f : Q -> Q -> Q) (a b : option Q) : option Q :=
  match a, b with Some x, Some y => Some (f x y) | _, _ => None end.
Definition xcmp (f : comparison -> bool) (a b : option Q) : bool :=
  match a, b with Some x, Some y => f (x ?= y)%Q | _, _ => false end.
Definition xq : ops (option Q) :=
  mkOps (option Q) (Some 0) (xlift2 (fun a b => Qred (a + b))) (xlift2 (fun a b => Qred (a - b)))
    (xlift2 (fun a b => Qred (a * b)))
    (fun a b => match a, b with Some x, Some y => if Qeq_bool y 0 then None else Some (Qred (x / y)) | _, _ => None end)
    (option_map Qopp) (option_map Qabs)
    (xcmp (fun c => match c with Lt => true | _ => false end))
    (xcmp (fun c => match c with Gt => false | _ => true end))
    (xcmp (fun c => match c with Eq => true | _ => false end))
    (fun x => x) (Some (259 # 10000)) (Some (1 # 1000)) (Some (1 # 2)) (Some (1 # 100000000000000000000))
    (Some (1 # 10000000000)).
Definition xnum (x : option Q) : Prop := x <> None.

Lemma xlt : forall a b : Q, ltb xq (Some a) (Some b) = true <-> (a < b)%Q.
Proof. intros a b. cbn. rewrite Qlt_alt. destruct (a ?= b)%Q; split; congruence. Qed.
Lemma xge : forall a b : Q, ltb xq (Some a) (Some b) = false <-> (b <= a)%Q.
Proof.
  intros a b. split; intros H.
  - apply Qnot_lt_le. intros K. apply xlt in K. congruence.
  - destruct (ltb xq (Some a) (Some b)) eqn:E; [|reflexivity]. apply xlt in E.
    exfalso. apply (Qlt_irrefl a). eapply Qlt_le_trans; eauto.
Qed.

Lemma xq_laws : num_laws xq xnum.
Proof.
  constructor.
  - discriminate.
  - intros [a|] [b|]; cbn; try discriminate. split; discriminate.
  - intros [a|] [b|] H; try reflexivity. apply xlt in H. apply xge. apply Qlt_le_weak. exact H.
  - intros [a|]; [|reflexivity]. apply xge. apply Qle_refl.
  - intros [a|] [b|] [c|] Na Nb Nc; try congruence. rewrite !xge. intros. eapply Qle_trans; eauto.
  - intros [a|] [b|] [c|] Na Nb Nc; try congruence. rewrite xge, !xlt. intros. eapply Qle_lt_trans; eauto.
  - intros [a|] Na; [|reflexivity]. cbn [absv xq option_map zero]. apply xge. apply Qabs_nonneg.
  - intros [a|] [b|] Na Nb; try congruence. cbn [zero xq]. rewrite !xge. intros Ha Hb. cbn [add xq xlift2].
    split; [discriminate|]. rewrite !xge, Qred_correct. split.
    + rewrite <- (Qplus_0_r a) at 1. apply Qplus_le_r. exact Hb.
    + rewrite <- (Qplus_0_l b) at 1. apply Qplus_le_l. exact Ha.
  - intros [a|] [b|] H; cbn in H; try (exfalso; apply H; reflexivity). split; discriminate.
Qed.

(* ---- IEEE double ---------------------------------------------------------- *)
Definition dcmp (f : comparison -> bool) (a b : double) : bool :=
  match Bcompare a b with Some c => f c | None => false end.
Definition dlt := dcmp (fun c => match c with Lt => true | _ => false end).
Section DOps.
Variables (ld : double -> double) (k0259 k001 khalf kqeps kcirmin : double).
Definition dops : ops double :=
  mkOps double dzero dadd (Bminus mode_NE) dmul (Bdiv mode_NE) Bopp Babs dlt
    (dcmp (fun c => match c with Gt => false | _ => true end))
    (dcmp (fun c => match c with Eq => true | _ => false end))
    ld k0259 k001 khalf kqeps kcirmin.
Definition dnum (x : double) : Prop := is_nan x = false.

(* order of the non NaN doubles, as extended reals *)
Inductive ext := MInf | Fin (r : R) | PInf.
Definition ext_of (x : double) : ext :=
  match x with
  | B754_infinity true => MInf
  | B754_infinity false => PInf
  | _ => Fin (B2R x)
  end.
Definition elt (a b : ext) : Prop :=
  match a, b with
  | MInf, MInf => False | MInf, _ => True
  | Fin x, Fin y => (x < y)%R | Fin _, PInf => True | Fin _, MInf => False
  | PInf, _ => False
  end.

Lemma dlt_spec : forall a b, dnum a -> dnum b -> (dlt a b = true <-> elt (ext_of a) (ext_of b)).
Proof.
  assert (Hfin : forall a b : double, is_finite a = true -> is_finite b = true ->
    (dlt a b = true <-> (B2R a < B2R b)%R)).
  { intros a b Fa Fb. unfold dlt, dcmp. rewrite (Bcompare_correct 53 1024 a b Fa Fb).
    destruct (Rcompare_spec (B2R a) (B2R b)); split; intros; try discriminate; try reflexivity; lra. }
  intros a b Na Nb.
  destruct a as [sa|sa| |sa ma ea Ba]; try discriminate; destruct b as [sb|sb| |sb mb eb Bb]; try discriminate;
    try (apply Hfin; reflexivity).
  all: try destruct sa; try destruct sb; cbn; split; intros; try discriminate; try contradiction; auto.
Qed.

Lemma elt_trans : forall a b c, ~ elt b a -> elt b c -> elt a c.
Proof. intros [|x|] [|y|] [|z|]; cbn; intros; try tauto; lra. Qed.
Lemma elt_le_trans : forall a b c, ~ elt b a -> ~ elt c b -> ~ elt c a.
Proof. intros [|x|] [|y|] [|z|]; cbn; intros; try tauto; lra. Qed.
Lemma dlt_false : forall a b, dnum a -> dnum b -> (dlt a b = false <-> ~ elt (ext_of a) (ext_of b)).
Proof.
  intros a b Na Nb. pose proof (dlt_spec a b Na Nb) as H. destruct (dlt a b); split; intros; try discriminate.
  - exfalso. apply H0. apply H. reflexivity.
  - intros K. apply H in K. discriminate.
  - reflexivity.
Qed.
Lemma dlt_num : forall a b, dlt a b = true -> dnum a /\ dnum b.
Proof.
  intros a b H. unfold dlt, dcmp, dnum in *. destruct a, b; cbn in *; try discriminate; auto.
Qed.

Lemma dadd_ge : forall a b, dnum a -> dnum b -> dlt a dzero = false -> dlt b dzero = false ->
  dnum (dadd a b) /\ ~ elt (ext_of (dadd a b)) (ext_of a) /\ ~ elt (ext_of (dadd a b)) (ext_of b).
Proof.
  intros a b Na Nb Ha Hb.
  assert (Nz : dnum dzero) by reflexivity.
  apply dlt_false in Ha; [|assumption|assumption]. apply dlt_false in Hb; [|assumption|assumption].
  assert (Ez : ext_of dzero = Fin 0) by reflexivity. rewrite Ez in *.
  assert (Hinf : forall x : double, dnum x -> is_finite x = false -> ~ elt (ext_of x) (Fin 0) -> x = B754_infinity false).
  { intros [s|s| |s m e B] Nx Fx Hx; try discriminate. destruct s; [exfalso; apply Hx; exact I|reflexivity]. }
  destruct (is_finite a) eqn:Fa.
  2:{ rewrite (Hinf a Na Fa Ha). destruct (is_finite b) eqn:Fb.
      - destruct b as [sb|sb| |sb mb eb Bb]; try discriminate; cbn; split; [reflexivity|tauto|reflexivity|tauto].
      - rewrite (Hinf b Nb Fb Hb). cbn. split; [reflexivity|tauto]. }
  destruct (is_finite b) eqn:Fb.
  2:{ rewrite (Hinf b Nb Fb Hb). destruct a as [sa|sa| |sa ma ea Ba]; try discriminate; cbn; split; [reflexivity|tauto|reflexivity|tauto]. }
  assert (Ef : forall x : double, is_finite x = true -> ext_of x = Fin (B2R x)).
  { intros [s|s| |s m e B] Fx; try discriminate; reflexivity. }
  rewrite (Ef a Fa), (Ef b Fb) in *. cbn in Ha, Hb.
  pose proof (Bplus_correct 53 1024 _ _ mode_NE a b Fa Fb) as H. fold (dadd a b) in H.
  destruct (Rlt_bool _ _) eqn:Eov in H.
  - destruct H as (HR & HF & _). split.
    { destruct (dadd a b); try reflexivity; discriminate. }
    rewrite (Ef _ HF), HR. cbn [elt].
    assert (Ra : (B2R a <= Generic_fmt.round radix2 (SpecFloat.fexp 53 1024) (round_mode mode_NE) (B2R a + B2R b))%R).
    { rewrite <- (round_generic radix2 (SpecFloat.fexp 53 1024) (round_mode mode_NE) (B2R a)) at 1.
      - apply round_le; [apply fexp_correct; reflexivity|apply valid_rnd_N|lra].
      - apply (generic_format_B2R 53 1024). }
    assert (Rb : (B2R b <= Generic_fmt.round radix2 (SpecFloat.fexp 53 1024) (round_mode mode_NE) (B2R a + B2R b))%R).
    { rewrite <- (round_generic radix2 (SpecFloat.fexp 53 1024) (round_mode mode_NE) (B2R b)) at 1.
      - apply round_le; [apply fexp_correct; reflexivity|apply valid_rnd_N|lra].
      - apply (generic_format_B2R 53 1024). }
    split; lra.
  - destruct H as (HO & HS).
    assert (Sa : Bsign a = false).
    { destruct (Bsign a) eqn:Es; [|reflexivity]. exfalso.
      assert (Za : forall x : double, is_finite x = true -> Bsign x = true -> ~ (B2R x < 0)%R -> B2R x = 0%R).
      { intros [s|s| |s m e B] Fx Sx Hx; try discriminate; [reflexivity|]. cbn in Sx. subst s.
        exfalso. apply Hx. apply F2R_lt_0. reflexivity. }
      rewrite (Za a Fa Es Ha) in Eov. rewrite (Za b Fb (eq_sym HS) Hb) in Eov.
      rewrite Rplus_0_r, round_0, Rabs_R0 in Eov by apply valid_rnd_N.
      rewrite Rlt_bool_true in Eov; [discriminate|]. apply bpow_gt_0. }
    rewrite Sa in HO. cbn in HO.
    destruct (dadd a b) as [sr|sr| |sr mr er Br]; cbn in HO; try discriminate. injection HO as ->.
    cbn. split; [reflexivity|tauto].
Qed.

Lemma dops_laws : num_laws dops dnum.
Proof.
  constructor; cbn [zero ltb absv add dops].
  - reflexivity.
  - apply dlt_num.
  - intros a b H. destruct (dlt_num a b H) as (Na & Nb). apply dlt_false; auto.
    apply dlt_spec in H; auto. revert H. generalize (ext_of a) (ext_of b).
    intros [|x|] [|y|]; cbn; try tauto; lra.
  - intros a. destruct (is_nan a) eqn:E.
    + destruct a; try discriminate. reflexivity.
    + apply dlt_false; auto. generalize (ext_of a). intros [|x|]; cbn; try tauto; lra.
  - intros a b c Na Nb Nc. rewrite !dlt_false by assumption. apply elt_le_trans.
  - intros a b c Na Nb Nc. rewrite dlt_false, !dlt_spec by assumption. apply elt_trans.
  - intros a Na. apply dlt_false; [exact Na|reflexivity|].
    destruct a as [s|s| |s m e B]; cbn; try tauto; try lra.
    apply Rle_not_lt. apply F2R_ge_0. discriminate.
  - intros a b Na Nb Ha Hb. destruct (dadd_ge a b Na Nb Ha Hb) as (A & B & C).
    split; [exact A|]. split; apply dlt_false; auto.
  - intros a b H. unfold dnum, dadd in *. destruct a, b; cbn in *; try discriminate; auto.
Qed.
End DOps.

(* The text of a number and what is read from it (RestartNumber.v). *)
From Coq Require Import Ascii String List Bool Arith ZArith Reals Lia Lra Psatz.
From Flocq Require Import Core IEEE754.BinarySingleNaN Relative.
Import ListNotations.
Require Import Verif.CMatrixFloat Verif.RestartText Verif.RestartTextSpec Verif.RestartTextProofs Verif.RestartScan2 Verif.RestartNumber.
Local Arguments Nat.ltb : simpl never.
Local Arguments Nat.leb : simpl never.
Local Arguments Nat.eqb : simpl never.
Local Arguments Z.pow : simpl never.
Local Arguments Z.mul : simpl never.
Local Open Scope list_scope.

(* ---- digits ---- *)
Lemma digit_value_char : forall d, (0 <= d < 10)%Z -> digit_value (digit_char d) = d /\ digit (digit_char d) = true.
Proof.
  intros d H. assert (d = 0 \/ d = 1 \/ d = 2 \/ d = 3 \/ d = 4 \/ d = 5 \/ d = 6 \/ d = 7 \/ d = 8 \/ d = 9)%Z as C by lia.
  repeat destruct C as [-> | C]; try (split; reflexivity). subst. split; reflexivity.
Qed.
Lemma read_digits_snoc : forall l c, read_digits (l ++ [c]) = (10 * read_digits l + digit_value c)%Z.
Proof. intros l c. unfold read_digits. rewrite fold_left_app. reflexivity. Qed.
Lemma mod10 : forall d, (0 <= d mod 10 < 10)%Z.
Proof. intros d. apply Z.mod_pos_bound. lia. Qed.
Lemma read_decimal_digits : forall n d, read_digits (decimal n d) = (d mod 10 ^ Z.of_nat n)%Z.
Proof.
  induction n as [|n IH]; intros d; [cbn; symmetry; apply Z.mod_1_r|]. cbn [decimal]. rewrite read_digits_snoc, IH. rewrite (proj1 (digit_value_char _ (mod10 d))).
  rewrite Nat2Z.inj_succ, Z.pow_succ_r by lia. rewrite Z.rem_mul_r by (try lia; apply Z.pow_pos_nonneg; lia). lia.
Qed.
Lemma decimal_digits : forall n d, Forall (fun c => digit c = true) (decimal n d).
Proof. induction n as [|n IH]; intros d; cbn [decimal]; [constructor|]. apply Forall_app. split; [apply IH|]. constructor; [apply digit_value_char, mod10|constructor]. Qed.
Lemma decimal_length : forall n d, length (decimal n d) = n.
Proof. induction n as [|n IH]; intros d; cbn [decimal]; [reflexivity|]. rewrite app_length, IH. cbn. lia. Qed.
Lemma digit_other : forall c, digit c = true -> Ascii.eqb c "-" = false /\ Ascii.eqb c "+" = false /\ among ["e"; "E"]%char c = false /\ Ascii.eqb "." c = false.
Proof.
  intros c H. pose proof (all_ascii (fun c => implb (digit c) (negb (Ascii.eqb c "-") && negb (Ascii.eqb c "+") && negb (among ["e"; "E"]%char c) && negb (Ascii.eqb "." c))) eq_refl c) as K.
  cbn beta in K. rewrite H in K. cbn [implb] in K. rewrite !andb_true_iff, !negb_true_iff in K. tauto.
Qed.
Lemma split_at_app : forall p a x b, Forall (fun c => p c = false) a -> p x = true -> split_at p (a ++ x :: b) = (a, Some b).
Proof. intros p a x b F H. induction F as [|c a Hc F IH]; cbn [app split_at]; [rewrite H; reflexivity|]. rewrite Hc, IH. reflexivity. Qed.
Lemma read_exponent : forall k, (Z.abs k < 1000)%Z -> read_signed (show_exponent k) = k.
Proof.
  intros k H. unfold show_exponent, read_signed, read_sign.
  assert (E : read_digits (if (Z.abs k <? 100)%Z then decimal 2 (Z.abs k) else decimal 3 (Z.abs k)) = Z.abs k).
  { destruct (Z.ltb_spec (Z.abs k) 100); rewrite read_decimal_digits; apply Z.mod_small; [change (10 ^ Z.of_nat 2)%Z with 100%Z|change (10 ^ Z.of_nat 3)%Z with 1000%Z]; lia. }
  destruct (Z.ltb_spec k 0); cbn [Ascii.eqb Bool.eqb]; rewrite E; lia.
Qed.
Lemma decimal_first : forall d, (0 <= d < 10 ^ 16)%Z -> (0 <= d / 10 ^ 15 < 10)%Z.
Proof. intros d H. split; [apply Z.div_pos; lia|apply Z.div_lt_upper_bound; lia]. Qed.
Lemma read_scientific : forall s d k, (0 <= d < 10 ^ 16)%Z -> (Z.abs k < 1000)%Z -> read_decimal (scientific s d k) = (s, d, k - 15)%Z.
Proof.
  intros s d k Hd Hk. unfold read_decimal, scientific. destruct (digit_value_char _ (decimal_first d Hd)) as [V D]. destruct (digit_other _ D) as (O1 & O2 & O3 & O4).
  set (c0 := digit_char (d / 10 ^ 15)) in *.
  assert (RS : read_sign ((if s then ["-"%char] else []) ++ c0 :: "."%char :: decimal 15 d ++ "e"%char :: show_exponent k) = (s, (c0 :: "."%char :: decimal 15 d) ++ "e"%char :: show_exponent k)).
  { destruct s; cbn [app read_sign]; [reflexivity|]. rewrite O1, O2. reflexivity. }
  rewrite RS, split_at_app; [|constructor; [exact O3|constructor; [reflexivity|]]|reflexivity].
  2:{ eapply Forall_impl; [|apply decimal_digits]. intros c Hc. apply digit_other, Hc. }
  change (c0 :: "."%char :: decimal 15 d) with ([c0] ++ "."%char :: decimal 15 d). rewrite (split_at_app (Ascii.eqb ".") [c0] "." (decimal 15 d)); [|constructor; [exact O4|constructor]|reflexivity].
  rewrite read_exponent by exact Hk. rewrite decimal_length. cbn [app]. f_equal. f_equal.
  assert (E : forall t, read_digits (c0 :: t) = (digit_value c0 * 10 ^ Z.of_nat (length t) + read_digits t)%Z).
  { intros t. induction t as [|t x IH] using rev_ind; [cbn; lia|]. rewrite app_comm_cons, !read_digits_snoc, IH, app_length. cbn [length]. rewrite Nat.add_1_r, Nat2Z.inj_succ, Z.pow_succ_r by lia. lia. }
  rewrite E, V, decimal_length, read_decimal_digits. change (Z.of_nat 15) with 15%Z. pose proof (Z.div_mod d (10 ^ 15)). lia.
Qed.
Lemma scientific_numeral : forall s d k, (0 <= d < 10 ^ 16)%Z -> numeral (scientific s d k).
Proof.
  intros s d k Hd. apply lang_numeral. apply L_right, L_right. unfold scientific, float3. destruct (digit_value_char _ (decimal_first d Hd)) as [_ D].
  constructor; [destruct s; [apply L_left; constructor; reflexivity|apply L_right; constructor]|].
  change (digit_char (d / 10 ^ 15) :: "."%char :: decimal 15 d ++ "e"%char :: show_exponent k) with ([digit_char (d / 10 ^ 15)] ++ ["."%char] ++ decimal 15 d ++ ["e"%char] ++ show_exponent k).
  constructor; [apply digits_lang; [discriminate|repeat constructor; exact D]|]. constructor; [apply L_left; constructor; reflexivity|]. constructor; [apply lang_star, decimal_digits|]. constructor; [constructor; reflexivity|].
  unfold show_exponent. match goal with |- lang _ (?a :: ?b) => change (a :: b) with ([a] ++ b) end.
  constructor; [apply L_left; constructor; destruct (k <? 0)%Z; reflexivity|].
  destruct (Z.abs k <? 100)%Z; (apply digits_lang; [intros E; apply (f_equal (@length ascii)) in E; rewrite decimal_length in E; discriminate|apply decimal_digits]).
Qed.

(* ---- the decimal number nearest to a double ---- *)
Local Open Scope R_scope.
Notation ten := (Build_radix 10 eq_refl).
Lemma power10_pos : forall k, 0 < power10 k.
Proof. intros k. apply bpow_gt_0. Qed.
Lemma power10_plus : forall a b, power10 (a + b) = power10 a * power10 b.
Proof. intros a b. apply bpow_plus. Qed.
Lemma power10_IZR : forall k, (0 <= k)%Z -> power10 k = IZR (10 ^ k).
Proof. intros k H. unfold power10. rewrite <- IZR_Zpower by exact H. reflexivity. Qed.
Lemma power10_le : forall a b, (a <= b)%Z -> power10 a <= power10 b.
Proof. intros a b H. apply bpow_le, H. Qed.
Lemma at_least_spec : forall num den k, (0 < den)%Z -> at_least num den k = true <-> power10 k <= IZR num / IZR den.
Proof.
  intros num den k H. assert (D : 0 < IZR den) by (apply IZR_lt; lia). unfold at_least. destruct (Z.leb_spec 0 k) as [K|K]; rewrite Z.leb_le.
  - rewrite power10_IZR by exact K. split; intros X.
    + apply (Rmult_le_reg_l (IZR den)); [exact D|]. rewrite <- mult_IZR. replace (IZR den * (IZR num / IZR den)) with (IZR num) by (field; lra). apply IZR_le, X.
    + apply le_IZR. rewrite mult_IZR. apply (Rmult_le_compat_l (IZR den)) in X; [|lra]. replace (IZR den * (IZR num / IZR den)) with (IZR num) in X by (field; lra). exact X.
  - assert (P : power10 k * IZR (10 ^ (- k)) = 1) by (rewrite <- power10_IZR by lia; rewrite <- power10_plus; replace (k + - k)%Z with 0%Z by lia; reflexivity).
    assert (Q : 0 < IZR (10 ^ (- k))) by (apply IZR_lt, Z.pow_pos_nonneg; lia). set (p := power10 k) in *. set (q := IZR (10 ^ (- k))) in *. split; intros X.
    + apply IZR_le in X. rewrite mult_IZR in X. fold q in X. apply (Rmult_le_reg_r (IZR den)); [exact D|]. replace (IZR num / IZR den * IZR den) with (IZR num) by (field; lra).
      apply (Rmult_le_reg_r q); [exact Q|]. replace (p * IZR den * q) with (IZR den * (p * q)) by ring. rewrite P. lra.
    + apply le_IZR. rewrite mult_IZR. fold q. apply (Rmult_le_compat_r (IZR den * q)) in X; [|apply Rmult_le_pos; lra]. replace (p * (IZR den * q)) with (IZR den * (p * q)) in X by ring. rewrite P in X.
      replace (IZR num / IZR den * (IZR den * q)) with (IZR num * q) in X by (field; lra). lra.
Qed.
Lemma search_spec : forall n k num den, (0 < den)%Z -> power10 k <= IZR num / IZR den < power10 (k + Z.of_nat n + 1) ->
  (k <= search n k num den <= k + Z.of_nat n)%Z /\ power10 (search n k num den) <= IZR num / IZR den < power10 (search n k num den + 1).
Proof.
  induction n as [|n IH]; intros k num den D [H1 H2]; cbn [search].
  - split; [lia|]. split; [exact H1|]. replace (k + 1)%Z with (k + Z.of_nat 0 + 1)%Z by lia. exact H2.
  - pose proof (at_least_spec num den (k + 1) D) as SP. destruct (at_least num den (k + 1)).
    + destruct (IH (k + 1)%Z num den D) as [B X]; [split; [apply SP; reflexivity|]|split; [lia|exact X]].
      replace (k + 1 + Z.of_nat n + 1)%Z with (k + Z.of_nat (S n) + 1)%Z by lia. exact H2.
    + split; [lia|]. split; [exact H1|]. apply Rnot_le_lt. intros X. apply SP in X. discriminate.
Qed.
Lemma nearest_integer_spec : forall a b, (0 < b)%Z -> Rabs (IZR (nearest_integer a b) - IZR a / IZR b) <= / 2.
Proof.
  intros a b H. assert (B : 0 < IZR b) by (apply IZR_lt; lia). pose proof (Z.div_mod a b) as E. pose proof (Z.mod_pos_bound a b H) as M. specialize (E ltac:(lia)).
  unfold nearest_integer. set (q := (a / b)%Z) in *. set (r := (a mod b)%Z) in *.
  assert (V : IZR a / IZR b = IZR q + IZR r / IZR b) by (rewrite E, plus_IZR, mult_IZR; field; lra). rewrite V.
  assert (R0 : 0 <= IZR r / IZR b) by (apply Rmult_le_pos; [apply IZR_le; lia|apply Rlt_le, Rinv_0_lt_compat, B]).
  assert (RB : forall c, (IZR r <= c * IZR b -> IZR r / IZR b <= c) /\ (c * IZR b <= IZR r -> c <= IZR r / IZR b)).
  { intros c. split; intros X.
    - apply (Rmult_le_reg_r (IZR b)); [exact B|]. replace (IZR r / IZR b * IZR b) with (IZR r) by (field; lra). exact X.
    - apply (Rmult_le_reg_r (IZR b)); [exact B|]. replace (IZR r / IZR b * IZR b) with (IZR r) by (field; lra). exact X. }
  assert (R1 : IZR r / IZR b <= 1) by (apply RB; rewrite Rmult_1_l; apply IZR_le; lia).
  assert (LO : (2 * r <= b)%Z -> IZR r / IZR b <= / 2) by (intros X; apply RB; apply IZR_le in X; rewrite mult_IZR in X; lra).
  assert (HI : (b <= 2 * r)%Z -> / 2 <= IZR r / IZR b) by (intros X; apply RB; apply IZR_le in X; rewrite mult_IZR in X; lra).
  set (x := IZR r / IZR b) in *.
  assert (DOWN : x <= / 2 -> Rabs (IZR q - (IZR q + x)) <= / 2) by (intros X; apply Rabs_le; lra).
  assert (UP : / 2 <= x -> Rabs (IZR (q + 1) - (IZR q + x)) <= / 2) by (intros X; rewrite plus_IZR; apply Rabs_le; lra).
  destruct (Z.compare_spec (2 * r) b) as [C|C|C]; [destruct (Z.even q); [apply DOWN, LO; lia|apply UP, HI; lia]|apply DOWN, LO; lia|apply UP, HI; lia].
Qed.
(* the scaled number *)
Lemma scaled : forall num den k, (0 < den)%Z ->
  (0 < den * 10 ^ Z.max (k - 15) 0)%Z /\ IZR (num * 10 ^ Z.max (15 - k) 0) / IZR (den * 10 ^ Z.max (k - 15) 0) = IZR num / IZR den * power10 (15 - k).
Proof.
  intros num den k D. assert (P : forall z, (0 < 10 ^ Z.max z 0)%Z) by (intros z; apply Z.pow_pos_nonneg; lia). split; [pose proof (P (k - 15)%Z); nia|].
  rewrite !mult_IZR, <- !power10_IZR by lia. assert (E : power10 (Z.max (15 - k) 0) = power10 (15 - k) * power10 (Z.max (k - 15) 0)) by (rewrite <- power10_plus; f_equal; lia).
  rewrite E. assert (0 < IZR den) by (apply IZR_lt; lia). pose proof (power10_pos (Z.max (k - 15) 0)). field. lra.
Qed.
(* 10^k <= v < 10^(k+1); what is printed is within half a unit of the 16th digit *)
Lemma digits_of_spec : forall num den, (0 < den)%Z -> power10 (-324) <= IZR num / IZR den < power10 316 ->
  exists k d k', digits_of num den = (d, k') /\ (-324 <= k <= 316)%Z /\ (10 ^ 15 <= d < 10 ^ 16)%Z /\ (-324 <= k' <= 317)%Z /\
    power10 k <= IZR num / IZR den < power10 (k + 1) /\ Rabs (IZR d * power10 (k' - 15) - IZR num / IZR den) <= / 2 * power10 (k - 15) /\
    exists d0, IZR d0 * power10 (k - 15) = IZR d * power10 (k' - 15) /\ Rabs (IZR d0 - IZR num / IZR den * power10 (15 - k)) <= / 2.
Proof.
  intros num den D [H1 H2]. destruct (search_spec 640 (-324) num den D) as [B [K1 K2]].
  { split; [exact H1|]. eapply Rlt_le_trans; [exact H2|apply power10_le; lia]. }
  fold (exponent num den) in *. unfold digits_of. set (k := exponent num den) in *. cbv zeta.
  destruct (scaled num den k D) as [DD SC]. pose proof (nearest_integer_spec (num * 10 ^ Z.max (15 - k) 0) _ DD) as N. rewrite SC in N.
  set (d := nearest_integer (num * 10 ^ Z.max (15 - k) 0) (den * 10 ^ Z.max (k - 15) 0)) in *. set (v := IZR num / IZR den) in *.
  assert (PK : power10 (15 - k) * power10 (k - 15) = 1) by (rewrite <- power10_plus; replace (15 - k + (k - 15))%Z with 0%Z by lia; reflexivity).
  pose proof (power10_pos (15 - k)) as P1. pose proof (power10_pos (k - 15)) as P2.
  assert (L : IZR (10 ^ 15) <= v * power10 (15 - k)).
  { rewrite <- power10_IZR by lia. replace 15%Z with (k + (15 - k))%Z at 1 by lia. rewrite power10_plus. apply Rmult_le_compat_r; lra. }
  assert (U : v * power10 (15 - k) < IZR (10 ^ 16)).
  { rewrite <- power10_IZR by lia. replace 16%Z with ((k + 1) + (15 - k))%Z by lia. rewrite power10_plus. apply Rmult_lt_compat_r; lra. }
  assert (DB : (10 ^ 15 <= d <= 10 ^ 16)%Z).
  { apply Rabs_le_inv in N. split.
    - apply Z.lt_succ_r. apply lt_IZR. rewrite succ_IZR. lra.
    - apply Z.lt_succ_r. apply lt_IZR. rewrite succ_IZR. lra. }
  assert (V : Rabs (IZR d * power10 (k - 15) - v) <= / 2 * power10 (k - 15)).
  { replace (IZR d * power10 (k - 15) - v) with ((IZR d - v * power10 (15 - k)) * power10 (k - 15)).
    - rewrite Rabs_mult, (Rabs_right (power10 (k - 15))) by lra. apply Rmult_le_compat_r; lra.
    - replace v with (v * (power10 (15 - k) * power10 (k - 15))) at 2 by (rewrite PK; ring). ring. }
  destruct (Z.eqb_spec d (10 ^ 16)) as [Ed|Nd].
  - exists k, (10 ^ 15)%Z, (k + 1)%Z.
    assert (E : IZR d * power10 (k - 15) = IZR (10 ^ 15) * power10 (k + 1 - 15)).
    { rewrite Ed. rewrite <- !power10_IZR by lia. rewrite <- !power10_plus. f_equal. lia. }
    split; [reflexivity|]. split; [lia|]. split; [lia|]. split; [lia|]. split; [split; [exact K1|exact K2]|]. rewrite <- E. split; [exact V|]. exists d. split; [reflexivity|exact N].
  - exists k, d, k. split; [reflexivity|]. split; [lia|]. split; [lia|]. split; [lia|]. split; [split; [exact K1|exact K2]|]. split; [exact V|]. exists d. split; [reflexivity|exact N].
Qed.

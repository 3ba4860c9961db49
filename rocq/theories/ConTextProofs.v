From Coq Require Import Ascii String List Bool ZArith Reals Lia Lra.
From Flocq Require Import Core Relative.
From Verif Require Import ConText.
Import ListNotations.
Open Scope Z_scope.

(* ---- digits ---- *)
Definition val (l : list ascii) : Z := fold_left (fun a c => 10 * a + (Z.of_nat (nat_of_ascii c) - 48)) l 0.
Lemma dig_val : forall d, 0 <= d < 10 -> Z.of_nat (nat_of_ascii (dig d)) - 48 = d.
Proof. intros d H. unfold dig. rewrite nat_ascii_embedding by lia. lia. Qed.
Lemma wd_length : forall n m, length (wd n m) = n.
Proof. induction n; intros m; cbn [wd]; [reflexivity|]. rewrite app_length, IHn. cbn. lia. Qed.
Lemma wd_val : forall n m, 0 <= m < 10 ^ Z.of_nat n -> val (wd n m) = m.
Proof.
  induction n; intros m H; cbn [wd]; [change (val []) with 0; cbn in H; lia|]. unfold val. rewrite fold_left_app. cbn [fold_left]. fold (val (wd n (m / 10))).
  rewrite Nat2Z.inj_succ, Z.pow_succ_r in H by lia. rewrite IHn by (split; [apply Z.div_pos; lia|apply Z.div_lt_upper_bound; lia]).
  rewrite dig_val by (apply Z.mod_pos_bound; lia). pose proof (Z.div_mod m 10). lia.
Qed.
Lemma wd_inj : forall n m m', 0 <= m < 10 ^ Z.of_nat n -> 0 <= m' < 10 ^ Z.of_nat n -> wd n m = wd n m' -> m = m'.
Proof. intros n m m' H H' E. rewrite <- (wd_val n m H), <- (wd_val n m' H'), E. reflexivity. Qed.
Definition digit (c : ascii) : Prop := (48 <= nat_of_ascii c < 58)%nat.
Lemma dig_digit : forall d, 0 <= d < 10 -> digit (dig d).
Proof. intros d H. unfold digit, dig. rewrite nat_ascii_embedding by lia. lia. Qed.
Lemma wd_digit : forall n m, Forall digit (wd n m).
Proof. induction n; intros m; cbn [wd]; [constructor|]. apply Forall_app. split; [apply IHn|constructor; [apply dig_digit, Z.mod_pos_bound; lia|constructor]]. Qed.

(* ---- splitting at a character ---- *)
Lemma split_at : forall (c : ascii) a b a' b', ~ In c a -> ~ In c a' -> a ++ c :: b = a' ++ c :: b' -> a = a' /\ b = b'.
Proof.
  intros c a. induction a as [|x a IH]; intros b [|x' a'] b' H H' E; cbn in *; try (injection E as E1 E2).
  - injection E as ->. auto.
  - subst. exfalso. apply H'. now left.
  - subst. exfalso. apply H. now left.
  - subst. destruct (IH b a' b') as [-> ->]; auto.
Qed.
Lemma app_inj_len : forall (A : Type) (a b a' b' : list A), length a = length a' -> a ++ b = a' ++ b' -> a = a' /\ b = b'.
Proof. intros A a. induction a as [|x a IH]; intros b [|x' a'] b' L E; cbn in *; try discriminate; [now subst|]. injection E as -> E. injection L as L. destruct (IH _ _ _ L E) as [-> ->]. auto. Qed.
Lemma not_digit : forall c l, Forall digit l -> ~ digit c -> ~ In c l.
Proof. intros c l H N I. rewrite Forall_forall in H. now apply N, H. Qed.
Lemma e_nd : ~ digit "e". Proof. cbv. lia. Qed.
Lemma p_nd : ~ digit ".". Proof. cbv. lia. Qed.
Lemma o_nd : ~ digit "(". Proof. cbv. lia. Qed.

(* ---- trailing zeros ---- *)
Lemma drop0_app : forall l, exists n, l = repeat "0"%char n ++ drop0 l.
Proof. induction l as [|c l [n IH]]; [now exists 0%nat|]. cbn [drop0]. destruct (Ascii.eqb_spec c "0"); [subst; exists (S n); cbn; now f_equal|now exists 0%nat]. Qed.
Lemma repeat_rev : forall (A : Type) (x : A) n, rev (repeat x n) = repeat x n.
Proof. induction n; [reflexivity|]. cbn. rewrite IHn. symmetry. apply repeat_cons. Qed.
Lemma strip0_app : forall l, exists n, l = strip0 l ++ repeat "0"%char n.
Proof. intros l. destruct (drop0_app (rev l)) as [n E]. exists n. apply (f_equal (@rev _)) in E. rewrite rev_involutive, rev_app_distr, repeat_rev in E. exact E. Qed.
Lemma strip0_inj : forall l l', length l = length l' -> strip0 l = strip0 l' -> l = l'.
Proof.
  intros l l' L E. destruct (strip0_app l) as [n N]. destruct (strip0_app l') as [n' N']. rewrite N, N'. rewrite E in *. f_equal. f_equal.
  apply (f_equal (@length _)) in N. apply (f_equal (@length _)) in N'. rewrite app_length, repeat_length in *. lia.
Qed.
Lemma strip0_digit : forall l, Forall digit l -> Forall digit (strip0 l).
Proof. intros l H. destruct (strip0_app l) as [n N]. rewrite N in H. apply Forall_app in H. tauto. Qed.
Lemma strip0_len : forall l, (length (strip0 l) <= length l)%nat.
Proof. intros l. destruct (strip0_app l) as [n N]. apply (f_equal (@length _)) in N. rewrite app_length in N. lia. Qed.
Lemma point_inj : forall l l', Forall digit l -> Forall digit l' -> point l = point l' -> l = l'.
Proof.
  intros [|c [|d t]] [|c' [|d' t']] H H' E; cbn in E; try congruence; injection E as E1 E2; subst; congruence.
Qed.
Lemma point_len : forall l, (length (point l) <= S (length l))%nat.
Proof. intros [|c [|d t]]; cbn; lia. Qed.
Lemma point_no : forall c l, Forall digit l -> ~ digit c -> c <> "."%char -> ~ In c (point l).
Proof.
  intros c [|x [|d t]] H N D I; cbn in I; [easy| |].
  - apply (not_digit c [x] H N). exact I.
  - apply (not_digit c (x :: d :: t) H N). destruct I as [I|[I|I]]; [now left|congruence|now right].
Qed.
Lemma exp_text_inj : forall k k', exp_text k = exp_text k' -> k = k'.
Proof.
  intros k k' E. unfold exp_text in E. injection E as S E. 
  assert (B : forall j, 0 <= Z.abs j < 10 ^ Z.of_nat (Z.to_nat (Z.max 2 (Zdigits r10 (Z.abs j))))).
  { intros j. split; [lia|]. rewrite Z2Nat.id by lia. pose proof (Zdigits_correct r10 (Z.abs j)) as C. rewrite Z.abs_involutive in C.
    apply Z.lt_le_trans with (1 := proj2 C). change (Zpower r10) with (Z.pow 10). apply Z.pow_le_mono_r; lia. }
  apply (f_equal val) in E. rewrite !wd_val in E by apply B. destruct (Z.ltb_spec k 0), (Z.ltb_spec k' 0); try discriminate; lia.
Qed.

(* ---- rounding ---- *)
Open Scope R_scope.
Section Rnd.
Variable p : Z.
Hypothesis Hp : (0 < p)%Z.
Local Instance HP : Prec_gt_0 p := Hp.
Lemma rnd_format : forall x, generic_format r10 (FLX_exp p) (rnd p x).
Proof. intros x. apply generic_format_round; typeclasses eauto. Qed.
Lemma rnd_zero : forall x, rnd p x = 0 <-> x = 0.
Proof. intros x. split; [apply eq_0_round_0_FLX; typeclasses eauto|intros ->; apply round_0; typeclasses eauto]. Qed.
Lemma rnd_man : forall x, rnd p x = IZR (man p x) * bpow r10 (expo p x + 1 - p).
Proof.
  intros x. pose proof (rnd_format x) as H. red in H. unfold man, expo. rewrite H at 1. unfold F2R. cbn [Fnum Fexp]. f_equal. f_equal. unfold cexp, FLX_exp. f_equal. lia.
Qed.
Lemma man_bound : forall x, x <> 0 -> (10 ^ (p - 1) <= Z.abs (man p x) < 10 ^ p)%Z.
Proof.
  intros x Hx. assert (N : rnd p x <> 0) by (intros E; now apply Hx, (proj1 (rnd_zero x))).
  assert (He : bpow r10 (mag r10 (rnd p x) - 1) <= Rabs (rnd p x) < bpow r10 (mag r10 (rnd p x))) by (split; [now apply bpow_mag_le|apply bpow_mag_gt]).
  assert (Ee : expo p x = (mag r10 (rnd p x) - 1)%Z) by reflexivity. revert He Ee. generalize (mag r10 (rnd p x) : Z). intros e He Ee.
  rewrite rnd_man, Ee in He. replace (e - 1 + 1 - p)%Z with (e - p)%Z in He by lia. rewrite Rabs_mult, <- abs_IZR, (Rabs_pos_eq (bpow _ _)) in He by apply bpow_ge_0.
  assert (B : 0 < bpow r10 (e - p)) by apply bpow_gt_0.
  split.
  - apply le_IZR. change 10%Z with (radix_val r10). rewrite IZR_Zpower by lia. apply Rmult_le_reg_r with (1 := B). rewrite <- bpow_plus. replace (p - 1 + (e - p))%Z with (e - 1)%Z by lia. tauto.
  - apply lt_IZR. change 10%Z with (radix_val r10). rewrite IZR_Zpower by lia. apply Rmult_lt_reg_r with (1 := B). rewrite <- bpow_plus. replace (p + (e - p))%Z with e by lia. tauto.
Qed.
Lemma rnd_neg : forall x, (rnd p x < 0 <-> x < 0).
Proof.
  intros x. split; intros H.
  - destruct (Rlt_or_le x 0) as [L|L]; [exact L|]. exfalso. assert (0 <= rnd p x); [|lra]. rewrite <- (round_0 r10 (FLX_exp p) ZnearestE). unfold rnd. apply round_le; try typeclasses eauto; exact L.
  - assert (rnd p x <= 0) by (rewrite <- (round_0 r10 (FLX_exp p) ZnearestE); unfold rnd; apply round_le; try typeclasses eauto; lra).
    assert (rnd p x <> 0) by (rewrite rnd_zero; lra). lra.
Qed.
Lemma man_sign : forall x, man p x = (if Rlt_dec x 0 then - Z.abs (man p x) else Z.abs (man p x))%Z.
Proof.
  intros x. pose proof (rnd_neg x) as H. rewrite rnd_man in H. assert (B : 0 < bpow r10 (expo p x + 1 - p)) by apply bpow_gt_0.
  destruct (Rlt_dec x 0) as [L|L].
  - assert (IZR (man p x) < 0) by (apply Rmult_lt_reg_r with (1 := B); rewrite Rmult_0_l; now apply H). apply lt_IZR in H0. lia.
  - assert (0 <= IZR (man p x)). { apply Rnot_lt_le. intros Q. apply L, H. rewrite <- (Rmult_0_l (bpow r10 (expo p x + 1 - p))). now apply Rmult_lt_compat_r. } apply le_IZR in H0. lia.
Qed.
(* the rounded value is given by its sign, its digits and its exponent *)
Lemma rnd_same : forall x y, (x < 0 <-> y < 0) -> Z.abs (man p x) = Z.abs (man p y) -> expo p x = expo p y -> rnd p x = rnd p y.
Proof.
  intros x y S M E. rewrite !rnd_man, E. f_equal. f_equal. rewrite (man_sign x), (man_sign y), M. destruct (Rlt_dec x 0), (Rlt_dec y 0); tauto.
Qed.
Lemma same_rnd : forall x y, rnd p x = rnd p y -> (x < 0 <-> y < 0) /\ (x = 0 <-> y = 0) /\ man p x = man p y /\ expo p x = expo p y.
Proof.
  intros x y E. split; [|split; [|split]].
  - rewrite <- (rnd_neg x), <- (rnd_neg y), E. tauto.
  - rewrite <- (rnd_zero x), <- (rnd_zero y), E. tauto.
  - unfold man. now rewrite E.
  - unfold expo. now rewrite E.
Qed.
End Rnd.

(* ---- integers below 10^6 ---- *)
Lemma P6 : Prec_gt_0 6. Proof. reflexivity. Qed.
Lemma P16 : Prec_gt_0 16. Proof. reflexivity. Qed.
Local Existing Instance P6.
Local Existing Instance P16.
Lemma whole_IZR : forall n, whole (IZR n) = true.
Proof. intros n. unfold whole. rewrite Zfloor_IZR. destruct (Req_EM_T (IZR n) (IZR n)); congruence. Qed.
Lemma whole_ex : forall x, whole x = true -> exists n, x = IZR n.
Proof. intros x H. unfold whole in H. destruct (Req_EM_T x (IZR (Zfloor x))); [eauto|discriminate]. Qed.
Lemma fmt_small : forall n, (Z.abs n < 10 ^ 6)%Z -> generic_format r10 (FLX_exp 6) (IZR n).
Proof. intros n H. apply generic_format_FLX. exists (Float r10 n 0); [unfold F2R; cbn; ring|exact H]. Qed.
Lemma rnd_small : forall n, (Z.abs n < 10 ^ 6)%Z -> rnd 6 (IZR n) = IZR n.
Proof. intros n H. apply round_generic; [typeclasses eauto|now apply fmt_small]. Qed.
Lemma fmt_e6 : generic_format r10 (FLX_exp 6) (bpow r10 6).
Proof. apply generic_format_bpow. unfold FLX_exp. lia. Qed.
Lemma big_rnd : forall x, bpow r10 6 <= Rabs x -> bpow r10 6 <= Rabs (rnd 6 x).
Proof.
  intros x H. unfold rnd. apply abs_round_ge_generic; [typeclasses eauto|typeclasses eauto|apply fmt_e6|exact H].
Qed.
Lemma fixed : forall n, n <> 0%Z -> (expo 6 (IZR n) < 6)%Z -> (Z.abs n < 10 ^ 6)%Z /\ rnd 6 (IZR n) = IZR n /\
  (0 <= Z.abs n < 10 ^ Z.of_nat (Z.to_nat (expo 6 (IZR n) + 1)))%Z.
Proof.
  intros n N E. assert (L : (Z.abs n < 10 ^ 6)%Z).
  { destruct (Z.lt_ge_cases (Z.abs n) (10 ^ 6)) as [L|L]; [exact L|]. exfalso.
    assert (B : bpow r10 6 <= Rabs (IZR n)) by (rewrite <- abs_IZR; change (bpow r10 6) with (IZR (10 ^ 6)); now apply IZR_le).
    apply big_rnd in B. assert (M : (6 < mag r10 (rnd 6 (IZR n)))%Z) by (apply mag_gt_bpow; exact B). unfold expo in E. lia. }
  split; [exact L|]. split; [now apply rnd_small|]. unfold expo. rewrite (rnd_small n L). split; [lia|].
  replace (mag r10 (IZR n) - 1 + 1)%Z with (mag r10 (IZR n) : Z) by lia.
  assert (0 < mag r10 (IZR n))%Z. { apply mag_gt_bpow. rewrite <- abs_IZR. apply IZR_le. lia. }
  rewrite Z2Nat.id by lia. apply lt_IZR. change 10%Z with (radix_val r10). rewrite IZR_Zpower by lia. rewrite abs_IZR. apply bpow_mag_gt.
Qed.

(* ---- the texts ---- *)
Lemma exp_no_open : forall k, ~ In "("%char (exp_text k).
Proof. intros k [H|[H|H]]; [discriminate|destruct (k <? 0)%Z; discriminate|]. revert H. apply not_digit; [apply wd_digit|exact o_nd]. Qed.
Lemma int_no_open : forall x, ~ In "("%char (int_text x).
Proof.
  intros x. unfold int_text. destruct (Req_EM_T x 0); [intros [H|[]]; discriminate|]. cbv zeta. destruct (_ <? 6)%Z.
  - apply not_digit; [apply wd_digit|exact o_nd].
  - rewrite in_app_iff. intros [H|H]; [|now apply exp_no_open in H]. revert H. apply point_no; [apply strip0_digit, wd_digit|exact o_nd|discriminate].
Qed.
Lemma sci_no_open : forall x, ~ In "("%char (sci_text x).
Proof.
  intros x. unfold sci_text. rewrite in_app_iff. intros [H|H]; [|now apply exp_no_open in H]. revert H. apply point_no; [apply wd_digit|exact o_nd|discriminate].
Qed.
Lemma soal_inj : forall l l', string_of_list_ascii l = string_of_list_ascii l' -> l = l'.
Proof. intros l l' E. rewrite <- (list_ascii_of_string_of_list_ascii l), E. apply list_ascii_of_string_of_list_ascii. Qed.
Definition body (x : R) := if whole x then int_text x else sci_text x.
Lemma body_no_open : forall x, ~ In "("%char (body x).
Proof. intros x. unfold body. destruct (whole x); [apply int_no_open|apply sci_no_open]. Qed.
Lemma con_text_body : forall x y, con_text x = con_text y -> (x < 0 <-> y < 0) /\ body x = body y.
Proof.
  intros x y E. apply soal_inj in E. fold (body x) in E. fold (body y) in E. destruct (Rlt_dec x 0) as [A|A], (Rlt_dec y 0) as [B|B].
  - injection E as E. apply app_inj_tail in E. tauto.
  - exfalso. apply (body_no_open y). rewrite <- E. now left.
  - exfalso. apply (body_no_open x). rewrite E. now left.
  - tauto.
Qed.
Lemma sci_split : forall x, sci_text x = point (wd 16 (Z.abs (man 16 x))) ++ "e"%char :: tl (exp_text (expo 16 x)).
Proof. reflexivity. Qed.
Lemma no_e_point : forall l, Forall digit l -> ~ In "e"%char (point l).
Proof. intros l H. apply point_no; [exact H|exact e_nd|discriminate]. Qed.
Lemma int_sci : forall x y, int_text x = sci_text y -> False.
Proof.
  intros x y E. rewrite sci_split in E. unfold int_text in E.
  assert (I : forall l, Forall digit l -> l = point (wd 16 (Z.abs (man 16 y))) ++ "e"%char :: tl (exp_text (expo 16 y)) -> False).
  { intros l D Q. apply (not_digit "e" l D e_nd). rewrite Q, in_app_iff. right. now left. }
  destruct (Req_EM_T x 0); [apply (I ["0"%char]); [repeat constructor; cbv; lia|exact E]|]. cbv zeta in E. destruct (_ <? 6)%Z; [apply (I _ (wd_digit _ _) E)|].
  unfold exp_text in E at 1. apply split_at in E; [|apply no_e_point, strip0_digit, wd_digit|apply no_e_point, wd_digit]. destruct E as [E _]. apply point_inj in E; [|apply strip0_digit, wd_digit|apply wd_digit].
  apply (f_equal (@length _)) in E. pose proof (strip0_len (wd 6 (Z.abs (man 6 x)))) as L. rewrite wd_length in *. rewrite E in L. lia.
Qed.
Lemma sci_inj : forall x y, x <> 0 -> y <> 0 -> (x < 0 <-> y < 0) -> sci_text x = sci_text y -> rnd 16 x = rnd 16 y.
Proof.
  intros x y X Y S E. rewrite !sci_split in E. apply split_at in E; [|apply no_e_point, wd_digit|apply no_e_point, wd_digit]. destruct E as [E1 E2].
  apply point_inj in E1; [|apply wd_digit|apply wd_digit]. apply wd_inj in E1; [| |]; [|pose proof (man_bound 16 eq_refl x X); split; [lia|tauto]|pose proof (man_bound 16 eq_refl y Y); split; [lia|tauto]].
  apply rnd_same; [reflexivity|exact S|exact E1|]. apply exp_text_inj. unfold exp_text in *. cbn [tl] in E2. now rewrite E2.
Qed.
Lemma int_inj : forall n m, (IZR n < 0 <-> IZR m < 0) -> int_text (IZR n) = int_text (IZR m) -> rnd 6 (IZR n) = rnd 6 (IZR m).
Proof.
  assert (Z0 : forall m, IZR m <> 0 -> ["0"%char] = int_text (IZR m) -> False).
  { intros m M E. unfold int_text in E. destruct (Req_EM_T (IZR m) 0); [tauto|]. cbv zeta in E. assert (M' : m <> 0%Z) by (intros ->; tauto). destruct (Z.ltb_spec (expo 6 (IZR m)) 6).
    - destruct (fixed m M' H) as (A & B & C). rewrite B, Ztrunc_IZR in E. apply (f_equal val) in E. rewrite wd_val in E by exact C. change (val ["0"%char]) with 0%Z in E. lia.
    - apply (not_digit "e" ["0"%char]); [repeat constructor; cbv; lia|exact e_nd|]. rewrite E, in_app_iff. right. now left. }
  intros n m S E. destruct (Req_EM_T (IZR n) 0) as [N|N].
  - destruct (Req_EM_T (IZR m) 0) as [M|M]; [now rewrite N, M|]. exfalso. apply (Z0 m M). rewrite <- E. unfold int_text. now destruct (Req_EM_T (IZR n) 0).
  - destruct (Req_EM_T (IZR m) 0) as [M|M]; [exfalso; apply (Z0 n N); rewrite E; unfold int_text; now destruct (Req_EM_T (IZR m) 0)|].
    assert (N' : n <> 0%Z) by (intros ->; tauto). assert (M' : m <> 0%Z) by (intros ->; tauto). clear Z0.
    unfold int_text in E. destruct (Req_EM_T (IZR n) 0); [tauto|]. destruct (Req_EM_T (IZR m) 0); [tauto|]. cbv zeta in E.
    destruct (Z.ltb_spec (expo 6 (IZR n)) 6) as [L|L], (Z.ltb_spec (expo 6 (IZR m)) 6) as [K|K].
    + destruct (fixed n N' L) as (A & B & C). destruct (fixed m M' K) as (A' & B' & C'). rewrite B, B', !Ztrunc_IZR in *. apply (f_equal val) in E. rewrite !wd_val in E by assumption.
      f_equal. destruct (Z.abs_eq_cases _ _ E) as [->|Q]; [reflexivity|]. exfalso.
      destruct (Z.lt_ge_cases n 0) as [G|G].
      * pose proof G as G0. apply IZR_lt in G0. apply (proj1 S) in G0. apply lt_IZR in G0. lia.
      * assert (m < 0)%Z by lia. pose proof H as H0. apply IZR_lt in H0. apply (proj2 S) in H0. apply lt_IZR in H0. lia.
    + exfalso. apply (not_digit "e" (wd (Z.to_nat (expo 6 (IZR n) + 1)) (Z.abs (Ztrunc (rnd 6 (IZR n))))) (wd_digit _ _) e_nd). rewrite E, in_app_iff. right. now left.
    + exfalso. apply (not_digit "e" (wd (Z.to_nat (expo 6 (IZR m) + 1)) (Z.abs (Ztrunc (rnd 6 (IZR m))))) (wd_digit _ _) e_nd). rewrite <- E, in_app_iff. right. now left.
    + unfold exp_text in E. apply split_at in E; [|apply no_e_point, strip0_digit, wd_digit|apply no_e_point, strip0_digit, wd_digit]. destruct E as [E1 E2].
      apply point_inj in E1; [|apply strip0_digit, wd_digit|apply strip0_digit, wd_digit]. apply strip0_inj in E1; [|now rewrite !wd_length].
      apply wd_inj in E1; [| |]; [|pose proof (man_bound 6 eq_refl _ N); split; [lia|tauto]|pose proof (man_bound 6 eq_refl _ M); split; [lia|tauto]].
      apply rnd_same; [reflexivity|exact S|exact E1|]. apply exp_text_inj. unfold exp_text. now rewrite E2.
Qed.
Lemma nonwhole_nz : forall x, whole x = false -> x <> 0.
Proof. intros x H ->. rewrite (whole_IZR 0) in H. discriminate. Qed.
Lemma texts : forall x y, con_text x = con_text y <->
  whole x = whole y /\ rnd (if whole x then 6 else 16)%Z x = rnd (if whole x then 6 else 16)%Z y.
Proof.
  intros x y. split.
  - intros E. destruct (con_text_body x y E) as [S B]. unfold body in B. destruct (whole x) eqn:X, (whole y) eqn:Y.
    + split; [reflexivity|]. destruct (whole_ex x X) as [n ->]. destruct (whole_ex y Y) as [m ->]. now apply int_inj.
    + now apply int_sci in B.
    + symmetry in B. now apply int_sci in B.
    + split; [reflexivity|]. apply sci_inj; [now apply nonwhole_nz|now apply nonwhole_nz|exact S|exact B].
  - intros [W E]. unfold con_text. rewrite <- W. destruct (whole x) eqn:X.
    + destruct (same_rnd 6 eq_refl x y E) as (S & N & M & K). unfold int_text. rewrite M, K, E. destruct (Req_EM_T x 0), (Req_EM_T y 0); try tauto; destruct (Rlt_dec x 0), (Rlt_dec y 0); tauto.
    + destruct (same_rnd 16 eq_refl x y E) as (S & N & M & K). unfold sci_text. rewrite M, K. destruct (Rlt_dec x 0), (Rlt_dec y 0); tauto.
Qed.
Lemma rnd_close : forall p x y, (0 < p)%Z -> rnd p x = rnd p y -> Rabs (x - y) <= / 2 * bpow r10 (1 - p) * (Rabs x + Rabs y).
Proof.
  intros p x y P E. pose proof (relative_error_N_FLX r10 p P (fun x => negb (Z.even x)) x) as A. pose proof (relative_error_N_FLX r10 p P (fun x => negb (Z.even x)) y) as B.
  fold ZnearestE in A, B. fold (rnd p x) in A. fold (rnd p y) in B. rewrite E in A. replace (- p + 1)%Z with (1 - p)%Z in A, B by lia.
  replace (x - y) with (- (rnd p y - x) + (rnd p y - y)) by ring. eapply Rle_trans; [apply Rabs_triang|]. rewrite Rabs_Ropp. lra.
Qed.

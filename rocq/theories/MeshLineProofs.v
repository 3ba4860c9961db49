(* Proofs: distribution of mesh lines over the real numbers *)
From Coq Require Import String List Bool Arith ZArith Lia Reals Lra Sorting.Sorted.
From Verif Require Import StrMap MeshLine.
Import ListNotations.
Open Scope R_scope.

Definition rltb (a b : R) : bool := if Rlt_dec a b then true else false.
Definition rleb (a b : R) : bool := if Rle_dec a b then true else false.
Definition rN : num R := mknum R rltb rleb 0 Rplus Rminus Rmult Rdiv Rabs pow (/ 10 ^ 10).
Lemma rltb_true : forall a b, rltb a b = true <-> a < b.
Proof. intros a b. unfold rltb. destruct (Rlt_dec a b); split; intros; congruence || lra. Qed.
Lemma rltb_false : forall a b, rltb a b = false <-> b <= a.
Proof. intros a b. unfold rltb. destruct (Rlt_dec a b); split; intros; congruence || lra. Qed.
Definition tolr : R := / 10 ^ 10.
Lemma tolr_pos : 0 < tolr.
Proof. unfold tolr. apply Rinv_0_lt_compat. apply pow_lt. lra. Qed.

(* successive points increase, by at most d *)
Definition step (d a b : R) : Prop := a < b /\ b - a <= d.
Definition chain (d : R) (l : list R) : Prop := Sorted (step d) l.
Lemma chain_cons : forall d a b l, step d a b -> chain d (b :: l) -> chain d (a :: b :: l).
Proof. intros d a b l H K. constructor; [exact K|]. constructor. exact H. Qed.
Lemma chain_weaken : forall d d' l, d <= d' -> chain d l -> chain d' l.
Proof.
  intros d d' l H K. unfold chain in *. induction K as [|a l K IH Hd]; constructor; [exact IH|].
  destruct Hd as [|b l Hb]; constructor. destruct Hb. split; lra.
Qed.

Lemma rbind_Ok : forall A B (x : res A) (f : A -> res B) b, rbind x f = Ok b -> exists a, x = Ok a /\ f a = Ok b.
Proof. intros A B x f b H. destruct x; try discriminate. eauto. Qed.

Lemma last_default : forall (l : list R) a b, l <> [] -> last l a = last l b.
Proof. intros l a b. induction l as [|x [|y l] IH]; [congruence|reflexivity|]. intros _. cbn [last] in *. apply IH. discriminate. Qed.
Lemma last_cons : forall (a b c : R) l, last (a :: b :: l) c = last (b :: l) b.
Proof. intros a b c l. change (last (a :: b :: l) c) with (last (b :: l) c). apply last_default. discriminate. Qed.
Lemma INR_above : forall x, exists n, x < INR n.
Proof.
  intros x. exists (Z.to_nat (up (Rabs x))). rewrite INR_IZR_INZ. pose proof (archimed (Rabs x)) as [A _]. pose proof (Rabs_pos x).
  rewrite Z2Nat.id. { pose proof (Rle_abs x). lra. } apply le_IZR. lra.
Qed.
(* equidistance *)
Lemma equi_more : forall n k xh sl x l, equi_loop rN n xh sl x = Ok l -> equi_loop rN (n + k) xh sl x = Ok l.
Proof.
  induction n as [|n IH]; intros k xh sl x l H; cbn [equi_loop plus] in *.
  - cbn [Nat.add]. destruct k as [|k]; [exact H|]. cbn [equi_loop]. destruct (ltb rN x xh); [discriminate|exact H].
  - destruct (ltb rN x xh); [|exact H]. apply rbind_Ok in H. destruct H as (l' & E & H). rewrite (IH k _ _ _ _ E). exact H.
Qed.
Lemma equi_ok : forall n xh sl x, 0 < sl -> x <= xh -> xh - x <= INR n * sl ->
  exists l, equi_loop rN n xh sl x = Ok l /\ last (x :: l) x = xh /\ chain (sl + tolr) (x :: l) /\
    (x < xh -> l <> []) /\ (x + sl <= xh - tolr -> exists l', l = (x + sl) :: l').
Proof.
  pose proof tolr_pos as Tp.
  induction n as [|n IH]; intros xh sl x Hs Hx Hn.
  - cbn [INR] in Hn. assert (x = xh) by lra. subst xh. cbn [equi_loop]. unfold ltb, rN. 
    assert (E : rltb x x = false) by (apply rltb_false; lra). rewrite E. exists []. split; [reflexivity|]. split; [reflexivity|].
    split; [constructor; constructor|]. split; intros; lra.
  - cbn [equi_loop]. unfold ltb at 1, rN at 1. destruct (rltb x xh) eqn:E.
    2:{ apply rltb_false in E. assert (x = xh) by lra. subst xh. exists []. split; [reflexivity|]. split; [reflexivity|].
        split; [constructor; constructor|]. split; intros; lra. }
    apply rltb_true in E. change (add rN x sl) with (x + sl). change (sub rN xh (tol rN)) with (xh - tolr). change (ltb rN) with rltb.
    destruct (rltb (xh - tolr) (x + sl)) eqn:F.
    + apply rltb_true in F. assert (G : equi_loop rN n xh sl xh = Ok []).
      { destruct n; cbn [equi_loop]; unfold ltb, rN; assert (Q : rltb xh xh = false) by (apply rltb_false; lra); now rewrite Q. }
      rewrite G. exists [xh]. split; [reflexivity|]. split; [reflexivity|]. split.
      { apply chain_cons; [split; lra|]. constructor; constructor. }
      split; [discriminate|]. intros; lra.
    + apply rltb_false in F. destruct (IH xh sl (x + sl)) as (l & El & Ll & Cl & _); [exact Hs|lra| |].
      { rewrite S_INR in Hn. lra. }
      rewrite El. exists ((x + sl) :: l). split; [reflexivity|]. split.
      { rewrite last_cons. exact Ll. }
      split. { apply chain_cons; [split; lra|exact Cl]. }
      split; [discriminate|]. intros _. eauto.
Qed.

Lemma var_more : forall xh sl sh r n k i x l, var_loop rN n xh sl sh r i x = Ok l -> var_loop rN (n + k) xh sl sh r i x = Ok l.
Proof.
  intros xh sl sh r. induction n as [|n IH]; intros k i x l H.
  - cbn [Nat.add]. destruct k as [|k]; [exact H|]. cbn [var_loop] in *. destruct (ltb rN x xh); [discriminate|exact H].
  - cbn [Nat.add var_loop] in *. destruct (ltb rN x xh); [|exact H].
    destruct (ltb rN (sub rN xh (tol rN)) (add rN x (mul rN sl (powi rN r i)))); apply rbind_Ok in H; destruct H as (l' & E & H);
      rewrite (IH k _ _ _ E); exact H.
Qed.
(* variable *)
Section Var.
Variables xl xh sl sh : R.
Hypothesis Hsl : 0 < sl.
Hypothesis Hsh : 0 < sh.
Hypothesis Hfit : xl + sl <= xh - sh.
Let L := xh - xl.
Let r := (L - sl) / (L - sh).
Fixpoint Sm (i : nat) : R := match i with O => 0 | S k => Sm k + sl * r ^ k end.
Lemma Lsh : 0 < L - sh. Proof. unfold L. lra. Qed.
Lemma Lsl : 0 < L - sl. Proof. unfold L. lra. Qed.
Lemma r_pos : 0 < r.
Proof. unfold r. apply Rdiv_lt_0_compat; [exact Lsl|exact Lsh]. Qed.
Lemma r_eq : r * (L - sh) = L - sl.
Proof. unfold r. field. pose proof Lsh. lra. Qed.
Lemma g_pos : forall i, 0 < sl * r ^ i.
Proof. intros i. apply Rmult_lt_0_compat; [exact Hsl|]. apply pow_lt. exact r_pos. Qed.
Lemma Sm_eq : forall i, (r - 1) * Sm i = sl * r ^ i - sl.
Proof. induction i as [|i IH]; cbn [Sm pow]. { ring. } rewrite Rmult_plus_distr_l, IH. ring. Qed.
Lemma r1_L : (r - 1) * L = r * sh - sl.
Proof. pose proof r_eq. lra. Qed.
(* the sum passes the end *)
Lemma Sm_end : exists n, L - tolr < Sm n.
Proof.
  pose proof tolr_pos as Tp. pose proof r_pos as Rp. pose proof Lsl as L1. pose proof Lsh as L2.
  destruct (Rle_lt_dec 1 r) as [H|H].
  - assert (B : forall n, INR n * sl <= Sm n).
    { induction n as [|n IH]; cbn [Sm]; [cbn; lra|]. rewrite S_INR. assert (1 <= r ^ n) by (apply pow_R1_Rle; exact H).
      assert (sl * 1 <= sl * r ^ n) by (apply Rmult_le_compat_l; lra). lra. }
    destruct (INR_above (L / sl)) as [n Hn]. exists n. specialize (B n). assert (L < INR n * sl).
    { apply (Rmult_lt_compat_r sl) in Hn; [|exact Hsl]. unfold Rdiv in Hn. rewrite Rmult_assoc, Rinv_l, Rmult_1_r in Hn by lra. exact Hn. }
    lra.
  - pose proof r1_L as E1.
    assert (D : 0 < r * sh / sl). { apply Rdiv_lt_0_compat; [|exact Hsl]. apply Rmult_lt_0_compat; [exact Rp|exact Hsh]. }
    destruct (pow_lt_1_zero r) with (y := r * sh / sl) as [n Hn].
    { rewrite Rabs_pos_eq by lra. exact H. } { exact D. }
    exists n. specialize (Hn n (le_n n)). rewrite Rabs_pos_eq in Hn by (apply pow_le; lra).
    pose proof (Sm_eq n) as E2.
    assert (sl * r ^ n < r * sh). { apply (Rmult_lt_compat_l sl) in Hn; [|exact Hsl]. unfold Rdiv in Hn.
      rewrite (Rmult_comm sl (r * sh * / sl)), Rmult_assoc, Rinv_l, Rmult_1_r in Hn by lra. exact Hn. }
    assert (Q : (r - 1) * Sm n < (r - 1) * L) by (rewrite E1, E2; lra).
    assert (L < Sm n). { apply (Rmult_lt_reg_l (1 - r)); [lra|]. lra. }
    lra.
Qed.
Lemma Sm_incr : forall i k, Sm i <= Sm (i + k).
Proof.
  intros i. induction k as [|k IH]; [rewrite Nat.add_0_r; lra|]. rewrite Nat.add_succ_r. cbn [Sm].
  pose proof (g_pos (i + k)). lra.
Qed.
Lemma gap_small : forall i, Sm (S i) <= L -> sl * r ^ i <= Rmax sl sh.
Proof.
  intros i H. pose proof r_pos as Rp. destruct (Rle_lt_dec 1 r) as [Q|Q].
  - apply Rle_trans with sh; [|apply Rmax_r]. pose proof (Sm_eq (S i)) as E. pose proof r1_L as E1. cbn [pow] in E.
    assert ((r - 1) * Sm (S i) <= (r - 1) * L) by (apply Rmult_le_compat_l; lra).
    apply (Rmult_le_reg_l r); [exact Rp|]. lra.
  - apply Rle_trans with sl; [|apply Rmax_l]. assert (r ^ i <= 1).
    { rewrite <- (pow1 i). apply pow_incr. lra. }
    apply Rle_trans with (sl * 1); [|lra]. apply Rmult_le_compat_l; lra.
Qed.
(* the last gap is at most sh *)
Definition ends (l : list R) : Prop := exists p a b, l = (p ++ [a; b])%list /\ b - a <= sh.
Lemma ends_cons : forall x l, ends l -> ends (x :: l).
Proof. intros x l (p & a & b & -> & H). exists (x :: p), a, b. split; [reflexivity|exact H]. Qed.
Lemma var_fin : forall n i, xl + Sm i < xh -> xh - tolr < xl + Sm (S i) ->
  exists l, var_loop rN (S n) xh sl sh r i (xl + Sm i) = Ok l /\ last ((xl + Sm i) :: l) (xl + Sm i) = xh /\
    chain (Rmax sl sh + tolr) ((xl + Sm i) :: l) /\ ends ((xl + Sm i) :: l).
Proof.
  intros n i Lt F. pose proof tolr_pos as Tp. pose proof Lsl as L1. pose proof Lsh as L2. pose proof (Rmax_l sl sh) as Ml. pose proof (Rmax_r sl sh) as Mr.
  assert (XL : xl + L = xh) by (unfold L; lra).
  assert (G : var_loop rN n xh sl sh r (S i) xh = Ok []).
  { destruct n; cbn [var_loop]; change (ltb rN) with rltb; assert (Q : rltb xh xh = false) by (apply rltb_false; lra); rewrite Q; reflexivity. }
  cbn [var_loop]. change (ltb rN) with rltb. change (sub rN xh (tol rN)) with (xh - tolr). change (sub rN xh sh) with (xh - sh).
  change (add rN (xl + Sm i) (mul rN sl (powi rN r i))) with (xl + Sm i + sl * r ^ i).
  assert (Ex : xl + Sm i + sl * r ^ i = xl + Sm (S i)) by (cbn [Sm]; ring). rewrite Ex.
  assert (E1 : rltb (xl + Sm i) xh = true) by (apply rltb_true; lra). rewrite E1.
  assert (E2 : rltb (xh - tolr) (xl + Sm (S i)) = true) by (apply rltb_true; lra). rewrite E2. rewrite G. cbn [rbind].
  destruct (rltb (xl + Sm i) (xh - sh)) eqn:P.
  - apply rltb_true in P. exists [xh - sh; xh]. split; [reflexivity|]. split; [reflexivity|]. split.
    + apply chain_cons; [split; [lra|]|]. 2:{ apply chain_cons; [split; lra|]. constructor; constructor. }
      pose proof (Sm_eq i) as Es. pose proof r1_L as Er. cbn [Sm] in F.
      destruct (Rle_lt_dec 1 r) as [Q|Q].
      * assert (Pg : (r - 1) * (L - Sm i - sh) = sh - sl * r ^ i) by (rewrite !Rmult_minus_distr_l; lra).
        assert (0 <= (r - 1) * (L - Sm i - sh)) by (apply Rmult_le_pos; lra). lra.
      * assert (sl * r ^ i <= sl). { assert (r ^ i <= 1) by (rewrite <- (pow1 i); apply pow_incr; pose proof r_pos; lra).
          apply Rle_trans with (sl * 1); [apply Rmult_le_compat_l; lra|lra]. }
        lra.
    + exists [xl + Sm i], (xh - sh), xh. split; [reflexivity|]. lra.
  - apply rltb_false in P. exists [xh]. split; [reflexivity|]. split; [reflexivity|]. split.
    + apply chain_cons; [split; lra|]. constructor; constructor.
    + exists [], (xl + Sm i), xh. split; [reflexivity|]. lra.
Qed.
Lemma var_next : forall n i, xl + Sm i < xh -> xl + Sm (S i) <= xh - tolr ->
  var_loop rN (S n) xh sl sh r i (xl + Sm i) = rbind (var_loop rN n xh sl sh r (S i) (xl + Sm (S i))) (fun l => Ok ((xl + Sm (S i)) :: l)).
Proof.
  intros n i Lt F. cbn [var_loop]. change (ltb rN) with rltb. change (sub rN xh (tol rN)) with (xh - tolr).
  change (add rN (xl + Sm i) (mul rN sl (powi rN r i))) with (xl + Sm i + sl * r ^ i).
  assert (Ex : xl + Sm i + sl * r ^ i = xl + Sm (S i)) by (cbn [Sm]; ring). rewrite Ex.
  assert (E1 : rltb (xl + Sm i) xh = true) by (apply rltb_true; lra). rewrite E1.
  assert (E2 : rltb (xh - tolr) (xl + Sm (S i)) = false) by (apply rltb_false; lra). rewrite E2. reflexivity.
Qed.
Lemma var_ok : forall n i, L - tolr < Sm (i + S n) -> Sm i <= L - tolr \/ i = O ->
  exists l, var_loop rN (S n) xh sl sh r i (xl + Sm i) = Ok l /\ last ((xl + Sm i) :: l) (xl + Sm i) = xh /\
    chain (Rmax sl sh + tolr) ((xl + Sm i) :: l) /\ ends ((xl + Sm i) :: l) /\
    (xl + Sm (S i) <= xh - tolr -> exists l', l = (xl + Sm (S i)) :: l').
Proof.
  pose proof tolr_pos as Tp. pose proof Lsl as L1. pose proof Lsh as L2.
  assert (XL : xl + L = xh) by (unfold L; lra).
  induction n as [|n IH]; intros i Hn Hi.
  all: assert (Lt : xl + Sm i < xh) by (destruct Hi as [Hi| ->]; [lra|cbn [Sm]; lra]).
  all: destruct (Rlt_le_dec (xh - tolr) (xl + Sm (S i))) as [F|F].
  - destruct (var_fin 0 i Lt F) as (l & A & B & C & D). exists l. repeat (split; [assumption|]). intros; lra.
  - replace (i + 1)%nat with (S i) in Hn by lia. lra.
  - destruct (var_fin (S n) i Lt F) as (l & A & B & C & D). exists l. repeat (split; [assumption|]). intros; lra.
  - destruct (IH (S i)) as (l & El & Ll & Cl & Dl & _); [|left; lra|].
    { replace (S i + S n)%nat with (i + S (S n))%nat by lia. exact Hn. }
    rewrite var_next by assumption. rewrite El. cbn [rbind]. exists ((xl + Sm (S i)) :: l). split; [reflexivity|].
    split. { rewrite last_cons. exact Ll. }
    split. { apply chain_cons; [|exact Cl]. pose proof (g_pos i). assert (Q : Sm (S i) <= L) by lra. pose proof (gap_small i Q). cbn [Sm]. split; lra. }
    split. { apply ends_cons. exact Dl. }
    intros _. eauto.
Qed.
End Var.

(* getPoints *)
Lemma getPoints_more : forall n k xl xh sl sh l, getPoints rN n xl xh sl sh = Ok l -> getPoints rN (n + k) xl xh sl sh = Ok l.
Proof.
  intros n k xl xh sl sh l. unfold getPoints. destruct (negb (ltb rN xl xh)); [auto|].
  destruct (ltb rN (div rN (absv rN (sub rN sh sl)) sh) (tol rN)).
  { unfold equidistance. intros H. apply rbind_Ok in H. destruct H as (l' & E & H). now rewrite (equi_more _ k _ _ _ _ E). }
  destruct (ltb rN (sub rN xh sh) (add rN xl sl)).
  { unfold equidistance. intros H. apply rbind_Ok in H. destruct H as (l' & E & H). now rewrite (equi_more _ k _ _ _ _ E). }
  unfold variable. intros H. apply rbind_Ok in H. destruct H as (l' & E & H). now rewrite (var_more _ _ _ _ _ k _ _ _ E).
Qed.
Lemma getPoints_det : forall n n' xl xh sl sh l l', getPoints rN n xl xh sl sh = Ok l -> getPoints rN n' xl xh sl sh = Ok l' -> l = l'.
Proof.
  intros n n' xl xh sl sh l l' H H'. apply (getPoints_more _ n') in H. apply (getPoints_more _ n) in H'. rewrite Nat.add_comm in H'. congruence.
Qed.
(* what the caller relies on *)
Definition good_points (xl xh sl sh : R) (pts : list R) : Prop :=
  hd 0 pts = xl /\ last pts 0 = xh /\ (2 <= length pts)%nat /\ chain (sl + sh + tolr) pts /\
  (xl + sl <= xh - sh -> chain (Rmax sl sh + tolr) pts) /\
  (xl + sl <= xh - sh -> xl + sl <= xh - tolr -> exists l, pts = xl :: (xl + sl) :: l) /\
  (xl + sl <= xh - sh -> exists p a b, pts = (p ++ [a; b])%list /\ b - a <= sh + tolr * (1 + sh)).
Lemma chain_last : forall d l, chain d l -> (2 <= length l)%nat -> exists p a b, l = (p ++ [a; b])%list /\ b - a <= d.
Proof.
  intros d l H. induction H as [|a l K IH Hd]; cbn [length]; [lia|]. intros L. destruct l as [|b [|c l]]; cbn [length] in L; [lia| |].
  - exists [], a, b. split; [reflexivity|]. inversion Hd as [|? ? Q]; subst. destruct Q; lra.
  - destruct IH as (p & x & y & -> & Q); [cbn; lia|]. exists (a :: p), x, y. split; [reflexivity|exact Q].
Qed.
Lemma chain_gap : forall d l, chain d l -> forall i, (S i < length l)%nat -> nth (S i) l 0 - nth i l 0 <= d.
Proof.
  intros d l H. induction H as [|a l K IH Hd]; intros i Hi; [cbn in Hi; lia|]. destruct i as [|i].
  - destruct l as [|b l]; [cbn in Hi; lia|]. inversion Hd as [|? ? Q]; subst. destruct Q. cbn [nth]. lra.
  - cbn [nth]. apply IH. cbn [length] in Hi. lia.
Qed.
Theorem getPoints_ok : forall xl xh sl sh, xl < xh -> 0 < sl -> 0 < sh ->
  exists n pts, (forall fuel, (n <= fuel)%nat -> getPoints rN fuel xl xh sl sh = Ok pts) /\ good_points xl xh sl sh pts.
Proof.
  intros xl xh sl sh Hx Hl Hh. pose proof tolr_pos as Tp. pose proof (Rmax_l sl sh) as Ml. pose proof (Rmax_r sl sh) as Mr.
  assert (X : exists n pts, getPoints rN n xl xh sl sh = Ok pts /\ good_points xl xh sl sh pts).
  2:{ destruct X as (n & pts & E & G). exists n, pts. split; [|exact G]. intros fuel Hf. replace fuel with (n + (fuel - n))%nat by lia. now apply getPoints_more. }
  unfold getPoints. change (ltb rN) with rltb. assert (E0 : rltb xl xh = true) by (now apply rltb_true). rewrite E0. cbn [negb].
  destruct (rltb (div rN (absv rN (sub rN sh sl)) sh) (tol rN)) eqn:E1.
  - destruct (INR_above ((xh - xl) / sl)) as [n Hn].
    destruct (equi_ok n xh sl xl Hl) as (l & El & Ll & Cl & Nl & Fl); [lra| |].
    { apply (Rmult_lt_compat_r sl) in Hn; [|exact Hl]. unfold Rdiv in Hn. rewrite Rmult_assoc, Rinv_l, Rmult_1_r in Hn by lra. lra. }
    exists n, (xl :: l). unfold equidistance. rewrite El. split; [reflexivity|]. split; [reflexivity|].
    split. { rewrite (last_default _ 0 xl) by discriminate. exact Ll. }
    split. { specialize (Nl Hx). destruct l; [congruence|cbn; lia]. }
    split. { revert Cl. apply chain_weaken. lra. }
    split. { intros _. revert Cl. apply chain_weaken. lra. }
    split. { intros _ Q. destruct (Fl Q) as [l' ->]. eauto. }
    intros _. change (div rN (absv rN (sub rN sh sl)) sh) with (Rabs (sh - sl) / sh) in E1. change (tol rN) with tolr in E1. apply rltb_true in E1.
    destruct (chain_last _ _ Cl) as (p & a & b & -> & Q). { specialize (Nl Hx). destruct l; [congruence|cbn; lia]. }
    exists p, a, b. split; [reflexivity|]. apply (Rmult_lt_compat_r sh) in E1; [|exact Hh]. unfold Rdiv in E1. rewrite Rmult_assoc, Rinv_l, Rmult_1_r in E1 by lra.
    rewrite Rabs_minus_sym in E1. pose proof (Rle_abs (sl - sh)). lra.
  - change (sub rN xh sh) with (xh - sh). change (add rN xl sl) with (xl + sl). change (sub rN xh xl) with (xh - xl).
    destruct (rltb (xh - sh) (xl + sl)) eqn:E2.
    + apply rltb_true in E2. destruct (equi_ok 1 xh (xh - xl) xl) as (l & El & Ll & Cl & Nl & Fl); [lra|lra|cbn [INR]; lra|].
      exists 1%nat, (xl :: l). unfold equidistance. rewrite El. split; [reflexivity|]. split; [reflexivity|].
      split. { rewrite (last_default _ 0 xl) by discriminate. exact Ll. }
      split. { specialize (Nl Hx). destruct l; [congruence|cbn; lia]. }
      split. { revert Cl. apply chain_weaken. lra. }
      repeat (split; [intros; lra|]). intros; lra.
    + apply rltb_false in E2. destruct (Sm_end xl xh sl sh Hl Hh E2) as [n Hn].
      destruct (var_ok xl xh sl sh Hl Hh E2 n 0) as (l & El & Ll & Cl & Dl & Fl); [|right; reflexivity|].
      { cbn [Nat.add]. pose proof (Sm_incr xl xh sl sh Hl Hh E2 n 1) as Q. rewrite Nat.add_1_r in Q. lra. }
      cbn [Sm] in *. rewrite Rplus_0_r in *. exists (S n), (xl :: l). unfold variable. change (sub rN xh xl) with (xh - xl).
      change (div rN (sub rN (xh - xl) sl) (sub rN (xh - xl) sh)) with ((xh - xl - sl) / (xh - xl - sh)). rewrite El. split; [reflexivity|].
      split; [reflexivity|]. split. { rewrite (last_default _ 0 xl) by discriminate. exact Ll. }
      split. { destruct Dl as (p & a & b & E & _). rewrite E, app_length. cbn. lia. }
      split. { revert Cl. apply chain_weaken. assert (Rmax sl sh <= sl + sh) by (apply Rmax_lub; lra). lra. }
      split. { intros _. exact Cl. }
      split. { intros _ Q. cbn [pow] in Fl. replace (xl + (0 + sl * 1)) with (xl + sl) in Fl by ring. destruct (Fl Q) as [l' ->]. eauto. }
      intros _. destruct Dl as (p & a & b & Dl1 & Dl2). exists p, a, b. split; [exact Dl1|]. assert (0 <= tolr * (1 + sh)) by (apply Rmult_le_pos; lra). lra.
Qed.

(* ---- the lines of a mesh ---- *)
(* locations: the points of each interval between neighbouring lines *)
Inductive distributed : list (@line R) -> list R -> Prop :=
| dist_one : forall a, distributed [a] [pos a]
| dist_more : forall p q rest pts l, good_points (pos p) (pos q) (psp p) (nsp q) pts -> distributed (q :: rest) (pos q :: l) ->
    distributed (p :: q :: rest) (pts ++ l)%list.
Definition spaced (a : @line R) : Prop := 0 < psp a /\ 0 < nsp a.

Lemma getPoints_facts : forall fuel xl xh sl sh pts, getPoints rN fuel xl xh sl sh = Ok pts -> 0 < sl -> 0 < sh ->
  xl < xh /\ good_points xl xh sl sh pts.
Proof.
  intros fuel xl xh sl sh pts H Hl Hh. destruct (Rlt_le_dec xl xh) as [L|L].
  - split; [exact L|]. destruct (getPoints_ok xl xh sl sh L Hl Hh) as (n & pts' & E & G). specialize (E n (le_n n)).
    rewrite (getPoints_det _ _ _ _ _ _ _ _ H E). exact G.
  - unfold getPoints in H. change (ltb rN xl xh) with (rltb xl xh) in H. assert (E : rltb xl xh = false) by (apply rltb_false; lra). rewrite E in H. discriminate.
Qed.
Lemma good_tl : forall xl xh sl sh pts, good_points xl xh sl sh pts -> pts = xl :: tl pts /\ tl pts <> [] /\ last (tl pts) 0 = xh.
Proof.
  intros xl xh sl sh pts (A & B & C & _). destruct pts as [|x [|y l]]; cbn in C; try lia. cbn in A. subst x. cbn [tl].
  split; [reflexivity|]. split; [discriminate|]. exact B.
Qed.

Lemma set_tag_facts : forall (g g' : @grid R) tag p, set_tag g tag p = Ok g' -> sorted (t2i g) ->
  locs g' = locs g /\ sorted (t2i g') /\
  (forall t i, find t (t2i g') = Some i -> find t (t2i g) = Some i \/ t = tag /\ i = p /\ tag <> EmptyString) /\
  (forall t i, find t (t2i g) = Some i -> find t (t2i g') = Some i) /\
  (tag <> EmptyString -> find tag (t2i g') = Some p).
Proof.
  intros g g' tag p H S. unfold set_tag in H. destruct (String.eqb_spec tag "") as [->|N].
  - injection H as <-. repeat split; auto. congruence.
  - destruct (has tag (t2i g) || existsb (Nat.eqb p) (i2t g)) eqn:E; [discriminate|]. injection H as <-. cbn [locs t2i].
    apply orb_false_elim in E. destruct E as [E _]. split; [reflexivity|]. split; [now apply put_sorted|].
    split; [|split].
    + intros t i. rewrite find_put by exact S. destruct (String.eqb_spec t tag) as [->|Nt]; [|auto]. intros [= <-]. auto.
    + intros t i F. rewrite find_put by exact S. destruct (String.eqb_spec t tag) as [->|Nt]; [|auto]. unfold has in E. rewrite F in E. discriminate.
    + intros _. rewrite find_put by exact S. now rewrite String.eqb_refl.
Qed.

Lemma nth_error_last : forall (l : list R) d, l <> [] -> nth_error l (length l - 1) = Some (last l d).
Proof.
  induction l as [|a [|b l] IH]; intros d H; [congruence|reflexivity|].
  change (length (a :: b :: l) - 1)%nat with (S (length (b :: l) - 1)) || replace (length (a :: b :: l) - 1)%nat with (S (length (b :: l) - 1)) by (cbn; lia).
  cbn [nth_error]. rewrite (IH d) by discriminate. reflexivity.
Qed.
Lemma nth_error_app_l : forall (l l' : list R) i x, nth_error l i = Some x -> nth_error (l ++ l')%list i = Some x.
Proof. intros l l' i x H. rewrite nth_error_app1; [exact H|]. apply nth_error_Some. congruence. Qed.

(* a: the line before; the grid ends at a *)
Lemma set_lines_facts : forall fuel t a g g', set_lines rN fuel (pos a) (psp a) g t = Ok g' -> 0 < psp a -> Forall spaced t -> sorted (t2i g) ->
  exists l, locs g' = (locs g ++ l)%list /\ distributed (a :: t) (pos a :: l) /\ sorted (t2i g') /\
    (forall s i, find s (t2i g) = Some i -> find s (t2i g') = Some i) /\
    (forall s i, find s (t2i g') = Some i -> find s (t2i g) = Some i \/ exists b, In b t /\ ltag b = s /\ s <> EmptyString /\ nth_error (locs g') i = Some (pos b)) /\
    (forall b, In b t -> ltag b <> EmptyString -> exists i, find (ltag b) (t2i g') = Some i /\ nth_error (locs g') i = Some (pos b)).
Proof.
  intros fuel. induction t as [|b t IH]; intros a g g' H Pa F S; cbn [set_lines] in H.
  - injection H as <-. exists []. rewrite app_nil_r. split; [reflexivity|]. split; [constructor|]. split; [exact S|]. split; [auto|]. split; [auto|]. intros b [].
  - inversion F as [|b' t' [Fb Fn] Ft]; subst. apply rbind_Ok in H. destruct H as (pts & E & H). apply rbind_Ok in H. destruct H as (g1 & E1 & H).
    destruct (getPoints_facts _ _ _ _ _ _ E Pa Fn) as [_ G]. destruct (good_tl _ _ _ _ _ G) as (Gp & Gn & Gl).
    destruct (set_tag_facts _ _ _ _ E1 S) as (L1 & S1 & T1 & T2 & T3). cbn [locs t2i] in *.
    destruct (IH b g1 g' H Fb Ft S1) as (l & A & B & C & D & D1 & D2).
    exists (tl pts ++ l)%list. rewrite A, L1, app_assoc. split; [reflexivity|]. split.
    { change (pos a :: (tl pts ++ l)%list) with ((pos a :: tl pts) ++ l)%list. rewrite <- Gp. econstructor; eassumption. }
    assert (Q : nth_error ((locs g ++ tl pts) ++ l)%list (length (locs g ++ tl pts)%list - 1) = Some (pos b)).
    { apply nth_error_app_l. rewrite (nth_error_last _ 0). 2:{ destruct (locs g); [exact Gn|discriminate]. }
      f_equal. rewrite <- Gl. clear - Gn. induction (locs g) as [|x y IHy]; [reflexivity|]. cbn [app]. cbn [last].
      destruct (y ++ tl pts)%list eqn:Z; [|exact IHy]. destruct y; [cbn in Z; congruence|discriminate]. }
    split; [exact C|]. split. { intros s i Fi. apply D. now apply T2. }
    split.
    + intros s i Fi. destruct (D1 s i Fi) as [K|(c & I1 & I2 & I4 & I3)].
      * destruct (T1 s i K) as [K'|(-> & -> & Ne)]; [now left|]. right. exists b. split; [now left|]. split; [reflexivity|]. split; [exact Ne|].
        exact Q.
      * right. exists c. split; [now right|]. split; [exact I2|]. split; [exact I4|]. rewrite A, L1 in I3. exact I3.
    + intros c [<-|I] Ne.
      * exists (length (locs g ++ tl pts)%list - 1)%nat. split; [apply D; apply T3; exact Ne|exact Q].
      * destruct (D2 c I Ne) as (i & J1 & J2). exists i. split; [exact J1|]. rewrite A, L1 in J2. exact J2.
Qed.
Definition fresh : @grid R := mkgrid [] [] [].
Lemma set_locations_facts : forall fuel ps g, set_locations rN fuel fresh ps = Ok g -> Forall spaced ps ->
  distributed ps (locs g) /\ sorted (t2i g) /\
  (forall s i, find s (t2i g) = Some i -> exists b, In b ps /\ ltag b = s /\ s <> EmptyString /\ nth_error (locs g) i = Some (pos b)) /\
  (forall b, In b ps -> ltag b <> EmptyString -> exists i, find (ltag b) (t2i g) = Some i /\ nth_error (locs g) i = Some (pos b)).
Proof.
  intros fuel ps g H F. destruct ps as [|a t]; [discriminate|]. cbn [set_locations] in H. inversion F as [|a' t' [Fa Fn] Ft]; subst.
  apply rbind_Ok in H. destruct H as (g1 & E & H). destruct (set_tag_facts _ _ _ _ E) as (L1 & S1 & T1 & T2 & T3); [constructor|].
  cbn [locs t2i fresh app] in *. destruct (set_lines_facts _ _ _ _ _ H Fa Ft S1) as (l & A & B & C & D & D1 & D2).
  rewrite A, L1. cbn [app]. split; [exact B|]. split; [exact C|]. split.
  - intros s i Fi. destruct (D1 s i Fi) as [K|(c & I1 & I2 & I4 & I3)].
    + destruct (T1 s i K) as [K'|(-> & -> & Ne)]; [discriminate|]. exists a. split; [now left|]. split; [reflexivity|]. split; [exact Ne|reflexivity].
    + exists c. split; [now right|]. split; [exact I2|]. split; [exact I4|]. rewrite A, L1 in I3. exact I3.
  - intros c [<-|I] Ne.
    + exists O. split; [apply D; apply T3; exact Ne|reflexivity].
    + destruct (D2 c I Ne) as (i & J1 & J2). exists i. split; [exact J1|]. rewrite A, L1 in J2. exact J2.
Qed.

(* distributed lines: increasing points, all the lines *)
Lemma chain_lt : forall d l, chain d l -> StronglySorted Rlt l.
Proof.
  intros d l H. apply Sorted_StronglySorted; [intros x y z; apply Rlt_trans|]. unfold chain in H.
  induction H as [|a l K IH Hd]; constructor; [exact IH|]. destruct Hd; constructor. destruct H; assumption.
Qed.
Lemma sorted_app_last : forall (l1 l2 : list R) x, StronglySorted Rlt (l1 ++ [x])%list -> StronglySorted Rlt (x :: l2) -> StronglySorted Rlt (l1 ++ x :: l2)%list.
Proof.
  induction l1 as [|a l1 IH]; intros l2 x H K; [exact K|]. cbn [app] in *. inversion H as [|a' l' H1 H2]; subst. constructor; [now apply IH|].
  apply Forall_app in H2. destruct H2 as [H2 H3]. apply Forall_app. split; [exact H2|]. inversion H3; subst. constructor; [assumption|].
  inversion K as [|a' l' K1 K2]; subst. rewrite Forall_forall in *. intros y Hy. specialize (K2 y Hy). lra.
Qed.
Lemma app_tl_last : forall (l : list R) d, l <> [] -> l = (removelast l ++ [last l d])%list.
Proof. intros. now apply app_removelast_last. Qed.
Lemma distributed_increasing : forall ps l, distributed ps l -> StronglySorted Rlt l /\ l <> [].
Proof.
  intros ps l H. induction H as [a|p q rest pts l G H [IH _]].
  - split; [constructor; constructor|discriminate].
  - destruct G as (A & B & C & D & _). apply chain_lt in D. assert (N : pts <> []) by (destruct pts; [cbn in C; lia|discriminate]).
    rewrite (app_tl_last pts 0 N) in D |- *. rewrite B in D |- *. split.
    + rewrite <- app_assoc. now apply sorted_app_last.
    + destruct (removelast pts); discriminate.
Qed.
Lemma distributed_ends : forall ps l, distributed ps l -> hd 0 l = hd 0 (map (@pos R) ps) /\ last l 0 = last (map (@pos R) ps) 0.
Proof.
  intros ps l H. induction H as [a|p q rest pts l G H [_ IH]]; [split; reflexivity|].
  destruct G as (A & B & C & _). assert (N : pts <> []) by (destruct pts; [cbn in C; lia|discriminate]). split.
  - destruct pts; [congruence|]. exact A.
  - change (last (map (@pos R) (p :: q :: rest)) 0) with (last (map (@pos R) (q :: rest)) 0). rewrite <- IH. clear - B N.
    rewrite (app_tl_last pts 0 N), B, <- app_assoc. cbn [app]. induction (removelast pts) as [|x y IHy]; [reflexivity|]. cbn [app]. rewrite <- IHy.
    destruct y; reflexivity.
Qed.
Lemma distributed_lines : forall ps l, distributed ps l -> incl (map (@pos R) ps) l.
Proof.
  intros ps l H. induction H as [a|p q rest pts l G H IH]; [apply incl_refl|].
  destruct G as (A & B & C & _). intros x [<-|I].
  - apply in_or_app. left. destruct pts; [cbn in C; lia|]. left. exact A.
  - apply IH in I. apply in_or_app. destruct I as [<-|I]; [left|now right]. rewrite <- B.
    assert (N : pts <> []) by (destruct pts; [cbn in C; lia|discriminate]). rewrite (app_tl_last pts 0 N) at 2. apply in_or_app. right. now left.
Qed.
(* progress *)
Definition at_most (tags : list string) (t2 : smap nat) : Prop := forall s, has s t2 = true -> ~ In s tags.
Definition filled (g : @grid R) : Prop := Forall (fun i => (i < length (locs g))%nat) (i2t g).
Definition tags (l : list (@line R)) : list string := filter (fun s => negb (String.eqb s "")) (map (@ltag R) l).
Lemma set_lines_progress : forall t a g, Forall spaced (a :: t) -> Sorted (fun p q => pos p < pos q) (a :: t) -> NoDup (tags t) ->
  (forall s, In s (tags t) -> find s (t2i g) = None) -> filled g -> sorted (t2i g) ->
  exists n g', forall fuel, (n <= fuel)%nat -> set_lines rN fuel (pos a) (psp a) g t = Ok g'.
Proof.
  induction t as [|b t IH]; intros a g Fs So Nd Hf Fi S.
  - exists O, g. reflexivity.
  - inversion Fs as [|? ? [Pa _] Fs']; subst. inversion Fs' as [|? ? [Pb Nb] _]; subst. inversion So as [|? ? So' Hd]; subst. inversion Hd as [|? ? Lt]; subst.
    destruct (getPoints_ok (pos a) (pos b) (psp a) (nsp b) Lt Pa Nb) as (n & pts & E & G).
    destruct (good_tl _ _ _ _ _ G) as (Gp & Gn & Gl).
    set (g0 := mkgrid (locs g ++ tl pts)%list (t2i g) (i2t g)).
    assert (T : exists g1, set_tag g0 (ltag b) (length (locs g ++ tl pts) - 1) = Ok g1 /\ filled g1 /\ sorted (t2i g1) /\ (forall s, In s (tags t) -> find s (t2i g1) = None)).
    { assert (F0 : filled g0). { unfold filled, g0 in *. cbn [locs i2t]. revert Fi. apply Forall_impl. intros i Hi. rewrite app_length. lia. }
      unfold set_tag, tags in *. cbn [map filter] in *. destruct (String.eqb_spec (ltag b) "") as [Eb|Nb'].
      - cbn [negb] in *. exists g0. auto.
      - cbn [negb] in *. inversion Nd as [|? ? Ni Nd']; subst. assert (X1 : has (ltag b) (t2i g0) = false).
        {  unfold has. cbn [g0 t2i]. rewrite (Hf (ltag b) (or_introl eq_refl)). reflexivity. }
        assert (X2 : existsb (Nat.eqb (length (locs g ++ tl pts) - 1)) (i2t g0) = false).
        { apply not_true_iff_false. intros X. apply existsb_exists in X. destruct X as (i & Hi & Ei). apply Nat.eqb_eq in Ei. subst i. cbn [g0 i2t] in Hi.
            unfold filled in Fi. rewrite Forall_forall in Fi. specialize (Fi _ Hi). rewrite app_length in Fi. destruct (tl pts); [congruence|]. cbn [length] in Fi. lia. }
        rewrite X1, X2. cbn [orb]. eexists. split; [reflexivity|]. split; [|split].
        + unfold filled. cbn [i2t locs g0]. constructor. { rewrite app_length. destruct (tl pts); [congruence|]. cbn [length]. lia. } exact F0.
        + cbn [t2i g0]. now apply put_sorted.
        + cbn [t2i g0]. intros s Hs. rewrite find_put by exact S. destruct (String.eqb_spec s (ltag b)) as [->|_]; [contradiction|]. apply Hf. now right. }
    destruct T as (g1 & T1 & T2 & T3 & T4).
    assert (Nd' : NoDup (tags t)). { unfold tags in *. cbn [map filter] in Nd. destruct (negb _); [now inversion Nd|exact Nd]. }
    destruct (IH b g1) as (m & g' & K); [exact Fs'|exact So'|exact Nd'|exact T4|exact T2|exact T3|].
    exists (n + m)%nat, g'. intros fuel Hfu. cbn [set_lines]. rewrite (E fuel) by lia. cbn [rbind]. fold g0. rewrite T1. cbn [rbind]. apply K. lia.
Qed.
Lemma set_locations_progress : forall ps, ps <> [] -> Forall spaced ps -> Sorted (fun p q => pos p < pos q) ps -> NoDup (tags ps) ->
  exists n g, forall fuel, (n <= fuel)%nat -> set_locations rN fuel fresh ps = Ok g.
Proof.
  intros [|a t] Ne F So Nd; [congruence|]. cbn [set_locations fresh locs t2i i2t app]. unfold tags in Nd. cbn [map filter] in Nd. unfold set_tag.
  destruct (String.eqb_spec (ltag a) "") as [Ea|Na].
  - cbn [negb] in Nd. destruct (set_lines_progress t a (mkgrid [pos a] [] [])) as (n & g & K); try assumption.
    + reflexivity. + constructor. + constructor. + exists n, g. exact K.
  - cbn [negb] in Nd. inversion Nd as [|? ? Ni Nd']; subst. cbn [t2i has find i2t existsb orb rbind].
    destruct (set_lines_progress t a (mkgrid [pos a] (put (ltag a) 0%nat []) [0%nat])) as (n & g & K); try assumption.
    + intros s Hs. cbn [t2i]. rewrite find_put by constructor. destruct (String.eqb_spec s (ltag a)) as [->|_]; [contradiction|reflexivity].
    + constructor; [cbn; lia|constructor]. + apply put_sorted. constructor. + exists n, g. exact K.
Qed.

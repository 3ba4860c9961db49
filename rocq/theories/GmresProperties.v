(* C63: what the iterative linear solver returns. *)
From Coq Require Import List Arith Lia Reals Lra.
From Verif Require Import Gmres GmresProofs GmresArnoldi GmresLoop GmresStuck.
Import ListNotations.
Open Scope R_scope.
Local Arguments Nat.ltb : simpl never.
Local Arguments Nat.leb : simpl never.
Local Arguments Nat.eqb : simpl never.

(* ---- what is meant ---------------------------------------------------------------------- *)
Definition size (n : nat) (x : list R) : R := sqrt (Sum (fun p => nth p x 0 * nth p x 0) n).
Definition is_difference (d b y : list R) : Prop := length d = length b /\ forall p, nth p d 0 = nth p b 0 - nth p y 0.
(* f maps vectors of length n to such and respects sums and multiples *)
Definition is_linear (n : nat) (f : list R -> list R) : Prop :=
  (forall x, length x = n -> length (f x) = n) /\
  (forall x y z a c, length x = n -> length y = n -> length z = n -> (forall p, nth p z 0 = a * nth p x 0 + c * nth p y 0) ->
     forall p, nth p (f z) 0 = a * nth p (f x) 0 + c * nth p (f y) 0).
Definition nonsingular (n : nat) (f : list R -> list R) : Prop := forall x, length x = n -> (forall p, nth p (f x) 0 = 0) -> forall p, nth p x 0 = 0.
(* the preconditioned residual of x is t times the preconditioned right hand side, or t if that is zero *)
Definition relative_residual (n : nat) (mul psolve : list R -> list R) (b x : list R) (t : R) : Prop :=
  forall d, is_difference d b (mul x) -> (size n (psolve b) <> 0 -> size n (psolve d) = t * size n (psolve b)) /\ (size n (psolve b) = 0 -> size n (psolve d) = t).

Lemma size_vnorm : forall n x, length x = n -> size n x = vnorm x.
Proof. intros n x L. unfold size, vnorm. rewrite (vdot_fdot x x n) by exact L. reflexivity. Qed.
Lemma linear_of : forall n f, is_linear n f -> linear n f.
Proof.
  intros n f (L & H). split; [exact L|]. intros x y c Lx Ly. assert (Lv : length (vadd x (vscale y c)) = n) by (rewrite len_vadd; exact Lx).
  apply vec_ext; [rewrite len_vadd, !L by assumption; reflexivity|]. intros p.
  rewrite (H x y _ 1 c Lx Ly Lv) by (intros q; rewrite nth_vadd by (rewrite len_vscale; congruence); rewrite nth_vscale; ring).
  rewrite nth_vadd by (rewrite len_vscale, !L by assumption; reflexivity). rewrite nth_vscale. ring.
Qed.
Lemma difference_vsub : forall d b y, length b = length y -> is_difference d b y -> d = vsub b y.
Proof. intros d b y L (H1 & H2). apply vec_ext; [rewrite len_vsub; exact H1|]. intros p. rewrite H2, nth_vsub by exact L. reflexivity. Qed.
(* at most n orthonormal vectors *)
Lemma orthonormal_bound : forall n (V : nat -> nat -> R) k, (forall a b, (a < k)%nat -> (b < k)%nat -> fdot n (V a) (V b) = if Nat.eq_dec a b then 1 else 0) -> (k <= n)%nat.
Proof.
  intros n V k H.
  assert (Bessel : forall p, (p < n)%nat -> Sum (fun a => V a p * V a p) k <= 1).
  { intros p Hp. set (u := fun q => e p q + (-1) * Sum (fun a => V a p * V a q) k).
    assert (Up : forall f, fdot n f (e p) = f p).
    { intros f. destruct n as [|m]; [lia|]. apply fdot_e. exact Hp. }
    assert (Su : forall a, (a < k)%nat -> fdot n (V a) (fun q => Sum (fun c => V c p * V c q) k) = V a p).
    { intros a Ha. rewrite (fdot_Sum n (V a) (fun c q => V c p * V c q)).
      rewrite (Sum_ext _ (fun c => V c p * e a c)).
      - assert (G : forall j, (j <= k)%nat -> Sum (fun c => V c p * e a c) j = if (a <? j)%nat then V a p else 0).
        { induction j as [|j IH]; intros Hj; [reflexivity|]. cbn [Sum]. rewrite IH by lia. unfold e. destruct (Nat.eqb_spec j a) as [->|].
          - rewrite (proj2 (Nat.ltb_ge a a)), (proj2 (Nat.ltb_lt a (S a))) by lia. ring.
          - destruct (Nat.ltb_spec a j); destruct (Nat.ltb_spec a (S j)); try lia; ring. }
        rewrite G by lia. rewrite (proj2 (Nat.ltb_lt a k)) by exact Ha. reflexivity.
      - intros c Hc. rewrite (fdot_ext n _ _ (V a) (fun q => V c p * V c q + 0 * 0)) by (reflexivity || (intros; ring)).
        rewrite (fdot_lin n _ (V c p) (V c) 0 (fun _ => 0)). rewrite H by assumption. unfold e. destruct (Nat.eq_dec a c) as [->|]; [rewrite Nat.eqb_refl; ring|]. destruct (Nat.eqb_spec c a); [congruence|ring]. }
    pose proof (fdot_self n u) as P.
    assert (E : fdot n u u = 1 - Sum (fun a => V a p * V a p) k).
    { unfold u at 2. rewrite (fdot_ext n _ _ u (fun q => 1 * e p q + (-1) * Sum (fun a => V a p * V a q) k)) by (reflexivity || (intros; ring)).
      rewrite fdot_lin. rewrite Up. rewrite (fdot_Sum n u (fun a q => V a p * V a q)).
      rewrite (Sum_ext _ (fun _ => 0)).
      - rewrite (Sum_zero (fun _ => 0)) by reflexivity. unfold u, e. rewrite Nat.eqb_refl. ring.
      - intros a Ha. rewrite (fdot_ext n _ _ u (fun q => V a p * V a q + 0 * 0)) by (reflexivity || (intros; ring)). rewrite (fdot_lin n u (V a p) (V a) 0 (fun _ => 0)). rewrite fdot_comm.
        unfold u. rewrite (fdot_ext n _ _ (V a) (fun q => 1 * e p q + (-1) * Sum (fun a => V a p * V a q) k)) by (reflexivity || (intros; ring)).
        rewrite fdot_lin. rewrite Up, Su by exact Ha. ring. }
    lra. }
  assert (T : INR k <= INR n); [|apply INR_le; exact T].
  assert (E : Sum (fun p => Sum (fun a => V a p * V a p) k) n = INR k).
  { rewrite Sum_swap. rewrite (Sum_ext _ (fun _ => 1)).
    - clear. induction k as [|k IH]; [reflexivity|]. cbn [Sum]. rewrite IH, S_INR. reflexivity.
    - intros a Ha. rewrite (H a a Ha Ha : Sum _ n = _). destruct (Nat.eq_dec a a); [reflexivity|contradiction]. }
  rewrite <- E. clear - Bessel. induction n as [|n IH]; [cbn; lra|]. cbn [Sum]. rewrite S_INR. specialize (IH ltac:(intros; apply Bessel; lia)). specialize (Bessel n ltac:(lia)). lra.
Qed.

(* The solver never divides by zero, always ends, and the residual it prints is that of the
   solution it returns; if GMRES reports convergence that residual is at most 1e-20; if not, it is
   not larger than that of the zero vector. *)
Theorem C63_gmres : forall n mul psolve rotg b, is_linear n mul -> is_linear n psolve -> nonsingular n (fun x => psolve (mul x)) -> rotation rotg -> length b = n ->
  exists code x it t, iterative_solve mul psolve rotg true b = (true, Return code x it t) /\ length x = n /\
    relative_residual n mul psolve b x t /\ (code = 0 \/ code = 1)%nat /\ (code = 0%nat -> t <= 1 / 10 ^ 20) /\
    (forall d, is_difference d b (mul x) -> size n (psolve d) <= size n (psolve b)) /\
    (* a system of at most 50 equations is solved *)
    ((n <= 50)%nat -> code = 0%nat).
Proof.
  intros n mul psolve rotg b Lm Lp Hn Hr Lb. apply linear_of in Lm. apply linear_of in Lp.
  set (nb := norm_of_b psolve b). assert (Lpb : length (psolve b) = n) by (apply (proj1 Lp); exact Lb).
  assert (Nb : 0 < nb).
  { unfold nb, norm_of_b. destruct (Reqb0 (vnorm (psolve b))) eqn:E; [lra|]. pose proof (vnorm_nonneg (psolve b)). destruct (Req_dec (vnorm (psolve b)) 0) as [Z|Z]; [apply Reqb0_spec in Z; congruence|lra]. }
  assert (Tp : 0 < 1 / 10 ^ 20) by (apply Rdiv_lt_0_compat; [lra|apply pow_lt; lra]).
  assert (L0 : length (repeat 0 (length b)) = n) by (rewrite repeat_length; exact Lb).
  pose proof (gmres_ok n mul psolve rotg Lm Lp Hr Hn 50 100 (1 / 10 ^ 20) nb Tp Nb b Lb _ L0) as G.
  assert (D50 : exists c, (100 = c * 50)%nat) by (exists 2%nat; reflexivity).
  unfold iterative_solve. fold nb.
  assert (Small : (n <= 50)%nat -> match gmres mul psolve rotg 50 100 (1 / 10 ^ 20) nb (repeat 0 (length b)) b with Return code _ _ _ => code = 0%nat | _ => True end).
  { intros Hs. unfold gmres. cbv zeta. set (x0 := repeat 0 (length b)). change (psolve (vsub b (mul x0))) with (residual mul psolve b x0).
    destruct (Rleb _ _) eqn:E; [reflexivity|].
    assert (Nz : vnorm (residual mul psolve b x0) <> 0).
    { intros Z. rewrite Z in E. assert (T : Rleb (0 / nb) (1 / 10 ^ 20) = true) by (apply Rleb_spec; unfold Rdiv; rewrite Rmult_0_l; lra). congruence. }
    cbn [outer]. change (1 <=? 100)%nat with true. cbv iota zeta.
    pose proof (start_strong n mul psolve b Lb (residual mul psolve b x0) (mkW (fun _ _ => 0) (fun _ => 0) (fun _ => 0) (fun _ => 0) (fun _ => None)) (residual_len n mul psolve Lp b Lb x0 L0) Nz) as S0.
    set (w0 := mkW _ _ _ (set1 _ _ _) _) in *.
    pose proof (inner_ok n mul psolve rotg Lm Lp Hr Hn 100 (1 / 10 ^ 20) nb Tp Nb b Lb 50 0 1 x0 w0 _ L0 S0 eq_refl) as I.
    destruct (inner mul psolve rotg 100 (1 / 10 ^ 20) nb 50 0 1 x0 w0) as [x2 j2 t2|w2 j2|]; [reflexivity| |destruct I].
    exfalso. destruct I as (i' & S2 & _ & _ & I4 & I5 & I6 & _ & I8).
    assert (i' = 50)%nat by lia. subst i'.
    pose proof (orthonormal_bound n (fun a p => nth p (vec n w2 a) 0) 51) as Ob. assert (51 <= n)%nat; [apply Ob|lia]. intros a c Ha Hc. apply (is_orth _ _ _ _ _ _ S2); lia. }
  destruct (gmres mul psolve rotg 50 100 (1 / 10 ^ 20) nb (repeat 0 (length b)) b) as [code x it t| |]; [|contradiction|discriminate].
  destruct G as (G1 & G2 & G3 & G4). specialize (G4 D50). exists code, x, it, t. split; [reflexivity|]. split; [exact G1|].
  assert (Dif : forall d, is_difference d b (mul x) -> size n (psolve d) = vnorm (residual mul psolve b x)).
  { intros d Hd. rewrite (difference_vsub d b (mul x)) by (try exact Hd; rewrite (proj1 Lm) by exact G1; exact Lb). apply size_vnorm. apply (proj1 Lp). rewrite len_vsub. exact Lb. }
  split; [|split; [destruct G3 as [(-> & _)| ->]; auto|split; [|split; [|exact Small]]]].
  - intros d Hd. rewrite (Dif d Hd), (size_vnorm n (psolve b)) by exact Lpb. rewrite G2. unfold nb, norm_of_b.
    split; intros H; [rewrite Reqb0_false by exact H; reflexivity|]. rewrite (proj2 (Reqb0_spec _) H). ring.
  - intros ->. destruct G3 as [(_ & H)|H]; [exact H|discriminate].
  - intros d Hd. rewrite (Dif d Hd), (size_vnorm n (psolve b)) by exact Lpb. eapply Rle_trans; [exact G4|].
    apply Req_le. f_equal. unfold residual. apply vec_ext; [rewrite Lpb; apply (proj1 Lp); rewrite len_vsub; exact Lb|]. intros p.
    rewrite (linear_sub n psolve b (mul (repeat 0 (length b)))) by (try exact Lp; try exact Lb; apply (proj1 Lm); exact L0).
    assert (Z : nth p (psolve (mul (repeat 0 (length b)))) 0 = 0); [|lra].
    pose proof (B_linear n mul psolve Lm Lp) as Bl. destruct Bl as (_ & Bl). pose proof (Bl _ _ (-1) L0 L0) as Z. unfold B in Z.
    assert (Ez : vadd (repeat 0 (length b)) (vscale (repeat 0 (length b)) (-1)) = repeat 0 (length b)).
    { apply vec_ext; [rewrite len_vadd; reflexivity|]. intros q. rewrite nth_vadd by (rewrite len_vscale; reflexivity). rewrite nth_vscale, nth_repeat. ring. }
    rewrite Ez in Z. apply (f_equal (fun l => nth p l 0)) in Z. rewrite nth_vadd in Z by (rewrite len_vscale; reflexivity). rewrite nth_vscale in Z. lra.
Qed.
Print Assumptions C63_gmres.

(* What the solver reports as a success need not solve the system: the number that GMRES returns
   is printed and then ignored.  For the cyclic shift of 51 unknowns without preconditioning the
   solution returned is zero after 100 iterations. *)
Theorem C63_reported_refuted : forall rotg, rotation rotg -> exists n mul b x it t, is_linear n mul /\ nonsingular n mul /\ length b = n /\ size n b = 1 /\
  iterative_solve mul (fun v => v) rotg true b = (true, Return 1 x it t) /\ (forall d, is_difference d b (mul x) -> size n d = 1).
Proof.
  intros rotg Hr. exists 51%nat, shift, (first 50), (repeat 0 51), 100%nat, 1.
  assert (Ln : forall x, length x = 51%nat -> length (shift x) = 51%nat) by (intros x L; rewrite shift_len; exact L).
  split; [split; [exact Ln|]|].
  { intros x y z a c Lx Ly Lz H p. destruct (nth_shift 50 z Lz) as (Z1 & Z2). destruct (nth_shift 50 x Lx) as (X1 & X2). destruct (nth_shift 50 y Ly) as (Y1 & Y2).
    destruct p as [|p]; [rewrite Z1, X1, Y1; apply H|]. destruct (Nat.lt_ge_cases p 50); [rewrite Z2, X2, Y2 by assumption; apply H|]. rewrite !nth_overflow by (rewrite shift_len; lia). ring. }
  split; [intros x L; exact (shift_inj 50 x L)|]. split; [apply first_len|]. split; [rewrite size_vnorm by apply first_len; apply norm_first|].
  split.
  - unfold iterative_solve. f_equal.
    assert (Nb : norm_of_b (fun v => v) (first 50) = 1) by (unfold norm_of_b; rewrite norm_first, Reqb0_false by lra; reflexivity). rewrite Nb. rewrite first_len.
    apply (gmres_stuck 50 rotg Hr (1 / 10 ^ 20)); [|lia|exists 2%nat; reflexivity]. split; [apply Rdiv_lt_0_compat; [lra|apply pow_lt; lra]|]. unfold Rdiv. rewrite Rmult_1_l. rewrite <- Rinv_1. apply Rinv_lt_contravar; [rewrite Rmult_1_l; apply pow_lt; lra|apply Rlt_pow_R1; [lra|lia]].
  - intros d Hd. rewrite (difference_vsub d (first 50) (shift (repeat 0 51))) by (try exact Hd; rewrite shift_len, first_len, repeat_length; reflexivity).
    rewrite size_vnorm by (rewrite len_vsub; apply first_len). pose proof (res_zero 50) as Rz. unfold residual in Rz. rewrite Rz. apply norm_first.
Qed.
Print Assumptions C63_reported_refuted.

(* the hypotheses are met: a rotation as drotg computes it, and the shift of 3 unknowns *)
Definition a_rotg (a b : R) : R * R := let h := sqrt (a * a + b * b) in if Req_EM_T h 0 then (1, 0) else (a / h, b / h).
Example C63_rotation : rotation a_rotg.
Proof.
  intros a b. unfold a_rotg. cbv zeta. assert (P : 0 <= a * a + b * b) by nra. pose proof (sqrt_sqrt _ P) as Q. destruct (Req_EM_T (sqrt (a * a + b * b)) 0) as [Z|Z]; cbn [fst snd].
  - split; [ring|]. rewrite Z in Q. assert (b * b = 0) by nra. assert (b = 0) by nra. subst b. ring.
  - set (h := sqrt (a * a + b * b)) in *. split; [|field; exact Z]. replace (a / h * (a / h) + b / h * (b / h)) with ((a * a + b * b) / (h * h)) by (field; exact Z). rewrite Q. field. rewrite <- Q. nra.
Qed.
Example C63_case : exists x it t, iterative_solve shift (fun v => v) a_rotg true [1; 2; 3] = (true, Return 0 x it t) /\ relative_residual 3 shift (fun v => v) [1; 2; 3] x t /\ t <= 1 / 10 ^ 20.
Proof.
  destruct (C63_gmres 3 shift (fun v => v) a_rotg [1; 2; 3]) as (code & x & it & t & E & _ & R1 & _ & R2 & _ & R3).
  - split; [intros x L; rewrite shift_len; exact L|].
    intros x y z a c Lx Ly Lz H p. destruct (nth_shift 2 z Lz) as (Z1 & Z2). destruct (nth_shift 2 x Lx) as (X1 & X2). destruct (nth_shift 2 y Ly) as (Y1 & Y2).
    destruct p as [|p]; [rewrite Z1, X1, Y1; apply H|]. destruct (Nat.lt_ge_cases p 2); [rewrite Z2, X2, Y2 by assumption; apply H|]. rewrite !nth_overflow by (rewrite shift_len; lia). ring.
  - split; [auto|]. intros x y z a c _ _ _ H. exact H.
  - intros x L. exact (shift_inj 2 x L).
  - exact C63_rotation.
  - reflexivity.
  - pose proof (R3 ltac:(lia)) as Z. subst code. exists x, it, t. auto.
Qed.

(* Solution update rules (C21). *)
From Coq Require Import String List Arith Bool Reals Lra Lia Psatz QArith.
From Verif Require Import Newton NewtonProofs NewtonConv NewtonNum TimeMethods.
Import ListNotations.
Open Scope R_scope.

Lemma rlt : forall a b, ltb rops a b = true <-> a < b.
Proof. intros a b. cbn. unfold rb. destruct (Rlt_dec a b); split; intros; try discriminate; auto; contradiction. Qed.
Lemma rlt_f : forall a b, ltb rops a b = false <-> b <= a.
Proof. intros a b. cbn. unfold rb. destruct (Rlt_dec a b); split; intros; try discriminate; auto; lra. Qed.
Lemma rle : forall a b, leb rops a b = true <-> a <= b.
Proof. intros a b. cbn. unfold rb. destruct (Rle_dec a b); split; intros; try discriminate; auto; contradiction. Qed.
Lemma rle_f : forall a b, leb rops a b = false <-> b < a.
Proof. intros a b. cbn. unfold rb. destruct (Rle_dec a b); split; intros; try discriminate; auto; lra. Qed.

(* default *)
Lemma default_rule : forall o u, node_update rops DEFAULT o u = Some (o + u, u).
Proof. intros. cbn. unfold default_update. cbn. f_equal. f_equal. ring. Qed.

(* positive, any numbers whose comparisons are complementary outside NaN *)
Lemma positive_rule_gen : forall D (F : ops D) (num : D -> Prop),
  (forall a b, num a -> num b -> leb F a b = negb (ltb F b a)) -> num (zero F) ->
  (forall a b, ltb F a b = true -> num a /\ num b) ->
  forall o u n u', node_update F POSITIVE o u = Some (n, u') -> num n -> ltb F (zero F) n = true.
Proof.
  intros D F num Hc Hz Hn o u n u' H Nn. cbn in H. unfold positive_update in H.
  destruct (ltb F (zero F) o) eqn:Eo; [|discriminate].
  assert (P : forall x, num x -> leb F x (zero F) = false -> ltb F (zero F) x = true).
  { intros x Nx Hx. rewrite Hc in Hx by assumption. destruct (ltb F (zero F) x); [reflexivity|discriminate]. }
  destruct (leb F (add F u o) (zero F)) eqn:E1; [|injection H as <- <-; apply P; assumption].
  destruct (leb F (mul F (c001 F) o) (zero F)) eqn:E2; [|injection H as <- <-; apply P; assumption].
  destruct (leb F (mul F (half F) o) (zero F)) eqn:E3; injection H as <- <-; [exact Eo|apply P; assumption].
Qed.

Lemma positive_rule : forall o u,
  node_update rops POSITIVE o u =
    if Rlt_dec 0 o then
      if Rle_dec (o + u) 0 then Some (0.001 * o, 0.001 * o - o) else Some (o + u, u)
    else None.
Proof.
  intros o u. cbn [node_update]. unfold positive_update. cbn [ltb leb rops zero add mul c001 half sub]. unfold rb.
  rewrite (Rplus_comm u o).
  destruct (Rlt_dec 0 o) as [Ho|]; [|reflexivity].
  destruct (Rle_dec (o + u) 0); [|reflexivity].
  destruct (Rle_dec (0.001 * o) 0); [exfalso; lra|]. reflexivity.
Qed.

(* log damping *)
Definition damped (u : R) : R := if Rlt_dec 0.0259 (Rabs u) then log_damp u else u.
Lemma log_rule : forall o u, node_update rops LOGDAMP o u = Some (o + damped u, damped u).
Proof.
  intros o u. cbn [node_update]. unfold log_update, damped. cbn [ltb rops add logdamp c0259 absv]. unfold rb.
  destruct (Rlt_dec 0.0259 (Rabs u)); rewrite Rplus_comm; reflexivity.
Qed.

Lemma ln_le_sub1 : forall x, 0 < x -> ln (1 + x) < x.
Proof.
  intros x Hx. rewrite <- (ln_exp x) at 2. apply ln_increasing; [lra|]. apply exp_ineq1. lra.
Qed.
Lemma log_damp_abs : forall u, u <> 0 -> Rabs (log_damp u) = 0.0259 * ln (1 + Rabs u / 0.0259) /\ 0 < u * log_damp u.
Proof.
  intros u Hu. assert (Ha : 0 < Rabs u) by (apply Rabs_pos_lt; exact Hu).
  assert (Hq : 0 < Rabs u / 0.0259) by (apply Rdiv_lt_0_compat; lra).
  assert (Hl : 0 < ln (1 + Rabs u / 0.0259)) by (rewrite <- ln_1; apply ln_increasing; lra).
  unfold log_damp. destruct (Rlt_dec 0 u) as [P|N].
  - split.
    + rewrite Rmult_1_l, Rabs_right by (apply Rle_ge; apply Rmult_le_pos; lra). reflexivity.
    + rewrite Rmult_1_l. apply Rmult_lt_0_compat; [exact P|]. apply Rmult_lt_0_compat; lra.
  - assert (u < 0) by lra. split.
    + replace (-1 * 0.0259 * ln (1 + Rabs u / 0.0259)) with (- (0.0259 * ln (1 + Rabs u / 0.0259))) by ring.
      rewrite Rabs_Ropp, Rabs_right; [reflexivity|]. apply Rle_ge. apply Rmult_le_pos; lra.
    + assert (0 < 0.0259 * ln (1 + Rabs u / 0.0259)) by (apply Rmult_lt_0_compat; lra).
      replace (u * (-1 * 0.0259 * ln (1 + Rabs u / 0.0259))) with ((- u) * (0.0259 * ln (1 + Rabs u / 0.0259))) by ring.
      apply Rmult_lt_0_compat; lra.
Qed.
Lemma damped_facts : forall u,
  Rabs (damped u) <= Rabs u /\ (u <> 0 -> 0 < u * damped u) /\ (u = 0 -> damped u = 0) /\
  (0.0259 < Rabs u -> Rabs (damped u) = 0.0259 * ln (1 + Rabs u / 0.0259)) /\
  (Rabs u <= 0.0259 -> damped u = u).
Proof.
  intros u. unfold damped. destruct (Rlt_dec 0.0259 (Rabs u)) as [B|B].
  - assert (Hu : u <> 0) by (intros ->; rewrite Rabs_R0 in B; lra).
    destruct (log_damp_abs u Hu) as (E & P). assert (Ha : 0 < Rabs u / 0.0259) by (apply Rdiv_lt_0_compat; lra).
    pose proof (ln_le_sub1 _ Ha) as Hl.
    split; [|split; [intros _; exact P|split; [intros; contradiction|split; [intros _; exact E|intros; lra]]]].
    rewrite E. apply Rle_trans with (0.0259 * (Rabs u / 0.0259)); [|right; field; lra].
    apply Rmult_le_compat_l; lra.
  - split; [lra|]. split.
    + intros Hu. destruct (Rtotal_order u 0) as [K|[K|K]]; [|contradiction|].
      * replace (u * u) with ((-u) * (-u)) by ring. apply Rmult_lt_0_compat; lra.
      * apply Rmult_lt_0_compat; lra.
    + split; [auto|]. split; [intros; lra|auto].
Qed.

(* errors reported for an equation: maxima over the nodes, and the node at which
   the absolute error occurs *)
Definition is_max (P : R -> Prop) (m : R) : Prop := (forall x, P x -> x <= m) /\ (m = 0 \/ P m).
Definition rrel (mine : R) (p : R * R) : R := Rabs (snd p) / (Rabs (fst p) + mine).

Lemma errs_max : forall mine l i a r an, 0 <= a -> 0 <= r ->
  let e := errs rops mine i l a r an in
  (a <= aerr e) /\ (r <= rerr e) /\
  (forall p, In p l -> Rabs (snd p) <= aerr e /\ rrel mine p <= rerr e) /\
  (aerr e = a /\ anode e = an \/ exists k p, nth_error l k = Some p /\ aerr e = Rabs (snd p) /\ anode e = (i + k)%nat) /\
  (rerr e = r \/ exists p, In p l /\ rerr e = rrel mine p).
Proof.
  intros mine. induction l as [|[nv u] t IH]; intros i a r an Ha Hr.
  - cbn. repeat split; try lra; auto. all: intros p [].
  - rewrite errs_cons. cbv zeta. unfold relerr, max1. cbn [absv rops fst snd div add].
    change (Rabs u / (Rabs nv + mine)) with (rrel mine (nv, u)).
    destruct (ltb rops a (Rabs u)) eqn:E1; destruct (ltb rops r (rrel mine (nv, u))) eqn:E2;
      try apply rlt in E1; try apply rlt_f in E1; try apply rlt in E2; try apply rlt_f in E2;
    match goal with |- context [errs _ _ _ t ?a1 ?r1 ?n1] =>
           specialize (IH (S i) a1 r1 n1 ltac:(lra) ltac:(lra)) end; cbv zeta in IH;
         destruct IH as (I1 & I2 & I3 & I4 & I5).
    all: split; [lra|]; split; [lra|]; split; [intros p [<-|Hp]; [cbn [snd]; split; lra|apply I3; exact Hp]|]; split.
    all: try (destruct I5 as [->|(p & Hp & ->)]; [first [left; reflexivity | right; exists (nv, u); split; [left; reflexivity|reflexivity]]|right; exists p; split; [right; exact Hp|reflexivity]]).
    all: destruct I4 as [(-> & ->)|(k & p & Hk & -> & ->)];
         [first [left; split; reflexivity | right; exists 0%nat, (nv, u); cbn; split; [reflexivity|split; [reflexivity|lia]]]
         |right; exists (S k), p; split; [exact Hk|split; [reflexivity|lia]]].
Qed.

(* circuit, positive *)
Lemma halve_ok : forall o u, 0 < o -> exists fuel0, forall fuel, (fuel0 <= fuel)%nat ->
  exists k, halve rops fuel o u = Ok (u / 2 ^ k) /\ 0 < u / 2 ^ k + o /\
    (k = 0%nat \/ u / 2 ^ (k - 1) + o <= 0).
Proof.
  assert (H : forall f o u, 0 < o -> - u < o * 2 ^ f -> forall fuel, (f <= fuel)%nat ->
    exists k, halve rops fuel o u = Ok (u / 2 ^ k) /\ 0 < u / 2 ^ k + o /\ (k = 0%nat \/ u / 2 ^ (k - 1) + o <= 0)).
  { induction f as [|f IH]; intros o u Ho Hu fuel Hf.
    - exists 0%nat. cbn in Hu. assert (E : leb rops (u + o) 0 = false) by (apply rle_f; lra).
      split; [|split; [cbn; lra|left; reflexivity]].
      destruct fuel; cbn [halve]; change (add rops u o) with (u + o); change (zero rops) with 0; rewrite E; f_equal; field.
    - destruct (leb rops (u + o) 0) eqn:E.
      + destruct fuel as [|fuel]; [lia|]. cbn [halve]. change (add rops u o) with (u + o); change (zero rops) with 0. rewrite E.
        change (mul rops (half rops) u) with (/ 2 * u).
        destruct (IH o (/ 2 * u) Ho) with (fuel := fuel) as (k & K1 & K2 & K3); [cbn [pow] in Hu; lra|lia|].
        exists (S k). assert (P : (2 ^ k <> 0)%R) by (apply pow_nonzero; lra).
        assert (Eq : forall j, u / 2 ^ S j = / 2 * u / 2 ^ j).
        { intros j. assert (2 ^ j <> 0) by (apply pow_nonzero; lra). cbn [pow]. field. assumption. }
        rewrite Eq. split; [exact K1|]. split; [exact K2|]. right. cbn [Nat.sub]. rewrite Nat.sub_0_r.
        destruct K3 as [->|K3].
        * cbn. apply rle in E. lra.
        * destruct k as [|k]; [cbn; apply rle in E; lra|]. cbn [Nat.sub] in K3. rewrite Nat.sub_0_r in K3.
          rewrite Eq. exact K3.
      + exists 0%nat. split; [|split; [cbn; apply rle_f in E; lra|left; reflexivity]].
        destruct fuel; cbn [halve]; change (add rops u o) with (u + o); change (zero rops) with 0; rewrite E; f_equal; field. }
  intros o u Ho.
  destruct (Pow_x_infinity 2 ltac:(rewrite Rabs_right; lra) (- u / o + 1)) as (N & HN).
  exists N. intros fuel Hf. apply (H N o u Ho); [|exact Hf].
  specialize (HN N (Nat.le_refl N)). rewrite Rabs_right in HN by (apply Rle_ge; apply pow_le; lra).
  apply Rge_le in HN. apply (Rmult_lt_reg_r (/ o)); [apply Rinv_0_lt_compat; exact Ho|].
  replace (o * 2 ^ N * / o) with (2 ^ N) by (field; lra). unfold Rdiv in HN. lra.
Qed.
Lemma halve_hang : forall fuel o u, o <= 0 -> u + o <= 0 -> halve rops fuel o u = Hang.
Proof.
  induction fuel as [|f IH]; intros o u Ho Hu; cbn [halve].
  - change (add rops u o) with (u + o). change (zero rops) with 0.
    assert (E : leb rops (u + o) 0 = true) by (apply rle; lra). rewrite E. reflexivity.
  - change (add rops u o) with (u + o). change (zero rops) with 0.
    assert (E : leb rops (u + o) 0 = true) by (apply rle; lra). rewrite E.
    apply IH; [exact Ho|]. change (mul rops (half rops) u) with (/ 2 * u). lra.
Qed.

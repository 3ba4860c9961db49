(* Proofs about Newton.v, part 2: iteration bound (C12), convergence (C10), history (C09). *)
From Coq Require Import String List ZArith Arith Bool Lia.
From Verif Require Import Newton NewtonProofs.
Import ListNotations.

(* ---- the trace of iterations, without any stopping rule ------------------ *)
Section Trace.
Context {D : Type} (F : ops D).
Variable linsolve : nat -> state D -> list D -> option (nat -> D).

(* state and bookkeeping after j iterations; None if a linear solve failed, an
   update threw or did not return *)
Fixpoint after (p : @params D) (rc : list D) (s : state D) (k : @track D) (j : nat) : option (state D * @track D) :=
  match j with
  | O => Some (s, k)
  | S j' => match after p rc s k j' with
            | None => None
            | Some (s', k') =>
              match linsolve j' s' rc with
              | None => None
              | Some result => match iterate F p s' k' result with
                               | (s'', Ok k'') => Some (s'', k'')
                               | _ => None
                               end
              end
            end
  end.

Definition running (p : @params D) (k : @track D) : Prop :=
  k_conv k = false /\ k_div k < maxdiv p /\ k_max k = false.

Definition loop_spec (p : @params D) (rc : list D) (N : nat) (s : state D) (k : @track D)
    (s' : state D) (r : res bool) (n : nat) : Prop :=
  n <= N /\
  (forall j, j < n -> exists sj kj, after p rc s k j = Some (sj, kj) /\ running p kj) /\
  match r with
  | Ok b =>
     (exists kn, after p rc s k n = Some (s', kn) /\ b = k_conv kn /\ (n = N \/ ~ running p kn)) \/
     (b = false /\ exists j kj, n = S j /\ after p rc s k j = Some (s', kj) /\ linsolve j s' rc = None)
  | Throw => exists j sj kj result, n = S j /\ after p rc s k j = Some (sj, kj) /\
      linsolve j sj rc = Some result /\ iterate F p sj kj result = (s', Throw)
  | Hang => exists j sj kj result, n = S j /\ after p rc s k j = Some (sj, kj) /\
      linsolve j sj rc = Some result /\ iterate F p sj kj result = (s', Hang)
  end.

Lemma loop_after : forall p rc s k m iter si ki s' r n,
  after p rc s k iter = Some (si, ki) ->
  (forall j, j < iter -> exists sj kj, after p rc s k j = Some (sj, kj) /\ running p kj) ->
  loop F linsolve p rc m iter si ki = (s', r, n) ->
  loop_spec p rc (iter + m) s k s' r n.
Proof.
  intros p rc s k m. induction m as [|m IH]; intros iter si ki s' r n Ha Hr H; cbn in H.
  - injection H as <- <- <-. split; [lia|]. split; [exact Hr|]. left. exists ki.
    split; [exact Ha|]. split; [reflexivity|]. left. lia.
  - destruct (k_conv ki || (maxdiv p <=? k_div ki) || k_max ki) eqn:E.
    + injection H as <- <- <-. split; [lia|]. split; [exact Hr|]. left. exists ki.
      split; [exact Ha|]. split; [reflexivity|]. right. intros (A & B & C).
      rewrite A, C in E. cbn in E. rewrite orb_false_r in E. apply Nat.leb_le in E. lia.
    + assert (Hk : running p ki).
      { apply orb_false_iff in E. destruct E as (E & E3). apply orb_false_iff in E. destruct E as (E1 & E2).
        apply Nat.leb_gt in E2. split; [exact E1|]. split; [exact E2|exact E3]. }
      assert (Hr' : forall j, j < S iter -> exists sj kj, after p rc s k j = Some (sj, kj) /\ running p kj).
      { intros j Hj. destruct (Nat.eq_dec j iter) as [->|]; [exists si, ki; auto|]. apply Hr. lia. }
      destruct (linsolve iter si rc) as [result|] eqn:El.
      * destruct (iterate F p si ki result) as [s'' [k''| |]] eqn:Ei.
        -- replace (iter + S m) with (S iter + m) by lia. eapply IH; [|exact Hr'|exact H].
           cbn. rewrite Ha, El, Ei. reflexivity.
        -- injection H as <- <- <-. split; [lia|]. split; [exact Hr'|].
           exists iter, si, ki, result. auto.
        -- injection H as <- <- <-. split; [lia|]. split; [exact Hr'|].
           exists iter, si, ki, result. auto.
      * injection H as <- <- <-. split; [lia|]. split; [exact Hr'|]. right. split; [reflexivity|].
        exists iter, ki. auto.
Qed.

Lemma loop_trace : forall p rc N s k s' r n,
  loop F linsolve p rc N 0 s k = (s', r, n) -> loop_spec p rc N s k s' r n.
Proof. intros. apply (loop_after p rc s k N 0 s k); auto. intros j Hj. lia. Qed.

(* ---- meaning of the divergence counter ---------------------------------- *)
(* a device update diverges relative to the previous device update *)
Definition diverges (p : @params D) (before now : D * D) : bool :=
  (ltb F (relLimit p) (snd now) && ltb F (snd before) (snd now)) ||
  (ltb F (absLimit p) (fst now) && ltb F (fst before) (fst now)).
Fixpoint flags (p : @params D) (before : D * D) (l : list (D * D)) : list bool :=
  match l with nil => nil | e :: t => diverges p before e :: flags p e t end.
(* length of the trailing run of true, given the run before the list *)
Fixpoint trailing (n : nat) (l : list bool) : nat :=
  match l with nil => n | b :: t => trailing (if b then S n else 0) t end.

Lemma track_devs_div : forall p ers k,
  let k' := track_devs F p k ers in
  k_div k' = trailing (k_div k) (flags p (k_abs k, k_rel k) ers) /\
  k_max k' = k_max k || existsb (fun e => ltb F (maxLimit p) (fst e)) ers /\
  k_conv k' = forallb (fun e => ltb F (snd e) (relLimit p) && ltb F (fst e) (absLimit p)) ers.
Proof.
  intros p ers k. unfold track_devs.
  assert (G : forall ers d m r a c,
    let k' := fold_left (track_dev F p) ers (mkTrack d m r a c) in
    k_div k' = trailing d (flags p (a, r) ers) /\
    k_max k' = m || existsb (fun e => ltb F (maxLimit p) (fst e)) ers /\
    k_conv k' = c && forallb (fun e => ltb F (snd e) (relLimit p) && ltb F (fst e) (absLimit p)) ers).
  { clear. induction ers as [|[da dr] t IH]; intros d m r a c; cbn.
    - rewrite orb_false_r, andb_true_r. auto.
    - match goal with |- context [fold_left _ t (mkTrack ?d1 ?m1 ?r1 ?a1 ?c1)] => specialize (IH d1 m1 r1 a1 c1) end.
      cbn in IH. destruct IH as (A & B & C). rewrite A, B, C. unfold diverges; cbn.
      rewrite <- orb_assoc, <- !andb_assoc. auto. }
  destruct (G ers (k_div k) (k_max k) (k_rel k) (k_abs k) true) as (A & B & C). cbn in *.
  rewrite A, B, C. auto.
Qed.
End Trace.

(* ---- C10 ----------------------------------------------------------------- *)
(* laws of the numbers: [num x]: x is not a NaN.  Met by exact arithmetic and by
   IEEE double (rounding is monotone); a <= b is ltb b a = false. *)
Record num_laws {D} (F : ops D) (num : D -> Prop) : Prop := {
  nl_zero : num (zero F);
  nl_lt_num : forall a b, ltb F a b = true -> num a /\ num b;
  nl_asym : forall a b, ltb F a b = true -> ltb F b a = false;
  nl_irrefl : forall a, ltb F a a = false;
  nl_le_trans : forall a b c, num a -> num b -> num c -> ltb F b a = false -> ltb F c b = false -> ltb F c a = false;
  nl_le_lt : forall a b c, num a -> num b -> num c -> ltb F b a = false -> ltb F b c = true -> ltb F a c = true;
  nl_abs : forall a, num (absv F a) -> ltb F (absv F a) (zero F) = false;
  nl_add : forall a b, num a -> num b -> ltb F a (zero F) = false -> ltb F b (zero F) = false ->
    num (add F a b) /\ ltb F (add F a b) a = false /\ ltb F (add F a b) b = false;
  nl_add_nan : forall a b, num (add F a b) -> num a /\ num b }.

Section Conv.
Context {D : Type} (F : ops D) (num : D -> Prop) (L : num_laws F num).

Definition nonneg (a : D) : Prop := num a /\ ltb F a (zero F) = false.
Definition le (a b : D) : Prop := ltb F b a = false.

Lemma nonneg_zero : nonneg (zero F).
Proof. split; [apply (nl_zero F num L)|apply (nl_irrefl F num L)]. Qed.
Lemma nonneg_lt : forall a b, nonneg a -> ltb F a b = true -> nonneg b.
Proof.
  intros a b (Na & Ha) H. destruct (nl_lt_num F num L a b H) as (_ & Nb). split; [exact Nb|].
  destruct (ltb F b (zero F)) eqn:E; [|reflexivity]. exfalso.
  pose proof (nl_le_lt F num L (zero F) a b (nl_zero F num L) Na Nb Ha H) as K.
  pose proof (nl_asym F num L _ _ K). congruence.
Qed.
Lemma le_refl : forall a, le a a. Proof. apply (nl_irrefl F num L). Qed.
Lemma le_trans : forall a b c, num a -> num b -> num c -> le a b -> le b c -> le a c.
Proof. intros a b c Na Nb Nc. apply (nl_le_trans F num L a b c); assumption. Qed.
Lemma nonneg_add : forall a b, nonneg a -> nonneg b -> nonneg (add F a b) /\ le a (add F a b) /\ le b (add F a b).
Proof.
  intros a b (Na & Ha) (Nb & Hb). destruct (nl_add F num L a b Na Nb Ha Hb) as (A & B & C).
  split; [split; [exact A|]|split; assumption].
  apply (le_trans (zero F) a (add F a b)); auto using (nl_zero F num L).
Qed.

Definition max1 (a x : D) : D := if ltb F a x then x else a.
Lemma max1_ok : forall a x, nonneg a -> nonneg (max1 a x) /\ le a (max1 a x) /\ (num x -> le x (max1 a x)).
Proof.
  intros a x Ha. unfold max1, le. destruct (ltb F a x) eqn:E.
  - split; [eapply nonneg_lt; eauto|]. split; [apply (nl_asym F num L); exact E|intros _; apply le_refl].
  - split; [exact Ha|]. split; [apply le_refl|intros _; exact E].
Qed.

Definition relerr (mine : D) (p : D * D) : D := div F (absv F (snd p)) (add F (absv F (fst p)) mine).

Lemma errs_cons : forall mine i n u t a r an, errs F mine i ((n, u) :: t) a r an =
  errs F mine (S i) t (max1 a (absv F u)) (max1 r (relerr mine (n, u))) (if ltb F a (absv F u) then i else an).
Proof. reflexivity. Qed.

Lemma errs_ok : forall mine l i a r an, nonneg a -> nonneg r ->
  let e := errs F mine i l a r an in
  nonneg (aerr e) /\ nonneg (rerr e) /\ le a (aerr e) /\ le r (rerr e) /\
  (forall p, In p l -> num (absv F (snd p)) -> le (absv F (snd p)) (aerr e)) /\
  (forall p, In p l -> num (relerr mine p) -> le (relerr mine p) (rerr e)).
Proof.
  intros mine. induction l as [|[nval upd] t IH]; intros i a r an Ha Hr.
  - cbn. repeat split; try apply Ha; try apply Hr; try apply le_refl; intros p [].
  - rewrite errs_cons. cbv zeta.
    destruct (max1_ok a (absv F upd) Ha) as (A1 & A2 & A3).
    destruct (max1_ok r (relerr mine (nval, upd)) Hr) as (R1 & R2 & R3).
    specialize (IH (S i) (max1 a (absv F upd)) (max1 r (relerr mine (nval, upd)))
                  (if ltb F a (absv F upd) then i else an) A1 R1).
    cbv zeta in IH. destruct IH as (I1 & I2 & I3 & I4 & I5 & I6).
    split; [exact I1|]. split; [exact I2|].
    split; [|split; [|split]].
    + eapply le_trans; [apply Ha|apply A1|apply I1|exact A2|exact I3].
    + eapply le_trans; [apply Hr|apply R1|apply I2|exact R2|exact I4].
    + intros p [<-|Hp] Hn; [|apply I5; assumption]. cbn [snd] in *.
      eapply le_trans; [exact Hn|apply A1|apply I1|apply A3; exact Hn|exact I3].
    + intros p [<-|Hp] Hn; [|apply I6; assumption].
      eapply le_trans; [exact Hn|apply R1|apply I2|apply R3; exact Hn|exact I4].
Qed.

(* node_updates pointwise *)
Lemma node_updates_nth : forall ut os us l d, node_updates F ut os us = Some l -> length us = length os ->
  length l = length os /\
  forall i, i < length os -> node_update F ut (nth i os d) (nth i us d) = Some (nth i l (d, d)).
Proof.
  intros ut. induction os as [|o os IH]; intros [|u us] l d H Hl; cbn in *; try lia.
  - injection H as <-. split; [reflexivity|]. intros i Hi. lia.
  - destruct (node_update F ut o u) as [p|] eqn:E; [|discriminate].
    destruct (node_updates F ut os us) as [l'|] eqn:E'; [|discriminate]. injection H as <-.
    destruct (IH us l' d E' ltac:(lia)) as (Hl' & Hn). split; [cbn; lia|].
    intros [|i] Hi; [exact E|]. cbn. apply Hn. lia.
Qed.

(* node i of an equation with update below the bounds A and R *)
Definition node_small (A R : D -> Prop) (e : eqn D) (o upd n : D) : Prop :=
  exists u, node_update F (e_upd e) o upd = Some (n, u) /\
    (num (absv F u) -> A (absv F u)) /\
    (num (relerr (e_min e) (n, u)) -> R (relerr (e_min e) (n, u))).

(* equation e took the values of its variable from vector os to ns *)
Definition eq_small (A R : D -> Prop) (base nn : nat) (result : nat -> D) (e : eqn D) (os ns : list D) : Prop :=
  length ns = length os /\
  forall i, i < length os ->
    node_small A R e (nth i os (zero F)) (result (base + e_index e * nn + i)) (nth i ns (zero F)).

Lemma eq_small_mono : forall (A A' R R' : D -> Prop) b nn res e os ns,
  (forall x, num x -> A x -> A' x) -> (forall x, num x -> R x -> R' x) ->
  eq_small A R b nn res e os ns -> eq_small A' R' b nn res e os ns.
Proof.
  intros A A' R R' b nn res e os ns HA HR (H1 & H2). split; [exact H1|]. intros i Hi.
  destruct (H2 i Hi) as (u & E & X & Y). exists u. split; [exact E|]. split; intros N; auto.
Qed.

Lemma eq_update_ok : forall r e result r' er, eq_update F r e result = Some (r', er) ->
  nonneg (aerr er) /\ nonneg (rerr er) /\
  exists m m', r_models r (e_var e) = Some m /\ r_models r' (e_var e) = Some m' /\
   (forall s, s <> e_var e -> r_models r' s = r_models r s) /\
   eq_small (fun x => le x (aerr er)) (fun x => le x (rerr er)) (r_base r) (r_nn r) result e (nm_vals m) (nm_vals m').
Proof.
  intros r e result r' er H. unfold eq_update in H.
  destruct (r_models r (e_var e)) as [m|] eqn:Em; [|discriminate].
  destruct (node_updates F (e_upd e) (nm_vals m) _) as [l|] eqn:El; [|discriminate]. injection H as <- <-.
  destruct (errs_ok (e_min e) l 0 (zero F) (zero F) 0 nonneg_zero nonneg_zero) as (E1 & E2 & _ & _ & E5 & E6).
  split; [exact E1|]. split; [exact E2|]. exists m. eexists. split; [reflexivity|]. cbn. rewrite String.eqb_refl.
  split; [reflexivity|]. split.
  { intros s Hs. destruct (String.eqb_spec s (e_var e)); [contradiction|reflexivity]. }
  cbn. destruct (node_updates_nth _ _ _ _ (zero F) El) as (Ll & Hn).
  { rewrite map_length, seq_length. reflexivity. }
  split; [rewrite map_length; exact Ll|]. intros i Hi. specialize (Hn i Hi).
  assert (Eu : nth i (map (fun i => result (r_base r + e_index e * r_nn r + i)) (seq 0 (length (nm_vals m)))) (zero F)
     = result (r_base r + e_index e * r_nn r + i)).
  { erewrite nth_indep by (rewrite map_length, seq_length; exact Hi).
    rewrite (map_nth (fun i => result (r_base r + e_index e * r_nn r + i)) (seq 0 (length (nm_vals m))) 0 i).
    rewrite seq_nth by exact Hi. reflexivity. }
  rewrite Eu in Hn. clear Eu.
  assert (Hin : In (nth i l (zero F, zero F)) l) by (apply nth_In; rewrite Ll; exact Hi).
  replace (nth i (map fst l) (zero F)) with (fst (nth i l (zero F, zero F))) by (symmetry; apply (map_nth fst l (zero F, zero F) i)).
  destruct (nth i l (zero F, zero F)) as [nv u]. exists u. split; [exact Hn|]. cbn [fst]. split; intros N.
  - apply (E5 (nv, u) Hin N).
  - apply (E6 (nv, u) Hin N).
Qed.

(* all equations of a region *)
Definition region_small (A R : D -> Prop) (result : nat -> D) (r r' : region D) : Prop :=
  forall e, In e (r_eqs r) -> exists m m', r_models r (e_var e) = Some m /\ r_models r' (e_var e) = Some m' /\
    eq_small A R (r_base r) (r_nn r) result e (nm_vals m) (nm_vals m').

Lemma region_update_eqs_ok : forall es r result a rl r' a' rl', nonneg a -> nonneg rl ->
  NoDup (map e_var es) ->
  region_update_eqs F r es result a rl = (r', Some (a', rl')) ->
  nonneg a' /\ nonneg rl' /\ le a a' /\ le rl rl' /\
  (forall s, ~ In s (map e_var es) -> r_models r' s = r_models r s) /\
  (forall e, In e es -> exists m m', r_models r (e_var e) = Some m /\ r_models r' (e_var e) = Some m' /\
    eq_small (fun x => le x a') (fun x => le x rl') (r_base r) (r_nn r) result e (nm_vals m) (nm_vals m')).
Proof.
  induction es as [|e t IH]; intros r result a rl r' a' rl' Ha Hr ND H; cbn in H.
  - injection H as <- <- <-. repeat split; try apply Ha; try apply Hr; try apply le_refl. intros e [].
  - destruct (eq_update F r e result) as [[r1 er]|] eqn:E; [|discriminate].
    destruct (eq_update_ok _ _ _ _ _ E) as (N1 & N2 & m & m' & Em & Em' & Fr & Sm).
    assert (Ebase : r_base r1 = r_base r /\ r_nn r1 = r_nn r).
    { unfold eq_update in E. rewrite Em in E. destruct (node_updates F _ _ _); [|discriminate].
      injection E as <- _. split; reflexivity. }
    destruct Ebase as (Eb & Enn).
    destruct (nonneg_add a (aerr er) Ha N1) as (A1 & A2 & A3).
    destruct (nonneg_add rl (rerr er) Hr N2) as (R1 & R2 & R3).
    cbn in ND. inversion ND as [|x y Hx Hy]; subst.
    destruct (IH _ _ _ _ _ _ _ A1 R1 Hy H) as (I1 & I2 & I3 & I4 & I5 & I6).
    split; [exact I1|]. split; [exact I2|].
    split; [eapply le_trans; [apply Ha|apply A1|apply I1|exact A2|exact I3]|].
    split; [eapply le_trans; [apply Hr|apply R1|apply I2|exact R2|exact I4]|].
    split.
    + intros s Hs. cbn in Hs. rewrite I5 by tauto. apply Fr. intros ->. tauto.
    + intros e' [<-|He'].
      * exists m, m'. split; [exact Em|]. split; [rewrite I5; assumption|].
        eapply eq_small_mono; [| |exact Sm]; cbn; intros x Nx Hx'.
        -- apply (le_trans x (aerr er) a'); [assumption|apply N1|apply I1|assumption|].
           apply (le_trans (aerr er) (add F a (aerr er)) a'); [apply N1|apply A1|apply I1|assumption|assumption].
        -- apply (le_trans x (rerr er) rl'); [assumption|apply N2|apply I2|assumption|].
           apply (le_trans (rerr er) (add F rl (rerr er)) rl'); [apply N2|apply R1|apply I2|assumption|assumption].
      * destruct (I6 e' He') as (x & x' & X1 & X2 & X3). exists x, x'. split; [|split; [exact X2|]].
        -- rewrite <- X1. symmetry. apply Fr. intros Eq. apply Hx. rewrite <- Eq. apply in_map. exact He'.
        -- rewrite Eb, Enn in X3. exact X3.
Qed.

Definition distinct_vars (r : region D) : Prop := NoDup (map e_var (r_eqs r)).

Lemma region_update_ok : forall r result r' a rl, distinct_vars r ->
  region_update F r result = (r', Some (a, rl)) ->
  nonneg a /\ nonneg rl /\ region_small (fun x => le x a) (fun x => le x rl) result r r'.
Proof.
  intros r result r' a rl ND H. unfold region_update in H.
  destruct (region_update_eqs_ok _ _ _ _ _ _ _ _ nonneg_zero nonneg_zero ND H) as (A & B & _ & _ & _ & C).
  split; [exact A|]. split; [exact B|exact C].
Qed.

Lemma region_small_mono : forall (A A' R R' : D -> Prop) res r r',
  (forall x, num x -> A x -> A' x) -> (forall x, num x -> R x -> R' x) ->
  region_small A R res r r' -> region_small A' R' res r r'.
Proof.
  intros A A' R R' res r r' HA HR H e He. destruct (H e He) as (m & m' & E & E' & S).
  exists m, m'. split; [exact E|]. split; [exact E'|]. eapply eq_small_mono; eauto.
Qed.

Lemma device_update_ok : forall d result a rl d' a' rl', nonneg a -> nonneg rl ->
  Forall distinct_vars d -> device_update F d result a rl = (d', Some (a', rl')) ->
  nonneg a' /\ nonneg rl' /\ le a a' /\ le rl rl' /\
  Forall2 (region_small (fun x => le x a') (fun x => le x rl') result) d d'.
Proof.
  induction d as [|r t IH]; intros result a rl d' a' rl' Ha Hr ND H; cbn in H.
  - injection H as <- <- <-. repeat split; try apply Ha; try apply Hr; try apply le_refl. constructor.
  - inversion ND as [|x y Hx Hy]; subst.
    destruct (region_update F r result) as [r1 [[ra rr]|]] eqn:E; [|discriminate].
    destruct (region_update_ok _ _ _ _ _ Hx E) as (N1 & N2 & Sm).
    destruct (device_update F t result (if ltb F a ra then ra else a) (add F rl rr)) as [t' [[a1 rl1]|]] eqn:Et; [|discriminate].
    injection H as <- <- <-.
    destruct (max1_ok a ra Ha) as (A1 & A2 & A3). destruct (nonneg_add rl rr Hr N2) as (R1 & R2 & R3).
    destruct (IH _ _ _ _ _ _ A1 R1 Hy Et) as (I1 & I2 & I3 & I4 & I5).
    split; [exact I1|]. split; [exact I2|].
    split; [eapply le_trans; [apply Ha|apply A1|apply I1|exact A2|exact I3]|].
    split; [eapply le_trans; [apply Hr|apply R1|apply I2|exact R2|exact I4]|].
    constructor; [|exact I5]. eapply region_small_mono; [| |exact Sm]; cbn; intros x Nx Hx'.
    + apply (le_trans x ra a1); [assumption|apply N1|apply I1|assumption|].
      apply (le_trans ra (max1 a ra) a1); [apply N1|apply A1|apply I1|apply A3; apply N1|exact I3].
    + apply (le_trans x rr rl1); [assumption|apply N2|apply I2|assumption|].
      apply (le_trans rr (add F rl rr) rl1); [apply N2|apply R1|apply I2|assumption|assumption].
Qed.

Lemma lt_of_le : forall x a c, num x -> nonneg a -> le x a -> ltb F a c = true -> ltb F x c = true.
Proof.
  intros x a c Nx Ha Hx Hc. apply (nl_le_lt F num L x a c); auto; [apply Ha|].
  apply (nl_lt_num F num L a c Hc).
Qed.

Lemma devices_update_ok : forall p ds result ds' ers, Forall (Forall distinct_vars) ds ->
  devices_update F ds result = (ds', Some ers) ->
  forallb (fun e => ltb F (snd e) (relLimit p) && ltb F (fst e) (absLimit p)) ers = true ->
  Forall2 (Forall2 (region_small (fun x => ltb F x (absLimit p) = true) (fun x => ltb F x (relLimit p) = true) result)) ds ds'.
Proof.
  intros p. induction ds as [|d t IH]; intros result ds' ers ND H Hc; cbn in H.
  - injection H as <- <-. constructor.
  - inversion ND as [|x y Hx Hy]; subst.
    destruct (device_update F d result (zero F) (zero F)) as [d' [[a rl]|]] eqn:E; [|discriminate].
    destruct (devices_update F t result) as [t' [ers'|]] eqn:Et; [|discriminate]. cbn in H. injection H as <- <-.
    cbn in Hc. apply andb_prop in Hc. destruct Hc as (Hc & Hc'). apply andb_prop in Hc. destruct Hc as (Hr & Ha).
    destruct (device_update_ok _ _ _ _ _ _ _ nonneg_zero nonneg_zero Hx E) as (N1 & N2 & _ & _ & Sm).
    constructor; [|eapply IH; eauto]. eapply F2_impl; [exact Sm|]. intros r r'.
    apply region_small_mono; intros x Nx Hx'.
    + exact (lt_of_le x a _ Nx N1 Hx' Ha).
    + exact (lt_of_le x rl _ Nx N2 Hx' Hr).
Qed.

(* circuit: node moved from o to n; here a NaN update is never accepted *)
Definition cir_node_small (A R : D -> Prop) (fuel : nat) (ut : updtype) (o upd n : D) : Prop :=
  exists u, cir_node_update F fuel ut o upd = Ok u /\ n = add F u o /\
    num (absv F u) /\ A (absv F u) /\
    (num (relerr (cirmin F) (n, u)) -> R (relerr (cirmin F) (n, u))).

Definition cir_small (A R : D -> Prop) (fuel : nat) (result : nat -> D) (types : list updtype) (row : nat) (os ns : list D) : Prop :=
  length ns = length os /\
  forall i ut, nth_error types i = Some ut -> i < length os ->
    cir_node_small A R fuel ut (nth i os (zero F)) (result (row + i)) (nth i ns (zero F)).

(* num of the accumulated sum follows from num of the final one *)
Lemma cir_update_num : forall fuel types os row result a r ns a' r',
  cir_update F fuel types os row result a r = Ok (ns, (a', r')) -> num a' -> num a.
Proof.
  intros fuel. induction types as [|ut ts IH]; intros os row result a r ns a' r' H Na'; cbn in H.
  - injection H as _ -> _. exact Na'.
  - destruct os as [|o os]; [injection H as _ -> _; exact Na'|].
    destruct (cir_node_update F fuel ut o (result row)) as [u| |]; try discriminate.
    match type of H with context [cir_update F fuel ts os (S row) result ?a1 ?r1] =>
      destruct (cir_update F fuel ts os (S row) result a1 r1) as [[l [ea er]]| |] eqn:Et; try discriminate end.
    injection H as _ -> ->. apply IH in Et; [|exact Na']. apply (nl_add_nan F num L) in Et. apply Et.
Qed.

Lemma cir_update_ok : forall fuel types os row result a r ns a' r',
  cir_update F fuel types os row result a r = Ok (ns, (a', r')) -> num a' ->
  ltb F a (zero F) = false -> nonneg r ->
  num a /\ nonneg a' /\ nonneg r' /\ le a a' /\ le r r' /\
  cir_small (fun x => le x a') (fun x => le x r') fuel result types row os ns.
Proof.
  intros fuel. induction types as [|ut ts IH]; intros os row result a r ns a' r' H Na' Ha Hr.
  - cbn in H. injection H as <- <- <-. split; [exact Na'|]. split; [split; assumption|].
    split; [exact Hr|]. split; [apply le_refl|]. split; [apply le_refl|]. split; [reflexivity|].
    intros [|i] ut; discriminate.
  - destruct os as [|o os]; cbn in H.
    + injection H as <- <- <-. split; [exact Na'|]. split; [split; assumption|].
      split; [exact Hr|]. split; [apply le_refl|]. split; [apply le_refl|]. split; [reflexivity|].
      intros i ut0 _ Hi. cbn in Hi. lia.
    + destruct (cir_node_update F fuel ut o (result row)) as [u| |] eqn:E; try discriminate.
      match type of H with context [cir_update F fuel ts os (S row) result ?a1 ?r1] =>
        destruct (cir_update F fuel ts os (S row) result a1 r1) as [[l [ea er]]| |] eqn:Et; try discriminate end.
      injection H as <- -> ->.
      destruct (max1_ok r (relerr (cirmin F) (add F u o, u)) Hr) as (R1 & R2 & R3).
      (* the sum before this node, then with it *)
      assert (P : num (add F a (absv F u))) by (eapply cir_update_num; [exact Et|exact Na']).
      destruct (nl_add_nan F num L _ _ P) as (Pa & Pu).
      assert (Hu : nonneg (absv F u)) by (split; [exact Pu|apply (nl_abs F num L); exact Pu]).
      destruct (nonneg_add a (absv F u) (conj Pa Ha) Hu) as (A1 & A2 & A3).
      destruct (IH _ _ _ _ _ _ _ _ Et Na' (proj2 A1) R1) as (I0 & I1 & I2 & I3 & I4 & I5 & I6).
      fold (relerr (cirmin F) (add F u o, u)) in I4. fold (max1 r (relerr (cirmin F) (add F u o, u))) in I4.
      split; [exact Pa|]. split; [exact I1|]. split; [exact I2|].
      split; [eapply le_trans; [exact Pa|apply A1|apply I1|exact A2|exact I3]|].
      split; [eapply le_trans; [apply Hr|apply R1|apply I2|exact R2|exact I4]|].
      split; [cbn; rewrite I5; reflexivity|].
      intros [|i] ut0 Hn Hi; cbn in Hn, Hi |- *.
      * injection Hn as <-. rewrite Nat.add_0_r. exists u. split; [exact E|]. split; [reflexivity|].
        split; [exact Pu|]. split.
        -- eapply le_trans; [exact Pu|apply A1|apply I1|exact A3|exact I3].
        -- intros Hnum. eapply le_trans; [exact Hnum|apply R1|apply I2|apply R3; exact Hnum|exact I4].
      * replace (row + S i) with (S row + i) by lia. apply I6; [exact Hn|lia].
Qed.

Lemma cir_conv : forall p types os row result ns ca cr,
  cir_update F (hfuel p) types os row result (zero F) (zero F) = Ok (ns, (ca, cr)) ->
  ltb F cr (relLimit p) = true -> ltb F ca (absLimit p) = true ->
  cir_small (fun x => ltb F x (absLimit p) = true) (fun x => ltb F x (relLimit p) = true) (hfuel p) result types row os ns.
Proof.
  intros p types os row result ns ca cr H Hr Ha.
  destruct (nl_lt_num F num L _ _ Ha) as (Nca & _).
  destruct (cir_update_ok _ _ _ _ _ _ _ _ _ _ H Nca (proj2 nonneg_zero) nonneg_zero) as (_ & I1 & I2 & _ & _ & I5 & I6).
  split; [exact I5|]. intros i ut Hn Hi. destruct (I6 i ut Hn Hi) as (u & E & En & Nu & HA & HR).
  exists u. split; [exact E|]. split; [exact En|]. split; [exact Nu|]. split.
  - exact (lt_of_le _ _ _ Nu I1 HA Ha).
  - intros N. eapply lt_of_le; [exact N|exact I2|apply HR; exact N|exact Hr].
Qed.

(* the last iteration: from state s0 with Newton step [result] to s' *)
Definition last_iteration (p : @params D) (s0 : state D) (result : nat -> D) (s' : state D) : Prop :=
  let A := fun x => ltb F x (absLimit p) = true in
  let R := fun x => ltb F x (relLimit p) = true in
  Forall2 (Forall2 (region_small A R result)) (s_devs s0) (s_devs s') /\
  (c_have (s_cir s0) = true -> exists os ns, c_sol (s_cir s0) = Some os /\ c_sol (s_cir s') = Some ns /\
     cir_small A R (hfuel p) result (c_types (s_cir s0)) (c_min (s_cir s0)) os ns).

Lemma iterate_conv : forall p s k result s' k', Forall (Forall distinct_vars) (s_devs s) ->
  iterate F p s k result = (s', Ok k') -> k_conv k' = true -> last_iteration p s result s'.
Proof.
  intros p s k result s' k' ND H Hc. unfold iterate in H.
  destruct (devices_update F (s_devs s) result) as [ds [ers|]] eqn:Ed; [|discriminate].
  pose proof (proj2 (proj2 (track_devs_div F p ers k))) as Ek.
  destruct (c_have (s_cir s)) eqn:Hh.
  - destruct (c_sol (s_cir s)) as [sol|] eqn:Es; [|discriminate].
    destruct (cir_update F (hfuel p) (c_types (s_cir s)) sol (c_min (s_cir s)) result (zero F) (zero F)) as [[sol' [ca cr]]| |] eqn:Ec; try discriminate.
    injection H as <- <-. cbn in Hc. apply andb_prop in Hc. destruct Hc as (Hc & Ha). apply andb_prop in Hc. destruct Hc as (Hc & Hr).
    split.
    + cbn. eapply devices_update_ok; [exact ND|exact Ed|]. rewrite <- Ek. exact Hc.
    + intros _. exists sol, sol'. split; [exact Es|]. split; [reflexivity|]. eapply cir_conv; eauto.
  - injection H as <- <-. split; [|congruence]. cbn. eapply devices_update_ok; [exact ND|exact Ed|].
    rewrite <- Ek. exact Hc.
Qed.

Lemma urel_distinct : forall a b : list (device D), drel a b -> Forall (Forall distinct_vars) a -> Forall (Forall distinct_vars) b.
Proof.
  intros a b H. induction H as [|d d' l l' Hd Hl IH]; intros W; [constructor|]. inversion W; subst.
  constructor; [|auto]. clear - Hd H1. induction Hd as [|x y t t' Hx Ht IH]; [constructor|]. inversion H1; subst.
  constructor; [|auto]. destruct Hx as ((_ & _ & _ & E) & _). unfold distinct_vars. rewrite E. assumption.
Qed.

Variable linsolve : nat -> state D -> list D -> option (nat -> D).

Lemma after_srel : forall p rc s k j sj kj, Forall (Forall wf_region) (s_devs s) ->
  after F linsolve p rc s k j = Some (sj, kj) -> srel s sj.
Proof.
  intros p rc s k j. induction j as [|j IH]; intros sj kj W H; cbn in H.
  - injection H as <- <-. apply srel_refl.
  - destruct (after F linsolve p rc s k j) as [[s1 k1]|] eqn:E; [|discriminate].
    destruct (linsolve j s1 rc) as [result|]; [|discriminate].
    pose proof (IH _ _ W eq_refl) as U.
    assert (W1 : Forall (Forall wf_region) (s_devs s1)) by (destruct U as (U & _); eapply drel_wf; eauto).
    pose proof (iterate_srel F p s1 k1 result W1) as V.
    destruct (iterate F p s1 k1 result) as [s2 [k2| |]]; try discriminate. injection H as <- <-.
    cbn in V. eapply srel_trans; eauto.
Qed.

Variables asmQ asmI : list (device D) * circuit D -> list D.

Definition distinct_state (s : state D) : Prop := Forall (Forall distinct_vars) (s_devs s).

Lemma started_distinct : forall s s1, started F s s1 -> distinct_state s -> distinct_state s1.
Proof.
  intros s s1 (B & _). unfold distinct_state. revert B. generalize (s_devs s1). generalize (s_devs s).
  intros a b H. induction H as [|d d' l l' Hd Hl IH]; intros W; [constructor|]. inversion W; subst.
  constructor; [|auto]. clear - Hd H1. induction Hd as [|x y t t' Hx Ht IH]; [constructor|]. inversion H1; subst.
  constructor; [|auto]. destruct Hx as (_ & ((_ & _ & _ & E) & _) & _). unfold distinct_vars. rewrite E. assumption.
Qed.

(* s0 is the iterate reached from s after j iterations: the backup of s, then j
   linear solves and updates, each with rhs_constant rc *)
Definition iterate_of (p : @params D) (t : @tparams D) (neq : nat) (s : state D) (rc : list D) (j : nat) (s0 : state D) : Prop :=
  exists s1 k, started F s s1 /\ rhs_const F t (s_td s) neq = Some rc /\
    after F linsolve p rc s1 (mkTrack 0 false (zero F) (zero F) false) j = Some (s0, k).

(* C10 *)
Lemma solve_converged : forall p t neq s s' n, wf_state s -> distinct_state s ->
  solve F linsolve asmQ asmI p t neq s = (s', Converged, n) ->
  exists s0 result rc, 0 < n <= maxiter p /\
    iterate_of p t neq s rc (n - 1) s0 /\ linsolve (n - 1) s0 rc = Some result /\
    last_iteration p s0 result s' /\
    (is_integration t = true -> charge_check F t (s_td s) (asmQ (sols s')) (qrelLimit p) = Some true).
Proof.
  intros p t neq s s' n W ND H. unfold solve in H.
  destruct (init_dcop_ok F s W) as (c & Ei & _). rewrite Ei in H.
  destruct (start_ok F s _ W Ei) as (s1 & Eb & St). rewrite Eb in H.
  pose proof (proj1 (proj2 (proj2 St))) as Et. rewrite Et in H.
  destruct (rhs_const F t (s_td s) neq) as [rc|] eqn:Erc; [|discriminate].
  destruct (loop F linsolve p rc (maxiter p) 0 s1 _) as [[s2 [conv| |]] n2] eqn:El; try discriminate.
  pose proof (loop_srel F linsolve p rc (maxiter p) 0 s1 (mkTrack 0 false (zero F) (zero F) false) (started_wf F _ _ St)) as U2.
  rewrite El in U2. cbn in U2.
  apply loop_trace in El. destruct El as (Hn & _ & Hok).
  assert (Hfin : forall x y, finish s2 n2 <> (x, Converged, y)).
  { intros x y E. unfold finish in E. destruct (snd (restore s2)); discriminate. }
  set (chk := if is_integration t && conv then charge_check F t (s_td s2) (asmQ (sols s2)) (qrelLimit p) else Some true) in H.
  destruct chk as [qok|] eqn:Ek; [|discriminate].
  destruct (conv && qok) eqn:Ec; [|exfalso; exact (Hfin _ _ H)].
  apply andb_prop in Ec. destruct Ec as (-> & ->).
  assert (Es : s_devs s' = s_devs s2 /\ s_cir s' = s_cir s2 /\ n = n2).
  { destruct (is_transient t); injection H as <- <-; auto. }
  destruct Es as (Es1 & Es2 & ->).
  destruct Hok as [(kn & Ha & Hk & _)|(Hf & _)]; [|discriminate].
  destruct n2 as [|j]; [cbn in Ha; injection Ha as _ <-; discriminate|].
  cbn in Ha. destruct (after F linsolve p rc s1 _ j) as [[s0 k0]|] eqn:E0; [|discriminate].
  destruct (linsolve j s0 rc) as [result|] eqn:Els; [|discriminate].
  destruct (iterate F p s0 k0 result) as [s3 [k3| |]] eqn:Eit; try discriminate. injection Ha as -> ->.
  exists s0, result, rc. split; [lia|]. replace (S j - 1) with j by lia.
  split; [exists s1, k0; split; [exact St|]; split; [exact Erc|exact E0]|]. split; [exact Els|].
  assert (U0 : srel s1 s0) by (eapply after_srel; [eapply started_wf; exact St|exact E0]).
  split.
  - assert (Lt : last_iteration p s0 result s2).
    { eapply iterate_conv; [|exact Eit|symmetry; exact Hk]. eapply urel_distinct; [apply U0|].
      apply (started_distinct s s1 St ND). }
    unfold last_iteration in *. rewrite Es1, Es2. exact Lt.
  - intros Hi. unfold chk in Ek. rewrite Hi in Ek. cbn in Ek.
    unfold sols. rewrite Es1, Es2. destruct U2 as (_ & _ & Ut). rewrite Ut, Et in Ek. exact Ek.
Qed.

(* C12 *)
Lemma solve_bounded : forall p t neq s s' o n, solve F linsolve asmQ asmI p t neq s = (s', o, n) -> n <= maxiter p.
Proof.
  intros p t neq s s' o n H. unfold solve in H.
  destruct (init_dcop F s) as [s0 [|]]; [|injection H as _ _ <-; lia].
  destruct (backup F s0) as [s1 [|]]; [|injection H as _ _ <-; lia].
  destruct (rhs_const F t (s_td s1) neq) as [rc|]; [|injection H as _ _ <-; lia].
  destruct (loop F linsolve p rc (maxiter p) 0 s1 _) as [[s2 r] n2] eqn:El.
  apply loop_trace in El. destruct El as (Hn & _).
  destruct r as [conv| |]; [|injection H as _ _ <-; lia|injection H as _ _ <-; lia].
  destruct (if is_integration t && conv then _ else _) as [qok|]; [|injection H as _ _ <-; lia].
  destruct (conv && qok); [destruct (is_transient t); injection H as _ _ <-; lia|].
  unfold finish in H. injection H as _ _ <-. lia.
Qed.

(* the iterations of a solve that got as far as iterating *)
Lemma solve_trace : forall p t neq s s' o n, solve F linsolve asmQ asmI p t neq s = (s', o, n) -> 0 < n ->
  exists s1 rc s2 r, rhs_const F t (s_td s1) neq = Some rc /\
    loop_spec F linsolve p rc (maxiter p) s1 (mkTrack 0 false (zero F) (zero F) false) s2 r n /\
    (o = Converged -> r = Ok true) /\ (o = Hung <-> r = Hang).
Proof.
  intros p t neq s s' o n H Hp. unfold solve in H.
  destruct (init_dcop F s) as [s0 [|]]; [|injection H as _ _ <-; lia].
  destruct (backup F s0) as [s1 [|]]; [|injection H as _ _ <-; lia].
  destruct (rhs_const F t (s_td s1) neq) as [rc|] eqn:Erc; [|injection H as _ _ <-; lia].
  destruct (loop F linsolve p rc (maxiter p) 0 s1 _) as [[s2 r] n2] eqn:El.
  apply loop_trace in El.
  destruct r as [conv| |].
  - assert (Hx : n = n2 /\ (o = Converged -> conv = true) /\ o <> Hung).
    { destruct (if is_integration t && conv then _ else _) as [qok|].
      - destruct conv; cbn [andb] in H.
        + destruct qok.
          * destruct (is_transient t); injection H as _ <- <-; repeat split; auto; discriminate.
          * unfold finish in H. injection H as _ <- <-. repeat split; auto. destruct (snd (restore s2)); discriminate.
        + unfold finish in H. injection H as _ <- <-. repeat split; auto; destruct (snd (restore s2)); discriminate.
      - injection H as _ <- <-. repeat split; auto; discriminate. }
    destruct Hx as (-> & X1 & X2). exists s1, rc, s2, (Ok conv). split; [exact Erc|]. split; [exact El|].
    split; [intros Ho; rewrite (X1 Ho); reflexivity|]. split; [intros; contradiction|discriminate].
  - injection H as _ <- <-. exists s1, rc, s2, Throw. split; [exact Erc|]. split; [exact El|].
    split; [discriminate|]. split; auto; discriminate.
  - injection H as _ <- <-. exists s1, rc, s2, Hang. split; [exact Erc|]. split; [exact El|].
    split; [discriminate|]. split; auto; discriminate.
Qed.

(* ---- C09 ------------------------------------------------------------------ *)
Lemma solve_td : forall p t neq s s' o n, solve F linsolve asmQ asmI p t neq s = (s', o, n) ->
  s_td s' = match o with
            | Converged => if is_transient t then push_td t (s_td s) (asmI (sols s')) (asmQ (sols s')) else s_td s
            | _ => s_td s
            end.
Proof.
  assert (Hb : forall s, s_td (fst (backup F s)) = s_td s).
  { intros s. unfold backup. destruct (run_devices backup_var (s_devs s)) as [ds [|]]; [|reflexivity].
    destruct (c_have (s_cir s)); [|reflexivity]. destruct (c_sol (s_cir s)); [|reflexivity].
    destruct (init_sol F _ _); reflexivity. }
  assert (Hr : forall s : state D, s_td (fst (restore s)) = s_td s).
  { intros s. unfold restore. destruct (run_devices restore_var (s_devs s)) as [ds [|]]; [|reflexivity].
    destruct (c_have (s_cir s)); [|reflexivity]. destruct (c_prev (s_cir s)); reflexivity. }
  assert (Hi : forall s, s_td (fst (init_dcop F s)) = s_td s).
  { intros s. unfold init_dcop. destruct (c_have (s_cir s)); [|reflexivity]. destruct (init_sol F _ _); reflexivity. }
  assert (Hl : forall p rc m it s k, s_td (fst (fst (loop F linsolve p rc m it s k))) = s_td s).
  { intros p rc m. induction m as [|m IH]; intros it s k; cbn; [reflexivity|].
    destruct (_ || _ || _); [reflexivity|]. destruct (linsolve it s rc) as [result|]; [|reflexivity].
    assert (E : s_td (fst (iterate F p s k result)) = s_td s).
    { unfold iterate. destruct (devices_update F (s_devs s) result) as [ds [ers|]]; [|reflexivity].
      destruct (c_have (s_cir s)); [|reflexivity]. destruct (c_sol (s_cir s)); [|reflexivity].
      destruct (cir_update F _ _ _ _ _ _ _) as [[sol' cer]| |]; reflexivity. }
    destruct (iterate F p s k result) as [s' [k'| |]]; cbn in E; [rewrite IH|..]; exact E. }
  intros p t neq s s' o n H. unfold solve in H.
  specialize (Hi s). destruct (init_dcop F s) as [s0 [|]]; cbn in Hi; [|injection H as <- <- _; exact Hi].
  specialize (Hb s0). destruct (backup F s0) as [s1 [|]]; cbn in Hb; [|injection H as <- <- _; congruence].
  destruct (rhs_const F t (s_td s1) neq) as [rc|]; [|injection H as <- <- _; congruence].
  specialize (Hl p rc (maxiter p) 0 s1 (mkTrack 0 false (zero F) (zero F) false)).
  destruct (loop F linsolve p rc (maxiter p) 0 s1 _) as [[s2 r] n2]. cbn in Hl.
  destruct r as [conv| |]; [|injection H as <- <- _; congruence|injection H as <- <- _; congruence].
  destruct (if is_integration t && conv then _ else _) as [qok|]; [|injection H as <- <- _; congruence].
  destruct (conv && qok).
  - destruct (is_transient t); injection H as <- <- _.
    + cbn. unfold sols; cbn. rewrite Hl, Hb, Hi. reflexivity.
    + rewrite Hl, Hb, Hi. reflexivity.
  - unfold finish in H. injection H as <- <- _. specialize (Hr s2). destruct (snd (restore s2)); congruence.
Qed.
End Conv.

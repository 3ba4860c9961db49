(* Proofs about Newton.v, part 1: what solve may change (C11), iteration bound (C12). *)
From Coq Require Import String List ZArith Arith Bool Lia.
From Verif Require Import Newton.
Import ListNotations.

(* ---- preconditions of the restore theorem -------------------------------- *)
(* every variable has a solution model, no variable is named like the backup of
   another one, no backup name is taken by something else than a solution, and
   equations act on variables of the region's variable list *)
Record wf_region {D} (r : region D) : Prop := {
  wf_sol : forall v, In v (r_vars r) -> exists m, r_models r v = Some m /\ nm_sol m = true;
  wf_prev : forall v w, In v (r_vars r) -> In w (r_vars r) -> prev v <> w;
  wf_prev_kind : forall v m, In v (r_vars r) -> r_models r (prev v) = Some m -> nm_sol m = true;
  wf_eqs : forall e, In e (r_eqs r) -> In (e_var e) (r_vars r) }.

Definition wf_state {D} (s : state D) : Prop :=
  Forall (Forall (@wf_region D)) (s_devs s) /\
  (c_have (s_cir s) = true -> c_types (s_cir s) <> nil).

(* same region, except possibly the values of variables and of their backups *)
Definition same_region {D} (r r' : region D) : Prop :=
  r_base r' = r_base r /\ r_nn r' = r_nn r /\ r_vars r' = r_vars r /\ r_eqs r' = r_eqs r.

Lemma str_app_inj_r : forall (a b c : string), (a ++ c)%string = (b ++ c)%string -> a = b.
Proof.
  intros a b c H.
  assert (Hl : forall x : string, String.length (x ++ c) = String.length x + String.length c).
  { induction x; cbn; congruence. }
  assert (L : String.length a = String.length b).
  { pose proof (f_equal String.length H) as L. rewrite !Hl in L. lia. }
  clear Hl. revert b H L. induction a as [|x a IH]; intros [|y b] H L; cbn in *; try lia; auto.
  injection H as -> H. f_equal. apply IH; auto.
Qed.
Lemma prev_inj : forall v w, prev v = prev w -> v = w.
Proof. intros v w H. exact (str_app_inj_r _ _ _ H). Qed.

Section P.
Context {D : Type} (F : ops D).

(* during the iterations: fields fixed, models outside the variables fixed,
   kinds fixed *)
Definition urel (r r' : region D) : Prop :=
  same_region r r' /\
  (forall s, ~ In s (r_vars r) -> r_models r' s = r_models r s) /\
  (forall s, option_map nm_sol (r_models r' s) = option_map nm_sol (r_models r s)).

Lemma urel_refl : forall r, urel r r.
Proof. intros r. repeat split. Qed.
Lemma urel_trans : forall a b c, urel a b -> urel b c -> urel a c.
Proof.
  intros a b c ((A1 & A2 & A3 & A4) & A5 & A6) ((B1 & B2 & B3 & B4) & B5 & B6).
  split; [repeat split; congruence|]. split.
  - intros s Hs. rewrite B5, A5; auto. rewrite A3. exact Hs.
  - intros s. rewrite B6. apply A6.
Qed.

Lemma urel_set : forall r v m m0, In v (r_vars r) -> r_models r v = Some m0 -> nm_sol m = nm_sol m0 ->
  urel r (set_model r v m).
Proof.
  intros r v m m0 Hv Hm Hk. split; [repeat split|]. split; cbn.
  - intros s Hs. destruct (String.eqb_spec s v) as [->|]; [contradiction|reflexivity].
  - intros s. destruct (String.eqb_spec s v) as [->|]; [|reflexivity]. rewrite Hm. cbn. congruence.
Qed.

Lemma urel_wf : forall r r', urel r r' -> wf_region r -> wf_region r'.
Proof.
  intros r r' ((A1 & A2 & A3 & A4) & A5 & A6) [W1 W2 W3 W4]. constructor.
  - rewrite A3. intros v Hv. destruct (W1 v Hv) as (m & E & K).
    pose proof (A6 v) as H. rewrite E in H. destruct (r_models r' v) as [m'|]; [|discriminate].
    exists m'. split; [reflexivity|]. cbn in H. congruence.
  - rewrite A3. exact W2.
  - rewrite A3. intros v m Hv E. pose proof (A6 (prev v)) as H. rewrite E in H.
    destruct (r_models r (prev v)) as [m'|] eqn:E'; [|discriminate].
    cbn in H. specialize (W3 v m' Hv E'). congruence.
  - rewrite A3, A4. exact W4.
Qed.

Lemma eq_update_urel : forall r e result r' er, In (e_var e) (r_vars r) ->
  eq_update F r e result = Some (r', er) -> urel r r'.
Proof.
  intros r e result r' er Hin H. unfold eq_update in H.
  destruct (r_models r (e_var e)) as [m|] eqn:E; [|discriminate].
  destruct (node_updates F _ _ _) as [l|]; [|discriminate]. injection H as <- <-.
  eapply urel_set; eauto.
Qed.

Lemma region_update_eqs_urel : forall es r result a rl,
  (forall e, In e es -> In (e_var e) (r_vars r)) ->
  urel r (fst (region_update_eqs F r es result a rl)).
Proof.
  induction es as [|e t IH]; intros r result a rl Hin; cbn; [apply urel_refl|].
  destruct (eq_update F r e result) as [[r' er]|] eqn:E; [|apply urel_refl].
  assert (U : urel r r') by (eapply eq_update_urel; [apply Hin; left; reflexivity|exact E]).
  eapply urel_trans; [exact U|]. apply IH. intros e' He'. destruct U as ((_ & _ & -> & _) & _).
  apply Hin. right. exact He'.
Qed.

Lemma region_update_urel : forall r result, wf_region r -> urel r (fst (region_update F r result)).
Proof. intros r result W. apply region_update_eqs_urel. apply (wf_eqs r W). Qed.

Lemma device_update_urel : forall d result a rl, Forall wf_region d ->
  Forall2 urel d (fst (device_update F d result a rl)).
Proof.
  assert (R : forall l : device D, Forall2 urel l l) by (induction l; constructor; auto using urel_refl).
  induction d as [|r t IH]; intros result a rl W; cbn; [constructor|]. inversion W; subst.
  pose proof (region_update_urel r result H1) as U.
  destruct (region_update F r result) as [r' [[ra rr]|]]; cbn in *.
  - specialize (IH result (if ltb F a ra then ra else a) (add F rl rr) H2).
    destruct (device_update F t result _ _) as [t' o]. cbn in *. constructor; assumption.
  - constructor; auto.
Qed.

Definition drel : list (device D) -> list (device D) -> Prop := Forall2 (Forall2 urel).
Lemma drel_refl : forall l, drel l l.
Proof. induction l as [|d l IH]; constructor; auto. induction d; constructor; auto using urel_refl. Qed.
Lemma F2_trans : forall A (R : A -> A -> Prop), (forall a b c, R a b -> R b c -> R a c) ->
  forall x y z, Forall2 R x y -> Forall2 R y z -> Forall2 R x z.
Proof.
  intros A R T x y z H. revert z. induction H; intros z Hz; inversion Hz; subst; constructor; eauto.
Qed.
Lemma drel_trans : forall a b c, drel a b -> drel b c -> drel a c.
Proof. apply F2_trans. apply F2_trans. apply urel_trans. Qed.
Lemma drel_wf : forall a b, drel a b -> Forall (Forall wf_region) a -> Forall (Forall wf_region) b.
Proof.
  intros a b H. induction H as [|d d' l l' Hd Hl IH]; intros W; [constructor|]. inversion W; subst.
  constructor; [|auto]. clear - Hd H1. induction Hd; [constructor|]. inversion H1; subst. constructor; eauto using urel_wf.
Qed.

Lemma devices_update_drel : forall ds result, Forall (Forall wf_region) ds ->
  drel ds (fst (devices_update F ds result)).
Proof.
  induction ds as [|d t IH]; intros result W; cbn; [constructor|]. inversion W; subst.
  pose proof (device_update_urel d result (zero F) (zero F) H1) as U.
  destruct (device_update F d result _ _) as [d' [er|]]; cbn in *.
  - specialize (IH result H2). destruct (devices_update F t result) as [t' o]. constructor; assumption.
  - constructor; [assumption|]. apply drel_refl.
Qed.

(* the circuit outside its solution, and the history, during iterations *)
Definition crel (c c' : circuit D) : Prop :=
  c_have c' = c_have c /\ c_types c' = c_types c /\ c_min c' = c_min c /\ c_prev c' = c_prev c /\
  (c_have c = false -> c' = c).
Lemma crel_refl : forall c, crel c c. Proof. repeat split. Qed.
Lemma crel_trans : forall a b c, crel a b -> crel b c -> crel a c.
Proof.
  intros a b c (A1 & A2 & A3 & A4 & A5) (B1 & B2 & B3 & B4 & B5). repeat split; try congruence.
  intros H. rewrite B5; [|congruence]. apply A5. exact H.
Qed.

Definition srel (s s' : state D) : Prop :=
  drel (s_devs s) (s_devs s') /\ crel (s_cir s) (s_cir s') /\ s_td s' = s_td s.
Lemma srel_refl : forall s, srel s s.
Proof. intros s. split; [apply drel_refl|]. split; [apply crel_refl|reflexivity]. Qed.
Lemma srel_trans : forall a b c, srel a b -> srel b c -> srel a c.
Proof.
  intros a b c (A1 & A2 & A3) (B1 & B2 & B3). split; [eapply drel_trans; eauto|].
  split; [eapply crel_trans; eauto|congruence].
Qed.

Lemma iterate_srel : forall p s k result, Forall (Forall wf_region) (s_devs s) ->
  srel s (fst (iterate F p s k result)).
Proof.
  intros p s k result W. unfold iterate.
  pose proof (devices_update_drel (s_devs s) result W) as U.
  destruct (devices_update F (s_devs s) result) as [ds [ers|]]; cbn in U.
  - destruct (c_have (s_cir s)) eqn:Hh.
    + destruct (c_sol (s_cir s)) as [sol|].
      * destruct (cir_update F _ _ _ _ _ _ _) as [[sol' cer]| |]; cbn.
        -- split; [exact U|]. split; [|reflexivity]. repeat split; cbn; auto. congruence.
        -- split; [exact U|]. split; [apply crel_refl|reflexivity].
        -- split; [exact U|]. split; [apply crel_refl|reflexivity].
      * split; [exact U|]. split; [apply crel_refl|reflexivity].
    + split; [exact U|]. split; [apply crel_refl|reflexivity].
  - split; [exact U|]. split; [apply crel_refl|reflexivity].
Qed.

Variable linsolve : nat -> state D -> list D -> option (nat -> D).

Lemma loop_srel : forall p rc n iter s k, Forall (Forall wf_region) (s_devs s) ->
  srel s (fst (fst (loop F linsolve p rc n iter s k))).
Proof.
  intros p rc n. induction n as [|n IH]; intros iter s k W; cbn; [apply srel_refl|].
  destruct (k_conv k || (maxdiv p <=? k_div k) || k_max k); [apply srel_refl|].
  destruct (linsolve iter s rc) as [result|]; [|apply srel_refl].
  pose proof (iterate_srel p s k result W) as U.
  destruct (iterate F p s k result) as [s' [k'| |]]; cbn in U; try exact U.
  eapply srel_trans; [exact U|]. apply IH. destruct U as (U & _). eapply drel_wf; eauto.
Qed.

(* ---- backup -------------------------------------------------------------- *)
(* models after backing up the variables l *)
Definition backed (r r' : region D) (l : list string) : Prop :=
  same_region r r' /\
  (forall v, In v l -> exists m, r_models r v = Some m /\ r_models r' (prev v) = Some (mkNM true (nm_vals m))) /\
  (forall s, (forall v, In v l -> s <> prev v) -> r_models r' s = r_models r s).

Lemma run_backup : forall l r, wf_region r -> (forall v, In v l -> In v (r_vars r)) ->
  exists r', run_vars backup_var r l = (r', true) /\ backed r r' l /\ wf_region r'.
Proof.
  induction l as [|v t IH]; intros r W Hl.
  - exists r. cbn. split; [reflexivity|]. split; [|exact W]. repeat split.
    intros v [].
  - assert (Hv : In v (r_vars r)) by (apply Hl; left; reflexivity).
    destruct (wf_sol r W v Hv) as (m & Em & Km).
    set (r1 := set_model r (prev v) (mkNM true (nm_vals m))).
    assert (B1 : backup_var r v = Some r1).
    { unfold backup_var. rewrite Em. destruct (r_models r (prev v)) as [b|] eqn:Eb.
      - rewrite (wf_prev_kind r W v b Hv Eb). reflexivity.
      - rewrite Km. reflexivity. }
    assert (N : forall w, In w (r_vars r) -> r_models r1 w = r_models r w).
    { intros w Hw. cbn. destruct (String.eqb_spec w (prev v)) as [E|]; [|reflexivity].
      exfalso. exact (wf_prev r W v w Hv Hw (eq_sym E)). }
    assert (W1 : wf_region r1).
    { constructor.
      - intros w Hw. rewrite (N w Hw). apply (wf_sol r W w Hw).
      - apply (wf_prev r W).
      - intros w x Hw. cbn. destruct (String.eqb_spec (prev w) (prev v)); [intros [= <-]; reflexivity|].
        apply (wf_prev_kind r W w x Hw).
      - apply (wf_eqs r W). }
    destruct (IH r1 W1) as (r' & R & (S' & Bk & Fr) & W').
    { intros w Hw. apply Hl. right. exact Hw. }
    exists r'. cbn. rewrite B1. split; [exact R|]. split; [|exact W'].
    destruct S' as (S1 & S2 & S3 & S4). split; [repeat split; assumption|]. split.
    + intros w [<-|Hw].
      * exists m. split; [exact Em|]. destruct (in_dec string_dec v t) as [Ht|Ht].
        -- destruct (Bk v Ht) as (m' & E' & P'). rewrite (N v Hv), Em in E'. injection E' as <-. exact P'.
        -- rewrite Fr.
           ++ cbn. rewrite String.eqb_refl. reflexivity.
           ++ intros w Hw E. apply prev_inj in E. subst w. contradiction.
      * destruct (Bk w Hw) as (m' & E' & P'). exists m'. split; [|exact P'].
        rewrite N in E'; [exact E'|]. apply Hl. right. exact Hw.
    + intros s Hs. rewrite Fr.
      * cbn. destruct (String.eqb_spec s (prev v)) as [E|]; [|reflexivity].
        exfalso. apply (Hs v); [left; reflexivity|exact E].
      * intros w Hw. apply Hs. right. exact Hw.
Qed.

(* ---- restore ------------------------------------------------------------- *)
Definition restored (r r' : region D) (l : list string) : Prop :=
  same_region r r' /\
  (forall v, In v l -> exists b, r_models r (prev v) = Some b /\ r_models r' v = Some (mkNM true (nm_vals b))) /\
  (forall s, ~ In s l -> r_models r' s = r_models r s).

Lemma run_restore : forall l r, (forall v, In v l -> exists m, r_models r v = Some m /\ nm_sol m = true) ->
  (forall v, In v l -> exists b, r_models r (prev v) = Some b) ->
  (forall v w, In v l -> In w l -> prev v <> w) ->
  exists r', run_vars restore_var r l = (r', true) /\ restored r r' l.
Proof.
  induction l as [|v t IH]; intros r Hs Hb Hp.
  - exists r. cbn. split; [reflexivity|]. repeat split. intros v [].
  - destruct (Hs v (or_introl eq_refl)) as (m & Em & Km).
    destruct (Hb v (or_introl eq_refl)) as (b & Eb).
    set (r1 := set_model r v (mkNM true (nm_vals b))).
    assert (N : forall w, In w (v :: t) -> r_models r1 (prev w) = r_models r (prev w)).
    { intros w Hw. cbn. destruct (String.eqb_spec (prev w) v) as [E|]; [|reflexivity].
      exfalso. exact (Hp w v Hw (or_introl eq_refl) E). }
    destruct (IH r1) as (r' & R & (S' & Bk & Fr)).
    + intros w Hw. cbn. destruct (String.eqb_spec w v) as [->|]; [eexists; split; [reflexivity|reflexivity]|].
      apply Hs. right. exact Hw.
    + intros w Hw. rewrite N by (right; exact Hw). apply Hb. right. exact Hw.
    + intros w x Hw Hx. apply Hp; right; assumption.
    + exists r'. cbn. unfold restore_var at 1. rewrite Em, Eb, Km. split; [exact R|].
      destruct S' as (S1 & S2 & S3 & S4). split; [repeat split; assumption|]. split.
      * intros w [<-|Hw].
        -- exists b. split; [exact Eb|]. destruct (in_dec string_dec v t) as [Ht|Ht].
           ++ destruct (Bk v Ht) as (b' & E' & P'). rewrite N in E' by (left; reflexivity).
              rewrite Eb in E'. injection E' as <-. exact P'.
           ++ rewrite Fr by exact Ht. cbn. rewrite String.eqb_refl. reflexivity.
        -- destruct (Bk w Hw) as (b' & E' & P'). exists b'. split; [|exact P'].
           rewrite N in E' by (right; exact Hw). exact E'.
      * intros s Hn. rewrite Fr by (intros H; apply Hn; right; exact H). cbn.
        destruct (String.eqb_spec s v) as [->|]; [exfalso; apply Hn; left; reflexivity|reflexivity].
Qed.

(* lifting over regions and devices *)
Lemma run_regions_lift : forall f (P : region D -> Prop) (Q : region D -> region D -> Prop),
  (forall r, P r -> exists r', run_vars f r (r_vars r) = (r', true) /\ Q r r') ->
  forall d, Forall P d -> exists d', run_regions f d = (d', true) /\ Forall2 Q d d'.
Proof.
  intros f P Q H. induction d as [|r t IH]; intros W; [exists nil; split; [reflexivity|constructor]|].
  inversion W; subst. destruct (H r H2) as (r' & E & q). destruct (IH H3) as (t' & E' & q').
  exists (r' :: t'). cbn. rewrite E, E'. split; [reflexivity|constructor; assumption].
Qed.
Lemma run_devices_lift : forall f (P : region D -> Prop) (Q : region D -> region D -> Prop),
  (forall r, P r -> exists r', run_vars f r (r_vars r) = (r', true) /\ Q r r') ->
  forall d, Forall (Forall P) d -> exists d', run_devices f d = (d', true) /\ Forall2 (Forall2 Q) d d'.
Proof.
  intros f P Q H. induction d as [|r t IH]; intros W; [exists nil; split; [reflexivity|constructor]|].
  inversion W; subst. destruct (run_regions_lift f P Q H r H2) as (r' & E & q). destruct (IH H3) as (t' & E' & q').
  exists (r' :: t'). cbn. rewrite E, E'. split; [reflexivity|constructor; assumption].
Qed.
Lemma F2_and : forall A B (R S : A -> B -> Prop) x y, Forall2 R x y -> Forall2 S x y ->
  Forall2 (fun a b => R a b /\ S a b) x y.
Proof. intros A B R S x y H. induction H; intros K; inversion K; subst; constructor; auto. Qed.
Lemma F2_right : forall A B (R : A -> B -> Prop) (P : B -> Prop) x y,
  Forall2 R x y -> (forall a b, R a b -> P b) -> Forall P y.
Proof. intros A B R P x y H K. induction H; constructor; eauto. Qed.
Lemma F2_impl : forall A B (R S : A -> B -> Prop) x y,
  Forall2 R x y -> (forall a b, R a b -> S a b) -> Forall2 S x y.
Proof. intros A B R S x y H K. induction H; constructor; eauto. Qed.
Lemma F2_compose : forall A (R S T : A -> A -> Prop) x y z,
  Forall2 R x y -> Forall2 S y z -> (forall a b c, R a b -> S b c -> T a c) -> Forall2 T x z.
Proof.
  intros A R S T x y z H K I. revert z K. induction H; intros z K; inversion K; subst; constructor; eauto.
Qed.

Definition backup_ok (r r' : region D) : Prop := wf_region r /\ backed r r' (r_vars r) /\ wf_region r'.

Lemma devices_backup : forall ds, Forall (Forall wf_region) ds ->
  exists ds', run_devices backup_var ds = (ds', true) /\ Forall2 (Forall2 backup_ok) ds ds'.
Proof.
  apply (run_devices_lift backup_var wf_region backup_ok).
  intros r W. destruct (run_backup (r_vars r) r W (fun v H => H)) as (r' & E & B & W').
  exists r'. split; [exact E|]. split; [exact W|]. split; assumption.
Qed.

(* a region whose backups hold the values of r0 *)
Definition holds_backup (r0 r : region D) : Prop :=
  wf_region r0 /\ wf_region r /\ same_region r0 r /\
  (forall v, In v (r_vars r0) -> exists m, r_models r0 v = Some m /\ r_models r (prev v) = Some (mkNM true (nm_vals m))) /\
  (forall s, ~ In s (r_vars r0) -> (forall v, In v (r_vars r0) -> s <> prev v) -> r_models r s = r_models r0 s).

Lemma holds_backup_urel : forall r0 r1 r2, backup_ok r0 r1 -> urel r1 r2 -> holds_backup r0 r2.
Proof.
  intros r0 r1 r2 (W0 & (S & B & Fr) & W1) U. pose proof (urel_wf _ _ U W1) as W2.
  destruct U as (S2 & U2 & _). destruct S as (A1 & A2 & A3 & A4). destruct S2 as (B1 & B2 & B3 & B4).
  split; [exact W0|]. split; [exact W2|]. split; [repeat split; congruence|]. split.
  - intros v Hv. destruct (B v Hv) as (m & E & P). exists m. split; [exact E|]. rewrite U2; [exact P|].
    rewrite A3. intros Hin. exact (wf_prev r0 W0 v (prev v) Hv Hin eq_refl).
  - intros s Hs Hp. rewrite U2 by (rewrite A3; exact Hs). apply Fr. exact Hp.
Qed.

(* what the caller sees afterwards: every model except the backups as before *)
Definition region_restored (r r' : region D) : Prop :=
  same_region r r' /\
  (forall s, (forall v, In v (r_vars r) -> s <> prev v) -> r_models r' s = r_models r s).

Lemma restore_region : forall r0 r, holds_backup r0 r ->
  exists r', run_vars restore_var r (r_vars r) = (r', true) /\ region_restored r0 r'.
Proof.
  intros r0 r (W0 & W & (A1 & A2 & A3 & A4) & B & Fr).
  destruct (run_restore (r_vars r) r) as (r' & E & (S1 & S2 & S3 & S4) & R1 & R2).
  - apply (wf_sol r W).
  - intros v Hv. rewrite A3 in Hv. destruct (B v Hv) as (m & _ & E). eauto.
  - apply (wf_prev r W).
  - exists r'. split; [exact E|]. split; [repeat split; congruence|].
    intros s Hs. destruct (in_dec string_dec s (r_vars r)) as [Hin|Hn].
    + destruct (R1 s Hin) as (b & Eb & Er). rewrite A3 in Hin. destruct (B s Hin) as (m & Em & Ep).
      rewrite Ep in Eb. injection Eb as <-. rewrite Er, Em. destruct (wf_sol r0 W0 s Hin) as (m' & Em' & Km).
      rewrite Em in Em'. injection Em' as <-. destruct m as [k vals]; cbn in *. congruence.
    + rewrite R2 by exact Hn. apply Fr; [rewrite <- A3; exact Hn|exact Hs].
Qed.

Lemma devices_restore : forall d0 d, Forall2 (Forall2 holds_backup) d0 d ->
  exists d', run_devices restore_var d = (d', true) /\ Forall2 (Forall2 region_restored) d0 d'.
Proof.
  intros d0 d H. induction H as [|x y l l' Hx Hl IH]; [exists nil; split; [reflexivity|constructor]|].
  destruct IH as (l2 & E2 & R2).
  assert (X : exists y', run_regions restore_var y = (y', true) /\ Forall2 region_restored x y').
  { clear - Hx. induction Hx as [|a b t t' Ha Ht IH]; [exists nil; split; [reflexivity|constructor]|].
    destruct IH as (t2 & E2 & R2). destruct (restore_region a b Ha) as (b' & Eb & Rb).
    exists (b' :: t2). cbn. rewrite Eb, E2. split; [reflexivity|constructor; assumption]. }
  destruct X as (y' & E & R). exists (y' :: l2). cbn. rewrite E, E2. split; [reflexivity|constructor; assumption].
Qed.

Variables asmQ asmI : list (device D) * circuit D -> list D.

(* circuit: same, except that a missing "dcop" solution is created with zeros, and
   dcop_prev *)
Definition circuit_restored (c c' : circuit D) : Prop :=
  c_have c' = c_have c /\ c_types c' = c_types c /\ c_min c' = c_min c /\
  (c_have c = true -> c_sol c' = Some (match c_sol c with Some l => l | None => repeat (zero F) (length (c_types c)) end)) /\
  (c_have c = false -> c' = c).

Lemma init_dcop_ok : forall s, wf_state s -> exists c, init_dcop F s = (mkSt (s_devs s) c (s_td s), true) /\
  circuit_restored (s_cir s) c.
Proof.
  intros [sd sc stt] (_ & Hc). unfold init_dcop, circuit_restored. destruct sc as [h ty mi so pr]; cbn in *.
  destruct h.
  - destruct so as [l|]; cbn.
    + eexists. split; [reflexivity|]. cbn. repeat split; discriminate.
    + destruct ty as [|u ty]; [exfalso; apply Hc; reflexivity|]. cbn.
      eexists. split; [reflexivity|]. cbn. repeat split; discriminate.
  - eexists. split; [reflexivity|]. repeat split; discriminate.
Qed.

Definition solved_ok (s s' : state D) : Prop :=
  Forall2 (Forall2 region_restored) (s_devs s) (s_devs s') /\
  circuit_restored (s_cir s) (s_cir s') /\ s_td s' = s_td s.

(* state at the start of the iterations *)
Definition started (s s1 : state D) : Prop :=
  Forall2 (Forall2 backup_ok) (s_devs s) (s_devs s1) /\
  circuit_restored (s_cir s) (s_cir s1) /\ s_td s1 = s_td s /\
  (c_have (s_cir s) = true -> c_prev (s_cir s1) = c_sol (s_cir s1)).

Lemma start_ok : forall s s0, wf_state s -> init_dcop F s = (s0, true) ->
  exists s1, backup F s0 = (s1, true) /\ started s s1.
Proof.
  intros s s0 W H. destruct (init_dcop_ok s W) as (c & E & R). rewrite E in H. injection H as <-.
  destruct (devices_backup (s_devs s) (proj1 W)) as (ds & Ed & Bd).
  unfold backup. cbn. rewrite Ed. destruct R as (R1 & R2 & R3 & R4 & R5).
  destruct (c_have c) eqn:Hh.
  - assert (Hs : c_have (s_cir s) = true) by congruence. specialize (R4 Hs). rewrite R4.
    assert (X : exists l, init_sol F (length (c_types c)) (c_prev c) = Some l).
    { unfold init_sol. destruct (c_prev c); [eauto|]. rewrite R2.
      pose proof (proj2 W Hs) as Hne. destruct (c_types (s_cir s)); [congruence|]. cbn. eauto. }
    destruct X as (l & ->). eexists. split; [reflexivity|]. split; [exact Bd|]. split; [|split; [reflexivity|reflexivity]].
    cbn. unfold circuit_restored; cbn. repeat split; auto; congruence.
  - assert (Hs : c_have (s_cir s) = false) by congruence.
    eexists. split; [reflexivity|]. split; [exact Bd|]. split; [|split; [reflexivity|congruence]].
    unfold circuit_restored; cbn. repeat split; auto; congruence.
Qed.

Lemma started_wf : forall s s1, started s s1 -> Forall (Forall wf_region) (s_devs s1).
Proof.
  intros s s1 (B & _). eapply F2_right; [exact B|]. cbn. intros a b H. eapply F2_right; [exact H|].
  intros x y (_ & _ & W). exact W.
Qed.

Lemma restore_after : forall s s1 s2, started s s1 -> srel s1 s2 ->
  exists s3, restore s2 = (s3, true) /\ solved_ok s s3.
Proof.
  intros s s1 s2 (B & C & T & P) (U & V & Z).
  assert (H : Forall2 (Forall2 holds_backup) (s_devs s) (s_devs s2)).
  { eapply F2_compose; [exact B|exact U|]. intros a b c Hab Hbc. eapply F2_compose; [exact Hab|exact Hbc|].
    intros x y z. apply holds_backup_urel. }
  destruct (devices_restore _ _ H) as (d' & E & R). unfold restore. rewrite E.
  destruct V as (V1 & V2 & V3 & V4 & V5). destruct C as (C1 & C2 & C3 & C4 & C5).
  destruct (c_have (s_cir s2)) eqn:Hh.
  - assert (Hs : c_have (s_cir s) = true) by congruence. rewrite V4, (P Hs), (C4 Hs).
    eexists. split; [reflexivity|]. split; [exact R|]. split; [|cbn; congruence].
    unfold circuit_restored; cbn. repeat split; auto; congruence.
  - assert (Hs : c_have (s_cir s) = false) by congruence.
    eexists. split; [reflexivity|]. split; [exact R|]. split; [|cbn; congruence].
    unfold circuit_restored; cbn. rewrite V5 by congruence. rewrite C5 by congruence. repeat split; auto; congruence.
Qed.

(* C11 *)
Lemma solve_restores : forall p t neq s s' n, wf_state s ->
  solve F linsolve asmQ asmI p t neq s = (s', NotConverged, n) -> solved_ok s s'.
Proof.
  intros p t neq s s' n W H. unfold solve in H.
  destruct (init_dcop_ok s W) as (c & Ei & _). rewrite Ei in H.
  destruct (start_ok s _ W Ei) as (s1 & Eb & St). rewrite Eb in H.
  destruct (rhs_const F t (s_td s1) neq) as [rc|]; [|discriminate].
  pose proof (loop_srel p rc (maxiter p) 0 s1 (mkTrack 0 false (zero F) (zero F) false) (started_wf _ _ St)) as U.
  destruct (loop F linsolve p rc _ _ _ _) as [[s2 [conv| |]] n2]; cbn in U; try discriminate.
  assert (Hf : forall s' n', finish s2 n2 = (s', NotConverged, n') -> solved_ok s s').
  { intros x y Hx. unfold finish in Hx. destruct (restore_after _ _ _ St U) as (s3 & E3 & K3). rewrite E3 in Hx.
    cbn in Hx. injection Hx as <- _. exact K3. }
  destruct (if is_integration t && conv then _ else _) as [qok|]; [|discriminate].
  destruct (conv && qok); [|eapply Hf; exact H].
  destruct (is_transient t); discriminate.
Qed.

(* an unsuccessful, not aborted solve always ends in NotConverged: restoring does not fail *)
Lemma solve_restore_total : forall p t neq s s' n, wf_state s ->
  solve F linsolve asmQ asmI p t neq s = (s', Threw, n) ->
  rhs_const F t (s_td s) neq = None \/
  (exists s1 rc, started s s1 /\ rhs_const F t (s_td s) neq = Some rc /\
    (snd (fst (loop F linsolve p rc (maxiter p) 0 s1 (mkTrack 0 false (zero F) (zero F) false))) = Throw \/
     exists s2 newQ, charge_check F t (s_td s2) newQ (qrelLimit p) = None)).
Proof.
  intros p t neq s s' n W H. unfold solve in H.
  destruct (init_dcop_ok s W) as (c & Ei & _). rewrite Ei in H.
  destruct (start_ok s _ W Ei) as (s1 & Eb & St). rewrite Eb in H.
  pose proof (proj1 (proj2 (proj2 St))) as Et. rewrite Et in H.
  destruct (rhs_const F t (s_td s) neq) as [rc|]; [|left; reflexivity]. right.
  exists s1, rc. split; [exact St|]. split; [reflexivity|].
  pose proof (loop_srel p rc (maxiter p) 0 s1 (mkTrack 0 false (zero F) (zero F) false) (started_wf _ _ St)) as U.
  destruct (loop F linsolve p rc _ _ _ _) as [[s2 [conv| |]] n2]; cbn in U; try discriminate; [|left; reflexivity].
  right.
  assert (Hf : forall s' n', finish s2 n2 <> (s', Threw, n')).
  { intros x y Hx. unfold finish in Hx. destruct (restore_after _ _ _ St U) as (s3 & E3 & K3). rewrite E3 in Hx. discriminate. }
  destruct (is_integration t && conv).
  - destruct (charge_check F t (s_td s2) (asmQ (sols s2)) (qrelLimit p)) as [qok|] eqn:Ec; [|eauto].
    destruct (conv && qok); [destruct (is_transient t); discriminate|]. exfalso. exact (Hf _ _ H).
  - destruct (conv && true); [destruct (is_transient t); discriminate|]. exfalso. exact (Hf _ _ H).
Qed.

(* a successful solve changes, among the node models, only variables and backups *)
Lemma solve_frame : forall p t neq s s' n, wf_state s ->
  solve F linsolve asmQ asmI p t neq s = (s', Converged, n) ->
  Forall2 (Forall2 (fun r r' => same_region r r' /\
    forall x, ~ In x (r_vars r) -> (forall v, In v (r_vars r) -> x <> prev v) -> r_models r' x = r_models r x))
    (s_devs s) (s_devs s').
Proof.
  intros p t neq s s' n W H. unfold solve in H.
  destruct (init_dcop_ok s W) as (c & Ei & _). rewrite Ei in H.
  destruct (start_ok s _ W Ei) as (s1 & Eb & St). rewrite Eb in H.
  destruct (rhs_const F t (s_td s1) neq) as [rc|]; [|discriminate].
  pose proof (loop_srel p rc (maxiter p) 0 s1 (mkTrack 0 false (zero F) (zero F) false) (started_wf _ _ St)) as U.
  destruct (loop F linsolve p rc _ _ _ _) as [[s2 [conv| |]] n2]; cbn in U; try discriminate.
  destruct (if is_integration t && conv then _ else _) as [qok|]; [|discriminate].
  assert (E : s_devs s' = s_devs s2).
  { destruct (conv && qok); [destruct (is_transient t); injection H as <- _; reflexivity|].
    unfold finish in H. destruct (snd (restore s2)); discriminate. }
  rewrite E. destruct St as (B & _). destruct U as (U & _).
  eapply F2_compose; [exact B|exact U|]. intros a b d Hab Hbc. eapply F2_compose; [exact Hab|exact Hbc|].
  intros x y z Hxy Hyz. destruct (holds_backup_urel _ _ _ Hxy Hyz) as (_ & _ & S & _ & Fr). split; assumption.
Qed.
End P.

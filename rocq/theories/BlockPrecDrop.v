From Coq Require Import String List ZArith Reals Bool Lia Lra Permutation Sorted.
From Verif Require Import StrMap EqTable Numbering BlockPrec BlockPrecSpec.
Import ListNotations.
Open Scope Z_scope.
Local Arguments Z.eqb : simpl never.
Local Notation entry := (Z * Z * R)%type.

Definition not_after (x y : entry) : Prop := ~ before y x.

Lemma not_after_row : forall x y, not_after x y -> row x <= row y.
Proof. intros x y H. destruct (Z_lt_dec (row y) (row x)); [|lia]. exfalso. apply H. left. exact l. Qed.
Lemma not_after_mag : forall x y, not_after x y -> row x = row y -> (mag y <= mag x)%R.
Proof. intros x y H E. destruct (Rle_dec (mag y) (mag x)); [assumption|]. exfalso. apply H. right. split; [congruence|lra]. Qed.

Lemma drop_cons : forall last tol done h t, drop last tol done (h :: t) =
  let tol' := if row h =? last then tol else (/ 2 * mag h)%R in
  let done' := if row h =? last then done else false in
  if done' then drop (row h) tol' true t
  else if (if Rlt_dec (mag h) tol' then true else false) && negb (row h =? col h) then drop (row h) tol' true t
  else h :: drop (row h) tol' false t.
Proof. intros last tol done ((r & c) & v) t. reflexivity. Qed.

Inductive sub : list entry -> list entry -> Prop :=
| sub_nil : sub [] []
| sub_skip : forall a l t, sub l t -> sub l (a :: t)
| sub_keep : forall a l t, sub l t -> sub (a :: l) (a :: t).
Lemma sub_In : forall l t e, sub l t -> In e l -> In e t.
Proof. intros l t e H. induction H; cbn; intuition. Qed.
Lemma sub_NoDup : forall (B : Type) (f : entry -> B) l t, sub l t -> NoDup (map f t) -> NoDup (map f l).
Proof.
  intros B f l t H. induction H; cbn; intros Hn; [constructor| |]; apply NoDup_cons_iff in Hn; destruct Hn as (H1 & H2); [auto|].
  constructor; [|auto]. intros Hi. apply H1. apply in_map_iff in Hi. destruct Hi as (x & <- & Hx). apply in_map. eapply sub_In; eassumption.
Qed.
Lemma drop_sub : forall l last tol done, sub (drop last tol done l) l.
Proof.
  induction l as [|h t IH]; intros last tol done; [constructor|]. rewrite drop_cons. cbv zeta.
  destruct (if row h =? last then done else false); [apply sub_skip; apply IH|]. destruct (_ && _); [apply sub_skip|apply sub_keep]; apply IH.
Qed.

Definition sorted_from (last : Z) (l : list entry) : Prop := StronglySorted not_after l /\ forall e, In e l -> last <= row e.
Lemma sorted_tail : forall last h t, sorted_from last (h :: t) -> sorted_from (row h) t /\ last <= row h /\ (forall e, In e t -> not_after h e).
Proof.
  intros last h t (S1 & S2). inversion S1 as [|? ? St Ht]; subst. rewrite Forall_forall in Ht. split; [split; [exact St|]|split; [apply S2; left; reflexivity|exact Ht]].
  intros e He. apply not_after_row. auto.
Qed.
Lemma drop_done : forall l last tol e, sorted_from last l -> In e (drop last tol true l) -> row e <> last.
Proof.
  induction l as [|h t IH]; intros last tol e Hs Hi; [destruct Hi|]. rewrite drop_cons in Hi. cbv zeta in Hi.
  destruct (sorted_tail _ _ _ Hs) as (Ht & Hl & Hh). destruct (Z.eqb_spec (row h) last) as [E|E].
  - rewrite <- E. eapply IH; eassumption.
  - intros He. assert (In e (h :: t)).
    { eapply sub_In; [|exact Hi]. destruct (_ && _); [apply sub_skip|apply sub_keep]; apply drop_sub. }
    assert (row h <= row e); [|lia]. destruct H as [->|H]; [lia|]. apply Ht. exact H.
Qed.

(* off-diagonal entries *)
Lemma drop_off : forall l last tol done e, sorted_from last l -> (done = true -> forall x, In x l -> row x = last -> (mag x < tol)%R) -> In e l -> off e ->
  (row e = last -> (In e (drop last tol done l) <-> (tol <= mag e)%R)) /\
  (row e <> last -> (In e (drop last tol done l) <-> forall x, In x l -> row x = row e -> (mag x <= 2 * mag e)%R)).
Proof.
  induction l as [|h t IH]; intros last tol done e Hs Hd Hi Ho; [destruct Hi|]. rewrite drop_cons. cbv zeta.
  destruct (sorted_tail _ _ _ Hs) as (Ht & Hl & Hh).
  destruct (Z.eqb_spec (row h) last) as [E|E].
  - (* same row as before *)
    destruct done.
    + specialize (IH (row h) tol true e Ht ltac:(intros _ x Hx Hr; apply Hd; [reflexivity|right; exact Hx|congruence])).
      split; intros Hr.
      * split; [intros Hin; exfalso; apply (drop_done _ _ _ _ Ht Hin); congruence|]. intros Hm. pose proof (Hd eq_refl e Hi Hr). lra.
      * destruct Hi as [<-|Hi]; [contradiction|]. destruct (IH Hi Ho) as (_ & IH2). rewrite (IH2 ltac:(congruence)).
        split; intros Q x Hx Hrx; [destruct Hx as [<-|Hx]; [congruence|auto]|apply Q; [right; exact Hx|exact Hrx]].
    + destruct (Rlt_dec (mag h) tol) as [Hm|Hm]; cbn [andb].
      * assert (Bd : true = true -> forall x, In x t -> row x = row h -> (mag x < tol)%R).
        { intros _ x Hx Hr. pose proof (not_after_mag _ _ (Hh x Hx) (eq_sym Hr)). lra. }
        destruct (Z.eqb_spec (row h) (col h)) as [Dg|Dg]; cbn [negb].
        -- (* a small diagonal entry is kept *)
           specialize (IH (row h) tol false e Ht ltac:(discriminate)). split; intros Hr.
           ++ destruct Hi as [<-|Hi]; [exfalso; apply Ho; exact Dg|]. destruct (IH Hi Ho) as (IH1 & _). specialize (IH1 ltac:(congruence)). cbn [In]. rewrite IH1.
              split; [|auto]. intros [->|Q]; [exfalso; apply Ho; exact Dg|exact Q].
           ++ destruct Hi as [<-|Hi]; [contradiction|]. destruct (IH Hi Ho) as (_ & IH2). cbn [In]. rewrite (IH2 ltac:(congruence)). split.
              ** intros [->|Q] x Hx Hrx; [contradiction|]. destruct Hx as [<-|Hx]; [congruence|auto].
              ** intros Q. right. intros x Hx. apply Q. right. exact Hx.
        -- specialize (IH (row h) tol true e Ht Bd). split; intros Hr.
           ++ split; [intros Hin; exfalso; apply (drop_done _ _ _ _ Ht Hin); congruence|]. intros Hm2. destruct Hi as [<-|Hi]; [lra|]. pose proof (Bd eq_refl e Hi ltac:(congruence)). lra.
           ++ destruct Hi as [<-|Hi]; [contradiction|]. destruct (IH Hi Ho) as (_ & IH2). rewrite (IH2 ltac:(congruence)).
              split; intros Q x Hx Hrx; [destruct Hx as [<-|Hx]; [congruence|auto]|apply Q; [right; exact Hx|exact Hrx]].
      * specialize (IH (row h) tol false e Ht ltac:(discriminate)). split; intros Hr.
        -- cbn [In]. destruct Hi as [<-|Hi]; [split; [intros _; lra|auto]|]. destruct (IH Hi Ho) as (IH1 & _). rewrite (IH1 ltac:(congruence)).
           split; [intros [<-|Q]; [lra|exact Q]|auto].
        -- destruct Hi as [<-|Hi]; [contradiction|]. destruct (IH Hi Ho) as (_ & IH2). cbn [In]. rewrite (IH2 ltac:(congruence)). split.
           ++ intros [->|Q] x Hx Hrx; [contradiction|]. destruct Hx as [<-|Hx]; [congruence|auto].
           ++ intros Q. right. intros x Hx. apply Q. right. exact Hx.
  - (* a new row: its first entry is kept *)
    assert (Hm : ~ (mag h < / 2 * mag h)%R) by (pose proof (Rabs_pos (snd h)); unfold mag; lra).
    destruct (Rlt_dec (mag h) (/ 2 * mag h)) as [|_]; [contradiction|]. cbn [andb].
    specialize (IH (row h) (/ 2 * mag h)%R false e Ht ltac:(discriminate)). split; intros Hr.
    { exfalso. assert (row h <= row e); [|lia]. destruct Hi as [<-|Hi]; [lia|]. apply Ht. exact Hi. }
    destruct (Z.eq_dec (row e) (row h)) as [Er|Er].
    + assert (Mx : forall x, In x (h :: t) -> row x = row e -> (mag x <= mag h)%R).
      { intros x [<-|Hx] Hrx; [lra|]. apply not_after_mag; [auto|congruence]. }
      cbn [In]. destruct Hi as [<-|Hi].
      * split; [|auto]. intros _ x Hx Hrx. pose proof (Mx x Hx Hrx). pose proof (Rabs_pos (snd h)). unfold mag in *. lra.
      * destruct (IH Hi Ho) as (IH1 & _). rewrite (IH1 Er). split.
        -- intros Q x Hx Hrx. pose proof (Mx x Hx Hrx). destruct Q as [<-|Q]; [pose proof (Rabs_pos (snd h)); unfold mag in *; lra|lra].
        -- intros Q. right. pose proof (Q h (or_introl eq_refl) ltac:(congruence)). lra.
    + destruct Hi as [<-|Hi]; [contradiction|]. destruct (IH Hi Ho) as (_ & IH2). cbn [In]. rewrite (IH2 Er). split.
      * intros [->|Q] x Hx Hrx; [contradiction|]. destruct Hx as [<-|Hx]; [congruence|auto].
      * intros Q. right. intros x Hx. apply Q. right. exact Hx.
Qed.

(* diagonal entries: kept unless an entry that is dropped comes before *)
Lemma drop_diag_kept : forall l last tol done e, sorted_from last l -> In e l -> row e = col e ->
  (row e = last -> done = false -> (forall x, In x l -> row x = row e -> off x -> (mag x < mag e)%R \/ (tol <= mag x)%R) -> In e (drop last tol done l)) /\
  (row e <> last -> (forall x, In x l -> row x = row e -> off x -> (mag x < mag e)%R \/ forall y, In y l -> row y = row e -> (mag y <= 2 * mag x)%R) -> In e (drop last tol done l)).
Proof.
  induction l as [|h t IH]; intros last tol done e Hs Hi Dg; [destruct Hi|]. rewrite drop_cons. cbv zeta.
  destruct (sorted_tail _ _ _ Hs) as (Ht & Hl & Hh).
  destruct (Z.eqb_spec (row h) last) as [E|E].
  - split.
    + intros Hr -> Hx. destruct Hi as [->|Hi].
      * rewrite Dg. rewrite Z.eqb_refl. rewrite andb_false_r. left. reflexivity.
      * destruct (IH (row h) tol false e Ht Hi Dg) as (IH1 & _). specialize (IH1 ltac:(congruence) eq_refl (fun x H => Hx x (or_intror H))).
        destruct (_ && _) eqn:B; [|right; exact IH1]. exfalso. apply andb_true_iff in B. destruct B as (B1 & B2).
        destruct (Rlt_dec (mag h) tol); [|discriminate]. destruct (Z.eqb_spec (row h) (col h)); [discriminate|].
        destruct (Hx h (or_introl eq_refl) ltac:(congruence) n) as [Q|Q]; [|lra]. pose proof (not_after_mag _ _ (Hh e Hi) ltac:(congruence)). lra.
    + intros Hr Hx. destruct Hi as [->|Hi]; [contradiction|].
      assert (G : forall d, In e (drop (row h) tol d t)).
      { intros d. destruct (IH (row h) tol d e Ht Hi Dg) as (_ & IH2). apply IH2; [congruence|]. intros x Hix Hrx Ho. destruct (Hx x (or_intror Hix) Hrx Ho) as [Q|Q]; [auto|right]. intros y Hy. apply Q. right. exact Hy. }
      destruct done; [apply G|]. destruct (_ && _); [apply G|right; apply G].
  - assert (Hm : ~ (mag h < / 2 * mag h)%R) by (pose proof (Rabs_pos (snd h)); unfold mag; lra).
    destruct (Rlt_dec (mag h) (/ 2 * mag h)) as [|_]; [contradiction|]. cbn [andb]. split.
    + intros Hr. exfalso. assert (row h <= row e); [|lia]. destruct Hi as [<-|Hi]; [lia|]. apply Ht. exact Hi.
    + intros Hr Hx. destruct Hi as [->|Hi]; [left; reflexivity|]. right.
      destruct (IH (row h) (/ 2 * mag h)%R false e Ht Hi Dg) as (IH1 & IH2). destruct (Z.eq_dec (row e) (row h)) as [Er|Er].
      * apply IH1; [exact Er|reflexivity|]. intros x Hix Hrx Ho. destruct (Hx x (or_intror Hix) Hrx Ho) as [Q|Q]; [auto|right].
        pose proof (Q h (or_introl eq_refl) ltac:(congruence)). lra.
      * apply IH2; [exact Er|]. intros x Hix Hrx Ho. destruct (Hx x (or_intror Hix) Hrx Ho) as [Q|Q]; [auto|right]. intros y Hy. apply Q. right. exact Hy.
Qed.
Lemma drop_diag_dropped : forall l last tol done e x, sorted_from last l -> In x l -> off x -> row x = row e -> (mag e < mag x)%R ->
  (row e = last -> (mag x < tol)%R -> ~ In e (drop last tol done l)) /\
  (row e <> last -> (exists y, In y l /\ row y = row e /\ (2 * mag x < mag y)%R) -> ~ In e (drop last tol done l)).
Proof.
  induction l as [|h t IH]; intros last tol done e x Hs Hi Ho Hr Hm; [destruct Hi|]. rewrite drop_cons. cbv zeta.
  destruct (sorted_tail _ _ _ Hs) as (Ht & Hl & Hh).
  destruct (Z.eqb_spec (row h) last) as [E|E].
  - split.
    + intros He Hx Hin.
      assert (D : ~ In e (drop (row h) tol true t)) by (intros Q; apply (drop_done _ _ _ _ Ht Q); congruence).
      destruct done; [contradiction|]. destruct (_ && _) eqn:B; [contradiction|].
      destruct Hi as [->|Hi].
      * destruct (Rlt_dec (mag x) tol) as [_|]; [|contradiction]. destruct (Z.eqb_spec (row x) (col x)); [apply Ho; assumption|discriminate].
      * destruct Hin as [->|Hin].
        -- pose proof (not_after_mag _ _ (Hh x Hi) ltac:(congruence)). lra.
        -- destruct (IH (row h) tol false e x Ht Hi Ho Hr Hm) as (IH1 & _). apply IH1; [congruence|exact Hx|exact Hin].
    + intros He (y & Hy & Hry & Hlt) Hin.
      destruct Hi as [->|Hi]; [congruence|]. destruct Hy as [->|Hy]; [congruence|].
      assert (D : forall d, ~ In e (drop (row h) tol d t)).
      { intros d. destruct (IH (row h) tol d e x Ht Hi Ho Hr Hm) as (_ & IH2). apply IH2; [congruence|]. exists y. auto. }
      destruct done; [exact (D _ Hin)|]. destruct (_ && _); [exact (D _ Hin)|]. destruct Hin as [->|Hin]; [congruence|exact (D _ Hin)].
  - assert (Hn : ~ (mag h < / 2 * mag h)%R) by (pose proof (Rabs_pos (snd h)); unfold mag; lra).
    destruct (Rlt_dec (mag h) (/ 2 * mag h)) as [|_]; [contradiction|]. cbn [andb]. split.
    + intros He. exfalso. assert (row h <= row x); [|lia]. destruct Hi as [<-|Hi]; [lia|]. apply Ht. exact Hi.
    + intros He (y & Hy & Hry & Hlt). destruct (Z.eq_dec (row e) (row h)) as [Er|Er].
      * assert (My : (mag y <= mag h)%R). { destruct Hy as [->|Hy]; [lra|]. apply not_after_mag; [auto|congruence]. }
        destruct Hi as [->|Hi]; [pose proof (Rabs_pos (snd x)); unfold mag in *; lra|].
        intros [->|Hin]; [pose proof (not_after_mag _ _ (Hh x Hi) ltac:(congruence)); lra|].
        destruct (IH (row h) (/ 2 * mag h)%R false e x Ht Hi Ho Hr Hm) as (IH1 & _). apply IH1 in Hin; [exact Hin|exact Er|lra].
      * destruct Hi as [->|Hi]; [congruence|]. destruct Hy as [->|Hy]; [congruence|]. intros [->|Hin]; [congruence|].
        destruct (IH (row h) (/ 2 * mag h)%R false e x Ht Hi Ho Hr Hm) as (_ & IH2). apply IH2 in Hin; [exact Hin|exact Er|]. exists y. auto.
Qed.

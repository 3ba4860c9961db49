(* C64: the matrix that the preconditioner of the iterative solver factors. *)
From Coq Require Import String List ZArith Reals Bool Lia Lra Permutation Sorted.
From Verif Require Import StrMap EqTable EqTableProofs NodeKeeper NodeKeeperProofs Numbering NumberingProofs BlockPrec BlockPrecSpec BlockPrecProofs BlockPrecDrop.
Import ListNotations.
Open Scope Z_scope.
Local Arguments Z.eqb : simpl never.
Local Arguments Z.leb : simpl never.
Local Notation entry := (Z * Z * R)%type.

(* the entry e belongs to the row of u and to the column of u' *)
Definition entry_at (s s' : system) (u u' : unknown) (e : entry) : Prop :=
  is_unknown s u /\ is_unknown s u' /\ row_of s' u = Some (row e) /\ row_of s' u' = Some (col e).
Definition bulk (u : unknown) : Prop := match u with UBulk _ _ _ _ => True | UCircuit _ => False end.

Lemma onat_eqb_spec : forall a b, onat_eqb a b = true <-> a = b.
Proof.
  intros [x|] [y|]; cbn; split; intros H; try discriminate; try reflexivity.
  - apply Nat.eqb_eq in H. congruence.
  - injection H as ->. apply Nat.eqb_refl.
Qed.
Lemma classify_all_spec : forall bl f m ps, classify_all bl f m = Some ps -> map snd ps = m /\ forall p e, In (p, e) ps -> classify bl f e = Some p.
Proof.
  intros bl f. induction m as [|e m IH]; intros ps H; cbn [classify_all] in H.
  - injection H as <-. split; [reflexivity|intros ? ? []].
  - destruct (classify bl f e) as [p|] eqn:Ec; [|discriminate]. destruct (classify_all bl f m) as [ps'|]; [|discriminate]. injection H as <-.
    destruct (IH ps' eq_refl) as (I1 & I2). split; [cbn; congruence|]. intros p' e' [E|Hi]; [injection E as <- <-; exact Ec|auto].
Qed.
Lemma classify_all_some : forall bl f m, (forall e, In e m -> classify bl f e <> None) -> exists ps, classify_all bl f m = Some ps.
Proof.
  intros bl f. induction m as [|e m IH]; intros H; [eexists; reflexivity|]. cbn [classify_all].
  destruct (classify bl f e) as [p|] eqn:Ec; [|exfalso; apply (H e (or_introl eq_refl) Ec)]. destruct (IH (fun e' Hi => H e' (or_intror Hi))) as (ps & ->). eexists. reflexivity.
Qed.
Lemma classify_all_none : forall bl f m e, In e m -> classify bl f e = None -> classify_all bl f m = None.
Proof.
  intros bl f. induction m as [|a m IH]; intros e Hi H; [destruct Hi|]. cbn [classify_all]. destruct Hi as [->|Hi]; [rewrite H; reflexivity|].
  rewrite (IH e Hi H). destruct (classify bl f a); reflexivity.
Qed.
Lemma NoDup_flat_map : forall {A B C} (g : A -> list B) (h : B -> C) l, NoDup l -> (forall a, In a l -> NoDup (map h (g a))) ->
  (forall a a' b b', In a l -> In a' l -> In b (g a) -> In b' (g a') -> h b = h b' -> a = a') -> NoDup (map h (flat_map g l)).
Proof.
  intros A B C g h l Hl. induction Hl as [|a l Ha Hl IH]; intros H1 H2; cbn; [constructor|]. rewrite map_app. apply NoDup_app_disj.
  - apply H1. left. reflexivity.
  - apply IH; [intros; apply H1; right; assumption|]. intros; eapply H2; try eassumption; right; assumption.
  - intros x Hx Hy. apply in_map_iff in Hx. destruct Hx as (b & <- & Hb). apply in_map_iff in Hy. destruct Hy as (b' & E & Hb'). apply in_flat_map in Hb'. destruct Hb' as (a' & Ha' & Hb').
    apply Ha. rewrite (H2 a a' b b' (or_introl eq_refl) (or_intror Ha') Hb Hb' (eq_sym E)). exact Ha'.
Qed.
Lemma NoDup_map_eq : forall {A B} (f : A -> B) l a b, NoDup (map f l) -> In a l -> In b l -> f a = f b -> a = b.
Proof.
  intros A B f. induction l as [|x l IH]; intros a b Hn Ha Hb E; [destruct Ha|]. cbn in Hn. apply NoDup_cons_iff in Hn. destruct Hn as (H1 & H2).
  destruct Ha as [->|Ha], Hb as [->|Hb]; [reflexivity| | |auto]; exfalso; apply H1; [rewrite E|rewrite <- E]; apply in_map; assumption.
Qed.
Lemma NoDup_map_filter : forall {A B} (f : A -> B) p l, NoDup (map f l) -> NoDup (map f (filter p l)).
Proof.
  intros A B f p. induction l as [|x l IH]; intros H; [constructor|]. cbn in H. apply NoDup_cons_iff in H. destruct H as (H1 & H2). cbn. destruct (p x); [|auto]. cbn. constructor; [|auto].
  intros Hi. apply H1. apply in_map_iff in Hi. destruct Hi as (y & <- & Hy). apply filter_In in Hy. apply in_map. apply Hy.
Qed.

Section Process.
Variables (sorter : list entry -> list entry) (Hs : std_sort sorter) (bl : list block) (f : Z -> option nat) (m : list entry) (ps : list (place * entry)).
Hypothesis (Hp : classify_all bl f m = Some ps) (ND : NoDup (map fst m)).
Let group (k : option nat * option nat) : list entry := map snd (filter (in_group k) ps).
Lemma group_In : forall k e, In e (group k) <-> In e m /\ classify bl f e = Some (Group (fst k) (snd k)).
Proof.
  intros k e. destruct (classify_all_spec _ _ _ _ Hp) as (M1 & M2). unfold group. rewrite in_map_iff. split.
  - intros ((p & e') & E & Hi). cbn in E. subst e'. apply filter_In in Hi. destruct Hi as (Hi & Hg). split; [rewrite <- M1; apply in_map_iff; exists (p, e); auto|].
    rewrite (M2 _ _ Hi). unfold in_group in Hg. cbn [fst] in Hg. destruct p as [|a b]; [discriminate|]. cbn in Hg. destruct (key_dec k (a, b)) as [->|]; [reflexivity|discriminate].
  - intros (Hi & Hc). rewrite <- M1 in Hi. apply in_map_iff in Hi. destruct Hi as ((p & e') & E & Hi). cbn in E. subst e'. exists (p, e). split; [reflexivity|]. apply filter_In. split; [exact Hi|].
    rewrite (M2 _ _ Hi) in Hc. injection Hc as ->. unfold in_group. cbn. destruct (key_dec k (fst k, snd k)) as [|N]; [reflexivity|]. exfalso. apply N. destruct k. reflexivity.
Qed.
Definition kept (k : option nat * option nat) : list entry := drop (-1) 0%R false (sorter (group k)).
Lemma process_ok : exists b, process sorter bl f m = Ok b /\ NoDup (map fst b) /\
  (forall e, In e b <-> In e m /\ (classify bl f e = Some Direct \/ exists k, classify bl f e = Some (Group (fst k) (snd k)) /\ In e (kept k))).
Proof.
  destruct (classify_all_spec _ _ _ _ Hp) as (M1 & M2). unfold process. rewrite Hp. eexists. split; [reflexivity|].
  set (keys := nodup key_dec _).
  assert (Kept : forall k e, In e (kept k) -> In e (group k)).
  { intros k e Hi. apply (Permutation_in _ (Permutation_sym (proj1 (Hs (group k))))). eapply sub_In; [apply drop_sub|exact Hi]. }
  assert (Dir : forall e, In e (map snd (filter is_direct ps)) <-> In e m /\ classify bl f e = Some Direct).
  { intros e. rewrite in_map_iff. split.
    - intros ((p & e') & E & Hi). cbn in E. subst e'. apply filter_In in Hi. destruct Hi as (Hi & Hg). split; [rewrite <- M1; apply in_map_iff; exists (p, e); auto|]. rewrite (M2 _ _ Hi). destruct p; [reflexivity|discriminate].
    - intros (Hi & Hc). rewrite <- M1 in Hi. apply in_map_iff in Hi. destruct Hi as ((p & e') & E & Hi). cbn in E. subst e'. exists (p, e). split; [reflexivity|]. apply filter_In. split; [exact Hi|]. rewrite (M2 _ _ Hi) in Hc. injection Hc as ->. reflexivity. }
  assert (Ky : forall e k, In e m -> classify bl f e = Some (Group (fst k) (snd k)) -> In k keys).
  { intros e k Hi Hc. apply nodup_In. apply in_flat_map. rewrite <- M1 in Hi. apply in_map_iff in Hi. destruct Hi as ((p & e') & E & Hi). cbn in E. subst e'. exists (p, e). split; [exact Hi|].
    rewrite (M2 _ _ Hi) in Hc. injection Hc as ->. cbn. left. destruct k. reflexivity. }
  split.
  - rewrite map_app. apply NoDup_app_disj.
    + rewrite map_map. assert (Q : NoDup (map (fun x => fst (snd x)) ps)) by (rewrite <- (map_map snd fst), M1; exact ND).
      apply NoDup_map_filter. exact Q.
    + apply NoDup_flat_map; [apply NoDup_nodup| |].
      * intros k _. eapply sub_NoDup; [apply drop_sub|]. eapply Permutation_NoDup; [apply Permutation_map; apply (Hs (group k))|].
        unfold group. rewrite map_map. apply NoDup_map_filter. rewrite <- (map_map snd fst), M1. exact ND.
      * intros k k' e e' _ _ He He' E. apply Kept, group_In in He. apply Kept, group_In in He'. assert (e = e') by (apply (NoDup_map_eq fst m); tauto). subst e'.
        destruct He as (_ & He). destruct He' as (_ & He'). rewrite He in He'. injection He' as E1 E2. destruct k, k'. cbn in *. congruence.
    + intros x Hx Hy. apply in_map_iff in Hx. destruct Hx as (e & <- & He). apply Dir in He. apply in_map_iff in Hy. destruct Hy as (e' & E & He'). apply in_flat_map in He'. destruct He' as (k & _ & He').
      apply Kept, group_In in He'. assert (e' = e) by (apply (NoDup_map_eq fst m); tauto). subst e'. destruct He as (_ & He). destruct He' as (_ & He'). congruence.
  - intros e. rewrite in_app_iff, Dir, in_flat_map. split.
    + intros [(H1 & H2)|(k & _ & Hk)]; [tauto|]. pose proof (proj1 (group_In k e) (Kept k e Hk)) as (G1 & G2). split; [exact G1|]. right. exists k. split; [exact G2|exact Hk].
    + intros (H1 & [H2|(k & H2 & H3)]); [left; auto|]. right. exists k. split; [exact (Ky e k H1 H2)|exact H3].
Qed.
Lemma kept_sorted : forall k, (forall e, In e m -> 0 <= row e) -> sorted_from (-1) (sorter (group k)).
Proof.
  intros k H. split; [apply (Hs (group k))|]. intros e He. apply (Permutation_in _ (Permutation_sym (proj1 (Hs (group k))))) in He. apply group_In in He. specialize (H e (proj1 He)). lia.
Qed.
Lemma in_sorter : forall k e, In e (sorter (group k)) <-> In e (group k).
Proof. intros k e. split; apply Permutation_in; [apply Permutation_sym|]; apply (Hs (group k)). Qed.
End Process.

(* what BlockPreconditioner.cc:124-240 does to an entry, by the unknowns of its row and column *)
Section Places.
Variables (s s' : system) (N : Z).
Hypothesis (Hr : reachable s) (Tot : total s < 2 ^ 64) (Pop : populated_devs (s_devs s)) (Hn : number_system s = (s', Some N)).
Variable f : Z -> option nat.
Hypothesis (H3 : forall d r e i v, is_unknown s (UBulk d r e i) -> row_of s' (UBulk d r e i) = Some v -> exists k b, has_block s' f v k b)
  (H4 : forall n v, is_unknown s (UCircuit n) -> row_of s' (UCircuit n) = Some v -> f v = None)
  (H5 : forall u u' v v', is_unknown s u -> is_unknown s u' -> row_of s' u = Some v -> row_of s' u' = Some v' -> (f v = f v' <-> same_equation u u'))
  (H6 : forall d r e i u' v v' k b, is_unknown s (UBulk d r e i) -> is_unknown s u' -> row_of s' (UBulk d r e i) = Some v -> row_of s' u' = Some v' -> has_block s' f v k b ->
     (b_lo b <= v' <= b_hi b <-> same_part (UBulk d r e i) u')).
Lemma same_eq_part : forall u u', same_equation u u' -> same_part u u'.
Proof. intros [d r e i|n] [d' r' e' i'|n']; cbn; tauto. Qed.
Lemma place_of : forall u u' e, entry_at s s' u u' e -> bulk u \/ ~ bulk u' ->
  (same_part u u' -> classify (create_blocks (s_devs s')) f e = Some (Group (f (row e)) (f (col e)))) /\
  (~ same_part u u' -> classify (create_blocks (s_devs s')) f e = Some Direct).
Proof.
  intros u u' ((r & c) & v) (U1 & U2 & R1 & R2) Hb. unfold row, col in *. cbn [fst snd] in *. cbn [classify].
  destruct (onat_eqb (f r) (f c)) eqn:Eo.
  - apply onat_eqb_spec in Eo. apply (proj1 (H5 u u' r c U1 U2 R1 R2)) in Eo. split; [reflexivity|]. intros Q. exfalso. apply Q. apply same_eq_part. exact Eo.
  - assert (Ne : f r <> f c) by (intros Q; apply onat_eqb_spec in Q; congruence).
    destruct u as [d g e i|n].
    + destruct (H3 d g e i r U1 R1) as (k & b & Hk). pose proof (H6 d g e i u' r c k b U1 U2 R1 R2 Hk) as Hp. destruct Hk as (K1 & K2 & _). rewrite K1, K2.
      destruct (Z.leb_spec (b_lo b) c); destruct (Z.leb_spec c (b_hi b)); cbn [andb]; split; intros Q; try reflexivity; exfalso.
      * apply Q. apply Hp. lia.
      * apply Hp in Q. lia.
      * apply Hp in Q. lia.
      * apply Hp in Q. lia.
    + destruct u' as [d' g' e' i'|n'].
      * exfalso. destruct Hb as [[]|Hb]. apply Hb. exact I.
      * exfalso. apply Ne. rewrite (H4 _ _ U1 R1), (H4 _ _ U2 R2). reflexivity.
Qed.
Lemma place_none : forall u u' e, entry_at s s' u u' e -> ~ bulk u -> bulk u' -> classify (create_blocks (s_devs s')) f e = None.
Proof.
  intros [d g e0 i|n] [d' g' e' i'|n'] ((r & c) & v) (U1 & U2 & R1 & R2) B1 B2; [exfalso; apply B1; exact I|exfalso; apply B1; exact I| |destruct B2].
  unfold row, col in *. cbn [fst snd] in *. cbn [classify]. destruct (H3 _ _ _ _ _ U2 R2) as (k & b & K1 & _). rewrite (H4 _ _ U1 R1), K1. reflexivity.
Qed.
End Places.

(* Without entries in circuit rows and device columns, the block matrix keeps
   - every entry that couples different regions, or a region to the circuit,
   - of the other entries off the diagonal those of at least half the magnitude of the largest
     entry of its row in the columns of the same equation,
   - an entry of the diagonal if no larger entry is dropped before it, and only then,
   and it has no other entries. *)
Theorem C64_block_matrix : forall s s' N sorter m, reachable s -> total s < 2 ^ 64 -> populated_devs (s_devs s) -> number_system s = (s', Some N) -> std_sort sorter ->
  NoDup (map fst m) -> (forall e, In e m -> exists u u', entry_at s s' u u' e /\ (bulk u \/ ~ bulk u')) ->
  exists b, block_matrix sorter (s_devs s') N m = Ok b /\ NoDup (map fst b) /\ (forall e, In e b -> In e m) /\
    forall e u u', In e m -> entry_at s s' u u' e ->
      (~ same_part u u' -> In e b) /\
      (same_part u u' -> row e <> col e -> (In e b <-> forall x w, In x m -> entry_at s s' u w x -> same_equation u' w -> (mag x <= 2 * mag e)%R)) /\
      (row e = col e -> (forall x w, In x m -> entry_at s s' u w x -> same_equation u' w -> row x <> col x -> (mag x < mag e)%R \/ In x b) -> In e b) /\
      (row e = col e -> (exists x w, In x m /\ entry_at s s' u w x /\ same_equation u' w /\ row x <> col x /\ (mag e < mag x)%R /\ ~ In x b) -> ~ In e b).
Proof.
  intros s s' N sorter m Hr Tot Pop Hn Hs ND Hm.
  destruct (block_map s s' N Hr Tot Pop Hn) as (f & H1 & H2 & H3 & H4 & H5 & H6).
  destruct (c13_lemma s Hr Tot) as (s2 & E2 & _ & Rn & Inj & _). rewrite Hn in E2. injection E2 as <- EN.
  set (bl := create_blocks (s_devs s')) in *.
  assert (Pl : forall e, In e m -> exists u u', entry_at s s' u u' e /\ (same_part u u' -> classify bl f e = Some (Group (f (row e)) (f (col e)))) /\ (~ same_part u u' -> classify bl f e = Some Direct)).
  { intros e He. destruct (Hm e He) as (u & u' & Ha & Hb). exists u, u'. split; [exact Ha|]. exact (place_of s s' f H3 H4 H5 H6 u u' e Ha Hb). }
  assert (Uq : forall u u' w w' e, entry_at s s' u u' e -> entry_at s s' w w' e -> u = w /\ u' = w').
  { intros u u' w w' e (A1 & A2 & A3 & A4) (B1 & B2 & B3 & B4). split; eapply Inj; eassumption. }
  assert (Sd : forall u u', {same_part u u'} + {~ same_part u u'}).
  { intros [d r e i|n] [d' r' e' i'|n']; cbn; try (right; tauto); try (left; exact I). destruct (string_dec d d') as [->|]; [|right; intuition]. destruct (string_dec r r') as [->|]; [left; auto|right; intuition]. }
  destruct (classify_all_some bl f m) as (ps & Hps).
  { intros e He Q. destruct (Pl e He) as (u & u' & _ & P1 & P2). destruct (Sd u u') as [X|X]; [specialize (P1 X)|specialize (P2 X)]; congruence. }
  destruct (process_ok sorter Hs bl f m ps Hps ND) as (b & Eb & NDb & Ib).
  exists b. split; [unfold block_matrix; fold bl; rewrite H1, H2; exact Eb|]. split; [exact NDb|]. split; [intros e He; apply Ib in He; apply He|].
  assert (Pos : forall e, In e m -> 0 <= row e).
  { intros e He. destruct (Hm e He) as (u & u' & (A1 & _ & A3 & _) & _). destruct (Rn u A1) as (v & V1 & V2). rewrite A3 in V1. injection V1 as ->. lia. }
  intros e u u' He Ha. destruct (Pl e He) as (w1 & w2 & Hw & P1 & P2). destruct (Uq _ _ _ _ _ Ha Hw) as (<- & <-). clear Hw.
  split; [intros Q; apply Ib; split; [exact He|left; auto]|].
  set (key := (f (row e), f (col e))).
  assert (Gr : same_part u u' -> forall x, (In x (sorter (map snd (filter (in_group key) ps))) /\ row x = row e) <-> exists w, In x m /\ entry_at s s' u w x /\ same_equation u' w).
  { intros Sp x. pose proof (in_sorter sorter Hs ps key x) as Is. pose proof (group_In bl f m ps Hps key x) as Ig. destruct Ha as (A1 & A2 & A3 & A4). split.
    - intros (Hi & Hrow). apply Is, Ig in Hi. destruct Hi as (Hi & Hc). destruct (Pl x Hi) as (w & w' & Hw & Q1 & Q2). destruct Hw as (W1 & W2 & W3 & W4).
      assert (w = u) by (eapply Inj; [exact W1|exact A1|exact W3|rewrite Hrow; exact A3]). subst w.
      destruct (Sd u w') as [X|X]; [|rewrite (Q2 X) in Hc; discriminate]. rewrite (Q1 X) in Hc. injection Hc as _ Ec.
      exists w'. split; [exact Hi|]. split; [repeat split; assumption|]. apply (H5 u' w' (col e) (col x) A2 W2 A4 W4). symmetry. exact Ec.
    - intros (w & Hi & (W1 & W2 & W3 & W4) & Se). assert (Er : row x = row e) by congruence. split; [|exact Er]. apply Is, Ig. split; [exact Hi|].
      destruct (Pl x Hi) as (w1 & w2 & Hw & Q1 & _). destruct (Uq u w w1 w2 x (conj W1 (conj W2 (conj W3 W4))) Hw) as (<- & <-).
      assert (X : same_part u w).
      { clear - Sp Se. destruct u as [d r q i|n], u' as [d' r' q' i'|n'], w as [d2 r2 q2 i2|n2]; cbn in *; intuition congruence. }
      rewrite (Q1 X). cbn [fst snd key]. rewrite Er. f_equal. f_equal. symmetry. apply (H5 u' w (col e) (col x) A2 W2 A4 W4). exact Se. }
  assert (Ik : forall x w, same_part u u' -> In x m -> entry_at s s' u w x -> same_equation u' w -> (In x b <-> In x (kept sorter ps key))).
  { intros x w Sp Hi Hw Se. destruct (proj2 (Gr Sp x) (ex_intro _ w (conj Hi (conj Hw Se)))) as (G1 & _).
    apply (in_sorter sorter Hs), (group_In bl f m ps Hps) in G1. destruct G1 as (_ & G1). rewrite Ib. split.
    - intros (_ & [Q|(k & Q1 & Q2)]); [congruence|]. rewrite G1 in Q1. injection Q1 as K1 K2. replace key with k; [exact Q2|]. destruct k. cbn in K1, K2. unfold key. congruence.
    - intros Q. split; [exact Hi|]. right. exists key. auto. }
  assert (Se0 : same_equation u' u') by (destruct u'; cbn; auto).
  pose proof (kept_sorted sorter Hs bl f m ps Hps key Pos) as Srt.
  split; [|split].
  - intros Sp Of. rewrite (Ik e u' Sp He Ha Se0). unfold kept.
    assert (Ie : In e (sorter (map snd (filter (in_group key) ps)))) by (apply (Gr Sp e); exists u'; auto).
    destruct (drop_off _ (-1) 0%R false e Srt ltac:(discriminate) Ie Of) as (_ & D). specialize (Pos e He). rewrite (D ltac:(lia)). split.
    + intros Q x w Hx Hw Se. destruct (proj2 (Gr Sp x) (ex_intro _ w (conj Hx (conj Hw Se)))) as (X1 & X2). apply Q; assumption.
    + intros Q x Hx Hrow. destruct (proj1 (Gr Sp x) (conj Hx Hrow)) as (w & W1 & W2 & W3). exact (Q x w W1 W2 W3).
  - intros Dg Q. destruct (Sd u u') as [Sp|Sp]; [|apply Ib; split; [exact He|left; auto]]. rewrite (Ik e u' Sp He Ha Se0). unfold kept.
    assert (Ie : In e (sorter (map snd (filter (in_group key) ps)))) by (apply (Gr Sp e); exists u'; auto).
    destruct (drop_diag_kept _ (-1) 0%R false e Srt Ie Dg) as (_ & D). pose proof (Pos e He). apply D; [lia|]. intros x Hx Hrow Ho.
    destruct (proj1 (Gr Sp x) (conj Hx Hrow)) as (w & W1 & W2 & W3). destruct (Q x w W1 W2 W3 Ho) as [L|L]; [left; exact L|right].
    rewrite (Ik x w Sp W1 W2 W3) in L. unfold kept in L. destruct (drop_off _ (-1) 0%R false x Srt ltac:(discriminate) Hx Ho) as (_ & D2). specialize (Pos x W1).
    intros y Hy Hry. apply (proj1 (D2 ltac:(lia)) L y Hy). congruence.
  - intros Dg (x & w & Hx & Hw & Se & Ho & Lt & Nb).
    assert (Sp : same_part u u').
    { destruct Ha as (A1 & A2 & A3 & A4). rewrite <- Dg in A4. rewrite (Inj u' u (row e) A2 A1 A4 A3). destruct u; cbn; auto. }
    rewrite (Ik e u' Sp He Ha Se0). rewrite (Ik x w Sp Hx Hw Se) in Nb. unfold kept in *.
    destruct (proj2 (Gr Sp x) (ex_intro _ w (conj Hx (conj Hw Se)))) as (X1 & X2).
    destruct (drop_diag_dropped _ (-1) 0%R false e x Srt X1 Ho X2 Lt) as (_ & D). pose proof (Pos e He). apply D; [lia|].
    destruct (drop_off _ (-1) 0%R false x Srt ltac:(discriminate) X1 Ho) as (_ & D2). pose proof (Pos x Hx). specialize (D2 ltac:(lia)).
    (* some entry is more than twice as large *)
    set (L := sorter (map snd (filter (in_group key) ps))) in *.
    assert (Dec : (exists y, In y L /\ row y = row e /\ (2 * mag x < mag y)%R) \/ (forall y, In y L -> row y = row e -> (mag y <= 2 * mag x)%R)).
    { clear. induction L as [|a L IH]; [right; intros ? []|]. destruct IH as [(y & Y1 & Y2)|IH]; [left; exists y; split; [right; exact Y1|exact Y2]|].
      destruct (Z.eq_dec (row a) (row e)) as [Ea|Ea]; [|right; intros y [<-|Hy] Hry; [contradiction|auto]].
      destruct (Rlt_dec (2 * mag x) (mag a)) as [La|La]; [left; exists a; split; [left; reflexivity|auto]|right; intros y [<-|Hy] Hry; [lra|auto]]. }
    destruct Dec as [Q|Q]; [exact Q|]. exfalso. apply Nb. apply D2. intros y Hy Hry. apply Q; [exact Hy|congruence].
Qed.
Print Assumptions C64_block_matrix.

(* A circuit equation that depends on a device unknown - a contact with a circuit node - makes the
   preconditioner read blockInfoList_ out of its bounds. *)
Theorem C64_circuit_refuted : forall s s' N sorter m e u u', reachable s -> total s < 2 ^ 64 -> populated_devs (s_devs s) -> number_system s = (s', Some N) ->
  In e m -> entry_at s s' u u' e -> ~ bulk u -> bulk u' -> block_matrix sorter (s_devs s') N m = OutOfBounds.
Proof.
  intros s s' N sorter m e u u' Hr Tot Pop Hn He Ha B1 B2.
  destruct (block_map s s' N Hr Tot Pop Hn) as (f & H1 & H2 & H3 & H4 & H5 & H6).
  unfold block_matrix. rewrite H1, H2. unfold process.
  rewrite (classify_all_none _ f m e He (place_none s s' f H3 H4 u u' e Ha B1 B2)). reflexivity.
Qed.
Print Assumptions C64_circuit_refuted.

(* ---- cases -------------------------------------------------------------------------------------- *)
(* a region of three nodes with one equation, and a resistor to ground *)
Definition one_region : system := mkSys [("d", [("r", mkRg 3 (fst (run 0 empty [Equation "p" "V" tt])) m1)])]%string k_new.
Definition with_circuit : system := mkSys [("d", [("r", mkRg 3 (fst (run 0 empty [Equation "p" "V" tt])) m1)])]%string (crun k_new [CircuitElement ER "R1" "in" "0"]%string).
Lemma sys_ok : forall k, (exists cs, k = crun k_new cs) -> let s := mkSys [("d", [("r", mkRg 3 (fst (run 0 empty [Equation "p" "V" tt])) m1)])]%string k in reachable s /\ populated_devs (s_devs s).
Proof.
  intros k Hk s. split.
  - split; [repeat constructor|]. split; [|exact Hk]. intros d dv H. cbn [find s s_devs] in H. destruct (String.eqb d "d"); [|discriminate]. injection H as <-.
    split; [repeat constructor|]. intros r rg H. cbn [find] in H. destruct (String.eqb r "r"); [|discriminate]. injection H as <-. exists [Equation "p" "V" tt]%string. reflexivity.
  - intros d dv r rg H1 H2 _. cbn [find s s_devs] in H1. destruct (String.eqb d "d"); [|discriminate]. injection H1 as <-. cbn [find] in H2. destruct (String.eqb r "r"); [|discriminate]. injection H2 as <-. discriminate.
Qed.
Definition u_at (i : nat) : unknown := UBulk "d" "r" "p" i.
Lemma one_region_numbered : exists s', number_system one_region = (s', Some 3) /\ forall i, (i < 3)%nat -> is_unknown one_region (u_at i) /\ row_of s' (u_at i) = Some (Z.of_nat i).
Proof.
  eexists. split; [vm_compute; reflexivity|]. intros i Hi. split.
  - unfold u_at, one_region. cbn [is_unknown s_devs]. eexists. eexists. split; [reflexivity|]. split; [reflexivity|]. split; [vm_compute; auto|exact Hi].
  - destruct i as [|[|[|i]]]; [vm_compute; reflexivity..|lia].
Qed.
Lemma with_circuit_numbered : exists s', number_system with_circuit = (s', Some 4) /\ is_unknown with_circuit (u_at 0) /\ is_unknown with_circuit (UCircuit "in") /\ row_of s' (u_at 0) = Some 0 /\ row_of s' (UCircuit "in") = Some 3.
Proof.
  eexists. split; [vm_compute; reflexivity|]. split; [|split; [|split; vm_compute; reflexivity]].
  - unfold u_at, with_circuit. cbn [is_unknown s_devs]. eexists. eexists. split; [reflexivity|]. split; [reflexivity|]. split; [vm_compute; auto|cbn; lia].
  - cbn [is_unknown]. eexists. split; vm_compute; reflexivity.
Qed.

(* the hypotheses of the second theorem are met *)
Example C64_circuit_case : forall sorter, exists s', number_system with_circuit = (s', Some 4) /\ block_matrix sorter (s_devs s') 4 [(3, 0, 1%R)] = OutOfBounds.
Proof.
  intros sorter. destruct with_circuit_numbered as (s' & E & U1 & U2 & R1 & R2). exists s'. split; [exact E|].
  destruct (sys_ok _ (ex_intro _ [CircuitElement ER "R1" "in" "0"]%string eq_refl)) as (Hr & Pop).
  apply (C64_circuit_refuted with_circuit s' 4 sorter _ (3, 0, 1%R) (UCircuit "in") (u_at 0) Hr ltac:(vm_compute; reflexivity) Pop E); [left; reflexivity| |cbn; tauto|exact I].
  repeat split; assumption.
Qed.

(* the product of a matrix and a vector *)
Definition product (m : list entry) (x : Z -> R) (r : Z) : R :=
  fold_right (fun e acc => if row e =? r then (snd e * x (col e) + acc)%R else acc) 0%R m.
Definition singular (n : Z) (m : list entry) : Prop := exists x, (exists i, 0 <= i < n /\ x i <> 0%R) /\ forall r, product m x r = 0%R.
(* A matrix that is not singular can have a singular block matrix, whatever std::sort does: an
   entry of the diagonal is dropped with the small entries of its row. *)
Theorem C64_singular_refuted : exists s s' m, reachable s /\ total s < 2 ^ 64 /\ populated_devs (s_devs s) /\ number_system s = (s', Some 3) /\
  NoDup (map fst m) /\ ~ singular 3 m /\ (forall i, 0 <= i < 3 -> In (i, i, 1%R) m) /\
  forall sorter, std_sort sorter -> exists b, block_matrix sorter (s_devs s') 3 m = Ok b /\ singular 3 b.
Proof.
  destruct one_region_numbered as (s' & E & Un). destruct (sys_ok _ (ex_intro _ [] eq_refl)) as (Hr & Pop).
  set (m := [(0, 0, 1%R); (0, 1, 4%R); (1, 1, 1%R); (0, 2, 10%R); (2, 2, 1%R)] : list entry).
  assert (At : forall i j v, (i < 3)%nat -> (j < 3)%nat -> entry_at one_region s' (u_at i) (u_at j) (Z.of_nat i, Z.of_nat j, v)).
  { intros i j v Hi Hj. destruct (Un i Hi). destruct (Un j Hj). repeat split; assumption. }
  assert (NDm : NoDup (map fst m)) by (cbn; repeat (constructor; [cbn; intuition congruence|]); constructor).
  exists one_region, s', m. split; [exact Hr|]. split; [vm_compute; reflexivity|]. split; [exact Pop|]. split; [exact E|]. split; [exact NDm|]. split.
  { intros (x & (i & Hi & Nz) & Hx). pose proof (Hx 0) as X0. pose proof (Hx 1) as X1. pose proof (Hx 2) as X2. unfold m, product, row, col in X0, X1, X2. cbn [fold_right fst snd] in X0, X1, X2.
    change (0 =? 0) with true in *. change (1 =? 0) with false in *. change (2 =? 0) with false in *. change (0 =? 1) with false in *. change (1 =? 1) with true in *. change (2 =? 1) with false in *. change (0 =? 2) with false in *. change (1 =? 2) with false in *. change (2 =? 2) with true in *. cbv iota in X0, X1, X2.
    apply Nz. assert (i = 0 \/ i = 1 \/ i = 2) as [-> | [-> | ->]] by lia; lra. }
  split. { intros i Hi. assert (i = 0 \/ i = 1 \/ i = 2) as [-> | [-> | ->]] by lia; unfold m; cbn; tauto. }
  intros sorter Hs. destruct (C64_block_matrix one_region s' 3 sorter m Hr ltac:(vm_compute; reflexivity) Pop E Hs NDm) as (b & Eb & NDb & Sb & Hb).
  { intros e He. unfold m in He. cbn in He.
    destruct He as [<-|[<-|[<-|[<-|[<-|[]]]]]]; [exists (u_at 0), (u_at 0)|exists (u_at 0), (u_at 1)|exists (u_at 1), (u_at 1)|exists (u_at 0), (u_at 2)|exists (u_at 2), (u_at 2)]; (split; [|left; exact I]);
    [apply (At 0%nat 0%nat)|apply (At 0%nat 1%nat)|apply (At 1%nat 1%nat)|apply (At 0%nat 2%nat)|apply (At 2%nat 2%nat)]; lia. }
  exists b. split; [exact Eb|].
  assert (D4 : ~ In (0, 1, 4%R) b).
  { destruct (Hb (0, 1, 4%R) (u_at 0) (u_at 1) ltac:(unfold m; cbn; tauto) (At 0%nat 1%nat 4%R ltac:(lia) ltac:(lia))) as (_ & Q & _).
    rewrite (Q ltac:(cbn; auto) ltac:(cbn; lia)). intros W. specialize (W (0, 2, 10%R) (u_at 2) ltac:(unfold m; cbn; tauto) (At 0%nat 2%nat 10%R ltac:(lia) ltac:(lia)) ltac:(cbn; auto)).
    unfold mag in W. cbn [snd] in W. rewrite !Rabs_right in W by lra. lra. }
  assert (D1 : ~ In (0, 0, 1%R) b).
  { destruct (Hb (0, 0, 1%R) (u_at 0) (u_at 0) ltac:(unfold m; cbn; tauto) (At 0%nat 0%nat 1%R ltac:(lia) ltac:(lia))) as (_ & _ & _ & Q). apply Q; [reflexivity|].
    exists (0, 1, 4%R), (u_at 1). split; [unfold m; cbn; tauto|]. split; [apply (At 0%nat 1%nat); lia|]. split; [cbn; auto|]. split; [cbn; lia|]. split; [|exact D4].
    unfold mag. cbn [snd]. rewrite !Rabs_right by lra. lra. }
  exists (fun c => if c =? 0 then 1%R else 0%R). split; [exists 0; split; [lia|]; change (0 =? 0) with true; cbv iota; lra|]. intros r.
  assert (Cz : forall e, In e b -> col e <> 0).
  { intros e He Hc. pose proof (Sb e He) as Hm. unfold m in Hm. cbn in Hm. destruct Hm as [<-|[<-|[<-|[<-|[<-|[]]]]]]; cbn in Hc; try lia. exact (D1 He). }
  clear - Cz. induction b as [|e b IH]; [reflexivity|]. unfold product in *. cbn [fold_right]. rewrite IH by (intros; apply Cz; right; assumption).
  destruct (row e =? r); [|reflexivity]. specialize (Cz e (or_introl eq_refl)). destruct (Z.eqb_spec (col e) 0); [contradiction|]. lra.
Qed.
Print Assumptions C64_singular_refuted.

(* there is such a sorting function *)
Definition beforeb (x y : entry) : bool := (row x <? row y) || ((row x =? row y) && (if Rlt_dec (mag y) (mag x) then true else false)).
Lemma beforeb_spec : forall x y, beforeb x y = true <-> before x y.
Proof.
  intros x y. unfold beforeb, before. rewrite orb_true_iff, andb_true_iff, Z.ltb_lt, Z.eqb_eq. destruct (Rlt_dec (mag y) (mag x)); intuition lra.
Qed.
Fixpoint ins (e : entry) (l : list entry) : list entry := match l with [] => [e] | a :: t => if beforeb a e then a :: ins e t else e :: l end.
Fixpoint isort (l : list entry) : list entry := match l with [] => [] | e :: t => ins e (isort t) end.
Example C64_sort : std_sort isort.
Proof.
  assert (P : forall e l, Permutation (e :: l) (ins e l)).
  { intros e. induction l as [|a t IH]; cbn; [apply Permutation_refl|]. destruct (beforeb a e); [|apply Permutation_refl]. eapply perm_trans; [apply perm_swap|]. constructor. exact IH. }
  assert (S1 : forall e l, StronglySorted (fun x y => ~ before y x) l -> StronglySorted (fun x y => ~ before y x) (ins e l)).
  { intros e. induction l as [|a t IH]; intros Hs; cbn; [repeat constructor|]. inversion Hs as [|? ? Ht Ha]; subst. destruct (beforeb a e) eqn:B.
    - constructor; [apply IH; exact Ht|]. rewrite Forall_forall in *. intros x Hx. apply (Permutation_in _ (Permutation_sym (P e t))) in Hx. destruct Hx as [<-|Hx]; [|auto].
      apply beforeb_spec in B. unfold before in *. destruct B as [B|(B1 & B2)]; intros [Q|(Q1 & Q2)]; lia || lra || idtac.
    - constructor; [exact Hs|]. assert (Na : ~ before a e) by (intros Q; apply beforeb_spec in Q; congruence). constructor; [exact Na|].
      rewrite Forall_forall in *. intros x Hx Q. specialize (Ha x Hx). unfold before in *.
      destruct (Z.lt_trichotomy (row a) (row x)) as [L|[L|L]].
      + apply Na. left. destruct Q as [Q|(Q & _)]; lia.
      + destruct (Rlt_dec (mag a) (mag x)) as [M1|M1]; [apply Ha; right; split; [lia|lra]|]. apply Na. destruct Q as [Q|(Q1 & Q2)]; [left; lia|right; split; [lia|lra]].
      + apply Ha. left. lia. }
  intros l. induction l as [|e t (IH1 & IH2)]; [split; [apply Permutation_refl|constructor]|]. cbn. split; [|apply S1; exact IH2].
  eapply perm_trans; [|apply P]. constructor. exact IH1.
Qed.

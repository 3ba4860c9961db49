From Coq Require Import List Arith Bool Lia Permutation.
From Coq Require Import ZifyBool ZifyNat.
From Verif Require Import CMatrix.
Import ListNotations.

(* ================= generic list lemmas ================= *)
Section Gen.
  Context {B : Type}.
  Lemma aget_In k (m : list (nat * B)) b : aget k m = Some b -> In (k, b) m.
  Proof.
    induction m as [|[k' b'] m IH]; cbn [aget]; [discriminate|].
    destruct (Nat.eqb_spec k k') as [->|Hne]; intros H; [left; congruence|right; auto].
  Qed.
  Lemma aget_None k (m : list (nat * B)) : aget k m = None <-> ~ In k (map fst m).
  Proof.
    induction m as [|[k' b'] m IH]; cbn [aget map fst].
    - split; auto.
    - destruct (Nat.eqb_spec k k') as [->|Hne]; split; intros H.
      + discriminate.
      + exfalso; apply H; left; reflexivity.
      + intros [E|I]; [congruence|]. apply IH in H. auto.
      + apply IH. intros I. apply H. right; exact I.
  Qed.
  Lemma aget_Some_key k (m : list (nat * B)) : In k (map fst m) -> exists b, aget k m = Some b.
  Proof.
    intros H. destruct (aget k m) eqn:E; [eauto|]. apply aget_None in E. contradiction.
  Qed.
  Lemma In_aget k (m : list (nat * B)) b : NoDup (map fst m) -> In (k, b) m -> aget k m = Some b.
  Proof.
    induction m as [|[k' b'] m IH]; cbn [aget map fst]; intros ND H; [destruct H|].
    inversion_clear ND as [|? ? Hn ND2]. destruct H as [E|H].
    - inversion E; subst. now rewrite Nat.eqb_refl.
    - destruct (Nat.eqb_spec k k') as [->|Hne]; [|auto].
      exfalso. apply Hn. apply (in_map fst) in H. exact H.
  Qed.
  Lemma aget_aset k b k' (m : list (nat * B)) :
    aget k' (aset k b m) = if Nat.eqb k' k then Some b else aget k' m.
  Proof.
    induction m as [|[j c] m IH]; cbn [aset aget].
    - destruct (Nat.eqb_spec k' k); reflexivity.
    - destruct (Nat.eqb_spec k j) as [->|Hkj]; cbn [aget].
      + destruct (Nat.eqb_spec k' j); reflexivity.
      + rewrite IH. destruct (Nat.eqb_spec k' j) as [E1|E1]; destruct (Nat.eqb_spec k' k) as [E2|E2];
          try reflexivity; congruence.
  Qed.
  Lemma keys_aset_in k b (m : list (nat * B)) x :
    In x (map fst (aset k b m)) <-> x = k \/ In x (map fst m).
  Proof.
    induction m as [|[j c] m IH]; cbn [aset map fst In].
    - intuition.
    - destruct (Nat.eqb_spec k j) as [->|Hkj]; cbn [map fst In].
      + intuition.
      + rewrite IH. intuition.
  Qed.
  Lemma keys_aset_nodup k b (m : list (nat * B)) :
    NoDup (map fst m) -> NoDup (map fst (aset k b m)).
  Proof.
    induction m as [|[j c] m IH]; cbn [aset map fst]; intros ND.
    - repeat constructor; auto.
    - inversion_clear ND as [|? ? Hn ND2].
      destruct (Nat.eqb_spec k j) as [->|Hkj]; cbn [map fst].
      + constructor; assumption.
      + constructor; [|auto]. rewrite keys_aset_in. intros [E|I]; [congruence|contradiction].
  Qed.
  Lemma keys_aset_same k b (m : list (nat * B)) :
    In k (map fst m) -> map fst (aset k b m) = map fst m.
  Proof.
    induction m as [|[j c] m IH]; cbn [aset map fst]; intros H; [destruct H|].
    destruct (Nat.eqb_spec k j) as [->|Hkj]; cbn [map fst]; [reflexivity|].
    f_equal. apply IH. destruct H; [congruence|assumption].
  Qed.
  Lemma keys_ainsert k b (m : list (nat * B)) x :
    In x (map fst (ainsert k b m)) <-> x = k \/ In x (map fst m).
  Proof.
    unfold ainsert. destruct (aget k m) eqn:E.
    - apply aget_In in E. apply (in_map fst) in E. cbn [fst] in E. intuition congruence.
    - rewrite map_app, in_app_iff. cbn [map fst In]. intuition.
  Qed.
  Lemma keys_ainsert_nodup k b (m : list (nat * B)) :
    NoDup (map fst m) -> NoDup (map fst (ainsert k b m)).
  Proof.
    unfold ainsert. intros ND. destruct (aget k m) eqn:E; [exact ND|].
    apply aget_None in E. rewrite map_app. cbn [map fst].
    apply (Permutation_NoDup (l := k :: map fst m)).
    - rewrite <- Permutation_cons_append. reflexivity.
    - constructor; assumption.
  Qed.

  Lemma vset_Some (l : list B) i b : i < length l -> exists l', vset l i b = Some l'.
  Proof.
    revert i. induction l as [|a l IH]; cbn [length vset]; intros i H; [lia|].
    destruct i; [eauto|]. destruct (IH i ltac:(lia)) as [l' ->]. eauto.
  Qed.
  Lemma vset_spec (l l' : list B) i b : vset l i b = Some l' ->
    i < length l /\ length l' = length l /\
    forall j, nth_error l' j = if Nat.eqb j i then Some b else nth_error l j.
  Proof.
    revert i l'. induction l as [|a l IH]; cbn [vset length]; intros i l' H; [discriminate|].
    destruct i.
    - inversion H; subst. repeat split; [lia|]. intros j. destruct j; reflexivity.
    - destruct (vset l i b) as [r|] eqn:E; [|discriminate]. inversion H; subst.
      destruct (IH i r E) as (H1 & H2 & H3). repeat split; [lia|cbn; lia|].
      intros j. destruct j; [reflexivity|]. cbn [nth_error Nat.eqb]. apply H3.
  Qed.
  Lemma nth_error_lt (l : list B) i b : nth_error l i = Some b -> i < length l.
  Proof. intros H. apply nth_error_Some. congruence. Qed.
  Lemma nth_error_ex (l : list B) i : i < length l -> exists b, nth_error l i = Some b.
  Proof.
    intros H. destruct (nth_error l i) eqn:E; [eauto|]. apply nth_error_None in E. lia.
  Qed.
  Lemma nth_error_repeat_eq (b : B) n i x : nth_error (repeat b n) i = Some x -> x = b.
  Proof. intros H. apply nth_error_In in H. apply repeat_spec in H. exact H. Qed.
End Gen.

Lemma ofold_app {A S} (f : S -> A -> option S) l1 l2 s :
  ofold f (l1 ++ l2) s = match ofold f l1 s with Some s' => ofold f l2 s' | None => None end.
Proof.
  revert s. induction l1 as [|a l1 IH]; intros s; cbn [ofold app]; [reflexivity|].
  destruct (f s a); [apply IH|reflexivity].
Qed.

Lemma ofold_ext {A S} (f g : S -> A -> option S) l : (forall s a, In a l -> f s a = g s a) ->
  forall s, ofold f l s = ofold g l s.
Proof.
  induction l as [|a l IH]; intros H s; cbn [ofold]; [reflexivity|].
  rewrite (H s a) by (left; reflexivity). destruct (g s a); [|reflexivity].
  apply IH. intros; apply H; right; assumption.
Qed.

Lemma ofold_concat {A C S} (f : S -> A -> option S) (h : C -> list A) (l : list C) s :
  ofold f (concat (map h l)) s = ofold (fun s c => ofold f (h c) s) l s.
Proof.
  revert s. induction l as [|c l IH]; intros s; cbn [map concat ofold]; [reflexivity|].
  rewrite ofold_app. destruct (ofold f (h c) s); [apply IH|reflexivity].
Qed.

Lemma ofold_map {A C S} (f : S -> A -> option S) (h : C -> A) (l : list C) s :
  ofold f (map h l) s = ofold (fun s c => f s (h c)) l s.
Proof.
  revert s. induction l as [|c l IH]; intros s; cbn [map ofold]; [reflexivity|].
  destruct (f s (h c)); [apply IH|reflexivity].
Qed.

(* ================= sorting ================= *)
Lemma insert_sorted_perm k l : Permutation (insert_sorted k l) (k :: l).
Proof.
  induction l as [|a l IH]; cbn [insert_sorted]; [reflexivity|].
  destruct (k <=? a); [reflexivity|]. rewrite IH. apply perm_swap.
Qed.
Lemma sort_nat_perm l : Permutation (sort_nat l) l.
Proof.
  induction l as [|a l IH]; cbn [sort_nat]; [reflexivity|].
  rewrite insert_sorted_perm. now constructor.
Qed.
Definition sorted_lt (l : list nat) : Prop :=
  forall i j x y, i < j -> nth_error l i = Some x -> nth_error l j = Some y -> x < y.
Lemma sorted_lt_cons a l : sorted_lt l -> (forall x, In x l -> a < x) -> sorted_lt (a :: l).
Proof.
  intros H Ha i j x y Hij Hx Hy. destruct j; [lia|]. cbn [nth_error] in Hy.
  destruct i; cbn [nth_error] in Hx.
  - inversion Hx; subst. apply Ha. eapply nth_error_In; eauto.
  - apply (H i j x y); [lia|exact Hx|exact Hy].
Qed.
Lemma sorted_lt_inv a l : sorted_lt (a :: l) -> sorted_lt l /\ forall x, In x l -> a < x.
Proof.
  intros H. split.
  - intros i j x y Hij Hx Hy. apply (H (S i) (S j) x y); [lia|exact Hx|exact Hy].
  - intros x Hx. apply In_nth_error in Hx. destruct Hx as [n Hn].
    apply (H 0 (S n) a x); [lia|reflexivity|exact Hn].
Qed.
Lemma insert_sorted_lt k l : sorted_lt l -> ~ In k l -> sorted_lt (insert_sorted k l).
Proof.
  induction l as [|a l IH]; cbn [insert_sorted]; intros H Hn.
  - intros i j x y Hij Hx Hy. destruct j; [lia|]. destruct j; discriminate.
  - apply sorted_lt_inv in H. destruct H as [Hs Ha].
    destruct (Nat.leb_spec k a) as [Hle|Hgt].
    + assert (k < a) by (destruct (Nat.eq_dec k a); [subst; exfalso; apply Hn; left; reflexivity|lia]).
      apply sorted_lt_cons; [apply sorted_lt_cons; assumption|].
      intros x [->|Hx]; [lia|]. specialize (Ha x Hx). lia.
    + apply sorted_lt_cons.
      * apply IH; [exact Hs|]. intros I; apply Hn; right; exact I.
      * intros x Hx. apply (Permutation_in _ (insert_sorted_perm k l)) in Hx.
        destruct Hx as [->|Hx]; auto.
Qed.
Lemma sort_nat_sorted l : NoDup l -> sorted_lt (sort_nat l).
Proof.
  induction l as [|a l IH]; cbn [sort_nat]; intros ND.
  - intros i j x y Hij Hx. destruct i; discriminate.
  - inversion_clear ND as [|? ? Hn ND2]. apply insert_sorted_lt; [auto|].
    intros H. apply (Permutation_in _ (sort_nat_perm l)) in H. contradiction.
Qed.
Lemma sorted_lt_nodup_idx l i j x : sorted_lt l -> nth_error l i = Some x ->
  nth_error l j = Some x -> i = j.
Proof.
  intros H Hi Hj. destruct (Nat.lt_trichotomy i j) as [L|[E|L]]; auto.
  - specialize (H i j x x L Hi Hj). lia.
  - specialize (H j i x x L Hj Hi). lia.
Qed.

(* ================= CreateMatrix ================= *)
Lemma number_col_aget keys : forall pos m k,
  sorted_lt keys ->
  aget k (number_col keys pos m) =
  match find (fun i => Nat.eqb (nth i keys 0) k) (seq 0 (length keys)) with
  | Some i => Some (pos + i) | None => aget k m end.
Proof.
  induction keys as [|a keys IH]; intros pos m k Hs; cbn [number_col length seq find].
  - reflexivity.
  - apply sorted_lt_inv in Hs. destruct Hs as [Hs Ha].
    rewrite IH by exact Hs. change (nth 0 (a :: keys) 0) with a.
    destruct (Nat.eqb_spec a k) as [->|Hne].
    + assert (find (fun i => Nat.eqb (nth i keys 0) k) (seq 0 (length keys)) = None) as ->.
      { destruct (find _ _) as [i|] eqn:E; [|reflexivity]. apply find_some in E.
        destruct E as [Hi E]. apply in_seq in Hi. apply Nat.eqb_eq in E.
        assert (Hlt : i < length keys) by lia.
        specialize (Ha (nth i keys 0) (nth_In keys 0 Hlt)). lia. }
      rewrite aget_aset, Nat.eqb_refl. f_equal. lia.
    + assert (E2 : find (fun i => Nat.eqb (nth i (a :: keys) 0) k) (seq 1 (length keys)) =
         option_map S (find (fun i => Nat.eqb (nth i keys 0) k) (seq 0 (length keys)))).
      { rewrite <- seq_shift. generalize (seq 0 (length keys)) as l. induction l as [|i l IHl];
          [reflexivity|]. cbn [map find]. cbn [nth].
        destruct (Nat.eqb (nth i keys 0) k); [reflexivity|exact IHl]. }
      rewrite E2. destruct (find _ (seq 0 (length keys))) as [i|] eqn:E; cbn [option_map].
      * f_equal. lia.
      * rewrite aget_aset. destruct (Nat.eqb_spec k a); [congruence|reflexivity].
Qed.

Lemma number_col_keys keys : forall pos m, (forall k, In k keys -> In k (map fst m)) ->
  map fst (number_col keys pos m) = map fst m.
Proof.
  induction keys as [|a keys IH]; intros pos m H; cbn [number_col]; [reflexivity|].
  rewrite IH.
  - apply keys_aset_same, H. left; reflexivity.
  - intros k Hk. rewrite keys_aset_in. right. apply H. right; exact Hk.
Qed.

Lemma number_col_spec m pos : NoDup (map fst m) ->
  let keys := sort_nat (map fst m) in
  forall k p, aget k (number_col keys pos m) = Some p <->
    pos <= p /\ nth_error keys (p - pos) = Some k.
Proof.
  intros ND keys k p. pose proof (sort_nat_sorted _ ND) as Hs. fold keys in Hs.
  rewrite number_col_aget by exact Hs.
  destruct (find _ _) as [i|] eqn:E.
  - apply find_some in E. destruct E as [Hi E]. apply in_seq in Hi. apply Nat.eqb_eq in E.
    assert (Hn : nth_error keys i = Some k).
    { rewrite <- E. apply nth_error_nth'. lia. }
    split; intros H.
    + assert (E2 : p = pos + i) by congruence. split; [lia|].
      replace (p - pos) with i by lia. exact Hn.
    + destruct H as [Hle H]. pose proof (sorted_lt_nodup_idx _ _ _ _ Hs Hn H) as Heq. f_equal. lia.
  - assert (Hk : ~ In k keys).
    { intros Hk. apply (In_nth keys k 0) in Hk. destruct Hk as (i & Hi & Hn).
      assert (In i (seq 0 (length keys))) as Hin by (apply in_seq; lia).
      pose proof (find_none _ _ E i Hin) as F. cbv beta in F. rewrite Hn in F.
      rewrite Nat.eqb_refl in F. discriminate. }
    assert (Hm : ~ In k (map fst m)).
    { intros I. apply Hk. apply (Permutation_in _ (Permutation_sym (sort_nat_perm _))). exact I. }
    apply aget_None in Hm. rewrite Hm. split; [discriminate|].
    intros [_ H]. apply nth_error_In in H. contradiction.
Qed.

Lemma create_cols_spec cols : forall r0 ps is ms,
  create_cols cols r0 = (ps, is, ms) ->
  Forall (fun m => NoDup (map fst m)) cols ->
  length ps = S (length cols) /\ length ms = length cols /\
  nth_error ps 0 = Some r0 /\ nth_error ps (length cols) = Some (r0 + length is) /\
  forall c m m', nth_error cols c = Some m -> nth_error ms c = Some m' ->
    map fst m' = map fst m /\
    exists b e, nth_error ps c = Some b /\ nth_error ps (S c) = Some e /\
      r0 <= b /\ b <= e /\ e <= r0 + length is /\
      (forall k p, aget k m' = Some p <-> b <= p < e /\ nth_error is (p - r0) = Some k) /\
      (forall p q x y, b <= p -> p < q -> q < e -> nth_error is (p - r0) = Some x ->
          nth_error is (q - r0) = Some y -> x < y).
Proof.
  induction cols as [|m cols IH]; intros r0 ps is ms H HF; cbn [create_cols] in H.
  - inversion H; subst. cbn [length nth_error]. rewrite Nat.add_0_r.
    split; [reflexivity|]. split; [reflexivity|]. split; [reflexivity|].
    split; [reflexivity|]. intros c m m' Hc. destruct c; discriminate.
  - destruct (create_cols cols (r0 + length (sort_nat (map fst m)))) as [[ps' is'] ms'] eqn:E.
    inversion H; subst. clear H. inversion_clear HF as [|? ? ND HF2].
    destruct (IH _ _ _ _ E HF2) as (L1 & L2 & P0 & PL & HC).
    set (keys := sort_nat (map fst m)) in *.
    cbn [length]. split; [lia|]. split; [lia|]. split; [reflexivity|].
    split; [cbn [nth_error]; rewrite PL, app_length; f_equal; lia|].
    intros c m0 m' H H0. split.
    { (* keys *)
      destruct c; cbn [nth_error] in *.
      - match goal with H : Some _ = Some m' |- _ => inversion H; subst m' end.
        match goal with H : Some _ = Some m0 |- _ => inversion H; subst m0 end.
        apply number_col_keys. intros k Hk. apply (Permutation_in _ (sort_nat_perm _)). exact Hk.
      - eapply HC; eauto. }
    destruct c; cbn [nth_error] in *.
    + match goal with H : Some _ = Some m' |- _ => inversion H; subst m' end.
      match goal with H : Some _ = Some m0 |- _ => inversion H; subst m0 end.
      exists r0, (r0 + length keys). rewrite app_length.
      split; [reflexivity|]. split; [exact P0|].
      split; [lia|]. split; [lia|]. split; [lia|].
      split; [intros k p; split|].
      * intros H1. apply (number_col_spec m r0 ND) in H1. destruct H1 as [Hle Hn].
        pose proof (nth_error_lt _ _ _ Hn) as Hlt. fold keys in Hn, Hlt.
        split; [lia|]. rewrite nth_error_app1; [exact Hn|]. lia.
      * intros (Hb & Hn). apply (number_col_spec m r0 ND). split; [lia|].
        rewrite nth_error_app1 in Hn by (fold keys; lia). exact Hn.
      * intros p q x y Hp Hpq Hq Hx Hy.
        rewrite nth_error_app1 in Hx by lia. rewrite nth_error_app1 in Hy by lia.
        eapply (sort_nat_sorted _ ND (p - r0) (q - r0)); eauto. lia.
    + destruct (HC c m0 m' H H0) as (HK & b & e & Hb & He & B1 & B2 & B3 & HA & HS).
      exists b, e. rewrite app_length.
      split; [exact Hb|]. split; [exact He|].
      split; [lia|]. split; [lia|]. split; [lia|]. split.
      * intros k p. rewrite HA. split; intros [Hr Hn]; (split; [exact Hr|]).
        -- rewrite nth_error_app2 by (fold keys; lia). fold keys.
           replace (p - r0 - length keys) with (p - (r0 + length keys)) by lia. exact Hn.
        -- rewrite nth_error_app2 in Hn by (fold keys; lia). fold keys in Hn.
           replace (p - (r0 + length keys)) with (p - r0 - length keys) by lia. exact Hn.
      * intros p q x y Hp Hpq Hq Hx Hy.
        rewrite nth_error_app2 in Hx by (fold keys; lia).
        rewrite nth_error_app2 in Hy by (fold keys; lia).
        apply (HS p q x y); auto.
        -- rewrite <- Hx. f_equal. fold keys. lia.
        -- rewrite <- Hy. f_equal. fold keys. lia.
Qed.

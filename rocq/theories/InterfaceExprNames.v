(* Names of models and parameters of a region in an expression on an interface: proofs *)
From Coq Require Import Ascii String List Bool Arith Lia.
From Verif Require Import ModelData ModelExpr InterfaceExpr InterfaceExprSpec.
Import ListNotations.
Open Scope string_scope.
Open Scope list_scope.
Open Scope nat_scope.
Local Arguments Nat.ltb : simpl never.
Local Arguments Nat.eqb : simpl never.

Lemma slen_app : forall a b, String.length (String.append a b) = String.length a + String.length b.
Proof. induction a; intros b; cbn; [reflexivity|]. rewrite IHa. reflexivity. Qed.
Lemma sub_all : forall s, substring 0 (String.length s) s = s.
Proof. induction s; cbn; congruence. Qed.
Lemma sub_split : forall s k, k <= String.length s -> String.append (substring 0 k s) (substring k (String.length s - k) s) = s.
Proof.
  induction s as [|c s IH]; intros k H; cbn in H.
  - assert (k = 0) as -> by lia. reflexivity.
  - destruct k as [|k]; [cbn; rewrite sub_all; reflexivity|]. cbn. rewrite IH by lia. reflexivity.
Qed.
Lemma sub_app_l : forall a b, substring 0 (String.length a) (String.append a b) = a.
Proof. induction a; intros b; cbn; [destruct b; reflexivity|]. rewrite IHa. reflexivity. Qed.
Lemma sub_app_r : forall a b, substring (String.length a) (String.length b) (String.append a b) = b.
Proof. induction a; intros b; cbn; [apply sub_all|]. apply IHa. Qed.
Lemma sub_len : forall s i k, String.length (substring i k s) <= String.length s - i.
Proof.
  induction s as [|c s IH]; intros i k; [destruct i, k; cbn; lia|]. destruct i as [|i].
  - destruct k as [|k]; cbn; [lia|]. specialize (IH 0 k). lia.
  - cbn [substring String.length]. specialize (IH i k). lia.
Qed.
Lemma find_last : forall (p : nat -> bool) n, match List.find p (rev (seq 0 n)) with
  | Some i => i < n /\ p i = true /\ (forall j, i < j < n -> p j = false)
  | None => forall j, j < n -> p j = false
  end.
Proof.
  intros p. induction n as [|n IH]; [cbn; intros j H; lia|]. rewrite seq_S. rewrite rev_app_distr. cbn [rev app List.find plus].
  destruct (p n) eqn:P.
  - split; [lia|]. split; [exact P|]. intros j H. lia.
  - destruct (List.find p (rev (seq 0 n))) as [i|].
    + destruct IH as (A & B & C). split; [lia|]. split; [exact B|]. intros j H. destruct (Nat.eq_dec j n) as [->|]; [exact P|]. apply C. lia.
    + intros j H. destruct (Nat.eq_dec j n) as [->|]; [exact P|]. apply IH. lia.
Qed.
Lemma rfind_at : forall pat s, String.length pat = 3 -> 3 < String.length s ->
  at_pos (rfind pat s) (String.length s - 3) = String.eqb (substring (String.length s - 3) 3 s) pat.
Proof.
  intros pat s L Hs. unfold rfind. rewrite L. set (p := fun i => String.eqb (substring i 3 s) pat).
  assert (F := find_last p (S (String.length s))). fold (p (String.length s - 3)).
  assert (N : forall j, String.length s - 3 < j -> p j = false).
  { intros j Hj. unfold p. apply String.eqb_neq. intros E. assert (Q := sub_len s j 3). rewrite E, L in Q. lia. }
  destruct (List.find p (rev (seq 0 (S (String.length s))))) as [i|]; cbn [at_pos].
  - destruct F as (A & B & C). destruct (Nat.eqb_spec i (String.length s - 3)) as [->|Ne]; [symmetry; exact B|].
    symmetry. destruct (Nat.lt_ge_cases (String.length s - 3) i) as [G|G]; [rewrite N in B by lia; discriminate|]. apply C. lia.
  - symmetry. apply F. lia.
Qed.
Lemma rfind_end : forall pat s, String.length pat = 3 -> at_pos (rfind pat s) (String.length s) = false.
Proof.
  intros pat s L. unfold rfind. rewrite L. assert (F := find_last (fun i => String.eqb (substring i 3 s) pat) (S (String.length s))).
  destruct (List.find _ _) as [i|]; [|reflexivity]. destruct F as (A & B & C). cbn. apply Nat.eqb_neq. intros ->.
  apply String.eqb_eq in B. assert (Q := sub_len s (String.length s) 3). rewrite B, L in Q. lia.
Qed.
Lemma suffix_inv : forall x y a b, String.length a = String.length b -> String.append x a = String.append y b -> x = y /\ a = b.
Proof.
  induction x as [|c x IH]; intros y a b L E.
  - destruct y as [|d y]; [auto|]. exfalso. cbn in E. apply (f_equal String.length) in E. cbn in E. rewrite slen_app in E. lia.
  - destruct y as [|d y].
    + exfalso. cbn in E. apply (f_equal String.length) in E. cbn in E. rewrite slen_app in E. lia.
    + cbn in E. inversion E as [[H1 H2]]. destruct (IH y a b L H2) as [-> ->]. auto.
Qed.
Definition tag (i : bool) : string := if i then "@r1" else "@r0".
Lemma region_name_iff : forall nm i x, region_and_name nm = Some (i, x) <-> of_region i x nm.
Proof.
  intros nm i x. unfold region_and_name, of_region. fold (tag i).
  assert (Lt : forall j, String.length (tag j) = 3) by (intros []; reflexivity).
  destruct (Nat.ltb_spec 3 (String.length nm)) as [H|H].
  - rewrite !rfind_at by (try reflexivity; exact H).
    assert (Sp : String.append (substring 0 (String.length nm - 3) nm) (substring (String.length nm - 3) 3 nm) = nm).
    { assert (Q := sub_split nm (String.length nm - 3)). replace (String.length nm - (String.length nm - 3)) with 3 in Q by lia. apply Q. lia. }
    assert (Ne : substring 0 (String.length nm - 3) nm <> "").
    { destruct nm as [|c nm]; [cbn in H; lia|]. intros E. cbn [String.length] in H, E. replace (S (String.length nm) - 3) with (S (String.length nm - 3)) in E by lia. discriminate. }
    destruct (String.eqb_spec (substring (String.length nm - 3) 3 nm) "@r0") as [E0|N0].
    + split.
      * intros E. inversion E; subst i x. split; [exact Ne|]. cbn [tag]. rewrite <- E0. symmetry. exact Sp.
      * intros [X1 X2]. assert (Sq := eq_trans Sp X2). rewrite E0 in Sq. destruct (suffix_inv _ _ _ _ (eq_sym (Lt i) : String.length "@r0" = String.length (tag i)) Sq) as [A B].
        rewrite A. destruct i; [discriminate|reflexivity].
    + destruct (String.eqb_spec (substring (String.length nm - 3) 3 nm) "@r1") as [E1|N1].
      * split.
        -- intros E. inversion E; subst i x. split; [exact Ne|]. cbn [tag]. rewrite <- E1. symmetry. exact Sp.
        -- intros [X1 X2]. assert (Sq := eq_trans Sp X2). rewrite E1 in Sq. destruct (suffix_inv _ _ _ _ (eq_sym (Lt i) : String.length "@r1" = String.length (tag i)) Sq) as [A B].
           rewrite A. destruct i; [reflexivity|discriminate].
      * split; [discriminate|]. intros [X1 X2]. exfalso. assert (Sq := eq_trans Sp X2).
        assert (L3 : String.length (substring (String.length nm - 3) 3 nm) = String.length (tag i)).
        { rewrite Lt. assert (Q := f_equal String.length X2). rewrite slen_app, Lt in Q. rewrite X2. rewrite slen_app, Lt.
          replace (String.length x + 3 - 3) with (String.length x) by lia. rewrite <- (Lt i) at 1. rewrite sub_app_r. apply Lt. }
        destruct (suffix_inv _ _ _ _ L3 Sq) as [A B]. destruct i; cbn in B; contradiction.
  - rewrite !rfind_end by reflexivity. split; [discriminate|]. intros [X1 X2]. exfalso. apply (f_equal String.length) in X2. rewrite slen_app, Lt in X2.
    destruct x; [contradiction|]. cbn in X2. lia.
Qed.
Lemma region_name_none : forall nm, region_and_name nm = None <-> plain nm.
Proof.
  intros nm. split.
  - intros E i x H. apply region_name_iff in H. congruence.
  - intros P. destruct (region_and_name nm) as [[i x]|] eqn:E; [|reflexivity]. apply region_name_iff in E. exfalso. exact (P i x E).
Qed.

From Coq Require Import List Arith Bool Lia Permutation.
From Coq Require Import ZifyBool ZifyNat.
From Verif Require Import CMatrix CMatrixProofs.
Import ListNotations.

Section Inv.
  Variable V : Type.
  Variable zero : V.
  Variable add : V -> V -> V.
  Variable iszero : V -> bool.
  (* Laws of the scalars.  They hold for IEEE arithmetic with round to nearest
     (the third because x + y is never -0 unless both are), not only for R. *)
  Hypothesis iszero_zero : iszero zero = true.
  Hypothesis add_zero : forall v, iszero v = false -> add zero v = v.
  Hypothesis add_canon : forall a v, iszero v = false -> iszero (add a v) = true -> add a v = zero.

  Notation mat := (mat V).
  Notation add_impl := (add_impl V zero add iszero).
  Notation add_oob := (add_oob V zero add).
  Notation add_ax := (add_ax V add).
  Notation add_uncompressed := (add_uncompressed V zero add iszero).

  (* abstract state, in the coordinates used by the Impl functions *)
  Record abs := { aval : bool -> nat -> nat -> V; apat : nat -> nat -> bool }.

  Definition key_eqb (ch : bool) (r c : nat) (ch' : bool) (r' c' : nat) : bool :=
    Bool.eqb ch ch' && Nat.eqb r r' && Nat.eqb c c'.
  Lemma key_eqb_spec ch r c ch' r' c' :
    reflect (ch = ch' /\ r = r' /\ c = c') (key_eqb ch r c ch' r' c').
  Proof.
    unfold key_eqb.
    destruct (Bool.eqb_spec ch ch'), (Nat.eqb_spec r r'), (Nat.eqb_spec c c'); simpl;
      constructor; tauto.
  Qed.

  Definition entry : Type := bool * nat * nat * V.
  Definition astep (A : abs) (e : entry) : abs :=
    match e with (ch, r, c, v) =>
      if iszero v then A else
      {| aval := fun ch' r' c' => if key_eqb ch r c ch' r' c' then add (aval A ch r c) v
                                  else aval A ch' r' c';
         apat := fun r' c' => (Nat.eqb r r' && Nat.eqb c c') || apat A r' c' |}
    end.

  Record Common (n : nat) (cx : bool) (A : abs) (s : mat) : Prop := {
    c_size : msize V s = n;
    c_cx : cplx V s = cx;
    c_symlen : length (sym V s) = n;
    c_nodup : forall c col, nth_error (sym V s) c = Some col -> NoDup (map fst col);
    c_keys : forall c col, nth_error (sym V s) c = Some col ->
      forall r, In r (map fst col) <-> apat A r c = true;
    c_pat : forall r c, apat A r c = true -> r < n /\ c < n;
    c_zero : forall ch r c, apat A r c = false -> aval A ch r c = zero;
    c_canon : forall ch r c, iszero (aval A ch r c) = true -> aval A ch r c = zero;
    c_real : cx = false -> oob V s true = [] /\ ax V s true = [] /\
                           forall r c, aval A true r c = zero
  }.

  Definition chok (cx ch : bool) : Prop := ch = true -> cx = true.

  Record Cmp (n : nat) (cx : bool) (A : abs) (s : mat) : Prop := {
    k_aplen : length (ap V s) = S n;
    k_first : nth_error (ap V s) 0 = Some 0;
    k_last : nth_error (ap V s) n = Some (length (ai V s));
    k_lay : forall c col, nth_error (sym V s) c = Some col ->
      exists b e, nth_error (ap V s) c = Some b /\ nth_error (ap V s) (S c) = Some e /\
        b <= e /\ e <= length (ai V s) /\
        (forall r p, aget r col = Some p <-> b <= p < e /\ nth_error (ai V s) p = Some r) /\
        (forall p q x y, b <= p -> p < q -> q < e -> nth_error (ai V s) p = Some x ->
            nth_error (ai V s) q = Some y -> x < y);
    k_axlen : forall ch, chok cx ch -> length (ax V s ch) = length (ai V s);
    k_val : forall ch c col r p, chok cx ch -> nth_error (sym V s) c = Some col ->
      aget r col = Some p -> nth_error (ax V s ch) p = Some (aval A ch r c)
  }.

  Record Unc (A : abs) (s : mat) : Prop := {
    u_nodup : forall ch r row, nth_error (oob V s ch) r = Some row -> NoDup (map fst row);
    u_oob : forall ch r row, nth_error (oob V s ch) r = Some row ->
      forall c, match aget c row with
                | Some v => v = aval A ch r c /\ apat A r c = true
                | None => aval A ch r c = zero end;
    u_beyond : forall ch r c, length (oob V s ch) <= r -> aval A ch r c = zero
  }.

  Definition OobEmpty (s : mat) : Prop := forall ch row, In row (oob V s ch) -> row = [].

  Definition Inv n cx A s : Prop :=
    Common n cx A s /\ (if compressed V s then Cmp n cx A s /\ OobEmpty s
                        else Unc A s /\ forall ch, ax V s ch = []).

  (* positions are unique *)
  Lemma ap_mono n cx A s : length (sym V s) = n -> Cmp n cx A s ->
    forall c c' b b', c <= c' -> nth_error (ap V s) c = Some b ->
      nth_error (ap V s) c' = Some b' -> b <= b'.
  Proof.
    intros Hl K c c' b b' Hle. revert b b'.
    induction Hle as [|c' Hle IH]; intros b b' Hb Hb'.
    - assert (b = b') by congruence. lia.
    - assert (S c' < S n) as Hlt.
      { apply nth_error_lt in Hb'. rewrite (k_aplen _ _ _ _ K) in Hb'. exact Hb'. }
      destruct (nth_error_ex (sym V s) c') as [col Hcol]; [lia|].
      destruct (k_lay _ _ _ _ K c' col Hcol) as (b1 & e1 & E1 & E2 & L1 & _).
      specialize (IH b b1 Hb E1). assert (e1 = b') by congruence. lia.
  Qed.

  Lemma pos_inj n cx A s : length (sym V s) = n -> Cmp n cx A s ->
    forall c c' col col' r r' p,
    nth_error (sym V s) c = Some col -> nth_error (sym V s) c' = Some col' ->
    aget r col = Some p -> aget r' col' = Some p -> r = r' /\ c = c'.
  Proof.
    intros Hl K c c' col col' r r' p Hc Hc' Hr Hr'.
    destruct (k_lay _ _ _ _ K c col Hc) as (b & e & B1 & B2 & L1 & L2 & LA & _).
    destruct (k_lay _ _ _ _ K c' col' Hc') as (b' & e' & B1' & B2' & L1' & L2' & LA' & _).
    apply LA in Hr. apply LA' in Hr'. destruct Hr as [R Hr]. destruct Hr' as [R' Hr'].
    split; [congruence|].
    destruct (Nat.lt_trichotomy c c') as [L|[E|L]]; auto; exfalso.
    - pose proof (ap_mono n cx A s Hl K (S c) c' e b' L B2 B1'). lia.
    - pose proof (ap_mono n cx A s Hl K (S c') c e' b L B2' B1). lia.
  Qed.

  (* adding to a stored position of a compressed matrix *)
  Lemma astep_common_in n cx A s s' ch r c v :
    Common n cx A s -> iszero v = false -> apat A r c = true -> chok cx ch ->
    msize V s' = msize V s -> cplx V s' = cplx V s -> sym V s' = sym V s ->
    (cx = false -> oob V s' true = [] /\ ax V s' true = []) ->
    Common n cx (astep A (ch, r, c, v)) s'.
  Proof.
    intros C Hv Hp Hch E1 E2 E3 E4. cbn [astep]. rewrite Hv.
    constructor; cbn [aval apat]; try rewrite E1; try rewrite E2; try rewrite E3.
    - apply C.
    - apply C.
    - apply C.
    - apply C.
    - intros c0 col Hc0 r0. rewrite (c_keys _ _ _ _ C c0 col Hc0 r0).
      destruct (Nat.eqb_spec r r0) as [->|]; destruct (Nat.eqb_spec c c0) as [->|]; cbn; try tauto.
    - intros r0 c0 H. apply (c_pat _ _ _ _ C).
      destruct (Nat.eqb_spec r r0) as [->|]; destruct (Nat.eqb_spec c c0) as [->|]; cbn in H; auto.
    - intros ch0 r0 c0 H. destruct (key_eqb_spec ch r c ch0 r0 c0) as [(-> & -> & ->)|].
      + rewrite !Nat.eqb_refl in H. discriminate.
      + apply (c_zero _ _ _ _ C). apply orb_false_iff in H. tauto.
    - intros ch0 r0 c0 H. destruct (key_eqb_spec ch r c ch0 r0 c0) as [(-> & -> & ->)|].
      + apply add_canon; assumption.
      + apply (c_canon _ _ _ _ C). exact H.
    - intros Hcx. destruct (E4 Hcx) as [? ?]. split; [assumption|]. split; [assumption|].
      intros r0 c0. destruct (key_eqb_spec ch r c true r0 c0) as [(Ec & -> & ->)|].
      + exfalso. specialize (Hch Ec). congruence.
      + apply (c_real _ _ _ _ C Hcx).
  Qed.

  Lemma upd_same {B} (f : bool -> B) ch b : upd f ch b ch = b.
  Proof. unfold upd. now rewrite Bool.eqb_reflx. Qed.
  Lemma upd_other {B} (f : bool -> B) ch ch' b : ch' <> ch -> upd f ch b ch' = f ch'.
  Proof. unfold upd. intros H. destruct (Bool.eqb_spec ch' ch); congruence. Qed.

  Lemma add_ax_ok n cx A s ch r c v col p :
    Common n cx A s -> Cmp n cx A s -> iszero v = false -> chok cx ch ->
    nth_error (sym V s) c = Some col -> aget r col = Some p ->
    exists s', add_ax ch s p v = Some s' /\ Common n cx (astep A (ch, r, c, v)) s' /\
       Cmp n cx (astep A (ch, r, c, v)) s' /\ oob V s' = oob V s /\
       compressed V s' = compressed V s /\ ap V s' = ap V s /\ ai V s' = ai V s /\
       sym V s' = sym V s /\ msize V s' = msize V s /\ crm V s' = crm V s
       /\ new_symbolic V s' = new_symbolic V s /\ cplx V s' = cplx V s.
  Proof.
    intros C K Hv Hch Hcol Hp. unfold CMatrix.add_ax.
    pose proof (k_val _ _ _ _ K ch c col r p Hch Hcol Hp) as Hval. rewrite Hval.
    destruct (vset_Some (ax V s ch) p (add (aval A ch r c) v)) as [x Hx].
    { eapply nth_error_lt; eauto. }
    rewrite Hx. eexists. split; [reflexivity|].
    apply vset_spec in Hx. destruct Hx as (Hlt & Hlen & Hnth).
    assert (Hpat : apat A r c = true).
    { apply (c_keys _ _ _ _ C c col Hcol). apply aget_In in Hp.
      apply (in_map fst) in Hp. exact Hp. }
    split; [|split; [|repeat split]].
    - apply (astep_common_in n cx A s); auto; cbn.
      intros Hcx. destruct (c_real _ _ _ _ C Hcx) as (O1 & O2 & _). split; [exact O1|].
      destruct ch; [specialize (Hch eq_refl); congruence|]. exact O2.
    - constructor; cbn.
      + apply K.
      + apply K.
      + apply K.
      + apply K.
      + intros ch0 H0. unfold upd. destruct (Bool.eqb_spec ch0 ch) as [->|]; [|apply K; exact H0].
        rewrite Hlen. apply K. exact H0.
      + intros ch0 c0 col0 r0 p0 H0 Hc0 Hp0. rewrite Hv. cbn [aval].
        unfold upd. destruct (key_eqb_spec ch r c ch0 r0 c0) as [(-> & -> & ->)|Hne].
        * rewrite Bool.eqb_reflx. rewrite Hnth.
          assert (p0 = p) by congruence. subst. now rewrite Nat.eqb_refl.
        * destruct (Bool.eqb_spec ch0 ch) as [->|].
          -- rewrite Hnth. destruct (Nat.eqb_spec p0 p) as [->|].
             ++ exfalso. apply Hne.
                destruct (pos_inj n cx A s (c_symlen _ _ _ _ C) K _ _ _ _ _ _ _ Hcol Hc0 Hp Hp0).
                auto.
             ++ eapply k_val; eauto.
          -- eapply k_val; eauto.
  Qed.

  (* adding an out of band entry *)
  Lemma add_oob_ok n cx A s s' ch r c v :
    Common n cx A s -> Unc A s -> iszero v = false -> r < n -> c < n ->
    add_oob ch s r c v = Some s' ->
    Common n cx (astep A (ch, r, c, v)) s' /\ Unc (astep A (ch, r, c, v)) s' /\
    compressed V s' = compressed V s /\ length (oob V s' ch) = length (oob V s ch) /\
    (forall ch', ch' <> ch -> oob V s' ch' = oob V s ch') /\
    crm V s' = crm V s /\ new_symbolic V s' = new_symbolic V s /\ ax V s' = ax V s
    /\ ap V s' = ap V s /\ ai V s' = ai V s.
  Proof.
    intros C U Hv Hr Hc H. unfold CMatrix.add_oob in H.
    destruct (nth_error (sym V s) c) as [col|] eqn:Ecol; [|discriminate].
    destruct (nth_error (oob V s ch) r) as [row|] eqn:Erow; [|discriminate].
    destruct (vset (sym V s) c (ainsert r 0 col)) as [sym'|] eqn:Esym; [|discriminate].
    destruct (vset (oob V s ch) r _) as [oob'|] eqn:Eoob; [|discriminate].
    inversion H; subst s'; clear H.
    apply vset_spec in Esym. destruct Esym as (S1 & S2 & S3).
    apply vset_spec in Eoob. destruct Eoob as (O1 & O2 & O3).
    assert (Hch : chok cx ch).
    { intros ->. destruct cx eqn:Ecx; [reflexivity|].
      destruct (c_real _ _ _ _ C eq_refl) as (O & _ & _). rewrite O in Erow.
      destruct r; discriminate. }
    pose proof (u_oob _ _ U ch r row Erow c) as Hrow.
    assert (Hold : (match aget c row with Some x => x | None => zero end) = aval A ch r c).
    { destruct (aget c row); [apply Hrow|congruence]. }
    rewrite Hold in O3.
    split; [|split; [|repeat split]].
    - cbn [astep]. rewrite Hv. constructor; cbn.
      + apply C.
      + apply C.
      + rewrite S2. apply C.
      + intros c0 col0 H0. rewrite S3 in H0. destruct (Nat.eqb_spec c0 c) as [->|].
        * inversion H0; subst. apply keys_ainsert_nodup. eapply c_nodup; eauto.
        * eapply c_nodup; eauto.
      + intros c0 col0 H0 r0. rewrite S3 in H0. destruct (Nat.eqb_spec c0 c) as [->|Hne].
        * inversion H0; subst. rewrite keys_ainsert, (c_keys _ _ _ _ C c col Ecol r0).
          rewrite Nat.eqb_refl, andb_true_r. destruct (Nat.eqb_spec r r0); cbn; intuition congruence.
        * rewrite (c_keys _ _ _ _ C c0 col0 H0 r0).
          destruct (Nat.eqb_spec c c0); [congruence|]. rewrite andb_false_r. tauto.
      + intros r0 c0 H0. destruct (Nat.eqb_spec r r0) as [->|]; destruct (Nat.eqb_spec c c0) as [->|];
          cbn in H0; auto; apply (c_pat _ _ _ _ C); exact H0.
      + intros ch0 r0 c0 H0. destruct (key_eqb_spec ch r c ch0 r0 c0) as [(-> & -> & ->)|].
        * rewrite !Nat.eqb_refl in H0. discriminate.
        * apply (c_zero _ _ _ _ C). apply orb_false_iff in H0. tauto.
      + intros ch0 r0 c0 H0. destruct (key_eqb_spec ch r c ch0 r0 c0) as [(-> & -> & ->)|].
        * apply add_canon; assumption.
        * apply (c_canon _ _ _ _ C). exact H0.
      + intros Hcx. destruct (c_real _ _ _ _ C Hcx) as (R1 & R2 & R3).
        destruct ch; [specialize (Hch eq_refl); congruence|].
        split; [exact R1|]. split; [exact R2|]. intros r0 c0. apply R3.
    - cbn [astep]. rewrite Hv. constructor; cbn.
      + intros ch0 r0 row0 H0. unfold upd in H0. destruct (Bool.eqb_spec ch0 ch) as [->|].
        * rewrite O3 in H0. destruct (Nat.eqb_spec r0 r) as [->|].
          -- inversion H0; subst. apply keys_aset_nodup. eapply u_nodup; eauto.
          -- eapply u_nodup; eauto.
        * eapply u_nodup; eauto.
      + intros ch0 r0 row0 H0 c0. unfold upd in H0. destruct (Bool.eqb_spec ch0 ch) as [->|Hne].
        * rewrite O3 in H0. destruct (Nat.eqb_spec r0 r) as [->|Hne].
          -- inversion H0; subst. rewrite aget_aset. destruct (Nat.eqb_spec c0 c) as [->|Hne].
             ++ destruct (key_eqb_spec ch r c ch r c) as [_|N]; [|tauto].
                rewrite !Nat.eqb_refl. auto.
             ++ destruct (key_eqb_spec ch r c ch r c0) as [(_ & _ & E)|_]; [congruence|].
                pose proof (u_oob _ _ U ch r row Erow c0) as HH.
                destruct (aget c0 row); [|exact HH]. destruct HH as [? ->].
                rewrite orb_true_r. auto.
          -- destruct (key_eqb_spec ch r c ch r0 c0) as [(_ & E & _)|_]; [congruence|].
             pose proof (u_oob _ _ U ch r0 row0 H0 c0) as HH.
             destruct (aget c0 row0); [|exact HH]. destruct HH as [? ->].
             rewrite orb_true_r. auto.
        * destruct (key_eqb_spec ch r c ch0 r0 c0) as [(E & _ & _)|_]; [congruence|].
          pose proof (u_oob _ _ U ch0 r0 row0 H0 c0) as HH.
          destruct (aget c0 row0); [|exact HH]. destruct HH as [? ->].
          rewrite orb_true_r. auto.
      + intros ch0 r0 c0 H0. unfold upd in H0.
        destruct (key_eqb_spec ch r c ch0 r0 c0) as [(-> & -> & ->)|_].
        * rewrite Bool.eqb_reflx in H0. lia.
        * apply (u_beyond _ _ U). destruct (Bool.eqb_spec ch0 ch) as [->|]; lia.
    - cbn. rewrite upd_same. exact O2.
    - cbn. intros ch' Hne. apply upd_other. exact Hne.
  Qed.

  Lemma add_oob_total n cx A s ch r c v : Common n cx A s -> c < n ->
    r < length (oob V s ch) -> exists s', add_oob ch s r c v = Some s'.
  Proof.
    intros C Hc Hr. unfold CMatrix.add_oob.
    destruct (nth_error_ex (sym V s) c) as [col ->]; [rewrite (c_symlen _ _ _ _ C); exact Hc|].
    destruct (nth_error_ex (oob V s ch) r Hr) as [row ->].
    destruct (vset_Some (sym V s) c (ainsert r 0 col)) as [x ->];
      [rewrite (c_symlen _ _ _ _ C); exact Hc|].
    match goal with |- context [vset (oob V s ch) r ?b] =>
      destruct (vset_Some (oob V s ch) r b Hr) as [y ->] end. eauto.
  Qed.

  (* ---- lists of entries with distinct keys ---- *)
  Definition ekey (e : entry) : bool * nat * nat := fst e.

  Definition azero (A : abs) : abs := {| aval := fun _ _ _ => zero; apat := apat A |}.

  Lemma fold_astep_notin l : forall A ch r c,
    ~ In (ch, r, c) (map ekey l) -> aval (fold_left astep l A) ch r c = aval A ch r c.
  Proof.
    induction l as [|[[[ch0 r0] c0] v0] l IH]; intros A ch r c H; cbn [fold_left]; [reflexivity|].
    cbn [map ekey fst In] in H. rewrite IH by tauto.
    cbn [astep]. destruct (iszero v0); [reflexivity|]. cbn [aval].
    destruct (key_eqb_spec ch0 r0 c0 ch r c) as [(-> & -> & ->)|]; [|reflexivity].
    exfalso. apply H. left; reflexivity.
  Qed.

  Lemma fold_astep_in l : forall A ch r c v,
    NoDup (map ekey l) -> In (ch, r, c, v) l -> aval A ch r c = zero ->
    (iszero v = true -> v = zero) ->
    aval (fold_left astep l A) ch r c = v.
  Proof.
    induction l as [|[[[ch0 r0] c0] v0] l IH]; intros A ch r c v ND H Hz Hv; [destruct H|].
    cbn [fold_left]. cbn [map ekey fst] in ND. inversion_clear ND as [|? ? Hn ND2].
    destruct H as [E|H].
    - inversion E; subst ch0 r0 c0 v0. rewrite fold_astep_notin by exact Hn.
      cbn [astep]. destruct (iszero v) eqn:Ez; [rewrite Hz; symmetry; auto|].
      cbn [aval]. destruct (key_eqb_spec ch r c ch r c) as [_|N]; [|tauto].
      rewrite Hz. apply add_zero. exact Ez.
    - apply IH; auto. cbn [astep]. destruct (iszero v0); [exact Hz|]. cbn [aval].
      destruct (key_eqb_spec ch0 r0 c0 ch r c) as [(-> & -> & ->)|]; [|exact Hz].
      exfalso. apply Hn. apply (in_map ekey) in H. exact H.
  Qed.

  Lemma fold_astep_pat l : forall A r c,
    (forall ch r0 c0 v, In (ch, r0, c0, v) l -> apat A r0 c0 = true) ->
    apat (fold_left astep l A) r c = apat A r c.
  Proof.
    induction l as [|[[[ch0 r0] c0] v0] l IH]; intros A r c H; cbn [fold_left]; [reflexivity|].
    assert (Hp : forall r1 c1, apat (astep A (ch0, r0, c0, v0)) r1 c1 = apat A r1 c1).
    { intros r1 c1. cbn [astep]. destruct (iszero v0); [reflexivity|]. cbn [apat].
      destruct (Nat.eqb_spec r0 r1) as [<-|]; destruct (Nat.eqb_spec c0 c1) as [<-|];
        cbn; try reflexivity.
      symmetry. apply (H ch0 r0 c0 v0). left; reflexivity. }
    rewrite IH; [apply Hp|].
    intros. rewrite Hp. eapply H. right; eauto.
  Qed.

  (* the invariants only look at the abstract state pointwise *)
  Definition aeq (A B : abs) : Prop :=
    (forall ch r c, aval A ch r c = aval B ch r c) /\ (forall r c, apat A r c = apat B r c).

  Lemma Common_aeq n cx A B s : aeq A B -> Common n cx A s -> Common n cx B s.
  Proof.
    intros [E1 E2] C. constructor; try apply C.
    - intros c col H r. rewrite <- E2. eapply c_keys; eauto.
    - intros r c. rewrite <- E2. apply C.
    - intros ch r c. rewrite <- E1, <- E2. apply C.
    - intros ch r c. rewrite <- E1. apply C.
    - intros H. destruct (c_real _ _ _ _ C H) as (? & ? & H3). repeat split; auto.
      intros r c. rewrite <- E1. apply H3.
  Qed.
  Lemma Cmp_aeq n cx A B s : aeq A B -> Cmp n cx A s -> Cmp n cx B s.
  Proof.
    intros [E1 E2] C. constructor; try apply C.
    intros. rewrite <- E1. eapply k_val; eauto.
  Qed.
  Lemma Unc_aeq A B s : aeq A B -> Unc A s -> Unc B s.
  Proof.
    intros [E1 E2] C. constructor; try apply C.
    - intros ch r row H c. pose proof (u_oob _ _ C ch r row H c) as HH.
      rewrite <- E1, <- E2. exact HH.
    - intros. rewrite <- E1. eapply u_beyond; eauto.
  Qed.
  Lemma Inv_aeq n cx A B s : aeq A B -> Inv n cx A s -> Inv n cx B s.
  Proof.
    intros E [C H]. split; [eapply Common_aeq; eauto|].
    destruct (compressed V s).
    - destruct H. split; [eapply Cmp_aeq; eauto|assumption].
    - destruct H. split; [eapply Unc_aeq; eauto|assumption].
  Qed.

  (* ---- flush ---- *)
  Definition rowentries (ch : bool) (rows : list (list (nat * V))) : list entry :=
    concat (map (fun p : nat * list (nat * V) =>
        map (fun e : nat * V => (ch, fst p, fst e, snd e)) (snd p))
      (combine (seq 0 (length rows)) rows)).

  Definition add_entry4 (s : mat) (e : entry) : option mat :=
    match e with (ch, r, c, v) => add_impl ch s r c v end.

  Lemma flush_entries ch s :
    flush V zero add iszero ch s = ofold add_entry4 (rowentries ch (oob V s ch)) s.
  Proof.
    unfold flush, rowentries. rewrite ofold_concat. apply ofold_ext.
    intros s0 p _. rewrite ofold_map. reflexivity.
  Qed.

  Lemma in_combine_seq {B} (l : list B) : forall k i b,
    In (i, b) (combine (seq k (length l)) l) <-> k <= i /\ nth_error l (i - k) = Some b.
  Proof.
    induction l as [|a l IH]; intros k i b; cbn [length seq combine In].
    - split; [tauto|]. intros [_ H]. destruct (i - k); discriminate.
    - rewrite IH. split.
      + intros [E|[H1 H2]].
        * inversion E; subst. rewrite Nat.sub_diag. split; [lia|reflexivity].
        * split; [lia|]. replace (i - k) with (S (i - S k)) by lia. exact H2.
      + intros [H1 H2]. destruct (Nat.eq_dec i k) as [->|].
        * rewrite Nat.sub_diag in H2. left. cbn in H2. congruence.
        * right. split; [lia|]. replace (i - k) with (S (i - S k)) in H2 by lia. exact H2.
  Qed.

  Lemma in_rowentries ch rows ch0 r c v :
    In (ch0, r, c, v) (rowentries ch rows) <->
    ch0 = ch /\ exists row, nth_error rows r = Some row /\ In (c, v) row.
  Proof.
    unfold rowentries. rewrite in_concat. split.
    - intros (l & Hl & H). apply in_map_iff in Hl. destruct Hl as ([i row] & <- & Hi).
      apply in_map_iff in H. destruct H as ([c1 v1] & E & H).
      cbn [fst snd] in *. inversion E; subst. split; [reflexivity|].
      apply in_combine_seq in Hi. destruct Hi as [_ Hi]. rewrite Nat.sub_0_r in Hi. eauto.
    - intros (-> & row & Hr & H).
      exists (map (fun e : nat * V => (ch, r, fst e, snd e)) row). split.
      + apply in_map_iff. exists (r, row). split; [reflexivity|].
        apply in_combine_seq. rewrite Nat.sub_0_r. split; [lia|exact Hr].
      + apply in_map_iff. exists (c, v). auto.
  Qed.

  Lemma nodup_app {B} (l1 l2 : list B) : NoDup l1 -> NoDup l2 ->
    (forall x, In x l1 -> ~ In x l2) -> NoDup (l1 ++ l2).
  Proof.
    induction l1 as [|a l1 IH]; cbn [app]; intros N1 N2 H; [exact N2|].
    inversion_clear N1 as [|? ? Hn N3]. constructor.
    - rewrite in_app_iff. intros [I|I]; [contradiction|]. apply (H a); [left; reflexivity|exact I].
    - apply IH; auto. intros x Hx. apply H. right; exact Hx.
  Qed.

  Lemma nodup_rowentries ch rows :
    (forall r row, nth_error rows r = Some row -> NoDup (map fst row)) ->
    NoDup (map ekey (rowentries ch rows)).
  Proof.
    unfold rowentries. generalize 0 as k. induction rows as [|row rows IH]; intros k H.
    - constructor.
    - cbn [length seq combine map concat]. rewrite map_app. apply nodup_app.
      + rewrite map_map. cbn [ekey fst snd].
        assert (NoDup (map fst row)) as ND by (apply (H 0); reflexivity).
        clear H IH. induction row as [|[c v] row IH]; cbn [map]; [constructor|].
        cbn [map fst] in ND. inversion_clear ND as [|? ? Hn ND2].
        constructor; [|auto]. intros I. apply in_map_iff in I.
        destruct I as ([c' v'] & E & I). cbn [fst] in E. inversion E; subst.
        apply Hn. apply (in_map fst) in I. exact I.
      + apply IH. intros r row0 Hr. apply (H (S r)). exact Hr.
      + intros [[ch0 r0] c0] I1 I2. rewrite map_map in I1. apply in_map_iff in I1.
        destruct I1 as ([c1 v1] & E1 & _). cbn [ekey fst] in E1. inversion E1; subst.
        apply in_map_iff in I2. destruct I2 as ([[[ch2 r2] c2] v2] & E2 & I2).
        cbn [ekey fst] in E2. inversion E2; subst.
        apply in_concat in I2. destruct I2 as (l & Hl & Hin).
        apply in_map_iff in Hl. destruct Hl as ([i row1] & <- & Hi).
        apply in_map_iff in Hin. destruct Hin as ([c3 v3] & E3 & _). cbn [fst snd] in E3.
        inversion E3; subst. apply in_combine_seq in Hi. lia.
  Qed.

  Definition same_frame (s s' : mat) : Prop :=
    oob V s' = oob V s /\ compressed V s' = compressed V s /\ ap V s' = ap V s /\
    ai V s' = ai V s /\ sym V s' = sym V s /\ msize V s' = msize V s /\ crm V s' = crm V s
    /\ new_symbolic V s' = new_symbolic V s /\ cplx V s' = cplx V s.

  Lemma astep_pat_mono A e r c : apat A r c = true -> apat (astep A e) r c = true.
  Proof.
    destruct e as [[[ch0 r0] c0] v0]. cbn [astep]. destruct (iszero v0); [auto|].
    cbn [apat]. intros ->. apply orb_true_r.
  Qed.

  (* adding entries in the pattern to a compressed matrix *)
  Lemma ofold_compressed n cx l : forall A s,
    Common n cx A s -> Cmp n cx A s -> compressed V s = true ->
    (forall ch r c v, In (ch, r, c, v) l -> apat A r c = true /\ chok cx ch) ->
    exists s', ofold add_entry4 l s = Some s' /\ Common n cx (fold_left astep l A) s' /\
      Cmp n cx (fold_left astep l A) s' /\ same_frame s s'.
  Proof.
    induction l as [|[[[ch r] c] v] l IH]; intros A s C K Hc H.
    - exists s. split; [reflexivity|]. split; [exact C|]. split; [exact K|].
      unfold same_frame. tauto.
    - cbn [ofold fold_left add_entry4]. unfold CMatrix.add_impl at 1.
      destruct (iszero v) eqn:Ez.
      + cbn [astep]. rewrite Ez. apply IH; auto. intros; eapply H; right; eauto.
      + rewrite Hc. destruct (H ch r c v) as [Hp Hch]; [left; reflexivity|].
        destruct (c_pat _ _ _ _ C r c Hp) as [Hr Hcn].
        destruct (nth_error_ex (sym V s) c) as [col Hcol]; [rewrite (c_symlen _ _ _ _ C); exact Hcn|].
        rewrite Hcol.
        destruct (aget_Some_key r col) as [p Hpos]; [apply (c_keys _ _ _ _ C c col Hcol); exact Hp|].
        rewrite Hpos.
        destruct (add_ax_ok n cx A s ch r c v col p C K Ez Hch Hcol Hpos)
          as (s1 & -> & C1 & K1 & F1 & F2 & F3 & F4 & F5 & F6 & F7 & F8 & F9).
        destruct (IH (astep A (ch, r, c, v)) s1 C1 K1) as (s2 & E2 & C2 & K2 & G).
        * congruence.
        * intros. split; [|eapply H; right; eauto]. apply astep_pat_mono. eapply H; right; eauto.
        * exists s2. split; [exact E2|]. split; [exact C2|]. split; [exact K2|].
          unfold same_frame in *. destruct G as (G1 & G2 & G3 & G4 & G5 & G6 & G7 & G8 & G9).
          repeat split; congruence.
  Qed.

  (* ---- CreateMatrix establishes the layout ---- *)
  Lemma create_matrix_ok n cx A s b :
    Common n cx A s -> Unc A s ->
    let s1 := create_matrix V zero (with_status V s b) in
    Common n cx (azero A) s1 /\ Cmp n cx (azero A) s1 /\ compressed V s1 = true
    /\ oob V s1 = oob V s /\ msize V s1 = msize V s /\ crm V s1 = crm V s
    /\ new_symbolic V s1 = b /\ cplx V s1 = cplx V s.
  Proof.
    intros C U. unfold create_matrix. cbn [with_status sym].
    destruct (create_cols (sym V s) 0) as [[ps is] ms] eqn:E.
    assert (HF : Forall (fun m : list (nat * nat) => NoDup (map fst m)) (sym V s)).
    { apply Forall_forall. intros m Hm. apply In_nth_error in Hm. destruct Hm as [c Hc].
      eapply c_nodup; eauto. }
    destruct (create_cols_spec _ _ _ _ _ E HF) as (L1 & L2 & P0 & PL & HC).
    rewrite (c_symlen _ _ _ _ C) in *.
    assert (HM : forall c m', nth_error ms c = Some m' ->
       exists m, nth_error (sym V s) c = Some m).
    { intros c m' Hm. apply nth_error_ex. apply nth_error_lt in Hm.
      rewrite (c_symlen _ _ _ _ C). lia. }
    cbn zeta. split; [|split; [|cbn; repeat split]].
    - constructor; cbn.
      + apply C.
      + apply C.
      + exact L2.
      + intros c m' Hm'. destruct (HM c m' Hm') as [m Hm].
        destruct (HC c m m' Hm Hm') as (Ek & _). rewrite Ek. eapply c_nodup; eauto.
      + intros c m' Hm' r. destruct (HM c m' Hm') as [m Hm].
        destruct (HC c m m' Hm Hm') as (Ek & _). rewrite Ek. eapply c_keys; eauto.
      + apply C.
      + reflexivity.
      + reflexivity.
      + intros Hcx. destruct (c_real _ _ _ _ C Hcx) as (R1 & R2 & R3).
        split; [exact R1|]. rewrite (c_cx _ _ _ _ C), Hcx. auto.
    - constructor; cbn.
      + exact L1.
      + exact P0.
      + rewrite PL. reflexivity.
      + intros c m' Hm'. destruct (HM c m' Hm') as [m Hm].
        destruct (HC c m m' Hm Hm') as (_ & b0 & e & B1 & B2 & B3 & B4 & B5 & HA & HS).
        exists b0, e. split; [exact B1|]. split; [exact B2|]. split; [exact B4|].
        split; [exact B5|]. split.
        * intros r p. rewrite HA, Nat.sub_0_r. reflexivity.
        * intros p q x y Hp Hpq Hq Hx Hy. apply (HS p q x y); auto; rewrite Nat.sub_0_r; auto.
      + intros ch Hch. rewrite (c_cx _ _ _ _ C). destruct ch.
        * rewrite (Hch eq_refl). apply repeat_length.
        * apply repeat_length.
      + intros ch c m' r p Hch Hm' Hp. destruct (HM c m' Hm') as [m Hm].
        destruct (HC c m m' Hm Hm') as (_ & b0 & e & B1 & B2 & B3 & B4 & B5 & HA & HS).
        apply HA in Hp. destruct Hp as [Hp1 Hp2]. rewrite Nat.sub_0_r in Hp2.
        apply nth_error_lt in Hp2.
        assert (nth_error (repeat zero (length is)) p = Some zero) as G.
        { destruct (nth_error_ex (repeat zero (length is)) p) as [x Hx];
            [rewrite repeat_length; exact Hp2|]. rewrite Hx. f_equal.
          eapply nth_error_repeat_eq; eauto. }
        destruct ch; [|exact G]. rewrite (c_cx _ _ _ _ C), (Hch eq_refl). exact G.
  Qed.

  Lemma reset_common n cx A s ch k : Common n cx A s -> chok cx ch ->
    Common n cx A (reset_oob V ch k s).
  Proof.
    intros C Hch. constructor; cbn; try apply C.
    intros Hcx. destruct (c_real _ _ _ _ C Hcx) as (R1 & R2 & R3).
    destruct ch; [specialize (Hch eq_refl); congruence|].
    split; [exact R1|auto].
  Qed.

  Lemma reset_cmp n cx A s ch k : Cmp n cx A s -> Cmp n cx A (reset_oob V ch k s).
  Proof. intros K. constructor; cbn; apply K. Qed.

  Lemma in_repeat_nil {B} (row : list B) k : In row (repeat [] k) -> row = [].
  Proof. intros H. eapply repeat_spec; eauto. Qed.

  (* ---- Finalize ---- *)
  Lemma finalize_ok n cx A s : Inv n cx A s ->
    exists s', finalize V zero add iszero s = Some s' /\ Inv n cx A s' /\
      compressed V s' = true /\ crm V s' = crm V s /\
      (compressed V s = false -> new_symbolic V s' = true /\
         forall ch, chok cx ch -> length (oob V s' ch) = n) /\
      (compressed V s = true -> new_symbolic V s' = false /\ ap V s' = ap V s
         /\ ai V s' = ai V s /\ oob V s' = oob V s).
  Proof.
    intros [C H]. unfold finalize. destruct (compressed V s) eqn:Ec.
    - exists (with_status V s false). destruct H as [K O].
      assert (C' : Common n cx A (with_status V s false)) by (constructor; cbn; apply C).
      assert (K' : Cmp n cx A (with_status V s false)) by (constructor; cbn; apply K).
      split; [reflexivity|].
      split; [split; [exact C'|cbn; rewrite Ec; split; [exact K'|exact O]]|].
      cbn. rewrite Ec. repeat split; auto; discriminate.
    - destruct H as [H Hax]. destruct (create_matrix_ok n cx A s true C H) as (C1 & K1 & E1 & O1 & M1 & R1 & N1 & X1).
      set (s1 := create_matrix V zero (with_status V s true)) in *.
      rewrite flush_entries, O1.
      pose proof (nodup_rowentries false (oob V s false) (u_nodup _ _ H false)) as ND1.
      destruct (ofold_compressed n cx (rowentries false (oob V s false)) (azero A) s1 C1 K1 E1)
        as (s2 & -> & C2 & K2 & F2).
      { intros ch r c v I. apply in_rowentries in I. destruct I as (-> & row & Hr & Hin).
        split; [|intros E; discriminate]. cbn [azero apat].
        pose proof (u_oob _ _ H false r row Hr c) as HH.
        rewrite (In_aget c row v (u_nodup _ _ H _ _ _ Hr) Hin) in HH. apply HH. }
      destruct F2 as (G1 & G2 & G3 & G4 & G5 & G6 & G7 & G8 & G9).
      (* abstract state after the real channel *)
      assert (Vreal : forall r c, aval (fold_left astep (rowentries false (oob V s false)) (azero A)) false r c
                 = aval A false r c).
      { intros r c. destruct (nth_error (oob V s false) r) as [row|] eqn:Er.
        - pose proof (u_oob _ _ H false r row Er c) as HH.
          destruct (aget c row) as [v|] eqn:Ev.
          + destruct HH as [-> _]. apply fold_astep_in; auto.
            * apply in_rowentries. split; [reflexivity|]. exists row. split; [exact Er|].
              apply aget_In. exact Ev.
            * apply C.
          + rewrite HH. apply fold_astep_notin. intros I. apply in_map_iff in I.
            destruct I as ([[[ch0 r0] c0] v0] & E0 & I). cbn [ekey fst] in E0. inversion E0; subst ch0 r0 c0.
            apply in_rowentries in I. destruct I as (_ & row' & Hr' & Hin).
            assert (row' = row) by congruence. subst row'.
            apply aget_None in Ev. apply Ev. apply (in_map fst) in Hin. exact Hin.
        - rewrite (u_beyond _ _ H false r c) by (apply nth_error_None; exact Er).
          apply fold_astep_notin. intros I. apply in_map_iff in I.
          destruct I as ([[[ch0 r0] c0] v0] & E0 & I). cbn [ekey fst] in E0. inversion E0; subst ch0 r0 c0.
          apply in_rowentries in I. destruct I as (_ & row' & Hr' & Hin). congruence. }
      assert (Vimag0 : forall r c, aval (fold_left astep (rowentries false (oob V s false)) (azero A)) true r c
                 = zero).
      { intros r c. rewrite fold_astep_notin; [reflexivity|]. intros I. apply in_map_iff in I.
        destruct I as ([[[ch0 r0] c0] v0] & E0 & I). cbn [ekey fst] in E0. inversion E0; subst ch0 r0 c0.
        apply in_rowentries in I. destruct I as (E & _). discriminate. }
      assert (Pat1 : forall r c, apat (fold_left astep (rowentries false (oob V s false)) (azero A)) r c
                 = apat A r c).
      { intros r c. rewrite fold_astep_pat; [reflexivity|].
        intros ch r0 c0 v I. apply in_rowentries in I. destruct I as (-> & row & Hr & Hin).
        cbn [azero apat]. pose proof (u_oob _ _ H false r0 row Hr c0) as HH.
        rewrite (In_aget c0 row v (u_nodup _ _ H _ _ _ Hr) Hin) in HH. apply HH. }
      set (A2 := fold_left astep (rowentries false (oob V s false)) (azero A)) in *.
      assert (C2' := reset_common n cx A2 s2 false (msize V s) C2 ltac:(intros E; discriminate)).
      assert (K2' := reset_cmp n cx A2 s2 false (msize V s) K2).
      rewrite (c_cx _ _ _ _ C). destruct cx eqn:Ecx.
      + rewrite flush_entries.
        set (s2' := reset_oob V false (msize V s) s2) in *.
        assert (Ho : oob V s2' true = oob V s true).
        { unfold s2'. cbn. rewrite G1, O1. reflexivity. }
        rewrite Ho.
        pose proof (nodup_rowentries true (oob V s true) (u_nodup _ _ H true)) as ND2.
        destruct (ofold_compressed n true (rowentries true (oob V s true)) A2 s2' C2' K2')
          as (s3 & -> & C3 & K3 & F3).
        { unfold s2'. cbn. congruence. }
        { intros ch r c v I. apply in_rowentries in I. destruct I as (-> & row & Hr & Hin).
          split; [|intros E; reflexivity]. rewrite Pat1.
          pose proof (u_oob _ _ H true r row Hr c) as HH.
          rewrite (In_aget c row v (u_nodup _ _ H _ _ _ Hr) Hin) in HH. apply HH. }
        destruct F3 as (J1 & J2 & J3 & J4 & J5 & J6 & J7 & J8 & J9).
        assert (AEQ : aeq (fold_left astep (rowentries true (oob V s true)) A2) A).
        { split.
          - intros ch r c. destruct ch.
            + destruct (nth_error (oob V s true) r) as [row|] eqn:Er.
              * pose proof (u_oob _ _ H true r row Er c) as HH.
                destruct (aget c row) as [v|] eqn:Ev.
                -- destruct HH as [-> _]. apply fold_astep_in; auto.
                   ++ apply in_rowentries. split; [reflexivity|]. exists row. split; [exact Er|].
                      apply aget_In. exact Ev.
                   ++ apply C.
                -- rewrite HH. rewrite <- (Vimag0 r c). apply fold_astep_notin. intros I.
                   apply in_map_iff in I.
                   destruct I as ([[[ch0 r0] c0] v0] & E0 & I). cbn [ekey fst] in E0. inversion E0; subst ch0 r0 c0.
                   apply in_rowentries in I. destruct I as (_ & row' & Hr' & Hin).
                   assert (row' = row) by congruence. subst row'.
                   apply aget_None in Ev. apply Ev. apply (in_map fst) in Hin. exact Hin.
              * rewrite (u_beyond _ _ H true r c) by (apply nth_error_None; exact Er).
                rewrite <- (Vimag0 r c).
                apply fold_astep_notin. intros I. apply in_map_iff in I.
                destruct I as ([[[ch0 r0] c0] v0] & E0 & I). cbn [ekey fst] in E0. inversion E0; subst ch0 r0 c0.
                apply in_rowentries in I. destruct I as (_ & row' & Hr' & Hin). congruence.
            + rewrite <- (Vreal r c). apply fold_astep_notin. intros I. apply in_map_iff in I.
              destruct I as ([[[ch0 r0] c0] v0] & E0 & I). cbn [ekey fst] in E0. inversion E0; subst ch0 r0 c0.
              apply in_rowentries in I. destruct I as (E & _). discriminate.
          - intros r c. rewrite <- (Pat1 r c). apply fold_astep_pat.
            intros ch r0 c0 v I. apply in_rowentries in I. destruct I as (-> & row & Hr & Hin).
            rewrite Pat1. pose proof (u_oob _ _ H true r0 row Hr c0) as HH.
            rewrite (In_aget c0 row v (u_nodup _ _ H _ _ _ Hr) Hin) in HH. apply HH. }
        eexists. split; [reflexivity|].
        assert (Ecomp : compressed V (reset_oob V true (msize V s) s3) = true).
        { cbn. rewrite J2. unfold s2'. cbn. congruence. }
        split; [split|].
        * apply (Common_aeq _ _ _ _ _ AEQ). apply reset_common; [exact C3|intros _; reflexivity].
        * rewrite Ecomp. split.
          -- apply (Cmp_aeq _ _ _ _ _ AEQ). apply reset_cmp. exact K3.
          -- intros ch row I. cbn in I. unfold upd in I. destruct (Bool.eqb_spec ch true).
             ++ eapply in_repeat_nil; eauto.
             ++ rewrite J1 in I. unfold s2' in I. cbn in I. unfold upd in I.
                destruct (Bool.eqb_spec ch false); [eapply in_repeat_nil; eauto|].
                destruct ch; congruence.
        * split; [exact Ecomp|]. split; [cbn; rewrite J7; unfold s2'; cbn; congruence|].
          split; [|discriminate]. intros _. split.
          -- cbn. rewrite J8. unfold s2'. cbn. congruence.
          -- intros ch _. cbn. unfold upd. destruct (Bool.eqb_spec ch true).
             ++ rewrite repeat_length. apply C.
             ++ rewrite J1. unfold s2'. cbn. unfold upd. destruct (Bool.eqb_spec ch false);
                  [rewrite repeat_length; apply C|destruct ch; congruence].
      + assert (AEQ : aeq A2 A).
        { split; [|exact Pat1]. intros ch r c. destruct ch; [|apply Vreal].
          rewrite Vimag0. symmetry. apply (c_real _ _ _ _ C eq_refl). }
        eexists. split; [reflexivity|].
        assert (Ecomp : compressed V (reset_oob V false (msize V s) s2) = true).
        { cbn. congruence. }
        split; [split|].
        * apply (Common_aeq _ _ _ _ _ AEQ). exact C2'.
        * rewrite Ecomp. split.
          -- apply (Cmp_aeq _ _ _ _ _ AEQ). exact K2'.
          -- intros ch row I. cbn in I. unfold upd in I. destruct (Bool.eqb_spec ch false).
             ++ eapply in_repeat_nil; eauto.
             ++ destruct ch; [|congruence]. rewrite G1, O1 in I.
                destruct (c_real _ _ _ _ C eq_refl) as (R & _). rewrite R in I. destruct I.
        * split; [exact Ecomp|]. split; [cbn; congruence|].
          split; [|discriminate]. intros _. split; [cbn; congruence|].
          intros ch Hch. destruct ch; [specialize (Hch eq_refl); discriminate|].
          cbn. rewrite repeat_length. apply C.
  Qed.
  (* ---- lists of uncompressed additions ---- *)
  Definition add_unc4 (s : mat) (e : entry) : option mat :=
    match e with (ch, r, c, v) => add_uncompressed ch s r c v end.

  Definition frame2 (s s' : mat) : Prop :=
    compressed V s' = compressed V s /\ crm V s' = crm V s /\
    new_symbolic V s' = new_symbolic V s /\ ax V s' = ax V s /\
    ap V s' = ap V s /\ ai V s' = ai V s /\
    (forall ch, length (oob V s' ch) = length (oob V s ch)).

  Lemma ofold_unc n cx l : forall A s s',
    Common n cx A s -> Unc A s ->
    (forall ch r c v, In (ch, r, c, v) l -> r < n /\ c < n) ->
    ofold add_unc4 l s = Some s' ->
    Common n cx (fold_left astep l A) s' /\ Unc (fold_left astep l A) s' /\ frame2 s s'.
  Proof.
    induction l as [|[[[ch r] c] v] l IH]; intros A s s' C U H E.
    - cbn in E. inversion E; subst s'. split; [exact C|]. split; [exact U|].
      unfold frame2. tauto.
    - cbn [ofold fold_left add_unc4] in *. unfold CMatrix.add_uncompressed in E at 1.
      destruct (iszero v) eqn:Ez.
      + cbn [astep]. rewrite Ez. eapply IH; eauto. intros; eapply H; right; eauto.
      + destruct (add_oob ch s r c v) as [s1|] eqn:E1; [|discriminate].
        destruct (H ch r c v) as [Hr Hc]; [left; reflexivity|].
        destruct (add_oob_ok n cx A s s1 ch r c v C U Ez Hr Hc E1)
          as (C1 & U1 & F1 & F2 & F3 & F4 & F5 & F6 & F7 & F8).
        destruct (IH _ _ _ C1 U1 ltac:(intros; eapply H; right; eauto) E) as (C2 & U2 & G).
        split; [exact C2|]. split; [exact U2|].
        destruct G as (G1 & G2 & G3 & G4 & G5 & G6 & G7).
        unfold frame2. repeat split; try congruence.
        intros ch0. rewrite G7. destruct (Bool.eqb_spec ch0 ch) as [->|]; [exact F2|].
        now rewrite F3.
  Qed.

  Lemma ofold_unc_total n cx l : forall A s,
    Common n cx A s -> Unc A s ->
    (forall ch r c v, In (ch, r, c, v) l -> r < n /\ c < n /\ chok cx ch) ->
    (forall ch r c v, In (ch, r, c, v) l -> iszero v = false -> r < length (oob V s ch)) ->
    exists s', ofold add_unc4 l s = Some s'.
  Proof.
    induction l as [|[[[ch r] c] v] l IH]; intros A s C U H Hlen; [eexists; reflexivity|].
    cbn [ofold add_unc4]. unfold CMatrix.add_uncompressed at 1.
    destruct (iszero v) eqn:Ez.
    - eapply IH; eauto; intros; [eapply H|eapply Hlen]; try (right; eassumption); eauto.
    - destruct (H ch r c v) as (Hr & Hc & Hch); [left; reflexivity|].
      destruct (add_oob_total n cx A s ch r c v C Hc) as [s1 E1].
      { apply (Hlen ch r c v); [left; reflexivity|exact Ez]. }
      rewrite E1.
      destruct (add_oob_ok n cx A s s1 ch r c v C U Ez Hr Hc E1)
          as (C1 & U1 & F1 & F2 & F3 & F4 & F5 & F6 & F7 & F8).
      eapply IH; eauto.
      + intros; eapply H; right; eauto.
      + intros ch0 r0 c0 v0 I Hz. assert (r0 < length (oob V s ch0)) as L.
        { apply (Hlen ch0 r0 c0 v0); [right; exact I|exact Hz]. }
        destruct (Bool.eqb_spec ch0 ch) as [->|]; [lia|]. now rewrite F3.
  Qed.

  (* ---- DecompressMatrix as a list of additions ---- *)
  Definition range_entries (ch : bool) (s : mat) (i b e : nat) : list entry :=
    map (fun j => (ch, nth j (ai V s) 0, i, nth j (ax V s ch) zero)) (seq b (e - b)).

  Definition col_entries (s : mat) (i : nat) : list entry :=
    let b := nth i (ap V s) 0 in
    let e := nth (S i) (ap V s) 0 in
    range_entries false s i b e ++ (if cplx V s then range_entries true s i b e else []).

  Lemma dec_range_entries ch s0 i b e s :
    e <= length (ai V s0) -> e <= length (ax V s0 ch) ->
    dec_range V zero add iszero ch s0 i b e s = ofold add_unc4 (range_entries ch s0 i b e) s.
  Proof.
    intros H1 H2. unfold dec_range, range_entries. rewrite ofold_map. apply ofold_ext.
    intros s1 j Hj. apply in_seq in Hj.
    rewrite (nth_error_nth' (ai V s0) 0) by lia.
    rewrite (nth_error_nth' (ax V s0 ch) zero) by lia. reflexivity.
  Qed.

  Lemma nth_of_nth_error {B} (l : list B) i d x : nth_error l i = Some x -> nth i l d = x.
  Proof. intros H. eapply nth_error_nth in H. exact H. Qed.

  Lemma dec_col_entries n cx A s0 s i : Common n cx A s0 -> Cmp n cx A s0 -> i < n ->
    dec_col V zero add iszero s0 s i = ofold add_unc4 (col_entries s0 i) s.
  Proof.
    intros C K Hi. unfold dec_col, col_entries.
    destruct (nth_error_ex (sym V s0) i) as [col Hcol]; [rewrite (c_symlen _ _ _ _ C); exact Hi|].
    destruct (k_lay _ _ _ _ K i col Hcol) as (b & e & B1 & B2 & L1 & L2 & _).
    rewrite B1, B2. rewrite (nth_of_nth_error _ _ 0 _ B1), (nth_of_nth_error _ _ 0 _ B2).
    rewrite ofold_app.
    rewrite dec_range_entries; [|exact L2|].
    2:{ rewrite (k_axlen _ _ _ _ K); [exact L2|intros E; discriminate]. }
    destruct (ofold add_unc4 (range_entries false s0 i b e) s) as [s1|]; [|reflexivity].
    destruct (cplx V s0) eqn:Ecx; [|reflexivity].
    apply dec_range_entries; [exact L2|].
    rewrite (k_axlen _ _ _ _ K); [exact L2|]. intros _. rewrite <- Ecx. symmetry. apply C.
  Qed.

  Definition all_entries (n : nat) (s : mat) : list entry :=
    concat (map (col_entries s) (seq 0 n)).

  Lemma in_all_entries n cx A s ch r c v : Common n cx A s -> Cmp n cx A s ->
    (In (ch, r, c, v) (all_entries n s) <->
     chok cx ch /\ apat A r c = true /\ v = aval A ch r c).
  Proof.
    intros C K. unfold all_entries. rewrite in_concat. split.
    - intros (l & Hl & Hin). apply in_map_iff in Hl. destruct Hl as (i & <- & Hi).
      apply in_seq in Hi. unfold col_entries in Hin.
      destruct (nth_error_ex (sym V s) i) as [col Hcol]; [rewrite (c_symlen _ _ _ _ C); lia|].
      destruct (k_lay _ _ _ _ K i col Hcol) as (b & e & B1 & B2 & L1 & L2 & HA & _).
      rewrite (nth_of_nth_error _ _ 0 _ B1), (nth_of_nth_error _ _ 0 _ B2) in Hin.
      assert (X : forall ch0, chok cx ch0 -> In (ch, r, c, v) (range_entries ch0 s i b e) ->
        chok cx ch /\ apat A r c = true /\ v = aval A ch r c).
      { intros ch0 Hch0 I. unfold range_entries in I. apply in_map_iff in I.
        destruct I as (j & E & Hj). apply in_seq in Hj. inversion E; subst ch0 c.
        split; [exact Hch0|].
        assert (G : aget r col = Some j).
        { apply HA. split; [lia|]. subst r. apply nth_error_nth'. lia. }
        rewrite H1. split.
        - apply (c_keys _ _ _ _ C i col Hcol). apply aget_In in G. apply (in_map fst) in G. exact G.
        - pose proof (k_val _ _ _ _ K ch i col r j Hch0 Hcol G) as HV.
          symmetry. apply nth_of_nth_error with (d := zero) in HV. congruence. }
      rewrite (c_cx _ _ _ _ C) in Hin. apply in_app_iff in Hin. destruct Hin as [Hin|Hin].
      + apply (X false); [intros E; discriminate|exact Hin].
      + destruct cx eqn:Ecx; [|destruct Hin]. apply (X true); [intros _; reflexivity|exact Hin].
    - intros (Hch & Hp & ->). destruct (c_pat _ _ _ _ C r c Hp) as [Hr Hc].
      destruct (nth_error_ex (sym V s) c) as [col Hcol]; [rewrite (c_symlen _ _ _ _ C); lia|].
      exists (col_entries s c). split; [apply in_map, in_seq; lia|].
      destruct (k_lay _ _ _ _ K c col Hcol) as (b & e & B1 & B2 & L1 & L2 & HA & _).
      unfold col_entries.
      rewrite (nth_of_nth_error _ _ 0 _ B1), (nth_of_nth_error _ _ 0 _ B2).
      destruct (aget_Some_key r col) as [p Hpos]; [apply (c_keys _ _ _ _ C c col Hcol); exact Hp|].
      pose proof (k_val _ _ _ _ K ch c col r p Hch Hcol Hpos) as HV.
      apply HA in Hpos. destruct Hpos as [Hb Hn].
      assert (G : In (ch, r, c, aval A ch r c) (range_entries ch s c b e)).
      { unfold range_entries. apply in_map_iff. exists p. split.
        - rewrite (nth_of_nth_error _ _ 0 _ Hn), (nth_of_nth_error _ _ zero _ HV). reflexivity.
        - apply in_seq. lia. }
      apply in_app_iff. destruct ch; [right|left; exact G].
      rewrite (c_cx _ _ _ _ C), (Hch eq_refl). exact G.
  Qed.

  Lemma nodup_range_entries n cx A s ch i col b e : Common n cx A s -> Cmp n cx A s ->
    nth_error (sym V s) i = Some col ->
    nth_error (ap V s) i = Some b -> nth_error (ap V s) (S i) = Some e ->
    NoDup (map ekey (range_entries ch s i b e)).
  Proof.
    intros C K Hcol Hb He.
    destruct (k_lay _ _ _ _ K i col Hcol) as (b' & e' & B1 & B2 & L1 & L2 & _ & HS).
    assert (b' = b) by congruence. assert (e' = e) by congruence. subst b' e'.
    unfold range_entries. rewrite map_map. cbn [ekey fst].
    apply NoDup_nth_error. rewrite map_length, seq_length. intros p q Hp Heq.
    assert (Hq : q < e - b).
    { destruct (Nat.lt_ge_cases q (e - b)); [assumption|].
      rewrite (proj2 (nth_error_None _ q)) in Heq by (rewrite map_length, seq_length; lia).
      apply nth_error_None in Heq. rewrite map_length, seq_length in Heq. lia. }
    assert (G : forall k, k < e - b ->
       nth_error (map (fun x => (ch, nth x (ai V s) 0, i)) (seq b (e - b))) k
       = Some (ch, nth (b + k) (ai V s) 0, i)).
    { intros k Hk. erewrite map_nth_error; [reflexivity|].
      rewrite (nth_error_nth' (seq b (e - b)) 0) by (rewrite seq_length; lia).
      rewrite seq_nth by lia. reflexivity. }
    rewrite (G p Hp), (G q Hq) in Heq. inversion Heq as [Hai].
    destruct (Nat.lt_trichotomy p q) as [L|[E|L]]; auto; exfalso.
    - assert (nth (b + p) (ai V s) 0 < nth (b + q) (ai V s) 0).
      { apply (HS (b + p) (b + q)); try lia; apply nth_error_nth'; lia. } lia.
    - assert (nth (b + q) (ai V s) 0 < nth (b + p) (ai V s) 0).
      { apply (HS (b + q) (b + p)); try lia; apply nth_error_nth'; lia. } lia.
  Qed.

  Lemma range_entries_key ch s i b e k : In k (map ekey (range_entries ch s i b e)) ->
    exists r, k = (ch, r, i).
  Proof.
    unfold range_entries. rewrite map_map. intros H. apply in_map_iff in H.
    destruct H as (j & <- & _). cbn. eauto.
  Qed.

  Lemma nodup_all_entries n cx A s : Common n cx A s -> Cmp n cx A s ->
    NoDup (map ekey (all_entries n s)).
  Proof.
    intros C K. unfold all_entries.
    assert (G : forall k m, k + m <= n -> NoDup (map ekey (concat (map (col_entries s) (seq k m))))
      /\ forall x, In x (map ekey (concat (map (col_entries s) (seq k m)))) ->
           exists ch r i, x = (ch, r, i) /\ k <= i).
    { intros k m. revert k. induction m as [|m IH]; intros k Hkm.
      - cbn. split; [constructor|tauto].
      - cbn [seq map concat]. destruct (IH (S k)) as [IH1 IH2]; [lia|].
        destruct (nth_error_ex (sym V s) k) as [col Hcol]; [rewrite (c_symlen _ _ _ _ C); lia|].
        destruct (k_lay _ _ _ _ K k col Hcol) as (b & e & B1 & B2 & _).
        assert (HK : forall x, In x (map ekey (col_entries s k)) -> exists ch r, x = (ch, r, k)).
        { intros x Hx. unfold col_entries in Hx. rewrite map_app in Hx. apply in_app_iff in Hx.
          destruct Hx as [Hx|Hx].
          - apply range_entries_key in Hx. destruct Hx; eauto.
          - destruct (cplx V s); [|destruct Hx]. apply range_entries_key in Hx. destruct Hx; eauto. }
        rewrite map_app. split.
        + apply nodup_app; [|exact IH1|].
          * unfold col_entries.
            rewrite (nth_of_nth_error _ _ 0 _ B1), (nth_of_nth_error _ _ 0 _ B2).
            rewrite map_app. apply nodup_app.
            -- eapply nodup_range_entries; eauto.
            -- destruct (cplx V s); [eapply nodup_range_entries; eauto|constructor].
            -- intros x H1 H2. apply range_entries_key in H1. destruct H1 as [r1 ->].
               destruct (cplx V s); [|destruct H2]. apply range_entries_key in H2.
               destruct H2 as [r2 H2]. discriminate.
          * intros x H1 H2. apply HK in H1. destruct H1 as (ch & r & ->).
            apply IH2 in H2. destruct H2 as (ch2 & r2 & i2 & E & L). inversion E. lia.
        + intros x Hx. apply in_app_iff in Hx. destruct Hx as [Hx|Hx].
          * apply HK in Hx. destruct Hx as (ch & r & ->). exists ch, r, k. split; [reflexivity|lia].
          * apply IH2 in Hx. destruct Hx as (ch & r & i & -> & L). exists ch, r, i.
            split; [reflexivity|lia]. }
    apply (G 0 n). lia.
  Qed.

  Lemma azero_unc A s : OobEmpty s -> Unc (azero A) s.
  Proof.
    intros O. constructor.
    - intros ch r row H. apply nth_error_In in H. rewrite (O ch row H). constructor.
    - intros ch r row H c. apply nth_error_In in H. rewrite (O ch row H). reflexivity.
    - reflexivity.
  Qed.

  Lemma azero_common n cx A s : Common n cx A s -> Common n cx (azero A) s.
  Proof.
    intros C. constructor; try apply C; try reflexivity.
    intros H. destruct (c_real _ _ _ _ C H) as (? & ? & ?). auto.
  Qed.

  Lemma decompress_fold n cx A s : Common n cx A s -> Cmp n cx A s ->
    ofold (dec_col V zero add iszero s) (seq 0 (length (ap V s) - 1)) (with_compressed V s false)
    = ofold add_unc4 (all_entries n s) (with_compressed V s false).
  Proof.
    intros C K. rewrite (k_aplen _ _ _ _ K). replace (S n - 1) with n by lia.
    unfold all_entries. rewrite ofold_concat. apply ofold_ext.
    intros s1 i Hi. apply in_seq in Hi. eapply dec_col_entries; eauto. lia.
  Qed.

  Lemma decompress_aeq n cx A s : Common n cx A s -> Cmp n cx A s ->
    aeq (fold_left astep (all_entries n s) (azero A)) A.
  Proof.
    intros C K. split.
    - intros ch r c. destruct (apat A r c) eqn:Ep.
      + destruct (Bool.bool_dec ch true) as [->|Hn].
        * destruct cx eqn:Ecx.
          -- apply fold_astep_in.
             ++ eapply nodup_all_entries; eauto.
             ++ apply (in_all_entries n true A); auto. split; [intros _; reflexivity|auto].
             ++ reflexivity.
             ++ apply C.
          -- rewrite fold_astep_notin.
             ++ symmetry. apply (c_real _ _ _ _ C eq_refl).
             ++ intros I. apply in_map_iff in I. destruct I as ([[[ch0 r0] c0] v0] & E0 & I).
                cbn [ekey fst] in E0. inversion E0; subst ch0 r0 c0.
                apply (in_all_entries n false A s true r c v0 C K) in I. destruct I as [I _].
                specialize (I eq_refl). discriminate.
        * apply fold_astep_in.
          -- eapply nodup_all_entries; eauto.
          -- apply (in_all_entries n cx A); auto. split; [intros E; congruence|auto].
          -- reflexivity.
          -- apply C.
      + rewrite fold_astep_notin.
        * symmetry. apply (c_zero _ _ _ _ C). exact Ep.
        * intros I. apply in_map_iff in I. destruct I as ([[[ch0 r0] c0] v0] & E0 & I).
          cbn [ekey fst] in E0. inversion E0; subst ch0 r0 c0.
          apply (in_all_entries n cx A s ch r c v0 C K) in I. destruct I as (_ & I & _). congruence.
    - intros r c. rewrite fold_astep_pat; [reflexivity|].
      intros ch r0 c0 v I. apply (in_all_entries n cx A s ch r0 c0 v C K) in I.
      destruct I as (_ & I & _). exact I.
  Qed.

  Lemma decompress_ok n cx A s s' : Common n cx A s -> Cmp n cx A s -> OobEmpty s ->
    compressed V s = true -> decompress V zero add iszero s = Some s' ->
    Common n cx A s' /\ Unc A s' /\ (forall ch, ax V s' ch = []) /\ compressed V s' = false
    /\ crm V s' = crm V s /\ new_symbolic V s' = new_symbolic V s
    /\ (forall ch, length (oob V s' ch) = length (oob V s ch)).
  Proof.
    intros C K O Hc E. unfold decompress in E. rewrite Hc in E.
    rewrite (decompress_fold n cx A s C K) in E.
    destruct (ofold add_unc4 (all_entries n s) (with_compressed V s false)) as [s1|] eqn:E1;
      [|discriminate].
    assert (C0 : Common n cx (azero A) (with_compressed V s false)).
    { apply azero_common. constructor; cbn; apply C. }
    assert (U0 : Unc (azero A) (with_compressed V s false)).
    { apply azero_unc. exact O. }
    destruct (ofold_unc n cx _ _ _ _ C0 U0 ltac:(
       intros ch r c v I; apply (in_all_entries n cx A s ch r c v C K) in I;
       destruct I as (_ & I & _); apply (c_pat _ _ _ _ C); exact I) E1) as (C1 & U1 & F).
    pose proof (decompress_aeq n cx A s C K) as AEQ.
    apply (Common_aeq _ _ _ _ _ AEQ) in C1. apply (Unc_aeq _ _ _ AEQ) in U1.
    destruct F as (F1 & F2 & F3 & F4 & F5 & F6 & F7).
    inversion E; subst s'; clear E.
    split; [|split; [|cbn; repeat split; auto]].
    - constructor; cbn; try apply C1.
      intros H. destruct (c_real _ _ _ _ C1 H) as (? & ? & ?). auto.
    - constructor; cbn; apply U1.
  Qed.

  Lemma decompress_total n cx A s : Common n cx A s -> Cmp n cx A s -> OobEmpty s ->
    (forall ch r c, chok cx ch -> iszero (aval A ch r c) = false -> r < length (oob V s ch)) ->
    exists s', decompress V zero add iszero s = Some s'.
  Proof.
    intros C K O HL. unfold decompress. destruct (compressed V s); [|eauto].
    rewrite (decompress_fold n cx A s C K).
    assert (C0 : Common n cx (azero A) (with_compressed V s false)).
    { apply azero_common. constructor; cbn; apply C. }
    assert (U0 : Unc (azero A) (with_compressed V s false)).
    { apply azero_unc. exact O. }
    destruct (ofold_unc_total n cx (all_entries n s) _ _ C0 U0) as [s1 ->]; [| |eauto].
    - intros ch r c v I. apply (in_all_entries n cx A s ch r c v C K) in I.
      destruct I as (H1 & H2 & _). destruct (c_pat _ _ _ _ C r c H2). auto.
    - intros ch r c v I Hz. apply (in_all_entries n cx A s ch r c v C K) in I.
      destruct I as (H1 & H2 & ->). cbn. apply (HL ch r c H1 Hz).
  Qed.

  (* ---- one addition ---- *)
  Lemma add_impl_ok n cx A s s' ch r c v : Inv n cx A s -> r < n -> c < n ->
    add_impl ch s r c v = Some s' ->
    Inv n cx (astep A (ch, r, c, v)) s' /\ crm V s' = crm V s /\
    (forall ch, length (oob V s' ch) = length (oob V s ch)).
  Proof.
    intros [C H] Hr Hc E. unfold CMatrix.add_impl in E.
    destruct (iszero v) eqn:Ez.
    { inversion E; subst s'. cbn [astep]. rewrite Ez. split; [split; assumption|auto]. }
    destruct (compressed V s) eqn:Ec.
    - destruct H as [K O].
      destruct (nth_error (sym V s) c) as [col|] eqn:Ecol; [|discriminate].
      destruct (aget r col) as [p|] eqn:Ep.
      + assert (Hch : chok cx ch).
        { intros ->. destruct cx eqn:Ecx; [reflexivity|].
          destruct (c_real _ _ _ _ C eq_refl) as (_ & R & _).
          unfold CMatrix.add_ax in E. rewrite R in E. destruct p; discriminate. }
        destruct (add_ax_ok n cx A s ch r c v col p C K Ez Hch Ecol Ep)
          as (s1 & E1 & C1 & K1 & F1 & F2 & F3 & F4 & F5 & F6 & F7 & F8 & F9).
        assert (s1 = s') by congruence. subst s1.
        split; [split; [exact C1|]|split; [exact F7|intros; now rewrite F1]].
        rewrite F2, Ec. split; [exact K1|]. unfold OobEmpty. rewrite F1. exact O.
      + destruct (decompress V zero add iszero s) as [s1|] eqn:E1; [|discriminate].
        destruct (decompress_ok n cx A s s1 C K O Ec E1) as (C1 & U1 & X1 & Z1 & R1 & N1 & L1).
        destruct (add_oob_ok n cx A s1 s' ch r c v C1 U1 Ez Hr Hc E)
          as (C2 & U2 & F1 & F2 & F3 & F4 & F5 & F6 & F7 & F8).
        split; [split; [exact C2|]|split; [congruence|]].
        * rewrite F1, Z1. split; [exact U2|]. rewrite F6. exact X1.
        * intros ch0. destruct (Bool.eqb_spec ch0 ch) as [->|]; [rewrite F2; apply L1|].
          rewrite F3 by assumption. apply L1.
    - destruct H as [U X].
      destruct (add_oob_ok n cx A s s' ch r c v C U Ez Hr Hc E)
          as (C2 & U2 & F1 & F2 & F3 & F4 & F5 & F6 & F7 & F8).
      split; [split; [exact C2|]|split; [exact F4|]].
      + rewrite F1, Ec. split; [exact U2|]. rewrite F6. exact X.
      + intros ch0. destruct (Bool.eqb_spec ch0 ch) as [->|]; [exact F2|]. now rewrite F3.
  Qed.

  Definition roomy (n : nat) (cx : bool) (s : mat) : Prop :=
    forall ch, chok cx ch -> n <= length (oob V s ch).

  Lemma add_impl_total n cx A s ch r c v : Inv n cx A s -> r < n -> c < n ->
    chok cx ch -> roomy n cx s -> exists s', add_impl ch s r c v = Some s'.
  Proof.
    intros [C H] Hr Hc Hch HR. unfold CMatrix.add_impl.
    destruct (iszero v) eqn:Ez; [eauto|].
    destruct (compressed V s) eqn:Ec.
    - destruct H as [K O].
      destruct (nth_error_ex (sym V s) c) as [col Hcol]; [rewrite (c_symlen _ _ _ _ C); lia|].
      rewrite Hcol. destruct (aget r col) as [p|] eqn:Ep.
      + destruct (add_ax_ok n cx A s ch r c v col p C K Ez Hch Hcol Ep) as (s1 & E1 & _). eauto.
      + destruct (decompress_total n cx A s C K O) as [s1 E1].
        { intros ch0 r0 c0 H0 Hz. specialize (HR ch0 H0).
          destruct (apat A r0 c0) eqn:Epat.
          - destruct (c_pat _ _ _ _ C r0 c0 Epat). lia.
          - rewrite (c_zero _ _ _ _ C ch0 r0 c0 Epat) in Hz. congruence. }
        rewrite E1.
        destruct (decompress_ok n cx A s s1 C K O Ec E1) as (C1 & U1 & X1 & Z1 & R1 & N1 & L1).
        apply (add_oob_total n cx A); auto. rewrite L1. specialize (HR ch Hch). lia.
    - apply (add_oob_total n cx A); auto. specialize (HR ch Hch). lia.
  Qed.

  (* ---- Clear, constructor ---- *)
  Lemma clear_ok n cx A s : Inv n cx A s ->
    exists s', clear V zero s = Some s' /\ Inv n cx (azero A) s' /\ crm V s' = crm V s /\
      compressed V s' = compressed V s /\
      forall ch, chok cx ch -> length (oob V s' ch) = length (ax V s false).
  Proof.
    intros [C H]. unfold clear. eexists. split; [reflexivity|].
    rewrite (c_cx _ _ _ _ C).
    assert (CR : cx = false -> oob V s true = [] /\ ax V s true = []).
    { intros Hcx. destruct (c_real _ _ _ _ C Hcx) as (? & ? & _). auto. }
    split.
    - split.
      + destruct cx; constructor; cbn; try apply C; try reflexivity.
        * discriminate.
        * intros _. destruct (CR eq_refl) as [R1 R2]. auto.
      + match goal with |- if compressed V ?x then _ else _ =>
          replace (compressed V x) with (compressed V s) by (destruct cx; reflexivity) end.
        destruct (compressed V s).
        * destruct H as [K O]. split.
          -- assert (KL : length (ax V s false) = length (ai V s)).
             { apply (k_axlen _ _ _ _ K). intros E; discriminate. }
             destruct cx; constructor; cbn; try apply K.
             ++ intros ch _. unfold upd. destruct ch; cbn; rewrite repeat_length; exact KL.
             ++ intros ch c col r p _ Hc Hp.
                destruct (k_lay _ _ _ _ K c col Hc) as (b & e & _ & _ & _ & _ & HA & _).
                apply HA in Hp. destruct Hp as [_ Hp]. apply nth_error_lt in Hp.
                destruct (nth_error_ex (repeat zero (length (ax V s false))) p) as [x Hx];
                  [rewrite repeat_length; lia|].
                unfold upd. destruct ch; cbn; rewrite Hx; f_equal; eapply nth_error_repeat_eq; eauto.
             ++ intros ch Hch. destruct ch; [specialize (Hch eq_refl); discriminate|].
                unfold upd. cbn. rewrite repeat_length; exact KL.
             ++ intros ch c col r p Hch Hc Hp.
                destruct ch; [specialize (Hch eq_refl); discriminate|].
                destruct (k_lay _ _ _ _ K c col Hc) as (b & e & _ & _ & _ & _ & HA & _).
                apply HA in Hp. destruct Hp as [_ Hp]. apply nth_error_lt in Hp.
                destruct (nth_error_ex (repeat zero (length (ax V s false))) p) as [x Hx];
                  [rewrite repeat_length; lia|].
                unfold upd. cbn; rewrite Hx; f_equal; eapply nth_error_repeat_eq; eauto.
          -- intros ch row I. destruct cx; cbn in I; unfold upd in I; destruct ch; cbn in I;
               try (eapply in_repeat_nil; eassumption).
             destruct (CR eq_refl) as [R _]. rewrite R in I. destruct I.
        * destruct H as [U X]. split.
          -- apply azero_unc. intros ch row I.
             destruct cx; cbn in I; unfold upd in I; destruct ch; cbn in I;
               try (eapply in_repeat_nil; eassumption).
             destruct (CR eq_refl) as [R _]. rewrite R in I. destruct I.
          -- intros ch. destruct cx; cbn; unfold upd; destruct ch; cbn;
               rewrite ?X; reflexivity.
    - split; [destruct cx; reflexivity|]. split; [destruct cx; reflexivity|].
      intros ch Hch. destruct cx; cbn; unfold upd; destruct ch; cbn; try apply repeat_length.
      specialize (Hch eq_refl). discriminate.
  Qed.

  Definition ainit : abs := {| aval := fun _ _ _ => zero; apat := fun _ _ => false |}.

  Lemma mnew_ok n cx isCRM : Inv n cx ainit (mnew V n cx isCRM) /\ roomy n cx (mnew V n cx isCRM).
  Proof.
    assert (O : OobEmpty (mnew V n cx isCRM)).
    { intros ch row I. cbn in I. destruct ch; [destruct cx; [|destruct I]|];
        eapply in_repeat_nil; eauto. }
    split; [split|].
    - constructor; cbn; try reflexivity.
      + apply repeat_length.
      + intros c col H. apply nth_error_repeat_eq in H. subst. constructor.
      + intros c col H r. apply nth_error_repeat_eq in H. subst col. cbn. split; [tauto|discriminate].
      + discriminate.
      + intros ->. auto.
    - cbn. split; [|reflexivity]. apply (azero_unc ainit). exact O.
    - intros ch Hch. cbn. destruct ch; [rewrite (Hch eq_refl)|]; rewrite repeat_length; lia.
  Qed.
End Inv.

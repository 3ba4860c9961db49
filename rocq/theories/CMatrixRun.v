From Coq Require Import List Arith Bool Lia Permutation.
From Coq Require Import ZifyBool ZifyNat.
From Verif Require Import CMatrix CMatrixProofs CMatrixInv CMatrixSpec.
Import ListNotations.

Section Run.
  Variable V : Type.
  Variable zero : V.
  Variable add : V -> V -> V.
  Variable iszero : V -> bool.
  Hypothesis iszero_zero : iszero zero = true.
  Hypothesis add_zero : forall v, iszero v = false -> add zero v = v.
  Hypothesis add_canon : forall a v, iszero v = false -> iszero (add a v) = true -> add a v = zero.

  Notation mat := (mat V).
  Notation Inv := (Inv V zero iszero).
  Notation abs := (abs V).
  Notation astep := (astep V add iszero).
  Notation step := (step V zero add iszero).
  Notation run := (run V zero add iszero).
  Notation accumulated := (accumulated V zero add iszero).
  Notation touched := (touched V iszero).
  Notation since_clear := (since_clear V).
  Local Notation "'WL' f" := (f V zero add iszero iszero_zero add_zero add_canon) (at level 10, f at level 9, only parsing).

  (* abstract state described by a history, in the coordinates of Impl *)
  Definition absof (isCRM : bool) (ops : list (op V)) : abs :=
    {| aval := fun ch r c => if isCRM then accumulated ops ch c r else accumulated ops ch r c;
       apat := fun r c => if isCRM then touched ops c r else touched ops r c |}.

  Lemma since_clear_snoc ops o : since_clear (ops ++ [o]) =
    match o with Clear _ => [] | _ => since_clear ops ++ contributions V o end.
  Proof. unfold CMatrixSpec.since_clear. rewrite fold_left_app. reflexivity. Qed.

  Lemma acc_app ops l (ch : bool) r c :
    fold_left add (map snd (filter (for_key V iszero ch r c) (since_clear ops ++ l))) zero =
    fold_left add (map snd (filter (for_key V iszero ch r c) l)) (accumulated ops ch r c).
  Proof. rewrite filter_app, map_app, fold_left_app. reflexivity. Qed.

  Lemma touched_snoc ops o r c : touched (ops ++ [o]) r c =
    touched ops r c || existsb (fun e => for_key V iszero false r c e || for_key V iszero true r c e)
        (contributions V o).
  Proof.
    unfold CMatrixSpec.touched. rewrite map_app, concat_app, existsb_app. cbn [map concat].
    now rewrite app_nil_r.
  Qed.

  (* astep in user coordinates *)
  Definition uentry (isCRM : bool) (ch : bool) (r c : nat) (v : V) : entry V :=
    if isCRM then (ch, c, r, v) else (ch, r, c, v).

  Lemma absof_entry1 isCRM ops ops' ch r c v :
    (forall ch' r' c', accumulated ops' ch' r' c' =
      fold_left add (map snd (filter (for_key V iszero ch' r' c') [(ch, r, c, v)])) (accumulated ops ch' r' c')) ->
    (forall r' c', touched ops' r' c' = touched ops r' c' ||
        (for_key V iszero false r' c' (ch, r, c, v) || for_key V iszero true r' c' (ch, r, c, v) || false)) ->
    aeq V (astep (absof isCRM ops) (uentry isCRM ch r c v)) (absof isCRM ops').
  Proof.
    intros HA HT. unfold aeq, uentry, absof. cbn [for_key] in *.
    destruct (iszero v) eqn:Ez.
    - destruct isCRM; cbn [CMatrixInv.astep]; rewrite Ez; cbn [aval apat]; split; intros;
        rewrite ?HA, ?HT; cbn [filter for_key map fold_left]; rewrite ?Ez, ?andb_false_r;
        cbn [map fold_left orb]; rewrite ?orb_false_r; reflexivity.
    - destruct isCRM; cbn [CMatrixInv.astep]; rewrite Ez; cbn [aval apat]; split.
      + intros ch' r' c'. rewrite HA. cbn [filter for_key]. rewrite Ez.
        unfold key_eqb. rewrite (Nat.eqb_sym c' r), (Nat.eqb_sym r' c).
        rewrite andb_true_r.
        destruct (Bool.eqb_spec ch ch') as [->|]; [rewrite Bool.eqb_reflx|].
        * destruct (Nat.eqb_spec c r') as [->|]; destruct (Nat.eqb_spec r c') as [->|]; reflexivity.
        * destruct (Bool.eqb_spec ch' ch); [congruence|]. reflexivity.
      + intros r' c'. rewrite HT. rewrite (Nat.eqb_sym c' r), (Nat.eqb_sym r' c).
        destruct ch; cbn; destruct (Nat.eqb_spec c r'); destruct (Nat.eqb_spec r c'); cbn;
          rewrite ?orb_false_r, ?orb_true_r; reflexivity.
      + intros ch' r' c'. rewrite HA. cbn [filter for_key]. rewrite Ez.
        unfold key_eqb. rewrite (Nat.eqb_sym c' c), (Nat.eqb_sym r' r).
        rewrite andb_true_r.
        destruct (Bool.eqb_spec ch ch') as [->|]; [rewrite Bool.eqb_reflx|].
        * destruct (Nat.eqb_spec r r') as [->|]; destruct (Nat.eqb_spec c c') as [->|]; reflexivity.
        * destruct (Bool.eqb_spec ch' ch); [congruence|]. reflexivity.
      + intros r' c'. rewrite HT. rewrite (Nat.eqb_sym c' c), (Nat.eqb_sym r' r).
        destruct ch; cbn; destruct (Nat.eqb_spec r r'); destruct (Nat.eqb_spec c c'); cbn;
          rewrite ?orb_false_r, ?orb_true_r; reflexivity.
  Qed.

  Lemma absof_add isCRM ops ch r c v :
    aeq V (astep (absof isCRM ops) (uentry isCRM ch r c v)) (absof isCRM (ops ++ [Add V ch r c v])).
  Proof.
    apply absof_entry1.
    - intros. unfold CMatrixSpec.accumulated at 1. rewrite since_clear_snoc. apply acc_app.
    - intros. rewrite touched_snoc. reflexivity.
  Qed.

  (* a complex addition is the two additions *)
  Lemma absof_complex isCRM ops r c re im :
    absof isCRM (ops ++ [AddComplex V r c re im]) =
    absof isCRM (ops ++ [AddComplex V r c re im]) /\
    aeq V (absof isCRM (ops ++ [Add V false r c re; Add V true r c im]))
          (absof isCRM (ops ++ [AddComplex V r c re im])).
  Proof.
    split; [reflexivity|].
    replace (ops ++ [Add V false r c re; Add V true r c im])
      with ((ops ++ [Add V false r c re]) ++ [Add V true r c im]) by (rewrite <- app_assoc; reflexivity).
    assert (EA : forall ch r' c', accumulated ((ops ++ [Add V false r c re]) ++ [Add V true r c im]) ch r' c'
       = accumulated (ops ++ [AddComplex V r c re im]) ch r' c').
    { intros. unfold CMatrixSpec.accumulated. rewrite !since_clear_snoc. cbn [contributions].
      rewrite <- app_assoc. reflexivity. }
    assert (ET : forall r' c', touched ((ops ++ [Add V false r c re]) ++ [Add V true r c im]) r' c'
       = touched (ops ++ [AddComplex V r c re im]) r' c').
    { intros. rewrite !touched_snoc. cbn [contributions existsb].
      rewrite <- !orb_assoc. cbn [orb]. now rewrite orb_false_l. }
    split; intros; cbn [absof aval apat]; rewrite ?EA, ?ET; reflexivity.
  Qed.

  Lemma aeq_trans A B C : aeq V A B -> aeq V B C -> aeq V A C.
  Proof. intros [H1 H2] [H3 H4]. split; intros; congruence. Qed.

  Lemma aeq_astep A B e : aeq V A B -> aeq V (astep A e) (astep B e).
  Proof.
    intros [H1 H2]. destruct e as [[[ch r] c] v]. cbn [CMatrixInv.astep].
    destruct (iszero v); [split; assumption|]. split; cbn [aval apat]; intros.
    - rewrite !H1. reflexivity.
    - rewrite H2. reflexivity.
  Qed.

  Lemma add_entry_ok n cx ops s s' ch r c v :
    Inv n cx (absof (crm V s) ops) s -> r < n -> c < n ->
    add_entry V zero add iszero ch s r c v = Some s' ->
    Inv n cx (absof (crm V s') (ops ++ [Add V ch r c v])) s' /\ crm V s' = crm V s /\
    (forall ch, length (oob V s' ch) = length (oob V s ch)).
  Proof.
    intros I Hr Hc E. unfold add_entry in E.
    assert (G : Inv n cx (astep (absof (crm V s) ops) (uentry (crm V s) ch r c v)) s' /\
       crm V s' = crm V s /\ (forall ch, length (oob V s' ch) = length (oob V s ch))).
    { unfold uentry. destruct (crm V s) eqn:Ecrm; rewrite <- Ecrm at 1 2; rewrite <- Ecrm in I; refine (WL add_impl_ok _ _ _ _ _ _ _ _ _ I _ _ E); assumption. }
    destruct G as (G1 & G2 & G3). split; [|auto].
    rewrite G2. eapply Inv_aeq; [apply absof_add|exact G1].
  Qed.

  Lemma add_entry_total n cx ops s ch r c v :
    Inv n cx (absof (crm V s) ops) s -> r < n -> c < n -> chok cx ch -> roomy V n cx s ->
    exists s', add_entry V zero add iszero ch s r c v = Some s'.
  Proof.
    intros I Hr Hc Hch HR. unfold add_entry. destruct (crm V s); refine (WL add_impl_total _ _ _ _ _ _ _ _ I _ _ _ _); assumption.
  Qed.

  Lemma add_zero_entry ch s r c v : iszero v = true -> add_entry V zero add iszero ch s r c v = Some s.
  Proof. intros H. unfold add_entry, add_impl. rewrite H. destruct (crm V s); reflexivity. Qed.

  Lemma step_ok n cx ops s s' o :
    Inv n cx (absof (crm V s) ops) s -> 
    (forall ch r c v, In (ch, r, c, v) (contributions V o) -> r < n /\ c < n) ->
    step s o = Some s' ->
    Inv n cx (absof (crm V s') (ops ++ [o])) s' /\ crm V s' = crm V s.
  Proof.
    intros I HR E. destruct o as [ch r c v|r c re im| |]; cbn [CMatrix.step] in E.
    - destruct (HR ch r c v) as [Hr Hc]; [left; reflexivity|].
      destruct (add_entry_ok n cx ops s s' ch r c v I Hr Hc E) as (H1 & H2 & _). auto.
    - unfold add_complex in E.
      assert (E' : match add_entry V zero add iszero false s r c re with
                   | Some s1 => add_entry V zero add iszero true s1 r c im | None => None end = Some s').
      { destruct (iszero re) eqn:Er.
        - rewrite add_zero_entry by exact Er. destruct (iszero im) eqn:Ei; [|exact E].
          rewrite add_zero_entry by exact Ei. exact E.
        - destruct (add_entry V zero add iszero false s r c re) as [s1|]; [|discriminate].
          destruct (iszero im) eqn:Ei; [|exact E].
          rewrite add_zero_entry by exact Ei. exact E. }
      destruct (add_entry V zero add iszero false s r c re) as [s1|] eqn:E1; [|discriminate].
      destruct (HR false r c re) as [Hr Hc]; [left; reflexivity|].
      destruct (add_entry_ok n cx ops s s1 false r c re I Hr Hc E1) as (H1 & H2 & _).
      destruct (add_entry_ok n cx _ s1 s' true r c im H1 Hr Hc E') as (H3 & H4 & _).
      split; [|congruence]. rewrite <- app_assoc in H3. cbn [app] in H3.
      eapply Inv_aeq; [|exact H3]. apply absof_complex.
    - destruct ((WL finalize_ok) n cx _ s I)
        as (s1 & E1 & I1 & _ & C1 & _).
      assert (s1 = s') by congruence. subst s1. split; [|exact C1].
      rewrite C1. eapply Inv_aeq; [|exact I1].
      split; intros; cbn [absof aval apat]; unfold CMatrixSpec.accumulated;
        rewrite ?since_clear_snoc, ?touched_snoc; cbn [contributions existsb];
        rewrite ?app_nil_r, ?orb_false_r; reflexivity.
    - destruct ((WL clear_ok) n cx _ s I)
        as (s1 & E1 & I1 & C1 & _).
      assert (s1 = s') by congruence. subst s1. split; [|exact C1].
      rewrite C1. eapply Inv_aeq; [|exact I1].
      split; intros; cbn [absof azero aval apat]; unfold CMatrixSpec.accumulated;
        rewrite ?since_clear_snoc, ?touched_snoc; cbn [contributions existsb];
        rewrite ?orb_false_r; cbn; try reflexivity; destruct (crm V s); reflexivity.
  Qed.

  Lemma in_range_snoc n ops o : in_range V n (ops ++ [o]) ->
    in_range V n ops /\ (forall ch r c v, In (ch, r, c, v) (contributions V o) -> r < n /\ c < n).
  Proof.
    intros H. unfold in_range in *. rewrite map_app, concat_app in H. cbn [map concat] in H.
    rewrite app_nil_r in H. split; intros ch r c v I; apply (H ch r c v); apply in_or_app; auto.
  Qed.

  Lemma run_ok n cx isCRM ops : forall s, in_range V n ops ->
    run ops (mnew V n cx isCRM) = Some s ->
    Inv n cx (absof isCRM ops) s /\ crm V s = isCRM.
  Proof.
    induction ops as [|o ops IH] using rev_ind; intros s HR E.
    - cbn in E. inversion E; subst s. split; [|reflexivity].
      eapply Inv_aeq; [|apply (WL mnew_ok)].
      split; intros; cbn; destruct isCRM; reflexivity.
    - unfold CMatrix.run in E. rewrite ofold_app in E.
      destruct (ofold step ops (mnew V n cx isCRM)) as [s1|] eqn:E1; [|discriminate].
      cbn [ofold] in E. destruct (step s1 o) as [s2|] eqn:E2; [|discriminate].
      inversion E; subst s2. apply in_range_snoc in HR. destruct HR as [HR1 HR2].
      destruct (IH s1 HR1 E1) as [I1 C1].
      destruct (step_ok n cx ops s1 s o) as [I2 C2]; auto.
      { rewrite C1. exact I1. }
      split; [|congruence]. rewrite C2, C1 in I2. exact I2.
  Qed.

  (* ---------- C03 / C04 ---------- *)
  Lemma chok_of cx ch : (ch = true -> cx = true) -> chok cx ch.
  Proof. auto. Qed.

  Lemma slot_iff n cx isCRM ops s r c p :
    Inv n cx (absof isCRM ops) s -> crm V s = isCRM -> compressed V s = true ->
    r < n -> c < n ->
    (slot isCRM (ap V s) (ai V s) r c p <->
     exists col, nth_error (sym V s) (if isCRM then r else c) = Some col /\
       aget (if isCRM then c else r) col = Some p).
  Proof.
    intros [C H] HC Hc Hr Hcc. rewrite Hc in H. destruct H as [K O].
    set (maj := if isCRM then r else c). set (mi := if isCRM then c else r).
    unfold slot. fold maj mi.
    assert (Hmaj : maj < n) by (unfold maj; destruct isCRM; assumption).
    destruct (nth_error_ex (sym V s) maj) as [col Hcol];
      [rewrite (c_symlen _ _ _ _ _ _ _ C); exact Hmaj|].
    destruct (k_lay _ _ _ _ _ K maj col Hcol) as (b & e & B1 & B2 & L1 & L2 & HA & _).
    split.
    - intros (b' & e' & E1 & E2 & Hp & Hn). exists col. split; [exact Hcol|].
      apply HA. assert (b = b') by congruence. assert (e = e') by congruence. subst b' e'. auto.
    - intros (col' & Hcol' & Hp). assert (col' = col) by congruence. subst col'.
      apply HA in Hp. exists b, e. tauto.
  Qed.

  Lemma run_finalized n cx isCRM ops s : in_range V n ops ->
    run (ops ++ [Finalize V]) (mnew V n cx isCRM) = Some s ->
    Inv n cx (absof isCRM ops) s /\ crm V s = isCRM /\ compressed V s = true.
  Proof.
    intros HR E. unfold CMatrix.run in E. rewrite ofold_app in E.
    destruct (ofold step ops (mnew V n cx isCRM)) as [s1|] eqn:E1; [|discriminate].
    destruct (run_ok n cx isCRM ops s1 HR E1) as [I1 C1].
    cbn [ofold CMatrix.step] in E.
    destruct ((WL finalize_ok) n cx _ s1 I1)
      as (s2 & E2 & I2 & Z2 & R2 & _).
    rewrite E2 in E. inversion E; subst s2. split; [exact I2|]. split; [congruence|exact Z2].
  Qed.

  Lemma c03_lemma n cx isCRM ops s : in_range V n ops ->
    run (ops ++ [Finalize V]) (mnew V n cx isCRM) = Some s ->
    forall r c, r < n -> c < n ->
    (touched ops r c = true ->
       exists p, slot isCRM (ap V s) (ai V s) r c p /\
         (forall q, slot isCRM (ap V s) (ai V s) r c q -> q = p) /\
         forall ch, (ch = true -> cx = true) ->
           nth_error (ax V s ch) p = Some (accumulated ops ch r c)) /\
    (touched ops r c = false ->
       (forall p, ~ slot isCRM (ap V s) (ai V s) r c p) /\
       forall ch, accumulated ops ch r c = zero).
  Proof.
    intros HR E r c Hr Hc.
    destruct (run_finalized n cx isCRM ops s HR E) as (I & HC & Z).
    pose proof I as I0. destruct I as [C H]. rewrite Z in H. destruct H as [K O].
    assert (Hmaj : (if isCRM then r else c) < n) by (destruct isCRM; assumption).
    destruct (nth_error_ex (sym V s) (if isCRM then r else c)) as [col Hcol];
      [rewrite (c_symlen _ _ _ _ _ _ _ C); exact Hmaj|].
    assert (PK : forall b, touched ops r c = b ->
       apat V (absof isCRM ops) (if isCRM then c else r) (if isCRM then r else c) = b).
    { intros b <-. cbn [absof apat]. destruct isCRM; reflexivity. }
    split.
    - intros T. apply PK in T.
      destruct (aget_Some_key (if isCRM then c else r) col) as [p Hp].
      { apply (c_keys _ _ _ _ _ _ _ C _ col Hcol). exact T. }
      exists p. split; [apply (slot_iff n cx isCRM ops s r c p I0 HC Z Hr Hc); eauto|].
      split.
      + intros q Hq. apply (slot_iff n cx isCRM ops s r c q I0 HC Z Hr Hc) in Hq.
        destruct Hq as (col' & Hcol' & Hq). congruence.
      + intros ch Hch.
        rewrite (k_val _ _ _ _ _ K ch _ col _ p (chok_of cx ch Hch) Hcol Hp).
        cbn [absof aval]. destruct isCRM; reflexivity.
    - intros T. apply PK in T. split.
      + intros p Hp. apply (slot_iff n cx isCRM ops s r c p I0 HC Z Hr Hc) in Hp.
        destruct Hp as (col' & Hcol' & Hp). apply aget_In in Hp. apply (in_map fst) in Hp.
        apply (c_keys _ _ _ _ _ _ _ C _ col' Hcol') in Hp. cbn [fst] in Hp. congruence.
      + intros ch. pose proof (c_zero _ _ _ _ _ _ _ C ch _ _ T) as HZ.
        cbn [absof aval] in HZ. destruct isCRM; exact HZ.
  Qed.

  Lemma Cmp_well_formed n cx A s : Common V zero iszero n cx A s -> Cmp V n cx A s ->
    well_formed n (ap V s) (ai V s).
  Proof.
    intros C K. unfold well_formed.
    split; [apply K|]. split; [apply K|]. split; [apply K|].
    assert (L : forall i b e, nth_error (ap V s) i = Some b -> nth_error (ap V s) (S i) = Some e ->
       exists col, nth_error (sym V s) i = Some col).
    { intros i b e _ He. apply nth_error_lt in He. rewrite (k_aplen _ _ _ _ _ K) in He.
      apply nth_error_ex. rewrite (c_symlen _ _ _ _ _ _ _ C). lia. }
    split; [|split].
    - intros i b e Hb He. destruct (L i b e Hb He) as [col Hcol].
      destruct (k_lay _ _ _ _ _ K i col Hcol) as (b' & e' & B1 & B2 & L1 & _).
      assert (b = b') by congruence. assert (e = e') by congruence. lia.
    - intros i b e p q x y Hb He. destruct (L i b e Hb He) as [col Hcol].
      destruct (k_lay _ _ _ _ _ K i col Hcol) as (b' & e' & B1 & B2 & L1 & L2 & _ & HS).
      assert (b = b') by congruence. assert (e = e') by congruence. subst b' e'.
      intros. eapply (HS p q); eauto.
    - intros p x Hx.
      (* find the column of p *)
      assert (F : forall m, m <= n -> forall e, nth_error (ap V s) m = Some e -> p < e ->
        exists i b e', nth_error (ap V s) i = Some b /\ nth_error (ap V s) (S i) = Some e'
           /\ b <= p < e' /\ i < n).
      { induction m as [|m IH]; intros Hm e He Hp.
        - rewrite (k_first _ _ _ _ _ K) in He. inversion He. lia.
        - destruct (nth_error_ex (ap V s) m) as [b Hb]; [rewrite (k_aplen _ _ _ _ _ K); lia|].
          destruct (Nat.lt_ge_cases p b).
          + eapply IH; eauto. lia.
          + exists m, b, e. repeat split; auto; lia. }
      destruct (F n (le_n n) _ (k_last _ _ _ _ _ K)) as (i & b & e & Hb & He & Hp & Hi).
      { eapply nth_error_lt; eauto. }
      destruct (L i b e Hb He) as [col Hcol].
      destruct (k_lay _ _ _ _ _ K i col Hcol) as (b' & e' & B1 & B2 & L1 & L2 & HA & _).
      assert (b = b') by congruence. assert (e = e') by congruence. subst b' e'.
      assert (aget x col = Some p) as G by (apply HA; auto).
      apply aget_In in G. apply (in_map fst) in G.
      apply (c_keys _ _ _ _ _ _ _ C i col Hcol) in G.
      destruct (c_pat _ _ _ _ _ _ _ C x i G). assumption.
  Qed.

  Lemma c04_lemma n cx isCRM ops s : in_range V n ops ->
    run (ops ++ [Finalize V]) (mnew V n cx isCRM) = Some s ->
    well_formed n (ap V s) (ai V s) /\
    forall ch, (ch = true -> cx = true) -> length (ax V s ch) = length (ai V s).
  Proof.
    intros HR E. destruct (run_finalized n cx isCRM ops s HR E) as ([C H] & HC & Z).
    rewrite Z in H. destruct H as [K O]. split.
    - eapply Cmp_well_formed; eauto.
    - intros ch Hch. apply (k_axlen _ _ _ _ _ K). exact Hch.
  Qed.

  (* the solver may reuse its symbolic factorisation iff the pattern is unchanged *)
  Lemma add_impl_compressed n cx A s s' ch r c v : Inv n cx A s -> r < n -> c < n ->
    add_impl V zero add iszero ch s r c v = Some s' -> compressed V s' = true ->
    compressed V s = true /\ ap V s' = ap V s /\ ai V s' = ai V s.
  Proof.
    intros [C H] Hr Hc E Z. unfold add_impl in E.
    destruct (iszero v) eqn:Ez; [inversion E; subst; auto|].
    destruct (compressed V s) eqn:Ec.
    - destruct H as [K O].
      destruct (nth_error (sym V s) c) as [col|] eqn:Ecol; [|discriminate].
      destruct (aget r col) as [p|] eqn:Ep.
      + unfold add_ax in E. destruct (nth_error (ax V s ch) p); [|discriminate].
        destruct (vset _ _ _); [|discriminate]. inversion E; subst. auto.
      + destruct (decompress V zero add iszero s) as [s1|] eqn:E1; [|discriminate].
        destruct ((WL decompress_ok) n cx A s s1 C K O Ec E1)
          as (C1 & U1 & X1 & Z1 & _).
        destruct ((WL add_oob_ok) n cx A s1 s' ch r c v C1 U1 Ez Hr Hc E)
          as (_ & _ & F1 & _). congruence.
    - destruct H as [U X].
      destruct ((WL add_oob_ok) n cx A s s' ch r c v C U Ez Hr Hc E)
          as (_ & _ & F1 & _). congruence.
  Qed.

  Lemma step_compressed n cx ops s s' o : Inv n cx (absof (crm V s) ops) s ->
    (forall ch r c v, In (ch, r, c, v) (contributions V o) -> r < n /\ c < n) ->
    o <> Finalize V ->
    step s o = Some s' -> compressed V s' = true ->
    compressed V s = true /\ ap V s' = ap V s /\ ai V s' = ai V s.
  Proof.
    intros I HR Hne E Z. destruct o as [ch r c v|r c re im| |]; cbn [CMatrix.step] in E.
    - destruct (HR ch r c v) as [Hr Hc]; [left; reflexivity|].
      unfold add_entry in E. destruct (crm V s); eapply add_impl_compressed in E; eauto.
    - destruct (HR false r c re) as [Hr Hc]; [left; reflexivity|].
      unfold add_complex in E.
      assert (E' : match add_entry V zero add iszero false s r c re with
                   | Some s1 => add_entry V zero add iszero true s1 r c im | None => None end = Some s').
      { destruct (iszero re) eqn:Er.
        - rewrite add_zero_entry by exact Er. destruct (iszero im) eqn:Ei; [|exact E].
          rewrite add_zero_entry by exact Ei. exact E.
        - destruct (add_entry V zero add iszero false s r c re) as [s1|]; [|discriminate].
          destruct (iszero im) eqn:Ei; [|exact E].
          rewrite add_zero_entry by exact Ei. exact E. }
      destruct (add_entry V zero add iszero false s r c re) as [s1|] eqn:E1; [|discriminate].
      destruct (add_entry_ok n cx ops s s1 false r c re I Hr Hc E1) as (I1 & C1 & _).
      assert (G1 : compressed V s1 = true /\ ap V s' = ap V s1 /\ ai V s' = ai V s1).
      { unfold add_entry in E'. destruct (crm V s1); eapply add_impl_compressed in E'; eauto. }
      destruct G1 as (Z1 & P1 & A1).
      assert (G2 : compressed V s = true /\ ap V s1 = ap V s /\ ai V s1 = ai V s).
      { unfold add_entry in E1. destruct (crm V s); eapply add_impl_compressed in E1; eauto. }
      destruct G2 as (Z2 & P2 & A2). repeat split; congruence.
    - congruence.
    - unfold clear in E. inversion E; subst s'. destruct (cplx V s); cbn in *; auto.
  Qed.

  Lemma mid_compressed n cx isCRM ops1 : forall ops2 s1 s2, in_range V n (ops1 ++ ops2) ->
    run ops1 (mnew V n cx isCRM) = Some s1 ->
    (forall o, In o ops2 -> o <> Finalize V) ->
    run ops2 s1 = Some s2 -> compressed V s2 = true ->
    compressed V s1 = true /\ ap V s2 = ap V s1 /\ ai V s2 = ai V s1.
  Proof.
    induction ops2 as [|o ops2 IH] using rev_ind; intros s1 s2 HR E1 HF E2 Z.
    - cbn in E2. inversion E2; subst. auto.
    - unfold CMatrix.run in E2. rewrite ofold_app in E2.
      destruct (ofold step ops2 s1) as [s3|] eqn:E3; [|discriminate].
      cbn [ofold] in E2. destruct (step s3 o) as [s4|] eqn:E4; [|discriminate].
      inversion E2; subst s4.
      rewrite app_assoc in HR. apply in_range_snoc in HR. destruct HR as [HR1 HR2].
      assert (R3 : run (ops1 ++ ops2) (mnew V n cx isCRM) = Some s3).
      { unfold CMatrix.run in *. rewrite ofold_app, E1. exact E3. }
      destruct (run_ok n cx isCRM (ops1 ++ ops2) s3 HR1 R3) as [I3 C3].
      destruct (step_compressed n cx (ops1 ++ ops2) s3 s2 o) as (Z3 & P3 & A3); auto.
      { rewrite C3. exact I3. }
      { apply HF. apply in_or_app. right. left. reflexivity. }
      destruct (IH s1 s3) as (Z1 & P1 & A1); auto.
      { intros o' Ho'. apply HF. apply in_or_app. left; exact Ho'. }
      repeat split; congruence.
  Qed.

  Lemma same_symbolic_lemma n cx isCRM ops1 ops2 s1 s2 : in_range V n (ops1 ++ ops2) ->
    (forall o, In o ops2 -> o <> Finalize V) ->
    run (ops1 ++ [Finalize V]) (mnew V n cx isCRM) = Some s1 ->
    run (ops1 ++ [Finalize V] ++ ops2 ++ [Finalize V]) (mnew V n cx isCRM) = Some s2 ->
    new_symbolic V s2 = false ->
    ap V s2 = ap V s1 /\ ai V s2 = ai V s1.
  Proof.
    intros HR HF E1 E2 HN.
    rewrite app_assoc in E2. unfold CMatrix.run in E2. rewrite ofold_app in E2.
    unfold CMatrix.run in E1. rewrite E1 in E2. rewrite ofold_app in E2.
    destruct (ofold step ops2 s1) as [s3|] eqn:E3; [|discriminate].
    assert (HR1 : in_range V n ((ops1 ++ [Finalize V]) ++ ops2)).
    { unfold in_range in *. rewrite !map_app, !concat_app in *. cbn [map concat contributions] in *.
      rewrite !app_nil_r in *. exact HR. }
    assert (R3 : run ((ops1 ++ [Finalize V]) ++ ops2) (mnew V n cx isCRM) = Some s3).
    { unfold CMatrix.run. rewrite ofold_app, E1. exact E3. }
    destruct (run_ok n cx isCRM _ s3 HR1 R3) as [I3 C3].
    cbn [ofold CMatrix.step] in E2.
    destruct ((WL finalize_ok) n cx _ s3 I3)
      as (s4 & E4 & I4 & Z4 & R4 & HNew & HSame).
    rewrite E4 in E2. inversion E2; subst s4.
    destruct (compressed V s3) eqn:Z3.
    - destruct (HSame eq_refl) as (_ & P & A & _).
      destruct (mid_compressed n cx isCRM (ops1 ++ [Finalize V]) ops2 s1 s3) as (_ & P1 & A1); auto.
      split; congruence.
    - destruct (HNew eq_refl) as [HN' _]. congruence.
  Qed.

  (* ---------- C06 ---------- *)
  (* at every Clear at least n values are stored *)
  Definition dense_at_clear (n : nat) (cx isCRM : bool) (ops : list (op V)) : Prop :=
    forall p q s, ops = p ++ Clear V :: q -> run p (mnew V n cx isCRM) = Some s ->
      n <= length (ax V s false).

  Lemma step_roomy n cx ops s o : Inv n cx (absof (crm V s) ops) s -> roomy V n cx s ->
    (forall ch r c v, In (ch, r, c, v) (contributions V o) -> r < n /\ c < n) ->
    (forall r c v, In (true, r, c, v) (contributions V o) -> cx = true) ->
    (o = Clear V -> n <= length (ax V s false)) ->
    exists s', step s o = Some s' /\ roomy V n cx s'.
  Proof.
    intros I HR Hrange Hchan Hcl. destruct o as [ch r c v|r c re im| |]; cbn [CMatrix.step].
    - destruct (Hrange ch r c v) as [Hr Hc]; [left; reflexivity|].
      assert (Hch : chok cx ch).
      { intros ->. eapply Hchan. left; reflexivity. }
      destruct (add_entry_total n cx ops s ch r c v I Hr Hc Hch HR) as [s' E].
      exists s'. split; [exact E|].
      destruct (add_entry_ok n cx ops s s' ch r c v I Hr Hc E) as (_ & _ & L).
      intros ch0 H0. rewrite L. apply HR. exact H0.
    - destruct (Hrange false r c re) as [Hr Hc]; [left; reflexivity|].
      assert (Hcx : cx = true) by (eapply Hchan; right; left; reflexivity).
      destruct (add_entry_total n cx ops s false r c re I Hr Hc ltac:(intros E; discriminate) HR)
        as [s1 E1].
      destruct (add_entry_ok n cx ops s s1 false r c re I Hr Hc E1) as (I1 & C1 & L1).
      assert (HR1 : roomy V n cx s1). { intros ch0 H0. rewrite L1. apply HR. exact H0. }
      destruct (add_entry_total n cx _ s1 true r c im I1 Hr Hc ltac:(intros _; exact Hcx) HR1)
        as [s2 E2].
      destruct (add_entry_ok n cx _ s1 s2 true r c im I1 Hr Hc E2) as (I2 & C2 & L2).
      unfold add_complex. exists s2. split.
      + destruct (iszero re) eqn:Er.
        * rewrite add_zero_entry in E1 by exact Er. inversion E1; subst s1.
          destruct (iszero im) eqn:Ei; [|exact E2].
          rewrite add_zero_entry in E2 by exact Ei. exact E2.
        * rewrite E1. destruct (iszero im) eqn:Ei; [|exact E2].
          rewrite add_zero_entry in E2 by exact Ei. exact E2.
      + intros ch0 H0. rewrite L2. apply HR1. exact H0.
    - destruct ((WL finalize_ok) n cx _ s I)
        as (s1 & E1 & I1 & Z1 & C1 & HN & HS).
      exists s1. split; [exact E1|]. intros ch0 H0. destruct (compressed V s).
      + destruct (HS eq_refl) as (_ & _ & _ & ->). apply HR. exact H0.
      + destruct (HN eq_refl) as [_ L]. rewrite L by exact H0. lia.
    - destruct ((WL clear_ok) n cx _ s I) as (s1 & E1 & I1 & C1 & Z1 & L).
      exists s1. split; [exact E1|]. intros ch0 H0. rewrite L by exact H0. apply Hcl. reflexivity.
  Qed.

  Lemma c06_lemma n cx isCRM ops : in_range V n ops -> channels_ok V cx ops ->
    dense_at_clear n cx isCRM ops ->
    exists s, run ops (mnew V n cx isCRM) = Some s.
  Proof.
    intros HR HC HD.
    assert (G : exists s, run ops (mnew V n cx isCRM) = Some s /\ roomy V n cx s).
    { induction ops as [|o ops IH] using rev_ind.
      - exists (mnew V n cx isCRM). split; [reflexivity|]. apply (WL mnew_ok).
      - apply in_range_snoc in HR. destruct HR as [HR1 HR2].
        destruct IH as (s1 & E1 & R1).
        + exact HR1.
        + intros r c v I. apply (HC r c v). rewrite map_app, concat_app. apply in_or_app; auto.
        + intros p q s E Hs. apply (HD p (q ++ [o]) s); [|exact Hs]. rewrite E, <- app_assoc. reflexivity.
        + destruct (run_ok n cx isCRM ops s1 HR1 E1) as [I1 C1].
          destruct (step_roomy n cx ops s1 o) as (s2 & E2 & R2).
          * rewrite C1. exact I1.
          * exact R1.
          * exact HR2.
          * intros r c v I. apply (HC r c v). rewrite map_app, concat_app. apply in_or_app.
            right. cbn [map concat]. rewrite app_nil_r. exact I.
          * intros ->. apply (HD ops [] s1); [reflexivity|exact E1].
          * exists s2. split; [|exact R2]. unfold CMatrix.run in *. rewrite ofold_app, E1.
            cbn [ofold]. rewrite E2. reflexivity. }
    destruct G as (s & E & _). eauto.
  Qed.
End Run.

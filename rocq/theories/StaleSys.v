(* Region operations and callbacks of the whole system keep the invariant of StaleEval.v. *)
From Coq Require Import String List Bool Arith Lia.
From Verif Require Import StrMap Params ParamsProofs Stale StaleProofs StaleSpec StaleEval StaleTerm.
Import ListNotations.

Section S.
Variable V : Type.
Variable zero : V.
Notation region := (region V).
Notation fm := (fm V). Notation up := (up V). Notation dep := (dep V).
Definition none : string -> Prop := fun _ => False.

Section R.
Variable rank : string -> nat.
Variable isvar : string -> Prop.
Notation wfr := (wfr V rank isvar). Notation Inv := (Inv V zero).
Notation good_def := (good_def V rank isvar).

Lemma empty_ok : forall env, wfr (mkR [] []) /\ Inv none env (mkR [] []).
Proof.
  intros env. split.
  - split; [split; constructor| |intros n M F; discriminate]. intros n x. split; [intros (l & F & _); discriminate|intros (M & F & _); discriminate].
  - split; [intros n M ms vs c m M' F; discriminate|intros n M ms vs c F; discriminate].
Qed.
(* an environment that differs only on H *)
Lemma Inv_env : forall H env env' r, (forall x, ~ H x -> env' x = env x) -> wfr r -> Inv none env r -> Inv H env' r.
Proof.
  intros H env env' r E W [A B]. split.
  - intros n M ms vs c m M' F U D I F' D' _. apply (A n M ms vs c m M' F U D I F' D'). intros [].
  - intros n M ms vs c F U D N. rewrite <- (B n M ms vs c F U D) by (intros h []).
    destruct (w_def _ _ _ _ W _ _ F) as [G _]. rewrite D in G. destruct G as (_ & _ & G & _).
    apply (prun_ext V zero _ _ _ _ ms vs); [exact G|reflexivity|]. intros p Hp. apply E. intros X. apply (N p X). apply in_or_app. right. exact Hp.
Qed.
Definition sigl (ns : list string) (r : region) : region := fold_left (signal_ V) ns r.
Lemma sigl_ok : forall ns H env r, wfr r -> Inv H env r -> wfr (sigl ns r) /\ Inv (fun h => H h /\ ~ In h ns) env (sigl ns r).
Proof.
  induction ns as [|n ns IH]; intros H env r W I; cbn [sigl fold_left].
  - split; [exact W|]. apply (Inv_weaken V zero H); [|exact I]. intros x Hx. split; [exact Hx|intros []].
  - destruct (IH _ _ _ (signal_wfr _ _ _ _ n W) (signal_Inv V zero rank isvar _ _ _ n W I)) as [A B]. split; [exact A|].
    eapply Inv_weaken; [|exact B]. intros x [[Hx Nx] Ni]. split; [exact Hx|]. intros [<-|X]; [apply Nx; reflexivity|exact (Ni X)].
Qed.

(* ---- the commands on one region ---- *)
Lemma find_register : forall n dp d x, sorted dp -> find x (register n dp d) =
  if String.eqb x n then Some (let old := match find n dp with Some l => l | None => [] end in if mem d old then old else d :: old) else find x dp.
Proof. intros n dp d x S. unfold register. apply find_put. exact S. Qed.
Lemma register_sorted : forall n dp d, sorted dp -> sorted (register n dp d).
Proof. intros n dp d S. unfold register. apply put_sorted. exact S. Qed.
Definition depl (dp : smap (list string)) (n x : string) : Prop := exists l, find n dp = Some l /\ In x l.
Lemma registers : forall n l dp, sorted dp -> sorted (fold_left (register n) l dp) /\
  forall m x, depl (fold_left (register n) l dp) m x <-> depl dp m x \/ (m = n /\ In x l).
Proof.
  intros n l. induction l as [|d l IH]; intros dp S; cbn [fold_left].
  - split; [exact S|]. intros m x. split; [left; assumption|intros [H|[_ []]]; exact H].
  - destruct (IH (register n dp d) (register_sorted _ _ _ S)) as [A B]. split; [exact A|]. intros m x. rewrite B.
    assert (C : depl (register n dp d) m x <-> depl dp m x \/ (m = n /\ x = d)).
    { unfold depl. rewrite find_register by exact S. destruct (String.eqb_spec m n) as [->|Hm].
      - destruct (find n dp) as [l0|]; cbn zeta.
        + destruct (mem d l0) eqn:E.
          * apply mem_In in E. split; [intros H; left; exact H|]. intros [H|[_ ->]]; [exact H|]. exists l0. auto.
          * split.
            -- intros (l1 & X & I). injection X as <-. destruct I as [<-|I]; [right; auto|left; eauto].
            -- intros [(l1 & X & I)|[_ ->]]; [injection X as <-; eexists; split; [reflexivity|right; exact I]|eexists; split; [reflexivity|left; reflexivity]].
        + cbn. split.
          * intros (l1 & X & I). injection X as <-. destruct I as [<-|[]]. right. auto.
          * intros [(l1 & X & I)|[_ ->]]; [discriminate|]. eexists. split; [reflexivity|left; reflexivity].
      - split; [left; assumption|]. intros [H|[Z _]]; [exact H|contradiction]. }
    rewrite C. cbn [In]. split.
    + intros [[H|[H1 H2]]|[H1 H2]]; [left; exact H|right; split; [exact H1|left; symmetry; exact H2]|right; split; [exact H1|right; exact H2]].
    + intros [H|[H1 [H2|H2]]]; [left; left; exact H|left; right; split; [exact H1|symmetry; exact H2]|right; split; [exact H1|exact H2]].
Qed.
Definition old_refs (r : region) (n x : string) : Prop := exists M, fm r n = Some M /\ In x (refs V (m_def M)).
(* Define leaves a hole at n *)
Lemma define_ok : forall env r n e d r', wfr r -> Inv none env r -> good_def n d -> ~ isvar n ->
  (forall x, old_refs r n x -> In x (refs V d)) -> define V zero r n e d = Some r' ->
  wfr r' /\ Inv (fun h => h = n) env r' /\ fm r' n = Some (mkM e d zero false) /\
  ((forall m, ~ old_refs r m n) -> Inv none env r').
Proof.
  intros env r n e d r' W I G NV Hold E.
  assert (Er : r' = mkR (put n (mkM e d zero false) (r_models r)) (fold_left (register n) (refs V d) (r_deps r))).
  { revert E. unfold define. destruct (find n (r_models r)) as [M|]; [destruct (Bool.eqb (m_edge M) e); [|discriminate]|]; intros E; injection E as <-; reflexivity. }
  clear E. destruct (w_m _ _ _ _ W) as [Sm Sd]. destruct (registers n (refs V d) (r_deps r) Sd) as [Sd' Hd].
  assert (FF : forall x, fm r' x = if String.eqb x n then Some (mkM e d zero false) else fm r x).
  { intros x. rewrite Er. unfold StaleProofs.fm. cbn. apply find_put. exact Sm. }
  assert (W' : wfr r').
  { split.
    - rewrite Er. split; [apply put_sorted; exact Sm|exact Sd'].
    - intros m x. assert (X : dep r' m x <-> depl (r_deps r) m x \/ (m = n /\ In x (refs V d))) by (rewrite Er; exact (Hd m x)).
      rewrite X, FF. clear X. assert (Y : depl (r_deps r) m x <-> old_refs r m x) by exact (w_dep _ _ _ _ W m x). rewrite Y.
      destruct (String.eqb_spec m n) as [->|Hm].
      + split.
        * intros [H|[_ H]]; eexists; (split; [reflexivity|]); cbn; [exact (Hold _ H)|exact H].
        * intros (M & F & H). injection F as <-. right. auto.
      + split; [intros [H|[H _]]; [exact H|contradiction]|intros H; left; exact H].
    - intros m M. rewrite FF. destruct (String.eqb_spec m n) as [->|Hm]; [intros X; injection X as <-; auto|apply (w_def _ _ _ _ W)]. }
  assert (PP : forall c ms vs, within V ms vs c -> ~ In n ms -> prun V zero r' env c = prun V zero r env c).
  { intros c ms vs Hw Hn. apply (prun_ext V zero _ _ _ _ ms vs); [exact Hw| |reflexivity]. intros m Hm. rewrite FF.
    destruct (String.eqb_spec m n) as [->|]; [contradiction|reflexivity]. }
  assert (II : forall H : string -> Prop, (forall m, old_refs r m n -> H n) -> Inv H env r').
  { intros H HH. destruct I as [A B]. split.
    - intros x X ms vs c m M' Fx Ux Ex Im Fm Em Nm. rewrite FF in Fx, Fm.
      destruct (String.eqb_spec x n) as [->|Hx]; [injection Fx as <-; discriminate|].
      assert (Rx : old_refs r x m). { exists X. split; [exact Fx|]. rewrite Ex. cbn. apply in_or_app. left. exact Im. }
      destruct (String.eqb_spec m n) as [->|Hm]; [exfalso; apply Nm; exact (HH _ Rx)|].
      apply (A x X ms vs c m M' Fx Ux Ex Im Fm Em). intros [].
    - intros x X ms vs c Fx Ux Ex Nx. rewrite FF in Fx. destruct (String.eqb_spec x n) as [->|Hx]; [injection Fx as <-; discriminate|].
      assert (Hw : within V ms vs c). { destruct (w_def _ _ _ _ W _ _ Fx) as [G' _]. rewrite Ex in G'. apply G'. }
      rewrite (PP c ms vs Hw).
      + apply (B x X ms vs c Fx Ux Ex). intros h [].
      + intros Z. assert (Z' : In n (ms ++ vs)) by (apply in_or_app; left; exact Z).
        apply (Nx n); [|exact Z']. apply (HH x). exists X. split; [exact Fx|]. rewrite Ex. exact Z'. }
  split; [exact W'|]. split; [apply II; reflexivity|]. split; [rewrite FF, String.eqb_refl; reflexivity|].
  intros Hn. apply II. intros m Hm. exfalso. exact (Hn m Hm).
Qed.
Lemma delete_ok : forall env r n, wfr r -> Inv none env r -> wfr (delete_ V r n) /\ Inv none env (delete_ V r n).
Proof.
  intros env r n W I. unfold delete_. destruct (has n (r_models r)); [|split; assumption].
  set (r' := mkR (erase n (r_models r)) (erase n (r_deps r))). destruct (w_m _ _ _ _ W) as [Sm Sd].
  assert (FF : forall x, fm r' x = if String.eqb x n then None else fm r x) by (intros x; apply find_erase; exact Sm).
  assert (W' : wfr r').
  { split.
    - split; [apply erase_sorted; exact Sm|apply erase_sorted; exact Sd].
    - intros m x. rewrite FF. unfold StaleProofs.dep. cbn [r_deps r']. unfold r'. cbn [r_deps]. rewrite find_erase by exact Sd.
      destruct (String.eqb_spec m n) as [->|Hm].
      + split; [intros (l & F & _); discriminate|intros (M & F & _); discriminate].
      + exact (w_dep _ _ _ _ W m x).
    - intros m M. rewrite FF. destruct (String.eqb m n); [discriminate|apply (w_def _ _ _ _ W)]. }
  assert (I' : Inv (fun h => h = n) env r').
  { destruct I as [A B]. split.
    - intros x X ms vs c m M' Fx Ux Ex Im Fm Em Nm. rewrite FF in Fx, Fm. destruct (String.eqb x n); [discriminate|].
      destruct (String.eqb m n); [discriminate|]. apply (A x X ms vs c m M' Fx Ux Ex Im Fm Em). intros [].
    - intros x X ms vs c Fx Ux Ex Nx. rewrite FF in Fx. destruct (String.eqb x n); [discriminate|].
      rewrite <- (B x X ms vs c Fx Ux Ex) by (intros h []).
      assert (Hw : within V ms vs c). { destruct (w_def _ _ _ _ W _ _ Fx) as [G' _]. rewrite Ex in G'. apply G'. }
      apply (prun_ext V zero _ _ _ _ ms vs); [exact Hw| |reflexivity]. intros m Hm. rewrite FF.
      destruct (String.eqb_spec m n) as [->|]; [|reflexivity]. exfalso. apply (Nx n eq_refl). apply in_or_app. left. exact Hm. }
  split; [apply signal_wfr; exact W'|]. eapply Inv_weaken; [|exact (signal_Inv V zero rank isvar _ env r' n W' I')].
  intros x [X Y]. contradiction.
Qed.
Lemma set_data_ok : forall H env r n v M, wfr r -> Inv H env r -> fm r n = Some M -> m_def M = Data ->
  wfr (set_values V r n v) /\ Inv (minus H n) env (set_values V r n v).
Proof.
  intros H env r n v M W I F D. destruct (set_values_ok V zero rank isvar H env r n v M W I F) as [A1 A2 A3 A4 A5 A6 A7 A8 A9].
  - intros ms vs c E. congruence.
  - auto.
Qed.
Lemma read_ok : forall env r n M, wfr r -> Inv none env r -> fm r n = Some M ->
  wfr (fst (read_model V zero env r n)) /\ Inv none env (fst (read_model V zero env r n)) /\
  match snd (read_model V zero env r n) with
  | Val v => means V zero r env n v
  | Throw => forall v, ~ means V zero r env n v
  | NoFuel => False
  end.
Proof.
  intros env r n M W I F. rewrite (read_big V zero env r n (S (length (r_models r)) + S (rank n))); [|apply W|unfold has; unfold StaleProofs.fm in F; rewrite F; reflexivity|lia].
  destruct (eval_ok V zero rank isvar (S (length (r_models r)) + S (rank n)) env none (rank n) [] r n M W I) as (A & B & _); [lia|lia|intros h []|intros s []|exact F|].
  split; [exact (e_wf _ _ _ _ _ _ _ _ _ _ A)|]. split; [exact (e_inv _ _ _ _ _ _ _ _ _ _ A)|].
  destruct (eval V zero env (S (length (r_models r)) + S (rank n)) [] r n) as [r' x]. cbn [fst snd] in *. destruct x; cbn in B; [apply B|exact B|exact B].
Qed.
(* define and then evaluate: the hole is closed *)
Lemma read_hole : forall env r n M v, wfr r -> Inv (fun h => h = n) env r -> fm r n = Some M -> m_up M = false -> m_def M <> Data ->
  snd (read_model V zero env r n) = Val v -> wfr (fst (read_model V zero env r n)) /\ Inv none env (fst (read_model V zero env r n)).
Proof.
  intros env r n M v W I F U D. rewrite (read_big V zero env r n (S (length (r_models r)) + S (rank n))); [|apply W|unfold has; unfold StaleProofs.fm in F; rewrite F; reflexivity|lia].
  intros E.
  destruct (eval_ok V zero rank isvar (S (length (r_models r)) + S (rank n)) env (fun h => h = n) (rank n) [] r n M W I) as (A & _ & B); [lia|lia|intros h ->; lia|intros s []|exact F|].
  split; [exact (e_wf _ _ _ _ _ _ _ _ _ _ A)|]. eapply Inv_weaken; [|exact (B v E U D)]. intros x [X Y]. contradiction.
Qed.
End R.

(* ---- many regions ---- *)
Definition get2 (devs : smap (smap region)) (d r : string) : option region :=
  match find d devs with Some rs => find r rs | None => None end.
Definition sorted2 (devs : smap (smap region)) : Prop := sorted devs /\ forall d rs, find d devs = Some rs -> sorted rs.
Lemma put_reg_get : forall devs d r R R0 d' r', sorted2 devs -> get2 devs d r = Some R0 ->
  get2 (put_reg V devs d r R) d' r' = if String.eqb d' d && String.eqb r' r then Some R else get2 devs d' r'.
Proof.
  intros devs d r R R0 d' r' [S1 S2] G. unfold get2, put_reg in *. destruct (find d devs) as [rs|] eqn:F; [|discriminate].
  rewrite find_put by exact S1. destruct (String.eqb_spec d' d) as [->|Hd]; cbn [andb]; [|reflexivity].
  rewrite find_put by exact (S2 _ _ F). destruct (String.eqb r' r); [reflexivity|]. rewrite F. reflexivity.
Qed.
Lemma put_reg_sorted : forall devs d r R, sorted2 devs -> sorted2 (put_reg V devs d r R).
Proof.
  intros devs d r R [S1 S2]. unfold put_reg. destruct (find d devs) as [rs|] eqn:F; [|split; assumption].
  split; [apply put_sorted; exact S1|]. intros d' rs'. rewrite find_put by exact S1.
  destruct (String.eqb d' d); [intros X; injection X as <-; apply put_sorted; exact (S2 _ _ F)|apply S2].
Qed.
Lemma signal_regions_ok : forall l n devs, sorted2 devs -> sorted2 (signal_regions V devs l n) /\
  forall d r, exists ns, get2 (signal_regions V devs l n) d r = option_map (sigl ns) (get2 devs d r) /\
              (In (d, r) l -> get2 devs d r <> None -> In n ns).
Proof.
  induction l as [|[a b] l IH]; intros n devs S; unfold signal_regions in *; cbn [fold_left].
  - split; [exact S|]. intros d r. exists []. split; [destruct (get2 devs d r); reflexivity|intros []].
  - cbn [fst snd].
    set (devs1 := match find a devs with Some rs => match find b rs with Some R => put_reg V devs a b (signal_ V R n) | None => devs end | None => devs end).
    assert (X : sorted2 devs1 /\ forall d r, exists ns, get2 devs1 d r = option_map (sigl ns) (get2 devs d r) /\ ((a, b) = (d, r) -> get2 devs d r <> None -> In n ns)).
    { unfold devs1. destruct (find a devs) as [rs|] eqn:F; [destruct (find b rs) as [R|] eqn:G|].
      - assert (GG : get2 devs a b = Some R) by (unfold get2; rewrite F; exact G). split; [apply put_reg_sorted; exact S|].
        intros d r. rewrite (put_reg_get _ _ _ _ R _ _ S GG). destruct (String.eqb_spec d a) as [->|Hd]; cbn [andb]; [destruct (String.eqb_spec r b) as [->|Hr]|].
        + exists [n]. split; [rewrite GG; reflexivity|intros _ _; left; reflexivity].
        + exists []. split; [destruct (get2 devs a r); reflexivity|congruence].
        + exists []. split; [destruct (get2 devs d r); reflexivity|congruence].
      - split; [exact S|]. intros d r. exists []. split; [destruct (get2 devs d r); reflexivity|]. intros Z. injection Z as <- <-. unfold get2. rewrite F, G. congruence.
      - split; [exact S|]. intros d r. exists []. split; [destruct (get2 devs d r); reflexivity|]. intros Z. injection Z as <- <-. unfold get2. rewrite F. congruence. }
    destruct X as [S1 X]. destruct (IH n devs1 S1) as [S2 Y]. split; [exact S2|]. intros d r.
    destruct (X d r) as (n1 & E1 & H1). destruct (Y d r) as (n2 & E2 & H2). exists (n1 ++ n2)%list. split.
    + rewrite E2, E1. destruct (get2 devs d r); [|reflexivity]. cbn. unfold sigl. rewrite fold_left_app. reflexivity.
    + intros I N. apply in_or_app. destruct I as [I|I]; [left; exact (H1 I N)|right]. apply (H2 I). rewrite E1. destruct (get2 devs d r); [discriminate|congruence].
Qed.
Lemma get2_In : forall devs d r, get2 devs d r <> None <-> exists rs, find d devs = Some rs /\ In r (keys rs).
Proof.
  intros devs d r. unfold get2. destruct (find d devs) as [rs|].
  - rewrite find_keys. split; [intros H; eauto|intros (rs' & E & H); injection E as <-; exact H].
  - split; [congruence|intros (rs' & E & _); discriminate].
Qed.
Lemma triggers_ok : forall W (g : gdata W) ns devs, sorted2 devs -> sorted2 (fold_left (trigger V W g) ns devs) /\
  forall d r, exists l, get2 (fold_left (trigger V W g) ns devs) d r = option_map (sigl l) (get2 devs d r) /\
    (forall n, In n ns -> own_dev g d n = None -> own_reg g d r n = None -> get2 devs d r <> None -> In n l).
Proof.
  intros W g ns. induction ns as [|n ns IH]; intros devs S; cbn [fold_left].
  - split; [exact S|]. intros d r. exists []. split; [destruct (get2 devs d r); reflexivity|intros n []].
  - destruct (signal_regions_ok (signal_global W g devs n) n devs S) as [S1 X]. fold (trigger V W g devs n) in S1, X.
    destruct (IH (trigger V W g devs n) S1) as [S2 Y]. split; [exact S2|]. intros d r.
    destruct (X d r) as (l1 & E1 & H1). destruct (Y d r) as (l2 & E2 & H2). exists (l1 ++ l2)%list. split.
    + rewrite E2, E1. destruct (get2 devs d r); [|reflexivity]. cbn. unfold sigl. rewrite fold_left_app. reflexivity.
    + intros m I Od Or N. apply in_or_app. destruct I as [->|I].
      * left. apply H1; [|exact N]. apply signal_global_In. split; [apply get2_In; exact N|auto].
      * right. apply (H2 m I Od Or). rewrite E1. destruct (get2 devs d r); [discriminate|congruence].
Qed.
(* set_parameter: what a region sees changes only at n, and then the region is told *)
Lemma set_parameter_seen : forall W (g : gdata W) (devs : smap (smap region)) d r n w g' l dd rr x, ParamsProofs.wf g ->
  set_parameter W g devs d r n w = Some (g', l) -> get2 devs dd rr <> None ->
  get_region W g' dd rr x = get_region W g dd rr x \/ (x = n /\ In (dd, rr) l).
Proof.
  intros W g devs d r n w g' l dd rr x Hw E He. apply get2_In in He.
  revert E. rewrite !get_region_eq. unfold set_parameter. destruct (empty n) eqn:En; [discriminate|].
  destruct (valid_scope devs d r) eqn:Vs; cbn [negb]; [|discriminate]. unfold valid_scope in Vs. unfold empty in *.
  destruct (String.eqb_spec d "") as [->|Nd]; [destruct (String.eqb_spec r "") as [->|Nr]; [|discriminate]|destruct (String.eqb_spec r "") as [->|Nr]];
    intros X.
  - assert (Eg : g' = fst (add_global W g devs n w)) by (injection X as <- _; reflexivity). 
    assert (El : l = signal_global W (fst (add_global W g devs n w)) devs n) by (injection X as _ <-; reflexivity). subst g' l. clear X.
    change (own_reg (fst (add_global W g devs n w)) dd rr x) with (own_reg g dd rr x).
    change (own_dev (fst (add_global W g devs n w)) dd x) with (own_dev g dd x). rewrite global_add by exact Hw.
    destruct (own_reg g dd rr x) eqn:A; [left; reflexivity|]. destruct (own_dev g dd x) eqn:B; [left; reflexivity|].
    destruct (String.eqb_spec x n) as [->|]; [|left; reflexivity]. right. split; [reflexivity|]. apply signal_global_In. split; [exact He|].
    split; [exact B|exact A].
  - assert (Eg : g' = fst (add_device W g devs d n w)) by (injection X as <- _; reflexivity).
    assert (El : l = signal_device W (fst (add_device W g devs d n w)) devs d n) by (injection X as _ <-; reflexivity). subst g' l. clear X.
    change (own_reg (fst (add_device W g devs d n w)) dd rr x) with (own_reg g dd rr x). rewrite own_dev_add by exact Hw.
    change (get_global W (fst (add_device W g devs d n w)) x) with (get_global W g x).
    destruct (own_reg g dd rr x) eqn:A; [left; reflexivity|].
    destruct (String.eqb_spec dd d) as [->|]; cbn [andb]; [|left; reflexivity]. destruct (String.eqb_spec x n) as [->|]; [|left; reflexivity].
    right. split; [reflexivity|]. apply signal_device_In. split; [reflexivity|]. split; [exact He|exact A].
  - assert (Eg : g' = fst (add_region W g devs d r n w)) by (injection X as <- _; reflexivity).
    assert (El : l = signal_region devs d r) by (injection X as _ <-; reflexivity). subst g' l. clear X.
    rewrite own_reg_add by exact Hw.
    change (own_dev (fst (add_region W g devs d r n w)) dd x) with (own_dev g dd x).
    change (get_global W (fst (add_region W g devs d r n w)) x) with (get_global W g x).
    destruct (String.eqb_spec dd d) as [->|]; cbn [andb]; [|left; reflexivity]. destruct (String.eqb_spec rr r) as [->|]; cbn [andb]; [|left; reflexivity].
    destruct (String.eqb_spec x n) as [->|]; [|left; reflexivity]. right. split; [reflexivity|]. apply signal_region_In. auto.
Qed.
End S.

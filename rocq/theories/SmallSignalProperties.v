(* C61, C62: small-signal and noise analysis. *)
From Coq Require Import String List Bool Arith Lia Reals Lra ZArith.
From Verif Require Import StrMap EqTable EqTableProofs NodeKeeper NodeKeeperProofs Numbering NumberingProofs Assembly AssemblyProofs Load LoadProofs
  SmallSignal SmallSignalLoad SmallSignalUpdate SmallSignalNumbers SmallSignalProofs.
Import ListNotations.
Open Scope string_scope.
Open Scope list_scope.
Open Scope nat_scope.
Local Arguments Nat.ltb : simpl never.
Local Arguments Nat.eqb : simpl never.

Section Devices.
Variable s s' : Numbering.system.
Hypothesis Rs : reachable s.
Hypothesis Tot : (total s < 2 ^ 64)%Z.
Hypothesis Es : number_system s = (s', Some (total s)).
Hypothesis Sm : same_devs (s_devs s) (s_devs s').
Variable names : smap (list R) -> string -> string -> option (string * string).
Variable nm : string -> string -> string * string.
Variable P : smap (list R) -> string -> Prop.
Hypothesis names_ok : forall ms e v, P ms v -> names ms e v = Some (nm e v).
Hypothesis P_put : forall ms v k x, P ms v -> P (put k x ms) v.
Variable get : Z -> out (R * R).
Variable g : Z -> R * R.
Hypothesis get_ok : forall v, (0 <= v < total s)%Z -> get v = OK (g v).

Lemma store_devices : forall m, (forall d r, sorted (m d r)) ->
  (forall d r e var, equation_in s d r e var -> P (m d r) var) ->
  (forall d dv r rg, find d (s_devs s) = Some dv -> find r dv = Some rg -> NoDup (flat_map (both nm) (t_eqs (r_table rg)))) ->
  exists m', update_devices names get (s_devs s') m = OK m' /\
    (forall d r e var i v c, equation_in s d r e var -> row_of s' (UBulk d r e i) = Some v -> is_unknown s (UBulk d r e i) ->
       model_at (mkStore m' c) d r (fst (nm e var)) i (fst (g v)) /\ model_at (mkStore m' c) d r (snd (nm e var)) i (snd (g v))) /\
    (forall d r k, (forall e var, equation_in s d r e var -> k <> fst (nm e var) /\ k <> snd (nm e var)) -> find k (m' d r) = find k (m d r)).
Proof.
  intros m Hm HP HN. destruct (c13_lemma s Rs Tot) as (s2 & Es2 & Un & Rw & _). rewrite Es in Es2. injection Es2 as <-.
  destruct (numbered_table s s' Rs Sm) as (Sd & Sr & Tb & Bk).
  set (val := fun d r e i => g (match row_of s' (UBulk d r e i) with Some v => v | None => 0%Z end)).
  destruct (update_devices_ok names nm P names_ok P_put get val (s_devs s') m) as (m' & E & A & B).
  - apply sorted_NoDup. exact Sd.
  - intros d dv H. apply sorted_NoDup. eapply Sr; exact H.
  - intros d dv r rg H1 H2. destruct (Tb d dv r rg H1 H2) as (Gd & St & F1 & F2 & dv0 & rg0 & F3 & F4 & Et & En).
    split; [apply Hm|]. split; [|split; [|split]].
    + intros Z. destruct Gd as (G1 & _). rewrite G1 in Z. destruct (t_eqs (r_table rg)); [reflexivity|discriminate].
    + intros e q Hin. apply (HP d r e). exists dv0, rg0, q. rewrite <- Et. repeat split; try assumption. apply In_find; assumption.
    + intros e q Hin. assert (Hk : In e (keys (t_eqs (r_table rg)))) by (apply in_map_iff; exists (e, q); auto).
      destruct (equation_index (r_table rg) e) as [ind|] eqn:Ei; [|exfalso; destruct Gd as (_ & _ & _ & _ & G5); apply G5 in Hk; congruence].
      exists ind. split; [reflexivity|]. intros i Hi.
      assert (U : is_unknown s (UBulk d r e i)). { cbn. exists dv0, rg0. rewrite <- Et, <- En. auto. }
      destruct (Rw _ U) as (v & Ev & Hv). exists v.
      assert (X : row_of s' (UBulk d r e i) = region_row rg ind i) by (cbn [row_of]; rewrite F1, F2, Ei; reflexivity).
      rewrite <- X. split; [exact Ev|]. unfold val. rewrite Ev. apply get_ok. exact Hv.
    + rewrite Et. eapply HN; eassumption.
  - exists m'. split; [exact E|]. split.
    + intros d r e var i v c (dv & rg & q & F1 & F2 & F3 & Eq) Ev U.
      destruct (Bk d r) as (dv' & rg' & I1 & I2); [exists dv, rg; auto|].
      destruct (Tb d dv' r rg' I1 I2) as (_ & _ & _ & _ & dv0 & rg0 & F4 & F5 & Et & En).
      assert (dv0 = dv) by congruence. subst dv0. assert (rg0 = rg) by congruence. subst rg0.
      destruct (A d dv' r rg' I1 I2) as (_ & Dn & _). rewrite <- Et in F3. apply find_In in F3. destruct (Dn e q F3) as (D1 & D2). rewrite Eq in D1, D2.
      assert (Hi : i < r_nodes rg'). { cbn in U. destruct U as (dv2 & rg2 & K1 & K2 & _ & K3). assert (dv2 = dv) by congruence. subst dv2. assert (rg2 = rg) by congruence. subst rg2. rewrite En. exact K3. }
      assert (N : forall h, nth_error (map (fun i => h (val d r e i)) (seq 0 (r_nodes rg'))) i = Some (h (g v) : R)).
      { intros h. rewrite nth_error_map. rewrite (nth_error_nth' _ 0) by (rewrite seq_length; exact Hi). rewrite seq_nth by exact Hi. cbn [option_map Nat.add]. unfold val. rewrite Ev. reflexivity. }
      split; eexists; cbn [st_models]; (split; [eassumption|apply N]).
    + intros d r k Hk. destruct (find d (s_devs s')) as [dv|] eqn:F1.
      * destruct (find r dv) as [rg|] eqn:F2.
        -- apply find_In in F1. apply find_In in F2. destruct (A d dv r rg F1 F2) as (_ & _ & K). apply K.
           destruct (Tb d dv r rg F1 F2) as (_ & St & _ & _ & dv0 & rg0 & F4 & F5 & Et & _).
           intros Hin. apply in_flat_map in Hin. destruct Hin as ([e q] & Hin & Hb).
           destruct (Hk e (q_var q)) as (K1 & K2); [exists dv0, rg0, q; rewrite <- Et; repeat split; try assumption; apply In_find; assumption|].
           destruct Hb as [Hb|[Hb|[]]]; [apply K1|apply K2]; symmetry; exact Hb.
        -- rewrite B; [reflexivity|]. intros d2 dv2 H2. destruct (string_dec d d2) as [<-|]; [|left; assumption]. right.
           pose proof (eq_trans (eq_sym (In_find _ _ _ Sd H2)) F1) as H3. injection H3 as ->. intros Hin. apply find_keys in Hin. exact (Hin F2).
      * rewrite B; [reflexivity|]. intros d2 dv2 H2. left. intros <-. pose proof (eq_trans (eq_sym (In_find _ _ _ Sd H2)) F1) as H3. discriminate.
Qed.
End Devices.

(* ---- names do not collide ----------------------------------------------------------------- *)
Lemma ac_nodup : forall l : smap (eqn unit), NoDup (map (fun p => q_var (snd p)) l) -> NoDup (flat_map (both (fun _ var => ((var ++ "_Real")%string, (var ++ "_Imag")%string))) l).
Proof.
  assert (N : forall a b, (a ++ "_Real" <> b ++ "_Imag")%string) by (intros a b H; apply append_inj in H; [|reflexivity]; destruct H; discriminate).
  induction l as [|[e q] t IH]; intros ND; [constructor|]. cbn [map snd] in ND. apply NoDup_cons_iff in ND. destruct ND as (Hn & ND).
  change (NoDup ([q_var q ++ "_Real"; q_var q ++ "_Imag"]%string ++ flat_map (both (fun _ var : string => ((var ++ "_Real")%string, (var ++ "_Imag")%string))) t)).
  assert (Nt : forall x, In x (flat_map (both (fun _ var : string => ((var ++ "_Real")%string, (var ++ "_Imag")%string))) t) ->
     exists b, In b (map (fun p => q_var (snd p)) t) /\ (x = b ++ "_Real" \/ x = b ++ "_Imag")%string).
  { intros x H. apply in_flat_map in H. destruct H as (p & Hp & H). exists (q_var (snd p)). split; [apply in_map_iff; exists p; auto|].
    destruct H as [H|[H|[]]]; [left|right]; symmetry; exact H. }
  cbn [app]. constructor; [|constructor; [|apply IH; exact ND]].
  - intros [H|H]; [symmetry in H; exact (N _ _ H)|]. destruct (Nt _ H) as (b & Hb & [X|X]); [|exact (N _ _ X)]. apply append_inj in X; [|reflexivity]. destruct X as (X & _). congruence.
  - intros H. destruct (Nt _ H) as (b & Hb & [X|X]); [symmetry in X; exact (N _ _ X)|]. apply append_inj in X; [|reflexivity]. destruct X as (X & _). congruence.
Qed.
Lemma noise_inj : forall o e e' x x', String.length x = String.length x' -> (o ++ "_" ++ e ++ x = o ++ "_" ++ e' ++ x')%string -> e = e' /\ x = x'.
Proof. intros o e e' x x' L H. apply append_inj_l in H. apply append_inj_l in H. apply append_inj; assumption. Qed.
Lemma noise_nodup : forall o (l : smap (eqn unit)), NoDup (keys l) -> NoDup (flat_map (both (fun e _ => (o ++ "_" ++ e ++ "_real", o ++ "_" ++ e ++ "_imag")%string)) l).
Proof.
  intros o. assert (N : forall a b, (o ++ "_" ++ a ++ "_real" <> o ++ "_" ++ b ++ "_imag")%string) by (intros a b H; apply noise_inj in H; [|reflexivity]; destruct H; discriminate).
  set (nm := fun e (_ : string) => (o ++ "_" ++ e ++ "_real", o ++ "_" ++ e ++ "_imag")%string).
  induction l as [|[e q] t IH]; intros ND; [constructor|]. cbn [keys map fst] in ND. apply NoDup_cons_iff in ND. destruct ND as (Hn & ND).
  change (NoDup ([o ++ "_" ++ e ++ "_real"; o ++ "_" ++ e ++ "_imag"]%string ++ flat_map (both nm) t)).
  assert (Nt : forall x, In x (flat_map (both nm) t) -> exists b, In b (keys t) /\ (x = o ++ "_" ++ b ++ "_real" \/ x = o ++ "_" ++ b ++ "_imag")%string).
  { intros x H. apply in_flat_map in H. destruct H as (p & Hp & H). exists (fst p). split; [apply in_map; exact Hp|]. destruct H as [H|[H|[]]]; [left|right]; symmetry; exact H. }
  cbn [app]. constructor; [|constructor; [|apply IH; exact ND]].
  - intros [H|H]; [symmetry in H; exact (N _ _ H)|]. destruct (Nt _ H) as (b & Hb & [X|X]); [|exact (N _ _ X)]. apply noise_inj in X; [|reflexivity]. destruct X as (X & _). apply Hn. rewrite X. exact Hb.
  - intros H. destruct (Nt _ H) as (b & Hb & [X|X]); [symmetry in X; exact (N _ _ X)|]. apply noise_inj in X; [|reflexivity]. destruct X as (X & _). apply Hn. rewrite X. exact Hb.
Qed.
Lemma have_numbered : forall s s' n, circuit_numbered (s_ckt s) (s_ckt s') n -> (have_nodes (s_ckt s') = true <-> k_nodes (s_ckt s) <> []).
Proof.
  intros s s' n [(C & ->)|(C & _ & _ & _ & _ & Hk & _)]; unfold have_nodes.
  - rewrite C. split; [discriminate|intros H; contradiction].
  - destruct (k_nodes (s_ckt s')) as [|p t]; [|split; [intros _; exact C|reflexivity]]. destruct (k_nodes (s_ckt s)); [contradiction|discriminate].
Qed.

(* ---- C61 ------------------------------------------------------------------------------------- *)
(* The system given to the linear solver is A = J + j w T with w = 2 pi f, where J and T are the
   matrices of the static part and of the time part after the equations were replaced at contacts
   and interfaces (as in C18), and the right hand side has the sources of the circuit and nothing
   else.  If the solver succeeds with x, the models <variable>_Real and <variable>_Imag of every
   equation hold at every node the real and imaginary part of the entry of x with the number of
   the unknown, ssac_real and ssac_imag of every circuit node likewise, and every other model and
   solution - the operating point - is as it was.  If it fails, the models are as they were. *)
Theorem C61_ac : forall s st dc time f sources (solve : mat_list (R * R) -> list (R * R) -> option (list (R * R))),
  reachable s -> (total s < 2 ^ 64)%Z -> let n := Z.to_nat (total s) in
  parts_in n dc -> parts_in n time -> tidy s st ->
  (forall d r e var, equation_in s d r e var -> find var (st_models st d r) <> None) ->
  (forall d dv r rg, find d (s_devs s) = Some dv -> find r dv = Some rg -> NoDup (map (fun p => q_var (snd p)) (t_eqs (r_table rg)))) ->
  NoDup (map fst sources) -> (forall r v, In (r, v) sources -> r < length (solved_names (k_nodes (s_ckt s)))) ->
  let w := (2 * PI * f)%R in let dest := destinations (decisions (p_devices dc)) in
  exists s' A b, number_system s = (s', Some (total s)) /\
    (forall row col, re_entry A row col = system_entry dest dc row col /\ im_entry A row col = (w * system_entry dest time row col)%R) /\
    (length b = n /\ (k_nodes (s_ckt s) = [] -> b = repeat (0%R, 0%R) n) /\
     (k_nodes (s_ckt s) <> [] -> (forall r v, In (r, v) sources -> nth (r + k_min (s_ckt s')) b (0%R, 0%R) = v) /\
       forall j, (forall r v, In (r, v) sources -> r + k_min (s_ckt s') <> j) -> nth j b (0%R, 0%R) = (0%R, 0%R))) /\
    (solve A b = None -> exists st', ac_solve rF solve s st dc time w sources = Unsolved st' /\ st_models st' = st_models st /\
       forall key l, find key (st_ckt st) = Some l -> find key (st_ckt st') = Some l) /\
    (forall x, solve A b = Some x -> length x = n -> exists st', ac_solve rF solve s st dc time w sources = Solved st' /\
       (forall d r e var i v, equation_in s d r e var -> is_unknown s (UBulk d r e i) -> row_of s' (UBulk d r e i) = Some v ->
          model_at st' d r (var ++ "_Real")%string i (fst (nth (Z.to_nat v) x (0%R, 0%R))) /\
          model_at st' d r (var ++ "_Imag")%string i (snd (nth (Z.to_nat v) x (0%R, 0%R)))) /\
       (forall c v, row_of s' (UCircuit c) = Some v ->
          circuit_at (s_ckt s') st' "ssac_real" c (fst (nth (Z.to_nat v) x (0%R, 0%R))) /\
          circuit_at (s_ckt s') st' "ssac_imag" c (snd (nth (Z.to_nat v) x (0%R, 0%R)))) /\
       (forall d r k, (forall e var, equation_in s d r e var -> k <> (var ++ "_Real")%string /\ k <> (var ++ "_Imag")%string) ->
          find k (st_models st' d r) = find k (st_models st d r)) /\
       (forall key l, key <> "ssac_real"%string -> key <> "ssac_imag"%string -> find key (st_ckt st) = Some l -> find key (st_ckt st') = Some l)).
Proof.
  intros s st dc time f sources solve Rs Tot n Hdc Htime [T1 T2 T3 T4] HV HD NDs Hsrc w dest.
  destruct (numbered s Rs Tot) as (s' & Es & Sm & Cn). destruct (load_ac_ok n dc time w Hdc Htime) as (pv & sy & El & _ & _ & Erhs & Ea).
  pose proof (have_numbered s s' _ Cn) as Hv.
  assert (Hb : exists b, (if have_nodes (s_ckt s') then set_sources (k_min (s_ckt s')) sources (sy_rhs sy) else OK (sy_rhs sy)) = OK b /\
     length b = n /\ (k_nodes (s_ckt s) = [] -> b = repeat (0%R, 0%R) n) /\
     (k_nodes (s_ckt s) <> [] -> (forall r v, In (r, v) sources -> nth (r + k_min (s_ckt s')) b (0%R, 0%R) = v) /\
       forall j, (forall r v, In (r, v) sources -> r + k_min (s_ckt s') <> j) -> nth j b (0%R, 0%R) = (0%R, 0%R))).
  { rewrite Erhs. destruct (have_nodes (s_ckt s')) eqn:Eh.
    - pose proof (proj1 Hv eq_refl) as Hne. destruct Cn as [(C & _)|(_ & _ & _ & Hm & Hc & _)]; [contradiction|].
      destruct (set_sources_ok (k_min (s_ckt s')) sources (repeat (0%R, 0%R) n) (0%R, 0%R) NDs) as (b & E & L & X & Y).
      { intros r v Hin. rewrite repeat_length. specialize (Hsrc r v Hin). fold n in Hm. lia. }
      exists b. split; [exact E|]. rewrite repeat_length in L. split; [exact L|]. split; [intros Z; contradiction|]. intros _. split; [exact X|].
      intros j Hj. rewrite Y by exact Hj. apply nth_repeat.
    - exists (repeat (0%R, 0%R) n). split; [reflexivity|]. split; [apply repeat_length|]. split; [reflexivity|]. intros Hne. apply Hv in Hne. discriminate. }
  destruct Hb as (b & Eb & Hb). exists s', (sy_ops sy), b. split; [exact Es|]. split; [exact Ea|]. split; [exact Hb|].
  assert (Hi : exists sols, (if have_nodes (s_ckt s') then Load.bind (init_solution rF (s_ckt s') "ssac_real" (st_ckt st)) (fun a =>
             Load.bind (init_solution rF (s_ckt s') "ssac_imag" a) (init_solution rF (s_ckt s') "dcop")) else OK (st_ckt st)) = OK sols /\
     sorted sols /\ (forall kk l, find kk (st_ckt st) = Some l -> find kk sols = Some l) /\
     (k_nodes (s_ckt s) <> [] -> (forall kk l, find kk sols = Some l -> length l = k_count (s_ckt s')) /\ (exists l, find "ssac_real" sols = Some l) /\ (exists l, find "ssac_imag" sols = Some l))).
  { destruct (have_nodes (s_ckt s')) eqn:Eh.
    - pose proof (proj1 Hv eq_refl) as Hne. destruct Cn as [(C & _)|(_ & _ & _ & Hm & Hc & _)]; [contradiction|].
      destruct (init3_ok (s_ckt s') "ssac_real" "ssac_imag" "dcop" (st_ckt st)) as (sols & E & S1 & L1 & X1 & X2 & P1 & _).
      + rewrite Hc. specialize (T4 Hne). destruct (solved_names (k_nodes (s_ckt s))); [contradiction|discriminate].
      + exact T2.
      + intros kk l H. rewrite Hc. eapply T3. exact H.
      + exists sols. auto 10.
    - exists (st_ckt st). split; [reflexivity|]. split; [exact T2|]. split; [auto|]. intros Hne. apply Hv in Hne. discriminate. }
  destruct Hi as (sols & Ei & Ss & Pr & Hn).
  assert (Go : forall o, solve (sy_ops sy) b = o -> ac_solve rF solve s st dc time w sources =
     match o with None => Unsolved (mkStore (st_models st) sols) | Some x => of_out
       (Load.bind (update_devices ac_names (result_at x) (s_devs s') (st_models st)) (fun m =>
        Load.bind (if have_nodes (s_ckt s') then update_circuit (s_ckt s') x "ssac_real" "ssac_imag" sols else OK sols) (fun c => OK (mkStore m c)))) end).
  { intros o Ho. unfold ac_solve. rewrite Es. cbv zeta. rewrite Ei. fold n. rewrite El, Eb, Ho. reflexivity. }
  split.
  - intros Hs. rewrite (Go None Hs). eexists. split; [reflexivity|]. split; [reflexivity|]. exact Pr.
  - intros x Hs Lx. rewrite (Go (Some x) Hs).
    destruct (store_devices s s' Rs Tot Es Sm ac_names (fun _ var => ((var ++ "_Real")%string, (var ++ "_Imag")%string)) (fun ms v => has v ms = true)) with (get := result_at x) (g := fun v => nth (Z.to_nat v) x (0%R, 0%R)) (m := st_models st)
      as (m' & Em & A & B).
    + intros ms e v H. unfold ac_names. rewrite H. reflexivity.
    + intros ms v k y H. apply has_keys. apply has_keys in H. apply keys_put. right. exact H.
    + intros v Hv'. unfold result_at. destruct (nth_error x (Z.to_nat v)) as [y|] eqn:Ey; [rewrite (nth_error_nth _ _ _ Ey); reflexivity|]. apply nth_error_None in Ey. lia.
    + exact T1.
    + intros d r e var H. specialize (HV d r e var H). unfold has. destruct (find var (st_models st d r)); [reflexivity|contradiction].
    + intros d dv r rg F1 F2. apply ac_nodup. eapply HD; eassumption.
    + rewrite Em. cbn [Load.bind].
      destruct (have_nodes (s_ckt s')) eqn:Eh.
      * pose proof (proj1 Hv eq_refl) as Hne. destruct (Hn Hne) as (N1 & N2 & N3).
        destruct (update_circuit_ok s s' x "ssac_real" "ssac_imag" sols Rs Tot Es Cn Hne Lx Ss ltac:(discriminate) N1 N2 N3) as (c & Ec & Cu & Cv).
        rewrite Ec. cbn [Load.bind of_out]. eexists. split; [reflexivity|]. split; [|split; [|split]].
        -- intros d r e var i v He U Er. exact (A d r e var i v c He Er U).
        -- intros c0 v Er. exact (Cv m' c0 v Er).
        -- intros d r k Hk. cbn [st_models]. apply B. exact Hk.
        -- intros key l H1 H2 F. cbn [st_ckt]. rewrite Cu by assumption. apply Pr. exact F.
      * cbn [Load.bind of_out]. eexists. split; [reflexivity|]. split; [|split; [|split]].
        -- intros d r e var i v He U Er. exact (A d r e var i v sols He Er U).
        -- intros c0 v Er. exfalso. cbn [row_of] in Er. destruct Cn as [(C & Ek)|(C & _)]; [rewrite Ek, C in Er; discriminate|]. apply Hv in C. discriminate.
        -- intros d r k Hk. cbn [st_models]. apply B. exact Hk.
        -- intros key l H1 H2 F. cbn [st_ckt]. apply Pr. exact F.
Qed.
Print Assumptions C61_ac.

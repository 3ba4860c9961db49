(* C62: noise analysis gives the transfer from every equation to the output. *)
From Coq Require Import String List Bool Arith Lia Reals Lra ZArith.
From Verif Require Import StrMap EqTable EqTableProofs NodeKeeper NodeKeeperProofs Numbering NumberingProofs Assembly AssemblyProofs Load LoadProofs
  SmallSignal SmallSignalLoad SmallSignalUpdate SmallSignalNumbers SmallSignalProofs SmallSignalProperties.
Import ListNotations.
Open Scope string_scope.
Open Scope list_scope.
Open Scope nat_scope.
Local Arguments Nat.ltb : simpl never.
Local Arguments Nat.eqb : simpl never.

(* ---- complex numbers and linear systems ------------------------------------------------- *)
Definition cplus (a b : R * R) : R * R := (fst a + fst b, snd a + snd b)%R.
Definition cmult (a b : R * R) : R * R := (fst a * fst b - snd a * snd b, fst a * snd b + snd a * fst b)%R.
Definition copp (a : R * R) : R * R := (- fst a, - snd a)%R.
Definition c0 : R * R := (0%R, 0%R).
Fixpoint csum (f : nat -> R * R) (n : nat) : R * R := match n with O => c0 | S k => cplus (csum f k) (f k) end.
Definition centry (A : mat_list (R * R)) (row col : nat) : R * R := (re_entry A row col, im_entry A row col).
Definition solves (n : nat) (A : mat_list (R * R)) (b : nat -> R * R) (x : nat -> R * R) : Prop :=
  forall row, row < n -> csum (fun col => cmult (centry A row col) (x col)) n = b row.
(* the transposed matrix, not conjugated *)
Definition solves_transposed (n : nat) (A : mat_list (R * R)) (b : nat -> R * R) (y : nat -> R * R) : Prop :=
  forall col, col < n -> csum (fun row => cmult (centry A row col) (y row)) n = b col.

Lemma cpair : forall a b : R * R, fst a = fst b -> snd a = snd b -> a = b.
Proof. intros [a1 a2] [b1 b2]. cbn. intros -> ->. reflexivity. Qed.
Ltac csolve := apply cpair; cbn [cplus cmult copp c0 fst snd]; ring.
Lemma csum_ext : forall f g n, (forall i, i < n -> f i = g i) -> csum f n = csum g n.
Proof. induction n as [|n IH]; intros H; cbn [csum]; [reflexivity|]. rewrite IH by (intros; apply H; lia). rewrite H by lia. reflexivity. Qed.
Lemma csum_plus : forall f g n, csum (fun i => cplus (f i) (g i)) n = cplus (csum f n) (csum g n).
Proof. induction n as [|n IH]; cbn [csum]; [csolve|]. rewrite IH. csolve. Qed.
Lemma csum_scal : forall c f n, csum (fun i => cmult (f i) c) n = cmult (csum f n) c.
Proof. induction n as [|n IH]; cbn [csum]; [csolve|]. rewrite IH. csolve. Qed.
Lemma csum_swap : forall (f : nat -> nat -> R * R) n m, csum (fun i => csum (f i) m) n = csum (fun j => csum (fun i => f i j) n) m.
Proof.
  intros f. induction n as [|n IH]; intros m; cbn [csum].
  - induction m as [|m IHm]; cbn [csum]; [reflexivity|]. rewrite <- IHm. csolve.
  - rewrite IH. rewrite <- csum_plus. reflexivity.
Qed.
Lemma csum_single : forall k c n, k < n -> csum (fun i => if i =? k then c else c0) n = c.
Proof.
  induction n as [|n IH]; intros H; [lia|]. cbn [csum]. destruct (Nat.eqb_spec n k) as [->|Hne].
  - rewrite (csum_ext _ (fun _ => c0)) by (intros i Hi; destruct (Nat.eqb_spec i k); [lia|reflexivity]).
    assert (Z : forall m, csum (fun _ => c0) m = c0) by (induction m as [|m IHm]; cbn [csum]; [reflexivity|rewrite IHm; csolve]). rewrite Z. csolve.
  - rewrite IH by lia. csolve.
Qed.
(* both sums are the sum of all y_row A_row_col x_col *)
Lemma adjoint : forall n A b b' x y, solves n A b x -> solves_transposed n A b' y ->
  csum (fun col => cmult (b' col) (x col)) n = csum (fun row => cmult (b row) (y row)) n.
Proof.
  intros n A b b' x y Hx Hy.
  transitivity (csum (fun col => csum (fun row => cmult (cmult (centry A row col) (y row)) (x col)) n) n).
  { apply csum_ext. intros col Hc. rewrite <- (Hy col Hc). symmetry. apply csum_scal. }
  rewrite csum_swap. apply csum_ext. intros row Hr. rewrite <- (Hx row Hr). rewrite <- csum_scal. apply csum_ext. intros col _. csolve.
Qed.

(* ---- C62 ------------------------------------------------------------------------------------ *)
(* the circuit node that a name stands for *)
Definition stands_for (k : keeper) (name c : string) : Prop := find name (k_alias k) = Some c \/ (find name (k_alias k) = None /\ name = c).
(* what a residual sigma of the equation with number v puts on the right hand side: it goes
   where the equation goes, with the sign of the right hand side (C18) *)
Definition injected (dest : nat -> list nat) (v : nat) (sigma : R * R) (row : nat) : R * R :=
  (- (count row (dest v) * fst sigma), - (count row (dest v) * snd sigma))%R.
(* t is the transfer from a residual at v to the unknown out: whatever the residual sigma, a solution of the system has -sigma t there *)
Definition transfer (n : nat) (A : mat_list (R * R)) (b : R * R -> nat -> R * R) (out : nat) (t : R * R) : Prop :=
  forall sigma x, solves n A (b sigma) x -> x out = copp (cmult sigma t).

Lemma unit_transfer : forall n A y out b t, out < n -> solves_transposed n A (fun col => if col =? out then (1%R, 0%R) else c0) y ->
  (forall sigma, csum (fun row => cmult (b sigma row) (y row)) n = copp (cmult sigma t)) -> transfer n A b out t.
Proof.
  intros n A y out b t Ho Hy Hb sigma x Hx. pose proof (adjoint n A _ _ x y Hx Hy) as E. rewrite Hb in E. rewrite <- E.
  rewrite (csum_ext _ (fun col => if col =? out then x out else c0)).
  - rewrite csum_single by exact Ho. reflexivity.
  - intros col _. destruct (Nat.eqb_spec col out) as [->|]; csolve.
Qed.
Lemma count_single : forall k row, count row [k] = if row =? k then 1%R else 0%R.
Proof. intros k row. unfold count, ind. cbn [rsum]. rewrite (Nat.eqb_sym k row). destruct (row =? k); lra. Qed.

(* Noise analysis with a transposed solve: <output>_<equation>_real and _imag hold for every
   equation and node the transfer from a residual of that equation at that node to the output,
   noise_<output>_real and _imag for every circuit node the transfer from its equation - for every
   equation that was not copied, with the value zero if it was removed.  For an equation that was
   copied to another one it is the transfer from a residual of that other one only
   (C62_copy_refuted).  All other models are as they were. *)
Theorem C62_noise_partial : forall s st dc time f output c (solve_t : mat_list (R * R) -> list (R * R) -> option (list (R * R))),
  reachable s -> (total s < 2 ^ 64)%Z -> let n := Z.to_nat (total s) in
  parts_in n dc -> parts_in n time -> tidy s st ->
  stands_for (s_ckt s) output c -> is_unknown s (UCircuit c) ->
  let w := (2 * PI * f)%R in let dest := destinations (decisions (p_devices dc)) in
  exists s' A b out, number_system s = (s', Some (total s)) /\ row_of s' (UCircuit c) = Some out /\
    (forall row col, re_entry A row col = system_entry dest dc row col /\ im_entry A row col = (w * system_entry dest time row col)%R) /\
    (length b = n /\ forall j, nth j b c0 = if j =? Z.to_nat out then (1%R, 0%R) else c0) /\
    (solve_t A b = None -> exists st', noise_solve rF solve_t s st dc time w output = Unsolved st' /\ st_models st' = st_models st) /\
    (forall y, solve_t A b = Some y -> length y = n -> exists st', noise_solve rF solve_t s st dc time w output = Solved st' /\
       (solves_transposed n A (fun j => nth j b c0) (fun j => nth j y c0) ->
        (forall d r e var i v, equation_in s d r e var -> is_unknown s (UBulk d r e i) -> row_of s' (UBulk d r e i) = Some v ->
           (forall t, decision (decisions (p_devices dc)) (Z.to_nat v) <> Some (Some t, true)) ->
           exists t, model_at st' d r (output ++ "_" ++ e ++ "_real")%string i (fst t) /\ model_at st' d r (output ++ "_" ++ e ++ "_imag")%string i (snd t) /\
             transfer n A (injected dest (Z.to_nat v)) (Z.to_nat out) t) /\
        (forall d r e var i v t0, equation_in s d r e var -> is_unknown s (UBulk d r e i) -> row_of s' (UBulk d r e i) = Some v ->
           decision (decisions (p_devices dc)) (Z.to_nat v) = Some (Some t0, true) ->
           exists t, model_at st' d r (output ++ "_" ++ e ++ "_real")%string i (fst t) /\ model_at st' d r (output ++ "_" ++ e ++ "_imag")%string i (snd t) /\
             transfer n A (injected (fun _ => [t0]) (Z.to_nat v)) (Z.to_nat out) t) /\
        (forall c' v, row_of s' (UCircuit c') = Some v ->
           exists t, circuit_at (s_ckt s') st' ("noise_" ++ output ++ "_real")%string c' (fst t) /\ circuit_at (s_ckt s') st' ("noise_" ++ output ++ "_imag")%string c' (snd t) /\
             transfer n A (fun sigma row => if row =? Z.to_nat v then copp sigma else c0) (Z.to_nat out) t)) /\
       (forall d r k, (forall e var, equation_in s d r e var -> k <> (output ++ "_" ++ e ++ "_real")%string /\ k <> (output ++ "_" ++ e ++ "_imag")%string) ->
          find k (st_models st' d r) = find k (st_models st d r)) /\
       (forall key l, key <> ("noise_" ++ output ++ "_real")%string -> key <> ("noise_" ++ output ++ "_imag")%string -> find key (st_ckt st) = Some l -> find key (st_ckt st') = Some l)).
Proof.
  intros s st dc time f output c solve_t Rs Tot n Hdc Htime [T1 T2 T3 T4] Hname Hunk w dest.
  destruct (numbered s Rs Tot) as (s' & Es & Sm & Cn). destruct (load_ac_ok n dc time w Hdc Htime) as (pv & sy & El & Hrep & Hpv & Erhs & Ea).
  destruct (c13_lemma s Rs Tot) as (s2 & Es2 & _ & Rw & _). rewrite Es in Es2. injection Es2 as <-.
  destruct (Rw _ Hunk) as (out & Eout & Hout).
  assert (Hne : k_nodes (s_ckt s) <> []) by (destruct Hunk as (nd & Hf & _); intros Z; rewrite Z in Hf; discriminate).
  pose proof (proj2 (have_numbered s s' _ Cn) Hne) as Hv.
  destruct Cn as [(C & _)|Cn]; [contradiction|]. pose proof Cn as (_ & Sk & Eal & Hm & Hc & Hk & Fs).
  set (row := Z.to_nat out).
  assert (Eq : equation_number (s_ckt s') output = Some row).
  { assert (X : resolve (s_ckt s') output = c) by (unfold resolve; rewrite Eal; destruct Hname as [-> | [-> ->]]; reflexivity).
    unfold equation_number, index_number. rewrite X. cbn [row_of] in Eout. destruct (find c (k_nodes (s_ckt s'))) as [nd|] eqn:En; [|discriminate].
    destruct (n_num nd) as [i|] eqn:Ei; [|discriminate]. injection Eout as <-. cbn [option_map]. f_equal. unfold row. rewrite w64_small; [lia|].
    unfold M. destruct Hunk as (nd0 & F0 & G0). rewrite Fs, F0 in En. cbn [option_map] in En. injection En as <-. cbn [n_num] in Ei. rewrite G0 in Ei.
    apply position_bound in Ei. assert (i < length (solved_names (k_nodes (s_ckt s)))) by (apply nth_error_Some; congruence). fold n in Hm. lia. }
  assert (Hrow : row < n) by (unfold row, n; lia).
  destruct (set_nth_some (sy_rhs sy) row (1%R, 0%R)) as (b & Eb); [rewrite Erhs, repeat_length; exact Hrow|].
  destruct (set_nth_spec _ _ _ _ Eb) as (Lb & _ & Nb). rewrite Erhs, repeat_length in Lb.
  assert (Hb : forall j, nth j b c0 = if j =? row then (1%R, 0%R) else c0).
  { intros j. specialize (Nb j). rewrite Erhs in Nb. destruct (j =? row); [apply nth_error_nth; exact Nb|].
    destruct (nth_error b j) as [z|] eqn:Ez; [rewrite (nth_error_nth _ _ _ Ez)|apply nth_error_None in Ez; apply nth_overflow; exact Ez].
    symmetry in Nb. apply nth_error_In in Nb. apply repeat_spec in Nb. exact Nb. }
  exists s', (sy_ops sy), b, out. split; [exact Es|]. split; [exact Eout|]. split; [exact Ea|]. split; [split; [exact Lb|exact Hb]|].
  set (rkey := ("noise_" ++ output ++ "_real")%string). set (ikey := ("noise_" ++ output ++ "_imag")%string).
  assert (Hri : rkey <> ikey) by (intros H; unfold rkey, ikey in H; apply append_inj_l in H; apply append_inj_l in H; discriminate).
  destruct (init3_ok (s_ckt s') rkey ikey "dcop" (st_ckt st)) as (sols & Ei & Ss & L1 & X1 & X2 & P1 & _).
  { rewrite Hc. specialize (T4 Hne). destruct (solved_names (k_nodes (s_ckt s))); [contradiction|discriminate]. }
  { exact T2. } { intros kk l H. rewrite Hc. eapply T3. exact H. }
  assert (Go : forall o, solve_t (sy_ops sy) b = o -> noise_solve rF solve_t s st dc time w output =
     match o with None => Unsolved (mkStore (st_models st) sols) | Some x => of_out
       (Load.bind (update_devices (noise_names output) (noise_at rF pv x) (s_devs s') (st_models st)) (fun m =>
        Load.bind (update_circuit (s_ckt s') x rkey ikey sols) (fun c => OK (mkStore m c)))) end).
  { intros o Ho. unfold noise_solve. rewrite Es. cbv zeta. rewrite Hv. cbn [negb]. rewrite Eq. fold rkey ikey. rewrite Ei. fold n. rewrite El.
    change (s_one cC) with (1%R, 0%R). rewrite Eb, Ho. reflexivity. }
  split; [intros Hs; rewrite (Go None Hs); eexists; split; reflexivity|].
  intros y Hs Ly. rewrite (Go (Some y) Hs).
  (* the value for the row of an equation *)
  set (g := fun v : Z => match dest (Z.to_nat v) with nil => c0 | t :: _ => nth t y c0 end).
  destruct (store_devices s s' Rs Tot Es Sm (noise_names output) (fun e _ => ((output ++ "_" ++ e ++ "_real")%string, (output ++ "_" ++ e ++ "_imag")%string)) (fun _ _ => True)) with (get := noise_at rF pv y) (g := g) (m := st_models st)
    as (m' & Em & A & B).
  { intros ms e v _. reflexivity. } { intros; exact I. }
  { intros v Hv'. unfold noise_at, g. destruct Hrep as (Lp & Hrep). destruct (Hrep (Z.to_nat v)) as ([[t|] keep] & Ee & Ed); [lia| |].
    - rewrite Ee. fold dest in Ed. rewrite Ed. unfold result_at. rewrite Nat2Z.id.
      assert (t < n) by (eapply (proj2 Hpv); exact Ee). destruct (nth_error y t) as [z|] eqn:Ez; [rewrite (nth_error_nth _ _ _ Ez); reflexivity|apply nth_error_None in Ez; lia].
    - rewrite Ee. fold dest in Ed. rewrite Ed. reflexivity. }
  { exact T1. } { intros; exact I. }
  { intros d dv r rg F1 F2. apply noise_nodup. destruct (numbered_table s s' Rs Sm) as (_ & _ & Tb & Bk).
    destruct (Bk d r) as (dv' & rg' & I1 & I2); [exists dv, rg; auto|]. destruct (Tb d dv' r rg' I1 I2) as (_ & St & _ & _ & dv0 & rg0 & F4 & F5 & Et & _).
    assert (dv0 = dv) by congruence. subst dv0. assert (rg0 = rg) by congruence. subst rg0. rewrite <- Et. apply sorted_NoDup. exact St. }
  rewrite Em. cbn [Load.bind].
  destruct (update_circuit_ok s s' y rkey ikey sols Rs Tot Es (or_intror Cn) Hne Ly Ss Hri L1 X1 X2) as (ck & Ec & Cu & Cv). rewrite Ec. cbn [Load.bind of_out].
  eexists. split; [reflexivity|]. split; [|split].
  - intros Hy.
    assert (Hy' : solves_transposed n (sy_ops sy) (fun col => if col =? row then (1%R, 0%R) else c0) (fun j => nth j y c0)) by (intros col Hcol; rewrite (Hy col Hcol); apply Hb).
    split; [|split].
    + intros d r e var i v He U Er Nk. destruct (A d r e var i v ck He Er U) as (A1 & A2). exists (g v). split; [exact A1|]. split; [exact A2|].
      apply (unit_transfer n (sy_ops sy) (fun j => nth j y c0)); [exact Hrow|exact Hy'|]. intros sigma.
      destruct (Rw _ U) as (v' & Ev' & Hv'). rewrite Er in Ev'. injection Ev' as <-.
      destruct Hrep as (Lp & Hrep). destruct (Hrep (Z.to_nat v)) as ([[t|] keep] & Ee & Ed); [lia| |]; fold dest in Ed.
      * assert (Hone : dest (Z.to_nat v) = [t]).
        { destruct keep; [|exact Ed]. exfalso. unfold dest, destinations in Ed. specialize (Nk t).
          destruct (decision (decisions (p_devices dc)) (Z.to_nat v)) as [[[t'|] [|]]|]; try discriminate. injection Ed as ->. apply Nk. reflexivity. }
        assert (t < n) by (eapply (proj2 Hpv); exact Ee). unfold g. rewrite Hone.
        rewrite (csum_ext _ (fun j => if j =? t then copp (cmult sigma (nth t y c0)) else c0)).
        -- apply csum_single. assumption.
        -- intros j _. unfold injected. rewrite Hone, count_single. destruct (Nat.eqb_spec j t) as [->|]; csolve.
      * unfold g. rewrite Ed. rewrite (csum_ext _ (fun j => if j =? row then c0 else c0)).
        -- rewrite csum_single by exact Hrow. csolve.
        -- intros j _. unfold injected. rewrite Ed. unfold count. cbn [rsum]. destruct (j =? row); csolve.
    + intros d r e var i v t0 He U Er Nk. destruct (A d r e var i v ck He Er U) as (A1 & A2). exists (g v). split; [exact A1|]. split; [exact A2|].
      apply (unit_transfer n (sy_ops sy) (fun j => nth j y c0)); [exact Hrow|exact Hy'|]. intros sigma.
      destruct (Rw _ U) as (v' & Ev' & Hv'). rewrite Er in Ev'. injection Ev' as <-.
      assert (Hd : dest (Z.to_nat v) = [t0; Z.to_nat v]) by (unfold dest, destinations; rewrite Nk; reflexivity).
      assert (t0 < n).
      { destruct Hrep as (Lp & Hrep). destruct (Hrep (Z.to_nat v)) as ([[t|] [|]] & Ee & Ed); [lia| | | |]; fold dest in Ed; rewrite Hd in Ed; try discriminate.
        injection Ed as ->. eapply (proj2 Hpv). exact Ee. }
      unfold g. rewrite Hd.
      rewrite (csum_ext _ (fun j => if j =? t0 then copp (cmult sigma (nth t0 y c0)) else c0)).
      * apply csum_single. assumption.
      * intros j _. unfold injected. rewrite count_single. destruct (Nat.eqb_spec j t0) as [->|]; csolve.
    + intros c' v Er. destruct (Cv m' c' v Er) as (C1 & C2). exists (nth (Z.to_nat v) y c0). split; [exact C1|]. split; [exact C2|].
      apply (unit_transfer n (sy_ops sy) (fun j => nth j y c0)); [exact Hrow|exact Hy'|]. intros sigma.
      assert (Hv' : Z.to_nat v < n).
      { cbn [row_of] in Er. destruct (find c' (k_nodes (s_ckt s'))) as [nd|] eqn:En; [|discriminate]. destruct (n_num nd) as [i|] eqn:Ein; [|discriminate]. injection Er as <-.
        rewrite Fs in En. destruct (find c' (k_nodes (s_ckt s))) as [nd0|] eqn:En0; [|discriminate]. cbn [option_map] in En. injection En as <-. cbn [n_num] in Ein.
        destruct (is_ground nd0); [discriminate|]. apply position_bound in Ein. assert (i < length (solved_names (k_nodes (s_ckt s)))) by (apply nth_error_Some; congruence).
        fold n in Hm. rewrite w64_small by (unfold M; lia). lia. }
      rewrite (csum_ext _ (fun j => if j =? Z.to_nat v then copp (cmult sigma (nth (Z.to_nat v) y c0)) else c0)).
      * apply csum_single. exact Hv'.
      * intros j _. destruct (Nat.eqb_spec j (Z.to_nat v)) as [->|]; csolve.
  - intros d r k Hk'. cbn [st_models]. apply B. exact Hk'.
  - intros key l H1 H2 F. cbn [st_ckt]. rewrite Cu by assumption. apply P1. exact F.
Qed.
Print Assumptions C62_noise_partial.

(* an output that is not a circuit node with an equation - ground, an unknown name, or no
   circuit at all - is refused, whatever the devices *)
Theorem C62_refused : forall s st dc time w output (solve_t : mat_list (R * R) -> list (R * R) -> option (list (R * R))),
  reachable s -> (total s < 2 ^ 64)%Z -> (forall c, stands_for (s_ckt s) output c -> ~ is_unknown s (UCircuit c)) ->
  noise_solve rF solve_t s st dc time w output = Refused.
Proof.
  intros s st dc time w output solve_t Rs Tot H. destruct (numbered s Rs Tot) as (s' & Es & Sm & Cn).
  unfold noise_solve. rewrite Es. cbv zeta. destruct (have_nodes (s_ckt s')) eqn:Eh; [|reflexivity]. cbn [negb].
  pose proof (proj1 (have_numbered s s' _ Cn) Eh) as Hne. destruct Cn as [(C & _)|Cn]; [contradiction|]. destruct Cn as (_ & Sk & Eal & Hm & Hc & Hk & Fs).
  assert (X : stands_for (s_ckt s) output (resolve (s_ckt s') output)).
  { unfold resolve, stands_for. rewrite Eal. destruct (find output (k_alias (s_ckt s))); [left; reflexivity|right; split; reflexivity]. }
  specialize (H _ X). unfold equation_number, index_number. rewrite Fs.
  destruct (find (resolve (s_ckt s') output) (k_nodes (s_ckt s))) as [nd|] eqn:En; [|reflexivity]. cbn [option_map n_num].
  destruct (is_ground nd) eqn:G; [reflexivity|]. exfalso. apply H. exists nd. split; [exact En|exact G].
Qed.
Print Assumptions C62_refused.

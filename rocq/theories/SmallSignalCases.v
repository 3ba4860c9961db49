(* C61, C62: concrete cases, and what does not hold. *)
From Coq Require Import String List Bool Arith Lia Reals Lra ZArith.
From Verif Require Import StrMap EqTable EqTableProofs NodeKeeper NodeKeeperProofs Numbering NumberingProofs Assembly AssemblyProofs Load LoadProofs
  SmallSignal SmallSignalLoad SmallSignalUpdate SmallSignalNumbers SmallSignalProofs SmallSignalProperties NoiseProperties.
Import ListNotations.
Open Scope string_scope.
Open Scope list_scope.
Open Scope nat_scope.

(* one device with one region of one node and a circuit whose unknown is the node "in" *)
Definition table_of (l : list (cmd unit)) : table unit := fst (run 0 empty l).
Definition one_node (l : list (cmd unit)) (cs : list ccmd) : Numbering.system :=
  Numbering.mkSys [("d", [("r", mkRg 1 (table_of l) m1)])] (crun k_new cs).
Lemma one_reachable : forall l cs, reachable (one_node l cs).
Proof.
  intros l cs. split; [repeat constructor|]. split.
  - intros d dv H. cbn [find one_node s_devs] in H. destruct (String.eqb d "d"); [|discriminate]. injection H as <-.
    split; [repeat constructor|]. intros r rg H. cbn [find] in H. destruct (String.eqb r "r"); [|discriminate]. injection H as <-. cbn [r_table]. eexists. reflexivity.
  - eexists. reflexivity.
Qed.
Definition res_in : list ccmd := [CircuitElement ER "R1" "in" "0"].
Definition two_eqs : Numbering.system := one_node [Equation "a" "V" tt; Equation "b" "n" tt] res_in.
Definition models (l : smap (list R)) : string -> string -> smap (list R) := fun d r => if String.eqb d "d" then if String.eqb r "r" then l else [] else [].
Definition at_dc : store R := mkStore (models [("V", [5%R]); ("n", [7%R])]) [("dcop", [3%R])].
(* equation b is copied to equation a at a contact; the circuit has its conductance *)
Definition dc_parts : parts R := mkParts [mkDev [(1, (Some 0, true))] [] [] [(0, 0, 1%R); (1, 1, 2%R)] []] (Some (2, ([(0, 0, 4%R)], []))) [] [] [] [].
Definition time_parts : parts R := mkParts [mkDev [] [] [] [(0, 0, 1%R)] []] None [] [] [] [].

Lemma two_total : total two_eqs = 3%Z. Proof. vm_compute. reflexivity. Qed.
Lemma two_tidy : tidy two_eqs at_dc.
Proof.
  constructor.
  - intros d r. cbn [st_models at_dc]. unfold models. destruct (String.eqb d "d"); [destruct (String.eqb r "r")|]; repeat constructor.
  - repeat constructor.
  - intros key l H. cbn [st_ckt at_dc find] in H. destruct (String.eqb key "dcop"); [|discriminate]. injection H as <-. vm_compute. reflexivity.
  - intros _. vm_compute. discriminate.
Qed.
Ltac in_parts := split; [|split; [|split; [|split; [|split]]]];
  [intros d Hd; cbn in Hd; repeat destruct Hd as [<-|Hd]; [..|destruct Hd]; cbn; (split; [|split; [|split; [|split]]])
  |intros off m v E; cbn in E; try discriminate; injection E as <- <- <-; split|..];
  cbn; repeat intro; repeat match goal with H : In _ (_ :: _) |- _ => destruct H as [H|H] | H : In _ [] |- _ => destruct H | H : _ \/ _ |- _ => destruct H as [H|H] | H : False |- _ => destruct H end;
  repeat match goal with H : (_, _) = (_, _) |- _ => injection H; clear H; intros; subst end; try lia.
Lemma dc_in : parts_in 3 dc_parts.
Proof. in_parts. Qed.
Lemma time_in : parts_in 3 time_parts.
Proof. in_parts. Qed.

(* ---- the hypotheses of C61_ac are met ------------------------------------------------ *)
Lemma eq_two : forall d r e var, equation_in two_eqs d r e var -> d = "d" /\ r = "r" /\ ((e = "a" /\ var = "V") \/ (e = "b" /\ var = "n")).
Proof.
  intros d r e var (dv & rg & q & F1 & F2 & F3 & <-). cbn [find two_eqs one_node s_devs] in F1. destruct (String.eqb_spec d "d") as [->|]; [|discriminate]. injection F1 as <-.
  cbn [find] in F2. destruct (String.eqb_spec r "r") as [->|]; [|discriminate]. injection F2 as <-. split; [reflexivity|]. split; [reflexivity|].
  cbn [r_table] in F3. change (t_eqs _) with [("a", mkQ "a" "V" tt 0); ("b", mkQ "b" "n" tt 1)] in F3. cbn [find] in F3.
  destruct (String.eqb_spec e "a") as [->|]; [injection F3 as <-; left; auto|]. destruct (String.eqb_spec e "b") as [->|]; [injection F3 as <-; right; auto|discriminate].
Qed.

Definition ex_x : list (R * R) := [(1, 2); (3, 4); (5, 6)]%R.
Example C61_case : exists st', ac_solve rF (fun _ _ => Some ex_x) two_eqs at_dc dc_parts time_parts (2 * PI * 1)%R [(0, (1%R, 0%R))] = Solved st' /\
  model_at st' "d" "r" "V_Real" 0 1%R /\ model_at st' "d" "r" "n_Imag" 0 4%R /\
  circuit_at (s_ckt (fst (number_system two_eqs))) st' "ssac_imag" "in" 6%R /\
  model_at st' "d" "r" "V" 0 5%R /\ find "dcop" (st_ckt st') = Some [3%R].
Proof.
  destruct (C61_ac two_eqs at_dc dc_parts time_parts 1%R [(0, (1%R, 0%R))] (fun _ _ => Some ex_x)) as (s' & A & b & Es & _ & _ & _ & H).
  - apply one_reachable.
  - rewrite two_total. reflexivity.
  - rewrite two_total. exact dc_in.
  - rewrite two_total. exact time_in.
  - exact two_tidy.
  - intros d r e var He. destruct (eq_two d r e var He) as (-> & -> & [(-> & ->)|(-> & ->)]); discriminate.
  - intros d dv r rg F1 F2. cbn [find two_eqs one_node s_devs] in F1. destruct (String.eqb d "d"); [|discriminate]. injection F1 as <-.
    cbn [find] in F2. destruct (String.eqb r "r"); [|discriminate]. injection F2 as <-.
    change (NoDup ["V"; "n"]). repeat constructor; cbn; intuition discriminate.
  - repeat constructor; intros [].
  - intros r v [E|[]]. injection E as <- <-. vm_compute. lia.
  - destruct (H ex_x eq_refl) as (st' & E & M1 & M2 & M3 & M4); [rewrite two_total; reflexivity|]. exists st'. split; [exact E|].
    assert (Es' : fst (number_system two_eqs) = s') by (rewrite Es; reflexivity). rewrite Es'.
    assert (Ra : row_of s' (UBulk "d" "r" "a" 0) = Some 0%Z) by (rewrite <- Es'; vm_compute; reflexivity).
    assert (Rb : row_of s' (UBulk "d" "r" "b" 0) = Some 1%Z) by (rewrite <- Es'; vm_compute; reflexivity).
    assert (Rc : row_of s' (UCircuit "in") = Some 2%Z) by (rewrite <- Es'; vm_compute; reflexivity).
    assert (Qa : equation_in two_eqs "d" "r" "a" "V") by (eexists _, _, (mkQ "a" "V" tt 0); repeat split).
    assert (Qb : equation_in two_eqs "d" "r" "b" "n") by (eexists _, _, (mkQ "b" "n" tt 1); repeat split).
    assert (Ua : is_unknown two_eqs (UBulk "d" "r" "a" 0)) by (eexists _, _; split; [reflexivity|]; split; [reflexivity|]; split; [vm_compute; auto|vm_compute; lia]).
    assert (Ub : is_unknown two_eqs (UBulk "d" "r" "b" 0)) by (eexists _, _; split; [reflexivity|]; split; [reflexivity|]; split; [vm_compute; auto|vm_compute; lia]).
    split; [exact (proj1 (M1 _ _ _ _ _ _ Qa Ua Ra))|]. split; [exact (proj2 (M1 _ _ _ _ _ _ Qb Ub Rb))|].
    split; [exact (proj2 (M2 _ _ Rc))|]. split.
    + exists [5%R]. split; [|reflexivity]. rewrite M3; [reflexivity|]. intros e var He. destruct (eq_two _ _ _ _ He) as (_ & _ & [(-> & ->)|(-> & ->)]); split; discriminate.
    + apply M4; [discriminate|discriminate|reflexivity].
Qed.

(* ---- two equations with one variable: the results of the first are lost ------------------ *)
(* "equation" replaces an equation of the same name; giving it the variable of another one
   leaves two equations for one variable *)
Definition shared : Numbering.system := one_node [Equation "a" "V" tt; Equation "b" "n" tt; Equation "b" "V" tt] res_in.
Theorem C61_shared_variable_refuted : exists s st dc x sources, reachable s /\ tidy s st /\ parts_in 3 dc /\ length x = 3 /\
  (forall d r e var, equation_in s d r e var -> find var (st_models st d r) <> None) /\
  equation_in s "d" "r" "a" "V" /\ equation_in s "d" "r" "b" "V" /\
  row_of (fst (number_system s)) (UBulk "d" "r" "a" 0) = Some 0%Z /\
  forall w, exists st', ac_solve rF (fun _ _ => Some x) s st dc dc w sources = Solved st' /\ ~ model_at st' "d" "r" "V_Real" 0 (fst (nth 0 x (0%R, 0%R))).
Proof.
  exists shared, at_dc, dc_parts, ex_x, []. split; [apply one_reachable|]. split.
  { destruct two_tidy as [T1 T2 T3 T4]. constructor; try assumption. }
  split; [exact dc_in|]. split; [reflexivity|]. split.
  { intros d r e var (dv & rg & q & F1 & F2 & F3 & <-). cbn [find shared one_node s_devs] in F1. destruct (String.eqb_spec d "d") as [->|]; [|discriminate]. injection F1 as <-.
    cbn [find] in F2. destruct (String.eqb_spec r "r") as [->|]; [|discriminate]. injection F2 as <-.
    cbn [r_table] in F3. change (t_eqs _) with [("a", mkQ "a" "V" tt 0); ("b", mkQ "b" "V" tt 2)] in F3. cbn [find] in F3.
    destruct (String.eqb e "a"); [injection F3 as <-; discriminate|]. destruct (String.eqb e "b"); [injection F3 as <-; discriminate|discriminate]. }
  split; [eexists _, _, (mkQ "a" "V" tt 0); repeat split|]. split; [eexists _, _, (mkQ "b" "V" tt 2); repeat split|]. split; [vm_compute; reflexivity|].
  intros w. eexists. split; [vm_compute; reflexivity|].
  intros (l & Hf & Hn). cbv in Hf. injection Hf as <-. cbn [nth_error] in Hn. injection Hn as Hn. unfold ex_x in Hn. cbn in Hn. lra.
Qed.
Print Assumptions C61_shared_variable_refuted.

(* ---- a variable named like the result of another ------------------------------------------ *)
(* the operating point of the variable V_Real is overwritten by the results for V *)
Definition real_var : Numbering.system := one_node [Equation "a" "V" tt; Equation "b" "V_Real" tt] res_in.
Definition real_dc : store R := mkStore (models [("V", [5%R]); ("V_Real", [7%R])]) [].
Theorem C61_operating_point_refuted : exists s st dc x sources, reachable s /\ tidy s st /\ parts_in 3 dc /\ length x = 3 /\
  equation_in s "d" "r" "a" "V" /\ equation_in s "d" "r" "b" "V_Real" /\ model_at st "d" "r" "V_Real" 0 7%R /\
  forall w, exists st', ac_solve rF (fun _ _ => Some x) s st dc dc w sources = Solved st' /\ ~ model_at st' "d" "r" "V_Real" 0 7%R.
Proof.
  exists real_var, real_dc, dc_parts, ex_x, []. split; [apply one_reachable|]. split.
  { constructor.
    - intros d r. cbn [st_models real_dc]. unfold models. destruct (String.eqb d "d"); [destruct (String.eqb r "r")|]; repeat constructor.
    - constructor.
    - intros key l H. discriminate.
    - intros _. vm_compute. discriminate. }
  split; [exact dc_in|]. split; [reflexivity|].
  split; [eexists _, _, (mkQ "a" "V" tt 0); repeat split|]. split; [eexists _, _, (mkQ "b" "V_Real" tt 1); repeat split|].
  split; [eexists; split; reflexivity|].
  intros w. eexists. split; [vm_compute; reflexivity|].
  intros (l & Hf & Hn). cbv in Hf. injection Hf as <-. cbn [nth_error] in Hn. injection Hn as Hn. lra.
Qed.
Print Assumptions C61_operating_point_refuted.

(* ---- C62 -------------------------------------------------------------------------------------- *)
Definition ex_y : list (R * R) := [(-1, 0); (-1, 0); (1, 0)]%R.
(* the matrix of the first two equations and the circuit is diagonal up to the row of the
   circuit; equation a is copied to b if [copy] *)
Definition noise_parts (copy : bool) : parts R := mkParts [mkDev (if copy then [(0, (Some 1, true))] else []) [] [] [] []] None [] []
  [(0, 0, 1%R); (1, 1, 1%R); (2, 0, 1%R); (2, 1, 1%R); (2, 2, 1%R)] [].
Definition no_parts : parts R := mkParts [] None [] [] [] [].
Lemma noise_in : forall c, parts_in 3 (noise_parts c).
Proof. intros [|]; in_parts. Qed.
Lemma no_in : parts_in 3 no_parts.
Proof. in_parts. Qed.
Lemma noise_entries : forall c dest A, (forall row col, re_entry A row col = system_entry dest (noise_parts c) row col /\ im_entry A row col = (2 * PI * 0 * system_entry dest no_parts row col)%R) ->
  centry A 0 0 = (1%R, 0%R) /\ centry A 0 1 = c0 /\ centry A 0 2 = c0 /\ centry A 1 0 = c0 /\ centry A 1 1 = (1%R, 0%R) /\ centry A 1 2 = c0 /\
  centry A 2 0 = (1%R, 0%R) /\ centry A 2 1 = (1%R, 0%R) /\ centry A 2 2 = (1%R, 0%R).
Proof.
  intros c dest A H. assert (X : forall r cc, centry A r cc = (system_entry dest (noise_parts c) r cc, 0%R)).
  { intros r cc. destruct (H r cc) as (H1 & H2). unfold centry. rewrite H1, H2. f_equal. ring. }
  rewrite !X. unfold system_entry, moved_entry, entry, c0. destruct c; cbn; unfold entry, ind; cbn; repeat split; f_equal; lra.
Qed.

Definition noise_store : store R := mkStore (models [("V", [5%R]); ("n", [7%R])]) [].
Lemma noise_tidy : tidy two_eqs noise_store.
Proof. destruct two_tidy as [T1 T2 T3 T4]. constructor; [exact T1|constructor|intros key l H; discriminate|exact T4]. Qed.
Lemma two_rows : forall s', number_system two_eqs = (s', Some (total two_eqs)) ->
  row_of s' (UBulk "d" "r" "a" 0) = Some 0%Z /\ row_of s' (UBulk "d" "r" "b" 0) = Some 1%Z /\ row_of s' (UCircuit "in") = Some 2%Z.
Proof. intros s' E. assert (Es' : fst (number_system two_eqs) = s') by (rewrite E; reflexivity). rewrite <- Es'. vm_compute. auto. Qed.
Lemma two_a : equation_in two_eqs "d" "r" "a" "V" /\ is_unknown two_eqs (UBulk "d" "r" "a" 0).
Proof. split; [eexists _, _, (mkQ "a" "V" tt 0); repeat split|eexists _, _; split; [reflexivity|]; split; [reflexivity|]; split; [vm_compute; auto|vm_compute; lia]]. Qed.
Ltac entries H := destruct H as (E00 & E01 & E02 & E10 & E11 & E12 & E20 & E21 & E22); try rewrite E00; try rewrite E01; try rewrite E02; try rewrite E10; try rewrite E11; try rewrite E12; try rewrite E20; try rewrite E21; try rewrite E22.
Lemma y_solves : forall c dest A b, (forall row col, re_entry A row col = system_entry dest (noise_parts c) row col /\ im_entry A row col = (2 * PI * 0 * system_entry dest no_parts row col)%R) ->
  (forall j, nth j b c0 = if j =? 2 then (1%R, 0%R) else c0) -> solves_transposed 3 A (fun j => nth j b c0) (fun j => nth j ex_y c0).
Proof.
  intros c dest A b HA Hb col Hc. rewrite Hb. pose proof (noise_entries c dest A HA) as E.
  destruct col as [|[|[|col]]]; [..|lia]; cbn [csum]; entries E; cbn [Nat.eqb ex_y nth]; csolve.
Qed.
(* without the copy: a residual of a at its node moves the output by minus the stored value *)
Example C62_case : exists st' A, noise_solve rF (fun _ _ => Some ex_y) two_eqs noise_store (noise_parts false) no_parts (2 * PI * 0)%R "in" = Solved st' /\
  model_at st' "d" "r" "in_a_real" 0 (-1)%R /\ model_at st' "d" "r" "in_a_imag" 0 0%R /\ transfer 3 A (injected (fun r => [r]) 0) 2 (-1, 0)%R /\
  (exists x, solves 3 A (injected (fun r => [r]) 0 (1, 0)%R) x).
Proof.
  destruct (C62_noise_partial two_eqs noise_store (noise_parts false) no_parts 0%R "in" "in" (fun _ _ => Some ex_y)) as (s' & A & b & out & Es & Eo & HA & (Lb & Hb) & _ & H).
  - apply one_reachable.
  - rewrite two_total. reflexivity.
  - rewrite two_total. apply noise_in.
  - rewrite two_total. exact no_in.
  - exact noise_tidy.
  - right. split; reflexivity.
  - eexists. split; vm_compute; reflexivity.
  - rewrite two_total in *. change (Z.to_nat 3) with 3 in *. destruct (two_rows s') as (Ra & Rb & Rc); [rewrite two_total; exact Es|]. rewrite Rc in Eo. injection Eo as <-. change (Z.to_nat 2) with 2 in *.
    destruct (H ex_y eq_refl eq_refl) as (st' & E & Hst & _ & _). exists st', A. split; [exact E|].
    destruct Hst as (HB & _ & _); [exact (y_solves false _ A b HA Hb)|].
    destruct two_a as (Qa & Ua). destruct (HB _ _ _ _ _ _ Qa Ua Ra) as (t & M1 & M2 & T); [intros t0; discriminate|]. change (Z.to_nat 0) with 0 in T.
    set (x := fun j : nat => match j with 0 => (-1, 0) | 1 => (0, 0) | _ => (1, 0) end%R).
    pose proof (noise_entries false _ A HA) as En.
    assert (Hx : solves 3 A (injected (fun r => [r]) 0 (1, 0)%R) x).
    { intros row Hr. unfold injected. rewrite count_single. destruct row as [|[|[|row]]]; [..|lia]; cbn [csum]; entries En; cbn [Nat.eqb x]; csolve. }
    assert (Ht : t = (-1, 0)%R).
    { specialize (T (1, 0)%R x Hx). cbn [x] in T. destruct t as [t1 t2]. unfold copp, cmult in T. cbn [fst snd] in T. injection T as T1 T2. f_equal; lra. }
    subst t. split; [exact M1|]. split; [exact M2|]. split; [exact T|]. exists x. exact Hx.
Qed.
(* an equation that is copied to another one (KeepCopy) adds its residual to both rows; what
   is stored is the transfer from the other one alone *)
Theorem C62_copy_refuted : exists s st dc time f output c out A y, reachable s /\ parts_in 3 dc /\ parts_in 3 time /\ tidy s st /\ total s = 3%Z /\
  stands_for (s_ckt s) output c /\ is_unknown s (UCircuit c) /\ row_of (fst (number_system s)) (UCircuit c) = Some (Z.of_nat out) /\
  let dest := destinations (decisions (p_devices dc)) in let w := (2 * PI * f)%R in
  (forall row col, re_entry A row col = system_entry dest dc row col /\ im_entry A row col = (w * system_entry dest time row col)%R) /\
  solves_transposed 3 A (fun j => if j =? out then (1%R, 0%R) else c0) (fun j => nth j y c0) /\ length y = 3 /\
  exists st', noise_solve rF (fun _ _ => Some y) s st dc time w output = Solved st' /\
    equation_in s "d" "r" "a" "V" /\ row_of (fst (number_system s)) (UBulk "d" "r" "a" 0) = Some 0%Z /\
    forall t, model_at st' "d" "r" (output ++ "_a_real")%string 0 (fst t) -> model_at st' "d" "r" (output ++ "_a_imag")%string 0 (snd t) ->
      ~ transfer 3 A (injected dest 0) out t.
Proof.
  destruct (C62_noise_partial two_eqs noise_store (noise_parts true) no_parts 0%R "in" "in" (fun _ _ => Some ex_y)) as (s' & A & b & out & Es & Eo & HA & (Lb & Hb) & _ & H).
  - apply one_reachable.
  - rewrite two_total. reflexivity.
  - rewrite two_total. apply noise_in.
  - rewrite two_total. exact no_in.
  - exact noise_tidy.
  - right. split; reflexivity.
  - eexists. split; vm_compute; reflexivity.
  - rewrite two_total in *. change (Z.to_nat 3) with 3 in *. destruct (two_rows s') as (Ra & Rb & Rc); [rewrite two_total; exact Es|]. rewrite Rc in Eo. injection Eo as <-. change (Z.to_nat 2) with 2 in *.
    assert (Es' : fst (number_system two_eqs) = s') by (rewrite Es; reflexivity).
    destruct (H ex_y eq_refl eq_refl) as (st' & E & Hst & _ & _).
    pose proof (y_solves true _ A b HA Hb) as Hy.
    exists two_eqs, noise_store, (noise_parts true), no_parts, 0%R, "in", "in", 2, A, ex_y.
    split; [apply one_reachable|]. split; [apply noise_in|]. split; [exact no_in|]. split; [exact noise_tidy|]. split; [exact two_total|].
    split; [right; split; reflexivity|]. split; [eexists; split; vm_compute; reflexivity|]. split; [rewrite Es'; exact Rc|].
    cbv zeta. split; [exact HA|]. split; [intros col Hc; rewrite (Hy col Hc); apply Hb|]. split; [reflexivity|]. exists st'. split; [exact E|].
    destruct two_a as (Qa & Ua). split; [exact Qa|]. split; [rewrite Es'; exact Ra|].
    destruct (Hst Hy) as (_ & HC & _). destruct (HC _ _ _ _ _ _ 1 Qa Ua Ra eq_refl) as (t & M1 & M2 & T). change (Z.to_nat 0) with 0 in T.
    pose proof (noise_entries true _ A HA) as En.
    intros t' M1' M2' T'.
    assert (Et : t' = t).
    { destruct M1 as (l1 & F1 & N1). destruct M1' as (l1' & F1' & N1'). destruct M2 as (l2 & F2 & N2). destruct M2' as (l2' & F2' & N2').
      cbn [append] in F1, F2, F1', F2'. apply cpair; congruence. }
    subst t'.
    set (x1 := fun j : nat => match j with 0 => (0, 0) | 1 => (-1, 0) | _ => (1, 0) end%R).
    set (x2 := fun j : nat => match j with 0 => (-1, 0) | 1 => (-1, 0) | _ => (2, 0) end%R).
    assert (H1 : solves 3 A (injected (fun _ => [1]) 0 (1, 0)%R) x1).
    { intros row Hr. unfold injected. rewrite count_single. destruct row as [|[|[|row]]]; [..|lia]; cbn [csum]; entries En; cbn [Nat.eqb x1]; csolve. }
    assert (H2 : solves 3 A (injected (destinations (decisions (p_devices (noise_parts true)))) 0 (1, 0)%R) x2).
    { intros row Hr. unfold injected. change (destinations _ 0) with [1; 0]. unfold count, ind. destruct row as [|[|[|row]]]; [..|lia]; cbn [csum]; entries En; cbn [Nat.eqb x2 rsum]; csolve. }
    specialize (T _ _ H1). specialize (T' _ _ H2). cbn [x1 x2] in T, T'. rewrite <- T in T'. injection T' as T'. lra.
Qed.
Print Assumptions C62_copy_refuted.

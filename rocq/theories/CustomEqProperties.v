(* C65: custom equations. *)
From Coq Require Import Ascii String List Bool Arith Lia ZArith Reals Lra.
From Verif Require Import StrMap Options OptionsSpec Assembly AssemblyProofs AssemblyJacobian Load LoadProofs CustomEq CustomEqProofs.
Import ListNotations.
Open Scope R_scope.
Open Scope nat_scope.
Open Scope list_scope.
Local Arguments Nat.eqb : simpl never.
Local Arguments Nat.ltb : simpl never.
Local Arguments Z.modulo : simpl never.
Local Arguments Z.pow : simpl never.
Local Arguments Z.to_nat : simpl never.
Local Arguments Nat.modulo : simpl never.

Section C65.
Variables (fz : Z -> option R) (is0 : R -> bool) (repr : obj R -> string).
Variables (float_text : string -> option R) (int_text : string -> option Z).
Notation load_custom := (load_custom rF fz is0 repr float_text int_text).

(* Every set of registered procedures, in every load mode: when the rows and columns they name are those of the system, the
   load succeeds and the system is that of the devices and the circuit plus, for every procedure, exactly the entries it
   returns for this mode: at the rows it names, or, when it asks for it, wherever the boundaries moved those rows.  A load of
   the matrix only takes no residuals from them, a load of the right hand side only takes no entries. *)
Theorem C65_loaded : forall n base w t (ps : list (string * (what -> tmode -> answer))) scl, (Z.of_nat n <= 2 ^ 31)%Z ->
  parts_in n base -> p_pm base = [] -> p_pv base = [] -> p_m base = [] -> p_v base = [] ->
  (forall nm f, In (nm, f) ps -> answer_in n (f w t)) ->
  let dest := destinations (decisions (p_devices base)) in
  exists pv s, load_perms (identity n) (p_devices base) = OK pv /\
  load_custom n pv base w t (map (fun '(nm, f) => (nm, fun w t => Some (obj_of (f w t)))) ps) scl (mkSys [] (repeat 0%R n)) = OK s /\ length (sy_rhs s) = n /\
  (forall row col, row < n -> entry (sy_ops s) row col =
     (scl * (system_entry dest base row col +
             match w with RHSONLY => 0 | _ => rsum (fun '(_, f) => answer_entry dest (f w t) row col) ps end))%R) /\
  (forall row, row < n -> rhs_at s row =
     (- (scl * (system_row dest base row +
                match w with MATRIXONLY => 0 | _ => rsum (fun '(_, f) => answer_row dest (f w t) row) ps end)))%R).
Proof.
  intros n base w t ps scl Hn Hb E1 E2 E3 E4 H dest. destruct (perms_ok n base Hb) as (pv & Ep). exists pv.
  pose proof (perms_pv_in n base pv Hb Ep) as Hin. unfold CustomEq.load_custom. fold (procs ps).
  rewrite (assemble_custom_ok fz is0 repr float_text int_text n w t ps _ Hn H). cbn [bind c_pm c_pv c_m c_v app].
  match goal with |- context [load_system rF n pv ?q _ _] => set (p := q) end.
  destruct (picked_in n true w t ps Hn H) as (A1 & A2). destruct (picked_in n false w t ps Hn H) as (B1 & B2).
  assert (Hp : parts_in n p). { destruct Hb as (Hd & Hc & _). split; [exact Hd|]. split; [exact Hc|]. cbn. auto. }
  destruct (load_system_ok n pv p scl (mkSys [] (repeat 0%R n)) Hin Hp) as (s & Es & L); [cbn; apply repeat_length|].
  exists s. split; [exact Ep|]. split; [exact Es|]. split; [exact L|].
  destruct (load_system_effect n pv _ (perms_represent _ _ _ Ep) p scl _ _ Es) as (_ & A & B). fold dest in A, B. split.
  - intros row col Hrow. rewrite A. unfold entry at 1. cbn [sy_ops rsum].
    assert (X : system_entry dest p row col = (system_entry dest base row col + rsum (fun '(_, f) => answer_entry dest (cut w (f w t)) row col) ps)%R).
    { rewrite <- (split_entry n dest w t ps row col Hrow H). unfold system_entry. rewrite E1, E3. cbn [p p_devices p_circuit p_pm p_m].
      change (moved_entry dest [] row col) with 0%R. change (entry [] row col) with 0%R. lra. }
    rewrite X. assert (Y : rsum (fun '(_, f) => answer_entry dest (cut w (f w t)) row col) ps =
       match w with RHSONLY => 0%R | _ => rsum (fun '(_, f) => answer_entry dest (f w t) row col) ps end).
    { clear. destruct w; [|apply rsum_zero; intros [nm f] _; reflexivity|]; apply rsum_ext; intros [nm f] _;
        [destruct (f MATRIXONLY t) as [[m v] b]|destruct (f MATRIXANDRHS t) as [[m v] b]]; reflexivity. }
    rewrite Y. lra.
  - intros row Hrow. rewrite B. unfold rhs_at at 1. cbn [sy_rhs].
    assert (Z : nth row (repeat 0%R n) 0%R = 0%R) by apply nth_repeat. rewrite Z.
    assert (X : system_row dest p row = (system_row dest base row + rsum (fun '(_, f) => answer_row dest (cut w (f w t)) row) ps)%R).
    { rewrite <- (split_row n dest w t ps row H). unfold system_row. rewrite E2, E4. cbn [p p_devices p_circuit p_pv p_v].
      change (moved_row dest [] row) with 0%R. change (row_sum [] row) with 0%R. lra. }
    rewrite X. assert (Y : rsum (fun '(_, f) => answer_row dest (cut w (f w t)) row) ps =
       match w with MATRIXONLY => 0%R | _ => rsum (fun '(_, f) => answer_row dest (f w t) row) ps end).
    { clear. destruct w; [apply rsum_zero; intros [nm f] _; reflexivity| |]; apply rsum_ext; intros [nm f] _;
        [destruct (f RHSONLY t) as [[m v] b]|destruct (f MATRIXANDRHS t) as [[m v] b]]; reflexivity. }
    rewrite Y. lra.
Qed.

(* an answer of the required form: a sequence of three, whose lists have whole groups with a number at the end of each; a list
   that this mode does not use is not looked at *)
Definition well_formed_answer (w : what) (o : obj R) : Prop :=
  exists mo ro fo, items o [mo; ro; fo] /\
  (w <> RHSONLY -> exists l, items mo l /\ length l mod 3 = 0 /\ forall i x, i mod 3 = 2 -> nth_error l i = Some x -> exists f, number R fz float_text x f) /\
  (w <> MATRIXONLY -> exists l, items ro l /\ length l mod 2 = 0 /\ forall i x, i mod 2 = 1 -> nth_error l i = Some x -> exists f, number R fz float_text x f).
Lemma double_number : forall o, get_double R fz float_text o <> None -> exists f, number R fz float_text o f.
Proof.
  intros o H. destruct o as [|b|z|f|s|s|l]; cbn in H; try contradiction.
  - destruct b; [destruct (fz 1) as [f|] eqn:E|destruct (fz 0) as [f|] eqn:E]; try contradiction; exists f; constructor; exact E.
  - destruct (fz z) as [f|] eqn:E; try contradiction. exists f. constructor. exact E.
  - exists f. constructor.
  - destruct (float_text s) as [f|] eqn:E; try contradiction. exists f. constructor. exact E.
  - destruct (float_text s) as [f|] eqn:E; try contradiction. exists f. constructor. exact E.
Qed.
(* A procedure that raises an exception, or whose answer is not of that form, stops the load with an error, whatever the other
   procedures return; reading the answers has no undefined behaviour. *)
Theorem C65_refused : forall n pv base w t ps scl s0,
  (forall c, CustomEq.assemble_custom fz is0 repr float_text int_text w t ps c <> UB) /\
  ((exists nm p, In (nm, p) ps /\ forall o, p w t = Some o -> ~ well_formed_answer w o) ->
   load_custom n pv base w t ps scl s0 = Throw).
Proof.
  intros n pv base w t ps scl s0. split; [intros c; apply assemble_no_UB|]. intros (nm & p & Hi & Hno). unfold CustomEq.load_custom.
  pose proof (assemble_no_UB fz is0 repr float_text int_text w t ps (mkCustom [] [] [] [])) as NU.
  pose proof (assemble_accepts fz is0 repr float_text int_text w t ps (mkCustom [] [] [] [])) as Acc.
  destruct (assemble_custom fz is0 repr float_text int_text w t ps (mkCustom [] [] [] [])) as [c| |]; [|reflexivity|contradiction].
  exfalso. destruct (Acc c eq_refl nm p Hi) as (o & Eo & mo & ro & fo & I1 & M & V). apply (Hno o Eo). exists mo, ro, fo. split; [exact I1|]. split.
  - intros Hw. destruct (M Hw) as (l & A & B & C). exists l. split; [exact A|]. split; [exact B|]. intros i x Hi' N. exact (double_number x (C i x Hi' N)).
  - intros Hw. destruct (V Hw) as (l & A & B & C). exists l. split; [exact A|]. split; [exact B|]. intros i x Hi' N. exact (double_number x (C i x Hi' N)).
Qed.

(* "An entry is refused unless it names a row of the system" is false, twice.  A residual with a row that is no integer at
   all, such as 2.0 (or None, or True), is accepted and lands in row 0: *)
Theorem C65_row_refuted : forall n v, 0 < n -> forall o, (forall z, o <> PInt z) -> (forall s, o <> PStr s) -> (forall s, o <> PBytes s) ->
  forall base, p_devices base = [] -> p_circuit base = None ->
  exists s, load_custom n (identity n) base MATRIXANDRHS DC [("f"%string, fun _ _ => Some (PList [PList []; PList [o; PFloat v]; PBool false]))]
              1%R (mkSys [] (repeat 0%R n)) = OK s /\
  forall row, row < n -> rhs_at s row = (if row =? 0 then - v else 0)%R.
Proof.
  intros n v Hn o N1 N2 N3 base E1 E2. unfold CustomEq.load_custom.
  assert (X : get_integer R repr int_text o = Some 0%Z). { destruct o; try reflexivity; exfalso; [eapply N1|eapply N2|eapply N3]; reflexivity. }
  cbn [assemble_custom list_of get_boolean bind CustomEq.assemble_one]. unfold assemble_one, read_rhs, read_mat. cbn [list_of length].
  change (2 mod 2 =? 0) with true. change (0 mod 3 =? 0) with true. cbn [rhs_entries mat_entries]. rewrite X. cbn [get_double bind app c_pm c_pv c_m c_v].
  unfold load_system. rewrite E1, E2. cbn [load_devices load_circuit bind load_matrix_perm load_rhs_perm load_matrix load_rhs p_devices p_circuit p_pm p_pv p_m p_v].
  change (size_of 0 + 0) with 0. unfold add_rhs. cbn [sy_rhs]. destruct n as [|n]; [lia|]. cbn [repeat nth_error set_nth bind].
  eexists. split; [reflexivity|]. intros row Hrow. unfold rhs_at. cbn [sy_rhs rF rhssign s_add s_mul s_opp s_one].
  destruct row as [|row]; cbn [nth]; [rewrite Nat.eqb_refl; unfold rhssign; cbn; lra|]. replace (S row =? 0) with false by reflexivity. apply nth_repeat.
Qed.
(* and a row number that is not one of the system, negative or too large, is used without a check: undefined behaviour. *)
Theorem C65_range_refuted : forall n z v b, (Z.of_nat n <= 2 ^ 31)%Z -> (- 2 ^ 31 <= z < 2 ^ 31)%Z -> ~ index n z ->
  forall base, p_devices base = [] -> p_circuit base = None ->
  load_custom n (identity n) base MATRIXANDRHS DC [("f"%string, fun _ _ => Some (obj_of ([], [(z, v)], b)))] 1%R (mkSys [] (repeat 0%R n)) = UB.
Proof.
  intros n z v b Hn Hz Hno base E1 E2. unfold CustomEq.load_custom.
  assert (X : get_integer R repr int_text (PInt z) = Some z) by (apply integer_int; exact Hz).
  assert (Y : n <= size_of z).
  { unfold size_of. unfold index in Hno. destruct (Z.lt_ge_cases z 0) as [Neg|Pos].
    - rewrite <- (Z_mod_plus_full z 1 (2 ^ 64)). rewrite Z.mod_small by lia. lia.
    - rewrite Z.mod_small by lia. lia. }
  cbn [obj_of flat_map app assemble_custom list_of get_boolean bind CustomEq.assemble_one]. unfold assemble_one, read_rhs, read_mat. cbn [list_of length].
  change (2 mod 2 =? 0) with true. change (0 mod 3 =? 0) with true. cbn [rhs_entries mat_entries]. rewrite X. cbn [get_double bind app c_pm c_pv c_m c_v].
  unfold load_system. destruct b; cbn [c_pm c_pv c_m c_v]; cbn [p_devices p_circuit p_pm p_pv p_m p_v]; rewrite E1, E2; cbn [load_devices load_circuit bind load_matrix_perm load_rhs_perm load_matrix load_rhs].
  - assert (N : nth_error (identity n) (size_of z) = None) by (apply nth_error_None; rewrite identity_length; exact Y). rewrite N. reflexivity.
  - rewrite Nat.add_0_r. unfold add_rhs. cbn [sy_rhs]. assert (N : nth_error (repeat 0%R n) (size_of z) = None) by (apply nth_error_None; rewrite repeat_length; exact Y). rewrite N. reflexivity.
Qed.
End C65.
Print Assumptions C65_loaded.
Print Assumptions C65_refused.
Print Assumptions C65_row_refuted.
Print Assumptions C65_range_refuted.

(* registration: an object that cannot be called is refused and nothing changes; otherwise the name then stands for the new
   procedure (also if it was registered before) and every other name for the one it had (sorted: the names of a std::map are distinct) *)
Theorem C65_register : forall (P : Type) ok name (p : P) ps, sorted ps ->
  sorted (snd (register ok name p ps)) /\
  fst (register ok name p ps) = ok /\ (ok = false -> snd (register ok name p ps) = ps) /\
  (ok = true -> forall k, find k (snd (register ok name p ps)) = if String.eqb k name then Some p else find k ps).
Proof.
  intros P ok name p ps Hs. unfold register. destruct ok; cbn [fst snd]; (split; [try apply put_sorted; exact Hs|]); (split; [reflexivity|]); split.
  - discriminate.
  - intros _ k. apply find_put; exact Hs.
  - intros _. reflexivity.
  - discriminate.
Qed.
Print Assumptions C65_register.

(* Non-vacuity: a contact removed row 1 and sent row 2 to row 0; two procedures, one permuted and one not *)
Definition c65_base : parts R := mkParts [mkDev [(1, (None, false)); (2, (Some 0, false))] [] [] [(0, 0, 2%R)] [(0, 1%R)]] None [] [] [] [].
Definition c65_ps : list (string * (what -> tmode -> answer)) :=
  [("a"%string, fun _ _ => ([(2, 2, 5%R); (1, 1, 9%R)]%Z, [(2, 3%R); (1, 8%R)]%Z, true)); ("b"%string, fun _ t => ([(1, 1, 4%R)]%Z, [(1, match t with DC => 6%R | TIME => 7%R end)]%Z, false))].
Example C65_ex : forall fz is0 repr ft it, exists pv s, load_perms (identity 3) (p_devices c65_base) = OK pv /\
  CustomEq.load_custom rF fz is0 repr ft it 3 pv c65_base MATRIXANDRHS DC (map (fun '(nm, f) => (nm, fun w t => Some (obj_of (f w t)))) c65_ps) 1%R (mkSys [] (repeat 0%R 3)) = OK s /\
  entry (sy_ops s) 0 2 = 5%R /\ entry (sy_ops s) 1 1 = 4%R /\ rhs_at s 0 = (-4)%R /\ rhs_at s 1 = (-6)%R /\ rhs_at s 2 = 0%R.
Proof.
  intros. destruct (C65_loaded fz is0 repr ft it 3 c65_base MATRIXANDRHS DC c65_ps 1%R) as (pv & s & Ep & Es & _ & A & B); try reflexivity; [lia| | |].
  - split; [|split; [discriminate|]].
    + intros d [<-|[]]. cbn. split; [intros r t k [E|[E|[]]]; injection E as <- <- <-; lia|]. split; [intros ? ? ? []|]. split; [intros ? ? []|].
      split; [intros r c v [E|[]]; injection E as <- <- _; lia|intros r v [E|[]]; injection E as <- _; lia].
    + cbn. split; [intros ? ? ? []|]. split; [intros ? ? []|]. split; [intros ? ? ? []|intros ? ? []].
  - intros nm f [E|[E|[]]]; injection E as _ <-; cbn; split; intros; repeat match goal with H : _ \/ _ |- _ => destruct H as [H|H] | H : False |- _ => destruct H | H : _ = _ |- _ => injection H as <- <- _ || injection H as <- _ end; unfold index; lia.
  - exists pv, s. split; [exact Ep|]. split; [exact Es|]. rewrite !A, !B by lia.
    lazy -[Rplus Rmult Ropp Rminus Rinv IZR]. repeat split; lra.
Qed.

(* C22: circuit elements.  Specification: CircuitSpec.v (law, phasor_law, kcl, ...). *)
From Coq Require Import Ascii String List Bool Arith Lia Reals Lra.
From Verif Require Import StrMap NodeKeeper Assembly AssemblyProofs CMatrixFloat FloatLaws AssemblyProperties Circuit CircuitInv CircuitSpec CircuitProofs CircuitAC.
Import ListNotations.
Open Scope string_scope.
Open Scope list_scope.
Open Scope nat_scope.

Section Histories.
Variable nz : R -> bool.
Notation exec := (exec nz). Notation step := (step nz).
(* the circuit as it is solved: after any commands, when the solve has numbered the nodes *)
Definition solved_circuit (cs : list (command R)) (start : nat) : ckt R := exec c_new (cs ++ [CSolve start]).

Lemma pack_dc : forall c sol, ready c -> exists m v, assemble_dc rF Rinv c sol = Some (m, v) /\
  (forall r x y, In (r, x, y) m -> r < k_count (c_nodes c) /\ x < k_count (c_nodes c)) /\ (forall r y, In (r, y) v -> r < k_count (c_nodes c)) /\
  (forall r, row_sum v r = orow (flat_map (dc_rhs rF Rinv sol) (elems c)) r) /\
  (forall r x, entry m r x = oent (flat_map (dc_mat rF Rinv) (elems c)) r x) /\
  (forall x r, product m x r = oprod (flat_map (dc_mat rF Rinv) (elems c)) x r).
Proof.
  intros c sol Rd. unfold assemble_dc, pack.
  assert (Hm : forall q, In q (flat_map (dc_mat rF Rinv) (elems c)) -> small c (fst (fst q)) /\ small c (snd (fst q))).
  { intros q Hq. apply in_flat_map in Hq. destruct Hq as (e & He & Hq). apply in_map_iff in He. destruct He as (p & <- & Hp). apply (proj1 (proj2 (proj2 (proj2 (elem_some c Rd sol p Hp)))) q Hq). }
  assert (Hv : forall q, In q (flat_map (dc_rhs rF Rinv sol) (elems c)) -> small c (fst q)).
  { intros q Hq. apply in_flat_map in Hq. destruct Hq as (e & He & Hq). apply in_map_iff in He. destruct He as (p & <- & Hp). apply (proj1 (elem_some c Rd sol p Hp) q Hq). }
  destruct (all_entries_some (flat_map (dc_mat rF Rinv) (elems c))) as (m & Em & Im).
  { intros q Hq. destruct (Hm q Hq) as ((a & A & _) & (b & B & _)). rewrite A, B. split; discriminate. }
  destruct (all_rows_some (flat_map (dc_rhs rF Rinv sol) (elems c))) as (v & Ev & Iv).
  { intros q Hq. destruct (Hv q Hq) as (a & A & _). rewrite A. discriminate. }
  exists m, v. rewrite Em, Ev. split; [reflexivity|]. split; [|split; [|split; [|split]]].
  - intros r x y H. destruct (Hm _ (Im _ _ _ H)) as ((a & A & La) & (b & B & Lb)). cbn in A, B. injection A as <-. injection B as <-. auto.
  - intros r y H. destruct (Hv _ (Iv _ _ H)) as (a & A & La). cbn in A. injection A as <-. exact La.
  - exact (all_rows_orow _ _ Ev).
  - exact (all_entries_oent _ _ Em).
  - intros x. exact (all_entries_oprod _ _ x Em).
Qed.
Lemma pack_tr : forall c sol, ready c -> exists m v, assemble_tr rF c sol = Some (m, v) /\
  (forall r x y, In (r, x, y) m -> r < k_count (c_nodes c) /\ x < k_count (c_nodes c)) /\ (forall r y, In (r, y) v -> r < k_count (c_nodes c)) /\
  (forall r, row_sum v r = orow (flat_map (tr_rhs rF 1%R sol) (elems c)) r) /\
  (forall r x, entry m r x = oent (flat_map (tr_mat rF 1%R) (elems c)) r x) /\
  (forall x r, product m x r = oprod (flat_map (tr_mat rF 1%R) (elems c)) x r).
Proof.
  intros c sol Rd. unfold assemble_tr, pack. change (s_one rF) with 1%R.
  assert (Hm : forall q, In q (flat_map (tr_mat rF 1%R) (elems c)) -> small c (fst (fst q)) /\ small c (snd (fst q))).
  { intros q Hq. apply in_flat_map in Hq. destruct Hq as (e & He & Hq). apply in_map_iff in He. destruct He as (p & <- & Hp). apply (proj2 (proj2 (proj2 (proj2 (elem_some c Rd sol p Hp)))) q Hq). }
  assert (Hv : forall q, In q (flat_map (tr_rhs rF 1%R sol) (elems c)) -> small c (fst q)).
  { intros q Hq. apply in_flat_map in Hq. destruct Hq as (e & He & Hq). apply in_map_iff in He. destruct He as (p & <- & Hp). apply (proj1 (proj2 (elem_some c Rd sol p Hp)) q Hq). }
  destruct (all_entries_some (flat_map (tr_mat rF 1%R) (elems c))) as (m & Em & Im).
  { intros q Hq. destruct (Hm q Hq) as ((a & A & _) & (b & B & _)). rewrite A, B. split; discriminate. }
  destruct (all_rows_some (flat_map (tr_rhs rF 1%R sol) (elems c))) as (v & Ev & Iv).
  { intros q Hq. destruct (Hv q Hq) as (a & A & _). rewrite A. discriminate. }
  exists m, v. rewrite Em, Ev. split; [reflexivity|]. split; [|split; [|split; [|split]]].
  - intros r x y H. destruct (Hm _ (Im _ _ _ H)) as ((a & A & La) & (b & B & Lb)). cbn in A, B. injection A as <-. injection B as <-. auto.
  - intros r y H. destruct (Hv _ (Iv _ _ H)) as (a & A & La). cbn in A. injection A as <-. exact La.
  - exact (all_rows_orow _ _ Ev).
  - exact (all_entries_oent _ _ Em).
  - intros x. exact (all_entries_oprod _ _ x Em).
Qed.

(* no equation or unknown of a ground node is ever addressed: every assembled row and
   column is the number of a solved node *)
Theorem C22_ground : forall cs start sol, let c := solved_circuit cs start in
  (exists m v, assemble_dc rF Rinv c sol = Some (m, v) /\
     (forall r x y, In (r, x, y) m -> r < k_count (c_nodes c) /\ x < k_count (c_nodes c)) /\ (forall r y, In (r, y) v -> r < k_count (c_nodes c))) /\
  (exists m v, assemble_tr rF c sol = Some (m, v) /\
     (forall r x y, In (r, x, y) m -> r < k_count (c_nodes c) /\ x < k_count (c_nodes c)) /\ (forall r y, In (r, y) v -> r < k_count (c_nodes c))) /\
  (exists l, assemble_ac c = Some l).
Proof.
  intros cs start sol c. assert (Rd : ready c) by apply solved_ready. split; [|split].
  - destruct (pack_dc c sol Rd) as (m & v & E & A & B & _). exists m, v. auto.
  - destruct (pack_tr c sol Rd) as (m & v & E & A & B & _). exists m, v. auto.
  - destruct (ac_list c Rd) as (l & E & _). exists l. exact E.
Qed.

(* The loaded equations all hold if and only if node voltages and branch currents satisfy
   Kirchhoff's current law at every node but ground and the law of every element.  hist are
   the weights and solutions of the time discretisation; [] is the static analysis. *)
Theorem C22_kirchhoff : forall cs start sol hist, let c := solved_circuit cs start in
  no_clash c -> no_short c ->
  ((forall r, total_row c sol hist r = 0%R) <-> exists i, currents c sol i /\ kcl c i /\ laws c sol i hist).
Proof.
  intros cs start sol hist c NC NS. assert (Rd : ready c) by apply solved_ready.
  rewrite <- (kirchhoff_orow c Rd sol hist NC NS).
  assert (E : forall r, total_row c sol hist r = orow_total c sol hist r).
  { intros r. unfold total_row, orow_total, dc_row, tr_row. destruct (pack_dc c sol Rd) as (m & v & -> & _ & _ & -> & _). f_equal.
    apply rate_ext. intros x. destruct (pack_tr c x Rd) as (m' & v' & -> & _ & _ & -> & _). reflexivity. }
  split; intros H r; [rewrite <- E|rewrite E]; apply H.
Qed.

(* Small-signal analysis: the complex vector xr + j xi solves (A + j w B) x = b, with the
   matrices of the static and the time part and the assigned right hand side, if and only
   if it is the phasor solution of the circuit. *)
Theorem C22_phasor : forall cs start w xr xi, let c := solved_circuit cs start in
  no_clash c -> no_short c ->
  exists A B b, (forall sol, exists v, assemble_dc rF Rinv c sol = Some (A, v)) /\ (forall sol, exists v, assemble_tr rF c sol = Some (B, v)) /\
    assemble_ac c = Some b /\
    let rhs := set_rhs (fun _ => (0%R, 0%R)) start b in
    ((forall r, (product A xr r - w * product B xi r)%R = fst (rhs (r + start)) /\ (product A xi r + w * product B xr r)%R = snd (rhs (r + start)))
     <-> exists ir ii, currents c xr ir /\ currents c xi ii /\ kcl c ir /\ kcl c ii /\
          forall p, In p (c_insts c) -> phasor_law w (i_kind (snd p)) (drop c xr p) (drop c xi p) (ir (fst p)) (ii (fst p))).
Proof.
  intros cs start w xr xi c NC NS. assert (Rd : ready c) by apply solved_ready.
  destruct (phasor_orow c Rd w xr xi start NC NS) as (l & El & Ph).
  destruct (pack_dc c xr Rd) as (A & va & Ea & _ & _ & _ & _ & Pa). destruct (pack_tr c xr Rd) as (B & vb & Eb & _ & _ & _ & _ & Pb).
  exists A, B, l. split; [|split; [|split; [exact El|]]].
  - intros sol. destruct (pack_dc c sol Rd) as (A' & v & E & _). exists v. rewrite E. f_equal. f_equal. unfold assemble_dc, pack in *.
    destruct (all_entries (flat_map (dc_mat rF Rinv) (elems c))); [|discriminate]. destruct (all_rows (flat_map (dc_rhs rF Rinv sol) (elems c))); [|discriminate].
    destruct (all_rows (flat_map (dc_rhs rF Rinv xr) (elems c))); [|discriminate]. congruence.
  - intros sol. destruct (pack_tr c sol Rd) as (A' & v & E & _). exists v. rewrite E. f_equal. f_equal. unfold assemble_tr, pack in *.
    destruct (all_entries (flat_map (tr_mat rF (s_one rF)) (elems c))); [|discriminate]. destruct (all_rows (flat_map (tr_rhs rF (s_one rF) sol) (elems c))); [|discriminate].
    destruct (all_rows (flat_map (tr_rhs rF (s_one rF) xr) (elems c))); [|discriminate]. congruence.
  - cbn zeta. rewrite <- Ph. split; intros H r; specialize (H r); rewrite !Pa, !Pb in *; exact H.
Qed.

(* the matrix is the derivative of the residual, static and time part, for every circuit *)
Theorem C22_jacobian : forall cs start sol col, let c := solved_circuit cs start in
  exists A B, (forall x, exists v, assemble_dc rF Rinv c x = Some (A, v)) /\ (forall x, exists v, assemble_tr rF c x = Some (B, v)) /\ forall r,
  derivable_pt_lim (fun t => dc_row c (oupd sol col t) r) (sol (Some col)) (entry A r col) /\
  derivable_pt_lim (fun t => tr_row c (oupd sol col t) r) (sol (Some col)) (entry B r col).
Proof.
  intros cs start sol col c. assert (Rd : ready c) by apply solved_ready.
  destruct (pack_dc c sol Rd) as (A & va & Ea & _ & _ & _ & Pa & _). destruct (pack_tr c sol Rd) as (B & vb & Eb & _ & _ & _ & Pb & _).
  exists A, B. split; [|split].
  - intros x. destruct (pack_dc c x Rd) as (A' & v & E & _). exists v. rewrite E. f_equal. f_equal. unfold assemble_dc, pack in *.
    destruct (all_entries (flat_map (dc_mat rF Rinv) (elems c))); [|discriminate]. destruct (all_rows (flat_map (dc_rhs rF Rinv x) (elems c))); [|discriminate].
    destruct (all_rows (flat_map (dc_rhs rF Rinv sol) (elems c))); [|discriminate]. congruence.
  - intros x. destruct (pack_tr c x Rd) as (A' & v & E & _). exists v. rewrite E. f_equal. f_equal. unfold assemble_tr, pack in *.
    destruct (all_entries (flat_map (tr_mat rF (s_one rF)) (elems c))); [|discriminate]. destruct (all_rows (flat_map (tr_rhs rF (s_one rF) x) (elems c))); [|discriminate].
    destruct (all_rows (flat_map (tr_rhs rF (s_one rF) sol) (elems c))); [|discriminate]. congruence.
  - intros r. split.
    + eapply deriv_eq; [apply (rsum_deriv (fun e t => orow (dc_rhs rF Rinv (oupd sol col t) e) r) (fun e => oent (dc_mat rF Rinv e) r col) (elems c))| |].
      * intros e _. apply dc_element_jacobian.
      * intros t. unfold dc_row. destruct (pack_dc c (oupd sol col t) Rd) as (m & v & -> & _ & _ & -> & _). apply orow_flat_map.
      * rewrite Pa. apply oent_flat_map.
    + eapply deriv_eq; [apply (rsum_deriv (fun e t => orow (tr_rhs rF 1%R (oupd sol col t) e) r) (fun e => oent (tr_mat rF 1%R e) r col) (elems c))| |].
      * intros e _. apply tr_element_jacobian.
      * intros t. unfold tr_row. destruct (pack_tr c (oupd sol col t) Rd) as (m & v & -> & _ & _ & -> & _). apply orow_flat_map.
      * rewrite Pb. apply oent_flat_map.
Qed.
End Histories.
Print Assumptions C22_ground.
Print Assumptions C22_kirchhoff.
Print Assumptions C22_phasor.
Print Assumptions C22_jacobian.

(* ---- a concrete circuit ------------------------------------------------------------ *)
(* 5 V source, 2 Ohm in series with 3 Ohm parallel to a capacitor, an inductor and a current source *)
Definition ex_circuit : list (command R) :=
  [CElement "V1" "in" "0" 5%R 1%R 0%R; CElement "R1" "in" "mid" 2%R 0%R 0%R; CElement "R2" "mid" "0" 3%R 0%R 0%R;
   CElement "C1" "mid" "0" 7%R 0%R 0%R; CElement "L1" "mid" "out" 1%R 0%R 0%R; CElement "i1" "out" "GND" 0%R 0%R 0%R; CAlter "i1" "value" 1%R].
Definition nzR (x : R) : bool := if Req_EM_T x 0%R then false else true.
Lemma nzR_zero : nzR 0%R = false. Proof. unfold nzR. destruct (Req_EM_T 0 0); [reflexivity|contradiction]. Qed.
(* commands that give a small-signal value only to voltage sources *)
Fixpoint plain_ac (cs : list (command R)) : Prop :=
  match cs with
  | nil => True
  | CElement nm _ _ _ re im :: t => (is_v (letter nm) = true \/ re = 0%R /\ im = 0%R) /\ plain_ac t
  | _ :: t => plain_ac t
  end.
Lemma exec_plain : forall cs c, plain_ac cs -> exec nzR c cs = exec (fun _ => false) c cs.
Proof.
  induction cs as [|x r IH]; intros c H; [reflexivity|]. destruct x as [s u p|nm n1 n2 v re im|nm p v|nd al| |st|]; try (cbn [Circuit.exec Circuit.step]; apply IH; exact H).
  cbn [plain_ac] in H. destruct H as (Hv & H). cbn [Circuit.exec]. rewrite IH by exact H. f_equal. f_equal. cbn [Circuit.step].
  destruct Hv as [->|(-> & ->)]; [reflexivity|]. rewrite nzR_zero. reflexivity.
Qed.
Lemma ex_insts : c_insts (solved_circuit nzR ex_circuit 4) =
  [("C1", mkInst (KC 7%R) "mid" "0"); ("L1", mkInst (KL 1%R) "mid" "out"); ("R1", mkInst (KR 2%R) "in" "mid"); ("R2", mkInst (KR 3%R) "mid" "0");
   ("V1", mkInst (KV 5%R 1%R 0%R) "in" "0"); ("i1", mkInst (KI 1%R) "out" "GND")].
Proof. unfold solved_circuit. rewrite exec_plain by (cbn; intuition). lazy -[IZR]. reflexivity. Qed.
Example C22_example : no_clash (solved_circuit nzR ex_circuit 4) /\ no_short (solved_circuit nzR ex_circuit 4).
Proof.
  unfold no_clash, no_short. rewrite ex_insts. split.
  - intros p q Hp Hq Hc. cbn in Hp, Hq. repeat (destruct Hp as [<-|Hp]; [cbn in Hc; try discriminate Hc; repeat (destruct Hq as [<-|Hq]; [split; discriminate|]); destruct Hq|]). destruct Hp.
  - intros p r Hp E. cbn in Hp. repeat (destruct Hp as [<-|Hp]; [cbn in E; try discriminate E; injection E as <-; lra|]). destruct Hp.
Qed.

(* ---- exact opposites, in any arithmetic ---------------------------------------------- *)
(* what an element adds to the equations with number r, in order *)
Definition added {S} (l : orhs S) (r : nat) : list S := map snd (filter (fun q => oeq (fst q) r) l).
Definition opposite {S} (F : scalar S) (a b : list S) : Prop := (a = [] /\ b = []) \/ exists x, (a = [x] /\ b = [s_opp F x]) \/ (a = [s_opp F x] /\ b = [x]).
Theorem C22_opposite : forall {S} (F : scalar S) inv (e : elem S) sol i j,
  (forall x, s_mul F (s_one F) x = x) ->
  is_ground (e_n1 e) = false -> is_ground (e_n2 e) = false -> n_num (e_n1 e) = Some i -> n_num (e_n2 e) = Some j -> i <> j ->
  n_num (e_int e) <> Some i -> n_num (e_int e) <> Some j ->
  opposite F (added (dc_rhs F inv sol e) i) (added (dc_rhs F inv sol e) j) /\
  opposite F (added (tr_rhs F (s_one F) sol e) i) (added (tr_rhs F (s_one F) sol e) j).
Proof.
  intros S F inv [k n1 n2 ni] sol i j One G1 G2 N1 N2 Nij I1 I2. cbn [e_n1 e_n2 e_int] in *.
  assert (Xi : oeq (n_num ni) i = false). { destruct (n_num ni) as [x|]; [|reflexivity]. cbn. apply Nat.eqb_neq. congruence. }
  assert (Xj : oeq (n_num ni) j = false). { destruct (n_num ni) as [x|]; [|reflexivity]. cbn. apply Nat.eqb_neq. congruence. }
  assert (Aii : Nat.eqb i i = true) by apply Nat.eqb_refl. assert (Ajj : Nat.eqb j j = true) by apply Nat.eqb_refl.
  assert (Aij : Nat.eqb i j = false) by (apply Nat.eqb_neq; exact Nij). assert (Aji : Nat.eqb j i = false) by (apply Nat.eqb_neq; congruence).
  unfold dc_rhs, tr_rhs, added, opposite, row1. cbn [e_kind e_n1 e_n2 e_int]. rewrite ?G1, ?G2.
  destruct (is_ground ni) eqn:G3; destruct k; cbn [app filter map fst snd]; rewrite ?N1, ?N2; unfold oeq in *; cbn [fst snd] in *;
    rewrite ?Aii, ?Ajj, ?Aij, ?Aji, ?Xi, ?Xj; cbn [app filter map fst snd]; rewrite ?N1, ?N2, ?Xi, ?Xj, ?Aii, ?Ajj, ?Aij, ?Aji; cbn [map snd]; rewrite ?One;
    (split; first [left; split; reflexivity|right; eexists; left; split; reflexivity|right; eexists; right; split; reflexivity]).
Qed.
Print Assumptions C22_opposite.
Corollary C22_opposite_double : forall inv (e : elem double) sol i j,
  is_ground (e_n1 e) = false -> is_ground (e_n2 e) = false -> n_num (e_n1 e) = Some i -> n_num (e_n2 e) = Some j -> i <> j ->
  n_num (e_int e) <> Some i -> n_num (e_int e) <> Some j ->
  opposite dF (added (dc_rhs dF inv sol e) i) (added (dc_rhs dF inv sol e) j) /\
  opposite dF (added (tr_rhs dF done sol e) i) (added (tr_rhs dF done sol e) j).
Proof. intros. apply (C22_opposite dF); try assumption. exact dmul_one. Qed.
Print Assumptions C22_opposite_double.
Example C22_opposite_case : let e := mkElem (KR 2%R) (mkNode NDefault UDefault (Some 0)) (mkNode NDefault UDefault (Some 1)) (mkNode NGround UDefault None) in
  added (dc_rhs rF Rinv (fun o => match o with Some 0 => 3%R | _ => 1%R end) e) 0 = [((3 + -1) * / 2)%R] /\
  added (dc_rhs rF Rinv (fun o => match o with Some 0 => 3%R | _ => 1%R end) e) 1 = [(- ((3 + -1) * / 2))%R].
Proof. split; reflexivity. Qed.

(* ---- a node named like an internal unknown -------------------------------------------- *)
(* A resistor connected to a node that the user called V1.I: one equation then carries both
   the current law of that node and the voltage law of V1, and a vector that solves every
   loaded equation violates the law of the source. *)
Definition clash : list (command R) := [CElement "V1" "a" "0" 1%R 0%R 0%R; CElement "R1" "a" "V1.I" 1%R 0%R 0%R].
Lemma clash_insts : c_insts (solved_circuit nzR clash 0) = [("R1", mkInst (KR 1%R) "a" "V1.I"); ("V1", mkInst (KV 1%R 0%R 0%R) "a" "0")].
Proof. unfold solved_circuit. rewrite exec_plain by (cbn; intuition). lazy -[IZR]. reflexivity. Qed.
Lemma clash_nodes : k_nodes (c_nodes (solved_circuit nzR clash 0)) =
  [("0", mkNode NGround UDefault None); ("GND", mkNode NGround UDefault None); ("V1.I", mkNode NMNA UDefault (Some 0)); ("a", mkNode NDefault UDefault (Some 1))].
Proof. unfold solved_circuit. rewrite exec_plain by (cbn; intuition). lazy -[IZR]. reflexivity. Qed.
Theorem C22_clash_refuted : let c := solved_circuit nzR clash 0 in exists sol,
  no_short c /\ (forall r, total_row c sol [] r = 0%R) /\ forall i, ~ laws c sol i [].
Proof.
  intros c. exists (fun o => match o with Some 0 => 1%R | _ => 0%R end). split; [|split].
  - unfold no_short. unfold c. rewrite clash_insts. intros p r Hp E. cbn in Hp. destruct Hp as [<-|[<-|[]]]; cbn in E; [injection E as <-; lra|discriminate].
  - intros r. assert (Rd : ready c) by apply solved_ready. unfold total_row, rate, dc_row. cbn [rsum].
    match goal with |- context [assemble_dc rF _ c ?s] => destruct (pack_dc c s Rd) as (m & v & -> & _ & _ & -> & _) end.
    unfold elems, c. rewrite clash_insts. cbn [map flat_map]. unfold elem_of, pointed. rewrite !clash_nodes. cbn [fst snd i_kind i_n1 i_n2].
    unfold dc_rhs, row1, at_terminal. cbn. destruct r as [|[|r]]; cbn; field.
  - intros i L. specialize (L ("V1", mkInst (KV 1%R 0%R 0%R) "a" "0")). unfold c in L. rewrite clash_insts in L. specialize (L (or_intror (or_introl eq_refl))).
    cbn [snd i_kind law] in L. unfold drop, voltage, is_gnd, unknown in L. rewrite clash_nodes in L. cbn in L. lra.
Qed.
Print Assumptions C22_clash_refuted.

(* ---- the element commands ---------------------------------------------------------------- *)
(* the value of an element, and the small-signal value of a voltage source, replaced *)
Definition set_value (k : kind R) (x : R) : kind R :=
  match k with KR _ => KR x | KC _ => KC x | KL _ => KL x | KV _ re im => KV x re im | KI _ => KI x end.
(* the documented kind of an element: by the first letter of its name *)
Definition documented (name : string) (value acreal acimag : R) : option (kind R) :=
  match name with
  | String "R"%char _ | String "r"%char _ => Some (KR value)
  | String "C"%char _ | String "c"%char _ => Some (KC value)
  | String "L"%char _ | String "l"%char _ => Some (KL value)
  | String "I"%char _ | String "i"%char _ => Some (KI value)
  | String "V"%char _ | String "v"%char _ => Some (KV value acreal acimag)
  | _ => None
  end.
Lemma make_documented : forall name v re im, make (letter name) v re im = documented name v re im.
Proof. intros [|[[|] [|] [|] [|] [|] [|] [|] [|]] s] v re im; reflexivity. Qed.
Definition kind_matches (nm : string) (k : kind R) : bool :=
  match letter nm, k with ER, KR _ | EC, KC _ | EL, KL _ | EV, KV _ _ _ | EI, KI _ => true | _, _ => false end.
Section Commands.
Variable nz : R -> bool.
Notation exec := (exec nz). Notation step := (step nz).
Lemma add_param_matches : forall nm k p x k', add_param k p x = Some k' -> kind_matches nm k = true -> kind_matches nm k' = true.
Proof.
  intros nm k p x k' H M. unfold kind_matches in *. destruct (letter nm), k; try discriminate M; cbn in H;
    repeat (match type of H with context [if ?b then _ else _] => destruct b end; try discriminate); injection H as <-; reflexivity.
Qed.
Lemma step_matches : forall c x, sorted (c_insts c) -> (forall q, In q (c_insts c) -> kind_matches (fst q) (i_kind (snd q)) = true) ->
  forall q, In q (c_insts (fst (step c x))) -> kind_matches (fst q) (i_kind (snd q)) = true.
Proof.
  intros c x Hs M q. destruct x as [s u p|nm n1 n2 v re im|nm p v|nd al| |st|]; cbn [Circuit.step]; unfold node_command;
    try (match goal with |- context [cexec ?a ?b] => destruct (cexec a b) end; cbn [fst c_insts]; apply M).
  - destruct (negb (is_v (letter nm)) && (nz re || nz im)); [apply M|].
    destruct (cexec (c_nodes c) (CircuitElement (letter nm) nm n1 n2)) as [n ok].
    destruct (make (letter nm) v re im) as [ki|] eqn:Em; [|apply M]. destruct ok; cbn [negb]; [|apply M]. destruct (has nm (c_insts c)); [apply M|].
    cbn [fst c_insts]. intros Hq. apply put_In in Hq; [|exact Hs]. destruct Hq as [->|(Hq & _)]; [|apply M; exact Hq]. cbn.
    unfold kind_matches. destruct (letter nm); cbn in Em; try discriminate; injection Em as <-; reflexivity.
  - destruct (find nm (c_insts c)) as [i|] eqn:Ef; [|apply M]. destruct (add_param (i_kind i) (param_name nm p) v) as [ki|] eqn:Ea; [|apply M].
    cbn [fst c_insts]. intros Hq. apply put_In in Hq; [|exact Hs]. destruct Hq as [->|(Hq & _)]; [|apply M; exact Hq]. cbn.
    eapply add_param_matches; [exact Ea|]. apply find_In in Ef. exact (M _ Ef).
  - intros [].
Qed.
Lemma exec_matches : forall cs q, In q (c_insts (exec c_new cs)) -> kind_matches (fst q) (i_kind (snd q)) = true.
Proof.
  intros cs. cut (forall c, cinv c -> (forall q, In q (c_insts c) -> kind_matches (fst q) (i_kind (snd q)) = true) ->
    forall q, In q (c_insts (exec c cs)) -> kind_matches (fst q) (i_kind (snd q)) = true).
  { intros H. apply H; [exact cinv_new|intros q []]. }
  induction cs as [|x r IH]; intros c I M; [exact M|]. cbn [Circuit.exec]. apply IH; [apply step_inv; exact I|].
  apply step_matches; [|exact M]. destruct I as (_ & _ & I & _). exact I.
Qed.

(* circuit_element: on success the element is in the table, between the named nodes and with
   the value given; an error leaves the elements alone; other elements never change *)
Theorem C22_element : forall cs name n1 n2 v re im, let c := exec c_new cs in
  let r := step c (CElement name n1 n2 v re im) in
  (forall other, other <> name -> find other (c_insts (fst r)) = find other (c_insts c)) /\
  (snd r = false -> c_insts (fst r) = c_insts c) /\
  (snd r = true -> find name (c_insts c) = None /\ exists k, documented name v re im = Some k /\ find name (c_insts (fst r)) = Some (mkInst k n1 n2)).
Proof.
  intros cs name n1 n2 v re im c. rewrite <- make_documented. assert (Hs : sorted (c_insts c)). { destruct (exec_inv nz cs _ cinv_new) as (_ & _ & I & _). exact I. }
  cbn zeta. cbn [Circuit.step]. destruct (negb (is_v (letter name)) && (nz re || nz im)); [split; [auto|split; [auto|discriminate]]|].
  destruct (cexec (c_nodes c) (CircuitElement (letter name) name n1 n2)) as [n ok].
  destruct (make (letter name) v re im) as [ki|] eqn:Em; [|split; [auto|split; [auto|discriminate]]].
  destruct ok; cbn [negb]; [|split; [auto|split; [auto|discriminate]]].
  unfold has. destruct (find name (c_insts c)) as [i|] eqn:Ef; [split; [auto|split; [auto|discriminate]]|]. cbn [fst snd c_insts].
  split; [|split; [discriminate|]].
  - intros o No. rewrite find_put by exact Hs. destruct (String.eqb_spec o name); [contradiction|reflexivity].
  - intros _. split; [reflexivity|]. exists ki. split; [reflexivity|]. rewrite find_put by exact Hs. rewrite String.eqb_refl. reflexivity.
Qed.
(* circuit_alter without a parameter name sets the value of the element and nothing else *)
Theorem C22_alter : forall cs name i v p, let c := exec c_new cs in p = "" \/ p = "value" -> find name (c_insts c) = Some i ->
  let r := step c (CAlter name p v) in
  snd r = true /\ c_nodes (fst r) = c_nodes c /\
  forall other, find other (c_insts (fst r)) = if String.eqb other name then Some (mkInst (set_value (i_kind i) v) (i_n1 i) (i_n2 i)) else find other (c_insts c).
Proof.
  intros cs name i v p c Hp Ef. assert (Hs : sorted (c_insts c)). { destruct (exec_inv nz cs _ cinv_new) as (_ & _ & I & _). exact I. }
  pose proof (exec_matches cs (name, i) (find_In _ _ _ Ef)) as M. cbn [fst snd] in M. cbn zeta. cbn [Circuit.step]. rewrite Ef.
  assert (E : add_param (i_kind i) (param_name name p) v = Some (set_value (i_kind i) v)).
  { unfold param_name, kind_matches in *. destruct Hp as [->| ->]; cbn; destruct (letter name), (i_kind i); try discriminate M; reflexivity. }
  rewrite E. cbn [fst snd c_nodes c_insts]. split; [reflexivity|]. split; [reflexivity|]. intros o. apply find_put. exact Hs.
Qed.
(* named parameters: only those of the element's kind; an unknown one changes nothing *)
Theorem C22_alter_named : forall cs name i v p, let c := exec c_new cs in find name (c_insts c) = Some i ->
  p <> "" -> p <> "value" -> let r := step c (CAlter name p v) in
  match i_kind i with
  | KR _ => snd r = String.eqb p "R" | KC _ => snd r = String.eqb p "C" | KL _ => snd r = String.eqb p "L" | KI _ => snd r = String.eqb p "I"
  | KV _ _ _ => snd r = (String.eqb p "V" || String.eqb p "acreal" || String.eqb p "acimag")%bool
  end /\
  (snd r = false -> fst r = c) /\
  (snd r = true -> forall other, find other (c_insts (fst r)) = if String.eqb other name then
      Some (mkInst (match i_kind i with KV x re im => if String.eqb p "acreal" then KV x v im else if String.eqb p "acimag" then KV x re v else KV v re im | k => set_value k v end) (i_n1 i) (i_n2 i))
      else find other (c_insts c)).
Proof.
  intros cs name i v p c Ef N1 N2. assert (Hs : sorted (c_insts c)). { destruct (exec_inv nz cs _ cinv_new) as (_ & _ & I & _). exact I. }
  cbn zeta. cbn [Circuit.step]. rewrite Ef. unfold param_name.
  destruct (String.eqb_spec p ""); [contradiction|]. destruct (String.eqb_spec p "value"); [contradiction|].
  destruct (i_kind i) as [x|x|x|x re im|x]; cbn [add_param set_value].
  1-3,5: match goal with |- context [if String.eqb ?q ?s then _ else _] => destruct (String.eqb q s) end; cbn [fst snd c_insts];
      (split; [reflexivity|split; [first [reflexivity|discriminate]|]]); first [discriminate|intros _ o; apply find_put; exact Hs].
  destruct (String.eqb_spec p "V") as [->|NV]; [cbn [fst snd c_insts orb String.eqb Ascii.eqb Bool.eqb]; (split; [reflexivity|split; [discriminate|]]); intros _ o; apply find_put; exact Hs|].
  destruct (String.eqb_spec p "acreal") as [->|NR]; [cbn [fst snd c_insts orb]; (split; [reflexivity|split; [discriminate|]]); intros _ o; apply find_put; exact Hs|].
  destruct (String.eqb_spec p "acimag") as [->|NI]; [cbn [fst snd c_insts orb]; (split; [reflexivity|split; [discriminate|]]); intros _ o; apply find_put; exact Hs|].
  cbn. split; [reflexivity|]. split; [reflexivity|discriminate].
Qed.
End Commands.
Print Assumptions C22_element.
Print Assumptions C22_alter.
Print Assumptions C22_alter_named.
Lemma solve_insts : forall nz cs start, c_insts (solved_circuit nz cs start) = c_insts (exec nz c_new cs).
Proof.
  intros nz cs start. unfold solved_circuit. rewrite exec_app. cbn [Circuit.exec Circuit.step]. unfold node_command.
  destruct (cexec (c_nodes (exec nz c_new cs)) (Solve start)). reflexivity.
Qed.
Example C22_commands : find "V1" (c_insts (exec nzR c_new ex_circuit)) = Some (mkInst (KV 5%R 1%R 0%R) "in" "0") /\
  find "i1" (c_insts (exec nzR c_new ex_circuit)) = Some (mkInst (KI 1%R) "out" "GND").
Proof. rewrite <- (solve_insts nzR ex_circuit 4), ex_insts. split; reflexivity. Qed.

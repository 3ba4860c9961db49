(* C66: get_matrix_and_rhs. *)
From Coq Require Import Ascii String List Bool Arith Lia ZArith Reals Lra.
From Verif Require Import StrMap Assembly AssemblyProofs AssemblyJacobian Load LoadProofs LoadProperties CMatrix CMatrixSpec Export ExportProofs.
Import ListNotations.
Open Scope R_scope.
Open Scope nat_scope.
Open Scope list_scope.
Local Arguments Nat.eqb : simpl never.
Local Arguments Nat.ltb : simpl never.

(* For every assembled static part dc and charge part time over n equations, when no diagonal entry of the static matrix is
   zero: the command succeeds in both formats; "static" and "dynamic" are each a well formed compressed matrix (columns for
   csc, rows for csr; sorted, without duplicates, the values aligned) whose entries are those of the static and of the charge
   system, with the rows moved as the boundaries decided, and the right hand sides are minus the residuals of the same rows;
   "row" and "copy" are those decisions: -1 for a removed row. *)
Theorem C66_export_partial : forall isCRM n dc time, parts_in n dc -> parts_in n time ->
  let dest := destinations (decisions (p_devices dc)) in
  (forall i, i < n -> system_entry dest dc i i <> 0%R) ->
  exists x, export rF riszero isCRM n dc time = OK x /\
  system_is isCRM n (x_static x) (system_entry dest dc) (fun r => (- system_row dest dc r)%R) /\
  system_is isCRM n (x_dynamic x) (system_entry dest time) (fun r => (- system_row dest time r)%R) /\
  length (x_row x) = n /\ length (x_copy x) = n /\
  (forall i, i < n -> 
     nth_error (x_row x) i = Some match decision (decisions (p_devices dc)) i with None => Z.of_nat i | Some (Some t, _) => Z.of_nat t | Some (None, _) => (-1)%Z end /\
     nth_error (x_copy x) i = Some match decision (decisions (p_devices dc)) i with Some (_, true) => 1%Z | _ => 0%Z end) /\
  x_format x = (if isCRM then "csr" else "csc")%string.
Proof.
  intros isCRM n dc time Hd Ht dest Hdiag. destruct (export_ok isCRM n dc time Hd Ht Hdiag) as (x & pv & Ex & Ep & Hs & Hy & Er & Ec & Ef).
  destruct (load_perms_spec _ _ _ Ep) as (L & _ & N). rewrite identity_length in L.
  exists x. split; [exact Ex|]. split; [exact Hs|]. split; [exact Hy|]. rewrite Er, Ec, !map_length. split; [exact L|]. split; [exact L|]. split; [|exact Ef].
  intros i Hi. rewrite !nth_error_map, N. destruct (decision (decisions (p_devices dc)) i) as [[[t|] [|]]|]; try (split; reflexivity).
  rewrite identity_nth by exact Hi. split; reflexivity.
Qed.
Print Assumptions C66_export_partial.

(* The exported matrices are those of the solver: whatever system a solve loads for the same state (b0 times the static part,
   a0 times the charges, on top of a constant), its matrix is b0 static + a0 dynamic and its right hand side the constant plus
   b0 times the static and a0 times the dynamic right hand side. *)
Theorem C66_same_as_solve : forall isCRM n dc time b0 a0 a0_zero const x s, parts_in n dc -> parts_in n time -> length const = n ->
  (forall i, i < n -> system_entry (destinations (decisions (p_devices dc))) dc i i <> 0%R) -> (a0_zero = true -> a0 = 0%R) ->
  export rF riszero isCRM n dc time = OK x -> load_transient rF n dc time b0 a0 a0_zero const = OK s ->
  (forall r c, r < n -> c < n -> exists u v, stored isCRM (x_static x) r c u /\ stored isCRM (x_dynamic x) r c v /\ entry (sy_ops s) r c = (b0 * u + a0 * v)%R) /\
  (forall r, r < n -> exists u v, nth_error (x_rhs (x_static x)) r = Some u /\ nth_error (x_rhs (x_dynamic x)) r = Some v /\ rhs_at s r = (nth r const 0 + b0 * u + a0 * v)%R).
Proof.
  intros isCRM n dc time b0 a0 a0_zero const x s Hd Ht Lc Hdiag Z Ex El.
  destruct (C66_export_partial isCRM n dc time Hd Ht Hdiag) as (x' & Ex' & (_ & _ & _ & Ms & Rs) & (_ & _ & _ & Md & Rd) & _).
  rewrite Ex in Ex'. injection Ex' as <-. set (dest := destinations (decisions (p_devices dc))) in *.
  assert (X : (forall r c, entry (sy_ops s) r c = (b0 * system_entry dest dc r c + a0 * system_entry dest time r c)%R) /\
              (forall r, rhs_at s r = (nth r const 0 - b0 * system_row dest dc r - a0 * system_row dest time r)%R)).
  { unfold load_transient in El. apply bind_OK in El. destruct El as (pv & Ep & El). apply bind_OK in El. destruct El as (s1 & E1 & El).
    pose proof (perms_represent _ _ _ Ep) as Rep. fold dest in Rep. destruct (load_system_effect n pv dest Rep _ _ _ _ E1) as (_ & A & B).
    assert (E0 : forall r c, entry (sy_ops (mkSys (S := R) [] const)) r c = 0%R) by (intros; reflexivity).
    destruct a0_zero.
    - injection El as <-. rewrite (Z eq_refl). split; [intros r c; rewrite A, E0; lra|intros r; rewrite B; unfold rhs_at; cbn [sy_rhs]; lra].
    - destruct (load_system_effect n pv dest Rep _ _ _ _ El) as (_ & A' & B'). split.
      + intros r c. rewrite A', A, E0. lra.
      + intros r. rewrite B', B. unfold rhs_at. cbn [sy_rhs]. lra. }
  destruct X as (XA & XB). split.
  - intros r c Hr Hc. exists (system_entry dest dc r c), (system_entry dest time r c). split; [exact (Ms r c Hr Hc)|]. split; [exact (Md r c Hr Hc)|apply XA].
  - intros r Hr. exists (- system_row dest dc r)%R, (- system_row dest time r)%R. split; [exact (Rs r Hr)|]. split; [exact (Rd r Hr)|]. rewrite XB. lra.
Qed.
Print Assumptions C66_same_as_solve.

(* if the entries assembled for every part are the derivatives of its residuals, the static matrix is the Jacobian of minus the
   static right hand side and the dynamic matrix that of minus the dynamic one *)
Theorem C66_jacobian : forall isCRM n dc time, (forall x, parts_in n (parts_at dc x)) -> (forall x, parts_in n (parts_at time x)) -> derivs dc -> derivs time ->
  (forall x i, i < n -> system_entry (destinations (flat_map fd_perms (fp_devices dc))) (parts_at dc x) i i <> 0%R) ->
  exists e : state -> exported R, (forall x, export rF riszero isCRM n (parts_at dc x) (parts_at time x) = OK (e x)) /\
  forall part : exported R -> compressed_system R, part = x_static \/ part = x_dynamic -> forall x r c, r < n -> c < n ->
  exists d, stored isCRM (part (e x)) r c d /\ derivable_pt_lim (fun t => (- nth r (x_rhs (part (e (AssemblyJacobian.upd x c t)))) 0)%R) (x c) d.
Proof.
  intros isCRM n dc time Hd Ht Dd Dt Hdiag. set (dest := destinations (flat_map fd_perms (fp_devices dc))) in *.
  assert (X : forall x, exists y, export rF riszero isCRM n (parts_at dc x) (parts_at time x) = OK y /\
     system_is isCRM n (x_static y) (system_entry dest (parts_at dc x)) (fun r => (- system_row dest (parts_at dc x) r)%R) /\
     system_is isCRM n (x_dynamic y) (system_entry dest (parts_at time x)) (fun r => (- system_row dest (parts_at time x) r)%R)).
  { intros x. destruct (C66_export_partial isCRM n (parts_at dc x) (parts_at time x) (Hd x) (Ht x)) as (y & Ey & A & B & _).
    - intros i Hi. rewrite decisions_at. exact (Hdiag x i Hi).
    - rewrite decisions_at in A, B. exists y. auto. }
  exists (fun x => match export rF riszero isCRM n (parts_at dc x) (parts_at time x) with OK y => y | _ => mkExp (mkComp [] [] [] []) (mkComp [] [] [] []) [] [] EmptyString end).
  split; [intros x; destruct (X x) as (y & -> & _); reflexivity|]. intros part Hpart x r c Hr Hc.
  assert (V : forall k (b : nat -> R) sy, system_is isCRM n sy k b -> nth r (x_rhs sy) 0%R = b r).
  { intros k b sy (_ & _ & _ & _ & Rh). exact (nth_error_nth _ _ _ (Rh r Hr)). }
  destruct (X x) as (y & Ey & A & B). rewrite Ey. destruct Hpart as [-> | ->].
  - exists (system_entry dest (parts_at dc x) r c). split; [destruct A as (_ & _ & _ & A & _); exact (A r c Hr Hc)|].
    apply (derivable_pt_lim_ext (fun t => system_row dest (parts_at dc (AssemblyJacobian.upd x c t)) r)).
    { intros t. destruct (X (AssemblyJacobian.upd x c t)) as (y' & Ey' & A' & _). rewrite Ey', (V _ _ _ A'). lra. }
    exact (system_deriv n dc dest Hd Dd x r c).
  - exists (system_entry dest (parts_at time x) r c). split; [destruct B as (_ & _ & _ & B & _); exact (B r c Hr Hc)|].
    apply (derivable_pt_lim_ext (fun t => system_row dest (parts_at time (AssemblyJacobian.upd x c t)) r)).
    { intros t. destruct (X (AssemblyJacobian.upd x c t)) as (y' & Ey' & _ & B'). rewrite Ey', (V _ _ _ B'). lra. }
    exact (system_deriv n time dest Ht Dt x r c).
Qed.
Print Assumptions C66_jacobian.

(* the format: csc, csr, or nothing, which is csc; any other text is an error and nothing is assembled *)
Theorem C66_format : forall (S : Type) (F : scalar S) iszero format n dc time,
  get_matrix_and_rhs F iszero format n dc time =
  if String.eqb format "csr" then Some (export F iszero true n dc time)
  else if (String.eqb format "csc" || String.eqb format "")%bool then Some (export F iszero false n dc time) else None.
Proof.
  intros. unfold get_matrix_and_rhs. destruct (String.eqb_spec format "csc") as [->|H1]; [reflexivity|].
  destruct (String.eqb_spec format "csr"); [reflexivity|]. cbn [orb]. destruct (String.eqb format ""); reflexivity.
Qed.
Print Assumptions C66_format.

(* In general the command is not safe: when the static matrix has fewer entries than equations, as in a circuit whose second
   and third node are connected to capacitors only, adding the charge entries accesses memory out of bounds. *)
Definition zF : scalar Z := mkSc Z 0%Z 1%Z Z.add Z.mul Z.opp.
Definition c66_static : parts Z := mkParts [] (Some (0, ([(0, 0, 1%Z)], [(0, 5%Z)]))) [] [] [] [].
Definition c66_charge : parts Z := mkParts [] (Some (0, ([(1, 1, 2%Z); (2, 2, 3%Z)], [(1, 1%Z); (2, 1%Z)]))) [] [] [] [].
Theorem C66_export_refuted : exists n (dc time : parts Z),
  (forall off m v, p_circuit dc = Some (off, (m, v)) \/ p_circuit time = Some (off, (m, v)) ->
     (forall r c x, In (r, c, x) m -> r + off < n /\ c + off < n) /\ forall r x, In (r, x) v -> r + off < n) /\
  p_devices dc = [] /\ p_devices time = [] /\ forall isCRM, export zF (Z.eqb 0) isCRM n dc time = UB.
Proof.
  exists 3, c66_static, c66_charge. split; [|split; [reflexivity|split; [reflexivity|]]].
  - intros off m v [E|E]; injection E as <- <- <-; split; intros; repeat match goal with H : In _ _ |- _ => destruct H as [H|H] | H : _ = _ |- _ => injection H as <- <- _ || injection H as <- _ end; try contradiction; lia.
  - intros [|]; vm_compute; reflexivity.
Qed.
Print Assumptions C66_export_refuted.

(* Non-vacuity: the system of ex18 (LoadProperties.v), a removed and a redirected row and a circuit, as an export over the
   integers, and the diagonal hypothesis met by a system of two rows *)
Definition c66_dc : parts Z := mkParts
  [mkDev [(1, (None, false)); (2, (Some 0, true))] [(1, 1, 1%Z)] [(1, 7%Z)] [(0, 0, 2%Z); (1, 0, 3%Z); (2, 2, 5%Z)] [(0, 1%Z); (1, 2%Z); (2, 4%Z)]]
  None [] [] [] [].
Definition c66_time : parts Z := mkParts [mkDev [] [] [] [(0, 1, 6%Z)] [(0, 2%Z)]] None [] [] [] [].
Example C66_ex : export zF (Z.eqb 0) false 3 c66_dc c66_time =
  OK (mkExp (mkComp [0; 1; 2; 4] [0; 1; 0; 2] [2; 1; 5; 5]%Z [-5; -7; -4]%Z) (mkComp [0; 1; 3; 5] [0; 0; 1; 0; 2] [0; 6; 0; 0; 0]%Z [-2; 0; 0]%Z)
        [0; -1; 0]%Z [0; 0; 1]%Z "csc").
Proof. vm_compute. reflexivity. Qed.
Definition c66_r : parts R := mkParts [mkDev [] [] [] [(0, 0, 2%R); (0, 1, 1%R); (1, 1, 3%R)] [(0, 1%R)]] None [] [] [] [].
Example C66_hyp : parts_in 2 c66_r /\ forall i, i < 2 -> system_entry (destinations (decisions (p_devices c66_r))) c66_r i i <> 0%R.
Proof.
  split.
  - split; [|split; [discriminate|cbn; split; [intros ? ? ? []|split; [intros ? ? []|split; [intros ? ? ? []|intros ? ? []]]]]].
    intros d [<-|[]]. cbn. split; [intros ? ? ? []|]. split; [intros ? ? ? []|]. split; [intros ? ? []|].
    split; [intros r c v [E|[E|[E|[]]]]; injection E as <- <- _; lia|intros r v [E|[]]; injection E as <- _; lia].
  - intros i Hi. destruct i as [|[|i]]; [| |lia]; lazy -[Rplus Rmult Ropp Rminus Rinv IZR not]; lra.
Qed.

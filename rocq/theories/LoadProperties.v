(* C18: loading of the global system: rows at contacts and interfaces. *)
From Coq Require Import String List Bool Arith Lia Reals Lra.
From Verif Require Import Assembly AssemblyProofs AssemblyJacobian Load LoadProofs.
Import ListNotations.
Open Scope R_scope.
Open Scope nat_scope.
Open Scope list_scope.

(* When all rows are rows of the system, loading succeeds.  The matrix entry at
   (row, col) is scl times: all boundary (contact and interface) and circuit and
   unpermuted custom entries of that row, plus every bulk entry (row0, col) as often as
   row is among the destinations of row0: row0 itself without a decision of a boundary,
   none if it was removed, the given row if it was redirected, and also itself when a
   copy is kept.  The right hand side is the same with the residuals and minus scl. *)
Theorem C18_load : forall n p scl, parts_in n p -> exists s, load rF n p scl = OK s /\ length (sy_rhs s) = n /\
  let dest := destinations (decisions (p_devices p)) in
  (forall row col, entry (sy_ops s) row col = (scl * system_entry dest p row col)%R) /\
  (forall row, rhs_at s row = (- (scl * system_row dest p row))%R).
Proof.
  intros n p scl H. destruct (perms_ok n p H) as (pv & Ep). pose proof (perms_pv_in n p pv H Ep) as Hin.
  unfold load. rewrite Ep. cbn [bind].
  destruct (load_system_ok n pv p scl (mkSys [] (repeat (s_zero rF) n)) Hin H) as (s & Es & L); [cbn [sy_rhs]; apply repeat_length|].
  exists s. split; [exact Es|]. split; [exact L|].
  destruct (load_system_effect n pv _ (perms_represent _ _ _ Ep) p scl _ _ Es) as (_ & A & B). cbv zeta. split.
  - intros row col. rewrite A. unfold entry at 1. cbn [sy_ops rsum]. lra.
  - intros row. rewrite B. unfold rhs_at at 1. cbn [sy_rhs].
    assert (Z : nth row (repeat (s_zero rF) n) 0%R = 0%R).
    { destruct (Nat.lt_ge_cases row n) as [Hl|Hl]; [exact (nth_repeat (s_zero rF) n row) || (rewrite nth_indep with (d' := s_zero rF); [apply nth_repeat|rewrite repeat_length; exact Hl])|apply nth_overflow; rewrite repeat_length; exact Hl]. }
    rewrite Z. lra.
Qed.
Print Assumptions C18_load.

(* a row that was removed, and into which nothing is redirected, holds exactly the
   boundary, circuit and custom contributions: no bulk entry *)
Theorem C18_removed_row : forall n p scl row, parts_in n p ->
  (forall r0, ~ In row (destinations (decisions (p_devices p)) r0)) -> exists s, load rF n p scl = OK s /\
  (forall col, entry (sy_ops s) row col =
     (scl * (rsum (fun d => entry (d_bm d) row col) (p_devices p) +
             match p_circuit p with Some (offset, (m, _)) => shift_entry offset m row col | None => 0 end + entry (p_m p) row col))%R) /\
  rhs_at s row =
     (- (scl * (rsum (fun d => row_sum (d_bv d) row) (p_devices p) +
             match p_circuit p with Some (offset, (_, v)) => shift_row offset v row | None => 0 end + row_sum (p_v p) row)))%R.
Proof.
  intros n p scl row H N. destruct (C18_load n p scl H) as (s & E & _ & A & B). exists s. split; [exact E|].
  set (dest := destinations (decisions (p_devices p))) in *.
  assert (Z : forall r0, count row (dest r0) = 0%R).
  { intros r0. apply rsum_zero. intros k Hk. unfold ind. destruct (Nat.eqb_spec k row) as [->|]; [exfalso; exact (N r0 Hk)|reflexivity]. }
  assert (ZE : forall m col, moved_entry dest m row col = 0%R) by (intros m col; apply rsum_zero; intros q _; rewrite Z; lra).
  assert (ZR : forall v, moved_row dest v row = 0%R) by (intros v; apply rsum_zero; intros q _; rewrite Z; lra).
  split.
  - intros col. rewrite A. unfold system_entry. rewrite ZE.
    rewrite (rsum_ext (fun d => (entry (d_bm d) row col + moved_entry dest (d_m d) row col)%R) (fun d => entry (d_bm d) row col)); [lra|].
    intros d _. rewrite ZE. lra.
  - rewrite B. unfold system_row. rewrite ZR.
    rewrite (rsum_ext (fun d => (row_sum (d_bv d) row + moved_row dest (d_v d) row)%R) (fun d => row_sum (d_bv d) row)); [lra|].
    intros d _. rewrite ZR. lra.
Qed.
Print Assumptions C18_removed_row.

(* nothing is lost by redirection: when no row is removed and no copy is kept the bulk
   residuals loaded over all rows add up to the assembled bulk residuals *)
Theorem C18_redirection_conserves : forall n p v, parts_in n p -> rhs_in n v ->
  (forall r0, r0 < n -> exists t, destinations (decisions (p_devices p)) r0 = [t] /\ t < n) ->
  rsum (moved_row (destinations (decisions (p_devices p))) v) (seq 0 n) = rhs_total v.
Proof.
  intros n p v _ Hv H. set (dest := destinations (decisions (p_devices p))) in *. unfold moved_row, rhs_total.
  induction v as [|[r x] t IH]; cbn [rsum]; [apply rsum_zero; intros; reflexivity|].
  rewrite rsum_plus, IH; [|intros r' x' Hin; apply (Hv r' x'); right; exact Hin]. cbn [fst snd]. f_equal.
  destruct (H r (Hv r x (or_introl eq_refl))) as (t0 & -> & Ht0). unfold count. cbn [rsum].
  rewrite (rsum_ext _ (fun row => if row =? t0 then x else 0%R)).
  - assert (G : forall a m', a <= t0 < a + m' -> rsum (fun row => if row =? t0 then x else 0%R) (seq a m') = x).
    { intros a m'. revert a. induction m' as [|m' IHm]; intros a Ha; [lia|]. cbn [seq rsum]. destruct (Nat.eqb_spec a t0) as [->|D].
      - rewrite rsum_zero; [lra|]. intros j Hj. apply in_seq in Hj. destruct (Nat.eqb_spec j t0); [lia|reflexivity].
      - rewrite IHm by lia. lra. }
    apply G. lia.
  - intros row _. unfold ind. rewrite (Nat.eqb_sym t0 row). destruct (row =? t0); lra.
Qed.
Print Assumptions C18_redirection_conserves.

(* ---- the Newton system ------------------------------------------------------------------ *)
(* assembled parts as functions of the unknowns; the decisions of the boundaries and the
   position of the circuit do not depend on them *)
Record fdevice := mkFD { fd_perms : list (nat * pentry); fd_bm : state -> mat_list R; fd_bv : state -> rhs_list R;
  fd_m : state -> mat_list R; fd_v : state -> rhs_list R }.
Record fparts := mkFP { fp_devices : list fdevice; fp_circuit : option (nat * ((state -> mat_list R) * (state -> rhs_list R)));
  fp_pm : state -> mat_list R; fp_pv : state -> rhs_list R; fp_m : state -> mat_list R; fp_v : state -> rhs_list R }.
Definition dev_at (d : fdevice) (x : state) : device R := mkDev (fd_perms d) (fd_bm d x) (fd_bv d x) (fd_m d x) (fd_v d x).
Definition parts_at (p : fparts) (x : state) : parts R :=
  mkParts (map (fun d => dev_at d x) (fp_devices p))
    (match fp_circuit p with Some (off, (m, v)) => Some (off, (m x, v x)) | None => None end) (fp_pm p x) (fp_pv p x) (fp_m p x) (fp_v p x).
(* each part carries its own derivatives *)
Definition shift_m (off : nat) (m : mat_list R) : mat_list R := map (fun p => (fst (fst p) + off, snd (fst p) + off, snd p)) m.
Definition shift_v (off : nat) (v : rhs_list R) : rhs_list R := map (fun p => (fst p + off, snd p)) v.
Definition derivs (p : fparts) : Prop :=
  (forall d, In d (fp_devices p) -> deriv_of (fd_bm d) (fd_bv d) /\ deriv_of (fd_m d) (fd_v d)) /\
  (forall off m v, fp_circuit p = Some (off, (m, v)) -> deriv_of (fun x => shift_m off (m x)) (fun x => shift_v off (v x))) /\
  deriv_of (fp_pm p) (fp_pv p) /\ deriv_of (fp_m p) (fp_v p).

Lemma moved_deriv : forall dest n m v, (forall x, mat_in n (m x)) -> (forall x, rhs_in n (v x)) -> deriv_of m v ->
  forall x r c, derivable_pt_lim (fun t => moved_row dest (v (upd x c t)) r) (x c) (moved_entry dest (m x) r c).
Proof.
  intros dest n m v Hm Hv D x r c. rewrite (moved_entry_dest dest (m x) r c n) by (intros [[a b] y] Hp; exact (proj1 (Hm x a b y Hp))).
  apply (derivable_pt_lim_ext (fun t => rsum (fun r0 => (count r (dest r0) * row_sum (v (upd x c t)) r0)%R) (seq 0 n))).
  - intros t. symmetry. apply moved_row_dest. intros [a y] Hp. exact (Hv _ a y Hp).
  - apply (rsum_deriv (fun r0 t => (count r (dest r0) * row_sum (v (upd x c t)) r0)%R)). intros r0 _.
    apply (derivable_pt_lim_scal (fun t => row_sum (v (upd x c t)) r0)). apply D.
Qed.
Lemma system_deriv : forall n p dest, (forall x, parts_in n (parts_at p x)) -> derivs p ->
  forall x r c, derivable_pt_lim (fun t => system_row dest (parts_at p (upd x c t)) r) (x c) (system_entry dest (parts_at p x) r c).
Proof.
  intros n p dest Hin (Dd & Dc & D1 & D2) x r c. unfold system_row, system_entry.
  apply (derivable_pt_lim_plus (fun t => _)); [apply (derivable_pt_lim_plus (fun t => _)); [apply (derivable_pt_lim_plus (fun t => _))|]|].
  - cbn [parts_at p_devices]. rewrite rsum_map.
    apply (derivable_pt_lim_ext (fun t => rsum (fun d => (row_sum (d_bv (dev_at d (upd x c t))) r + moved_row dest (d_v (dev_at d (upd x c t))) r)%R) (fp_devices p))).
    { intros t. rewrite rsum_map. reflexivity. }
    apply (rsum_deriv (fun d t => (row_sum (d_bv (dev_at d (upd x c t))) r + moved_row dest (d_v (dev_at d (upd x c t))) r)%R)). intros d Hd.
    destruct (Dd d Hd) as (Da & Db). apply (derivable_pt_lim_plus (fun t => row_sum (d_bv (dev_at d (upd x c t))) r)); [exact (Da x r c)|].
    apply (moved_deriv dest n (fd_m d) (fd_v d)); [| |exact Db].
    + intros y. destruct (Hin y) as (Hd' & _). destruct (Hd' (dev_at d y)) as (_ & _ & _ & X & _); [apply (in_map (fun d => dev_at d y)); exact Hd|]. exact X.
    + intros y. destruct (Hin y) as (Hd' & _). destruct (Hd' (dev_at d y)) as (_ & _ & _ & _ & X); [apply (in_map (fun d => dev_at d y)); exact Hd|]. exact X.
  - cbn [parts_at p_circuit]. destruct (fp_circuit p) as [[off [m v]]|] eqn:Ec; [|apply derivable_pt_lim_const].
    exact (Dc off m v eq_refl x r c).
  - cbn [parts_at p_pm p_pv]. apply (moved_deriv dest n (fp_pm p) (fp_pv p)); [| |exact D1]; intros y; destruct (Hin y) as (_ & _ & A & B & _); assumption.
  - cbn [parts_at p_m p_v]. exact (D2 x r c).
Qed.
Lemma decisions_at : forall p x, decisions (p_devices (parts_at p x)) = flat_map fd_perms (fp_devices p).
Proof. intros p x. unfold decisions. cbn [parts_at p_devices]. induction (fp_devices p) as [|d t IH]; cbn; [reflexivity|]. rewrite IH. reflexivity. Qed.

(* In every iteration of a static or transient solve: if the entries assembled for
   every part are the derivatives of the residuals assembled for that part, the matrix
   of the system is the Jacobian of the whole discretised residual
   b0 (static) + a0 (charge) + constant, that is of minus the right hand side, whatever
   the boundaries decided. *)
Theorem C18_newton_matrix : forall n dc time b0 a0 a0_zero const, length const = n -> (a0_zero = true -> a0 = 0%R) ->
  (forall x, parts_in n (parts_at dc x)) -> (forall x, parts_in n (parts_at time x)) -> derivs dc -> derivs time ->
  exists s : state -> system R,
  (forall x, load_transient rF n (parts_at dc x) (parts_at time x) b0 a0 a0_zero const = OK (s x)) /\
  forall x r c, derivable_pt_lim (fun t => rhs_at (s (upd x c t)) r) (x c) (- entry (sy_ops (s x)) r c)%R.
Proof.
  intros n dc time b0 a0 a0_zero const Lc Z Hdc Htm Ddc Dtm.
  set (dest := destinations (flat_map fd_perms (fp_devices dc))).
  assert (X : forall x, exists s, load_transient rF n (parts_at dc x) (parts_at time x) b0 a0 a0_zero const = OK s /\
     (forall r c, entry (sy_ops s) r c = (b0 * system_entry dest (parts_at dc x) r c + a0 * system_entry dest (parts_at time x) r c)%R) /\
     (forall r, rhs_at s r = (nth r const 0 - b0 * system_row dest (parts_at dc x) r - a0 * system_row dest (parts_at time x) r)%R)).
  { intros x. destruct (perms_ok n _ (Hdc x)) as (pv & Ep). pose proof (perms_pv_in _ _ _ (Hdc x) Ep) as Hin.
    pose proof (perms_represent _ _ _ Ep) as Rep. rewrite (decisions_at dc x) in Rep. fold dest in Rep.
    unfold load_transient. rewrite Ep. cbn [bind].
    destruct (load_system_ok n pv _ b0 (mkSys [] const) Hin (Hdc x) Lc) as (s & Es & Ls). rewrite Es. cbn [bind].
    destruct (load_system_effect n pv dest Rep _ _ _ _ Es) as (_ & A & B).
    assert (E0 : forall r c, entry (sy_ops (mkSys (S := R) [] const)) r c = 0%R) by (intros; reflexivity).
    destruct a0_zero.
    - exists s. split; [reflexivity|]. rewrite (Z eq_refl). split; [intros r c; rewrite A, E0; lra|intros r; rewrite B; unfold rhs_at; cbn [sy_rhs]; lra].
    - destruct (load_system_ok n pv _ a0 s Hin (Htm x) Ls) as (s' & Es' & Ls'). exists s'. split; [exact Es'|].
      destruct (load_system_effect n pv dest Rep _ _ _ _ Es') as (_ & A' & B'). split.
      + intros r c. rewrite A', A, E0. lra.
      + intros r. rewrite B', B. unfold rhs_at. cbn [sy_rhs]. lra. }
  exists (fun x => match load_transient rF n (parts_at dc x) (parts_at time x) b0 a0 a0_zero const with OK s => s | _ => mkSys [] [] end). split.
  - intros x. destruct (X x) as (s & E & _). rewrite E. reflexivity.
  - intros x r c. destruct (X x) as (s & E & A & B). rewrite E, A.
    apply (derivable_pt_lim_ext (fun t => (nth r const 0 - b0 * system_row dest (parts_at dc (upd x c t)) r - a0 * system_row dest (parts_at time (upd x c t)) r)%R)).
    { intros t. destruct (X (upd x c t)) as (s' & E' & A' & B'). rewrite E', B'. reflexivity. }
    replace (- (b0 * system_entry dest (parts_at dc x) r c + a0 * system_entry dest (parts_at time x) r c))%R
      with (0 - b0 * system_entry dest (parts_at dc x) r c - a0 * system_entry dest (parts_at time x) r c)%R by lra.
    apply (derivable_pt_lim_minus (fun t => (nth r const 0 - b0 * system_row dest (parts_at dc (upd x c t)) r)%R));
      [apply (derivable_pt_lim_minus (fun _ => nth r const 0%R)); [apply derivable_pt_lim_const|]|].
    + apply (derivable_pt_lim_scal (fun t => system_row dest (parts_at dc (upd x c t)) r)). exact (system_deriv n dc dest Hdc Ddc x r c).
    + apply (derivable_pt_lim_scal (fun t => system_row dest (parts_at time (upd x c t)) r)). exact (system_deriv n time dest Htm Dtm x r c).
Qed.
Print Assumptions C18_newton_matrix.

(* Non-vacuity: four rows; row 1 removed by a contact that loads its own equation, row 3
   redirected to row 2 keeping a copy; a circuit at offset 4 *)
Definition ex18 : parts R := mkParts
  [mkDev [(1, (None, false)); (3, (Some 2, true))] [(1, 1, 1%R)] [(1, 7%R)]
    [(0, 0, 2%R); (1, 0, 3%R); (3, 0, 5%R); (2, 2, 1%R)] [(0, 1%R); (1, 2%R); (3, 4%R)]]
  (Some (4, ([(0, 0, 9%R)], [(0, 3%R)]))) [] [] [] [].
Example ex18_in : parts_in 5 ex18.
Proof.
  split; [|split; [|split; [|split; [|split]]]].
  - intros d [<-|[]]. cbn. split; [|split; [|split; [|split]]].
    + intros r t k [E|[E|[]]]; injection E as <- <- <-; lia.
    + intros r c v [E|[]]; injection E as <- <- _; lia.
    + intros r v [E|[]]; injection E as <- _; lia.
    + intros r c v [E|[E|[E|[E|[]]]]]; injection E as <- <- _; lia.
    + intros r v [E|[E|[E|[]]]]; injection E as <- _; lia.
  - intros off m v E. injection E as <- <- <-. split; [intros r c x [E|[]]; injection E as <- <- _; lia|intros r x [E|[]]; injection E as <- _; lia].
  - intros r c v [].
  - intros r v [].
  - intros r c v [].
  - intros r v [].
Qed.
Example ex18_loads : exists s, load rF 5 ex18 1%R = OK s /\ rhs_at s 0 = (-1)%R /\ rhs_at s 1 = (-7)%R /\ rhs_at s 2 = (-4)%R /\ rhs_at s 3 = (-4)%R /\ rhs_at s 4 = (-3)%R.
Proof.
  destruct (C18_load 5 ex18 1%R ex18_in) as (s & E & _ & _ & B). exists s. split; [exact E|]. rewrite !B.
  unfold system_row, moved_row, row_sum, shift_row, count, ind. cbn. unfold row_sum, ind. cbn. repeat split; lra.
Qed.
Example ex18_removed : forall r0, ~ In 1 (destinations (decisions (p_devices ex18)) r0).
Proof. intros r0 H. destruct r0 as [|[|[|[|r0]]]]; cbn in H; intuition congruence. Qed.

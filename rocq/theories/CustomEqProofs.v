(* Specification and proofs for custom equations (C65). *)
From Coq Require Import Ascii String List Bool Arith Lia ZArith Reals Lra.
From Verif Require Import StrMap Options Assembly AssemblyProofs AssemblyJacobian Load LoadProofs CustomEq.
Import ListNotations.
Open Scope R_scope.
Open Scope nat_scope.
Open Scope list_scope.
Local Arguments Nat.eqb : simpl never.
Local Arguments Nat.ltb : simpl never.
Local Arguments Z.leb : simpl never.
Local Arguments Z.ltb : simpl never.
Local Arguments Z.modulo : simpl never.
Local Arguments Z.pow : simpl never.
Local Arguments Z.to_nat : simpl never.
Local Arguments Nat.modulo : simpl never.

(* ---- specification -------------------------------------------------------------------- *)
(* what a procedure means to return: matrix entries, residuals, and whether the rows follow the decisions of the boundaries *)
Definition answer := (list (Z * Z * R) * list (Z * R) * bool)%type.
(* the documented form: a list of row, column, value, ...; a list of row, value, ...; a boolean *)
Definition obj_of (a : answer) : obj R :=
  match a with (m, v, b) =>
    PList [PList (flat_map (fun '(r, c, x) => [PInt r; PInt c; PFloat x]) m);
           PList (flat_map (fun '(r, x) => [PInt r; PFloat x]) v); PBool b]
  end.
Definition index (n : nat) (z : Z) : Prop := (0 <= z < Z.of_nat n)%Z.
Definition answer_in (n : nat) (a : answer) : Prop :=
  match a with (m, v, _) => (forall r c x, In (r, c, x) m -> index n r /\ index n c) /\ (forall r x, In (r, x) v -> index n r) end.
(* the contribution of an answer to an entry and to a residual, dest being where the rows of the bulk go *)
Definition answer_entry (dest : nat -> list nat) (a : answer) (row col : nat) : R :=
  match a with (m, _, b) =>
    rsum (fun '(r, c, x) => (if b then count row (dest (Z.to_nat r)) else if Z.eqb r (Z.of_nat row) then 1 else 0) *
                            (if Z.eqb c (Z.of_nat col) then x else 0))%R m
  end.
Definition answer_row (dest : nat -> list nat) (a : answer) (row : nat) : R :=
  match a with (_, v, b) =>
    rsum (fun '(r, x) => (if b then count row (dest (Z.to_nat r)) else if Z.eqb r (Z.of_nat row) then 1 else 0) * x)%R v
  end.
(* the items of a Python sequence *)
Inductive items : obj R -> list (obj R) -> Prop :=
| items_list : forall l, items (PList l) l
| items_str : forall s, items (PStr s) (map (fun c => PStr (String c EmptyString)) (list_ascii_of_string s))
| items_bytes : forall s, items (PBytes s) (map (fun c => PInt (Z.of_nat (nat_of_ascii c))) (list_ascii_of_string s)).

(* ---- proofs ---------------------------------------------------------------------------- *)
Section P.
Variables (fz : Z -> option R) (is0 : R -> bool) (repr : obj R -> string).
Variables (float_text : string -> option R) (int_text : string -> option Z).
Notation rhs_entries := (rhs_entries fz repr float_text int_text).
Notation mat_entries := (mat_entries fz repr float_text int_text).
Notation assemble_custom := (assemble_custom fz is0 repr float_text int_text).
Notation load_custom := (load_custom rF fz is0 repr float_text int_text).
Notation assemble_one := (assemble_one fz repr float_text int_text).
Notation integer := (get_integer R repr int_text).
Notation double := (get_double R fz float_text).

Lemma integer_int : forall z, (- 2 ^ 31 <= z < 2 ^ 31)%Z -> integer (PInt z) = Some z.
Proof.
  intros z H. unfold get_integer, get_long, as_long.
  destruct (Z.leb_spec (- 2 ^ 63) z) as [_|B]; [|lia]. destruct (Z.ltb_spec z (2 ^ 63)) as [_|B]; [|lia]. cbn [andb].
  destruct (Z.leb_spec (- 2 ^ 31) z) as [_|B]; [|lia]. destruct (Z.leb_spec z (2 ^ 31 - 1)) as [_|B]; [|lia]. reflexivity.
Qed.
Lemma size_index : forall n z, (Z.of_nat n <= 2 ^ 31)%Z -> index n z -> size_of z = Z.to_nat z /\ Z.to_nat z < n.
Proof. intros n z Hn [A B]. unfold size_of. rewrite Z.mod_small by lia. split; [reflexivity|lia]. Qed.
Definition nat_m (m : list (Z * Z * R)) : mat_list R := map (fun '(r, c, x) => (Z.to_nat r, Z.to_nat c, x)) m.
Definition nat_v (v : list (Z * R)) : rhs_list R := map (fun '(r, x) => (Z.to_nat r, x)) v.
Lemma rhs_entries_ok : forall n, (Z.of_nat n <= 2 ^ 31)%Z -> forall v, (forall r x, In (r, x) v -> index n r) ->
  rhs_entries (flat_map (fun '(r, x) => [PInt r; PFloat x]) v) = OK (nat_v v).
Proof.
  intros n Hn. induction v as [|[r x] t IH]; intros H; [reflexivity|]. cbn [flat_map app CustomEq.rhs_entries].
  pose proof (H r x (or_introl eq_refl)) as Hr. destruct (size_index n r Hn Hr) as (E & _). destruct Hr.
  rewrite integer_int by lia. cbn [get_double]. rewrite IH by (intros; eapply H; right; eassumption). cbn. rewrite E. reflexivity.
Qed.
Lemma mat_entries_ok : forall n, (Z.of_nat n <= 2 ^ 31)%Z -> forall m, (forall r c x, In (r, c, x) m -> index n r /\ index n c) ->
  mat_entries (flat_map (fun '(r, c, x) => [PInt r; PInt c; PFloat x]) m) = OK (nat_m m).
Proof.
  intros n Hn. induction m as [|[[r c] x] t IH]; intros H; [reflexivity|]. cbn [flat_map app CustomEq.mat_entries].
  destruct (H r c x (or_introl eq_refl)) as (Hr & Hc). destruct (size_index n r Hn Hr) as (E & _). destruct (size_index n c Hn Hc) as (E' & _). destruct Hr, Hc.
  rewrite !integer_int by lia. cbn [get_double]. rewrite IH by (intros; eapply H; right; eassumption). cbn. rewrite E, E'. reflexivity.
Qed.
Lemma len2 : forall v : list (Z * R), length (flat_map (fun '(r, x) => [@PInt R r; PFloat x]) v) mod 2 = 0.
Proof.
  intros v. assert (X : length (flat_map (fun '(r, x) => [@PInt R r; PFloat x]) v) = length v * 2).
  { induction v as [|[r x] t IH]; [reflexivity|]. cbn [flat_map app length]. rewrite IH. lia. }
  rewrite X. apply Nat.mod_mul. lia.
Qed.
Lemma len3 : forall m : list (Z * Z * R), length (flat_map (fun '(r, c, x) => [@PInt R r; PInt c; PFloat x]) m) mod 3 = 0.
Proof.
  intros m. assert (X : length (flat_map (fun '(r, c, x) => [@PInt R r; PInt c; PFloat x]) m) = length m * 3).
  { induction m as [|[[r c] x] t IH]; [reflexivity|]. cbn [flat_map app length]. rewrite IH. lia. }
  rewrite X. apply Nat.mod_mul. lia.
Qed.
Definition matrix_of (w : what) (a : answer) : list (Z * Z * R) := match w with RHSONLY => [] | _ => fst (fst a) end.
Definition rhs_of (w : what) (a : answer) : list (Z * R) := match w with MATRIXONLY => [] | _ => snd (fst a) end.
Lemma assemble_one_ok : forall n w m v b, (Z.of_nat n <= 2 ^ 31)%Z -> answer_in n (m, v, b) ->
  assemble_one w (PList (flat_map (fun '(r, c, x) => [PInt r; PInt c; PFloat x]) m)) (PList (flat_map (fun '(r, x) => [PInt r; PFloat x]) v)) =
  OK (nat_m (matrix_of w (m, v, b)), nat_v (rhs_of w (m, v, b))).
Proof.
  intros n w m v b Hn (Hm & Hv). unfold CustomEq.assemble_one, read_rhs, read_mat. cbn [list_of]. rewrite len2, len3, Nat.eqb_refl.
  rewrite (rhs_entries_ok n Hn v Hv), (mat_entries_ok n Hn m Hm). destruct w; reflexivity.
Qed.
Notation fam := (list (string * (what -> tmode -> answer))).
Definition procs (ps : fam) : smap procedure := map (fun '(nm, f) => (nm, fun w t => Some (obj_of (f w t)))) ps.
Definition pick (b : bool) (w : what) (t : tmode) (ps : fam) : list answer :=
  filter (fun a => Bool.eqb (snd a) b) (map (fun '(_, f) => f w t) ps).
Lemma assemble_custom_ok : forall n w t ps c, (Z.of_nat n <= 2 ^ 31)%Z -> (forall nm f, In (nm, f) ps -> answer_in n (f w t)) ->
  assemble_custom w t (procs ps) c =
  OK (mkCustom (c_pm c ++ flat_map (fun a => nat_m (matrix_of w a)) (pick true w t ps)) (c_pv c ++ flat_map (fun a => nat_v (rhs_of w a)) (pick true w t ps))
               (c_m c ++ flat_map (fun a => nat_m (matrix_of w a)) (pick false w t ps)) (c_v c ++ flat_map (fun a => nat_v (rhs_of w a)) (pick false w t ps))).
Proof.
  intros n w t ps. induction ps as [|[nm f] rest IH]; intros c Hn H; cbn [procs map CustomEq.assemble_custom].
  - unfold pick. cbn. rewrite !app_nil_r. destruct c; reflexivity.
  - pose proof (H nm f (or_introl eq_refl)) as Hf. fold (procs rest). unfold pick. cbn [map filter].
    destruct (f w t) as [[m v] b] eqn:Ef. cbn [obj_of list_of get_boolean].
    rewrite (assemble_one_ok n w m v b Hn Hf). cbn [bind]. rewrite IH; [|exact Hn|intros; eapply H; right; eassumption].
    fold (pick true w t rest) (pick false w t rest). cbn [snd].
    destruct b; cbn [c_pm c_pv c_m c_v Bool.eqb flat_map]; rewrite <- !app_assoc; reflexivity.
Qed.
Lemma entry_nat : forall n m row col, row < n -> (forall r c x, In (r, c, x) m -> index n r /\ index n c) ->
  entry (nat_m m) row col = rsum (fun '(r, c, x) => (if Z.eqb r (Z.of_nat row) then 1 else 0) * (if Z.eqb c (Z.of_nat col) then x else 0))%R m.
Proof.
  intros n m row col Hrow H. unfold entry, nat_m. rewrite rsum_map. apply rsum_ext. intros [[r c] x] Hi. cbn [fst snd].
  destruct (H r c x Hi) as ((A & B) & (C & D)).
  destruct (Nat.eqb_spec (Z.to_nat r) row), (Z.eqb_spec r (Z.of_nat row)); try lia;
  destruct (Nat.eqb_spec (Z.to_nat c) col), (Z.eqb_spec c (Z.of_nat col)); try lia; cbn [andb]; lra.
Qed.
Lemma row_nat : forall n v row, (forall r x, In (r, x) v -> index n r) ->
  row_sum (nat_v v) row = rsum (fun '(r, x) => (if Z.eqb r (Z.of_nat row) then 1 else 0) * x)%R v.
Proof.
  intros n v row H. unfold row_sum, nat_v. rewrite rsum_map. apply rsum_ext. intros [r x] Hi. cbn [fst snd].
  destruct (H r x Hi) as (A & B). unfold ind. destruct (Nat.eqb_spec (Z.to_nat r) row), (Z.eqb_spec r (Z.of_nat row)); try lia; lra.
Qed.
Lemma moved_nat : forall n dest m row col, (forall r c x, In (r, c, x) m -> index n r /\ index n c) ->
  moved_entry dest (nat_m m) row col = rsum (fun '(r, c, x) => count row (dest (Z.to_nat r)) * (if Z.eqb c (Z.of_nat col) then x else 0))%R m.
Proof.
  intros n dest m row col H. unfold moved_entry, nat_m. rewrite rsum_map. apply rsum_ext. intros [[r c] x] Hi. cbn [fst snd].
  destruct (H r c x Hi) as (_ & (C & D)).
  destruct (Nat.eqb_spec (Z.to_nat c) col), (Z.eqb_spec c (Z.of_nat col)); try lia; reflexivity.
Qed.
Lemma moved_row_nat : forall dest v row, moved_row dest (nat_v v) row = rsum (fun '(r, x) => count row (dest (Z.to_nat r)) * x)%R v.
Proof. intros dest v row. unfold moved_row, nat_v. rewrite rsum_map. apply rsum_ext. intros [r x] Hi. reflexivity. Qed.
Definition cut (w : what) (a : answer) : answer := (matrix_of w a, rhs_of w a, snd a).
Lemma split_entry : forall n dest w t ps row col, row < n -> (forall nm f, In (nm, f) ps -> answer_in n (f w t)) ->
  (moved_entry dest (flat_map (fun a => nat_m (matrix_of w a)) (pick true w t ps)) row col +
   entry (flat_map (fun a => nat_m (matrix_of w a)) (pick false w t ps)) row col =
   rsum (fun '(_, f) => answer_entry dest (cut w (f w t)) row col) ps)%R.
Proof.
  intros n dest w t ps row col Hrow. induction ps as [|[nm f] rest IH]; intros H; [unfold moved_entry, entry; cbn; lra|].
  pose proof (H nm f (or_introl eq_refl)) as Hf. cbn [rsum]. rewrite <- IH by (intros; eapply H; right; eassumption).
  unfold pick. cbn [map filter]. destruct (f w t) as [[m v] b]. cbn [snd]. fold (pick true w t rest) (pick false w t rest).
  assert (Hm : forall r c x, In (r, c, x) (matrix_of w (m, v, b)) -> index n r /\ index n c).
  { destruct Hf as (Hm & _). intros r c x Hi. destruct w; cbn in Hi; try contradiction; exact (Hm r c x Hi). }
  destruct b; cbn [Bool.eqb flat_map].
  - unfold moved_entry at 1. rewrite rsum_app. fold (moved_entry dest (nat_m (matrix_of w (m, v, true))) row col).
    fold (moved_entry dest (flat_map (fun a => nat_m (matrix_of w a)) (pick true w t rest)) row col). rewrite (moved_nat n) by exact Hm.
    unfold cut, answer_entry. cbn [snd]. lra.
  - unfold entry at 1. rewrite rsum_app. fold (entry (nat_m (matrix_of w (m, v, false))) row col).
    fold (entry (flat_map (fun a => nat_m (matrix_of w a)) (pick false w t rest)) row col). rewrite (entry_nat n) by (exact Hrow || exact Hm).
    unfold cut, answer_entry. cbn [snd]. lra.
Qed.
Lemma split_row : forall n dest w t ps row, (forall nm f, In (nm, f) ps -> answer_in n (f w t)) ->
  (moved_row dest (flat_map (fun a => nat_v (rhs_of w a)) (pick true w t ps)) row +
   row_sum (flat_map (fun a => nat_v (rhs_of w a)) (pick false w t ps)) row =
   rsum (fun '(_, f) => answer_row dest (cut w (f w t)) row) ps)%R.
Proof.
  intros n dest w t ps row. induction ps as [|[nm f] rest IH]; intros H; [unfold moved_row, row_sum; cbn; lra|].
  pose proof (H nm f (or_introl eq_refl)) as Hf. cbn [rsum]. rewrite <- IH by (intros; eapply H; right; eassumption).
  unfold pick. cbn [map filter]. destruct (f w t) as [[m v] b]. cbn [snd]. fold (pick true w t rest) (pick false w t rest).
  assert (Hm : forall r x, In (r, x) (rhs_of w (m, v, b)) -> index n r).
  { destruct Hf as (_ & Hv). intros r x Hi. destruct w; cbn in Hi; try contradiction; exact (Hv r x Hi). }
  destruct b; cbn [Bool.eqb flat_map].
  - unfold moved_row at 1. rewrite rsum_app. fold (moved_row dest (nat_v (rhs_of w (m, v, true))) row).
    fold (moved_row dest (flat_map (fun a => nat_v (rhs_of w a)) (pick true w t rest)) row). rewrite moved_row_nat.
    unfold cut, answer_row. cbn [snd]. lra.
  - unfold row_sum at 1. rewrite rsum_app. fold (row_sum (nat_v (rhs_of w (m, v, false))) row).
    fold (row_sum (flat_map (fun a => nat_v (rhs_of w a)) (pick false w t rest)) row). rewrite (row_nat n) by exact Hm.
    unfold cut, answer_row. cbn [snd]. lra.
Qed.
Lemma picked_in : forall n b w t ps, (Z.of_nat n <= 2 ^ 31)%Z -> (forall nm f, In (nm, f) ps -> answer_in n (f w t)) ->
  mat_in n (flat_map (fun a => nat_m (matrix_of w a)) (pick b w t ps)) /\ rhs_in n (flat_map (fun a => nat_v (rhs_of w a)) (pick b w t ps)).
Proof.
  intros n b w t ps Hn H.
  assert (X : forall a, In a (pick b w t ps) -> answer_in n a).
  { intros a Ha. unfold pick in Ha. apply filter_In in Ha. destruct Ha as (Ha & _). apply in_map_iff in Ha. destruct Ha as ([nm f] & <- & Hi). exact (H nm f Hi). }
  split.
  - intros r c x Hi. apply in_flat_map in Hi. destruct Hi as ([[m v] b'] & Ha & Hi). apply X in Ha. destruct Ha as (Hm & _).
    unfold nat_m in Hi. apply in_map_iff in Hi. destruct Hi as ([[r0 c0] x0] & E & Hi). injection E as <- <- <-.
    assert (Hin : In (r0, c0, x0) m) by (destruct w; cbn in Hi; try contradiction; exact Hi).
    destruct (Hm _ _ _ Hin) as (A & B). split; [exact (proj2 (size_index n r0 Hn A))|exact (proj2 (size_index n c0 Hn B))].
  - intros r x Hi. apply in_flat_map in Hi. destruct Hi as ([[m v] b'] & Ha & Hi). apply X in Ha. destruct Ha as (_ & Hv).
    unfold nat_v in Hi. apply in_map_iff in Hi. destruct Hi as ([r0 x0] & E & Hi). injection E as <- <-.
    assert (Hin : In (r0, x0) v) by (destruct w; cbn in Hi; try contradiction; exact Hi).
    exact (proj2 (size_index n r0 Hn (Hv _ _ Hin))).
Qed.

(* ---- answers that are refused ------------------------------------------------------------------ *)
Lemma list_items : forall o l, list_of o = Some l -> items o l.
Proof. intros o l H. destruct o; try discriminate; cbn in H; injection H as <-; constructor. Qed.
Lemma rhs_entries_values : forall k l r, length l <= k -> rhs_entries l = OK r -> forall i o, i mod 2 = 1 -> nth_error l i = Some o -> length l mod 2 = 0 -> double o <> None.
Proof.
  induction k as [|k IH]; intros l r Hk H i o Hi N L; destruct l as [|a [|b t]]; try (destruct i; discriminate); cbn [length] in *; try lia; try discriminate.
  cbn [CustomEq.rhs_entries] in H. destruct (integer a) as [row|]; [|discriminate]. destruct (double b) as [v|] eqn:Eb; [|discriminate].
  apply bind_OK in H. destruct H as (r' & H & _). destruct i as [|[|i]]; [discriminate| |].
  - cbn in N. injection N as <-. rewrite Eb. discriminate.
  - cbn in N. apply (IH t r') with (i := i); [lia|exact H| |exact N|].
    + replace (S (S i)) with (i + 1 * 2) in Hi by lia. rewrite Nat.mod_add in Hi by lia. exact Hi.
    + replace (S (S (length t))) with (length t + 1 * 2) in L by lia. rewrite Nat.mod_add in L by lia. exact L.
Qed.
Lemma mat_entries_values : forall k l m, length l <= k -> mat_entries l = OK m -> forall i o, i mod 3 = 2 -> nth_error l i = Some o -> length l mod 3 = 0 -> double o <> None.
Proof.
  induction k as [|k IH]; intros l m Hk H i o Hi N L; destruct l as [|a [|b [|c t]]]; try (destruct i; discriminate); cbn [length] in *; try lia; try discriminate.
  cbn [CustomEq.mat_entries] in H. destruct (integer a) as [row|]; [|discriminate]. destruct (integer b) as [col|]; [|discriminate]. destruct (double c) as [v|] eqn:Eb; [|discriminate].
  apply bind_OK in H. destruct H as (m' & H & _). destruct i as [|[|[|i]]]; [discriminate|discriminate| |].
  - cbn in N. injection N as <-. rewrite Eb. discriminate.
  - cbn in N. apply (IH t m') with (i := i); [lia|exact H| |exact N|].
    + replace (S (S (S i))) with (i + 1 * 3) in Hi by lia. rewrite Nat.mod_add in Hi by lia. exact Hi.
    + replace (S (S (S (length t)))) with (length t + 1 * 3) in L by lia. rewrite Nat.mod_add in L by lia. exact L.
Qed.
(* an answer of the required form *)
Definition acceptable (w : what) (o : obj R) : Prop :=
  exists mo ro fo, items o [mo; ro; fo] /\
  (w <> RHSONLY -> exists l, items mo l /\ length l mod 3 = 0 /\ forall i x, i mod 3 = 2 -> nth_error l i = Some x -> double x <> None) /\
  (w <> MATRIXONLY -> exists l, items ro l /\ length l mod 2 = 0 /\ forall i x, i mod 2 = 1 -> nth_error l i = Some x -> double x <> None).
Lemma assemble_accepts : forall w t ps c c', assemble_custom w t ps c = OK c' ->
  forall nm p, In (nm, p) ps -> exists o, p w t = Some o /\ acceptable w o.
Proof.
  intros w t ps. induction ps as [|[nm0 p0] rest IH]; intros c c' H nm p Hi; [destruct Hi|]. cbn [CustomEq.assemble_custom] in H.
  destruct (p0 w t) as [o|] eqn:Ep; [|discriminate]. destruct (list_of o) as [l|] eqn:El; [|discriminate].
  destruct l as [|mo [|ro [|fo [|q l]]]]; try discriminate. destruct (get_boolean R is0 fo) as [is_bulk|]; [|discriminate].
  apply bind_OK in H. destruct H as ([m r] & Ha & Hr). destruct Hi as [E|Hi]; [|exact (IH _ _ Hr nm p Hi)]. injection E as <- <-.
  exists o. split; [exact Ep|]. exists mo, ro, fo. split; [apply list_items; exact El|].
  unfold CustomEq.assemble_one in Ha. apply bind_OK in Ha. destruct Ha as (r1 & H1 & Ha). apply bind_OK in Ha. destruct Ha as (m1 & H2 & _). split.
  - intros Hw. assert (X : read_mat fz repr float_text int_text mo = OK m1) by (destruct w; [exact H2|contradiction|exact H2]).
    unfold read_mat in X. destruct (list_of mo) as [l|] eqn:Em; [|discriminate]. destruct (Nat.eqb_spec (length l mod 3) 0) as [L|]; [|discriminate].
    exists l. split; [apply list_items; exact Em|]. split; [exact L|]. intros i x Hi N. exact (mat_entries_values (length l) l m1 (le_n _) X i x Hi N L).
  - intros Hw. assert (X : read_rhs fz repr float_text int_text ro = OK r1) by (destruct w; [contradiction|exact H1|exact H1]).
    unfold read_rhs in X. destruct (list_of ro) as [l|] eqn:Em; [|discriminate]. destruct (Nat.eqb_spec (length l mod 2) 0) as [L|]; [|discriminate].
    exists l. split; [apply list_items; exact Em|]. split; [exact L|]. intros i x Hi N. exact (rhs_entries_values (length l) l r1 (le_n _) X i x Hi N L).
Qed.
Lemma rhs_entries_no_UB : forall k l, length l <= k -> rhs_entries l <> UB.
Proof.
  induction k as [|k IH]; intros l Hk; destruct l as [|a [|b t]]; cbn [length] in Hk; try lia; try discriminate; cbn [CustomEq.rhs_entries]; try discriminate.
  destruct (integer a); [|discriminate]. destruct (double b); [|discriminate]. specialize (IH t ltac:(lia)). destruct (rhs_entries t); cbn; congruence.
Qed.
Lemma mat_entries_no_UB : forall k l, length l <= k -> mat_entries l <> UB.
Proof.
  induction k as [|k IH]; intros l Hk; destruct l as [|a [|b [|c t]]]; cbn [length] in Hk; try lia; try discriminate; cbn [CustomEq.mat_entries]; try discriminate.
  destruct (integer a); [|discriminate]. destruct (integer b); [|discriminate]. destruct (double c); [|discriminate]. specialize (IH t ltac:(lia)). destruct (mat_entries t); cbn; congruence.
Qed.
Lemma assemble_no_UB : forall w t ps c, assemble_custom w t ps c <> UB.
Proof.
  intros w t ps. induction ps as [|[nm0 p0] rest IH]; intros c; cbn [CustomEq.assemble_custom]; [discriminate|].
  destruct (p0 w t) as [o|]; [|discriminate]. destruct (list_of o) as [l|]; [|discriminate].
  destruct l as [|mo [|ro [|fo [|q l]]]]; try discriminate. cbn [get_boolean].
  assert (X : assemble_one w mo ro <> UB).
  { unfold CustomEq.assemble_one.
    assert (A : read_rhs fz repr float_text int_text ro <> UB).
    { unfold read_rhs. destruct (list_of ro) as [l|]; [|discriminate]. destruct (_ =? _); [|discriminate]. exact (rhs_entries_no_UB (length l) l (le_n _)). }
    assert (B : read_mat fz repr float_text int_text mo <> UB).
    { unfold read_mat. destruct (list_of mo) as [l|]; [|discriminate]. destruct (_ =? _); [|discriminate]. exact (mat_entries_no_UB (length l) l (le_n _)). }
    destruct w; cbn; destruct (read_rhs fz repr float_text int_text ro), (read_mat fz repr float_text int_text mo); cbn; congruence. }
  destruct (assemble_one w mo ro) as [[m r]| |]; cbn [bind]; [apply IH|discriminate|contradiction].
Qed.
End P.

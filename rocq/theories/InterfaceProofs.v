(* Interface equations in exact arithmetic: rows, matrix, active pairs. *)
From Coq Require Import String List Bool Arith Lia Reals Lra Classical_Prop.
From Verif Require Import StrMap EqTable EqTableProofs Assembly AssemblyProofs AssemblyResidual AssemblyJacobian Load LoadProofs Contact ContactProofs ContactJacobian Interface.
Import ListNotations.
Open Scope R_scope.
Open Scope nat_scope.
Open Scope list_scope.

(* ---- specification ------------------------------------------------------------------- *)
(* a node of region rg at coordinate ci is taken for equation eq by somebody else than
   interface i: a contact of the region, or another interface at the coordinate *)
Definition taken_by_contact (cs : list contact) (rg eq : string) (ci : nat) : Prop :=
  exists c, In c cs /\ k_region c = rg /\ In ci (k_nodes c) /\ In eq (k_eqs c).
Definition touches (o : interface) (ci : nat) : Prop := exists p, In p (i_pairs o) /\ (ci = p_c0 p \/ ci = p_c1 p).
Definition couples (o : interface) (rg eq : string) : Prop :=
  exists e, In e (i_eqs o) /\ ((rg = i_r0 o /\ e_name0 e = eq) \/ (rg <> i_r0 o /\ rg = i_r1 o /\ e_name1 e = eq)).
Definition taken_by_interface (is : list interface) (i : interface) (rg eq : string) (ci : nat) : Prop :=
  exists o, In o is /\ i_name o <> i_name i /\ touches o ci /\ couples o rg eq.

Lemma contact_free : forall cs rg eq ci, free_of_contacts cs rg eq ci = true <-> ~ taken_by_contact cs rg eq ci.
Proof.
  intros cs rg eq ci. unfold free_of_contacts. rewrite negb_true_iff. split.
  - intros H (c & A & B & C & D). assert (X : existsb (fun c => String.eqb (k_region c) rg && existsb (String.eqb eq) (k_eqs c))%bool (contacts_at cs ci) = true); [|congruence].
    apply existsb_exists. exists c. split.
    + unfold contacts_at. apply filter_In. split; [exact A|]. apply existsb_nat. exact C.
    + rewrite andb_true_iff. split; [apply String.eqb_eq; exact B|]. apply existsb_str. exact D.
  - intros N. destruct (existsb _ _) eqn:E; [|reflexivity]. exfalso. apply N. apply existsb_exists in E. destruct E as (c & A & B).
    unfold contacts_at in A. apply filter_In in A. destruct A as (A & C). apply existsb_nat in C. rewrite andb_true_iff in B. destruct B as (B & D).
    apply String.eqb_eq in B. apply existsb_str in D. exists c. auto.
Qed.
Lemma has_equation_iff : forall o rg eq, has_equation o rg eq = true <-> couples o rg eq.
Proof.
  intros o rg eq. unfold has_equation, couples. destruct (String.eqb_spec rg (i_r0 o)) as [E|E].
  - rewrite existsb_exists. split; intros (e & A & B); exists e; (split; [exact A|]).
    + left. apply String.eqb_eq in B. auto.
    + apply String.eqb_eq. destruct B as [(_ & B)|(B & _)]; [exact B|contradiction].
  - destruct (String.eqb_spec rg (i_r1 o)) as [E1|E1].
    + rewrite existsb_exists. split; intros (e & A & B); exists e; (split; [exact A|]).
      * right. apply String.eqb_eq in B. auto.
      * apply String.eqb_eq. destruct B as [(B & _)|(_ & _ & B)]; [contradiction|exact B].
    + split; [discriminate|]. intros (e & _ & [(B & _)|(_ & B & _)]); contradiction.
Qed.
Lemma interface_free : forall is i rg eq ci, free_of_interfaces is i rg eq ci = true <-> ~ taken_by_interface is i rg eq ci.
Proof.
  intros is i rg eq ci. unfold free_of_interfaces. rewrite negb_true_iff.
  assert (X : existsb (fun o => negb (String.eqb (i_name o) (i_name i)) && has_equation o rg eq)%bool (interfaces_at is ci) = true <-> taken_by_interface is i rg eq ci).
  { rewrite existsb_exists. unfold interfaces_at, taken_by_interface, touches. split; intros (o & A).
    - destruct A as (A & B). apply filter_In in A. destruct A as (A & C). apply existsb_exists in C. destruct C as (p & C & D).
      rewrite andb_true_iff in B. destruct B as (B & E). exists o. split; [exact A|]. split; [intros Eq; rewrite Eq, String.eqb_refl in B; discriminate|]. split.
      + exists p. split; [exact C|]. apply orb_true_iff in D. destruct D as [D|D]; apply Nat.eqb_eq in D; auto.
      + apply has_equation_iff. exact E.
    - destruct A as (A & B & (p & C & D) & E). exists o. split.
      + apply filter_In. split; [exact A|]. apply existsb_exists. exists p. split; [exact C|]. apply orb_true_iff. destruct D as [D|D]; [left|right]; apply Nat.eqb_eq; exact D.
      + rewrite andb_true_iff. split; [|apply has_equation_iff; exact E]. destruct (String.eqb_spec (i_name o) (i_name i)); [contradiction|reflexivity]. }
  destruct (existsb _ _); [|split; [intros _ H; apply X in H; discriminate|reflexivity]].
  split; [discriminate|]. intros N. exfalso. apply N. apply X. reflexivity.
Qed.
Definition side1 (i : interface) (e : ieq) : string := if String.eqb (i_r1 i) (i_r0 i) then e_name0 e else e_name1 e.
Lemma active_pair_iff : forall cs is i e p, active_pair cs is i e p = true <->
  ~ taken_by_contact cs (i_r0 i) (e_name0 e) (p_c0 p) /\ ~ taken_by_interface is i (i_r0 i) (e_name0 e) (p_c0 p) /\
  ~ taken_by_contact cs (i_r1 i) (side1 i e) (p_c1 p) /\ ~ taken_by_interface is i (i_r1 i) (side1 i e) (p_c1 p).
Proof.
  intros cs is i e p. unfold active_pair, active_side. rewrite !String.eqb_refl. fold (side1 i e).
  rewrite !andb_true_iff, !contact_free, !interface_free. tauto.
Qed.

(* ---- rows ------------------------------------------------------------------------------ *)
(* sum over the active pairs with their positions *)
Definition over (act : ipair -> bool) (pairs : list ipair) (h : nat -> ipair -> R) : R :=
  rsum (fun kp => if act (snd kp) then h (fst kp) (snd kp) else 0%R) (numbered 0 pairs).
Lemma over_active : forall act pairs h, rsum (fun kp => h (fst kp) (snd kp)) (active_numbered act pairs) = over act pairs h.
Proof. intros. unfold active_numbered, over. apply rsum_filter. Qed.
Lemma over_ext : forall act pairs h h', (forall k p, h k p = h' k p) -> over act pairs h = over act pairs h'.
Proof. intros. unfold over. apply rsum_ext. intros [k p] _. cbn [fst snd]. rewrite H. reflexivity. Qed.
Lemma numbered_in : forall pairs k0 k p, In (k, p) (numbered k0 pairs) -> In p pairs.
Proof. induction pairs as [|q t IH]; intros k0 k p H; [destruct H|]. cbn [numbered] in H. destruct H as [H|H]; [injection H as _ ->; left; reflexivity|right; eapply IH; exact H]. Qed.

Section Rows.
Variables (r0 r1 : region R) (st : istore (S := R)) (surface name0 name1 model : string) (act : ipair -> bool) (pairs : list ipair) (i0 i1 : nat).
Hypothesis H0 : row_index r0 name0 = Some i0.
Hypothesis H1 : row_index r1 name1 = Some i1.
Definition row0 (p : ipair) : nat := eqnum r0 i0 (p_n0 p).
Definition row1 (p : ipair) : nat := eqnum r1 i1 (p_n1 p).
(* the documented contributions of an interface equation *)
Definition interface_residual (ty : etype) (t : mode) (row : nat) : R :=
  match t with
  | TIME => 0
  | DC => if given model then match ty with
      | CONTINUOUS => over act pairs (fun k p => ind (row1 p) row (val st model k))
      | FLUXTERM => over act pairs (fun k p => ind (row0 p) row (val st model k * val (rg_node r0) surface (p_n0 p)) +
                                               ind (row1 p) row (- (val st model k * val (rg_node r1) surface (p_n1 p))))
      | HYBRID => over act pairs (fun k p => ind (row1 p) row (- (val st model k * val (rg_node r1) surface (p_n1 p))))
      end else 0
  end%R.
Lemma interface_row : forall ty t m v row, interface_assemble rF r0 r1 st surface name0 name1 model act pairs ty t = OK (m, v) ->
  row_sum v row = interface_residual ty t row.
Proof.
  intros ty t m v row H. destruct t; cbn [interface_assemble interface_residual] in *; [|exact (cnothing_row _ _ row H)].
  destruct (given model); [|exact (cnothing_row _ _ row H)]. destruct ty; [unfold type1 in H|unfold type2 in H|unfold type3 in H]; rewrite H0, H1 in H;
  destruct (st model) as [g|] eqn:E; try discriminate.
  - destruct (derivatives _ _ _ _ _) as [dm| |]; try discriminate. cbn [bind] in H. injection H as _ <-.
    unfold row_sum. rewrite rsum_map. cbn [fst snd]. rewrite (over_active act pairs (fun k p => ind (eqnum r1 i1 (p_n1 p)) row (g k))).
    apply over_ext. intros k p. unfold val, row1. rewrite E. reflexivity.
  - destruct (rg_node r0 surface) as [sa0|] eqn:E0; [|discriminate]. destruct (rg_node r1 surface) as [sa1|] eqn:E1; [|discriminate].
    destruct (derivatives _ _ _ _ _) as [dm| |]; try discriminate. cbn [bind] in H. injection H as _ <-.
    unfold row_sum. rewrite rsum_flat_map. cbn [rsum fst snd].
    rewrite (over_active act pairs (fun k p => (ind (eqnum r0 i0 (p_n0 p)) row (g k * sa0 (p_n0 p)) + (ind (eqnum r1 i1 (p_n1 p)) row (- g k * sa1 (p_n1 p)) + 0))%R)).
    apply over_ext. intros k p. unfold val, row0, row1. rewrite E, E0, E1. rewrite Rplus_0_r. f_equal. f_equal. lra.
  - destruct (rg_node r0 surface) as [sa0|] eqn:E0; [|discriminate]. destruct (rg_node r1 surface) as [sa1|] eqn:E1; [|discriminate].
    destruct (derivatives _ _ _ _ _) as [dm| |]; try discriminate. cbn [bind] in H. injection H as _ <-.
    unfold row_sum. rewrite rsum_map. cbn [fst snd]. cbn [s_mul s_opp rF]. rewrite (over_active act pairs (fun k p => ind (eqnum r1 i1 (p_n1 p)) row (- g k * sa1 (p_n1 p))%R)).
    apply over_ext. intros k p. unfold val, row1. rewrite E, E1. f_equal. lra.
Qed.
Lemma interface_perms_eq : forall ty t ps, interface_perms r0 r1 st surface name0 name1 model act pairs ty t = OK ps ->
  ps = if (given model && match t with DC => true | TIME => false end && match ty with FLUXTERM => false | _ => true end)%bool
       then map (fun p => (row1 p, (Some (row0 p), match ty with HYBRID => true | _ => false end))) (filter act pairs) else [].
Proof.
  intros ty t ps H.
  assert (X : forall (h : ipair -> nat * pentry), map (fun kp => h (snd kp)) (active_numbered act pairs) = map h (filter act pairs)).
  { intros h. unfold active_numbered. generalize 0 as k0. clear H. induction pairs as [|p l IH]; intros k0; [reflexivity|]. cbn [numbered filter snd].
    destruct (act p); cbn [map]; rewrite IH; reflexivity. }
  destruct t; cbn [interface_perms] in H; [|injection H as <-; rewrite andb_false_r; reflexivity]. destruct (given model); [|injection H as <-; reflexivity].
  destruct ty; cbn [andb].
  - unfold type1_perms in H. rewrite H0, H1 in H. destruct (st model); [|discriminate]. injection H as <-. apply (X (fun p => (row1 p, (Some (row0 p), false)))).
  - injection H as <-. reflexivity.
  - unfold type3_perms in H. rewrite H0, H1 in H. destruct (st model); [|discriminate]. destruct (rg_node r0 surface); [|discriminate]. destruct (rg_node r1 surface); [|discriminate].
    injection H as <-. apply (X (fun p => (row1 p, (Some (row0 p), true)))).
Qed.
End Rows.

(* ---- the matrix ------------------------------------------------------------------------ *)
(* the derivative models of both sides are the partial derivatives of the interface model *)
Definition interface_exact (f0 f1 : family) (ist : sstore) (pairs : list ipair) (model : string) : Prop :=
  forall g, ist model = Some g -> forall x k p, In (k, p) (numbered 0 pairs) -> forall c,
   (forall var j, is_col f0 c var j -> derivable_pt_lim (fun t => g (upd x c t) k) (x c) (if p_n0 p =? j then dval ist (der_sfx model var "@r0") x k else 0%R)) /\
   (forall var j, is_col f1 c var j -> derivable_pt_lim (fun t => g (upd x c t) k) (x c) (if p_n1 p =? j then dval ist (der_sfx model var "@r1") x k else 0%R)) /\
   ((forall var j, ~ is_col f0 c var j /\ ~ is_col f1 c var j) -> derivable_pt_lim (fun t => g (upd x c t) k) (x c) 0%R).
Definition separate (f0 f1 : family) : Prop := forall c v j v' j', is_col f0 c v j -> ~ is_col f1 c v' j'.

Section Matrix.
Variables (f0 f1 : family) (ist : sstore) (surface name0 name1 model : string) (act : ipair -> bool) (pairs : list ipair) (i0 i1 : nat).
Hypothesis H0 : equation_index (f_table f0) name0 = Some i0.
Hypothesis H1 : equation_index (f_table f1) name1 = Some i1.
Hypothesis U0 : unique_columns f0.
Hypothesis U1 : unique_columns f1.
Hypothesis Sep : separate f0 f1.
Hypothesis Hp : forall p, In p pairs -> p_n0 p < m_nodes (f_mesh f0) /\ p_n1 p < m_nodes (f_mesh f1).

Definition side_sum (f : family) (x : state) (sfx : string) (node : ipair -> nat) (c k : nat) (p : ipair) : R :=
  colsum f c [node p] (fun var => [dval ist (der_sfx model var sfx) x k]) (fvars f).
Section Side.
Variables (f : family) (x : state) (sfx : string) (node : ipair -> nat) (entries : (nat -> R) -> (ipair -> nat) -> mat_list R) (w : nat -> nat -> ipair -> R).
Hypothesis HE : forall d col row c, entry (entries d col) row c = over act pairs (fun k p => (w row k p * ind (col p) c (d k))%R).
Lemma side_entry : forall vars m row c,
  over_vars (fun var => match at_state ist x (der_sfx model var sfx) with
                        | None => OK []
                        | Some d => match col_index (reg f x) var with None => Throw | Some i => OK (entries d (fun p => eqnum (reg f x) i (node p))) end
                        end) vars = OK m ->
  entry m row c = over act pairs (fun k p => (w row k p * colsum f c [node p] (fun var => [dval ist (der_sfx model var sfx) x k]) vars)%R).
Proof.
  induction vars as [|var t IH]; intros m row c H.
  - injection H as <-. unfold entry. cbn [rsum]. symmetry. apply rsum_zero. intros [k p] _. cbn [fst snd]. unfold colsum. cbn [rsum]. destruct (act p); lra.
  - destruct (over_vars_cons _ _ _ _ H) as (a & b & A & B & ->). rewrite entry_app, (IH _ _ _ B). unfold colsum. cbn [rsum].
    assert (EA : entry a row c = over act pairs (fun k p => (w row k p * match fcol f var with Some idx => hit f c [node p] idx [dval ist (der_sfx model var sfx) x k] | None => 0 end)%R)).
    { unfold at_state in A. unfold dval. destruct (ist (der_sfx model var sfx)) as [d|]; cbn [option_map] in A.
      - change (col_index (reg f x) var) with (fcol f var) in A. destruct (fcol f var) as [i|]; [|discriminate]. injection A as <-. rewrite HE. apply over_ext. intros k p.
        change (eqnum (reg f x) i (node p)) with (fnum f i (node p)). unfold hit. cbn [combine rsum fst snd]. rewrite Rplus_0_r. reflexivity.
      - injection A as <-. unfold entry. cbn [rsum]. symmetry. apply rsum_zero. intros [k p] _. cbn [fst snd]. unfold hit. cbn [combine rsum fst snd].
        destruct (fcol f var) as [i|]; unfold ind; try destruct (_ =? c); destruct (act p); lra. }
    rewrite EA. unfold over. rewrite <- rsum_plus. apply rsum_ext. intros [k p] _. cbn [fst snd]. destruct (act p); lra.
Qed.
End Side.
Lemma derivatives_entry : forall x entries w m row c,
  (forall d col row c, entry (entries d col) row c = over act pairs (fun k p => (w row k p * ind (col p) c (d k))%R)) ->
  derivatives (reg f0 x) (reg f1 x) (at_state ist x) model entries = OK m ->
  entry m row c = over act pairs (fun k p => (w row k p * (side_sum f0 x "@r0" p_n0 c k p + side_sum f1 x "@r1" p_n1 c k p))%R).
Proof.
  intros x entries w m row c HE H. unfold derivatives in H. destruct (bind_OK _ _ _ H) as (m0 & A & H'). destruct (bind_OK _ _ _ H') as (m1 & B & E). injection E as <-.
  rewrite entry_app. rewrite (side_entry f0 x "@r0" p_n0 entries w HE _ _ row c A), (side_entry f1 x "@r1" p_n1 entries w HE _ _ row c B).
  unfold over. rewrite <- rsum_plus. apply rsum_ext. intros [k p] _. cbn [fst snd]. unfold side_sum.
  change (variables (reg f0 x)) with (fvars f0). change (variables (reg f1 x)) with (fvars f1). destruct (act p); lra.
Qed.
Lemma model_deriv : forall g, interface_exact f0 f1 ist pairs model -> ist model = Some g -> forall x k p c, In (k, p) (numbered 0 pairs) ->
  derivable_pt_lim (fun t => g (upd x c t) k) (x c) (side_sum f0 x "@r0" p_n0 c k p + side_sum f1 x "@r1" p_n1 c k p)%R.
Proof.
  intros g HX Hg x k p c Hi. destruct (HX g Hg x k p Hi c) as (A & B & C). destruct (Hp p (numbered_in _ _ _ _ Hi)) as (N0 & N1).
  assert (NS0 : forall n, In n [p_n0 p] -> n < m_nodes (f_mesh f0)) by (intros n [<-|[]]; exact N0).
  assert (NS1 : forall n, In n [p_n1 p] -> n < m_nodes (f_mesh f1)) by (intros n [<-|[]]; exact N1).
  unfold side_sum.
  destruct (classic (exists var j, is_col f0 c var j)) as [(var & j & I0)|O0]; [|destruct (classic (exists var j, is_col f1 c var j)) as [(var & j & I1)|O1]].
  - rewrite (colsum_in f0 c U0 _ _ NS0 var j I0). rewrite (colsum_out f1 c _ _ NS1) by (intros var' j' I1; exact (Sep c var j var' j' I0 I1)).
    cbn [combine rsum fst snd]. rewrite !Rplus_0_r. exact (A var j I0).
  - rewrite (colsum_in f1 c U1 _ _ NS1 var j I1). rewrite (colsum_out f0 c _ _ NS0) by (intros var' j' I0; apply O0; eauto).
    cbn [combine rsum fst snd]. rewrite Rplus_0_r, Rplus_0_l. exact (B var j I1).
  - rewrite (colsum_out f0 c _ _ NS0) by (intros var' j' I0; apply O0; eauto). rewrite (colsum_out f1 c _ _ NS1) by (intros var' j' I1; apply O1; eauto).
    rewrite Rplus_0_l. apply C. intros var j. split; intros I; [apply O0|apply O1]; eauto.
Qed.

Lemma over_deriv : forall (h : nat -> ipair -> R -> R) (d : nat -> ipair -> R) x0,
  (forall k p, In (k, p) (numbered 0 pairs) -> derivable_pt_lim (h k p) x0 (d k p)) ->
  derivable_pt_lim (fun t => over act pairs (fun k p => h k p t)) x0 (over act pairs d).
Proof.
  intros h d x0 H. unfold over. apply (rsum_deriv (fun kp t => if act (snd kp) then h (fst kp) (snd kp) t else 0%R)). intros [k p] Hi. cbn [fst snd].
  destruct (act p); [apply H; exact Hi|apply derivable_pt_lim_const].
Qed.
Lemma ind_lin : forall a b s x, ind a b (s * x)%R = (ind a b s * x)%R.
Proof. intros. unfold ind. destruct (_ =? _); lra. Qed.

Lemma interface_jacobian : interface_exact f0 f1 ist pairs model -> fixed (f_node f0) surface -> fixed (f_node f1) surface ->
  forall ty t x m v, interface_assemble rF (reg f0 x) (reg f1 x) (at_state ist x) surface name0 name1 model act pairs ty t = OK (m, v) ->
  forall row c, derivable_pt_lim
    (fun u => interface_residual (reg f0 (upd x c u)) (reg f1 (upd x c u)) (at_state ist (upd x c u)) surface model act pairs i0 i1 ty t row) (x c) (entry m row c).
Proof.
  intros HX F0 F1 ty t x m v H row c. destruct t; cbn [interface_assemble interface_residual] in *.
  2: { injection H as <- _. apply derivable_pt_lim_const. }
  destruct (given model); [|injection H as <- _; apply derivable_pt_lim_const].
  assert (R0 : row_index (reg f0 x) name0 = Some i0) by exact H0. assert (R1 : row_index (reg f1 x) name1 = Some i1) by exact H1.
  assert (Q0 : forall y p, row0 (reg f0 y) i0 p = fnum f0 i0 (p_n0 p)) by reflexivity. assert (Q1 : forall y p, row1 (reg f1 y) i1 p = fnum f1 i1 (p_n1 p)) by reflexivity.
  destruct ty; [unfold type1 in H|unfold type2 in H|unfold type3 in H]; rewrite R0, R1 in H;
  unfold at_state in H at 1; destruct (ist model) as [g|] eqn:E; try discriminate; cbn [option_map] in H.
  - destruct (derivatives _ _ _ _ _) as [dm| |] eqn:ED; try discriminate. cbn [bind] in H. injection H as <- _.
    rewrite (derivatives_entry x _ (fun row k p => ind (fnum f1 i1 (p_n1 p)) row 1%R) dm row c) with (2 := ED).
    + apply over_deriv. intros k p Hi. apply (deriv_ext (fun u => (ind (fnum f1 i1 (p_n1 p)) row 1 * g (upd x c u) k)%R)).
      * intros u. unfold val, at_state. rewrite E. cbn [option_map]. rewrite Q1, <- ind_lin, Rmult_1_l. reflexivity.
      * apply (derivable_pt_lim_scal (fun u => g (upd x c u) k)). apply (model_deriv g HX E). exact Hi.
    + intros d col row' c'. rewrite entry_map. rewrite (over_active act pairs (fun k p => ind (eqnum (reg f1 x) i1 (p_n1 p)) row' (ind (col p) c' (d k)))).
      apply over_ext. intros k p. change (eqnum (reg f1 x) i1 (p_n1 p)) with (fnum f1 i1 (p_n1 p)). rewrite <- ind_lin, Rmult_1_l. reflexivity.
  - destruct (rg_node (reg f0 x) surface) as [sa0|] eqn:E0; [|discriminate]. destruct (rg_node (reg f1 x) surface) as [sa1|] eqn:E1; [|discriminate].
    destruct (derivatives _ _ _ _ _) as [dm| |] eqn:ED; try discriminate. cbn [bind] in H. injection H as <- _.
    cbn in E0, E1. unfold at_state in E0, E1.
    destruct (f_node f0 surface) as [a0|] eqn:G0; [|discriminate]. destruct (f_node f1 surface) as [a1|] eqn:G1; [|discriminate]. cbn in E0, E1. injection E0 as E0. injection E1 as E1.
    rewrite (derivatives_entry x _ (fun row k p => (ind (fnum f0 i0 (p_n0 p)) row (sa0 (p_n0 p)) + ind (fnum f1 i1 (p_n1 p)) row (- sa1 (p_n1 p)))%R) dm row c) with (2 := ED).
    + apply over_deriv. intros k p Hi. apply (deriv_ext (fun u => ((ind (fnum f0 i0 (p_n0 p)) row (sa0 (p_n0 p)) + ind (fnum f1 i1 (p_n1 p)) row (- sa1 (p_n1 p))) * g (upd x c u) k)%R)).
      * intros u. rewrite Q0, Q1. unfold val. cbn [reg rg_node]. unfold at_state. rewrite E, G0, G1. cbn [option_map].
        rewrite (F0 a0 G0 (upd x c u) x), (F1 a1 G1 (upd x c u) x), E0, E1. unfold ind. destruct (_ =? row), (_ =? row); lra.
      * apply (derivable_pt_lim_scal (fun u => g (upd x c u) k)). apply (model_deriv g HX E). exact Hi.
    + intros d col row' c'. rewrite entry_flat_map. unfold entry. cbn [rsum fst snd s_mul s_opp rF].
      rewrite (over_active act pairs (fun k p => ((if ((eqnum (reg f0 x) i0 (p_n0 p) =? row') && (col p =? c'))%bool then d k * sa0 (p_n0 p) else 0) +
         ((if ((eqnum (reg f1 x) i1 (p_n1 p) =? row') && (col p =? c'))%bool then - d k * sa1 (p_n1 p) else 0) + 0))%R)).
      apply over_ext. intros k p. change (eqnum (reg f1 x) i1 (p_n1 p)) with (fnum f1 i1 (p_n1 p)). change (eqnum (reg f0 x) i0 (p_n0 p)) with (fnum f0 i0 (p_n0 p)).
      unfold ind. destruct (fnum f0 i0 (p_n0 p) =? row'), (fnum f1 i1 (p_n1 p) =? row'), (col p =? c'); cbn [andb]; lra.
  - destruct (rg_node (reg f0 x) surface) as [sa0|] eqn:E0; [|discriminate]. destruct (rg_node (reg f1 x) surface) as [sa1|] eqn:E1; [|discriminate].
    destruct (derivatives _ _ _ _ _) as [dm| |] eqn:ED; try discriminate. cbn [bind] in H. injection H as <- _.
    cbn in E1. unfold at_state in E1. destruct (f_node f1 surface) as [a1|] eqn:G1; [|discriminate]. cbn in E1. injection E1 as E1.
    rewrite (derivatives_entry x _ (fun row k p => (ind (fnum f1 i1 (p_n1 p)) row (- sa1 (p_n1 p)))%R) dm row c) with (2 := ED).
    + apply over_deriv. intros k p Hi. apply (deriv_ext (fun u => (ind (fnum f1 i1 (p_n1 p)) row (- sa1 (p_n1 p)) * g (upd x c u) k)%R)).
      * intros u. rewrite Q1. unfold val. cbn [reg rg_node]. unfold at_state. rewrite E, G1. cbn [option_map].
        rewrite (F1 a1 G1 (upd x c u) x), E1. unfold ind. destruct (_ =? row); lra.
      * apply (derivable_pt_lim_scal (fun u => g (upd x c u) k)). apply (model_deriv g HX E). exact Hi.
    + intros d col row' c'. cbn [s_mul s_opp rF]. rewrite entry_map. rewrite (over_active act pairs (fun k p => ind (eqnum (reg f1 x) i1 (p_n1 p)) row' (ind (col p) c' (- d k * sa1 (p_n1 p))%R))).
      apply over_ext. intros k p. change (eqnum (reg f1 x) i1 (p_n1 p)) with (fnum f1 i1 (p_n1 p)). unfold ind. destruct (_ =? row'), (_ =? c'); lra.
Qed.
End Matrix.

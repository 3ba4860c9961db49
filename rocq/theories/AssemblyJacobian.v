From Coq Require Import String List Bool Arith Lia Reals Lra Classical_Prop.
From Verif Require Import StrMap EqTable EqTableProofs Assembly AssemblyProofs.
Import ListNotations.
Open Scope R_scope.
Open Scope nat_scope.
Open Scope list_scope.

(* ---- specification: models as functions of the unknowns -------------------------- *)
(* the value of every unknown of the global system, by row *)
Definition state := nat -> R.
Definition upd (x : state) (c : nat) (t : R) : state := fun i => if i =? c then t else x i.
(* a model gives a value for each element, depending on the unknowns *)
Definition sstore := string -> option (state -> nat -> R).
Definition at_state (st : sstore) (x : state) : store R := fun s => option_map (fun f => f x) (st s).
Record family := mkFam { f_mesh : mesh; f_base : nat; f_table : table body; f_geom : geom;
  f_node : sstore; f_edge : sstore; f_element : sstore }.
Definition reg (f : family) (x : state) : region R :=
  mkReg (f_mesh f) (f_base f) (f_table f) (f_geom f) (at_state (f_node f) x) (at_state (f_edge f) x) (at_state (f_element f) x).

(* column c belongs to variable var at node j *)
Definition fvars (f : family) : list string := keys (t_var (f_table f)).
Definition fnum (f : family) (idx j : nat) : nat := f_base f + idx * m_nodes (f_mesh f) + j.
Definition fcol (f : family) (var : string) : option nat :=
  match equation_of_variable (f_table f) var with
  | Some e => equation_index (f_table f) e
  | None => equation_index (f_table f) ""%string
  end.
Definition is_col (f : family) (c : nat) (var : string) (j : nat) : Prop :=
  In var (fvars f) /\ j < m_nodes (f_mesh f) /\ exists idx, fcol f var = Some idx /\ c = fnum f idx j.

Definition dval (st : sstore) (s : string) (x : state) (k : nat) : R := match st s with Some g => g x k | None => 0%R end.
(* the models model:var<suffix> are the partial derivatives of the model with respect
   to the variables at the nodes of the element; a missing one stands for zero *)
Definition exact (f : family) (st : sstore) (els : list (nat * list nat)) (sfx : list string) (model : string) : Prop :=
  forall g, st model = Some g -> forall x k ns, In (k, ns) els -> forall c,
   (forall var j, is_col f c var j ->
      derivable_pt_lim (fun t => g (upd x c t) k) (x c)
        (rsum (fun p => if fst p =? j then dval st (String.append (der_name model var) (snd p)) x k else 0%R) (combine ns sfx))) /\
   ((forall var j, ~ is_col f c var j) -> derivable_pt_lim (fun t => g (upd x c t) k) (x c) 0%R).
Definition exact_node (f : family) (model : string) : Prop :=
  forall g, f_node f model = Some g -> forall x i, i < m_nodes (f_mesh f) -> forall c,
   (forall var j, is_col f c var j ->
      derivable_pt_lim (fun t => g (upd x c t) i) (x c) (if i =? j then dval (f_node f) (der_name model var) x i else 0%R)) /\
   ((forall var j, ~ is_col f c var j) -> derivable_pt_lim (fun t => g (upd x c t) i) (x c) 0%R).
(* geometric models do not depend on the unknowns *)
Definition fixed (st : sstore) (model : string) : Prop := forall g, st model = Some g -> forall x y k, g x k = g y k.

Definition nodes_of (els : list elem) : list (nat * list nat) := map (fun e => let '(k, n0, n1, o) := e in (k, n0 :: n1 :: o)) els.
Definition edge_sfx : list string := ["@n0"; "@n1"]%string.
Definition tri_sfx : list string := ["@en0"; "@en1"; "@en2"]%string.
Definition tet_sfx : list string := ["@en0"; "@en1"; "@en2"; "@en3"]%string.
Definition exact_edge f model := exact f (f_edge f) (nodes_of (edge_elems (f_mesh f))) edge_sfx model.
Definition exact_element f model :=
  (m_dim (f_mesh f) = 2 -> exact f (f_element f) (nodes_of (tri_elems (f_mesh f))) tri_sfx model) /\
  (m_dim (f_mesh f) = 3 -> exact f (f_element f) (nodes_of (tet_elems (f_mesh f))) tet_sfx model).
(* all element nodes are nodes of the mesh *)
Definition mesh_ok (g : mesh) : Prop :=
  forall k ns, In (k, ns) (nodes_of (edge_elems g) ++ nodes_of (tri_elems g) ++ nodes_of (tet_elems g)) ->
  forall n, In n ns -> n < m_nodes g.
(* the models of an equation have exact derivatives *)
Definition exact_body (f : family) (b : body) : Prop :=
  exact_node f (b_node b) /\ exact_node f (b_time b) /\ exact_edge f (b_edge b) /\ exact_edge f (b_edgevol b) /\
  exact_element f (b_element b) /\ exact_element f (b_vol0 b) /\ exact_element f (b_vol1 b).
Definition fixed_geom (f : family) : Prop :=
  fixed (f_node f) (g_nodevol (f_geom f)) /\ fixed (f_edge f) (g_edgecouple (f_geom f)) /\
  fixed (f_edge f) (g_edgevol0 (f_geom f)) /\ fixed (f_edge f) (g_edgevol1 (f_geom f)) /\
  fixed (f_element f) (g_elcouple (f_geom f)) /\ fixed (f_element f) (g_elvol0 (f_geom f)) /\ fixed (f_element f) (g_elvol1 (f_geom f)).
Definition rhs_of (l : loads R) : rhs_list R := match l with Some (_, v) => v | None => [] end.
(* the matrix of a load is the Jacobian of its residual, for all rows and columns *)
Definition jacobian_ok (l : state -> loads R) : Prop :=
  forall x m v, l x = Some (m, v) -> forall row c,
  derivable_pt_lim (fun t => row_sum (rhs_of (l (upd x c t))) row) (x c) (entry m row c).

(* ---- uniqueness of columns ----------------------------------------------------------- *)
Definition unique_columns (f : family) : Prop := NoDup (fvars f) /\
  forall var var' idx, In var (fvars f) -> In var' (fvars f) -> fcol f var = Some idx -> fcol f var' = Some idx -> var = var'.
Lemma fnum_inj : forall f i j i' j', j < m_nodes (f_mesh f) -> j' < m_nodes (f_mesh f) -> fnum f i j = fnum f i' j' -> i = i' /\ j = j'.
Proof. intros f i j i' j' H H' E. unfold fnum in E. assert (i = i') by nia. subst. split; [reflexivity|lia]. Qed.

Section Col.
Variables (f : family) (c : nat).
Hypothesis U : unique_columns f.
Variables (ns : list nat) (h : string -> list R).   (* values by variable, one for each node *)
Hypothesis Hns : forall n, In n ns -> n < m_nodes (f_mesh f).
Definition hit (idx : nat) (vals : list R) : R := rsum (fun p => ind (fnum f idx (fst p)) c (snd p)) (combine ns vals).
Definition colsum (vars : list string) : R :=
  rsum (fun var => match fcol f var with Some idx => hit idx (h var) | None => 0%R end) vars.
Lemma colsum_in : forall var j, is_col f c var j ->
  colsum (fvars f) = rsum (fun p => if fst p =? j then snd p else 0%R) (combine ns (h var)).
Proof.
  intros var j (Hv & Hj & idx & Hc & Ec). destruct U as (ND & Inj). unfold colsum.
  assert (Z : forall var', In var' (fvars f) -> var' <> var -> match fcol f var' with Some i => hit i (h var') | None => 0%R end = 0%R).
  { intros var' Hv' N. destruct (fcol f var') as [i|] eqn:E; [|reflexivity]. apply rsum_zero. intros [n d] Hi.
    apply in_combine_l in Hi. unfold ind. cbn [fst snd]. destruct (Nat.eqb_spec (fnum f i n) c) as [Eq|]; [|reflexivity].
    rewrite Ec in Eq. destruct (fnum_inj f i n idx j (Hns n Hi) Hj Eq) as (-> & _). exfalso. apply N. eapply Inj; eassumption. }
  assert (Y : match fcol f var with Some i => hit i (h var) | None => 0%R end = rsum (fun p => if fst p =? j then snd p else 0%R) (combine ns (h var))).
  { rewrite Hc. unfold hit. apply rsum_ext. intros [n d] Hi. apply in_combine_l in Hi. unfold ind. cbn [fst snd].
    destruct (Nat.eqb_spec (fnum f idx n) c) as [Eq|Ne]; destruct (Nat.eqb_spec n j) as [En|Nn]; try reflexivity.
    - rewrite Ec in Eq. destruct (fnum_inj f idx n idx j (Hns n Hi) Hj Eq). contradiction.
    - subst n. congruence. }
  rewrite <- Y. clear Y. revert Hv Z ND. generalize (fvars f) as l. induction l as [|a l IH]; intros Hv Z ND; [destruct Hv|].
  cbn [rsum]. inversion ND as [|? ? Ha Hl]; subst. destruct Hv as [->|Hv].
  - rewrite (rsum_zero _ l); [lra|]. intros b Hb. apply Z; [right; exact Hb|]. intros ->. contradiction.
  - rewrite (Z a); [|left; reflexivity|intros ->; contradiction]. rewrite IH; [lra|exact Hv| |exact Hl]. intros b Hb. apply Z. right; exact Hb.
Qed.
Lemma colsum_out : (forall var j, ~ is_col f c var j) -> colsum (fvars f) = 0%R.
Proof.
  intros N. apply rsum_zero. intros var Hv. destruct (fcol f var) as [i|] eqn:E; [|reflexivity]. apply rsum_zero.
  intros [n d] Hi. apply in_combine_l in Hi. unfold ind. cbn [fst snd]. destruct (Nat.eqb_spec (fnum f i n) c) as [Eq|]; [|reflexivity].
  exfalso. apply (N var n). split; [exact Hv|]. split; [auto|]. exists i. auto.
Qed.
End Col.

(* ---- matrix entries of the couple assemblies ------------------------------------------- *)
Lemma entry_app : forall a b row c, entry (a ++ b) row c = (entry a row c + entry b row c)%R.
Proof. intros. apply rsum_app. Qed.
Lemma entry_flat_map : forall {A} (g : A -> mat_list R) l row c, entry (flat_map g l) row c = rsum (fun a => entry (g a) row c) l.
Proof. intros. unfold entry. apply rsum_flat_map. Qed.
Lemma row_sum_app : forall a b row, row_sum (a ++ b) row = (row_sum a row + row_sum b row)%R.
Proof. intros. apply rsum_app. Qed.
Lemma ind_mul : forall a b s x, ind a b (s * x)%R = (s * ind a b x)%R.
Proof. intros. unfold ind. destruct (a =? b); lra. Qed.

Section Entry.
Variables (f : family) (x : state) (eq : string) (i0 : nat).
Hypothesis Hi0 : equation_index (f_table f) eq = Some i0.
Let r := reg f x.
Definition wt (s0 s1 : R) (row : nat) (e : elem) : R :=
  let '(_, n0, n1, _) := e in (ind (fnum f i0 n0) row s0 + ind (fnum f i0 n1) row s1)%R.


Lemma elem_jacobian_entry : forall i1 ders s0 s1 e row c, (let '(_, _, _, o) := e in 2 <= length ders) ->
  entry (elem_jacobian rF r i0 i1 ders s0 s1 e) row c =
  (let '(k, n0, n1, o) := e in (wt s0 s1 row e * rsum (fun p => ind (fnum f i1 (fst p)) c (snd p)) (combine (n0 :: n1 :: o) (map (fun d => d k) ders)))%R).
Proof.
  intros i1 ders s0 s1 [[[k n0] n1] o] row c Hl. destruct ders as [|d0 [|d1 rest]]; cbn in Hl; try lia. clear Hl.
  unfold elem_jacobian. rewrite entry_app. cbn [map combine rsum].
  change (eqnum r) with (fnum f).
  assert (E2 : entry (flat_map (fun nd : nat * (nat -> R) => [(fnum f i0 n0, fnum f i1 (fst nd), s_mul rF s0 (snd nd k)); (fnum f i0 n1, fnum f i1 (fst nd), s_mul rF s1 (snd nd k))]) (combine o rest)) row c
     = (wt s0 s1 row (k, n0, n1, o) * rsum (fun p => ind (fnum f i1 (fst p)) c (snd p)) (combine o (map (fun d => d k) rest)))%R).
  { clear. revert rest. induction o as [|n o IH]; intros [|d rest]; cbn [combine flat_map map rsum]; try (unfold entry; cbn [rsum]; lra).
    rewrite entry_app, IH. unfold entry, wt, ind. cbn [rsum fst snd s_mul rF].
    destruct (fnum f i0 n0 =? row), (fnum f i0 n1 =? row), (fnum f i1 n =? c); cbn [andb]; lra. }
  rewrite E2. unfold entry, wt, ind. cbn [rsum fst snd s_mul rF].
  destruct (fnum f i0 n0 =? row), (fnum f i0 n1 =? row), (fnum f i1 n0 =? c), (fnum f i1 n1 =? c); cbn [andb]; lra.
Qed.

Lemma all_or_none_map : forall (look : store R) (nm : string -> string) sfx ds,
  all_or_none (map (fun s => look (nm s)) sfx) = Some ds -> forall k, map (fun d => d k) ds = map (fun s => match look (nm s) with Some g => g k | None => 0%R end) sfx.
Proof.
  intros look nm. induction sfx as [|s t IH]; cbn; intros ds H k; [injection H as <-; reflexivity|].
  destruct (look (nm s)) as [g|]; [|discriminate]. destruct (all_or_none (map (fun s => look (nm s)) t)) as [l|] eqn:E; [|discriminate].
  injection H as <-. cbn. f_equal. apply IH. reflexivity.
Qed.

Lemma couple_jacobians_entry : forall (st : sstore) els sfx model couple s0 s1 row c vars m, 2 <= length sfx ->
  couple_jacobians rF r eq els (at_state st x) sfx model couple s0 s1 vars = Some m ->
  entry m row c = rsum (fun e => let '(k, n0, n1, o) := e in
     (wt s0 s1 row e * (couple k * colsum f c (n0 :: n1 :: o) (fun var => map (fun s => dval st (String.append (der_name model var) s) x k) sfx) vars))%R) els.
Proof.
  intros st els sfx model couple s0 s1 row c vars m Hs. revert m. induction vars as [|var t IH]; intros m H; cbn [couple_jacobians] in H.
  - injection H as <-. cbn. symmetry. apply rsum_zero. intros [[[k n0] n1] o] _. unfold colsum. cbn. lra.
  - unfold der_models in H.
    destruct (forallb _ (map (fun s => at_state st x (String.append (der_name model var) s)) sfx)) eqn:Ea.
    + rewrite (IH m H). apply rsum_ext. intros [[[k n0] n1] o] _. unfold colsum. cbn [rsum].
      assert (Z : match fcol f var with Some idx => hit f c (n0 :: n1 :: o) idx (map (fun s => dval st (String.append (der_name model var) s) x k) sfx) | None => 0%R end = 0%R).
      { destruct (fcol f var) as [idx|]; [|reflexivity]. apply rsum_zero. intros [n d] Hi. apply in_combine_r in Hi. apply in_map_iff in Hi.
        destruct Hi as (s & <- & Hs'). cbn. rewrite forallb_forall in Ea. specialize (Ea (at_state st x (String.append (der_name model var) s)) (in_map _ _ _ Hs')).
        unfold at_state in Ea. unfold dval, ind. destruct (st (String.append (der_name model var) s)); [discriminate|]. destruct (_ =? c); reflexivity. }
      rewrite Z. lra.
    + destruct (all_or_none (map (fun s => at_state st x (String.append (der_name model var) s)) sfx)) as [ds|] eqn:Eds; [|discriminate]. cbn [option_map] in H.
      unfold couple_jacobian, row_index in H. change (rg_table r) with (f_table f) in H. rewrite Hi0 in H.
      change (col_index r var) with (fcol f var) in H. destruct (fcol f var) as [i1|] eqn:Ec; [|discriminate].
      destruct (couple_jacobians rF r eq els (at_state st x) sfx model couple s0 s1 t) as [m'|]; [|discriminate]. injection H as <-.
      assert (Ld : length ds = length sfx).
      { pose proof (all_or_none_map (at_state st x) (fun s => String.append (der_name model var) s) sfx ds Eds 0) as E.
        apply (f_equal (@length R)) in E. rewrite !map_length in E. exact E. }
      rewrite entry_app, (IH m' eq_refl). rewrite entry_flat_map, <- rsum_plus. apply rsum_ext.
      intros [[[k n0] n1] o] _.
      rewrite elem_jacobian_entry by (rewrite map_length; lia). cbv zeta beta iota.
      unfold colsum at 2. cbn [rsum]. rewrite Ec. fold (colsum f c (n0 :: n1 :: o) (fun var0 => map (fun s => dval st (String.append (der_name model var0) s) x k) sfx) t).
      rewrite (map_map (fun (d : nat -> R) (k0 : nat) => (d k0 * couple k0)%R) (fun d => d k) ds). cbv beta.
      assert (Ev : map (fun d : nat -> R => (d k * couple k)%R) ds = map (fun v => (v * couple k)%R) (map (fun s => dval st (String.append (der_name model var) s) x k) sfx)).
      { pose proof (all_or_none_map (at_state st x) (fun s => String.append (der_name model var) s) sfx ds Eds k) as E.
        replace (map (fun s => dval st (String.append (der_name model var) s) x k) sfx) with (map (fun d : nat -> R => d k) ds).
        - rewrite map_map. reflexivity.
        - rewrite E. apply map_ext. intros s. unfold dval, at_state. destruct (st (String.append (der_name model var) s)); reflexivity. }
      rewrite Ev. unfold hit.
      assert (Es : rsum (fun p => ind (fnum f i1 (fst p)) c (snd p)) (combine (n0 :: n1 :: o) (map (fun v => (v * couple k)%R) (map (fun s => dval st (String.append (der_name model var) s) x k) sfx)))
         = (couple k * rsum (fun p => ind (fnum f i1 (fst p)) c (snd p)) (combine (n0 :: n1 :: o) (map (fun s => dval st (String.append (der_name model var) s) x k) sfx)))%R).
      { generalize (map (fun s => dval st (String.append (der_name model var) s) x k) sfx) as vs. generalize (n0 :: n1 :: o) as l.
        induction l as [|a l IHl]; intros [|v vs]; cbn; try lra. rewrite IHl. unfold ind. destruct (_ =? c); lra. }
      rewrite Es. lra.
Qed.

Lemma node_jacobians_entry : forall model vol row c vars m,
  node_jacobians rF r eq model vol vars = Some m ->
  entry m row c = rsum (fun i => (ind (fnum f i0 i) row (vol i) * colsum f c [i] (fun var => [dval (f_node f) (der_name model var) x i]) vars)%R) (seq 0 (m_nodes (f_mesh f))).
Proof.
  intros model vol row c vars. induction vars as [|var t IH]; intros m H; cbn [node_jacobians] in H.
  - injection H as <-. cbn. symmetry. apply rsum_zero. intros i _. unfold colsum. cbn. lra.
  - change (rg_node r (der_name model var)) with (at_state (f_node f) x (der_name model var)) in H. unfold at_state in H.
    destruct (f_node f (der_name model var)) as [g|] eqn:Eg; cbn [option_map] in H.
    + unfold node_assemble_jacobian, row_index in H. change (rg_table r) with (f_table f) in H. rewrite Hi0 in H.
      change (col_index r var) with (fcol f var) in H. destruct (fcol f var) as [i1|] eqn:Ec; [|discriminate].
      destruct (node_jacobians rF r eq model vol t) as [m'|]; [|discriminate]. injection H as <-.
      rewrite entry_app, (IH m' eq_refl). unfold entry at 1. rewrite rsum_map, <- rsum_plus. apply rsum_ext. intros i _.
      unfold colsum at 2. cbn [rsum]. rewrite Ec. fold (colsum f c [i] (fun var0 => [dval (f_node f) (der_name model var0) x i]) t).
      unfold hit. cbn [combine rsum fst snd]. change (eqnum r) with (fnum f). unfold dval at 2. rewrite Eg. unfold ind. cbn [s_mul rF].
      destruct (fnum f i0 i =? row), (fnum f i1 i =? c); cbn [andb]; lra.
    + rewrite (IH m H). apply rsum_ext. intros i _. unfold colsum. cbn [rsum].
      assert (Z : match fcol f var with Some idx => hit f c [i] idx [dval (f_node f) (der_name model var) x i] | None => 0%R end = 0%R).
      { destruct (fcol f var) as [idx|]; [|reflexivity]. unfold hit, dval, ind. rewrite Eg. cbn. destruct (_ =? c); lra. }
      rewrite Z. lra.
Qed.
End Entry.

(* ---- derivative of the residuals ---------------------------------------------------------- *)
Definition uniform (l : state -> loads R) : Prop := forall x y, l x = None -> l y = None.
Definition jok (l : state -> loads R) : Prop := uniform l /\ jacobian_ok l.

Lemma jok_nothing : jok (fun _ => nothing).
Proof.
  split; [intros x y H; exact H|]. intros x m v H row c. injection H as <- <-. unfold entry. cbn.
  apply (derivable_pt_lim_ext (fun _ => 0%R)); [|apply derivable_pt_lim_const]. intros t. reflexivity.
Qed.
Lemma jok_both : forall a b, jok a -> jok b -> jok (fun x => both (a x) (b x)).
Proof.
  intros a b (Ua & Ja) (Ub & Jb). split.
  - intros x y H. unfold both in *. destruct (a x) as [[m v]|] eqn:Ea.
    + destruct (b x) as [[m' v']|] eqn:Eb; [discriminate|]. rewrite (Ub x y Eb). destruct (a y) as [[? ?]|]; reflexivity.
    + rewrite (Ua x y Ea). reflexivity.
  - intros x m v H row c. destruct (both_some _ _ _ _ H) as (m1 & v1 & m2 & v2 & Ha & Hb & -> & ->).
    rewrite entry_app. specialize (Ja x m1 v1 Ha row c). specialize (Jb x m2 v2 Hb row c).
    eapply derivable_pt_lim_ext; [|exact (derivable_pt_lim_plus _ _ _ _ _ Ja Jb)].
    intros t. unfold plus_fct. rewrite <- row_sum_app. f_equal. unfold both.
    destruct (a (upd x c t)) as [[ma va]|] eqn:Ea; [|rewrite (Ua _ x Ea) in Ha; discriminate].
    destruct (b (upd x c t)) as [[mb vb]|] eqn:Eb; [|rewrite (Ub _ x Eb) in Hb; discriminate]. reflexivity.
Qed.

Definition same_dom {A B : Type} (o : option A) (o' : option B) : Prop := match o, o' with Some _, Some _ => True | None, None => True | _, _ => False end.
Lemma at_state_dom : forall st x y s, same_dom (at_state st x s) (at_state st y s).
Proof. intros st x y s. unfold at_state, same_dom. destruct (st s); exact I. Qed.
Lemma der_models_dom : forall st x y sfx model var,
  match der_models (at_state st x) sfx model var, der_models (at_state st y) sfx model var with
  | None, None => True | Some None, Some None => True | Some (Some _), Some (Some _) => True | _, _ => False end.
Proof.
  intros st x y sfx model var. unfold der_models.
  assert (A : forall l, forallb (fun o : option (nat -> R) => match o with None => true | _ => false end) (map (fun s => at_state st x (String.append (der_name model var) s)) l) =
     forallb (fun o => match o with None => true | _ => false end) (map (fun s => at_state st y (String.append (der_name model var) s)) l)).
  { induction l as [|s t IH]; cbn; [reflexivity|]. rewrite IH. unfold at_state. destruct (st (String.append (der_name model var) s)); reflexivity. }
  assert (B : forall l, same_dom (all_or_none (map (fun s => at_state st x (String.append (der_name model var) s)) l))
     (all_or_none (map (fun s => at_state st y (String.append (der_name model var) s)) l))).
  { induction l as [|s t IH]; cbn; [exact I|]. unfold at_state at 1 3. destruct (st (String.append (der_name model var) s)); cbn; [|exact I].
    unfold same_dom in *. destruct (all_or_none (map _ t)); destruct (all_or_none (map _ t)); cbn; auto. }
  rewrite (A sfx). destruct (forallb _ _); [exact I|]. specialize (B sfx). unfold same_dom in B.
  destruct (all_or_none _); destruct (all_or_none _); cbn; auto.
Qed.
Lemma couple_jacobians_dom : forall f x y eq els st sfx model c c' s0 s1 vars,
  couple_jacobians rF (reg f x) eq els (at_state st x) sfx model c s0 s1 vars = None ->
  couple_jacobians rF (reg f y) eq els (at_state st y) sfx model c' s0 s1 vars = None.
Proof.
  intros f x y eq els st sfx model c c' s0 s1 vars. induction vars as [|v t IH]; cbn [couple_jacobians]; [discriminate|].
  pose proof (der_models_dom st x y sfx model v) as D.
  destruct (der_models (at_state st x) sfx model v) as [[ds|]|]; destruct (der_models (at_state st y) sfx model v) as [[ds'|]|]; try contradiction; auto.
  unfold couple_jacobian. change (row_index (reg f y) eq) with (row_index (reg f x) eq). change (col_index (reg f y) v) with (col_index (reg f x) v).
  destruct (row_index (reg f x) eq); [|auto]. destruct (col_index (reg f x) v); [|auto].
  destruct (couple_jacobians rF (reg f x) eq els (at_state st x) sfx model c s0 s1 t); [discriminate|]. intros _. rewrite IH; reflexivity.
Qed.
Lemma node_jacobians_dom : forall f x y eq model c c' vars,
  node_jacobians rF (reg f x) eq model c vars = None -> node_jacobians rF (reg f y) eq model c' vars = None.
Proof.
  intros f x y eq model c c' vars. induction vars as [|v t IH]; cbn [node_jacobians]; [discriminate|].
  cbn [reg rg_node]. pose proof (at_state_dom (f_node f) x y (der_name model v)) as D.
  destruct (at_state (f_node f) x (der_name model v)) as [d|]; destruct (at_state (f_node f) y (der_name model v)) as [d'|]; try contradiction; auto.
  unfold node_assemble_jacobian. change (row_index (reg f y) eq) with (row_index (reg f x) eq). change (col_index (reg f y) v) with (col_index (reg f x) v).
  fold (reg f x). fold (reg f y).
  destruct (row_index (reg f x) eq); [|auto]. destruct (col_index (reg f x) v); [|auto].
  destruct (node_jacobians rF (reg f x) eq model c t); [discriminate|]. intros _. rewrite IH; reflexivity.
Qed.

Section Jok.
Variables (f : family) (eq : string).
Hypothesis U : unique_columns f.

Lemma couple_row_sum : forall x i0 els q s0 s1 v row, equation_index (f_table f) eq = Some i0 ->
  couple_rhs rF (reg f x) eq els q s0 s1 = Some v ->
  row_sum v row = rsum (fun e => let '(k, n0, n1, o) := e in (wt f i0 s0 s1 row e * q k)%R) els.
Proof.
  intros x i0 els q s0 s1 v row Hi H. unfold couple_rhs, row_index in H. change (rg_table (reg f x)) with (f_table f) in H. rewrite Hi in H. injection H as <-.
  unfold row_sum. rewrite rsum_flat_map. apply rsum_ext. intros [[[k n0] n1] o] _. cbn [rsum fst snd]. change (eqnum (reg f x)) with (fnum f).
  unfold wt, ind. cbn [s_mul rF]. destruct (fnum f i0 n0 =? row), (fnum f i0 n1 =? row); lra.
Qed.
Lemma in_nodes_of : forall els k n0 n1 o, In (k, n0, n1, o) els -> In (k, n0 :: n1 :: o) (nodes_of els).
Proof. intros els k n0 n1 o H. apply in_map_iff. exists (k, n0, n1, o). auto. Qed.
Lemma rsum_combine_map : forall (j : nat) (v : string -> R) ns sfx,
  rsum (fun p => if fst p =? j then snd p else 0%R) (combine ns (map v sfx)) = rsum (fun p => if fst p =? j then v (snd p) else 0%R) (combine ns sfx).
Proof. intros j v. induction ns as [|n t IH]; intros [|s sfx]; cbn; try reflexivity. rewrite IH. reflexivity. Qed.

Lemma couple_jok : forall st els sfx model couple s0 s1, 2 <= length sfx ->
  exact f st (nodes_of els) sfx model -> fixed st couple ->
  (forall k ns, In (k, ns) (nodes_of els) -> forall n, In n ns -> n < m_nodes (f_mesh f)) ->
  jok (fun x => couple_assemble rF (reg f x) eq els (at_state st x) sfx model couple s0 s1).
Proof.
  intros st els sfx model couple s0 s1 Hs Ex Fx Hn. split.
  - intros x y H. unfold couple_assemble in *.
    pose proof (at_state_dom st x y model) as D1. pose proof (at_state_dom st x y couple) as D2.
    destruct (at_state st x model) as [em|]; destruct (at_state st y model) as [em'|]; try contradiction; [|reflexivity].
    destruct (at_state st x couple) as [ec|]; destruct (at_state st y couple) as [ec'|]; try contradiction; [|reflexivity].
    unfold couple_rhs in *. change (row_index (reg f y) eq) with (row_index (reg f x) eq). destruct (row_index (reg f x) eq); [|reflexivity].
    destruct (couple_jacobians rF (reg f x) eq els (at_state st x) sfx model ec s0 s1 (variables (reg f x))) eqn:E; [discriminate|].
    change (variables (reg f y)) with (variables (reg f x)).
    rewrite (couple_jacobians_dom f x y eq els st sfx model ec ec' s0 s1 _ E). reflexivity.
  - intros x m v H row c.
    assert (Hi : exists i0, equation_index (f_table f) eq = Some i0).
    { unfold couple_assemble in H. destruct (at_state st x model); [|discriminate]. destruct (at_state st x couple); [|discriminate].
      unfold couple_rhs in H. change (row_index (reg f x) eq) with (equation_index (f_table f) eq) in H.
      destruct (equation_index (f_table f) eq) as [i0|]; [exists i0; reflexivity|discriminate]. }
    destruct Hi as (i0 & Hi).
    destruct (st model) as [gm|] eqn:Em; [|unfold couple_assemble, at_state in H; rewrite Em in H; discriminate].
    destruct (st couple) as [gc|] eqn:Ec; [|unfold couple_assemble, at_state in H; rewrite Em, Ec in H; discriminate].
    assert (Ejac : couple_jacobians rF (reg f x) eq els (at_state st x) sfx model (gc x) s0 s1 (fvars f) = Some m).
    { unfold couple_assemble in H. unfold at_state at 1 2 in H. rewrite Em, Ec in H. cbn [option_map] in H.
      change (variables (reg f x)) with (fvars f) in H.
      destruct (couple_rhs _ _ _ _ _ _ _); [|discriminate].
      destruct (couple_jacobians rF (reg f x) eq els (at_state st x) sfx model (gc x) s0 s1 (fvars f)); [|discriminate]. injection H as -> _. reflexivity. }
    rewrite (couple_jacobians_entry f x eq i0 Hi st els sfx model (gc x) s0 s1 row c (fvars f) m Hs Ejac).
    apply (derivable_pt_lim_ext (fun t => rsum (fun e : elem => let '(k, n0, n1, o) := e in (wt f i0 s0 s1 row e * (gc x k * gm (upd x c t) k))%R) els)).
    { intros t. symmetry.
      assert (Er : couple_rhs rF (reg f (upd x c t)) eq els (fun k => (gm (upd x c t) k * gc (upd x c t) k)%R) s0 s1 =
         Some (rhs_of (couple_assemble rF (reg f (upd x c t)) eq els (at_state st (upd x c t)) sfx model couple s0 s1))).
      { unfold couple_assemble. unfold at_state at 1 2. rewrite Em, Ec. cbn [option_map].
        destruct (couple_jacobians rF (reg f (upd x c t)) eq els (at_state st (upd x c t)) sfx model (gc (upd x c t)) s0 s1 (variables (reg f (upd x c t)))) eqn:E.
        - change (fun k : nat => s_mul rF (gm (upd x c t) k) (gc (upd x c t) k)) with (fun k => (gm (upd x c t) k * gc (upd x c t) k)%R).
          unfold couple_rhs. change (row_index (reg f (upd x c t)) eq) with (equation_index (f_table f) eq). rewrite Hi. reflexivity.
        - apply (couple_jacobians_dom f _ x eq els st sfx model _ (gc x)) in E. change (variables (reg f (upd x c t))) with (fvars f) in E. congruence. }
      rewrite (couple_row_sum _ i0 _ _ _ _ _ row Hi Er). apply rsum_ext. intros [[[k n0] n1] o] _. rewrite (Fx gc Ec (upd x c t) x k). lra. }
    apply (rsum_deriv (fun (e : elem) t => let '(k, n0, n1, o) := e in (wt f i0 s0 s1 row e * (gc x k * gm (upd x c t) k))%R)).
    intros [[[k n0] n1] o] He. apply in_nodes_of in He.
    apply (derivable_pt_lim_scal (fun t => (gc x k * gm (upd x c t) k)%R)). apply (derivable_pt_lim_scal (fun t => gm (upd x c t) k)).
    destruct (Ex gm Em x k _ He c) as (E1 & E2).
    destruct (classic (exists var j, is_col f c var j)) as [(var & j & Hc)|Hc].
    + rewrite (colsum_in f c U _ _ (Hn _ _ He) var j Hc). rewrite rsum_combine_map. apply E1. exact Hc.
    + assert (N : forall var j, ~ is_col f c var j) by (intros var j A; apply Hc; exists var, j; exact A).
      rewrite (colsum_out f c _ _ (Hn _ _ He) N). apply E2. exact N.
Qed.

Lemma node_jok : forall model volume, exact_node f model -> fixed (f_node f) volume ->
  jok (fun x => node_volume_assemble rF (reg f x) eq model volume).
Proof.
  intros model volume Ex Fx. split.
  - intros x y H. unfold node_volume_assemble in *. cbn [reg rg_node] in *. fold (reg f x) in H. fold (reg f y).
    pose proof (at_state_dom (f_node f) x y model) as D1. pose proof (at_state_dom (f_node f) x y volume) as D2.
    destruct (at_state (f_node f) x model) as [em|]; destruct (at_state (f_node f) y model) as [em'|]; try contradiction; [|reflexivity].
    destruct (at_state (f_node f) x volume) as [ec|]; destruct (at_state (f_node f) y volume) as [ec'|]; try contradiction; [|reflexivity].
    unfold node_assemble_rhs in *. change (row_index (reg f y) eq) with (row_index (reg f x) eq). destruct (row_index (reg f x) eq); [|reflexivity].
    destruct (node_jacobians rF (reg f x) eq model ec (variables (reg f x))) eqn:E; [discriminate|].
    change (variables (reg f y)) with (variables (reg f x)).
    rewrite (node_jacobians_dom f x y eq model ec ec' _ E). reflexivity.
  - intros x m v H row c.
    destruct (f_node f model) as [gm|] eqn:Em; [|unfold node_volume_assemble in H; cbn [reg rg_node] in H; unfold at_state in H; rewrite Em in H; discriminate].
    destruct (f_node f volume) as [gc|] eqn:Ec; [|unfold node_volume_assemble in H; cbn [reg rg_node] in H; unfold at_state in H; rewrite Em, Ec in H; discriminate].
    assert (G : forall y s, rg_node (reg f y) s = option_map (fun g => g y) (f_node f s)) by reflexivity.
    unfold node_volume_assemble in H. rewrite !G, Em, Ec in H. cbn [option_map] in H.
    destruct (equation_index (f_table f) eq) as [i0|] eqn:Hi;
      [|unfold node_assemble_rhs in H; change (row_index (reg f x) eq) with (equation_index (f_table f) eq) in H; rewrite Hi in H; discriminate].
    unfold node_assemble_rhs in H. change (row_index (reg f x) eq) with (equation_index (f_table f) eq) in H. rewrite Hi in H.
    destruct (node_jacobians rF (reg f x) eq model (gc x) (variables (reg f x))) as [m'|] eqn:Ejac; [|discriminate]. injection H as -> _.
    rewrite (node_jacobians_entry f x eq i0 Hi model (gc x) row c _ m Ejac).
    change (variables (reg f x)) with (fvars f) in *.
    apply (derivable_pt_lim_ext (fun t => rsum (fun i => (ind (fnum f i0 i) row (gc x i) * gm (upd x c t) i)%R) (seq 0 (m_nodes (f_mesh f))))).
    { intros t. unfold node_volume_assemble. rewrite !G, Em, Ec. cbn [option_map].
      destruct (node_jacobians rF (reg f (upd x c t)) eq model (gc (upd x c t)) (variables (reg f (upd x c t)))) eqn:E.
      - unfold node_assemble_rhs. change (row_index (reg f (upd x c t)) eq) with (equation_index (f_table f) eq). rewrite Hi. cbn [rhs_of].
        unfold row_sum. rewrite rsum_map. cbn [fst snd reg rg_mesh]. change (eqnum (reg f (upd x c t))) with (fnum f). apply rsum_ext. intros i _.
        rewrite (Fx gc Ec (upd x c t) x i). unfold ind. cbn [s_mul rF fst snd]. change (eqnum _ i0 i) with (fnum f i0 i). destruct (_ =? row); lra.
      - apply (node_jacobians_dom f _ x eq model _ (gc x)) in E. change (variables (reg f (upd x c t))) with (fvars f) in E. congruence. }
    apply (rsum_deriv (fun i t => (ind (fnum f i0 i) row (gc x i) * gm (upd x c t) i)%R)).
    intros i Hs. apply in_seq in Hs. apply (derivable_pt_lim_scal (fun t => gm (upd x c t) i)).
    destruct (Ex gm Em x i ltac:(lia) c) as (E1 & E2).
    assert (Hn : forall n, In n [i] -> n < m_nodes (f_mesh f)) by (intros n [<-|[]]; lia).
    destruct (classic (exists var j, is_col f c var j)) as [(var & j & Hc)|Hc].
    + rewrite (colsum_in f c U _ _ Hn var j Hc). specialize (E1 var j Hc). cbn [combine rsum fst snd].
      match goal with |- derivable_pt_lim _ _ ?l => replace l with (if i =? j then dval (f_node f) (der_name model var) x i else 0%R) by lra end. exact E1.
    + assert (N : forall var j, ~ is_col f c var j) by (intros var j A; apply Hc; exists var, j; exact A).
      rewrite (colsum_out f c _ _ Hn N). apply E2. exact N.
Qed.

Lemma element_jok : forall model couple s0 s1, mesh_ok (f_mesh f) -> exact_element f model -> fixed (f_element f) couple ->
  jok (fun x => element_couple rF (reg f x) eq model couple s0 s1).
Proof.
  intros model couple s0 s1 Hm (E2 & E3) Fx. unfold element_couple. cbn [reg rg_mesh].
  destruct (m_dim (f_mesh f)) as [|[|[|[|n]]]] eqn:Ed; try apply jok_nothing.
  - apply (couple_jok (f_element f) (tri_elems (f_mesh f)) tri_sfx model couple s0 s1); auto; [cbn; lia|].
    intros k ns Hk. apply (Hm k ns). apply in_or_app. right. apply in_or_app. left. exact Hk.
  - apply (couple_jok (f_element f) (tet_elems (f_mesh f)) tet_sfx model couple s0 s1); auto; [cbn; lia|].
    intros k ns Hk. apply (Hm k ns). apply in_or_app. right. apply in_or_app. right. exact Hk.
Qed.
Lemma edge_jok : forall model couple s0 s1, mesh_ok (f_mesh f) -> exact_edge f model -> fixed (f_edge f) couple ->
  jok (fun x => edge_couple rF (reg f x) eq model couple s0 s1).
Proof.
  intros model couple s0 s1 Hm E2 Fx.
  apply (couple_jok (f_edge f) (edge_elems (f_mesh f)) edge_sfx model couple s0 s1); auto.
  intros k ns Hk. apply (Hm k ns). apply in_or_app. left. exact Hk.
Qed.

Lemma equation_jok : forall b t, mesh_ok (f_mesh f) -> exact_body f b -> fixed_geom f ->
  jok (fun x => equation_assemble rF (reg f x) eq b t).
Proof.
  intros b t Hm (N1 & N2 & A1 & A2 & B1 & B2 & B3) (F1 & F2 & F3 & F4 & F5 & F6 & F7).
  destruct t; cbn [equation_assemble].
  - apply (jok_both (fun x => if given (b_edge b) then _ else _)).
    { destruct (given (b_edge b)); [|apply jok_nothing].
      apply (jok_both (fun x => edge_couple_assemble _ _ _ _)); [exact (edge_jok (b_edge b) (g_edgecouple (f_geom f)) _ _ Hm A1 F2)|].
      destruct (given (b_edgevol b)); [|apply jok_nothing]. unfold edge_volume_assemble. cbn [reg rg_geom].
      destruct (String.eqb _ _); [exact (edge_jok (b_edgevol b) (g_edgevol0 (f_geom f)) _ _ Hm A2 F3)|].
      apply (jok_both (fun x => edge_couple _ _ _ _ _ _ _));
        [exact (edge_jok (b_edgevol b) (g_edgevol0 (f_geom f)) _ _ Hm A2 F3)|exact (edge_jok (b_edgevol b) (g_edgevol1 (f_geom f)) _ _ Hm A2 F4)]. }
    apply (jok_both (fun x => if given (b_node b) then _ else _)).
    { destruct (given (b_node b)); [|apply jok_nothing]. exact (node_jok (b_node b) (g_nodevol (f_geom f)) N1 F1). }
    apply (jok_both (fun x => if given (b_element b) then _ else _)).
    { destruct (given (b_element b)); [|apply jok_nothing]. exact (element_jok (b_element b) (g_elcouple (f_geom f)) _ _ Hm B1 F5). }
    destruct (given (b_vol0 b) || given (b_vol1 b))%bool; [|apply jok_nothing]. unfold element_volume_assemble. cbn [reg rg_geom].
    destruct (String.eqb _ _ && String.eqb _ _)%bool; [exact (element_jok (b_vol0 b) (g_elvol0 (f_geom f)) _ _ Hm B2 F6)|].
    apply (jok_both (fun x => element_couple _ _ _ _ _ _ _));
      [exact (element_jok (b_vol0 b) (g_elvol0 (f_geom f)) _ _ Hm B2 F6)|exact (element_jok (b_vol1 b) (g_elvol1 (f_geom f)) _ _ Hm B3 F7)].
  - destruct (given (b_time b)); [|apply jok_nothing]. exact (node_jok (b_time b) (g_nodevol (f_geom f)) N2 F1).
Qed.
End Jok.

Lemma region_jok : forall f t, unique_columns f -> mesh_ok (f_mesh f) -> fixed_geom f ->
  (forall nm q, In (nm, q) (t_eqs (f_table f)) -> exact_body f (q_body q)) ->
  jok (fun x => region_assemble rF (reg f x) t).
Proof.
  intros f t U Hm Fg He. unfold region_assemble. cbn [reg rg_table]. destruct (t_num (f_table f)); [apply jok_nothing|].
  revert He. generalize (t_eqs (f_table f)) as l. induction l as [|[nm q] l IH]; intros He; cbn [fold_right]; [apply jok_nothing|].
  apply (jok_both (fun x => equation_assemble _ _ _ _ _)).
  - apply equation_jok; auto. apply (He nm q). left. reflexivity.
  - apply IH. intros nm' q' Hi. apply (He nm' q'). right. exact Hi.
Qed.

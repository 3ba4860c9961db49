(* C19, C20, C46: contacts. *)
From Coq Require Import String List Bool Arith Lia Reals Lra.
From Verif Require Import StrMap EqTable EqTableProofs Assembly AssemblyProofs AssemblyResidual AssemblyJacobian AssemblyProperties Load LoadProofs Contact ContactProofs ContactJacobian.
Import ListNotations.
Open Scope R_scope.
Open Scope nat_scope.
Open Scope list_scope.

(* ---- C20 -------------------------------------------------------------------------- *)
(* [all]: the contacts of the device in the order of their addresses; names are unique.
   A contact with the equation treats a node iff it is the first contact of its region
   at that coordinate. *)
Theorem C20_first : forall all c eq ci, NoDup (map k_name all) -> In c all -> In eq (k_eqs c) ->
  (In ci (active_nodes all c eq) <->
   In ci (k_nodes c) /\ exists l1 l2, all = l1 ++ c :: l2 /\ forall o, In o l1 -> k_region o = k_region c -> ~ In ci (k_nodes o)).
Proof. intros all c eq ci. exact (active_iff eq c ci all). Qed.
Print Assumptions C20_first.
(* no node is treated twice *)
Theorem C20_exclusive : forall all c c' eq ci, NoDup (map k_name all) -> In c all -> In c' all ->
  k_region c = k_region c' -> In eq (k_eqs c) -> In eq (k_eqs c') ->
  In ci (active_nodes all c eq) -> In ci (active_nodes all c' eq) -> c = c'.
Proof.
  intros all c c' eq ci ND Hc Hc' Er He He' H H'. apply (active_iff eq c ci all ND Hc He) in H. apply (active_iff eq c' ci all ND Hc' He') in H'.
  apply (first_unique all ci c c'); tauto.
Qed.
Print Assumptions C20_exclusive.
(* exactly one contact treats the node, provided that every contact of the region at the
   node has an equation of the name.  Missing: contacts without the equation (refuted next). *)
Theorem C20_one_partial : forall all c eq ci, NoDup (map k_name all) -> In c all -> In ci (k_nodes c) ->
  (forall o, In o all -> k_region o = k_region c -> In ci (k_nodes o) -> In eq (k_eqs o)) ->
  exists! w, In w all /\ k_region w = k_region c /\ In eq (k_eqs w) /\ In ci (active_nodes all w eq).
Proof.
  intros all c eq ci ND Hc Ho He. destruct (first_exists all ci c Hc Ho) as (w & A & B & C & D). exists w.
  assert (Hw : In eq (k_eqs w)) by (apply He; assumption). split.
  - split; [exact A|]. split; [exact B|]. split; [exact Hw|]. apply active_iff; auto.
  - intros w' (A' & B' & E' & H'). apply (active_iff eq w' ci all ND A' E') in H'. apply (first_unique all ci w w'); try tauto. congruence.
Qed.
Print Assumptions C20_one_partial.
Definition shared : list contact := [mkContact "a" "r" [1; 2] ["e"; "f"]; mkContact "b" "r" [2; 3] ["e"]; mkContact "c" "s" [2] ["e"]]%string.
Example C20_shared : map (fun c => active_nodes shared c "e") shared = [[1; 2]; [3]; [2]] /\
  NoDup (map k_name shared) /\ forall o, In o shared -> In "e"%string (k_eqs o).
Proof.
  split; [reflexivity|]. split; [cbn; constructor; [cbn; intuition discriminate|constructor; [cbn; intuition discriminate|constructor; [cbn; tauto|constructor]]]|].
  intros o [<-|[<-|[<-|[]]]]; cbn; auto.
Qed.
(* an earlier contact without the equation takes the node away: no contact treats it *)
Theorem C20_uncovered_refuted : exists all c eq ci, NoDup (map k_name all) /\ In c all /\ In eq (k_eqs c) /\ In ci (k_nodes c) /\
  forall o, In o all -> In eq (k_eqs o) -> ~ In ci (active_nodes all o eq).
Proof.
  exists [mkContact "a" "r" [1; 2] []; mkContact "b" "r" [2; 3] ["e"]]%string, (mkContact "b" "r" [2; 3] ["e"])%string, "e"%string, 2.
  split; [cbn; constructor; [cbn; intuition discriminate|constructor; [cbn; tauto|constructor]]|]. split; [cbn; auto|]. split; [cbn; auto|]. split; [cbn; auto|].
  intros o [<-|[<-|[]]] He; [destruct He|]. intros H. cbn in H. destruct H as [H|[]]. discriminate.
Qed.
Print Assumptions C20_uncovered_refuted.
(* which contact treats a shared node depends on the order of the addresses *)
Theorem C20_order_dependent : exists a b eq ci, In eq (k_eqs a) /\ In eq (k_eqs b) /\
  In ci (active_nodes [a; b] a eq) /\ ~ In ci (active_nodes [b; a] a eq) /\ In ci (active_nodes [b; a] b eq).
Proof.
  exists (mkContact "a" "r" [1; 2] ["e"])%string, (mkContact "b" "r" [2; 3] ["e"])%string, "e"%string, 2. cbn.
  split; [auto|]. split; [auto|]. split; [auto|]. split; [intros [H|[]]; discriminate|auto].
Qed.
Print Assumptions C20_order_dependent.

(* ---- C19 -------------------------------------------------------------------------- *)
(* the terminal current is what leaves the active nodes of the contact *)
Theorem C19_current : forall r act b i, NoDup act -> all_loopless (rg_mesh r) ->
  contact_current rF r act b = Some i -> i = rsum (outflow r (c_nodecur b) (c_edgecur b) (c_elcur b)) act.
Proof. intros r act b i. exact (integrate_value r act _ _ _ i). Qed.
Print Assumptions C19_current.
Theorem C19_charge : forall r act b i, NoDup act -> all_loopless (rg_mesh r) ->
  contact_charge rF r act b = Some i -> i = rsum (outflow r (c_nodeq b) (c_edgeq b) (c_elq b)) act.
Proof. intros r act b i. exact (integrate_value r act _ _ _ i). Qed.
Print Assumptions C19_charge.

(* the contacts cs of a region, with the coordinates of their nodes mapped to nodes of the
   region by nd; all currents are integrated from the flux models of the bulk equation *)
Definition terminals (all : list contact) (nd : nat -> nat) (eq : string) (cs : list (contact * cbody)) : list (list nat) :=
  map (fun p => map nd (active_nodes all (fst p) eq)) cs.
Theorem C19_kirchhoff : forall all nd eq rname cs r b i0 m v currents,
  NoDup (map k_name all) -> NoDup (map fst cs) ->
  (forall p, In p cs -> In (fst p) all /\ k_region (fst p) = rname /\ In eq (k_eqs (fst p)) /\ NoDup (k_nodes (fst p)) /\
     c_nodecur (snd p) = ""%string /\ c_edgecur (snd p) = b_edge b /\ c_elcur (snd p) = b_element b) ->
  (forall i j, nd i = nd j -> i = j) -> (forall p ci, In p cs -> In ci (k_nodes (fst p)) -> nd ci < m_nodes (rg_mesh r)) ->
  all_loopless (rg_mesh r) -> bounded (rg_mesh r) ->
  row_index r eq = Some i0 -> (given (b_edgevol b) = true -> given (b_edge b) = true) ->
  equation_assemble rF r eq b DC = Some (m, v) ->
  Forall2 (fun p i => contact_current rF r (map nd (active_nodes all (fst p) eq)) (snd p) = Some i) cs currents ->
  (* the balances of the other nodes *)
  (forall n, n < m_nodes (rg_mesh r) -> ~ In n (concat (terminals all nd eq cs)) -> row_sum v (eqnum r i0 n) = 0%R) ->
  rsum (fun i => i) currents = rsum (sources r b) (away (concat (terminals all nd eq cs)) (m_nodes (rg_mesh r))).
Proof.
  intros all nd eq rname cs r b i0 m v currents ND NDc Hcs Inj Hb HL HB Hi Hev H HF HZ.
  assert (Hacts : forall p, In p cs -> NoDup (map nd (active_nodes all (fst p) eq))).
  { intros p Hp. apply nodup_map_inj; [intros; apply Inj; assumption|]. unfold active_nodes. apply NoDup_filter. apply Hcs. exact Hp. }
  assert (NDt : NoDup (concat (terminals all nd eq cs))).
  { apply nodup_concat.
    - intros l Hl. apply in_map_iff in Hl. destruct Hl as (p & <- & Hp). apply Hacts. exact Hp.
    - intros l1 a l2 c l3 x E Ha Hc. unfold terminals in E.
      apply map_eq_app in E. destruct E as (cs1 & cs' & Ecs & _ & E). destruct cs' as [|p cs']; [discriminate|]. cbn [map] in E. injection E as Ea E.
      apply map_eq_app in E. destruct E as (cs2 & cs'' & Ecs' & _ & E). destruct cs'' as [|q cs3]; [discriminate|]. cbn [map] in E. injection E as Ec _.
      subst a c cs' cs. apply in_map_iff in Ha, Hc. destruct Ha as (ci & Eci & Ha). destruct Hc as (cj & Ecj & Hc).
      assert (cj = ci) as -> by (apply Inj; congruence).
      assert (Hp : In p (cs1 ++ p :: cs2 ++ q :: cs3)) by (apply in_or_app; right; left; reflexivity).
      assert (Hq : In q (cs1 ++ p :: cs2 ++ q :: cs3)) by (apply in_or_app; right; right; apply in_or_app; right; left; reflexivity).
      pose proof (Hcs p Hp) as (P1 & P2 & P3 & _). pose proof (Hcs q Hq) as (Q1 & Q2 & Q3 & _).
      assert (Epq : fst p = fst q) by (apply (C20_exclusive all (fst p) (fst q) eq ci); auto; congruence).
      rewrite map_app in NDc. cbn [map] in NDc. apply NoDup_remove_2 in NDc. apply NDc. apply in_or_app. right. rewrite map_app. apply in_or_app. right. left. congruence. }
  assert (Hlt : forall n, In n (concat (terminals all nd eq cs)) -> n < m_nodes (rg_mesh r)).
  { intros n Hn. apply in_concat in Hn. destruct Hn as (l & Hl & Hn). apply in_map_iff in Hl. destruct Hl as (p & <- & Hp). apply in_map_iff in Hn.
    destruct Hn as (ci & <- & Hci). apply (Hb p ci Hp). unfold active_nodes in Hci. apply filter_In in Hci. tauto. }
  assert (HI : rsum (fun i => i) currents = rsum (fluxes r b) (concat (terminals all nd eq cs))).
  { rewrite rsum_concat. unfold terminals. rewrite rsum_map. clear - HF Hcs Hacts HL. induction HF as [|p i cs currents Hp HF IH]; cbn [rsum]; [reflexivity|].
    rewrite IH by (intros; apply Hcs || apply Hacts; right; assumption). f_equal.
    rewrite (C19_current r _ _ i (Hacts p (or_introl eq_refl)) HL Hp).
    destruct (Hcs p (or_introl eq_refl)) as (_ & _ & _ & _ & -> & -> & ->). reflexivity. }
  rewrite HI, (kirchhoff r eq b i0 m v _ Hi HB Hev H NDt Hlt).
  rewrite (rsum_zero (fun n => row_sum v (eqnum r i0 n))); [lra|]. intros n Hn. unfold away in Hn. apply filter_In in Hn. destruct Hn as (Hn & Hx). apply in_seq in Hn.
  apply HZ; [lia|]. intros Hc. apply existsb_nat in Hc. rewrite Hc in Hx. discriminate.
Qed.
Print Assumptions C19_kirchhoff.
(* without sources the terminal currents add up to zero *)
Corollary C19_sum_zero : forall all nd eq rname cs r b i0 m v currents,
  NoDup (map k_name all) -> NoDup (map fst cs) ->
  (forall p, In p cs -> In (fst p) all /\ k_region (fst p) = rname /\ In eq (k_eqs (fst p)) /\ NoDup (k_nodes (fst p)) /\
     c_nodecur (snd p) = ""%string /\ c_edgecur (snd p) = b_edge b /\ c_elcur (snd p) = b_element b) ->
  (forall i j, nd i = nd j -> i = j) -> (forall p ci, In p cs -> In ci (k_nodes (fst p)) -> nd ci < m_nodes (rg_mesh r)) ->
  all_loopless (rg_mesh r) -> bounded (rg_mesh r) -> row_index r eq = Some i0 ->
  b_node b = ""%string -> b_edgevol b = ""%string -> b_vol0 b = ""%string -> b_vol1 b = ""%string ->
  equation_assemble rF r eq b DC = Some (m, v) ->
  Forall2 (fun p i => contact_current rF r (map nd (active_nodes all (fst p) eq)) (snd p) = Some i) cs currents ->
  (forall n, n < m_nodes (rg_mesh r) -> ~ In n (concat (terminals all nd eq cs)) -> row_sum v (eqnum r i0 n) = 0%R) ->
  rsum (fun i => i) currents = 0%R.
Proof.
  intros all nd eq rname cs r b i0 m v currents ND NDc Hcs Inj Hb HL HB Hi E1 E2 E3 E4 H HF HZ.
  rewrite (C19_kirchhoff all nd eq rname cs r b i0 m v currents); auto.
  - apply rsum_zero. intros n _. unfold sources, residual. cbn [b_node b_edge b_edgevol b_element b_vol0 b_vol1]. rewrite E1, E2, E3, E4.
    change (given ""%string) with false. cbn [orb opt]. lra.
  - rewrite E2. intros X. discriminate X.
Qed.
Print Assumptions C19_sum_zero.
(* three nodes in a row, contacts at both ends: 5 flows in, 5 flows out *)
Definition cb (e : string) (ed : string) : cbody := mkCBody e "" "" "" "" "" "" ed "" "" "" "" "".
Definition line_region : region R :=
  mkReg (mkMesh 1 3 [(0, 1); (1, 2)] [] []) 4 (fst (run 0 empty [Equation "e" "u" (mkBody "" "flux" "" "" "" "" "")])) ex_geom
    (fun s => if String.eqb s "NodeVolume" then Some (fun _ => 1%R) else None)
    (fun s => if String.eqb s "flux" then Some (fun _ => 5%R) else if String.eqb s "EdgeCouple" then Some (fun _ => 1%R) else None) (fun _ => None).
Definition line_contacts : list (contact * cbody) := [(mkContact "l" "r" [0] ["e"], cb "x" "flux"); (mkContact "r" "r" [2] ["e"], cb "x" "flux")]%string.
Example C19_line : exists m v currents,
  equation_assemble rF line_region "e" (mkBody "" "flux" "" "" "" "" "") DC = Some (m, v) /\
  Forall2 (fun p i => contact_current rF line_region (map (fun n => n) (active_nodes (map fst line_contacts) (fst p) "e")) (snd p) = Some i) line_contacts currents /\
  (forall n, n < 3 -> ~ In n (concat (terminals (map fst line_contacts) (fun n => n) "e" line_contacts)) -> row_sum v (eqnum line_region 0 n) = 0%R) /\
  row_index line_region "e" = Some 0 /\ bounded (rg_mesh line_region) /\ all_loopless (rg_mesh line_region) /\
  nth 0 currents 0%R = 5%R.
Proof.
  eexists. eexists. eexists. split; [cbv -[INR Rmult Ropp IZR Rplus]; reflexivity|]. split; [|split; [|split; [|split; [|split]]]].
  - constructor; [cbv -[INR Rmult Ropp IZR Rplus]; reflexivity|]. constructor; [cbv -[INR Rmult Ropp IZR Rplus]; reflexivity|]. constructor.
  - intros n Hn Hi. destruct n as [|[|[|n]]]; [exfalso; apply Hi; vm_compute; auto| |exfalso; apply Hi; vm_compute; auto|lia].
    unfold row_sum, ind, eqnum. cbn. lra.
  - reflexivity.
  - split; intros e He; vm_compute in He.
    + destruct He as [<-|[<-|[]]]; vm_compute; lia.
    + destruct He.
  - split; intros e He; vm_compute in He.
    + destruct He as [<-|[<-|[]]]; vm_compute; lia.
    + destruct He.
  - cbn [nth]. lra.
Qed.

(* ---- C46 -------------------------------------------------------------------------- *)
(* a contact equation with a node model removes the bulk equation exactly at its active
   nodes, otherwise it removes nothing *)
Theorem C46_replaces : forall (r : region R) eq cr act b ps i0, row_index r eq = Some i0 -> contact_perms r eq cr act b = OK ps ->
  ps = if given (c_node b) then map (fun n => (eqnum r i0 n, (None, false))) act else [].
Proof.
  intros r eq cr act b ps i0 Hi H. unfold contact_perms in H. destruct (given (c_node b)); [|injection H as <-; reflexivity].
  unfold node_perms in H. rewrite Hi in H. destruct (rg_node r (g_nodevol (rg_geom r))); [|discriminate].
  destruct (circuit_col cr (c_circuit b)); try discriminate. injection H as <-. reflexivity.
Qed.
Print Assumptions C46_replaces.
(* rows: active nodes get the documented residual, the circuit node gets the terminal
   current (or charge), no other row gets anything *)
Theorem C46_rows : forall r eq i0 cr act b t m v row, row_index r eq = Some i0 -> NoDup act -> all_loopless (rg_mesh r) ->
  contact_assemble rF r eq cr act b t = OK (m, v) -> row_sum v row = contact_residual r i0 cr act b t row.
Proof. exact contact_row. Qed.
Print Assumptions C46_rows.
Theorem C46_circuit_row : forall r eq i0 cr act b t m v crow, row_index r eq = Some i0 -> NoDup act -> all_loopless (rg_mesh r) ->
  c_circuit b <> ""%string -> cr (c_circuit b) = Some (Some crow) -> (forall n, In n act -> eqnum r i0 n <> crow) ->
  contact_assemble rF r eq cr act b t = OK (m, v) ->
  forall i, (match t with DC => contact_current rF r act b | TIME => contact_charge rF r act b end) = Some i -> row_sum v crow = i.
Proof.
  intros r eq i0 cr act b t m v crow Hi ND HL Hg Hc Hne H i HI. rewrite (contact_row r eq i0 cr act b t m v crow Hi ND HL H).
  assert (Ec : crow_of cr b = Some crow).
  { unfold crow_of, given. rewrite Hc. destruct (String.eqb_spec (c_circuit b) ""); [contradiction|reflexivity]. }
  unfold contact_residual. rewrite Ec. cbn [at_circuit]. unfold ind at 2 || unfold ind. rewrite ?Nat.eqb_refl. destruct t.
  - rewrite rsum_zero; [rewrite (C19_current r act b i ND HL HI); lra|]. intros n Hn. unfold ind. destruct (Nat.eqb_spec (eqnum r i0 n) crow); [exfalso; exact (Hne n Hn e)|reflexivity].
  - unfold ind. rewrite Nat.eqb_refl. rewrite (C19_charge r act b i ND HL HI). reflexivity.
Qed.
Print Assumptions C46_circuit_row.

(* the matrix is the Jacobian of the residual (the bulk rows and the circuit row, for the
   region's variables and the circuit node).  Missing: regions with several variables
   and edge or triangle current models that depend on the circuit node (refuted next). *)
Theorem C46_jacobian_partial : forall (cs : list (cmd body)) g base ge sn se sl eq i0 cr act b,
  let (t, log) := run 0 empty cs in let f := mkFam g base t ge sn se sl in
  stable log -> equation_index t eq = Some i0 ->
  (forall c, crow_of cr b = Some c -> forall var j, ~ is_col f c var j) ->
  (forall n, In n act -> n < m_nodes g) -> NoDup act -> mesh_ok g -> all_loopless g ->
  contact_exact f cr b -> fixed_geom f -> circuit_once f b ->
  forall mode x m v, contact_assemble rF (reg f x) eq cr act b mode = OK (m, v) -> forall row c,
  derivable_pt_lim (fun u => contact_residual (reg f (upd x c u)) i0 cr act b mode row) (x c) (entry m row c).
Proof.
  intros cs g base ge sn se sl eq i0 cr act b. pose proof (stable_unique cs g base ge sn se sl) as Hu. destruct (run 0 empty cs) as [t log]. cbv zeta.
  intros St Hi Hout Hact ND Hm HL Ex Fg Once mode x m v H row c.
  exact (contact_cj (mkFam g base t ge sn se sl) eq i0 cr act b Hi (Hu St) Hout Hact ND Hm HL mode Ex Fg Once x m v H row c).
Qed.
Print Assumptions C46_jacobian_partial.

(* edge: nodes 0, 1; contact at node 0 with circuit node "V" at row 2: u0 - V = 0, and the
   current u0 - u1 + V *)
Definition cfam : family := mkFam jm 0 (fst (run 0 empty jcs)) ex_geom
  (fun s => if String.eqb s "bc" then Some (fun x i => (x i - x 2%nat)%R) else if String.eqb s "bc:u" then Some (fun _ _ => 1%R)
            else if String.eqb s "bc:V" then Some (fun _ _ => (-1)%R) else if String.eqb s "NodeVolume" then Some (fun _ _ => 3%R) else None)
  (fun s => if String.eqb s "cur" then Some (fun x _ => (x 0%nat - x 1%nat + x 2%nat)%R) else if String.eqb s "cur:u@n0" then Some (fun _ _ => 1%R)
            else if String.eqb s "cur:u@n1" then Some (fun _ _ => (-1)%R) else if String.eqb s "cur:V" then Some (fun _ _ => 1%R)
            else if String.eqb s "EdgeCouple" then Some (fun _ _ => 5%R) else None)
  (fun _ => None).
Definition ccr : circuit_rows := fun s => if String.eqb s "V" then Some (Some 2) else None.
Definition cbod : cbody := mkCBody "bc" "" "" "" "" "" "" "cur" "" "" "" "" "V".
Lemma ccol : forall c var j, is_col cfam c var j <-> var = "u"%string /\ j = c /\ c < 2.
Proof.
  intros c var j. unfold is_col. split.
  - intros (Hv & Hj & idx & Hc & E). cbn in Hv. destruct Hv as [<-|[]]. cbn in Hj. vm_compute in Hc. injection Hc as <-. unfold fnum in E. cbn in E. split; [reflexivity|lia].
  - intros (-> & -> & Hc). split; [cbn; auto|]. split; [cbn; exact Hc|]. exists 0. split; [reflexivity|]. unfold fnum. cbn. lia.
Qed.
Example cfam_ok : contact_exact cfam ccr cbod /\ fixed_geom cfam /\ circuit_once cfam cbod /\ all_loopless jm /\
  (forall c, crow_of ccr cbod = Some c -> forall var j, ~ is_col cfam c var j) /\ equation_index (f_table cfam) "e" = Some 0.
Proof.
  assert (None_node : forall s cn cc, f_node cfam s = None -> exact_node_with cfam cn cc s) by (intros s cn cc E g Hg; rewrite E in Hg; discriminate Hg).
  assert (None_edge : forall s cn cc, f_edge cfam s = None -> (forall var t, f_edge cfam (String.append (der_name s var) t) = None) -> edge_exact cfam cn cc s).
  { intros s cn cc E Z. split; [intros g Hg; rewrite E in Hg; discriminate Hg|]. intros var _. cbn. intros _ t _. apply Z. }
  assert (NoEl : forall s cn cc, element_exact cfam cn cc s) by (intros s cn cc; split; intros E; discriminate E).
  split; [|split; [|split; [|split; [|split]]]].
  - unfold contact_exact. cbv zeta. change (c_circuit cbod) with "V"%string. change (crow_of ccr cbod) with (Some 2).
    split; [|split; [|split; [|split; [|split; [|split; [|split]]]]]].
    + intros g Hg x i Hi c. cbn in Hg. injection Hg as <-. cbn in Hi.
      assert (D : derivable_pt_lim (fun t => (upd x c t i - upd x c t 2%nat)%R) (x c) ((if i =? c then 1 else 0) - (if (2 =? c)%nat then 1 else 0))%R)
        by (apply (derivable_pt_lim_minus (fun t => upd x c t i) (fun t => upd x c t 2)); apply d_upd).
      split; [|split].
      * intros var j H. apply ccol in H. destruct H as (-> & -> & Hc). unfold dval. cbn.
        match goal with |- derivable_pt_lim _ _ ?l => replace l with ((if i =? c then 1 else 0) - (if (2 =? c)%nat then 1 else 0))%R end; [exact D|].
        destruct (Nat.eqb_spec 2 c); [lia|]. destruct (i =? c); lra.
      * intros E. injection E as <-. unfold dval. cbn. destruct (Nat.eqb_spec i 2); [lia|]. cbn [Nat.eqb] in D.
        match type of D with derivable_pt_lim _ _ ?l => replace (-1)%R with l by lra end. exact D.
      * intros N E. destruct (Nat.eqb_spec i c) as [->|]; [exfalso; apply (N "u"%string c); apply ccol; auto|].
        destruct (Nat.eqb_spec 2 c) as [E2|]; [exfalso; apply E; f_equal; exact E2|]. match type of D with derivable_pt_lim _ _ ?l => replace 0%R with l by lra end. exact D.
    + apply None_node. reflexivity.
    + apply None_node. reflexivity.
    + apply None_edge; [reflexivity|]. intros var t. reflexivity.
    + apply None_edge; [reflexivity|]. intros var t. reflexivity.
    + split.
      * intros g Hg x k ns Hk c. cbn in Hg. injection Hg as <-. cbn in Hk. destruct Hk as [Hk|[]]. injection Hk as <- <-.
        assert (D : derivable_pt_lim (fun t => (upd x c t 0%nat - upd x c t 1%nat + upd x c t 2%nat)%R) (x c) ((if (0 =? c)%nat then 1 else 0) - (if (1 =? c)%nat then 1 else 0) + (if (2 =? c)%nat then 1 else 0))%R)
          by (apply (derivable_pt_lim_plus (fun t => upd x c t 0%nat - upd x c t 1%nat)%R (fun t => upd x c t 2)); [apply (derivable_pt_lim_minus (fun t => upd x c t 0) (fun t => upd x c t 1)); apply d_upd|apply d_upd]).
        split; [|split].
        -- intros var j H. apply ccol in H. destruct H as (-> & -> & Hc).
           match goal with |- derivable_pt_lim _ _ ?l => replace l with ((if (0 =? c)%nat then 1 else 0) - (if (1 =? c)%nat then 1 else 0) + (if (2 =? c)%nat then 1 else 0))%R end; [exact D|].
           destruct c as [|[|c]]; [..|lia]; unfold dval; cbn; lra.
        -- intros E. injection E as <-. unfold dval. cbn. match type of D with derivable_pt_lim _ _ ?l => replace 1%R with l by (cbn; lra) end. exact D.
        -- intros N E. destruct c as [|[|[|c]]]; [exfalso; apply (N "u"%string 0); apply ccol; auto|exfalso; apply (N "u"%string 1); apply ccol; auto|congruence|].
           match type of D with derivable_pt_lim _ _ ?l => replace 0%R with l by (cbn; lra) end. exact D.
      * intros var Hv. cbn in Hv. destruct Hv as [<-|[]]. intros E. discriminate E.
    + apply None_edge; [reflexivity|]. intros var t. reflexivity.
    + split; [apply NoEl|]. split; [apply NoEl|]. split; [apply NoEl|]. split; apply NoEl.
  - unfold fixed_geom, fixed. cbn. split; [intros g H; injection H as <-; reflexivity|]. split; [intros g H; injection H as <-; reflexivity|].
    repeat split; intros; discriminate.
  - left. reflexivity.
  - split; intros e He; vm_compute in He.
    + destruct He as [<-|[]]. vm_compute. lia.
    + destruct He.
  - intros c E. vm_compute in E. injection E as <-. intros var j H. apply ccol in H. lia.
  - reflexivity.
Qed.
Example cfam_loads : exists m v, contact_assemble rF (reg cfam (fun i => INR i)) "e" ccr [0] cbod DC = OK (m, v) /\ length m = 5 /\ length v = 2.
Proof. eexists. eexists. split; [cbv -[INR Rmult Ropp IZR Rplus]; reflexivity|]. cbn. auto. Qed.

(* two variables in the region: the entry for the circuit node is loaded twice, the matrix
   is not the Jacobian although all derivative models are exact *)
Definition dcs : list (cmd body) := [Equation "e" "u" (mkBody "" "" "" "" "" "" ""); Equation "f" "w" (mkBody "" "" "" "" "" "" "")].
Definition dfam : family := mkFam jm 0 (fst (run 0 empty dcs)) ex_geom
  (fun s => if String.eqb s "NodeVolume" then Some (fun _ _ => 1%R) else None)
  (fun s => if String.eqb s "cur" then Some (fun x _ => x 4%nat) else if String.eqb s "cur:V" then Some (fun _ _ => 1%R)
            else if String.eqb s "EdgeCouple" then Some (fun _ _ => 1%R) else None)
  (fun _ => None).
Definition dcr : circuit_rows := fun s => if String.eqb s "V" then Some (Some 4) else None.
Definition dbod : cbody := mkCBody "" "" "" "" "" "" "" "cur" "" "" "" "" "V".
Lemma dcol : forall c var j, is_col dfam c var j -> c < 4.
Proof.
  intros c var j (Hv & Hj & idx & Hc & E). cbn in Hj, Hv. unfold fnum in E. cbn in E. destruct Hv as [<-|[<-|[]]]; vm_compute in Hc; injection Hc as <-; lia.
Qed.
Theorem C46_circuit_entry_refuted :
  contact_exact dfam dcr dbod /\ fixed_geom dfam /\ unique_columns dfam /\ all_loopless jm /\ mesh_ok jm /\
  (forall c, crow_of dcr dbod = Some c -> forall var j, ~ is_col dfam c var j) /\
  forall x, exists m v, contact_assemble rF (reg dfam x) "e" dcr [0] dbod DC = OK (m, v) /\ entry m 4 4 = 2%R /\
  derivable_pt_lim (fun u => contact_residual (reg dfam (upd x 4 u)) 0 dcr [0] dbod DC 4) (x 4) 1%R.
Proof.
  split; [|split; [|split; [|split; [|split; [|split]]]]].
  - assert (None_node : forall s cn cc, f_node dfam s = None -> exact_node_with dfam cn cc s) by (intros s cn cc E g Hg; rewrite E in Hg; discriminate Hg).
    assert (None_edge : forall s cn cc, f_edge dfam s = None -> (forall var t, f_edge dfam (String.append (der_name s var) t) = None) -> edge_exact dfam cn cc s).
    { intros s cn cc E Z. split; [intros g Hg; rewrite E in Hg; discriminate Hg|]. intros var _. cbn. intros _ t _. apply Z. }
    assert (NoEl : forall s cn cc, element_exact dfam cn cc s) by (intros s cn cc; split; intros E; discriminate E).
    unfold contact_exact. cbv zeta. change (c_circuit dbod) with "V"%string. change (crow_of dcr dbod) with (Some 4).
    split; [apply None_node; reflexivity|]. split; [apply None_node; reflexivity|]. split; [apply None_node; reflexivity|].
    split; [apply None_edge; reflexivity|]. split; [apply None_edge; reflexivity|]. split; [|split; [apply None_edge; reflexivity|]].
    + split.
      * intros g Hg x k ns Hk c. cbn in Hg. injection Hg as <-. cbn in Hk. destruct Hk as [Hk|[]]. injection Hk as <- <-. pose proof (d_upd x c 4) as D.
        split; [|split].
        -- intros var j H. pose proof (dcol _ _ _ H). destruct H as (Hv & _). cbn in Hv.
           match goal with |- derivable_pt_lim _ _ ?l => replace l with (if (4 =? c)%nat then 1 else 0)%R end; [exact D|].
           destruct (Nat.eqb_spec 4 c); [lia|]. destruct Hv as [<-|[<-|[]]]; destruct j as [|[|j]]; unfold dval; cbn; lra.
        -- intros E. injection E as <-. unfold dval. cbn. exact D.
        -- intros N E. destruct (Nat.eqb_spec 4 c) as [E2|]; [exfalso; apply E; f_equal; exact E2|exact D].
      * intros var Hv. cbn in Hv. destruct Hv as [<-|[<-|[]]]; intros _ s [<-|[<-|[]]]; reflexivity.
    + split; [apply NoEl|]. split; [apply NoEl|]. split; [apply NoEl|]. split; apply NoEl.
  - unfold fixed_geom, fixed. cbn. split; [intros g H; injection H as <-; reflexivity|]. split; [intros g H; injection H as <-; reflexivity|].
    repeat split; intros; discriminate.
  - split; [cbn; constructor; [cbn; intuition discriminate|constructor; [cbn; tauto|constructor]]|].
    intros var var' idx Hv Hv'. cbn in Hv, Hv'. destruct Hv as [<-|[<-|[]]]; destruct Hv' as [<-|[<-|[]]]; vm_compute; congruence.
  - split; intros e He; vm_compute in He; [destruct He as [<-|[]]; vm_compute; lia|destruct He].
  - intros k ns H n Hn. cbn in H. destruct H as [H|[]]. injection H as <- <-. cbn in Hn |- *. lia.
  - intros c E. vm_compute in E. injection E as <-. intros var j H. apply dcol in H. lia.
  - intros x. eexists. eexists. split; [cbv -[INR Rmult Ropp IZR Rplus]; reflexivity|]. split; [unfold entry; cbn; lra|].
    apply (deriv_ext (fun u => u)); [|apply derivable_pt_lim_id]. intros u. unfold contact_residual. cbn. unfold ind. cbn. unfold upd. cbn. unfold outflow, residual, at_node, opt, val. cbn. lra.
Qed.
Print Assumptions C46_circuit_entry_refuted.

(* derivative model @n1 given, @n0 not: bulk equations report an error (C45), a contact
   equation uses a null pointer if @n1 is the missing one and drops the derivative if @n0 is *)
Definition half (s : string) : region R :=
  mkReg jm 0 (fst (run 0 empty jcs)) ex_geom (fun s => if String.eqb s "NodeVolume" then Some (fun _ => 1%R) else None)
    (fun k => if String.eqb k "flux" then Some (fun _ => 1%R) else if String.eqb k s then Some (fun _ => 1%R)
              else if String.eqb k "EdgeCouple" then Some (fun _ => 1%R) else None) (fun _ => None).
Definition ebod : cbody := mkCBody "" "flux" "" "" "" "" "" "" "" "" "" "" "".
Theorem C46_missing_derivative_refuted :
  contact_assemble rF (half "flux:u@n0") "e" ccr [0] ebod DC = UB /\
  (exists v, contact_assemble rF (half "flux:u@n1") "e" ccr [0] ebod DC = OK ([], v)) /\
  equation_assemble rF (half "flux:u@n0") "e" (mkBody "" "flux" "" "" "" "" "") DC = None /\
  equation_assemble rF (half "flux:u@n1") "e" (mkBody "" "flux" "" "" "" "" "") DC = None.
Proof.
  split; [reflexivity|]. split; [eexists; cbv -[INR Rmult Ropp IZR Rplus]; reflexivity|]. split; reflexivity.
Qed.
Print Assumptions C46_missing_derivative_refuted.

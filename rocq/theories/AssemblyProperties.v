(* C16, C17, C45: bulk assembly of the equations of a region. *)
From Coq Require Import String List Bool Arith Lia Reals Lra.
From Verif Require Import StrMap EqTable EqTableProofs Assembly AssemblyProofs AssemblyResidual AssemblyJacobian CMatrixFloat FloatLaws.
Import ListNotations.
Open Scope R_scope.
Open Scope nat_scope.
Open Scope list_scope.

(* ---- C16 -------------------------------------------------------------------------- *)
(* exact: what one edge adds to its first node it takes from its second node; the flux
   part of an equation adds up to zero over the region *)
Definition flux_pairs {S} (r : region S) (opp : S -> S) (i0 : nat) (els : list elem) (q : nat -> S) : rhs_list S :=
  flat_map (fun e => let '(k, n0, n1, _) := e in [(eqnum r i0 n0, q k); (eqnum r i0 n1, opp (q k))]) els.

Theorem C16_edge_flux : forall r eq model m v, edge_couple_assemble rF r eq model = Some (m, v) ->
  exists i0, row_index r eq = Some i0 /\
  v = flux_pairs r Ropp i0 (edge_elems (rg_mesh r)) (fun k => val (rg_edge r) model k * val (rg_edge r) (g_edgecouple (rg_geom r)) k)%R /\
  rhs_total v = 0%R.
Proof.
  intros r eq model m v H. unfold edge_couple_assemble, edge_couple in H.
  destruct (couple_assemble_rhs _ _ _ _ _ _ _ _ _ _ _ H) as (ef & ec & E1 & E2 & E3).
  destruct (couple_rhs_flux _ _ _ _ _ E3) as (i0 & Hi & Hv & Ht). exists i0. split; [exact Hi|]. split; [|exact Ht].
  rewrite Hv. apply flat_map_ext. intros [[[k n0] n1] o]. unfold val. rewrite E1, E2. reflexivity.
Qed.
Print Assumptions C16_edge_flux.

(* the same holds entry by entry in double precision: the two contributions are a
   number and its exact opposite (and their sum is a zero when they are finite) *)
Definition dF : scalar double := mkSc double dzero done dadd dmul dopp.
Lemma flux_generic : forall {S} (F : scalar S) (r : region S) eq model m v,
  (forall x, s_mul F (one F) x = x) -> (forall x, s_mul F (minus_one F) x = s_opp F x) ->
  edge_couple_assemble F r eq model = Some (m, v) ->
  exists i0 q, row_index r eq = Some i0 /\ v = flux_pairs r (s_opp F) i0 (edge_elems (rg_mesh r)) q.
Proof.
  intros S F r eq model m v L1 L2 H. unfold edge_couple_assemble, edge_couple, couple_assemble in H.
  destruct (rg_edge r model) as [ef|]; [|discriminate]. destruct (rg_edge r _) as [ec|]; [|discriminate].
  unfold couple_rhs in H. destruct (row_index r eq) as [i0|]; [|discriminate].
  destruct (couple_jacobians _ _ _ _ _ _ _ _ _ _ _); [|discriminate]. injection H as _ <-.
  exists i0, (fun k => s_mul F (ef k) (ec k)). split; [reflexivity|]. apply flat_map_ext. intros [[[k n0] n1] o].
  rewrite L1, L2. reflexivity.
Qed.
Theorem C16_edge_flux_double : forall (r : region double) eq model m v, edge_couple_assemble dF r eq model = Some (m, v) ->
  exists i0 q, row_index r eq = Some i0 /\ v = flux_pairs r dopp i0 (edge_elems (rg_mesh r)) q.
Proof. intros r eq model m v. exact (flux_generic dF r eq model m v dmul_one dmul_minus_one). Qed.
Print Assumptions C16_edge_flux_double.
Theorem C16_opposite_double : forall q : double, BinarySingleNaN.is_finite q = true -> deqz (dadd q (dopp q)) = true.
Proof. exact dadd_opp. Qed.
Print Assumptions C16_opposite_double.

(* every equation: the residuals of a region add up to its sources alone *)
Theorem C16_total : forall r eq b m v, equation_assemble rF r eq b DC = Some (m, v) -> rhs_total v = source_total r b.
Proof. exact c16_total_lemma. Qed.
Print Assumptions C16_total.
Corollary C16_no_source : forall r eq b m v, equation_assemble rF r eq b DC = Some (m, v) ->
  b_node b = ""%string -> b_edgevol b = ""%string -> b_vol0 b = ""%string -> b_vol1 b = ""%string -> rhs_total v = 0%R.
Proof.
  intros r eq b m v H E1 E2 E3 E4. rewrite (C16_total _ _ _ _ _ H). unfold source_total. rewrite E1, E2, E3, E4.
  change (given ""%string) with false. rewrite andb_false_r. cbn [orb]. lra.
Qed.
Print Assumptions C16_no_source.

(* the positions (index of the value, first node, second node, other nodes) over which
   the equations are assembled: one per edge; for triangle i and j < 3 the index 3i+j, its
   j-th edge and the opposite node j; for tetrahedron i and j < 6 the index 6i+j *)
Theorem C45_positions : forall g,
  (forall k, nth_error (edge_elems g) k = option_map (fun e => (k, fst e, snd e, [])) (nth_error (m_edges g) k)) /\
  ((forall t, In t (m_tris g) -> length (snd t) = 3) -> forall i j, j < 3 ->
     nth_error (tri_elems g) (3 * i + j) =
     match nth_error (m_tris g) i with
     | Some t => match nth_error (snd t) j with Some e => Some (3 * i + j, fst e, snd e, [nth j (fst t) 0]) | None => None end
     | None => None end) /\
  ((forall t, In t (m_tets g) -> length t = 6) -> forall i j, j < 6 ->
     nth_error (tet_elems g) (6 * i + j) =
     match nth_error (m_tets g) i with
     | Some t => match nth_error t j with Some e => Some (6 * i + j, fst (fst e), snd (fst e), [fst (snd e); snd (snd e)]) | None => None end
     | None => None end).
Proof. exact positions_lemma. Qed.
Print Assumptions C45_positions.

(* ---- C45 -------------------------------------------------------------------------- *)
(* an equation contributes exactly the documented residual at each of its rows and
   nothing elsewhere.  Missing: edge_volume_model without edge_model (next theorem). *)
Theorem C45_residual_partial : forall r eq b i0 m v, nodes_ok (rg_mesh r) -> row_index r eq = Some i0 ->
  (given (b_edgevol b) = true -> given (b_edge b) = true) ->
  equation_assemble rF r eq b DC = Some (m, v) ->
  (forall n, n < m_nodes (rg_mesh r) -> row_sum v (eqnum r i0 n) = residual r b n) /\
  (forall p, In p v -> exists n, n < m_nodes (rg_mesh r) /\ fst p = eqnum r i0 n).
Proof.
  intros r eq b i0 m v Hok Hi Hev H. split.
  - intros n Hn. eapply residual_lemma; eassumption.
  - eapply equation_in_rows; eassumption.
Qed.
Print Assumptions C45_residual_partial.
Theorem C45_time_residual : forall r eq b i0 m v, nodes_ok (rg_mesh r) -> row_index r eq = Some i0 ->
  equation_assemble rF r eq b TIME = Some (m, v) ->
  (forall n, n < m_nodes (rg_mesh r) -> row_sum v (eqnum r i0 n) = time_residual r b n) /\
  (forall p, In p v -> exists n, n < m_nodes (rg_mesh r) /\ fst p = eqnum r i0 n).
Proof.
  intros r eq b i0 m v Hok Hi H. split.
  - intros n Hn. eapply time_residual_lemma; eassumption.
  - eapply equation_in_rows; eassumption.
Qed.
Print Assumptions C45_time_residual.

(* a mesh with two triangles sharing an edge, and one equation *)
Definition ex_mesh : mesh := mkMesh 2 4 [(0, 1); (0, 2); (1, 2); (1, 3); (2, 3)]
  [([0; 1; 2], [(1, 2); (0, 2); (0, 1)]); ([1; 2; 3], [(2, 3); (1, 3); (1, 2)])] [].
Definition ex_geom : geom := mkGeom "NodeVolume" "EdgeCouple" "EdgeNodeVolume" "EdgeNodeVolume" "ElementEdgeCouple" "ElementNodeVolume" "ElementNodeVolume".
Definition ex_body : body := mkBody "src" "flux" "vol" "elflux" "v0" "v1" "charge".
Definition ex_region (b : body) : region R :=
  mkReg ex_mesh 10 (fst (run 0 empty [Equation "e" "u" b])) ex_geom
    (fun s => if existsb (String.eqb s) ["src"; "charge"; "src:u"; "charge:u"; "NodeVolume"]%string then Some (fun i => INR (i + 1)) else None)
    (fun s => if existsb (String.eqb s) ["flux"; "vol"; "flux:u@n0"; "flux:u@n1"; "EdgeCouple"; "EdgeNodeVolume"]%string then Some (fun i => INR (i + 2)) else None)
    (fun s => if existsb (String.eqb s) ["elflux"; "v0"; "v1"; "ElementEdgeCouple"; "ElementNodeVolume"]%string then Some (fun i => INR (i + 3)) else None).
Example ex_nodes_ok : nodes_ok ex_mesh.
Proof.
  intros k a b o H. vm_compute in H.
  repeat match goal with H : _ \/ _ |- _ => destruct H as [H|H] end; try (injection H as <- <- <- <-; cbn; lia); destruct H.
Qed.
Example ex_positions : nth_error (tri_elems ex_mesh) 4 = Some (4, 1, 3, [2]) /\ nth_error (tri_elems ex_mesh) 5 = Some (5, 1, 2, [3]).
Proof. vm_compute. auto. Qed.
Example ex_assembles : exists m v, equation_assemble rF (ex_region ex_body) "e" ex_body DC = Some (m, v) /\ length m = 24 /\ length v = 60 /\
  row_index (ex_region ex_body) "e" = Some 0.
Proof. eexists. eexists. split; [cbv -[INR Rmult Ropp IZR Rplus]; reflexivity|]. cbn. split; [reflexivity|]. split; reflexivity. Qed.

(* edge_volume_model without edge_model is ignored: the documented residual is not zero *)
Theorem C45_edge_volume_refuted :
  let b := mkBody "" "" "vol" "" "" "" "" in
  equation_assemble rF (ex_region b) "e" b DC = Some ([], []) /\ residual (ex_region b) b 0 <> 0%R.
Proof.
  split; [reflexivity|]. cbv -[INR Rmult Ropp Rplus IZR]. cbn [INR]. lra.
Qed.
Print Assumptions C45_edge_volume_refuted.

(* only one of volume_node0_model / volume_node1_model (with element dimension 2 or 3):
   the solve fails *)
Theorem C45_one_volume_model_refuted : forall r eq b, m_dim (rg_mesh r) = 2 \/ m_dim (rg_mesh r) = 3 ->
  rg_element r ""%string = None -> given (b_vol0 b) <> given (b_vol1 b) -> equation_assemble rF r eq b DC = None.
Proof.
  intros r eq b Hd Hno Hne. assert (N : element_volume_assemble rF r eq (b_vol0 b) (b_vol1 b) = None /\ (given (b_vol0 b) || given (b_vol1 b))%bool = true).
  { split; [|destruct (given (b_vol0 b)), (given (b_vol1 b)); try reflexivity; congruence].
    assert (NE : String.eqb (b_vol0 b) (b_vol1 b) = false) by (apply String.eqb_neq; intros E; rewrite E in Hne; apply Hne; reflexivity).
    unfold element_volume_assemble. rewrite NE, andb_false_r.
    assert (Z : forall c s0 s1, element_couple rF r eq "" c s0 s1 = None).
    { intros c s0 s1. unfold element_couple. destruct Hd as [-> | ->]; unfold tri_couple, tet_couple, couple_assemble; rewrite Hno; reflexivity. }
    unfold given in Hne. destruct (String.eqb_spec (b_vol0 b) "") as [E0|_]; [rewrite E0, Z; reflexivity|].
    destruct (String.eqb_spec (b_vol1 b) "") as [E1|_]; [rewrite E1, Z; unfold both|exfalso; apply Hne; reflexivity].
    destruct (element_couple _ _ _ _ _ _ _) as [[? ?]|]; reflexivity. }
  destruct N as (N1 & N2). cbn [equation_assemble]. rewrite N1, N2. unfold both.
  destruct (if given (b_edge b) then _ else _) as [[? ?]|]; [|reflexivity].
  destruct (if given (b_node b) then _ else _) as [[? ?]|]; [|reflexivity].
  destruct (if given (b_element b) then _ else _) as [[? ?]|]; reflexivity.
Qed.
Print Assumptions C45_one_volume_model_refuted.

(* ---- C17 -------------------------------------------------------------------------- *)
Lemma stable_unique : forall (cs : list (cmd body)) g base ge sn se sl,
  let (t, log) := run 0 empty cs in stable log -> unique_columns (mkFam g base t ge sn se sl).
Proof.
  intros cs g base ge sn se sl. pose proof (c14_lemma cs) as H14. pose proof (c15_lemma cs) as H15.
  pose proof (run_inv cs empty [] (fun _ => None) 0 inv_empty) as I. destruct (run 0 empty cs) as [t log]. intros St.
  destruct I as (id & I). specialize (H15 St). destruct H14 as (_ & _ & _ & _ & H5). split.
  - unfold fvars. cbn [f_table]. apply sorted_NoDup, I.
  - intros var var' idx Hv Hv' E E'. unfold fvars, fcol in *. cbn [f_table] in *.
    apply find_keys in Hv, Hv'. unfold equation_of_variable in *.
    destruct (find var (t_var t)) as [e|] eqn:F; [|congruence]. destruct (find var' (t_var t)) as [e'|] eqn:F'; [|congruence].
    rewrite H5 in E, E'. apply position_bound in E, E'. assert (e = e') by congruence. subst e'.
    apply H15 in F, F'. destruct F as (b & F). destruct F' as (b' & F'). congruence.
Qed.

(* for the models of a region after any history of equation / delete_equation commands
   in which no equation was given another variable: if the derivative models are the
   partial derivatives and the geometric models are constant, the matrix loaded for the
   region is the Jacobian of the loaded residual, for every state, row and column.
   (Histories that change a variable are excluded: next theorem.) *)
Theorem C17_jacobian_partial : forall (cs : list (cmd body)) g base ge sn se sl,
  let (t, log) := run 0 empty cs in let f := mkFam g base t ge sn se sl in
  stable log -> mesh_ok g -> fixed_geom f ->
  (forall name var b, EqTableProofs.given log name = Some (var, b) -> exact_body f b) ->
  forall mode x m v, region_assemble rF (reg f x) mode = Some (m, v) -> forall row c,
  derivable_pt_lim (fun u => row_sum (rhs_of (region_assemble rF (reg f (upd x c u)) mode)) row) (x c) (entry m row c).
Proof.
  intros cs g base ge sn se sl. pose proof (stable_unique cs g base ge sn se sl) as Hu. pose proof (c14_lemma cs) as H14.
  pose proof (run_inv cs empty [] (fun _ => None) 0 inv_empty) as I. destruct (run 0 empty cs) as [t log]. cbv zeta.
  intros St Hm Fg He mode. destruct I as (id & I). destruct H14 as (H1 & _).
  apply (region_jok (mkFam g base t ge sn se sl) mode (Hu St) Hm Fg).
  intros nm q Hq. apply (In_find nm q (t_eqs t) (i_se _ _ _ _ I)) in Hq. apply (He nm (q_var q)). rewrite <- H1, Hq. reflexivity.
Qed.
Print Assumptions C17_jacobian_partial.

(* a family that meets the hypotheses: two nodes, one edge, flux u0 - u1, source u^2 *)
Definition jm : mesh := mkMesh 1 2 [(0, 1)] [] [].
Definition jcs : list (cmd body) := [Equation "e" "u" (mkBody "src" "flux" "" "" "" "" "")].
Definition jfam : family := mkFam jm 0 (fst (run 0 empty jcs)) ex_geom
  (fun s => if String.eqb s "src" then Some (fun x i => x i * x i)%R else if String.eqb s "src:u" then Some (fun x i => 2 * x i)%R
            else if String.eqb s "NodeVolume" then Some (fun _ _ => 3%R) else None)
  (fun s => if String.eqb s "flux" then Some (fun x _ => (x 0%nat - x 1%nat)%R) else if String.eqb s "flux:u@n0" then Some (fun _ _ => 1%R)
            else if String.eqb s "flux:u@n1" then Some (fun _ _ => (-1)%R) else if String.eqb s "EdgeCouple" then Some (fun _ _ => 5%R) else None)
  (fun _ => None).
Lemma d_upd : forall x c i, derivable_pt_lim (fun t => upd x c t i) (x c) (if i =? c then 1%R else 0%R).
Proof. intros x c i. unfold upd. destruct (i =? c); [apply derivable_pt_lim_id|apply derivable_pt_lim_const]. Qed.
Lemma jcol : forall c var j, is_col jfam c var j <-> var = "u"%string /\ j = c /\ c < 2.
Proof.
  intros c var j. unfold is_col. split.
  - intros (Hv & Hj & idx & Hc & E). cbn in Hv. destruct Hv as [<-|[]]. cbn in Hj. vm_compute in Hc. injection Hc as <-. unfold fnum in E. cbn in E. split; [reflexivity|lia].
  - intros (-> & -> & Hc). split; [cbn; auto|]. split; [cbn; exact Hc|]. exists 0. split; [reflexivity|]. unfold fnum. cbn. lia.
Qed.
Example jfam_exact : exact_body jfam (mkBody "src" "flux" "" "" "" "" "") /\ fixed_geom jfam /\ mesh_ok jm /\ stable (snd (run 0 empty jcs)).
Proof.
  split; [|split; [|split]].
  - split; [|split; [|split; [|split; [|split; [|split]]]]].
    + intros g Hg x i Hi c. cbn in Hg. injection Hg as <-. cbn in Hi.
      assert (D : derivable_pt_lim (fun t => upd x c t i * upd x c t i)%R (x c) ((if i =? c then 1 else 0) * upd x c (x c) i + upd x c (x c) i * (if i =? c then 1 else 0))%R)
        by (apply (derivable_pt_lim_mult (fun t => upd x c t i) (fun t => upd x c t i)); apply d_upd).
      split.
      * intros var j H. apply jcol in H. destruct H as (-> & -> & Hc). unfold dval. cbn.
        replace (if i =? c then (2 * x i)%R else 0%R) with ((if i =? c then 1 else 0) * upd x c (x c) i + upd x c (x c) i * (if i =? c then 1 else 0))%R; [exact D|].
        unfold upd. destruct (Nat.eqb_spec i c) as [->|]; lra.
      * intros N. destruct (Nat.eqb_spec i c) as [->|]; [exfalso; apply (N "u"%string c); apply jcol; auto|].
        match type of D with derivable_pt_lim _ _ ?l => replace 0%R with l by lra end. exact D.
    + intros g Hg. cbn in Hg. discriminate.
    + intros g Hg x k ns Hk c. cbn in Hg. injection Hg as <-. cbn in Hk. destruct Hk as [Hk|[]]. injection Hk as <- <-.
      assert (D : derivable_pt_lim (fun t => (upd x c t 0%nat - upd x c t 1%nat)%R) (x c) ((if (0 =? c)%nat then 1 else 0) - (if (1 =? c)%nat then 1 else 0))%R)
        by (apply (derivable_pt_lim_minus (fun t => upd x c t 0) (fun t => upd x c t 1)); apply d_upd).
      split.
      * intros var j H. apply jcol in H. destruct H as (-> & -> & Hc).
        match goal with |- derivable_pt_lim _ _ ?l => replace l with ((if (0 =? c)%nat then 1 else 0) - (if (1 =? c)%nat then 1 else 0))%R end; [exact D|].
        destruct c as [|[|c]]; [..|lia]; unfold dval; cbn; lra.
      * intros N. destruct c as [|[|c]]; [exfalso; apply (N "u"%string 0); apply jcol; auto|exfalso; apply (N "u"%string 1); apply jcol; auto|].
        match type of D with derivable_pt_lim _ _ ?l => replace 0%R with l by (cbn; lra) end. exact D.
    + intros g Hg. cbn in Hg. discriminate.
    + split; intros E; discriminate E.
    + split; intros E; discriminate E.
    + split; intros E; discriminate E.
  - unfold fixed_geom, fixed. cbn. split; [intros g H; injection H as <-; reflexivity|]. split; [intros g H; injection H as <-; reflexivity|].
    repeat split; intros; discriminate.
  - intros k ns H n Hn. cbn in H. destruct H as [H|[]]. injection H as <- <-. cbn in Hn |- *. lia.
  - vm_compute. repeat split.
Qed.
Example jfam_loads : exists m v, region_assemble rF (reg jfam (fun i => INR i)) DC = Some (m, v) /\ length m = 6 /\ length v = 4.
Proof. eexists. eexists. split; [cbv -[INR Rmult Ropp IZR Rplus]; reflexivity|]. cbn. auto. Qed.

(* C17 is false when an equation was given another variable: equation(e, v1) then
   equation(e, v2).  The derivative with respect to v1, no longer an unknown, is
   loaded into the column of v2. *)
Definition kcs : list (cmd body) := [Equation "e" "v1" (mkBody "m" "" "" "" "" "" ""); Equation "e" "v2" (mkBody "m" "" "" "" "" "" "")].
Definition kfam : family := mkFam (mkMesh 1 1 [] [] []) 0 (fst (run 0 empty kcs)) ex_geom
  (fun s => if String.eqb s "v1" then Some (fun _ _ => 7%R)                      (* not an unknown any more *)
            else if String.eqb s "v2" then Some (fun x i => x i)
            else if String.eqb s "m" then Some (fun x i => 5 * 7 + x i)%R         (* m = 5 v1 + v2 *)
            else if String.eqb s "m:v1" then Some (fun _ _ => 5%R)
            else if String.eqb s "m:v2" then Some (fun _ _ => 1%R)
            else if String.eqb s "NodeVolume" then Some (fun _ _ => 1%R) else None)
  (fun _ => None) (fun _ => None).
Theorem C17_changed_variable_refuted :
  EqTableProofs.given (snd (run 0 empty kcs)) "e" = Some ("v2"%string, mkBody "m" "" "" "" "" "" "") /\
  forall x, exists m v, region_assemble rF (reg kfam x) DC = Some (m, v) /\ entry m 0 0 = 6%R /\
  derivable_pt_lim (fun t => row_sum (rhs_of (region_assemble rF (reg kfam (upd x 0 t)) DC)) 0) (x 0) 1%R.
Proof.
  split; [vm_compute; reflexivity|]. intros x. eexists. eexists.
  split; [cbv -[INR Rmult Ropp IZR Rplus]; reflexivity|]. split; [unfold entry; cbn; lra|].
  apply (derivable_pt_lim_ext (fun t => 35 + t)%R).
  - intros t. unfold row_sum, region_assemble. cbn. unfold upd. cbn. lra.
  - replace 1%R with (0 + 1)%R by lra. apply derivable_pt_lim_plus; [apply derivable_pt_lim_const|apply derivable_pt_lim_id].
Qed.
Print Assumptions C17_changed_variable_refuted.

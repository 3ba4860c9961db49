(* The mesh read from a file written for a device gives the device back. *)
From Coq Require Import String List Bool Arith ZArith Lia Permutation Sorting.Sorted.
Import ListNotations.
Require Import Verif.StrMap Verif.Adjacency Verif.Loader Verif.LoaderSpec Verif.AdjacencySpec
  Verif.LoaderProofs Verif.AdjacencyProofs Verif.LoaderImport Verif.LoaderDevsimProperties Verif.LoaderDeviceProperties
  Verif.Restart Verif.RestartWrite Verif.RestartSpec Verif.RestartProofs Verif.RestartRead Verif.RestartDeviceSpec Verif.RestartDevice Verif.RestartDevice2.
Local Arguments Nat.ltb : simpl never.
Local Arguments Nat.leb : simpl never.
Local Arguments Nat.eqb : simpl never.

Lemma Forall2_map_eq : forall X Y Z (R : X -> Y -> Prop) (f : X -> Z) (g : Y -> Z) l m, Forall2 R l m -> (forall a b, In a l -> In b m -> R a b -> f a = g b) -> map f l = map g m.
Proof.
  intros X Y Z R f g l m H. induction H as [|a b l m Hab H IH]; intros E; [reflexivity|]. cbn. f_equal; [apply E; [left; reflexivity|left; reflexivity|exact Hab]|].
  apply IH. intros x y Ix Iy. apply E; right; assumption.
Qed.
Lemma named_keys : forall X Y (P : X -> Y -> Prop) l m, Forall2 (named P) l m -> keys l = keys m.
Proof. intros X Y P l m H. unfold keys. apply (Forall2_map_eq _ _ _ _ _ _ _ _ H). intros a b _ _ [E _]. exact E. Qed.
Lemma named_sorted : forall X Y (P : X -> Y -> Prop) (l : smap X) (m : smap Y), Forall2 (named P) l m -> sorted l -> sorted m.
Proof. intros X Y P l m H S. unfold sorted in *. rewrite <- (named_keys _ _ _ _ _ H). exact S. Qed.

Section Device.
Variables (nc dim : nat).
Hypothesis D : 1 <= dim <= 3.
Lemma regions_made : forall l acc, Forall (fun p => whole_region nc dim (snd p)) l ->
  devsim_regions nc dim (map (fun p => (fst p, all_given (snd p))) l) acc = Done (puts l acc).
Proof.
  induction l as [|[n x] l IH]; intros acc W; [reflexivity|]. inversion W; subst. cbn [map fst snd devsim_regions] in *.
  rewrite (dimension_given nc dim x D) by assumption. rewrite Nat.eqb_refl, (region_made nc dim x D) by assumption. rewrite IH by assumption. reflexivity.
Qed.
Variable rs : smap region.
Lemma contacts_made : forall (l : smap mcontact) (m : smap contact) acc, Forall2 (named (fun c x => devsim_contact rs c = Some x)) l m ->
  devsim_contacts rs l acc = (true, puts m acc).
Proof.
  intros l m acc H. revert acc. induction H as [|[n c] [n' x] l m [E Q] H IH]; intros acc; [reflexivity|]. cbn [fst snd] in *. subst n'. cbn [devsim_contacts]. rewrite Q, IH. reflexivity.
Qed.
Definition rebuilt (x : interface) : interface :=
  {| i_region0 := i_region0 x; i_region1 := i_region1 x; i_nodes0 := i_nodes0 x; i_nodes1 := i_nodes1 x; i_edges := []; i_tris := [] |}.
Lemma interfaces_made : forall (l : smap minterface) (m : smap interface) acc dn,
  Forall2 (named (fun i x => mi_region0 i = i_region0 x /\ mi_region1 i = i_region1 x /\ length (i_nodes0 x) = length (i_nodes1 x) /\
      (exists r0 r1, find (i_region0 x) rs = Some r0 /\ find (i_region1 x) rs = Some r1) /\
      exists ps, devsim_pairs rs i = Paired true (i_nodes0 x) (i_nodes1 x) ps)) l m ->
  exists mi, devsim_interfaces rs l acc dn = Done (puts (map (fun p => (fst p, rebuilt (snd p))) m) acc, mi).
Proof.
  intros l m acc dn H. revert acc dn. induction H as [|[n i] [n' x] l m [E (R0 & R1 & L & (r0 & r1 & F0 & F1) & ps & P)] H IH]; intros acc dn; [exists dn; reflexivity|].
  cbn [fst snd] in *. subst n'. cbn [devsim_interfaces]. rewrite P. rewrite R0, R1, F0, F1, L, Nat.eqb_refl. destruct (IH (put n (rebuilt x) acc) (dn ++ [(n, {| mi_region0 := i_region0 x; mi_region1 := i_region1 x; mi_part0 := decompose_region (mi_part0 i);
                       mi_part1 := decompose_region (mi_part1 i); mi_pairs := ps |})])) as [mi E]. exists mi. etransitivity; [exact E|]. reflexivity.
Qed.
End Device.

Section Restored.
Variable A : Type.
Variable of_int : Z -> A.
Lemma interface_pairs : forall nc dim rs i x, 1 <= dim <= 3 -> (forall n r, find n rs = Some r -> whole_region nc dim r) -> proper_interface i ->
  interface_shown i x -> whole_interface dim rs i x ->
  (exists r0 r1, find (i_region0 x) rs = Some r0 /\ find (i_region1 x) rs = Some r1) /\
  exists ps, devsim_pairs rs {| mi_region0 := si_region0 i; mi_region1 := si_region1 i; mi_part0 := ci_part0 A (interface_read A of_int dim i);
                                mi_part1 := ci_part1 A (interface_read A of_int dim i); mi_pairs := ci_pairs A (interface_read A of_int dim i) |} = Paired true (i_nodes0 x) (i_nodes1 x) ps.
Proof.
  intros nc dim rs i x D WR (P0 & P1 & P2 & P3 & _) (E0 & E1 & L & EP) (r0 & r1 & F0 & F1 & B0 & B1 & H). split; [eauto|].
  rewrite E0, E1. unfold interface_read. cbn [ci_part0 ci_part1 ci_pairs]. destruct (by_nodes dim i) eqn:BN.
  - cbn [fst snd]. rewrite EP. apply (pairs_made dim rs D (i_nodes0 x) (i_nodes1 x) _ _ r0 r1); assumption.
  - unfold by_nodes in BN. apply orb_false_elim in BN. destruct BN as [D1 PV]. apply Nat.eqb_neq in D1. apply negb_false_iff in PV.
    destruct H as [H|[H|H]]; [lia|congruence|]. destruct H as (LE & I0 & I1 & M0 & M1 & EQ & N0 & N1).
    assert (D' : dim = 2 \/ dim = 3) by lia. destruct D' as [E|E]; rewrite E in *; cbn [sides fst snd] in *; unfold if_dim, equally; rewrite LE, !Nat.eqb_refl.
    + change (Nat.eqb 2 2) with true. change (Nat.eqb 2 3) with false. cbv iota. cbn [fst snd].
      apply (elements_made 2 rs D (si_edges0 i) [] (si_edges1 i) [] (i_nodes0 x) (i_nodes1 x) _ _ r0 r1); try assumption.
      * left. split; [reflexivity|]. exact P0. * left. split; [reflexivity|]. exact P1.
      * intros j. rewrite app_nil_r. apply M0. * intros j. rewrite app_nil_r. apply M1.
    + change (Nat.eqb 3 2) with false. change (Nat.eqb 3 3) with true. cbv iota. cbn [fst snd].
      apply (elements_made 3 rs D [] (si_tris0 i) [] (si_tris1 i) (i_nodes0 x) (i_nodes1 x) _ _ r0 r1); try assumption.
      * right. split; [reflexivity|]. exact P2. * right. split; [reflexivity|]. exact P3.
Qed.
Lemma Forall2_impl_In : forall X Y (R Q : X -> Y -> Prop) l m, Forall2 R l m -> (forall a b, In a l -> In b m -> R a b -> Q a b) -> Forall2 Q l m.
Proof.
  intros X Y R Q l m H. induction H as [|a b l m Hab H IH]; intros E; constructor; [apply E; [left; reflexivity|left; reflexivity|exact Hab]|].
  apply IH. intros x y Ix Iy. apply E; right; assumption.
Qed.
Lemma Forall2_and : forall X Y (R Q : X -> Y -> Prop) l m, Forall2 R l m -> Forall2 Q l m -> Forall2 (fun a b => R a b /\ Q a b) l m.
Proof. intros X Y R Q l m H. induction H as [|a b l m Hab H IH]; intros K; inversion K; subst; constructor; auto. Qed.
Lemma Forall2_map_l : forall X Y Z (f : X -> Z) (R : Z -> Y -> Prop) l m, Forall2 (fun a b => R (f a) b) l m -> Forall2 R (map f l) m.
Proof. intros X Y Z f R l m H. induction H; constructor; assumption. Qed.

Lemma device_restored : forall s d devs, shows A s d -> whole A s d -> proper A s -> has (sv_name A s) devs = false ->
  exists m m' d', devsim_finalize (mesh_of A (read A of_int s)) = (true, m) /\
    devsim_create m (sv_name A s) devs = Done (put (sv_name A s) d' devs, m') /\ restored d d'.
Proof.
  intros s d devs (SD & SR & SC & SI) (DD & NC & NR & WR & WC & WI) (PR1 & PR2 & PR3 & PP1 & PP2 & PP3) HN.
  set (nc := length (sv_coords A s)) in *. set (dim := d_dim d) in *.
  assert (ER : map (fun p => (fst p, cr_part A (snd p))) (co_regions A (read A of_int s)) = map (fun p => (fst p, top_only dim (snd p))) (d_regions d)).
  { unfold read. cbn [co_regions]. rewrite map_map. cbn [fst snd]. apply (Forall2_map_eq _ _ _ _ _ _ _ _ SR). intros [n r] [n' x] _ _ [En (Q1 & Q2 & Q3 & Q4)]. cbn [fst snd] in *. subst n'.
    unfold region_read, top_only. cbn [cr_part]. rewrite Q1, Q2, Q3, Q4, SD. reflexivity. }
  assert (EN : nonempty (d_regions d) = true) by (destruct (d_regions d); [congruence|reflexivity]).
  assert (WF : forall n r, find n (d_regions d) = Some r -> whole_region nc dim r).
  { intros n r F. apply find_In in F. rewrite Forall_forall in WR. apply (WR _ F). }
  assert (FD : first_dimension (map (fun p => (fst p, top_only dim (snd p))) (d_regions d)) = dim).
  { destruct (d_regions d) as [|[n x] l]; [congruence|]. inversion WR; subst. cbn [map snd] in *. apply (dimension_top nc dim x DD). assumption. }
  set (m := {| m_ncoords := nc; m_regions := map (fun p => (fst p, all_given (snd p))) (d_regions d); m_contacts := m_contacts (mesh_of A (read A of_int s));
               m_interfaces := m_interfaces (mesh_of A (read A of_int s)); m_final := true |}).
  assert (FIN : devsim_finalize (mesh_of A (read A of_int s)) = (true, m)).
  { unfold devsim_finalize. cbn [mesh_of m_final m_regions m_ncoords m_contacts m_interfaces]. rewrite ER, FD. rewrite map_map. cbn [fst snd].
    assert (E2 : map (fun p => (fst p, decompose_region (top_only dim (snd p)))) (d_regions d) = map (fun p => (fst p, all_given (snd p))) (d_regions d)).
    { apply map_ext_in. intros [n x] I. cbn [fst snd]. rewrite Forall_forall in WR. rewrite (decomposed nc dim x DD (WR _ I)). reflexivity. }
    rewrite E2. assert (OK : negb (Nat.eqb (length (co_coords A (read A of_int s))) 0) && nonempty (map (fun p => (fst p, all_given (snd p))) (d_regions d)) &&
       forallb (fun p => region_ok (length (co_coords A (read A of_int s))) dim (snd p)) (map (fun p => (fst p, all_given (snd p))) (d_regions d)) = true).
    { cbn [read co_coords]. fold nc. assert (N0 : Nat.eqb nc 0 = false) by (apply Nat.eqb_neq; unfold nc; destruct (sv_coords A s); [congruence|discriminate]). rewrite N0. cbn [negb andb].
      replace (nonempty (map (fun p => (fst p, all_given (snd p))) (d_regions d))) with true by (destruct (d_regions d); [congruence|reflexivity]). cbn [andb].
      apply forallb_forall. intros p I. apply in_map_iff in I. destruct I as ([n x] & <- & I). cbn [snd]. rewrite Forall_forall in WR. apply (accepted nc dim x DD (WR _ I)). }
    rewrite OK. reflexivity. }
  assert (SRD : sorted (d_regions d)) by (apply (named_sorted _ _ _ _ _ SR PR1)).
  assert (SCD : sorted (d_contacts d)) by (apply (named_sorted _ _ _ _ _ SC PR2)).
  assert (SID : sorted (d_interfaces d)) by (apply (named_sorted _ _ _ _ _ SI PR3)).
  assert (RD : devsim_regions nc dim (m_regions m) [] = Done (d_regions d)).
  { cbn [m m_regions]. rewrite (regions_made nc dim DD) by exact WR. rewrite puts_self by exact SRD. reflexivity. }
  assert (CD : devsim_contacts (d_regions d) (m_contacts m) [] = (true, d_contacts d)).
  { erewrite (contacts_made (d_regions d) (m_contacts m) (d_contacts d)); [rewrite puts_self by exact SCD; reflexivity|].
    cbn [m m_contacts mesh_of read co_contacts]. rewrite map_map. cbn [fst snd]. apply Forall2_map_l. apply (Forall2_impl_In _ _ _ _ _ _ SC).
    intros [n c] [n' x] _ Ix [En (Q1 & Q2 & r & Q3 & Q4 & Q5)]. cbn [fst snd] in *. subst n'. split; [reflexivity|]. cbn [snd]. rewrite Forall_forall in WC.
    unfold contact_read. cbn [cc_region cc_part]. rewrite Q1, SD. apply (contact_made nc dim (d_regions d) DD WF (sc_nodes c) (sc_edges c) (sc_tris c) x r Q3 (WC _ Ix) Q2 Q4 Q5). }
  assert (ID : exists mi, devsim_interfaces (d_regions d) (m_interfaces m) [] [] = Done (puts (map (fun p => (fst p, rebuilt (snd p))) (d_interfaces d)) [], mi)).
  { apply interfaces_made. cbn [m m_interfaces mesh_of read co_interfaces]. rewrite map_map. cbn [fst snd]. apply Forall2_map_l. apply (Forall2_impl_In _ _ _ _ _ _ (Forall2_and _ _ _ _ _ _ SI WI)).
    intros [n i] [n' x] Ii Ix [[En Q] W]. cbn [fst snd] in *. subst n'. split; [reflexivity|]. cbn [snd mi_region0 mi_region1]. rewrite Forall_forall in PP3. pose proof (PP3 _ Ii) as PI. cbn [snd] in PI.
    rewrite SD. destruct (interface_pairs nc dim (d_regions d) i x DD WF PI Q W) as [E1 E2]. destruct Q as (Q1 & Q2 & Q3 & _). unfold interface_read at 1 2. cbn [ci_region0 ci_region1].
    split; [exact Q1|]. split; [exact Q2|]. split; [exact Q3|]. split; [exact E1|exact E2]. }
  destruct ID as [mi ID].
  assert (SIR : sorted (map (fun p => (fst p, rebuilt (snd p))) (d_interfaces d))) by (apply sorted_map with (f := fun p => rebuilt (snd p)), SID).
  rewrite puts_self in ID by exact SIR.
  assert (FD' : match m_regions m with [] => 1 | (_, r) :: _ => mregion_dimension r end = dim).
  { cbn [m m_regions]. destruct (d_regions d) as [|[n x] l]; [congruence|]. inversion WR; subst. cbn [map fst snd] in *. apply (dimension_given nc dim x DD). assumption. }
  eexists m, _, {| d_dim := dim; d_regions := d_regions d; d_contacts := d_contacts d; d_interfaces := map (fun p => (fst p, rebuilt (snd p))) (d_interfaces d) |}.
  split; [exact FIN|]. split.
  - unfold devsim_create. rewrite HN, FD'. change (m_final m) with true. change (m_ncoords m) with nc. cbn [negb orb]. rewrite RD, CD, ID. reflexivity.
  - split; [reflexivity|]. split; [reflexivity|]. split; [reflexivity|]. cbn [d_interfaces]. clear. induction (d_interfaces d) as [|[n x] l IH]; cbn; constructor; [|exact IH].
    split; [reflexivity|]. repeat split.
Qed.
End Restored.

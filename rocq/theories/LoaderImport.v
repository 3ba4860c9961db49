(* create_device on a finalized gmsh mesh. *)
From Coq Require Import String List Bool Arith Lia Permutation Sorting.Sorted.
Import ListNotations.
Require Import Verif.StrMap Verif.Adjacency Verif.Loader Verif.LoaderSpec Verif.AdjacencySpec Verif.ImportSpec Verif.LoaderProofs Verif.LoaderGmsh
  Verif.AdjacencyProofs Verif.AdjacencyFinal Verif.AdjacencyProperties.
Local Arguments Nat.ltb : simpl never.
Local Arguments Nat.leb : simpl never.
Local Arguments Nat.eqb : simpl never.

Definition kind (k : nat) : shapes -> list simplex :=
  match k with 1 => Points | 2 => Lines | 3 => Triangles | _ => Tetrahedra end.
Lemma dec_kind : forall s k f, wf_shapes s -> 1 <= k <= 4 -> (In f (kind k (decompose s)) <-> part_of k (all_of s) f).
Proof.
  intros s k f W K. destruct k as [|[|[|[|[|k]]]]]; try lia; cbn [kind].
  - apply dec_points, W. - apply dec_lines, W. - apply dec_tris, W. - apply dec_tets, W.
Qed.
Lemma part_of_ext : forall k a b f, (forall s, In s a <-> In s b) -> (part_of k a f <-> part_of k b f).
Proof. intros k a b f H. split; intros (L & A & s & I & F); (split; [exact L|split; [exact A|exists s; split; [apply H, I|exact F]]]). Qed.

Section Ready.
Variables (nc : nat) (names : list string) (es : list given) (cs : list described) (g : gmsh).
Hypothesis RD : ready nc names es cs g.
Lemma names_parts : forall k ps f, 1 <= k <= 4 -> (In f (of_names (kind k) (g_shapes g) ps) <-> part_of k (members names es ps) f).
Proof.
  intros k ps f K. unfold of_names. rewrite sort_unique_In, in_flat_map.
  assert (G : forall p, In f (kind k (found no_shapes (find p (g_shapes g)))) <-> part_of k (map gv_nodes (own names p es)) f).
  { intros p. rewrite (rd_shapes _ _ _ _ _ RD p).
    destruct (shapes_of_spec (own names p es) no_shapes no_shapes_wf (own_proper names p es (rd_proper _ _ _ _ _ RD))) as [W H].
    rewrite (dec_kind _ k f W K), H. change (all_of no_shapes) with (@nil (list nat)).
    pose proof (part_of_nil k f). tauto. }
  split.
  - intros (p & Ip & I). apply G in I. destruct I as (L & A & s & Is & F). split; [exact L|]. split; [exact A|]. exists s. split; [|exact F].
    apply in_map_iff in Is. destruct Is as (e & <- & Ie). apply filter_In in Ie. destruct Ie as [Ie Eg]. apply in_map, filter_In. split; [exact Ie|].
    apply existsb_exists. exists p. auto.
  - intros (L & A & s & Is & F). apply in_map_iff in Is. destruct Is as (e & <- & Ie). apply filter_In in Ie. destruct Ie as [Ie Eg].
    apply existsb_exists in Eg. destruct Eg as (p & Ip & Ep). exists p. split; [exact Ip|]. apply G. split; [exact L|]. split; [exact A|].
    exists (gv_nodes e). split; [|exact F]. apply in_map, filter_In. auto.
Qed.
Lemma names_wf : forall k ps, 1 <= k <= 4 -> Forall (wf k) (of_names (kind k) (g_shapes g) ps).
Proof. intros k ps K. apply Forall_forall. intros f I. apply names_parts in I; [|exact K]. destruct I as (L & A & _). split; assumption. Qed.
Lemma names_NoDup : forall k ps, 1 <= k <= 4 -> NoDup (of_names (kind k) (g_shapes g) ps).
Proof.
  intros k ps K. unfold of_names. apply (sort_unique_NoDup k). apply Forall_forall. intros f I.
  assert (J : In f (of_names (kind k) (g_shapes g) ps)) by (apply (proj2 (sort_unique_In f _)), I).
  pose proof (names_wf k ps K) as W. rewrite Forall_forall in W. apply (W f J).
Qed.
Lemma part1 : forall els n, part_of 1 els [n] <-> exists s, In s els /\ In n s.
Proof.
  intros els n. split.
  - intros (_ & _ & s & I & F). exists s. split; [exact I|]. apply (face_In _ _ _ F). left. reflexivity.
  - intros (s & I & J). split; [reflexivity|]. split; [constructor; constructor|]. exists s. split; [exact I|].
    apply in_split in J. destruct J as (a & b & ->). exists (a ++ b). exact (Permutation_middle a b n).
Qed.
Lemma nodes_spec : forall ps, let l := map (fun s => nth_ s 0) (of_names Points (g_shapes g) ps) in
  StronglySorted lt l /\ forall n, In n l <-> exists s, In s (members names es ps) /\ In n s.
Proof.
  intros ps l. pose proof (names_wf 1 ps ltac:(lia)) as W. cbn [kind] in W. split.
  - unfold l, of_names. apply sort_unique_ascending. apply Forall_forall. intros f I.
    assert (J : In f (of_names Points (g_shapes g) ps)) by (apply (proj2 (sort_unique_In f _)), I).
    rewrite Forall_forall in W. apply (W f J).
  - intros n. rewrite <- part1. pose proof (names_parts 1 ps [n] ltac:(lia)) as H. cbn [kind] in H. rewrite <- H. unfold l.
    rewrite in_map_iff. split.
    + intros (s & <- & I). rewrite Forall_forall in W. destruct (W s I) as [L _]. destruct s as [|x [|? ?]]; try discriminate. exact I.
    + intros I. exists [n]. auto.
Qed.
Lemma members_In : forall ps s, In s (members names es ps) -> exists e, In e es /\ gv_nodes e = s.
Proof. intros ps s I. apply in_map_iff in I. destruct I as (e & E & I). apply filter_In in I. exists e. tauto. Qed.
Lemma members_len : forall ps s, In s (members names es ps) -> length s <= S (g_dim g).
Proof.
  intros ps s I. destruct (members_In _ _ I) as (e & Ie & <-). rewrite (rd_dim _ _ _ _ _ RD).
  pose proof (rd_proper _ _ _ _ _ RD) as P. rewrite Forall_forall in P. destruct (P e Ie) as [_ ->].
  apply le_n_S, list_max_le', in_map, Ie.
Qed.

(* ---- a region *)

Lemma NoDup_face : forall f s, NoDup s -> face f s -> NoDup f.
Proof.
  intros f s N [r P]. apply (Permutation_NoDup (Permutation_sym P)) in N. clear P.
  induction f as [|x f IH]; [constructor|]. cbn in N. inversion N; subst. constructor; [|auto]. intros I. apply H1, in_app_iff. auto.
Qed.
Lemma parts_simplices : forall k els l, Forall (@NoDup nat) els -> lists l (part_of k els) -> simplices k l.
Proof.
  intros k els l N [D H]. split; [exact D|]. apply Forall_forall. intros f I. apply H in I. destruct I as (L & A & s & Is & F).
  split; [exact L|]. split; [|exact A]. rewrite Forall_forall in N. apply (NoDup_face f s); auto.
Qed.
Lemma parts_sides : forall k els l m, lists l (part_of k els) -> lists m (part_of (S k) els) -> has_sides k l m.
Proof.
  intros k els l m [_ H] [_ H'] f c I L A F. apply H. apply H' in I. destruct I as (_ & _ & s & Is & F').
  split; [exact L|]. split; [exact A|]. exists s. split; [exact Is|]. apply (face_trans _ c); assumption.
Qed.
Lemma parts_complete : forall els e t q, Forall (@NoDup nat) els ->
  lists e (part_of 2 els) -> lists t (part_of 3 els) -> lists q (part_of 4 els) -> complete_region e t q.
Proof.
  intros els e t q N E T Q. constructor.
  - apply (parts_simplices 2 els); assumption. - apply (parts_simplices 3 els); assumption. - apply (parts_simplices 4 els); assumption.
  - apply (parts_sides 2 els); assumption. - apply (parts_sides 3 els); assumption.
Qed.
Lemma empty_parts : forall k ps, S (g_dim g) < k -> lists [] (part_of k (members names es ps)).
Proof.
  intros k ps K. split; [constructor|]. intros f. split; [intros []|]. intros P. exfalso. revert P.
  apply too_small. apply Forall_forall. intros s I. pose proof (members_len ps s I). lia.
Qed.
Lemma names_lists : forall k ps, 1 <= k <= 4 -> lists (of_names (kind k) (g_shapes g) ps) (part_of k (members names es ps)).
Proof. intros k ps K. split; [apply names_NoDup, K|]. intros f. apply names_parts, K. Qed.
Lemma dim_le : g_dim g <= 3.
Proof.
  rewrite (rd_dim _ _ _ _ _ RD). unfold max_type. apply list_max_le. apply Forall_forall. intros d I. apply in_map_iff in I.
  destruct I as (e & <- & I). pose proof (rd_proper _ _ _ _ _ RD) as P. rewrite Forall_forall in P. destruct (P e I). lia.
Qed.
Lemma gmsh_region_made : forall i x, gmsh_region g i = Finished x -> region_made (members names es (gi_names i)) x.
Proof.
  intros i x H. unfold gmsh_region in H.
  set (nodes := map _ (of_names Points _ _)) in H. set (tets := if _ =? 3 then _ else _) in H.
  set (tris := if 2 <=? _ then _ else _) in H. set (edges := of_names Lines _ _) in H.
  destruct (forallb _ nodes && _); [|discriminate].
  destruct (finalize_region (g_dim g) edges tris tets) as [a| |] eqn:E; try discriminate. injection H as <-.
  destruct (nodes_spec (gi_names i)) as [N1 N2]. fold nodes in N1, N2.
  assert (HE : lists edges (part_of 2 (members names es (gi_names i)))) by (apply (names_lists 2); lia).
  assert (HT : lists tris (part_of 3 (members names es (gi_names i)))).
  { unfold tris. destruct (Nat.leb_spec 2 (g_dim g)); [apply (names_lists 3); lia|apply empty_parts; lia]. }
  assert (HQ : lists tets (part_of 4 (members names es (gi_names i)))).
  { unfold tets. destruct (Nat.eqb_spec (g_dim g) 3); [apply (names_lists 4); lia|]. pose proof dim_le. apply empty_parts; lia. }
  constructor; cbn [r_nodes r_edges r_tris r_tets r_adj]; auto.
  intros N. pose proof (C50_connections (g_dim g) edges tris tets (parts_complete _ _ _ _ N HE HT HQ)) as C. rewrite E in C. apply C.
Qed.
Lemma gmsh_regions_made : forall l acc rs, sorted acc -> sorted l -> gmsh_regions g l acc = Done rs ->
  sorted rs /\ forall r, match find r l with
    | Some i => exists x, find r rs = Some x /\ gmsh_region g i = Finished x
    | None => find r rs = find r acc end.
Proof.
  induction l as [|[n i] l IH]; intros acc rs S L H; cbn in H.
  - injection H as <-. split; [exact S|]. intros r. reflexivity.
  - destruct (gmsh_region g i) as [x| |] eqn:E; try discriminate.
    assert (L' : sorted l) by (unfold sorted in *; cbn in L; inversion L; subst; assumption).
    destruct (IH _ _ (put_sorted _ _ _ S) L' H) as [S' F]. split; [exact S'|]. intros r. cbn [find].
    destruct (String.eqb_spec r n) as [->|N].
    + assert (Q : find n l = None).
      { apply sorted_NoDup in L. cbn in L. inversion L as [|? ? L1 L2]; subst. destruct (find n l) eqn:Q; [|reflexivity].
        exfalso. apply L1. apply find_In in Q. apply in_map_iff. exists (n, g0). auto. }
      specialize (F n). rewrite Q, find_put, String.eqb_refl in F by exact S. exists x. auto.
    + specialize (F r). destruct (find r l); [exact F|]. rewrite F, find_put by exact S.
      destruct (String.eqb_spec r n); [congruence|reflexivity].
Qed.

(* ---- finding elements *)
Lemma mem_In : forall n l, mem n l = true <-> In n l.
Proof. apply existsb_In. Qed.
Lemma hd_around : forall k els l, Forall (@NoDup nat) els -> 0 < k -> lists l (part_of k els) ->
  forall s e, length s = k -> NoDup s -> ascending s -> (hd_error (around l s) = Some e <-> nth_error l e = Some s).
Proof.
  intros k els l N K L s e Ls Ds As. pose proof (parts_simplices k els l N L) as SL.
  assert (Ns : s <> []) by (intros ->; cbn in Ls; lia).
  destruct (cells_at_around k l s SL Ns Ds) as [D H].
  assert (U : forall i, In i (around l s) <-> nth_error l i = Some s).
  { intros i. rewrite H. split.
    - intros (c & E & [r P]). assert (c = s); [|congruence]. destruct SL as [_ FL]. rewrite Forall_forall in FL.
      destruct (FL c (nth_error_In _ _ E)) as (Lc & Dc & Ac). pose proof (Permutation_length P) as Q. rewrite app_length in Q.
      destruct r; [|cbn in Q; lia]. rewrite app_nil_r in P. apply sorted_perm_eq; auto. apply Permutation_sym, P.
    - intros E. exists s. split; [exact E|apply face_refl]. }
  split.
  - intros E. apply U. destruct (around l s); [discriminate|]. cbn in E. injection E as ->. left. reflexivity.
  - intros E. apply U in E. destruct (around l s) as [|x [|y t]]; [destruct E| |].
    + destruct E as [->|[]]. reflexivity.
    + exfalso. assert (Ix : nth_error l x = Some s) by (apply U; left; reflexivity).
      assert (Iy : nth_error l y = Some s) by (apply U; right; left; reflexivity).
      assert (x = y).
      { apply (proj1 (NoDup_nth_error l) (proj1 L)); [apply nth_error_Some; congruence|congruence]. }
      subst. inversion D as [|? ? D1 _]; subst. apply D1. left. reflexivity.
Qed.
Lemma find_all_spec : forall nodes l ss r, find_all nodes l ss = Some r ->
  (forall s n, In s ss -> In n s -> In n nodes) /\
  forall e, In e r <-> exists s, In s ss /\ hd_error (around l s) = Some e.
Proof.
  intros nodes l. induction ss as [|s ss IH]; intros r H; cbn [find_all] in H.
  - injection H as <-. split; [intros s n []|]. intros e. split; [intros []|intros (s & [] & _)].
  - unfold find_element in H. destruct (forallb (fun n => mem n nodes) s) eqn:F; [|discriminate].
    rewrite forallb_forall in F.
    destruct (find_all nodes l ss) as [r'|]; [|destruct (hd_error _); discriminate].
    destruct (IH r' eq_refl) as [H1 H2]. split.
    + intros s' n [<-|I] J; [apply mem_In, F, J|apply (H1 s' n I J)].
    + intros e. destruct (hd_error (around l s)) as [x|] eqn:Q; injection H as <-.
      * cbn [In]. rewrite H2. split.
        -- intros [<-|(s' & I & E)]; [exists s; split; [left; reflexivity|exact Q]|exists s'; split; [right; exact I|exact E]].
        -- intros (s' & [<-|I] & E); [left; congruence|right; exists s'; auto].
      * rewrite H2. split.
        -- intros (s' & I & E). exists s'. split; [right; exact I|exact E].
        -- intros (s' & [<-|I] & E); [congruence|exists s'; auto].
Qed.
Lemma find_pairs_spec : forall n0 n1 l0 l1 ss r, find_pairs n0 n1 l0 l1 ss = Some r ->
  forall a b, In (a, b) r <-> exists s, In s ss /\ hd_error (around l0 s) = Some a /\ hd_error (around l1 s) = Some b.
Proof.
  intros n0 n1 l0 l1. induction ss as [|s ss IH]; intros r H a b; cbn [find_pairs] in H.
  - injection H as <-. split; [intros []|intros (s & [] & _)].
  - unfold find_element in H. destruct (forallb (fun n => mem n n0) s); [|discriminate]. destruct (forallb (fun n => mem n n1) s); [|destruct (hd_error _); discriminate].
    destruct (find_pairs n0 n1 l0 l1 ss) as [r'|]; [|destruct (hd_error (around l0 s)), (hd_error (around l1 s)); discriminate].
    specialize (IH r' eq_refl a b).
    destruct (hd_error (around l0 s)) as [x|] eqn:Q0, (hd_error (around l1 s)) as [y|] eqn:Q1; injection H as <-;
      [cbn [In]|..]; rewrite IH; split.
    + intros [E|(s' & I & E)]; [injection E as <- <-; exists s; split; [left; reflexivity|auto]|exists s'; split; [right; exact I|exact E]].
    + intros (s' & [<-|I] & E1 & E2); [left; congruence|right; exists s'; auto].
    + intros (s' & I & E). exists s'. split; [right; exact I|exact E].
    + intros (s' & [<-|I] & E1 & E2); [congruence|exists s'; auto].
    + intros (s' & I & E). exists s'. split; [right; exact I|exact E].
    + intros (s' & [<-|I] & E1 & E2); [congruence|exists s'; auto].
    + intros (s' & I & E). exists s'. split; [right; exact I|exact E].
    + intros (s' & [<-|I] & E1 & E2); [congruence|exists s'; auto].
Qed.

(* ---- contacts *)
Lemma part_NoDup : forall k els f, Forall (@NoDup nat) els -> part_of k els f -> NoDup f.
Proof. intros k els f N (_ & _ & s & I & F). rewrite Forall_forall in N. apply (NoDup_face f s); auto. Qed.
Lemma filter_sub : forall (p : nat -> bool) l, forallb p l = true -> filter p l = l.
Proof. intros p l H. apply filter_all. rewrite forallb_forall in H. exact H. Qed.
Lemma gmsh_contact_made : forall rs i o,
  (forall x, find (gi_region0 i) rs = Some x -> region_made (members names es (region_groups cs (gi_region0 i))) x) ->
  gmsh_contact g rs i = Some (true, o) ->
  exists c, o = Some c /\ contact_made rs (gi_region0 i) (members names es (gi_names i)) (members names es (region_groups cs (gi_region0 i))) c /\
    (g_dim g = 2 -> forall f, ~ part_of 3 (members names es (gi_names i)) f) /\
    (g_dim g = 1 -> forall f, ~ part_of 2 (members names es (gi_names i)) f).
Proof.
  intros rs i o RM H. unfold gmsh_contact in H. destruct (find (gi_region0 i) rs) as [x|] eqn:F; [|discriminate].
  specialize (RM x eq_refl).
  destruct (nodes_spec (gi_names i)) as [N1 N2]. set (pts := map _ (of_names Points _ _)) in *.
  pose proof (names_lists 2 (gi_names i) ltac:(lia)) as LE. cbn [kind] in LE. set (edges := of_names Lines _ _) in *.
  pose proof (names_lists 3 (gi_names i) ltac:(lia)) as LT. cbn [kind] in LT. set (tris := of_names Triangles _ _) in *.
  clearbody pts edges tris.
  destruct (nonempty (filter _ pts)) eqn:NE; [|discriminate].
  destruct (find_all (r_nodes x) (r_edges x) edges) as [ee|] eqn:FE; [|discriminate].
  destruct (find_all (r_nodes x) (r_tris x) tris) as [tt|] eqn:FT; [|discriminate].
  injection H as OK <-. apply andb_prop in OK. destruct OK as [WD OK]. rewrite (filter_sub _ _ OK) in *.
  eexists. split; [reflexivity|]. rewrite forallb_forall in OK.
  assert (EL : forall k l ss r, k = 2 \/ k = 3 -> lists ss (part_of k (members names es (gi_names i))) ->
     lists l (part_of k (members names es (region_groups cs (gi_region0 i)))) -> find_all (r_nodes x) l ss = Some r ->
     Forall (@NoDup nat) (members names es (gi_names i)) -> Forall (@NoDup nat) (members names es (region_groups cs (gi_region0 i))) ->
     forall e, In e r <-> exists f, nth_error l e = Some f /\ part_of k (members names es (gi_names i)) f).
  { intros k l ss r K [_ LS] LL FA D1 D2 e. apply find_all_spec in FA. destruct FA as [_ FA]. rewrite FA.
    assert (Q : forall f, part_of k (members names es (gi_names i)) f -> (hd_error (around l f) = Some e <-> nth_error l e = Some f)).
    { intros f P. apply (hd_around k _ l D2); [lia|exact LL|apply P|apply (part_NoDup k _ f D1 P)|apply P]. }
    split.
    - intros (f & I & E). apply LS in I. exists f. split; [apply Q; assumption|exact I].
    - intros (f & E & P). exists f. split; [apply LS, P|apply Q; assumption]. }
  split; [|split].
  - constructor; cbn [c_region c_nodes c_edges c_tris].
    + reflexivity. + exact N1. + exact N2.
    + intros E. rewrite E in NE. discriminate.
    + exists x. split; [exact F|]. split; [intros n I; apply mem_In, OK, I|]. intros D1 D2. split; intros e.
      * apply (EL 2 (r_edges x) edges ee); auto. apply (rm_edges _ _ RM).
      * apply (EL 3 (r_tris x) tris tt); auto. apply (rm_tris _ _ RM).
  - intros D f P. apply LT in P. unfold wrong_dimension in WD. rewrite D in WD. change (2 =? 2) with true in WD. cbn [andb orb] in WD.
    destruct tris; [destruct P|discriminate].
  - intros D f P. apply LE in P. unfold wrong_dimension in WD. rewrite D in WD. change (1 =? 2) with false in WD. change (1 =? 1) with true in WD.
    cbn [andb orb] in WD. destruct edges; [destruct P|discriminate].
Qed.
Lemma gmsh_contacts_made : forall rs l ok acc cc, sorted acc -> sorted l -> gmsh_contacts g rs l ok acc = Some (true, cc) ->
  ok = true /\ sorted cc /\ forall n, match find n l with
    | Some i => exists o, gmsh_contact g rs i = Some (true, o) /\ (forall c, o = Some c -> find n cc = Some c)
    | None => find n cc = find n acc end.
Proof.
  intros rs. induction l as [|[m i] l IH]; intros ok acc cc S L H; cbn [gmsh_contacts] in H.
  - injection H as -> ->. split; [reflexivity|]. split; [exact S|]. intros n. reflexivity.
  - assert (L' : sorted l) by (unfold sorted in *; cbn in L; inversion L; subst; assumption).
    assert (Q : find m l = None).
    { apply sorted_NoDup in L. cbn in L. inversion L as [|? ? L1 L2]; subst. destruct (find m l) eqn:Q; [|reflexivity].
      exfalso. apply L1. apply find_In in Q. apply in_map_iff. exists (m, g0). auto. }
    destruct (gmsh_contact g rs i) as [[b [c|]]|] eqn:E; [| |discriminate].
    + destruct (IH _ _ _ (put_sorted _ _ _ S) L' H) as (O & S' & F). apply andb_prop in O. destruct O as [-> ->].
      split; [reflexivity|]. split; [exact S'|]. intros n. cbn [find]. destruct (String.eqb_spec n m) as [->|N].
      * exists (Some c). split; [exact E|]. intros c' Ec. injection Ec as <-. specialize (F m). rewrite Q, find_put, String.eqb_refl in F by exact S. exact F.
      * specialize (F n). destruct (find n l); [exact F|]. rewrite F, find_put by exact S. destruct (String.eqb_spec n m); [congruence|reflexivity].
    + destruct (IH _ _ _ S L' H) as (O & S' & F). apply andb_prop in O. destruct O as [-> ->].
      split; [reflexivity|]. split; [exact S'|]. intros n. cbn [find]. destruct (String.eqb_spec n m) as [->|N].
      * exists None. split; [exact E|]. discriminate.
      * exact (F n).
Qed.

(* ---- interfaces *)
Lemma gmsh_interface_made : forall rs i o,
  (forall r x, find r rs = Some x -> region_made (members names es (region_groups cs r)) x) ->
  gmsh_interface g rs i = Some (true, o) ->
  exists c, o = Some c /\ interface_made rs (gi_region0 i) (gi_region1 i) (members names es (gi_names i))
     (members names es (region_groups cs (gi_region0 i))) (members names es (region_groups cs (gi_region1 i))) c /\
    (g_dim g = 2 -> forall f, ~ part_of 3 (members names es (gi_names i)) f) /\
    (g_dim g = 1 -> forall f, ~ part_of 2 (members names es (gi_names i)) f).
Proof.
  intros rs i o RM H. unfold gmsh_interface in H. destruct (find (gi_region0 i) rs) as [x|] eqn:F0; [|discriminate].
  destruct (find (gi_region1 i) rs) as [y|] eqn:F1; [|discriminate].
  pose proof (RM _ _ F0) as RM0. pose proof (RM _ _ F1) as RM1.
  destruct (nodes_spec (gi_names i)) as [N1 N2]. set (pts := map _ (of_names Points _ _)) in *.
  pose proof (names_lists 2 (gi_names i) ltac:(lia)) as LE. cbn [kind] in LE. set (edges := of_names Lines _ _) in *.
  pose proof (names_lists 3 (gi_names i) ltac:(lia)) as LT. cbn [kind] in LT. set (tris := of_names Triangles _ _) in *.
  clearbody pts edges tris. cbv zeta in H.
  destruct (nonempty (filter _ pts)) eqn:NE; [|discriminate].
  destruct (find_pairs (r_nodes x) (r_nodes y) (r_edges x) (r_edges y) edges) as [ee|] eqn:FE; [|discriminate].
  destruct (find_pairs (r_nodes x) (r_nodes y) (r_tris x) (r_tris y) tris) as [tt|] eqn:FT; [|discriminate].
  injection H as OK <-. apply andb_prop in OK. destruct OK as [WD OK]. rewrite (filter_sub _ _ OK) in *.
  eexists. split; [reflexivity|]. rewrite forallb_forall in OK.
  assert (EL : forall k l0 l1 ss r, k = 2 \/ k = 3 -> lists ss (part_of k (members names es (gi_names i))) ->
     lists l0 (part_of k (members names es (region_groups cs (gi_region0 i)))) ->
     lists l1 (part_of k (members names es (region_groups cs (gi_region1 i)))) -> find_pairs (r_nodes x) (r_nodes y) l0 l1 ss = Some r ->
     Forall (@NoDup nat) (members names es (gi_names i)) -> Forall (@NoDup nat) (members names es (region_groups cs (gi_region0 i))) ->
     Forall (@NoDup nat) (members names es (region_groups cs (gi_region1 i))) ->
     forall a b, In (a, b) r <-> exists f, nth_error l0 a = Some f /\ nth_error l1 b = Some f /\ part_of k (members names es (gi_names i)) f).
  { intros k l0 l1 ss r K [_ LS] LL0 LL1 FA D1 D2 D3 a b. rewrite (find_pairs_spec _ _ _ _ _ _ FA).
    assert (Q0 : forall f e, part_of k (members names es (gi_names i)) f -> (hd_error (around l0 f) = Some e <-> nth_error l0 e = Some f)).
    { intros f e P. apply (hd_around k _ l0 D2); [lia|exact LL0|apply P|apply (part_NoDup k _ f D1 P)|apply P]. }
    assert (Q1 : forall f e, part_of k (members names es (gi_names i)) f -> (hd_error (around l1 f) = Some e <-> nth_error l1 e = Some f)).
    { intros f e P. apply (hd_around k _ l1 D3); [lia|exact LL1|apply P|apply (part_NoDup k _ f D1 P)|apply P]. }
    split.
    - intros (f & I & E0 & E1). apply LS in I. exists f. split; [apply Q0; assumption|]. split; [apply Q1; assumption|exact I].
    - intros (f & E0 & E1 & P). exists f. split; [apply LS, P|]. split; [apply Q0; assumption|apply Q1; assumption]. }
  split; [|split].
  - constructor; cbn [i_region0 i_region1 i_nodes0 i_nodes1 i_edges i_tris].
    + reflexivity. + reflexivity. + reflexivity. + exact N1. + exact N2.
    + intros E. rewrite E in NE. discriminate.
    + exists x, y. split; [exact F0|]. split; [exact F1|]. split.
      { intros n I. specialize (OK n I). apply andb_prop in OK. destruct OK as [A B]. split; apply mem_In; assumption. }
      intros D1 D2 D3. split; intros a b.
      * apply (EL 2 (r_edges x) (r_edges y) edges ee); auto; [apply (rm_edges _ _ RM0)|apply (rm_edges _ _ RM1)].
      * apply (EL 3 (r_tris x) (r_tris y) tris tt); auto; [apply (rm_tris _ _ RM0)|apply (rm_tris _ _ RM1)].
  - intros D f P. apply LT in P. unfold wrong_dimension in WD. rewrite D in WD. change (2 =? 2) with true in WD. cbn [andb orb] in WD.
    destruct tris; [destruct P|discriminate].
  - intros D f P. apply LE in P. unfold wrong_dimension in WD. rewrite D in WD. change (1 =? 2) with false in WD. change (1 =? 1) with true in WD.
    cbn [andb orb] in WD. destruct edges; [destruct P|discriminate].
Qed.
Lemma gmsh_interfaces_made : forall rs l ok acc cc, sorted acc -> sorted l -> gmsh_interfaces g rs l ok acc = Some (true, cc) ->
  ok = true /\ sorted cc /\ forall n, match find n l with
    | Some i => exists o, gmsh_interface g rs i = Some (true, o) /\ (forall c, o = Some c -> find n cc = Some c)
    | None => find n cc = find n acc end.
Proof.
  intros rs. induction l as [|[m i] l IH]; intros ok acc cc S L H; cbn [gmsh_interfaces] in H.
  - injection H as -> ->. split; [reflexivity|]. split; [exact S|]. intros n. reflexivity.
  - assert (L' : sorted l) by (unfold sorted in *; cbn in L; inversion L; subst; assumption).
    assert (Q : find m l = None).
    { apply sorted_NoDup in L. cbn in L. inversion L as [|? ? L1 L2]; subst. destruct (find m l) eqn:Q; [|reflexivity].
      exfalso. apply L1. apply find_In in Q. apply in_map_iff. exists (m, g0). auto. }
    destruct (gmsh_interface g rs i) as [[b [c|]]|] eqn:E; [| |discriminate].
    + destruct (IH _ _ _ (put_sorted _ _ _ S) L' H) as (O & S' & F). apply andb_prop in O. destruct O as [-> ->].
      split; [reflexivity|]. split; [exact S'|]. intros n. cbn [find]. destruct (String.eqb_spec n m) as [->|N].
      * exists (Some c). split; [exact E|]. intros c' Ec. injection Ec as <-. specialize (F m). rewrite Q, find_put, String.eqb_refl in F by exact S. exact F.
      * specialize (F n). destruct (find n l); [exact F|]. rewrite F, find_put by exact S. destruct (String.eqb_spec n m); [congruence|reflexivity].
    + destruct (IH _ _ _ S L' H) as (O & S' & F). apply andb_prop in O. destruct O as [-> ->].
      split; [reflexivity|]. split; [exact S'|]. intros n. cbn [find]. destruct (String.eqb_spec n m) as [->|N].
      * exists None. split; [exact E|]. discriminate.
      * exact (F n).
Qed.
End Ready.

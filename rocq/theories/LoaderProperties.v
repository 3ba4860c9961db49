(* C41, C43, C49: imported meshes. *)
From Coq Require Import String List Bool Arith Lia Permutation Sorting.Sorted.
Import ListNotations.
Require Import Verif.StrMap Verif.Adjacency Verif.Loader Verif.LoaderSpec Verif.AdjacencySpec Verif.ImportSpec
  Verif.LoaderProofs Verif.LoaderGmsh Verif.AdjacencyProofs Verif.AdjacencyFinal Verif.AdjacencyProperties Verif.LoaderImport.
Local Arguments Nat.ltb : simpl never.
Local Arguments Nat.leb : simpl never.
Local Arguments Nat.eqb : simpl never.
Open Scope string_scope.
Open Scope list_scope.

(* ---------------------------------------------------------------- decomposition *)
(* Decomposing elements gives exactly the points, lines, triangles and tetrahedra they are made of,
   each once. *)
Theorem C41_decompose : forall es, Forall proper es ->
  let d := decompose (fold_left add_shape (map to_el es) no_shapes) in
  lists (Points d) (part_of 1 (map gv_nodes es)) /\ lists (Lines d) (part_of 2 (map gv_nodes es)) /\
  lists (Triangles d) (part_of 3 (map gv_nodes es)) /\ lists (Tetrahedra d) (part_of 4 (map gv_nodes es)).
Proof.
  intros es F d.
  assert (E : fold_left add_shape (map to_el es) no_shapes = shapes_of es no_shapes).
  { unfold shapes_of. generalize no_shapes. clear. induction es as [|e es IH]; intros s; cbn; auto. }
  unfold d. rewrite E. destruct (shapes_of_spec es no_shapes no_shapes_wf F) as [W H].
  destruct (dec_NoDup _ W) as (D1 & D2 & D3 & D4).
  assert (G : forall k, 1 <= k <= 4 -> forall f, In f (kind k (decompose (shapes_of es no_shapes))) <-> part_of k (map gv_nodes es) f).
  { intros k K f. rewrite (dec_kind _ k f W K), H. change (all_of no_shapes) with (@nil (list nat)). pose proof (part_of_nil k f). tauto. }
  split; [|split; [|split]].
  - split; [exact D1|]. apply (G 1). lia.
  - split; [exact D2|]. apply (G 2). lia.
  - split; [exact D3|]. apply (G 3). lia.
  - split; [exact D4|]. apply (G 4). lia.
Qed.
Print Assumptions C41_decompose.
Example decompose_tet :
  let d := decompose (fold_left add_shape (map to_el [{| gv_type := 3; gv_number := 0; gv_nodes := [4; 2; 9; 7] |}]) no_shapes) in
  Triangles d = [[2;4;7]; [2;4;9]; [2;7;9]; [4;7;9]] /\ Lines d = [[2;4]; [2;7]; [2;9]; [4;7]; [4;9]; [7;9]] /\
  Points d = [[2]; [4]; [7]; [9]].
Proof. vm_compute. split; [|split]; reflexivity. Qed.

(* ---------------------------------------------------------------- create_gmsh_mesh *)
(* What is accepted describes complete elements, in one way. *)
Lemma encode_inj : forall a b, Forall proper a -> Forall proper b -> encode a = encode b -> a = b.
Proof.
  induction a as [|x a IH]; intros [|y b] Fa Fb E; cbn in E; try discriminate; [reflexivity|].
  inversion Fa as [|? ? Pa Fa']; subst. inversion Fb as [|? ? Pb Fb']; subst.
  destruct x as [t n l], y as [t' n' l']. cbn in E. destruct Pa as [_ La], Pb as [_ Lb]. cbn in La, Lb.
  injection E as <- <- E.
  assert (Q : l = l' /\ encode a = encode b).
  { rewrite <- Lb in La. clear - E La. revert l' La E. induction l as [|u l IHl]; intros [|u' l'] La E; try discriminate; [auto|].
    cbn in La, E. injection E as <- E. destruct (IHl l' ltac:(lia) E) as [-> ?]. auto. }
  destruct Q as [<- Q]. f_equal. apply IH; auto.
Qed.
Theorem C41_arguments : forall n3 names elements g, load_args n3 names elements = Some (true, g) ->
  exists es, elements = encode es /\ Forall proper es /\ (forall es', Forall proper es' -> elements = encode es' -> es' = es) /\
    (exists n, n3 = 3 * n) /\
    (forall a b, In a es -> In b es -> gv_number a = gv_number b -> gv_type a = gv_type b) /\
    (forall k, k < length names -> exists e, In e es /\ gv_number e = k).
Proof.
  intros n3 names elements g H. destruct (load_args_spec _ _ _ _ H) as (es & E1 & E2 & E3 & _ & _ & E5 & E6 & _).
  exists es. split; [exact E1|]. split; [exact E2|]. split; [|split; [eexists; exact E3|auto]].
  intros es' P Q. apply encode_inj; auto. congruence.
Qed.
Print Assumptions C41_arguments.

Lemma parse_accepts : forall names gs fuel es dims, Forall proper gs -> Forall (fun e => gv_number e <= names) gs ->
  (forall a b, In a gs -> In b gs -> gv_number a = gv_number b -> gv_type a = gv_type b) ->
  (forall e d, In e gs -> assoc (gv_number e) dims = Some d -> d = gv_type e) -> length gs < fuel ->
  exists dims', parse fuel names (encode gs) es dims = Parsed (es ++ map to_el gs) dims' /\
    (forall n d, assoc n dims = Some d -> assoc n dims' = Some d) /\
    forall e, In e gs -> assoc (gv_number e) dims' = Some (gv_type e).
Proof.
  intros names. induction gs as [|e gs IH]; intros fuel es dims P M C D L; (destruct fuel as [|fuel]; [cbn in L; lia|]).
  - exists dims. cbn. rewrite app_nil_r. split; [reflexivity|]. split; [auto|intros e []].
  - inversion P as [|? ? [P1 P2] P']; subst. inversion M as [|? ? M1 M']; subst.
    set (R := encode (e :: gs)).
    assert (ER : R = gv_type e :: gv_number e :: gv_nodes e ++ encode gs) by reflexivity.
    assert (LR : length R = S (S (S (gv_type e) + length (encode gs)))) by (rewrite ER; cbn [length]; rewrite app_length, P2; reflexivity).
    assert (SK : skipn (S (gv_type e) + 2) R = encode gs).
    { rewrite ER, <- P2, Nat.add_comm. change (skipn (length (gv_nodes e)) (gv_nodes e ++ encode gs) = encode gs). rewrite skipn_app, Nat.sub_diag, skipn_all. reflexivity. }
    assert (FN : {| el_type := gv_type e; el_number := gv_number e; el_nodes := firstn (S (gv_type e)) (skipn 2 R) |} = to_el e).
    { rewrite ER, <- P2. change (skipn 2 (gv_type e :: gv_number e :: gv_nodes e ++ encode gs)) with (gv_nodes e ++ encode gs). rewrite firstn_app, Nat.sub_diag, firstn_all, app_nil_r. reflexivity. }
    assert (K : forall dm, (forall n d, assoc n dims = Some d -> assoc n dm = Some d) -> assoc (gv_number e) dm = Some (gv_type e) ->
      (forall n d, assoc n dm = Some d -> assoc n dims = Some d \/ n = gv_number e /\ d = gv_type e) ->
      exists dims', parse fuel names (encode gs) (es ++ [to_el e]) dm = Parsed (es ++ map to_el (e :: gs)) dims' /\
       (forall n d, assoc n dims = Some d -> assoc n dims' = Some d) /\
       forall x, In x (e :: gs) -> assoc (gv_number x) dims' = Some (gv_type x)).
    { intros dm D1 D2 D3. destruct (IH fuel (es ++ [to_el e]) dm) as (dims' & Q1 & Q2 & Q3); auto.
      - intros a b Ia Ib. apply C; right; assumption.
      - intros x d Ix A. destruct (D3 _ _ A) as [B|[B ->]]; [apply (D x d); [right; exact Ix|exact B]|].
        apply C; [left; reflexivity|right; exact Ix|auto].
      - cbn in L. lia.
      - exists dims'. rewrite Q1, <- app_assoc. split; [reflexivity|]. split; [auto|]. intros x [<-|I]; auto. }
    cbn [parse]. rewrite ER. cbv zeta. rewrite <- ER.
    destruct (Nat.ltb_spec (gv_type e) 4) as [T|T]; [|lia]. change (Nat.eqb (S (gv_type e)) 0) with false. cbv iota.
    destruct (Nat.ltb_spec (length R) (S (gv_type e) + 1)) as [X|X]; [lia|].
    replace (nth 1 R 0) with (gv_number e) by (rewrite ER; reflexivity).
    destruct (Nat.ltb_spec names (gv_number e)) as [Y|Y]; [lia|].
    destruct (Nat.ltb_spec (length R) (S (gv_type e) + 2)) as [Z|Z]; [lia|]. rewrite SK, FN.
    destruct (assoc (gv_number e) dims) as [d|] eqn:A.
    + assert (d = gv_type e) by (apply (D e d); [left; reflexivity|exact A]). subst d. rewrite Nat.eqb_refl. apply K; auto.
    + apply K.
      * intros n d B. cbn [assoc]. destruct (Nat.eqb_spec n (gv_number e)) as [->|]; [congruence|exact B].
      * cbn [assoc]. rewrite Nat.eqb_refl. reflexivity.
      * intros n d. cbn [assoc]. destruct (Nat.eqb_spec n (gv_number e)) as [->|]; [|auto]. intros B. injection B as <-. auto.
Qed.
Lemma add_names_accepts : forall names i dims acc, (forall k, i <= k < i + length names -> assoc k dims <> None) ->
  fst (add_names i names dims acc) = true.
Proof.
  induction names as [|s names IH]; intros i dims acc H; cbn [add_names]; [reflexivity|].
  destruct (assoc i dims) eqn:E; [|exfalso; apply (H i); [cbn; lia|exact E]].
  apply IH. intros k K. apply H. cbn. lia.
Qed.
(* Complete elements whose physical numbers are positions in the list of names, with one element type
   for each name and no name without elements, are accepted. *)
Theorem C41_arguments_accepted : forall n names es, Forall proper es -> Forall (fun e => gv_number e < length names) es ->
  (forall a b, In a es -> In b es -> gv_number a = gv_number b -> gv_type a = gv_type b) ->
  (forall k, k < length names -> exists e, In e es /\ gv_number e = k) ->
  exists g, load_args (3 * n) names (encode es) = Some (true, g).
Proof.
  intros n names es P M C U. unfold load_args. rewrite (Nat.mul_comm 3 n), Nat.div_mul by lia. rewrite (Nat.mul_comm 3 n), Nat.eqb_refl. cbn [negb].
  destruct (parse_accepts (length names) es (S (length (encode es))) [] []) as (dims & Q1 & _ & Q3); auto.
  - eapply Forall_impl; [|exact M]. cbn. lia.
  - intros e d _ A. discriminate.
  - apply le_n_S. clear. induction es as [|e es IH]; [cbn; lia|]. change (encode (e :: es)) with (gv_type e :: gv_number e :: gv_nodes e ++ encode es). cbn [length]. rewrite app_length. lia.
  - rewrite Q1. pose proof (add_names_accepts names 0 dims []) as A. destruct (add_names 0 names dims []) as [ok nm]. cbn [fst] in A.
    rewrite A; [eexists; reflexivity|]. intros k K. destruct (U k) as (e & I & <-); [lia|]. rewrite (Q3 e I). discriminate.
Qed.
Print Assumptions C41_arguments_accepted.
(* a square of two triangles with two contact lines *)
Definition sq_names := ["bulk"; "left"; "right"].
Definition sq := [{| gv_type := 2; gv_number := 0; gv_nodes := [0; 1; 2] |}; {| gv_type := 2; gv_number := 0; gv_nodes := [3; 2; 1] |};
                  {| gv_type := 1; gv_number := 1; gv_nodes := [2; 0] |}; {| gv_type := 1; gv_number := 2; gv_nodes := [1; 3] |}].
Example sq_accepted : exists g, load_args 12 sq_names (encode sq) = Some (true, g).
Proof.
  apply (C41_arguments_accepted 4).
  - repeat constructor.
  - repeat constructor.
  - intros a b [<-|[<-|[<-|[<-|[]]]]] [<-|[<-|[<-|[<-|[]]]]]; cbn; intros; congruence.
  - intros [|[|[|k]]] K; cbn in K; [| | |lia].
    + eexists; split; [left; reflexivity|reflexivity].
    + eexists; split; [right; right; left; reflexivity|reflexivity].
    + eexists; split; [right; right; right; left; reflexivity|reflexivity].
Qed.

(* An element list that ends within an element is not rejected if only the last node is missing: the
   list is read past its end (the check does not count the physical number). *)
Theorem C41_truncated_refuted : load_args 9 ["bulk"] [1; 0; 0; 1; 1; 0; 1] = None.
Proof. vm_compute. reflexivity. Qed.
Print Assumptions C41_truncated_refuted.
(* A physical number that is no position in the list of names is accepted if it is the length of the
   list; its elements are then in a group named by the number. *)
Theorem C41_number_refuted : exists g, load_args 9 ["bulk"] [1; 0; 0; 1; 1; 1; 1; 2] = Some (true, g) /\
  In {| el_type := 1; el_number := 1; el_nodes := [1; 2] |} (g_elements g) /\
  group_of g {| el_type := 1; el_number := 1; el_nodes := [1; 2] |} = "1".
Proof. eexists. split; [vm_compute; reflexivity|]. split; [right; left; reflexivity|vm_compute; reflexivity]. Qed.
Print Assumptions C41_number_refuted.

(* ---------------------------------------------------------------- finalize_mesh and create_device *)
(* load, describe, finalize, create *)
Definition import (n3 : nat) (names : list string) (elements : list nat) (cs : list described) (name : string) (devs : smap device)
    : option (ended (smap device)) :=
  match load_args n3 names elements with
  | Some (true, g) =>
      match gmsh_finalize (fold_left gcommand_run (map to_cmd cs) g) with
      | (true, g') => Some (gmsh_create g' name devs)
      | (false, _) => None
      end
  | _ => None
  end.

Lemma sorted_nil : forall V, sorted ([] : smap V).
Proof. intros V. constructor. Qed.
Lemma import_parts : forall n3 names elements cs name devs devs', sorted devs ->
  import n3 names elements cs name devs = Some (Done devs') ->
  exists es g rs cc ii, elements = encode es /\ Forall proper es /\ ready (n3 / 3) names es cs g /\
    find name devs = None /\ 1 <= g_dim g /\
    gmsh_regions g (g_regions g) [] = Done rs /\
    gmsh_contacts g rs (g_contacts g) true [] = Some (true, cc) /\
    gmsh_interfaces g rs (g_interfaces g) true [] = Some (true, ii) /\
    forall n, find n devs' = if String.eqb n name then Some {| d_dim := g_dim g; d_regions := rs; d_contacts := cc; d_interfaces := ii |} else find n devs.
Proof.
  intros n3 names elements cs name devs devs' SD H. unfold import in H.
  destruct (load_args n3 names elements) as [[[|] g0]|] eqn:L; try discriminate.
  destruct (gmsh_finalize _) as [[|] g] eqn:F; [|discriminate].
  destruct (finalize_ready _ _ _ _ _ _ L F) as (es & E1 & E2 & _ & RD & _). injection H as H.
  exists es, g. unfold gmsh_create in H. rewrite (rd_final _ _ _ _ _ RD) in H. cbn [negb orb] in H.
  unfold has in H. destruct (find name devs) eqn:FD; [discriminate|].
  destruct (Nat.eqb_spec (g_dim g) 0) as [|DZ]; [discriminate|].
  destruct (gmsh_regions g (g_regions g) []) as [rs|rs|rs|] eqn:ER; try discriminate.
  destruct (gmsh_contacts g rs (g_contacts g) true []) as [[ok cc]|] eqn:EC; [|discriminate].
  destruct (gmsh_interfaces g rs (g_interfaces g) ok []) as [[ok2 ii]|] eqn:EI; [|discriminate].
  destruct ok2; [|discriminate]. injection H as <-.
  destruct (gmsh_interfaces_made g _ _ _ _ _ (sorted_nil _) (rd_isorted _ _ _ _ _ RD) EI) as (-> & _).
  exists rs, cc, ii. split; [exact E1|]. split; [exact E2|]. split; [exact RD|]. split; [reflexivity|]. split; [lia|].
  split; [reflexivity|]. split; [exact EC|]. split; [exact EI|]. intros n. rewrite find_put by exact SD. reflexivity.
Qed.

(* The device has a region for every region that was described, made of the elements of its groups,
   and no other; other devices are untouched. *)
Theorem C41_import : forall n3 names elements cs name devs devs', sorted devs ->
  import n3 names elements cs name devs = Some (Done devs') ->
  exists es d, elements = encode es /\ Forall proper es /\ find name devs = None /\
    (forall n, find n devs' = if String.eqb n name then Some d else find n devs) /\
    d_dim d = max_type es /\ 1 <= d_dim d <= 3 /\
    forall r, match find r (d_regions d) with
              | Some x => region_groups cs r <> [] /\ region_made (members names es (region_groups cs r)) x
              | None => region_groups cs r = []
              end.
Proof.
  intros n3 names elements cs name devs devs' SD H.
  destruct (import_parts _ _ _ _ _ _ _ SD H) as (es & g & rs & cc & ii & E1 & E2 & RD & E3 & E4 & ER & EC & EI & ED).
  exists es. eexists. split; [exact E1|]. split; [exact E2|]. split; [exact E3|]. split; [exact ED|].
  cbn [d_dim d_regions]. split; [apply (rd_dim _ _ _ _ _ RD)|]. split; [split; [exact E4|apply (dim_le _ _ _ _ _ RD)]|].
  intros r. destruct (gmsh_regions_made g _ _ _ (sorted_nil _) (rd_rsorted _ _ _ _ _ RD) ER) as [_ F]. specialize (F r).
  pose proof (rd_regions _ _ _ _ _ RD r) as Q. destruct (find r (g_regions g)) as [i|].
  - destruct F as (x & -> & M). destruct Q as [Q1 Q2]. split; [exact Q2|]. rewrite <- Q1. apply (gmsh_region_made _ _ _ _ _ RD), M.
  - rewrite F. exact Q.
Qed.
Print Assumptions C41_import.

Lemma regions_of_import : forall nc names es cs g rs, ready nc names es cs g -> gmsh_regions g (g_regions g) [] = Done rs ->
  forall r x, find r rs = Some x -> region_made (members names es (region_groups cs r)) x.
Proof.
  intros nc names es cs g rs RD ER r x E. destruct (gmsh_regions_made g _ _ _ (sorted_nil _) (rd_rsorted _ _ _ _ _ RD) ER) as [_ F]. specialize (F r).
  pose proof (rd_regions _ _ _ _ _ RD r) as Q. destruct (find r (g_regions g)) as [i|].
  - destruct F as (x' & E' & M). rewrite E in E'. injection E' as <-. destruct Q as [<- _]. apply (gmsh_region_made _ _ _ _ _ RD), M.
  - rewrite F in E. discriminate.
Qed.
(* Every contact and interface that was described exists, on the regions given for it, with exactly
   the coordinates of its groups as nodes; an interface has the same nodes on both sides. *)
Theorem C43_import : forall n3 names elements cs name devs devs', sorted devs ->
  import n3 names elements cs name devs = Some (Done devs') ->
  exists es d, elements = encode es /\ Forall proper es /\ find name devs' = Some d /\
    (forall n, match find n (d_contacts d) with
       | Some c => contact_groups cs n <> [] /\
           let r := last (contact_regions cs n) "" in
           contact_made (d_regions d) r (members names es (contact_groups cs n)) (members names es (region_groups cs r)) c /\
           (d_dim d = 2 -> forall f, ~ part_of 3 (members names es (contact_groups cs n)) f) /\
           (d_dim d = 1 -> forall f, ~ part_of 2 (members names es (contact_groups cs n)) f)
       | None => contact_groups cs n = [] end) /\
    (forall n, match find n (d_interfaces d) with
       | Some i => interface_groups cs n <> [] /\
           let r := last (interface_regions cs n) ("", "") in
           interface_made (d_regions d) (fst r) (snd r) (members names es (interface_groups cs n))
             (members names es (region_groups cs (fst r))) (members names es (region_groups cs (snd r))) i /\
           (d_dim d = 2 -> forall f, ~ part_of 3 (members names es (interface_groups cs n)) f) /\
           (d_dim d = 1 -> forall f, ~ part_of 2 (members names es (interface_groups cs n)) f)
       | None => interface_groups cs n = [] end).
Proof.
  intros n3 names elements cs name devs devs' SD H.
  destruct (import_parts _ _ _ _ _ _ _ SD H) as (es & g & rs & cc & ii & E1 & E2 & RD & E3 & E4 & ER & EC & EI & ED).
  pose proof (regions_of_import _ _ _ _ _ _ RD ER) as RM.
  exists es. eexists. split; [exact E1|]. split; [exact E2|]. split; [rewrite ED, String.eqb_refl; reflexivity|].
  cbn [d_dim d_regions d_contacts d_interfaces]. split; intros n.
  - destruct (gmsh_contacts_made g _ _ _ _ _ (sorted_nil _) (rd_csorted _ _ _ _ _ RD) EC) as (_ & _ & F). specialize (F n).
    pose proof (rd_contacts _ _ _ _ _ RD n) as Q. destruct (find n (g_contacts g)) as [i|].
    + destruct F as (o & M & F). destruct Q as (Q1 & Q2 & Q3).
      destruct (gmsh_contact_made _ _ _ _ _ RD rs i o) as (c & -> & A & B & C); [intros x; apply RM|exact M|].
      rewrite (F c eq_refl). split; [exact Q3|]. cbv zeta. rewrite <- Q1, <- Q2. split; [exact A|]. split; [exact B|exact C].
    + rewrite F. exact Q.
  - destruct (gmsh_interfaces_made g _ _ _ _ _ (sorted_nil _) (rd_isorted _ _ _ _ _ RD) EI) as (_ & _ & F). specialize (F n).
    pose proof (rd_interfaces _ _ _ _ _ RD n) as Q. destruct (find n (g_interfaces g)) as [i|].
    + destruct F as (o & M & F). destruct Q as (Q1 & Q2 & Q3).
      destruct (gmsh_interface_made _ _ _ _ _ RD rs i o) as (c & -> & A & B & C); [exact RM|exact M|].
      rewrite (F c eq_refl). split; [exact Q3|]. cbv zeta. rewrite <- Q1, <- Q2. cbn [fst snd]. split; [exact A|]. split; [exact B|exact C].
    + rewrite F. exact Q.
Qed.
Print Assumptions C43_import.
Definition sq_cmds := [AddRegion "bulk" "si"; AddContact "left" "anode" "si"; AddContact "right" "cathode" "si"].
Example sq_imported : exists devs d x c, import 12 sq_names (encode sq) sq_cmds "dev" [] = Some (Done devs) /\
  find "dev" devs = Some d /\ find "si" (d_regions d) = Some x /\ find "anode" (d_contacts d) = Some c /\
  r_edges x = [[0;1]; [0;2]; [1;2]; [1;3]; [2;3]] /\ c_nodes c = [0; 2] /\ c_edges c = [1].
Proof.
  eexists _, _, _, _. split; [vm_compute; reflexivity|]. split; [vm_compute; reflexivity|]. split; [vm_compute; reflexivity|].
  split; [vm_compute; reflexivity|]. split; [|split]; reflexivity.
Qed.

(* A contact with a line that is not on its region: the missing node is reported, but then the edge
   of the line is looked up with the missing node and a null pointer is dereferenced. *)
Theorem C43_off_region_refuted : import 12 ["bulk"; "left"]
  (encode [{| gv_type := 2; gv_number := 0; gv_nodes := [0; 1; 2] |}; {| gv_type := 1; gv_number := 1; gv_nodes := [1; 3] |}])
  [AddRegion "bulk" "si"; AddContact "left" "anode" "si"] "dev" [] = Some Undefined.
Proof. vm_compute. reflexivity. Qed.
Print Assumptions C43_off_region_refuted.

(* Proofs about gmsh meshes. *)
From Coq Require Import String List Bool Arith Lia Permutation Sorting.Sorted DecimalString.
Import ListNotations.
Require Import Verif.StrMap Verif.Adjacency Verif.Loader Verif.LoaderSpec Verif.LoaderProofs.
Local Arguments Nat.ltb : simpl never.
Local Arguments Nat.leb : simpl never.
Local Arguments Nat.eqb : simpl never.

Definition to_el (e : given) : element := {| el_type := gv_type e; el_number := gv_number e; el_nodes := gv_nodes e |}.
Definition to_cmd (c : described) : gcommand :=
  match c with AddRegion p r => GRegion p r | AddContact p n r => GContact p n r | AddInterface p n a b => GInterface p n a b end.

(* ---- the shapes made of a list of elements *)
Definition shapes_of (es : list given) (s : shapes) : shapes := fold_left (fun s e => add_shape s (to_el e)) es s.
Lemma part_of_nil : forall k f, ~ part_of k [] f.
Proof. intros k f (_ & _ & s & [] & _). Qed.
Lemma part_of_perm1 : forall k s s' f, Permutation s s' -> (part_of k [s] f <-> part_of k [s'] f).
Proof.
  intros k s s' f P. unfold part_of. split; intros (L & A & t & [<-|[]] & F); (split; [exact L|split; [exact A|]]).
  - exists s'. split; [left; reflexivity|eapply face_perm_r; [exact P|exact F]].
  - exists s. split; [left; reflexivity|eapply face_perm_r; [apply Permutation_sym, P|exact F]].
Qed.
Lemma part_of_cons : forall k a l f, part_of k (a :: l) f <-> part_of k [a] f \/ part_of k l f.
Proof. intros. apply (part_of_app k [a] l f). Qed.
Lemma add_shape_spec : forall s e, wf_shapes s -> proper e ->
  wf_shapes (add_shape s (to_el e)) /\
  forall k f, part_of k (all_of (add_shape s (to_el e))) f <-> part_of k (all_of s) f \/ part_of k [gv_nodes e] f.
Proof.
  intros s [ty nu nd] W [T L]. cbn in T, L. unfold add_shape, to_el. cbn [el_type el_nodes gv_type gv_nodes gv_number].
  assert (WF : forall k (x : simplex), length x = k -> wf k (nsort x)).
  { intros k x Lx. split; [rewrite (Permutation_length (nsort_perm x)); exact Lx|apply nsort_sorted]. }
  destruct ty as [|[|[|[|ty]]]]; [..|lia]; destruct W as [W1 W2 W3 W4].
  - destruct nd as [|a [|]]; cbn in L; try discriminate. split.
    + constructor; cbn [Points Lines Triangles Tetrahedra]; auto. apply Forall_app. split; [exact W1|]. constructor; [|constructor]. split; [reflexivity|constructor; constructor].
    + intros k f. unfold all_of. cbn [Points Lines Triangles Tetrahedra]. rewrite !part_of_app. unfold mk_node, nth_. cbn [nth]. tauto.
  - destruct nd as [|a [|b [|]]]; cbn in L; try discriminate. unfold nth_. cbn [nth]. rewrite mk_edge_sort. split.
    + constructor; cbn [Points Lines Triangles Tetrahedra]; auto. apply Forall_app. split; [exact W2|]. constructor; [|constructor]. apply WF. reflexivity.
    + intros k f. unfold all_of. cbn [Points Lines Triangles Tetrahedra]. rewrite !part_of_app.
      rewrite (part_of_perm1 k _ _ f (nsort_perm [a; b])). tauto.
  - destruct nd as [|a [|b [|c [|]]]]; cbn in L; try discriminate. unfold nth_, mk_triangle. cbn [nth]. split.
    + constructor; cbn [Points Lines Triangles Tetrahedra]; auto. apply Forall_app. split; [exact W3|]. constructor; [|constructor]. apply WF. reflexivity.
    + intros k f. unfold all_of. cbn [Points Lines Triangles Tetrahedra]. rewrite !part_of_app.
      rewrite (part_of_perm1 k _ _ f (nsort_perm [a; b; c])). tauto.
  - destruct nd as [|a [|b [|c [|d [|]]]]]; cbn in L; try discriminate. unfold nth_, mk_tetrahedron. cbn [nth]. split.
    + constructor; cbn [Points Lines Triangles Tetrahedra]; auto. apply Forall_app. split; [exact W4|]. constructor; [|constructor]. apply WF. reflexivity.
    + intros k f. unfold all_of. cbn [Points Lines Triangles Tetrahedra]. rewrite !part_of_app.
      rewrite (part_of_perm1 k _ _ f (nsort_perm [a; b; c; d])). tauto.
Qed.
Lemma no_shapes_wf : wf_shapes no_shapes.
Proof. constructor; constructor. Qed.
Lemma shapes_of_spec : forall es s, wf_shapes s -> Forall proper es ->
  wf_shapes (shapes_of es s) /\
  forall k f, part_of k (all_of (shapes_of es s)) f <-> part_of k (all_of s) f \/ part_of k (map gv_nodes es) f.
Proof.
  induction es as [|e es IH]; intros s W F.
  - split; [exact W|]. intros k f. change (shapes_of [] s) with s. change (map gv_nodes []) with (@nil (list nat)).
    split; [intros H0; left; exact H0|intros [H0|H0]; [exact H0|destruct (part_of_nil k f H0)]].
  - inversion F as [|? ? Pe F1]; subst. destruct (add_shape_spec s e W Pe) as [W' H].
    destruct (IH (add_shape s (to_el e)) W' F1) as [W2 H2]. split; [exact W2|].
    intros k f. change (shapes_of (e :: es) s) with (shapes_of es (add_shape s (to_el e))). rewrite H2, H.
    cbn [map]. pose proof (part_of_cons k (gv_nodes e) (map gv_nodes es) f). split; intros; destruct H0; intuition.
Qed.
Lemma dim_add : forall s e, proper e -> shapes_dimension (add_shape s (to_el e)) = Nat.max (shapes_dimension s) (gv_type e).
Proof.
  intros s [ty nu nd] [T L]. cbn in *. unfold add_shape, to_el, shapes_dimension. cbn.
  assert (NE : forall (A : Type) (l : list A) x, nonempty (l ++ [x]) = true) by (intros A [|? l] x; reflexivity).
  destruct ty as [|[|[|[|ty]]]]; [..|lia]; cbn; rewrite ?NE;
    destruct (nonempty (Tetrahedra s)), (nonempty (Triangles s)), (nonempty (Lines s)); reflexivity.
Qed.
Lemma dim_shapes_of : forall es s, Forall proper es -> shapes_dimension (shapes_of es s) = Nat.max (shapes_dimension s) (max_type es).
Proof.
  induction es as [|e es IH]; intros s F; [change (shapes_of [] s) with s; rewrite Nat.max_0_r; reflexivity|]. inversion F; subst.
  change (shapes_of (e :: es) s) with (shapes_of es (add_shape s (to_el e))). rewrite IH, dim_add by assumption.
  unfold max_type. cbn [map]. change (list_max (gv_type e :: map gv_type es)) with (Nat.max (gv_type e) (list_max (map gv_type es))). lia.
Qed.

(* ---- collecting the elements of a group *)
Lemma find_map_snd : forall A B (h : A -> B) k (m : smap A), find k (map (fun p => (fst p, h (snd p))) m) = option_map h (find k m).
Proof.
  intros A B h k. induction m as [|[k' v] t IH]; cbn; [reflexivity|]. destruct (String.eqb k k'); [reflexivity|exact IH].
Qed.
Definition own (names : list string) (p : string) (es : list given) : list given :=
  filter (fun e => String.eqb (group names e) p) es.
Lemma collect_gen : forall grp names es m,
  (forall e, In e es -> grp (to_el e) = group names e) -> sorted m ->
  let m' := fold_left (fun m e => put (grp e) (add_shape (found no_shapes (find (grp e) m)) e) m) (map to_el es) m in
  sorted m' /\
  (forall p, found no_shapes (find p m') = shapes_of (own names p es) (found no_shapes (find p m))) /\
  (forall p, has p m' = has p m || nonempty (own names p es)).
Proof.
  intros grp names. induction es as [|e es IH]; intros m G S.
  - cbn. split; [exact S|]. split; [reflexivity|]. intros p. rewrite orb_false_r. reflexivity.
  - cbn [map fold_left]. pose proof (G e (or_introl eq_refl)) as E. rewrite E.
    set (m1 := put (group names e) (add_shape (found no_shapes (find (group names e) m)) (to_el e)) m).
    assert (S1 : sorted m1) by (apply put_sorted, S).
    destruct (IH m1) as (H1 & H2 & H3); [intros; apply G; right; assumption|exact S1|]. cbv zeta in H1, H2, H3 |- *.
    split; [exact H1|]. split.
    + intros p. rewrite H2. unfold m1. rewrite find_put by exact S. unfold own at 2. cbn [filter].
      rewrite (String.eqb_sym p). destruct (String.eqb_spec (group names e) p) as [<-|N].
      * reflexivity.
      * reflexivity.
    + intros p. rewrite H3. unfold m1, has. rewrite find_put by exact S. unfold own at 2. cbn [filter].
      rewrite (String.eqb_sym p). destruct (String.eqb_spec (group names e) p) as [<-|N].
      * cbn. rewrite orb_true_r. reflexivity.
      * reflexivity.
Qed.

(* ---- reading the arguments *)
Lemma skipn_encode : forall (n : nat) (rem : list nat), n + 2 <= length rem ->
  exists a b, rem = a :: b :: firstn n (skipn 2 rem) ++ skipn (n + 2) rem /\ length (firstn n (skipn 2 rem)) = n.
Proof.
  intros n rem L. destruct rem as [|a [|b r]]; cbn in L; try lia. exists a, b. rewrite Nat.add_comm. cbn. split.
  - f_equal. f_equal. symmetry. apply firstn_skipn.
  - rewrite firstn_length. lia.
Qed.
Lemma parse_spec : forall fuel names rem es dims es' dims',
  parse fuel names rem es dims = Parsed es' dims' ->
  exists gs, rem = encode gs /\ Forall proper gs /\ es' = es ++ map to_el gs /\
    Forall (fun e => gv_number e <= names) gs /\
    (forall n d, assoc n dims = Some d -> assoc n dims' = Some d) /\
    (forall e, In e gs -> assoc (gv_number e) dims' = Some (gv_type e)) /\
    (forall n d, assoc n dims' = Some d -> assoc n dims = Some d \/ exists e, In e gs /\ gv_number e = n).
Proof.
  induction fuel as [|fuel IH]; intros names rem es dims es' dims'; cbn [parse]; [discriminate|].
  destruct rem as [|ty rem].
  { intros H. injection H as <- <-. exists []. cbn. rewrite app_nil_r. repeat split; auto. intros e []. }
  set (R := ty :: rem). cbv zeta.
  destruct (Nat.ltb_spec ty 4) as [T|T]; [|cbn; discriminate].
  change (S ty =? 0) with false. cbv iota.
  destruct (Nat.ltb_spec (length R) (S ty + 1)) as [L|L]; [discriminate|].
  destruct (Nat.ltb_spec names (nth 1 R 0)) as [M|M]; [discriminate|].
  set (e := {| gv_type := ty; gv_number := nth 1 R 0; gv_nodes := firstn (S ty) (skipn 2 R) |}).
  assert (K : forall dm, (forall n d, assoc n dims = Some d -> assoc n dm = Some d) -> assoc (gv_number e) dm = Some ty ->
              (forall n d, assoc n dm = Some d -> assoc n dims = Some d \/ gv_number e = n) ->
    (if length R <? S ty + 2 then Overrun
     else parse fuel names (skipn (S ty + 2) R) (es ++ [to_el e]) dm) = Parsed es' dims' ->
    exists gs, R = encode gs /\ Forall proper gs /\ es' = es ++ map to_el gs /\
    Forall (fun e => gv_number e <= names) gs /\
    (forall n d, assoc n dims = Some d -> assoc n dims' = Some d) /\
    (forall e, In e gs -> assoc (gv_number e) dims' = Some (gv_type e)) /\
    (forall n d, assoc n dims' = Some d -> assoc n dims = Some d \/ exists e, In e gs /\ gv_number e = n)).
  { intros dm D1 D2 D3. destruct (Nat.ltb_spec (length R) (S ty + 2)) as [L2|L2]; [discriminate|]. intros H.
    destruct (IH _ _ _ _ _ _ H) as (gs & E1 & E2 & E3 & E4 & E5 & E6 & E7).
    destruct (skipn_encode (S ty) R L2) as (a & b & ER & LN).
    assert (Ha : a = ty) by (apply (f_equal (hd 0)) in ER; cbn in ER; auto).
    assert (Hb : b = nth 1 R 0) by (apply (f_equal (fun l => nth 1 l 0)) in ER; cbn in ER; symmetry; exact ER).
    exists (e :: gs). split; [|split; [|split; [|split; [|split; [|split]]]]].
    - rewrite ER, E1. subst a b. reflexivity.
    - constructor; [|exact E2]. split; [exact T|exact LN].
    - rewrite E3, <- app_assoc. reflexivity.
    - constructor; [exact M|exact E4].
    - intros n d Hn. apply E5, D1, Hn.
    - intros e' [<-|Ie]; [apply E5, D2|apply E6, Ie].
    - intros n d Hn. destruct (E7 n d Hn) as [Q|(e' & Ie & Q)].
      + destruct (D3 n d Q) as [Q'|Q']; [left; exact Q'|right; exists e; split; [left; reflexivity|exact Q']].
      + right. exists e'. split; [right; exact Ie|exact Q]. }
  change (nth 1 R 0) with (gv_number e).
  destruct (assoc (gv_number e) dims) as [d|] eqn:A.
  - destruct (Nat.eqb_spec d ty) as [->|]; [|discriminate]. intros H. apply (K dims); auto.
  - intros H. apply (K ((gv_number e, ty) :: dims)); auto.
    + intros n d Hn. cbn [assoc]. destruct (Nat.eqb_spec n (gv_number e)) as [->|]; [congruence|exact Hn].
    + cbn [assoc]. rewrite Nat.eqb_refl. reflexivity.
    + intros n d. cbn [assoc]. destruct (Nat.eqb_spec n (gv_number e)) as [->|]; auto.
Qed.
Lemma add_names_spec : forall names i dims acc nm,
  add_names i names dims acc = (true, nm) ->
  (forall d n, n < i \/ i + length names <= n -> physical_name nm d n = physical_name acc d n) /\
  (forall k s, nth_error names k = Some s -> exists d, assoc (i + k) dims = Some d /\
     forall d', physical_name nm d' (i + k) = if d' =? d then Some s else physical_name acc d' (i + k)).
Proof.
  induction names as [|s names IH]; intros i dims acc nm; cbn [add_names].
  - intros H. injection H as <-. split; [reflexivity|]. intros [|k] s; discriminate.
  - destruct (assoc i dims) as [d|] eqn:A; [|discriminate]. intros H.
    destruct (IH _ _ _ _ H) as [H1 H2]. split.
    + intros d' n B. rewrite H1 by (cbn in B; lia). cbn. destruct (Nat.eqb_spec n i); [cbn in B; lia|].
      rewrite andb_false_r. reflexivity.
    + intros [|k] s' E; cbn in E.
      * injection E as <-. exists d. rewrite Nat.add_0_r. split; [exact A|]. intros d'.
        rewrite H1 by lia. cbn. rewrite Nat.eqb_refl, andb_true_r. reflexivity.
      * destruct (H2 k s' E) as (d' & A' & Q). exists d'. replace (i + S k) with (S i + k) by lia. split; [exact A'|].
        intros d2. rewrite Q. cbn. destruct (Nat.eqb_spec (S (i + k)) i); [lia|]. rewrite andb_false_r. reflexivity.
Qed.

(* what create_gmsh_mesh leaves if it succeeds *)
Record loaded (nc : nat) (names : list string) (es : list given) (g : gmsh) : Prop := {
  ld_coords : g_coords g = seq 0 nc;
  ld_elements : g_elements g = map to_el es;
  ld_group : forall e, In e es -> group_of g (to_el e) = group names e;
  ld_shapes : g_shapes g = []; ld_dim : g_dim g = 0; ld_final : g_final g = false }.
Lemma load_args_spec : forall n3 names elements g, load_args n3 names elements = Some (true, g) ->
  exists es, elements = encode es /\ Forall proper es /\ n3 = 3 * (n3 / 3) /\ loaded (n3 / 3) names es g /\
    Forall (fun e => gv_number e <= length names) es /\
    (forall a b, In a es -> In b es -> gv_number a = gv_number b -> gv_type a = gv_type b) /\
    (forall k, k < length names -> exists e, In e es /\ gv_number e = k) /\
    g_regions g = [] /\ g_contacts g = [] /\ g_interfaces g = [].
Proof.
  intros n3 names elements g. unfold load_args.
  destruct (Nat.eqb_spec (3 * (n3 / 3)) n3) as [E3|]; cbn [negb]; [|discriminate].
  destruct (parse (S (length elements)) (length names) elements [] []) as [es0 dims|es0|] eqn:P; try discriminate.
  destruct (add_names 0 names dims []) as [ok nm] eqn:N. intros H. injection H as -> <-.
  destruct (parse_spec _ _ _ _ _ _ _ P) as (es & E1 & E2 & E4 & E5 & E6 & E7 & E8). cbn in E4. subst es0.
  destruct (add_names_spec _ _ _ _ _ N) as [N1 N2].
  exists es. split; [exact E1|]. split; [exact E2|]. split; [auto|]. split; [|split; [exact E5|split; [|split; [|auto]]]].
  - constructor; cbn [g_coords g_elements g_shapes g_dim g_final]; auto. intros e Ie.
    unfold group_of, group. cbn [g_names to_el el_type el_number].
    destruct (Nat.lt_ge_cases (gv_number e) (length names)) as [L|L].
    + destruct (nth_error names (gv_number e)) as [s|] eqn:S; [|apply nth_error_None in S; lia].
      destruct (N2 _ _ S) as (d & A & Q). cbn [plus] in A, Q. rewrite (E7 e Ie) in A. injection A as <-.
      rewrite Q, Nat.eqb_refl. cbn. symmetry. apply nth_error_nth. exact S.
    + rewrite N1 by (right; exact L). cbn. rewrite nth_overflow by exact L. reflexivity.
  - intros a b Ia Ib E. pose proof (E7 a Ia) as Qa. rewrite E, (E7 b Ib) in Qa. congruence.
  - intros k L. destruct (nth_error names k) as [s|] eqn:S; [|apply nth_error_None in S; lia].
    destruct (N2 _ _ S) as (d & A & _). cbn [plus] in A. destruct (E8 k d A) as [Q|Q]; [discriminate|exact Q].
Qed.

(* ---- the describing commands *)
Lemma run_keeps : forall cs g, let g' := fold_left gcommand_run (map to_cmd cs) g in
  g_coords g' = g_coords g /\ g_names g' = g_names g /\ g_elements g' = g_elements g /\ g_shapes g' = g_shapes g /\
  g_dim g' = g_dim g /\ g_final g' = g_final g.
Proof.
  induction cs as [|c cs IH]; intros g; cbn; [repeat split; reflexivity|].
  specialize (IH (gcommand_run g (to_cmd c))). cbv zeta in IH.
  destruct IH as (H1 & H2 & H3 & H4 & H5 & H6). rewrite H1, H2, H3, H4, H5, H6.
  destruct c; cbn; repeat split; reflexivity.
Qed.
(* the entry of a name: its groups and regions *)
Lemma regions_fold : forall cs g, sorted (g_regions g) ->
  let g' := fold_left gcommand_run (map to_cmd cs) g in
  sorted (g_regions g') /\
  forall r, find r (g_regions g') =
    fold_left (fun o c => match c with
       | AddRegion p r' => if String.eqb r r'
           then Some (let i := found no_info o in {| gi_names := gi_names i ++ [p]; gi_region0 := gi_region0 i; gi_region1 := gi_region1 i |}) else o
       | _ => o end) cs (find r (g_regions g)).
Proof.
  induction cs as [|c cs IH]; intros g S; cbn; [split; [exact S|reflexivity]|].
  destruct c as [p r0|p n r0|p n r0 r1]; cbn [to_cmd]; [|apply (IH (gcommand_run g (GContact p n r0)) S)|apply (IH (gcommand_run g (GInterface p n r0 r1)) S)].
  set (g1 := gcommand_run g (GRegion p r0)).
  assert (S1 : sorted (g_regions g1)) by (apply put_sorted, S).
  destruct (IH g1 S1) as [H1 H2]. cbv zeta in H1, H2. split; [exact H1|]. intros r. rewrite H2. f_equal.
  unfold g1. cbn. rewrite find_put by exact S. destruct (String.eqb_spec r r0) as [->|]; reflexivity.
Qed.
Lemma contacts_fold : forall cs g, sorted (g_contacts g) ->
  let g' := fold_left gcommand_run (map to_cmd cs) g in
  sorted (g_contacts g') /\
  forall r, find r (g_contacts g') =
    fold_left (fun o c => match c with
       | AddContact p r' q => if String.eqb r r'
           then Some (let i := found no_info o in {| gi_names := gi_names i ++ [p]; gi_region0 := q; gi_region1 := gi_region1 i |}) else o
       | _ => o end) cs (find r (g_contacts g)).
Proof.
  induction cs as [|c cs IH]; intros g S; cbn; [split; [exact S|reflexivity]|].
  destruct c as [p r0|p n r0|p n r0 r1]; cbn [to_cmd]; [apply (IH (gcommand_run g (GRegion p r0)) S)| |apply (IH (gcommand_run g (GInterface p n r0 r1)) S)].
  set (g1 := gcommand_run g (GContact p n r0)).
  assert (S1 : sorted (g_contacts g1)) by (apply put_sorted, S).
  destruct (IH g1 S1) as [H1 H2]. cbv zeta in H1, H2. split; [exact H1|]. intros r. rewrite H2. f_equal.
  unfold g1. cbn. rewrite find_put by exact S. destruct (String.eqb_spec r n) as [->|]; reflexivity.
Qed.
Lemma interfaces_fold : forall cs g, sorted (g_interfaces g) ->
  let g' := fold_left gcommand_run (map to_cmd cs) g in
  sorted (g_interfaces g') /\
  forall r, find r (g_interfaces g') =
    fold_left (fun o c => match c with
       | AddInterface p r' a b => if String.eqb r r'
           then Some (let i := found no_info o in {| gi_names := gi_names i ++ [p]; gi_region0 := a; gi_region1 := b |}) else o
       | _ => o end) cs (find r (g_interfaces g)).
Proof.
  induction cs as [|c cs IH]; intros g S; cbn; [split; [exact S|reflexivity]|].
  destruct c as [p r0|p n r0|p n r0 r1]; cbn [to_cmd]; [apply (IH (gcommand_run g (GRegion p r0)) S)|apply (IH (gcommand_run g (GContact p n r0)) S)|].
  set (g1 := gcommand_run g (GInterface p n r0 r1)).
  assert (S1 : sorted (g_interfaces g1)) by (apply put_sorted, S).
  destruct (IH g1 S1) as [H1 H2]. cbv zeta in H1, H2. split; [exact H1|]. intros r. rewrite H2. f_equal.
  unfold g1. cbn. rewrite find_put by exact S. destruct (String.eqb_spec r n) as [->|]; reflexivity.
Qed.
(* the fold written with the specification's lists *)
Lemma regions_merge : forall cs r o,
  match fold_left (fun o c => match c with
       | AddRegion p r' => if String.eqb r r'
           then Some (let i := found no_info o in {| gi_names := gi_names i ++ [p]; gi_region0 := gi_region0 i; gi_region1 := gi_region1 i |}) else o
       | _ => o end) cs o with
  | Some i => gi_names i = gi_names (found no_info o) ++ region_groups cs r /\ (o <> None \/ region_groups cs r <> [])
  | None => o = None /\ region_groups cs r = []
  end.
Proof.
  induction cs as [|c cs IH]; intros r o; cbn [fold_left].
  - destruct o; cbn; [rewrite app_nil_r; split; [reflexivity|left; discriminate]|auto].
  - destruct c as [p r0|p n r0|p n r0 r1]; cbn [region_groups flat_map]; try (apply IH).
    fold (region_groups cs r). destruct (String.eqb r r0); [|apply IH].
    specialize (IH r (Some (let i := found no_info o in {| gi_names := gi_names i ++ [p]; gi_region0 := gi_region0 i; gi_region1 := gi_region1 i |}))).
    destruct (fold_left _ cs _) as [i|].
    + destruct IH as [E _]. cbn in E. rewrite <- app_assoc in E. split; [exact E|right; discriminate].
    + destruct IH as [E _]. discriminate.
Qed.
Lemma contacts_merge : forall cs r o,
  match fold_left (fun o c => match c with
       | AddContact p r' q => if String.eqb r r'
           then Some (let i := found no_info o in {| gi_names := gi_names i ++ [p]; gi_region0 := q; gi_region1 := gi_region1 i |}) else o
       | _ => o end) cs o with
  | Some i => gi_names i = gi_names (found no_info o) ++ contact_groups cs r /\
              gi_region0 i = last (contact_regions cs r) (gi_region0 (found no_info o)) /\ (o <> None \/ contact_groups cs r <> [])
  | None => o = None /\ contact_groups cs r = []
  end.
Proof.
  induction cs as [|c cs IH]; intros r o; cbn [fold_left].
  - destruct o; cbn; [rewrite app_nil_r; split; [reflexivity|split; [reflexivity|left; discriminate]]|auto].
  - destruct c as [p r0|p n r0|p n r0 r1]; cbn [contact_groups contact_regions flat_map]; try (apply IH).
    fold (contact_groups cs r). fold (contact_regions cs r). destruct (String.eqb r n); [|apply IH].
    specialize (IH r (Some (let i := found no_info o in {| gi_names := gi_names i ++ [p]; gi_region0 := r0; gi_region1 := gi_region1 i |}))).
    destruct (fold_left _ cs _) as [i|].
    + destruct IH as [E [E2 _]]. cbn in E, E2. rewrite <- app_assoc in E. split; [exact E|]. split; [|right; discriminate].
      rewrite E2. cbn. destruct (contact_regions cs r) as [|x l] eqn:Q; [reflexivity|].
      clear. revert x. induction l as [|y l IHl]; intros x; cbn; [reflexivity|]. cbn in IHl. apply IHl.
    + destruct IH as [E _]. discriminate.
Qed.
Lemma interfaces_merge : forall cs r o,
  match fold_left (fun o c => match c with
       | AddInterface p r' a b => if String.eqb r r'
           then Some (let i := found no_info o in {| gi_names := gi_names i ++ [p]; gi_region0 := a; gi_region1 := b |}) else o
       | _ => o end) cs o with
  | Some i => gi_names i = gi_names (found no_info o) ++ interface_groups cs r /\
              (gi_region0 i, gi_region1 i) = last (interface_regions cs r) (gi_region0 (found no_info o), gi_region1 (found no_info o)) /\
              (o <> None \/ interface_groups cs r <> [])
  | None => o = None /\ interface_groups cs r = []
  end.
Proof.
  induction cs as [|c cs IH]; intros r o; cbn [fold_left].
  - destruct o; cbn; [rewrite app_nil_r; split; [reflexivity|split; [reflexivity|left; discriminate]]|auto].
  - destruct c as [p r0|p n r0|p n r0 r1]; cbn [interface_groups interface_regions flat_map]; try (apply IH).
    fold (interface_groups cs r). fold (interface_regions cs r). destruct (String.eqb r n); [|apply IH].
    specialize (IH r (Some (let i := found no_info o in {| gi_names := gi_names i ++ [p]; gi_region0 := r0; gi_region1 := r1 |}))).
    destruct (fold_left _ cs _) as [i|].
    + destruct IH as [E [E2 _]]. cbn in E, E2. rewrite <- app_assoc in E. split; [exact E|]. split; [|right; discriminate].
      rewrite E2. cbn. destruct (interface_regions cs r) as [|x l] eqn:Q; [reflexivity|].
      clear. revert x. induction l as [|y l IHl]; intros x; cbn; [reflexivity|]. cbn in IHl. apply IHl.
    + destruct IH as [E _]. discriminate.
Qed.

(* ---- the groups of a finalized mesh *)
Record ready (nc : nat) (names : list string) (es : list given) (cs : list described) (g : gmsh) : Prop := {
  rd_coords : g_coords g = seq 0 nc;
  rd_proper : Forall proper es;
  rd_shapes : forall p, found no_shapes (find p (g_shapes g)) = decompose (shapes_of (own names p es) no_shapes);
  rd_dim : g_dim g = max_type es;
  rd_final : g_final g = true;
  rd_rsorted : sorted (g_regions g); rd_csorted : sorted (g_contacts g); rd_isorted : sorted (g_interfaces g);
  rd_regions : forall r, match find r (g_regions g) with
                         | Some i => gi_names i = region_groups cs r /\ region_groups cs r <> []
                         | None => region_groups cs r = [] end;
  rd_contacts : forall r, match find r (g_contacts g) with
                         | Some i => gi_names i = contact_groups cs r /\ gi_region0 i = last (contact_regions cs r) EmptyString /\ contact_groups cs r <> []
                         | None => contact_groups cs r = [] end;
  rd_interfaces : forall r, match find r (g_interfaces g) with
                         | Some i => gi_names i = interface_groups cs r /\
                                     (gi_region0 i, gi_region1 i) = last (interface_regions cs r) (EmptyString, EmptyString) /\ interface_groups cs r <> []
                         | None => interface_groups cs r = [] end }.

Lemma own_proper : forall names p es, Forall proper es -> Forall proper (own names p es).
Proof. intros. apply Forall_forall. intros e I. apply filter_In in I. rewrite Forall_forall in H. apply H, I. Qed.
Lemma list_max_In : forall l, l <> [] -> In (list_max l) l.
Proof.
  induction l as [|x l IH]; [congruence|]. intros _. destruct l as [|y l]; [left; cbn; lia|].
  change (list_max (x :: y :: l)) with (Nat.max x (list_max (y :: l))). set (m := list_max (y :: l)) in *.
  destruct (Nat.max_spec x m) as [[_ E]|[_ E]]; rewrite E; [right; apply IH; discriminate|left; reflexivity].
Qed.
Lemma list_max_le' : forall l x, In x l -> x <= list_max l.
Proof.
  intros l x I. pose proof (proj1 (list_max_le l (list_max l)) (Nat.le_refl _)) as F. rewrite Forall_forall in F. apply F, I.
Qed.
Lemma fold_dim : forall (gr : smap shapes) d,
  forallb (fun p => number_of_types (snd p) =? 1) gr = true ->
  fold_left (fun d p => if number_of_types (snd p) =? 1
                        then (if d <? shapes_dimension (snd p) then shapes_dimension (snd p) else d) else d) gr d =
  Nat.max d (list_max (map (fun p => shapes_dimension (snd p)) gr)).
Proof.
  induction gr as [|p gr IH]; intros d H; cbn [fold_left map]; [change (list_max []) with 0; rewrite Nat.max_0_r; reflexivity|].
  cbn [forallb] in H. apply andb_prop in H. destruct H as [H1 H2].
  rewrite H1, IH by exact H2.
  change (list_max (shapes_dimension (snd p) :: map (fun p0 => shapes_dimension (snd p0)) gr))
    with (Nat.max (shapes_dimension (snd p)) (list_max (map (fun p0 => shapes_dimension (snd p0)) gr))).
  destruct (Nat.ltb_spec d (shapes_dimension (snd p))); lia.
Qed.

Lemma finalize_ready : forall n3 names elements g0 cs g,
  load_args n3 names elements = Some (true, g0) ->
  gmsh_finalize (fold_left gcommand_run (map to_cmd cs) g0) = (true, g) ->
  exists es, elements = encode es /\ Forall proper es /\ n3 = 3 * (n3 / 3) /\ ready (n3 / 3) names es cs g /\
    Forall (fun e => gv_number e <= length names) es /\
    (forall a b, In a es -> In b es -> gv_number a = gv_number b -> gv_type a = gv_type b) /\
    (forall k, k < length names -> exists e, In e es /\ gv_number e = k).
Proof.
  intros n3 names elements g0 cs g LD FN.
  destruct (load_args_spec _ _ _ _ LD) as (es & E1 & E2 & E3 & L & E4 & E5 & E6 & R0 & C0 & I0).
  exists es. split; [exact E1|]. split; [exact E2|]. split; [exact E3|]. split; [|auto].
  set (g1 := fold_left gcommand_run (map to_cmd cs) g0) in *.
  destruct (run_keeps cs g0) as (K1 & K2 & K3 & K4 & K5 & K6). cbv zeta in *. fold g1 in K1, K2, K3, K4, K5, K6.
  unfold gmsh_finalize in FN. rewrite K6, (ld_final _ _ _ _ L) in FN.
  assert (GR : forall e, In e es -> group_of g1 (to_el e) = group names e).
  { intros e Ie. rewrite <- (ld_group _ _ _ _ L e Ie). unfold group_of. rewrite K2. reflexivity. }
  assert (CL : collect g1 = fold_left (fun m e => put (group_of g1 e) (add_shape (found no_shapes (find (group_of g1 e) m)) e) m) (map to_el es) []).
  { unfold collect. rewrite K3, K4, (ld_elements _ _ _ _ L), (ld_shapes _ _ _ _ L). reflexivity. }
  destruct (collect_gen (group_of g1) names es [] GR) as (S1 & S2 & S3); [constructor|].
  rewrite <- CL in S1, S2, S3. cbv zeta in S1, S2, S3. set (gr := collect g1) in *.
  assert (OK : forallb (fun p => number_of_types (snd p) =? 1) gr = true) by (apply (f_equal fst) in FN; exact FN).
  apply (f_equal snd) in FN. cbn [snd] in FN. rewrite OK in FN. subst g.
  constructor; cbn [g_coords g_shapes g_dim g_final g_regions g_contacts g_interfaces].
  - rewrite K1. apply (ld_coords _ _ _ _ L).
  - exact E2.
  - intros p. rewrite find_map_snd. specialize (S2 p). specialize (S3 p). unfold has in S3.
    destruct (find p gr) as [s|]; cbn in S2, S3 |- *.
    + rewrite S2. reflexivity.
    + destruct (own names p es); [reflexivity|discriminate].
  - rewrite fold_dim by exact OK. rewrite K5, (ld_dim _ _ _ _ L). cbn [Nat.max].
    (* maximum over the groups = maximum over the elements *)
    assert (SH : forall p s, In (p, s) gr -> s = shapes_of (own names p es) no_shapes).
    { intros p s I. apply In_find in I; [|exact S1]. specialize (S2 p). rewrite I in S2. exact S2. }
    apply Nat.le_antisymm.
    + apply list_max_le. apply Forall_forall. intros d I. apply in_map_iff in I. destruct I as ([p s] & <- & I). cbn.
      rewrite (SH p s I), dim_shapes_of by (apply own_proper, E2). cbn [shapes_dimension nonempty Tetrahedra Triangles Lines no_shapes].
      apply Nat.max_lub; [lia|]. unfold max_type at 1. apply list_max_le. apply Forall_forall. intros d I2.
      apply in_map_iff in I2. destruct I2 as (e & <- & Ie). apply filter_In in Ie. apply list_max_le', in_map, Ie.
    + unfold max_type at 1. apply list_max_le. apply Forall_forall. intros d I. apply in_map_iff in I. destruct I as (e & <- & Ie).
      pose (p := group names e). assert (O : In e (own names p es)) by (apply filter_In; split; [exact Ie|apply String.eqb_refl]).
      assert (H : has p gr = true). { rewrite S3. destruct (own names p es); [destruct O|reflexivity]. }
      unfold has in H. destruct (find p gr) as [s|] eqn:F; [|discriminate]. apply find_In in F.
      apply Nat.le_trans with (shapes_dimension s).
      * rewrite (SH p s F), dim_shapes_of by (apply own_proper, E2). cbn. apply list_max_le', in_map, O.
      * apply list_max_le'. apply in_map_iff. exists (p, s). auto.
  - reflexivity.
  - apply (regions_fold cs g0). rewrite R0. constructor.
  - apply (contacts_fold cs g0). rewrite C0. constructor.
  - apply (interfaces_fold cs g0). rewrite I0. constructor.
  - intros r. destruct (regions_fold cs g0) as [_ H]; [rewrite R0; constructor|]. cbv zeta in H. unfold g1. rewrite H, R0. cbn [find].
    pose proof (regions_merge cs r None) as M. destruct (fold_left _ cs None) as [i|]; [|apply M].
    destruct M as [M1 [M2|M2]]; [congruence|]. split; [exact M1|exact M2].
  - intros r. destruct (contacts_fold cs g0) as [_ H]; [rewrite C0; constructor|]. cbv zeta in H. unfold g1. rewrite H, C0. cbn [find].
    pose proof (contacts_merge cs r None) as M. destruct (fold_left _ cs None) as [i|]; [|apply M].
    destruct M as [M1 [M3 [M2|M2]]]; [congruence|]. split; [exact M1|split; [exact M3|exact M2]].
  - intros r. destruct (interfaces_fold cs g0) as [_ H]; [rewrite I0; constructor|]. cbv zeta in H. unfold g1. rewrite H, I0. cbn [find].
    pose proof (interfaces_merge cs r None) as M. destruct (fold_left _ cs None) as [i|]; [|apply M].
    destruct M as [M1 [M3 [M2|M2]]]; [congruence|]. split; [exact M1|split; [exact M3|exact M2]].
Qed.

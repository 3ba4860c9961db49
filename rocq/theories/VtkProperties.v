(* C67: VTK files hold the mesh and its models. *)
From Coq Require Import Ascii String List Bool Arith ZArith Lia.
From Flocq Require Import IEEE754.Bits.
Import ListNotations.
From Coq Require Logic.FinFun.
Require Verif.StrMap.
Require Import Verif.VtkArray Verif.VtkArraySpec Verif.VtkArrayProofs Verif.Vtk Verif.VtkSpec Verif.VtkProofs.
Local Arguments Nat.ltb : simpl never.
Local Arguments Nat.leb : simpl never.
Local Arguments Nat.eqb : simpl never.
Local Arguments zlib_base64 : simpl never.
Local Arguments read_doubles : simpl never.
Open Scope string_scope.
Open Scope list_scope.
Open Scope nat_scope.

Lemma small : forall compress decompress, zlib compress decompress -> forall y, (Z.of_nat (length y) <= 4096)%Z -> (Z.of_nat (length (compress (flat_map double_bytes y))) < 2 ^ 32)%Z.
Proof. intros c d Z y H. apply (z_size c d Z). rewrite (flat_length _ _ 8) by (intros; apply memory_length). lia. Qed.
(* ---- arrays ---- *)
(* base64: every text of bytes can be decoded (RFC 4648) *)
Theorem C67_base64 : forall l, Forall (fun b => (0 <= b < 256)%Z) l -> decode (encode_base64 l) = Some l.
Proof. exact decode_encode. Qed.
Print Assumptions C67_base64.
(* An array of doubles is read as it was written, bit by bit, unless its length is a multiple of 4096. *)
Theorem C67_array : forall compress decompress x, zlib compress decompress -> (length x = 0 \/ length x mod 4096 <> 0) -> (Z.of_nat (length x) < 2 ^ 43)%Z ->
  read_doubles decompress (zlib_base64 compress x) = Some x.
Proof. intros c d x Z H L. apply (array_read c d (z_back c d Z) (z_bytes c d Z)); [exact H|exact (small c d Z)|exact L]. Qed.
Print Assumptions C67_array.
(* If it is, the array cannot be read: its last block was written empty. *)
Theorem C67_array_refuted : forall compress decompress x, zlib compress decompress -> length x <> 0 -> length x mod 4096 = 0 -> (Z.of_nat (length x) < 2 ^ 43)%Z ->
  read_doubles decompress (zlib_base64 compress x) = None.
Proof. intros c d x Z N H L. apply (array_lost c d (z_back c d Z) (z_bytes c d Z)); [exact N|exact H|exact (small c d Z)|exact L]. Qed.
Print Assumptions C67_array_refuted.

(* ---- regions ---- *)
(* The points are the nodes, the cells the edges, triangles or tetrahedra with their nodes, each in order, and the arrays are the values of
   the models that are displayed: first scalars at nodes, then scalars of edges at nodes, then vectors of edges at nodes; and those of
   elements. include_test is asked except for vectors and tetrahedra.
   partial: the number of nodes and elements must not be a multiple of 4096; and see C67_include_refuted. *)
Theorem C67_region_partial : forall compress decompress r include, zlib compress decompress -> proper r ->
  length (r_nodes r) = 0 \/ length (r_nodes r) mod 4096 <> 0 -> length (cells_of r) = 0 \/ length (cells_of r) mod 4096 <> 0 ->
  (Z.of_nat (length (r_nodes r)) < 2 ^ 41)%Z -> (Z.of_nat (length (cells_of r)) < 2 ^ 41)%Z ->
  exists g, read_vtu decompress (write_vtu compress r include) = Some g /\
    g_points g = r_nodes r /\ g_cells g = cells_of r /\
    g_point_data g =
      map (fun '(n, (_, v)) => (n, 1, v)) (filter (fun '(n, (d, _)) => include n && scalar d) (r_node_models r)) ++
      map (fun '(n, e) => (n, 1, em_scalars e)) (filter (fun '(n, e) => include n && scalar (em_display e)) (r_edge_models r)) ++
      map (fun '(n, e) => (n, 3, concat (map (fun '(x, y, z) => [x; y; z]) (em_vectors e)))) (filter (fun '(_, e) => vector (em_display e)) (r_edge_models r)) /\
    g_cell_data g =
      (if r_dim r =? 1 then [] else
       map (fun '(n, (_, v)) => (n, 1, v)) (filter (fun '(n, (d, _)) => include n && scalar d) (r_tri_models r)) ++
       map (fun '(n, (_, v)) => (n, 1, v)) (filter (fun '(_, (d, _)) => scalar d) (r_tet_models r))).
Proof.
  intros c d r include Z P HN HC LN LC. eexists. split.
  - apply (region_read c d (z_back c d Z) (z_bytes c d Z) (small c d Z)); [exact P| |exact LN|].
    + split; [exact HN|]. change (2 ^ 41)%Z with 2199023255552%Z in LN. change (2 ^ 43)%Z with 8796093022208%Z. lia.
    + intros _ _. split; [exact HC|]. change (2 ^ 41)%Z with 2199023255552%Z in LC. change (2 ^ 43)%Z with 8796093022208%Z. lia.
  - cbn [g_points g_cells g_point_data g_cell_data]. split; [reflexivity|]. split; [reflexivity|].
    assert (PK : forall (X Y : Type) (t t' : X -> bool) (f f' : X -> Y) l, (forall x, t x = t' x) -> (forall x, f x = f' x) -> pick X Y t f l = map f' (filter t' l)).
    { intros X Y t t' f f' l H1 H2. unfold pick. rewrite (filter_ext t t' H1). apply map_ext, H2. }
    split.
    + unfold point_arrays, scalars_of. f_equal; [|f_equal]; apply PK; try (intros [n [? ?]]; reflexivity); try (intros [n ?]; reflexivity).
      intros [n e]. cbn [fst snd]. f_equal. unfold coordinates. rewrite flat_map_concat_map. f_equal. apply map_ext. intros [[? ?] ?]. reflexivity.
    + unfold cell_arrays, scalars_of. destruct (r_dim r =? 1); [reflexivity|]. f_equal; apply PK; intros [n [? ?]]; reflexivity.
Qed.
Print Assumptions C67_region_partial.
(* The file of a region whose number of nodes is a multiple of 4096 cannot be read. *)
Theorem C67_region_refuted : forall compress decompress r include, zlib compress decompress -> 1 <= r_dim r <= 3 ->
  length (r_nodes r) <> 0 -> length (r_nodes r) mod 4096 = 0 -> (Z.of_nat (length (r_nodes r)) < 2 ^ 41)%Z ->
  read_vtu decompress (write_vtu compress r include) = None.
Proof.
  intros c d r include Z D N H L. unfold read_vtu, write_vtu.
  assert (P : parse ([Open "VTKFile" [("type", "UnstructuredGrid"); ("version", "0.1"); ("byte_order", "LittleEndian"); ("compressor", "vtkZLibDataCompressor")]; Open "UnstructuredGrid" []] ++
     write_region c r include ++ [Close "UnstructuredGrid"; Close "VTKFile"]) [] =
     Some (Elem "VTKFile" [("type", "UnstructuredGrid"); ("version", "0.1"); ("byte_order", "LittleEndian"); ("compressor", "vtkZLibDataCompressor")] [Elem "UnstructuredGrid" [] [piece_tree c r include] []] [])).
  { pose proof (parse_elem "VTKFile" [("type", "UnstructuredGrid"); ("version", "0.1"); ("byte_order", "LittleEndian"); ("compressor", "vtkZLibDataCompressor")] _ _ (writes_elem "UnstructuredGrid" [] _ _ (region_tree c r include D))) as T.
    cbn [app] in T |- *. rewrite <- app_assoc in T. exact T. }
  rewrite P. cbn [bind]. match goal with |- bind (check ?b) _ = _ => change (check b) with (Some tt) end. cbn [bind].
  match goal with |- bind ?b _ = _ => change b with (Some (Elem "UnstructuredGrid" [] [piece_tree c r include] [])) end. cbn [bind].
  match goal with |- bind ?b _ = _ => change b with (Some (piece_tree c r include)) end. cbn [bind].
  change (attribute "NumberOfPoints" (piece_tree c r include)) with (Some (dec (length (r_nodes r)))). change (attribute "NumberOfCells" (piece_tree c r include)) with (Some (dec (length (cells_of r)))). cbn [bind]. rewrite !read_dec. cbn [bind].
  match goal with |- bind ?b _ = _ => change b with (Some (Elem "Points" [] [data_tree c (coordinates (r_nodes r)) "" 3] [])) end. cbn [bind].
  match goal with |- bind ?b _ = _ => change b with (Some (data_tree c (coordinates (r_nodes r)) "" 3)) end. cbn [bind].
  assert (R : read_data d (data_tree c (coordinates (r_nodes r)) "" 3) = None).
  { unfold read_data, data_tree. cbn [tag_of text_of]. rewrite strip by apply zlib_blank. rewrite (C67_array_refuted c d _ Z).
    - reflexivity.
    - rewrite coordinates_length. lia.
    - rewrite coordinates_length. apply Nat.mod_divide; [discriminate|]. apply Nat.mod_divide in H; [|discriminate]. apply Nat.divide_mul_r. exact H.
    - rewrite coordinates_length. change (2 ^ 41)%Z with 2199023255552%Z in L. change (2 ^ 43)%Z with 8796093022208%Z. lia. }
  rewrite R. reflexivity.
Qed.
Print Assumptions C67_region_refuted.

(* ---- an example ---- *)
Definition zlib_stored : zlib (fun l => map (fun b => b mod 256)%Z l) Some.
Proof.
  split.
  - intros l F. f_equal. rewrite <- (map_id l) at 2. apply map_ext_in. intros b I. rewrite Forall_forall in F. apply Z.mod_small, F, I.
  - intros l. apply Forall_map. apply Forall_forall. intros b _. apply Z.mod_pos_bound. reflexivity.
  - intros l H. rewrite map_length. eapply Z.le_lt_trans; [exact H|reflexivity].
Qed.
Definition one : binary64 := b64_of_bits 4607182418800017408.
Definition none : binary64 := b64_of_bits 0.
Definition shown : region :=
  {| r_dim := 2; r_nodes := [(none, none, none); (one, none, none); (none, one, none); (one, one, none)]; r_edges := [(0, 1); (0, 2); (1, 2); (1, 3); (2, 3)];
     r_tris := [(0, 1, 2); (1, 2, 3)]; r_tets := [];
     r_node_models := [("p", (Scalar, [one; none; one; none])); ("q", (NoDisplay, [one; one; one; one]))];
     r_edge_models := [("E", {| em_display := Vector; em_scalars := [none; none; none; none]; em_vectors := [(one, none, none); (one, none, none); (none, one, none); (one, one, none)] |})];
     r_tri_models := [("t", (Scalar, [one; none]))]; r_tet_models := [] |}.
Example C67_region_case : proper shown /\ (length (r_nodes shown) = 0 \/ length (r_nodes shown) mod 4096 <> 0) /\ (length (cells_of shown) = 0 \/ length (cells_of shown) mod 4096 <> 0).
Proof.
  split; [|split; right; vm_compute; discriminate]. constructor; try (cbn; lia); cbn [cells_of shown r_dim r_nodes r_edges r_tris r_tets r_node_models r_edge_models r_tri_models r_tet_models map length];
    repeat (constructor; cbn [fst snd length em_scalars em_vectors]); try lia; try discriminate; try reflexivity.
Qed.
(* include_test does not keep vectors out of the file. *)
Theorem C67_include_refuted : forall compress decompress, zlib compress decompress ->
  exists r include n g v, proper r /\ include n = false /\ read_vtu decompress (write_vtu compress r include) = Some g /\ In (n, 3, v) (g_point_data g).
Proof.
  intros c d Z. destruct C67_region_case as (P & H1 & H2). destruct (C67_region_partial c d shown (fun _ => false) Z P H1 H2) as (g & R & _ & _ & D & _); [reflexivity|reflexivity|].
  exists shown, (fun _ => false), "E", g. eexists. split; [exact P|]. split; [reflexivity|]. split; [exact R|]. rewrite D. cbn. left. reflexivity.
Qed.
Print Assumptions C67_include_refuted.

(* ---- files ---- *)
Section Files.
Variable compress : list Z -> list Z.
Variable can_open : string -> bool.
Lemma append_cancel : forall a b c : string, (a ++ b = a ++ c)%string -> b = c.
Proof. induction a as [|x a IH]; intros b c H; [exact H|]. cbn in H. injection H as H. apply IH, H. Qed.
Lemma append_cancel_r : forall a b c : string, (a ++ c = b ++ c)%string -> a = b.
Proof.
  assert (L : forall a c : string, list_ascii_of_string (a ++ c) = (list_ascii_of_string a ++ list_ascii_of_string c)%list) by (induction a as [|x a IH]; intros c; [reflexivity|]; cbn; rewrite IH; reflexivity).
  intros a b c H. apply (f_equal list_ascii_of_string) in H. rewrite !L in H. apply app_inv_tail in H. rewrite <- (string_of_list_ascii_of_string a), H. apply string_of_list_ascii_of_string.
Qed.
Lemma append_assoc : forall a b c : string, ((a ++ b) ++ c = a ++ (b ++ c))%string.
Proof. induction a as [|x a IH]; intros b c; [reflexivity|]. cbn. rewrite IH. reflexivity. Qed.
Definition vtu_name (filename : string) (i : nat) : string := (filename ++ "_" ++ dec i ++ ".vtu")%string.
Lemma vtu_inj : forall f i j, vtu_name f i = vtu_name f j -> i = j.
Proof. intros f i j H. unfold vtu_name in H. apply append_cancel in H. injection H as H. apply append_cancel_r in H. apply dec_inj, H. Qed.
Lemma vtu_other : forall f i, vtu_name f i <> (f ++ ".vtm")%string /\ vtu_name f i <> (f ++ ".visit")%string /\ (f ++ ".vtm")%string <> (f ++ ".visit")%string.
Proof. intros f i. unfold vtu_name. split; [|split]; intros C; apply append_cancel in C; discriminate. Qed.
Hypothesis open : forall n, can_open n = true.
Lemma regions_written : forall filename include l i fs,
  snd (write_regions compress can_open filename include i l fs) = Some (map (vtu_name filename) (seq i (length l))) /\
  (forall k r, nth_error l k = Some r -> fst (write_regions compress can_open filename include i l fs) (vtu_name filename (i + k)) = Some (Xml (write_vtu compress r include))) /\
  (forall n, ~ In n (map (vtu_name filename) (seq i (length l))) -> fst (write_regions compress can_open filename include i l fs) n = fs n).
Proof.
  intros filename include l. induction l as [|r l IH]; intros i fs.
  - cbn. split; [reflexivity|]. split; [intros [|k] r H; discriminate|reflexivity].
  - cbn [write_regions bad]. cbv iota zeta. fold (vtu_name filename i). destruct (IH (i + 1) (write can_open (vtu_name filename i) (Xml (write_vtu compress r include)) fs)) as (I1 & I2 & I3).
    cbn [fst snd length seq map]. rewrite I1. replace (i + 1) with (S i) in * by lia. split; [reflexivity|]. split.
    + intros [|k] r' H.
      * injection H as <-. rewrite Nat.add_0_r. rewrite I3.
        -- unfold write. rewrite open, String.eqb_refl. reflexivity.
        -- intros J. apply in_map_iff in J. destruct J as (j & E & J). apply vtu_inj in E. apply in_seq in J. lia.
      * rewrite <- (I2 k r' H). f_equal. f_equal. lia.
    + intros n N. rewrite I3.
      * unfold write. rewrite open. destruct (String.eqb_spec n (vtu_name filename i)) as [E|E]; [|reflexivity]. exfalso. apply N. left. symmetry. exact E.
      * intros J. apply N. right. exact J.
Qed.
Lemma read_vtm_list : forall names, read_vtm (vtm names) = Some names.
Proof.
  intros names.
  assert (DS : forall l i, writes (data_sets i l) (map (fun p => Elem "DataSet" [("group", dec (fst p)); ("dataset", "0"); ("file", snd p)] [] []) (combine (seq i (length l)) l))).
  { induction l as [|f l IH]; intros i; [apply writes_nil|]. cbn [data_sets length seq combine map].
    apply (writes_app [_; _] _ [_] _); [|replace (i + 1) with (S i) by lia; apply IH]. apply (writes_elem "DataSet" _ [] []). apply writes_nil. }
  pose proof (parse_elem "VTKFile" [("type", "vtkMultiBlockDataSet"); ("version", "0.1"); ("byte_order", "LittleEndian"); ("compressor", "vtkZLibDataCompressor")] _ _ (writes_elem "vtkMultiBlockDataSet" [] _ _ (DS names 0))) as P.
  unfold read_vtm, vtm. cbn [app] in P |- *. rewrite <- app_assoc in P. cbn [app] in P. rewrite P. cbn [bind].
  match goal with |- bind (check ?b) _ = _ => change (check b) with (Some tt) end. cbn [bind].
  match goal with |- bind (child "vtkMultiBlockDataSet" (Elem _ _ [?e] _)) _ = _ => change (child "vtkMultiBlockDataSet" (Elem "VTKFile" [("type", "vtkMultiBlockDataSet"); ("version", "0.1"); ("byte_order", "LittleEndian"); ("compressor", "vtkZLibDataCompressor")] [e] [])) with (Some e) end.
  cbn [bind children]. clear. generalize 0 as i. induction names as [|f names IH]; intros i; [reflexivity|].
  cbn [length seq combine map]. cbn [filter tag_of]. change (String.eqb "DataSet" "DataSet") with true. cbv iota. cbn [all]. change (attribute "file" _) with (Some f). cbn [bind]. rewrite IH. reflexivity.
Qed.
End Files.
(* When every file can be written, a device is written to one file for each region, in the order of their names, and the .vtm and .visit
   files name these files; no other file changes. *)
Theorem C67_files : forall compress can_open regions filename include fs, (forall n, can_open n = true) ->
  exists fs' names v, write_single_device compress can_open (Some regions) filename include fs = (fs', true) /\
    Forall2 (fun n r => fs' n = Some (Xml (write_vtu compress (snd r) include))) names regions /\ NoDup names /\
    fs' (filename ++ ".vtm")%string = Some (Xml v) /\ read_vtm v = Some names /\
    fs' (filename ++ ".visit")%string = Some (Lines (map list_ascii_of_string (("!NBLOCKS " ++ dec (length regions))%string :: names))) /\
    forall n, ~ In n ((filename ++ ".vtm")%string :: (filename ++ ".visit")%string :: names) -> fs' n = fs n.
Proof.
  intros c can_open regions filename include fs O. unfold write_single_device, bad. cbv zeta iota.
  set (fs1 := write can_open (filename ++ ".visit") (Lines []) (write can_open (filename ++ ".vtm") (Xml []) fs)).
  destruct (regions_written c can_open O filename include (map snd regions) 0 fs1) as (R1 & R2 & R3). rewrite R1. rewrite map_length in *.
  set (names := map (vtu_name filename) (seq 0 (length regions))) in *.
  assert (NV : forall i, ~ In (filename ++ ".vtm")%string (map (vtu_name filename) i) /\ ~ In (filename ++ ".visit")%string (map (vtu_name filename) i)).
  { intros i. split; intros J; apply in_map_iff in J; destruct J as (j & E & _); destruct (vtu_other filename j) as (V1 & V2 & _); congruence. }
  eexists _, names, (vtm names). split; [reflexivity|]. split; [|split; [|split; [|split; [|split]]]].
  - assert (G : forall (l : list (string * region)) i, (forall k r, nth_error l k = Some r -> fst (write_regions c can_open filename include 0 (map snd regions) fs1) (vtu_name filename (i + k)) = Some (Xml (write_vtu c (snd r) include))) ->
      Forall2 (fun n r => write can_open (filename ++ ".visit") (Lines (visit names)) (write can_open (filename ++ ".vtm") (Xml (vtm names)) (fst (write_regions c can_open filename include 0 (map snd regions) fs1))) n = Some (Xml (write_vtu c (snd r) include)))
        (map (vtu_name filename) (seq i (length l))) l).
    { induction l as [|r l IH]; intros i H; [constructor|]. cbn [length seq map]. constructor.
      - unfold write. rewrite !O. destruct (vtu_other filename i) as (V1 & V2 & _). destruct (String.eqb_spec (vtu_name filename i) (filename ++ ".visit")); [congruence|]. destruct (String.eqb_spec (vtu_name filename i) (filename ++ ".vtm")); [congruence|].
        rewrite <- (H 0 r eq_refl). f_equal. f_equal. lia.
      - apply IH. intros k r' E. rewrite <- (H (S k) r' E). f_equal. f_equal. lia. }
    apply G. intros k r E. apply (R2 k (snd r)). rewrite nth_error_map, E. reflexivity.
  - unfold names. apply Coq.Logic.FinFun.Injective_map_NoDup; [|apply seq_NoDup]. intros i j. apply vtu_inj.
  - unfold write. rewrite !O. destruct (vtu_other filename 0) as (_ & _ & V). destruct (String.eqb_spec (filename ++ ".vtm") (filename ++ ".visit")); [congruence|]. rewrite String.eqb_refl. reflexivity.
  - apply read_vtm_list.
  - unfold write. rewrite !O, String.eqb_refl. unfold visit. unfold names at 1. rewrite map_length, seq_length. reflexivity.
  - intros n N. unfold write at 1 2. rewrite !O. destruct (String.eqb_spec n (filename ++ ".visit")) as [E|E]; [exfalso; apply N; right; left; congruence|]. destruct (String.eqb_spec n (filename ++ ".vtm")) as [E'|E']; [exfalso; apply N; left; congruence|].
    rewrite R3 by (intros J; apply N; right; right; exact J). unfold fs1, write. rewrite !O. destruct (String.eqb_spec n (filename ++ ".visit")); [congruence|]. destruct (String.eqb_spec n (filename ++ ".vtm")); [congruence|]. reflexivity.
Qed.
Print Assumptions C67_files.
(* write_devices: a device of this name, or the only device; otherwise an error, and nothing is written. *)
Theorem C67_choice : forall compress can_open devices device filename include fs,
  (device = "" -> forall n d, devices = [(n, d)] -> write_vtk compress can_open devices device filename include fs = write_single_device compress can_open (Some d) filename include fs) /\
  (device = "" -> 1 < length devices -> write_vtk compress can_open devices device filename include fs = (fs, false)) /\
  (device <> "" -> StrMap.find device devices = None -> write_vtk compress can_open devices device filename include fs = (fs, false)) /\
  (device <> "" -> forall d, StrMap.find device devices = Some d -> write_vtk compress can_open devices device filename include fs = write_single_device compress can_open (Some d) filename include fs).
Proof.
  intros c o ds dv f i fs. unfold write_vtk. split; [|split; [|split]].
  - intros -> n d ->. reflexivity.
  - intros -> L. change (String.eqb "" "") with true. cbv iota. destruct ds as [|d1 [|d2 ds]]; cbn in L; try lia. reflexivity.
  - intros N F. apply String.eqb_neq in N. rewrite N, F. reflexivity.
  - intros N d F. apply String.eqb_neq in N. rewrite N, F. reflexivity.
Qed.
Print Assumptions C67_choice.
(* If no file can be opened, nothing is written and write_devices still succeeds. *)
Theorem C67_unwritable_refuted : forall compress regions filename include fs,
  exists fs', write_single_device compress (fun _ => false) (Some regions) filename include fs = (fs', true) /\ forall n, fs' n = fs n.
Proof.
  intros c regions filename include fs. unfold write_single_device, bad. cbv zeta iota.
  assert (W : forall l i f, exists names, write_regions c (fun _ => false) filename include i l f = (f, Some names)).
  { induction l as [|r l IH]; intros i f; [exists []; reflexivity|]. cbn [write_regions bad]. cbv zeta iota. unfold write at 1. destruct (IH (i + 1) f) as (names & E). unfold write. rewrite E. cbn. eauto. }
  destruct (W (map snd regions) 0 (write (fun _ => false) (filename ++ ".visit") (Lines []) (write (fun _ => false) (filename ++ ".vtm") (Xml []) fs))) as (names & E). rewrite E. cbn [fst snd].
  eexists. split; [reflexivity|]. intros n. reflexivity.
Qed.
Print Assumptions C67_unwritable_refuted.
(* A file in another directory names files that are not there: the names are relative to the directory of the .vtm file. *)
Theorem C67_reference_refuted : forall compress include, exists filename fs' v name,
  write_single_device compress (fun _ => true) (Some [("r", shown)]) filename include (fun _ => None) = (fs', true) /\
  fs' (filename ++ ".vtm")%string = Some (Xml v) /\ read_vtm v = Some [name] /\ fs' (resolve (filename ++ ".vtm") name) = None.
Proof.
  intros c include. destruct (C67_files c (fun _ => true) [("r", shown)] "out/d" include (fun _ => None) (fun _ => eq_refl)) as (fs' & names & v & W & F & _ & V & R & _ & N).
  assert (E : names = ["out/d_0.vtu"]).
  { cbv beta iota zeta delta [write_single_device bad] in W. injection W as W. rewrite <- W in V. unfold write in V. cbn in V. injection V as V. rewrite <- V in R.
    match type of R with read_vtm ?l = _ => change (read_vtm l) with (read_vtm (vtm ["out/d_0.vtu"])) in R end. rewrite read_vtm_list in R. congruence. }
  subst names. exists "out/d", fs', v, "out/d_0.vtu". split; [exact W|]. split; [exact V|]. split; [exact R|]. apply N. vm_compute. intros [C|[C|[C|[]]]]; discriminate.
Qed.
Print Assumptions C67_reference_refuted.

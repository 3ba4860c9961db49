(* C67: the file of a region. *)
From Coq Require Import Ascii String List Bool Arith ZArith Lia DecimalString DecimalFacts DecimalNat.
From Flocq Require Import IEEE754.Bits.
Import ListNotations.
Require Verif.StrMap.
Require Import Verif.VtkArray Verif.VtkArraySpec Verif.VtkArrayProofs Verif.Vtk Verif.VtkSpec.
Local Arguments Nat.ltb : simpl never.
Local Arguments Nat.leb : simpl never.
Local Arguments Nat.eqb : simpl never.
Local Arguments zlib_base64 : simpl never.
Local Arguments read_doubles : simpl never.
Open Scope string_scope.
Open Scope list_scope.
Open Scope nat_scope.
Local Notation text := (list ascii).
Local Notation chars := list_ascii_of_string.
(* ---- decimal ---- *)
Lemma read_dec : forall n, read_nat (dec n) = Some n.
Proof. intros n. unfold read_nat, dec. rewrite NilEmpty.usu. cbn. f_equal. apply Unsigned.of_to. Qed.
Lemma dec_inj : forall n m, dec n = dec m -> n = m.
Proof. intros n m H. pose proof (read_dec n) as A. rewrite H, read_dec in A. congruence. Qed.
Lemma uint_chars : forall u, Forall (fun c => blank c = false) (chars (NilEmpty.string_of_uint u)).
Proof. induction u; cbn; try constructor; try reflexivity; assumption. Qed.
Lemma dec_chars : forall n, exists c w, chars (dec n) = c :: w /\ Forall (fun c => blank c = false) (c :: w).
Proof.
  intros n. unfold dec. pose proof (uint_chars (Nat.to_uint n)) as H. assert (N : Nat.to_uint n <> Decimal.Nil).
  { intros C. pose proof (Unsigned.of_to n) as O. rewrite C in O. cbn in O. subst n. discriminate. }
  destruct (Nat.to_uint n) eqn:Eu; [congruence|..]; cbn in *; eauto.
Qed.
Lemma words_step : forall c d t, words (c :: d :: t) = if blank c then words (d :: t) else if blank d then [c] :: words (d :: t) else match words (d :: t) with w :: l => (c :: w) :: l | [] => [[c]] end.
Proof. reflexivity. Qed.
Lemma words_word : forall w c rest, Forall (fun c => blank c = false) (c :: w) -> match rest with [] => True | d :: _ => blank d = true end -> words (c :: w ++ rest) = (c :: w) :: words rest.
Proof.
  induction w as [|d w IH]; intros c rest F R.
  - inversion_clear F as [|? ? Bc _]. destruct rest as [|d rest]; [cbn; rewrite Bc; reflexivity|]. change ([] ++ d :: rest) with (d :: rest). rewrite words_step, Bc, R. reflexivity.
  - inversion_clear F as [|? ? Bc F']. specialize (IH d rest F' R). cbn [app]. assert (Bd : blank d = false) by (inversion F'; assumption).
    rewrite words_step, Bc, Bd, IH. reflexivity.
Qed.
Lemma words_ints : forall l, words (ints l ++ [newline]) = map (fun n => chars (dec n)) l.
Proof.
  induction l as [|n l IH]; [reflexivity|]. cbn [ints flat_map map]. destruct (dec_chars n) as (c & w & E & F). rewrite E. cbn [app]. rewrite <- app_assoc.
  change (words (" "%char :: c :: w ++ flat_map (fun n => " "%char :: chars (dec n)) l ++ [newline])) with (words (c :: w ++ ints l ++ [newline])).
  rewrite words_word; [rewrite IH; reflexivity|exact F|]. destruct l; reflexivity.
Qed.
Lemma all_map : forall (X Y : Type) (f : X -> option Y) (g : Y -> X) l, (forall y, In y l -> f (g y) = Some y) -> all f (map g l) = Some l.
Proof. intros X Y f g l. induction l as [|y l IH]; intros H; [reflexivity|]. cbn [map all bind]. rewrite H by (left; reflexivity). cbn [bind]. rewrite IH; [reflexivity|]. intros z I. apply H. right; exact I. Qed.
Lemma read_nats_ints : forall l, read_nats (ints l ++ [newline]) = Some l.
Proof. intros l. unfold read_nats. rewrite words_ints. apply (all_map (list ascii) nat (fun w => read_nat (string_of_list_ascii w)) (fun n => chars (dec n))). intros n _. rewrite string_of_list_ascii_of_string. apply read_dec. Qed.
(* ---- base64 has no blanks ---- *)
Lemma char_blank : forall v, blank (base64_char v) = false.
Proof.
  intros v. unfold base64_char. pose proof (land63 v) as B. set (k := Z.land v 63) in *. clearbody k.
  assert (C : forallb (fun k => negb (blank (nth (Z.to_nat k) base64_chars zero))) (upto 64) = true) by (vm_compute; reflexivity).
  rewrite forallb_forall in C. specialize (C k (in_upto 64 k ltac:(lia))). apply negb_true_iff in C. exact C.
Qed.
Lemma encode_blank : forall l, Forall (fun c => blank c = false) (encode_base64 l).
Proof. apply three_ind; intros; cbn [encode_base64]; repeat (constructor; [first [apply char_blank|reflexivity]|]); try constructor; auto. Qed.
Lemma strip : forall t, Forall (fun c => blank c = false) t -> filter (fun c => negb (blank c)) (t ++ [newline]) = t.
Proof. intros t F. induction F as [|c t Bc F IH]; [reflexivity|]. cbn [app filter]. rewrite Bc. cbn [negb]. rewrite IH. reflexivity. Qed.
(* ---- elements ---- *)
Definition writes (l : list item) (k : list tree) : Prop := forall rest n a k0 x s, parse (l ++ rest) ((n, a, k0, x) :: s) = parse rest ((n, a, k0 ++ k, x) :: s).
Lemma writes_nil : writes [] [].
Proof. intros rest n a k0 x s. rewrite List.app_nil_r. reflexivity. Qed.
Lemma writes_app : forall l l' k k', writes l k -> writes l' k' -> writes (l ++ l') (k ++ k').
Proof. intros l l' k k' H H' rest n a k0 x s. rewrite <- app_assoc, H, H', app_assoc. reflexivity. Qed.
Lemma writes_elem : forall n a l k, writes l k -> writes (Open n a :: l ++ [Close n]) [Elem n a k []].
Proof. intros n a l k H rest m b k0 x s. cbn [app parse]. rewrite <- app_assoc, H. cbn [app parse]. rewrite String.eqb_refl. reflexivity. Qed.
Lemma writes_text : forall n a t, writes [Open n a; Chars t; Close n] [Elem n a [] t].
Proof. intros n a t rest m b k0 x s. cbn [app parse]. rewrite String.eqb_refl. reflexivity. Qed.
Lemma writes_flat : forall (X : Type) (f : X -> list item) (g : X -> list tree) l, (forall x, writes (f x) (g x)) -> writes (flat_map f l) (flat_map g l).
Proof. intros X f g l H. induction l as [|x l IH]; [apply writes_nil|]. cbn [flat_map]. apply writes_app; [apply H|exact IH]. Qed.
Lemma parse_elem : forall n a l k, writes l k -> parse (Open n a :: l ++ [Close n]) [] = Some (Elem n a k []).
Proof. intros n a l k H. cbn [parse]. rewrite H. cbn [app parse]. rewrite String.eqb_refl. reflexivity. Qed.
(* ---- arrays ---- *)
Section Arrays.
Variable compress : list Z -> list Z.
Variable decompress : list Z -> option (list Z).
Hypothesis zlib : forall l, Forall byte l -> decompress (compress l) = Some l.
Hypothesis zlib_bytes : forall l, Forall byte (compress l).
Hypothesis zlib_short : forall y, (Z.of_nat (length y) <= 4096)%Z -> (Z.of_nat (length (compress (flat_map double_bytes y))) < 2 ^ 32)%Z.
Definition data_tree (values : list binary64) (name : string) (components : nat) : tree :=
  Elem "DataArray" (("type", "Float64") :: (if String.eqb name "" then [] else [("Name", name)]) ++ (if Nat.eqb components 1 then [] else [("NumberOfComponents", dec components)]) ++ [("format", "binary")]) [] (zlib_base64 compress values ++ [newline]).
Lemma data_array_tree : forall v n c, writes (data_array compress v n c) [data_tree v n c].
Proof. intros v n c. apply writes_text. Qed.
Lemma zlib_blank : forall v, Forall (fun c => blank c = false) (zlib_base64 compress v).
Proof. intros v. unfold zlib_base64. apply Forall_app. split; apply encode_blank. Qed.
Definition fits (n : nat) : Prop := (n = 0 \/ n mod 4096 <> 0) /\ (Z.of_nat n < 2 ^ 43)%Z.
Lemma per_block_value : per_block = 4096. Proof. reflexivity. Qed.
Lemma read_data_tree : forall v n c, fits (length v) -> read_data decompress (data_tree v n c) = Some (n, c, v).
Proof.
  intros v n c [H L]. unfold read_data, data_tree. cbn [tag_of text_of]. rewrite strip by apply zlib_blank. rewrite (array_read compress decompress zlib zlib_bytes); [|rewrite per_block_value; exact H|exact zlib_short|exact L].
  unfold attribute. destruct (String.eqb_spec n "") as [-> |N]; destruct (Nat.eqb_spec c 1) as [-> |C]; cbn; rewrite ?read_dec; reflexivity.
Qed.
Lemma fits_three : forall n, fits n -> (Z.of_nat n < 2 ^ 41)%Z -> fits (3 * n).
Proof.
  intros n [H L] B. split; [|change (2 ^ 41)%Z with 2199023255552%Z in B; change (2 ^ 43)%Z with 8796093022208%Z; lia]. destruct H as [-> |H]; [left; reflexivity|]. right. intros C. apply H. clear H L B.
  apply Nat.mod_divide in C; [|discriminate]. apply Nat.mod_divide; [discriminate|]. apply Nat.gauss with 3; [exact C|]. reflexivity.
Qed.
Lemma triples_coordinates : forall l, triples (coordinates l) = Some l.
Proof. induction l as [|[[x y] z] l IH]; [reflexivity|]. cbn [coordinates flat_map app triples fst snd]. fold (coordinates l). rewrite IH. reflexivity. Qed.
Lemma coordinates_length : forall l, length (coordinates l) = 3 * length l.
Proof. induction l as [|p l IH]; [reflexivity|]. cbn [coordinates flat_map app length]. fold (coordinates l). rewrite IH. lia. Qed.
(* ---- cells ---- *)
Lemma cells_read : forall k t l s, Forall (fun c => length c = k) l -> cells s (concat l) (offsets (s + k) k (length l)) (map (fun _ => t) l) = Some (map (fun c => (t, c)) l).
Proof.
  intros k t l. induction l as [|c l IH]; intros s F; [reflexivity|]. inversion_clear F as [|? ? L F']. cbn [length offsets map concat cells]. replace (s + k - s) with k by lia.
  rewrite app_length, L. replace ((s <=? s + k) && (k <=? k + length (concat l))) with true by (symmetry; apply andb_true_iff; rewrite !Nat.leb_le; lia). cbn [check bind].
  assert (SK : skipn k (c ++ concat l) = concat l) by (rewrite <- L; apply app_cut). assert (FK : firstn k (c ++ concat l) = c) by (rewrite <- L; apply app_cut).
  rewrite SK, FK, IH by exact F'. reflexivity.
Qed.
Definition int_tree (type name : string) (l : list nat) : tree := Elem "DataArray" [("type", type); ("Name", name); ("format", "ascii")] [] (ints l ++ [newline]).
Definition cells_tree (k t : nat) (l : list (list nat)) : tree :=
  Elem "Cells" [] [int_tree "Int32" "connectivity" (concat l); int_tree "Int32" "offsets" (offsets k k (length l)); int_tree "UInt8" "types" (map (fun _ => t) l)] [].
Lemma write_cells_tree : forall k t l, writes (write_cells k t l) [cells_tree k t l].
Proof.
  intros k t l. unfold write_cells. apply (writes_elem "Cells" [] (int_array "Int32" "connectivity" (concat l) ++ int_array "Int32" "offsets" (offsets k k (length l)) ++ int_array "UInt8" "types" (map (fun _ => t) l)) [_; _; _]).
  apply (writes_app _ _ [_] [_; _]); [apply writes_text|]. apply (writes_app _ _ [_] [_]); apply writes_text.
Qed.
Lemma read_cells_tree : forall k t l, read_ints "connectivity" (cells_tree k t l) = Some (concat l) /\ read_ints "offsets" (cells_tree k t l) = Some (offsets k k (length l)) /\
  read_ints "types" (cells_tree k t l) = Some (map (fun _ => t) l).
Proof.
  intros k t l. unfold read_ints, cells_tree, int_tree. cbn [children]. split; [|split]; cbn [find tag_of]; unfold attribute at 1; cbn [find option_map fst snd].
  - change (read_nats (ints (concat l) ++ [newline]) = Some (concat l)). apply read_nats_ints.
  - change (read_nats (ints (offsets k k (length l)) ++ [newline]) = Some (offsets k k (length l))). apply read_nats_ints.
  - change (read_nats (ints (map (fun _ => t) l) ++ [newline]) = Some (map (fun _ => t) l)). apply read_nats_ints.
Qed.
(* ---- sections ---- *)
Definition pick (X Y : Type) (test : X -> bool) (f : X -> Y) (l : list X) : list Y := map f (filter test l).
Lemma pick_flat : forall (X Y Z : Type) (test : X -> bool) (f : X -> Y) (g : X -> list Z) (h : Y -> Z) l, (forall x, g x = if test x then [h (f x)] else []) -> flat_map g l = map h (pick X Y test f l).
Proof. intros X Y Z test f g h l H. unfold pick. induction l as [|x l IH]; [reflexivity|]. cbn [flat_map filter]. rewrite H, IH. destruct (test x); reflexivity. Qed.
Lemma writes_pick : forall (X : Type) (test : X -> bool) (f : X -> string * nat * list binary64) (g : X -> list item) l,
  (forall x, g x = if test x then data_array compress (snd (f x)) (fst (fst (f x))) (snd (fst (f x))) else []) ->
  writes (flat_map g l) (map (fun y => data_tree (snd y) (fst (fst y)) (snd (fst y))) (pick X _ test f l)).
Proof.
  intros X test f g l H. unfold pick. induction l as [|x l IH]; [apply writes_nil|]. cbn [flat_map filter]. rewrite H. destruct (test x); [|exact IH].
  cbn [map]. apply (writes_app _ _ [_]); [apply data_array_tree|exact IH].
Qed.
Lemma read_section_tree : forall name n e l, child name e = Some (Elem name [] (map (fun y => data_tree (snd y) (fst (fst y)) (snd (fst y))) l) []) ->
  Forall (fun y => length (snd y) = snd (fst y) * n /\ fits (length (snd y))) l -> read_section decompress name n e = Some l.
Proof.
  intros name n e l C F. rewrite Forall_forall in F. unfold read_section. rewrite C. cbn [children]. rewrite (all_map _ _ (read_data decompress) (fun y => data_tree (snd y) (fst (fst y)) (snd (fst y)))).
  - cbn [bind]. replace (forallb (fun a0 => length (snd a0) =? snd (fst a0) * n) l) with true; [reflexivity|]. symmetry. apply forallb_forall. intros y I. apply Nat.eqb_eq. apply F, I.
  - intros [[m c] v] I. cbn [fst snd]. apply read_data_tree. apply (F _ I).
Qed.

(* ---- the piece ---- *)
Definition array := (string * nat * list binary64)%type.
Definition tree_of (y : array) : tree := data_tree (snd y) (fst (fst y)) (snd (fst y)).
Definition scalars_of (include : string -> bool) (l : StrMap.smap (display * list binary64)) : list array :=
  pick _ _ (fun p => include (fst p) && scalar (fst (snd p))) (fun p => (fst p, 1, snd (snd p))) l.
Definition point_arrays (r : region) (include : string -> bool) : list array :=
  scalars_of include (r_node_models r) ++
  pick _ _ (fun p => include (fst p) && scalar (em_display (snd p))) (fun p => (fst p, 1, em_scalars (snd p))) (r_edge_models r) ++
  pick _ _ (fun p => vector (em_display (snd p))) (fun p => (fst p, 3, coordinates (em_vectors (snd p)))) (r_edge_models r).
Definition cell_arrays (r : region) (include : string -> bool) : list array :=
  if Nat.eqb (r_dim r) 1 then [] else scalars_of include (r_tri_models r) ++ scalars_of (fun _ => true) (r_tet_models r).
Lemma write_scalars_tree : forall include l, writes (write_scalars compress include l) (map tree_of (scalars_of include l)).
Proof.
  intros include l. unfold scalars_of, write_scalars. apply writes_pick. intros [n [d v]]. cbn [fst snd]. destruct (include n); [|reflexivity]. destruct d; reflexivity.
Qed.
Definition section (present : bool) (name : string) (l : list array) : list tree := if present then [Elem name [] (map tree_of l) []] else [].
Definition some {X Y : Type} (a : list X) (b : list Y) : bool := match a, b with [], [] => false | _, _ => true end.
Lemma point_data_tree : forall r include, writes (write_point_data compress r include) (section (some (r_node_models r) (r_edge_models r)) "PointData" (point_arrays r include)).
Proof.
  intros r include.
  assert (H : writes (Open "PointData" [] :: write_scalars compress include (r_node_models r) ++
      flat_map (fun p => if include (fst p) then match em_display (snd p) with Scalar => data_array compress (em_scalars (snd p)) (fst p) 1 | _ => [] end else []) (r_edge_models r) ++
      flat_map (fun p => match em_display (snd p) with Vector => data_array compress (coordinates (em_vectors (snd p))) (fst p) 3 | _ => [] end) (r_edge_models r) ++ [Close "PointData"])
      [Elem "PointData" [] (map tree_of (point_arrays r include)) []]).
  { unfold point_arrays. rewrite !map_app. rewrite !app_assoc. apply writes_elem. rewrite <- !app_assoc.
    apply writes_app; [apply write_scalars_tree|]. apply writes_app.
    - apply writes_pick. intros [n e]. cbn [fst snd]. destruct (include n); [|reflexivity]. destruct (em_display e); reflexivity.
    - apply writes_pick. intros [n e]. cbn [fst snd]. destruct (em_display e); reflexivity. }
  unfold write_point_data, section, some. destruct (r_node_models r); [destruct (r_edge_models r); [apply writes_nil|]|]; exact H.
Qed.
Lemma element_data_tree : forall r include, r_dim r <> 1 -> writes (write_element_data compress r include) (section (some (r_tri_models r) (r_tet_models r)) "CellData" (cell_arrays r include)).
Proof.
  intros r include D. assert (H : writes (Open "CellData" [] :: write_scalars compress include (r_tri_models r) ++ write_scalars compress (fun _ => true) (r_tet_models r) ++ [Close "CellData"])
      [Elem "CellData" [] (map tree_of (cell_arrays r include)) []]).
  { unfold cell_arrays. apply Nat.eqb_neq in D. rewrite D. rewrite map_app. rewrite app_assoc. apply writes_elem. apply writes_app; apply write_scalars_tree. }
  unfold write_element_data, section, some. destruct (r_tri_models r); [destruct (r_tet_models r); [apply writes_nil|]|]; exact H.
Qed.
Definition cell_type (d : nat) : nat := match d with 1 => 3 | 2 => 5 | _ => 10 end.
Definition piece_tree (r : region) (include : string -> bool) : tree :=
  Elem "Piece" [("NumberOfPoints", dec (length (r_nodes r))); ("NumberOfCells", dec (length (cells_of r)))]
    ([Elem "Points" [] [data_tree (coordinates (r_nodes r)) "" 3] []; cells_tree (S (r_dim r)) (cell_type (r_dim r)) (map snd (cells_of r))] ++
     section (some (r_node_models r) (r_edge_models r)) "PointData" (point_arrays r include) ++
     (if Nat.eqb (r_dim r) 1 then [] else section (some (r_tri_models r) (r_tet_models r)) "CellData" (cell_arrays r include))) [].
Lemma dims : forall r, 1 <= r_dim r <= 3 -> r_dim r = 1 \/ r_dim r = 2 \/ r_dim r = 3. Proof. intros r H. lia. Qed.
Lemma region_tree : forall r include, 1 <= r_dim r <= 3 -> writes (write_region compress r include) [piece_tree r include].
Proof.
  intros r include D.
  assert (NC : num_cells r = length (cells_of r)) by (unfold num_cells, cells_of; destruct (dims r D) as [-> | [-> | ->]]; cbn; rewrite map_length; reflexivity).
  unfold write_region, piece_tree. rewrite NC. rewrite !app_assoc. apply writes_elem. rewrite <- !app_assoc.
  change [Elem "Points" [] [data_tree (coordinates (r_nodes r)) "" 3] []; cells_tree (S (r_dim r)) (cell_type (r_dim r)) (map snd (cells_of r))] with
    ([Elem "Points" [] [data_tree (coordinates (r_nodes r)) "" 3] []] ++ [cells_tree (S (r_dim r)) (cell_type (r_dim r)) (map snd (cells_of r))]). rewrite <- app_assoc.
  apply writes_app; [unfold write_points; apply writes_elem, data_array_tree|]. apply writes_app; [|apply writes_app; [apply point_data_tree|]].
  - unfold cells_of. destruct (dims r D) as [-> | [-> | ->]]; cbn; rewrite map_map.
    + unfold write_lines. replace (map (fun x => snd (let '(a, b) := x in (3, [a; b]))) (r_edges r)) with (map (fun e => [fst e; snd e]) (r_edges r)); [apply write_cells_tree|]. apply map_ext. intros [a b]. reflexivity.
    + unfold write_triangles. replace (map (fun x => snd (let '(a, b, c) := x in (5, [a; b; c]))) (r_tris r)) with (map (fun t => [fst (fst t); snd (fst t); snd t]) (r_tris r)); [apply write_cells_tree|]. apply map_ext. intros [[a b] c]. reflexivity.
    + unfold write_tetrahedrons. replace (map (fun x => snd (let '(a, b, c, d) := x in (10, [a; b; c; d]))) (r_tets r)) with (map (fun t => [fst (fst (fst t)); snd (fst (fst t)); snd (fst t); snd t]) (r_tets r)); [apply write_cells_tree|]. apply map_ext. intros [[[a b] c] d]. reflexivity.
  - destruct (dims r D) as [E | [E | E]]; rewrite E; [cbn; apply writes_nil| |]; (replace (Nat.eqb _ _ || _) with true by reflexivity; cbv iota; apply element_data_tree; rewrite E; discriminate).
Qed.
Lemma find_section : forall name b l (k : list tree), name <> "Points" -> name <> "Cells" -> find (fun t => String.eqb name (tag_of t)) (section b name l ++ k) = if b then Some (Elem name [] (map tree_of l) []) else find (fun t => String.eqb name (tag_of t)) k.
Proof. intros name b l k _ _. unfold section. destruct b; [|reflexivity]. cbn [app find tag_of]. rewrite String.eqb_refl. reflexivity. Qed.
Lemma scalars_ok : forall include l n, Forall (fun p => length (snd (snd p)) = n) l -> fits n -> Forall (fun y => length (snd y) = snd (fst y) * n /\ fits (length (snd y))) (scalars_of include l).
Proof.
  intros include l n F G. unfold scalars_of, pick. apply Forall_map. apply Forall_forall. intros p I. apply filter_In in I. destruct I as [I _]. rewrite Forall_forall in F. specialize (F p I). cbn [fst snd]. rewrite F. split; [lia|exact G].
Qed.
Theorem region_read : forall r include, proper r -> fits (length (r_nodes r)) -> (Z.of_nat (length (r_nodes r)) < 2 ^ 41)%Z ->
  (r_dim r <> 1 -> r_tri_models r <> [] \/ r_tet_models r <> [] -> fits (length (cells_of r))) ->
  read_vtu decompress (write_vtu compress r include) = Some {| g_points := r_nodes r; g_cells := cells_of r; g_point_data := point_arrays r include; g_cell_data := cell_arrays r include |}.
Proof.
  intros r include [D PC PN PE PT PQ] FN LN FC. unfold read_vtu, write_vtu.
  assert (P : parse ([Open "VTKFile" [("type", "UnstructuredGrid"); ("version", "0.1"); ("byte_order", "LittleEndian"); ("compressor", "vtkZLibDataCompressor")]; Open "UnstructuredGrid" []] ++
     write_region compress r include ++ [Close "UnstructuredGrid"; Close "VTKFile"]) [] =
     Some (Elem "VTKFile" [("type", "UnstructuredGrid"); ("version", "0.1"); ("byte_order", "LittleEndian"); ("compressor", "vtkZLibDataCompressor")] [Elem "UnstructuredGrid" [] [piece_tree r include] []] [])).
  { pose proof (parse_elem "VTKFile" [("type", "UnstructuredGrid"); ("version", "0.1"); ("byte_order", "LittleEndian"); ("compressor", "vtkZLibDataCompressor")] _ _ (writes_elem "UnstructuredGrid" [] _ _ (region_tree r include D))) as H.
    cbn [app] in H |- *. rewrite <- app_assoc in H. exact H. }
  rewrite P. cbn [bind]. match goal with |- bind (check ?b) _ = _ => change (check b) with (Some tt) end. cbn [bind]. match goal with |- bind ?b _ = _ => change b with (Some (Elem "UnstructuredGrid" [] [piece_tree r include] [])) end. cbn [bind].
  match goal with |- bind ?b _ = _ => change b with (Some (piece_tree r include)) end. cbn [bind].
  change (attribute "NumberOfPoints" (piece_tree r include)) with (Some (dec (length (r_nodes r)))). change (attribute "NumberOfCells" (piece_tree r include)) with (Some (dec (length (cells_of r)))). cbn [bind]. rewrite !read_dec. cbn [bind].
  change (child "Points" (piece_tree r include)) with (Some (Elem "Points" [] [data_tree (coordinates (r_nodes r)) "" 3] [])). cbn [bind].
  match goal with |- bind ?b _ = _ => change b with (Some (data_tree (coordinates (r_nodes r)) "" 3)) end. cbn [bind].
  rewrite read_data_tree by (rewrite coordinates_length; apply fits_three; assumption). cbn [bind snd fst]. change (check (3 =? 3)) with (Some tt). cbn [bind].
  rewrite triples_coordinates. cbn [bind]. rewrite Nat.eqb_refl. cbn [check bind].
  change (child "Cells" (piece_tree r include)) with (Some (cells_tree (S (r_dim r)) (cell_type (r_dim r)) (map snd (cells_of r)))). cbn [bind].
  destruct (read_cells_tree (S (r_dim r)) (cell_type (r_dim r)) (map snd (cells_of r))) as (R1 & R2 & R3). rewrite R1, R2, R3. cbn [bind].
  assert (CR : cells 0 (concat (map snd (cells_of r))) (offsets (S (r_dim r)) (S (r_dim r)) (length (map snd (cells_of r)))) (map (fun _ => cell_type (r_dim r)) (map snd (cells_of r))) = Some (cells_of r)).
  { pose proof (cells_read (S (r_dim r)) (cell_type (r_dim r)) (map snd (cells_of r)) 0) as C. cbn [Nat.add] in C. rewrite C.
    - f_equal. rewrite map_map. rewrite <- (map_id (cells_of r)) at 2. apply map_ext_in. intros [t c] I. cbn [snd]. f_equal. unfold cells_of in I.
      destruct (dims r D) as [E | [E | E]]; rewrite E in I |- *; apply in_map_iff in I; destruct I as (x & I & _); repeat destruct x as [x ?]; injection I as <- _; reflexivity.
    - apply Forall_map. apply Forall_forall. intros [t c] I. cbn [snd]. unfold cells_of in I.
      destruct (dims r D) as [E | [E | E]]; rewrite E in I |- *; apply in_map_iff in I; destruct I as (x & I & _); repeat destruct x as [x ?]; injection I as _ <-; reflexivity. }
  rewrite CR. cbn [bind]. rewrite Nat.eqb_refl. replace (forallb (fun c => forallb (fun i => i <? length (r_nodes r)) (snd c)) (cells_of r)) with true.
  2:{ symmetry. apply forallb_forall. intros c I. apply forallb_forall. intros i J. apply Nat.ltb_lt. rewrite Forall_forall in PC. specialize (PC c I). rewrite Forall_forall in PC. apply PC, J. }
  cbn [andb check bind].
  assert (SP : read_section decompress "PointData" (length (r_nodes r)) (piece_tree r include) = Some (point_arrays r include)).
  { destruct (some (r_node_models r) (r_edge_models r)) eqn:Es.
    - apply read_section_tree.
      + unfold child, piece_tree. cbn [children app find tag_of]. change (String.eqb "PointData" "Points") with false. change (String.eqb "PointData" (tag_of (cells_tree (S (r_dim r)) (cell_type (r_dim r)) (map snd (cells_of r))))) with false. cbv iota.
        rewrite find_section by discriminate. rewrite Es. reflexivity.
      + unfold point_arrays. rewrite !Forall_app. split; [|split].
        * apply scalars_ok; [|exact FN]. eapply Forall_impl; [|exact PN]. intros p [_ H]. exact H.
        * unfold pick. apply Forall_map. apply Forall_forall. intros p I. apply filter_In in I. destruct I as [I _]. rewrite Forall_forall in PE. destruct (PE p I) as (_ & H & _). cbn [fst snd]. rewrite H. split; [lia|exact FN].
        * unfold pick. apply Forall_map. apply Forall_forall. intros p I. apply filter_In in I. destruct I as [I _]. rewrite Forall_forall in PE. destruct (PE p I) as (_ & _ & H). cbn [fst snd]. rewrite coordinates_length, H. split; [reflexivity|]. apply fits_three; assumption.
    - unfold read_section, child, piece_tree. cbn [children app find tag_of]. change (String.eqb "PointData" "Points") with false. change (String.eqb "PointData" (tag_of (cells_tree (S (r_dim r)) (cell_type (r_dim r)) (map snd (cells_of r))))) with false. cbv iota.
      rewrite find_section by discriminate. rewrite Es. replace (find _ _) with (@None tree).
      + unfold some in Es. unfold point_arrays. destruct (r_node_models r); [|discriminate]. destruct (r_edge_models r); [reflexivity|discriminate].
      + destruct (Nat.eqb (r_dim r) 1); [reflexivity|]. unfold section. destruct (some (r_tri_models r) (r_tet_models r)); reflexivity. }
  rewrite SP. cbn [bind].
  assert (SC : read_section decompress "CellData" (length (cells_of r)) (piece_tree r include) = Some (cell_arrays r include)).
  { assert (FI : find (fun t => String.eqb "CellData" (tag_of t)) (children (piece_tree r include)) =
       if negb (Nat.eqb (r_dim r) 1) && some (r_tri_models r) (r_tet_models r) then Some (Elem "CellData" [] (map tree_of (cell_arrays r include)) []) else None).
    { unfold piece_tree. cbn [children app find tag_of]. change (String.eqb "CellData" "Points") with false. change (String.eqb "CellData" (tag_of (cells_tree (S (r_dim r)) (cell_type (r_dim r)) (map snd (cells_of r))))) with false. cbv iota.
      set (cd := if Nat.eqb (r_dim r) 1 then [] else section (some (r_tri_models r) (r_tet_models r)) "CellData" (cell_arrays r include)).
      replace (find (fun t => String.eqb "CellData" (tag_of t)) (section (some (r_node_models r) (r_edge_models r)) "PointData" (point_arrays r include) ++ cd)) with (find (fun t => String.eqb "CellData" (tag_of t)) cd) by (destruct (some (r_node_models r) (r_edge_models r)); reflexivity).
      unfold cd. destruct (Nat.eqb (r_dim r) 1); [reflexivity|]. cbn [negb andb]. unfold section. destruct (some (r_tri_models r) (r_tet_models r)); reflexivity. }
    destruct (Nat.eqb_spec (r_dim r) 1) as [E|E].
    - unfold read_section, child. rewrite FI. cbn [negb andb]. unfold cell_arrays. rewrite E. reflexivity.
    - cbn [negb andb] in FI. destruct (some (r_tri_models r) (r_tet_models r)) eqn:Es.
      + assert (FIT : fits (length (cells_of r))). { apply FC; [exact E|]. unfold some in Es. destruct (r_tri_models r); [right|left; discriminate]. destruct (r_tet_models r); discriminate. }
        apply read_section_tree; [exact FI|]. unfold cell_arrays. apply Nat.eqb_neq in E. rewrite E. apply Forall_app. split; (apply scalars_ok; [|exact FIT]).
        * eapply Forall_impl; [|exact PT]. intros p [_ H]. exact H.
        * eapply Forall_impl; [|exact PQ]. intros p [_ H]. exact H.
      + unfold read_section, child. rewrite FI. unfold cell_arrays. apply Nat.eqb_neq in E. rewrite E. unfold some in Es. destruct (r_tri_models r); [|discriminate]. destruct (r_tet_models r); [reflexivity|discriminate]. }
  rewrite SC. reflexivity.
Qed.
End Arrays.

(* What write_devices sees of the interfaces of a device that load_devices made: the elements of an interface.  The state of
   Interface (src/Geometry/Interface.hh:186-196): edges0, edges1, triangles0, triangles1, elements_provided_. *)
From Coq Require Import String List Bool Arith ZArith.
Import ListNotations.
Require Import Verif.StrMap Verif.Adjacency Verif.Loader Verif.Restart Verif.RestartWrite.

Record elements := { e_provided : bool; e_edges0 : list simplex; e_edges1 : list simplex; e_tris0 : list simplex; e_tris1 : list simplex }.
(* GetEdges and GetTriangles of the loader (DevsimLoader.cc:255-323), as elements of the region *)
Definition listed (l : list simplex) (r : region) (els : list simplex) : list simplex :=
  map (fun e => nth e els []) (part_elements l r els).
(* DevsimLoader.cc:609-626: AddTriangles is always called and sets elements_provided_ (Interface.cc:472-479); AddEdges sets it
   in two dimensions (Interface.cc:460-470) *)
Definition elements_loaded (i : minterface) (r0 r1 : region) : elements :=
  let p0 := decompose_region (mi_part0 i) in
  let p1 := decompose_region (mi_part1 i) in
  {| e_provided := true; e_edges0 := listed (mr_edges p0) r0 (r_edges r0); e_edges1 := listed (mr_edges p1) r1 (r_edges r1);
     e_tris0 := listed (mr_tris p0) r0 (r_tris r0); e_tris1 := listed (mr_tris p1) r1 (r_tris r1) |}.
(* Interface::FindEdges in two dimensions (Interface.cc:196-273) and the triangles of FindTriangles (Interface.cc:275-372), one
   side: the elements with one neighbour all of whose nodes are nodes of the interface.  The edges FindTriangles collects are not
   used by the writer. *)
Definition mem_nat (i : nat) (l : list nat) : bool := existsb (Nat.eqb i) l.
Definition single (els : list simplex) (neighbours : list (list nat)) (nodes : list nat) : list simplex :=
  map snd (filter (fun p => Nat.eqb (length (nth (fst p) neighbours [])) 1 && forallb (fun i => mem_nat i nodes) (snd p))
                  (combine (seq 0 (length els)) els)).
Definition find_edges (r : region) (nodes : list nat) : list simplex := single (r_edges r) (adj_edge_tris (r_adj r)) nodes.
Definition find_triangles (r : region) (nodes : list nat) : list simplex := single (r_tris r) (adj_tri_tets (r_adj r)) nodes.
(* GetEdges0, GetEdges1, GetTriangles0, GetTriangles1 (Interface.cc:376-410): both sides are searched if one list is empty *)
Definition or_found (l0 l1 f0 f1 : list simplex) : list simplex * list simplex :=
  if nonempty l0 && nonempty l1 then (l0, l1) else (f0, f1).
(* what DevsimRestartWriter.cc:316-360 asks the interface for, in the order in which it asks; models and equations as before *)
Definition look (r0 r1 : region) (x : interface) (e : elements) (models equations : smap call) : sinterface :=
  let es := or_found (e_edges0 e) (e_edges1 e) (find_edges r0 (i_nodes0 x)) (find_edges r1 (i_nodes1 x)) in
  let ts := or_found (e_tris0 e) (e_tris1 e) (find_triangles r0 (i_nodes0 x)) (find_triangles r1 (i_nodes1 x)) in
  {| si_region0 := i_region0 x; si_region1 := i_region1 x; si_pairs := combine (i_nodes0 x) (i_nodes1 x); si_provided := e_provided e;
     si_edges0 := fst es; si_edges1 := snd es; si_tris0 := fst ts; si_tris1 := snd ts; si_models := models; si_equations := equations |}.

Section Again.
Variable A : Type.
(* the interface named n of the device d, made from the content c of a file, as the writer sees it; i: as it was seen when the file
   was written *)
Definition look_again (c : content A) (d : device) (n : string) (i : sinterface) : sinterface :=
  match find n (co_interfaces A c), find n (d_interfaces d) with
  | Some ci, Some x =>
      match find (i_region0 x) (d_regions d), find (i_region1 x) (d_regions d) with
      | Some r0, Some r1 =>
          look r0 r1 x (elements_loaded {| mi_region0 := ci_region0 A ci; mi_region1 := ci_region1 A ci; mi_part0 := ci_part0 A ci;
                                           mi_part1 := ci_part1 A ci; mi_pairs := ci_pairs A ci |} r0 r1) (si_models i) (si_equations i)
      | _, _ => i
      end
  | _, _ => i
  end.
(* the device as the writer sees it: contacts keep their elements (DevsimLoader.cc:501-513), the rest is as it was written *)
Definition see_again (c : content A) (d : device) (s : saved A) : saved A :=
  {| sv_name := sv_name A s; sv_dim := sv_dim A s; sv_coords := sv_coords A s; sv_regions := sv_regions A s; sv_contacts := sv_contacts A s;
     sv_interfaces := map (fun p => (fst p, look_again c d (fst p) (snd p))) (sv_interfaces A s) |}.
End Again.

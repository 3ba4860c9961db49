(* What it means that a device was restored from a file (C57), in terms of the devices.  A region has its nodes and its
   edges, triangles and tetrahedra, given by node numbers; contacts and interfaces refer to these by number. *)
From Coq Require Import String List Bool Arith Sorting.Sorted.
Import ListNotations.
Require Import Verif.StrMap Verif.Adjacency Verif.Loader Verif.LoaderSpec Verif.Restart Verif.RestartWrite.

(* the order of a dictionary *)
Definition before (a b : list nat) : Prop := exists p x y u v, a = p ++ x :: u /\ b = p ++ y :: v /\ x < y.
Definition in_order (l : list (list nat)) : Prop := StronglySorted before l.
Definition increasing (l : list nat) : Prop := StronglySorted lt l.

Section Shown.
Variable A : Type.
(* s is what the writer finds when it looks at the device d *)
Definition region_shown (r : sregion A) (x : region) : Prop :=
  sr_nodes A r = r_nodes x /\ sr_edges A r = r_edges x /\ sr_tris A r = r_tris x /\ sr_tets A r = r_tets x.
Definition contact_shown (rs : smap region) (c : scontact) (x : contact) : Prop :=
  sc_region c = c_region x /\ sc_nodes c = c_nodes x /\
  exists r, find (c_region x) rs = Some r /\
    map Some (sc_edges c) = map (nth_error (r_edges r)) (c_edges x) /\ map Some (sc_tris c) = map (nth_error (r_tris r)) (c_tris x).
Definition interface_shown (i : sinterface) (x : interface) : Prop :=
  si_region0 i = i_region0 x /\ si_region1 i = i_region1 x /\ length (i_nodes0 x) = length (i_nodes1 x) /\
  si_pairs i = combine (i_nodes0 x) (i_nodes1 x).
Definition named {X Y} (P : X -> Y -> Prop) (p : string * X) (q : string * Y) : Prop := fst p = fst q /\ P (snd p) (snd q).
Definition shows (s : saved A) (d : device) : Prop :=
  sv_dim A s = d_dim d /\ Forall2 (named region_shown) (sv_regions A s) (d_regions d) /\
  Forall2 (named (contact_shown (d_regions d))) (sv_contacts A s) (d_contacts d) /\
  Forall2 (named interface_shown) (sv_interfaces A s) (d_interfaces d).

(* the elements of the dimension of the device *)
Definition top (dim : nat) (x : region) : list simplex := match dim with 1 => r_edges x | 2 => r_tris x | _ => r_tets x end.
(* the region is made of its top elements, everything listed in order *)
Definition whole_region (ncoords dim : nat) (x : region) : Prop :=
  r_nodes x <> [] /\ length (r_nodes x) <= ncoords /\ Forall (fun c => c < ncoords) (r_nodes x) /\
  top dim x <> [] /\
  Forall (fun e => length e = S dim /\ ascending e /\ NoDup e /\ Forall (fun i => i < length (r_nodes x)) e) (top dim x) /\
  in_order (r_edges x) /\ in_order (r_tris x) /\ in_order (r_tets x) /\
  (forall e, In e (r_edges x) <-> part_of 2 (top dim x) e) /\ (forall e, In e (r_tris x) <-> part_of 3 (top dim x) e) /\
  (forall e, In e (r_tets x) <-> part_of 4 (top dim x) e) /\
  (* the connections between the elements were made when the region was *)
  finalize_region dim (r_edges x) (r_tris x) (r_tets x) = Finished (r_adj x).
(* a contact has the nodes and edges of its top elements, in order *)
Definition whole_contact (dim : nat) (rs : smap region) (c : contact) : Prop :=
  exists r, find (c_region c) rs = Some r /\
  match dim with
  | 1 => Forall (fun i => i < length (r_nodes r)) (c_nodes c) /\ c_edges c = [] /\ c_tris c = []
  | 2 => Forall (fun e => e < length (r_edges r)) (c_edges c) /\ c_tris c = [] /\ increasing (c_nodes c) /\
         forall i, In i (c_nodes c) <-> exists e s, In e (c_edges c) /\ nth_error (r_edges r) e = Some s /\ In i s
  | _ => Forall (fun e => e < length (r_tris r)) (c_tris c) /\ increasing (c_edges c) /\ increasing (c_nodes c) /\
         (forall i, In i (c_nodes c) <-> exists e s, In e (c_tris c) /\ nth_error (r_tris r) e = Some s /\ In i s) /\
         (forall k, In k (c_edges c) <-> exists e s u, In e (c_tris c) /\ nth_error (r_tris r) e = Some s /\ nth_error (r_edges r) k = Some u /\ face u s)
  end.
(* the elements by which an interface is written *)
Definition sides (dim : nat) (i : sinterface) : list simplex * list simplex :=
  match dim with 2 => (si_edges0 i, si_edges1 i) | _ => (si_tris0 i, si_tris1 i) end.
(* an interface is written by its pairs of nodes, or by equally many elements on both sides: then its nodes are the
   nodes of these elements, in order on both sides, and the nodes of a pair are at the same coordinate *)
Definition whole_interface (dim : nat) (rs : smap region) (i : sinterface) (x : interface) : Prop :=
  exists r0 r1, find (i_region0 x) rs = Some r0 /\ find (i_region1 x) rs = Some r1 /\
    Forall (fun j => j < length (r_nodes r0)) (i_nodes0 x) /\ Forall (fun j => j < length (r_nodes r1)) (i_nodes1 x) /\
    (dim = 1 \/ si_provided i = false \/
     (length (fst (sides dim i)) = length (snd (sides dim i)) /\ increasing (i_nodes0 x) /\ increasing (i_nodes1 x) /\
      (forall j, In j (i_nodes0 x) <-> exists s, In s (fst (sides dim i)) /\ In j s) /\
      (forall j, In j (i_nodes1 x) <-> exists s, In s (snd (sides dim i)) /\ In j s) /\
      map (fun j => nth_error (r_nodes r0) j) (i_nodes0 x) = map (fun j => nth_error (r_nodes r1) j) (i_nodes1 x) /\
      NoDup (r_nodes r0) /\ NoDup (r_nodes r1))).
Definition whole (s : saved A) (d : device) : Prop :=
  1 <= d_dim d <= 3 /\ sv_coords A s <> [] /\ d_regions d <> [] /\
  Forall (fun p => whole_region (length (sv_coords A s)) (d_dim d) (snd p)) (d_regions d) /\
  Forall (fun p => whole_contact (d_dim d) (d_regions d) (snd p)) (d_contacts d) /\
  Forall2 (fun p q => whole_interface (d_dim d) (d_regions d) (snd p) (snd q)) (sv_interfaces A s) (d_interfaces d).
End Shown.

(* the same device; of an interface the regions and the nodes of both sides *)
Definition same_interface (x y : interface) : Prop :=
  i_region0 x = i_region0 y /\ i_region1 x = i_region1 y /\ i_nodes0 x = i_nodes0 y /\ i_nodes1 x = i_nodes1 y.
Definition restored (d d' : device) : Prop :=
  d_dim d' = d_dim d /\ d_regions d' = d_regions d /\ d_contacts d' = d_contacts d /\
  Forall2 (named same_interface) (d_interfaces d) (d_interfaces d').

(* What the regions, contacts and interfaces of an imported device contain, in terms of the elements
   els (lists of coordinate numbers, in any order) given for them. *)
From Coq Require Import String List Arith Sorting.Sorted.
Import ListNotations.
Require Import Verif.StrMap Verif.Adjacency Verif.Loader Verif.LoaderSpec Verif.AdjacencySpec.

(* a region: its nodes are the coordinates of its elements, in ascending order; its edges, triangles
   and tetrahedra are all those that make up its elements, each once *)
Record region_made (els : list (list nat)) (x : region) : Prop := {
  rm_sorted : StronglySorted lt (r_nodes x);
  rm_nodes : forall n, In n (r_nodes x) <-> exists s, In s els /\ In n s;
  rm_edges : lists (r_edges x) (part_of 2 els);
  rm_tris : lists (r_tris x) (part_of 3 els);
  rm_tets : lists (r_tets x) (part_of 4 els);
  rm_connected : Forall (@NoDup nat) els -> connected (r_edges x) (r_tris x) (r_tets x) (r_adj x) }.

(* a contact: its nodes are the coordinates of its elements, all of them nodes of its region; its
   edges and triangles are those of the region that are parts of its elements *)
Record contact_made (rs : smap region) (reg : string) (els rels : list (list nat)) (c : contact) : Prop := {
  cm_region : c_region c = reg;
  cm_sorted : StronglySorted lt (c_nodes c);
  cm_nodes : forall n, In n (c_nodes c) <-> exists s, In s els /\ In n s;
  cm_some : c_nodes c <> [];
  cm_on : exists x, find reg rs = Some x /\ (forall n, In n (c_nodes c) -> In n (r_nodes x)) /\
    (Forall (@NoDup nat) els -> Forall (@NoDup nat) rels ->
      (forall e, In e (c_edges c) <-> exists f, nth_error (r_edges x) e = Some f /\ part_of 2 els f) /\
      (forall e, In e (c_tris c) <-> exists f, nth_error (r_tris x) e = Some f /\ part_of 3 els f)) }.

(* an interface: the same nodes on both sides; edges and triangles in pairs of the same nodes *)
Record interface_made (rs : smap region) (reg0 reg1 : string) (els rels0 rels1 : list (list nat)) (i : interface) : Prop := {
  im_region0 : i_region0 i = reg0; im_region1 : i_region1 i = reg1;
  im_same : i_nodes1 i = i_nodes0 i;
  im_sorted : StronglySorted lt (i_nodes0 i);
  im_nodes : forall n, In n (i_nodes0 i) <-> exists s, In s els /\ In n s;
  im_some : i_nodes0 i <> [];
  im_on : exists x y, find reg0 rs = Some x /\ find reg1 rs = Some y /\
    (forall n, In n (i_nodes0 i) -> In n (r_nodes x) /\ In n (r_nodes y)) /\
    (Forall (@NoDup nat) els -> Forall (@NoDup nat) rels0 -> Forall (@NoDup nat) rels1 ->
      (forall a b, In (a, b) (i_edges i) <-> exists f, nth_error (r_edges x) a = Some f /\ nth_error (r_edges y) b = Some f /\ part_of 2 els f) /\
      (forall a b, In (a, b) (i_tris i) <-> exists f, nth_error (r_tris x) a = Some f /\ nth_error (r_tris y) b = Some f /\ part_of 3 els f)) }.

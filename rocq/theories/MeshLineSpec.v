(* What a valid one dimensional device is *)
From Coq Require Import String List Arith Reals Sorting.Sorted Sorting.Permutation.
From Verif Require Import MeshLine.
Import ListNotations.

(* the line with the tag is at coordinate i *)
Definition at_line (ls : list (@line R)) (coords : list R) (tag : string) (i : nat) : Prop :=
  exists b, In b ls /\ ltag b = tag /\ nth_error coords i = Some (pos b).
(* the coordinate of the node k of a region *)
Definition node_of (d : @device R) (r k : nat) (i : nat) : Prop :=
  exists x, nth_error (dv_regions d) r = Some x /\ nth_error (d_nodes x) k = Some i.

Record valid_device (ls : list (@line R)) (rs : list region) (cs is : list named) (d : @device R) : Prop := mkvalid {
  (* the coordinates increase *)
  v_coords : StronglySorted Rlt (dv_coords d);
  (* the regions together have one edge between each two neighbouring coordinates, from the first to the last, in order *)
  v_cells : flat_map (fun r => map (fun e => (nth (fst e) (d_nodes r) 0, nth (snd e) (d_nodes r) 0)) (d_edges r)) (dv_regions d)
            = map (fun k => (k, S k)) (seq 0 (length (dv_coords d) - 1));
  (* each region is an interval: consecutive nodes, joined by edges *)
  v_interval : forall r, In r (dv_regions d) -> exists a k, 1 <= k /\ d_nodes r = seq a (S k) /\ d_edges r = map (fun j => (j, S j)) (seq 0 k);
  (* the regions are those declared, between the lines of their tags *)
  v_regions : Permutation (map d_name (dv_regions d)) (map rname rs);
  v_ends : forall r, In r (dv_regions d) -> exists x, In x rs /\ rname x = d_name r /\
     let first := hd 0 (d_nodes r) in let final := last (d_nodes r) 0 in
     (at_line ls (dv_coords d) (rtag0 x) first /\ at_line ls (dv_coords d) (rtag1 x) final) \/
     (at_line ls (dv_coords d) (rtag1 x) first /\ at_line ls (dv_coords d) (rtag0 x) final);
  (* the contacts are those declared, at their tags, one at each end *)
  v_contacts : Forall2 (fun c e => dc_name e = nname c /\ exists i, node_of d (dc_region e) (dc_node e) i /\ at_line ls (dv_coords d) (ntag c) i) cs (dv_contacts d);
  v_both : exists a b, dv_contacts d = [a; b] /\
     ((node_of d (dc_region a) (dc_node a) 0 /\ node_of d (dc_region b) (dc_node b) (length (dv_coords d) - 1)) \/
      (node_of d (dc_region b) (dc_node b) 0 /\ node_of d (dc_region a) (dc_node a) (length (dv_coords d) - 1)));
  (* an interface joins each two neighbouring regions at the same coordinate *)
  v_joined : length (dv_interfaces d) = length (dv_regions d) - 1;
  v_interfaces : forall k j, nth_error (dv_interfaces d) k = Some j -> di_r0 j = k /\ di_r1 j = S k /\
     exists i a, node_of d (di_r0 j) (di_n0 j) i /\ node_of d (di_r1 j) (di_n1 j) i /\ In a is /\ nname a = di_name j /\ at_line ls (dv_coords d) (ntag a) i;
  (* and every interface declared is there *)
  v_declared : forall a, In a is -> exists j, In j (dv_interfaces d) /\ di_name j = nname a
}.

(* Model of the numbering of the global system: Newton.cc:51-127,
   Device.cc:259-307, Region.cc:1250-1284.  size_t arithmetic wraps at 2^64. *)
From Coq Require Import String List ZArith.
From Verif Require Import StrMap EqTable NodeKeeper.
Import ListNotations.
Open Scope Z_scope.

Definition w64 (x : Z) : Z := x mod 2 ^ 64.          (* size_t *)
Definition m1 : Z := 2 ^ 64 - 1.                      (* size_t(-1) *)

(* the parts of a region that matter: nodeList.size(), equation tables, baseeqnnum *)
Record region := mkRg { r_nodes : nat; r_table : table unit; r_base : Z }.
(* Device: regionList is a std::map by name *)
Definition device := smap region.
(* GlobalData deviceList is a std::map by name; the circuit *)
Record system := mkSys { s_devs : smap device; s_ckt : keeper }.

(* Region.cc:1270-1279 *)
Definition region_max (r : region) : Z := w64 (w64 (r_base r + Z.of_nat (t_num (r_table r)) * Z.of_nat (r_nodes r)) - 1).
(* Region.cc:1250-1259; None: dsAssert throws.  [i]: np->GetIndex() *)
Definition region_row (r : region) (idx i : nat) : option Z :=
  if (idx <? t_num (r_table r))%nat then
    if r_base r =? m1 then None
    else Some (w64 (r_base r + Z.of_nat idx * Z.of_nat (r_nodes r) + Z.of_nat i))
  else None.

(* Device.cc:266-307, the loop: regions with new bases, x, hasEquations *)
Fixpoint number_regions (x : Z) (regs : device) : device * Z * bool :=
  match regs with
  | nil => (nil, x, false)
  | (n, r) :: t =>
    match t_num (r_table r) with
    | O => let '(t', y, h) := number_regions x t in ((n, r) :: t', y, h)
    | _ => let r' := mkRg (r_nodes r) (r_table r) x in
           let '(t', y, _) := number_regions (w64 (region_max r' + 1)) t in ((n, r') :: t', y, true)
    end
  end.
Definition number_device (base : Z) (regs : device) : device * Z :=
  let '(t, x, h) := number_regions base regs in (t, if h then w64 (x - 1) else m1).
(* Newton.cc:66-105 *)
Fixpoint number_devices (eqnnum : Z) (devs : smap device) : smap device * Z :=
  match devs with
  | nil => (nil, eqnnum)
  | (n, d) :: t =>
    let (d', maxnum) := number_device eqnnum d in
    let next := if maxnum =? m1 then eqnnum else w64 (maxnum + 1) in
    let (t', y) := number_devices next t in ((n, d') :: t', y)
  end.
(* Newton.cc:107-126; the number of equations, or None if numbering the circuit throws *)
Definition number_system (s : system) : system * option Z :=
  let (devs, e) := number_devices 0 (s_devs s) in
  match k_nodes (s_ckt s) with
  | nil => (mkSys devs (s_ckt s), Some e)
  | _ => let (k, ok) := set_node_numbers (s_ckt s) (Z.to_nat e) in
         let maxnum := w64 (w64 (Z.of_nat (k_min k) + Z.of_nat (k_count k)) - 1) in   (* NodeKeeper.cc:188 *)
         (mkSys devs k, if ok then Some (w64 (maxnum + 1)) else None)
  end.

(* ---- rows of unknowns -------------------------------------------------------- *)
(* an unknown of the global system: an equation of a region at a node, or a circuit node *)
Inductive unknown := UBulk (dev reg eqn : string) (node : nat) | UCircuit (name : string).
Definition row_of (s : system) (u : unknown) : option Z :=
  match u with
  | UBulk d r e i =>
    match find d (s_devs s) with
    | None => None
    | Some dv => match find r dv with
      | None => None
      | Some rg => match equation_index (r_table rg) e with
        | None => None
        | Some idx => region_row rg idx i
        end
      end
    end
  | UCircuit n =>
    match find n (k_nodes (s_ckt s)) with
    | None => None
    | Some nd => match n_num nd with None => None | Some i => Some (w64 (Z.of_nat i + Z.of_nat (k_min (s_ckt s)))) end
    end
  end.

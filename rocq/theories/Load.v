(* Model of the loading of the global system: math/Newton.cc:129-143 (permutations),
   224-305 (LoadIntoMatrix, LoadIntoMatrixPermutated, LoadIntoRHS,
   LoadIntoRHSPermutated) and 307-369 (LoadMatrixAndRHS).
   The matrix is the list of its AddEntry operations (C03: the matrix is their sum).
   Simplifications: the assembled entries of devices, circuit and custom equations are
   given (they are modelled in Assembly.v, Contact.v, Circuit.v); row numbers are
   exact naturals; an access outside a vector or the matrix is UB. *)
From Coq Require Import List Bool Arith.
From Verif Require Import Assembly.
Import ListNotations.

Inductive out (A : Type) := OK (a : A) | Throw | UB.
Arguments OK {A}. Arguments Throw {A}. Arguments UB {A}.
Definition bind {A B} (o : out A) (f : A -> out B) : out B :=
  match o with OK a => f a | Throw => Throw | UB => UB end.

(* PermutationEntry.hh: row (None is size_t(-1)) and KeepCopy *)
Definition pentry := (option nat * bool)%type.
Definition permvec := list pentry.
(* Newton.cc:537-541, 647-651: every row stands for itself *)
Definition identity (n : nat) : permvec := map (fun i => (Some i, false)) (seq 0 n).
Fixpoint set_nth {A} (l : list A) (i : nat) (a : A) : option (list A) :=
  match l, i with
  | nil, _ => None
  | _ :: t, 0 => Some (a :: t)
  | h :: t, S i' => option_map (cons h) (set_nth t i' a)
  end.
(* Newton.cc:137-142; the std::map keeps the last entry of a row, as does the sequence *)
Fixpoint set_perms (pv : permvec) (p : list (nat * pentry)) : out permvec :=
  match p with
  | nil => OK pv
  | (row, e) :: t => match set_nth pv row e with Some pv' => set_perms pv' t | None => Throw end
  end.

Section Load.
Context {S : Type} (F : scalar S).

Record system := mkSys { sy_ops : mat_list S; sy_rhs : list S }.
Definition add_entry (n : nat) (s : system) (r c : nat) (v : S) : out system :=
  if ((r <? n) && (c <? n))%bool then OK (mkSys (sy_ops s ++ [(r, c, v)]) (sy_rhs s)) else UB.
Definition add_rhs (s : system) (r : nat) (v : S) : out system :=
  match nth_error (sy_rhs s) r with
  | None => UB
  | Some x => match set_nth (sy_rhs s) r (s_add F x v) with Some l => OK (mkSys (sy_ops s) l) | None => UB end
  end.
(* Newton.cc:224-236 *)
Fixpoint load_matrix (n : nat) (rcv : mat_list S) (scl : S) (offset : nat) (s : system) : out system :=
  match rcv with
  | nil => OK s
  | (r, c, v) :: t => bind (add_entry n s (r + offset) (c + offset) (s_mul F scl v)) (load_matrix n t scl offset)
  end.
(* Newton.cc:238-267 (offset is always 0) *)
Fixpoint load_matrix_perm (n : nat) (pv : permvec) (rcv : mat_list S) (scl : S) (s : system) : out system :=
  match rcv with
  | nil => OK s
  | (r, c, v) :: t =>
    match nth_error pv r with
    | None => UB
    | Some (None, _) => load_matrix_perm n pv t scl s
    | Some (Some row, keep) =>
      bind (add_entry n s row c (s_mul F scl v)) (fun s1 =>
      bind (if keep then add_entry n s1 r c (s_mul F scl v) else OK s1) (load_matrix_perm n pv t scl))
    end
  end.
(* Newton.cc:269-280; rhssign is -1 (Newton.hh:236) *)
Definition rhssign : S := s_opp F (s_one F).
Fixpoint load_rhs (r : rhs_list S) (scl : S) (offset : nat) (s : system) : out system :=
  match r with
  | nil => OK s
  | (row, v) :: t => bind (add_rhs s (row + offset) (s_mul F (s_mul F scl rhssign) v)) (load_rhs t scl offset)
  end.
(* Newton.cc:282-305 *)
Fixpoint load_rhs_perm (pv : permvec) (r : rhs_list S) (scl : S) (s : system) : out system :=
  match r with
  | nil => OK s
  | (row0, v) :: t =>
    match nth_error pv row0 with
    | None => UB
    | Some (None, _) => load_rhs_perm pv t scl s
    | Some (Some row, keep) =>
      bind (add_rhs s row (s_mul F (s_mul F scl rhssign) v)) (fun s1 =>
      bind (if keep then add_rhs s1 row0 (s_mul F (s_mul F scl rhssign) v) else OK s1) (load_rhs_perm pv t scl))
    end
  end.

(* what a device assembles: contacts and interfaces, then bulk *)
Record device := mkDev { d_perms : list (nat * pentry); d_bm : mat_list S; d_bv : rhs_list S; d_m : mat_list S; d_v : rhs_list S }.
(* circuit rows are relative to its first equation; custom equations permuted (pm, pv) and not (m, v) *)
Record parts := mkParts { p_devices : list device; p_circuit : option (nat * (mat_list S * rhs_list S));
  p_pm : mat_list S; p_pv : rhs_list S; p_m : mat_list S; p_v : rhs_list S }.
(* Newton.cc:307-344 with w = PERMUTATIONSONLY *)
Fixpoint load_perms (pv : permvec) (ds : list device) : out permvec :=
  match ds with nil => OK pv | d :: t => bind (set_perms pv (d_perms d)) (fun pv' => load_perms pv' t) end.
(* Newton.cc:325-344 otherwise (contacts and interfaces yield no permutations then) *)
Fixpoint load_devices (n : nat) (pv : permvec) (ds : list device) (scl : S) (s : system) : out system :=
  match ds with
  | nil => OK s
  | d :: t =>
    bind (load_matrix n (d_bm d) scl 0 s) (fun s1 =>
    bind (load_rhs (d_bv d) scl 0 s1) (fun s2 =>
    bind (load_matrix_perm n pv (d_m d) scl s2) (fun s3 =>
    bind (load_rhs_perm pv (d_v d) scl s3) (load_devices n pv t scl))))
  end.
Definition load_circuit (n : nat) (c : option (nat * (mat_list S * rhs_list S))) (scl : S) (s : system) : out system :=
  match c with
  | None => OK s
  | Some (offset, (m, v)) => bind (load_matrix n m scl offset s) (load_rhs v scl offset)
  end.
(* Newton.cc:307-369 *)
Definition load_system (n : nat) (pv : permvec) (p : parts) (scl : S) (s : system) : out system :=
  bind (load_devices n pv (p_devices p) scl s) (fun s1 =>
  bind (load_circuit n (p_circuit p) scl s1) (fun s2 =>
  bind (load_matrix_perm n pv (p_pm p) scl s2) (fun s3 =>
  bind (load_rhs_perm pv (p_pv p) scl s3) (fun s4 =>
  bind (load_matrix n (p_m p) scl 0 s4) (load_rhs (p_v p) scl 0))))).
(* Newton.cc:640-693: permutations, then the system of one iteration *)
Definition load (n : nat) (p : parts) (scl : S) : out system :=
  bind (load_perms (identity n) (p_devices p)) (fun pv =>
  load_system n pv p scl (mkSys [] (repeat (s_zero F) n))).
(* Newton.cc:686-704, transient: the static part scaled by b0 and, unless a0 is zero,
   the time part scaled by a0, on top of the constant part of the history *)
Definition load_transient (n : nat) (dc time : parts) (b0 a0 : S) (a0_zero : bool) (const : list S) : out system :=
  bind (load_perms (identity n) (p_devices dc)) (fun pv =>
  bind (load_system n pv dc b0 (mkSys [] const)) (fun s =>
  if a0_zero then OK s else load_system n pv time a0 s)).
End Load.
Arguments system : clear implicits.
Arguments parts : clear implicits.
Arguments device : clear implicits.

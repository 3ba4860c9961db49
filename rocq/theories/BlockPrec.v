(* Model of the block preconditioner of the iterative solver: BlockPreconditioner.cc:27-44
   (SpecialSort), 72-122 (CreateBlockInfo), 124-240 (ProcessBlockInfo), 284-312 (DerivedLUFactor,
   up to the factorization); BlockPreconditioner.hh:20-58 (BlockInfo).
   The matrix is the list of its entries (row, column, value) in column order; AddEntry appends.
   Simplifications: exact reals; the factorization of the block matrix and the printed counts are
   left out. *)
From Coq Require Import String List ZArith Reals Bool.
From Verif Require Import StrMap EqTable Numbering.
Import ListNotations.
Open Scope Z_scope.

Local Notation entry := (Z * Z * R)%type.
(* BlockPreconditioner.hh:20-58 *)
Record block := mkB { b_min : Z; b_max : Z; b_lo : Z; b_hi : Z }.
Definition block_eqb (a b : block) : bool :=
  (b_min a =? b_min b) && (b_max a =? b_max b) && (b_lo a =? b_lo b) && (b_hi a =? b_hi b).

(* an index outside of a vector is undefined behaviour; Assert: dsAssert throws *)
Inductive outcome (A : Type) := Ok (a : A) | OutOfBounds | Assert.
Arguments Ok {A}. Arguments OutOfBounds {A}. Arguments Assert {A}.

(* BlockPreconditioner.cc:89-106 *)
Definition region_blocks (rg : region) : list block :=
  if r_base rg =? m1 then [] else
    map (fun i => let eqmin := w64 (r_base rg + Z.of_nat i * Z.of_nat (r_nodes rg)) in
                  mkB eqmin (w64 (eqmin + Z.of_nat (r_nodes rg) - 1)) (r_base rg) (region_max rg))
        (seq 0 (t_num (r_table rg))).
(* BlockPreconditioner.cc:75-108 *)
Definition create_blocks (devs : smap device) : list block :=
  flat_map (fun d => flat_map (fun r => region_blocks (snd r)) (snd d)) devs.
(* BlockPreconditioner.cc:110 with BlockInfo::operator<; None: two blocks begin at the same row
   and differ.  Which order std::sort gives to equal blocks does not matter. *)
Fixpoint insert (b : block) (l : list block) : option (list block) :=
  match l with
  | [] => Some [b]
  | a :: t => if b_min b <? b_min a then Some (b :: l)
              else if (b_min b =? b_min a) && negb (block_eqb b a) then None
              else match insert b t with Some t' => Some (a :: t') | None => None end
  end.
Fixpoint sort_blocks (l : list block) : option (list block) :=
  match l with
  | [] => Some []
  | b :: t => match sort_blocks t with Some t' => insert b t' | None => None end
  end.
(* BlockPreconditioner.cc:112-121: the block of an equation number, None for size_t(-1) *)
Fixpoint assign (size : Z) (i : nat) (l : list block) (f : Z -> option nat) : outcome (Z -> option nat) :=
  match l with
  | [] => Ok f
  | b :: t => if (b_min b <=? b_max b) && (size <=? b_max b) then OutOfBounds
              else assign size (S i) t (fun j => if (b_min b <=? j) && (j <=? b_max b) then Some i else f j)
  end.

(* BlockPreconditioner.cc:142-184: [Direct] is added at once, [Group] goes to entries_per_block *)
Inductive place := Direct | Group (rb cb : option nat).
Definition onat_eqb (a b : option nat) : bool :=
  match a, b with Some x, Some y => (x =? y)%nat | None, None => true | _, _ => false end.
Definition classify (blocks : list block) (f : Z -> option nat) (e : entry) : option place :=
  let '(r, c, _) := e in
  let rb := f r in let cb := f c in
  if onat_eqb rb cb then Some (Group rb cb) else
  match rb with
  | None => None                                        (* blockInfoList_[size_t(-1)] *)
  | Some k => match nth_error blocks k with
    | None => None
    | Some b => Some (if (b_lo b <=? c) && (c <=? b_hi b) then Group rb cb else Direct)
    end
  end.
Fixpoint classify_all (blocks : list block) (f : Z -> option nat) (l : list entry) : option (list (place * entry)) :=
  match l with
  | [] => Some []
  | e :: t => match classify blocks f e with
    | None => None
    | Some p => match classify_all blocks f t with Some ps => Some ((p, e) :: ps) | None => None end
    end
  end.
Definition group_of (p : place) : option (option nat * option nat) := match p with Direct => None | Group a b => Some (a, b) end.
Definition key_dec : forall a b : option nat * option nat, {a = b} + {a <> b}.
Proof. repeat decide equality. Defined.
Definition in_group (k : option nat * option nat) (p : place * entry) : bool :=
  match group_of (fst p) with Some k' => if key_dec k k' then true else false | None => false end.
Definition is_direct (p : place * entry) : bool := match fst p with Direct => true | _ => false end.

(* BlockPreconditioner.cc:195-227; drop_tolerance_ = 0.5 *)
Fixpoint drop (last : Z) (tol : R) (done : bool) (l : list entry) : list entry :=
  match l with
  | [] => []
  | (row, col, val) :: t =>
    let tol' := if row =? last then tol else (/ 2 * Rabs val)%R in
    let done' := if row =? last then done else false in
    if done' then drop row tol' true t
    else if (if Rlt_dec (Rabs val) tol' then true else false) && negb (row =? col) then drop row tol' true t
    else (row, col, val) :: drop row tol' false t
  end.

(* BlockPreconditioner.cc:124-240; [sorter]: std::sort with SpecialSort *)
Definition process (sorter : list entry -> list entry) (blocks : list block) (f : Z -> option nat) (m : list entry) : outcome (list entry) :=
  match classify_all blocks f m with
  | None => OutOfBounds
  | Some ps =>
    let keys := nodup key_dec (flat_map (fun p => match group_of (fst p) with Some k => [k] | None => [] end) ps) in
    Ok (map snd (filter is_direct ps) ++ flat_map (fun k => drop (-1) 0%R false (sorter (map snd (filter (in_group k) ps)))) keys)
  end.
(* BlockPreconditioner.cc:284-309: the block matrix for the matrix [m] of [size] equations *)
Definition block_matrix (sorter : list entry -> list entry) (devs : smap device) (size : Z) (m : list entry) : outcome (list entry) :=
  match sort_blocks (create_blocks devs) with
  | None => Assert
  | Some blocks => match assign size 0 blocks (fun _ => None) with
    | Ok f => process sorter blocks f m
    | OutOfBounds => OutOfBounds
    | Assert => Assert
    end
  end.

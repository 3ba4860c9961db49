(* Model of /repo/src/math/CompressedMatrix.cc, CompressedMatrix.hh
   (CompressedMatrix<DoubleType>).  The scalar type is a parameter, with the
   three operations the code uses: zero (DTZERO), +=, and comparison with zero.
   [None] is undefined behaviour (vector access out of bounds).
   std::map / std::unordered_map are association lists. *)
From Coq Require Import List Arith Bool.
Import ListNotations.

Section CMatrix.
  Variable V : Type.
  Variable zero : V.
  Variable add : V -> V -> V.
  Variable iszero : V -> bool.     (* v == DTZERO *)

  (* ---- maps keyed by int ---- *)
  Fixpoint aget {B} (k : nat) (m : list (nat * B)) : option B :=
    match m with
    | [] => None
    | (k', b) :: r => if Nat.eqb k k' then Some b else aget k r
    end.
  (* operator[] assignment *)
  Fixpoint aset {B} (k : nat) (b : B) (m : list (nat * B)) : list (nat * B) :=
    match m with
    | [] => [(k, b)]
    | (k', b') :: r => if Nat.eqb k k' then (k, b) :: r else (k', b') :: aset k b r
    end.
  (* insert(make_pair(k,b)): no effect if the key is present *)
  Definition ainsert {B} (k : nat) (b : B) (m : list (nat * B)) : list (nat * B) :=
    match aget k m with Some _ => m | None => m ++ [(k, b)] end.

  (* vector element replacement; None: out of bounds *)
  Fixpoint vset {B} (l : list B) (i : nat) (b : B) : option (list B) :=
    match l, i with
    | [], _ => None
    | _ :: r, O => Some (b :: r)
    | a :: r, S i => match vset r i b with Some r' => Some (a :: r') | None => None end
    end.

  (* CompressedMatrix.hh:105-119 *)
  Record mat := {
    msize : nat;                       (* Matrix::size_ *)
    cplx : bool;                       (* matType_ == COMPLEX *)
    crm : bool;                        (* compressionType_ == CRM *)
    sym : list (list (nat * nat));     (* Symbolic_ *)
    oob : bool -> list (list (nat * V)); (* OutOfBandEntries_Real (false), _Imag (true) *)
    ap : list nat;                     (* Ap_ *)
    ai : list nat;                     (* Ai_ *)
    ax : bool -> list V;               (* Ax_ (false), Az_ (true) *)
    compressed : bool;
    new_symbolic : bool                (* symbolicstatus_ == NEW_SYMBOLIC *)
  }.

  Definition upd {B} (f : bool -> B) (ch : bool) (b : B) : bool -> B :=
    fun c => if Bool.eqb c ch then b else f c.

  (* CompressedMatrix.cc:82-90 constructor *)
  Definition mnew (n : nat) (complex isCRM : bool) : mat :=
    {| msize := n; cplx := complex; crm := isCRM;
       sym := repeat [] n;
       oob := fun ch => if ch then (if complex then repeat [] n else []) else repeat [] n;
       ap := []; ai := []; ax := fun _ => [];
       compressed := false; new_symbolic := true |}.

  (* CompressedMatrix.cc:140-145 std::sort of one column of Ai_ (any correct
     sort gives the same result, the keys are distinct) *)
  Fixpoint insert_sorted (k : nat) (l : list nat) : list nat :=
    match l with
    | [] => [k]
    | a :: r => if k <=? a then k :: l else a :: insert_sorted k r
    end.
  Fixpoint sort_nat (l : list nat) : list nat :=
    match l with [] => [] | a :: r => insert_sorted a (sort_nat r) end.

  (* CompressedMatrix.cc:147-151: rivec[Ai_[i]] = i for rb <= i < r *)
  Fixpoint number_col (keys : list nat) (pos : nat) (m : list (nat * nat)) : list (nat * nat) :=
    match keys with
    | [] => m
    | k :: r => number_col r (S pos) (aset k pos m)
    end.

  (* CompressedMatrix.cc:123-153: the loop over the columns; returns
     (Ap_, Ai_, Symbolic_) for the columns from the current one on *)
  Fixpoint create_cols (cols : list (list (nat * nat))) (r : nat)
    : list nat * list nat * list (list (nat * nat)) :=
    match cols with
    | [] => ([r], [], [])                                   (* :153 *)
    | m :: rest =>
        let keys := sort_nat (map fst m) in
        match create_cols rest (r + length keys) with
        | (ps, is, ms) => (r :: ps, keys ++ is, number_col keys r m :: ms)
        end
    end.

  (* CompressedMatrix.cc:112-166 CreateMatrix *)
  Definition create_matrix (s : mat) : mat :=
    match create_cols (sym s) 0 with
    | (ps, is, ms) =>
      {| msize := msize s; cplx := cplx s; crm := crm s; sym := ms; oob := oob s;
         ap := ps; ai := is;
         ax := fun ch => if ch then (if cplx s then repeat zero (length is) else ax s true)
                         else repeat zero (length is);
         compressed := true; new_symbolic := new_symbolic s |}
    end.

  (* CompressedMatrix.cc:292-294 / 286-287 (343-345, 337-338 for the imaginary
     part): AddSymbolicImpl and OutOfBandEntries[r][c] += v *)
  Definition add_oob (ch : bool) (s : mat) (r c : nat) (v : V) : option mat :=
    match nth_error (sym s) c, nth_error (oob s ch) r with
    | Some col, Some row =>
      let old := match aget c row with Some x => x | None => zero end in
      match vset (sym s) c (ainsert r 0 col), vset (oob s ch) r (aset c (add old v) row) with
      | Some sym', Some oob' =>
        Some {| msize := msize s; cplx := cplx s; crm := crm s; sym := sym';
                oob := upd (oob s) ch oob'; ap := ap s; ai := ai s; ax := ax s;
                compressed := compressed s; new_symbolic := new_symbolic s |}
      | _, _ => None
      end
    | _, _ => None
    end.

  (* CompressedMatrix.cc:281, 332: Ax_[p] += v *)
  Definition add_ax (ch : bool) (s : mat) (p : nat) (v : V) : option mat :=
    match nth_error (ax s ch) p with
    | Some old =>
      match vset (ax s ch) p (add old v) with
      | Some x => Some {| msize := msize s; cplx := cplx s; crm := crm s; sym := sym s;
                oob := oob s; ap := ap s; ai := ai s; ax := upd (ax s) ch x;
                compressed := compressed s; new_symbolic := new_symbolic s |}
      | None => None
      end
    | None => None
    end.

  (* AddEntryImpl / AddImagEntryImpl while not compressed (268-271, 290-295) *)
  Definition add_uncompressed (ch : bool) (s : mat) (r c : nat) (v : V) : option mat :=
    if iszero v then Some s else add_oob ch s r c v.

  (* fold with failure *)
  Fixpoint ofold {A S} (f : S -> A -> option S) (l : list A) (s : S) : option S :=
    match l with
    | [] => Some s
    | a :: r => match f s a with Some s' => ofold f r s' | None => None end
    end.

  (* CompressedMatrix.cc:402-405, 408-415: entries j in [beg,end) of column i *)
  Definition dec_range (ch : bool) (s0 : mat) (i beg en : nat) (s : mat) : option mat :=
    ofold (fun s j =>
             match nth_error (ai s0) j, nth_error (ax s0 ch) j with
             | Some r, Some v => add_uncompressed ch s r i v
             | _, _ => None
             end) (seq beg (en - beg)) s.

  (* CompressedMatrix.cc:398-417 one column *)
  Definition dec_col (s0 s : mat) (i : nat) : option mat :=
    match nth_error (ap s0) i, nth_error (ap s0) (S i) with
    | Some b, Some e =>
      match dec_range false s0 i b e s with
      | Some s' => if cplx s0 then dec_range true s0 i b e s' else Some s'
      | None => None
      end
    | _, _ => None
    end.

  Definition with_compressed (s : mat) (b : bool) : mat :=
    {| msize := msize s; cplx := cplx s; crm := crm s; sym := sym s; oob := oob s;
       ap := ap s; ai := ai s; ax := ax s; compressed := b; new_symbolic := new_symbolic s |}.

  (* CompressedMatrix.cc:381-421 DecompressMatrix *)
  Definition decompress (s : mat) : option mat :=
    if compressed s then
      match ofold (dec_col s) (seq 0 (length (ap s) - 1)) (with_compressed s false) with
      | Some s' => Some {| msize := msize s'; cplx := cplx s'; crm := crm s'; sym := sym s';
                       oob := oob s'; ap := ap s'; ai := []; ax := fun _ => [];
                       compressed := false; new_symbolic := new_symbolic s' |}
      | None => None
      end
    else Some s.

  (* CompressedMatrix.cc:261-296 AddEntryImpl (ch = false),
     313-347 AddImagEntryImpl (ch = true) *)
  Definition add_impl (ch : bool) (s : mat) (r c : nat) (v : V) : option mat :=
    if iszero v then Some s
    else if compressed s then
      match nth_error (sym s) c with
      | None => None
      | Some col =>
        match aget r col with
        | Some p => add_ax ch s p v
        | None => match decompress s with
                  | Some s' => add_oob ch s' r c v
                  | None => None
                  end
        end
      end
    else add_oob ch s r c v.

  (* CompressedMatrix.cc:299-309 AddEntry, 350-360 AddImagEntry *)
  Definition add_entry (ch : bool) (s : mat) (r c : nat) (v : V) : option mat :=
    if crm s then add_impl ch s c r v else add_impl ch s r c v.

  (* CompressedMatrix.cc:364-378 AddEntry for a complex value *)
  Definition add_complex (s : mat) (r c : nat) (re im : V) : option mat :=
    match (if iszero re then Some s else add_entry false s r c re) with
    | Some s' => if iszero im then Some s' else add_entry true s' r c im
    | None => None
    end.

  (* CompressedMatrix.cc:432-440, 446-454: move the out of band entries of one
     channel into the compressed matrix.  The container traversed is a snapshot:
     AddEntryImpl does not touch it, every entry being in the pattern. *)
  Definition flush (ch : bool) (s : mat) : option mat :=
    ofold (fun s (p : nat * list (nat * V)) =>
             ofold (fun s (e : nat * V) => add_impl ch s (fst p) (fst e) (snd e)) (snd p) s)
      (combine (seq 0 (length (oob s ch))) (oob s ch)) s.

  (* CompressedMatrix.cc:441-442, 455-456: clear(); resize(size()) *)
  Definition reset_oob (ch : bool) (n : nat) (s : mat) : mat :=
    {| msize := msize s; cplx := cplx s; crm := crm s; sym := sym s;
       oob := upd (oob s) ch (repeat [] n); ap := ap s; ai := ai s; ax := ax s;
       compressed := compressed s; new_symbolic := new_symbolic s |}.

  Definition with_status (s : mat) (b : bool) : mat :=
    {| msize := msize s; cplx := cplx s; crm := crm s; sym := sym s; oob := oob s;
       ap := ap s; ai := ai s; ax := ax s; compressed := compressed s; new_symbolic := b |}.

  (* CompressedMatrix.cc:425-463 Finalize *)
  Definition finalize (s : mat) : option mat :=
    if compressed s then Some (with_status s false)
    else
      match flush false (create_matrix (with_status s true)) with
      | None => None
      | Some s1 =>
        let s2 := reset_oob false (msize s) s1 in
        if cplx s then
          match flush true s2 with
          | None => None
          | Some s3 => Some (reset_oob true (msize s) s3)
          end
        else Some s2
      end.

  (* CompressedMatrix.cc:466-485 ClearMatrix; note the size given to
     OutOfBandEntries: the number of stored values, not the dimension *)
  Definition clear (s : mat) : option mat :=
    let sz := length (ax s false) in
    let s1 := {| msize := msize s; cplx := cplx s; crm := crm s; sym := sym s;
       oob := upd (oob s) false (repeat [] sz); ap := ap s; ai := ai s;
       ax := upd (ax s) false (repeat zero sz);
       compressed := compressed s; new_symbolic := new_symbolic s |} in
    Some (if cplx s then
       {| msize := msize s1; cplx := cplx s1; crm := crm s1; sym := sym s1;
       oob := upd (oob s1) true (repeat [] sz); ap := ap s1; ai := ai s1;
       ax := upd (ax s1) true (repeat zero sz);
       compressed := compressed s1; new_symbolic := new_symbolic s1 |}
       else s1).

  (* the public operations *)
  Inductive op :=
  | Add (imag : bool) (r c : nat) (v : V)        (* AddEntry / AddImagEntry *)
  | AddComplex (r c : nat) (re im : V)
  | Finalize
  | Clear.

  Definition step (s : mat) (o : op) : option mat :=
    match o with
    | Add ch r c v => add_entry ch s r c v
    | AddComplex r c re im => add_complex s r c re im
    | Finalize => finalize s
    | Clear => clear s
    end.

  Definition run (ops : list op) (s : mat) : option mat := ofold step ops s.

  (* ---- products, CompressedMatrix.cc:487-576 ---- *)
  Variable mul : V -> V -> V.

  (* CompressedMatrix.cc:491-512 ColScaleMultiply *)
  Definition col_scale_multiply (cols rows : list nat) (vals x : list V) : option (list V) :=
    ofold (fun y c =>
        match nth_error x c, nth_error cols c, nth_error cols (S c) with
        | Some scale, Some rl, Some rh =>
          ofold (fun y rit =>
              match nth_error rows rit, nth_error vals rit with
              | Some r, Some v =>
                match nth_error y r with
                | Some old => vset y r (add old (mul scale v))
                | None => None
                end
              | _, _ => None
              end) (seq rl (rh - rl)) y
        | _, _, _ => None
        end) (seq 0 (length cols - 1)) (repeat zero (length x)).

  (* CompressedMatrix.cc:517-539 RowScaleMultiply *)
  Definition row_scale_multiply (rows cols : list nat) (vals x : list V) : option (list V) :=
    ofold (fun y r =>
        match nth_error rows r, nth_error rows (S r), nth_error y r with
        | Some cl, Some ch, Some _ =>
          ofold (fun y cit =>
              match nth_error cols cit, nth_error vals cit with
              | Some c, Some v =>
                match nth_error x c, nth_error y r with
                | Some xv, Some old => vset y r (add old (mul v xv))
                | _, _ => None
                end
              | _, _ => None
              end) (seq cl (ch - cl)) y
        | _, _, _ => None
        end) (seq 0 (length rows - 1)) (repeat zero (length x)).

  (* CompressedMatrix.cc:180-219 GetCols, GetRows *)
  Definition get_cols (s : mat) : list nat := if crm s then ai s else ap s.
  Definition get_rows (s : mat) : list nat := if crm s then ap s else ai s.

  (* CompressedMatrix.cc:543-558 Multiply (real) *)
  Definition multiply (s : mat) (x : list V) : option (list V) :=
    if crm s then row_scale_multiply (get_rows s) (get_cols s) (ax s false) x
    else col_scale_multiply (get_cols s) (get_rows s) (ax s false) x.

  (* CompressedMatrix.cc:561-576 TransposeMultiply (real), arguments in the
     order the code passes them *)
  Definition transpose_multiply (s : mat) (x : list V) : option (list V) :=
    if crm s then col_scale_multiply (get_cols s) (get_rows s) (ax s false) x
    else row_scale_multiply (get_rows s) (get_cols s) (ax s false) x.
End CMatrix.

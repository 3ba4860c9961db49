(* C03-C06: the sparse system matrix.
   The scalar type is arbitrary, subject to [scalar_laws] (CMatrixSpec.v), which
   C03_scalar_laws_double establishes for IEEE doubles.  [run ops (mnew n cx crm)]
   is the matrix after an arbitrary sequence of API calls; None is undefined
   behaviour (a vector access out of bounds). *)
From Coq Require Import List Arith Bool ZArith Lia.
From Flocq Require Import IEEE754.BinarySingleNaN.
From Verif Require Import CMatrix CMatrixSpec CMatrixRun CMatrixMul CMatrixFloat.
Import ListNotations.

(* C03: after any history and a Finalize, the stored value at (r,c) is the sum of
   everything added there since the last Clear, in the order it was added, and
   positions never written hold nothing *)
Theorem C03_accumulation : forall (V : Type) (zero : V) add iszero,
  scalar_laws V zero add iszero ->
  forall n cx isCRM ops s, in_range V n ops ->
  run V zero add iszero (ops ++ [Finalize V]) (mnew V n cx isCRM) = Some s ->
  forall r c, r < n -> c < n ->
  (touched V iszero ops r c = true ->
     exists p, slot isCRM (ap V s) (ai V s) r c p /\
       (forall q, slot isCRM (ap V s) (ai V s) r c q -> q = p) /\
       forall ch, (ch = true -> cx = true) ->
         nth_error (ax V s ch) p = Some (accumulated V zero add iszero ops ch r c)) /\
  (touched V iszero ops r c = false ->
     (forall p, ~ slot isCRM (ap V s) (ai V s) r c p) /\
     forall ch, accumulated V zero add iszero ops ch r c = zero).
Proof. intros V zero add iszero (A & B & C). exact (c03_lemma V zero add iszero A B C). Qed.
Print Assumptions C03_accumulation.

Theorem C03_scalar_laws_double : scalar_laws double dzero dadd deqz.
Proof. exact (conj deqz_zero (conj dadd_zero dadd_canon)). Qed.
Print Assumptions C03_scalar_laws_double.

Theorem C03_scalar_laws_int : scalar_laws Z 0%Z Z.add (Z.eqb 0).
Proof.
  split; [reflexivity|]. split; [reflexivity|].
  intros a v _ H. apply Z.eqb_eq in H. auto.
Qed.
Print Assumptions C03_scalar_laws_int.

(* a history with an entry added after compression (forcing a decompression), a
   cancelled entry, a clear and an imaginary part *)
Definition C03_ops : list (op Z) :=
  [Add Z false 0 0 2; Add Z false 1 0 3; Finalize Z; Add Z false 0 0 5; Add Z false 0 1 7;
   AddComplex Z 1 1 4 9; Finalize Z; Add Z false 1 0 (-3)]%Z.
Example C03_ex : exists s,
  run Z 0%Z Z.add (Z.eqb 0) (C03_ops ++ [Finalize Z]) (mnew Z 2 true false) = Some s /\
  in_range Z 2 C03_ops /\
  accumulated Z 0%Z Z.add (Z.eqb 0) C03_ops false 0 0 = 7%Z /\
  accumulated Z 0%Z Z.add (Z.eqb 0) C03_ops true 1 1 = 9%Z /\
  ap Z s = [0; 2; 4] /\ ai Z s = [0; 1; 0; 1] /\ ax Z s false = [7; 0; 7; 4]%Z /\ ax Z s true = [0; 0; 0; 9]%Z.
Proof.
  eexists. split; [vm_compute; reflexivity|]. split.
  - intros ch r c v I. cbn in I.
    repeat (destruct I as [I|I]; [inversion I; subst; lia|]). destruct I.
  - repeat split; vm_compute; reflexivity.
Qed.

(* C04: the structure handed to the direct solver is a well formed compressed
   column (row) structure: sorted, duplicate free, in range, values aligned *)
Theorem C04_well_formed : forall (V : Type) (zero : V) add iszero,
  scalar_laws V zero add iszero ->
  forall n cx isCRM ops s, in_range V n ops ->
  run V zero add iszero (ops ++ [Finalize V]) (mnew V n cx isCRM) = Some s ->
  well_formed n (ap V s) (ai V s) /\
  forall ch, (ch = true -> cx = true) -> length (ax V s ch) = length (ai V s).
Proof. intros V zero add iszero (A & B & C). exact (c04_lemma V zero add iszero A B C). Qed.
Print Assumptions C04_well_formed.

(* C04: when the matrix reports SAME_SYMBOLIC, so that the solver reuses its
   symbolic factorisation, the structure is that of the previous Finalize *)
Theorem C04_same_symbolic : forall (V : Type) (zero : V) add iszero,
  scalar_laws V zero add iszero ->
  forall n cx isCRM ops1 ops2 s1 s2, in_range V n (ops1 ++ ops2) ->
  (forall o, In o ops2 -> o <> Finalize V) ->
  run V zero add iszero (ops1 ++ [Finalize V]) (mnew V n cx isCRM) = Some s1 ->
  run V zero add iszero (ops1 ++ [Finalize V] ++ ops2 ++ [Finalize V]) (mnew V n cx isCRM) = Some s2 ->
  new_symbolic V s2 = false ->
  ap V s2 = ap V s1 /\ ai V s2 = ai V s1.
Proof. intros V zero add iszero (A & B & C). exact (same_symbolic_lemma V zero add iszero A B C). Qed.
Print Assumptions C04_same_symbolic.

Example C04_same_symbolic_ex : exists s,
  run Z 0%Z Z.add (Z.eqb 0)
    ([Add Z false 0 0 2; Add Z false 1 1 3]%Z ++ [Finalize Z] ++ [Clear Z; Add Z false 1 1 4%Z] ++ [Finalize Z])
    (mnew Z 2 false false) = Some s /\ new_symbolic Z s = false /\ ax Z s false = [0; 4]%Z.
Proof. eexists. split; [vm_compute; reflexivity|]. split; vm_compute; reflexivity. Qed.

(* C05: Multiply is the product with the accumulated matrix: component r is the
   sum over the columns c, in increasing order, of A(r,c) x(c), over the positions
   that were ever written (the others being exactly zero by C03) *)
Theorem C05_multiply : forall (V : Type) (zero : V) add mul iszero,
  scalar_laws V zero add iszero -> (forall a b, mul a b = mul b a) ->
  forall n cx isCRM ops s x, in_range V n ops ->
  run V zero add iszero (ops ++ [Finalize V]) (mnew V n cx isCRM) = Some s ->
  length x = n ->
  exists y, multiply V zero add mul s x = Some y /\ length y = n /\
    forall r, r < n -> nth r y zero =
      fold_left (fun acc c => if touched V iszero ops r c
                              then add acc (mul (accumulated V zero add iszero ops false r c) (nth c x zero))
                              else acc) (seq 0 n) zero.
Proof.
  intros V zero add mul iszero (A & B & C) M.
  exact (c05_lemma V zero add mul iszero A B C M).
Qed.
Print Assumptions C05_multiply.

Theorem C05_mul_comm_double : forall a b, dmul a b = dmul b a.
Proof. exact dmul_comm. Qed.
Print Assumptions C05_mul_comm_double.

(* over the integers, where zero terms vanish: the usual matrix-vector product *)
Theorem C05_multiply_int : forall n cx isCRM ops s x, in_range Z n ops ->
  run Z 0%Z Z.add (Z.eqb 0) (ops ++ [Finalize Z]) (mnew Z n cx isCRM) = Some s ->
  length x = n ->
  exists y, multiply Z 0%Z Z.add Z.mul s x = Some y /\ length y = n /\
    forall r, r < n -> nth r y 0%Z =
      fold_right Z.add 0%Z
        (map (fun c => accumulated Z 0%Z Z.add (Z.eqb 0) ops false r c * nth c x 0)%Z (seq 0 n)).
Proof. exact c05_int_lemma. Qed.
Print Assumptions C05_multiply_int.

Example C05_ex : exists s,
  run Z 0%Z Z.add (Z.eqb 0) (C03_ops ++ [Finalize Z]) (mnew Z 2 true false) = Some s /\
  multiply Z 0%Z Z.add Z.mul s [1; 10]%Z = Some [77; 40]%Z.
Proof. eexists. split; vm_compute; reflexivity. Qed.

(* C05, the transposed product, is false of the code: it passes row and column
   arrays the wrong way round.  A 1 x 1 matrix [5] times [1] gives [0]; a full
   2 x 2 matrix reads out of bounds. *)
Theorem C05_transpose_refuted :
  (exists s, run Z 0%Z Z.add (Z.eqb 0) [Add Z false 0 0 5%Z; Finalize Z] (mnew Z 1 false false) = Some s /\
     transpose_multiply Z 0%Z Z.add Z.mul s [1%Z] = Some [0%Z]) /\
  (exists s, run Z 0%Z Z.add (Z.eqb 0)
       [Add Z false 0 0 1; Add Z false 0 1 2; Add Z false 1 0 3; Add Z false 1 1 4; Finalize Z]%Z
       (mnew Z 2 false false) = Some s /\
     transpose_multiply Z 0%Z Z.add Z.mul s [1; 1]%Z = None).
Proof. split; eexists; (split; [vm_compute; reflexivity|vm_compute; reflexivity]). Qed.
Print Assumptions C05_transpose_refuted.

(* C06: every history in which the matrix is only cleared right after a Finalize
   with a full diagonal is free of out of bounds accesses *)
Theorem C06_safe_partial : forall (V : Type) (zero : V) add iszero,
  scalar_laws V zero add iszero ->
  forall n cx isCRM ops, in_range V n ops -> channels_ok V cx ops ->
  clear_after_full_finalize V iszero n ops ->
  exists s, run V zero add iszero ops (mnew V n cx isCRM) = Some s.
Proof.
  intros V zero add iszero (A & B & C) n cx isCRM ops HR HC HD.
  exact (c06_lemma V zero add iszero A B C n cx isCRM ops HR HC
           (dense_lemma V zero add iszero A B C n cx isCRM ops HR HD)).
Qed.
Print Assumptions C06_safe_partial.

(* a history that is never cleared is safe *)
Theorem C06_safe_without_clear : forall (V : Type) (zero : V) add iszero,
  scalar_laws V zero add iszero ->
  forall n cx isCRM ops, in_range V n ops -> channels_ok V cx ops -> ~ In (Clear V) ops ->
  exists s, run V zero add iszero ops (mnew V n cx isCRM) = Some s.
Proof.
  intros V zero add iszero L n cx isCRM ops HR HC HN.
  refine (C06_safe_partial V zero add iszero L n cx isCRM ops HR HC _).
  intros p q E. exfalso. apply HN. rewrite E. apply in_or_app. right. left. reflexivity.
Qed.
Print Assumptions C06_safe_without_clear.

Example C06_safe_ex : clear_after_full_finalize Z (Z.eqb 0) 2
  [Add Z false 0 0 2; Add Z false 1 1 3; Finalize Z; Clear Z; Add Z false 1 0 4; Finalize Z]%Z.
Proof.
  intros p q E. exists [Add Z false 0 0 2%Z; Add Z false 1 1 3%Z].
  destruct p as [|a p]; [discriminate|]. injection E as <- E.
  destruct p as [|a p]; [discriminate|]. injection E as <- E.
  destruct p as [|a p]; [discriminate|]. injection E as <- E.
  destruct p as [|a p].
  - split; [reflexivity|]. intros i Hi. destruct i as [|[|i]]; [reflexivity|reflexivity|lia].
  - injection E as _ E. destruct p as [|a' p]; [discriminate|]. injection E as _ E.
    destruct p as [|a'' p]; [discriminate|]. injection E as _ E. destruct p; discriminate.
Qed.

(* C06 in full is false of the code: ClearMatrix sizes the buffer for new entries
   by the number of stored values instead of the dimension, so an entry added at
   a new position after a Clear of a sparse matrix is out of bounds; likewise
   after a Clear of a matrix that was decompressed. *)
Theorem C06_safe_refuted : exists n (ops : list (op Z)), in_range Z n ops /\ channels_ok Z false ops /\
  run Z 0%Z Z.add (Z.eqb 0) ops (mnew Z n false false) = None.
Proof.
  exists 3, [Add Z false 0 0 1%Z; Finalize Z; Clear Z; Add Z false 2 2 1%Z].
  split; [|split; [|reflexivity]].
  - intros ch r c v I. cbn in I.
    repeat (destruct I as [I|I]; [inversion I; subst; lia|]). destruct I.
  - intros r c v I. cbn in I.
    repeat (destruct I as [I|I]; [discriminate|]). destruct I.
Qed.
Print Assumptions C06_safe_refuted.

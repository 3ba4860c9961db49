(* Specification of the system matrix for C03-C06: what a user of the matrix
   means by "the accumulated entries", independent of the implementation. *)
From Coq Require Import List Arith Bool.
From Verif Require Import CMatrix.
Import ListNotations.

Section Spec.
  Variable V : Type.
  Variable zero : V.
  Variable add : V -> V -> V.
  Variable iszero : V -> bool.

  Definition contribution : Type := bool * nat * nat * V.  (* imaginary?, row, column, value *)

  Definition contributions (o : op V) : list contribution :=
    match o with
    | Add _ ch r c v => [(ch, r, c, v)]
    | AddComplex _ r c re im => [(false, r, c, re); (true, r, c, im)]
    | Finalize _ => []
    | Clear _ => []
    end.

  (* contributions since the last Clear, in order *)
  Definition since_clear (ops : list (op V)) : list contribution :=
    fold_left (fun acc o => match o with Clear _ => [] | _ => acc ++ contributions o end) ops [].

  Definition for_key (ch : bool) (r c : nat) (e : contribution) : bool :=
    match e with (ch', r', c', v) =>
      Bool.eqb ch ch' && Nat.eqb r r' && Nat.eqb c c' && negb (iszero v) end.

  (* sum, in order of arrival, of the nonzero contributions to one position *)
  Definition accumulated (ops : list (op V)) (ch : bool) (r c : nat) : V :=
    fold_left add (map snd (filter (for_key ch r c) (since_clear ops))) zero.

  (* has position (r,c) ever (also before a Clear) received a nonzero value? *)
  Definition touched (ops : list (op V)) (r c : nat) : bool :=
    existsb (fun e => for_key false r c e || for_key true r c e) (concat (map contributions ops)).

  (* every contribution addresses a position of the n x n matrix *)
  Definition in_range (n : nat) (ops : list (op V)) : Prop :=
    forall ch r c v, In (ch, r, c, v) (concat (map contributions ops)) -> r < n /\ c < n.

  (* imaginary entries only in complex matrices *)
  Definition channels_ok (complex : bool) (ops : list (op V)) : Prop :=
    forall r c v, In (true, r, c, v) (concat (map contributions ops)) -> complex = true.

  (* slot p of the compressed format holds position (r,c): compressed column
     format unless isCRM, then compressed row format *)
  Definition slot (isCRM : bool) (ap ai : list nat) (r c p : nat) : Prop :=
    exists b e, nth_error ap (if isCRM then r else c) = Some b /\
      nth_error ap (S (if isCRM then r else c)) = Some e /\
      b <= p < e /\ nth_error ai p = Some (if isCRM then c else r).

  (* well formed compressed structure of dimension n with nnz stored entries *)
  Definition well_formed (n : nat) (ap ai : list nat) : Prop :=
    length ap = S n /\ nth_error ap 0 = Some 0 /\ nth_error ap n = Some (length ai) /\
    (forall i b e, nth_error ap i = Some b -> nth_error ap (S i) = Some e -> b <= e) /\
    (forall i b e p q x y, nth_error ap i = Some b -> nth_error ap (S i) = Some e ->
        b <= p -> p < q -> q < e -> nth_error ai p = Some x -> nth_error ai q = Some y -> x < y) /\
    (forall p x, nth_error ai p = Some x -> x < n).

  (* what the scalar type must satisfy; holds for IEEE doubles rounding to
     nearest (CMatrixFloat.v), for the integers and for the reals *)
  Definition scalar_laws : Prop :=
    iszero zero = true /\
    (forall v, iszero v = false -> add zero v = v) /\
    (forall a v, iszero v = false -> iszero (add a v) = true -> add a v = zero).

  (* every Clear comes right after a Finalize, when each diagonal position has
     received a nonzero value *)
  Definition clear_after_full_finalize (n : nat) (ops : list (op V)) : Prop :=
    forall p q, ops = p ++ Clear V :: q ->
      exists p', p = p' ++ [Finalize V] /\ forall i, i < n -> touched p' i i = true.
End Spec.

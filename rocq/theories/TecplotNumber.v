(* The text of a number in a Tecplot file: operator<< of a double on a stream whose precision nobody has set (the line that would is a
   comment, src/meshing/TecplotWriter.cc:401), that is printf("%g"): six significant digits, the trailing zeros dropped.  The C library
   rounds correctly, ties to even. *)
From Coq Require Import Ascii String List Bool Arith ZArith.
From Flocq Require Import IEEE754.BinarySingleNaN.
Import ListNotations.
Require Import Verif.CMatrixFloat Verif.RestartText Verif.RestartNumber.
Local Open Scope list_scope.
(* six digits and the exponent of the first *)
Definition six_digits (num den : Z) : Z * Z :=
  let k := exponent num den in
  let d := nearest_integer (num * 10 ^ Z.max (5 - k) 0) (den * 10 ^ Z.max (k - 5) 0) in
  if (d =? 10 ^ 6)%Z then (10 ^ 5, k + 1)%Z else (d, k).
Fixpoint drop_zeros (t : list ascii) : list ascii :=
  match t with [] => [] | c :: t' => match drop_zeros t' with [] => if Ascii.eqb c "0" then [] else [c] | u => c :: u end end.
Definition fraction (t : list ascii) : list ascii := match drop_zeros t with [] => [] | u => "."%char :: u end.
(* the style of printf("%g") *)
Definition general (d k : Z) : list ascii :=
  let ds := decimal 6 d in
  if ((k <? -4) || (6 <=? k))%Z then firstn 1 ds ++ fraction (skipn 1 ds) ++ "e"%char :: show_exponent k
  else if (k <? 0)%Z then "0"%char :: fraction (repeat "0"%char (Z.to_nat (- k - 1)) ++ ds)
  else firstn (S (Z.to_nat k)) ds ++ fraction (skipn (S (Z.to_nat k)) ds).
Definition show_default (x : double) : list ascii :=
  match x with
  | B754_zero s => (if s then ["-"%char] else []) ++ ["0"%char]
  | B754_infinity s => chars (if s then "-inf" else "inf")
  | B754_nan => chars "nan"
  | B754_finite s m e _ => let (d, k) := six_digits (Zpos m * 2 ^ Z.max e 0) (2 ^ Z.max (- e) 0) in (if s then ["-"%char] else []) ++ general d k
  end.

(* The text of a number in a devsim file: operator<< of a double with setprecision(15) and scientific
   (src/meshing/DevsimRestartWriter.cc:182; NodeSolution.cc, EdgeSubModel.cc), that is printf("%.15e"), and atof
   (DevsimScanner.l:54).  Both are the correctly rounded conversions of the C library: the text is the decimal number of 16 digits
   nearest to the double, ties to even; atof gives the double nearest to the decimal number, ties to even, and an infinity
   beyond the range. *)
From Coq Require Import Ascii String List Bool Arith ZArith Reals.
From Flocq Require Import Core IEEE754.BinarySingleNaN.
Import ListNotations.
Require Import Verif.CMatrixFloat Verif.RestartText.
Local Open Scope list_scope.

(* ---------------------------------------------------------------- printing *)
(* num / den >= 10^k *)
Definition at_least (num den k : Z) : bool := (if (0 <=? k)%Z then (den * 10 ^ k <=? num)%Z else (den <=? num * 10 ^ (- k))%Z).
Fixpoint search (n : nat) (k num den : Z) : Z :=
  match n with 0 => k | S n' => if at_least num den (k + 1) then search n' (k + 1) num den else k end.
(* the exponent: 10^k <= num / den < 10^(k+1), for positive doubles *)
Definition exponent (num den : Z) : Z := search 640 (-324) num den.
(* the integer nearest to a / b, ties to even *)
Definition nearest_integer (a b : Z) : Z :=
  let q := (a / b)%Z in
  match (2 * (a mod b) ?= b)%Z with Lt => q | Gt => (q + 1)%Z | Eq => if Z.even q then q else (q + 1)%Z end.
(* 16 digits and the exponent of the first *)
Definition digits_of (num den : Z) : Z * Z :=
  let k := exponent num den in
  let d := nearest_integer (num * 10 ^ Z.max (15 - k) 0) (den * 10 ^ Z.max (k - 15) 0) in
  if (d =? 10 ^ 16)%Z then (10 ^ 15, k + 1)%Z else (d, k).
Definition digit_char (d : Z) : ascii := ascii_of_nat (48 + Z.to_nat d).
(* the last n digits of d *)
Fixpoint decimal (n : nat) (d : Z) : text := match n with 0 => [] | S n' => decimal n' (d / 10) ++ [digit_char (d mod 10)] end.
(* at least two digits of the exponent *)
Definition show_exponent (k : Z) : text :=
  (if (k <? 0)%Z then "-"%char else "+"%char) :: (if (Z.abs k <? 100)%Z then decimal 2 (Z.abs k) else decimal 3 (Z.abs k)).
Definition scientific (s : bool) (d k : Z) : text :=
  (if s then ["-"%char] else []) ++ digit_char (d / 10 ^ 15) :: "."%char :: decimal 15 d ++ "e"%char :: show_exponent k.
Definition show_double (x : double) : text :=
  match x with
  | B754_zero s => scientific s 0 0
  | B754_infinity s => chars (if s then "-inf" else "inf")
  | B754_nan => chars "nan"
  | B754_finite s m e _ => let (d, k) := digits_of (Zpos m * 2 ^ Z.max e 0) (2 ^ Z.max (- e) 0) in scientific s d k
  end.

(* ---------------------------------------------------------------- reading *)
Definition digit_value (c : ascii) : Z := Z.of_nat (nat_of_ascii c) - 48.
Definition read_digits (t : text) : Z := fold_left (fun a c => (10 * a + digit_value c)%Z) t 0%Z.
(* the characters before the first one that has p, and those after it *)
Fixpoint split_at (p : ascii -> bool) (t : text) : text * option text :=
  match t with
  | [] => ([], None)
  | c :: t' => if p c then ([], Some t') else let (a, b) := split_at p t' in (c :: a, b)
  end.
Definition read_sign (t : text) : bool * text :=
  match t with c :: t' => if Ascii.eqb c "-" then (true, t') else if Ascii.eqb c "+" then (false, t') else (false, t) | [] => (false, t) end.
Definition read_signed (t : text) : Z := let (s, u) := read_sign t in if s then (- read_digits u)%Z else read_digits u.
(* sign, digits and exponent: (-1)^s * n * 10^p *)
Definition read_decimal (t : text) : bool * Z * Z :=
  let (s, u) := read_sign t in
  let (mant, ex) := split_at (among ["e"; "E"]%char) u in
  let (ip, fp) := split_at (Ascii.eqb ".") mant in
  let frac := match fp with Some f => f | None => [] end in
  let e := match ex with Some x => read_signed x | None => 0%Z end in
  (s, read_digits (ip ++ frac), e - Z.of_nat (length frac))%Z.
Local Open Scope R_scope.
Definition power10 (p : Z) : R := bpow (Build_radix 10 eq_refl) p.
(* the double nearest to v *)
Definition fexp : Z -> Z := FLT_exp (-1074) 53.
Definition nearest_double (v : R) (s : bool) : double :=
  binary_normalize 53 1024 eq_refl eq_refl mode_NE (ZnearestE (scaled_mantissa radix2 fexp v)) (cexp radix2 fexp v) s.
Definition atof_double (t : text) : double :=
  let '(s, n, p) := read_decimal t in
  let v := IZR n * power10 p in
  nearest_double (if s then - v else v) s.

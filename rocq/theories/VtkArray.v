(* Model of utility/base64.cc: the text of an array of doubles in a VTK file. *)
From Coq Require Import Ascii String List Bool Arith ZArith.
From Flocq Require Import IEEE754.Bits.
Import ListNotations.
Open Scope list_scope.

(* the characters of a std::string *)
Local Notation text := (list ascii).

(* base64.cc:15-18: base64Chars *)
Definition base64_chars : text := list_ascii_of_string "ABCDEFGHIJKLMNOPQRSTUVWXYZabcdefghijklmnopqrstuvwxyz0123456789+/".
(* base64.cc:37-40: base64Chars[v & 0x3F]; the promotion to int makes v non-negative and unbounded *)
Definition base64_char (v : Z) : ascii := nth (Z.to_nat (Z.land v 63)) base64_chars zero.

(* base64.cc:22-62: encodeBase64; a byte is a number from 0 to 255. The loop on triplets and the two cases of the remainder. *)
Fixpoint encode_base64 (input : list Z) : text :=
  match input with
  | a :: b :: c :: rest =>
      base64_char (Z.shiftr a 2) :: base64_char (Z.lor (Z.shiftl a 4) (Z.shiftr b 4)) ::
      base64_char (Z.lor (Z.shiftl b 2) (Z.shiftr c 6)) :: base64_char c :: encode_base64 rest
  | [a; b] => [base64_char (Z.shiftr a 2); base64_char (Z.lor (Z.shiftl a 4) (Z.shiftr b 4)); base64_char (Z.shiftl b 2); "="%char]
  | [a] => [base64_char (Z.shiftr a 2); base64_char (Z.shiftl a 4); "="%char; "="%char]
  | [] => []
  end.

(* the bytes of memory of a number of n bytes, least significant first (the little-endian machines devsim is built for; the file says
   byte_order="LittleEndian", VTKWriter.cc:38) *)
Fixpoint memory_bytes (n : nat) (v : Z) : list Z := match n with O => [] | Datatypes.S n' => Z.modulo v 256 :: memory_bytes n' (Z.div v 256) end.
(* a double, base64.cc:69: reinterpret_cast<const char * > *)
Definition double_bytes (x : binary64) : list Z := memory_bytes 8 (bits_of_b64 x).
(* an unsigned int (32 bits; a larger size_t is truncated when it is stored, base64.cc:92-114) *)
Definition word_bytes (v : Z) : list Z := memory_bytes 4 v.

Section Zlib.
(* ZlibCompress.cc:17-63: zlib.compress of Python, bytes to bytes *)
Variable compress : list Z -> list Z.

(* base64.cc:74: blockSize *)
Definition block_size : Z := 32768.
(* base64.cc:76: numberOfTPerBlock, for double *)
Definition per_block : nat := Z.to_nat (block_size / 8).
(* base64.cc:97-115: the loop on blocks: i counts up to the number of blocks n, x is what begins at &x[numberOfTPerBlock * i]; the
   length of the input is that of a full block, except for the last block, where it is that of the partial block *)
Fixpoint compressed_blocks (n : nat) (partial : nat) (x : list binary64) : list (list Z) :=
  match n with
  | O => []
  | Datatypes.S n' =>
      let input_length := if Nat.eqb n' 0 then partial else per_block in
      compress (flat_map double_bytes (firstn input_length x)) :: compressed_blocks n' partial (skipn per_block x)
  end.
(* base64.cc:72-119: convertVectorToZlibBase64<double>; the header and the data are encoded one after the other *)
Definition zlib_base64 (x : list binary64) : text :=
  let full := Nat.div (length x) per_block in
  let partial := Nat.modulo (length x) per_block in
  let n := if Nat.eqb partial 0 then full else Datatypes.S full in
  let blocks := compressed_blocks n partial x in
  let header := Z.of_nat n :: block_size :: Z.of_nat (partial * 8) :: map (fun b => Z.of_nat (length b)) blocks in
  encode_base64 (flat_map word_bytes header) ++ encode_base64 (concat blocks).
End Zlib.

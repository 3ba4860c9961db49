(* How a VTK file holds an array (C67): the file format of VTK, https://docs.vtk.org, "compressed binary" data. *)
From Coq Require Import Ascii String List Bool Arith ZArith.
From Flocq Require Import IEEE754.Bits.
Import ListNotations.
Open Scope list_scope.
Local Notation text := (list ascii).

(* RFC 4648: the value of a digit *)
Definition between (a b c : ascii) : bool := (nat_of_ascii a <=? nat_of_ascii c)%nat && (nat_of_ascii c <=? nat_of_ascii b)%nat.
Definition digit (c : ascii) : option Z :=
  let from a := (Z.of_nat (nat_of_ascii c) - Z.of_nat (nat_of_ascii a))%Z in
  if between "A" "Z" c then Some (from "A"%char)
  else if between "a" "z" c then Some (26 + from "a"%char)%Z
  else if between "0" "9" c then Some (52 + from "0"%char)%Z
  else if Ascii.eqb c "+" then Some 62%Z else if Ascii.eqb c "/" then Some 63%Z else None.
Definition pad (c : ascii) : bool := Ascii.eqb c "=".
(* four digits are three bytes; the last four may be padded *)
Fixpoint decode (t : text) : option (list Z) :=
  match t with
  | [] => Some []
  | c1 :: c2 :: c3 :: c4 :: t' =>
      match digit c1, digit c2, digit c3, digit c4 with
      | Some d1, Some d2, Some d3, Some d4 =>
          let v := (((d1 * 64 + d2) * 64 + d3) * 64 + d4)%Z in
          option_map (fun l => (v / 65536)%Z :: ((v / 256) mod 256)%Z :: (v mod 256)%Z :: l) (decode t')
      | Some d1, Some d2, Some d3, None =>
          match t' with [] => if pad c4 && (d3 mod 4 =? 0)%Z then let v := ((d1 * 64 + d2) * 64 + d3)%Z in Some [(v / 1024)%Z; ((v / 4) mod 256)%Z] else None | _ => None end
      | Some d1, Some d2, None, None =>
          match t' with [] => if pad c3 && pad c4 && (d2 mod 16 =? 0)%Z then Some [((d1 * 64 + d2) / 16)%Z] else None | _ => None end
      | _, _, _, _ => None
      end
  | _ => None
  end.

(* little-endian numbers *)
Fixpoint number (l : list Z) : Z := match l with [] => 0 | b :: l' => b + 256 * number l' end.
(* groups of n *)
Fixpoint groups (fuel n : nat) (l : list Z) : option (list (list Z)) :=
  match fuel, l with
  | _, [] => Some []
  | O, _ => None
  | S f, _ => if (length l <? n)%nat then None else option_map (cons (firstn n l)) (groups f n (skipn n l))
  end.
Definition numbers (n : nat) (l : list Z) : option (list Z) := option_map (map number) (groups (length l) n l).

Section Reader.
Variable decompress : list Z -> option (list Z).
(* the blocks: of each the compressed length; all have `full` bytes, the last `last` if this is not 0 *)
Fixpoint read_blocks (sizes : list Z) (full last : Z) (data : list Z) : option (list Z) :=
  match sizes with
  | [] => match data with [] => Some [] | _ => None end
  | s :: sizes' =>
      let k := Z.to_nat s in
      if (length data <? k)%nat then None
      else match decompress (firstn k data), read_blocks sizes' full last (skipn k data) with
           | Some b, Some r =>
               let want := match sizes' with [] => if (last =? 0)%Z then full else last | _ => full end in
               if (Z.of_nat (length b) =? want)%Z then Some (b ++ r) else None
           | _, _ => None
           end
  end.
(* [#blocks][#u-size][#p-size][#c-size-1]...[#c-size-#blocks][DATA], 32-bit words, the header and the data in base64 *)
Definition read_array (t : text) : option (list Z) :=
  match decode (firstn 16 t) with
  | Some first =>
      let n := number (firstn 4 first) in
      let chars := (4 * ((4 * (3 + Z.to_nat n) + 2) / 3))%nat in
      match option_map (numbers 4) (decode (firstn chars t)), decode (skipn chars t) with
      | Some (Some (n' :: u :: p :: sizes)), Some data =>
          if (Z.of_nat (length sizes) =? n)%Z then read_blocks sizes u p data else None
      | _, _ => None
      end
  | None => None
  end.
(* Float64 *)
Definition read_doubles (t : text) : option (list binary64) :=
  match read_array t with Some b => option_map (map b64_of_bits) (numbers 8 b) | None => None end.
End Reader.

(* Model of /repo/src/utility/base64.cc.
   Bytes and characters are integers (Z) in 0..255.  [char] is signed, as on
   the platforms devsim supports (x86-64, gcc/clang/msvc). *)
From Coq Require Import List ZArith Bool.
Import ListNotations.
Open Scope Z_scope.

(* base64.cc:16-19  base64Chars (the 64 ASCII codes) *)
Definition base64_chars : list Z :=
  [65;66;67;68;69;70;71;72;73;74;75;76;77;78;79;80;81;82;83;84;85;86;87;88;89;90;
   97;98;99;100;101;102;103;104;105;106;107;108;109;110;111;112;113;114;115;116;
   117;118;119;120;121;122;
   48;49;50;51;52;53;54;55;56;57;43;47].

(* base64Chars[i]; every index used is masked with 0x3F, so it is in range;
   the default -1 is never returned (proved: enc_char_range). *)
Definition enc_char (i : Z) : Z := nth (Z.to_nat i) base64_chars (-1).

Definition pad : Z := 61. (* '=' *)

(* base64.cc:37-40  the four sextets of a triplet (int arithmetic after
   promotion of unsigned char) *)
Definition sext0 (b0 : Z) : Z := Z.land (Z.shiftr b0 2) 63.
Definition sext1 (b0 b1 : Z) : Z := Z.land (Z.lor (Z.shiftl b0 4) (Z.shiftr b1 4)) 63.
Definition sext2 (b1 b2 : Z) : Z := Z.land (Z.lor (Z.shiftl b1 2) (Z.shiftr b2 6)) 63.
Definition sext3 (b2 : Z) : Z := Z.land b2 63.

(* base64.cc:23-63  encodeBase64.  The index loop over full triplets followed by
   the remainder cases is written as recursion on the input. *)
Fixpoint encode (l : list Z) : list Z :=
  match l with
  | [] => []
  | [b0] =>                                    (* 44-51: remainder == 1 *)
      [enc_char (sext0 b0); enc_char (Z.land (Z.shiftl b0 4) 63); pad; pad]
  | [b0; b1] =>                                (* 52-59: remainder == 2 *)
      [enc_char (sext0 b0); enc_char (sext1 b0 b1);
       enc_char (Z.land (Z.shiftl b1 2) 63); pad]
  | b0 :: b1 :: b2 :: rest =>                  (* 35-42 *)
      enc_char (sext0 b0) :: enc_char (sext1 b0 b1) ::
      enc_char (sext2 b1 b2) :: enc_char (sext3 b2) :: encode rest
  end.

(* base64.cc:124-158 decodeBase64Table, first 128 entries (255 = 0xFF);
   entries 128..255 are all 0xFF and unreachable: see [table_lookup]. *)
Definition decode_table : list Z :=
 [255;255;255;255;255;255;255;255;
  255;255;255;255;255;255;255;255;
  255;255;255;255;255;255;255;255;
  255;255;255;255;255;255;255;255;
  255;255;255;255;255;255;255;255;
  255;255;255;62;255;255;255;63;
  52;53;54;55;56;57;58;59;
  60;61;255;255;255;0;255;255;
  255;0;1;2;3;4;5;6;
  7;8;9;10;11;12;13;14;
  15;16;17;18;19;20;21;22;
  23;24;25;255;255;255;255;255;
  255;26;27;28;29;30;31;32;
  33;34;35;36;37;38;39;40;
  41;42;43;44;45;46;47;48;
  49;50;51;255;255;255;255;255].

Inductive lookup_result := LUB | LBad | LVal (v : Z).

(* base64.cc:171-177  [size_t char_index = in[i]] sign-extends a negative char,
   so a byte >= 0x80 indexes far outside of the 256 entry table: undefined
   behaviour.  0xFF stored in a char compares equal to -1. *)
Definition table_lookup (c : Z) : lookup_result :=
  if 128 <=? c then LUB
  else let v := nth (Z.to_nat c) decode_table 255 in
       if v =? 255 then LBad else LVal v.

Inductive dres :=
| DUB                        (* undefined behaviour *)
| DBad                       (* BAD: nothing appended *)
| DOk (out : list Z)         (* OK: bytes appended *)
| DDone (out : list Z).      (* DONE: bytes appended, stop *)

(* base64.cc:163-213 decode4 *)
Definition decode4 (c0 c1 c2 c3 : Z) : dres :=
  match table_lookup c0 with
  | LUB => DUB | LBad => DBad
  | LVal t0 =>
    if c0 =? pad then DBad else                      (* 179-183, i = 0 *)
    match table_lookup c1 with
    | LUB => DUB | LBad => DBad
    | LVal t1 =>
      if c1 =? pad then DBad else                    (* 179-183, i = 1 *)
      match table_lookup c2 with
      | LUB => DUB | LBad => DBad
      | LVal t2 =>
        match table_lookup c3 with
        | LUB => DUB | LBad => DBad
        | LVal t3 =>
          if (c2 =? pad) && negb (c3 =? pad) then DBad (* 186-189 *)
          else
          let o0 := Z.lor (Z.land (Z.shiftl t0 2) 252) (Z.land (Z.shiftr t1 4) 3) in
          let o1 := Z.lor (Z.land (Z.shiftl t1 4) 240) (Z.land (Z.shiftr t2 2) 15) in
          let o2 := Z.lor (Z.land (Z.shiftl t2 6) 192) (Z.land (Z.shiftr t3 0) 63) in
          let out := [o0] ++ (if c2 =? pad then [] else [o1])
                          ++ (if c3 =? pad then [] else [o2]) in
          if (c2 =? pad) || (c3 =? pad) then DDone out else DOk out
        end
      end
    end
  end.

(* isspace in the C locale: \t \n \v \f \r and blank *)
Definition is_space (c : Z) : bool := ((9 <=? c) && (c <=? 13)) || (c =? 32).

Inductive outcome :=
| UB
| Ret (ok : bool) (out : list Z).

(* base64.cc:247-257: after the loop; [tin] is the part of the buffer filled so
   far (j = length tin < 4) *)
Definition decode_end (tin out : list Z) : outcome :=
  match tin with
  | [] => Ret true out
  | _ =>
    let g := fun k => nth k tin pad in               (* 249-252 fill with '=' *)
    match decode4 (g 0%nat) (g 1%nat) (g 2%nat) (g 3%nat) with
    | DUB => UB
    | DBad => Ret false out
    | DOk o | DDone o => Ret true (out ++ o)
    end
  end.

(* base64.cc:229-246 the loop.  [isspace] of a negative char is undefined
   behaviour by the C standard; here only the table access is counted as UB. *)
Fixpoint decode_loop (input tin out : list Z) : outcome :=
  match input with
  | [] => decode_end tin out
  | c :: rest =>
    if is_space c then decode_loop rest tin out
    else match tin with
    | [c0; c1; c2] =>
        match decode4 c0 c1 c2 c with
        | DUB => UB
        | DBad => Ret false out
        | DDone o => Ret true (out ++ o)             (* break; j = 0 *)
        | DOk o => decode_loop rest [] (out ++ o)
        end
    | _ => decode_loop rest (tin ++ [c]) out
    end
  end.

(* base64.cc:216-258 decodeBase64 *)
Definition decode (input : list Z) : outcome := decode_loop input [] [].

(* ------------------------------------------------------------------ *)
(* convertVectorToZlibBase64, base64.cc:72-119 *)

Section Zlib.
  Variable T : Type.                       (* element type *)
  Variable sizeT : nat.                    (* sizeof(T), 8 for double *)
  Variable bytes_of : T -> list Z.         (* object representation *)
  Variable compress : list Z -> list Z.    (* DEVSIMZlibCompress *)

  (* base64.cc:74-76 ; the block size is a parameter of the model *)
  Variable per_block : nat.                (* numberOfTPerBlock *)

  Definition num_partial (x : list T) : nat := Nat.modulo (length x) per_block. (* :82 *)
  Definition num_blocks (x : list T) : nat :=                                   (* :80,84-88 *)
    let full := Nat.div (length x) per_block in
    if Nat.eqb (num_partial x) 0 then full else S full.

  (* base64.cc:100-106: the elements handed to the compressor for block i *)
  Definition block (x : list T) (i : nat) : list T :=
    let n := if Nat.eqb i (num_blocks x - 1) then num_partial x else per_block in
    firstn n (skipn (per_block * i) x).

  Record vtk_array := {
    hdr_blocks : nat;              (* header[0] *)
    hdr_block_size : nat;          (* header[1] *)
    hdr_partial : nat;             (* header[2] *)
    hdr_sizes : list nat;          (* header[3..] *)
    payload : list Z               (* compressedOutput before base64 *)
  }.

  Definition serialize (l : list T) : list Z := concat (map bytes_of l).

  (* base64.cc:90-114 *)
  Definition vtk_encode (x : list T) : vtk_array :=
    let blocks := map (block x) (seq 0 (num_blocks x)) in
    let cs := map (fun b => compress (serialize b)) blocks in
    {| hdr_blocks := num_blocks x;
       hdr_block_size := per_block * sizeT;
       hdr_partial := num_partial x * sizeT;
       hdr_sizes := map (@length Z) cs;
       payload := concat cs |}.
End Zlib.

(* C01, C02: properties of the encoding of result files.
   [byte], [alphabet_char], [strip_pad], [vtk_read] are the (small) specification
   in Base64Proofs.v; [encode], [decode], [vtk_encode] are the model (Base64.v). *)
From Coq Require Import List ZArith Bool.
From Coq Require Import Lia.
From Verif Require Import Base64 Base64Proofs Base64Exact.
Import ListNotations.
Open Scope Z_scope.

(* C01: round trip *)
Theorem C01_round_trip : forall bs, Forall (fun b => 0 <= b < 256) bs ->
  decode (encode bs) = Ret true bs.
Proof. exact decode_encode_lemma. Qed.
Print Assumptions C01_round_trip.

Example C01_round_trip_ex : Forall (fun b => 0 <= b < 256) [0;255;16;7]
  /\ encode [0;255;16;7] = [65;80;56;81;66;119;61;61].
Proof. split; [repeat constructor; discriminate | reflexivity]. Qed.

(* C01: any whitespace inserted into the text is ignored *)
Theorem C01_round_trip_whitespace : forall text bs, Forall (fun b => 0 <= b < 256) bs ->
  filter (fun c => negb (is_space c)) text = encode bs ->
  decode text = Ret true bs.
Proof. exact decode_spaces_lemma. Qed.
Print Assumptions C01_round_trip_whitespace.

Example C01_whitespace_ex :
  filter (fun c => negb (is_space c)) [32;65;80;10;56;81;66;119;9;61;61] = encode [0;255;16;7].
Proof. reflexivity. Qed.

(* C01: missing padding is tolerated *)
Theorem C01_round_trip_unpadded : forall bs, Forall (fun b => 0 <= b < 256) bs ->
  decode (filter (fun c => negb (c =? 61)) (encode bs)) = Ret true bs.
Proof. exact unpadded_lemma. Qed.
Print Assumptions C01_round_trip_unpadded.

(* C01: on ASCII text, after removing \t \n \v \f \r and blanks, decoding succeeds
   exactly when the text is base64 ([denotes], Base64Exact.v), with the bytes it denotes;
   so malformed text is always reported as an error *)
Theorem C01_decode_exact : forall text bs, Forall (fun c => 0 <= c < 128) text ->
  decode text = Ret true bs <->
  denotes (filter (fun c => negb (existsb (Z.eqb c) [9; 10; 11; 12; 13; 32])) text) bs.
Proof.
  intros text bs A. apply (decode_exact_lemma text _ bs A). apply filter_ext. intros c. f_equal.
  destruct (existsb (Z.eqb c) [9; 10; 11; 12; 13; 32]) eqn:E; symmetry.
  - apply existsb_exists in E. destruct E as (d & Hd & E). apply Z.eqb_eq in E. subst d. apply space_list, Hd.
  - destruct (is_space c) eqn:S; [|reflexivity]. apply space_list in S.
    assert (existsb (Z.eqb c) [9; 10; 11; 12; 13; 32] = true) by (apply existsb_exists; exists c; split; [exact S|apply Z.eqb_refl]). congruence.
Qed.
Print Assumptions C01_decode_exact.
(* "TWFu TQ=" (without the second '=') denotes "ManM"; "TQ=Q" is malformed *)
Example C01_denotes_ex : denotes [84;87;70;117;84;81;61] [77;97;110;77] /\ forall bs, ~ denotes [84;81;61;81] bs.
Proof.
  split.
  - refine (den_group 84 87 70 117 19 22 5 46 _ _ _ _ _ _ (den_one 84 81 19 16 [61] _ _ _)); try (unfold sextet; lia). auto.
  - intros bs H. inversion H; subst; try (match goal with K : sextet 61 _ |- _ => exact (not61 _ K) end).
    match goal with K : _ \/ _ |- _ => destruct K as [K|[K|(trail & K)]]; discriminate end.
Qed.

(* C01: shape of the text *)
Theorem C01_encode_length : forall bs, length (encode bs) = (4 * ((length bs + 2) / 3))%nat.
Proof. exact encode_length_lemma. Qed.
Print Assumptions C01_encode_length.

Theorem C01_encode_shape : forall bs, exists body k,
  encode bs = body ++ repeat 61 k /\ Forall alphabet_char body /\ (k <= 2)%nat.
Proof. exact encode_shape_lemma. Qed.
Print Assumptions C01_encode_shape.

(* C01: decoding ASCII text never has undefined behaviour, and yields bytes *)
Theorem C01_decode_ascii_safe : forall text, Forall (fun c => 0 <= c < 128) text ->
  exists ok out, decode text = Ret ok out /\ Forall (fun b => 0 <= b < 256) out.
Proof. exact decode_ascii_safe_lemma. Qed.
Print Assumptions C01_decode_ascii_safe.

(* C01: ... but a byte >= 0x80 in the text is an out of bounds table access *)
Theorem C01_decode_safe_refuted : exists text, Forall (fun c => 0 <= c < 256) text
  /\ decode text = UB.
Proof. exists [65; 65; 65; 195]. split; [repeat constructor; discriminate|reflexivity]. Qed.
Print Assumptions C01_decode_safe_refuted.

(* C01: text after the padding is silently ignored, so malformed text is accepted *)
Theorem C01_trailing_text_ignored : forall bs trail, Forall (fun b => 0 <= b < 256) bs ->
  (length bs mod 3)%nat <> 0%nat -> decode (encode bs ++ trail) = Ret true bs.
Proof. exact decode_trailing_lemma. Qed.
Print Assumptions C01_trailing_text_ignored.

(* C02: an array whose length is not a multiple of the block length is stored
   completely ([per_block] = 4096 for arrays of double) *)
Theorem C02_all_blocks_partial :
  forall T sizeT bytes_of compress decompress,
  (forall l, decompress (compress l) = l) ->
  forall per_block, (0 < per_block)%nat ->
  forall x : list T, (length x mod per_block <> 0)%nat ->
  vtk_read decompress (vtk_encode T sizeT bytes_of compress per_block x)
  = concat (map bytes_of x).
Proof. exact vtk_partial_ok. Qed.
Print Assumptions C02_all_blocks_partial.

Example C02_partial_ex : (length [1;2;3;4;5] mod 2 <> 0)%nat /\
  vtk_read (fun l => l) (vtk_encode Z 1 (fun z => [z]) (fun l => l) 2 [1;2;3;4;5]) = [1;2;3;4;5].
Proof. split; [discriminate|reflexivity]. Qed.

Theorem C02_empty :
  forall T sizeT bytes_of compress decompress,
  (forall l, decompress (compress l) = l) ->
  forall per_block, (0 < per_block)%nat ->
  vtk_read decompress (vtk_encode T sizeT bytes_of compress per_block []) = [].
Proof. exact vtk_nil_ok. Qed.
Print Assumptions C02_empty.

(* C02: number of blocks announced = number of blocks stored = ceil(n/per_block) *)
Theorem C02_header :
  forall T sizeT bytes_of compress per_block, (0 < per_block)%nat ->
  forall x : list T, let a := vtk_encode T sizeT bytes_of compress per_block x in
  hdr_blocks a = length (hdr_sizes a)
  /\ (length x <= per_block * hdr_blocks a)%nat
  /\ (per_block * hdr_blocks a < length x + per_block)%nat.
Proof. exact vtk_header. Qed.
Print Assumptions C02_header.

(* C02: the sizes stated in the header (in bytes: number of blocks, size of a full block,
   size of the last block or 0 if it is full) give the size of the array *)
Theorem C02_header_sizes :
  forall T sizeT bytes_of compress per_block, (0 < per_block)%nat -> (0 < sizeT)%nat ->
  forall x : list T, let a := vtk_encode T sizeT bytes_of compress per_block x in
  (if hdr_partial a =? 0 then hdr_blocks a * hdr_block_size a else (hdr_blocks a - 1) * hdr_block_size a + hdr_partial a)%nat
  = (sizeT * length x)%nat /\ (hdr_partial a < hdr_block_size a)%nat.
Proof. exact vtk_header_sizes. Qed.
Print Assumptions C02_header_sizes.
Example C02_header_sizes_ex : let a := vtk_encode Z 8 (fun z => [z]) (fun l => l) 4 [1;2;3;4;5;6] in
  hdr_blocks a = 2%nat /\ hdr_block_size a = 32%nat /\ hdr_partial a = 16%nat.
Proof. cbn. auto. Qed.

(* C02 is false of the code: a nonempty array whose length is a multiple of the
   block length is stored without its last block. *)
Theorem C02_multiple_of_block_loses_last_block :
  forall T sizeT bytes_of compress decompress,
  (forall l, decompress (compress l) = l) ->
  forall per_block, (0 < per_block)%nat ->
  forall x : list T, (length x mod per_block = 0)%nat -> x <> [] ->
  vtk_read decompress (vtk_encode T sizeT bytes_of compress per_block x)
  = concat (map bytes_of (firstn (length x - per_block) x)).
Proof. exact vtk_multiple_loses. Qed.
Print Assumptions C02_multiple_of_block_loses_last_block.

(* witness with the real block length of doubles, 32768/8 *)
Theorem C02_all_blocks_refuted :
  exists x : list Z, length x = Z.to_nat 4096 /\
  vtk_read (fun l => l) (vtk_encode Z 1 (fun z => [z]) (fun l => l) (Z.to_nat 4096) x) = []
  /\ concat (map (fun z => [z]) x) <> [].
Proof.
  exists (repeat 7 (Z.to_nat 4096)). split; [apply repeat_length|].
  split; [vm_compute; reflexivity|discriminate].
Qed.
Print Assumptions C02_all_blocks_refuted.

From Coq Require Import List ZArith Bool Lia Arith.
From Coq Require Import ZifyBool ZifyNat.
From Verif Require Import Base64.
Import ListNotations.
Open Scope Z_scope.

(* ---------- independent specification of bytes and of a VTK reader ------- *)
Definition byte (b : Z) : Prop := 0 <= b < 256.

Definition alphabet_char (c : Z) : Prop :=
  (65 <= c <= 90) \/ (97 <= c <= 122) \/ (48 <= c <= 57) \/ c = 43 \/ c = 47.

(* a reader: cut the payload into pieces of the sizes given in the header,
   decompress each piece, concatenate *)
Fixpoint cut (sizes : list nat) (p : list Z) : list (list Z) :=
  match sizes with
  | [] => []
  | n :: r => firstn n p :: cut r (skipn n p)
  end.
Definition vtk_read (decompress : list Z -> list Z) (a : vtk_array) : list Z :=
  concat (map decompress (cut (hdr_sizes a) (payload a))).

(* ------------------------------------------------------------------ *)
Definition upto (n : nat) : list Z := map Z.of_nat (seq 0 n).

Lemma in_upto n z : 0 <= z < Z.of_nat n -> In z (upto n).
Proof.
  intros H. unfold upto. apply in_map_iff. exists (Z.to_nat z). split; [lia|].
  apply in_seq. lia.
Qed.

Lemma sweep1 (f : Z -> bool) n : forallb f (upto n) = true ->
  forall z, 0 <= z < Z.of_nat n -> f z = true.
Proof. intros H z Hz. rewrite forallb_forall in H. apply H, in_upto, Hz. Qed.

Lemma sweep2 (f : Z -> Z -> bool) n :
  forallb (fun a => forallb (f a) (upto n)) (upto n) = true ->
  forall a b, 0 <= a < Z.of_nat n -> 0 <= b < Z.of_nat n -> f a b = true.
Proof.
  intros H a b Ha Hb.
  pose proof (sweep1 _ _ H a Ha) as H1. cbv beta in H1.
  exact (sweep1 _ _ H1 b Hb).
Qed.

Lemma land63_range x : 0 <= Z.land x 63 < 64.
Proof.
  change 63 with (Z.ones 6). rewrite Z.land_ones by lia.
  apply Z.mod_pos_bound. reflexivity.
Qed.

(* the table inverts the alphabet *)
Definition lk_is (r : lookup_result) (v : Z) : bool :=
  match r with LVal w => w =? v | _ => false end.

Lemma enc_sweep : forallb (fun s =>
    lk_is (table_lookup (enc_char s)) s
    && negb (enc_char s =? pad) && negb (is_space (enc_char s))
    && (((65 <=? enc_char s) && (enc_char s <=? 90))
        || ((97 <=? enc_char s) && (enc_char s <=? 122))
        || ((48 <=? enc_char s) && (enc_char s <=? 57))
        || (enc_char s =? 43) || (enc_char s =? 47))) (upto 64) = true.
Proof. vm_compute. reflexivity. Qed.

Lemma enc_char_ok s : 0 <= s < 64 ->
  table_lookup (enc_char s) = LVal s /\ (enc_char s =? pad) = false
  /\ is_space (enc_char s) = false /\ alphabet_char (enc_char s).
Proof.
  intros Hs. pose proof (sweep1 _ _ enc_sweep s Hs) as H. cbv beta in H.
  rewrite !andb_true_iff in H. destruct H as [[[H1 H2] H3] H4].
  rewrite negb_true_iff in H2, H3.
  repeat split; try assumption.
  - destruct (table_lookup (enc_char s)); simpl in H1; try discriminate.
    apply Z.eqb_eq in H1. congruence.
  - unfold alphabet_char. lia.
Qed.

Definition dout0 t0 t1 := Z.lor (Z.land (Z.shiftl t0 2) 252) (Z.land (Z.shiftr t1 4) 3).
Definition dout1 t1 t2 := Z.lor (Z.land (Z.shiftl t1 4) 240) (Z.land (Z.shiftr t2 2) 15).
Definition dout2 t2 t3 := Z.lor (Z.land (Z.shiftl t2 6) 192) (Z.land (Z.shiftr t3 0) 63).

Lemma out0_sweep : forallb (fun a => forallb (fun b =>
   (dout0 (sext0 a) (sext1 a b) =? a)) (upto 256)) (upto 256) = true.
Proof. vm_compute. reflexivity. Qed.
Lemma out0'_sweep : forallb (fun a =>
   (dout0 (sext0 a) (Z.land (Z.shiftl a 4) 63) =? a)) (upto 256) = true.
Proof. vm_compute. reflexivity. Qed.
(* sext1 a b determines b>>4 only through its low bits *)
Lemma sext1_low a b : 0 <= a < 256 -> 0 <= b < 256 ->
  sext1 a b = (a mod 4) * 16 + b / 16.
Proof.
  intros Ha Hb. apply Z.eqb_eq.
  refine (sweep2 (fun a b => sext1 a b =? (a mod 4) * 16 + b / 16) 256 _ a b Ha Hb).
  vm_compute. reflexivity.
Qed.
Lemma sext2_low a b : 0 <= a < 256 -> 0 <= b < 256 ->
  sext2 a b = (a mod 16) * 4 + b / 64.
Proof.
  intros Ha Hb. apply Z.eqb_eq.
  refine (sweep2 (fun a b => sext2 a b =? (a mod 16) * 4 + b / 64) 256 _ a b Ha Hb).
  vm_compute. reflexivity.
Qed.
Lemma sext2'_low a : 0 <= a < 256 -> Z.land (Z.shiftl a 2) 63 = (a mod 16) * 4.
Proof.
  intros Ha. apply Z.eqb_eq.
  refine (sweep1 (fun a => Z.land (Z.shiftl a 2) 63 =? (a mod 16) * 4) 256 _ a Ha).
  vm_compute. reflexivity.
Qed.
Lemma dout1_arith s t : 0 <= s < 64 -> 0 <= t < 64 -> dout1 s t = (s mod 16) * 16 + t / 4.
Proof.
  intros Ha Hb. apply Z.eqb_eq.
  refine (sweep2 (fun a b => dout1 a b =? (a mod 16) * 16 + b / 4) 64 _ s t Ha Hb).
  vm_compute. reflexivity.
Qed.
Lemma dout2_arith s t : 0 <= s < 64 -> 0 <= t < 64 -> dout2 s t = (s mod 4) * 64 + t.
Proof.
  intros Ha Hb. apply Z.eqb_eq.
  refine (sweep2 (fun a b => dout2 a b =? (a mod 4) * 64 + b) 64 _ s t Ha Hb).
  vm_compute. reflexivity.
Qed.
Lemma sext3_arith b : 0 <= b < 256 -> sext3 b = b mod 64.
Proof.
  intros Ha. unfold sext3. change 63 with (Z.ones 6). apply Z.land_ones. lia.
Qed.

Ltac divmod := Z.to_euclidean_division_equations; lia.

Lemma dec_triplet b0 b1 b2 : byte b0 -> byte b1 -> byte b2 ->
  dout0 (sext0 b0) (sext1 b0 b1) = b0 /\
  dout1 (sext1 b0 b1) (sext2 b1 b2) = b1 /\
  dout2 (sext2 b1 b2) (sext3 b2) = b2.
Proof.
  intros H0 H1 H2. unfold byte in *.
  repeat split.
  - apply Z.eqb_eq. exact (sweep2 _ 256 out0_sweep b0 b1 H0 H1).
  - rewrite dout1_arith by apply land63_range.
    rewrite sext1_low, sext2_low by assumption. divmod.
  - rewrite dout2_arith by apply land63_range.
    rewrite sext3_arith, sext2_low by assumption. divmod.
Qed.

Lemma dec_pair b0 b1 : byte b0 -> byte b1 ->
  dout0 (sext0 b0) (sext1 b0 b1) = b0 /\
  dout1 (sext1 b0 b1) (Z.land (Z.shiftl b1 2) 63) = b1.
Proof.
  intros H0 H1. unfold byte in *. split.
  - apply Z.eqb_eq. exact (sweep2 _ 256 out0_sweep b0 b1 H0 H1).
  - rewrite dout1_arith by apply land63_range.
    rewrite sext1_low, sext2'_low by assumption. divmod.
Qed.

Lemma decode4_full s0 s1 s2 s3 :
  0 <= s0 < 64 -> 0 <= s1 < 64 -> 0 <= s2 < 64 -> 0 <= s3 < 64 ->
  decode4 (enc_char s0) (enc_char s1) (enc_char s2) (enc_char s3) =
  DOk [dout0 s0 s1; dout1 s1 s2; dout2 s2 s3].
Proof.
  intros H0 H1 H2 H3. unfold decode4.
  destruct (enc_char_ok s0 H0) as (-> & -> & _ & _).
  destruct (enc_char_ok s1 H1) as (-> & -> & _ & _).
  destruct (enc_char_ok s2 H2) as (-> & -> & _ & _).
  destruct (enc_char_ok s3 H3) as (-> & -> & _ & _).
  reflexivity.
Qed.
Lemma decode4_pad1 s0 s1 s2 :
  0 <= s0 < 64 -> 0 <= s1 < 64 -> 0 <= s2 < 64 ->
  decode4 (enc_char s0) (enc_char s1) (enc_char s2) pad =
  DDone [dout0 s0 s1; dout1 s1 s2].
Proof.
  intros H0 H1 H2. unfold decode4.
  destruct (enc_char_ok s0 H0) as (-> & -> & _ & _).
  destruct (enc_char_ok s1 H1) as (-> & -> & _ & _).
  destruct (enc_char_ok s2 H2) as (-> & -> & _ & _).
  reflexivity.
Qed.
Lemma decode4_pad2 s0 s1 :
  0 <= s0 < 64 -> 0 <= s1 < 64 ->
  decode4 (enc_char s0) (enc_char s1) pad pad = DDone [dout0 s0 s1].
Proof.
  intros H0 H1. unfold decode4.
  destruct (enc_char_ok s0 H0) as (-> & -> & _ & _).
  destruct (enc_char_ok s1 H1) as (-> & -> & _ & _).
  reflexivity.
Qed.

(* whitespace never matters *)
Lemma decode_loop_spaces t : forall tin out,
  decode_loop t tin out = decode_loop (filter (fun c => negb (is_space c)) t) tin out.
Proof.
  induction t as [|c t IH]; intros tin out; [reflexivity|].
  cbn [decode_loop filter]. destruct (is_space c) eqn:E; cbn [negb].
  - apply IH.
  - cbn [decode_loop]. rewrite E. destruct tin as [|a [|b [|d [|e tin]]]]; try apply IH.
    destruct (decode4 a b d c); try reflexivity. apply IH.
Qed.

Lemma sp_enc s : 0 <= s < 64 -> is_space (enc_char s) = false.
Proof. intros H. apply (enc_char_ok s H). Qed.

Lemma step_full s0 s1 s2 s3 rest out :
  0 <= s0 < 64 -> 0 <= s1 < 64 -> 0 <= s2 < 64 -> 0 <= s3 < 64 ->
  decode_loop (enc_char s0 :: enc_char s1 :: enc_char s2 :: enc_char s3 :: rest) [] out =
  decode_loop rest [] (out ++ [dout0 s0 s1; dout1 s1 s2; dout2 s2 s3]).
Proof.
  intros H0 H1 H2 H3. cbn [decode_loop app].
  rewrite (sp_enc s0), (sp_enc s1), (sp_enc s2), (sp_enc s3) by assumption.
  rewrite decode4_full by assumption. reflexivity.
Qed.

Lemma triple_ind (P : list Z -> Prop) :
  P [] -> (forall a, P [a]) -> (forall a b, P [a;b]) ->
  (forall a b c l, P l -> P (a :: b :: c :: l)) -> forall l, P l.
Proof.
  intros H0 H1 H2 H3.
  assert (forall n l, (length l <= n)%nat -> P l) as H.
  { induction n as [|n IH]; intros l Hl.
    - destruct l; [exact H0|simpl in Hl; lia].
    - destruct l as [|a [|b [|c l]]]; auto. apply H3, IH. simpl in Hl. lia. }
  intros l. exact (H (length l) l (le_n _)).
Qed.

Lemma round_loop bs : forall out trail, Forall byte bs ->
  (trail = [] \/ (length bs mod 3)%nat <> 0%nat) ->
  decode_loop (encode bs ++ trail) [] out = Ret true (out ++ bs).
Proof.
  induction bs as [|a|a b|a b c l IH] using triple_ind; intros out trail HF Ht.
  - destruct Ht as [->|Ht]; [|simpl in Ht; congruence].
    simpl. now rewrite app_nil_r.
  - inversion_clear HF as [|? ? Ha _]. cbn [encode decode_loop app].
    rewrite !sp_enc by apply land63_range.
    change (is_space pad) with false. cbv iota.
    rewrite decode4_pad2 by apply land63_range.
    do 3 f_equal. apply Z.eqb_eq. exact (sweep1 _ 256 out0'_sweep a Ha).
  - inversion_clear HF as [|? ? Ha HF2]. inversion_clear HF2 as [|? ? Hb _].
    cbn [encode decode_loop app].
    rewrite !sp_enc by apply land63_range.
    change (is_space pad) with false. cbv iota.
    rewrite decode4_pad1 by apply land63_range.
    destruct (dec_pair a b Ha Hb) as [-> ->]. reflexivity.
  - inversion_clear HF as [|? ? Ha HF2]. inversion_clear HF2 as [|? ? Hb HF3].
    inversion_clear HF3 as [|? ? Hc HF4].
    cbn [encode app].
    rewrite step_full by apply land63_range.
    destruct (dec_triplet a b c Ha Hb Hc) as (-> & -> & ->).
    rewrite IH.
    + now rewrite <- app_assoc.
    + exact HF4.
    + destruct Ht as [Ht|Ht]; [left; exact Ht|right].
      cbn [length] in Ht.
      replace (S (S (S (length l)))) with (length l + 1 * 3)%nat in Ht by lia.
      now rewrite Nat.mod_add in Ht by lia.
Qed.

Lemma decode_encode_lemma bs : Forall byte bs -> decode (encode bs) = Ret true bs.
Proof.
  intros H. unfold decode. rewrite <- (app_nil_r (encode bs)).
  rewrite round_loop by auto. reflexivity.
Qed.

Lemma decode_spaces_lemma text bs : Forall byte bs ->
  filter (fun c => negb (is_space c)) text = encode bs ->
  decode text = Ret true bs.
Proof.
  intros H Ht. unfold decode. rewrite decode_loop_spaces, Ht.
  apply (decode_encode_lemma bs H).
Qed.

Lemma decode_trailing_lemma bs trail : Forall byte bs ->
  (length bs mod 3)%nat <> 0%nat ->
  decode (encode bs ++ trail) = Ret true bs.
Proof.
  intros H Hm. unfold decode. rewrite round_loop by auto. reflexivity.
Qed.

(* missing padding is tolerated *)
Definition strip_pad (t : list Z) : list Z := filter (fun c => negb (c =? pad)) t.

Lemma np_enc s : 0 <= s < 64 -> (enc_char s =? pad) = false.
Proof. intros H. apply (enc_char_ok s H). Qed.

Lemma unpadded_loop bs : forall out, Forall byte bs ->
  decode_loop (strip_pad (encode bs)) [] out = Ret true (out ++ bs).
Proof.
  unfold strip_pad.
  induction bs as [|a|a b|a b c l IH] using triple_ind; intros out HF.
  - simpl. now rewrite app_nil_r.
  - inversion_clear HF as [|? ? Ha _]. cbn [encode filter].
    rewrite !np_enc by apply land63_range. cbn [negb].
    change (pad =? pad) with true. cbn [negb decode_loop app].
    rewrite !sp_enc by apply land63_range.
    cbv beta iota zeta delta [decode_end nth].
    rewrite decode4_pad2 by apply land63_range.
    do 3 f_equal. apply Z.eqb_eq. exact (sweep1 _ 256 out0'_sweep a Ha).
  - inversion_clear HF as [|? ? Ha HF2]. inversion_clear HF2 as [|? ? Hb _].
    cbn [encode filter].
    rewrite !np_enc by apply land63_range. cbn [negb].
    change (pad =? pad) with true. cbn [negb decode_loop app].
    rewrite !sp_enc by apply land63_range.
    cbv beta iota zeta delta [decode_end nth].
    rewrite decode4_pad1 by apply land63_range.
    destruct (dec_pair a b Ha Hb) as [-> ->]. reflexivity.
  - inversion_clear HF as [|? ? Ha HF2]. inversion_clear HF2 as [|? ? Hb HF3].
    inversion_clear HF3 as [|? ? Hc HF4].
    cbn [encode filter].
    rewrite !np_enc by apply land63_range. cbn [negb].
    rewrite step_full by apply land63_range.
    destruct (dec_triplet a b c Ha Hb Hc) as (-> & -> & ->).
    rewrite IH by exact HF4. now rewrite <- app_assoc.
Qed.

Lemma unpadded_lemma bs : Forall byte bs -> decode (strip_pad (encode bs)) = Ret true bs.
Proof. intros H. unfold decode. rewrite unpadded_loop by exact H. reflexivity. Qed.

(* ---- shape of the encoding ---- *)
Lemma encode_length_lemma bs : length (encode bs) = (4 * ((length bs + 2) / 3))%nat.
Proof.
  induction bs as [|a|a b|a b c l IH] using triple_ind; try reflexivity.
  cbn [encode length]. rewrite IH.
  replace (S (S (S (length l))) + 2)%nat with ((length l + 2) + 1 * 3)%nat by lia.
  rewrite Nat.div_add by lia. lia.
Qed.

Lemma ac_enc s : 0 <= s < 64 -> alphabet_char (enc_char s).
Proof. intros H. apply (enc_char_ok s H). Qed.

(* text = alphabet characters followed by at most two '=' *)
Lemma encode_shape_lemma bs :
  exists body k, encode bs = body ++ repeat pad k /\ Forall alphabet_char body
    /\ (k <= 2)%nat.
Proof.
  induction bs as [|a|a b|a b c l IH] using triple_ind.
  - exists [], 0%nat. repeat split; auto; lia.
  - eexists [_;_], 2%nat. split; [reflexivity|].
    split; [|lia]. repeat (apply Forall_cons; [apply ac_enc, land63_range|]). apply Forall_nil.
  - eexists [_;_;_], 1%nat. split; [reflexivity|].
    split; [|lia]. repeat (apply Forall_cons; [apply ac_enc, land63_range|]). apply Forall_nil.
  - destruct IH as (body & k & E & F & Hk). cbn [encode]. rewrite E.
    eexists (_ :: _ :: _ :: _ :: body), k. split; [reflexivity|].
    split; [|exact Hk].
    do 4 (apply Forall_cons; [apply ac_enc, land63_range|]). exact F.
Qed.

(* the decoder has no undefined behaviour on ASCII text, returns bytes *)
Lemma table_lookup_ascii c : 0 <= c < 128 ->
  table_lookup c = LBad \/ exists v, table_lookup c = LVal v /\ 0 <= v < 64.
Proof.
  intros H.
  assert (forallb (fun c => match table_lookup c with
     | LUB => false | LBad => true | LVal v => (0 <=? v) && (v <? 64) end) (upto 128) = true)
    as S by (vm_compute; reflexivity).
  pose proof (sweep1 _ _ S c H) as Hc. cbv beta in Hc.
  destruct (table_lookup c); [discriminate|left; reflexivity|right].
  eexists; split; [reflexivity|lia].
Qed.

Lemma dout0_range s t : 0 <= s < 64 -> 0 <= t < 64 -> byte (dout0 s t).
Proof.
  intros Ha Hb. unfold byte.
  pose proof (sweep2 (fun a b => (0 <=? dout0 a b) && (dout0 a b <? 256)) 64
    ltac:(vm_compute; reflexivity) s t Ha Hb) as H. cbv beta in H. lia.
Qed.
Lemma dout1_range s t : 0 <= s < 64 -> 0 <= t < 64 -> byte (dout1 s t).
Proof. intros Ha Hb. rewrite dout1_arith by assumption. unfold byte. divmod. Qed.
Lemma dout2_range s t : 0 <= s < 64 -> 0 <= t < 64 -> byte (dout2 s t).
Proof. intros Ha Hb. rewrite dout2_arith by assumption. unfold byte. divmod. Qed.

Lemma decode4_ascii c0 c1 c2 c3 :
  0 <= c0 < 128 -> 0 <= c1 < 128 -> 0 <= c2 < 128 -> 0 <= c3 < 128 ->
  match decode4 c0 c1 c2 c3 with
  | DUB => False | DBad => True | DOk o | DDone o => Forall byte o end.
Proof.
  intros H0 H1 H2 H3. unfold decode4.
  destruct (table_lookup_ascii c0 H0) as [->|(v0 & -> & R0)]; [exact I|].
  destruct (c0 =? pad); [exact I|].
  destruct (table_lookup_ascii c1 H1) as [->|(v1 & -> & R1)]; [exact I|].
  destruct (c1 =? pad); [exact I|].
  destruct (table_lookup_ascii c2 H2) as [->|(v2 & -> & R2)]; [exact I|].
  destruct (table_lookup_ascii c3 H3) as [->|(v3 & -> & R3)]; [exact I|].
  pose proof (dout0_range v0 v1 R0 R1). pose proof (dout1_range v1 v2 R1 R2).
  pose proof (dout2_range v2 v3 R2 R3).
  unfold dout0, dout1, dout2 in *.
  destruct (c2 =? pad), (c3 =? pad); cbn [negb andb orb app]; try exact I;
    repeat (apply Forall_cons; [assumption|]); apply Forall_nil.
Qed.

Definition ascii (c : Z) : Prop := 0 <= c < 128.

Lemma decode_end_ascii tin out : Forall ascii tin -> Forall byte out ->
  exists ok o, decode_end tin out = Ret ok o /\ Forall byte o.
Proof.
  intros HF HO. unfold decode_end. destruct tin as [|a tin].
  - exists true, out. auto.
  - assert (N : forall k, 0 <= nth k (a :: tin) pad < 128).
    { intros k. destruct (nth_in_or_default k (a :: tin) pad) as [Hi|He].
      - rewrite Forall_forall in HF. apply HF. exact Hi.
      - rewrite He. unfold pad. lia. }
    pose proof (decode4_ascii _ _ _ _ (N 0%nat) (N 1%nat) (N 2%nat) (N 3%nat)) as D.
    cbv zeta.
    destruct (decode4 _ _ _ _); [contradiction| | |]; eexists; eexists;
      (split; [reflexivity|]); auto; apply Forall_app; auto.
Qed.

Lemma decode_loop_ascii text : forall tin out, Forall ascii text -> Forall ascii tin ->
  Forall byte out -> exists ok o, decode_loop text tin out = Ret ok o /\ Forall byte o.
Proof.
  induction text as [|c text IH]; intros tin out HT Hin HO.
  - apply decode_end_ascii; assumption.
  - inversion_clear HT as [|? ? Hc HT2]. cbn [decode_loop].
    destruct (is_space c); [apply IH; assumption|].
    assert (Forall ascii (tin ++ [c])) as Happ by (apply Forall_app; auto).
    destruct tin as [|a [|b [|d [|e tin]]]]; try (apply IH; assumption).
    inversion_clear Hin as [|? ? Ha H2]. inversion_clear H2 as [|? ? Hb H3].
    inversion_clear H3 as [|? ? Hd _].
    pose proof (decode4_ascii a b d c Ha Hb Hd Hc) as D.
    destruct (decode4 a b d c); [contradiction| | |].
    + exists false, out. auto.
    + apply IH; auto. apply Forall_app; auto.
    + eexists; eexists; split; [reflexivity|]. apply Forall_app; auto.
Qed.

Lemma decode_ascii_safe_lemma text : Forall (fun c => 0 <= c < 128) text ->
  exists ok out, decode text = Ret ok out /\ Forall byte out.
Proof. intros H. apply decode_loop_ascii; auto. Qed.

(* ------------------------------------------------------------------ *)
(* VTK blocks *)
Section V.
  Variable T : Type.
  Variable sizeT : nat.
  Variable bytes_of : T -> list Z.
  Variable compress decompress : list Z -> list Z.
  Hypothesis lossless : forall l, decompress (compress l) = l.
  Variable per_block : nat.
  Hypothesis Hpb : (0 < per_block)%nat.

  Notation enc := (vtk_encode T sizeT bytes_of compress per_block).
  Notation ser := (serialize T bytes_of).
  Notation blk := (block T per_block).

  Lemma cut_concat (cs : list (list Z)) : cut (map (@length Z) cs) (concat cs) = cs.
  Proof.
    induction cs as [|c cs IH]; [reflexivity|]. cbn [map concat cut].
    rewrite firstn_app, firstn_all, Nat.sub_diag. cbn [firstn]. rewrite app_nil_r.
    rewrite skipn_app, skipn_all, Nat.sub_diag. cbn [skipn app]. now rewrite IH.
  Qed.

  Lemma read_blocks x :
    vtk_read decompress (enc x) =
    concat (map ser (map (blk x) (seq 0 (num_blocks T per_block x)))).
  Proof.
    unfold vtk_read, vtk_encode. cbn [hdr_sizes payload].
    rewrite cut_concat, !map_map. f_equal. apply map_ext. intros i. apply lossless.
  Qed.

  Lemma ser_app a b : ser (a ++ b) = ser a ++ ser b.
  Proof. unfold serialize. now rewrite map_app, concat_app. Qed.

  Lemma ser_concat ls : concat (map ser ls) = ser (concat ls).
  Proof.
    induction ls as [|l ls IH]; [reflexivity|]. cbn [map concat]. now rewrite ser_app, IH.
  Qed.

  (* k full blocks in a row *)
  Lemma full_blocks (x : list T) k :
    concat (map (fun i => firstn per_block (skipn (per_block * i) x)) (seq 0 k))
    = firstn (per_block * k) x.
  Proof.
    induction k as [|k IH].
    - rewrite Nat.mul_0_r. reflexivity.
    - rewrite seq_S, map_app, concat_app, IH. cbn [map concat Nat.add].
      rewrite app_nil_r.
      rewrite <- (firstn_skipn (per_block * k) x) at 3.
      replace (per_block * S k)%nat with (per_block * k + per_block)%nat by lia.
      destruct (Nat.le_gt_cases (per_block * k) (length x)) as [Hle|Hgt].
      + rewrite firstn_app, (firstn_all2 (firstn (per_block * k) x))
          by (rewrite firstn_length; lia).
        rewrite firstn_length, Nat.min_l by exact Hle. f_equal. f_equal. lia.
      + rewrite (skipn_all2 x) by lia. rewrite firstn_nil, !app_nil_r.
        symmetry. apply firstn_all2. rewrite firstn_length. lia.
  Qed.

  Lemma vtk_partial_ok x : (length x mod per_block <> 0)%nat ->
    vtk_read decompress (enc x) = ser x.
  Proof.
    intros Hm. rewrite read_blocks, ser_concat. f_equal.
    unfold num_blocks, num_partial. apply Nat.eqb_neq in Hm. rewrite Hm.
    set (k := (length x / per_block)%nat).
    rewrite seq_S, map_app, concat_app.
    rewrite (map_ext_in (blk x) (fun i => firstn per_block (skipn (per_block * i) x))).
    - rewrite full_blocks. cbn [map concat Nat.add]. rewrite app_nil_r.
      unfold block, num_blocks, num_partial. rewrite Hm. fold k.
      replace (Nat.eqb k (S k - 1)) with true by (symmetry; apply Nat.eqb_eq; lia).
      rewrite (firstn_all2 (skipn (per_block * k) x)); [apply firstn_skipn|].
      rewrite skipn_length. pose proof (Nat.div_mod (length x) per_block). fold k in H. lia.
    - intros i Hi. apply in_seq in Hi. unfold block, num_blocks, num_partial.
      rewrite Hm. fold k.
      replace (Nat.eqb i (S k - 1)) with false; [reflexivity|].
      symmetry. apply Nat.eqb_neq. lia.
  Qed.

  Lemma vtk_nil_ok : vtk_read decompress (enc []) = ser [].
  Proof.
    rewrite read_blocks, ser_concat. f_equal.
    unfold num_blocks, num_partial. cbn [length].
    rewrite Nat.mod_0_l, Nat.div_0_l by lia. reflexivity.
  Qed.

  Lemma vtk_multiple_loses x : (length x mod per_block = 0)%nat -> x <> [] ->
    vtk_read decompress (enc x) = ser (firstn (length x - per_block) x).
  Proof.
    intros Hm Hx. rewrite read_blocks, ser_concat. f_equal.
    unfold num_blocks, num_partial. apply Nat.eqb_eq in Hm. rewrite Hm.
    pose proof (Nat.div_mod (length x) per_block) as Hd.
    apply Nat.eqb_eq in Hm. rewrite Hm in Hd.
    destruct (length x / per_block)%nat as [|k] eqn:Hk.
    { destruct x; [congruence|]. cbn [length] in Hd. lia. }
    rewrite seq_S, map_app, concat_app.
    rewrite (map_ext_in (blk x) (fun i => firstn per_block (skipn (per_block * i) x))).
    - rewrite full_blocks. cbn [map concat Nat.add]. rewrite app_nil_r.
      unfold block, num_blocks, num_partial. rewrite Hm, Hk. cbn [Nat.eqb].
      replace (Nat.eqb k (S k - 1)) with true by (symmetry; apply Nat.eqb_eq; lia).
      cbn [firstn]. rewrite app_nil_r. f_equal. lia.
    - intros i Hi. apply in_seq in Hi. unfold block, num_blocks, num_partial.
      rewrite Hm, Hk. cbn [Nat.eqb].
      replace (Nat.eqb i (S k - 1)) with false; [reflexivity|].
      symmetry. apply Nat.eqb_neq. lia.
  Qed.

  Lemma vtk_header x : hdr_blocks (enc x) = length (hdr_sizes (enc x))
    /\ (length x <= per_block * hdr_blocks (enc x))%nat
    /\ (per_block * hdr_blocks (enc x) < length x + per_block)%nat.
  Proof.
    cbn [vtk_encode hdr_blocks hdr_sizes]. rewrite !map_length, seq_length.
    split; [reflexivity|]. unfold num_blocks, num_partial.
    pose proof (Nat.div_mod (length x) per_block) as Hd.
    pose proof (Nat.mod_upper_bound (length x) per_block) as Hu.
    destruct (Nat.eqb_spec (length x mod per_block) 0); lia.
  Qed.
End V.

Lemma vtk_header_sizes : forall T sizeT bytes_of compress per_block, (0 < per_block)%nat -> (0 < sizeT)%nat ->
  forall x : list T, let a := vtk_encode T sizeT bytes_of compress per_block x in
  (if hdr_partial a =? 0 then hdr_blocks a * hdr_block_size a else (hdr_blocks a - 1) * hdr_block_size a + hdr_partial a)%nat
  = (sizeT * length x)%nat /\ (hdr_partial a < hdr_block_size a)%nat.
Proof.
  intros T sizeT bytes_of compress per_block Hp Hs x. cbn [vtk_encode hdr_partial hdr_blocks hdr_block_size]. unfold num_blocks, num_partial.
  pose proof (Nat.div_mod (length x) per_block ltac:(lia)) as D. pose proof (Nat.mod_upper_bound (length x) per_block ltac:(lia)) as U.
  set (q := (length x / per_block)%nat) in *. set (m := (length x mod per_block)%nat) in *. clearbody q m. split; [|nia].
  destruct (Nat.eqb_spec m 0) as [->|M].
  - cbn [Nat.mul Nat.eqb]. rewrite D. nia.
  - destruct (Nat.eqb_spec (m * sizeT) 0) as [Z|_]; [nia|]. rewrite D. replace (S q - 1)%nat with q by lia. nia.
Qed.

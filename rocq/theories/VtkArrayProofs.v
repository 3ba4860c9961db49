(* C67, arrays. *)
From Coq Require Import Ascii String List Bool Arith ZArith Lia.
From Flocq Require Import IEEE754.Bits.
Import ListNotations.
Require Import Verif.VtkArray Verif.VtkArraySpec.
Local Arguments Nat.ltb : simpl never.
Local Arguments Nat.leb : simpl never.
Local Arguments Nat.eqb : simpl never.
Local Arguments Z.eqb : simpl never.
Local Arguments Z.leb : simpl never.
Local Arguments Z.ltb : simpl never.
Local Arguments Z.div : simpl never.
Local Arguments Z.mul : simpl never.
Local Arguments Z.add : simpl never.
Local Arguments Z.modulo : simpl never.
Local Arguments Z.shiftl : simpl never.
Local Arguments Z.shiftr : simpl never.
Local Arguments Z.lor : simpl never.
Local Arguments Z.land : simpl never.
Open Scope list_scope.
Definition byte (z : Z) : Prop := (0 <= z < 256)%Z.
(* ---- every case of a byte ---- *)
Definition upto (n : nat) : list Z := map Z.of_nat (seq 0 n).
Lemma in_upto : forall n z, (0 <= z < Z.of_nat n)%Z -> In z (upto n).
Proof. intros n z H. unfold upto. apply in_map_iff. exists (Z.to_nat z). split; [lia|]. apply in_seq. lia. Qed.
Lemma land63 : forall v, (0 <= Z.land v 63 < 64)%Z.
Proof. intros v. change 63%Z with (Z.ones 6). rewrite Z.land_ones by lia. apply Z.mod_pos_bound. reflexivity. Qed.
Lemma digit_char : forall v, digit (base64_char v) = Some (Z.land v 63).
Proof.
  intros v. unfold base64_char. pose proof (land63 v) as B. set (k := Z.land v 63) in *. clearbody k.
  assert (C : forallb (fun k => match digit (nth (Z.to_nat k) base64_chars zero) with Some d => Z.eqb d k | None => false end) (upto 64) = true) by (vm_compute; reflexivity).
  rewrite forallb_forall in C. specialize (C k (in_upto 64 k ltac:(lia))). destruct (digit (nth (Z.to_nat k) base64_chars zero)) as [d|]; [|discriminate]. apply Z.eqb_eq in C. congruence.
Qed.
Lemma pairs_check : forallb (fun a => forallb (fun b => Z.eqb (Z.land (Z.lor (Z.shiftl a 4) (Z.shiftr b 4)) 63) ((a mod 4) * 16 + b / 16) &&
  Z.eqb (Z.land (Z.lor (Z.shiftl a 2) (Z.shiftr b 6)) 63) ((a mod 16) * 4 + b / 64)) (upto 256)) (upto 256) = true.
Proof. vm_compute. reflexivity. Qed.
Lemma pairs : forall a b, byte a -> byte b -> Z.land (Z.lor (Z.shiftl a 4) (Z.shiftr b 4)) 63 = ((a mod 4) * 16 + b / 16)%Z /\
  Z.land (Z.lor (Z.shiftl a 2) (Z.shiftr b 6)) 63 = ((a mod 16) * 4 + b / 64)%Z.
Proof.
  intros a b A B. pose proof pairs_check as C. rewrite forallb_forall in C. specialize (C a (in_upto 256 a A)). cbn beta in C. rewrite forallb_forall in C. specialize (C b (in_upto 256 b B)).
  apply andb_true_iff in C. rewrite !Z.eqb_eq in C. exact C.
Qed.
Lemma high : forall a, byte a -> Z.land (Z.shiftr a 2) 63 = (a / 4)%Z.
Proof.
  intros a A. assert (C : forallb (fun a => Z.eqb (Z.land (Z.shiftr a 2) 63) (a / 4)) (upto 256) = true) by (vm_compute; reflexivity).
  rewrite forallb_forall in C. apply Z.eqb_eq, C, in_upto, A.
Qed.
Lemma low : forall a, byte a -> Z.land a 63 = (a mod 64)%Z.
Proof. intros a A. change 63%Z with (Z.ones 6). rewrite Z.land_ones by lia. reflexivity. Qed.
Lemma alone : forall a, byte a -> Z.land (Z.shiftl a 4) 63 = ((a mod 4) * 16)%Z /\ Z.land (Z.shiftl a 2) 63 = ((a mod 16) * 4)%Z.
Proof.
  intros a A. assert (C : forallb (fun a => Z.eqb (Z.land (Z.shiftl a 4) 63) ((a mod 4) * 16) && Z.eqb (Z.land (Z.shiftl a 2) 63) ((a mod 16) * 4)) (upto 256) = true) by (vm_compute; reflexivity).
  rewrite forallb_forall in C. specialize (C a (in_upto 256 a A)). apply andb_true_iff in C. rewrite !Z.eqb_eq in C. exact C.
Qed.
Lemma three_ind : forall (P : list Z -> Prop), P [] -> (forall a, P [a]) -> (forall a b, P [a; b]) -> (forall a b c l, P l -> P (a :: b :: c :: l)) -> forall l, P l.
Proof.
  intros P P0 P1 P2 P3 l. assert (H : P l /\ (forall a, P (a :: l)) /\ (forall a b, P (a :: b :: l))).
  { induction l as [|x l (H1 & H2 & H3)]; [auto|]. split; [apply H2|]. split; [intros; apply H3|]. intros. apply P3, H1. }
  apply H.
Qed.
Lemma digit_pad : digit "=" = None. Proof. reflexivity. Qed.
Ltac arith := repeat match goal with H : byte _ |- _ => unfold byte in H end; Z.div_mod_to_equations; lia.
Theorem decode_encode : forall l, Forall byte l -> decode (encode_base64 l) = Some l.
Proof.
  apply (three_ind (fun l => Forall byte l -> decode (encode_base64 l) = Some l)).
  - reflexivity.
  - intros a F. inversion_clear F as [|? ? A _]. cbn [encode_base64 decode]. rewrite !digit_char, digit_pad, high by exact A. rewrite (proj1 (alone a A)). cbn [andb pad].
    change (pad "=") with true. cbn [andb]. replace (((a mod 4 * 16) mod 16 =? 0)%Z) with true by (symmetry; apply Z.eqb_eq; arith). cbv iota. f_equal. f_equal. arith.
  - intros a b F. inversion_clear F as [|? ? A F0]. inversion_clear F0 as [|? ? B _]. cbn [encode_base64 decode]. rewrite !digit_char, digit_pad, high by exact A.
    rewrite (proj1 (pairs a b A B)), (proj2 (alone b B)). change (pad "=") with true. cbn [andb]. replace (((b mod 16 * 4) mod 4 =? 0)%Z) with true by (symmetry; apply Z.eqb_eq; arith). cbv iota zeta. f_equal. f_equal; [arith|]. f_equal. arith.
  - intros a b c l IH F. inversion_clear F as [|? ? A F0]. inversion_clear F0 as [|? ? B F1]. inversion_clear F1 as [|? ? C F2]. cbn [encode_base64 decode]. rewrite !digit_char, high by exact A.
    rewrite (proj1 (pairs a b A B)), (proj2 (pairs b c B C)), low by exact C. rewrite (IH F2). cbn [option_map]. cbv zeta. f_equal. f_equal; [arith|]. f_equal; [arith|]. f_equal. arith.
Qed.
Lemma encode_length : forall l, length (encode_base64 l) = 4 * ((length l + 2) / 3).
Proof.
  apply three_ind; [reflexivity|reflexivity|reflexivity|]. intros a b c l IH. cbn [encode_base64 length]. rewrite IH. replace (S (S (S (length l))) + 2) with (length l + 2 + 1 * 3) by lia.
  rewrite Nat.div_add by lia. lia.
Qed.
Lemma encode_app : forall l m, length l mod 3 = 0 -> encode_base64 (l ++ m) = encode_base64 l ++ encode_base64 m.
Proof.
  intros l. apply (three_ind (fun l => forall m, length l mod 3 = 0 -> encode_base64 (l ++ m) = encode_base64 l ++ encode_base64 m)).
  - reflexivity. - discriminate. - discriminate.
  - intros a b c l0 IH m H. cbn [encode_base64 app]. rewrite IH; [reflexivity|]. cbn [length] in H. replace (S (S (S (length l0)))) with (length l0 + 1 * 3) in H by lia. rewrite Nat.mod_add in H by lia. exact H.
Qed.
(* ---- numbers in memory ---- *)
Lemma memory_length : forall n v, length (memory_bytes n v) = n.
Proof. induction n as [|n IH]; intros v; [reflexivity|]. cbn. rewrite IH. reflexivity. Qed.
Lemma memory_byte : forall n v, Forall byte (memory_bytes n v).
Proof. induction n as [|n IH]; intros v; [constructor|]. constructor; [apply Z.mod_pos_bound; reflexivity|apply IH]. Qed.
Lemma memory_number : forall n v, (0 <= v < 256 ^ Z.of_nat n)%Z -> number (memory_bytes n v) = v.
Proof.
  induction n as [|n IH]; intros v H; [change (256 ^ Z.of_nat 0)%Z with 1%Z in H; cbn; lia|]. cbn [memory_bytes number]. rewrite IH.
  - pose proof (Z.div_mod v 256). lia.
  - rewrite Nat2Z.inj_succ, Z.pow_succ_r in H by lia. split; [apply Z.div_pos; lia|]. apply Z.div_lt_upper_bound; lia.
Qed.
Lemma flat_byte : forall (X : Type) (f : X -> list Z) l, (forall x, Forall byte (f x)) -> Forall byte (flat_map f l).
Proof. intros X f l H. induction l as [|x l IH]; [constructor|]. cbn. apply Forall_app. auto. Qed.
Lemma flat_length : forall (X : Type) (f : X -> list Z) n l, (forall x, length (f x) = n) -> length (flat_map f l) = n * length l.
Proof. intros X f n l H. induction l as [|x l IH]; [cbn; lia|]. cbn. rewrite app_length, H, IH. lia. Qed.
Lemma groups_flat : forall (X : Type) (f : X -> list Z) n l fuel, (forall x, length (f x) = S n) -> length l <= fuel -> groups fuel (S n) (flat_map f l) = Some (map f l).
Proof.
  intros X f n l. induction l as [|x l IH]; intros fuel H L; [destruct fuel; reflexivity|]. destruct fuel as [|fuel]; [cbn in L; lia|].
  pose proof (H x) as Hx. destruct (f x) as [|b bs] eqn:Ef; [discriminate|]. cbn [flat_map]. rewrite Ef. cbn [app groups].
  replace (b :: bs ++ flat_map f l) with ((b :: bs) ++ flat_map f l) by reflexivity.
  rewrite app_length, Hx. destruct (Nat.ltb_spec (S n + length (flat_map f l)) (S n)) as [C|C]; [lia|].
  rewrite firstn_app, Hx, Nat.sub_diag, firstn_all2 by lia. cbn [firstn]. rewrite List.app_nil_r. rewrite skipn_app, Hx, Nat.sub_diag, skipn_all2 by lia. cbn [skipn app].
  rewrite IH; [|exact H|cbn in L; lia]. cbn [option_map map]. rewrite Ef. reflexivity.
Qed.
Lemma numbers_flat : forall (X : Type) (f : X -> list Z) n l, (forall x, length (f x) = S n) -> numbers (S n) (flat_map f l) = Some (map (fun x => number (f x)) l).
Proof.
  intros X f n l H. unfold numbers. rewrite (groups_flat X f n) by (try exact H; rewrite (flat_length X f (S n)) by exact H; nia). cbn [option_map]. rewrite map_map. reflexivity.
Qed.
Lemma numbers_words : forall l, Forall (fun v => (0 <= v < 2 ^ 32)%Z) l -> numbers 4 (flat_map word_bytes l) = Some l.
Proof.
  intros l F. rewrite (numbers_flat Z word_bytes 3) by (intros; apply memory_length). f_equal. rewrite <- (map_id l) at 2. apply map_ext_in. intros v I. rewrite Forall_forall in F. apply memory_number. apply F, I.
Qed.
Lemma numbers_doubles : forall x, option_map (map b64_of_bits) (numbers 8 (flat_map double_bytes x)) = Some x.
Proof.
  intros x. rewrite (numbers_flat binary64 double_bytes 7) by (intros; apply memory_length). cbn [option_map]. f_equal. rewrite map_map. rewrite <- (map_id x) at 2. apply map_ext. intros d.
  unfold double_bytes. rewrite memory_number.
  - apply (binary_float_of_bits_of_binary_float 52 11); reflexivity.
  - apply (bits_of_binary_float_range 52 11); reflexivity.
Qed.
(* ---- blocks ---- *)
Section Zlib.
Variable compress : list Z -> list Z.
Variable decompress : list Z -> option (list Z).
Hypothesis zlib : forall l, Forall byte l -> decompress (compress l) = Some l.
Hypothesis zlib_bytes : forall l, Forall byte (compress l).
Lemma double_byte : forall x, Forall byte (flat_map double_bytes x).
Proof. intros x. apply flat_byte. intros. apply memory_byte. Qed.
Lemma compressed_length : forall n p x, length (compressed_blocks compress n p x) = n.
Proof. induction n as [|n IH]; intros p x; [reflexivity|]. cbn [compressed_blocks length]. rewrite IH. reflexivity. Qed.
Lemma compressed_byte : forall n p x, Forall byte (concat (compressed_blocks compress n p x)).
Proof. induction n as [|n IH]; intros p x; [constructor|]. cbn [compressed_blocks concat]. apply Forall_app. split; [apply zlib_bytes|apply IH]. Qed.
Lemma per_block_bytes : (Z.of_nat per_block * 8 = 32768)%Z. Proof. reflexivity. Qed.
Lemma per_block_pos : per_block <> 0. Proof. discriminate. Qed.
Lemma app_cut : forall (X : Type) (a b : list X), firstn (length a) (a ++ b) = a /\ skipn (length a) (a ++ b) = b.
Proof.
  intros X a b. split; [rewrite firstn_app, Nat.sub_diag, firstn_all, List.app_nil_r; reflexivity|]. rewrite skipn_app, Nat.sub_diag, skipn_all. reflexivity.
Qed.
Lemma read_compressed : forall n p x, 0 < p -> p < per_block -> length x = per_block * n + p ->
  read_blocks decompress (map (fun b => Z.of_nat (length b)) (compressed_blocks compress (S n) p x)) 32768 (Z.of_nat (p * 8)) (concat (compressed_blocks compress (S n) p x)) =
  Some (flat_map double_bytes x).
Proof.
  induction n as [|n IH]; intros p x P P' L.
  - cbn [compressed_blocks map concat read_blocks]. change (Nat.eqb 0 0) with true. cbv iota. rewrite List.app_nil_r, Nat2Z.id. rewrite Nat.ltb_irrefl, firstn_all, skipn_all.
    rewrite zlib by apply double_byte. rewrite List.app_nil_r, firstn_all2 by lia.
    replace (Z.of_nat (p * 8) =? 0)%Z with false by (symmetry; apply Z.eqb_neq; lia). rewrite (flat_length _ _ 8) by (intros; apply memory_length).
    replace (Z.of_nat (8 * length x) =? Z.of_nat (p * 8))%Z with true by (symmetry; apply Z.eqb_eq; lia). reflexivity.
  - remember (S n) as m eqn:Em. cbn [compressed_blocks]. replace (Nat.eqb m 0) with false by (symmetry; apply Nat.eqb_neq; lia). cbv iota zeta. cbn [map concat read_blocks]. rewrite Nat2Z.id.
    rewrite app_length. destruct (Nat.ltb_spec (length (compress (flat_map double_bytes (firstn per_block x))) + length (concat (compressed_blocks compress m p (skipn per_block x)))) (length (compress (flat_map double_bytes (firstn per_block x))))) as [C|C]; [lia|].
    destruct (app_cut Z (compress (flat_map double_bytes (firstn per_block x))) (concat (compressed_blocks compress m p (skipn per_block x)))) as [A1 A2]. rewrite A1, A2.
    rewrite zlib by apply double_byte.
    subst m. rewrite IH; [|exact P|exact P'|rewrite skipn_length; lia].
    assert (M : exists s ss, map (fun b => Z.of_nat (length b)) (compressed_blocks compress (S n) p (skipn per_block x)) = s :: ss) by (cbn [compressed_blocks map]; eauto).
    destruct M as (s & ss & M). rewrite M. rewrite (flat_length _ _ 8) by (intros; apply memory_length).
    rewrite firstn_length_le by lia. replace (Z.of_nat (8 * per_block) =? 32768)%Z with true by reflexivity. rewrite <- flat_map_app, firstn_skipn. reflexivity.
Qed.
Lemma read_compressed_full : forall n x, read_blocks decompress (map (fun b => Z.of_nat (length b)) (compressed_blocks compress (S n) 0 x)) 32768 0
  (concat (compressed_blocks compress (S n) 0 x)) = None.
Proof.
  induction n as [|n IH]; intros x.
  - cbn [compressed_blocks map concat read_blocks]. change (Nat.eqb 0 0) with true. cbv iota. cbn [firstn flat_map]. rewrite List.app_nil_r, Nat2Z.id. rewrite Nat.ltb_irrefl, firstn_all, skipn_all.
    rewrite zlib by constructor. reflexivity.
  - remember (S n) as m eqn:Em. cbn [compressed_blocks]. replace (Nat.eqb m 0) with false by (symmetry; apply Nat.eqb_neq; lia). cbv iota zeta. cbn [map concat read_blocks]. rewrite Nat2Z.id.
    destruct (app_cut Z (compress (flat_map double_bytes (firstn per_block x))) (concat (compressed_blocks compress m 0 (skipn per_block x)))) as [A1 A2]. rewrite A1, A2.
    subst m. rewrite IH. destruct (decompress (compress (flat_map double_bytes (firstn per_block x)))); destruct (_ <? _); reflexivity.
Qed.
(* the whole text *)
Lemma length_words : forall l, length (flat_map word_bytes l) = 4 * length l.
Proof. intros l. apply flat_length. intros. apply memory_length. Qed.
Lemma read_header : forall n p blocks, length blocks = n -> (Z.of_nat n < 2 ^ 32)%Z -> p < per_block -> Forall (fun b => (Z.of_nat (length b) < 2 ^ 32)%Z) blocks -> Forall byte (concat blocks) ->
  read_array decompress (encode_base64 (flat_map word_bytes (Z.of_nat n :: block_size :: Z.of_nat (p * 8) :: map (fun b => Z.of_nat (length b)) blocks)) ++ encode_base64 (concat blocks)) =
  read_blocks decompress (map (fun b => Z.of_nat (length b)) blocks) 32768 (Z.of_nat (p * 8)) (concat blocks).
Proof.
  intros n p blocks LB LN LP FB BB. set (h := Z.of_nat n :: block_size :: Z.of_nat (p * 8) :: map (fun b => Z.of_nat (length b)) blocks). set (d := encode_base64 (concat blocks)).
  assert (LH : length h = 3 + n) by (unfold h; cbn [length]; rewrite map_length, LB; reflexivity).
  assert (WH : Forall (fun v => (0 <= v < 2 ^ 32)%Z) h).
  { unfold h. constructor; [lia|]. constructor; [unfold block_size; lia|]. constructor; [pose proof per_block_bytes; lia|]. apply Forall_map. eapply Forall_impl; [|exact FB]. intros b Hb. cbn in *. lia. }
  assert (F16 : firstn 16 (encode_base64 (flat_map word_bytes h) ++ d) = encode_base64 (flat_map word_bytes [Z.of_nat n; block_size; Z.of_nat (p * 8)])).
  { unfold h. change (Z.of_nat n :: block_size :: Z.of_nat (p * 8) :: map (fun b => Z.of_nat (length b)) blocks) with ([Z.of_nat n; block_size; Z.of_nat (p * 8)] ++ map (fun b => Z.of_nat (length b)) blocks).
    rewrite flat_map_app, encode_app by (rewrite length_words; reflexivity). rewrite <- app_assoc.
    set (e := encode_base64 (flat_map word_bytes [Z.of_nat n; block_size; Z.of_nat (p * 8)])). assert (Le : length e = 16) by (unfold e; rewrite encode_length, length_words; reflexivity).
    rewrite firstn_app, Le, Nat.sub_diag, firstn_all2 by lia. cbn [firstn]. apply List.app_nil_r. }
  unfold read_array. rewrite F16. rewrite decode_encode by (apply flat_byte; intros; apply memory_byte).
  assert (NN : number (firstn 4 (flat_map word_bytes [Z.of_nat n; block_size; Z.of_nat (p * 8)])) = Z.of_nat n).
  { change (firstn 4 (flat_map word_bytes [Z.of_nat n; block_size; Z.of_nat (p * 8)])) with (word_bytes (Z.of_nat n)). unfold word_bytes. rewrite memory_number by (change (256 ^ Z.of_nat 4)%Z with (2 ^ 32)%Z; lia). reflexivity. }
  rewrite NN. rewrite Nat2Z.id. cbv zeta.
  replace (4 * ((4 * (3 + n) + 2) / 3)) with (length (encode_base64 (flat_map word_bytes h))) by (rewrite encode_length, length_words, LH; reflexivity).
  destruct (app_cut _ (encode_base64 (flat_map word_bytes h)) d) as [A1 A2]. rewrite A1, A2. unfold d.
  rewrite !decode_encode; [|exact BB|apply flat_byte; intros; apply memory_byte]. cbn [option_map]. rewrite numbers_words by exact WH. unfold h. rewrite map_length, LB, Z.eqb_refl. reflexivity.
Qed.
Theorem array_read : forall x, (length x = 0 \/ length x mod per_block <> 0) -> (forall y, (Z.of_nat (length y) <= 4096)%Z -> (Z.of_nat (length (compress (flat_map double_bytes y))) < 2 ^ 32)%Z) ->
  (Z.of_nat (length x) < 2 ^ 43)%Z -> read_doubles decompress (zlib_base64 compress x) = Some x.
Proof.
  intros x H CL LX. unfold read_doubles, zlib_base64. pose proof per_block_pos as PP.
  pose proof (Nat.div_mod (length x) per_block PP) as DM. pose proof (Nat.mod_upper_bound (length x) per_block PP) as MB.
  assert (PB : Z.of_nat per_block = 4096%Z) by reflexivity.
  set (q := length x / per_block) in *. set (p := length x mod per_block) in *.
  set (n := if Nat.eqb p 0 then q else S q). set (blocks := compressed_blocks compress n p x).
  assert (SB : Forall (fun b => (Z.of_nat (length b) < 2 ^ 32)%Z) blocks).
  { unfold blocks. clear - CL PB MB. generalize x as y. induction n as [|m IH]; intros y; [constructor|]. cbn [compressed_blocks]. constructor; [|apply IH].
    apply CL. rewrite firstn_length. destruct (Nat.eqb m 0); lia. }
  assert (LZ : (Z.of_nat (length x) = 4096 * Z.of_nat q + Z.of_nat p)%Z) by (rewrite DM, Nat2Z.inj_add, Nat2Z.inj_mul, PB; reflexivity).
  assert (NB : (Z.of_nat n < 2 ^ 32)%Z) by (unfold n; clear - LX LZ; clearbody q p; change (2 ^ 43)%Z with 8796093022208%Z in LX; change (2 ^ 32)%Z with 4294967296%Z; destruct (Nat.eqb p 0); lia).
  rewrite read_header; [|apply compressed_length|exact NB|lia|exact SB|apply compressed_byte].
  destruct (Nat.eqb_spec p 0) as [E|E].
  - assert (X : x = []) by (destruct H as [H|H]; [apply length_zero_iff_nil, H|congruence]). assert (Q : q = 0) by (unfold q; rewrite X; reflexivity).
    unfold blocks, n. rewrite E, Q. cbn. rewrite X. reflexivity.
  - unfold blocks, n. rewrite read_compressed; [|lia|lia|lia]. apply numbers_doubles.
Qed.
Theorem array_lost : forall x, length x <> 0 -> length x mod per_block = 0 -> (forall y, (Z.of_nat (length y) <= 4096)%Z -> (Z.of_nat (length (compress (flat_map double_bytes y))) < 2 ^ 32)%Z) ->
  (Z.of_nat (length x) < 2 ^ 43)%Z -> read_doubles decompress (zlib_base64 compress x) = None.
Proof.
  intros x H0 H CL LX. unfold read_doubles, zlib_base64. pose proof per_block_pos as PP.
  pose proof (Nat.div_mod (length x) per_block PP) as DM. assert (PB : Z.of_nat per_block = 4096%Z) by reflexivity.
  rewrite H in *. change (Nat.eqb 0 0) with true. cbv iota. set (q := length x / per_block) in *.
  rewrite read_header; [| apply compressed_length | | lia | | apply compressed_byte].
  2:{ assert (LZ : (Z.of_nat (length x) = 4096 * Z.of_nat q)%Z) by (rewrite DM, Nat.add_0_r, Nat2Z.inj_mul, PB; reflexivity). change (2 ^ 43)%Z with 8796093022208%Z in LX; change (2 ^ 32)%Z with 4294967296%Z; lia. }
  - destruct q as [|q]; [lia|]. change (Z.of_nat (0 * 8)) with 0%Z. rewrite read_compressed_full. reflexivity.
  - clear - CL PB. generalize x as y. induction q as [|m IH]; intros y; [constructor|]. cbn [compressed_blocks]. constructor; [|apply IH].
    apply CL. rewrite firstn_length. destruct (Nat.eqb m 0); lia.
Qed.
End Zlib.

(* C68: Tecplot files hold the mesh and its models. *)
From Coq Require Import Ascii String List Bool Arith ZArith Lia.
From Flocq Require Import IEEE754.BinarySingleNaN.
Import ListNotations.
Require Verif.StrMap Verif.CMatrixFloat.
Require Import Verif.Tecplot Verif.TecplotSpec Verif.TecplotProofs Verif.TecplotFile.
Require Verif.RestartText Verif.RestartNumber.
Require Import Verif.TecplotNumber.
Local Arguments Nat.ltb : simpl never.
Local Arguments Nat.leb : simpl never.
Local Arguments Nat.eqb : simpl never.
Open Scope string_scope.
Open Scope list_scope.
Open Scope nat_scope.
Local Notation text := (list ascii).
Local Notation chars := list_ascii_of_string.
Lemma width_is : width = Z.to_nat 29999.
Proof. reflexivity. Qed.
Opaque width.

(* ---- lines ---- *)
(* A text that has a blank in every 30000 characters is written whole, with newlines in place of some of the blanks, and no line is longer
   than 29999 characters. The words stay. *)
Theorem C68_lines : forall t, spaced width t -> exists out, break_line width t = Some out /\ rewrapped t out /\ words out = words t /\ exists ls, out = join ls /\ Forall (fun l => (Z.of_nat (length l) <= 29999)%Z) ls.
Proof.
  intros t H. destruct (break_line_ok width t H) as (out & E & R & ls & J & L). exists out. split; [exact E|]. split; [exact R|]. split; [symmetry; apply words_rewrapped, R|]. exists ls. split; [exact J|].
  eapply Forall_impl; [|exact L]. cbn beta. intros l Hl. apply Nat2Z.inj_le in Hl. rewrite width_is in Hl. rewrite Z2Nat.id in Hl by lia. exact Hl.
Qed.
Print Assumptions C68_lines.
Example C68_lines_used : break_line 7 (chars "12 34 567 8 9012 34") = Some (chars ("12 34" ++ String newline "567 8" ++ String newline "9012 34")) /\ spaced 7 (chars "12 34 567 8 9012 34").
Proof.
  split; [reflexivity|]. intros p Hp. cbn in Hp. do 12 (destruct p as [|p]; [first [exists 2; split; [lia|reflexivity] | exists 5; split; [lia|reflexivity] | exists 9; split; [lia|reflexivity] | exists 11; split; [lia|reflexivity] | exists 16; split; [lia|reflexivity]]|]). lia.
Qed.

Lemma rfind_none : forall c n t, ~ In c t -> rfind c t n = None.
Proof.
  intros c n t H. unfold rfind. destruct (last_index c (firstn (S n) t)) as [i|] eqn:Ei; [|reflexivity]. exfalso. apply last_some in Ei. apply nth_error_In in Ei. apply H.
  rewrite <- (firstn_skipn (S n) t). apply in_or_app. left. exact Ei.
Qed.
(* A word of more than 30000 characters after a blank: the program does not end. *)
Theorem C68_lines_refuted : forall before word, ~ In space word -> width < length word -> length before <= width -> ~ In space before ->
  forall fuel, break_loop width fuel (before ++ space :: word) 0 = None.
Proof.
  intros b w Hw Lw Lb Hb. set (t := b ++ space :: w). assert (Lt : length t = length b + S (length w)) by (unfold t; rewrite app_length; reflexivity).
  assert (At : forall i, nth_error t i = Some space -> i = length b).
  { intros i Ei. unfold t in Ei. destruct (lt_eq_lt_dec i (length b)) as [[L|L]|L]; [|exact L|].
    - rewrite nth_error_app1 in Ei by exact L. apply nth_error_In in Ei. contradiction.
    - rewrite nth_error_app2 in Ei by lia. destruct (i - length b) as [|j] eqn:Ej; [lia|]. cbn in Ei. apply nth_error_In in Ei. contradiction. }
  assert (Hit : nth_error t (length b) = Some space) by (unfold t; rewrite nth_error_app2, Nat.sub_diag by lia; reflexivity).
  assert (Found : forall s, length b <= s -> rfind space t s = Some (length b)).
  { intros s Hs. unfold rfind. destruct (last_max space (firstn (S s) t) (length b)) as (i & Ei & Li); [rewrite nth_error_firstn by lia; exact Hit|]. rewrite Ei. f_equal. apply At.
    apply last_some in Ei. apply nth_error_firstn_none in Ei. apply Ei. }
  assert (Stuck : forall fuel, break_loop width fuel t (length b + 1) = None).
  { induction fuel as [|fuel IH]; [reflexivity|]. cbn [break_loop]. destruct (Nat.ltb_spec (length t - 1) (length b + 1 + width)) as [H|H]; [lia|]. rewrite Found by lia.
    destruct (Nat.leb_spec (length t) (length b + 1)) as [Q|Q]; [lia|]. rewrite IH. reflexivity. }
  intros [|fuel]; [reflexivity|]. cbn [break_loop]. destruct (Nat.ltb_spec (length t - 1) (0 + width)) as [H|H]; [lia|]. rewrite Found by lia. destruct (Nat.leb_spec (length t) (length b + 1)) as [Q|Q]; [lia|]. rewrite Stuck. reflexivity.
Qed.
Print Assumptions C68_lines_refuted.
(* One without any blank is broken after 29999 characters, and the next one is lost. *)
Theorem C68_word_refuted : forall a c b, length a = width -> ~ In space (a ++ c :: b) -> ~ In newline (a ++ c :: b) -> 0 < length b <= width -> break_line width (a ++ c :: b) = Some (a ++ newline :: b).
Proof.
  intros a c b La Hs Hn Lb. assert (Lt : length (a ++ c :: b) = width + 1 + length b) by (rewrite app_length; cbn; lia).
  unfold break_line. destruct (a ++ c :: b) as [|x t'] eqn:Et; [destruct a; discriminate|]. rewrite <- Et in *. destruct (Nat.ltb_spec (length (a ++ c :: b)) (width + 1)) as [H|_]; [lia|].
  rewrite Lt. assert (exists f, S (width + 1 + length b) = S (S f)) as (f & ->) by (exists (width + length b); lia). cbn [break_loop]. rewrite Lt.
  destruct (Nat.ltb_spec (width + 1 + length b - 1) (0 + width)) as [H|_]; [lia|]. rewrite (rfind_none space _ _ Hs), (rfind_none newline _ _ Hn). cbn [skipn].
  destruct (Nat.leb_spec (width + 1 + length b) (0 + width + 1)) as [H|_]; [lia|]. destruct (Nat.ltb_spec (width + 1 + length b - 1) (0 + width + 1 + width)) as [_|H]; [|lia].
  cbn [option_map]. f_equal. replace (0 + width) with (length a) by lia. rewrite firstn_app, firstn_all, Nat.sub_diag. cbn [firstn]. rewrite List.app_nil_r.
  replace (length a + 1) with (S (length a)) by lia. rewrite skipn_app. rewrite skipn_all2 by lia. replace (S (length a) - length a) with 1 by lia. cbn [skipn app]. rewrite <- app_assoc. reflexivity.
Qed.
Print Assumptions C68_word_refuted.

(* ---- the file ---- *)
(* Every region is a zone: the reader finds the columns of the models that are displayed, with the texts of their values for each node or element,
   and the nodes of the elements.
   partial: the texts of the numbers are not the numbers (C68_digits_refuted); names are not unique (C68_names_refuted); models must be of the same kind
   in every region (C68_kinds_refuted). *)
Theorem C68_file_partial : forall (A : Type) (null : A) (show : A -> text) dim include title (regions : StrMap.smap (region A)),
  (forall a, show a <> [] /\ Forall (fun c => c <> " "%char /\ c <> "010"%char) (show a) /\ (Z.of_nat (length (show a)) < 29999)%Z) ->
  dim = 1 \/ dim = 2 \/ dim = 3 -> Forall (region_of A dim) (map snd regions) -> consistent A (map snd regions) ->
  exists f cs, write_tecplot A null show title dim include regions = Some f /\ f_title f = title /\
    f_variables f = map variable cs /\ NoDup cs /\ (forall c, In c cs <-> column_of A dim include (map snd regions) c) /\
    Forall2 (fun '(n, r) z => z_title z = n /\ z_nodes z = r_nodes A r /\ z_elements z = length (r_elements A r) /\
      read_zone (f_variables f) z = Some (map (fun c => map show (column_values A null r c)) cs, r_elements A r)) regions (f_zones f).
Proof.
  intros A null show dim include title regions Hs D P C. apply file_ok; try assumption.
  - intros a. destruct (Hs a) as (N & F & _). split; [exact N|]. eapply Forall_impl; [|exact F]. intros c [H1 H2]. unfold separator. destruct (Ascii.eqb_spec c " "); [contradiction|]. destruct (Ascii.eqb_spec c "010"); [contradiction|]. reflexivity.
  - intros a. destruct (Hs a) as (_ & _ & L). rewrite width_is. apply Nat2Z.inj_lt. rewrite Z2Nat.id by lia. exact L.
Qed.
Print Assumptions C68_file_partial.
(* The numbers are such texts. *)
Lemma digit_plain : forall d, let c := RestartNumber.digit_char (d mod 10) in c <> " "%char /\ c <> "010"%char.
Proof.
  intros d c. unfold c, RestartNumber.digit_char. pose proof (Z.mod_pos_bound d 10 ltac:(lia)) as B. set (k := Z.to_nat (d mod 10)). assert (K : k < 10) by (unfold k; lia). clearbody k.
  do 10 (destruct k as [|k]; [split; discriminate|]). lia.
Qed.
Notation plain := (fun c : ascii => c <> " "%char /\ c <> "010"%char).
Lemma decimal_plain : forall n d, Forall plain (RestartNumber.decimal n d) /\ length (RestartNumber.decimal n d) = n.
Proof. induction n as [|n IH]; intros d; [split; [constructor|reflexivity]|]. cbn [RestartNumber.decimal]. destruct (IH (d / 10)%Z) as [I1 I2]. split; [apply Forall_app; split; [exact I1|constructor; [apply digit_plain|constructor]]|]. rewrite app_length, I2. cbn. lia. Qed.
Lemma drop_plain : forall t, Forall plain t -> Forall plain (drop_zeros t) /\ length (drop_zeros t) <= length t.
Proof.
  induction t as [|c t IH]; intros H; [split; [constructor|cbn; lia]|]. inversion_clear H as [|? ? Hc Ht]. destruct (IH Ht) as [I1 I2]. cbn [drop_zeros]. destruct (drop_zeros t) as [|u l]; [|split; [constructor; assumption|cbn in *; lia]].
  destruct (Ascii.eqb c "0"); (split; [try constructor; auto|cbn; lia]).
Qed.
Lemma fraction_plain : forall t, Forall plain t -> Forall plain (fraction t) /\ length (fraction t) <= S (length t).
Proof.
  intros t H. destruct (drop_plain t H) as [D1 D2]. unfold fraction. destruct (drop_zeros t) as [|u l]; [split; [constructor|cbn; lia]|]. split; [constructor; [split; discriminate|exact D1]|cbn in *; lia].
Qed.
Lemma firstn_plain : forall n t, Forall plain t -> Forall plain (firstn n t) /\ Forall plain (skipn n t).
Proof. intros n t H. apply Forall_app. rewrite firstn_skipn. exact H. Qed.
Lemma exponent_plain : forall k, Forall plain (RestartNumber.show_exponent k) /\ length (RestartNumber.show_exponent k) <= 4.
Proof.
  intros k. unfold RestartNumber.show_exponent. split.
  - constructor; [destruct (k <? 0)%Z; split; discriminate|]. destruct (Z.abs k <? 100)%Z; apply decimal_plain.
  - cbn [length]. destruct (Z.abs k <? 100)%Z; rewrite (proj2 (decimal_plain _ _)); lia.
Qed.
Lemma general_plain : forall d k, general d k <> [] /\ Forall plain (general d k) /\ length (general d k) <= 20.
Proof.
  intros d k. unfold general. destruct (decimal_plain 6 d) as [F1 L1]. set (ds := RestartNumber.decimal 6 d) in *. clearbody ds.
  assert (Z0 : forall n, Forall plain (repeat "0"%char n)) by (induction n; constructor; [split; discriminate|assumption]).
  destruct ((k <? -4) || (6 <=? k))%Z eqn:B.
  - destruct (firstn_plain 1 ds F1) as [G1 G2]. destruct (fraction_plain _ G2) as [H1 H2]. destruct (exponent_plain k) as [E1 E2]. split; [destruct ds; [discriminate L1|discriminate]|]. split.
    + apply Forall_app. split; [exact G1|]. apply Forall_app. split; [exact H1|]. constructor; [split; discriminate|exact E1].
    + rewrite !app_length. cbn [length]. rewrite firstn_length. rewrite skipn_length in H2. lia.
  - apply orb_false_iff in B. destruct B as [B1 B2]. apply Z.ltb_ge in B1. apply Z.leb_gt in B2. destruct (Z.ltb_spec k 0) as [N|N].
    + assert (Q : Forall plain (repeat "0"%char (Z.to_nat (- k - 1)) ++ ds)) by (apply Forall_app; split; [apply Z0|exact F1]). destruct (fraction_plain _ Q) as [H1 H2]. split; [discriminate|]. split; [constructor; [split; discriminate|exact H1]|].
      rewrite app_length, repeat_length in H2. cbn [length]. lia.
    + destruct (firstn_plain (S (Z.to_nat k)) ds F1) as [G1 G2]. destruct (fraction_plain _ G2) as [H1 H2]. split; [destruct ds; [discriminate L1|discriminate]|]. split; [apply Forall_app; split; assumption|].
      rewrite app_length, firstn_length. rewrite skipn_length in H2. lia.
Qed.
Theorem C68_numbers : forall x, show_default x <> [] /\ Forall (fun c => c <> " "%char /\ c <> "010"%char) (show_default x) /\ (Z.of_nat (length (show_default x)) < 29999)%Z.
Proof.
  intros [s|s| |s m e H]; cbn [show_default].
  - destruct s; (split; [discriminate|]); (split; [repeat constructor; discriminate|]); reflexivity.
  - destruct s; (split; [discriminate|]); (split; [repeat constructor; discriminate|]); reflexivity.
  - split; [discriminate|]. split; [repeat constructor; discriminate|reflexivity].
  - destruct (six_digits _ _) as [d k]. destruct (general_plain d k) as (N & F & L). destruct s; cbn [app].
    + split; [discriminate|]. split; [constructor; [split; discriminate|exact F]|]. cbn [length]. lia.
    + split; [exact N|]. split; [exact F|lia].
Qed.
Print Assumptions C68_numbers.
(* Six digits only: different numbers have one text. Nodes at 1 and at 1.00000013 are written at the same place. *)
Definition one : CMatrixFloat.double := @B754_finite 53 1024 false 4503599627370496 (-52) eq_refl.
Definition more : CMatrixFloat.double := @B754_finite 53 1024 false 4503600165281920 (-52) eq_refl.
Theorem C68_digits_refuted : one <> more /\ show_default one = chars "1" /\ show_default more = chars "1".
Proof. split; [discriminate|]. split; vm_compute; reflexivity. Qed.
Print Assumptions C68_digits_refuted.
Example C68_numbers_used : show_default (@B754_finite 53 1024 true 7205759403792794 (-49) eq_refl) = chars "-12.8" /\ show_default (@B754_finite 53 1024 false 4951760157141521 6 eq_refl) = chars "3.16913e+17" /\ show_default (@B754_finite 53 1024 false 5902958103587057 (-69) eq_refl) = chars "1e-05" /\ show_default (@B754_finite 53 1024 false 7378697629483821 (-66) eq_refl) = chars "0.0001".
Proof. repeat split; vm_compute; reflexivity. Qed.

(* ---- names and kinds ---- *)
Definition region1 (d : display) : region nat := {| r_nodes := 2; r_elements := [[0; 1]];
  r_node_models := [("a", (Scalar, Values [3; 4])); ("x", (Scalar, Values [0; 1]))];
  r_edge_models := [("a", {| em_display := d; em_scalars := Values [5; 6]; em_vectors := [(7, 0, 0); (8, 0, 0)] |})]; r_element_models := [] |}.
Lemma region1_ok : forall d, region_of nat 1 (region1 d).
Proof.
  intros d. constructor; cbn.
  - lia.
  - repeat constructor.
  - intros n d' v [H|[H|[]]]; injection H as <- <- <-; cbn; split; [reflexivity|discriminate|reflexivity|discriminate].
  - intros n m [H|[]]. injection H as <- <-. split; reflexivity.
  - intros n d' v [].
  - reflexivity.
  - repeat constructor; cbn; intuition discriminate.
Qed.
(* A node model and an edge model of the same name are two variables of the same name. *)
Theorem C68_names_refuted : exists f, write_tecplot nat 0 (fun n => chars (dec n)) "d" 1 (fun _ => true) [("r", region1 Scalar)] = Some f /\ f_variables f = ["x"; "a"; "a"].
Proof. eexists. split; [vm_compute; reflexivity|reflexivity]. Qed.
Print Assumptions C68_names_refuted.
(* A model is a vector in a region and a scalar in a later one: the program ends without a file. *)
Theorem C68_kinds_refuted : write_tecplot nat 0 (fun n => chars (dec n)) "d" 1 (fun _ => true) [("r", region1 Vector); ("s", region1 Scalar)] = None.
Proof. vm_compute. reflexivity. Qed.
Print Assumptions C68_kinds_refuted.
(* The other way round it is written as a scalar. *)
Example C68_file_used : let regions := [("r", region1 Scalar); ("s", region1 Vector)] in
  Forall (region_of nat 1) (map snd regions) /\ consistent nat (map snd regions) /\
  exists f, write_tecplot nat 0 (fun n => chars (dec n)) "d" 1 (fun _ => true) regions = Some f /\
    map (read_zone (f_variables f)) (f_zones f) = [Some ([[chars "0"; chars "1"]; [chars "3"; chars "4"]; [chars "5"; chars "6"]], [[0; 1]]); Some ([[chars "0"; chars "1"]; [chars "3"; chars "4"]; [chars "5"; chars "6"]], [[0; 1]])].
Proof.
  split; [constructor; [apply region1_ok|constructor; [apply region1_ok|constructor]]|]. split.
  - intros n (b & r & a & m & E & Hb & I & Hd) r' m' _ _. exfalso. destruct b as [|q b].
    + injection E as <- _. destruct I as [I|[]]. injection I as <- <-. discriminate Hd.
    + injection E as <- E. apply (Hb (region1 Scalar) (or_introl eq_refl)). destruct b as [|q b]; [injection E as <- _; destruct I as [I|[]]; injection I as <- _; left; reflexivity|]. destruct b; discriminate E.
  - eexists. split; vm_compute; reflexivity.
Qed.

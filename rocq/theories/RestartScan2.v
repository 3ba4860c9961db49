(* The scanner on what write_devices writes: words, options, names, numbers, blanks and ends of lines. *)
From Coq Require Import Ascii String List Bool Arith ZArith Lia DecimalString DecimalFacts DecimalPos DecimalZ.
Import ListNotations.
Require Import Verif.StrMap Verif.Restart Verif.RestartText Verif.RestartTextSpec Verif.RestartTextProofs Verif.RestartScan.
Local Arguments Nat.ltb : simpl never.
Local Arguments Nat.leb : simpl never.
Local Arguments Nat.eqb : simpl never.
Local Open Scope list_scope.
Notation float_re := (Alt float1 (Alt float2 float3)).

Lemma all_ascii : forall p : ascii -> bool, forallb p (map ascii_of_nat (seq 0 256)) = true -> forall c, p c = true.
Proof.
  intros p H c. rewrite forallb_forall in H. apply H. rewrite <- (ascii_nat_embedding c). apply in_map. apply in_seq. pose proof (nat_ascii_bounded c). lia.
Qed.
Lemma letter_facts : forall c, letter c = true -> quiet c = true /\ first float_re c = false /\ first integer_re c = false /\ first option_re c = false /\ c <> zero.
Proof.
  intros c. pose proof (all_ascii (fun c => implb (letter c) (quiet c && negb (first float_re c) && negb (first integer_re c) && negb (first option_re c) && negb (Ascii.eqb c zero))) eq_refl c) as H.
  intros L. cbn beta in H. rewrite L in H. cbn [implb] in H. rewrite !andb_true_iff, !negb_true_iff in H. destruct H as ((((H1 & H2) & H3) & H4) & H5). repeat split; try assumption. apply Ascii.eqb_neq, H5.
Qed.
Lemma word_char_facts : forall c, word_char c = true -> ~ stops c /\ c <> zero.
Proof.
  intros c. pose proof (all_ascii (fun c => implb (word_char c) (negb (Ascii.eqb c " ") && negb (Ascii.eqb c tab) && negb (Ascii.eqb c newline) && negb (Ascii.eqb c zero))) eq_refl c) as H.
  intros L. cbn beta in H. rewrite L in H. cbn [implb] in H. rewrite !andb_true_iff, !negb_true_iff, !Ascii.eqb_neq in H. unfold stops. tauto.
Qed.
Lemma letter_word : forall c, letter c = true -> word_char c = true.
Proof. intros c H. unfold word_char. rewrite H. reflexivity. Qed.
Lemma float_facts : forall c, first float_re c = true -> quiet c = true.
Proof. intros c H. pose proof (all_ascii (fun c => implb (first float_re c) (quiet c)) eq_refl c) as K. cbn beta in K. rewrite H in K. exact K. Qed.
Lemma digit_facts : forall c, (digit c || Ascii.eqb c "-")%bool = true -> quiet c = true /\ ~ stops c /\ among ["."; "e"; "E"]%char c = false.
Proof.
  intros c H. pose proof (all_ascii (fun c => implb (digit c || Ascii.eqb c "-") (quiet c && negb (among ["."; "e"; "E"]%char c) && negb (Ascii.eqb c " ") && negb (Ascii.eqb c tab) && negb (Ascii.eqb c newline))) eq_refl c) as K.
  cbn beta in K. rewrite H in K. cbn [implb] in K. rewrite !andb_true_iff, !negb_true_iff, !Ascii.eqb_neq in K. unfold stops. tauto.
Qed.

Lemma word_lang : forall c t, letter c = true -> Forall (fun x => word_char x = true) t -> lang word_re (c :: t).
Proof.
  intros c t L F. change (c :: t) with ([c] ++ t). constructor; [apply L_left; constructor; exact L|].
  induction F as [|x t P F IH]; [constructor|]. change (x :: t) with ([x] ++ t). constructor; [apply L_left; constructor; exact P|exact IH].
Qed.
Lemma plain_solid : forall c t, letter c = true -> Forall (fun x => word_char x = true) t -> solid (c :: t).
Proof. intros c t L F. constructor; [apply word_char_facts, letter_word, L|]. eapply Forall_impl; [|exact F]. intros x P. apply word_char_facts, P. Qed.
Lemma c_string_id : forall t, Forall (fun c => c <> zero) t -> c_string t = t.
Proof. induction 1 as [|c t N _ IH]; [reflexivity|]. cbn. apply Ascii.eqb_neq in N. rewrite N, IH. reflexivity. Qed.
Lemma plain_no_zero : forall c t, letter c = true -> Forall (fun x => word_char x = true) t -> Forall (fun x => x <> zero) (c :: t).
Proof. intros c t L F. constructor; [apply word_char_facts, letter_word, L|]. eapply Forall_impl; [|exact F]. intros x P. apply word_char_facts, P. Qed.

(* ---- words ---- *)
Lemma not_dead : forall r c t, first r c = false -> ~ lang r (c :: t).
Proof. intros r c t F L. pose proof (first_lang _ _ L c t eq_refl). congruence. Qed.
Lemma find_none : forall V (l : smap V) w, find w l = None -> forall w' a, In (w', a) l -> w' <> w.
Proof.
  induction l as [|[k v] l IH]; intros w H w' a []; cbn in H.
  - injection H0 as -> ->. intros ->. rewrite String.eqb_refl in H. discriminate.
  - destruct (String.eqb w k); [discriminate|]. eapply IH; eassumption.
Qed.
Lemma find_some : forall V (l : smap V) w v, find w l = Some v -> exists l1 l2, l = l1 ++ (w, v) :: l2 /\ find w l1 = None.
Proof.
  induction l as [|[k v'] l IH]; intros w v H; [discriminate|]. cbn in H. destruct (String.eqb_spec w k) as [->|N].
  - injection H as <-. exists [], l. auto.
  - destruct (IH w v H) as (l1 & l2 & -> & E). exists ((k, v') :: l1), l2. split; [reflexivity|]. cbn. destruct (String.eqb_spec w k); [contradiction|exact E].
Qed.
Lemma word_wins : forall st bol c t d rest, letter c = true -> Forall (fun x => word_char x = true) t -> stops d ->
  (bol = true -> find (string_of_list_ascii (c :: t)) (words_of st) = None /\ (in_model st = true -> c :: t <> chars "COMMAND")) ->
  best (rules st bol) ((c :: t) ++ d :: rest) = Some (length (c :: t), AWord).
Proof.
  intros st bol c t d rest L F D B. destruct (letter_facts c L) as (Q & F1 & F2 & F3 & _).
  eapply winner with (l1 := before st ++ [(float_re, AFloat); (integer_re, AInteger)] ++ (if bol then lits (words_of st) ++ (if in_model st then [(command_re, ACommand)] else []) else []) ++ after st) (l2 := [(quoted_re, AQuoted); (any_re, AOther)]).
  - rewrite rules_eq, <- !app_assoc. reflexivity.
  - apply word_lang; assumption.
  - exact Q.
  - apply plain_solid; assumption.
  - exact D.
  - intros Eb M. apply (B Eb), M.
  - intros r a I. rewrite !in_app_iff in I. destruct I as [I|[I|[I|I]]].
    + eapply before_quiet; eassumption.
    + destruct I as [[= <- <-]|[[= <- <-]|[]]]; apply not_dead; assumption.
    + destruct bol; [|destruct I]. apply in_app_iff in I. destruct I as [I|I].
      * apply lits_In in I. destruct I as (w & I & ->). rewrite lang_lit. intros E. apply (find_none _ _ _ (proj1 (B eq_refl)) _ _ I). rewrite E. symmetry. apply string_of_list_ascii_of_string.
      * destruct (in_model st); [|destruct I]. destruct I as [[= <- <-]|[]]. apply command_exact, plain_solid; assumption.
    + unfold after in I. destruct (in_command st); [|destruct I]. destruct I as [[= <- <-]|[]]. apply not_dead; assumption.
Qed.
Lemma keyword_wins : forall st c t d rest a, letter c = true -> Forall (fun x => word_char x = true) t -> stops d ->
  find (string_of_list_ascii (c :: t)) (words_of st) = Some a -> (in_model st = true -> c :: t <> chars "COMMAND") ->
  best (rules st true) ((c :: t) ++ d :: rest) = Some (length (c :: t), a).
Proof.
  intros st c t d rest a L F D E NC. destruct (letter_facts c L) as (Q & F1 & F2 & F3 & _).
  destruct (find_some _ _ _ _ E) as (l1 & l2 & EW & N).
  eapply winner with (r := lit (chars (string_of_list_ascii (c :: t)))) (l1 := before st ++ [(float_re, AFloat); (integer_re, AInteger)] ++ lits l1).
  - rewrite rules_eq, EW. unfold lits. rewrite map_app. cbn [map fst snd]. rewrite <- !app_assoc. cbn [app]. reflexivity.
  - apply lang_lit. unfold chars. symmetry. apply list_ascii_of_string_of_list_ascii.
  - exact Q.
  - apply plain_solid; assumption.
  - exact D.
  - intros _. exact NC.
  - intros r b I. rewrite !in_app_iff in I. destruct I as [I|[I|I]].
    + eapply before_quiet; eassumption.
    + destruct I as [[= <- <-]|[[= <- <-]|[]]]; apply not_dead; assumption.
    + apply lits_In in I. destruct I as (w & I & ->). rewrite lang_lit. intros E'. apply (find_none _ _ _ N _ _ I). rewrite E'. symmetry. apply string_of_list_ascii_of_string.
Qed.
Lemma find_app : forall V (l1 l2 : smap V) w, find w (l1 ++ l2) = match find w l1 with Some v => Some v | None => find w l2 end.
Proof. induction l1 as [|[k v] l1 IH]; intros l2 w; [reflexivity|]. cbn. destruct (String.eqb w k); [reflexivity|apply IH]. Qed.
Lemma find_map : forall V W (f : V -> W) (l : smap V) w, find w (map (fun p => (fst p, f (snd p))) l) = option_map f (find w l).
Proof. induction l as [|[k v] l IH]; intros w; [reflexivity|]. cbn. destruct (String.eqb w k); [reflexivity|apply IH]. Qed.
Lemma line_word_is : forall A atof st w, (in_model st = true -> w <> "COMMAND"%string) ->
  line_word A st w = match find w (words_of st) with
                     | Some a => match perform A atof a (chars w) st with (Some t, st') => (t, st') | (None, st') => (TOther A, st') end
                     | None => (TWord A w, st)
                     end.
Proof.
  intros A atof st w NC. unfold line_word, words_of. rewrite !find_app, find_map. destruct (find w (opens st)) as [s|]; [reflexivity|]. cbn [option_map].
  assert (C : (in_model st && String.eqb w "COMMAND")%bool = false) by (destruct (in_model st); [|reflexivity]; apply String.eqb_neq, NC; reflexivity).
  rewrite C. unfold data_key. destruct st as [|[| | | | | | | | |[]| |] st]; cbn [find map fst snd in_command negb andb hd tl end_word]; try reflexivity;
    repeat match goal with |- context [String.eqb w ?x] => destruct (String.eqb w x) end; reflexivity.
Qed.

(* ---- quoted names ---- *)
Lemma clean_lang : forall t, Forall (fun c => c <> quote) t -> lang quoted_re (quote :: t ++ [quote]).
Proof.
  intros t H. change (quote :: t ++ [quote]) with ([quote] ++ (t ++ [quote])). constructor; [constructor; reflexivity|]. constructor; [|constructor; reflexivity].
  apply lang_star. eapply Forall_impl; [|exact H]. intros c N. apply negb_true_iff, Ascii.eqb_neq. congruence.
Qed.
Lemma quoted_lang : forall s, lang quoted_re s -> exists t, s = quote :: t ++ [quote] /\ Forall (fun c => c <> quote) t.
Proof.
  intros s H. unfold quoted_re in H. inversion H as [| |? ? u v Ha Hb E1 E2| | | |]; subst. inversion Ha as [|? c P| | | | |]; subst. apply Ascii.eqb_eq in P. subst c.
  inversion Hb as [| |? ? x y Hx Hy E1 E2| | | |]; subst. inversion Hy as [|? c P| | | | |]; subst. apply Ascii.eqb_eq in P. subst c. apply lang_star in Hx.
  exists x. split; [reflexivity|]. eapply Forall_impl; [|exact Hx]. intros c N E. subst c. discriminate.
Qed.
Lemma quote_end : forall a b u v, Forall (fun c => c <> quote) a -> Forall (fun c => c <> quote) b -> a ++ quote :: u = b ++ quote :: v -> a = b.
Proof.
  induction a as [|x a IH]; intros [|y b] u v A B E; cbn in E.
  - reflexivity.
  - injection E as <- _. exfalso. inversion B as [|? ? X]. apply X. reflexivity.
  - injection E as -> _. exfalso. inversion A as [|? ? X]. apply X. reflexivity.
  - injection E as <- E. inversion A; subst. inversion B; subst. f_equal. eapply IH; eauto.
Qed.
Lemma quoted_wins : forall st bol t rest, Forall (fun c => c <> quote) t ->
  best (rules st bol) ((quote :: t ++ [quote]) ++ rest) = Some (length (quote :: t ++ [quote]), AQuoted).
Proof.
  intros st bol t rest C.
  assert (FN : firstn (length (quote :: t ++ [quote])) ((quote :: t ++ [quote]) ++ rest) = quote :: t ++ [quote]) by (rewrite firstn_app, Nat.sub_diag, firstn_all; apply List.app_nil_r).
  assert (EX : forall r a s, In (r, a) (rules st bol) -> lang r (quote :: s) -> r = quoted_re \/ (r = any_re /\ s = [])).
  { intros r a s I L. pose proof (first_lang _ _ L quote s eq_refl) as F. destruct (rules_In _ _ _ _ I) as [K|[K|[->|[(_ & w & K & ->)|(_ & _ & ->)]]]].
    - cbn [In] in K. destruct K as [<-|[<-|[<-|[<-|[]]]]]; [discriminate|discriminate|discriminate|auto].
    - rewrite (quoted_first r) in F; [discriminate|]. cbn [In] in *. tauto.
    - right. split; [reflexivity|]. inversion L. reflexivity.
    - exfalso. apply lang_lit in L. pose proof (words_ok st) as W. rewrite Forall_forall in W. specialize (W _ K). unfold keyword_ok in W. cbn [fst] in W. rewrite <- L in W. destruct W as [W _]. congruence.
    - discriminate. }
  assert (E : rules st bol = (before st ++ [(float_re, AFloat); (integer_re, AInteger)] ++ (if bol then lits (words_of st) ++ (if in_model st then [(command_re, ACommand)] else []) else []) ++ after st ++ [(word_re, AWord)]) ++ (quoted_re, AQuoted) :: [(any_re, AOther)])
    by (rewrite rules_eq, <- !app_assoc; reflexivity).
  rewrite E in *. apply best_is.
  - rewrite app_length. lia.
  - rewrite FN. apply clean_lang, C.
  - intros r a m I [Hm Hl] L. assert (P : exists s, firstn m ((quote :: t ++ [quote]) ++ rest) = quote :: t ++ quote :: s /\ s <> []).
    { exists (firstn (m - length (quote :: t ++ [quote])) rest). split.
      - rewrite firstn_app, firstn_all2 by lia. cbn [app]. rewrite <- app_assoc. reflexivity.
      - intros N. apply (f_equal (@length ascii)) in N. rewrite firstn_length_le in N; [cbn in *; lia|]. rewrite app_length in Hl. lia. }
    destruct P as (s & P & NS). rewrite P in L. destruct (EX _ _ _ I L) as [->|[_ N]]; [|destruct t; discriminate].
    apply quoted_lang in L. destruct L as (t' & E' & C'). injection E' as E'. assert (t = t') by (eapply quote_end; [exact C|exact C'|exact E']). subst t'.
    apply app_inv_head in E'. injection E' as E'. contradiction.
  - intros r a I L. rewrite FN in L. destruct (EX r a (t ++ [quote])) as [->|[_ N]]; [apply in_app_iff; left; exact I|exact L| |destruct t; discriminate].
    rewrite !in_app_iff in I. destruct I as [I|[I|[I|[I|I]]]].
    + unfold before in I. rewrite !in_app_iff in I. destruct I as [I|[I|I]].
      * destruct I as [I|[I|[]]]; discriminate.
      * destruct (in_command st); [destruct I as [I|[]]; discriminate|destruct I].
      * destruct I as [I|[]]; discriminate.
    + destruct I as [I|[I|[]]]; discriminate.
    + destruct bol; [|destruct I]. apply in_app_iff in I. destruct I as [I|I].
      * apply lits_In in I. destruct I as (w & K & Q). rewrite Q in L. apply lang_lit in L. pose proof (words_ok st) as W. rewrite Forall_forall in W. specialize (W _ K). unfold keyword_ok in W. cbn [fst] in W. rewrite <- L in W. destruct W as [W _]. congruence.
      * destruct (in_model st); [destruct I as [I|[]]; discriminate|destruct I].
    + unfold after in I. destruct (in_command st); [destruct I as [I|[]]; discriminate|destruct I].
    + destruct I as [I|[]]; discriminate.
Qed.

(* ---- numbers ---- *)
Lemma numeral_lang : forall t, numeral t -> lang float_re t.
Proof. intros t (n & -> & H). pose proof (longest_spec t float_re) as S. rewrite H in S. destruct S as (_ & L & _). rewrite firstn_all in L. exact L. Qed.
Lemma lang_numeral : forall t, lang float_re t -> numeral t.
Proof. intros t H. exists (length t). split; [reflexivity|]. apply longest_is; [lia|rewrite firstn_all; exact H|intros; lia]. Qed.
Lemma numeral_cons : forall t, lang float_re t -> exists c t', t = c :: t' /\ quiet c = true /\ solid t.
Proof.
  intros t L. destruct t as [|c t]; [apply nullable_lang in L; discriminate|]. exists c, t. split; [reflexivity|]. split; [apply float_facts; eapply first_lang; [exact L|reflexivity]|].
  apply (over_lang _ _ _ L), solid_float.
Qed.
Lemma float_wins : forall st bol c t d rest, lang float_re (c :: t) -> quiet c = true -> solid (c :: t) -> stops d ->
  best (rules st bol) ((c :: t) ++ d :: rest) = Some (length (c :: t), AFloat).
Proof.
  intros st bol c t d rest L Q S D. eapply winner with (l1 := before st).
  - rewrite rules_eq. reflexivity.
  - exact L.
  - exact Q.
  - exact S.
  - exact D.
  - intros _ _ E. pose proof (first_lang _ _ L c t eq_refl) as F. injection E as -> _. discriminate.
  - intros r a I. eapply before_quiet; eassumption.
Qed.
Lemma needs_dot : needs (fun c => among ["."; "e"; "E"]%char c = true) float_re.
Proof.
  assert (P : forall q : ascii -> bool, (forallb (fun c => implb (q c) (among ["."; "e"; "E"]%char c)) (map ascii_of_nat (seq 0 256))) = true -> forall c, q c = true -> among ["."; "e"; "E"]%char c = true).
  { intros q H c E. pose proof (all_ascii _ H c) as K. cbn beta in K. rewrite E in K. exact K. }
  cbn [needs float1 float2 float3]. split; [|split].
  - right. right. left. exact (P (Ascii.eqb ".") eq_refl).
  - right. right. left. exact (P (Ascii.eqb ".") eq_refl).
  - right. right. right. right. left. exact (P (among ["e"; "E"]%char) eq_refl).
Qed.
Lemma int_wins : forall st bol c t d rest, lang integer_re (c :: t) -> Forall (fun x => (digit x || Ascii.eqb x "-")%bool = true) (c :: t) -> stops d ->
  best (rules st bol) ((c :: t) ++ d :: rest) = Some (length (c :: t), AInteger).
Proof.
  intros st bol c t d rest L G D. assert (Q : quiet c = true) by (inversion G; subst; apply digit_facts; assumption).
  eapply winner with (l1 := before st ++ [(float_re, AFloat)]).
  - rewrite rules_eq, <- app_assoc. reflexivity.
  - exact L.
  - exact Q.
  - eapply Forall_impl; [|exact G]. intros x P. apply digit_facts, P.
  - exact D.
  - intros _ _ E. pose proof (first_lang _ _ L c t eq_refl) as F. injection E as -> _. discriminate.
  - intros r a I. rewrite in_app_iff in I. destruct I as [I|[[= <- <-]|[]]]; [eapply before_quiet; eassumption|].
    intros L'. pose proof (needs_lang _ _ _ L' needs_dot) as X. apply Exists_exists in X. destruct X as (x & I & P). rewrite Forall_forall in G. destruct (digit_facts x (G x I)) as (_ & _ & P'). congruence.
Qed.
Lemma uint_digits : forall d, Forall (fun x => digit x = true) (chars (NilEmpty.string_of_uint d)).
Proof. induction d; cbn; constructor; try reflexivity; assumption. Qed.
Lemma zero_uint_digits : forall d, chars (NilZero.string_of_uint d) <> [] /\ Forall (fun x => digit x = true) (chars (NilZero.string_of_uint d)).
Proof. intros d. destruct d; split; try discriminate; try (apply (uint_digits (_ d))). repeat constructor. Qed.
Lemma digits_lang : forall t, t <> [] -> Forall (fun x => digit x = true) t -> lang digits t.
Proof. intros t N F. apply lang_plus. auto. Qed.
Lemma show_int_lang : forall z, lang integer_re (show_int z) /\ Forall (fun x => (digit x || Ascii.eqb x "-")%bool = true) (show_int z) /\ show_int z <> [].
Proof.
  intros z. unfold show_int, NilZero.string_of_int. destruct (Z.to_int z) as [d|d]; destruct (zero_uint_digits d) as [N F].
  - split; [|split; [eapply Forall_impl; [|exact F]; intros x P; rewrite P; reflexivity|exact N]].
    change (chars (NilZero.string_of_uint d)) with ([] ++ chars (NilZero.string_of_uint d)). constructor; [apply L_right; constructor|apply digits_lang; assumption].
  - cbn [chars list_ascii_of_string]. fold (chars (NilZero.string_of_uint d)). split; [|split; [|discriminate]].
    + change ("-"%char :: chars (NilZero.string_of_uint d)) with (["-"%char] ++ chars (NilZero.string_of_uint d)). constructor; [apply L_left; constructor; reflexivity|apply digits_lang; assumption].
    + constructor; [reflexivity|]. eapply Forall_impl; [|exact F]. intros x P. rewrite P. reflexivity.
Qed.
Lemma read_show_int : forall z, read_int (show_int z) = z.
Proof.
  intros z. unfold read_int, show_int, chars. rewrite string_of_list_ascii_of_string. rewrite NilZero.isi.
  - apply DecimalZ.of_to.
  - destruct z; try discriminate. cbn. intros [= E]. apply (Unsigned.to_uint_nonnil _ E).
  - destruct z; try discriminate. cbn. intros [= E]. apply (Unsigned.to_uint_nonnil _ E).
Qed.

(* ---- options ---- *)
Lemma option_wins : forall st bol c t d rest, in_command st = true -> lower c = true -> Forall (fun x => option_char x = true) t -> stops d ->
  best (rules st bol) (("-" :: c :: t)%char ++ d :: rest) = Some (length ("-" :: c :: t)%char, AOption).
Proof.
  intros st bol c t d rest C L F D.
  assert (LO : lang option_re ("-" :: c :: t)%char).
  { change ("-" :: c :: t)%char with (["-"%char] ++ [c] ++ t). constructor; [constructor; reflexivity|]. constructor; [constructor; exact L|]. apply lang_star, F. }
  assert (DD : first (deriv "-" float_re) c = false /\ first (deriv "-" integer_re) c = false).
  { pose proof (all_ascii (fun c => implb (lower c) (negb (first (deriv "-" float_re) c) && negb (first (deriv "-" integer_re) c))) eq_refl c) as K. cbn beta in K. rewrite L in K.
    cbn [implb] in K. rewrite andb_true_iff, !negb_true_iff in K. exact K. }
  destruct st as [|[] st]; try discriminate.
  eapply winner with (l1 := before (S_command :: st) ++ [(float_re, AFloat); (integer_re, AInteger)]) (r := option_re).
  - rewrite rules_eq. destruct bol; reflexivity.
  - exact LO.
  - reflexivity.
  - apply (over_lang _ _ _ LO), solid_option.
  - exact D.
  - discriminate.
  - intros r a I. rewrite in_app_iff in I. destruct I as [I|I]; [eapply before_quiet; [exact I|reflexivity]|].
    destruct I as [[= <- <-]|[[= <- <-]|[]]]; intros X; apply deriv_lang in X; revert X; apply not_dead; apply DD.
Qed.

(* ---- blanks and ends of lines ---- *)
Lemma newline_wins : forall st bol rest, best (rules st bol) (newline :: rest) = Some (1, if in_command st then AEol else ASkip).
Proof.
  intros st bol rest.
  assert (EX : forall r a s, In (r, a) (rules st bol) -> lang r (newline :: s) -> r = one newline /\ s = []).
  { intros r a s I L. pose proof (first_lang _ _ L newline s eq_refl) as F. destruct (rules_In _ _ _ _ I) as [K|[K|[->|[(_ & w & K & ->)|(_ & _ & ->)]]]].
    - cbn [In] in K. destruct K as [<-|[<-|[<-|[<-|[]]]]]; try discriminate. split; [reflexivity|]. inversion L. reflexivity.
    - rewrite (newline_first r) in F; [discriminate|]. cbn [In] in *. tauto.
    - discriminate.
    - exfalso. apply lang_lit in L. pose proof (words_ok st) as W. rewrite Forall_forall in W. specialize (W _ K). unfold keyword_ok in W. cbn [fst] in W. rewrite <- L in W. destruct W as (_ & W & _). discriminate.
    - discriminate. }
  assert (E : exists l2, rules st bol = [(comment_re, ASkip); (blanks_re, ASkip)] ++ (one newline, if in_command st then AEol else ASkip) :: l2).
  { rewrite rules_eq. unfold before. destruct (in_command st); eexists; cbn [app]; reflexivity. }
  destruct E as (l2 & E). rewrite E in *. apply best_is.
  - cbn. lia.
  - constructor. reflexivity.
  - intros r a m I [H1 H2] L. destruct m as [|[|m]]; [lia|lia|]. destruct rest as [|x rest]; [cbn in H2; lia|]. cbn [firstn] in L. destruct (EX _ _ _ I L) as [_ N]. discriminate.
  - intros r a I L. destruct I as [[= <- <-]|[[= <- <-]|[]]]; pose proof (first_lang _ _ L newline [] eq_refl); discriminate.
Qed.
Lemma gap_blank : forall g, is_gap g -> Forall (fun c => blank c = true) g.
Proof. intros g H. eapply Forall_impl; [|exact H]. intros c [-> | ->]; reflexivity. Qed.
Lemma gap_wins : forall st g c rest, is_gap g -> g <> [] -> blank c = false -> best (rules st false) (g ++ c :: rest) = Some (length g, ASkip).
Proof.
  intros st g c rest G N B. destruct g as [|b g]; [congruence|]. clear N.
  assert (FN : firstn (length (b :: g)) ((b :: g) ++ c :: rest) = b :: g) by (rewrite firstn_app, Nat.sub_diag, firstn_all; apply List.app_nil_r).
  assert (HB : b = " "%char \/ b = tab) by (inversion G; assumption).
  assert (EX : forall r a s, In (r, a) (rules st false) -> lang r (b :: s) -> r = blanks_re \/ (r = any_re /\ s = [])).
  { intros r a s I L. pose proof (first_lang _ _ L b s eq_refl) as F. destruct (rules_In _ _ _ _ I) as [K|[K|[->|[(X & _)|(X & _)]]]]; try discriminate.
    - cbn [In] in K. destruct K as [<-|[<-|[<-|[<-|[]]]]]; try (destruct HB; subst b; discriminate). auto.
    - cbn [In] in K. destruct K as [<-|[<-|[<-|[<-|[]]]]]; destruct HB; subst b; discriminate.
    - right. split; [reflexivity|]. inversion L. reflexivity. }
  assert (E : exists l2, rules st false = [(comment_re, ASkip)] ++ (blanks_re, ASkip) :: l2) by (rewrite rules_eq; unfold before; eexists; cbn [app]; reflexivity).
  destruct E as (l2 & E). rewrite E in *. apply best_is.
  - rewrite app_length. lia.
  - rewrite FN. apply lang_plus. split; [discriminate|apply gap_blank, G].
  - intros r a m I [Hm _] L. destruct (firstn_beyond (b :: g) c rest m Hm) as [u Eu]. rewrite Eu in L. destruct (EX _ _ _ I L) as [-> | [_ X]]; [|destruct g; discriminate].
    apply lang_plus in L. destruct L as [_ L]. apply Forall_app in L. destruct L as [_ L]. inversion L. congruence.
  - intros r a I L. rewrite FN in L. destruct I as [[= <- <-]|[]]. pose proof (first_lang _ _ L b g eq_refl). destruct HB; subst b; discriminate.
Qed.
Lemma command_wins : forall st g c rest, in_model st = true -> is_gap g -> g <> [] -> blank c = false ->
  best (rules st true) (chars "COMMAND" ++ g ++ c :: rest) = Some (7 + length g, ACommand).
Proof.
  intros st g c rest M G N B.
  assert (E : rules st true = (before st ++ [(float_re, AFloat); (integer_re, AInteger)] ++ lits (words_of st)) ++ (command_re, ACommand) :: (after st ++ [(word_re, AWord); (quoted_re, AQuoted); (any_re, AOther)]))
    by (rewrite rules_eq, M, <- !app_assoc; reflexivity).
  assert (FN : firstn (7 + length g) (chars "COMMAND" ++ g ++ c :: rest) = chars "COMMAND" ++ g).
  { rewrite app_assoc. replace (7 + length g) with (length (chars "COMMAND" ++ g)) by (rewrite app_length; reflexivity). rewrite firstn_app, Nat.sub_diag, firstn_all. apply List.app_nil_r. }
  assert (ND : exists d g', g = d :: g' /\ stops d) by (destruct g as [|d g']; [congruence|]; exists d, g'; split; [reflexivity|]; inversion G; subst; unfold stops; tauto).
  destruct ND as (d & g' & -> & D).
  pose proof (fun r a m I => not_beyond st true "C"%char (tl (chars "COMMAND")) d (g' ++ c :: rest) r a m I) as NB.
  pose proof (rules_In st true) as RI. rewrite E in *. apply best_is.
  - rewrite !app_length. cbn. lia.
  - rewrite FN. constructor; [apply lang_lit; reflexivity|]. apply lang_plus. split; [discriminate|]. eapply Forall_impl; [|exact G]. intros x [-> | ->]; reflexivity.
  - intros r a m I [Hm _] L. assert (H7 : length ("C"%char :: tl (chars "COMMAND")) < m) by (cbn; lia).
    assert (NC : r <> command_re -> False) by (intros X; apply (NB r a m I H7 eq_refl D X L)).
    destruct (RI r a I) as [K|[K|[->|[(_ & w & K & ->)|(_ & _ & ->)]]]].
    + apply NC. intros ->. cbn [In] in K. destruct K as [K|[K|[K|[K|[]]]]]; discriminate.
    + apply NC. intros ->. cbn [In] in K. destruct K as [K|[K|[K|[K|[]]]]]; discriminate.
    + apply NC. discriminate.
    + apply NC. unfold command_re. destruct (chars w); discriminate.
    + apply command_lang in L. destruct L as (u & E' & _ & U). rewrite app_assoc in E'.
      destruct (firstn_beyond (chars "COMMAND" ++ d :: g') c rest m) as [v Ev]; [rewrite app_length; cbn in *; lia|]. rewrite Ev in E'. rewrite <- app_assoc in E'. apply app_inv_head in E'. subst u.
      apply Forall_app in U. destruct U as [_ U]. inversion U as [|? ? [X|X] ?]; subst; discriminate.
  - intros r a I L. rewrite FN in L. change (chars "COMMAND" ++ d :: g') with ("C"%char :: (tl (chars "COMMAND") ++ d :: g')) in L.
    rewrite !in_app_iff in I. destruct I as [I|[I|I]].
    + revert L. eapply before_quiet; [exact I|reflexivity].
    + destruct I as [[= <- <-]|[[= <- <-]|[]]]; pose proof (first_lang _ _ L _ _ eq_refl); discriminate.
    + apply lits_In in I. destruct I as (w & K & ->). apply lang_lit in L. pose proof (words_ok st) as W. rewrite Forall_forall in W. specialize (W _ K). unfold keyword_ok in W. cbn [fst] in W. rewrite <- L in W.
      destruct W as (_ & _ & W). change (solid (chars "COMMAND" ++ d :: g')) in W. apply Forall_app in W. destruct W as [_ W]. inversion W; subst. contradiction.
Qed.

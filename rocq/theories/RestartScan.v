(* The scanner on what write_devices writes: the lexeme that was written is the one that is read. *)
From Coq Require Import Ascii String List Bool Arith ZArith Lia DecimalString DecimalFacts DecimalZ.
Import ListNotations.
Require Import Verif.StrMap Verif.Restart Verif.RestartText Verif.RestartTextProofs.
Local Arguments Nat.ltb : simpl never.
Local Arguments Nat.leb : simpl never.
Local Arguments Nat.eqb : simpl never.
Local Open Scope list_scope.

Lemma chars_inj : forall a b, chars a = chars b -> a = b.
Proof. intros a b H. unfold chars in H. rewrite <- (string_of_list_ascii_of_string a), <- (string_of_list_ascii_of_string b), H. reflexivity. Qed.
(* what ends a lexeme *)
Definition stops (d : ascii) : Prop := d = " "%char \/ d = tab \/ d = newline.
Definition solid (t : text) : Prop := Forall (fun c => ~ stops c) t.
(* the first character of a lexeme other than a quoted one *)
Definition quiet (c : ascii) : bool := negb (among ["#"; " "; tab; return_; newline; quote]%char c).
Lemma quiet_first : forall c, quiet c = true ->
  first comment_re c = false /\ first blanks_re c = false /\ first (one newline) c = false /\ first quoted_re c = false.
Proof. intros c. destruct c as [[] [] [] [] [] [] [] []]; vm_compute; intros H; try discriminate; repeat split. Qed.
Lemma quoted_first : forall r, In r [comment_re; blanks_re; one newline; Alt float1 (Alt float2 float3); integer_re; option_re; word_re; command_re] -> first r quote = false.
Proof. intros r H. repeat destruct H as [<-|H]; try destruct H; vm_compute; reflexivity. Qed.
Lemma newline_first : forall r, In r [comment_re; blanks_re; Alt float1 (Alt float2 float3); integer_re; option_re; word_re; command_re; quoted_re; any_re] -> first r newline = false.
Proof. intros r H. repeat destruct H as [<-|H]; try destruct H; vm_compute; reflexivity. Qed.

Ltac solid_re := cbn; repeat split; intros c H [-> | [-> | ->]]; vm_compute in H; discriminate.
Lemma solid_float : over (fun c => ~ stops c) (Alt float1 (Alt float2 float3)).
Proof. solid_re. Qed.
Lemma solid_integer : over (fun c => ~ stops c) integer_re.
Proof. solid_re. Qed.
Lemma solid_option : over (fun c => ~ stops c) option_re.
Proof. solid_re. Qed.
Lemma solid_word : over (fun c => ~ stops c) word_re.
Proof. solid_re. Qed.

(* the keywords *)
Definition words_of (st : list sec) : list (string * action) :=
  map (fun p => (fst p, ABegin (snd p))) (opens st) ++
  match st with [] | S_command :: _ => [] | s :: _ => [(end_word s, AEnd)] end ++
  match st with
  | S_model MIface :: _ => []
  | S_model _ :: _ => map (fun p => (fst p, AKey (snd p))) [("DATA", KData); ("BUILTIN", KBuiltin); ("DATAPARENT", KParent); ("UNIFORM", KUniform)]%string
  | _ => []
  end.
Definition lits (l : list (string * action)) : list (re * action) := map (fun p => (lit (chars (fst p)), snd p)) l.
Lemma line_rules_eq : forall st, line_rules st = lits (words_of st) ++ (if in_model st then [(command_re, ACommand)] else []).
Proof. intros [|[| | | | | | | | |[]| |] st]; reflexivity. Qed.
Definition keyword_ok (w : string) : Prop := match chars w with [] => False | c :: t => c <> quote /\ quiet c = true /\ solid (c :: t) end.
Lemma words_ok : forall st, Forall (fun p => keyword_ok (fst p)) (words_of st).
Proof.
  intros [|[| | | | | | | | |[]| |] st]; cbn; repeat constructor; try discriminate; intros [H|[H|H]]; discriminate.
Qed.
Lemma lits_In : forall l r a, In (r, a) (lits l) -> exists w, In (w, a) l /\ r = lit (chars w).
Proof. intros l r a H. apply in_map_iff in H. destruct H as ([w b] & [= <- <-] & I). exists w. auto. Qed.

Definition before (st : list sec) : list (re * action) :=
  [(comment_re, ASkip); (blanks_re, ASkip)] ++ (if in_command st then [(one newline, AEol)] else []) ++ [(one newline, ASkip)].
Definition after (st : list sec) : list (re * action) :=
  (if in_command st then [(option_re, AOption)] else []).
Lemma rules_eq : forall st bol, rules st bol =
  before st ++ [(Alt float1 (Alt float2 float3), AFloat); (integer_re, AInteger)] ++
  (if bol then lits (words_of st) ++ (if in_model st then [(command_re, ACommand)] else []) else []) ++ after st ++
  [(word_re, AWord); (quoted_re, AQuoted); (any_re, AOther)].
Proof. intros st bol. unfold rules, before, after. rewrite line_rules_eq. rewrite <- !app_assoc. reflexivity. Qed.
(* every rule *)
Lemma rules_In : forall st bol r a, In (r, a) (rules st bol) ->
  In r [comment_re; blanks_re; one newline; quoted_re] \/ In r [Alt float1 (Alt float2 float3); integer_re; option_re; word_re] \/ r = any_re \/
  (bol = true /\ exists w, In (w, a) (words_of st) /\ r = lit (chars w)) \/ (bol = true /\ in_model st = true /\ r = command_re).
Proof.
  intros st bol r a H. rewrite rules_eq in H. unfold before, after in H. rewrite !in_app_iff in H. cbn [In] in *.
  destruct H as [[H|[H|H]]|[H|[H|[H|H]]]].
  - destruct H as [[= <- <-]|[[= <- <-]|[]]]; auto.
  - destruct (in_command st); [destruct H as [[= <- <-]|[]]; auto 6|destruct H].
  - destruct H as [[= <- <-]|[]]; auto 6.
  - destruct H as [[= <- <-]|[[= <- <-]|[]]]; auto 8.
  - destruct bol; [|destruct H]. apply in_app_iff in H. destruct H as [H|H].
    + apply lits_In in H. auto 8.
    + destruct (in_model st); [|destruct H]. destruct H as [[= <- <-]|[]]. auto 10.
  - destruct (in_command st); [|destruct H]. destruct H as [[= <- <-]|[]]. auto 8.
  - destruct H as [[= <- <-]|[[= <- <-]|[[= <- <-]|[]]]]; auto 8.
Qed.
Lemma firstn_beyond : forall (w : text) d rest m, length w < m -> exists u, firstn m (w ++ d :: rest) = w ++ d :: u.
Proof.
  intros w d rest m H. rewrite firstn_app, firstn_all2 by lia. destruct (m - length w) as [|k] eqn:E; [lia|]. cbn. eauto.
Qed.
(* no rule goes beyond a lexeme *)
Lemma not_beyond : forall st bol c w d rest r a m, In (r, a) (rules st bol) -> length (c :: w) < m ->
  quiet c = true -> stops d -> r <> command_re -> ~ lang r (firstn m ((c :: w) ++ d :: rest)).
Proof.
  intros st bol c w d rest r a m I Hm Q D NC L. destruct (firstn_beyond (c :: w) d rest m Hm) as [u E]. rewrite E in L. clear E.
  assert (OV : over (fun x => ~ stops x) r -> False).
  { intros O. apply (over_lang _ _ _ L) in O. apply Forall_app in O. destruct O as [_ O]. inversion O; subst. contradiction. }
  destruct (quiet_first c Q) as (F1 & F2 & F3 & F4). pose proof (first_lang _ _ L c (w ++ d :: u) eq_refl) as F.
  apply rules_In in I. destruct I as [I|[I|[->|[(_ & k & I & ->)|(_ & _ & ->)]]]].
  - cbn [In] in I. destruct I as [<-|[<-|[<-|[<-|[]]]]]; congruence.
  - apply OV. cbn [In] in I. destruct I as [<-|[<-|[<-|[<-|[]]]]]; [apply solid_float|apply solid_integer|apply solid_option|apply solid_word].
  - inversion L. destruct w; discriminate.
  - apply lang_lit in L. pose proof (words_ok st) as K. rewrite Forall_forall in K. specialize (K _ I). cbn [fst] in K. unfold keyword_ok in K. rewrite <- L in K.
    cbn in K. destruct K as (_ & _ & K). change (solid ((c :: w) ++ d :: u)) in K. apply Forall_app in K. destruct K as [_ K]. inversion K; subst. contradiction.
  - congruence.
Qed.
Lemma command_lang : forall s, lang command_re s -> exists g, s = chars "COMMAND" ++ g /\ g <> [] /\ Forall (fun c => c = " "%char \/ c = tab) g.
Proof.
  intros s H. unfold command_re in H. inversion H as [| |? ? u v Ha Hb E1 E2| | | |]; subst. apply (proj1 (lang_lit (chars "COMMAND") u)) in Ha. subst u. apply lang_plus in Hb. destruct Hb as [N B].
  exists v. split; [reflexivity|]. split; [exact N|]. eapply Forall_impl; [|exact B]. intros c. unfold among. cbn. rewrite !orb_true_iff. intros [P|[P|P]]; [left|right|discriminate]; apply Ascii.eqb_eq in P; exact P.
Qed.
Lemma app_stop : forall (a b : text) d u g, solid a -> solid b -> stops d -> Forall stops g -> g <> [] -> a ++ d :: u = b ++ g -> a = b.
Proof.
  induction a as [|x a IH]; intros [|y b] d u g A B D G N E; cbn in E.
  - reflexivity.
  - injection E as <- _. inversion B; subst. contradiction.
  - destruct g as [|z g]; [congruence|]. injection E as <- _. inversion G; subst. inversion A; subst. contradiction.
  - injection E as <- E. inversion A; subst. inversion B; subst. f_equal. eapply IH; eauto.
Qed.
Lemma solid_command : solid (chars "COMMAND").
Proof. cbn. repeat constructor; intros [H|[H|H]]; discriminate. Qed.
Lemma not_command : forall w d rest m, solid w -> stops d -> w <> chars "COMMAND" -> length w < m -> ~ lang command_re (firstn m (w ++ d :: rest)).
Proof.
  intros w d rest m S D N Hm L. destruct (firstn_beyond w d rest m Hm) as [u E]. rewrite E in L. apply command_lang in L. destruct L as (g & E' & NG & G).
  apply N. eapply app_stop; [exact S|exact solid_command|exact D| |exact NG|exact E']. eapply Forall_impl; [|exact G]. unfold stops. tauto.
Qed.
Lemma command_exact : forall w, solid w -> ~ lang command_re w.
Proof. intros w S L. apply command_lang in L. destruct L as (g & -> & N & G). apply Forall_app in S. destruct S as [_ S]. destruct g as [|c g]; [congruence|]. inversion S; subst. inversion G; subst. unfold stops in *. tauto. Qed.
Lemma before_quiet : forall st r a c w, In (r, a) (before st) -> quiet c = true -> ~ lang r (c :: w).
Proof.
  intros st r a c w I Q L. destruct (quiet_first c Q) as (F1 & F2 & F3 & F4). pose proof (first_lang _ _ L c w eq_refl) as F.
  unfold before in I. rewrite !in_app_iff in I. destruct I as [I|[I|I]].
  - destruct I as [[= <- <-]|[[= <- <-]|[]]]; congruence.
  - destruct (in_command st); [destruct I as [[= <- <-]|[]]; congruence|destruct I].
  - destruct I as [[= <- <-]|[]]. congruence.
Qed.

(* the winner, for a lexeme c :: w followed by d *)
Lemma winner : forall st bol l1 r a l2 c w d rest, rules st bol = l1 ++ (r, a) :: l2 -> lang r (c :: w) ->
  quiet c = true -> solid (c :: w) -> stops d -> (bol = true -> in_model st = true -> c :: w <> chars "COMMAND") ->
  (forall r' a', In (r', a') l1 -> ~ lang r' (c :: w)) ->
  best (rules st bol) ((c :: w) ++ d :: rest) = Some (length (c :: w), a).
Proof.
  intros st bol l1 r a l2 c w d rest E L Q S D NC F.
  assert (FN : firstn (length (c :: w)) ((c :: w) ++ d :: rest) = c :: w) by (rewrite firstn_app, Nat.sub_diag, firstn_all; cbn [firstn]; apply List.app_nil_r).
  pose proof (not_beyond st bol) as NB. pose proof (rules_In st bol) as RI. rewrite E in *. apply best_is.
  - rewrite app_length. lia.
  - rewrite FN. exact L.
  - intros r' a' m I [Hm _]. destruct (RI _ _ I) as [K|K].
    + apply (NB c w d rest r' a' m I Hm Q D). intros ->. cbn [In] in K. destruct K as [K|[K|[K|[K|[]]]]]; discriminate.
    + destruct K as [K|[K|[(_ & k & K & ->)|(B & M & ->)]]].
      * apply (NB c w d rest r' a' m I Hm Q D). intros ->. cbn [In] in K. destruct K as [K|[K|[K|[K|[]]]]]; discriminate.
      * apply (NB c w d rest r' a' m I Hm Q D). subst. discriminate.
      * intros L'. apply lang_lit in L'. destruct (firstn_beyond (c :: w) d rest m Hm) as [u E']. rewrite E' in L'.
        pose proof (words_ok st) as W. rewrite Forall_forall in W. specialize (W _ K). unfold keyword_ok in W. cbn [fst] in W. rewrite <- L' in W. cbn in W. destruct W as (_ & _ & W).
        change (solid ((c :: w) ++ d :: u)) in W. apply Forall_app in W. destruct W as [_ W]. inversion W; subst. contradiction.
      * apply not_command; [exact S|exact D|apply (NC B M)|exact Hm].
  - intros r' a' I. rewrite FN. apply (F _ _ I).
Qed.

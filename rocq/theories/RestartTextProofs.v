(* Regular expressions and the scanner (RestartText.v): what a match is, and which rule wins. *)
From Coq Require Import Ascii String List Bool Arith ZArith Lia DecimalString DecimalFacts DecimalZ.
Import ListNotations.
Require Import Verif.StrMap Verif.Restart Verif.RestartText.
Local Arguments Nat.ltb : simpl never.
Local Arguments Nat.leb : simpl never.
Local Arguments Nat.eqb : simpl never.

(* the language of a regular expression *)
Inductive lang : re -> text -> Prop :=
| L_eps : lang Eps []
| L_chars : forall p c, p c = true -> lang (Chars p) [c]
| L_cat : forall a b s t, lang a s -> lang b t -> lang (Cat a b) (s ++ t)
| L_left : forall a b s, lang a s -> lang (Alt a b) s
| L_right : forall a b s, lang b s -> lang (Alt a b) s
| L_stop : forall a, lang (Star a) []
| L_more : forall a s t, lang a s -> lang (Star a) t -> lang (Star a) (s ++ t).

Lemma nullable_lang : forall r, nullable r = true <-> lang r [].
Proof.
  induction r as [| |p|a IHa b IHb|a IHa b IHb|a IHa]; cbn; split; intros H; try discriminate; try (inversion H; fail); try reflexivity.
  - constructor.
  - apply andb_true_iff in H. destruct H. change (@nil ascii) with (@nil ascii ++ []). constructor; [apply IHa|apply IHb]; assumption.
  - inversion H as [| |? ? s t Ha Hb E1 E2| | | |]; subst. apply app_eq_nil in E2. destruct E2; subst. apply andb_true_iff. split; [apply IHa|apply IHb]; assumption.
  - apply orb_true_iff in H. destruct H; [apply L_left, IHa|apply L_right, IHb]; assumption.
  - apply orb_true_iff. inversion H; subst; [left; apply IHa|right; apply IHb]; assumption.
  - constructor.
Qed.
Lemma cat_lang : forall a b s, lang (cat a b) s <-> lang (Cat a b) s.
Proof.
  intros a b s. destruct a; cbn; try reflexivity.
  - split; intros H; inversion H as [| |? ? x y Ha Hb E1 E2| | | |]; subst. inversion Ha.
  - split; intros H.
    + change s with ([] ++ s). constructor; [constructor|exact H].
    + inversion H as [| |? ? x y Ha Hb E1 E2| | | |]; subst. inversion Ha; subst. exact Hb.
Qed.
Lemma alt_lang : forall a b s, lang (alt a b) s <-> lang (Alt a b) s.
Proof.
  assert (N : forall s, ~ lang Nul s) by (intros s H; inversion H).
  intros a b s. destruct a; try (cbn; split; [intros H; apply L_right, H|intros H; inversion H; subst; [exfalso; eapply N; eassumption|assumption]]; fail);
    destruct b; cbn; try reflexivity; (split; [intros H; apply L_left, H|intros H; inversion H; subst; [assumption|exfalso; eapply N; eassumption]]).
Qed.
Lemma star_cons : forall a s, lang (Star a) s -> forall c t, s = c :: t -> exists u v, t = u ++ v /\ lang a (c :: u) /\ lang (Star a) v.
Proof.
  intros a s H. remember (Star a) as r eqn:E. revert E. induction H as [|p0 c0 P0|a0 b0 s0 t0 H0 _ H1 _|a0 b0 s0 H0 _|a0 b0 s0 H0 _|a'|a' s t Ha _ Hs IH]; intros E c u' E'; try discriminate.
  injection E as ->. destruct s as [|c' s]; [apply (IH eq_refl c u' E')|]. cbn in E'. injection E' as -> <-. exists s, t. auto.
Qed.
Lemma deriv_lang : forall r c s, lang (deriv c r) s <-> lang r (c :: s).
Proof.
  induction r as [| |p|a IHa b IHb|a IHa b IHb|a IHa]; intros c s; cbn [deriv].
  - split; intros H; inversion H.
  - split; intros H; inversion H.
  - destruct (p c) eqn:P; split; intros H; inversion H; subst; try (constructor; assumption). congruence.
  - assert (C : lang (cat (deriv c a) b) s <-> exists u v, s = u ++ v /\ lang a (c :: u) /\ lang b v).
    { rewrite cat_lang. split.
      - intros H. inversion H as [| |? ? u v Ha Hb E1 E2| | | |]; subst. exists u, v. rewrite <- IHa. auto.
      - intros (u & v & -> & Ha & Hb). constructor; [apply IHa|]; assumption. }
    assert (D : lang (Cat a b) (c :: s) <-> (exists u v, s = u ++ v /\ lang a (c :: u) /\ lang b v) \/ (lang a [] /\ lang b (c :: s))).
    { split.
      - intros H. inversion H as [| |? ? u v Ha Hb E1 E2| | | |]; subst. destruct u as [|c' u]; [right; cbn in E2; subst; auto|].
        cbn in E2. injection E2 as -> <-. left. exists u, v. auto.
      - intros [(u & v & -> & Ha & Hb)|[Ha Hb]].
        + change (c :: u ++ v) with ((c :: u) ++ v). constructor; assumption.
        + change (c :: s) with ([] ++ c :: s). constructor; assumption. }
    rewrite D. destruct (nullable a) eqn:N.
    + rewrite alt_lang. split.
      * intros H. inversion H; subst; [left; apply C; assumption|right; split; [apply nullable_lang, N|apply IHb; assumption]].
      * intros [H|[_ H]]; [apply L_left, C, H|apply L_right, IHb, H].
    + rewrite C. split; [auto|]. intros [H|[H _]]; [exact H|]. apply nullable_lang in H. congruence.
  - rewrite alt_lang. split; intros H; inversion H; subst.
    + apply L_left, IHa; assumption. + apply L_right, IHb; assumption. + apply L_left, IHa; assumption. + apply L_right, IHb; assumption.
  - rewrite cat_lang. split.
    + intros H. inversion H as [| |? ? u v Ha Hb E1 E2| | | |]; subst. change (c :: u ++ v) with ((c :: u) ++ v). constructor; [apply IHa|]; assumption.
    + intros H. destruct (star_cons _ _ H c s eq_refl) as (u & v & -> & Ha & Hs). constructor; [apply IHa|]; assumption.
Qed.

(* longest is the longest *)
Lemma longest_spec : forall t r,
  match longest r t with
  | Some n => n <= length t /\ lang r (firstn n t) /\ forall m, n < m <= length t -> ~ lang r (firstn m t)
  | None => forall m, m <= length t -> ~ lang r (firstn m t)
  end.
Proof.
  induction t as [|c t IH]; intros r; cbn [longest].
  - destruct (nullable r) eqn:N.
    + split; [cbn; lia|]. split; [apply nullable_lang, N|]. cbn. intros m H. lia.
    + intros m _ H. rewrite firstn_nil in H. apply nullable_lang in H. congruence.
  - specialize (IH (deriv c r)). destruct (longest (deriv c r) t) as [n|].
    + destruct IH as (B & L & U). split; [cbn; lia|]. split; [apply deriv_lang, L|]. intros [|m] H L'; [lia|]. cbn in H, L'.
      apply (U m); [lia|apply deriv_lang, L'].
    + destruct (nullable r) eqn:N.
      * split; [cbn; lia|]. split; [apply nullable_lang, N|]. intros [|m] H L'; [lia|]. cbn in H, L'. apply (IH m); [lia|apply deriv_lang, L'].
      * intros [|m] H L'; cbn in H, L'; [apply nullable_lang in L'; congruence|]. apply (IH m); [lia|apply deriv_lang, L'].
Qed.
Lemma longest_is : forall r t n, n <= length t -> lang r (firstn n t) -> (forall m, n < m <= length t -> ~ lang r (firstn m t)) -> longest r t = Some n.
Proof.
  intros r t n B L U. pose proof (longest_spec t r) as S. destruct (longest r t) as [k|].
  - destruct S as (Bk & Lk & Uk). f_equal. destruct (lt_eq_lt_dec k n) as [[H|H]|H]; [exfalso; apply (Uk n); [lia|exact L]|exact H|exfalso; apply (U k); [lia|exact Lk]].
  - exfalso. apply (S n B L).
Qed.
Lemma longest_le : forall r t n, (forall m, n < m <= length t -> ~ lang r (firstn m t)) -> forall k, longest r t = Some k -> k <= n.
Proof.
  intros r t n U k E. pose proof (longest_spec t r) as S. rewrite E in S. destruct S as (B & L & _). destruct (le_lt_dec k n); [assumption|]. exfalso. apply (U k); [lia|exact L].
Qed.

(* the rule that wins *)
Lemma best_is : forall l1 l2 r a t n, n <= length t -> lang r (firstn n t) ->
  (forall r' a' m, In (r', a') (l1 ++ (r, a) :: l2) -> n < m <= length t -> ~ lang r' (firstn m t)) ->
  (forall r' a', In (r', a') l1 -> ~ lang r' (firstn n t)) ->
  best (l1 ++ (r, a) :: l2) t = Some (n, a).
Proof.
  intros l1 l2 r a t n B L U F.
  assert (LE : forall l, (forall r' a' m, In (r', a') l -> n < m <= length t -> ~ lang r' (firstn m t)) -> forall k b, best l t = Some (k, b) -> k <= n).
  { induction l as [|[r0 a0] l IH]; intros H k b E; [discriminate|]. cbn [best] in E.
    assert (K0 : forall k0, longest r0 t = Some k0 -> k0 <= n) by (apply longest_le; intros m Hm; apply (H r0 a0 m); [left; reflexivity|exact Hm]).
    specialize (IH (fun r' a' m I => H r' a' m (or_intror I))).
    destruct (longest r0 t) as [k0|]; [|apply (IH k b E)].
    destruct (best l t) as [[k1 b1]|]; [|injection E as <- <-; apply K0; reflexivity].
    destruct (Nat.ltb k0 k1); injection E as <- <-; [apply (IH k1 b1 eq_refl)|apply K0; reflexivity]. }
  induction l1 as [|[r0 a0] l1 IH]; cbn [app best].
  - rewrite (longest_is r t n B L) by (intros m Hm; apply (U r a m); [left; reflexivity|exact Hm]).
    destruct (best l2 t) as [[k b]|] eqn:E; [|reflexivity].
    assert (k <= n) by (apply (LE l2 (fun r' a' m I => U r' a' m (or_intror I)) k b E)).
    destruct (Nat.ltb_spec n k); [lia|reflexivity].
  - rewrite IH; [|intros r' a' m I Hm; apply (U r' a' m (or_intror I) Hm)|intros r' a' I; apply (F r' a' (or_intror I))].
    pose proof (longest_spec t r0) as S. destruct (longest r0 t) as [k0|]; [|reflexivity]. destruct S as (B0 & L0 & _).
    assert (k0 < n).
    { assert (k0 <= n) by (destruct (le_lt_dec k0 n); [assumption|]; exfalso; apply (U r0 a0 k0 (or_introl eq_refl)); [lia|exact L0]).
      assert (k0 <> n) by (intros ->; apply (F r0 a0 (or_introl eq_refl) L0)). lia. }
    destruct (Nat.ltb_spec k0 n); [reflexivity|lia].
Qed.

(* ---- what can be seen from an expression ---- *)
(* characters of a match *)
Fixpoint over (p : ascii -> Prop) (r : re) : Prop :=
  match r with
  | Nul | Eps => True
  | Chars q => forall c, q c = true -> p c
  | Cat a b | Alt a b => over p a /\ over p b
  | Star a => over p a
  end.
Lemma over_lang : forall p r s, lang r s -> over p r -> Forall p s.
Proof.
  intros p r s H. induction H; cbn; intros O; auto; try (destruct O; auto using Forall_app); try (apply Forall_app; auto).
Qed.
(* the first character *)
Fixpoint first (r : re) (c : ascii) : bool :=
  match r with
  | Nul | Eps => false
  | Chars q => q c
  | Cat a b => first a c || (nullable a && first b c)
  | Alt a b => first a c || first b c
  | Star a => first a c
  end.
Lemma first_lang : forall r s, lang r s -> forall c t, s = c :: t -> first r c = true.
Proof.
  intros r s H. induction H as [|p c P|a b s t Ha IHa Hb IHb|a b s Ha IHa|a b s Hb IHb|a|a s t Ha IHa Hs IHs]; intros c' t' E; cbn [first].
  - discriminate.
  - injection E as -> _. exact P.
  - destruct s as [|c s].
    + apply orb_true_iff. right. apply andb_true_iff. split; [apply nullable_lang, Ha|apply (IHb c' t' E)].
    + cbn in E. injection E as -> _. rewrite (IHa c' s eq_refl). reflexivity.
  - rewrite (IHa c' t' E). reflexivity.
  - rewrite (IHb c' t' E). apply orb_true_r.
  - discriminate.
  - destruct s as [|c s]; [apply (IHs c' t' E)|]. cbn in E. injection E as -> _. apply (IHa c' s eq_refl).
Qed.
(* a character that must occur *)
Fixpoint needs (p : ascii -> Prop) (r : re) : Prop :=
  match r with
  | Nul => True
  | Eps | Star _ => False
  | Chars q => forall c, q c = true -> p c
  | Cat a b => needs p a \/ needs p b
  | Alt a b => needs p a /\ needs p b
  end.
Lemma needs_lang : forall p r s, lang r s -> needs p r -> Exists p s.
Proof.
  intros p r s H. induction H; cbn; intros N; try contradiction.
  - constructor. auto.
  - apply Exists_app. destruct N; auto.
  - destruct N; auto.
  - destruct N; auto.
Qed.
Lemma lang_lit : forall t s, lang (lit t) s <-> s = t.
Proof.
  induction t as [|c t IH]; intros s; cbn [lit].
  - split; [intros H; inversion H; reflexivity|intros ->; constructor].
  - split.
    + intros H. inversion H as [| |? ? u v Ha Hb E1 E2| | | |]; subst. inversion Ha as [|? c' P| | | | |]; subst. apply Ascii.eqb_eq in P. subst. apply IH in Hb. subst. reflexivity.
    + intros ->. change (c :: t) with ([c] ++ t). constructor; [constructor; apply Ascii.eqb_refl|apply IH; reflexivity].
Qed.
Lemma lang_star : forall p s, lang (Star (Chars p)) s <-> Forall (fun c => p c = true) s.
Proof.
  intros p s. split.
  - intros H. apply (over_lang (fun c => p c = true) _ _ H). cbn. auto.
  - induction s as [|c s IH]; intros H; [constructor|]. inversion H; subst. change (c :: s) with ([c] ++ s). constructor; [constructor; assumption|auto].
Qed.
Lemma lang_plus : forall p s, lang (plus (Chars p)) s <-> s <> [] /\ Forall (fun c => p c = true) s.
Proof.
  intros p s. unfold plus. split.
  - intros H. inversion H as [| |? ? u v Ha Hb E1 E2| | | |]; subst. inversion Ha; subst. apply lang_star in Hb. split; [discriminate|constructor; assumption].
  - intros [N H]. destruct s as [|c s]; [congruence|]. inversion H; subst. change (c :: s) with ([c] ++ s). constructor; [constructor; assumption|apply lang_star; assumption].
Qed.

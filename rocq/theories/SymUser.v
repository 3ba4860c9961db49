(* Proofs: user functions, and repeated derivatives *)
From Coq Require Import Ascii String List Bool Reals ZArith Lia Lra Permutation.
From Verif Require Import Sym SymSpec SymProofs.
Import ListNotations.
Open Scope R_scope.

Lemma reserved_not_ident : forall w, ~ ident (reserved w).
Proof. intros w H. unfold reserved in H. cbn in H. unfold letter in H. cbn in H. lia. Qed.
Lemma reserved_inj : forall a b, reserved a = reserved b -> a = b.
Proof. intros a b H. unfold reserved in H. cbn in H. congruence. Qed.
Lemma NoDup_reserved : forall l, NoDup l -> NoDup (map reserved l).
Proof.
  intros l H. induction H as [|a l N H IH]; cbn; constructor; [|exact IH]. intros I'. apply in_map_iff in I'.
  destruct I' as (b & E & Ib). apply reserved_inj in E. now subst.
Qed.
Lemma bind_in : forall names vs r r' s, length vs = length names -> In s names -> bind r names vs s = bind r' names vs s.
Proof.
  unfold bind. induction names as [|n ns IH]; intros [|v vs] r r' s L H; try discriminate; [destruct H|].
  cbn [combine fold_right fst snd]. unfold upd at 1 3. destruct (String.eqb s n) eqn:E; [reflexivity|].
  apply IH; [injection L; auto|]. destruct H as [->|H]; [rewrite String.eqb_refl in E; discriminate|exact H].
Qed.
Lemma map_bind : forall names vs r, NoDup names -> length vs = length names -> map (bind r names vs) names = vs.
Proof.
  induction names as [|n ns IH]; intros [|v vs] r N L; try discriminate; [reflexivity|]. inversion N as [|? ? Nn Ns]; subst.
  cbn [map]. f_equal.
  - unfold bind. cbn. unfold upd. now rewrite String.eqb_refl.
  - transitivity (map (bind r ns vs) ns); [|apply IH; [exact Ns|injection L; auto]]. apply map_ext_in. intros s Is. unfold bind. cbn. unfold upd at 1.
    destruct (String.eqb s n) eqn:E; [apply String.eqb_eq in E; now subst|reflexivity].
Qed.

Section U.
Variable F : string -> list R -> R.
Variable srt : list expr -> list expr.
Hypothesis Hsrt : forall l, Permutation (srt l) l.
Variable key : expr -> string.
Hypothesis Hkey : text key.
Notation ev := (ev F).

Lemma only_name : forall v, v = EmptyString \/ ident v \/ (exists w, ident w /\ v = reserved w) -> only_var key v.
Proof. intros v H e. now apply Hkey. Qed.

Lemma rename_all : forall names d, rename srt key names d = subst_all srt key names (map (fun s => Var (reserved s)) names) d.
Proof. unfold rename, subst_all. induction names as [|n ns IH]; intros d; cbn; auto. Qed.
Lemma ev_rename : forall names vs r d, Forall ident names -> NoDup names -> length vs = length names -> idents d ->
  ev (bind r (map reserved names) vs) (rename srt key names d) = ev (bind r names vs) d.
Proof.
  intros names vs r d Id Nd L Vd. rewrite rename_all. rewrite ev_subst_all.
  - assert (E : map (ev (bind r (map reserved names) vs)) (map (fun s => Var (reserved s)) names) = vs).
    { transitivity (map (bind r (map reserved names) vs) (map reserved names)). { rewrite !map_map. reflexivity. }
      apply map_bind; [now apply NoDup_reserved|now rewrite map_length]. }
    rewrite E. apply ev_agree. intros s Is. apply Vd in Is.
    destruct (in_dec string_dec s names) as [Hin|Hout].
    + now apply bind_in.
    + rewrite !bind_other; [reflexivity|exact Hout| |exact Hout]. intros I'. apply in_map_iff in I'. destruct I' as (w & <- & _).
      now apply reserved_not_ident in Is.
  - exact Hsrt.
  - intros n Hn. apply only_name. right. left. rewrite Forall_forall in Id. now apply Id.
  - intros n a Hn Ha Hv. apply in_map_iff in Ha. destruct Ha as (w & <- & Hw). cbn in Hv. destruct Hv as [Hv|[]]. subst n.
    rewrite Forall_forall in Id. apply Id in Hn. now apply reserved_not_ident in Hn.
Qed.

Variable decls : string -> decl.
Let info (f : string) := info_of srt key (decls f).
Let arity (f : string) := darity (decls f).
Let part (f : string) := dpartials F (decls f).
Hypothesis Hgood : forall f, good_decl arity (decls f).

Lemma combine_fst : forall (A B : Type) (a : list A) (b : list B), length a = length b -> map fst (combine a b) = a.
Proof. induction a as [|x a IH]; intros [|y b] L; try discriminate; cbn; [reflexivity|]. f_equal. apply IH. injection L; auto. Qed.
Lemma combine_snd : forall (A B : Type) (a : list A) (b : list B), length a = length b -> map snd (combine a b) = b.
Proof. induction a as [|x a IH]; intros [|y b] L; try discriminate; cbn; [reflexivity|]. f_equal. apply IH. injection L; auto. Qed.
Lemma info_arity : forall f, length (info f) = arity f.
Proof.
  intros f. unfold info, arity. pose proof (Hgood f) as G. destruct (decls f) as [n|names ds|names ds]; cbn in *.
  - apply repeat_length. - destruct G as (L & _). rewrite combine_length, !map_length, L. lia. - contradiction.
Qed.
Lemma info_names : forall f n, In n (map fst (info f)) -> n = EmptyString \/ (exists w, ident w /\ n = reserved w).
Proof.
  intros f n. unfold info. pose proof (Hgood f) as G. destruct (decls f) as [k|names ds|names ds]; cbn [info_of good_decl] in *.
  - intros H. left. apply in_map_iff in H. destruct H as (q & <- & Iq). apply repeat_spec in Iq. now subst.
  - destruct G as (L & _ & Id & _). rewrite combine_fst by (rewrite !map_length; auto). intros H. right. apply in_map_iff in H.
    destruct H as (w & <- & Iw). rewrite Forall_forall in Id. eauto.
  - contradiction.
Qed.
Lemma info_part : forall f r vs, length vs = arity f -> ipart F info f r vs = part f r vs.
Proof.
  intros f r vs. unfold ipart, info, part, arity. pose proof (Hgood f) as G.
  destruct (decls f) as [k|names ds|names ds]; cbn [info_of good_decl dpartials darity] in *.
  - intros _. clear. induction k as [|k IH]; cbn [repeat map snd]; [reflexivity|]. f_equal.
    assert (A : forall n (q : env), map (fun d : string * option expr => match snd d with Some d => ev q d | None => 0 end) (repeat (EmptyString, None) n) = repeat 0 n).
    { induction n as [|n IHn]; intros q; cbn; [reflexivity|]. f_equal. apply IHn. }
    apply A.
  - destruct G as (L & Nd & Id & Iv & _). intros Lv. rewrite combine_fst by (rewrite !map_length; auto).
    transitivity (map (fun d => match d with Some d => ev (bind r (map reserved names) vs) d | None => 0 end)
      (map snd (combine (map reserved names) (map (fun d => Some (rename srt key names d)) ds)))). { now rewrite map_map. }
    rewrite combine_snd by (rewrite !map_length; auto). rewrite map_map. apply map_ext_in. intros d Id'. apply ev_rename; auto.
    rewrite Forall_forall in Iv. now apply Iv.
  - contradiction.
Qed.
Lemma regular_info : forall r e, wf arity e -> regular F part r e -> regular F (ipart F info) r e.
Proof.
  intros r e. induction e as [c|s|l IH|l IH|e IH|b e IHb IHe|e IH|f l IH] using expr_ind'; cbn [wf regular]; intros W Rg; auto.
  - apply go_F in W. apply go_F in Rg. apply F_go. rewrite Forall_forall in *. auto.
  - destruct W as [_ W]. apply go_F in W. apply go_F in Rg. apply F_go. rewrite Forall_forall in *. auto.
  - destruct W. destruct Rg as (A & B & C). auto.
  - destruct Rg. auto.
  - destruct W as [L W]. destruct Rg as [Rg Df]. apply go_F in W. apply go_F in Rg. split.
    + apply F_go. rewrite Forall_forall in *. auto.
    + rewrite info_part by (now rewrite map_length). exact Df.
Qed.
Lemma wf_arity : forall a b e, (forall f, a f = b f) -> wf a e -> wf b e.
Proof.
  intros a b e H. induction e as [c|s|l IH|l IH|e IH|b' e IHb IHe|e IH|f l IH] using expr_ind'; cbn [wf]; intros W; auto.
  - apply go_F in W. apply F_go. rewrite Forall_forall in *. auto.
  - destruct W as [L W]. apply go_F in W. split; [exact L|]. apply F_go. rewrite Forall_forall in *. auto.
  - destruct W; auto.
  - destruct W as [L W]. apply go_F in W. split; [now rewrite <- H|]. apply F_go. rewrite Forall_forall in *. auto.
Qed.
Lemma formal_not_ident : forall f n, In n (map fst (info f)) -> ~ ident n.
Proof. intros f n H. apply info_names in H. destruct H as [->|(w & _ & ->)]; [intros []|apply reserved_not_ident]. Qed.
Theorem user_derivative : forall r x e, wf arity e -> idents e -> regular F part r e ->
  derivable_pt_lim (fun t => ev (upd r x t) e) (r x) (ev r (D srt key info x e)).
Proof.
  intros r x e W V Rg. apply (derivative F srt Hsrt key info x).
  - intros f n H. apply only_name. apply info_names in H. destruct H as [H|H]; auto.
  - revert W. apply wf_arity. intros f. symmetry. apply info_arity.
  - intros f n H Hv. apply V in Hv. now apply formal_not_ident in H.
  - now apply regular_info.
Qed.

(* the derivative has the same form *)
Notation mk_prod := (mk_prod srt).
Notation mk_add := (mk_add srt).
Notation times := (times srt).
Notation plus := (plus srt).
Variable P : string -> Prop.
Definition good (e : expr) : Prop := wf arity e /\ forall s, In s (vars e) -> P s.
Lemma good_prod : forall l, (2 <= length l)%nat -> Forall good l -> good (Prod l).
Proof.
  intros l L H. unfold good in *. rewrite Forall_forall in H. split.
  - split; [exact L|]. apply F_go. apply Forall_forall. intros e Ie. now apply H.
  - cbn. intros s Is. apply in_flat_map in Is. destruct Is as (e & Ie & Is). now apply (H e Ie).
Qed.
Lemma good_prod_inv : forall l, good (Prod l) -> (2 <= length l)%nat /\ Forall good l.
Proof.
  intros l [[L W] V]. split; [exact L|]. apply go_F in W. rewrite Forall_forall in *. intros e Ie. split; [now apply W|].
  intros s Is. apply V. cbn. apply in_flat_map. eauto.
Qed.
Lemma good_add : forall l, Forall good l -> good (Add l).
Proof.
  intros l H. unfold good in *. rewrite Forall_forall in H. split.
  - apply F_go. apply Forall_forall. intros e Ie. now apply H.
  - cbn. intros s Is. apply in_flat_map in Is. destruct Is as (e & Ie & Is). now apply (H e Ie).
Qed.
Lemma good_add_inv : forall l, good (Add l) -> Forall good l.
Proof.
  intros l [W V]. apply go_F in W. rewrite Forall_forall in *. intros e Ie. split; [now apply W|].
  intros s Is. apply V. cbn. apply in_flat_map. eauto.
Qed.
Lemma good_user_inv : forall f l, good (User f l) -> length l = arity f /\ Forall good l.
Proof.
  intros f l [[L W] V]. split; [exact L|]. apply go_F in W. rewrite Forall_forall in *. intros e Ie. split; [now apply W|].
  intros s Is. apply V. cbn. apply in_flat_map. eauto.
Qed.
Lemma good_user : forall f l, length l = arity f -> Forall good l -> good (User f l).
Proof.
  intros f l L H. unfold good in *. rewrite Forall_forall in H. split.
  - split; [exact L|]. apply F_go. apply Forall_forall. intros e Ie. now apply H.
  - cbn. intros s Is. apply in_flat_map in Is. destruct Is as (e & Ie & Is). now apply (H e Ie).
Qed.
Lemma good_con : forall c, good (Con c).
Proof. intros c. split; [exact Logic.I|]. intros s []. Qed.
Lemma good_pow : forall b e, good b -> good e -> good (Pow b e).
Proof. intros b e [A B] [C E]. split; [split; assumption|]. cbn. intros s Is. apply in_app_or in Is. destruct Is; auto. Qed.
Lemma good_pow_inv : forall b e, good (Pow b e) -> good b /\ good e.
Proof. intros b e [[A B] C]. split; (split; [assumption|]); intros s Is; apply C; cbn; apply in_or_app; auto. Qed.
Lemma srt_F : forall (Q : expr -> Prop) l, Forall Q l -> Forall Q (srt l).
Proof. intros Q l H. rewrite Forall_forall in *. intros e Ie. apply H. apply (Permutation_in e (Hsrt l)). exact Ie. Qed.
Lemma srt_length : forall l, length (srt l) = length l.
Proof. intros l. apply Permutation_length. apply Hsrt. Qed.
Lemma good_mk_prod : forall l, (2 <= length l)%nat -> Forall good l -> good (mk_prod l).
Proof. intros l L H. apply good_prod. { now rewrite srt_length. } now apply srt_F. Qed.
Lemma good_mk_add : forall l, Forall good l -> good (mk_add l).
Proof. intros l H. apply good_add. now apply srt_F. Qed.
Lemma good_times : forall x y, good x -> good y -> good (times x y).
Proof.
  intros x y X Y. unfold Sym.times. destruct (is_zero x || is_zero y); [apply good_con|]. destruct (is_one x); [exact Y|].
  destruct (is_one y); [exact X|].
  assert (D2 : good (Prod [x; y])). { apply good_prod; [cbn; lia|]. repeat (apply Forall_cons; [assumption|]). apply Forall_nil. }
  destruct x as [ | | |lx| | | | ], y as [ | | |ly| | | | ]; try exact D2.
  all: repeat match goal with H : good (Prod ?l) |- _ => apply good_prod_inv in H; destruct H end.
  all: apply good_mk_prod; [rewrite ?app_length; cbn [length]; lia|].
  all: try (apply Forall_app; split; [assumption|try assumption]).
  all: try (apply Forall_cons; [assumption|try assumption; try apply Forall_nil]).
Qed.
Lemma good_plus : forall x y, good x -> good y -> good (plus x y).
Proof.
  intros x y X Y. unfold Sym.plus. destruct (is_zero x); [exact Y|]. destruct (is_zero y); [exact X|].
  assert (D2 : good (Add [x; y])). { apply good_add. repeat (apply Forall_cons; [assumption|]). apply Forall_nil. }
  destruct x as [ | |lx| | | | | ], y as [ | |ly| | | | | ]; try exact D2; apply good_mk_add.
  all: repeat match goal with H : good (Add ?l) |- _ => apply good_add_inv in H end.
  all: try (apply Forall_app; split; [assumption|try assumption]).
  all: try (apply Forall_cons; [assumption|try assumption; try apply Forall_nil]).
Qed.
Lemma good_clone : forall e, good e -> good (clone srt e).
Proof.
  intros e. induction e as [c|s|l IH|l IH|e IH|b e IHb IHe|e IH|f l IH] using expr_ind'; intros G; cbn [clone]; auto.
  - apply good_add_inv in G. apply good_mk_add. apply Forall_map. rewrite Forall_forall in *. auto.
  - apply good_prod_inv in G. destruct G as [L G]. apply good_mk_prod; [now rewrite map_length|]. apply Forall_map. rewrite Forall_forall in *. auto.
  - apply good_pow_inv in G. destruct G. apply good_pow; auto.
  - apply good_user_inv in G. destruct G as [L G]. apply good_user; [now rewrite map_length|]. apply Forall_map. rewrite Forall_forall in *. auto.
Qed.
Lemma good_sum_of : forall l, Forall good l -> good (sum_of srt l).
Proof.
  intros l H. unfold sum_of. destruct l as [|a [|b t]]; [apply good_con|now inversion H|now apply good_mk_add].
Qed.
Lemma good_prod_terms : forall l pre, Forall good (map fst l) -> Forall good (map snd l) -> Forall good pre ->
  Forall good (prod_terms srt pre l).
Proof.
  induction l as [|[v d] t IH]; intros pre Hf Hs Hp; cbn [prod_terms]; [constructor|]. cbn [map fst snd] in Hf, Hs.
  inversion Hf as [|? ? Gv Gt]; subst. inversion Hs as [|? ? Gd Gs]; subst. apply Forall_app. split.
  - destruct (is_zero d); [constructor|].
    assert (A : Forall good ((if is_one d then [] else [d]) ++ rev pre ++ map fst t)).
    { apply Forall_app. split; [destruct (is_one d); [constructor|constructor; [exact Gd|constructor]]|]. apply Forall_app. split; [now apply Forall_rev|exact Gt]. }
    destruct ((if is_one d then [] else [d]) ++ rev pre ++ map fst t) as [|y [|z u]]; [constructor|exact A|].
    constructor; [|constructor]. apply good_mk_prod; [cbn; lia|exact A].
  - apply IH; [exact Gt|exact Gs|]. constructor; assumption.
Qed.
End U.

Section U2.
Variable srt : list expr -> list expr.
Hypothesis Hsrt : forall l, Permutation (srt l) l.
Variable key : expr -> string.
Hypothesis Hkey : text key.
Variable decls : string -> decl.
Let info (f : string) := info_of srt key (decls f).
Let arity (f : string) := darity (decls f).
Hypothesis Hgood : forall f, good_decl arity (decls f).
Notation good := (good decls).

Lemma unscaled_good : forall P l, Forall (good P) l -> good P (unscaled srt l).
Proof.
  intros P l H. unfold unscaled.
  assert (A : Forall (good P) (filter (fun e => negb (is_con e)) l)).
  { rewrite Forall_forall in *. intros e Ie. apply filter_In in Ie. now apply H. }
  destruct (filter (fun e => negb (is_con e)) l) as [|a [|b t]]; [apply good_con|now inversion A|].
  apply good_mk_prod; [exact Hsrt|cbn; lia|exact A].
Qed.
Lemma good_subst : forall (P : string -> Prop) v a e, only_var key v -> good P a -> good (fun s => s = v \/ P s) e ->
  good P (subst srt key v a e).
Proof.
  intros P v a e K A. induction e as [c|s|l IH|l IH|e IH|b e IHb IHe|e IH|f l IH] using expr_ind'; intros G; cbn [subst];
    (match goal with |- context [if String.eqb v (key ?x) then _ else _] => destruct (String.eqb v (key x)) eqn:E; [exact A|] end).
  - apply good_con.
  - destruct G as [_ G]. split; [exact Logic.I|]. intros s' [<-|[]]. destruct (G s) as [->|Ps]; [now left| |exact Ps].
    assert (B : key (Var v) = v) by (now apply K). rewrite B, String.eqb_refl in E. discriminate.
  - apply good_add_inv in G. apply good_mk_add; [exact Hsrt|]. apply Forall_map. rewrite Forall_forall in *. auto.
  - apply good_prod_inv in G. destruct G as [L G].
    destruct (String.eqb v (key (unscaled srt l))). { apply good_times; [exact Hsrt|apply good_con|exact A]. }
    apply good_mk_prod; [exact Hsrt|now rewrite map_length|]. apply Forall_map. rewrite Forall_forall in *. auto.
  - exact (IH G).
  - apply good_pow_inv in G. destruct G. apply good_pow; auto.
  - exact (IH G).
  - apply good_user_inv in G. destruct G as [L G]. apply good_user; [now rewrite map_length|]. apply Forall_map. rewrite Forall_forall in *. auto.
Qed.
Lemma good_weaken : forall (P Q : string -> Prop) e, (forall s, P s -> Q s) -> good P e -> good Q e.
Proof. intros P Q e H [W V]. split; [exact W|]. intros s Is. auto. Qed.
Lemma good_subst_all : forall names (P : string -> Prop) args e, length args = length names -> (forall n, In n names -> only_var key n) ->
  Forall (good P) args -> good (fun s => In s names \/ P s) e -> good P (subst_all srt key names args e).
Proof.
  unfold subst_all. induction names as [|n ns IH]; intros P [|a args] e L K A G; try discriminate; cbn [combine fold_left].
  - revert G. apply good_weaken. intros s [[]|H]. exact H.
  - inversion A as [|? ? Aa As]; subst. apply IH; [injection L; auto|intros m Hm; apply K; now right|exact As|]. cbn [fst snd].
    apply good_subst; [apply K; now left| |].
    + revert Aa. apply good_weaken. intros s Ps. now right.
    + revert G. apply good_weaken. intros s [[->|Is]|Ps]; auto.
Qed.
Lemma info_good : forall (P : string -> Prop) f d, (forall s, ident s -> P s) -> In (Some d) (map snd (info f)) ->
  good (fun s => In s (map fst (info f)) \/ P s) d.
Proof.
  intros P f d HP. unfold info. pose proof (Hgood f) as G. destruct (decls f) as [k|names ds|names ds]; cbn [info_of good_decl] in *.
  - intros H. apply in_map_iff in H. destruct H as (q & E & Iq). apply repeat_spec in Iq. subst q. discriminate.
  - destruct G as (L & Nd & Id & Iv & Wd). rewrite combine_fst, combine_snd by (rewrite !map_length; auto).
    intros H. apply in_map_iff in H. destruct H as (d0 & E & I0). injection E as <-. rewrite rename_all.
    rewrite Forall_forall in Id, Iv, Wd.
    apply good_subst_all; [now rewrite map_length| | |].
    + intros n Hn. apply only_name; [exact Hkey|]. right. left. now apply Id.
    + apply Forall_forall. intros e Ie. apply in_map_iff in Ie. destruct Ie as (w & <- & Iw). split; [exact Logic.I|].
      intros s [<-|[]]. left. now apply in_map.
    + split; [now apply Wd|]. intros s Is. right. right. apply HP. now apply (Iv d0 I0).
  - contradiction.
Qed.
Theorem good_D : forall (P : string -> Prop) x e, (forall s, ident s -> P s) -> (forall s, P s -> ident s) -> good P e -> good P (D srt key info x e).
Proof.
  intros P x e HP HP'. induction e as [c|s|l IH|l IH|e IH|b e IHb IHe|e IH|f l IH] using expr_ind'; intros G; cbn [D].
  - apply good_con.
  - destruct (String.eqb x s); apply good_con.
  - apply good_add_inv in G. apply good_sum_of; [exact Hsrt|]. apply Forall_forall. intros e Ie. apply filter_In in Ie. destruct Ie as [Ie _].
    apply in_map_iff in Ie. destruct Ie as (a & <- & Ia). rewrite Forall_forall in *. auto.
  - apply good_prod_inv in G. destruct G as [L G]. apply good_sum_of; [exact Hsrt|]. apply good_prod_terms; [exact Hsrt| | |constructor].
    + rewrite map_map. cbn [fst]. now rewrite map_id.
    + rewrite map_map. cbn [snd]. apply Forall_map. rewrite Forall_forall in *. auto.
  - destruct (is_con e); [apply good_con|]. apply good_times; [exact Hsrt|apply IH; exact G|exact G].
  - apply good_pow_inv in G. destruct G as [Gb Ge]. specialize (IHb Gb). specialize (IHe Ge).
    assert (X : good P (if is_con b then if is_zero b || is_one b then Con 0 else times srt (times srt (Log b) (Pow b e)) (D srt key info x e)
      else plus srt (times srt (times srt e (Pow b (minus srt e (Con 1)))) (D srt key info x b)) (times srt (times srt (Log b) (clone srt (Pow b e))) (D srt key info x e)))).
    { assert (Gl : good P (Log b)) by exact Gb.
      destruct (is_con b). { destruct (is_zero b || is_one b); [apply good_con|]. apply good_times; [exact Hsrt| |exact IHe].
        apply good_times; [exact Hsrt|exact Gl|now apply good_pow]. }
      apply good_plus; [exact Hsrt| |].
      - apply good_times; [exact Hsrt| |exact IHb]. apply good_times; [exact Hsrt|exact Ge|]. apply good_pow; [exact Gb|].
        unfold minus. apply good_plus; [exact Hsrt|exact Ge|]. apply good_times; [exact Hsrt|apply good_con|apply good_con].
      - apply good_times; [exact Hsrt| |exact IHe]. apply good_times; [exact Hsrt|exact Gl|]. apply good_clone; [exact Hsrt|]. now apply good_pow. }
    destruct e as [ex| | | | | | | ]; try exact X.
    destruct (reqb ex 0 || is_con b); [apply good_con|]. destruct (reqb ex 1); [exact IHb|].
    destruct (reqb ex 2).
    + apply good_times; [exact Hsrt| |exact IHb]. apply good_times; [exact Hsrt|apply good_con|exact Gb].
    + apply good_times; [exact Hsrt| |exact IHb]. apply good_times; [exact Hsrt|apply good_con|]. apply good_pow; [exact Gb|apply good_con].
  - destruct (is_con e); [apply good_con|]. apply good_times; [exact Hsrt|apply IH; exact G|]. apply good_pow; [exact G|apply good_con].
  - apply good_user_inv in G. destruct G as [L G].
    assert (T : Forall (good P) (map (fun p => user_term srt key (map fst (info f)) l (fst p) (snd p)) (combine (map snd (info f)) (map (D srt key info x) l)))).
    { apply Forall_map. apply Forall_forall. intros [di y] Ip. cbn [fst snd]. pose proof (in_combine_l _ _ _ _ Ip) as Il. apply in_combine_r in Ip.
      apply in_map_iff in Ip. destruct Ip as (a & <- & Ia). rewrite Forall_forall in IH, G.
      assert (X : good P (subst_all srt key (map fst (info f)) l match di with Some d => d | None => Con 0 end)).
      { apply good_subst_all.
        - rewrite map_length. rewrite L. symmetry. apply (info_arity srt key decls Hgood).
        - intros n Hn. apply only_name; [exact Hkey|]. apply (info_names srt key decls Hgood) in Hn. destruct Hn; auto.
        - apply Forall_forall. exact G.
        - destruct di as [d|]; [|apply good_con]. now apply info_good. }
      unfold user_term. destruct (is_zero (D srt key info x a)); [apply good_con|]. destruct (is_one (D srt key info x a)); [exact X|].
      apply good_times; [exact Hsrt|exact X|]. apply IH; [exact Ia|now apply G]. }
    destruct (map (fun p => user_term srt key (map fst (info f)) l (fst p) (snd p)) (combine (map snd (info f)) (map (D srt key info x) l))) as [|y [|z u]].
    + apply good_mk_add; [exact Hsrt|exact T].
    + now inversion T.
    + apply good_mk_add; [exact Hsrt|exact T].
Qed.
End U2.

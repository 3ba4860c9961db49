(* C48: the value of a model expression *)
From Coq Require Import Ascii String List Bool Arith Lia Reals Lra.
From Verif Require Import StrMap ModelData ModelDataProperties ModelExpr ModelExprSpec ModelExprProofs.
Import ListNotations.
Open Scope list_scope.

(* the value an object stands for *)
Definition value {V} (s : st V) (d : data V) : option (val V) :=
  match d with Inv => None | Dbl x => Some (Sc x) | Dat k p => Some (Fl k (elems V (nth p (heap s) (Vals [])))) end.

Section T.
Variable V : Type.
Variables (zero one : V) (add mul : V -> V -> V) (is0 : V -> bool) (lt : V -> V -> bool).
Variables (bad_add bad_mul : V -> V -> bool).
Variable of_nat : nat -> V.
Variable fn : string -> nat -> option (list V -> V * bool).
Variable var : string -> option V.
Variable ntri : nat.
Variables (tri_edge tet_edge : list nat).
Variable key : expr V -> string.
Variable len : kind -> nat.
Variables (mix_tri mix_tet vec : bool).
Variable rho : string -> option (kind * list V).
Variable defs : string -> option (expr V).
Variable rank : string -> nat.
Local Notation sem := (sem V zero one add mul is0 lt bad_add bad_mul fn var tri_edge tet_edge len mix_tri mix_tet vec rho).
Local Notation eval := (eval V zero one add mul is0 lt bad_add bad_mul of_nat fn var ntri tri_edge tet_edge key len).
Local Notation rho_ok := (rho_ok V zero one add mul is0 lt bad_add bad_mul fn var tri_edge tet_edge len mix_tri mix_tet vec rho defs rank).
Local Notation mesh_ok := (mesh_ok ntri tri_edge tet_edge len mix_tri mix_tet).
Local Notation ok_st := (ok_st V zero one add mul is0 lt bad_add bad_mul fn var tri_edge tet_edge key len mix_tri mix_tet vec rho defs).
(* the models of the region at the start: calculated with the values of rho, or to be calculated from defs *)
Definition start_ok (ms : smap (mdl V)) : Prop := sorted ms /\ forall n,
  match find n ms with
  | None => rho n = None
  | Some m => exists l, rho n = Some (m_kind m, l) /\
      match m_body m with Done c => elems V c = l | Pending e => m_idx m = [] /\ defs n = Some e end
  end.
Definition start (ms : smap (mdl V)) : st V := mkSt [] [] ms false false.
Lemma den_value : forall s d v, den V len s d v -> value s d = Some v.
Proof.
  intros s [|x|k p] [y|k' l] D; cbn in D; try contradiction; [subst; reflexivity|]. destruct D as [<- (c & Hc & (E & _))]. cbn. rewrite (nth_error_nth _ _ _ Hc), E. reflexivity.
Qed.
Lemma bound : forall l : list string, exists R, forall m, In m l -> rank m < R.
Proof.
  induction l as [|x l (R & H)]; [exists 0; intros m []|]. exists (S (rank x) + R). intros m [<-|Hm]; [lia|]. specialize (H m Hm). lia.
Qed.
(* a list of expressions evaluated one after the other with the same cache *)
Fixpoint run (fuel : nat) (cx : ctx) (s : st V) (es : list (expr V)) : st V * list (option (val V)) :=
  match es with
  | [] => (s, [])
  | e :: t => match eval fuel [] cx s e with
              | (s, Ok d) => let '(s', r) := run fuel cx s t in (s', value s d :: r)
              | (s, _) => (s, [None])
              end
  end.
Theorem C48_history_partial : mesh_ok -> (vec = true -> sum_law V zero add mul bad_mul of_nat) -> rho_ok -> (forall e e', key e = key e' -> e = e') ->
  forall ms k es, start_ok ms -> Forall (fun e => sem e <> None) es ->
  exists N, forall fuel, N <= fuel -> snd (run fuel (mkCx k []) (start ms) es) = map sem es.
Proof.
  intros H1 H2 H3 H4 ms k es (Hs & Hm) He.
  assert (O : ok_st (start ms)). { split; [intros q d []|]. split; [|reflexivity]. split; [exact Hs|exact Hm]. }
  clear Hs Hm. revert O. generalize (start ms). induction He as [|e es Ee _ IH]; intros s O; [exists 0; reflexivity|].
  destruct (sem e) as [v|] eqn:Es; [|congruence]. destruct (bound (models V e)) as (R & HR).
  destruct (eval_correct V zero one add mul is0 lt bad_add bad_mul of_nat fn var ntri tri_edge tet_edge key len mix_tri mix_tet vec rho defs rank
              H1 H2 H3 H4 R e HR [] (mkCx k []) (fun x Hx => match Hx with end) eq_refl s v O Es) as (N1 & s1 & d & Ev & (R1 & _ & D & _)).
  destruct R1 as (_ & _ & O1). destruct (IH s1 O1) as (N2 & HN). exists (N1 + N2). intros fuel Hf. cbn [run]. rewrite (Ev fuel) by lia.
  specialize (HN fuel). destruct (run fuel (mkCx k []) s1 es) as [s2 r]. cbn [snd] in *. rewrite HN by lia. rewrite (den_value _ _ _ D). cbn [map]. rewrite Es. reflexivity.
Qed.
(* A model whose expression is an unknown name, or the model itself, gets no values: it is an error. *)
Theorem C48_no_value : forall ms k n mk idx e fuel, find n ms = Some (mkMd mk idx (Pending e)) ->
  ((exists x, e = Var x /\ var x = None) \/ e = Model n) ->
  exists s', eval (S (S fuel)) [] (mkCx k []) (start ms) (Model n) = (s', Throw) /\ mods s' = ms.
Proof.
  intros ms k n mk idx e fuel F H. unfold ModelExpr.eval. cbn [lookup cache start set_fpe mods existsb]. rewrite F. cbn [m_body m_kind m_idx].
  destruct H as [(x & -> & Hx)| ->]; cbn [lookup cache set_err set_fpe mods start].
  - rewrite Hx. eexists. split; reflexivity.
  - rewrite F. cbn [existsb]. rewrite String.eqb_refl. eexists. split; reflexivity.
Qed.
(* the value does not depend on what was evaluated before *)
Theorem C48_order_partial : mesh_ok -> (vec = true -> sum_law V zero add mul bad_mul of_nat) -> rho_ok -> (forall e e', key e = key e' -> e = e') ->
  forall ms k es e, start_ok ms -> Forall (fun e => sem e <> None) es -> sem e <> None ->
  exists N, forall fuel, N <= fuel -> last (snd (run fuel (mkCx k []) (start ms) (es ++ [e]))) None = last (snd (run fuel (mkCx k []) (start ms) [e])) None.
Proof.
  intros H1 H2 H3 H4 ms k es e S Es Ee.
  destruct (C48_history_partial H1 H2 H3 H4 ms k (es ++ [e]) S) as (N1 & E1); [apply Forall_app; split; [exact Es|constructor; [exact Ee|constructor]]|].
  destruct (C48_history_partial H1 H2 H3 H4 ms k [e] S) as (N2 & E2); [constructor; [exact Ee|constructor]|].
  exists (N1 + N2). intros fuel Hf. rewrite E1, E2 by lia. rewrite map_app. cbn [map]. rewrite last_last. reflexivity.
Qed.
End T.

(* real numbers: no exceptions, and vec_sum of a uniform value is the sum *)
Definition r_is0 (x : R) : bool := if Req_EM_T x 0 then true else false.
Definition r_lt (x y : R) : bool := if Rlt_dec x y then true else false.
Lemma r_sum_law : sum_law R 0%R Rplus Rmult (fun _ _ => false) INR.
Proof.
  intros v n. split; [reflexivity|]. assert (H : forall n a, fold_left Rplus (repeat v n) a = (a + v * INR n)%R).
  { clear n. induction n as [|n IH]; intros a; [cbn; ring|]. cbn [repeat fold_left]. rewrite IH, S_INR. ring. }
  rewrite H. ring.
Qed.
Theorem C48_real_partial : forall fn var ntri tri_edge tet_edge key len mix_tri mix_tet rho defs rank,
  mesh_ok ntri tri_edge tet_edge len mix_tri mix_tet ->
  rho_ok R 0%R 1%R Rplus Rmult r_is0 r_lt (fun _ _ => false) (fun _ _ => false) fn var tri_edge tet_edge len mix_tri mix_tet true rho defs rank ->
  (forall e e', key e = key e' -> e = e') ->
  forall ms k es, start_ok R rho defs ms ->
  let sem := sem R 0%R 1%R Rplus Rmult r_is0 r_lt (fun _ _ => false) (fun _ _ => false) fn var tri_edge tet_edge len mix_tri mix_tet true rho in
  Forall (fun e => sem e <> None) es ->
  exists N, forall fuel, N <= fuel ->
    snd (run R 0%R 1%R Rplus Rmult r_is0 r_lt (fun _ _ => false) (fun _ _ => false) INR fn var ntri tri_edge tet_edge key len fuel (mkCx k []) (start R ms) es) = map sem es.
Proof.
  intros fn var ntri tri_edge tet_edge key len mix_tri mix_tet rho defs rank H1 H2 H3 ms k es S sem He.
  apply C48_history_partial with (mix_tri := mix_tri) (mix_tet := mix_tet) (vec := true) (rho := rho) (defs := defs) (rank := rank); auto.
  intros _. exact r_sum_law.
Qed.

(* ---- a region: 2 triangles on 5 edges, natural numbers ---- *)
(* names: a prefix code *)
Open Scope char_scope.
Fixpoint enc_n (n : nat) : list ascii := match n with 0 => ["0"] | S n => "1" :: enc_n n end.
Definition enc_s (s : string) : list ascii := enc_n (String.length s) ++ list_ascii_of_string s.
Fixpoint enc (e : expr nat) : list ascii :=
  match e with
  | Const n => "c" :: enc_n n
  | Var s => "v" :: enc_s s
  | Model s => "m" :: enc_s s
  | Prod l => "*" :: enc_n (length l) ++ flat_map enc l
  | Sum l => "+" :: enc_n (length l) ++ flat_map enc l
  | If t a => "i" :: enc t ++ enc a
  | IfElse t a b => "e" :: enc t ++ enc a ++ enc b
  | Fun f l => "f" :: enc_s f ++ enc_n (length l) ++ flat_map enc l
  end.
Close Scope char_scope.
Definition nkey (e : expr nat) : string := string_of_list_ascii (enc e).
Lemma enc_n_inj : forall n m r r', enc_n n ++ r = enc_n m ++ r' -> n = m /\ r = r'.
Proof.
  induction n as [|n IH]; intros [|m] r r' H; cbn in H; inversion H; [auto|]. destruct (IH m r r' H1). auto.
Qed.
Lemma app_len_inj : forall {A} (a b r r' : list A), length a = length b -> a ++ r = b ++ r' -> a = b /\ r = r'.
Proof. intros A. induction a as [|x a IH]; intros [|y b] r r' L H; try discriminate; [auto|]. cbn in *. inversion H; subst. destruct (IH b r r') as [-> ->]; auto. Qed.
Lemma las_len : forall s, length (list_ascii_of_string s) = String.length s. Proof. induction s; cbn; auto. Qed.
Lemma enc_s_inj : forall s t r r', enc_s s ++ r = enc_s t ++ r' -> s = t /\ r = r'.
Proof.
  intros s t r r' H. unfold enc_s in H. rewrite <- !app_assoc in H. apply enc_n_inj in H. destruct H as [L H]. apply app_len_inj in H; [|rewrite !las_len; exact L].
  destruct H as [E ->]. split; [|reflexivity]. rewrite <- (string_of_list_ascii_of_string s), E. apply string_of_list_ascii_of_string.
Qed.
Lemma enc_inj : forall e e' r r', enc e ++ r = enc e' ++ r' -> e = e' /\ r = r'.
Proof.
  assert (LI : forall l, Forall (fun e => forall e' r r', enc e ++ r = enc e' ++ r' -> e = e' /\ r = r') l ->
    forall l' r r', (enc_n (length l) ++ flat_map enc l) ++ r = (enc_n (length l') ++ flat_map enc l') ++ r' -> l = l' /\ r = r').
  { intros l Hl l' r r' H. rewrite <- !app_assoc in H. apply enc_n_inj in H. destruct H as [L H]. revert l' r r' L H.
    induction Hl as [|e l He _ IH]; intros [|e' l'] r r' L H; try discriminate; [auto|]. cbn in H. rewrite <- !app_assoc in H. apply He in H. destruct H as [-> H].
    destruct (IH l' r r') as [-> ->]; auto. }
  induction e as [n|s|s|l IH|l IH|t a IHt IHa|t a b IHt IHa IHb|f l IH] using (expr_ind' nat); intros [n'|s'|s'|l'|l'|t' a'|t' a' b'|f' l'] r r' H; cbn [enc app] in H; try discriminate; inversion H as [H1]; clear H.
  - apply enc_n_inj in H1. destruct H1; subst; auto.
  - apply enc_s_inj in H1. destruct H1; subst; auto.
  - apply enc_s_inj in H1. destruct H1; subst; auto.
  - apply (LI l IH) in H1. destruct H1; subst; auto.
  - apply (LI l IH) in H1. destruct H1; subst; auto.
  - rewrite <- !app_assoc in H1. apply IHt in H1. destruct H1 as [-> H1]. apply IHa in H1. destruct H1; subst; auto.
  - rewrite <- !app_assoc in H1. apply IHt in H1. destruct H1 as [-> H1]. apply IHa in H1. destruct H1 as [-> H1]. apply IHb in H1. destruct H1; subst; auto.
  - rewrite <- (app_assoc (enc_s f)), <- (app_assoc (enc_s f')) in H1. apply enc_s_inj in H1. destruct H1 as [-> H1]. apply (LI l IH) in H1. destruct H1; subst; auto.
Qed.
Lemma nkey_inj : forall e e', nkey e = nkey e' -> e = e'.
Proof.
  intros e e' H. assert (enc e = enc e') as E. { rewrite <- (list_ascii_of_string_of_list_ascii (enc e)), <- (list_ascii_of_string_of_list_ascii (enc e')). unfold nkey in H. rewrite H. reflexivity. }
  destruct (enc_inj e e' [] []) as [X _]; [rewrite !app_nil_r; exact E|exact X].
Qed.

Open Scope string_scope.
Definition nfn (f : string) (n : nat) : option (list nat -> nat * bool) :=
  match n with
  | 1 => if String.eqb f "sq" then Some (fun l => (nth 0 l 0 * nth 0 l 0, false)) else if String.eqb f "vec_sum" then Some (fun l => (nth 0 l 0, false)) else None
  | 3 => if String.eqb f "ifelse" then Some (fun l => (if Nat.eqb (nth 0 l 0) 0 then nth 2 l 0 else nth 1 l 0, false)) else None
  | _ => None
  end.
Definition ntri_edge : list nat := [0; 1; 2; 2; 3; 4]%nat.
Definition nlen (k : kind) : nat := match k with Node => 4 | Edge => 5 | Tri => 6 | Tet => 0 end.
Definition nv (s : string) : option nat := if String.eqb s "T" then Some 3%nat else None.
Definition nbad (x y : nat) : bool := false.
Definition neval := eval nat 0 1 Nat.add Nat.mul (Nat.eqb 0) Nat.ltb nbad nbad (fun n => n) nfn nv 2 ntri_edge [] nkey nlen.
Definition nrun := run nat 0 1 Nat.add Nat.mul (Nat.eqb 0) Nat.ltb nbad nbad (fun n => n) nfn nv 2 ntri_edge [] nkey nlen.
(* E is given on the edges, W on the triangle edges; J = T * sq(E) + E; K = W * J + vec_sum(J); L = ifelse(W, J, sq(E)) *)
Definition eJ : expr nat := Sum [Prod [Var "T"; Fun "sq" [Model "E"]]; Model "E"].
Definition eK : expr nat := Sum [Prod [Model "W"; Model "J"]; Fun "vec_sum" [Model "J"]].
Definition eL : expr nat := IfElse (Model "W") (Model "J") (Fun "sq" [Model "E"]).
Definition ndefs (n : string) : option (expr nat) :=
  if String.eqb n "J" then Some eJ else if String.eqb n "K" then Some eK else if String.eqb n "L" then Some eL else None.
Definition vE : list nat := [1; 2; 3; 4; 5]%nat.
Definition vW : list nat := [1; 0; 2; 0; 1; 0]%nat.
Definition vJ : list nat := [4; 14; 30; 52; 80]%nat.
Definition nrho (n : string) : option (kind * list nat) :=
  if String.eqb n "E" then Some (Edge, vE) else if String.eqb n "W" then Some (Tri, vW) else if String.eqb n "J" then Some (Edge, vJ)
  else if String.eqb n "K" then Some (Tri, [184; 180; 240; 180; 232; 180]%nat)
  else if String.eqb n "L" then Some (Tri, [4; 4; 30; 9; 52; 25]%nat) else None.
Definition nrank (n : string) : nat := if String.eqb n "K" then 2 else if String.eqb n "L" then 2 else if String.eqb n "J" then 1 else 0.
Definition nmods : smap (mdl nat) :=
  [("E", mkMd Edge [] (Done (Vals vE))); ("J", mkMd Edge [] (Pending eJ)); ("K", mkMd Tri [] (Pending eK));
   ("L", mkMd Tri [] (Pending eL)); ("W", mkMd Tri [] (Done (Vals vW)))].
Definition nsem := sem nat 0 1 Nat.add Nat.mul (Nat.eqb 0) Nat.ltb nbad nbad nfn nv ntri_edge [] nlen true false true nrho.
Lemma n_mesh : mesh_ok 2 ntri_edge [] nlen true false.
Proof.
  unfold mesh_ok. split; [reflexivity|]. split; [reflexivity|]. split; [reflexivity|].
  split; [repeat apply Forall_cons; try apply Forall_nil; cbn; lia|]. split; [constructor|]. split; [discriminate|discriminate].
Qed.
Lemma n_sum : sum_law nat 0 Nat.add Nat.mul nbad (fun n => n).
Proof.
  intros v n. split; [reflexivity|]. assert (H : forall n a, fold_left Nat.add (repeat v n) a = a + v * n).
  { clear n. induction n as [|n IH]; intros a; [cbn; lia|]. cbn [repeat fold_left]. rewrite IH. lia. }
  rewrite H. lia.
Qed.
Lemma n_rho : rho_ok nat 0 1 Nat.add Nat.mul (Nat.eqb 0) Nat.ltb nbad nbad nfn nv ntri_edge [] nlen true false true nrho ndefs nrank.
Proof.
  unfold rho_ok. split; [|split].
  - unfold nrho. intros n k l H. repeat match type of H with (if ?b then _ else _) = _ => destruct b end; inversion H; subst; split; try reflexivity; discriminate.
  - intros n e H. unfold ndefs in H. destruct (String.eqb_spec n "J") as [->|_]; [inversion H; subst; exists Edge, vJ, (Fl Edge vJ); repeat split; vm_compute; reflexivity|].
    destruct (String.eqb_spec n "K") as [->|_]; [inversion H; subst; eexists; eexists; eexists; split; [reflexivity|]; split; vm_compute; reflexivity|].
    destruct (String.eqb_spec n "L") as [->|_]; [inversion H; subst; eexists; eexists; eexists; split; [reflexivity|]; split; vm_compute; reflexivity|]. discriminate.
  - intros n e m H Hm. unfold ndefs in H. destruct (String.eqb_spec n "J") as [->|_]; [inversion H; subst; cbn in Hm; intuition subst; vm_compute; lia|].
    destruct (String.eqb_spec n "K") as [->|_]; [inversion H; subst; cbn in Hm; intuition subst; vm_compute; lia|].
    destruct (String.eqb_spec n "L") as [->|_]; [inversion H; subst; cbn in Hm; intuition subst; vm_compute; lia|]. discriminate.
Qed.
Lemma n_start : start_ok nat nrho ndefs nmods.
Proof.
  split.
  - unfold sorted, nmods. repeat constructor.
  - intros n. unfold nmods. cbn [find]. unfold nrho, ndefs. repeat match goal with |- context [String.eqb n ?k] => destruct (String.eqb_spec n k) as [->|?] end; cbn; try reflexivity;
    eexists; (split; [reflexivity|]); cbn; auto.
Qed.
Example C48_example : exists N, forall fuel, N <= fuel ->
  snd (nrun fuel (mkCx Tri []) (start nat nmods) [Model "K"; eL; Model "L"; Sum [Model "K"; Model "L"]; Model "J"]) =
  map nsem [Model "K"; eL; Model "L"; Sum [Model "K"; Model "L"]; Model "J"].
Proof.
  eapply (C48_history_partial nat 0 1 Nat.add Nat.mul (Nat.eqb 0) Nat.ltb nbad nbad (fun n => n) nfn nv 2 ntri_edge [] nkey nlen true false true nrho ndefs nrank).
  - exact n_mesh. - intros _; exact n_sum. - exact n_rho. - exact nkey_inj. - exact n_start.
  - repeat apply Forall_cons; try apply Forall_nil; vm_compute; discriminate.
Qed.
Example C48_example_values : map nsem [Model "K"; eL; Sum [Model "K"; Model "L"]] =
  [Some (Fl Tri [184; 180; 240; 180; 232; 180]); Some (Fl Tri [4; 4; 30; 9; 52; 25]); Some (Fl Tri [188; 184; 270; 189; 284; 205])]%nat.
Proof. vm_compute. reflexivity. Qed.

Example C48_no_value_case : snd (neval 5 [] (mkCx Node []) (start nat [("m", mkMd Node [] (Pending (Model "m")))]) (Model "m")) = Throw.
Proof. vm_compute. reflexivity. Qed.
(* ---- what is excluded ---- *)
(* if(t, a) + if(t, b) with node values t = 1: the first "if" overwrites the cached value of t with t*a *)
Definition ifmods : smap (mdl nat) :=
  [("a", mkMd Node [] (Done (Uni 2 4))); ("b", mkMd Node [] (Done (Uni 3 4))); ("t", mkMd Node [] (Done (Uni 1 4)))]%nat.
Theorem C48_if_if_refuted :
  snd (nrun 20 (mkCx Node []) (start nat ifmods) [If (Model "t") (Model "a")]) = [Some (Fl Node [2; 2; 2; 2])]%nat /\
  snd (nrun 20 (mkCx Node []) (start nat ifmods) [If (Model "t") (Model "b")]) = [Some (Fl Node [3; 3; 3; 3])]%nat /\
  snd (nrun 20 (mkCx Node []) (start nat ifmods) [Sum [If (Model "t") (Model "a"); If (Model "t") (Model "b")]]) = [Some (Fl Node [8; 8; 8; 8])]%nat.
Proof. split; [|split]; vm_compute; reflexivity. Qed.
(* after if(t, a), t itself is wrong for the rest of the evaluation *)
Theorem C48_if_test_refuted :
  snd (nrun 20 (mkCx Node []) (start nat ifmods) [Sum [If (Model "t") (Model "a"); Model "t"]]) = [Some (Fl Node [4; 4; 4; 4])]%nat /\
  snd (nrun 20 (mkCx Node []) (start nat ifmods) [Sum [Model "t"; If (Model "t") (Model "a")]]) = [Some (Fl Node [3; 3; 3; 3])]%nat.
Proof. split; vm_compute; reflexivity. Qed.
(* if(x, y) is y for a number x different from 0, and x * y for node values different from 0; ifelse(x, y, 0) is y *)
Theorem C48_if_truth_refuted :
  snd (nrun 20 (mkCx Node []) (start nat ifmods) [If (Const 2) (Model "b")]) = [Some (Fl Node [3; 3; 3; 3])]%nat /\
  snd (nrun 20 (mkCx Node []) (start nat ifmods) [If (Model "a") (Model "b")]) = [Some (Fl Node [6; 6; 6; 6])]%nat /\
  snd (nrun 20 (mkCx Node []) (start nat ifmods) [IfElse (Model "a") (Model "b") (Const 0)]) = [Some (Fl Node [3; 3; 3; 3])]%nat.
Proof. split; [|split]; vm_compute; reflexivity. Qed.
(* the model c of a contact (node 1) uses sq(x) and the model q = sq(x) + 1: q is calculated from the cached values of sq(x),
   which are 0 outside the contact, and stays so *)
Definition ctmods : smap (mdl nat) :=
  [("c", mkMd Node [1%nat] (Pending (Sum [Fun "sq" [Model "x"]; Model "q"])));
   ("q", mkMd Node [] (Pending (Sum [Fun "sq" [Model "x"]; Const 1%nat])));
   ("x", mkMd Node [] (Done (Vals [2; 3; 4; 5]%nat)))].
Theorem C48_contact_refuted :
  snd (nrun 20 (mkCx Node []) (start nat ctmods) [Model "q"; Model "c"; Model "q"]) =
    [Some (Fl Node [5; 10; 17; 26]); Some (Fl Node [0; 19; 0; 0]); Some (Fl Node [5; 10; 17; 26])]%nat /\
  snd (nrun 20 (mkCx Node []) (start nat ctmods) [Model "c"; Model "q"]) =
    [Some (Fl Node [0; 19; 0; 0]); Some (Fl Node [1; 10; 1; 1])]%nat.
Proof. split; vm_compute; reflexivity. Qed.
(* a floating point exception of the product of the first two factors is forgotten when there is a third one *)
Definition ebad (x y : nat) : bool := Nat.eqb x 20 && Nat.eqb y 30.
Definition eeval := eval nat 0 1 Nat.add Nat.mul (Nat.eqb 0) Nat.ltb nbad ebad (fun n => n) nfn nv 2 ntri_edge [] nkey nlen.
Definition outcome (x : st nat * res (data nat)) : bool * res (option (val nat)) :=
  (err (fst x), match snd x with Ok d => Ok (value (fst x) d) | Throw => Throw | UB => UB | NoFuel => NoFuel end).
Theorem C48_exception_refuted :
  outcome (eeval 20 [] (mkCx Node []) (start nat []) (Prod [Const 20; Const 30]%nat)) = (true, Ok None) /\
  outcome (eeval 20 [] (mkCx Node []) (start nat []) (Prod [Const 20; Const 30; Const 1]%nat)) = (false, Ok (Some (Sc 600%nat))).
Proof. split; vm_compute; reflexivity. Qed.
(* an unknown variable times 0 is 0 (the error is still reported); 0 times it is 0 and nothing is reported *)
Theorem C48_unknown_times_zero_refuted :
  outcome (neval 20 [] (mkCx Node []) (start nat []) (Prod [Var "U"; Const 2]%nat)) = (true, Ok None) /\
  outcome (neval 20 [] (mkCx Node []) (start nat []) (Prod [Var "U"; Const 0]%nat)) = (true, Ok (Some (Sc 0%nat))) /\
  outcome (neval 20 [] (mkCx Node []) (start nat []) (Prod [Const 0; Var "U"]%nat)) = (false, Ok (Some (Sc 0%nat))).
Proof. split; [|split]; vm_compute; reflexivity. Qed.
(* one tetrahedron (4 triangles, 6 edges): a uniform edge value times values on the edges of the tetrahedron.
   The same values not stored as uniform are correct. *)
Definition qlen (k : kind) : nat := match k with Node => 4 | Edge => 6 | Tri => 12 | Tet => 6 end.
Definition qeval := eval nat 0 1 Nat.add Nat.mul (Nat.eqb 0) Nat.ltb nbad nbad (fun n => n) nfn nv 4
  [0; 1; 3; 0; 2; 4; 1; 2; 5; 3; 4; 5]%nat [0; 1; 2; 3; 4; 5]%nat nkey qlen.
Definition qmods (c : cell nat) : smap (mdl nat) := [("u", mkMd Edge [] (Done c)); ("w", mkMd Tet [] (Done (Vals [1; 2; 3; 4; 5; 6]%nat)))].
Theorem C48_tetrahedron_refuted : elems nat (Uni 2 6)%nat = elems nat (Vals (repeat 2 6)%nat) /\
  outcome (qeval 20 [] (mkCx Tet []) (start nat (qmods (Vals (repeat 2 6)%nat))) (Prod [Model "u"; Model "w"])) = (false, Ok (Some (Fl Tet [2; 4; 6; 8; 10; 12]%nat))) /\
  outcome (qeval 20 [] (mkCx Tet []) (start nat (qmods (Uni 2 6)%nat)) (Prod [Model "u"; Model "w"])) = (false, UB).
Proof. split; [|split]; vm_compute; reflexivity. Qed.
Print Assumptions C48_history_partial.
Print Assumptions C48_no_value.
Print Assumptions C48_order_partial.
Print Assumptions C48_real_partial.
Print Assumptions C48_if_if_refuted.
Print Assumptions C48_if_test_refuted.
Print Assumptions C48_if_truth_refuted.
Print Assumptions C48_contact_refuted.
Print Assumptions C48_exception_refuted.
Print Assumptions C48_unknown_times_zero_refuted.
Print Assumptions C48_tetrahedron_refuted.

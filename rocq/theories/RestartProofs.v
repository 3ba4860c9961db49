(* Reading what was written. *)
From Coq Require Import String List Bool Arith ZArith Lia Sorting.Sorted.
Import ListNotations.
Require Import Verif.StrMap Verif.Adjacency Verif.Loader Verif.LoaderSpec Verif.LoaderProofs Verif.Restart Verif.RestartWrite Verif.RestartSpec.
Open Scope string_scope.
Open Scope list_scope.
Local Arguments Nat.eqb : simpl never.

Section Proofs.
Variable A : Type.
Variable of_int : Z -> A.
Variable run : list (command A) -> command A -> bool.
Variable builtin : mtype -> string -> bool.
Notation parse := (parse_file A of_int run builtin).
Notation stp := (step A of_int).
Notation W := (Build_world A).
Notation P := (Build_partial A).
Notation wt := (within_token A).

Lemma parse_go : forall st c ms ds ld q x f t st' c' q',
  lex A st x = (Some t, st') -> stp ms (Some c) q t = Go A (Some c') q' ->
  parse (W st (Some c) ms ds ld) q (x :: f) = parse (W st' (Some c') ms ds ld) q' f.
Proof. intros. cbn [parse_file w_stack w_loader w_meshes w_devices w_loaded]. rewrite H, H0. reflexivity. Qed.
Lemma parse_nl : forall st c ms ds ld q f, in_command st = false ->
  parse (W st (Some c) ms ds ld) q (NL A :: f) = parse (W st (Some c) ms ds ld) q f.
Proof. intros. cbn [parse_file w_stack w_loader w_meshes w_devices w_loaded lex]. rewrite H. reflexivity. Qed.

(* the region, contact or interface being read *)
Inductive owner := OR (n : string) (r : cregion A) | OC (n : string) (c : ccontact A) | OI (n : string) (i : cinterface A).
Definition osec (o : owner) : sec := match o with OR _ _ => S_region | OC _ _ => S_contact | OI _ _ => S_interface end.
Definition Q (p : place A) (o : owner) (so : option (string * solution A)) (e : option (string * command A)) : partial A :=
  match o with OR n r => P p (Some (n, r)) None None so e | OC n c => P p None (Some (n, c)) None so e | OI n i => P p None None (Some (n, i)) so e end.
Definition part_of_owner (o : owner) : mregion := match o with OR _ r => cr_part A r | OC _ c => cc_part A c | OI _ i => ci_part0 A i end.
Definition set_part (x : mregion) (r : cregion A) := {| cr_material := cr_material A r; cr_part := x; cr_models := cr_models A r; cr_equations := cr_equations A r |}.
Definition set_cpart (x : mregion) (r : ccontact A) := {| cc_region := cc_region A r; cc_material := cc_material A r; cc_part := x; cc_equations := cc_equations A r |}.
Definition set_ipart (ps : list (nat * nat)) (x y : mregion) (i : cinterface A) :=
  {| ci_region0 := ci_region0 A i; ci_region1 := ci_region1 A i; ci_pairs := ps; ci_part0 := x; ci_part1 := y; ci_models := ci_models A i; ci_equations := ci_equations A i |}.
Definition o_add (k : sec) (zs : list Z) (o : owner) : owner :=
  match o with
  | OR n r => OR n (set_part (add_element k zs (cr_part A r)) r)
  | OC n c => OC n (set_cpart (add_element k zs (cc_part A c)) c)
  | OI n i => OI n (match k with
                    | S_node => set_ipart (ci_pairs A i ++ [(Z.to_nat (nth 0 zs 0%Z), Z.to_nat (nth 1 zs 0%Z))]) (ci_part0 A i) (ci_part1 A i) i
                    | _ => set_ipart (ci_pairs A i) (add_element k (firstn (size_of k) zs) (ci_part0 A i)) (add_element k (skipn (size_of k) zs) (ci_part1 A i)) i
                    end)
  end.
Lemma update_o : forall k zs p o so e, update_part A (osec o) k zs (Q p o so e) = Some (Q p (o_add k zs o) so e).
Proof. intros. destruct o; cbn; try reflexivity. Qed.
Lemma osec_add : forall k zs o, osec (o_add k zs o) = osec o.
Proof. intros. destruct o; reflexivity. Qed.
Lemma q_place_Q : forall p o so e, q_place A (Q p o so e) = p.
Proof. intros. destruct o; reflexivity. Qed.
Lemma at_place_Q : forall p' p o so e, at_place A p' (Q p o so e) = Q p' o so e.
Proof. intros. destruct o; reflexivity. Qed.
Lemma group_pos : forall s k, In k [S_node; S_edge; S_tri; S_tet] -> 0 < group_size s k.
Proof. intros s k H. cbn in H. destruct H as [<-|[<-|[<-|[<-|[]]]]]; destruct s; cbn; lia. Qed.

Definition outer (t : token A) : bool :=
  match t with TBeg _ _ => true | TEnd _ (S_region | S_contact | S_interface) => true | _ => false end.
(* what is read next belongs to the enclosing region, contact or interface *)
Definition inside (s : sec) (p : place A) : Prop := forall ms l q t, q_place A q = p -> outer t = true -> stp ms l q t = wt s l q t.
Lemma inside_within : forall s, inside s (Within A s).
Proof. intros s ms l q t H _. unfold step. rewrite H. reflexivity. Qed.
Lemma inside_part : forall s k, In k [S_node; S_edge; S_tri; S_tet] -> inside s (Part A s k []).
Proof.
  intros s k Hk ms l q t H O. unfold step. rewrite H. destruct t; cbn in O; try discriminate; [reflexivity|].
  cbn in Hk. destruct s0; try discriminate; destruct Hk as [<-|[<-|[<-|[<-|[]]]]]; reflexivity.
Qed.
Lemma inside_model : forall s m, inside s (Model A s m INone).
Proof. intros s m ms l q t H O. unfold step. rewrite H. destruct t; cbn in O; try discriminate; [reflexivity|]. destruct s0; try discriminate; reflexivity. Qed.
Lemma inside_equation : forall s, inside s (Equation A s INone).
Proof. intros s ms l q t H O. unfold step. rewrite H. destruct t; cbn in O; try discriminate; [reflexivity|]. destruct s0; try discriminate; reflexivity. Qed.

(* ---------------------------------------------------------------- lists of elements *)
Definition zs (e : list nat) : list Z := map Z.of_nat e.
Lemma nonneg_zs : forall e p, nonneg p = true -> nonneg (p ++ zs e) = true.
Proof.
  intros e p H. unfold nonneg. rewrite forallb_app. apply andb_true_iff. split; [exact H|].
  apply forallb_forall. intros z Hz. apply in_map_iff in Hz. destruct Hz as [n [<- _]]. apply Z.leb_le. lia.
Qed.
Lemma one_element : forall s k e, forall st c ms ds ld p o so eq f,
  osec o = s -> In k [S_node; S_edge; S_tri; S_tet] -> nonneg p = true -> e <> [] -> length p + length e = group_size s k ->
  parse (W st (Some c) ms ds ld) (Q (Part A s k p) o so eq) (map (index A) e ++ f) =
  parse (W st (Some c) ms ds ld) (Q (Part A s k []) (o_add k (p ++ zs e) o) so eq) f.
Proof.
  intros s k e. induction e as [|x e IH]; intros st c ms ds ld p o so eq f Ho Hk Hp Hne Hl; [congruence|].
  cbn [map app]. destruct e as [|y e].
  - cbn [map app]. erewrite parse_go; [| reflexivity |].
    2:{ rewrite ?at_place_Q. unfold step. rewrite q_place_Q. cbn in Hl.
        replace (Nat.eqb (length (p ++ [Z.of_nat x])) (group_size s k)) with true by (symmetry; apply Nat.eqb_eq; rewrite app_length; cbn; lia).
        assert (E : nonneg (p ++ [Z.of_nat x]) = true) by (apply (nonneg_zs [x]); exact Hp).
        rewrite E. rewrite <- Ho, update_o, at_place_Q. reflexivity. }
    rewrite Ho. reflexivity.
  - erewrite parse_go; [| reflexivity |].
    2:{ rewrite ?at_place_Q. unfold step. rewrite q_place_Q. cbn in Hl.
        replace (Nat.eqb (length (p ++ [Z.of_nat x])) (group_size s k)) with false by (symmetry; apply Nat.eqb_neq; rewrite app_length; cbn; lia).
        rewrite at_place_Q. reflexivity. }
    cbn in Hl. rewrite IH; [| exact Ho | exact Hk | apply (nonneg_zs [x]); exact Hp | discriminate | rewrite app_length; cbn; lia].
    rewrite <- app_assoc. reflexivity.
Qed.
Definition o_adds (k : sec) (es : list (list nat)) (o : owner) : owner := fold_left (fun o e => o_add k (zs e) o) es o.
Lemma osec_adds : forall k es o, osec (o_adds k es o) = osec o.
Proof. intros k es. induction es as [|e es IH]; intros o; [reflexivity|]. change (osec (o_adds k es (o_add k (zs e) o)) = osec o). rewrite IH. apply osec_add. Qed.
Lemma elements : forall s k es, forall st c ms ds ld o so eq f,
  in_command st = false -> osec o = s -> In k [S_node; S_edge; S_tri; S_tet] -> Forall (fun e => length e = group_size s k) es ->
  parse (W st (Some c) ms ds ld) (Q (Part A s k []) o so eq) (lines A es ++ f) =
  parse (W st (Some c) ms ds ld) (Q (Part A s k []) (o_adds k es o) so eq) f.
Proof.
  intros s k es. induction es as [|e es IH]; intros st c ms ds ld o so eq f Hs Ho Hk Hl; [reflexivity|].
  inversion Hl; subst. cbn [lines flat_map]. rewrite <- !app_assoc. pose proof (group_pos (osec o) k Hk).
  rewrite one_element; auto; [| intros ->; cbn in *; lia].
  cbn [app]. rewrite parse_nl by exact Hs. fold (lines A es). rewrite IH; [reflexivity | exact Hs | apply osec_add | exact Hk | assumption].

Qed.
Definition beg (k : sec) : string :=
  match k with S_node => "begin_nodes" | S_edge => "begin_edges" | S_tri => "begin_triangles" | _ => "begin_tetrahedra" end.
Definition fits (o : owner) (k : sec) : Prop := match o with OR _ _ => True | _ => k <> S_tet end.
Definition taken (o : owner) (k : sec) : bool :=
  match o with
  | OI _ i => match k with S_node => nonempty (ci_pairs A i) | _ => has_elements k (ci_part0 A i) end
  | _ => has_elements k (part_of_owner o)
  end.
Lemma elements_section : forall o k es, forall st c ms ds ld p f,
  inside (osec o) p -> In k [S_node; S_edge; S_tri; S_tet] -> fits o k -> taken o k = false -> Forall (fun e => length e = group_size (osec o) k) es ->
  parse (W (osec o :: st) (Some c) ms ds ld) (Q p o None None) (section A (beg k) (end_word k) (lines A es) ++ f) =
  parse (W (osec o :: st) (Some c) ms ds ld) (Q (Part A (osec o) k []) (o_adds k es o) None None) f.
Proof.
  intros o k es st c ms ds ld p f Hp Hk Hf Ht Hl. unfold section. cbn [app]. rewrite <- app_assoc.
  assert (L1 : lex A (osec o :: st) (Line A (beg k)) = (Some (TBeg A k), k :: osec o :: st)).
  { cbn in Hk. destruct Hk as [<-|[<-|[<-|[<-|[]]]]]; destruct o; try reflexivity; cbn in Hf; congruence. }
  erewrite parse_go; [| exact L1 |].
  2:{ rewrite Hp; [| apply q_place_Q | reflexivity]. instantiate (1 := Q (Part A (osec o) k []) o None None). instantiate (1 := c).
      cbn in Hk. destruct o; cbn in Ht; destruct Hk as [<-|[<-|[<-|[<-|[]]]]]; cbn; cbn in Ht; rewrite ?Ht; reflexivity. }
  rewrite parse_nl by (cbn in Hk; destruct Hk as [<-|[<-|[<-|[<-|[]]]]]; reflexivity).
  rewrite elements; auto; [| cbn in Hk; destruct Hk as [<-|[<-|[<-|[<-|[]]]]]; reflexivity ].
  cbn [app]. erewrite parse_go.
  3:{ rewrite ?at_place_Q. unfold step. rewrite q_place_Q. instantiate (3 := TEnd A k). cbn beta iota.
      replace (same_kind k k) with true by (cbn in Hk; destruct Hk as [<-|[<-|[<-|[<-|[]]]]]; reflexivity). reflexivity. }
  2:{ cbn in Hk. destruct Hk as [<-|[<-|[<-|[<-|[]]]]]; reflexivity. }
  rewrite !parse_nl by (destruct o; reflexivity). reflexivity.
Qed.

(* ---------------------------------------------------------------- models and equations *)
Lemma options_model : forall s m opts, forall st c ms ds ld o n x eq f,
  parse (W (S_command :: st) (Some c) ms ds ld) (Q (Model A s m IOptions) o (Some (n, x)) eq) (flat_map (fun p => [Opt A (fst p); Quoted A (snd p)]) opts ++ f) =
  parse (W (S_command :: st) (Some c) ms ds ld) (Q (Model A s m IOptions) o (Some (n, set_command A (fst (s_command A x), snd (s_command A x) ++ strings A opts) x)) eq) f.
Proof.
  intros s m opts. induction opts as [|[w v] opts IH]; intros st c ms ds ld o n x eq f.
  - cbn. rewrite app_nil_r, <- surjective_pairing. destruct x. reflexivity.
  - cbn [flat_map app fst snd]. erewrite parse_go; [| reflexivity | rewrite ?at_place_Q; unfold step; rewrite q_place_Q; cbn beta iota; rewrite at_place_Q; reflexivity].
    erewrite parse_go; [| reflexivity |].
    2:{ rewrite ?at_place_Q. unfold step. rewrite q_place_Q. cbn [option_value]. unfold on_sol.
        instantiate (1 := Q (Model A s m IOptions) o (Some (n, set_command A (fst (s_command A x), snd (s_command A x) ++ [(w, VStr A v)]) x)) eq).
        destruct o; reflexivity. }
    rewrite IH. cbn. rewrite <- app_assoc. reflexivity.
Qed.
Lemma options_equation : forall s opts, forall st c ms ds ld o n x f,
  parse (W (S_command :: st) (Some c) ms ds ld) (Q (Equation A s IOptions) o None (Some (n, x))) (flat_map (fun p => [Opt A (fst p); Quoted A (snd p)]) opts ++ f) =
  parse (W (S_command :: st) (Some c) ms ds ld) (Q (Equation A s IOptions) o None (Some (n, (fst x, snd x ++ strings A opts)))) f.
Proof.
  intros s opts. induction opts as [|[w v] opts IH]; intros st c ms ds ld o n x f.
  - cbn. rewrite app_nil_r, <- surjective_pairing. reflexivity.
  - cbn [flat_map app fst snd]. erewrite parse_go; [| reflexivity | rewrite ?at_place_Q; unfold step; rewrite q_place_Q; cbn beta iota; rewrite at_place_Q; reflexivity].
    erewrite parse_go; [| reflexivity |].
    2:{ rewrite ?at_place_Q. unfold step. rewrite q_place_Q. cbn [option_value]. unfold on_eq.
        instantiate (1 := Q (Equation A s IOptions) o None (Some (n, (fst x, snd x ++ [(w, VStr A v)])))).
        destruct o; reflexivity. }
    rewrite IH. cbn. rewrite <- app_assoc. reflexivity.
Qed.
Lemma data_model : forall s m vs, forall st c ms ds ld o n x eq f, in_command st = false ->
  parse (W st (Some c) ms ds ld) (Q (Model A s m IData) o (Some (n, x)) eq) (flat_map (fun v => [NL A; Flt A v]) vs ++ f) =
  parse (W st (Some c) ms ds ld) (Q (Model A s m IData) o
    (Some (n, {| s_type := s_type A x; s_data := s_data A x; s_values := s_values A x ++ vs; s_parent := s_parent A x; s_uniform := s_uniform A x; s_command := s_command A x |})) eq) f.
Proof.
  intros s m vs. induction vs as [|v vs IH]; intros st c ms ds ld o n x eq f H.
  - cbn. rewrite app_nil_r. destruct x. reflexivity.
  - cbn [flat_map app]. rewrite parse_nl by exact H. erewrite parse_go; [| reflexivity |].
    2:{ rewrite ?at_place_Q. unfold step. rewrite q_place_Q. cbn [number]. unfold on_sol. instantiate (1 := Q (Model A s m IData) o (Some (n, add_value A v x)) eq). destruct o; reflexivity. }
    rewrite IH by exact H. cbn. rewrite <- app_assoc. reflexivity.
Qed.
Definition o_model (n : string) (x : solution A) (o : owner) : owner :=
  match o with
  | OR m r => OR m {| cr_material := cr_material A r; cr_part := cr_part A r; cr_models := put n x (cr_models A r); cr_equations := cr_equations A r |}
  | OC m c => OC m c
  | OI m i => OI m {| ci_region0 := ci_region0 A i; ci_region1 := ci_region1 A i; ci_pairs := ci_pairs A i; ci_part0 := ci_part0 A i; ci_part1 := ci_part1 A i;
                      ci_models := put n x (ci_models A i); ci_equations := ci_equations A i |}
  end.
Definition o_equation (n : string) (x : command A) (o : owner) : owner :=
  match o with
  | OR m r => OR m {| cr_material := cr_material A r; cr_part := cr_part A r; cr_models := cr_models A r; cr_equations := put n x (cr_equations A r) |}
  | OC m c => OC m {| cc_region := cc_region A c; cc_material := cc_material A c; cc_part := cc_part A c; cc_equations := put n x (cc_equations A c) |}
  | OI m i => OI m {| ci_region0 := ci_region0 A i; ci_region1 := ci_region1 A i; ci_pairs := ci_pairs A i; ci_part0 := ci_part0 A i; ci_part1 := ci_part1 A i;
                      ci_models := ci_models A i; ci_equations := put n x (ci_equations A i) |}
  end.
Definition o_has (n : string) (o : owner) : bool := match o with OR _ r => has n (cr_models A r) | OC _ _ => true | OI _ i => has n (ci_models A i) end.
Definition o_has_equation (n : string) (o : owner) : bool :=
  match o with OR _ r => has n (cr_equations A r) | OC _ c => has n (cc_equations A c) | OI _ i => has n (ci_equations A i) end.
Definition suits (o : owner) (m : mtype) (b : body A) : Prop :=
  match o with OR _ _ => m <> MIface | OC _ _ => False | OI _ _ => m = MIface /\ exists n p, b = BCommand A n p end.

Lemma model_section : forall o n m b, forall st c ms ds ld p f,
  inside (osec o) p -> suits o m b -> o_has n o = false ->
  parse (W (osec o :: st) (Some c) ms ds ld) (Q p o None None) (write_model A n m b ++ f) =
  parse (W (osec o :: st) (Some c) ms ds ld) (Q (Model A (osec o) m INone) (o_model n (solution_of A of_int m b) o) None None) f.
Proof.
  intros o n m b st c ms ds ld p f Hp Hs Hn. unfold write_model. rewrite <- !app_assoc. cbn [app].
  assert (L1 : lex A (osec o :: st) (Line A (begin_model m)) = (Some (TBeg A (S_model m)), S_model m :: osec o :: st)).
  { destruct o; cbn in Hs; destruct m; try reflexivity; try congruence; try tauto; destruct Hs; discriminate. }
  erewrite parse_go; [| exact L1 | rewrite Hp; [| apply q_place_Q | reflexivity]; cbn [within_token]; rewrite at_place_Q; reflexivity].
  erewrite parse_go; [| reflexivity |].
  2:{ rewrite ?at_place_Q. unfold step. rewrite q_place_Q. cbn [app length]. change (Nat.eqb 1 (words_of (S_model m))) with true. cbn beta iota.
      instantiate (1 := Q (Model A (osec o) m INone) o (Some (n, new_solution A m (of_int 0))) None). instantiate (1 := c).
      destruct o; cbn in Hn; cbn; rewrite ?Hn; try reflexivity. cbn in Hs. tauto. }
  rewrite parse_nl by reflexivity.
  assert (END : forall i x f', model_token A (osec o) m (Some c) (Q (Model A (osec o) m i) o (Some (n, x)) None) (TEnd A (S_model m)) =
                stp ms (Some c) (Q (Model A (osec o) m i) o (Some (n, x)) None) (TEnd A (S_model m)) ->
     parse (W (S_model m :: osec o :: st) (Some c) ms ds ld) (Q (Model A (osec o) m i) o (Some (n, x)) None) (NL A :: Line A (end_model m) :: NL A :: NL A :: f') =
     parse (W (osec o :: st) (Some c) ms ds ld) (Q (Model A (osec o) m INone) (o_model n x o) None None) f').
  { intros i x f' Hi. rewrite parse_nl by reflexivity. erewrite parse_go.
    2:{ instantiate (1 := osec o :: st). instantiate (1 := TEnd A (S_model m)). destruct m; reflexivity. }
    2:{ rewrite <- Hi. instantiate (1 := Q (Model A (osec o) m INone) (o_model n x o) None None). instantiate (1 := c).
        destruct o; cbn in Hs; try reflexivity. tauto. }
    rewrite !parse_nl by (destruct o; reflexivity). reflexivity. }
  destruct b as [|a|vs|pn|cn opts]; cbn [write_body app].
  - assert (M : m <> MIface) by (destruct o; cbn in Hs; [exact Hs|tauto|destruct Hs as [_ [? [? Hx]]]; discriminate]).
    erewrite parse_go.
    2:{ instantiate (1 := S_model m :: osec o :: st). instantiate (1 := TKey A KBuiltin). destruct m; try reflexivity; congruence. }
    2:{ rewrite ?at_place_Q. unfold step. rewrite q_place_Q. cbn [model_token]. unfold on_sol.
        instantiate (1 := Q (Model A (osec o) m INone) o (Some (n, set_data A DBuiltin (new_solution A m (of_int 0)))) None). destruct o; reflexivity. }
    rewrite END by (rewrite ?at_place_Q; unfold step; rewrite q_place_Q; reflexivity). reflexivity.
  - assert (M : m <> MIface) by (destruct o; cbn in Hs; [exact Hs|tauto|destruct Hs as [_ [? [? Hx]]]; discriminate]).
    erewrite parse_go.
    2:{ instantiate (1 := S_model m :: osec o :: st). instantiate (1 := TKey A KUniform). destruct m; try reflexivity; congruence. }
    2:{ rewrite ?at_place_Q. unfold step. rewrite q_place_Q. cbn [model_token]. rewrite at_place_Q. reflexivity. }
    erewrite parse_go; [| reflexivity |].
    2:{ rewrite ?at_place_Q. unfold step. rewrite q_place_Q. cbn [number]. unfold on_sol.
        instantiate (1 := Q (Model A (osec o) m INone) o (Some (n, set_uniform A a (new_solution A m (of_int 0)))) None). destruct o; reflexivity. }
    rewrite END by (rewrite ?at_place_Q; unfold step; rewrite q_place_Q; reflexivity). reflexivity.
  - assert (M : m <> MIface) by (destruct o; cbn in Hs; [exact Hs|tauto|destruct Hs as [_ [? [? Hx]]]; discriminate]).
    erewrite parse_go.
    2:{ instantiate (1 := S_model m :: osec o :: st). instantiate (1 := TKey A KData). destruct m; try reflexivity; congruence. }
    2:{ rewrite ?at_place_Q. unfold step. rewrite q_place_Q. cbn [model_token]. unfold on_sol.
        instantiate (1 := Q (Model A (osec o) m IData) o (Some (n, set_data A DData (new_solution A m (of_int 0)))) None). destruct o; reflexivity. }
    rewrite data_model by reflexivity. rewrite END by (rewrite ?at_place_Q; unfold step; rewrite q_place_Q; reflexivity). reflexivity.
  - assert (M : m <> MIface) by (destruct o; cbn in Hs; [exact Hs|tauto|destruct Hs as [_ [? [? Hx]]]; discriminate]).
    erewrite parse_go.
    2:{ instantiate (1 := S_model m :: osec o :: st). instantiate (1 := TKey A KParent). destruct m; try reflexivity; congruence. }
    2:{ rewrite ?at_place_Q. unfold step. rewrite q_place_Q. cbn [model_token]. rewrite at_place_Q. reflexivity. }
    erewrite parse_go; [| reflexivity |].
    2:{ rewrite ?at_place_Q. unfold step. rewrite q_place_Q. unfold on_sol.
        instantiate (1 := Q (Model A (osec o) m INone) o (Some (n, set_parent A pn (new_solution A m (of_int 0)))) None). destruct o; reflexivity. }
    rewrite END by (rewrite ?at_place_Q; unfold step; rewrite q_place_Q; reflexivity). reflexivity.
  - unfold write_call. cbn [app]. erewrite parse_go.
    2:{ instantiate (1 := S_command :: S_model m :: osec o :: st). instantiate (1 := TCommand A). destruct m; reflexivity. }
    2:{ rewrite ?at_place_Q. unfold step. rewrite q_place_Q. cbn [model_token]. rewrite at_place_Q. reflexivity. }
    erewrite parse_go; [| reflexivity |].
    2:{ rewrite ?at_place_Q. unfold step. rewrite q_place_Q. unfold on_sol.
        instantiate (1 := Q (Model A (osec o) m IOptions) o (Some (n, set_command A (cn, []) (set_data A DCommand (new_solution A m (of_int 0))))) None). destruct o; reflexivity. }
    rewrite options_model. erewrite parse_go; [| reflexivity | rewrite ?at_place_Q; unfold step; rewrite q_place_Q; cbn beta iota; rewrite at_place_Q; reflexivity].
    rewrite <- (parse_nl (S_model m :: osec o :: st)) by reflexivity.
    rewrite END by (rewrite ?at_place_Q; unfold step; rewrite q_place_Q; reflexivity). reflexivity.
Qed.
Lemma equation_section : forall o n x, forall st c ms ds ld p f,
  inside (osec o) p -> o_has_equation n o = false ->
  parse (W (osec o :: st) (Some c) ms ds ld) (Q p o None None) (write_equation A n x ++ f) =
  parse (W (osec o :: st) (Some c) ms ds ld) (Q (Equation A (osec o) INone) (o_equation n (called A x) o) None None) f.
Proof.
  intros o n [cn opts] st c ms ds ld p f Hp Hn. unfold write_equation. rewrite <- !app_assoc. cbn [app fst snd].
  assert (L1 : lex A (osec o :: st) (Line A "begin_equation") = (Some (TBeg A S_equation), S_equation :: osec o :: st)) by (destruct o; reflexivity).
  erewrite parse_go; [| exact L1 | rewrite Hp; [| apply q_place_Q | reflexivity]; cbn [within_token]; rewrite at_place_Q; reflexivity].
  erewrite parse_go; [| reflexivity |].
  2:{ rewrite ?at_place_Q. unfold step. rewrite q_place_Q. cbn [app length]. change (Nat.eqb 1 (words_of S_equation)) with true. cbn beta iota.
      instantiate (1 := Q (Equation A (osec o) INone) o None (Some (n, ("", [])))). instantiate (1 := c).
      destruct o; cbn in Hn; cbn; rewrite ?Hn; reflexivity. }
  rewrite parse_nl by reflexivity. unfold write_call. cbn [app].
  erewrite parse_go; [| reflexivity | rewrite ?at_place_Q; unfold step; rewrite q_place_Q; cbn [equation_token]; rewrite at_place_Q; reflexivity].
  erewrite parse_go; [| reflexivity |].
  2:{ rewrite ?at_place_Q. unfold step. rewrite q_place_Q. unfold on_eq. instantiate (1 := Q (Equation A (osec o) IOptions) o None (Some (n, (cn, [])))). destruct o; reflexivity. }
  rewrite options_equation. erewrite parse_go; [| reflexivity | rewrite ?at_place_Q; unfold step; rewrite q_place_Q; cbn beta iota; rewrite at_place_Q; reflexivity].
  erewrite parse_go; [| reflexivity |].
  2:{ rewrite ?at_place_Q. unfold step. rewrite q_place_Q. instantiate (1 := Q (Equation A (osec o) INone) (o_equation n (called A (cn, opts)) o) None None). instantiate (1 := c).
      destruct o; reflexivity. }
  cbn [tl]. rewrite !parse_nl by (destruct o; reflexivity). reflexivity.
Qed.
End Proofs.

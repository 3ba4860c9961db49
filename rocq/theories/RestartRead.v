(* Reading what was written: regions, contacts, interfaces and devices. *)
From Coq Require Import String List Bool Arith ZArith Lia Sorting.Sorted.
Import ListNotations.
Require Import Verif.StrMap Verif.Adjacency Verif.Loader Verif.LoaderSpec Verif.LoaderProofs Verif.Restart Verif.RestartWrite Verif.RestartSpec Verif.RestartProofs.
Open Scope string_scope.
Open Scope list_scope.
Local Arguments Nat.eqb : simpl never.

(* ---------------------------------------------------------------- maps *)
Section Maps.
Variables V : Type.
Definition puts (l : list (string * V)) (m : smap V) : smap V := fold_left (fun m p => put (fst p) (snd p) m) l m.
Lemma puts_sorted : forall l m, sorted m -> sorted (puts l m).
Proof. induction l as [|p l IH]; intros m H; cbn; [exact H|]. apply IH, put_sorted, H. Qed.
Lemma find_puts : forall l m k, sorted m -> NoDup (map fst l) ->
  find k (puts l m) = match find k l with Some v => Some v | None => find k m end.
Proof.
  induction l as [|[k' v'] l IH]; intros m k H Nd; [reflexivity|].
  inversion Nd; subst. change (find k (puts l (put k' v' m)) = match find k ((k', v') :: l) with Some v => Some v | None => find k m end).
  rewrite IH by (try apply put_sorted; assumption). rewrite find_put by exact H. cbn [find].
  destruct (String.eqb k k') eqn:E; [|reflexivity]. apply String.eqb_eq in E. subst k'.
  destruct (find k l) eqn:F; [|reflexivity]. apply find_In in F. exfalso. apply H2. apply in_map_iff. exists (k, v). auto.
Qed.
Lemma sorted_nil : sorted ([] : smap V).
Proof. constructor. Qed.
Lemma puts_self : forall l, sorted l -> puts l [] = l.
Proof.
  intros l H. apply map_ext_sorted; [apply puts_sorted, sorted_nil | exact H |].
  intros k. rewrite find_puts; [| apply sorted_nil | apply sorted_NoDup, H]. destruct (find k l); reflexivity.
Qed.
End Maps.
Arguments puts {V}.
Lemma map_keys : forall U V (f : string * U -> V) l, keys (map (fun p => (fst p, f p)) l) = keys l.
Proof. intros. unfold keys. rewrite map_map. reflexivity. Qed.
Lemma sorted_map : forall U V (f : string * U -> V) l, sorted l -> sorted (map (fun p => (fst p, f p)) l).
Proof. intros. unfold sorted. rewrite map_keys. exact H. Qed.
Lemma find_not_in : forall V (l : smap V) k, ~ In k (keys l) -> find k l = None.
Proof. intros V l k H. destruct (find k l) eqn:E; [|reflexivity]. exfalso. apply H. apply find_keys. congruence. Qed.
Lemma has_false : forall V (l : smap V) k, ~ In k (keys l) -> has k l = false.
Proof. intros. unfold has. rewrite find_not_in; auto. Qed.
Lemma keys_puts : forall V l (m : smap V) k, In k (keys (puts l m)) -> In k (map fst l) \/ In k (keys m).
Proof.
  intros V l. induction l as [|p l IH]; intros m k H; [right; exact H|].
  destruct (IH _ _ H) as [C|C]; [left; right; exact C|]. apply keys_put in C. destruct C as [->|C]; [left; left; reflexivity|right; exact C].
Qed.

Lemma find_NoDup : forall V (l : smap V) k v, NoDup (map fst l) -> In (k, v) l -> find k l = Some v.
Proof.
  intros V l k v. induction l as [|[k' v'] t IH]; intros N G; [destruct G|]. cbn [map fst] in N. inversion N; subst. cbn [find].
  destruct G as [G|G]; [injection G as -> ->; rewrite String.eqb_refl; reflexivity|].
  destruct (String.eqb k k') eqn:E; [|apply IH; assumption]. apply String.eqb_eq in E. subst k'. exfalso. apply H1. apply in_map_iff. exists (k, v). auto.
Qed.
Section Read.
Variable A : Type.
Variable of_int : Z -> A.
Variable run : list (command A) -> command A -> bool.
Variable builtin : mtype -> string -> bool.
Notation parse := (parse_file A of_int run builtin).
Notation stp := (step A of_int).
Notation W := (Build_world A).
Notation P := (Build_partial A).
Notation wt := (within_token A).
Notation Q := (Q A).
Notation inside := (inside A of_int).
Notation osec := (osec A).
Notation OR := (OR A). Notation OC := (OC A). Notation OI := (OI A).

(* ---------------------------------------------------------------- lists of models and equations *)
Definition o_models (l : list (string * (mtype * body A))) (o : owner A) : owner A :=
  fold_left (fun o p => o_model A (fst p) (solution_of A of_int (fst (snd p)) (snd (snd p))) o) l o.
Definition o_equations (l : smap call) (o : owner A) : owner A := fold_left (fun o p => o_equation A (fst p) (called A (snd p)) o) l o.
Lemma osec_model : forall n x o, osec (o_model A n x o) = osec o.
Proof. intros. destruct o; reflexivity. Qed.
Lemma osec_models : forall l o, osec (o_models l o) = osec o.
Proof. induction l as [|p l IH]; intros o; [reflexivity|]. change (osec (o_models l (o_model A (fst p) (solution_of A of_int (fst (snd p)) (snd (snd p))) o)) = osec o). rewrite IH. apply osec_model. Qed.
Lemma osec_equation : forall n x o, osec (o_equation A n x o) = osec o.
Proof. intros. destruct o; reflexivity. Qed.
Lemma osec_equations : forall l o, osec (o_equations l o) = osec o.
Proof. induction l as [|p l IH]; intros o; [reflexivity|]. change (osec (o_equations l (o_equation A (fst p) (called A (snd p)) o)) = osec o). rewrite IH. apply osec_equation. Qed.
Lemma suits_model : forall n x o m b, suits A o m b -> suits A (o_model A n x o) m b.
Proof. intros. destruct o; exact H. Qed.
Lemma o_has_model : forall n x o k, (forall z, o <> OC (fst z) (snd z)) -> k <> n -> o_has A k o = false -> o_has A k (o_model A n x o) = false.
Proof.
  intros n x o k Ho Hk H. destruct o as [m r|m c|m i]; cbn in *; [| exfalso; apply (Ho (m, c)); reflexivity |].
  - apply not_true_iff_false. intros E. apply has_keys, keys_put in E. destruct E as [E|E]; [congruence|].
    apply has_keys in E. congruence.
  - apply not_true_iff_false. intros E. apply has_keys, keys_put in E. destruct E as [E|E]; [congruence|].
    apply has_keys in E. congruence.
Qed.
Lemma o_has_eq : forall n x o k, k <> n -> o_has_equation A k o = false -> o_has_equation A k (o_equation A n x o) = false.
Proof.
  intros n x o k Hk H. apply not_true_iff_false. intros E.
  destruct o as [m r|m c|m i]; cbn in *; apply has_keys, keys_put in E; destruct E as [E|E]; try congruence; apply has_keys in E; congruence.
Qed.
Lemma models_section : forall l, forall o st c ms ds ld p f,
  inside (osec o) p -> Forall (fun q => suits A o (fst (snd q)) (snd (snd q))) l -> Forall (fun q => o_has A (fst q) o = false) l -> NoDup (map fst l) ->
  exists p', inside (osec o) p' /\
  parse (W (osec o :: st) (Some c) ms ds ld) (Q p o None None) (flat_map (fun q => write_model A (fst q) (fst (snd q)) (snd (snd q))) l ++ f) =
  parse (W (osec o :: st) (Some c) ms ds ld) (Q p' (o_models l o) None None) f.
Proof.
  induction l as [|[n [m b]] l IH]; intros o st c ms ds ld p f Hp Hs Hh Nd; [exists p; split; [exact Hp|reflexivity]|].
  inversion Hs; inversion Hh; inversion Nd; subst. cbn [fst snd map] in *.
  cbn [flat_map fst snd]. rewrite <- app_assoc. rewrite model_section by assumption.
  set (o1 := o_model A n (solution_of A of_int m b) o).
  assert (E1 : osec o1 = osec o) by apply osec_model.
  destruct (IH o1 st c ms ds ld (Model A (osec o) m INone) f) as [p' [Hp' E]]; try assumption.
  - rewrite E1. apply inside_model.
  - eapply Forall_impl; [|exact H2]. intros q Hq. apply suits_model, Hq.
  - apply Forall_forall. intros q Hq. pose proof (proj1 (Forall_forall _ _) H6 q Hq) as Hf. apply o_has_model; [| |exact Hf].
    + intros [z1 z2] ->. cbn in H1. exact H1.
    + intros C. apply H9. rewrite <- C. apply in_map. exact Hq.
  - rewrite E1 in *. exists p'. split; [exact Hp'|]. rewrite E. reflexivity.
Qed.
Lemma equations_section : forall l, forall o st c ms ds ld p f,
  inside (osec o) p -> Forall (fun q => o_has_equation A (fst q) o = false) l -> NoDup (map fst l) ->
  exists p', inside (osec o) p' /\
  parse (W (osec o :: st) (Some c) ms ds ld) (Q p o None None) (write_equations A l ++ f) =
  parse (W (osec o :: st) (Some c) ms ds ld) (Q p' (o_equations l o) None None) f.
Proof.
  induction l as [|[n x] l IH]; intros o st c ms ds ld p f Hp Hh Nd; [exists p; split; [exact Hp|reflexivity]|].
  inversion Hh; inversion Nd; subst. cbn [fst snd map] in *.
  unfold write_equations. cbn [flat_map fst snd]. rewrite <- app_assoc. rewrite equation_section by assumption.
  set (o1 := o_equation A n (called A x) o).
  assert (E1 : osec o1 = osec o) by apply osec_equation.
  destruct (IH o1 st c ms ds ld (Equation A (osec o) INone) f) as [p' [Hp' E]]; try assumption.
  - rewrite E1. apply inside_equation.
  - apply Forall_forall. intros q Hq. pose proof (proj1 (Forall_forall _ _) H2 q Hq) as Hf. apply o_has_eq; [|exact Hf].
    intros C. apply H5. rewrite <- C. apply in_map. exact Hq.
  - rewrite E1 in *. exists p'. split; [exact Hp'|]. unfold write_equations in E. rewrite E. reflexivity.
Qed.
(* what the owner holds afterwards *)
Definition sol_list (l : list (string * (mtype * body A))) : list (string * solution A) := map (fun p => (fst p, solution_of A of_int (fst (snd p)) (snd (snd p)))) l.
Definition eq_list (l : smap call) : smap (command A) := map (fun p => (fst p, called A (snd p))) l.
Lemma o_models_region : forall l n r, o_models l (OR n r) =
  OR n {| cr_material := cr_material A r; cr_part := cr_part A r; cr_models := puts (sol_list l) (cr_models A r); cr_equations := cr_equations A r |}.
Proof.
  induction l as [|p l IH]; intros n r; [destruct r; reflexivity|].
  change (o_models l (o_model A (fst p) (solution_of A of_int (fst (snd p)) (snd (snd p))) (OR n r)) =
    OR n {| cr_material := cr_material A r; cr_part := cr_part A r; cr_models := puts (sol_list (p :: l)) (cr_models A r); cr_equations := cr_equations A r |}).
  cbn [o_model]. rewrite IH. reflexivity.
Qed.
Lemma o_models_interface : forall l n i, o_models l (OI n i) =
  OI n {| ci_region0 := ci_region0 A i; ci_region1 := ci_region1 A i; ci_pairs := ci_pairs A i; ci_part0 := ci_part0 A i; ci_part1 := ci_part1 A i;
          ci_models := puts (sol_list l) (ci_models A i); ci_equations := ci_equations A i |}.
Proof.
  induction l as [|p l IH]; intros n i; [destruct i; reflexivity|].
  change (o_models l (o_model A (fst p) (solution_of A of_int (fst (snd p)) (snd (snd p))) (OI n i)) =
    OI n {| ci_region0 := ci_region0 A i; ci_region1 := ci_region1 A i; ci_pairs := ci_pairs A i; ci_part0 := ci_part0 A i; ci_part1 := ci_part1 A i;
          ci_models := puts (sol_list (p :: l)) (ci_models A i); ci_equations := ci_equations A i |}).
  cbn [o_model]. rewrite IH. reflexivity.
Qed.
Definition with_eqs (x : smap (command A)) (o : owner A) : owner A :=
  match o with
  | RestartProofs.OR _ m r => OR m {| cr_material := cr_material A r; cr_part := cr_part A r; cr_models := cr_models A r; cr_equations := x |}
  | RestartProofs.OC _ m c => OC m {| cc_region := cc_region A c; cc_material := cc_material A c; cc_part := cc_part A c; cc_equations := x |}
  | RestartProofs.OI _ m i => OI m {| ci_region0 := ci_region0 A i; ci_region1 := ci_region1 A i; ci_pairs := ci_pairs A i; ci_part0 := ci_part0 A i; ci_part1 := ci_part1 A i;
                      ci_models := ci_models A i; ci_equations := x |}
  end.
Definition eqs (o : owner A) : smap (command A) :=
  match o with RestartProofs.OR _ _ r => cr_equations A r | RestartProofs.OC _ _ c => cc_equations A c | RestartProofs.OI _ _ i => ci_equations A i end.
Lemma with_eqs_self : forall o, with_eqs (eqs o) o = o.
Proof. intros [m r|m r|m r]; destruct r; reflexivity. Qed.
Lemma with_eqs_twice : forall o x y, with_eqs x (with_eqs y o) = with_eqs x o.
Proof. intros [m r|m r|m r] x y; reflexivity. Qed.
Lemma o_equations_eq : forall l o, o_equations l o = with_eqs (puts (eq_list l) (eqs o)) o.
Proof.
  induction l as [|p l IH]; intros o; [symmetry; apply with_eqs_self|].
  change (o_equations l (o_equation A (fst p) (called A (snd p)) o) = with_eqs (puts (eq_list (p :: l)) (eqs o)) o).
  rewrite IH. destruct o; reflexivity.
Qed.

(* ---------------------------------------------------------------- elements *)
Definition normal (e : list nat) : Prop := element (map Z.of_nat e) = e.
Lemma normal_simplex : forall e, 1 <= length e <= 4 -> ascending e -> normal e.
Proof.
  intros e Hl Ha. unfold normal, element. rewrite map_map.
  replace (map (fun x => Z.to_nat (Z.of_nat x)) e) with e by (clear; induction e as [|a e IH]; [reflexivity|]; cbn [map]; rewrite Nat2Z.id, <- IH; reflexivity).
  destruct e as [|a [|b [|c [|d [|]]]]]; cbn in Hl; try lia; try reflexivity.
  - rewrite mk_edge_sort. apply asc_sort, Ha.
  - apply asc_sort, Ha.
  - apply asc_sort, Ha.
Qed.
Lemma adds_nodes : forall l r, fold_left (fun r e => add_element S_node (zs e) r) (map (fun i => [i]) l) r =
  {| mr_nodes := mr_nodes r ++ l; mr_edges := mr_edges r; mr_tris := mr_tris r; mr_tets := mr_tets r |}.
Proof.
  induction l as [|i l IH]; intros r; [cbn; rewrite app_nil_r; destruct r; reflexivity|].
  cbn [map fold_left]. rewrite IH. cbn. rewrite Nat2Z.id. cbn. rewrite <- app_assoc. reflexivity.
Qed.
Lemma adds_edges : forall l r, Forall normal l -> fold_left (fun r e => add_element S_edge (zs e) r) l r =
  {| mr_nodes := mr_nodes r; mr_edges := mr_edges r ++ l; mr_tris := mr_tris r; mr_tets := mr_tets r |}.
Proof.
  induction l as [|e l IH]; intros r H; [cbn; rewrite app_nil_r; destruct r; reflexivity|]. inversion H; subst.
  cbn [fold_left]. rewrite IH by assumption. unfold add_element. unfold normal, zs in *. rewrite H2. cbn. rewrite <- app_assoc. reflexivity.
Qed.
Lemma adds_tris : forall l r, Forall normal l -> fold_left (fun r e => add_element S_tri (zs e) r) l r =
  {| mr_nodes := mr_nodes r; mr_edges := mr_edges r; mr_tris := mr_tris r ++ l; mr_tets := mr_tets r |}.
Proof.
  induction l as [|e l IH]; intros r H; [cbn; rewrite app_nil_r; destruct r; reflexivity|]. inversion H; subst.
  cbn [fold_left]. rewrite IH by assumption. unfold add_element. unfold normal, zs in *. rewrite H2. cbn. rewrite <- app_assoc. reflexivity.
Qed.
Lemma adds_tets : forall l r, Forall normal l -> fold_left (fun r e => add_element S_tet (zs e) r) l r =
  {| mr_nodes := mr_nodes r; mr_edges := mr_edges r; mr_tris := mr_tris r; mr_tets := mr_tets r ++ l |}.
Proof.
  induction l as [|e l IH]; intros r H; [cbn; rewrite app_nil_r; destruct r; reflexivity|]. inversion H; subst.
  cbn [fold_left]. rewrite IH by assumption. unfold add_element. unfold normal, zs in *. rewrite H2. cbn. rewrite <- app_assoc. reflexivity.
Qed.
Lemma adds_region : forall k es n r, o_adds A k es (OR n r) = OR n (set_part A (fold_left (fun r e => add_element k (zs e) r) es (cr_part A r)) r).
Proof.
  intros k es. induction es as [|e es IH]; intros n r; [destruct r; reflexivity|].
  change (o_adds A k es (o_add A k (zs e) (OR n r)) = OR n (set_part A (fold_left (fun r e => add_element k (zs e) r) (e :: es) (cr_part A r)) r)).
  cbn [o_add]. rewrite IH. reflexivity.
Qed.
Lemma adds_contact : forall k es n r, o_adds A k es (OC n r) = OC n (set_cpart A (fold_left (fun r e => add_element k (zs e) r) es (cc_part A r)) r).
Proof.
  intros k es. induction es as [|e es IH]; intros n r; [destruct r; reflexivity|].
  change (o_adds A k es (o_add A k (zs e) (OC n r)) = OC n (set_cpart A (fold_left (fun r e => add_element k (zs e) r) (e :: es) (cc_part A r)) r)).
  cbn [o_add]. rewrite IH. reflexivity.
Qed.
Lemma adds_pairs : forall l n i, o_adds A S_node (map (fun p => [fst p; snd p]) l) (OI n i) =
  OI n (set_ipart A (ci_pairs A i ++ l) (ci_part0 A i) (ci_part1 A i) i).
Proof.
  induction l as [|[a b] l IH]; intros n i; [cbn; rewrite app_nil_r; destruct i; reflexivity|].
  cbn [map]. change (o_adds A S_node (map (fun p => [fst p; snd p]) l) (o_add A S_node (zs [a; b]) (OI n i)) =
    OI n (set_ipart A (ci_pairs A i ++ (a, b) :: l) (ci_part0 A i) (ci_part1 A i) i)).
  cbn [o_add]. rewrite IH. cbn [nth zs map]. rewrite !Nat2Z.id. cbn. rewrite <- app_assoc. reflexivity.
Qed.
Lemma adds_beside : forall k l0 l1 n i, k = S_edge \/ k = S_tri -> length l0 = length l1 -> Forall (fun e => length e = size_of k) l0 ->
  o_adds A k (beside l0 l1) (OI n i) =
  OI n (set_ipart A (ci_pairs A i) (fold_left (fun r e => add_element k (zs e) r) l0 (ci_part0 A i)) (fold_left (fun r e => add_element k (zs e) r) l1 (ci_part1 A i)) i).
Proof.
  intros k l0. induction l0 as [|e0 l0 IH]; intros [|e1 l1] n i Hk Hl H; cbn in Hl; try discriminate; [destruct i; reflexivity|].
  inversion H; subst. unfold beside. cbn [combine map].
  change (o_adds A k (beside l0 l1) (o_add A k (zs (e0 ++ e1)) (OI n i)) =
    OI n (set_ipart A (ci_pairs A i) (fold_left (fun r e => add_element k (zs e) r) (e0 :: l0) (ci_part0 A i)) (fold_left (fun r e => add_element k (zs e) r) (e1 :: l1) (ci_part1 A i)) i)).
  assert (E : o_add A k (zs (e0 ++ e1)) (OI n i) = OI n (set_ipart A (ci_pairs A i) (add_element k (zs e0) (ci_part0 A i)) (add_element k (zs e1) (ci_part1 A i)) i)).
  { unfold zs. rewrite map_app. unfold o_add.
    destruct Hk as [-> | ->]; rewrite <- H2; rewrite <- (map_length Z.of_nat e0), firstn_app, skipn_app, Nat.sub_diag, firstn_all, skipn_all, app_nil_r; reflexivity. }
  rewrite E, IH; auto.
Qed.
Lemma simplices_normal : forall k l, 1 <= k <= 4 -> simplices k l -> Forall normal l /\ Forall (fun e => length e = k) l.
Proof.
  intros k l Hk H. split; eapply Forall_impl; try exact H; cbn; intros e [H1 H2]; [apply normal_simplex; [lia|exact H2]|exact H1].
Qed.

(* ---------------------------------------------------------------- regions *)
Definition top (t : token A) : bool :=
  match t with TBeg _ (S_coord | S_region | S_contact | S_interface) => true | TEnd _ S_device => true | _ => false end.
Definition atdev (p : place A) : Prop := forall ms l q t, q_place A q = p -> top t = true -> stp ms l q t = device_token A l q t.
Lemma atdev_device : atdev (Device A).
Proof. intros ms l q t H _. unfold step. rewrite H. reflexivity. Qed.
Lemma atdev_within : forall s, atdev (Within A s).
Proof.
  intros s ms l q t H T. unfold step. rewrite H. unfold within_token. destruct t as [k|k| | | | | | | |]; cbn in T; try discriminate; destruct k; try discriminate; reflexivity.
Qed.
Lemma atdev_coords : atdev (Coords A []).
Proof.
  intros ms l q t H T. unfold step. rewrite H. destruct t as [k|k| | | | | | | |]; cbn in T; try discriminate; destruct k; try discriminate; reflexivity.
Qed.
Notation D p := (P p None None None None None).

Definition add_region (c : content A) (n : string) (r : cregion A) : content A :=
  {| co_name := co_name A c; co_coords := co_coords A c; co_regions := put n r (co_regions A c); co_contacts := co_contacts A c; co_interfaces := co_interfaces A c |}.
Definition add_contact (c : content A) (n : string) (r : ccontact A) : content A :=
  {| co_name := co_name A c; co_coords := co_coords A c; co_regions := co_regions A c; co_contacts := put n r (co_contacts A c); co_interfaces := co_interfaces A c |}.
Definition add_interface (c : content A) (n : string) (r : cinterface A) : content A :=
  {| co_name := co_name A c; co_coords := co_coords A c; co_regions := co_regions A c; co_contacts := co_contacts A c; co_interfaces := put n r (co_interfaces A c) |}.

Definition of_types (l : smap (mtype * body A)) : list (string * (mtype * body A)) :=
  of_type A MNode l ++ of_type A MEdge l ++ of_type A MTri l ++ of_type A MTet l.
Lemma of_types_In : forall l p, Forall (fun p => fst (snd p) <> MIface) l -> (In p (of_types l) <-> In p l).
Proof.
  intros l p H. unfold of_types, of_type. rewrite !in_app_iff, !filter_In. split; [tauto|]. intros Hp.
  pose proof (proj1 (Forall_forall _ _) H p Hp). destruct p as [n [m b]]. cbn in *. destruct m; cbn; tauto.
Qed.
Lemma NoDup_filter_fst : forall B (f : string * B -> bool) l, NoDup (map fst l) -> NoDup (map fst (filter f l)).
Proof.
  intros B f l. induction l as [|p l IH]; intros H; cbn; [constructor|]. inversion H; subst.
  destruct (f p); [|apply IH; assumption]. cbn. constructor; [|apply IH; assumption].
  intros C. apply H2. apply in_map_iff in C. destruct C as [q [Eq Hq]]. apply filter_In in Hq. apply in_map_iff. exists q. tauto.
Qed.
Lemma NoDup_app_ : forall B (l1 l2 : list B), NoDup l1 -> NoDup l2 -> (forall x, In x l1 -> In x l2 -> False) -> NoDup (l1 ++ l2).
Proof.
  intros B l1. induction l1 as [|x l1 IH]; intros l2 H1 H2 H; [exact H2|]. inversion H1; subst. cbn. constructor.
  - rewrite in_app_iff. intros [C|C]; [auto|]. apply (H x); [left; reflexivity|exact C].
  - apply IH; auto. intros y Hy Hy'. apply (H y); [right; exact Hy|exact Hy'].
Qed.
Lemma of_types_NoDup : forall l, NoDup (map fst l) -> NoDup (map fst (of_types l)).
Proof.
  intros l H. unfold of_types, of_type. rewrite !map_app.
  assert (X : forall m m' k, m <> m' -> In k (map fst (filter (fun p : string * (mtype * body A) => mtype_eqb (fst (snd p)) m) l)) ->
              In k (map fst (filter (fun p : string * (mtype * body A) => mtype_eqb (fst (snd p)) m') l)) -> False).
  { intros m m' k Hm H1 H2. apply in_map_iff in H1. apply in_map_iff in H2. destruct H1 as [[k1 [m1 b1]] [E1 I1]], H2 as [[k2 [m2 b2]] [E2 I2]].
    apply filter_In in I1. apply filter_In in I2. cbn in E1, E2. destruct I1 as [I1 F1], I2 as [I2 F2]. cbn in F1, F2. subst k1 k2.
    assert (Eq : (m1, b1) = (m2, b2)).
    { clear - H I1 I2. induction l as [|[k' v'] l IH]; [destruct I1|]. cbn in H. inversion H; subst.
      destruct I1 as [I1|I1], I2 as [I2|I2]; try congruence.
      - injection I1 as -> _. exfalso. apply H2. apply in_map_iff. exists (k, (m2, b2)). auto.
      - injection I2 as -> _. exfalso. apply H2. apply in_map_iff. exists (k, (m1, b1)). auto.
      - apply IH; assumption. }
    injection Eq as -> ->. destruct m2, m, m'; cbn in F1, F2; try discriminate; congruence. }
  repeat apply NoDup_app_; try (apply NoDup_filter_fst; exact H); intros k H1 H2; rewrite ?in_app_iff in H2.
  all: repeat match goal with H : _ \/ _ |- _ => destruct H end; (eapply X; [|exact H1|eassumption]); discriminate.
Qed.
Lemma types_puts : forall l, sorted l -> Forall (fun p => fst (snd p) <> MIface) l ->
  puts (sol_list (of_types l)) [] = sol_list l.
Proof.
  intros l H Hm. assert (S2 : sorted (sol_list l)) by (apply sorted_map with (f := fun p => solution_of A of_int (fst (snd p)) (snd (snd p))); exact H).
  assert (N1 : NoDup (map fst (sol_list (of_types l)))).
  { unfold sol_list. rewrite map_map. cbn [fst]. apply of_types_NoDup, (sorted_NoDup _ H). }
  apply map_ext_sorted; [apply puts_sorted, sorted_nil | exact S2 |].
  intros k. rewrite find_puts; [| apply sorted_nil | exact N1]. cbn [find].
  assert (E : find k (sol_list (of_types l)) = find k (sol_list l)).
  { destruct (find k (sol_list l)) as [v|] eqn:F.
    - apply find_In in F. apply in_map_iff in F. destruct F as [p [Ep Hp]].
      assert (G : In (k, v) (sol_list (of_types l))) by (apply in_map_iff; exists p; split; [exact Ep|apply of_types_In; assumption]).
      apply find_NoDup; assumption.
    - apply find_not_in. intros C. apply in_map_iff in C. destruct C as [q [Eq Hq]]. apply in_map_iff in Hq. destruct Hq as [p [Ep Hp]].
      apply (proj1 (of_types_In l p Hm)) in Hp. assert (G : In q (sol_list l)) by (apply in_map_iff; exists p; auto).
      destruct q as [q1 q2]. cbn in Eq. subst q1. rewrite (In_find _ _ _ S2 G) in F. discriminate. }
  rewrite E. destruct (find k (sol_list l)); reflexivity.
Qed.

Lemma region_section : forall dim n r, forall c ms ds ld p f,
  1 <= dim <= 3 -> atdev p -> proper_region A r -> has n (co_regions A c) = false ->
  parse (W [S_device] (Some c) ms ds ld) (D p) (write_region A dim n r ++ f) =
  parse (W [S_device] (Some (add_region c n (region_read A of_int dim r))) ms ds ld) (D (Within A S_region)) f.
Proof.
  intros dim n r c ms ds ld p f Hd Hp [He [Ht [Hq [Hm [Heq Hty]]]]] Hn. unfold write_region. rewrite <- !app_assoc. cbn [app].
  erewrite parse_go; [| reflexivity | rewrite Hp; [reflexivity|reflexivity|reflexivity] ].
  erewrite parse_go; [| reflexivity | reflexivity].
  erewrite parse_go; [| reflexivity |].
  2:{ cbn. rewrite Hn. reflexivity. }
  rewrite parse_nl by reflexivity.
  set (r0 := ({| cr_material := sr_material A r; cr_part := no_part; cr_models := []; cr_equations := [] |} : cregion A)).
  etransitivity.
  { apply (elements_section A of_int run builtin (OR n r0) S_node (map (fun i => [i]) (sr_nodes A r)) [S_device] c ms ds ld (Within A S_region));
    [ apply inside_within | left; reflexivity | exact Logic.I | reflexivity | apply Forall_forall; intros e He'; apply in_map_iff in He'; destruct He' as [x [<- _]]; reflexivity]. }
  rewrite adds_region, adds_nodes. cbn [r0 set_part cr_part no_part mr_nodes mr_edges mr_tris mr_tets cr_material cr_models cr_equations app].
  set (part := {| mr_nodes := sr_nodes A r; mr_edges := if_dim dim 1 (sr_edges A r); mr_tris := if_dim dim 2 (sr_tris A r); mr_tets := if_dim dim 3 (sr_tets A r) |}).
  set (r1 := ({| cr_material := sr_material A r; cr_part := part; cr_models := []; cr_equations := [] |} : cregion A)).
  match goal with |- _ = ?rhs => set (RHS := rhs) end.
  assert (STEP : forall f', exists p', inside S_region p' /\
    parse (W (osec (OR n r0) :: [S_device]) (Some c) ms ds ld)
      (Q (Part A (osec (OR n r0)) S_node []) (OR n {| cr_material := sr_material A r; cr_part := {| mr_nodes := sr_nodes A r; mr_edges := []; mr_tris := []; mr_tets := [] |}; cr_models := []; cr_equations := [] |}) None None)
      (match dim with 1 => write_edges A (sr_edges A r) | 2 => unless_empty A (sr_tris A r) (write_triangles A (sr_tris A r))
                    | 3 => unless_empty A (sr_tets A r) (write_tetrahedra A (sr_tets A r)) | _ => [] end ++ f') =
    parse (W (osec (OR n r1) :: [S_device]) (Some c) ms ds ld) (Q p' (OR n r1) None None) f').
  { intros f'. destruct dim as [|[|[|[|dim]]]]; try lia.
    - exists (Part A S_region S_edge []). split; [apply inside_part; cbn; auto|].
      
      
      destruct (simplices_normal 2 _ ltac:(lia) He) as [N L].
      etransitivity; [apply (elements_section A of_int run builtin (OR n {| cr_material := sr_material A r; cr_part := {| mr_nodes := sr_nodes A r; mr_edges := []; mr_tris := []; mr_tets := [] |}; cr_models := []; cr_equations := [] |}) S_edge (sr_edges A r) [S_device] c ms ds ld (Part A S_region S_node [])); [apply inside_part; cbn; auto | cbn; auto | exact Logic.I | reflexivity | exact L]|].
        rewrite adds_region, adds_edges by exact N. reflexivity.
    - destruct (sr_tris A r) as [|t0 ts] eqn:Et.
      + exists (Part A S_region S_node []). split; [apply inside_part; cbn; auto|]. cbn. reflexivity.
      + cbn [unless_empty]. rewrite <- Et in *. exists (Part A S_region S_tri []). split; [apply inside_part; cbn; auto|].
        
        
        destruct (simplices_normal 3 _ ltac:(lia) Ht) as [N L].
        etransitivity; [apply (elements_section A of_int run builtin (OR n {| cr_material := sr_material A r; cr_part := {| mr_nodes := sr_nodes A r; mr_edges := []; mr_tris := []; mr_tets := [] |}; cr_models := []; cr_equations := [] |}) S_tri (sr_tris A r) [S_device] c ms ds ld (Part A S_region S_node [])); [apply inside_part; cbn; auto | cbn; auto | exact Logic.I | reflexivity | exact L]|].
        rewrite adds_region, adds_tris by exact N. unfold r1, part. rewrite Et. reflexivity.
    - destruct (sr_tets A r) as [|t0 ts] eqn:Et.
      + exists (Part A S_region S_node []). split; [apply inside_part; cbn; auto|]. cbn. reflexivity.
      + cbn [unless_empty]. rewrite <- Et in *. exists (Part A S_region S_tet []). split; [apply inside_part; cbn; auto|].
        
        
        destruct (simplices_normal 4 _ ltac:(lia) Hq) as [N L].
        etransitivity; [apply (elements_section A of_int run builtin (OR n {| cr_material := sr_material A r; cr_part := {| mr_nodes := sr_nodes A r; mr_edges := []; mr_tris := []; mr_tets := [] |}; cr_models := []; cr_equations := [] |}) S_tet (sr_tets A r) [S_device] c ms ds ld (Part A S_region S_node [])); [apply inside_part; cbn; auto | cbn; auto | exact Logic.I | reflexivity | exact L]|].
        rewrite adds_region, adds_tets by exact N. unfold r1, part. rewrite Et. reflexivity. }
  match goal with |- parse _ _ (_ ++ ?g) = _ => destruct (STEP g) as [p1 [I1 E1]] end. etransitivity; [exact E1|]. clear STEP E1.
  unfold write_models. rewrite !app_assoc. rewrite <- !flat_map_app. fold (of_types (sr_models A r)).
  replace (((of_type A MNode (sr_models A r) ++ of_type A MEdge (sr_models A r)) ++ of_type A MTri (sr_models A r)) ++ of_type A MTet (sr_models A r))
    with (of_types (sr_models A r)) by (unfold of_types; rewrite !app_assoc; reflexivity).
  rewrite <- !app_assoc.
  match goal with |- parse _ _ (_ ++ ?g) = _ => destruct (models_section (of_types (sr_models A r)) (OR n r1) [S_device] c ms ds ld p1 g) as [p2 [I2 E2]] end.
  { exact I1. }
  { apply Forall_forall. intros q Hq'. apply (proj1 (of_types_In _ _ Hty)) in Hq'. exact (proj1 (Forall_forall _ _) Hty q Hq'). }
  { apply Forall_forall. intros q _. reflexivity. }
  { apply of_types_NoDup, (sorted_NoDup _ Hm). }
  etransitivity; [exact E2|]. clear E2. rewrite o_models_region. unfold r1. cbn [cr_material cr_part cr_models cr_equations]. rewrite types_puts by assumption.
  set (r2 := ({| cr_material := sr_material A r; cr_part := part; cr_models := sol_list (sr_models A r); cr_equations := [] |} : cregion A)).
  change (osec (OR n r1)) with (osec (OR n r2)) in *.
  match goal with |- parse _ _ (_ ++ ?g) = _ => destruct (equations_section (sr_equations A r) (OR n r2) [S_device] c ms ds ld p2 g) as [p3 [I3 E3]] end.
  { exact I2. }
  { apply Forall_forall. intros q _. reflexivity. }
  { apply (sorted_NoDup _ Heq). }
  etransitivity; [exact E3|]. clear E3.
  rewrite o_equations_eq. cbn [with_eqs eqs r2 cr_equations cr_material cr_part cr_models].
  rewrite puts_self by (apply sorted_map with (f := fun p => called A (snd p)); exact Heq).
  cbn [app]. erewrite parse_go; [| reflexivity | rewrite I3; [| apply q_place_Q | reflexivity] ].
  2:{ reflexivity. }
  rewrite !parse_nl by reflexivity. unfold RHS, add_region, region_read. reflexivity.
Qed.
End Read.

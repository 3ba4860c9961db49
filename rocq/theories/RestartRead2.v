(* Reading what was written: contacts, interfaces and whole devices. *)
From Coq Require Import String List Bool Arith ZArith Lia Sorting.Sorted.
Import ListNotations.
Require Import Verif.StrMap Verif.Adjacency Verif.Loader Verif.LoaderSpec Verif.LoaderProofs Verif.Restart Verif.RestartWrite Verif.RestartSpec Verif.RestartProofs Verif.RestartRead.
Open Scope string_scope.
Open Scope list_scope.
Local Arguments Nat.eqb : simpl never.

Section Read.
Variable A : Type.
Variable of_int : Z -> A.
Variable run : list (command A) -> command A -> bool.
Variable builtin : mtype -> string -> bool.
Notation parse := (parse_file A of_int run builtin).
Notation stp := (step A of_int).
Notation W := (Build_world A).
Notation P := (Build_partial A).
Notation Q := (Q A).
Notation inside := (inside A of_int).
Notation osec := (osec A).
Notation OR := (OR A). Notation OC := (OC A). Notation OI := (OI A).
Notation D p := (P p None None None None None).
Notation section_at := (elements_section A of_int run builtin).

Lemma contact_section : forall dim n r, forall c ms ds ld p f,
  1 <= dim <= 3 -> atdev A of_int p -> proper_contact r -> has n (co_contacts A c) = false ->
  parse (W [S_device] (Some c) ms ds ld) (D p) (write_contact A dim n r ++ f) =
  parse (W [S_device] (Some (add_contact A c n (contact_read A dim r))) ms ds ld) (D (Within A S_contact)) f.
Proof.
  intros dim n r c ms ds ld p f Hd Hp [He [Ht Heq]] Hn. unfold write_contact. rewrite <- !app_assoc. cbn [app].
  erewrite parse_go; [| reflexivity | rewrite Hp; [reflexivity|reflexivity|reflexivity] ].
  erewrite parse_go; [| reflexivity | reflexivity]. erewrite parse_go; [| reflexivity | reflexivity].
  erewrite parse_go; [| reflexivity |].
  2:{ cbn. rewrite Hn. reflexivity. }
  rewrite parse_nl by reflexivity. cbn [nth].
  set (r0 := ({| cc_region := sc_region r; cc_material := sc_material r; cc_part := no_part; cc_equations := [] |} : ccontact A)).
  set (part := {| mr_nodes := if_dim dim 1 (sc_nodes r); mr_edges := if_dim dim 2 (sc_edges r); mr_tris := if_dim dim 3 (sc_tris r); mr_tets := [] |}).
  set (r1 := ({| cc_region := sc_region r; cc_material := sc_material r; cc_part := part; cc_equations := [] |} : ccontact A)).
  match goal with |- _ = ?rhs => set (RHS := rhs) end.
  assert (STEP : forall f', exists p', inside S_contact p' /\
    parse (W [S_contact; S_device] (Some c) ms ds ld) (Q (Within A S_contact) (OC n r0) None None)
      (match dim with 1 => write_nodes A (sc_nodes r) | 2 => unless_empty A (sc_edges r) (write_edges A (sc_edges r))
                    | 3 => unless_empty A (sc_tris r) (write_triangles A (sc_tris r)) | _ => [] end ++ f') =
    parse (W [S_contact; S_device] (Some c) ms ds ld) (Q p' (OC n r1) None None) f').
  { intros f'. destruct dim as [|[|[|[|dim]]]]; try lia.
    - exists (Part A S_contact S_node []). split; [apply inside_part; cbn; auto|].
      etransitivity; [apply (section_at (OC n r0) S_node (map (fun i => [i]) (sc_nodes r)) [S_device] c ms ds ld (Within A S_contact));
        [apply inside_within | cbn; auto | discriminate | reflexivity | apply Forall_forall; intros e He'; apply in_map_iff in He'; destruct He' as [x [<- _]]; reflexivity]|].
      rewrite adds_contact, adds_nodes. reflexivity.
    - destruct (sc_edges r) as [|t0 ts] eqn:Et.
      + exists (Within A S_contact). split; [apply inside_within|]. reflexivity.
      + cbn [unless_empty]. rewrite <- Et in *. exists (Part A S_contact S_edge []). split; [apply inside_part; cbn; auto|].
        destruct (simplices_normal 2 _ ltac:(lia) He) as [N L].
        etransitivity; [apply (section_at (OC n r0) S_edge (sc_edges r) [S_device] c ms ds ld (Within A S_contact));
          [apply inside_within | cbn; auto | discriminate | reflexivity | exact L]|].
        rewrite adds_contact, adds_edges by exact N. unfold r1, part. rewrite Et. reflexivity.
    - destruct (sc_tris r) as [|t0 ts] eqn:Et.
      + exists (Within A S_contact). split; [apply inside_within|]. reflexivity.
      + cbn [unless_empty]. rewrite <- Et in *. exists (Part A S_contact S_tri []). split; [apply inside_part; cbn; auto|].
        destruct (simplices_normal 3 _ ltac:(lia) Ht) as [N L].
        etransitivity; [apply (section_at (OC n r0) S_tri (sc_tris r) [S_device] c ms ds ld (Within A S_contact));
          [apply inside_within | cbn; auto | discriminate | reflexivity | exact L]|].
        rewrite adds_contact, adds_tris by exact N. unfold r1, part. rewrite Et. reflexivity. }
  match goal with |- parse _ _ (_ ++ ?g) = _ => destruct (STEP g) as [p1 [I1 E1]] end. etransitivity; [exact E1|]. clear STEP E1.
  match goal with |- parse _ _ (_ ++ ?g) = _ => destruct (equations_section A of_int run builtin (sc_equations r) (OC n r1) [S_device] c ms ds ld p1 g) as [p3 [I3 E3]] end.
  { exact I1. }
  { apply Forall_forall. intros q _. reflexivity. }
  { apply (sorted_NoDup _ Heq). }
  etransitivity; [exact E3|]. clear E3.
  rewrite o_equations_eq. cbn [with_eqs eqs r1 cc_equations cc_material cc_part cc_region].
  rewrite puts_self by (apply sorted_map with (f := fun p => called A (snd p)); exact Heq).
  cbn [app]. erewrite parse_go; [| reflexivity | rewrite I3; [| apply q_place_Q | reflexivity] ].
  2:{ reflexivity. }
  rewrite !parse_nl by reflexivity. unfold RHS, add_contact, contact_read. reflexivity.
Qed.

Lemma paired_section : forall k l0 l1 n r0 c ms ds ld f, k = S_edge \/ k = S_tri -> simplices (size_of k) l0 -> simplices (size_of k) l1 ->
  ci_pairs A r0 = [] -> ci_part0 A r0 = no_part -> ci_part1 A r0 = no_part ->
  exists p', inside S_interface p' /\
    parse (W [S_interface; S_device] (Some c) ms ds ld) (Q (Within A S_interface) (OI n r0) None None)
      (if_paired A l0 l1 (section A (beg k) (end_word k) (lines A (beside l0 l1))) ++ f) =
    parse (W [S_interface; S_device] (Some c) ms ds ld)
      (Q p' (OI n (set_ipart A [] (fold_left (fun r e => add_element k (zs e) r) (equally l0 l1 l0) no_part)
                                  (fold_left (fun r e => add_element k (zs e) r) (equally l0 l1 l1) no_part) r0)) None None) f.
Proof.
  intros k l0 l1 n r0 c ms ds ld f Hk H0 H1 P0 P1 P2. unfold if_paired, equally.
  destruct (Nat.eqb (length l0) (length l1)) eqn:El.
  2:{ exists (Within A S_interface). split; [apply inside_within|]. rewrite andb_false_r. cbn [app fold_left].
      rewrite <- P0 at 1. rewrite <- P1 at 1. rewrite <- P2 at 1. destruct r0; reflexivity. }
  apply Nat.eqb_eq in El. destruct (nonempty l0) eqn:Ne.
  2:{ destruct l0; [|discriminate]. destruct l1; [|discriminate]. exists (Within A S_interface). split; [apply inside_within|]. cbn [andb app fold_left].
      rewrite <- P0 at 1. rewrite <- P1 at 1. rewrite <- P2 at 1. destruct r0; reflexivity. }
  cbn [andb]. exists (Part A S_interface k []). split; [apply inside_part; cbn; destruct Hk; subst; auto|].
  assert (Hsz : 1 <= size_of k <= 4) by (destruct Hk; subst; cbn; lia).
  destruct (simplices_normal _ _ Hsz H0) as [N0 L0]. destruct (simplices_normal _ _ Hsz H1) as [N1 L1].
  etransitivity; [apply (section_at (OI n r0) k (beside l0 l1) [S_device] c ms ds ld (Within A S_interface))|].
  - apply inside_within.
  - destruct Hk; subst; cbn; auto.
  - destruct Hk; subst; cbn; discriminate.
  - cbn [taken]. rewrite P1. destruct Hk; subst; reflexivity.
  - apply Forall_forall. intros e He. unfold beside in He. apply in_map_iff in He. destruct He as [[a b] [<- Hab]].
    pose proof (in_combine_l _ _ _ _ Hab) as Ia. pose proof (in_combine_r _ _ _ _ Hab) as Ib.
    rewrite app_length. cbn [fst snd]. rewrite (proj1 (Forall_forall _ _) L0 a Ia), (proj1 (Forall_forall _ _) L1 b Ib). destruct Hk; subst; cbn; lia.
  - rewrite adds_beside by assumption. rewrite P0, P1, P2. reflexivity.
Qed.

Lemma equally_normal : forall k (l0 l1 l : list simplex), 1 <= k <= 4 -> simplices k l -> Forall normal (equally l0 l1 l).
Proof.
  intros k l0 l1 l Hk H. unfold equally. destruct (Nat.eqb (length l0) (length l1)); [|constructor].
  destruct (simplices_normal k l Hk H) as [N _]. exact N.
Qed.
Lemma interface_section : forall dim n r, forall c ms ds ld p f,
  1 <= dim <= 3 -> atdev A of_int p -> proper_interface r -> has n (co_interfaces A c) = false ->
  parse (W [S_device] (Some c) ms ds ld) (D p) (write_interface A dim n r ++ f) =
  parse (W [S_device] (Some (add_interface A c n (interface_read A of_int dim r))) ms ds ld) (D (Within A S_interface)) f.
Proof.
  intros dim n r c ms ds ld p f Hd Hp [He0 [He1 [Ht0 [Ht1 [Hm Heq]]]]] Hn. unfold write_interface. rewrite <- !app_assoc. cbn [app].
  erewrite parse_go; [| reflexivity | rewrite Hp; [reflexivity|reflexivity|reflexivity] ].
  erewrite parse_go; [| reflexivity | reflexivity]. erewrite parse_go; [| reflexivity | reflexivity].
  erewrite parse_go; [| reflexivity |].
  2:{ cbn. rewrite Hn. reflexivity. }
  rewrite parse_nl by reflexivity. cbn [nth].
  set (r0 := ({| ci_region0 := si_region0 r; ci_region1 := si_region1 r; ci_pairs := []; ci_part0 := no_part; ci_part1 := no_part; ci_models := []; ci_equations := [] |} : cinterface A)).
  set (full := interface_read A of_int dim r).
  set (r1 := ({| ci_region0 := si_region0 r; ci_region1 := si_region1 r; ci_pairs := ci_pairs A full; ci_part0 := ci_part0 A full; ci_part1 := ci_part1 A full;
                 ci_models := []; ci_equations := [] |} : cinterface A)).
  match goal with |- _ = ?rhs => set (RHS := rhs) end.
  assert (STEP : forall f', exists p', inside S_interface p' /\
    parse (W [S_interface; S_device] (Some c) ms ds ld) (Q (Within A S_interface) (OI n r0) None None)
      ((if Nat.eqb dim 1 || negb (si_provided r) then section A "begin_nodes" "end_nodes" (lines A (map (fun p => [fst p; snd p]) (si_pairs r)))
        else match dim with
             | 2 => if_paired A (si_edges0 r) (si_edges1 r) (section A "begin_edges" "end_edges" (lines A (beside (si_edges0 r) (si_edges1 r))))
             | 3 => if_paired A (si_tris0 r) (si_tris1 r) (section A "begin_triangles" "end_triangles" (lines A (beside (si_tris0 r) (si_tris1 r))))
             | _ => []
             end) ++ f') =
    parse (W [S_interface; S_device] (Some c) ms ds ld) (Q p' (OI n r1) None None) f').
  { intros f'. unfold r1, full, interface_read, by_nodes. cbn [ci_pairs ci_part0 ci_part1]. destruct (Nat.eqb dim 1 || negb (si_provided r)) eqn:B.
    - exists (Part A S_interface S_node []). split; [apply inside_part; cbn; auto|].
      etransitivity; [apply (section_at (OI n r0) S_node (map (fun p => [fst p; snd p]) (si_pairs r)) [S_device] c ms ds ld (Within A S_interface));
        [apply inside_within | cbn; auto | discriminate | reflexivity | apply Forall_forall; intros e He'; apply in_map_iff in He'; destruct He' as [x [<- _]]; reflexivity]|].
      rewrite adds_pairs. reflexivity.
    - destruct dim as [|[|[|[|dim]]]]; try lia; [discriminate| |].
      + destruct (paired_section S_edge (si_edges0 r) (si_edges1 r) n r0 c ms ds ld f') as [p' [I' E']]; auto.
        exists p'. split; [exact I'|]. etransitivity; [exact E'|].
        rewrite !adds_edges by (apply (equally_normal 2); [lia|assumption]). reflexivity.
      + destruct (paired_section S_tri (si_tris0 r) (si_tris1 r) n r0 c ms ds ld f') as [p' [I' E']]; auto.
        exists p'. split; [exact I'|]. etransitivity; [exact E'|].
        rewrite !adds_tris by (apply (equally_normal 3); [lia|assumption]). reflexivity. }
  match goal with |- parse _ _ (_ ++ ?g) = _ => destruct (STEP g) as [p1 [I1 E1]] end. etransitivity; [exact E1|]. clear STEP E1.
  set (ml := map (fun p : string * call => (fst p, (MIface, BCommand A (fst (snd p)) (snd (snd p))))) (si_models r)).
  assert (FM : flat_map (fun q => write_model A (fst q) (fst (snd q)) (snd (snd q))) ml =
    flat_map (fun p : string * call => write_model A (fst p) MIface (BCommand A (fst (snd p)) (snd (snd p)))) (si_models r))
    by (unfold ml; clear; induction (si_models r) as [|x l IH]; [reflexivity|]; cbn [map flat_map]; rewrite IH; reflexivity).
  match goal with |- parse _ _ (_ ++ ?g) = _ => destruct (models_section A of_int run builtin ml (OI n r1) [S_device] c ms ds ld p1 g) as [p2 [I2 E2]] end.
  { exact I1. }
  { apply Forall_forall. intros q Hq. unfold ml in Hq. apply in_map_iff in Hq. destruct Hq as [x [<- _]]. cbn. split; [reflexivity|eauto]. }
  { apply Forall_forall. intros q _. reflexivity. }
  { unfold ml. rewrite map_map. cbn [fst]. apply (sorted_NoDup _ Hm). }
  rewrite FM in E2. etransitivity; [exact E2|]. clear E2. rewrite o_models_interface. unfold r1. cbn [ci_region0 ci_region1 ci_pairs ci_part0 ci_part1 ci_models ci_equations].
  assert (EM : puts (sol_list A of_int ml) [] = ci_models A full).
  { replace (sol_list A of_int ml) with (ci_models A full) by (unfold sol_list, ml, full, interface_read; cbn [ci_models]; rewrite map_map; reflexivity).
    apply puts_self. apply sorted_map with (f := fun p => solution_of A of_int MIface (BCommand A (fst (snd p)) (snd (snd p)))). exact Hm. }
  rewrite EM.
  set (r2 := ({| ci_region0 := si_region0 r; ci_region1 := si_region1 r; ci_pairs := ci_pairs A full; ci_part0 := ci_part0 A full; ci_part1 := ci_part1 A full;
                 ci_models := ci_models A full; ci_equations := [] |} : cinterface A)).
  match goal with |- parse _ _ (_ ++ ?g) = _ => destruct (equations_section A of_int run builtin (si_equations r) (OI n r2) [S_device] c ms ds ld p2 g) as [p3 [I3 E3]] end.
  { exact I2. }
  { apply Forall_forall. intros q _. reflexivity. }
  { apply (sorted_NoDup _ Heq). }
  etransitivity; [exact E3|]. clear E3.
  rewrite o_equations_eq. cbn [with_eqs eqs r2 ci_region0 ci_region1 ci_pairs ci_part0 ci_part1 ci_models ci_equations].
  rewrite puts_self by (apply sorted_map with (f := fun p => called A (snd p)); exact Heq).
  cbn [app]. erewrite parse_go; [| reflexivity | rewrite I3; [| apply q_place_Q | reflexivity] ].
  2:{ reflexivity. }
  rewrite !parse_nl by reflexivity. unfold RHS, add_interface. reflexivity.
Qed.

(* ---------------------------------------------------------------- lists of them *)
Definition all_regions (l : smap (cregion A)) (c : content A) : content A :=
  {| co_name := co_name A c; co_coords := co_coords A c; co_regions := puts l (co_regions A c); co_contacts := co_contacts A c; co_interfaces := co_interfaces A c |}.
Definition all_contacts (l : smap (ccontact A)) (c : content A) : content A :=
  {| co_name := co_name A c; co_coords := co_coords A c; co_regions := co_regions A c; co_contacts := puts l (co_contacts A c); co_interfaces := co_interfaces A c |}.
Definition all_interfaces (l : smap (cinterface A)) (c : content A) : content A :=
  {| co_name := co_name A c; co_coords := co_coords A c; co_regions := co_regions A c; co_contacts := co_contacts A c; co_interfaces := puts l (co_interfaces A c) |}.
Lemma new_names_ : forall U V (l : smap U) n (x : V) (m : smap V), ~ In n (map fst l) -> Forall (fun p => has (fst p) m = false) l -> Forall (fun p => has (fst p) (put n x m) = false) l.
Proof.
  intros U V l n x m Hn H. apply Forall_forall. intros p Hp. pose proof (proj1 (Forall_forall _ _) H p Hp) as Hf.
  apply not_true_iff_false. intros C. apply has_keys, keys_put in C. destruct C as [C|C].
  - apply Hn. rewrite <- C. apply in_map, Hp.
  - apply has_keys in C. congruence.
Qed.
Lemma regions_section : forall dim l c ms ds ld p f,
  1 <= dim <= 3 -> atdev A of_int p -> Forall (fun q => proper_region A (snd q)) l -> Forall (fun q => has (fst q) (co_regions A c) = false) l -> NoDup (map fst l) ->
  exists p', atdev A of_int p' /\
  parse (W [S_device] (Some c) ms ds ld) (D p) (flat_map (fun q => write_region A dim (fst q) (snd q)) l ++ f) =
  parse (W [S_device] (Some (all_regions (map (fun q => (fst q, region_read A of_int dim (snd q))) l) c)) ms ds ld) (D p') f.
Proof.
  intros dim l. induction l as [|[n r] l IH]; intros c ms ds ld p f Hd Hp Hr Hh Nd.
  - exists p. split; [exact Hp|]. destruct c; reflexivity.
  - inversion Hr; inversion Hh; inversion Nd; subst. cbn [flat_map map fst snd] in *. rewrite <- app_assoc.
    rewrite region_section by assumption.
    destruct (IH (add_region A c n (region_read A of_int dim r)) ms ds ld (Within A S_region) f) as [p' [Hp' E]]; auto.
    + apply atdev_within.
    + apply new_names_; assumption.
    + exists p'. split; [exact Hp'|exact E].
Qed.
Lemma contacts_section : forall dim l c ms ds ld p f,
  1 <= dim <= 3 -> atdev A of_int p -> Forall (fun q => proper_contact (snd q)) l -> Forall (fun q => has (fst q) (co_contacts A c) = false) l -> NoDup (map fst l) ->
  exists p', atdev A of_int p' /\
  parse (W [S_device] (Some c) ms ds ld) (D p) (flat_map (fun q => write_contact A dim (fst q) (snd q)) l ++ f) =
  parse (W [S_device] (Some (all_contacts (map (fun q => (fst q, contact_read A dim (snd q))) l) c)) ms ds ld) (D p') f.
Proof.
  intros dim l. induction l as [|[n r] l IH]; intros c ms ds ld p f Hd Hp Hr Hh Nd.
  - exists p. split; [exact Hp|]. destruct c; reflexivity.
  - inversion Hr; inversion Hh; inversion Nd; subst. cbn [flat_map map fst snd] in *. rewrite <- app_assoc.
    rewrite contact_section by assumption.
    destruct (IH (add_contact A c n (contact_read A dim r)) ms ds ld (Within A S_contact) f) as [p' [Hp' E]]; auto.
    + apply atdev_within.
    + apply new_names_; assumption.
    + exists p'. split; [exact Hp'|exact E].
Qed.
Lemma interfaces_section : forall dim l c ms ds ld p f,
  1 <= dim <= 3 -> atdev A of_int p -> Forall (fun q => proper_interface (snd q)) l -> Forall (fun q => has (fst q) (co_interfaces A c) = false) l -> NoDup (map fst l) ->
  exists p', atdev A of_int p' /\
  parse (W [S_device] (Some c) ms ds ld) (D p) (flat_map (fun q => write_interface A dim (fst q) (snd q)) l ++ f) =
  parse (W [S_device] (Some (all_interfaces (map (fun q => (fst q, interface_read A of_int dim (snd q))) l) c)) ms ds ld) (D p') f.
Proof.
  intros dim l. induction l as [|[n r] l IH]; intros c ms ds ld p f Hd Hp Hr Hh Nd.
  - exists p. split; [exact Hp|]. destruct c; reflexivity.
  - inversion Hr; inversion Hh; inversion Nd; subst. cbn [flat_map map fst snd] in *. rewrite <- app_assoc.
    rewrite interface_section by assumption.
    destruct (IH (add_interface A c n (interface_read A of_int dim r)) ms ds ld (Within A S_interface) f) as [p' [Hp' E]]; auto.
    + apply atdev_within.
    + apply new_names_; assumption.
    + exists p'. split; [exact Hp'|exact E].
Qed.
Lemma coordinates_items : forall l c ms ds ld f,
  parse (W [S_coord; S_device] (Some c) ms ds ld) (D (Coords A [])) (flat_map (fun p => [Flt A (fst (fst p)); Flt A (snd (fst p)); Flt A (snd p); NL A]) l ++ f) =
  parse (W [S_coord; S_device] (Some {| co_name := co_name A c; co_coords := co_coords A c ++ l; co_regions := co_regions A c; co_contacts := co_contacts A c; co_interfaces := co_interfaces A c |}) ms ds ld)
    (D (Coords A [])) f.
Proof.
  induction l as [|[[x y] z] l IH]; intros c ms ds ld f; [cbn [flat_map app]; rewrite app_nil_r; destruct c; reflexivity|].
  cbn [flat_map app fst snd].
  erewrite parse_go; [| reflexivity | reflexivity]. erewrite parse_go; [| reflexivity | reflexivity]. erewrite parse_go; [| reflexivity | reflexivity].
  rewrite parse_nl by reflexivity. cbn [at_place]. etransitivity; [apply IH|]. cbn [co_coords]. rewrite <- app_assoc. reflexivity.
Qed.

(* ---------------------------------------------------------------- a device *)
Definition named (w : world A) (n : string) : world A :=
  {| w_stack := [S_device]; w_loader := w_loader A w; w_meshes := n :: w_meshes A w; w_devices := w_devices A w; w_loaded := w_loaded A w |}.
Lemma device_section : forall s ms ds ld q f,
  1 <= sv_dim A s <= 3 -> proper A s -> existsb (String.eqb (sv_name A s)) ms = false ->
  q = fresh A \/ (exists p, q = D p /\ p = Device A) ->
  parse (W [] None ms ds ld) q (write_device A s ++ f) =
  match finish A of_int run builtin (W [S_device] (Some (read A of_int s)) (sv_name A s :: ms) ds ld) [] (read A of_int s) (fresh A) with
  | inl e => e
  | inr (w', q') => parse w' q' (NL A :: NL A :: f)
  end.
Proof.
  intros s ms ds ld q f Hd [S1 [S2 [S3 [R1 [R2 R3]]]]] Hm Hq. unfold write_device. rewrite <- !app_assoc. cbn [app].
  assert (B1 : stp ms None q (TBeg A S_device) = Go A None (at_place A (Open A S_device S_device []) (fresh A))).
  { destruct Hq as [->|[p [-> ->]]]; reflexivity. }
  cbn [parse_file w_stack lex line_word opens find String.eqb Ascii.eqb Bool.eqb w_loader w_meshes w_devices w_loaded]. rewrite B1.
  cbn [parse_file w_stack lex w_loader w_meshes w_devices w_loaded].
  unfold step at 1. cbn [at_place q_place fresh app length words_of]. change (Nat.eqb 1 1) with true. cbn [enter nth]. rewrite Hm.
  cbn [co_name new_content]. cbn [in_command].
  fold (parse_file A of_int run builtin). fold parse.
  unfold write_coordinates, section. cbn [app]. rewrite <- app_assoc.
  etransitivity.
  { eapply (parse_go A of_int run builtin [S_device] (new_content A (sv_name A s)) (sv_name A s :: ms) ds ld); [reflexivity|]. reflexivity. }
  rewrite parse_nl by reflexivity. etransitivity; [apply coordinates_items|]. cbn [app].
  erewrite parse_go; [| reflexivity | reflexivity]. rewrite !parse_nl by reflexivity. cbn [co_coords new_content co_name co_regions co_contacts co_interfaces app].
  set (c0 := {| co_name := sv_name A s; co_coords := sv_coords A s; co_regions := []; co_contacts := []; co_interfaces := [] |}).
  match goal with |- parse (W _ (Some _) _ _ _) _ (_ ++ ?g) = _ => destruct (regions_section (sv_dim A s) (sv_regions A s) c0 (sv_name A s :: ms) ds ld (Coords A []) g) as [p1 [A1 E1]] end;
    [exact Hd | apply atdev_coords | exact R1 | apply Forall_forall; reflexivity | apply (sorted_NoDup _ S1) |].
  etransitivity; [exact E1|]. clear E1. set (c1 := all_regions _ c0).
  match goal with |- parse (W _ (Some _) _ _ _) _ (_ ++ ?g) = _ => destruct (contacts_section (sv_dim A s) (sv_contacts A s) c1 (sv_name A s :: ms) ds ld p1 g) as [p2 [A2 E2]] end;
    [exact Hd | exact A1 | exact R2 | apply Forall_forall; reflexivity | apply (sorted_NoDup _ S2) |].
  etransitivity; [exact E2|]. clear E2. set (c2 := all_contacts _ c1).
  match goal with |- parse (W _ (Some _) _ _ _) _ (_ ++ ?g) = _ => destruct (interfaces_section (sv_dim A s) (sv_interfaces A s) c2 (sv_name A s :: ms) ds ld p2 g) as [p3 [A3 E3]] end;
    [exact Hd | exact A2 | exact R3 | apply Forall_forall; reflexivity | apply (sorted_NoDup _ S3) |].
  etransitivity; [exact E3|]. clear E3. set (c3 := all_interfaces _ c2).
  assert (E : c3 = read A of_int s).
  { unfold c3, c2, c1, c0, all_interfaces, all_contacts, all_regions, read. cbn [co_name co_coords co_regions co_contacts co_interfaces]. f_equal.
    - apply puts_self, sorted_map with (f := fun p => region_read A of_int (sv_dim A s) (snd p)), S1.
    - apply puts_self, sorted_map with (f := fun p => contact_read A (sv_dim A s) (snd p)), S2.
    - apply puts_self, sorted_map with (f := fun p => interface_read A of_int (sv_dim A s) (snd p)), S3. }
  rewrite E. cbn [app parse_file w_stack lex w_loader w_meshes w_devices w_loaded].
  change (line_word A [S_device] "end_device") with (TEnd A S_device, @nil sec). cbn beta iota.
  rewrite A3; [|reflexivity|reflexivity]. cbn [device_token].
  reflexivity.
Qed.
End Read.

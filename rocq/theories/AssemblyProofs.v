From Coq Require Import String List Bool Arith Lia Reals Lra.
From Verif Require Import StrMap EqTable EqTableProofs Assembly.
Import ListNotations.
Open Scope R_scope.
Open Scope nat_scope.
Open Scope list_scope.

(* exact arithmetic *)
Definition rF : scalar R := mkSc R 0%R 1%R Rplus Rmult Ropp.

(* ---- finite sums -------------------------------------------------------------- *)
Fixpoint rsum {A} (f : A -> R) (l : list A) : R :=
  match l with nil => 0%R | a :: t => (f a + rsum f t)%R end.
Lemma rsum_app : forall {A} (f : A -> R) a b, rsum f (a ++ b) = (rsum f a + rsum f b)%R.
Proof. intros A f a b. induction a as [|x t IH]; cbn; [lra|rewrite IH; lra]. Qed.
Lemma rsum_ext : forall {A} (f g : A -> R) l, (forall a, In a l -> f a = g a) -> rsum f l = rsum g l.
Proof. intros A f g l. induction l as [|x t IH]; intros H; cbn; [reflexivity|]. rewrite (H x) by (left; reflexivity). rewrite IH; [reflexivity|]. intros; apply H; right; assumption. Qed.
Lemma rsum_plus : forall {A} (f g : A -> R) l, rsum (fun a => (f a + g a)%R) l = (rsum f l + rsum g l)%R.
Proof. intros A f g l. induction l as [|x t IH]; cbn; [lra|rewrite IH; lra]. Qed.
Lemma rsum_scal : forall {A} (c : R) (f : A -> R) l, rsum (fun a => (c * f a)%R) l = (c * rsum f l)%R.
Proof. intros A c f l. induction l as [|x t IH]; cbn; [lra|rewrite IH; lra]. Qed.
Lemma rsum_zero : forall {A} (f : A -> R) l, (forall a, In a l -> f a = 0%R) -> rsum f l = 0%R.
Proof. intros A f l. induction l as [|x t IH]; intros H; cbn; [reflexivity|]. rewrite (H x) by (left; reflexivity). rewrite IH; [lra|]. intros; apply H; right; assumption. Qed.
Lemma rsum_map : forall {A B} (g : A -> B) (f : B -> R) l, rsum f (map g l) = rsum (fun a => f (g a)) l.
Proof. intros A B g f l. induction l as [|x t IH]; cbn; [reflexivity|rewrite IH; reflexivity]. Qed.
Lemma rsum_flat_map : forall {A B} (g : A -> list B) (f : B -> R) l, rsum f (flat_map g l) = rsum (fun a => rsum f (g a)) l.
Proof. intros A B g f l. induction l as [|x t IH]; cbn; [reflexivity|]. rewrite rsum_app, IH. reflexivity. Qed.
Lemma rsum_deriv : forall {A} (f : A -> R -> R) (d : A -> R) l t, (forall a, In a l -> derivable_pt_lim (f a) t (d a)) ->
  derivable_pt_lim (fun u => rsum (fun a => f a u) l) t (rsum d l).
Proof.
  intros A f d l t. induction l as [|x r IH]; intros H; cbn; [apply derivable_pt_lim_const|].
  apply (derivable_pt_lim_plus (f x)); [apply H; left; reflexivity|]. apply IH. intros; apply H; right; assumption.
Qed.

(* ---- sums of loads --------------------------------------------------------------- *)
Definition ind (a b : nat) (x : R) : R := if a =? b then x else 0%R.
(* residual of a row; matrix entry *)
Definition row_sum (v : rhs_list R) (row : nat) : R := rsum (fun p => ind (fst p) row (snd p)) v.
Definition entry (m : mat_list R) (row col : nat) : R :=
  rsum (fun p => if ((fst (fst p) =? row) && (snd (fst p) =? col))%bool then snd p else 0%R) m.
Definition rhs_total (v : rhs_list R) : R := rsum snd v.

(* ---- C16 --------------------------------------------------------------------------- *)
Lemma couple_rhs_flux : forall r eq els q v, couple_rhs rF r eq els q (one rF) (minus_one rF) = Some v ->
  exists i0, row_index r eq = Some i0 /\
  v = flat_map (fun e => let '(k, n0, n1, _) := e in [(eqnum r i0 n0, q k); (eqnum r i0 n1, (- q k)%R)]) els /\
  rhs_total v = 0%R.
Proof.
  intros r eq els q v H. unfold couple_rhs in H. destruct (row_index r eq) as [i0|]; [|discriminate]. injection H as <-.
  exists i0. split; [reflexivity|].
  assert (E : flat_map (fun e => let '(k, n0, n1, _) := e in [(eqnum r i0 n0, s_mul rF (one rF) (q k)); (eqnum r i0 n1, s_mul rF (minus_one rF) (q k))]) els =
     flat_map (fun e => let '(k, n0, n1, _) := e in [(eqnum r i0 n0, q k); (eqnum r i0 n1, (- q k)%R)]) els).
  { apply flat_map_ext. intros [[[k n0] n1] o]. unfold one, minus_one. cbn. do 2 f_equal; [|f_equal]; f_equal; lra. }
  split; [exact E|]. refine (eq_trans (f_equal rhs_total E) _). unfold rhs_total. rewrite rsum_flat_map. apply rsum_zero.
  intros [[[k n0] n1] o] _. cbn. lra.
Qed.
Lemma couple_assemble_rhs : forall r eq els look sfx model couple s0 s1 m v,
  couple_assemble rF r eq els look sfx model couple s0 s1 = Some (m, v) ->
  exists ef ec, look model = Some ef /\ look couple = Some ec /\ couple_rhs rF r eq els (fun k => (ef k * ec k)%R) s0 s1 = Some v.
Proof.
  intros r eq els look sfx model couple s0 s1 m v H. unfold couple_assemble in H.
  destruct (look model) as [ef|]; [|discriminate]. destruct (look couple) as [ec|]; [|discriminate].
  exists ef, ec. split; [reflexivity|]. split; [reflexivity|].
  change (fun k : nat => s_mul rF (ef k) (ec k)) with (fun k => (ef k * ec k)%R) in H.
  destruct (couple_rhs rF r eq els (fun k => (ef k * ec k)%R) s0 s1) as [v'|]; [|discriminate].
  destruct (couple_jacobians _ _ _ _ _ _ _ _ _ _ _); [|discriminate]. injection H as _ <-. reflexivity.
Qed.
Lemma couple_rhs_total : forall r eq els q s0 s1 v, couple_rhs rF r eq els q s0 s1 = Some v ->
  rhs_total v = rsum (fun e => let '(k, _, _, _) := e in ((s0 + s1) * q k)%R) els.
Proof.
  intros r eq els q s0 s1 v H. unfold couple_rhs in H. destruct (row_index r eq) as [i0|]; [|discriminate]. injection H as <-.
  unfold rhs_total. rewrite rsum_flat_map. apply rsum_ext. intros [[[k n0] n1] o] _. cbn. lra.
Qed.
Lemma both_some : forall {S} (a b : loads S) m v, both a b = Some (m, v) ->
  exists m1 v1 m2 v2, a = Some (m1, v1) /\ b = Some (m2, v2) /\ m = (m1 ++ m2)%list /\ v = (v1 ++ v2)%list.
Proof.
  intros S a b m v H. unfold both in H. destruct a as [[m1 v1]|]; [|discriminate]. destruct b as [[m2 v2]|]; [|discriminate].
  injection H as <- <-. exists m1, v1, m2, v2. auto.
Qed.

(* totals of the volume terms of an equation *)
Definition val (st : store R) (s : string) (k : nat) : R := match st s with Some f => f k | None => 0%R end.
Definition positions (els : list elem) : list nat := map (fun e => fst (fst (fst e))) els.
Definition el_positions (g : mesh) : list nat :=
  match m_dim g with 2 => positions (tri_elems g) | 3 => positions (tet_elems g) | _ => [] end.
Definition source_total (r : region R) (b : body) : R :=
  let g := rg_geom r in
  ((if given (b_node b) then rsum (fun i => val (rg_node r) (g_nodevol g) i * val (rg_node r) (b_node b) i) (seq 0 (m_nodes (rg_mesh r))) else 0) +
   (if (given (b_edge b) && given (b_edgevol b))%bool then
      rsum (fun k => val (rg_edge r) (b_edgevol b) k * (val (rg_edge r) (g_edgevol0 g) k + val (rg_edge r) (g_edgevol1 g) k))
        (positions (edge_elems (rg_mesh r))) else 0) +
   (if (given (b_vol0 b) || given (b_vol1 b))%bool then
      rsum (fun k => val (rg_element r) (b_vol0 b) k * val (rg_element r) (g_elvol0 g) k +
                     val (rg_element r) (b_vol1 b) k * val (rg_element r) (g_elvol1 g) k)
        (el_positions (rg_mesh r)) else 0))%R.

Lemma couple_total : forall r eq els look sfx model couple s0 s1 m v,
  couple_assemble rF r eq els look sfx model couple s0 s1 = Some (m, v) ->
  rhs_total v = rsum (fun k => ((s0 + s1) * (val look model k * val look couple k))%R) (positions els).
Proof.
  intros r eq els look sfx model couple s0 s1 m v H. destruct (couple_assemble_rhs _ _ _ _ _ _ _ _ _ _ _ H) as (ef & ec & E1 & E2 & E3).
  rewrite (couple_rhs_total _ _ _ _ _ _ _ E3). unfold positions. rewrite rsum_map. apply rsum_ext.
  intros [[[k n0] n1] o] _. unfold val. rewrite E1, E2. reflexivity.
Qed.
Lemma rhs_total_app : forall a b, rhs_total (a ++ b) = (rhs_total a + rhs_total b)%R.
Proof. intros. apply rsum_app. Qed.
Lemma node_total : forall r eq model volume m v, node_volume_assemble rF r eq model volume = Some (m, v) ->
  rhs_total v = rsum (fun i => (val (rg_node r) volume i * val (rg_node r) model i)%R) (seq 0 (m_nodes (rg_mesh r))).
Proof.
  intros r eq model volume m v H. unfold node_volume_assemble in H.
  destruct (rg_node r model) as [nm|] eqn:E1; [|discriminate]. destruct (rg_node r volume) as [nv|] eqn:E2; [|discriminate].
  unfold node_assemble_rhs in H. destruct (row_index r eq) as [i0|]; [|discriminate].
  destruct (node_jacobians rF r eq model nv (variables r)); [|discriminate]. injection H as _ <-.
  unfold rhs_total. rewrite rsum_map. apply rsum_ext. intros i _. unfold val. rewrite E1, E2. reflexivity.
Qed.
Lemma both_total : forall a b m v, both a b = Some (m, v) -> exists m1 v1 m2 v2, a = Some (m1, v1) /\ b = Some (m2, v2) /\
  rhs_total v = (rhs_total v1 + rhs_total v2)%R.
Proof.
  intros a b m v H. destruct (both_some _ _ _ _ H) as (m1 & v1 & m2 & v2 & A & B & _ & ->). exists m1, v1, m2, v2.
  split; [exact A|]. split; [exact B|]. apply rhs_total_app.
Qed.
Lemma nothing_total : forall (m : mat_list R) v, nothing = Some (m, v) -> rhs_total v = 0%R.
Proof. intros m v H. injection H as _ <-. reflexivity. Qed.
Lemma element_total : forall r eq model couple s0 s1 m v, element_couple rF r eq model couple s0 s1 = Some (m, v) ->
  rhs_total v = rsum (fun k => ((s0 + s1) * (val (rg_element r) model k * val (rg_element r) couple k))%R) (el_positions (rg_mesh r)).
Proof.
  intros r eq model couple s0 s1 m v H. unfold element_couple in H. unfold el_positions.
  destruct (m_dim (rg_mesh r)) as [|[|[|[|n]]]]; try (apply nothing_total in H; exact H); eapply couple_total; exact H.
Qed.

Lemma c16_total_lemma : forall r eq b m v, equation_assemble rF r eq b DC = Some (m, v) -> rhs_total v = source_total r b.
Proof.
  intros r eq b m v H. cbn [equation_assemble] in H.
  destruct (both_total _ _ _ _ H) as (m1 & v1 & m2 & v2 & H1 & H2 & ->).
  destruct (both_total _ _ _ _ H2) as (m3 & v3 & m4 & v4 & H3 & H4 & ->).
  destruct (both_total _ _ _ _ H4) as (m5 & v5 & m6 & v6 & H5 & H6 & ->).
  unfold source_total.
  assert (T5 : rhs_total v5 = 0%R).
  { destruct (given (b_element b)); [|exact (nothing_total _ _ H5)]. unfold element_couple_assemble in H5.
    rewrite (element_total _ _ _ _ _ _ _ _ H5). apply rsum_zero. intros k _. unfold one, minus_one. cbn. lra. }
  assert (T3 : rhs_total v3 = (if given (b_node b) then rsum (fun i => (val (rg_node r) (g_nodevol (rg_geom r)) i * val (rg_node r) (b_node b) i)%R) (seq 0 (m_nodes (rg_mesh r))) else 0)%R).
  { destruct (given (b_node b)); [exact (node_total _ _ _ _ _ _ H3)|exact (nothing_total _ _ H3)]. }
  assert (T6 : rhs_total v6 = (if (given (b_vol0 b) || given (b_vol1 b))%bool then
      rsum (fun k => (val (rg_element r) (b_vol0 b) k * val (rg_element r) (g_elvol0 (rg_geom r)) k +
                     val (rg_element r) (b_vol1 b) k * val (rg_element r) (g_elvol1 (rg_geom r)) k)%R)
        (el_positions (rg_mesh r)) else 0)%R).
  { destruct (given (b_vol0 b) || given (b_vol1 b))%bool; [|exact (nothing_total _ _ H6)].
    unfold element_volume_assemble in H6.
    destruct (String.eqb_spec (g_elvol0 (rg_geom r)) (g_elvol1 (rg_geom r))) as [E1|E1]; cbn [andb] in H6.
    - destruct (String.eqb_spec (b_vol0 b) (b_vol1 b)) as [E2|E2].
      + rewrite (element_total _ _ _ _ _ _ _ _ H6). apply rsum_ext. intros k _. rewrite <- E1, <- E2. unfold one. cbn. lra.
      + destruct (both_total _ _ _ _ H6) as (? & ? & ? & ? & A & B & ->).
        rewrite (element_total _ _ _ _ _ _ _ _ A), (element_total _ _ _ _ _ _ _ _ B), <- rsum_plus. apply rsum_ext. intros k _. unfold one, zero. cbn. lra.
    - destruct (both_total _ _ _ _ H6) as (? & ? & ? & ? & A & B & ->).
      rewrite (element_total _ _ _ _ _ _ _ _ A), (element_total _ _ _ _ _ _ _ _ B), <- rsum_plus. apply rsum_ext. intros k _. unfold one, zero. cbn. lra. }
  assert (T1 : rhs_total v1 = (if (given (b_edge b) && given (b_edgevol b))%bool then
      rsum (fun k => (val (rg_edge r) (b_edgevol b) k * (val (rg_edge r) (g_edgevol0 (rg_geom r)) k + val (rg_edge r) (g_edgevol1 (rg_geom r)) k))%R)
        (positions (edge_elems (rg_mesh r))) else 0)%R).
  { destruct (given (b_edge b)); cbn [andb]; [|exact (nothing_total _ _ H1)].
    destruct (both_total _ _ _ _ H1) as (? & ? & ? & ? & A & B & ->).
    unfold edge_couple_assemble, edge_couple in A. rewrite (couple_total _ _ _ _ _ _ _ _ _ _ _ A).
    rewrite (rsum_zero _ (positions _)) by (intros k _; unfold one, minus_one; cbn; lra).
    destruct (given (b_edgevol b)); [|rewrite (nothing_total _ _ B); lra].
    unfold edge_volume_assemble, edge_couple in B.
    destruct (String.eqb_spec (g_edgevol0 (rg_geom r)) (g_edgevol1 (rg_geom r))) as [E1|E1].
    - rewrite (couple_total _ _ _ _ _ _ _ _ _ _ _ B), Rplus_0_l. apply rsum_ext. intros k _. rewrite <- E1. unfold one. cbn. lra.
    - destruct (both_total _ _ _ _ B) as (? & ? & ? & ? & A' & B' & ->).
      rewrite (couple_total _ _ _ _ _ _ _ _ _ _ _ A'), (couple_total _ _ _ _ _ _ _ _ _ _ _ B'), Rplus_0_l, <- rsum_plus. apply rsum_ext.
      intros k _. unfold one, zero. cbn. lra. }
  rewrite T1, T3, T5, T6. lra.
Qed.

(* ---- enumeration of the positions --------------------------------------------------- *)
Lemma from_nth : forall {A B} (f : nat -> A -> B) l i k, nth_error (from f i l) k = option_map (f (i + k)) (nth_error l k).
Proof.
  intros A B f l. induction l as [|a l IH]; intros i k; [destruct k; reflexivity|]. destruct k as [|k]; cbn.
  - rewrite Nat.add_0_r. reflexivity.
  - rewrite IH. replace (i + 1 + k) with (i + S k) by lia. reflexivity.
Qed.
Lemma from_length : forall {A B} (f : nat -> A -> B) l i, length (from f i l) = length l.
Proof. intros A B f l. induction l as [|a l IH]; intros i; cbn; [reflexivity|]. rewrite IH. reflexivity. Qed.
Lemma from_concat_nth : forall {A B} (f : nat -> A -> list B) w l i0 i j, (forall n a, In a l -> length (f n a) = w) -> j < w ->
  nth_error (concat (from f i0 l)) (w * i + j) = match nth_error l i with Some a => nth_error (f (i0 + i) a) j | None => None end.
Proof.
  intros A B f w l. induction l as [|a l IH]; intros i0 i j H J; cbn.
  - destruct i; destruct (w * _ + j); reflexivity.
  - assert (La : length (f i0 a) = w) by (apply H; left; reflexivity). destruct i as [|i]; cbn [nth_error].
    + rewrite Nat.mul_0_r, Nat.add_0_r. cbn. rewrite nth_error_app1 by lia. reflexivity.
    + rewrite nth_error_app2 by nia. rewrite La. replace (w * S i + j - w) with (w * i + j) by nia.
      rewrite IH; [|intros n b Hb; apply H; right; exact Hb|exact J]. replace (i0 + 1 + i) with (i0 + S i) by lia. reflexivity.
Qed.
Lemma positions_lemma : forall g,
  (forall k, nth_error (edge_elems g) k = option_map (fun e => (k, fst e, snd e, [])) (nth_error (m_edges g) k)) /\
  ((forall t, In t (m_tris g) -> length (snd t) = 3) -> forall i j, j < 3 ->
     nth_error (tri_elems g) (3 * i + j) =
     match nth_error (m_tris g) i with
     | Some t => match nth_error (snd t) j with Some e => Some (3 * i + j, fst e, snd e, [nth j (fst t) 0]) | None => None end
     | None => None end) /\
  ((forall t, In t (m_tets g) -> length t = 6) -> forall i j, j < 6 ->
     nth_error (tet_elems g) (6 * i + j) =
     match nth_error (m_tets g) i with
     | Some t => match nth_error t j with Some e => Some (6 * i + j, fst (fst e), snd (fst e), [fst (snd e); snd (snd e)]) | None => None end
     | None => None end).
Proof.
  intros g. split; [|split].
  - intros k. unfold edge_elems. rewrite from_nth. reflexivity.
  - intros H i j J. unfold tri_elems. rewrite (from_concat_nth _ 3); [|intros n a Ha; rewrite from_length; apply H, Ha|exact J].
    destruct (nth_error (m_tris g) i) as [t|]; [|reflexivity]. rewrite from_nth. destruct (nth_error (snd t) j); reflexivity.
  - intros H i j J. unfold tet_elems. rewrite (from_concat_nth _ 6); [|intros n a Ha; rewrite from_length; apply H, Ha|exact J].
    destruct (nth_error (m_tets g) i) as [t|]; [|reflexivity]. rewrite from_nth. destruct (nth_error t j); reflexivity.
Qed.

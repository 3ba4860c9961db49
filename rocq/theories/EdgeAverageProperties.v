(* C51: edge models computed from node models. *)
From Coq Require Import String List Bool Arith Lia Reals Lra.
From Verif Require Import StrMap Adjacency Geometry GeometrySpec Volume EdgeAverage EdgeAverageSpec.
Import ListNotations.
Open Scope R_scope.
Local Arguments Nat.ltb : simpl never.
Local Arguments Nat.eqb : simpl never.

Lemma opt_list_nth : forall A (f : simplex -> option A) l i e, (forall e, In e l -> f e <> None) -> nth_error l i = Some e ->
  exists v x, opt_list (map f l) = Some v /\ length v = length l /\ nth_error v i = Some x /\ f e = Some x.
Proof.
  intros A f. induction l as [|a l IH]; intros i e H E; [destruct i; discriminate|].
  assert (Q : exists v, opt_list (map f l) = Some v /\ length v = length l).
  { clear - H. assert (H' : forall e, In e l -> f e <> None) by (intros; apply H; right; assumption). clear H. induction l as [|b l IH]; [exists []; auto|].
    destruct IH as (v & E & L); [intros; apply H'; right; assumption|]. cbn. rewrite E. specialize (H' b (or_introl eq_refl)).
    destruct (f b) as [y|]; [|congruence]. exists (y :: v). cbn. auto. }
  pose proof (H a (or_introl eq_refl)) as Ha. destruct (f a) as [y|] eqn:Fa; [|congruence]. destruct i as [|i].
  - injection E as <-. destruct Q as (v & Ev & L). exists (y :: v), y. cbn. rewrite Fa, Ev, L. auto.
  - destruct (IH i e) as (v & x & Ev & L & Ex & Fe); [intros; apply H; right; assumption|exact E|]. exists (y :: v), x. cbn. rewrite Fa, Ev, L. auto.
Qed.

(* a region: its edges are pairs of nodes, its node models have a value for each node *)
Definition sane (r : region) : Prop :=
  sorted (r_node r) /\ sorted (r_edge r) /\
  (forall e, In e (r_edges r) -> exists h t, e = [h; t] /\ (h < length (r_pos r))%nat /\ (t < length (r_pos r))%nat) /\
  (forall n v, find n (r_node r) = Some v -> length v = length (r_pos r)).
Lemma sane_put : forall r n m, sane r -> sane (mkRegion (r_pos r) (r_edges r) (r_node r) (put n m (r_edge r))).
Proof. intros r n m (A & B & C & D). split; [exact A|]. split; [cbn; apply put_sorted; exact B|]. split; assumption. Qed.
Lemma add_ok : forall r n m r', sane r -> add_edge_model r n m = (r', true) ->
  r' = mkRegion (r_pos r) (r_edges r) (r_node r) (put n m (r_edge r)) /\ sane r'.
Proof. intros r n m r' S. unfold add_edge_model. destruct (_ && _); [discriminate|]. intros [= <-]. split; [reflexivity|apply sane_put; exact S]. Qed.
Lemma nth_ok : forall (v : list R) n k, length v = k -> (n < k)%nat -> nth_error v n = Some (nth n v 0).
Proof. intros v n k <- H. apply nth_error_nth'. exact H. Qed.

(* ---- values -------------------------------------------------------------------- *)
(* edge_from_node_model: the values of the node model at the two nodes of every edge. *)
Theorem C51_from_node : forall r r' nm v i h t, sane r -> edge_from_node r nm = (r', true) -> find nm (r_node r') = Some v ->
  nth_error (r_edges r') i = Some [h; t] ->
  exists v0 v1, values r' (nm ++ "@n0") = Some v0 /\ values r' (nm ++ "@n1") = Some v1 /\
    length v0 = length (r_edges r') /\ length v1 = length (r_edges r') /\
    nth_error v0 i = nth_error v h /\ nth_error v1 i = nth_error v t /\ (h < length v)%nat /\ (t < length v)%nat.
Proof.
  intros r r' nm v i h t S E F I. unfold edge_from_node in E. destruct (has nm (r_node r)); [|discriminate].
  destruct (add_edge_model r (nm ++ "@n0") (FromNode false nm)) as [r1 b] eqn:E1. destruct b; [|discriminate].
  destruct (add_ok _ _ _ _ S E1) as [H1 S1]. destruct (add_ok _ _ _ _ S1 E) as [H2 S2].
  assert (N : (nm ++ "@n0")%string <> (nm ++ "@n1")%string). { clear. induction nm as [|c s IH]; cbn; [discriminate|]. intros [= H]. contradiction. }
  pose proof S2 as (_ & _ & Ce & Cn). pose proof (nth_error_In _ _ I) as In1. destruct (Ce _ In1) as (h' & t' & [= <- <-] & Hh & Ht).
  assert (L := Cn nm v F). 
  assert (V0 : find (nm ++ "@n0") (r_edge r') = Some (FromNode false nm)).
  { subst r' r1. cbn. destruct S as (_ & Se & _). rewrite find_put by (apply put_sorted; exact Se).
    destruct (String.eqb_spec (nm ++ "@n0") (nm ++ "@n1")) as [X|_]; [contradiction|]. rewrite find_put by exact Se. rewrite String.eqb_refl. reflexivity. }
  assert (V1 : find (nm ++ "@n1") (r_edge r') = Some (FromNode true nm)).
  { subst r' r1. cbn. destruct S as (_ & Se & _). rewrite find_put by (apply put_sorted; exact Se). rewrite String.eqb_refl. reflexivity. }
  unfold values. rewrite V0, V1. cbn [edge_value]. rewrite F. unfold on_edges.
  destruct (opt_list_nth R (fun e => nth_error v (head e)) (r_edges r') i [h; t]) as (a & x & A1 & A2 & A3 & A4); [|exact I|].
  { intros e Ie. destruct (Ce e Ie) as (p & q & -> & P & Q). cbn. intros Z. apply nth_error_None in Z. lia. }
  destruct (opt_list_nth R (fun e => nth_error v (tail e)) (r_edges r') i [h; t]) as (b & y & B1 & B2 & B3 & B4); [|exact I|].
  { intros e Ie. destruct (Ce e Ie) as (p & q & -> & P & Q). cbn. intros Z. apply nth_error_None in Z. lia. }
  exists a, b. cbn [head tail nth] in A4, B4. rewrite A3, B3. repeat split; try assumption; try congruence; lia.
Qed.
Lemma type_names : forall ty t, type_of_name ty = Some t -> forall len a b,
  average_of ty len a b = match t with Arithmetic => (a + b) / 2 | Geometric => sqrt (a * b) | Gradient => (b - a) / len | NegGradient => (a - b) / len end.
Proof.
  intros ty t. unfold type_of_name, average_of. intros H len a b.
  destruct (String.eqb_spec "arithmetic" ty) as [<-|N1]; [injection H as <-; destruct (string_dec _ _); [reflexivity|congruence]|].
  destruct (string_dec ty "arithmetic"); [congruence|].
  destruct (String.eqb_spec "geometric" ty) as [<-|N2]; [injection H as <-; destruct (string_dec _ _); [reflexivity|congruence]|].
  destruct (string_dec ty "geometric"); [congruence|].
  destruct (String.eqb_spec "gradient" ty) as [<-|N3]; [injection H as <-; destruct (string_dec _ _); [reflexivity|congruence]|].
  destruct (string_dec ty "gradient"); [congruence|].
  destruct (String.eqb_spec "negative_gradient" ty) as [<-|N4]; [injection H as <-; reflexivity|discriminate].
Qed.
Lemma length_dist : forall pos h t, edge_length pos [h; t] = dist (nth h pos (mkvec 0 0 0)) (nth t pos (mkvec 0 0 0)).
Proof. intros. unfold edge_length, magnitude, dist, vsub, at_pos. cbn [nth vx vy vz]. f_equal. ring. Qed.
Lemma mean_spec : forall t len a b, mean t (1 / len) a b = match t with Arithmetic => (a + b) / 2 | Geometric => sqrt (a * b) | Gradient => (b - a) / len | NegGradient => (a - b) / len end.
Proof. intros [] len a b; cbn [mean]; unfold arithmetic, geometric, gradient, Rdiv; ring. Qed.
(* edge_average_model: the average of the values at the two nodes of every edge. *)
Theorem C51_average : forall r r' nm em ty v i h t, sane r -> edge_average r nm em ty "" = (r', true) -> find nm (r_node r') = Some v ->
  nth_error (r_edges r') i = Some [h; t] ->
  exists w a b, values r' em = Some w /\ length w = length (r_edges r') /\ nth_error v h = Some a /\ nth_error v t = Some b /\
    nth_error w i = Some (average_of ty (dist (nth h (r_pos r') (mkvec 0 0 0)) (nth t (r_pos r') (mkvec 0 0 0))) a b).
Proof.
  intros r r' nm em ty v i h t S E F I. unfold edge_average in E. destruct (has nm (r_node r)); [|discriminate]. cbn [negb andb String.eqb] in E.
  destruct (type_of_name ty) as [T|] eqn:ET; [|discriminate]. destruct (add_ok _ _ _ _ S E) as [H2 S2].
  pose proof S2 as (_ & _ & Ce & Cn). pose proof (nth_error_In _ _ I) as In1. destruct (Ce _ In1) as (h' & t' & [= <- <-] & Hh & Ht).
  assert (L := Cn nm v F).
  assert (V0 : find em (r_edge r') = Some (Average T nm)).
  { subst r'. cbn. destruct S as (_ & Se & _). rewrite find_put by exact Se. rewrite String.eqb_refl. reflexivity. }
  unfold values. rewrite V0. cbn [edge_value]. rewrite F. unfold on_edges.
  edestruct (opt_list_nth R) as (a & x & A1 & A2 & A3 & A4); [|exact I|].
  2: { exists a, (nth h v 0), (nth t v 0). split; [exact A1|]. split; [exact A2|]. rewrite !(nth_ok v _ _ L) by assumption. split; [reflexivity|]. split; [reflexivity|].
       rewrite A3. cbn beta in A4. cbn [head tail nth] in A4. rewrite !(nth_ok v _ _ L) in A4 by assumption. rewrite <- A4. f_equal.
       rewrite (type_names ty T ET), length_dist. apply mean_spec. }
  intros e Ie. destruct (Ce e Ie) as (p & q & -> & P & Q). cbn [head tail nth]. rewrite !(nth_ok v _ _ L) by assumption. discriminate.
Qed.

(* ---- derivatives ---------------------------------------------------------------- *)
Lemma mean_d_ok : forall t len (f g : R -> R) x y fd gd, derivable_pt_lim f x fd -> derivable_pt_lim g y gd -> (t = Geometric -> 0 < f x /\ 0 < g y) ->
  derivable_pt_lim (fun z => mean t (1 / len) (f z) (g y)) x (fst (mean_d t (1 / len) (f x) fd (g y) gd)) /\
  derivable_pt_lim (fun z => mean t (1 / len) (f x) (g z)) y (snd (mean_d t (1 / len) (f x) fd (g y) gd)).
Proof.
  intros t len f g x y fd gd Hf Hg P.
  assert (LIN : forall c k (h : R -> R) z d, derivable_pt_lim h z d -> derivable_pt_lim (fun w => c * h w + k) z (c * d)).
  { intros c k h z d Hh. replace (c * d) with (c * d + 0) by ring. apply (derivable_pt_lim_plus (fun w => c * h w) (fun _ => k) z (c * d) 0); [|apply derivable_pt_lim_const].
    apply (derivable_pt_lim_scal h c z d Hh). }
  assert (EXT : forall h k z d, (forall w, h w = k w) -> derivable_pt_lim h z d -> derivable_pt_lim k z d).
  { intros h k z d E H e He. destruct (H e He) as [dl D]. exists dl. intros w. rewrite <- !E. apply D. }
  assert (SQ : forall c (h : R -> R) z d, 0 < c -> 0 < h z -> derivable_pt_lim h z d -> derivable_pt_lim (fun w => sqrt (c * h w)) z (/ 2 * d * sqrt (c / h z))).
  { intros c h z d Hc Hz Hh.
    replace (/ 2 * d * sqrt (c / h z)) with (/ (2 * sqrt (c * h z)) * (c * d)).
    - apply (derivable_pt_lim_comp (fun w => c * h w) sqrt z (c * d) (/ (2 * sqrt (c * h z)))); [apply (derivable_pt_lim_scal h c z d Hh)|].
      apply derivable_pt_lim_sqrt. apply Rmult_lt_0_compat; assumption.
    - rewrite sqrt_div_alt by lra. rewrite sqrt_mult by lra. pose proof (sqrt_lt_R0 c Hc) as A. pose proof (sqrt_lt_R0 (h z) Hz) as B.
      assert (Q : c = sqrt c * sqrt c) by (symmetry; apply sqrt_sqrt; lra). rewrite Q at 2. field. split; lra. }
  destruct t; cbn [mean mean_d fst snd].
  - unfold arithmetic, arithmetic_d. cbn [fst snd]. split.
    + eapply EXT; [|apply (LIN (/ 2) (/ 2 * g y) f x fd Hf)]. intros w; cbn beta; ring.
    + eapply EXT; [|apply (LIN (/ 2) (/ 2 * f x) g y gd Hg)]. intros w; cbn beta; ring.
  - destruct (P eq_refl) as [Pf Pg]. unfold geometric, geometric_d. cbn [fst snd]. split.
    + eapply EXT; [|apply (SQ (g y) f x fd Pg Pf Hf)]. intros w; cbn beta. f_equal. ring.
    + replace (/ 2 * gd / sqrt (g y / f x)) with (/ 2 * gd * sqrt (f x / g y)); [apply (SQ (f x) g y gd Pf Pg Hg)|].
      unfold Rdiv at 2. f_equal. rewrite <- sqrt_inv. f_equal. field. split; lra.
  - unfold gradient, gradient_d. cbn [fst snd]. split.
    + eapply EXT; [|apply (LIN (- (1 * (1 / len))) (1 * (1 / len) * g y) f x fd Hf)]. intros w; cbn beta; ring.
    + eapply EXT; [|apply (LIN (1 * (1 / len)) (- (1 * (1 / len) * f x)) g y gd Hg)]. intros w; cbn beta; ring.
  - unfold gradient, gradient_d. cbn [fst snd]. split.
    + eapply EXT; [|apply (LIN (- (- 1 * (1 / len))) (- 1 * (1 / len) * g y) f x fd Hf)]. intros w; cbn beta; ring.
    + eapply EXT; [|apply (LIN (- 1 * (1 / len)) (- (- 1 * (1 / len) * f x)) g y gd Hg)]. intros w; cbn beta; ring.
Qed.

(* The node model nm has the values f n (u n), where u n is the value of the variable var at node n. *)
Record node_function (r : region) (nm var : string) (f : nat -> R -> R) (u : nat -> R) : Prop := {
  nf_value : exists v, find nm (r_node r) = Some v /\ forall n, (n < length (r_pos r))%nat -> nth_error v n = Some (f n (u n));
  (* the node model is the variable itself, or there is a node model with its derivative *)
  nf_same : var = nm -> forall n x, f n x = x;
  nf_derivative : var <> nm -> exists d, find (nm ++ ":" ++ var) (r_node r) = Some d /\
    forall n, (n < length (r_pos r))%nat -> exists y, nth_error d n = Some y /\ derivable_pt_lim (f n) (u n) y }.

Lemma sfx : forall s a b, (s ++ a)%string = (s ++ b)%string -> a = b.
Proof. induction s as [|c s IH]; cbn; intros a b H; [exact H|]. injection H as H. apply IH, H. Qed.
(* The models em:var@n0 and em:var@n1 are the partial derivatives of the average on the edge with respect to the value
   of the variable at its first and second node. *)
Theorem C51_derivative_partial : forall r r' nm em ty var f u i h t, sane r -> var <> ""%string -> edge_average r nm em ty var = (r', true) ->
  node_function r' nm var f u -> (ty = "geometric"%string -> forall n, (n < length (r_pos r'))%nat -> 0 < f n (u n)) ->
  nth_error (r_edges r') i = Some [h; t] -> h <> t ->
  let len := dist (nth h (r_pos r') (mkvec 0 0 0)) (nth t (r_pos r') (mkvec 0 0 0)) in
  let value w := average_of ty len (f h (w h)) (f t (w t)) in
  exists v0 v1 d0 d1, values r' (em ++ ":" ++ var ++ "@n0") = Some v0 /\ values r' (em ++ ":" ++ var ++ "@n1") = Some v1 /\
    length v0 = length (r_edges r') /\ length v1 = length (r_edges r') /\ nth_error v0 i = Some d0 /\ nth_error v1 i = Some d1 /\
    derivable_pt_lim (fun x => value (with_value u h x)) (u h) d0 /\
    derivable_pt_lim (fun x => value (with_value u t x)) (u t) d1.
Proof.
  intros r r' nm em ty var f u i h t S NV E NF PO I HT. cbv zeta. unfold edge_average in E. destruct (has nm (r_node r)); [|discriminate]. cbn [negb andb] in E.
  destruct (String.eqb_spec var "") as [->|_]; [congruence|]. cbn [negb andb] in E. destruct (has var (r_node r)); [|discriminate]. cbn [negb] in E.
  destruct (type_of_name ty) as [T|] eqn:ET; [|discriminate]. set (dm := if String.eqb var nm then None else Some (nm ++ ":" ++ var)%string) in *.
  destruct (add_edge_model r (em ++ ":" ++ var ++ "@n0") (Deriv false T nm dm)) as [r1 b] eqn:E1. destruct b; [|discriminate].
  destruct (add_edge_model r1 (em ++ ":" ++ var ++ "@n1") (Deriv true T nm dm)) as [r2 b] eqn:E2. destruct b; [|discriminate].
  assert (r2 = r') by congruence. subst r2.
  destruct (add_ok _ _ _ _ S E1) as [H1 S1]. destruct (add_ok _ _ _ _ S1 E2) as [H2 S2].
  assert (N : (em ++ ":" ++ var ++ "@n0")%string <> (em ++ ":" ++ var ++ "@n1")%string). { intros X. apply sfx, sfx, sfx in X. discriminate. }
  pose proof S2 as (_ & _ & Ce & Cn). pose proof (nth_error_In _ _ I) as In1. destruct (Ce _ In1) as (h' & t' & [= <- <-] & Hh & Ht).
  destruct NF as [(v & Fv & Vv) SAME DER]. assert (L := Cn nm v Fv).
  assert (V0 : find (em ++ ":" ++ var ++ "@n0") (r_edge r') = Some (Deriv false T nm dm)).
  { rewrite H2, H1. cbn [r_edge]. destruct S as (_ & Se & _). rewrite find_put by (apply put_sorted; exact Se).
    destruct (String.eqb_spec (em ++ ":" ++ var ++ "@n0") (em ++ ":" ++ var ++ "@n1")) as [X|_]; [contradiction|]. rewrite find_put by exact Se. rewrite String.eqb_refl. reflexivity. }
  assert (V1 : find (em ++ ":" ++ var ++ "@n1") (r_edge r') = Some (Deriv true T nm dm)).
  { rewrite H2, H1. cbn [r_edge]. destruct S as (_ & Se & _). rewrite find_put by (apply put_sorted; exact Se). rewrite String.eqb_refl. reflexivity. }
  set (len := dist (nth h (r_pos r') (mkvec 0 0 0)) (nth t (r_pos r') (mkvec 0 0 0))).
  assert (AV : forall a b, average_of ty len a b = mean T (1 / len) a b). { intros. rewrite mean_spec. apply type_names. exact ET. }
  assert (W1 : forall x, average_of ty len (f h (with_value u h x h)) (f t (with_value u h x t)) = mean T (1 / len) (f h x) (f t (u t))).
  { intros x. rewrite AV. unfold with_value. rewrite Nat.eqb_refl. rewrite (proj2 (Nat.eqb_neq t h)) by lia. reflexivity. }
  assert (W2 : forall x, average_of ty len (f h (with_value u t x h)) (f t (with_value u t x t)) = mean T (1 / len) (f h (u h)) (f t x)).
  { intros x. rewrite AV. unfold with_value. rewrite Nat.eqb_refl. rewrite (proj2 (Nat.eqb_neq h t)) by lia. reflexivity. }
  assert (EXT : forall h k z d, (forall w, h w = k w) -> derivable_pt_lim k z d -> derivable_pt_lim h z d).
  { intros h0 k z d E0 H e He. destruct (H e He) as [dl D]. exists dl. intros w. rewrite !E0. apply D. }
  assert (PT : T = Geometric -> 0 < f h (u h) /\ 0 < f t (u t)).
  { intros ->. assert (ty = "geometric"%string).
    { unfold type_of_name in ET. destruct (String.eqb "arithmetic" ty); [discriminate|]. destruct (String.eqb_spec "geometric" ty) as [Q|_]; [auto|].
      destruct (String.eqb "gradient" ty); [discriminate|]. destruct (String.eqb "negative_gradient" ty); discriminate. }
    split; apply PO; assumption. }
  assert (FIN : forall fd gd v0 v1, derivable_pt_lim (f h) (u h) fd -> derivable_pt_lim (f t) (u t) gd ->
    values r' (em ++ ":" ++ var ++ "@n0") = Some v0 -> values r' (em ++ ":" ++ var ++ "@n1") = Some v1 -> length v0 = length (r_edges r') -> length v1 = length (r_edges r') ->
    nth_error v0 i = Some (fst (mean_d T (1 / len) (f h (u h)) fd (f t (u t)) gd)) -> nth_error v1 i = Some (snd (mean_d T (1 / len) (f h (u h)) fd (f t (u t)) gd)) ->
    exists v0 v1 d0 d1, values r' (em ++ ":" ++ var ++ "@n0") = Some v0 /\ values r' (em ++ ":" ++ var ++ "@n1") = Some v1 /\
    length v0 = length (r_edges r') /\ length v1 = length (r_edges r') /\ nth_error v0 i = Some d0 /\ nth_error v1 i = Some d1 /\
    derivable_pt_lim (fun x => average_of ty len (f h (with_value u h x h)) (f t (with_value u h x t))) (u h) d0 /\
    derivable_pt_lim (fun x => average_of ty len (f h (with_value u t x h)) (f t (with_value u t x t))) (u t) d1).
  { intros fd gd v0 v1 Df Dg A B C D X Y. destruct (mean_d_ok T len (f h) (f t) (u h) (u t) fd gd Df Dg PT) as [M1 M2].
    exists v0, v1. do 2 eexists. split; [exact A|]. split; [exact B|]. split; [exact C|]. split; [exact D|]. split; [exact X|]. split; [exact Y|].
    split; [apply (EXT _ _ _ _ W1 M1)|apply (EXT _ _ _ _ W2 M2)]. }
  assert (ID : forall g x, (forall z, g z = z) -> derivable_pt_lim g x 1). { intros g x G. eapply EXT; [exact G|]. apply derivable_pt_lim_id. }
  unfold values in FIN |- *. rewrite V0, V1 in FIN |- *. cbn [edge_value] in FIN |- *. rewrite Fv in FIN |- *. unfold on_edges in FIN |- *.
  destruct (String.eqb_spec var nm) as [EQ|NE]; subst dm; cbv match in FIN |- *.
  - edestruct (opt_list_nth R) as (v0 & x0 & A1 & A2 & A3 & A4); [|exact I|]; [|edestruct (opt_list_nth R) as (v1 & x1 & B1 & B2 & B3 & B4); [|exact I|]].
    3: { apply (FIN 1 1 v0 v1 (ID _ _ (SAME EQ h)) (ID _ _ (SAME EQ t)) A1 B1 A2 B2).
         - rewrite A3. cbn beta in A4. cbn [head tail nth] in A4. rewrite !Vv in A4 by assumption. rewrite length_dist in A4. symmetry; exact A4.
         - rewrite B3. cbn beta in B4. cbn [head tail nth] in B4. rewrite !Vv in B4 by assumption. rewrite length_dist in B4. symmetry; exact B4. }
    + intros e Ie. destruct (Ce e Ie) as (p & q & -> & P & Q). cbn [head tail nth]. rewrite !Vv by assumption. discriminate.
    + intros e Ie. destruct (Ce e Ie) as (p & q & -> & P & Q). cbn [head tail nth]. rewrite !Vv by assumption. discriminate.
  - destruct (DER NE) as (w & Fw & Vw). rewrite Fw in FIN |- *. destruct (Vw h Hh) as (fd & Fh & Dh). destruct (Vw t Ht) as (gd & Ft & Dt).
    edestruct (opt_list_nth R) as (v0 & x0 & A1 & A2 & A3 & A4); [|exact I|]; [|edestruct (opt_list_nth R) as (v1 & x1 & B1 & B2 & B3 & B4); [|exact I|]].
    3: { apply (FIN fd gd v0 v1 Dh Dt A1 B1 A2 B2).
         - rewrite A3. cbn beta in A4. cbn [head tail nth] in A4. rewrite !Vv in A4 by assumption. rewrite Fh, Ft, length_dist in A4. symmetry; exact A4.
         - rewrite B3. cbn beta in B4. cbn [head tail nth] in B4. rewrite !Vv in B4 by assumption. rewrite Fh, Ft, length_dist in B4. symmetry; exact B4. }
    + intros e Ie. destruct (Ce e Ie) as (p & q & -> & P & Q). cbn [head tail nth]. rewrite !Vv by assumption. destruct (Vw p P) as (? & -> & _). destruct (Vw q Q) as (? & -> & _). discriminate.
    + intros e Ie. destruct (Ce e Ie) as (p & q & -> & P & Q). cbn [head tail nth]. rewrite !Vv by assumption. destruct (Vw p P) as (? & -> & _). destruct (Vw q Q) as (? & -> & _). discriminate.
Qed.

(* ---- a case, and what is missing -------------------------------------------------- *)
(* n = u^2 *)
Definition ex_r : region := mkRegion [mkvec 0 0 0; mkvec 2 0 0] [[0; 1]%nat] [("n", [1; 4]); ("n:u", [2; 4]); ("u", [1; 2])]%string [].
Lemma ex_sane : forall p v m, m = [("n", [v; v])]%string \/ (exists a b c d e, m = [("n", [v; a]); ("n:u", [b; c]); ("u", [d; e])]%string) -> forall s, sorted s -> sane (mkRegion [mkvec 0 0 0; p] [[0; 1]%nat] m s).
Proof.
  intros p v m M s Hs. split; [destruct M as [->|(a & b & c & d & e & ->)]; unfold sorted, keys; cbn; repeat constructor|]. split; [exact Hs|]. split.
  - intros e [<-|[]]. exists 0%nat, 1%nat. cbn. auto.
  - intros n w F. apply find_In in F. destruct M as [->|(a & b & c & d & e & ->)]; cbn in F; repeat (destruct F as [F|F]; [injection F as <- <-; reflexivity|]); destruct F.
Qed.
Example C51_case : exists r', sane ex_r /\ edge_average ex_r "n" "e" "geometric" "u" = (r', true) /\
  node_function r' "n" "u" (fun _ x => x * x) (fun n => if Nat.eqb n 0 then 1 else 2) /\
  nth_error (r_edges r') 0 = Some [0; 1]%nat /\ edge_average r' "n" "e" "gradient" "" = (mkRegion (r_pos r') (r_edges r') (r_node r') (put "e" (Average Gradient "n") (r_edge r')), true).
Proof.
  eexists. split; [apply (ex_sane _ 1); [right; repeat eexists|constructor]|]. split; [reflexivity|]. split.
  - constructor.
    + exists [1; 4]. split; [reflexivity|]. intros [|[|n]] H; [cbn [nth_error]; f_equal; cbv [Nat.eqb]; ring..|cbn in H; lia].
    + discriminate.
    + intros _. exists [2; 4]. split; [reflexivity|]. intros n H.
      assert (D : forall x, derivable_pt_lim (fun x => x * x) x (2 * x)).
      { intros x. replace (2 * x) with (1 * x + x * 1) by ring. apply (derivable_pt_lim_mult id id x 1 1); apply derivable_pt_lim_id. }
      destruct n as [|[|n]]; cbn in H; [| |lia]; cbn [nth_error]; cbv [Nat.eqb].
      * exists 2. split; [reflexivity|]. replace 2 with (2 * 1) by ring. apply D.
      * exists 4. split; [reflexivity|]. replace 4 with (2 * 2) by ring. apply D.
  - split; reflexivity.
Qed.
(* The geometric mean of two negative numbers: the derivative model has the wrong sign. *)
Theorem C51_negative_geometric_refuted : exists r r' u d0, sane r /\ edge_average r "n" "e" "geometric" "n" = (r', true) /\
  node_function r' "n" "n" (fun _ x => x) u /\ nth_error (r_edges r') 0 = Some [0; 1]%nat /\
  values r' "e:n@n0" = Some [d0] /\
  forall d, derivable_pt_lim (fun x => average_of "geometric" (dist (nth 0 (r_pos r') (mkvec 0 0 0)) (nth 1 (r_pos r') (mkvec 0 0 0))) (with_value u 0 x 0%nat) (with_value u 0 x 1%nat)) (u 0%nat) d -> d < 0 < d0.
Proof.
  exists (mkRegion [mkvec 0 0 0; mkvec 2 0 0] [[0; 1]%nat] [("n", [- 1; - 1])]%string []). eexists. exists (fun _ => - 1). exists (/ 2).
  split; [apply (ex_sane _ (- 1)); [left; reflexivity|constructor]|]. split; [reflexivity|]. split.
  { constructor; [|reflexivity|congruence]. exists [- 1; - 1]. split; [reflexivity|]. intros [|[|n]] H; [reflexivity..|cbn in H; lia]. }
  split; [reflexivity|]. split.
  { unfold values. cbn [r_edge find]. cbn -[mean_d edge_length]. unfold mean_d, geometric_d. cbn [fst]. do 2 f_equal. replace (- 1 / - 1) with 1 by field. rewrite sqrt_1. field. }
  intros d H. replace d with (- / 2); [lra|]. 
  apply (uniqueness_limite (fun x => average_of "geometric" (dist (nth 0 [mkvec 0 0 0; mkvec 2 0 0] (mkvec 0 0 0)) (nth 1 [mkvec 0 0 0; mkvec 2 0 0] (mkvec 0 0 0))) (with_value (fun _ => - 1) 0 x 0%nat) (with_value (fun _ => - 1) 0 x 1%nat)) (- 1)); [|exact H].
  assert (D : derivable_pt_lim (fun x => sqrt (- 1 * x)) (- 1) (/ (2 * sqrt (- 1 * - 1)) * (- 1 * 1))).
  { apply (derivable_pt_lim_comp (fun w => - 1 * w) sqrt (- 1) (- 1 * 1) (/ (2 * sqrt (- 1 * - 1)))); [apply (derivable_pt_lim_scal id (- 1) (- 1) 1), derivable_pt_lim_id|]. apply derivable_pt_lim_sqrt. lra. }
  replace (- 1 * - 1) with 1 in D by ring. rewrite sqrt_1 in D. replace (- / 2) with (/ (2 * 1) * (- 1 * 1)) by field.
  intros eps He. destruct (D eps He) as [dl Dl]. exists dl. intros w Hw Hd. specialize (Dl w Hw Hd).
  assert (Q : forall x, average_of "geometric" (dist (nth 0 [mkvec 0 0 0; mkvec 2 0 0] (mkvec 0 0 0)) (nth 1 [mkvec 0 0 0; mkvec 2 0 0] (mkvec 0 0 0))) (with_value (fun _ => - 1) 0 x 0%nat) (with_value (fun _ => - 1) 0 x 1%nat) = sqrt (- 1 * x)).
  { intros x. change (sqrt (x * - 1) = sqrt (- 1 * x)). f_equal. ring. }
  rewrite !Q. exact Dl.
Qed.
(* A command that fails for want of a derivative has replaced the models of the same names, which cannot be evaluated any more. *)
Theorem C51_failed_command_refuted : exists r r', sane r /\ edge_average r "n" "e" "arithmetic" "u" = (r', false) /\
  values r "e:u@n0" = Some [7] /\ values r "e:u@n1" = Some [8] /\ values r' "e:u@n0" = None /\ values r' "e:u@n1" = None.
Proof.
  exists (mkRegion [mkvec 0 0 0; mkvec 2 0 0] [[0; 1]%nat] [("n", [1; 1]); ("u", [1; 1])]%string [("e:u@n0", Other [7]); ("e:u@n1", Other [8])]%string).
  eexists. split.
  { split; [unfold sorted, keys; cbn; repeat constructor|]. split; [unfold sorted, keys; cbn; repeat constructor|]. split.
    - intros e [<-|[]]. exists 0%nat, 1%nat. cbn. auto.
    - intros n w F. apply find_In in F. cbn in F. repeat (destruct F as [F|F]; [injection F as <- <-; reflexivity|]). destruct F. }
  repeat split.
Qed.
(* Every other failure leaves the region as it was. *)
Theorem C51_rejected : forall r nm em ty var r', edge_average r nm em ty var = (r', false) ->
  find nm (r_node r) = None \/ (var <> ""%string /\ find var (r_node r) = None) \/ ~ In ty ["arithmetic"; "geometric"; "gradient"; "negative_gradient"]%string ->
  r' = r.
Proof.
  intros r nm em ty var r' E C. unfold edge_average in E. unfold has in E. destruct (find nm (r_node r)) as [v|] eqn:F1; [|cbn in E; congruence].
  cbn [negb] in E. destruct (String.eqb_spec var "") as [->|NV]; cbn [negb andb] in E.
  - destruct (type_of_name ty) as [t|] eqn:ET; [|congruence]. exfalso. destruct C as [C|[[C _]|C]]; [congruence|congruence|]. apply C. unfold type_of_name in ET. cbn [In].
    destruct (String.eqb_spec "arithmetic" ty); [auto|]. destruct (String.eqb_spec "geometric" ty); [auto|]. destruct (String.eqb_spec "gradient" ty); [auto|]. destruct (String.eqb_spec "negative_gradient" ty); [auto 6|discriminate].
  - destruct (find var (r_node r)) as [w|] eqn:F2; cbn [negb] in E; [|congruence]. destruct (type_of_name ty) as [t|] eqn:ET; [|congruence].
    exfalso. destruct C as [C|[[_ C]|C]]; [congruence|congruence|]. apply C. unfold type_of_name in ET. cbn [In].
    destruct (String.eqb_spec "arithmetic" ty); [auto|]. destruct (String.eqb_spec "geometric" ty); [auto|]. destruct (String.eqb_spec "gradient" ty); [auto|]. destruct (String.eqb_spec "negative_gradient" ty); [auto 6|discriminate].
Qed.
Print Assumptions C51_from_node.
Print Assumptions C51_average.
Print Assumptions C51_derivative_partial.
Print Assumptions C51_case.
Print Assumptions C51_negative_geometric_refuted.
Print Assumptions C51_failed_command_refuted.
Print Assumptions C51_rejected.

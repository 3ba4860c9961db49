(* The regions, contacts and interfaces of a two dimensional mesh *)
From Coq Require Import String List Bool Arith Lia Reals Lra Sorting.Sorted Sorting.Permutation.
From Verif Require Import StrMap MeshLine MeshLineProofs Mesh2 Mesh2Spec Mesh2Grid.
Import ListNotations.
Open Scope R_scope.

(* ---- nodes ---- *)
Lemma place_Some : forall c l n, place c l = Some n -> nth_error l n = Some c.
Proof.
  intros c. induction l as [|a l IH]; intros n H; [discriminate|]. cbn [place] in H. destruct (Nat.eqb_spec a c) as [->|N]; [injection H as <-; reflexivity|].
  destruct (place c l) as [k|]; [|discriminate]. injection H as <-. cbn [nth_error]. now apply IH.
Qed.
Lemma place_None : forall c l, place c l = None <-> ~ In c l.
Proof.
  intros c. induction l as [|a l IH]; [split; [intros _ []|reflexivity]|]. cbn [place In]. destruct (Nat.eqb_spec a c) as [->|N].
  - split; [discriminate|]. intros H. exfalso. apply H. now left.
  - destruct (place c l) as [k|] eqn:E; split; try discriminate; try reflexivity.
    + intros H. exfalso. apply H. right. destruct (in_dec Nat.eq_dec c l) as [I|I]; [exact I|]. apply IH in I. discriminate.
    + intros _ [A|A]; [contradiction|]. now apply IH.
Qed.
Lemma place_In : forall c l, In c l <-> exists n, place c l = Some n.
Proof.
  intros c l. split.
  - intros I. destruct (place c l) as [n|] eqn:E; [eauto|]. apply place_None in E. contradiction.
  - intros [n H]. apply place_Some in H. now apply nth_error_In in H.
Qed.
Lemma place_nth : forall l n c, NoDup l -> nth_error l n = Some c -> place c l = Some n.
Proof.
  intros l n c N H. destruct (proj1 (place_In c l) (nth_error_In _ _ H)) as [m E]. rewrite E. f_equal. apply place_Some in E.
  rewrite NoDup_nth_error in N. apply N; [apply nth_error_Some; congruence|congruence].
Qed.
Lemma add_node_In : forall c l x, In x (add_node c l) <-> x = c \/ In x l.
Proof.
  intros c l x. unfold add_node. destruct (place c l) as [n|] eqn:E.
  - split; [auto|]. intros [->|I]; [|exact I]. apply place_In. eauto.
  - rewrite in_app_iff. cbn. intuition congruence.
Qed.
Lemma add_node_NoDup : forall c l, NoDup l -> NoDup (add_node c l).
Proof.
  intros c l N. unfold add_node. destruct (place c l) as [n|] eqn:E; [exact N|]. apply place_None in E.
  apply (Permutation_NoDup (l := c :: l)); [|now constructor]. apply Permutation_cons_append.
Qed.
Lemma add_node_ext : forall c l, exists l', add_node c l = (l ++ l')%list.
Proof. intros c l. unfold add_node. destruct (place c l); [exists []; now rewrite app_nil_r|eauto]. Qed.
Lemma node_at_nth : forall c l, In c l -> nth_error l (node_at c l) = Some c.
Proof. intros c l I. apply place_In in I. destruct I as [n E]. unfold node_at. rewrite E. now apply place_Some. Qed.

(* ---- one more triangle ---- *)
Lemma corners_triangle : forall i j k, Permutation (corners (triangle i j k)) [i; j; k].
Proof. intros i j k. destruct (sorted3 i j k) as (a & b & c & E & P). rewrite E. cbn [corners]. now apply Permutation_sym. Qed.
Lemma edge_In : forall a b i j, i <> j -> (a, b) = edge i j <-> (a < b)%nat /\ ((a = i /\ b = j) \/ (a = j /\ b = i)).
Proof.
  intros a b i j N. unfold edge. destruct (Nat.ltb_spec j i) as [L|L]; split.
  - intros [= -> ->]. split; [exact L|now right].
  - intros [H [[-> ->]|[-> ->]]]; [lia|reflexivity].
  - intros [= -> ->]. split; [lia|now left].
  - intros [H [[-> ->]|[-> ->]]]; [reflexivity|lia].
Qed.
Lemma edges_In : forall n0 n1 n2 a b, n0 <> n1 -> n1 <> n2 -> n0 <> n2 ->
  In (a, b) [edge n0 n1; edge n1 n2; edge n2 n0] <-> (a < b)%nat /\ In a [n0; n1; n2] /\ In b [n0; n1; n2].
Proof.
  intros n0 n1 n2 a b H1 H2 H3. cbn [In]. split.
  - intros [E|[E|[E|[]]]]; symmetry in E; apply edge_In in E; try congruence; destruct E as (L & [[-> ->]|[-> ->]]); (split; [exact L|]); split; auto.
  - intros (L & [<-|[<-|[<-|[]]]] & [<-|[<-|[<-|[]]]]); try (exfalso; exact (Nat.lt_irrefl _ L));
      [left|right; right; left|left|right; left|right; right; left|right; left]; symmetry; apply edge_In; try congruence; split; auto.
Qed.
Lemma covers_step : forall r ts g, covers r ts -> NoDup (corners g) -> covers (add_triangle r g) (ts ++ [g])%list.
Proof.
  intros r ts [[i j] k] [N F U E] D. unfold add_triangle.
  set (ns := add_node k (add_node j (add_node i (rm_nodes r)))).
  assert (In_ns : forall x, In x ns <-> In x [i; j; k] \/ In x (rm_nodes r)).
  { intros x. unfold ns. rewrite !add_node_In. cbn. intuition congruence. }
  assert (Nns : NoDup ns) by (unfold ns; now repeat apply add_node_NoDup).
  assert (Ext : exists l', ns = (rm_nodes r ++ l')%list).
  { unfold ns. destruct (add_node_ext i (rm_nodes r)) as [l1 E1]. rewrite E1. destruct (add_node_ext j (rm_nodes r ++ l1)) as [l2 E2]. rewrite E2.
    destruct (add_node_ext k ((rm_nodes r ++ l1) ++ l2)) as [l3 E3]. rewrite E3. rewrite <- !app_assoc. eauto. }
  assert (Pi : nth_error ns (node_at i ns) = Some i) by (apply node_at_nth, In_ns; left; cbn; auto).
  assert (Pj : nth_error ns (node_at j ns) = Some j) by (apply node_at_nth, In_ns; left; cbn; auto).
  assert (Pk : nth_error ns (node_at k ns) = Some k) by (apply node_at_nth, In_ns; left; cbn; auto).
  clearbody ns. set (n0 := node_at i ns) in *. set (n1 := node_at j ns) in *. set (n2 := node_at k ns) in *. clearbody n0 n1 n2.
  cbn [corners] in D. assert (Dn : i <> j /\ j <> k /\ i <> k).
  { inversion D as [|? ? D1 D2]; subst. inversion D2 as [|? ? D3 _]; subst. cbn in D1, D3. split; [|split]; intros ->; tauto. }
  destruct Dn as (D1 & D2 & D3).
  constructor; cbn [rm_nodes rm_edges rm_triangles].
  - exact Nns.
  - apply Forall2_app.
    + clear U E. induction F as [|t g r' ts H F IH]; constructor; [|exact IH].
      assert (X : map (fun n => nth_error ns n) (corners t) = map (fun n => nth_error (rm_nodes r) n) (corners t)); [|rewrite X; exact H].
      apply map_ext_in. intros n I. destruct Ext as [l' ->].
      assert (I' : In (nth_error (rm_nodes r) n) (map Some (corners g))) by (apply (Permutation_in _ H), in_map_iff; eauto).
      apply in_map_iff in I'. destruct I' as (x & Hx & _). rewrite nth_error_app1; [reflexivity|]. apply nth_error_Some. congruence.
    + constructor; [|constructor]. transitivity (map (fun n => nth_error ns n) [n0; n1; n2]); [apply Permutation_map, corners_triangle|].
      cbn [map corners]. rewrite Pi, Pj, Pk. reflexivity.
  - intros x. rewrite In_ns, U. split.
    + intros [H|(g & H & I)]; [exists (i, j, k); split; [apply in_or_app; right; now left|exact H]|exists g; split; [apply in_or_app; now left|exact I]].
    + intros (g & H & I). apply in_app_or in H. destruct H as [H|[<-|[]]]; [right; eauto|now left].
  - intros a b. rewrite in_app_iff, E, edges_In by congruence. split.
    + intros [(L & t & T & A & B)|(L & A & B)].
      * split; [exact L|]. exists t. split; [apply in_or_app; now left|]. now split.
      * split; [exact L|]. exists (triangle n0 n1 n2). split; [apply in_or_app; right; now left|].
        split; (eapply Permutation_in; [apply Permutation_sym, corners_triangle|assumption]).
    + intros (L & t & T & A & B). apply in_app_or in T. destruct T as [T|[<-|[]]].
      * left. split; [exact L|]. exists t. now split.
      * right. split; [exact L|]. split; (eapply Permutation_in; [apply corners_triangle|assumption]).
Qed.
Lemma covers_none : covers no_mesh [].
Proof.
  constructor; cbn.
  - constructor.
  - constructor.
  - intros i. split; [intros []|intros (g & [] & _)].
  - intros a b. split; [intros []|intros (_ & t & [] & _)].
Qed.
Section Any.
Context {T : Type}.
Variable N : num T.
Variable three : T.
Definition of_region (cs : list (T * T)) (rs : list shape) (name : string) (t : tri) : bool :=
  match region_of N three cs rs t with Some n => String.eqb n name | None => false end.
Lemma region_covers : forall cs rs name ts, Forall (fun t => NoDup (corners t)) ts -> covers (region_mesh N three cs rs name ts) (filter (of_region cs rs name) ts).
Proof.
  intros cs rs name ts D. unfold region_mesh.
  assert (Q : forall r sel, covers r sel -> covers (fold_left (fun r t => match region_of N three cs rs t with Some n => if String.eqb n name then add_triangle r t else r | None => r end) ts r)
     (sel ++ filter (of_region cs rs name) ts)%list).
  { induction D as [|t ts Dt D IH]; intros r sel C; cbn [fold_left filter]; [now rewrite app_nil_r|]. unfold of_region at 1.
    destruct (region_of N three cs rs t) as [n|]; [|now apply IH]. destruct (String.eqb n name); [|now apply IH].
    replace (sel ++ t :: filter (of_region cs rs name) ts)%list with ((sel ++ [t]) ++ filter (of_region cs rs name) ts)%list by (now rewrite <- app_assoc).
    apply IH. now apply covers_step. }
  apply (Q no_mesh []). exact covers_none.
Qed.
(* ---- the last region ---- *)
Lemma find_region_spec : forall rs x y ret n, find_region N rs x y ret = Some n <->
  (exists pre s post, rs = (pre ++ s :: post)%list /\ h_name s = n /\ inside N s x y = true /\ Forall (fun s => inside N s x y = false) post) \/
  (ret = Some n /\ Forall (fun s => inside N s x y = false) rs).
Proof.
  induction rs as [|s rs IH]; intros x y ret n; cbn [find_region].
  - split; [intros H; right; split; [exact H|constructor]|]. intros [(pre & s & post & E & _)|[H _]]; [destruct pre; discriminate|exact H].
  - rewrite IH. split.
    + intros [(pre & s' & post & -> & A & B & C)|[H F]].
      * left. exists (s :: pre), s', post. split; [reflexivity|]. now split.
      * destruct (inside N s x y) eqn:E.
        -- injection H as <-. left. exists [], s, rs. split; [reflexivity|]. now split.
        -- right. split; [exact H|]. now constructor.
    + intros [(pre & s' & post & E & A & B & C)|[H F]].
      * destruct pre as [|s0 pre].
        -- injection E as -> ->. right. rewrite B, A. now split.
        -- injection E as -> ->. left. exists pre, s', post. now split.
      * inversion F as [|? ? F1 F2]; subst. right. rewrite F1. now split.
Qed.
Lemma find_region_none : forall rs x y ret, find_region N rs x y ret = None <-> ret = None /\ Forall (fun s => inside N s x y = false) rs.
Proof.
  induction rs as [|s rs IH]; intros x y ret; cbn [find_region].
  - split; [intros H; split; [exact H|constructor]|]. tauto.
  - rewrite IH. destruct (inside N s x y) eqn:E; split.
    + intros [H _]. discriminate.
    + intros [_ F]. inversion F; congruence.
    + intros [H F]. split; [exact H|now constructor].
    + intros [H F]. inversion F; subst. now split.
Qed.
End Any.

(* ---- declarations ---- *)
Definition reqb (a b : R) : bool := if Req_EM_T a b then true else false.
Definition shape_of (d : decl) : @shape R := mkshape (dname d) (dregions d) [make_box rN (dx0 d) (dx1 d) (dy0 d) (dy1 d) (dbloat d)].
Lemma minmax : forall a b, (if rltb b a then (b, a) else (a, b)) = (Rmin a b, Rmax a b).
Proof. intros a b. unfold rltb, Rmin, Rmax. destruct (Rlt_dec b a), (Rle_dec a b); try reflexivity; lra. Qed.
Lemma inside_of : forall d x y, inside rN (shape_of d) x y = true <-> holds d x y.
Proof.
  intros d x y. unfold shape_of, inside, make_box. cbn [h_boxes existsb]. change (ltb rN) with rltb. rewrite !minmax.
  rewrite orb_false_r. unfold inside_box, holds. cbn [bx0 bx1 by0 by1 bloat]. change (ltb rN) with rltb. rewrite !andb_true_iff, !rltb_true. cbn [sub add rN]. tauto.
Qed.
Lemma inside_not : forall d x y, inside rN (shape_of d) x y = false <-> ~ holds d x y.
Proof. intros d x y. rewrite <- inside_of. destruct (inside rN (shape_of d) x y); split; congruence || tauto. Qed.
Lemma news_ext : forall l a b, (forall x, In x a <-> In x b) -> news a l = news b l.
Proof.
  induction l as [|d l IH]; intros a b H; [reflexivity|]. cbn [news]. destruct (in_dec string_dec (dname d) a) as [I|I], (in_dec string_dec (dname d) b) as [J|J].
  - now apply IH.
  - exfalso. apply J, H, I.
  - exfalso. apply I, H, J.
  - f_equal. apply IH. intros x. cbn. rewrite H. tauto.
Qed.
Lemma add_shape_news : forall l d, add_shape l (dname d) (dregions d) (make_box rN (dx0 d) (dx1 d) (dy0 d) (dy1 d) (dbloat d)) = (l ++ map shape_of (news (map h_name l) [d]))%list.
Proof.
  intros l d. unfold add_shape. cbn [news]. destruct (existsb (fun s => String.eqb (h_name s) (dname d)) l) eqn:E.
  - apply existsb_exists in E. destruct E as (s & I & E). apply String.eqb_eq in E. destruct (in_dec string_dec (dname d) (map h_name l)) as [J|J]; [cbn; now rewrite app_nil_r|].
    exfalso. apply J. rewrite <- E. now apply in_map.
  - destruct (in_dec string_dec (dname d) (map h_name l)) as [J|J]; [|reflexivity]. exfalso. apply in_map_iff in J. destruct J as (s & E1 & I).
    assert (X : existsb (fun s => String.eqb (h_name s) (dname d)) l = true) by (apply existsb_exists; exists s; split; [exact I|now apply String.eqb_eq]). congruence.
Qed.
Lemma add_shape_news' : forall l n rs x0 x1 y0 y1 b, add_shape l n rs (make_box rN x0 x1 y0 y1 b) = (l ++ map shape_of (news (map h_name l) [mkdecl n rs x0 x1 y0 y1 b]))%list.
Proof. intros. exact (add_shape_news l (mkdecl n rs x0 x1 y0 y1 b)). Qed.
Lemma news_app : forall l1 l2 seen, news seen (l1 ++ l2) = (news seen l1 ++ news (map dname (news seen l1) ++ seen) l2)%list.
Proof.
  induction l1 as [|d l1 IH]; intros l2 seen; [reflexivity|]. cbn [app news]. destruct (in_dec string_dec (dname d) seen) as [I|I]; [apply IH|].
  cbn [app map]. f_equal. rewrite IH. f_equal. apply news_ext. intros x. cbn. rewrite !in_app_iff. cbn. tauto.
Qed.
Lemma news_more : forall l ds d, l ++ map shape_of (news (map h_name l) (ds ++ [d])) =
  ((l ++ map shape_of (news (map h_name l) ds)) ++ map shape_of (news (map h_name (l ++ map shape_of (news (map h_name l) ds))) [d]))%list.
Proof.
  intros l ds d. rewrite news_app, map_app, <- app_assoc. do 3 f_equal. apply news_ext. intros x. rewrite map_app, !in_app_iff, map_map.
  cbn [shape_of h_name]. tauto.
Qed.
(* the lines that a command adds *)
Definition xl_of (c : @command2 R) : list (@line R) := match c with AddXLine p ps ns => if rleb ps 0 then [] else [mkline p ps (if rleb ns 0 then ps else ns) EmptyString] | _ => [] end.
Definition yl_of (c : @command2 R) : list (@line R) := match c with AddYLine p ps ns => if rleb ps 0 then [] else [mkline p ps (if rleb ns 0 then ps else ns) EmptyString] | _ => [] end.
Lemma empty_dec : forall s A (a b : A), (if empty s then a else b) = if string_dec s "" then a else b.
Proof. intros s A a b. destruct (string_dec s "") as [->|N]; [reflexivity|]. destruct s; [congruence|reflexivity]. Qed.
Lemma run2_app : forall cs c m, run2 rN (cs ++ [c]) m = match exec2 rN c (run2 rN cs m) with Some m1 => m1 | None => run2 rN cs m end.
Proof. induction cs as [|a cs IH]; intros c m; [reflexivity|]. cbn [app run2]. apply IH. Qed.
Lemma built2 : forall cs, let m := run2 rN cs new_mesh2 in
  m_x m = flat_map xl_of cs /\ m_y m = flat_map yl_of cs /\ m_reg m = map shape_of (news [] (region_decls cs)) /\
  m_con m = map shape_of (news [] (contact_decls cs)) /\ m_int m = map shape_of (news [] (interface_decls cs)).
Proof.
  induction cs as [|c cs IH] using rev_ind; [repeat split|]. rewrite run2_app.
  unfold region_decls, contact_decls, interface_decls in *. rewrite !flat_map_app. cbn [flat_map]. rewrite !app_nil_r.
  cbv zeta in IH. destruct IH as (A & B & C & D & E). set (m := run2 rN cs new_mesh2) in *. clearbody m.
  set (rd := flat_map _ cs) in C |- *. set (cd := flat_map _ cs) in D |- *. set (id := flat_map _ cs) in E |- *. clearbody rd cd id.
  pose proof (news_more []) as NM. cbn [app map] in NM.
  destruct c as [p ps ns|p ps ns|n x0 x1 y0 y1 b|n r x0 x1 y0 y1 b|n r0 r1 x0 x1 y0 y1 b]; cbn [exec2 xl_of yl_of].
  - change (leb rN) with rleb. change (zero rN) with 0. destruct (rleb ps 0); cbn [m_x m_y m_reg m_con m_int]; rewrite ?app_nil_r, ?A, ?B; auto.
  - change (leb rN) with rleb. change (zero rN) with 0. destruct (rleb ps 0); cbn [m_x m_y m_reg m_con m_int]; rewrite ?app_nil_r, ?A, ?B; auto.
  - rewrite !app_nil_r. rewrite (empty_dec n). destruct (string_dec n ""); cbn [m_x m_y m_reg m_con m_int]; rewrite ?app_nil_r; auto.
    rewrite NM. cbn [app]. rewrite <- C. rewrite add_shape_news'. auto.
  - rewrite !app_nil_r. destruct (string_dec n "") as [->|N1]; [cbn [empty orb]; rewrite !app_nil_r; auto|].
    destruct (string_dec r "") as [->|N2]; [replace (empty n || empty "") with true by (now rewrite orb_true_r); rewrite !app_nil_r; auto|].
    replace (empty n || empty r) with false by (destruct n, r; try congruence; reflexivity). cbn [m_x m_y m_reg m_con m_int].
    rewrite NM. cbn [app]. rewrite <- D. rewrite add_shape_news'. auto.
  - rewrite !app_nil_r. destruct (string_dec n "") as [->|N1]; [cbn [empty orb]; rewrite !app_nil_r; auto|].
    destruct (string_dec r0 "") as [->|N2]; [replace (empty n || empty "" || empty r1 || String.eqb "" r1) with true by (now rewrite orb_true_r); rewrite !app_nil_r; auto|].
    destruct (string_dec r1 "") as [->|N3]; [replace (empty n || empty r0 || empty "" || String.eqb r0 "") with true by (destruct (empty n), (empty r0); reflexivity); rewrite !app_nil_r; auto|].
    destruct (string_dec r0 r1) as [->|N4]; [rewrite String.eqb_refl, orb_true_r, !app_nil_r; auto|].
    replace (empty n || empty r0 || empty r1 || String.eqb r0 r1) with false by (destruct n, r0, r1; try congruence; cbn [empty orb]; symmetry; now apply String.eqb_neq).
    cbn [m_x m_y m_reg m_con m_int].
    rewrite NM. cbn [app]. rewrite <- E. rewrite add_shape_news'. auto.
Qed.
Lemma news_NoDup : forall l seen, NoDup (map dname (news seen l)) /\ forall n, In n (map dname (news seen l)) -> ~ In n seen.
Proof.
  induction l as [|d l IH]; intros seen; [split; [constructor|intros n []]|]. cbn [news]. destruct (in_dec string_dec (dname d) seen) as [I|I]; [apply IH|].
  destruct (IH (dname d :: seen)) as [A B]. cbn [map]. split.
  - constructor; [|exact A]. intros J. apply (B _ J). now left.
  - intros n [<-|J]; [exact I|]. intros K. apply (B _ J). now right.
Qed.

(* ---- the lines ---- *)
Lemma lines_of : forall cs, map (@pos R) (flat_map xl_of cs) = x_lines cs /\ map (@pos R) (flat_map yl_of cs) = y_lines cs /\
  Forall spaced (flat_map xl_of cs) /\ Forall spaced (flat_map yl_of cs).
Proof.
  assert (P : forall p ps ns, ~ ps <= 0 -> spaced (mkline p ps (if rleb ns 0 then ps else ns) EmptyString)).
  { intros p ps ns H. unfold rleb. destruct (Rle_dec ns 0); split; cbn [psp nsp]; lra. }
  induction cs as [|c cs (A & B & C & D)]; [repeat split; constructor|]. unfold x_lines, y_lines in *. cbn [flat_map]. rewrite !map_app, A, B, !Forall_app.
  destruct c as [p ps ns|p ps ns|n x0 x1 y0 y1 b|n r x0 x1 y0 y1 b|n r0 r1 x0 x1 y0 y1 b]; cbn [xl_of yl_of].
  1,2: unfold rleb at 1; try (unfold rleb at 2); destruct (Rle_dec ps 0) as [L|L]; repeat split; auto; repeat apply Forall_cons; try apply Forall_nil; try (now apply P); auto.
  all: repeat split; auto.
Qed.
Lemma more_facts : forall fuel t a acc l, more_locations rN fuel a acc t = Ok l -> 0 < psp a -> Forall spaced t -> exists l', l = (acc ++ l')%list /\ distributed (a :: t) (pos a :: l').
Proof.
  intros fuel. induction t as [|b t IH]; intros a acc l H Pa F; cbn [more_locations] in H.
  - injection H as <-. exists []. rewrite app_nil_r. split; [reflexivity|constructor].
  - inversion F as [|b' t' [Fb Fn] Ft]; subst. apply rbind_Ok in H. destruct H as (pts & E & H).
    destruct (getPoints_facts _ _ _ _ _ _ E Pa Fn) as [_ G]. destruct (good_tl _ _ _ _ _ G) as (Gp & Gn & Gl).
    destruct (IH b _ l H Fb Ft) as (l' & -> & B). exists (tl pts ++ l')%list. rewrite app_assoc. split; [reflexivity|].
    change (pos a :: (tl pts ++ l')%list) with ((pos a :: tl pts) ++ l')%list. rewrite <- Gp. econstructor; eassumption.
Qed.
Lemma locations_facts : forall fuel ps l, get_locations rN fuel ps = Ok l -> Forall spaced ps -> distributed ps l.
Proof.
  intros fuel ps l H F. destruct ps as [|a t]; [discriminate|]. cbn [get_locations] in H. inversion F as [|? ? [Fa Fn] Ft]; subst.
  destruct (more_facts _ _ _ _ _ H Fa Ft) as (l' & -> & D). exact D.
Qed.
Lemma more_mono : forall fuel k t a acc l, more_locations rN fuel a acc t = Ok l -> more_locations rN (fuel + k) a acc t = Ok l.
Proof.
  intros fuel k. induction t as [|b t IH]; intros a acc l H; cbn [more_locations] in *; [exact H|]. apply rbind_Ok in H. destruct H as (pts & E & H).
  rewrite (getPoints_more _ _ _ _ _ _ _ E). cbn [rbind]. now apply IH.
Qed.
Lemma more_progress : forall t a acc, Forall spaced (a :: t) -> Sorted (fun p q => pos p < pos q) (a :: t) -> exists n l, more_locations rN n a acc t = Ok l.
Proof.
  induction t as [|b t IH]; intros a acc F S; [exists 0%nat; eexists; reflexivity|]. inversion F as [|? ? [Fa _] Ft]; subst. inversion S as [|? ? S1 Hd]; subst. inversion Hd as [|? ? L]; subst.
  inversion Ft as [|? ? [_ Fn] _]; subst. destruct (getPoints_ok (pos a) (pos b) (psp a) (nsp b) L Fa Fn) as (n & pts & E & _).
  destruct (IH b (acc ++ tl pts)%list Ft S1) as (n' & l & E'). exists (n' + n)%nat, l. cbn [more_locations]. rewrite E by lia. cbn [rbind]. now apply more_mono.
Qed.
Lemma drop_facts : forall l prev, Sorted (fun p q => pos p <= pos q) (prev :: l) ->
  Sorted (fun p q : @line R => pos p < pos q) (prev :: drop_same reqb prev l) /\
  (forall x, In x (map (@pos R) (prev :: drop_same reqb prev l)) <-> In x (map (@pos R) (prev :: l))) /\ incl (drop_same reqb prev l) l.
Proof.
  induction l as [|a l IH]; intros prev S; cbn [drop_same].
  - split; [constructor; constructor|]. split; [tauto|]. intros x [].
  - inversion S as [|? ? S1 Hd]; subst. inversion Hd as [|? ? L]; subst. destruct (IH a S1) as (A & B & C). clear IH.
    set (t := drop_same reqb a l) in *. clearbody t. unfold reqb. destruct (Req_EM_T (pos a) (pos prev)) as [E|E].
    + split; [|split].
      * inversion A as [|? ? A1 Hd']; subst. constructor; [exact A1|]. inversion Hd' as [|? ? L']; subst; constructor. lra.
      * intros x. specialize (B x). cbn [map In] in *. rewrite <- E. tauto.
      * intros x I. right. now apply C.
    + split; [|split].
      * constructor; [exact A|]. constructor. lra.
      * intros x. specialize (B x). cbn [map In] in *. tauto.
      * intros x [<-|I]; [now left|]. right. now apply C.
Qed.
Lemma collapse_facts : forall l, Sorted (fun p q => pos p <= pos q) l ->
  Sorted (fun p q : @line R => pos p < pos q) (collapse reqb l) /\ (forall x, In x (map (@pos R) (collapse reqb l)) <-> In x (map (@pos R) l)) /\ incl (collapse reqb l) l.
Proof.
  intros [|a l] S; cbn [collapse]; [split; [constructor|]; split; [tauto|]; intros x []|]. destruct (drop_facts l a S) as (A & B & C). split; [exact A|]. split; [exact B|].
  intros x [<-|I]; [now left|]. right. now apply C.
Qed.

(* The triangles of a grid *)
From Coq Require Import String List Bool Arith Lia Reals Lra Sorting.Sorted Sorting.Permutation FinFun.
From Verif Require Import StrMap MeshLine Mesh2 Mesh2Spec AssemblyProofs.
Import ListNotations.
Open Scope R_scope.

Lemma sorted3 : forall i j k, exists a b c, triangle i j k = (a, b, c) /\ Permutation [i; j; k] [a; b; c].
Proof.
  intros i j k. unfold triangle. do 3 eexists. split; [reflexivity|].
  destruct (Nat.le_ge_cases i j) as [H|H];
    [rewrite (Nat.min_l i j), (Nat.max_r i j) by exact H|rewrite (Nat.min_r i j), (Nat.max_l i j) by exact H].
  - destruct (Nat.le_ge_cases j k) as [K|K].
    + rewrite (Nat.min_l j k), (Nat.max_r j k), (Nat.min_l i k), (Nat.max_r i j) by lia. reflexivity.
    + rewrite (Nat.min_r j k), (Nat.max_l j k) by lia. destruct (Nat.le_ge_cases i k) as [L|L].
      * rewrite (Nat.min_l i k), (Nat.max_r i k) by lia. apply perm_skip, perm_swap.
      * rewrite (Nat.min_r i k), (Nat.max_l i k) by lia. apply Permutation_sym. transitivity [i; k; j]; [apply perm_swap|apply perm_skip, perm_swap].
  - destruct (Nat.le_ge_cases i k) as [K|K].
    + rewrite (Nat.min_l i k), (Nat.max_r i k), (Nat.min_l j k), (Nat.max_r j i) by lia. apply perm_swap.
    + rewrite (Nat.min_r i k), (Nat.max_l i k) by lia. destruct (Nat.le_ge_cases j k) as [L|L].
      * rewrite (Nat.min_l j k), (Nat.max_r j k) by lia. transitivity [j; i; k]; [apply perm_swap|apply perm_skip, perm_swap].
      * rewrite (Nat.min_r j k), (Nat.max_l j k) by lia. transitivity [i; k; j]; [apply perm_skip, perm_swap|].
        transitivity [k; i; j]; [apply perm_swap|apply perm_skip, perm_swap].
Qed.

Section Grid.
Variables (xs ys : list R).
Hypothesis Xi : StronglySorted Rlt xs.
Hypothesis Yi : StronglySorted Rlt ys.
Hypothesis X2 : (2 <= length xs)%nat.
Hypothesis Y2 : (2 <= length ys)%nat.
Let nx := length xs.
Let ny := length ys.
Definition px (i : nat) : R := nth i xs 0.
Definition py (j : nat) : R := nth j ys 0.
Let v (i j : nat) : nat := (i * ny + j)%nat.
Let cs := grid_points xs ys.
Let ts := grid_triangles nx ny.

Lemma grid_length : length cs = (nx * ny)%nat.
Proof. unfold cs, grid_points, nx. clear. induction xs as [|x l IH]; [reflexivity|]. cbn [flat_map]. rewrite app_length, map_length, IH. cbn [length]. reflexivity. Qed.
Lemma grid_at : forall i j, (i < nx)%nat -> (j < ny)%nat -> at_ cs (v i j) = (px i, py j).
Proof.
  unfold cs, at_, v, px, grid_points, nx. clear - ys. intros i. revert i. induction xs as [|x l IH]; intros i j Hi Hj; [cbn in Hi; lia|]. cbn [flat_map].
  destruct i as [|i].
  - cbn [Nat.mul Nat.add]. rewrite app_nth1 by (rewrite map_length; exact Hj). unfold py.
    rewrite (nth_indep _ (0, 0) (x, 0)) by (rewrite map_length; exact Hj). now rewrite (map_nth (fun y => (x, y)) ys 0 j).
  - rewrite app_nth2; rewrite map_length; [|cbn; fold ny; lia]. replace (S i * ny + j - length ys)%nat with (i * ny + j)%nat by (cbn; fold ny; lia).
    apply IH; [cbn in Hi; lia|exact Hj].
Qed.
Lemma ss_nth : forall l i j, StronglySorted Rlt l -> (i < j)%nat -> (j < length l)%nat -> nth i l 0 < nth j l 0.
Proof.
  clear. induction l as [|a l IH]; intros i j S H K; [cbn in K; lia|]. inversion S as [|a' l' S1 F]; subst. destruct j as [|j]; [lia|]. cbn in K. destruct i as [|i]; cbn [nth].
  - rewrite Forall_forall in F. apply F. apply nth_In. lia.
  - apply IH; [exact S1|lia|lia].
Qed.
Lemma px_lt : forall i j, (i < j)%nat -> (j < nx)%nat -> px i < px j.
Proof. intros. now apply ss_nth. Qed.
Lemma py_lt : forall i j, (i < j)%nat -> (j < ny)%nat -> py i < py j.
Proof. intros. now apply ss_nth. Qed.

(* the two triangles of a cell *)
Definition lower (i j : nat) : tri := (v i j, v i (S j), v (S i) j).
Definition upper (i j : nat) : tri := (v i (S j), v (S i) j, v (S i) (S j)).
Lemma cell_triangles : forall i j, (j < ny - 1)%nat ->
  triangle (i * ny + j) ((i + 1) * ny + j) (i * ny + (j + 1)) = lower i j /\ triangle ((i + 1) * ny + j) ((i + 1) * ny + (j + 1)) (i * ny + (j + 1)) = upper i j.
Proof.
  intros i j H. rewrite !Nat.add_1_r. unfold triangle, lower, upper. fold (v i j) (v (S i) j) (v i (S j)) (v (S i) (S j)).
  assert (A : (v i j < v i (S j))%nat) by (unfold v; lia). assert (B : (v i (S j) < v (S i) j)%nat) by (unfold v; cbn; lia).
  assert (C : (v (S i) j < v (S i) (S j))%nat) by (unfold v; lia).
  set (a := v i j) in *. set (b := v i (S j)) in *. set (c := v (S i) j) in *. set (d := v (S i) (S j)) in *. clearbody a b c d.
  rewrite !(Nat.min_l a c), !(Nat.max_r a c), !(Nat.min_r c b), !(Nat.max_r a b), !(Nat.min_l a b), !(Nat.max_l c b) by lia.
  rewrite !(Nat.min_l c d), !(Nat.max_r c d), !(Nat.min_r d b), !(Nat.max_l c b), !(Nat.min_r c b), !(Nat.max_l d b) by lia. split; reflexivity.
Qed.
Lemma ts_eq : ts = flat_map (fun i => flat_map (fun j => [lower i j; upper i j]) (seq 0 (ny - 1))) (seq 0 (nx - 1)).
Proof.
  unfold ts, grid_triangles. generalize (seq 0 (nx - 1)). intros l. induction l as [|i l IH]; [reflexivity|]. cbn [flat_map]. rewrite IH. f_equal. clear IH.
  assert (H : forall j, In j (seq 0 (ny - 1)) -> (j < ny - 1)%nat) by (intros j K; apply in_seq in K; lia). revert H. generalize (seq 0 (ny - 1)) as m.
  induction m as [|j m IH]; intros H; [reflexivity|]. cbn [flat_map]. destruct (cell_triangles i j (H j (or_introl eq_refl))) as [-> ->]. cbn [app]. do 2 f_equal.
  apply IH. intros k K. apply H. now right.
Qed.
Lemma ts_In : forall t, In t ts <-> exists i j, (S i < nx)%nat /\ (S j < ny)%nat /\ (t = lower i j \/ t = upper i j).
Proof.
  intros t. rewrite ts_eq, in_flat_map. split.
  - intros (i & Hi & H). apply in_flat_map in H. destruct H as (j & Hj & H). apply in_seq in Hi, Hj. exists i, j. split; [lia|]. split; [lia|].
    destruct H as [<-|[<-|[]]]; auto.
  - intros (i & j & Hi & Hj & H). exists i. split; [apply in_seq; lia|]. apply in_flat_map. exists j. split; [apply in_seq; lia|].
    destruct H as [->| ->]; [now left|right; now left].
Qed.

(* one dimension *)
Definition joint (i i' : nat) (u u' : R) : Prop := (i = i' /\ u = u') \/ (i' = S i /\ u = 1 /\ u' = 0) \/ (i = S i' /\ u = 0 /\ u' = 1).
Lemma one_dim : forall l i i' u u', StronglySorted Rlt l -> (S i < length l)%nat -> (S i' < length l)%nat -> 0 <= u <= 1 -> 0 <= u' <= 1 ->
  (1 - u) * nth i l 0 + u * nth (S i) l 0 = (1 - u') * nth i' l 0 + u' * nth (S i') l 0 -> joint i i' u u'.
Proof.
  clear. intros l i i' u u' S Hi Hi' Hu Hu' E.
  assert (M : forall a b, (a <= b)%nat -> (b < length l)%nat -> nth a l 0 <= nth b l 0).
  { intros a b H K. destruct (Nat.eq_dec a b) as [->|N]; [lra|]. left. apply ss_nth; [exact S|lia|exact K]. }
  pose proof (ss_nth l i (i + 1) S ltac:(lia) ltac:(lia)) as L. pose proof (ss_nth l i' (i' + 1) S ltac:(lia) ltac:(lia)) as L'. rewrite !Nat.add_1_r in *.
  set (a := nth i l 0) in *. set (b := nth (Datatypes.S i) l 0) in *. set (a' := nth i' l 0) in *. set (b' := nth (Datatypes.S i') l 0) in *.
  destruct (lt_eq_lt_dec i i') as [[H|H]|H].
  - assert (K : b <= a') by (apply M; lia). assert (u = 1 /\ u' = 0 /\ a' = b) as (-> & -> & Eb).
    { assert (0 <= (1 - u) * (b - a)) by (apply Rmult_le_pos; lra). assert (0 <= u' * (b' - a')) by (apply Rmult_le_pos; lra).
      assert (Z1 : (1 - u) * (b - a) = 0) by lra. assert (Z2 : u' * (b' - a') = 0) by lra.
      apply Rmult_integral in Z1, Z2. split; [lra|]. split; [lra|]. destruct Z1, Z2; lra. }
    right. left. split; [|split; reflexivity]. destruct (Nat.eq_dec i' (Datatypes.S i)) as [|N]; [assumption|]. exfalso.
    assert (b < a') by (apply ss_nth; [exact S|lia|lia]). lra.
  - subst i'. left. split; [reflexivity|]. change a' with a in E. change b' with b in E. assert (Z : (u - u') * (b - a) = 0) by lra. apply Rmult_integral in Z. lra.
  - assert (K : b' <= a) by (apply M; lia). assert (u' = 1 /\ u = 0 /\ a = b') as (-> & -> & Eb).
    { assert (0 <= (1 - u') * (b' - a')) by (apply Rmult_le_pos; lra). assert (0 <= u * (b - a)) by (apply Rmult_le_pos; lra).
      assert (Z1 : (1 - u') * (b' - a') = 0) by lra. assert (Z2 : u * (b - a) = 0) by lra.
      apply Rmult_integral in Z1, Z2. split; [lra|]. split; [lra|]. destruct Z1, Z2; lra. }
    right. right. split; [|split; reflexivity]. destruct (Nat.eq_dec i (Datatypes.S i')) as [|N]; [assumption|]. exfalso.
    assert (b' < a) by (apply ss_nth; [exact S|lia|lia]). lra.
Qed.

Lemma lower_point : forall i j a b c, (S i < nx)%nat -> (S j < ny)%nat ->
  point cs (lower i j) (a, b, c) = (a * px i + b * px i + c * px (S i), a * py j + b * py (S j) + c * py j).
Proof. intros. unfold point, lower. rewrite !grid_at by lia. reflexivity. Qed.
Lemma upper_point : forall i j a b c, (S i < nx)%nat -> (S j < ny)%nat ->
  point cs (upper i j) (a, b, c) = (a * px i + b * px (S i) + c * px (S i), a * py (S j) + b * py j + c * py (S j)).
Proof. intros. unfold point, upper. rewrite !grid_at by lia. reflexivity. Qed.

(* the weights of a triangle in terms of the fractions of the cell *)
Definition mix (s : bool) (i j : nat) (p q : R) (k : nat) : R :=
  let w k' := if Nat.eq_dec k k' then 1 else 0 in
  if s then (1 - p - q) * w (v i j) + q * w (v i (S j)) + p * w (v (S i) j)
  else (1 - p) * w (v i (S j)) + (1 - q) * w (v (S i) j) + (p + q - 1) * w (v (S i) (S j)).
Lemma in_cell : forall t w, In t ts -> proper w -> exists s i j p q, (S i < nx)%nat /\ (S j < ny)%nat /\ 0 <= p <= 1 /\ 0 <= q <= 1 /\
  (if s : bool then p + q <= 1 else 1 <= p + q) /\ (forall k, weight t w k = mix s i j p q k) /\
  point cs t w = ((1 - p) * px i + p * px (S i), (1 - q) * py j + q * py (S j)).
Proof.
  intros t [[a b] c] H (Ha & Hb & Hc & E). apply ts_In in H. destruct H as (i & j & Hi & Hj & [->| ->]).
  - exists true, i, j, c, b. split; [exact Hi|]. split; [exact Hj|]. split; [lra|]. split; [lra|]. split; [lra|]. split.
    + intros k. unfold weight, lower, mix. replace a with (1 - c - b) by lra. destruct (Nat.eq_dec k (v i j)), (Nat.eq_dec k (v i (S j))), (Nat.eq_dec k (v (S i) j)); ring.
    + rewrite lower_point by assumption. replace a with (1 - b - c) by lra. f_equal; ring.
  - exists false, i, j, (b + c), (a + c). split; [exact Hi|]. split; [exact Hj|]. split; [lra|]. split; [lra|]. split; [lra|]. split.
    + intros k. unfold weight, upper, mix. replace c with (1 - a - b) by lra. destruct (Nat.eq_dec k (v (S i) (S j))), (Nat.eq_dec k (v i (S j))), (Nat.eq_dec k (v (S i) j)); ring.
    + rewrite upper_point by assumption. replace a with (1 - b - c) by lra. f_equal; ring.
Qed.
Lemma grid_conform : forall t t' w w', In t ts -> In t' ts -> proper w -> proper w' -> point cs t w = point cs t' w' -> forall k, weight t w k = weight t' w' k.
Proof.
  intros t t' w w' Ht Ht' Hw Hw' E k.
  destruct (in_cell t w Ht Hw) as (s & i & j & p & q & Hi & Hj & Hp & Hq & Hs & W & P).
  destruct (in_cell t' w' Ht' Hw') as (s' & i' & j' & p' & q' & Hi' & Hj' & Hp' & Hq' & Hs' & W' & P').
  rewrite W, W'. rewrite P, P' in E. injection E as Ex Ey.
  apply one_dim in Ex; [|exact Xi|exact Hi|exact Hi'|exact Hp|exact Hp']. apply one_dim in Ey; [|exact Yi|exact Hj|exact Hj'|exact Hq|exact Hq'].
  clear W W' P P' Ht Ht' Hw Hw' Hi Hi' Hj Hj'. clearbody ts cs. unfold mix.
  destruct Ex as [[<- <-]|[(-> & -> & ->)|(-> & -> & ->)]], Ey as [[<- <-]|[(-> & -> & ->)|(-> & -> & ->)]], s, s';
    try (assert (q = 1) by lra; subst q); try (assert (q = 0) by lra; subst q); try (assert (p = 1) by lra; subst p); try (assert (p = 0) by lra; subst p);
    try ring; try (assert (Eq : q = 1 - p) by lra; rewrite Eq; ring); try (exfalso; lra).
Qed.
Lemma find_cell : forall l x, StronglySorted Rlt l -> (2 <= length l)%nat -> nth 0 l 0 <= x <= last l 0 -> exists i p, (S i < length l)%nat /\ 0 <= p <= 1 /\ x = (1 - p) * nth i l 0 + p * nth (S i) l 0.
Proof.
  clear. induction l as [|a [|b l] IH]; intros x S H K; try (cbn in H; lia). inversion S as [|a' l' S1 F]; subst.
  assert (L : a < b) by (rewrite Forall_forall in F; apply F; now left).
  destruct (Rle_dec x b) as [B|B].
  - exists 0%nat, ((x - a) / (b - a)). split; [cbn; lia|]. cbn [nth] in *. split.
    + split; [apply Rmult_le_pos; [lra|left; apply Rinv_0_lt_compat; lra]|]. apply (Rmult_le_reg_r (b - a)); [lra|]. unfold Rdiv. rewrite Rmult_assoc, Rinv_l by lra. lra.
    + field. lra.
  - destruct l as [|c l]; [cbn in K; lra|]. destruct (IH x S1) as (i & p & A & B1 & C); [cbn; lia|split; [cbn; lra|apply K]|].
    exists (Datatypes.S i), p. split; [cbn in *; lia|]. split; assumption.
Qed.
Lemma grid_cover : forall x y, px 0 <= x <= last xs 0 -> py 0 <= y <= last ys 0 -> exists t w, In t ts /\ proper w /\ point cs t w = (x, y).
Proof.
  intros x y Hx Hy. destruct (find_cell xs x Xi X2 Hx) as (i & p & Hi & Hp & ->). destruct (find_cell ys y Yi Y2 Hy) as (j & q & Hj & Hq & ->).
  destruct (Rle_dec (p + q) 1) as [L|L].
  - exists (lower i j), (1 - p - q, q, p). split; [apply ts_In; exists i, j; auto|]. split; [unfold proper; repeat split; lra|].
    rewrite lower_point by assumption. fold (px i) (px (S i)) (py j) (py (S j)). f_equal; ring.
  - exists (upper i j), (1 - p, 1 - q, p + q - 1). split; [apply ts_In; exists i, j; auto|]. split; [unfold proper; repeat split; lra|].
    rewrite upper_point by assumption. fold (px i) (px (S i)) (py j) (py (S j)). f_equal; ring.
Qed.
Lemma v_lt : forall i j, (i < nx)%nat -> (j < ny)%nat -> (v i j < length cs)%nat.
Proof. intros i j Hi Hj. rewrite grid_length. unfold v. nia. Qed.
Lemma grid_vertices : Forall (fun t => Forall (fun i => (i < length cs)%nat) (corners t) /\ NoDup (corners t)) ts.
Proof.
  apply Forall_forall. intros t H. apply ts_In in H. destruct H as (i & j & Hi & Hj & [->| ->]); unfold lower, upper, corners.
  - split; [repeat apply Forall_cons; try apply Forall_nil; apply v_lt; lia|].
    repeat apply NoDup_cons; try apply NoDup_nil; cbn [In]; unfold v; cbn; lia.
  - split; [repeat apply Forall_cons; try apply Forall_nil; apply v_lt; lia|].
    repeat apply NoDup_cons; try apply NoDup_nil; cbn [In]; unfold v; cbn; lia.
Qed.
Lemma v_inj : forall i j i' j', (j < ny)%nat -> (j' < ny)%nat -> v i j = v i' j' -> i = i' /\ j = j'.
Proof. intros i j i' j' H H' E. unfold v in E. assert (i = i') by nia. subst. split; [reflexivity|lia]. Qed.
Lemma nodup_flat_map : forall A B (f : A -> list B) l, NoDup l -> (forall a, In a l -> NoDup (f a)) ->
  (forall a a' b, In a l -> In a' l -> In b (f a) -> In b (f a') -> a = a') -> NoDup (flat_map f l).
Proof.
  clear. intros A B f. induction l as [|a l IH]; intros N F D; [constructor|]. cbn [flat_map]. inversion N as [|a' l' Na Nl]; subst.
  assert (Q : forall l1 l2 : list B, NoDup l1 -> NoDup l2 -> (forall b, In b l1 -> ~ In b l2) -> NoDup (l1 ++ l2)%list).
  { clear. induction l1 as [|x l1 IH]; intros l2 H K E; [exact K|]. cbn. inversion H; subst. constructor.
    - rewrite in_app_iff. intros [I|I]; [contradiction|]. exact (E x (or_introl eq_refl) I).
    - apply IH; [assumption|assumption|]. intros b Hb. apply E. now right. }
  apply Q.
  - apply F. now left.
  - apply IH; [exact Nl|intros b Hb; apply F; now right|]. intros b b' c Hb Hb'. apply D; now right.
  - intros b Hb K. apply in_flat_map in K. destruct K as (a' & Ha' & K). apply Na. rewrite (D a a' b); [exact Ha'|now left|now right|exact Hb|exact K].
Qed.
Lemma grid_once : NoDup ts.
Proof.
  rewrite ts_eq. apply nodup_flat_map; [apply seq_NoDup| |].
  - intros i Hi. apply nodup_flat_map; [apply seq_NoDup| |].
    + intros j Hj. apply in_seq in Hj. repeat apply NoDup_cons; try apply NoDup_nil; cbn [In]; [|tauto]. intros [E|[]]. unfold lower, upper in E.
      injection E as E1 _ _. unfold v in E1. lia.
    + intros j j' t Hj Hj' H K. apply in_seq in Hj, Hj'. unfold lower, upper in H, K.  destruct H as [<-|[<-|[]]], K as [K|[K|[]]]; injection K as K1 K2 K3; unfold v in *; lia.
  - intros i i' t Hi Hi' H K. apply in_flat_map in H, K. destruct H as (j & Hj & H), K as (j' & Hj' & K). apply in_seq in Hj, Hj'.
    unfold lower, upper in H, K. destruct H as [<-|[<-|[]]], K as [K|[K|[]]]; injection K as K1 K2 K3.
    + apply v_inj in K1; [|lia|lia]. symmetry. apply K1.
    + apply v_inj in K2; [|lia|lia]. apply v_inj in K1; [|lia|lia]. symmetry. lia.
    + apply v_inj in K1; [|lia|lia]. apply v_inj in K2; [|lia|lia]. lia.
    + apply v_inj in K1; [|lia|lia]. symmetry. apply K1.
Qed.
Lemma lower_area : forall i j, (S i < nx)%nat -> (S j < ny)%nat -> area cs (lower i j) = (px (S i) - px i) * (py (S j) - py j) / 2.
Proof.
  intros i j Hi Hj. unfold area, lower. rewrite !grid_at by lia. cbn [fst snd]. pose proof (px_lt i (S i) ltac:(lia) Hi). pose proof (py_lt j (S j) ltac:(lia) Hj).
  replace ((px i - px i) * (py j - py j) - (px (S i) - px i) * (py (S j) - py j)) with (- ((px (S i) - px i) * (py (S j) - py j))) by ring.
  rewrite Rabs_Ropp, Rabs_right; [reflexivity|]. apply Rle_ge. apply Rmult_le_pos; lra.
Qed.
Lemma upper_area : forall i j, (S i < nx)%nat -> (S j < ny)%nat -> area cs (upper i j) = (px (S i) - px i) * (py (S j) - py j) / 2.
Proof.
  intros i j Hi Hj. unfold area, upper. rewrite !grid_at by lia. cbn [fst snd]. pose proof (px_lt i (S i) ltac:(lia) Hi). pose proof (py_lt j (S j) ltac:(lia) Hj).
  replace ((px (S i) - px i) * (py (S j) - py (S j)) - (px (S i) - px i) * (py j - py (S j))) with ((px (S i) - px i) * (py (S j) - py j)) by ring.
  rewrite Rabs_right; [reflexivity|]. apply Rle_ge. apply Rmult_le_pos; lra.
Qed.
Lemma grid_area : Forall (fun t => 0 < area cs t) ts.
Proof.
  apply Forall_forall. intros t H. apply ts_In in H. destruct H as (i & j & Hi & Hj & H). pose proof (px_lt i (S i) ltac:(lia) Hi). pose proof (py_lt j (S j) ltac:(lia) Hj).
  assert (E : area cs t = (px (S i) - px i) * (py (S j) - py j) / 2) by (destruct H as [->| ->]; [now apply lower_area|now apply upper_area]). rewrite E.
  apply Rmult_lt_0_compat; [apply Rmult_lt_0_compat; lra|lra].
Qed.
Lemma fold_rsum' : forall A (f : A -> R) l, fold_right Rplus 0 (map f l) = rsum f l.
Proof. clear. induction l as [|a l IH]; [reflexivity|]. cbn. rewrite IH. reflexivity. Qed.
Lemma steps : forall (f : nat -> R) k, rsum (fun i => f (S i) - f i) (seq 0 k) = f k - f 0%nat.
Proof.
  clear. intros f k. induction k as [|k IH]; [cbn; lra|]. rewrite seq_S, rsum_app, IH. cbn. lra.
Qed.
Lemma last_nth : forall (l : list R), last l 0 = nth (length l - 1) l 0.
Proof.
  clear. induction l as [|a [|b l] IH]; [reflexivity|reflexivity|]. change (last (a :: b :: l) 0) with (last (b :: l) 0). rewrite IH. cbn [length].
  replace (S (S (length l)) - 1)%nat with (S (S (length l) - 1)) by lia. reflexivity.
Qed.
Lemma grid_total : fold_right Rplus 0 (map (area cs) ts) = (last xs 0 - px 0) * (last ys 0 - py 0).
Proof.
  rewrite fold_rsum', ts_eq, rsum_flat_map.
  transitivity (rsum (fun i => (px (S i) - px i) * (last ys 0 - py 0)) (seq 0 (nx - 1))).
  - apply rsum_ext. intros i Hi. apply in_seq in Hi. rewrite rsum_flat_map.
    transitivity (rsum (fun j => (px (S i) - px i) * (py (S j) - py j)) (seq 0 (ny - 1))).
    + apply rsum_ext. intros j Hj. apply in_seq in Hj. cbn [rsum]. rewrite lower_area, upper_area by lia. lra.
    + rewrite rsum_scal, steps. unfold py at 1. rewrite (last_nth ys). reflexivity.
  - transitivity (rsum (fun i => (last ys 0 - py 0) * (px (S i) - px i)) (seq 0 (nx - 1))); [apply rsum_ext; intros; ring|].
    rewrite rsum_scal, steps. unfold px at 1. rewrite (last_nth xs). unfold nx. ring.
Qed.
Lemma grid_inside : Forall (fun p => px 0 <= fst p <= last xs 0 /\ py 0 <= snd p <= last ys 0) cs.
Proof.
  assert (Q : forall l, StronglySorted Rlt l -> forall x, In x l -> nth 0 l 0 <= x <= last l 0).
  { clear. intros l S x I. apply (In_nth l x 0) in I. destruct I as (n & Hn & <-). rewrite last_nth. split.
    - destruct n; [lra|]. left. apply ss_nth; [exact S|lia|exact Hn].
    - destruct (Nat.eq_dec n (length l - 1)) as [->|N]; [lra|]. left. apply ss_nth; [exact S|lia|lia]. }
  apply Forall_forall. intros [x y] H. unfold cs, grid_points in H. apply in_flat_map in H. destruct H as (x' & Hx & H). apply in_map_iff in H. destruct H as (y' & [= <- <-] & Hy).
  split; [apply (Q xs Xi _ Hx)|apply (Q ys Yi _ Hy)].
Qed.
Lemma ss_NoDup : forall l, StronglySorted Rlt l -> NoDup l.
Proof. clear. induction l as [|a l IH]; intros S; constructor; inversion S as [|a' l' S1 F]; subst; [|now apply IH]. intros I. rewrite Forall_forall in F. specialize (F a I). lra. Qed.
Lemma grid_distinct : NoDup cs.
Proof.
  unfold cs, grid_points. apply nodup_flat_map; [now apply ss_NoDup| |].
  - intros x Hx. apply (Injective_map_NoDup (f := fun y => (x, y))); [intros a b [= E]; exact E|now apply ss_NoDup].
  - intros a a' b Ha Ha' H K. apply in_map_iff in H, K. destruct H as (u & <- & _), K as (u' & [= E _] & _). symmetry. exact E.
Qed.
Theorem grid_triangulates : triangulates (nth 0 xs 0) (last xs 0) (nth 0 ys 0) (last ys 0) (grid_points xs ys) (grid_triangles (length xs) (length ys)).
Proof.
  constructor.
  - exact grid_inside.
  - exact grid_distinct.
  - exact grid_vertices.
  - exact grid_once.
  - exact grid_cover.
  - exact grid_conform.
  - exact grid_area.
  - exact grid_total.
Qed.
End Grid.

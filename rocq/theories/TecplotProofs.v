(* C68: lines, words, variables and zones of Tecplot files. *)
From Coq Require Import Ascii String List Bool Arith ZArith Lia DecimalString DecimalFacts DecimalNat.
Import ListNotations.
Require Verif.StrMap.
Require Import Verif.Tecplot Verif.TecplotSpec.
Local Arguments Nat.ltb : simpl never.
Local Arguments Nat.leb : simpl never.
Local Arguments Nat.eqb : simpl never.
Open Scope string_scope.
Open Scope list_scope.
Open Scope nat_scope.
Local Notation text := (list ascii).
Local Notation chars := list_ascii_of_string.

(* ---- lines ---- *)
Lemma last_some : forall c t n, last_index c t = Some n -> nth_error t n = Some c.
Proof.
  intros c. induction t as [|d t IH]; intros n H; cbn [last_index] in H; [discriminate|].
  destruct (last_index c t) as [m|]; [injection H as <-; cbn; apply IH; reflexivity|].
  destruct (Ascii.eqb_spec c d) as [->|]; [injection H as <-; reflexivity|discriminate].
Qed.
Lemma last_max : forall c t q, nth_error t q = Some c -> exists n, last_index c t = Some n /\ q <= n.
Proof.
  intros c. induction t as [|d t IH]; intros [|q] H; cbn [nth_error] in H; try discriminate; cbn [last_index].
  - injection H as ->. destruct (last_index c t) as [m|]; [exists (S m); split; [reflexivity|lia]|]. rewrite Ascii.eqb_refl. exists 0. split; [reflexivity|lia].
  - destruct (IH q H) as (n & En & L). rewrite En. exists (S n). split; [reflexivity|lia].
Qed.
Lemma nth_error_firstn : forall (X : Type) n (l : list X) q, q < n -> nth_error (firstn n l) q = nth_error l q.
Proof. intros X. induction n as [|n IH]; intros l q H; [lia|]. destruct l as [|x l]; [reflexivity|]. destruct q as [|q]; [reflexivity|]. cbn. apply IH. lia. Qed.
Lemma nth_error_firstn_none : forall (X : Type) n (l : list X) q c, nth_error (firstn n l) q = Some c -> q < n /\ nth_error l q = Some c.
Proof.
  intros X n l q c H. assert (Q : q < n). { assert (N : q < length (firstn n l)) by (apply nth_error_Some; rewrite H; discriminate). rewrite firstn_length in N. lia. }
  split; [exact Q|]. rewrite <- H. symmetry. apply nth_error_firstn, Q.
Qed.
Lemma rfind_window : forall n t p q, p <= q <= p + n -> nth_error t q = Some space -> exists i, rfind space t (p + n) = Some i /\ p <= i <= p + n /\ nth_error t i = Some space.
Proof.
  intros n t p q Hq Eq. unfold rfind. destruct (last_max space (firstn (S (p + n)) t) q) as (i & Ei & L); [rewrite nth_error_firstn by lia; exact Eq|].
  exists i. split; [exact Ei|]. apply last_some, nth_error_firstn_none in Ei. split; [lia|apply Ei].
Qed.
Lemma rewrapped_refl : forall t, rewrapped t t.
Proof. induction t; constructor; auto. Qed.
Lemma split_at : forall (t : text) start i c, start <= i -> nth_error t i = Some c -> skipn start t = firstn (i - start) (skipn start t) ++ c :: skipn (i + 1) t.
Proof.
  intros t start i c L Ei. rewrite <- (firstn_skipn (i - start) (skipn start t)) at 1. f_equal. revert start i L Ei. induction t as [|d t IH]; intros start i L Ei; [destruct i; discriminate|].
  destruct start as [|start].
  - cbn [skipn]. rewrite Nat.sub_0_r. destruct i as [|i]; [injection Ei as ->; reflexivity|]. cbn in Ei. specialize (IH 0 i ltac:(lia) Ei). cbn [skipn] in IH. rewrite Nat.sub_0_r in IH. cbn. exact IH.
  - destruct i as [|i]; [lia|]. cbn [skipn]. replace (S i - S start) with (i - start) by lia. cbn in Ei. rewrite (IH start i) by (lia || exact Ei). reflexivity.
Qed.
Lemma break_loop_ok : forall n fuel t start, spaced n t -> start < length t -> length t - start <= fuel ->
  exists out ls, break_loop n fuel t start = Some out /\ rewrapped (skipn start t) out /\ out = join ls /\ Forall (fun l => length l <= n) ls /\ ls <> [].
Proof.
  intros n fuel. induction fuel as [|fuel IH]; intros t start S0 L Fu; [lia|]. cbn [break_loop]. destruct (Nat.ltb_spec (length t - 1) (start + n)) as [Last|More].
  - exists (skipn start t), [skipn start t]. split; [reflexivity|]. split; [apply rewrapped_refl|]. split; [reflexivity|]. split; [|discriminate]. constructor; [rewrite skipn_length; lia|constructor].
  - destruct (S0 start) as (q & Hq & Eq); [lia|]. destruct (rfind_window n t start q Hq Eq) as (i & Ei & Hi & Ci). rewrite Ei.
    assert (Pi : piece t start i = firstn (i - start) (skipn start t)) by (unfold piece; destruct (Nat.ltb_spec i start); [lia|reflexivity]). rewrite Pi.
    pose proof (split_at t start i space ltac:(lia) Ci) as Sp. assert (Li : i < length t) by (apply nth_error_Some; rewrite Ci; discriminate).
    assert (Lp : length (firstn (i - start) (skipn start t)) <= n) by (rewrite firstn_length; lia).
    destruct (Nat.leb_spec (length t) (i + 1)) as [Full|Rest].
    + exists (firstn (i - start) (skipn start t) ++ [newline]), [firstn (i - start) (skipn start t); []]. split; [reflexivity|]. split.
      * rewrite Sp at 1. rewrite (@skipn_all2 _ (i + 1) t) by lia. apply Forall2_app; [apply rewrapped_refl|]. constructor; [right; split; reflexivity|constructor].
      * split; [reflexivity|]. split; [|discriminate]. constructor; [exact Lp|]. constructor; [cbn; lia|constructor].
    + destruct (IH t (i + 1) S0 Rest ltac:(lia)) as (out & ls & Eo & Ro & Jo & Fo & No). rewrite Eo. cbn [option_map].
      exists (firstn (i - start) (skipn start t) ++ newline :: out), (firstn (i - start) (skipn start t) :: ls). split; [rewrite <- app_assoc; reflexivity|]. split.
      * rewrite Sp at 1. apply Forall2_app; [apply rewrapped_refl|]. constructor; [right; split; reflexivity|exact Ro].
      * split; [destruct ls; [congruence|]; rewrite Jo; reflexivity|]. split; [constructor; [exact Lp|exact Fo]|discriminate].
Qed.
Lemma break_line_ok : forall n t, spaced n t -> exists out, break_line n t = Some out /\ rewrapped t out /\ exists ls, out = join ls /\ Forall (fun l => length l <= n) ls.
Proof.
  intros n t H. unfold break_line. destruct t as [|c t]; [exists []; split; [reflexivity|]; split; [constructor|]; exists []; split; [reflexivity|constructor]|].
  remember (c :: t) as u eqn:Eu. destruct (Nat.ltb_spec (length u) (n + 1)) as [Short|Long].
  - exists u. split; [reflexivity|]. split; [apply rewrapped_refl|]. exists [u]. split; [reflexivity|]. constructor; [lia|constructor].
  - destruct (break_loop_ok n (S (length u)) u 0 H ltac:(lia) ltac:(lia)) as (out & ls & Eo & Ro & Jo & Fo & _). exists out. split; [exact Eo|]. split; [exact Ro|]. exists ls. split; assumption.
Qed.

(* ---- words ---- *)
Lemma words_step : forall c d t, words (c :: d :: t) = if separator c then words (d :: t) else if separator d then [c] :: words (d :: t) else match words (d :: t) with w :: l => (c :: w) :: l | [] => [[c]] end.
Proof. reflexivity. Qed.
Lemma words_rewrapped : forall t u, rewrapped t u -> words t = words u.
Proof.
  assert (Sep : forall c d : ascii, d = c \/ c = " "%char /\ d = "010"%char -> separator c = separator d) by (intros c d [->|[-> ->]]; reflexivity).
  assert (Same : forall c d : ascii, d = c \/ c = " "%char /\ d = "010"%char -> separator c = false -> d = c) by (intros c d [->|[-> ->]] H; [reflexivity|discriminate H]).
  intros t u H. induction H as [|c d t u Hc Ht IH]; [reflexivity|]. destruct Ht as [|c' d' t u Hc' Ht].
  - cbn. rewrite (Sep c d Hc). destruct (separator d) eqn:B; [reflexivity|]. rewrite <- (Sep c d Hc) in B. rewrite (Same c d Hc B). reflexivity.
  - rewrite !words_step, (Sep c d Hc), (Sep c' d' Hc'), IH. destruct (separator d) eqn:B; [reflexivity|]. rewrite <- (Sep c d Hc) in B. rewrite (Same c d Hc B). reflexivity.
Qed.
Definition wordy (w : text) : Prop := w <> [] /\ Forall (fun c => separator c = false) w.
Lemma words_word : forall w rest, wordy w -> match rest with [] => True | d :: _ => separator d = true end -> words (w ++ rest) = w :: words rest.
Proof.
  assert (P : forall w c rest, Forall (fun c => separator c = false) (c :: w) -> match rest with [] => True | d :: _ => separator d = true end -> words (c :: w ++ rest) = (c :: w) :: words rest).
  { induction w as [|d w IH]; intros c rest Fw Hr.
    - inversion_clear Fw as [|? ? Bc _]. destruct rest as [|d rest]; [cbn; rewrite Bc; reflexivity|]. change ([] ++ d :: rest) with (d :: rest). rewrite words_step, Bc, Hr. reflexivity.
    - inversion_clear Fw as [|? ? Bc F']. specialize (IH d rest F' Hr). cbn [app]. assert (Bd : separator d = false) by (inversion F'; assumption). rewrite words_step, Bc, Bd, IH. reflexivity. }
  intros [|c w] rest [N Fw] Hr; [congruence|]. apply P; assumption.
Qed.
Lemma words_newline : forall u v, words (u ++ newline :: v) = words u ++ words v.
Proof.
  induction u as [|c u IH]; intros v; [reflexivity|]. destruct u as [|d u].
  - cbn [app]. rewrite words_step. change (separator newline) with true. destruct (separator c) eqn:B; cbn [words]; rewrite B; [reflexivity|]. reflexivity.
  - cbn [app] in *. rewrite !words_step, IH. destruct (separator c); [reflexivity|]. destruct (separator d) eqn:B; [reflexivity|].
    destruct (words (d :: u)) as [|w l] eqn:W; [|reflexivity]. exfalso. destruct u as [|e u]; [cbn in W; rewrite B in W; discriminate|]. rewrite words_step, B in W. destruct (separator e); [discriminate|]. destruct (words (e :: u)); discriminate.
Qed.

Lemma width_pos : 0 < width.
Proof. unfold width. apply Nat2Z.inj_lt. rewrite Z2Nat.id by lia. reflexivity. Qed.
Opaque width.
(* a sequence of whole lines *)
Definition writes (o : option text) (ws : list text) : Prop := exists t, o = Some t /\ forall rest, words (t ++ rest) = ws ++ words rest.
Lemma writes_nil : writes (Some []) [].
Proof. exists []. split; reflexivity. Qed.
Lemma writes_both : forall a b x y, writes a x -> writes b y -> writes (both a b) (x ++ y).
Proof. intros a b x y (t & -> & Ht) (u & -> & Hu). exists (t ++ u). split; [reflexivity|]. intros rest. rewrite <- app_assoc, Ht, Hu, app_assoc. reflexivity. Qed.
Lemma writes_blocks : forall (f : string -> option text) (g : string -> list text) l, (forall n, In n l -> writes (f n) (g n)) -> writes (all_blocks f l) (flat_map g l).
Proof. intros f g. induction l as [|n l IH]; intros H; [apply writes_nil|]. cbn [flat_map]. apply writes_both; [apply H; left; reflexivity|]. apply IH. intros m I. apply H. right. exact I. Qed.
Lemma writes_line : forall u, spaced width (u ++ [newline]) -> writes (put_line u) (words u).
Proof.
  intros u H. unfold put_line. destruct (break_line_ok width (u ++ [newline]) H) as (out & -> & Ro & _). exists out. split; [reflexivity|]. intros rest.
  destruct (Forall2_app_inv_l _ _ Ro) as (u' & n' & Ru & Rn & ->). inversion Rn as [|? d ? l Hd Rl]; subst. inversion Rl; subst.
  assert (d = newline) as -> by (destruct Hd as [->|[C _]]; [reflexivity|discriminate C]). rewrite <- app_assoc. cbn [app]. rewrite words_newline, (words_rewrapped u u' Ru). reflexivity.
Qed.
Lemma spaced_short : forall n t, length t <= n -> spaced n t.
Proof. intros n t L p H. lia. Qed.
Lemma spaced_word : forall n w t, length w <= n -> spaced n t -> spaced n (w ++ space :: t).
Proof.
  intros n w t L H p Hp. rewrite app_length in Hp. cbn in Hp. destruct (le_lt_dec p (length w)) as [Before|After].
  - exists (length w). split; [lia|]. rewrite nth_error_app2, Nat.sub_diag by lia. reflexivity.
  - destruct (H (p - S (length w))) as (q & Hq & Eq); [lia|]. exists (q + S (length w)). split; [lia|]. rewrite nth_error_app2 by lia. replace (q + S (length w) - length w) with (S q) by lia. exact Eq.
Qed.
Section Show.
Variable A : Type.
Variable null : A.
Variable show : A -> text.
Hypothesis show_wordy : forall a, wordy (show a).
Hypothesis show_short : forall a, length (show a) < width.
Notation block := (block A show).
Lemma words_block : forall l, words (block l) = map show l.
Proof.
  induction l as [|a l IH]; [reflexivity|]. cbn [Tecplot.block map]. destruct l as [|b l].
  - rewrite <- (List.app_nil_r (show a)) at 1. rewrite words_word; [reflexivity|apply show_wordy|exact Logic.I].
  - rewrite words_word by (apply show_wordy || reflexivity). f_equal. exact IH.
Qed.
Lemma spaced_block : forall l, spaced width (block l ++ [newline]).
Proof.
  pose proof width_pos as W. induction l as [|a l IH]; [apply spaced_short; cbn; lia|]. cbn [Tecplot.block]. destruct l as [|b l].
  - apply spaced_short. rewrite app_length. specialize (show_short a). cbn. lia.
  - rewrite <- app_assoc. apply spaced_word; [specialize (show_short a); lia|exact IH].
Qed.
Lemma writes_block : forall l, writes (put_line (block l)) (map show l).
Proof. intros l. rewrite <- words_block. apply writes_line, spaced_block. Qed.
Lemma flat_block : forall l, l <> [] -> flat_map (fun a => space :: show a) l = space :: block l.
Proof. induction l as [|a l IH]; intros N; [congruence|]. cbn [flat_map Tecplot.block]. destruct l as [|b l]; [cbn; rewrite List.app_nil_r; reflexivity|]. rewrite IH by discriminate. reflexivity. Qed.
Lemma writes_vector : forall (X : Type) (f : X -> A) l, l <> [] -> writes (put_line (flat_map (fun p => space :: show (f p)) l)) (map show (map f l)).
Proof.
  intros X f l N. assert (flat_map (fun p => space :: show (f p)) l = space :: block (map f l)) as ->.
  { rewrite <- flat_block by (destruct l; [congruence|discriminate]). rewrite !flat_map_concat_map, map_map. reflexivity. }
  replace (map show (map f l)) with (words (space :: block (map f l))) by (cbn [words]; change (separator space) with true; apply words_block).
  apply writes_line. change ((space :: block (map f l)) ++ [newline]) with ([] ++ space :: (block (map f l) ++ [newline])). apply spaced_word; [cbn; lia|apply spaced_block].
Qed.

(* ---- decimal ---- *)
Lemma read_dec : forall n, read_nat (dec n) = Some n.
Proof. intros n. unfold read_nat, dec. rewrite NilEmpty.usu. cbn. f_equal. apply Unsigned.of_to. Qed.
Lemma uint_chars : forall u, Forall (fun c => separator c = false) (chars (NilEmpty.string_of_uint u)).
Proof. induction u; cbn; try constructor; try reflexivity; assumption. Qed.
Lemma dec_wordy : forall n, wordy (chars (dec n)).
Proof.
  intros n. unfold dec. pose proof (uint_chars (Nat.to_uint n)) as H. assert (N : Nat.to_uint n <> Decimal.Nil).
  { intros C. pose proof (Unsigned.of_to n) as E. rewrite C in E. cbn in E. subst n. discriminate. }
  split; [destruct (Nat.to_uint n); [congruence|..]; cbn; discriminate|exact H].
Qed.
Definition node_word (n : nat) : text := chars (dec (n + 1)).
Lemma read_node_word : forall n, read_node (node_word n) = Some n.
Proof. intros n. unfold read_node, node_word. rewrite string_of_list_ascii_of_string, read_dec, Nat.add_1_r. reflexivity. Qed.
Lemma words_element : forall e rest, e <> [] -> words (element_line e ++ rest) = map node_word e ++ words rest.
Proof.
  induction e as [|n e IH]; intros rest N; [congruence|]. cbn [element_line map]. destruct e as [|m e].
  - rewrite <- app_assoc. rewrite words_word by (apply dec_wordy || reflexivity). reflexivity.
  - rewrite <- app_assoc. rewrite words_word by (apply dec_wordy || reflexivity). cbn [app]. f_equal. cbn [words]. change (separator space) with true. apply (IH rest). discriminate.
Qed.
Lemma writes_elements : forall es, Forall (fun e => e <> []) es -> writes (Some (flat_map element_line es)) (flat_map (map node_word) es).
Proof.
  intros es H. exists (flat_map element_line es). split; [reflexivity|]. intros rest. induction H as [|e es He Hes IH]; [reflexivity|]. cbn [flat_map]. rewrite <- !app_assoc, words_element by exact He. rewrite IH. reflexivity.
Qed.
Lemma read_list_words : forall e, read_list read_node (map node_word e) = Some e.
Proof. induction e as [|n e IH]; [reflexivity|]. cbn [map read_list]. rewrite read_node_word, IH. reflexivity. Qed.
Lemma take_app : forall n (a b : list text), length a = n -> take n (a ++ b) = Some (a, b).
Proof.
  intros n a b H. unfold take. rewrite app_length, <- H. destruct (Nat.leb_spec (length a) (length a + length b)) as [_|]; [|lia].
  rewrite firstn_app, firstn_all, Nat.sub_diag, skipn_app, skipn_all, Nat.sub_diag. cbn. rewrite List.app_nil_r. reflexivity.
Qed.
Lemma read_elements_words : forall k es, Forall (fun e => length e = k) es -> read_elements (length es) k (flat_map (map node_word) es) = Some es.
Proof.
  intros k es H. induction H as [|e es He Hes IH]; [reflexivity|]. cbn [length flat_map read_elements]. rewrite take_app by (rewrite map_length; exact He). rewrite read_list_words, IH. reflexivity.
Qed.
Lemma read_columns_words : forall (z : zone) (value : column -> list A) cs k rest,
  (forall i c, nth_error cs i = Some c -> (if existsb (Nat.eqb (k + i)) (z_cell z) then z_elements z else z_nodes z) = length (value c)) ->
  read_columns z (map variable cs) k (flat_map (fun c => map show (value c)) cs ++ rest) = Some (map (fun c => map show (value c)) cs, rest).
Proof.
  intros z value. induction cs as [|c cs IH]; intros k rest H; [reflexivity|]. cbn [map flat_map read_columns]. pose proof (H 0 c eq_refl) as H0. rewrite Nat.add_0_r in H0. rewrite H0, <- app_assoc, take_app by (apply map_length).
  rewrite IH; [reflexivity|]. intros i d Ed. rewrite <- (H (S i) d Ed). rewrite Nat.add_succ_r. reflexivity.
Qed.

(* ---- blocks of a region ---- *)
Lemma find_in : forall (V : Type) n (m : StrMap.smap V) v, StrMap.find n m = Some v -> In (n, v) m.
Proof. intros. apply StrMap.find_In. assumption. Qed.
Lemma writes_values : forall n v, writes (put_line (values_block A show n v)) (map show (expand A n v)).
Proof. intros n [a|l]; cbn [values_block expand]; [unfold uniform|]; apply writes_block. Qed.
Lemma writes_node : forall r n, writes (node_block A null show r n) (map show (column_values A null r (AtNodes n))).
Proof. intros r n. unfold node_block. cbn [column_values]. destruct (StrMap.find n (r_node_models A r)) as [[d v]|]; [apply writes_values|apply writes_block]. Qed.
Lemma writes_edge : forall r n, writes (edge_block A null show r n) (map show (column_values A null r (EdgesAtNodes n))).
Proof. intros r n. unfold edge_block. cbn [column_values]. destruct (StrMap.find n (r_edge_models A r)) as [m|]; [apply writes_values|apply writes_block]. Qed.
Lemma writes_element : forall r n, writes (element_block A null show r n) (map show (column_values A null r (AtElements n))).
Proof. intros r n. unfold element_block. cbn [column_values]. destruct (StrMap.find n (r_element_models A r)) as [[d v]|]; [apply writes_values|apply writes_block]. Qed.
Lemma writes_axes : forall (f : nat -> option text) (g : nat -> list text) l, (forall k, In k l -> writes (f k) (g k)) -> writes (fold_right (fun k => both (f k)) (Some []) l) (flat_map g l).
Proof. intros f g. induction l as [|k l IH]; intros H; [apply writes_nil|]. cbn [fold_right flat_map]. apply writes_both; [apply H; left; reflexivity|]. apply IH. intros m I. apply H. right. exact I. Qed.
Lemma component_of : forall k p, component A k p = coordinate_of A k p.
Proof. intros k [[x y] z]. destruct k as [|[|k]]; reflexivity. Qed.
Lemma axes_seq : forall dim, dim = 1 \/ dim = 2 \/ dim = 3 -> seq 0 (if 2 <? dim then 3 else if 1 <? dim then 2 else 1) = seq 0 dim.
Proof. intros dim [-> | [-> | ->]]; reflexivity. Qed.
Lemma writes_vectors : forall dim r n, dim = 1 \/ dim = 2 \/ dim = 3 -> (forall m, StrMap.find n (r_edge_models A r) = Some m -> em_display A m = Vector /\ em_vectors A m <> []) ->
  writes (vector_block A null show dim r n) (flat_map (fun k => map show (column_values A null r (VectorAtNodes k n))) (seq 0 dim)).
Proof.
  intros dim r n D H. unfold vector_block. rewrite (axes_seq dim D). cbn [column_values]. destruct (StrMap.find n (r_edge_models A r)) as [m|].
  - destruct (H m eq_refl) as [-> N]. destruct (em_vectors A m) as [|p l] eqn:Ev; [congruence|]. rewrite <- Ev in *.
    apply (writes_axes (fun k => put_line (flat_map (fun p => space :: show (component A k p)) (em_vectors A m)))). intros k _.
    rewrite (map_ext (coordinate_of A k) (component A k)) by (intros; symmetry; apply component_of). apply writes_vector. exact N.
  - apply (writes_axes (fun _ => put_line (uniform A show (r_nodes A r) null))). intros k _. apply writes_block.
Qed.
End Show.

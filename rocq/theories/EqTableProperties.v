(* C14, C15: equation tables of a region. *)
From Coq Require Import String List Bool Arith.
From Verif Require Import StrMap EqTable EqTableProofs.
Import ListNotations.
Open Scope string_scope.

(* [run 0 empty cs] gives the table after any sequence of equation / delete_equation
   commands and the log of the commands that did not fail.  [given log n] is the
   (variable, other options) of the last accepted equation command for n, unless it
   was deleted since; [order log] lists the live names by age. *)

(* C14: the stored equations are the last given ones; their indexes are their
   positions in the order of introduction, hence 0..n-1 without gap or repetition *)
Theorem C14_equation_table : forall (B : Type) (cs : list (cmd B)),
  let (t, log) := run 0 empty cs in
  (forall n, option_map (fun q => (q_var q, q_body q)) (find n (t_eqs t)) = given log n) /\
  t_num t = length (order log) /\ NoDup (order log) /\
  (forall n, In n (order log) <-> given log n <> None) /\
  (forall n, equation_index t n = position n (order log)).
Proof. intros. apply c14_lemma. Qed.
Print Assumptions C14_equation_table.

Corollary C14_indexes_bijective : forall (B : Type) (cs : list (cmd B)),
  let (t, log) := run 0 empty cs in
  (forall n i, equation_index t n = Some i -> i < t_num t) /\
  (forall i, i < t_num t -> exists n, equation_index t n = Some i) /\
  (forall n m i, equation_index t n = Some i -> equation_index t m = Some i -> n = m).
Proof.
  intros B cs. pose proof (c14_lemma cs) as H. destruct (run 0 empty cs) as [t log].
  destruct H as (_ & H2 & H3 & _ & H5). rewrite H2. split; [|split].
  - intros n i E. rewrite H5 in E. apply position_bound in E. apply nth_error_Some. congruence.
  - intros i Hi. destruct (nth_error (order log) i) as [n|] eqn:E; [|apply nth_error_None in E; exfalso; revert E; apply Nat.lt_nge; exact Hi].
    exists n. rewrite H5. apply nth_position; assumption.
  - intros n m i E1 E2. rewrite H5 in E1, E2. apply position_bound in E1, E2. congruence.
Qed.
Print Assumptions C14_indexes_bijective.

(* C15 (part): when no accepted command changed the variable of a live equation, a
   variable belongs to e iff e was last given with it.  Missing: commands that do
   change the variable, for which the claim is false (below). *)
Theorem C15_variables_partial : forall (B : Type) (cs : list (cmd B)),
  let (t, log) := run 0 empty cs in stable log ->
  forall v e, equation_of_variable t v = Some e <-> exists b, given log e = Some (v, b).
Proof. intros. apply c15_lemma. Qed.
Print Assumptions C15_variables_partial.

(* a non trivial history: an equation is replaced, another deleted and added again *)
Definition hist : list (cmd nat) :=
  [Equation "p" "P" 1; Equation "e" "E" 2; Equation "h" "H" 3; Equation "p" "P" 4;
   DeleteEquation "e"; Equation "x" "P" 5; Equation "e" "E2" 6; DeleteEquation "none"].
Example hist_log : snd (run 0 empty hist) =
  [Equation "p" "P" 1; Equation "e" "E" 2; Equation "h" "H" 3; Equation "p" "P" 4; DeleteEquation "e"; Equation "e" "E2" 6].
Proof. vm_compute. reflexivity. Qed.
Example hist_stable : stable (snd (run 0 empty hist)).
Proof. rewrite hist_log. vm_compute. repeat split. Qed.
Example hist_index : map (equation_index (fst (run 0 empty hist))) ["p"; "h"; "e"; "x"] = [Some 0; Some 1; Some 2; None].
Proof. vm_compute. reflexivity. Qed.

(* C15 is false: giving e another variable leaves the old one attached to e, so that
   no other equation can be defined on it, *)
Theorem C15_old_variable_refuted :
  let (t, log) := run 0 empty [Equation "e" "v1" 0; Equation "e" "v2" 1; Equation "f" "v1" 2] in
  log = [Equation "e" "v1" 0; Equation "e" "v2" 1] /\
  given log "e" = Some ("v2", 1) /\ equation_of_variable t "v1" = Some "e".
Proof. vm_compute. repeat split. Qed.
Print Assumptions C15_old_variable_refuted.

(* and an equation can take over the variable of another one, after which deleting
   the other detaches the variable and deleting the first one fails for good *)
Theorem C15_take_over_refuted :
  let (t, log) := run 0 empty [Equation "e" "v1" 0; Equation "f" "v2" 1; Equation "e" "v2" 2; DeleteEquation "f"; DeleteEquation "e"] in
  log = [Equation "e" "v1" 0; Equation "f" "v2" 1; Equation "e" "v2" 2; DeleteEquation "f"] /\
  given log "e" = Some ("v2", 2) /\ equation_of_variable t "v2" = None.
Proof. vm_compute. repeat split. Qed.
Print Assumptions C15_take_over_refuted.

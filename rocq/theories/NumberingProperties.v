(* C13: the rows of the global system are numbered one to one. *)
From Coq Require Import String List ZArith Lia.
From Verif Require Import StrMap EqTable EqTableProofs NodeKeeper NodeKeeperProofs Numbering NumberingProofs.
Import ListNotations.
Open Scope Z_scope.

(* For every system that commands can build and whose number of unknowns fits in
   size_t: numbering reports exactly that number N, every unknown (equation of a
   region at a node; circuit node other than ground) gets a row in [0,N), no two get
   the same row, every row belongs to an unknown, and ground gets none. *)
Theorem C13_bijection : forall s, reachable s -> total s < 2 ^ 64 ->
  exists s', number_system s = (s', Some (total s)) /\
    (forall u, is_unknown s' u <-> is_unknown s u) /\
    (forall u, is_unknown s u -> exists v, row_of s' u = Some v /\ 0 <= v < total s) /\
    (forall u u' v, is_unknown s u -> is_unknown s u' -> row_of s' u = Some v -> row_of s' u' = Some v -> u = u') /\
    (forall v, 0 <= v < total s -> exists u, is_unknown s u /\ row_of s' u = Some v) /\
    (forall g n, find g (k_nodes (s_ckt s)) = Some n -> is_ground n = true -> row_of s' (UCircuit g) = None).
Proof. exact c13_lemma. Qed.
Print Assumptions C13_bijection.

(* two devices, a region without equations, one without nodes, and a circuit *)
Definition eqs (l : list (cmd unit)) : table unit := fst (run 0 empty l).
Definition ex_sys : system := mkSys
  [("a", [("r1", mkRg 3 (eqs [Equation "p" "V" tt; Equation "e" "n" tt; Equation "x" "y" tt; DeleteEquation "p"]) m1);
          ("r2", mkRg 5 (eqs []) m1)]);
   ("b", [("r1", mkRg 0 (eqs [Equation "p" "V" tt]) m1); ("r2", mkRg 2 (eqs [Equation "p" "V" tt]) m1)])]%string
  (crun k_new [CircuitElement EV "V1" "in" "0"]%string).
Example ex_reachable : reachable ex_sys.
Proof.
  split; [repeat constructor|]. split.
  - intros d dv H. cbn [find ex_sys s_devs] in H. destruct (String.eqb d "a"); [|destruct (String.eqb d "b"); [|discriminate]]; injection H as <-.
    + split; [repeat constructor|]. intros r rg H. cbn [find] in H.
      destruct (String.eqb r "r1"); [|destruct (String.eqb r "r2"); [|discriminate]]; injection H as <-; cbn [r_table]; unfold eqs; eexists; reflexivity.
    + split; [repeat constructor|]. intros r rg H. cbn [find] in H.
      destruct (String.eqb r "r1"); [|destruct (String.eqb r "r2"); [|discriminate]]; injection H as <-; cbn [r_table]; unfold eqs; eexists; reflexivity.
  - eexists. reflexivity.
Qed.
Example ex_total : total ex_sys = 10. Proof. vm_compute. reflexivity. Qed.
Example ex_rows : map (row_of (fst (number_system ex_sys)))
   [UBulk "a" "r1" "e" 0; UBulk "a" "r1" "x" 2; UBulk "b" "r2" "p" 1; UCircuit "V1.I"; UCircuit "in"; UCircuit "GND"]%string =
   [Some 0; Some 5; Some 7; Some 8; Some 9; None].
Proof. vm_compute. reflexivity. Qed.


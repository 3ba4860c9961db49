(* Specification of an electrical circuit, over the real numbers: node voltages,
   branch currents, Kirchhoff's current law and the law of each element. *)
From Coq Require Import String List Bool Arith Reals.
From Verif Require Import StrMap NodeKeeper Assembly AssemblyProofs Circuit.
Import ListNotations.

(* v: voltage of n1 over n2; i: current flowing through the element from n1 to n2;
   dv, di: their time derivatives *)
Definition law (k : kind R) (v i dv di : R) : Prop :=
  match k with
  | KR r => v = (r * i)%R
  | KC c => i = (c * dv)%R
  | KL l => v = (l * di)%R
  | KV e _ _ => v = e
  | KI j => i = (- j)%R
  end.
(* the same for phasors at angular frequency w: v = vr + j vi, i = ir + j ii *)
Definition phasor_law (w : R) (k : kind R) (vr vi ir ii : R) : Prop :=
  match k with
  | KR r => vr = (r * ir)%R /\ vi = (r * ii)%R
  | KC c => ir = (- (w * c * vi))%R /\ ii = (w * c * vr)%R
  | KL l => vr = (- (w * l * ii))%R /\ vi = (w * l * ir)%R
  | KV _ re im => vr = re /\ vi = im
  | KI _ => ir = 0%R /\ ii = 0%R
  end.
(* inductors and voltage sources have an extra unknown, the current *)
Definition has_current (k : kind R) : bool := match k with KL _ | KV _ _ _ => true | _ => false end.

Section Spec.
Variable c : ckt R.
Definition is_gnd (s : string) : bool := match find s (k_nodes (c_nodes c)) with Some n => is_ground n | None => true end.
(* number of the unknown of a node *)
Definition unknown (s : string) : option nat := match find s (k_nodes (c_nodes c)) with Some n => n_num n | None => None end.
Definition voltage (sol : solution R) (s : string) : R := if is_gnd s then 0%R else sol (unknown s).
Definition drop (sol : solution R) (p : string * inst R) : R := (voltage sol (i_n1 (snd p)) - voltage sol (i_n2 (snd p)))%R.
(* current leaving node s, through all elements *)
Definition leaving (i : string -> R) (s : string) : R :=
  rsum (fun p : string * inst R => ((if String.eqb (i_n1 (snd p)) s then i (fst p) else 0) - (if String.eqb (i_n2 (snd p)) s then i (fst p) else 0))%R) (c_insts c).
Definition kcl (i : string -> R) : Prop := forall s, In s (keys (k_nodes (c_nodes c))) -> is_gnd s = false -> leaving i s = 0%R.
(* the current of inductors and voltage sources is the unknown called <name>.I *)
Definition currents (sol : solution R) (i : string -> R) : Prop :=
  forall p, In p (c_insts c) -> has_current (i_kind (snd p)) = true -> i (fst p) = sol (unknown (internal (fst p))).
(* a discretised time derivative: sum of weights times values at solutions *)
Definition rate (hist : list (R * solution R)) (f : solution R -> R) : R := rsum (fun h => (fst h * f (snd h))%R) hist.
Definition laws (sol : solution R) (i : string -> R) (hist : list (R * solution R)) : Prop :=
  forall p, In p (c_insts c) ->
    law (i_kind (snd p)) (drop sol p) (i (fst p)) (rate hist (fun x => drop x p)) (rate hist (fun x => x (unknown (internal (fst p))))).
(* no node that an element is connected to has the name of an internal unknown *)
Definition no_clash : Prop := forall p q, In p (c_insts c) -> In q (c_insts c) -> has_current (i_kind (snd p)) = true ->
  i_n1 (snd q) <> internal (fst p) /\ i_n2 (snd q) <> internal (fst p).
Definition no_short : Prop := forall p r, In p (c_insts c) -> i_kind (snd p) = KR r -> r <> 0%R.

(* what is loaded at a row: static part plus weighted time parts *)
Definition dc_row (sol : solution R) (r : nat) : R :=
  match assemble_dc rF Rinv c sol with Some (_, v) => row_sum v r | None => 0%R end.
Definition tr_row (sol : solution R) (r : nat) : R :=
  match assemble_tr rF c sol with Some (_, v) => row_sum v r | None => 0%R end.
Definition total_row (sol : solution R) (hist : list (R * solution R)) (r : nat) : R :=
  (dc_row sol r + rate hist (fun x => tr_row x r))%R.
(* product of a loaded matrix with a vector *)
Definition product (m : mat_list R) (x : solution R) (r : nat) : R :=
  rsum (fun e : nat * nat * R => if Nat.eqb (fst (fst e)) r then (snd e * x (Some (snd (fst e))))%R else 0%R) m.
End Spec.

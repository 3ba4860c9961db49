(* Model of small-signal and noise analysis: math/Newton.cc:372-420 (LoadCircuitRHSAC,
   LoadMatrixAndRHSAC), 1153-1239 (ACSolve), 1242-1350 (NoiseSolve),
   Geometry/Device.cc:361-387, Geometry/Region.cc:1342-1384, Equation/Equation.cc:319-433
   and 527-547, models/NodeModel.cc:66-75, Circuit/data/NodeKeeper.cc:280-286, 370-410.
   A complex number is the pair of its parts.
   Simplifications: the entries that devices, circuit and custom equations assemble are
   given, as in Load.v; the linear solver is a parameter; the vector gradients that
   DefaultNoiseUpdate adds to a new model (Equation.cc:422-432) and the errors reported
   by the circuit are left out; an exception ends the command without a state. *)
From Coq Require Import String List Bool Arith ZArith.
From Verif Require Import StrMap EqTable NodeKeeper Numbering Assembly Load.
Import ListNotations.
Open Scope string_scope.

Section SmallSignal.
Context {S : Type} (F : scalar S).
Local Notation complex := (S * S)%type.
(* std::complex *)
Definition cF : scalar complex := mkSc complex (s_zero F, s_zero F) (s_one F, s_zero F)
  (fun x y => (s_add F (fst x) (fst y), s_add F (snd x) (snd y)))
  (fun x y => (s_add F (s_mul F (fst x) (fst y)) (s_opp F (s_mul F (snd x) (snd y))), s_add F (s_mul F (fst x) (snd y)) (s_mul F (snd x) (fst y))))
  (fun x => (s_opp F (fst x), s_opp F (snd x))).

(* assembly with MATRIXONLY leaves every right hand side empty (Assembly.v: the rhs is
   built only if w is not MATRIXONLY); the assembled values are real *)
Definition cmat (m : mat_list S) : mat_list complex := map (fun p => (fst (fst p), snd (fst p), (snd p, s_zero F))) m.
Definition matrix_only_device (d : Load.device S) : Load.device complex := mkDev (d_perms d) (cmat (d_bm d)) [] (cmat (d_m d)) [].
Definition matrix_only (p : parts S) : parts complex :=
  mkParts (map matrix_only_device (p_devices p)) (option_map (fun c => (fst c, (cmat (fst (snd c)), []))) (p_circuit p))
    (cmat (p_pm p)) [] (cmat (p_m p)) [].
(* Newton.cc:403-420; the scale 1 of the first pass is real there.  jOmega = 2 pi j f *)
Definition load_ac (n : nat) (dc time : parts S) (omega : S) : out (permvec * Load.system complex) :=
  Load.bind (load_perms (identity n) (p_devices dc)) (fun pv =>
  Load.bind (load_system cF n pv (matrix_only dc) (s_one F, s_zero F) (mkSys [] (repeat (s_zero cF) n))) (fun s =>
  Load.bind (load_system cF n pv (matrix_only time) (s_zero F, omega) s) (fun s' => OK (pv, s')))).
(* Newton.cc:373-400: the sources are assigned, not added *)
Fixpoint set_sources (off : nat) (l : list (nat * complex)) (rhs : list complex) : out (list complex) :=
  match l with
  | nil => OK rhs
  | (r, v) :: t => match set_nth rhs (r + off) v with Some rhs' => set_sources off t rhs' | None => UB end
  end.

(* ---- where the results are stored ------------------------------------------------ *)
(* values of the node models of every region, and the solutions of the circuit *)
Record store := mkStore { st_models : string -> string -> smap (list S); st_ckt : smap (list S) }.
Fixpoint all_out {A} (l : list (out A)) : out (list A) :=
  match l with nil => OK nil | o :: t => Load.bind o (fun a => Load.bind (all_out t) (fun r => OK (a :: r))) end.
(* result[eqrow] for the node with index i *)
Definition result_at (x : list complex) (row : Z) : out complex := match nth_error x (Z.to_nat row) with Some v => OK v | None => UB end.
(* Equation.cc:355-363 *)
Definition node_values (rg : Numbering.region) (ind : nat) (get : Z -> out complex) : out (list complex) :=
  all_out (map (fun i => match region_row rg ind i with Some row => get row | None => Throw end) (seq 0 (r_nodes rg))).
(* Equation.cc:409-420: a row that was removed leaves the value zero; KeepCopy is ignored *)
Definition noise_at (pv : permvec) (x : list complex) (row : Z) : out complex :=
  match nth_error pv (Z.to_nat row) with
  | None => UB
  | Some (None, _) => OK (s_zero cF)
  | Some (Some r, _) => result_at x (Z.of_nat r)
  end.
(* the models named [re] and [im] are created if missing and get the values *)
Definition set_models (ms : smap (list S)) (re im : string) (vs : list complex) : smap (list S) :=
  put im (map snd vs) (put re (map fst vs) ms).
(* Region.cc:1342-1364, 1366-1384 with Equation.cc:319-367, 369-420: the equations in the
   order of their names; [names]: the models of an equation, None if its variable has none *)
Fixpoint update_equations (rg : Numbering.region) (names : smap (list S) -> string -> string -> option (string * string)) (get : Z -> out complex)
    (l : smap (eqn unit)) (ms : smap (list S)) : out (smap (list S)) :=
  match l with
  | nil => OK ms
  | (e, q) :: t =>
    match names ms e (q_var q) with
    | None => Throw
    | Some (re, im) =>
      match equation_index (r_table rg) e with
      | None => Throw
      | Some ind => Load.bind (node_values rg ind get) (fun vs => update_equations rg names get t (set_models ms re im vs))
      end
    end
  end.
(* Region.cc:1356-1359: the variable must have a node model; NodeModel.cc:66-75 *)
Definition ac_names (ms : smap (list S)) (e var : string) : option (string * string) :=
  if has var ms then Some (var ++ "_Real", var ++ "_Imag") else None.
(* Equation.cc:527-547 *)
Definition noise_names (output : string) (ms : smap (list S)) (e var : string) : option (string * string) :=
  Some (output ++ "_" ++ e ++ "_real", output ++ "_" ++ e ++ "_imag").
Definition update_region (names : smap (list S) -> string -> string -> option (string * string)) (get : Z -> out complex) (rg : Numbering.region) (ms : smap (list S)) : out (smap (list S)) :=
  match t_num (r_table rg) with O => OK ms | _ => update_equations rg names get (t_eqs (r_table rg)) ms end.
Definition set_region (m : string -> string -> smap (list S)) (d r : string) (v : smap (list S)) : string -> string -> smap (list S) :=
  fun d' r' => if String.eqb d' d then if String.eqb r' r then v else m d' r' else m d' r'.
(* Device.cc:361-387 and Newton.cc:1205-1213, 1326-1334: every region of every device *)
Fixpoint update_regions (names : smap (list S) -> string -> string -> option (string * string)) (get : Z -> out complex) (d : string) (l : Numbering.device)
    (m : string -> string -> smap (list S)) : out (string -> string -> smap (list S)) :=
  match l with
  | nil => OK m
  | (r, rg) :: t => Load.bind (update_region names get rg (m d r)) (fun v => update_regions names get d t (set_region m d r v))
  end.
Fixpoint update_devices (names : smap (list S) -> string -> string -> option (string * string)) (get : Z -> out complex) (l : smap Numbering.device)
    (m : string -> string -> smap (list S)) : out (string -> string -> smap (list S)) :=
  match l with
  | nil => OK m
  | (d, dv) :: t => Load.bind (update_regions names get d dv m) (update_devices names get t)
  end.
(* NodeKeeper.cc:280-286, 250-275 *)
Definition init_solution (k : keeper) (key : string) (sols : smap (list S)) : out (smap (list S)) :=
  if has key sols then OK sols
  else match k_count k with O => Throw | n => OK (put key (repeat (s_zero F) n) sols) end.
(* NodeKeeper.cc:384-404 *)
Fixpoint circuit_values (k : keeper) (x : list complex) (l : smap node) (re im : list S) : out (list S * list S) :=
  match l with
  | nil => OK (re, im)
  | (s, nd) :: t =>
    if is_ground nd then circuit_values k x t re im
    else match n_num nd with
      | None => UB
      | Some i =>
        match nth_error x (i + k_min k) with
        | None => UB
        | Some v =>
          match set_nth re i (fst v), set_nth im i (snd v) with
          | Some re', Some im' => circuit_values k x t re' im'
          | _, _ => UB
          end
        end
      end
  end.
(* NodeKeeper.cc:370-410 *)
Definition update_circuit (k : keeper) (x : list complex) (rkey ikey : string) (sols : smap (list S)) : out (smap (list S)) :=
  match find rkey sols, find ikey sols with
  | Some re, Some im => Load.bind (circuit_values k x (k_nodes k) re im) (fun p => OK (put ikey (snd p) (put rkey (fst p) sols)))
  | _, _ => Throw
  end.

(* the command succeeds, the linear solver fails (the command is an error), other errors
   that are reported, an exception, undefined behaviour *)
Inductive solved := Solved (s : store) | Unsolved (s : store) | Refused | Thrown | Undefined.
Definition of_out (o : out store) : solved := match o with OK s => Solved s | Throw => Thrown | UB => Undefined end.
Definition have_nodes (k : keeper) : bool := match k_nodes k with nil => false | _ => true end.

Section Solver.
Variable solve : mat_list complex -> list complex -> option (list complex).
(* Newton.cc:1153-1239; [sources]: what InstanceKeeper::assembleACRHS yields *)
Definition ac_solve (s : Numbering.system) (st : store) (dc time : parts S) (omega : S) (sources : list (nat * complex)) : solved :=
  match number_system s with
  | (_, None) => Thrown
  | (s', Some num) =>
    let n := Z.to_nat num in
    let k := s_ckt s' in
    match (if have_nodes k then
             Load.bind (init_solution k "ssac_real" (st_ckt st)) (fun a =>
             Load.bind (init_solution k "ssac_imag" a) (init_solution k "dcop")) else OK (st_ckt st)) with
    | Throw => Thrown
    | UB => Undefined
    | OK sols =>
      match load_ac n dc time omega with
      | Throw => Thrown
      | UB => Undefined
      | OK (_, sy) =>
        match (if have_nodes k then set_sources (k_min k) sources (sy_rhs sy) else OK (sy_rhs sy)) with
        | Throw => Thrown
        | UB => Undefined
        | OK rhs =>
          match solve (sy_ops sy) rhs with
          | None => Unsolved (mkStore (st_models st) sols)
          | Some x => of_out
              (Load.bind (update_devices ac_names (result_at x) (s_devs s') (st_models st)) (fun m =>
               Load.bind (if have_nodes k then update_circuit k x "ssac_real" "ssac_imag" sols else OK sols) (fun c =>
               OK (mkStore m c))))
          end
        end
      end
    end
  end.
End Solver.
Section NoiseSolver.
(* solves with the transposed matrix *)
Variable solve_transposed : mat_list complex -> list complex -> option (list complex).
(* Newton.cc:1242-1350 *)
Definition noise_solve (s : Numbering.system) (st : store) (dc time : parts S) (omega : S) (output : string) : solved :=
  match number_system s with
  | (_, None) => Thrown
  | (s', Some num) =>
    let n := Z.to_nat num in
    let k := s_ckt s' in
    if negb (have_nodes k) then Refused
    else match equation_number k output with
    | None => Refused
    | Some row =>
      let rkey := "noise_" ++ output ++ "_real" in
      let ikey := "noise_" ++ output ++ "_imag" in
      match Load.bind (init_solution k rkey (st_ckt st)) (fun a =>
            Load.bind (init_solution k ikey a) (init_solution k "dcop")) with
      | Throw => Thrown
      | UB => Undefined
      | OK sols =>
        match load_ac n dc time omega with
        | Throw => Thrown
        | UB => Undefined
        | OK (pv, sy) =>
          match set_nth (sy_rhs sy) row (s_one cF) with
          | None => Undefined
          | Some rhs =>
            match solve_transposed (sy_ops sy) rhs with
            | None => Unsolved (mkStore (st_models st) sols)
            | Some x => of_out
                (Load.bind (update_devices (noise_names output) (noise_at pv x) (s_devs s') (st_models st)) (fun m =>
                 Load.bind (update_circuit k x rkey ikey sols) (fun c =>
                 OK (mkStore m c))))
            end
          end
        end
      end
    end
  end.
End NoiseSolver.
End SmallSignal.
Arguments store : clear implicits.
Arguments solved : clear implicits.

(* Model of the iterative linear solver: math/gmres.cc:16-30 (Update), 58-80 (plane rotations),
   84-222 (vectors), 256-318 (GMRES), 334-345 (entry), math/IterativeLinearSolver.cc:24-62.
   A std::vector is the list of its elements; the work arrays s, cs, sn, v of length m+1 and
   the matrix H of size m+1 are functions of their indices (no index exceeds m); entries not yet
   written are zero.
   Simplifications: exact real arithmetic; the matrix product, the preconditioner and the BLAS
   routine drotg are parameters; a division by zero in a vector that is used ends in NotANumber
   (the code goes on with nan and inf). *)
From Coq Require Import List Arith Reals.
Import ListNotations.
Open Scope R_scope.

Local Notation vector := (list R).
(* gmres.cc:97-137, 157-165 *)
Fixpoint vdot (x y : vector) : R := match x, y with a :: x', b :: y' => a * b + vdot x' y' | _, _ => 0 end.
Fixpoint vsub (x y : vector) : vector := match x, y with a :: x', b :: y' => (a - b) :: vsub x' y' | _, _ => x end.
Fixpoint vadd (x y : vector) : vector := match x, y with a :: x', b :: y' => (a + b) :: vadd x' y' | _, _ => x end.
Definition vscale (x : vector) (c : R) : vector := map (fun a => a * c) x.
(* gmres.cc:239-245 *)
Definition vnorm (x : vector) : R := sqrt (vdot x x).

Definition set1 {A} (f : nat -> A) (i : nat) (a : A) : nat -> A := fun k => if (k =? i)%nat then a else f k.
Definition set2 (h : nat -> nat -> R) (i j : nat) (a : R) : nat -> nat -> R :=
  fun k l => if (k =? i)%nat then if (l =? j)%nat then a else h k l else h k l.
Definition Rltb (a b : R) : bool := if Rlt_dec a b then true else false.
Definition Rleb (a b : R) : bool := if Rle_dec a b then true else false.
Definition Reqb0 (a : R) : bool := if Req_EM_T a 0 then true else false.

Record work := mkW { w_h : nat -> nat -> R; w_cs : nat -> R; w_sn : nat -> R; w_s : nat -> R; w_v : nat -> option vector }.

(* gmres.cc:16-25: the back substitution; None if a pivot is zero *)
Definition eliminate (h : nat -> nat -> R) (i : nat) (y : nat -> R) : nat -> R :=
  fold_left (fun y j => set1 y j (y j - h j i * y i)) (rev (seq 0 i)) y.
Fixpoint backsolve (h : nat -> nat -> R) (n : nat) (y : nat -> R) : option (nat -> R) :=
  match n with
  | O => Some y
  | S i => if Reqb0 (h i i) then None else backsolve h i (eliminate h i (set1 y i (y i / h i i)))
  end.
(* gmres.cc:27-29 *)
Fixpoint accumulate (v : nat -> option vector) (y : nat -> R) (l : list nat) (x : vector) : option vector :=
  match l with
  | nil => Some x
  | j :: t => match v j with Some vj => accumulate v y t (vadd x (vscale vj (y j))) | None => None end
  end.
(* [n] = k + 1 of gmres.cc:17 *)
Definition update (x : vector) (n : nat) (w : work) : option vector :=
  match backsolve (w_h w) n (w_s w) with None => None | Some y => accumulate (w_v w) y (seq 0 n) x end.

(* code, x, max_iter, tol; [Loops]: the outer loop makes no progress *)
Inductive result := Return (code : nat) (x : vector) (iter : nat) (tol : R) | NotANumber | Loops.

Section Gmres.
Variable mul : vector -> vector.      (* A * x *)
Variable psolve : vector -> vector.   (* M.solve *)
Variable rotg : R -> R -> R * R.      (* drotg: cs and sn *)

(* gmres.cc:74-80 on H(k,i), H(k+1,i) and on s(i), s(i+1) *)
Definition rotate_column (c s : R) (k i : nat) (h : nat -> nat -> R) : nat -> nat -> R :=
  set2 (set2 h (S k) i (- s * h k i + c * h (S k) i)) k i (c * h k i + s * h (S k) i).
Definition rotate_rhs (c s : R) (i : nat) (g : nat -> R) : nat -> R :=
  set1 (set1 g (S i) (- s * g i + c * g (S i))) i (c * g i + s * g (S i)).
(* gmres.cc:283-286: one pass for every earlier vector; None if one of them is not a number *)
Fixpoint orthogonalize (v : nat -> option vector) (i : nat) (l : list nat) (h : nat -> nat -> R) (w : vector) : option ((nat -> nat -> R) * vector) :=
  match l with
  | nil => Some (h, w)
  | k :: t => match v k with
              | None => None
              | Some vk => let d := vdot w vk in orthogonalize v i t (set2 h k i d) (vsub w (vscale vk d))
              end
  end.
(* gmres.cc:282-295, up to the test *)
Definition arnoldi (i : nat) (w : work) : option work :=
  match w_v w i with
  | None => None
  | Some vi =>
    match orthogonalize (w_v w) i (seq 0 (S i)) (w_h w) (psolve (mul vi)) with
    | None => None
    | Some (h, x) =>
      let nx := vnorm x in
      let h1 := set2 h (S i) i nx in
      let v := set1 (w_v w) (S i) (if Reqb0 nx then None else Some (vscale x (1 / nx))) in
      let h2 := fold_left (fun h k => rotate_column (w_cs w k) (w_sn w k) k i h) (seq 0 i) h1 in
      let cs := rotg (h2 i i) (h2 (S i) i) in
      Some (mkW (rotate_column (fst cs) (snd cs) i i h2) (set1 (w_cs w) i (fst cs)) (set1 (w_sn w) i (snd cs))
                (rotate_rhs (fst cs) (snd cs) i (w_s w)) v)
    end
  end.

Section Cycle.
Variable m max_iter : nat.
Variable tol normb : R.
Inductive inner_end := Converged (x : vector) (j : nat) (resid : R) | Exhausted (w : work) (j : nat) | Undefined.
(* gmres.cc:281-303; [fuel] = m - i *)
Fixpoint inner (fuel i j : nat) (x : vector) (w : work) : inner_end :=
  match fuel with
  | O => Exhausted w j
  | S f =>
    if (j <=? max_iter)%nat then
      match arnoldi i w with
      | None => Undefined
      | Some w' =>
        let resid := Rabs (w_s w' (S i)) / normb in
        if Rltb resid tol then match update x (S i) w' with Some x' => Converged x' j resid | None => Undefined end
        else inner f (S i) (S j) x w'
      end
    else Exhausted w j
  end.
(* gmres.cc:276-314 *)
Fixpoint outer (fuel j : nat) (x b r : vector) (w : work) (resid : R) : result :=
  if (j <=? max_iter)%nat then
    match fuel with
    | O => Loops
    | S f =>
      let beta := vnorm r in
      let w0 := mkW (w_h w) (w_cs w) (w_sn w) (set1 (fun _ => 0) 0 beta)
                    (set1 (w_v w) 0 (if Reqb0 beta then None else Some (vscale r (1 / beta)))) in
      match inner m 0 j x w0 with
      | Undefined => NotANumber
      | Converged x' j' resid' => Return 0 x' j' resid'
      | Exhausted w' j' =>
        match update x m w' with
        | None => NotANumber
        | Some x' =>
          let r' := psolve (vsub b (mul x')) in
          let resid' := vnorm r' / normb in
          if Rltb resid' tol then Return 0 x' j' resid' else outer f j' x' b r' w' resid'
        end
      end
    end
  else Return 1 x max_iter resid.
(* gmres.cc:256-276 *)
Definition gmres (x b : vector) : result :=
  let r := psolve (vsub b (mul x)) in
  let resid := vnorm r / normb in
  if Rleb resid tol then Return 0 x 0 resid
  else outer (S max_iter) 1 x b r (mkW (fun _ _ => 0) (fun _ => 0) (fun _ => 0) (fun _ => 0) (fun _ => None)) resid.
End Cycle.

(* gmres.cc:264-269 *)
Definition norm_of_b (b : vector) : R := if Reqb0 (vnorm (psolve b)) then 1 else vnorm (psolve b).
(* IterativeLinearSolver.cc:24-62, Newton.cc:707-723 (the solution starts at zero): what the
   solver reports, and the solution; the result of GMRES is only printed *)
Definition iterative_solve (factored : bool) (b : vector) : bool * result :=
  if factored then (true, gmres 50 100 (1 / 10 ^ 20) (norm_of_b b) (repeat 0 (length b)) b) else (false, Return 1 (repeat 0 (length b)) 0 0).
End Gmres.

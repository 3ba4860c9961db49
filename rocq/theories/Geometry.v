(* Centres of triangles and tetrahedra: src/Geometry/Triangle.cc:93-190, src/Geometry/Tetrahedron.cc:59-110,
   vectors: src/Geometry/Vector.hh:19-190.  Real numbers instead of double or float128. *)
From Coq Require Import Reals.
Open Scope R_scope.

(* Vector.hh:19-150 *)
Record vec := mkvec { vx : R; vy : R; vz : R }.
Definition vsub (a b : vec) : vec := mkvec (vx a - vx b) (vy a - vy b) (vz a - vz b).
Definition vadd (a b : vec) : vec := mkvec (vx a + vx b) (vy a + vy b) (vz a + vz b).
Definition vneg (a : vec) : vec := mkvec (- vx a) (- vy a) (- vz a).
Definition vscale (d : R) (a : vec) : vec := mkvec (vx a * d) (vy a * d) (vz a * d).
Definition dot (a b : vec) : R := vx a * vx b + vy a * vy b + vz a * vz b.
Definition cross (a b : vec) : vec :=
  mkvec (vy a * vz b - vz a * vy b) (vz a * vx b - vx a * vz b) (vx a * vy b - vy a * vx b).
Definition magnitude (a : vec) : R := sqrt (vx a * vx a + vy a * vy a + vz a * vz a).

(* Triangle.cc:93-121 GetTriangleCenter3d *)
Definition center3d (p1 p2 p3 : vec) : vec :=
  let p12 := vsub p1 p2 in let p13 := vsub p1 p3 in let p23 := vsub p2 p3 in
  let tden1 := cross p12 p23 in
  let den := 2 * dot tden1 tden1 in
  let deninv := 1 / den in
  let alpha := dot p23 p23 * dot p12 p13 * deninv in
  let beta := dot p13 p13 * dot (vneg p12) p23 * deninv in
  let gamma := dot p12 p12 * dot p13 p23 * deninv in
  vadd (vadd (vscale alpha p1) (vscale beta p2)) (vscale gamma p3).
Section M.
Variable eps : R. (* Triangle.cc:17, 1.0e-20 *)
(* Triangle.cc:123-157 GetTriangleCenterInPlane *)
Definition center_in_plane (x0 x1 x2 y0 y1 y2 : R) : R * R :=
  if Rlt_dec (Rabs (y1 - y0)) eps then
    let m1 := - (x2 - x1) / (y2 - y1) in
    let mx1 := (x1 + x2) / 2 in let my1 := (y1 + y2) / 2 in
    let xc := (x1 + x0) / 2 in (xc, m1 * (xc - mx1) + my1)
  else if Rlt_dec (Rabs (y2 - y1)) eps then
    let m0 := - (x1 - x0) / (y1 - y0) in
    let mx0 := (x0 + x1) / 2 in let my0 := (y0 + y1) / 2 in
    let xc := (x2 + x1) / 2 in (xc, m0 * (xc - mx0) + my0)
  else
    let m0 := - (x1 - x0) / (y1 - y0) in let m1 := - (x2 - x1) / (y2 - y1) in
    let mx0 := (x0 + x1) / 2 in let mx1 := (x1 + x2) / 2 in
    let my0 := (y0 + y1) / 2 in let my1 := (y1 + y2) / 2 in
    let xc := (m0 * mx0 - m1 * mx1 + my1 - my0) / (m0 - m1) in (xc, m0 * (xc - mx0) + my0).
(* Triangle.cc:159-190 GetTriangleCenter *)
Definition triangle_center (v0 v1 v2 : vec) : vec :=
  let v10 := vsub v1 v0 in let v20 := vsub v2 v0 in
  let flat d10 d20 := if Rlt_dec (Rabs d10) eps then if Rlt_dec (Rabs d20) eps then true else false else false in
  if flat (vz v10) (vz v20) then
    let t := center_in_plane (vx v0) (vx v1) (vx v2) (vy v0) (vy v1) (vy v2) in mkvec (fst t) (snd t) (vz v0)
  else if flat (vy v10) (vy v20) then
    let t := center_in_plane (vx v0) (vx v1) (vx v2) (vz v0) (vz v1) (vz v2) in mkvec (fst t) (vy v0) (snd t)
  else if flat (vx v10) (vx v20) then
    let t := center_in_plane (vz v0) (vz v1) (vz v2) (vy v0) (vy v1) (vy v2) in mkvec (vx v0) (snd t) (fst t)
  else center3d v0 v1 v2.
End M.

(* Tetrahedron.cc:59-100 GetTetrahedronCenter.  The dense solver (LAPACK) is a parameter: the three
   rows of the matrix and the right hand side, None if it reports a failure (FATAL: BAD TETRAHEDRON). *)
Definition tetrahedron_center (solve : vec -> vec -> vec -> vec -> option vec) (p0 p1 p2 p3 : vec) : option vec :=
  let a := vsub p1 p0 in let b := vsub p2 p0 in let c := vsub p3 p0 in
  match solve a b c (mkvec (/ 2 * dot a a) (/ 2 * dot b b) (/ 2 * dot c c)) with
  | Some x => Some (vadd x p0)
  | None => None
  end.

(* Plain geometry of points in space. *)
From Coq Require Import Reals.
From Verif Require Import Geometry.
Open Scope R_scope.

(* distance of two points *)
Definition dist (a b : vec) : R := sqrt ((vx a - vx b) ^ 2 + (vy a - vy b) ^ 2 + (vz a - vz b) ^ 2).
(* the inner product of b-a and c-a: positive, zero or negative as the angle at a is acute, right or obtuse *)
Definition cosine (a b c : vec) : R := (vx b - vx a) * (vx c - vx a) + (vy b - vy a) * (vy c - vy a) + (vz b - vz a) * (vz c - vz a).
Definition nonobtuse (a b c : vec) : Prop := 0 <= cosine a b c /\ 0 <= cosine b a c /\ 0 <= cosine c a b.
(* the determinant of b-a, c-a, d-a: six times the signed volume of the tetrahedron *)
Definition det3 (a b c d : vec) : R :=
  (vx b - vx a) * ((vy c - vy a) * (vz d - vz a) - (vz c - vz a) * (vy d - vy a))
  - (vy b - vy a) * ((vx c - vx a) * (vz d - vz a) - (vz c - vz a) * (vx d - vx a))
  + (vz b - vz a) * ((vx c - vx a) * (vy d - vy a) - (vy c - vy a) * (vx d - vx a)).
Definition tet_volume (a b c d : vec) : R := Rabs (det3 a b c d) / 6.
(* Lagrange: 4 area^2 = |b-a|^2 |c-a|^2 - ((b-a).(c-a))^2 *)
Definition tri_area (a b c : vec) : R := sqrt (dist a b ^ 2 * dist a c ^ 2 - cosine a b c ^ 2) / 2.
(* the points are the corners of a triangle / tetrahedron *)
Definition triangle (a b c : vec) : Prop := 0 < tri_area a b c.
Definition tetrahedron (a b c d : vec) : Prop := det3 a b c d <> 0.
(* a combination of points *)
Definition comb3 (s t u : R) (a b c : vec) : vec :=
  mkvec (s * vx a + t * vx b + u * vx c) (s * vy a + t * vy b + u * vy c) (s * vz a + t * vz b + u * vz c).
(* p is in the plane of a, b, c and has the same distance from them *)
Definition circumcenter3 (p a b c : vec) : Prop :=
  dist p a = dist p b /\ dist p a = dist p c /\ exists s t u, s + t + u = 1 /\ p = comb3 s t u a b c.
Definition circumcenter4 (p a b c d : vec) : Prop := dist p a = dist p b /\ dist p a = dist p c /\ dist p a = dist p d.
(* coordinates of any two points are equal or differ by at least eps *)
Definition separated (eps : R) (a b : vec) : Prop :=
  let far x y := x = y \/ eps <= Rabs (x - y) in far (vx a) (vx b) /\ far (vy a) (vy b) /\ far (vz a) (vz b).
Definition midpoint (a b : vec) : vec := mkvec ((vx a + vx b) / 2) ((vy a + vy b) / 2) ((vz a + vz b) / 2).
(* p is in the tetrahedron *)
Definition inside4 (p a b c d : vec) : Prop := exists s t u w, 0 <= s /\ 0 <= t /\ 0 <= u /\ 0 <= w /\ s + t + u + w = 1 /\
  p = mkvec (s * vx a + t * vx b + u * vx c + w * vx d) (s * vy a + t * vy b + u * vy c + w * vy d) (s * vz a + t * vz b + u * vz c + w * vz d).

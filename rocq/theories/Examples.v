(** * An executable arithmetic and a concrete body, for non-vacuity examples

    [ZA] computes on integers: division and square root truncate and the
    transcendental functions are simple stand-ins.  It has no numerical
    meaning; it exists so that histories of calls can be computed by
    [vm_compute] and so that claims quantified over every arithmetic can be
    refuted by one. *)
From Coq Require Import List ZArith Bool Arith.
Import ListNotations.
From Verif Require Import Base MUtils MEdge MFace MHull MPoly.

Definition ZA : arith := {|
  num := Z; nofZ := fun z => z;
  nadd := Z.add; nsub := Z.sub; nmul := Z.mul; ndiv := Z.div;
  nopp := Z.opp; nabs := Z.abs; nsqrt := Z.sqrt;
  nlog := fun x => (x + 7)%Z; nacos := fun x => (3 - x)%Z; nsign := Z.sgn;
  nltb := Z.ltb; neqb := Z.eqb; npi := 3%Z; neps := 0%Z; nceil := fun x => x;
  ndot := fun v w => (vx v * vx w + vy v * vy w + vz v * vz w)%Z |}.

Definition zv (x y z : Z) : vec ZA := @V3 (num ZA) x y z.

(** the tetrahedron O, X, Y, Z as scipy would return it *)
Definition tetra_points : list (vec ZA) :=
  [zv 0 0 0; zv 12 0 0; zv 0 12 0; zv 0 0 12].
Definition tetra_hull : hull ZA := {|
  h_points := tetra_points;
  h_simplices := [[1;2;3]; [0;2;3]; [0;1;3]; [0;1;2]];
  h_neighbors := [[1;2;3]; [0;2;3]; [0;1;3]; [0;1;2]];
  h_vertices := [0;1;2;3] |}.
Definition tetra_res : res (polyhedron ZA) :=
  mk_polyhedron (fun _ => Ok tetra_hull) (fun _ _ => true) tetra_points.
Definition empty_poly : polyhedron ZA :=
  {| pl_points := []; pl_faces := []; pl_twin := fun _ => None |}.
Definition tetra : polyhedron ZA :=
  match tetra_res with Ok p => p | Err _ => empty_poly end.

Lemma tetra_built : tetra_res = Ok tetra.
Proof. reflexivity. Qed.

(** * Concrete bodies for the theorems over the reals: a cube (with coplanar
      facets) and a tetrahedron, with observers outside and inside *)
From Coq Require Import Reals Lra ZArith Bool List.
Import ListNotations.
From Verif Require Import Base MUtils MEdge MFace MHull MPoly SpecPoly PPoly PStation PPlain.
From Verif Require Import RVec RArith REdge REdgeModel RAngle ROmega RFace RFacet RPoly RTwin RField RHull RHullZ.
Local Open Scope R_scope.

Definition zv (x y z : Z) : ZV := V3 x y z.
Definition cubeZ : zhull :=
  {| z_points := [zv (-10) (-10) (-10); zv (-10) (-10) 10; zv (-10) 10 (-10); zv (-10) 10 10; zv 10 (-10) (-10); zv 10 (-10) 10; zv 10 10 (-10); zv 10 10 10];
     z_simplices := [[0; 1; 3]; [0; 2; 3]; [4; 5; 7]; [4; 6; 7]; [0; 1; 5]; [0; 4; 5]; [2; 3; 7]; [2; 6; 7]; [0; 2; 6]; [0; 4; 6]; [1; 3; 7]; [1; 5; 7]];
     z_neighbors := [[10; 1; 4]; [6; 0; 8]; [11; 3; 5]; [7; 2; 9]; [11; 5; 0]; [2; 4; 9]; [10; 7; 1]; [3; 6; 8]; [7; 9; 1]; [3; 8; 5]; [6; 11; 0]; [2; 10; 4]];
     z_vertices := [0; 1; 2; 3; 4; 5; 6; 7] |}%nat.
Definition tetraZ : zhull :=
  {| z_points := [zv 0 0 0; zv 12 0 0; zv 0 12 0; zv 0 0 12];
     z_simplices := [[0; 1; 2]; [0; 1; 3]; [0; 2; 3]; [1; 2; 3]];
     z_neighbors := [[3; 2; 1]; [3; 2; 0]; [3; 1; 0]; [2; 1; 0]];
     z_vertices := [0; 1; 2; 3] |}%nat.

Lemma cubeZ_ok : correct_hull (rh cubeZ).
Proof. apply hullb_ok. vm_compute. reflexivity. Qed.
Lemma tetraZ_ok : correct_hull (rh tetraZ).
Proof. apply hullb_ok. vm_compute. reflexivity. Qed.

(** the object that Polyhedron(points) builds when scipy returns the hull h *)
Definition build (h : zhull) : res (polyhedron RA) :=
  mk_polyhedron (A := RA) (fun _ => Ok (rh h)) (fun _ _ => true) (map rv (z_points h)).
Definition body (h : zhull) : polyhedron RA :=
  match build h with
  | Ok p => p
  | Err _ => {| pl_points := []; pl_faces := []; pl_twin := fun _ => None |}
  end.
Lemma body_ok h : hullb h = true ->
  build h = Ok (body h) /\
  closed (body h) /\ length (pl_faces (body h)) = length (z_simplices h) /\
  (forall i f, nth_error (pl_faces (body h)) i = Some f -> face_of (rh h) i f).
Proof.
  intros H.
  destruct (build_ok (fun _ => Ok (rh h)) (fun _ _ => true) (map rv (z_points h)) (rh h) eq_refl (hullb_ok h H))
    as (p & E & _ & C & L & F).
  assert (E' : build h = Ok p) by exact E. unfold body. rewrite E'. auto.
Qed.
Lemma body_regular h o : hullb h = true -> obsb h o = true -> regular (body h) (rv o).
Proof. intros H O. apply (obsb_ok h o _ H O). apply (body_ok h H). Qed.

Definition cube : polyhedron RA := body cubeZ.
Definition tetra : polyhedron RA := body tetraZ.
(** observers *)
Definition o_out : ZV := zv 25 13 17.
Definition o_in : ZV := zv 1 2 4.
Lemma cube_closed : closed cube.
Proof. apply body_ok. vm_compute. reflexivity. Qed.
Lemma tetra_closed : closed tetra.
Proof. apply body_ok. vm_compute. reflexivity. Qed.
Lemma cube_out : regular cube (rv o_out).
Proof. apply body_regular; vm_compute; reflexivity. Qed.
Lemma cube_in : regular cube (rv o_in).
Proof. apply body_regular; vm_compute; reflexivity. Qed.
Lemma tetra_out : regular tetra (rv o_out).
Proof. apply body_regular; vm_compute; reflexivity. Qed.
Lemma tetra_in : regular tetra (rv o_in).
Proof. apply body_regular; vm_compute; reflexivity. Qed.

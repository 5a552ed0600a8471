(** * Model of the reset methods, geec/polyhedron.py:75-78 (Edge), 288-297
      (Face), 973-978 (Polyhedron), as users call them on their own *)
From Coq Require Import List ZArith Bool Arith.
Import ListNotations.
From Verif Require Import Base MUtils MEdge MFace MHull MPoly.

Section Reset.
  Context {A : arith}.
  (** geec/polyhedron.py:75-78 [Edge.reset] *)
  Definition edge_reset (k : ekey) : M (A := A) unit := mbind (set_e_pqr k None) (fun _ => set_e_dpqr k None).
  (** geec/polyhedron.py:288-297 [Face.reset] *)
  Definition face_reset (kf : nat * face A) : M (A := A) unit := fun s =>
    let i := fst kf in
    let s1 :=
      {| hv := hv s; hm := hm s; e_pqr := e_pqr s; e_dpqr := e_dpqr s;
         f_dp1 := fupd (f_dp1 s) i None; f_sign := fupd (f_sign s) i None;
         f_omega := fupd (f_omega s) i None; f_domega := fupd (f_domega s) i None;
         f_pqr := fupd (f_pqr s) i None; f_dpqr := fupd (f_dpqr s) i None;
         f_g := f_g s; f_tensor := f_tensor s |} in
    miter edge_reset (map fst (keyed_edges_of i (snd kf))) s1.
  (** geec/polyhedron.py:973-978 [Polyhedron.reset] (its argument is not used) *)
  Definition polyhedron_reset (p : polyhedron A) : M (A := A) unit := miter face_reset (indexed (pl_faces p)).
End Reset.

(** * Model of the construction of a Polyhedron,
      geec/polyhedron.py:798-926 ([__init__], [_get_faces], [_get_edge_twin]) *)
From Coq Require Import List ZArith Bool Arith.
Import ListNotations.
From Verif Require Import Base MUtils MEdge MFace.

Section Hull.
  Context {A : arith}.
  Local Open Scope num_scope.

  (** scipy.spatial.ConvexHull: the attributes the code reads.  Simplification:
      indices are natural numbers (scipy uses -1 for "no neighbour", which does
      not happen for a closed hull). *)
  Record hull : Type := {
    h_points : list (vec A);
    h_simplices : list (list nat);
    h_neighbors : list (list nat);
    h_vertices : list nat
  }.

  (** np.mean(points[vertices, :], axis=0), geec/polyhedron.py:834 *)
  Definition centroid (points : list (vec A)) (vertices : list nat) : vec A :=
    vdivs (fold_left vadd (map (fun i => pnth i points) vertices) vzero)
          (nofZ (Z.of_nat (length vertices))).

  (** geec/polyhedron.py:840-881: orientation of one simplex.  Returns the
      (possibly reordered) simplex and the unit outward vector.
      [in_hull] stands for [self._in_hull(hull.points, D)] (lines 900-911, a
      feasibility test by scipy.optimize.linprog).
      The [while] loop of lines 854-867: its first statement after the counter
      reads the name [points] (line 857), which is neither a local of
      [_get_faces] nor a module global (it is one only when polyhedron.py is
      run as a script), so entering the loop raises NameError. *)
  Definition orient (points : list (vec A)) (cen : vec A) (in_hull : vec A -> bool)
    (s : list nat) : res (list nat * vec A) :=
    match s with
    | a :: b :: c :: _ =>
        let pA := pnth a points in
        let AB := vsub (pnth b points) pA in
        let AC := vsub (pnth c points) pA in
        let cross := cross3 AB AC in
        let D := cen in
        let D_in_hull := in_hull D in
        let AD := vsub D pA in
        let dt := dot cross AD in
        if ((dt =? n0) && negb D_in_hull)%bool then Err NameError
        else
          let ccw := negb (n0 <? dt) in
          let nrm := norm cross in
          if ccw then Ok (s, vdivs cross nrm)
          else
            (* s[1::] = list(reversed(s[1::])) *)
            Ok (match s with x :: t => x :: rev t | [] => [] end,
                vdivs (vopp cross) nrm)
    | _ => Err ValueError  (* A, B, C = hull.points[s][0:3] *)
    end.

  (** replace element [i] of a list *)
  Fixpoint set_nth {X} (i : nat) (x : X) (l : list X) : list X :=
    match l, i with
    | [], _ => []
    | _ :: t, O => x :: t
    | y :: t, S i' => y :: set_nth i' x t
    end.

  (** geec/polyhedron.py:839-894: the loop.  [hull.simplices] is modified in
      place (line 881 writes through a view of row i), so the rows that a later
      face copies with [hull.simplices[n]] (line 892) are the reordered ones:
      [simps] is the current content of [hull.simplices]. *)
  Fixpoint faces_loop (points : list (vec A)) (cen : vec A) (in_hull : vec A -> bool)
    (simps : list (list nat)) (i : nat) (todo : list (list nat * list nat))
    : res (list (face A)) :=
    match todo with
    | [] => Ok []
    | (s, n) :: todo' =>
        do su <- orient points cen in_hull s;
        let '(s', un) := su in
        let simps' := set_nth i s' simps in
        do f <- mk_face (map (fun k => pnth k points) s') s' un n
                        (map (fun j => nth j simps' []) n);
        do fs <- faces_loop points cen in_hull simps' (S i) todo';
        Ok (f :: fs)
    end.

  (** An edge object is named by (index of its face, index in the face). *)
  Definition ekey : Type := (nat * nat)%type.
  Definition ekey_eqb (k k' : ekey) : bool :=
    (Nat.eqb (fst k) (fst k') && Nat.eqb (snd k) (snd k'))%bool.
  Definition upd {K V} (eqb : K -> K -> bool) (m : K -> option V) (k : K)
    (v : option V) : K -> option V :=
    fun k' => if eqb k k' then v else m k'.

  Definition twinmap : Type := ekey -> option ekey.

  (** geec/polyhedron.py:919-926: search of the twin in [facetwin.edges] *)
  Fixpoint find_twin (e : edge A) (j : nat) (es : list (edge A)) : option nat :=
    match es with
    | [] => None
    | t :: es' =>
        if (veqb (e_start e) (e_end t) && veqb (e_end e) (e_start t))%bool
        then Some j
        else find_twin e (S j) es'
    end.

  (** geec/polyhedron.py:916-926 for one edge.  [faces[edge._twinface]] raises
      IndexError when out of range. *)
  Definition twin_edge (faces : list (face A)) (tw : twinmap) (ke : ekey * edge A)
    : res twinmap :=
    let '(k, e) := ke in
    match tw k with
    | Some _ => Ok tw
    | None =>
        match nth_error faces (e_twinface e) with
        | None => Err IndexError
        | Some ft =>
            match find_twin e 0 (f_edges ft) with
            | None => Ok tw
            | Some j =>
                let k' := (e_twinface e, j) in
                let tw := upd ekey_eqb tw k (Some k') in
                Ok (upd ekey_eqb tw k' (Some k))
            end
        end
    end.

  (** keys and edges of all faces, in iteration order *)
  Definition keyed_edges_of (fi : nat) (f : face A) : list (ekey * edge A) :=
    combine (map (fun j => (fi, j)) (seq 0 (length (f_edges f)))) (f_edges f).
  Definition keyed_edges (faces : list (face A)) : list (ekey * edge A) :=
    concat (map (fun p => keyed_edges_of (fst p) (snd p))
                (combine (seq 0 (length faces)) faces)).

  (** geec/polyhedron.py:913-926 [_get_edge_twin] *)
  Definition get_edge_twin (faces : list (face A)) : res twinmap :=
    foldM (twin_edge faces) (keyed_edges faces) (fun _ => None).

  Record polyhedron : Type := {
    pl_points : list (vec A);
    pl_faces : list (face A);
    pl_twin : twinmap
  }.

  (** geec/polyhedron.py:831-898 [_get_faces].  [zip(..., strict=True)] raises
      ValueError when the two lists differ in length. *)
  Definition get_faces (h : hull) (in_hull : list (vec A) -> vec A -> bool)
    : res (list (face A) * twinmap) :=
    if negb (Nat.eqb (length (h_simplices h)) (length (h_neighbors h)))
    then Err ValueError
    else
      let cen := centroid (h_points h) (h_vertices h) in
      do fs <- faces_loop (h_points h) cen (in_hull (h_points h)) (h_simplices h) 0
                          (combine (h_simplices h) (h_neighbors h));
      do tw <- get_edge_twin fs;
      Ok (fs, tw).

  (** geec/polyhedron.py:798-819 [Polyhedron.__init__] on an ndarray;
      [convex_hull] stands for scipy.spatial.ConvexHull (QhullError when the
      points are degenerate). *)
  Definition mk_polyhedron (convex_hull : list (vec A) -> res hull)
    (in_hull : list (vec A) -> vec A -> bool) (points : list (vec A))
    : res polyhedron :=
    do h <- convex_hull points;
    do ft <- get_faces h in_hull;
    Ok {| pl_points := points; pl_faces := fst ft; pl_twin := snd ft |}.
End Hull.
Arguments hull A : clear implicits.
Arguments polyhedron A : clear implicits.

(** * Specification of Polyhedron.get_gravity without state

    A pure description of what one call computes: no heap, no aliasing, no
    caches that outlive the call.  Independent of MPoly.v. *)
From Coq Require Import List ZArith Bool Arith.
Import ListNotations.
From Verif Require Import Base MUtils MEdge MFace MHull.

Section SpecPoly.
  Context {A : arith}.

  (** value of an edge: line integral and, with gradient, its derivative *)
  Definition ev : Type := (vec A * option (mat A))%type.
  Definition ev_neg (v : ev) : ev := (vopp (fst v), option_map mopp (snd v)).
  Definition ev_add (a b : ev) : ev :=
    (vadd (fst a) (fst b),
     match snd a, snd b with
     | Some x, Some y => Some (madd x y)
     | None, y => y
     | x, None => x
     end).

  (** edges whose value is already known in this call *)
  Definition known : Type := ekey -> option ev.

  (** The value of edge [e] (named [k]): the known one, or else computed and
      then also handed, negated, to the twin.  An edge without twin is an error. *)
  Definition learn (tw : twinmap) (obs : vec A) (gradient : bool) (c : known)
    (k : ekey) (e : edge A) : res known :=
    match c k with
    | Some _ => Ok c
    | None =>
        do v <- edge_integral e obs gradient;
        match tw k with
        | None => Err TypeError
        | Some k' =>
            Ok (upd ekey_eqb (upd ekey_eqb c k (Some v)) k' (Some (ev_neg v)))
        end
    end.

  (** sum over the edges of one face, in order; [None] for no edge *)
  Fixpoint sum_edges (tw : twinmap) (obs : vec A) (gradient : bool) (c : known)
    (acc : option ev) (kes : list (ekey * edge A)) : res (option ev * known) :=
    match kes with
    | [] => Ok (acc, c)
    | (k, e) :: kes' =>
        do c' <- learn tw obs gradient c k e;
        match c' k with
        | None => Err TypeError
        | Some v =>
            sum_edges tw obs gradient c'
              (Some (match acc with None => v | Some a => ev_add a v end)) kes'
        end
    end.

  (** contribution of one face *)
  Definition spec_face (tw : twinmap) (obs : vec A) (density Gc : num A) (gradient : bool)
    (c : known) (fi : nat) (f : face A) : res (vec A * mat A * known) :=
    let dp1 := dot_point1 f obs in
    do od <- get_omega f obs dp1 (nsign dp1) gradient;
    do r <- sum_edges tw obs gradient c None (keyed_edges_of fi f);
    match fst r with
    | None => Err NotImplementedError
    | Some (pqr, dpqr) =>
        let g := face_g (f_un f) density Gc dp1 (fst od) pqr in
        if gradient then
          match dpqr with
          | None => Err NotImplementedError
          | Some d => Ok (g, face_tensor (f_un f) density Gc dp1 (fst od) (snd od) pqr d, snd r)
          end
        else Ok (g, mzero, snd r)
    end.

  Fixpoint spec_faces (tw : twinmap) (obs : vec A) (density Gc : num A) (gradient : bool)
    (c : known) (GT : vec A * mat A) (fs : list (nat * face A)) : res (vec A * mat A) :=
    match fs with
    | [] => Ok GT
    | (fi, f) :: fs' =>
        do r <- spec_face tw obs density Gc gradient c fi f;
        let '(g, t, c') := r in
        spec_faces tw obs density Gc gradient c' (vadd (fst GT) g, madd (snd GT) t) fs'
    end.

  (** the outcome of one call on a fresh polyhedron *)
  Definition spec_gravity (p : polyhedron A) (obs : vec A) (density Gc : num A)
    (gradient : bool) : res (vec A * mat A) :=
    spec_faces (pl_twin p) obs density Gc gradient (fun _ => None) (vzero, mzero)
      (combine (seq 0 (length (pl_faces p))) (pl_faces p)).
End SpecPoly.
Arguments ev A : clear implicits.
Arguments known A : clear implicits.

(** * Model of numpy shapes: observers and points given as arrays of any shape *)
From Coq Require Import List ZArith Bool Arith Lia.
Import ListNotations.
From Verif Require Import Base MUtils MEdge MFace MHull MPoly.

Section Shape.
  Context {A : arith}.
  Local Open Scope num_scope.

  (** A numpy array: its shape, and its entries by index (one number for each axis,
      outermost first).  Arrays of integers: every use below first subtracts the array
      from, or converts it to, an array of doubles, so an integer array stands for the
      doubles its entries convert to. *)
  Record ndarray : Type := { sh : list nat; entry : list nat -> num A }.

  (** numpy's broadcasting rule on shapes read from the last axis: equal lengths, or one
      of them 1; missing axes count as 1. *)
  Fixpoint bcast_rev (a b : list nat) : option (list nat) :=
    match a, b with
    | [], _ => Some b
    | _, [] => Some a
    | x :: a', y :: b' =>
        match bcast_rev a' b' with
        | None => None
        | Some r => if Nat.eqb x y then Some (x :: r)
                    else if Nat.eqb x 1 then Some (y :: r)
                    else if Nat.eqb y 1 then Some (x :: r)
                    else None
        end
    end.
  Definition bcast (a b : list nat) : option (list nat) := option_map (@rev nat) (bcast_rev (rev a) (rev b)).

  (** the entry of an array of shape [s] used at index [i] of the broadcast result *)
  Definition pick (s i : list nat) : list nat :=
    map (fun p => if Nat.eqb (fst p) 1 then 0%nat else snd p) (combine s (skipn (length i - length s)%nat i)).

  (** [x - y] *)
  Definition nd_sub (x y : ndarray) : res ndarray :=
    match bcast (sh x) (sh y) with
    | None => Err ValueError
    | Some s => Ok {| sh := s; entry := fun i => entry x (pick (sh x) i) - entry y (pick (sh y) i) |}
    end.

  Definition nd_vec (v : vec A) : ndarray :=
    {| sh := [3%nat]; entry := fun i => match i with [0%nat] => vx v | [1%nat] => vy v | _ => vz v end |}.

  (** [np.dot(u, x)] for a one-dimensional [u] of length 3: the sum over the last axis of
      a one-dimensional [x], over the last but one axis otherwise. *)
  Definition nd_dot (u : vec A) (x : ndarray) : res ndarray :=
    match rev (sh x) with
    | [] => Ok {| sh := [3%nat]; entry := fun i => entry (nd_vec u) i * entry x [] |}
    | [n] => if Nat.eqb n 3 then Ok {| sh := []; entry := fun _ => dot u (V3 (entry x [0%nat]) (entry x [1%nat]) (entry x [2%nat])) |}
             else Err ValueError
    | b :: a :: d =>
        if Nat.eqb a 3 then
          Ok {| sh := rev d ++ [b];
                entry := fun i => let p k := (removelast i ++ [k; last i 0%nat])%list in
                                  dot u (V3 (entry x (p 0%nat)) (entry x (p 1%nat)) (entry x (p 2%nat))) |}
        else Err ValueError
    end.

  (** the truth value of [abs(x) > epsilon]: ValueError unless there is one entry *)
  Definition nd_above (x : ndarray) : res bool :=
    if Nat.eqb (fold_right Nat.mul 1%nat (sh x)) 1 then Ok (neps <? nabs (entry x (map (fun _ => 0%nat) (sh x))))
    else Err ValueError.

  (** geec/polyhedron.py:370-382 [_get_dot_point1], 384-396 [_get_sign] (any shape is
      accepted) and the test of line 411 in [_get_omega], for the observer [obs]. *)
  Definition face_test (f : face A) (obs : ndarray) : res bool :=
    do p1 <- nd_sub (nd_vec (pnth 0 (f_points f))) obs;
    do dp1 <- nd_dot (f_un f) p1;
    nd_above dp1.

  (** the vector that [points - obs] subtracts from every point *)
  Definition observer_of (obs : ndarray) : vec A :=
    V3 (entry obs (pick (sh obs) [0%nat])) (entry obs (pick (sh obs) [1%nat])) (entry obs (pick (sh obs) [2%nat])).

  (** geec/polyhedron.py:980-1007 [Polyhedron.get_gravity], the observer being any array.
      The first facet subtracts it first (line 381); the later subtractions (lines 237
      and 412) are from arrays of shapes (3,) and (3, 3) and broadcast in the same way.
      Simplification: a refused observer leaves the caches as they were; the code has
      then overwritten _dp1, _sign, _omega and _domega of the first facet, which every
      call recomputes before reading them. *)
  Definition get_gravity_nd (p : polyhedron A) (obs : ndarray) (density Gc : num A) (gradient : bool)
    (s : pstate A) : res (vec A * mat A) * pstate A :=
    match pl_faces p with
    | [] => get_gravity p vzero density Gc gradient s
    | f :: _ =>
        match face_test f obs with
        | Err e => (Err e, s)
        | Ok _ => get_gravity p (observer_of obs) density Gc gradient s
        end
    end.

  (** geec/station.py:31-44 [Station.__init__]: any array is accepted *)
  Record station_nd : Type := { sn_coord : ndarray; sn_G : vec A; sn_T : mat A }.
  Definition mk_station_nd (x : ndarray) : station_nd := {| sn_coord := x; sn_G := vzero; sn_T := mzero |}.

  (** geec/station.py:55-84 [Station.compute_gravity] for a list of bodies *)
  Fixpoint compute_gravity_nd (density Gc : num A) (gradient : bool) (ids : list nat) (w : world A) (st : station_nd)
    : res unit * world A * station_nd :=
    match ids with
    | [] => (Ok tt, w, st)
    | id :: ids' =>
        match get_gravity_nd (w_poly w id) (sn_coord st) density Gc gradient (w_state w id) with
        | (Err e, s') => (Err e, wset w id s', st)
        | (Ok (G, T), s') =>
            compute_gravity_nd density Gc gradient ids' (wset w id s')
              {| sn_coord := sn_coord st; sn_G := vadd (sn_G st) G; sn_T := madd (sn_T st) T |}
        end
    end.

  (** What scipy.spatial.ConvexHull returns for points with any number of columns. *)
  Record facets : Type := { q_simplices : list (list nat); q_neighbors : list (list nat); q_vertices : list nat }.
  Variable qhull : nat -> list (list (num A)) -> res facets.

  Definition hull3 (points : list (vec A)) : res (hull A) :=
    do q <- qhull 3%nat (map (fun v => [vx v; vy v; vz v]) points);
    Ok {| h_points := points; h_simplices := q_simplices q; h_neighbors := q_neighbors q; h_vertices := q_vertices q |}.

  Definition table (n d : nat) (x : ndarray) : list (list (num A)) :=
    map (fun i => map (fun j => entry x [i; j]) (seq 0 d)) (seq 0 n).
  Definition row_vec (l : list (num A)) : vec A := V3 (nth 0 l n0) (nth 1 l n0) (nth 2 l n0).

  (** geec/polyhedron.py:841-845 for one facet: unpacking three points, their
      differences, [cross_product] *)
  Definition facet_cross (rows : list (list (num A))) (s : list nat) : res (nd A) :=
    match firstn 3 s with
    | [a; b; c] =>
        let diff i j := Arr (map (fun p => Sc (fst p - snd p)) (combine (nth i rows []) (nth j rows []))) in
        cross_product (diff b a) (diff c a)
    | _ => Err ValueError
    end.

  (** geec/polyhedron.py:798-898 [Polyhedron.__init__] on an array of any shape.  scipy
      refuses arrays that are not two-dimensional and points of fewer than two
      coordinates (ValueError).  The first facet is looked at before anything else; what
      follows is [mk_polyhedron], on the first three columns. *)
  Definition mk_polyhedron_nd (in_hull : list (vec A) -> vec A -> bool) (x : ndarray) : res (polyhedron A) :=
    match sh x with
    | [n; d] =>
        if Nat.ltb d 2 then Err ValueError
        else
          do q <- qhull d (table n d x);
          do _ <- match q_simplices q with [] => Ok (Arr []) | s :: _ => facet_cross (table n d x) s end;
          mk_polyhedron hull3 in_hull (map row_vec (table n d x))
    | _ => Err ValueError
    end.
End Shape.
Arguments ndarray A : clear implicits.
Arguments station_nd A : clear implicits.

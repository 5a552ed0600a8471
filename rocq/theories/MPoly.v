(** * Stateful model of Polyhedron.get_gravity, Face.get_gravity and
      Edge._get_ccw_line_integrals, with their caches and with numpy array
      aliasing (geec/polyhedron.py:75-139, 195-235, 288-341, 384-396, 679-784,
      973-1007), and of class Station (geec/station.py:25-84). *)
From Coq Require Import List ZArith Bool Arith.
Import ListNotations.
From Verif Require Import Base MUtils MEdge MFace MHull.

Section Poly.
  Context {A : arith}.
  Local Open Scope num_scope.

  (** numpy arrays are mutable objects: [_pqr] attributes hold references
      (indices into [hv] / [hm]) and [+=] writes through the reference. *)
  Record pstate : Type := {
    hv : list (vec A);                (* heap of size-3 arrays *)
    hm : list (mat A);                (* heap of (3,3) arrays *)
    e_pqr : ekey -> option nat;       (* Edge._pqr  (None = not computed) *)
    e_dpqr : ekey -> option nat;      (* Edge._dpqr *)
    f_dp1 : nat -> option (num A);    (* Face._dp1 *)
    f_sign : nat -> option (num A);   (* Face._sign *)
    f_omega : nat -> option (num A);  (* Face._omega *)
    f_domega : nat -> option (vec A); (* Face._domega *)
    f_pqr : nat -> option nat;        (* Face._pqr *)
    f_dpqr : nat -> option nat;       (* Face._dpqr *)
    f_g : nat -> option (vec A);      (* Face._g *)
    f_tensor : nat -> option (mat A)  (* Face._tensor *)
  }.

  (** geec/polyhedron.py:72-73, 279-286: every cache is None after __init__ *)
  Definition pstate0 : pstate :=
    {| hv := []; hm := [];
       e_pqr := fun _ => None; e_dpqr := fun _ => None;
       f_dp1 := fun _ => None; f_sign := fun _ => None;
       f_omega := fun _ => None; f_domega := fun _ => None;
       f_pqr := fun _ => None; f_dpqr := fun _ => None;
       f_g := fun _ => None; f_tensor := fun _ => None |}.

  (** Methods: state in, result or exception and state out.  An exception
      keeps the state reached so far, as in Python. *)
  Definition M (X : Type) : Type := pstate -> res X * pstate.
  Definition mret {X} (x : X) : M X := fun s => (Ok x, s).
  Definition mraise {X} (e : exn) : M X := fun s => (Err e, s).
  Definition mbind {X Y} (m : M X) (f : X -> M Y) : M Y :=
    fun s => match m s with
             | (Ok x, s') => f x s'
             | (Err e, s') => (Err e, s')
             end.
  Definition mget : M pstate := fun s => (Ok s, s).
  Definition mlift {X} (r : res X) : M X := fun s => (r, s).

  Fixpoint miter {X} (f : X -> M unit) (l : list X) : M unit :=
    match l with
    | [] => mret tt
    | x :: l' => mbind (f x) (fun _ => miter f l')
    end.
  Fixpoint mfold {X S} (f : S -> X -> M S) (l : list X) (a : S) : M S :=
    match l with
    | [] => mret a
    | x :: l' => mbind (f a x) (fun a' => mfold f l' a')
    end.

  Notation "'let*' x := m 'in' k" := (mbind m (fun x => k))
    (at level 100, x pattern, m at level 99, k at level 200).
  Notation "m ;; k" := (mbind m (fun _ => k))
    (at level 100, right associativity).

  Definition fupd {V} (m : nat -> option V) (k : nat) (v : option V) := upd Nat.eqb m k v.

  (** attribute assignments *)
  Definition set_hv x : M unit := fun s => (Ok tt,
    {| hv := x; hm := hm s; e_pqr := e_pqr s; e_dpqr := e_dpqr s; f_dp1 := f_dp1 s;
       f_sign := f_sign s; f_omega := f_omega s; f_domega := f_domega s;
       f_pqr := f_pqr s; f_dpqr := f_dpqr s; f_g := f_g s; f_tensor := f_tensor s |}).
  Definition set_hm x : M unit := fun s => (Ok tt,
    {| hv := hv s; hm := x; e_pqr := e_pqr s; e_dpqr := e_dpqr s; f_dp1 := f_dp1 s;
       f_sign := f_sign s; f_omega := f_omega s; f_domega := f_domega s;
       f_pqr := f_pqr s; f_dpqr := f_dpqr s; f_g := f_g s; f_tensor := f_tensor s |}).
  Definition set_e_pqr k v : M unit := fun s => (Ok tt,
    {| hv := hv s; hm := hm s; e_pqr := upd ekey_eqb (e_pqr s) k v; e_dpqr := e_dpqr s;
       f_dp1 := f_dp1 s; f_sign := f_sign s; f_omega := f_omega s; f_domega := f_domega s;
       f_pqr := f_pqr s; f_dpqr := f_dpqr s; f_g := f_g s; f_tensor := f_tensor s |}).
  Definition set_e_dpqr k v : M unit := fun s => (Ok tt,
    {| hv := hv s; hm := hm s; e_pqr := e_pqr s; e_dpqr := upd ekey_eqb (e_dpqr s) k v;
       f_dp1 := f_dp1 s; f_sign := f_sign s; f_omega := f_omega s; f_domega := f_domega s;
       f_pqr := f_pqr s; f_dpqr := f_dpqr s; f_g := f_g s; f_tensor := f_tensor s |}).
  Definition set_f_dp1 k v : M unit := fun s => (Ok tt,
    {| hv := hv s; hm := hm s; e_pqr := e_pqr s; e_dpqr := e_dpqr s;
       f_dp1 := fupd (f_dp1 s) k v; f_sign := f_sign s; f_omega := f_omega s;
       f_domega := f_domega s; f_pqr := f_pqr s; f_dpqr := f_dpqr s; f_g := f_g s;
       f_tensor := f_tensor s |}).
  Definition set_f_sign k v : M unit := fun s => (Ok tt,
    {| hv := hv s; hm := hm s; e_pqr := e_pqr s; e_dpqr := e_dpqr s;
       f_dp1 := f_dp1 s; f_sign := fupd (f_sign s) k v; f_omega := f_omega s;
       f_domega := f_domega s; f_pqr := f_pqr s; f_dpqr := f_dpqr s; f_g := f_g s;
       f_tensor := f_tensor s |}).
  Definition set_f_omega k v w : M unit := fun s => (Ok tt,
    {| hv := hv s; hm := hm s; e_pqr := e_pqr s; e_dpqr := e_dpqr s;
       f_dp1 := f_dp1 s; f_sign := f_sign s; f_omega := fupd (f_omega s) k v;
       f_domega := fupd (f_domega s) k w; f_pqr := f_pqr s; f_dpqr := f_dpqr s;
       f_g := f_g s; f_tensor := f_tensor s |}).
  Definition set_f_pqr k v : M unit := fun s => (Ok tt,
    {| hv := hv s; hm := hm s; e_pqr := e_pqr s; e_dpqr := e_dpqr s;
       f_dp1 := f_dp1 s; f_sign := f_sign s; f_omega := f_omega s;
       f_domega := f_domega s; f_pqr := fupd (f_pqr s) k v; f_dpqr := f_dpqr s;
       f_g := f_g s; f_tensor := f_tensor s |}).
  Definition set_f_dpqr k v : M unit := fun s => (Ok tt,
    {| hv := hv s; hm := hm s; e_pqr := e_pqr s; e_dpqr := e_dpqr s;
       f_dp1 := f_dp1 s; f_sign := f_sign s; f_omega := f_omega s;
       f_domega := f_domega s; f_pqr := f_pqr s; f_dpqr := fupd (f_dpqr s) k v;
       f_g := f_g s; f_tensor := f_tensor s |}).
  Definition set_f_g k v w : M unit := fun s => (Ok tt,
    {| hv := hv s; hm := hm s; e_pqr := e_pqr s; e_dpqr := e_dpqr s;
       f_dp1 := f_dp1 s; f_sign := f_sign s; f_omega := f_omega s;
       f_domega := f_domega s; f_pqr := f_pqr s; f_dpqr := f_dpqr s;
       f_g := fupd (f_g s) k v; f_tensor := fupd (f_tensor s) k w |}).

  (** array allocation, read and in-place write *)
  Definition alloc_v (v : vec A) : M nat :=
    let* s := mget in set_hv (hv s ++ [v]) ;; mret (length (hv s)).
  Definition alloc_m (m : mat A) : M nat :=
    let* s := mget in set_hm (hm s ++ [m]) ;; mret (length (hm s)).
  Definition read_v (s : pstate) (l : nat) : vec A := nth l (hv s) vzero.
  Definition read_m (s : pstate) (l : nat) : mat A := nth l (hm s) mzero.
  Definition write_v (l : nat) (v : vec A) : M unit :=
    let* s := mget in set_hv (set_nth l v (hv s)).
  Definition write_m (l : nat) (m : mat A) : M unit :=
    let* s := mget in set_hm (set_nth l m (hm s)).

  (** geec/polyhedron.py:127-139 [Edge._set_twin_pqr].  [-self._pqr] is a new
      array. *)
  Definition set_twin_pqr (tw : twinmap) (k : ekey) : M unit :=
    match tw k with
    | None => mraise TypeError
    | Some k' =>
        let* s := mget in
        (match e_pqr s k with
         | Some l => let* l' := alloc_v (vopp (read_v s l)) in set_e_pqr k' (Some l')
         | None => mret tt
         end) ;;
        let* s := mget in
        match e_dpqr s k with
        | Some l => let* l' := alloc_m (mopp (read_m s l)) in set_e_dpqr k' (Some l')
        | None => mret tt
        end
    end.

  (** geec/polyhedron.py:195-235 [Edge._get_ccw_line_integrals] *)
  Definition edge_ccw (tw : twinmap) (obs : vec A) (gradient : bool)
    (k : ekey) (e : edge A) : M unit :=
    let* s := mget in
    match e_pqr s k with
    | Some _ => mret tt
    | None =>
        let* pd := mlift (edge_integral e obs gradient) in
        let '(pqr, dpqr) := pd in
        let* l := alloc_v pqr in
        set_e_pqr k (Some l) ;;
        (match dpqr with
         | Some d => let* l' := alloc_m d in set_e_dpqr k (Some l')
         | None => set_e_dpqr k None
         end) ;;
        set_twin_pqr tw k
    end.

  (** geec/polyhedron.py:329-334 [Face._add_pqr]: the first call stores the
      REFERENCE of the edge's array in the face; later calls add in place into
      that same array.  [array += None] raises TypeError. *)
  Definition add_pqr (fi : nat) (o : option nat) : M unit :=
    let* s := mget in
    match f_pqr s fi with
    | Some l =>
        match o with
        | Some l' => write_v l (vadd (read_v s l) (read_v s l'))
        | None => mraise TypeError
        end
    | None => set_f_pqr fi o
    end.

  (** geec/polyhedron.py:336-341 [Face._add_dpqr] *)
  Definition add_dpqr (fi : nat) (o : option nat) : M unit :=
    let* s := mget in
    match f_dpqr s fi with
    | Some l =>
        match o with
        | Some l' => write_m l (madd (read_m s l) (read_m s l'))
        | None => mraise TypeError
        end
    | None => set_f_dpqr fi o
    end.

  (** geec/polyhedron.py:684-688: one iteration of [Face._get_ccw_line_integrals] *)
  Definition face_edge_step (tw : twinmap) (obs : vec A) (gradient : bool)
    (fi : nat) (ke : ekey * edge A) : M unit :=
    let '(k, e) := ke in
    edge_ccw tw obs gradient k e ;;
    let* s := mget in
    add_pqr fi (e_pqr s k) ;;
    let* s := mget in
    add_dpqr fi (e_dpqr s k).

  (** geec/polyhedron.py:679-688 [Face._get_ccw_line_integrals] *)
  Definition face_ccw (tw : twinmap) (obs : vec A) (gradient : bool)
    (fi : nat) (f : face A) : M unit :=
    miter (face_edge_step tw obs gradient fi) (keyed_edges_of fi f).

  (** geec/polyhedron.py:690-784 [Face.get_gravity].  Without gradient
      [_tensor] is np.zeros(3), which broadcasts to the zero matrix when it is
      added to T (line 1001); the model stores the zero matrix. *)
  Definition face_get_gravity (tw : twinmap) (obs : vec A) (density Gc : num A)
    (gradient : bool) (fi : nat) (f : face A) : M (vec A * mat A) :=
    set_f_dp1 fi (Some (dot_point1 f obs)) ;;
    (* _get_sign *)
    let* s := mget in
    (match f_dp1 s fi with
     | Some d => set_f_sign fi (Some (nsign d))
     | None => mraise NotImplementedError
     end) ;;
    (* _get_omega *)
    let* s := mget in
    (match f_dp1 s fi, f_sign s fi with
     | Some d, Some sg =>
         (* lines 409-410 come first: _omega = 0, _domega = zeros(3) *)
         set_f_omega fi (Some n0) (Some vzero) ;;
         let* od := mlift (get_omega f obs d sg gradient) in
         set_f_omega fi (Some (fst od)) (Some (snd od))
     | _, _ => mraise NotImplementedError
     end) ;;
    face_ccw tw obs gradient fi f ;;
    let* s := mget in
    match f_dp1 s fi, f_omega s fi, f_domega s fi, f_pqr s fi with
    | Some dp1, Some omega, Some domega, Some lp =>
        let pqr := read_v s lp in
        let g := face_g (f_un f) density Gc dp1 omega pqr in
        if gradient then
          match f_dpqr s fi with
          | None => mraise NotImplementedError
          | Some ld =>
              let t := face_tensor (f_un f) density Gc dp1 omega domega pqr (read_m s ld) in
              set_f_g fi (Some g) (Some t) ;; mret (g, t)
          end
        else
          set_f_g fi (Some g) (Some mzero) ;; mret (g, mzero)
    | _, _, _, _ => mraise NotImplementedError
    end.

  (** geec/polyhedron.py:75-78, 288-297, 973-978: [reset] of a polyhedron sets
      the caches of all its faces and edges back to None (but not [_g] and
      [_tensor]).  Keys outside the polyhedron never occur. *)
  Definition poly_reset : M unit := fun s => (Ok tt,
    {| hv := hv s; hm := hm s;
       e_pqr := fun _ => None; e_dpqr := fun _ => None;
       f_dp1 := fun _ => None; f_sign := fun _ => None;
       f_omega := fun _ => None; f_domega := fun _ => None;
       f_pqr := fun _ => None; f_dpqr := fun _ => None;
       f_g := f_g s; f_tensor := f_tensor s |}).

  (** geec/polyhedron.py:998-1001, one iteration *)
  Definition poly_step (tw : twinmap) (obs : vec A) (density Gc : num A) (gradient : bool)
    (GT : vec A * mat A) (kf : nat * face A) : M (vec A * mat A) :=
    let* gt := face_get_gravity tw obs density Gc gradient (fst kf) (snd kf) in
    mret (vadd (fst GT) (fst gt), madd (snd GT) (snd gt)).

  Definition indexed {X} (l : list X) : list (nat * X) := combine (seq 0 (length l)) l.

  (** geec/polyhedron.py:980-1007 [Polyhedron.get_gravity] *)
  Definition get_gravity (p : polyhedron A) (obs : vec A) (density Gc : num A)
    (gradient : bool) : M (vec A * mat A) :=
    let* GT := mfold (poly_step (pl_twin p) obs density Gc gradient)
                     (indexed (pl_faces p)) (vzero, mzero) in
    poly_reset ;; mret GT.

  (** ** Station, geec/station.py *)

  (** A Python value passed as [polyhedrons]: a reference to a Polyhedron
      object, a list of values, or anything else. *)
  Inductive pyval : Type :=
  | PyPoly (id : nat)
  | PyOther.
  Inductive pyarg : Type :=
  | ArgOne (v : pyval)
  | ArgList (l : list pyval).

  (** Objects in memory: the polyhedra (constructed once) and their caches. *)
  Record world : Type := {
    w_poly : nat -> polyhedron A;
    w_state : nat -> pstate
  }.
  Definition wset (w : world) (id : nat) (s : pstate) : world :=
    {| w_poly := w_poly w;
       w_state := fun i => if Nat.eqb i id then s else w_state w i |}.

  (** geec/station.py:31-44 [Station.__init__] *)
  Record station : Type := {
    st_coord : vec A;
    st_G : vec A;
    st_T : mat A
  }.
  Definition mk_station (coord : vec A) : station :=
    {| st_coord := coord; st_G := vzero; st_T := mzero |}.

  Definition is_poly (v : pyval) : bool :=
    match v with PyPoly _ => true | PyOther => false end.

  (** geec/station.py:81-84: the loop over polyhedra; an exception leaves the
      station and the polyhedra in the state reached so far. *)
  Fixpoint station_loop (density Gc : num A) (gradient : bool) (ids : list pyval)
    (w : world) (st : station) : res unit * world * station :=
    match ids with
    | [] => (Ok tt, w, st)
    | PyPoly id :: ids' =>
        match get_gravity (w_poly w id) (st_coord st) density Gc gradient (w_state w id) with
        | (Err e, s') => (Err e, wset w id s', st)
        | (Ok (G, T), s') =>
            station_loop density Gc gradient ids' (wset w id s')
              {| st_coord := st_coord st;
                 st_G := vadd (st_G st) G;
                 st_T := madd (st_T st) T |}
        end
    | PyOther :: _ => (Err AttributeError, w, st) (* excluded by the check below *)
    end.

  (** geec/station.py:55-84 [Station.compute_gravity] *)
  Definition compute_gravity (w : world) (st : station) (arg : pyarg)
    (density Gc : num A) (gradient : bool) : res unit * world * station :=
    let l := match arg with ArgOne v => [v] | ArgList l => l end in
    if negb (forallb is_poly l) then (Err TypeError, w, st)
    else station_loop density Gc gradient l w st.
End Poly.
Arguments pstate A : clear implicits.
Arguments world A : clear implicits.
Arguments station A : clear implicits.

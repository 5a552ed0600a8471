(** * Which numpy arrays a Polyhedron and a Station hold (geec/polyhedron.py:51-73,
      249-286, 343-353, 798-819, 840-894, 980-1007; geec/station.py:31-84).

    [MHull.v] and [MPoly.v] treat the coordinates of a body, of an observer and of a
    station as values.  In the code they are numpy arrays, and the caller keeps
    references to the arrays passed in and handed out and may write to them at any
    time.  This file models those arrays: who holds which, what is copied, what is
    written. *)
From Coq Require Import List ZArith Bool Arith.
Import ListNotations.
From Verif Require Import Base MUtils MEdge MFace MHull MPoly MReset.

Section Array.
  Context {A : arith}.
  (** scipy's ConvexHull and the linear program, as in [mk_polyhedron] *)
  Variable convex_hull : list (vec A) -> res (hull A).
  Variable in_hull : list (vec A) -> vec A -> bool.

  (** Memory: an array is a list of rows of three numbers (one row for an array of
      shape (3,), three for (3,3)); references are positions in the memory. *)
  Definition mem : Type := list (list (vec A)).
  Definition arr (m : mem) (r : nat) : list (vec A) := nth r m [].
  (** row [i] of array [r]: in Python a view, reading what is there now *)
  Definition view (m : mem) (ri : nat * nat) : vec A := nth (snd ri) (arr m (fst ri)) vzero.

  (** geec/polyhedron.py:51-73 [Edge]: [points], [start], [end] are views of rows of the
      array that [Face._get_edges] made, [vector] is an array of its own *)
  Record aedge : Type := {
    ae_simplex : nat * nat;
    ae_start : nat * nat;
    ae_end : nat * nat;
    ae_vector : nat;
    ae_length : num A;
    ae_twinface : nat
  }.
  (** geec/polyhedron.py:249-286 [Face] *)
  Record aface : Type := {
    af_points : nat;
    af_simplex : list nat;
    af_un : nat;
    af_neighbors : list nat;
    af_nbr_simplices : list (list nat);
    af_edges : list aedge
  }.
  (** geec/polyhedron.py:798-819 [Polyhedron]: [self.points] is the caller's array *)
  Record abody : Type := {
    ab_points : nat;
    ab_faces : list aface;
    ab_twin : twinmap;
    ab_state : pstate A
  }.
  (** geec/station.py:31-44 [Station]: [self.coord] is the caller's array *)
  Record astation : Type := { as_coord : nat; as_G : nat; as_T : nat }.

  (** the body as the code sees it when it reads its arrays now *)
  Definition load_edge (m : mem) (e : aedge) : edge A :=
    {| e_simplex := ae_simplex e; e_start := view m (ae_start e); e_end := view m (ae_end e);
       e_vector := view m (ae_vector e, 0); e_length := ae_length e; e_twinface := ae_twinface e |}.
  Definition load_face (m : mem) (f : aface) : face A :=
    {| f_points := arr m (af_points f); f_simplex := af_simplex f; f_un := view m (af_un f, 0);
       f_neighbors := af_neighbors f; f_nbr_simplices := af_nbr_simplices f;
       f_edges := map (load_edge m) (af_edges f) |}.
  Definition load (m : mem) (b : abody) : polyhedron A :=
    {| pl_points := arr m (ab_points b); pl_faces := map (load_face m) (ab_faces b); pl_twin := ab_twin b |}.

  (** ** Construction.  [points=hull.points[s]] (line 887) is indexing with an array of
      integers and copies; [un = cross / norm] (874, 877) is new; [np.insert] (348)
      makes a new array with the first point repeated, of whose rows the edges keep
      views; [vector = end - start] (66) is new. *)
  Definition store_edge (buf vecs j : nat) (e : edge A) : aedge :=
    {| ae_simplex := e_simplex e; ae_start := (buf, j); ae_end := (buf, S j); ae_vector := vecs + j;
       ae_length := e_length e; ae_twinface := e_twinface e |}.
  Definition store_face (m : mem) (f : face A) : mem * aface :=
    let b := length m in
    (m ++ [f_points f; [f_un f]; f_points f ++ [pnth 0 (f_points f)]] ++ map (fun e => [e_vector e]) (f_edges f),
     {| af_points := b; af_simplex := f_simplex f; af_un := b + 1;
        af_neighbors := f_neighbors f; af_nbr_simplices := f_nbr_simplices f;
        af_edges := map (fun je => store_edge (b + 2) (b + 3) (fst je) (snd je)) (indexed (f_edges f)) |}).
  Fixpoint store_faces (m : mem) (fs : list (face A)) : mem * list aface :=
    match fs with
    | [] => (m, [])
    | f :: fs' => let '(m1, a) := store_face m f in let '(m2, l) := store_faces m1 fs' in (m2, a :: l)
    end.
  Definition store (m : mem) (r : nat) (p : polyhedron A) : mem * abody :=
    let '(m', fs) := store_faces m (pl_faces p) in
    (m', {| ab_points := r; ab_faces := fs; ab_twin := pl_twin p; ab_state := pstate0 |}).

  (** ** A program that uses the library *)
  (** All there is: memory, the arrays the program holds, its bodies and stations. *)
  Record heap : Type := {
    hp_mem : mem;
    hp_user : list nat;
    hp_bodies : list abody;
    hp_stations : list astation
  }.
  Definition heap0 : heap := {| hp_mem := []; hp_user := []; hp_bodies := []; hp_stations := [] |}.

  (** Variables are numbered in the order in which they are bound. *)
  Inductive op : Type :=
  | ANew (rows : list (vec A))                     (* a = np.array(...) *)
  | AWrite (k i : nat) (v : vec A)                 (* a[i] = v *)
  | ABody (k : nat)                                (* p = Polyhedron(a) *)
  | AGravity (j k : nat) (density Gc : num A) (gradient : bool) (* G, T = p.get_gravity(a, ...) *)
  | AReset (j : nat)                               (* p.reset(coord) *)
  | AStation (k : nat)                             (* s = Station(a); G, T = s.G, s.T *)
  | ACompute (s : nat) (js : list nat) (density Gc : num A) (gradient : bool). (* s.compute_gravity([p, ...], ...) *)

  Definition set_mem (h : heap) (m : mem) : heap :=
    {| hp_mem := m; hp_user := hp_user h; hp_bodies := hp_bodies h; hp_stations := hp_stations h |}.
  Definition set_body (h : heap) (j : nat) (b : abody) : heap :=
    {| hp_mem := hp_mem h; hp_user := hp_user h; hp_bodies := set_nth j b (hp_bodies h); hp_stations := hp_stations h |}.
  Definition set_state (b : abody) (s : pstate A) : abody :=
    {| ab_points := ab_points b; ab_faces := ab_faces b; ab_twin := ab_twin b; ab_state := s |}.
  (** new arrays, bound to new variables *)
  Definition bind_new (h : heap) (l : list (list (vec A))) : heap :=
    {| hp_mem := hp_mem h ++ l; hp_user := hp_user h ++ seq (length (hp_mem h)) (length l);
       hp_bodies := hp_bodies h; hp_stations := hp_stations h |}.
  Definition mrows (T : mat A) : list (vec A) := [vx T; vy T; vz T].
  Definition rows_add (a b : list (vec A)) : list (vec A) := map (fun p => vadd (fst p) (snd p)) (combine a b).

  (** geec/polyhedron.py:980-1007 [get_gravity]: reads the coordinates and the arrays of
      the body, writes to none of them; G and T are new arrays (lines 994-996).
      Simplification: [coord] has shape (3,), one row. *)
  Definition call (h : heap) (j r : nat) (density Gc : num A) (gradient : bool) : res (vec A * mat A) * heap :=
    match nth_error (hp_bodies h) j with
    | None => (Err NameError, h)
    | Some b =>
        match arr (hp_mem h) r with
        | [o] =>
            let '(x, s') := get_gravity (load (hp_mem h) b) o density Gc gradient (ab_state b) in
            (x, set_body h j (set_state b s'))
        | _ => (Err ValueError, h)
        end
    end.

  (** geec/station.py:81-84: [self.G += G] and [self.T += T] write in place; [self.coord]
      is read again for each body *)
  Fixpoint station_calls (h : heap) (st : astation) (js : list nat) (density Gc : num A) (gradient : bool) : res unit * heap :=
    match js with
    | [] => (Ok tt, h)
    | j :: js' =>
        match call h j (as_coord st) density Gc gradient with
        | (Err e, h') => (Err e, h')
        | (Ok (G, T), h') =>
            let m := hp_mem h' in
            let m := set_nth (as_G st) (rows_add (arr m (as_G st)) [G]) m in
            let m := set_nth (as_T st) (rows_add (arr m (as_T st)) (mrows T)) m in
            station_calls (set_mem h' m) st js' density Gc gradient
        end
    end.

  (** one statement of the program; an exception keeps the memory reached *)
  Definition step (h : heap) (o : op) : res unit * heap :=
    match o with
    | ANew rows => (Ok tt, bind_new h [rows])
    | AWrite k i v =>
        match nth_error (hp_user h) k with
        | None => (Err NameError, h)
        | Some r =>
            if Nat.ltb i (length (arr (hp_mem h) r))
            then (Ok tt, set_mem h (set_nth r (set_nth i v (arr (hp_mem h) r)) (hp_mem h)))
            else (Err IndexError, h)
        end
    | ABody k =>
        match nth_error (hp_user h) k with
        | None => (Err NameError, h)
        | Some r =>
            match mk_polyhedron convex_hull in_hull (arr (hp_mem h) r) with
            | Err e => (Err e, h)
            | Ok p =>
                let '(m', b) := store (hp_mem h) r p in
                (Ok tt, {| hp_mem := m'; hp_user := hp_user h; hp_bodies := hp_bodies h ++ [b]; hp_stations := hp_stations h |})
            end
        end
    | AGravity j k density Gc gradient =>
        match nth_error (hp_user h) k with
        | None => (Err NameError, h)
        | Some r =>
            match call h j r density Gc gradient with
            | (Err e, h') => (Err e, h')
            | (Ok (G, T), h') => (Ok tt, bind_new h' [[G]; mrows T])
            end
        end
    | AReset j =>
        match nth_error (hp_bodies h) j with
        | None => (Err NameError, h)
        | Some b => (Ok tt, set_body h j (set_state b (snd (polyhedron_reset (load (hp_mem h) b) (ab_state b)))))
        end
    | AStation k =>
        match nth_error (hp_user h) k with
        | None => (Err NameError, h)
        | Some r =>
            let n := length (hp_mem h) in
            let h' := bind_new h [[vzero]; mrows mzero] in
            (Ok tt, {| hp_mem := hp_mem h'; hp_user := hp_user h'; hp_bodies := hp_bodies h';
                       hp_stations := hp_stations h' ++ [{| as_coord := r; as_G := n; as_T := n + 1 |}] |})
        end
    | ACompute s js density Gc gradient =>
        match nth_error (hp_stations h) s with
        | None => (Err NameError, h)
        | Some st =>
            if forallb (fun j => Nat.ltb j (length (hp_bodies h))) js
            then station_calls h st js density Gc gradient
            else (Err NameError, h)
        end
    end.

  (** a program: its statements one after the other; exceptions are caught and the
      program goes on *)
  Fixpoint run (h : heap) (l : list op) : list (res unit) * heap :=
    match l with
    | [] => ([], h)
    | o :: l' => let '(x, h1) := step h o in let '(xs, h2) := run h1 l' in (x :: xs, h2)
    end.
  (** what the program sees in the k-th array it holds *)
  Definition content (h : heap) (k : nat) : list (vec A) :=
    match nth_error (hp_user h) k with Some r => arr (hp_mem h) r | None => [] end.
End Array.

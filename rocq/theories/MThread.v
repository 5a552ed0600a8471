(** * Threads and interruptions: the statements of geec/station.py:55-84,
      geec/polyhedron.py:127-139, 195-235, 329-341, 679-784, 980-1007 as separate
      atomic steps

    CPython runs one bytecode at a time; between two of them another thread may run
    or a KeyboardInterrupt may be raised.  A call is a [prog]: a tree of atomic
    operations on a Polyhedron object or on a Station object.  The operations are
    those of MPoly.v (one attribute read, one attribute write, one allocation, one
    numpy operation in place), in the same order; a pure computation (the integral
    of an edge, the solid angle) belongs to the operation before it.  Polyhedron.reset
    at the end of a call is one operation here. *)
From Coq Require Import List ZArith Bool Arith.
Import ListNotations.
From Verif Require Import Base MUtils MEdge MFace MHull MPoly.

Section Thread.
  Context {A : arith}.

  (** The mutable objects.  The geometry of the bodies does not change (C71). *)
  Record mem : Type := { bodies : nat -> pstate A; stations : nat -> station A }.
  Definition put {X} (f : nat -> X) (i : nat) (x : X) : nat -> X := fun j => if Nat.eqb j i then x else f j.
  Definition set_body (m : mem) id s : mem := {| bodies := put (bodies m) id s; stations := stations m |}.
  Definition set_station (m : mem) id s : mem := {| bodies := bodies m; stations := put (stations m) id s |}.

  Inductive prog (X : Type) : Type :=
  | PRet (r : res X)
  | PBody (id : nat) (Y : Type) (m : M (A := A) Y) (k : Y -> prog X)
  | PStat (id : nat) (f : station A -> station A) (k : station A -> prog X).
  Arguments PRet {X} r.
  Arguments PBody {X} id {Y} m k.
  Arguments PStat {X} id f k.

  Fixpoint pbind {X Y} (p : prog X) (f : X -> prog Y) : prog Y :=
    match p with
    | PRet (Ok x) => f x
    | PRet (Err e) => PRet (Err e)
    | PBody id m k => PBody id m (fun y => pbind (k y) f)
    | PStat id g k => PStat id g (fun s => pbind (k s) f)
    end.
  Definition pret {X} (x : X) : prog X := PRet (Ok x).
  Definition praise {X} (e : exn) : prog X := PRet (Err e).

  (** one atomic operation; an exception ends the call *)
  Definition step {X} (p : prog X) (m : mem) : prog X * mem :=
    match p with
    | PRet r => (PRet r, m)
    | PBody id o k =>
        match o (bodies m id) with
        | (Ok y, s) => (k y, set_body m id s)
        | (Err e, s) => (PRet (Err e), set_body m id s)
        end
    | PStat id f k => (k (stations m id), set_station m id (f (stations m id)))
    end.
  Fixpoint steps {X} (n : nat) (p : prog X) (m : mem) : prog X * mem :=
    match n with O => (p, m) | S n' => let q := step p m in steps n' (fst q) (snd q) end.
  (** the call on its own, to its end *)
  Fixpoint run {X} (p : prog X) (m : mem) : res X * mem :=
    match p with
    | PRet r => (r, m)
    | PBody id o k =>
        match o (bodies m id) with
        | (Ok y, s) => run (k y) (set_body m id s)
        | (Err e, s) => (Err e, set_body m id s)
        end
    | PStat id f k => run (k (stations m id)) (set_station m id (f (stations m id)))
    end.

  (** Threads: a schedule is the list of the threads that get to run one operation.
      A thread whose call has ended stays as it is. *)
  Definition pool (X : Type) : Type := nat -> prog X.
  Definition sched_step {X} (c : pool X * mem) (i : nat) : pool X * mem :=
    let q := step (fst c i) (snd c) in (put (fst c) i (fst q), snd q).
  Definition exec {X} (sch : list nat) (c : pool X * mem) : pool X * mem := fold_left sched_step sch c.

  (** ** The calls *)
  Section OnBody.
    Variable id : nat.
    Definition op {X} (m : M (A := A) X) : prog X := PBody id m (fun x => PRet (Ok x)).
    Notation "'let*' x := m 'in' k" := (pbind m (fun x => k))
      (at level 100, x pattern, m at level 99, k at level 200).
    Notation "m ;; k" := (pbind m (fun _ => k)) (at level 100, right associativity).

    Fixpoint piter {X} (f : X -> prog unit) (l : list X) : prog unit :=
      match l with [] => pret tt | x :: l' => f x ;; piter f l' end.
    Fixpoint pfold {X S} (f : S -> X -> prog S) (l : list X) (a : S) : prog S :=
      match l with [] => pret a | x :: l' => let* a' := f a x in pfold f l' a' end.

    (** geec/polyhedron.py:127-139 *)
    Definition t_set_twin_pqr (tw : twinmap) (k : ekey) : prog unit :=
      match tw k with
      | None => praise TypeError
      | Some k' =>
          let* s := op mget in
          (match e_pqr s k with
           | Some l => let* l' := op (alloc_v (vopp (read_v s l))) in op (set_e_pqr k' (Some l'))
           | None => pret tt
           end) ;;
          let* s := op mget in
          match e_dpqr s k with
          | Some l => let* l' := op (alloc_m (mopp (read_m s l))) in op (set_e_dpqr k' (Some l'))
          | None => pret tt
          end
      end.
    (** geec/polyhedron.py:195-235 *)
    Definition t_edge_ccw (tw : twinmap) (obs : vec A) (gradient : bool) (k : ekey) (e : edge A) : prog unit :=
      let* s := op mget in
      match e_pqr s k with
      | Some _ => pret tt
      | None =>
          let* pd := op (mlift (edge_integral e obs gradient)) in
          let* l := op (alloc_v (fst pd)) in
          op (set_e_pqr k (Some l)) ;;
          (match snd pd with
           | Some d => let* l' := op (alloc_m d) in op (set_e_dpqr k (Some l'))
           | None => op (set_e_dpqr k None)
           end) ;;
          t_set_twin_pqr tw k
      end.
    (** geec/polyhedron.py:329-341: the test reads the attribute, [+=] reads it again
        (None += array raises TypeError) *)
    Definition t_add_pqr (fi : nat) (o : option nat) : prog unit :=
      let* s := op mget in
      match f_pqr s fi with
      | Some _ => op (fun s => match f_pqr s fi, o with
                               | Some l, Some l' => write_v l (vadd (read_v s l) (read_v s l')) s
                               | _, _ => (Err TypeError, s)
                               end)
      | None => op (set_f_pqr fi o)
      end.
    Definition t_add_dpqr (fi : nat) (o : option nat) : prog unit :=
      let* s := op mget in
      match f_dpqr s fi with
      | Some _ => op (fun s => match f_dpqr s fi, o with
                               | Some l, Some l' => write_m l (madd (read_m s l) (read_m s l')) s
                               | _, _ => (Err TypeError, s)
                               end)
      | None => op (set_f_dpqr fi o)
      end.
    (** geec/polyhedron.py:684-688 *)
    Definition t_face_edge_step (tw : twinmap) (obs : vec A) (gradient : bool) (fi : nat) (ke : ekey * edge A) : prog unit :=
      t_edge_ccw tw obs gradient (fst ke) (snd ke) ;;
      let* s := op mget in
      t_add_pqr fi (e_pqr s (fst ke)) ;;
      let* s := op mget in
      t_add_dpqr fi (e_dpqr s (fst ke)).
    (** geec/polyhedron.py:690-784 *)
    Definition t_face_get_gravity (tw : twinmap) (obs : vec A) (density Gc : num A)
      (gradient : bool) (fi : nat) (f : face A) : prog (vec A * mat A) :=
      op (set_f_dp1 fi (Some (dot_point1 f obs))) ;;
      let* s := op mget in
      (match f_dp1 s fi with
       | Some d => op (set_f_sign fi (Some (nsign d)))
       | None => praise NotImplementedError
       end) ;;
      let* s := op mget in
      (match f_dp1 s fi, f_sign s fi with
       | Some d, Some sg =>
           op (set_f_omega fi (Some n0) (Some vzero)) ;;
           let* od := op (mlift (get_omega f obs d sg gradient)) in
           op (set_f_omega fi (Some (fst od)) (Some (snd od)))
       | _, _ => praise NotImplementedError
       end) ;;
      piter (t_face_edge_step tw obs gradient fi) (keyed_edges_of fi f) ;;
      let* s := op mget in
      match f_dp1 s fi, f_omega s fi, f_domega s fi, f_pqr s fi with
      | Some dp1, Some omega, Some domega, Some lp =>
          if gradient then
            match f_dpqr s fi with
            | None => praise NotImplementedError
            | Some ld =>
                op (set_f_g fi (Some (face_g (f_un f) density Gc dp1 omega (read_v s lp)))
                      (Some (face_tensor (f_un f) density Gc dp1 omega domega (read_v s lp) (read_m s ld)))) ;;
                pret (face_g (f_un f) density Gc dp1 omega (read_v s lp),
                      face_tensor (f_un f) density Gc dp1 omega domega (read_v s lp) (read_m s ld))
            end
          else
            op (set_f_g fi (Some (face_g (f_un f) density Gc dp1 omega (read_v s lp))) (Some mzero)) ;;
            pret (face_g (f_un f) density Gc dp1 omega (read_v s lp), mzero)
      | _, _, _, _ => praise NotImplementedError
      end.
    (** geec/polyhedron.py:980-1007; G and T are local to the call *)
    Definition t_get_gravity (p : polyhedron A) (obs : vec A) (density Gc : num A) (gradient : bool) : prog (vec A * mat A) :=
      let* GT := pfold (fun GT kf =>
          let* gt := t_face_get_gravity (pl_twin p) obs density Gc gradient (fst kf) (snd kf) in
          pret (vadd (fst GT) (fst gt), madd (snd GT) (snd gt))) (indexed (pl_faces p)) (vzero, mzero) in
      op poly_reset ;; pret GT.
  End OnBody.

  (** geec/station.py:81-84 on station [sid], the call to get_gravity as given:
      [self.G += G] and [self.T += T] add in place, one after the other.  The
      coordinates of the station are read at each body. *)
  Fixpoint t_loop (call : nat -> vec A -> prog (vec A * mat A)) (sid : nat) (ids : list nat) : prog unit :=
    match ids with
    | [] => pret tt
    | id :: ids' =>
        PStat sid (fun st => st) (fun st =>
        pbind (call id (st_coord st)) (fun GT =>
        PStat sid (fun st => {| st_coord := st_coord st; st_G := vadd (st_G st) (fst GT); st_T := st_T st |}) (fun _ =>
        PStat sid (fun st => {| st_coord := st_coord st; st_G := st_G st; st_T := madd (st_T st) (snd GT) |}) (fun _ =>
        t_loop call sid ids'))))
    end.
  (** geec/station.py:55-84 for a list of Polyhedron objects (the check of the
      argument comes first and changes nothing, C22) *)
  Definition t_compute (polys : nat -> polyhedron A) (sid : nat) (ids : list nat) (density Gc : num A) (gradient : bool) : prog unit :=
    t_loop (fun id obs => t_get_gravity id (polys id) obs density Gc gradient) sid ids.
  (** the same in a program that holds a lock of the body around each get_gravity *)
  Definition t_compute_locked (polys : nat -> polyhedron A) (sid : nat) (ids : list nat) (density Gc : num A) (gradient : bool) : prog unit :=
    t_loop (fun id obs => op id (get_gravity (polys id) obs density Gc gradient)) sid ids.
End Thread.
Arguments mem A : clear implicits.
Arguments prog {A} X.
Arguments PRet {A X} r.
Arguments PBody {A X} id {Y} m k.
Arguments PStat {A X} id f k.
Arguments pool {A} X.

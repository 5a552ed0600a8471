(** * Model of class Edge, geec/polyhedron.py:40-236 (numerical part) *)
From Coq Require Import List ZArith Bool Arith.
Import ListNotations.
From Verif Require Import Base MUtils.

Section Edge.
  Context {A : arith}.
  Local Open Scope num_scope.

  (** geec/polyhedron.py:51-73 [Edge.__init__]: the immutable attributes.
      [_twin], [_pqr], [_dpqr] are mutable and live in the state of MPoly.v. *)
  Record edge : Type := {
    e_simplex : nat * nat;
    e_start : vec A;
    e_end : vec A;
    e_vector : vec A;
    e_length : num A;
    e_twinface : nat
  }.

  Definition mk_edge (p : vec A * vec A) (s : nat * nat) (twinface : nat) : edge :=
    {| e_simplex := s;
       e_start := fst p;
       e_end := snd p;
       e_vector := vsub (snd p) (fst p);
       e_length := norm (vsub (snd p) (fst p));
       e_twinface := twinface |}.

  (** geec/polyhedron.py:173-191: the gradient part of
      [_line_integral_along_edge].  [t] and [sq] are the locals computed above.
      Returns the (3,3) array DPQR: row i is the derivative of (P,Q,R) with
      respect to the i-th coordinate of the observation point.
      Scalar division [(lj - rj) / u] (line 185) raises ZeroDivisionError under
      numba's default error model when u = 0; divisions of an array by a scalar
      do not raise. *)
  Definition line_integral_grad
    (cj : num A) (Lj Ll : vec A) (lj : num A) (Rj : vec A) (rj t sq : num A)
    : res (mat A) :=
    let Rr := vdivs Rj rj in
    do uv <-
      (if neps <? nabs cj then
         let u := t * cj in
         let v := cj in
         let DU := vopp (vadd (vdivs (vadd Lj Rj) sq) Ll) in
         let DV := vopp (vadd Rr Ll) in
         Ok (u, v, DU, DV)
       else
         let u := nabs (lj - rj) in
         let v := rj in
         if u =? n0 then Err ZeroDivisionError else
         let DU := vscale ((lj - rj) / u) Rr in
         let DV := vopp Rr in
         Ok (u, v, DU, DV));
    let '(u, v, DU, DV) := uv in
    let DT := vdivs (vsub (vscale v DU) (vscale u DV)) (v * v) in
    let DTt := vdivs DT t in
    Ok (vmap (fun dti => vmuls Ll dti) DTt).

  (** geec/polyhedron.py:141-193 [Edge._line_integral_along_edge].
      Simplification: numba's [log] and [sqrt] return nan/-inf outside their
      domain; that is what the abstract [nlog]/[nsqrt] stand for.  Line 167
      [abs(lj - rj) / rj] is a numba scalar division: ZeroDivisionError when
      rj = 0.  Line 161 divides by cj, which is non-zero on that branch. *)
  Definition line_integral_along_edge
    (cj : num A) (Lj : vec A) (lj : num A) (Rj : vec A) (rj b2 bj : num A)
    (gradient : bool) : res (vec A * option (mat A)) :=
    let Ll := vdivs Lj lj in
    do tsq <-
      (if neps <? nabs cj then
         let l2 := lj * lj in
         let r2 := rj * rj in
         let sq := nsqrt (l2 + bj + r2) in
         let t := (sq + lj + b2) / cj in
         Ok (t, sq)
       else
         if rj =? n0 then Err ZeroDivisionError else
         Ok (nabs (lj - rj) / rj, n0));
    let '(t, sq) := tsq in
    let integral := nlog t in
    let pqr := vscale integral Ll in
    if gradient then
      do d <- line_integral_grad cj Lj Ll lj Rj rj t sq;
      Ok (pqr, Some d)
    else Ok (pqr, None).

  (** geec/polyhedron.py:203-233: the body of [Edge._get_ccw_line_integrals]
      when nothing is cached, up to the assignment of [_pqr] and [_dpqr].
      As in the code, [chsgn] multiplies pqr but not dpqr, and [Lj] is not
      reversed when the two end points are interchanged.  The divisions of
      lines 208 and 218 are numpy float64 divisions and never raise. *)
  Definition edge_integral (e : edge) (obs : vec A) (gradient : bool)
    : res (vec A * option (mat A)) :=
    let R1 := vsub (e_start e) obs in
    let R2 := vsub (e_end e) obs in
    let r1 := norm R1 in
    let r2 := norm R2 in
    let '(R1, r1, chsgn) :=
      if ((r2 <? r1) && ((dot R1 R2 / (r1 * r2)) =? n1))%bool
      then (R2, r2, nofZ (-1)%Z)
      else (R1, r1, n1) in
    let Lj := e_vector e in
    let lj := e_length e in
    let bj := n2 * dot R1 Lj in
    let b2 := bj / lj / n2 in
    let '(Lj, bj, b2) :=
      if nabs (r1 + b2) <? neps then
        let Lj := vopp Lj in
        let bj := nopp bj in
        (Lj, bj, bj / lj / n2)
      else (Lj, bj, b2) in
    let cj := r1 + b2 in
    do pd <- line_integral_along_edge cj Lj lj R1 r1 b2 bj gradient;
    let '(pqr, dpqr) := pd in
    Ok (vmuls pqr chsgn, dpqr).
End Edge.
Arguments edge A : clear implicits.

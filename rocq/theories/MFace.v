(** * Model of class Face, geec/polyhedron.py:238-784 (numerical part) *)
From Coq Require Import List ZArith Bool Arith.
Import ListNotations.
From Verif Require Import Base MUtils MEdge.

Section Face.
  Context {A : arith}.
  Local Open Scope num_scope.

  (** geec/polyhedron.py:249-286 [Face.__init__]: the immutable attributes.
      The station-dependent attributes live in the state of MPoly.v. *)
  Record face : Type := {
    f_points : list (vec A);
    f_simplex : list nat;
    f_un : vec A;
    f_neighbors : list nat;
    f_nbr_simplices : list (list nat);
    f_edges : list (edge A)
  }.

  Definition f_npoints (f : face) : nat := length (f_simplex f).

  (** [points[i]]; the index is always in range in the code. *)
  Definition pnth (i : nat) (l : list (vec A)) : vec A := nth i l vzero.

  (** geec/polyhedron.py:370-382 [_get_dot_point1] *)
  Definition dot_point1 (f : face) (obs : vec A) : num A :=
    dot (f_un f) (vsub (pnth 0 (f_points f)) obs).

  (** geec/polyhedron.py:462-471 [_get_A1A2] *)
  Definition get_A1A2 (i : nat) (inout : num A) (npoints : nat)
    (unitv : list (vec A)) : vec A * vec A :=
    let A1 := vopp (pnth i unitv) in
    let A2 := pnth ((i + 1) mod npoints)%nat unitv in
    if n0 <? inout then (A2, A1) else (A1, A2).

  (** geec/polyhedron.py:473-489 [_get_perp] *)
  Definition get_perp (i : nat) (inout : num A) (npoints : nat)
    (points : list (vec A)) (A1 : vec A) : num A :=
    if inout =? n0 then n1
    else
      let p3 := if n0 <? inout then pnth i points
                else pnth ((i + 2) mod npoints)%nat points in
      dot p3 A1.

  (** geec/polyhedron.py:496-505 [_get_angle].  CPython's math.acos raises
      ValueError outside [-1,1]. *)
  Definition get_angle (inout b perp : num A) : res (num A) :=
    if inout =? n0 then Ok n0
    else if ((b <? nofZ (-1)%Z) || (n1 <? b))%bool then Err ValueError
    else
      let angle := nacos b in
      Ok (if perp <? n0 then n2 * npi - angle else angle).

  (** geec/polyhedron.py:507-559 [_get_dangle].  CPython's math.sqrt raises
      ValueError on a negative argument (line 552). *)
  Definition get_dangle (i : nat) (inout b perp : num A) (A1 A2 : vec A)
    (npoints : nat) (cross_dp : list (mat A)) (cross : list (vec A))
    (nrm : list (num A)) (unitv : list (vec A)) : res (vec A) :=
    let mnth k := nth k cross_dp mzero in
    let snth k := nth k nrm n0 in
    let i1 := ((i + 1) mod npoints)%nat in
    let i2 := ((i + 2) mod npoints)%nat in
    let cdp1 := mopp (mnth i) in
    let cdp2 := mnth i1 in
    let cdp3 := mopp (mnth i2) in
    let V1 := vopp (pnth i cross) in
    let V2 := pnth i1 cross in
    let v1 := snth i in
    let v2 := snth i1 in
    let uV1 := vopp (pnth i unitv) in
    let uV2 := pnth i1 unitv in
    let '(cdp1, cdp3, V1, V2, v1, v2, uV1, uV2) :=
      if n0 <? inout
      then (cdp3, cdp1, V2, V1, v2, v1, uV2, uV1)
      else (cdp1, cdp3, V1, V2, v1, v2, uV1, uV2) in
    let dV1 := madd cdp1 cdp2 in
    let dV2 := madd cdp3 cdp2 in
    let dv1 := mdot dV1 uV1 in
    let dv2 := mdot dV2 uV2 in
    (* (dV * v - V * dv[:, newaxis]) / (v * v), row by row *)
    let DA dV v V dv :=
      vmap2 (fun row dvj => vdivs (vsub (vmuls row v) (vmuls V dvj)) (v * v)) dV dv in
    let DA1 := DA dV1 v1 V1 dv1 in
    let DA2 := DA dV2 v2 V2 dv2 in
    let DB := vadd (mdot DA1 A2) (mdot DA2 A1) in
    let rad := n1 - b * b in
    if rad <? n0 then Err ValueError else
    let denom := nsqrt rad in
    Ok (if negb (denom =? n0) then
          let dangle := vdivs (vopp DB) denom in
          if perp <? n0 then vopp dangle else dangle
        else vzero).

  (** one iteration of the loop geec/polyhedron.py:434-456 *)
  Definition omega_step (gradient : bool) (npoints : nat)
    (points : list (vec A)) (dots : list (num A)) (cross : list (vec A))
    (nrm : list (num A)) (unitv : list (vec A)) (cross_dp : list (mat A))
    (wdw : num A * vec A) (i : nat) : res (num A * vec A) :=
    let '(w, dw) := wdw in
    let inout := nth i dots n0 in
    let '(A1, A2) := get_A1A2 i inout npoints unitv in
    let perp := get_perp i inout npoints points A1 in
    let b := dot A1 A2 in
    do angle <- get_angle inout b perp;
    let w := w + angle in
    if gradient then
      do dangle <- get_dangle i inout b perp A1 A2 npoints cross_dp cross nrm unitv;
      Ok (w, vadd dw dangle)
    else Ok (w, dw).

  (** geec/polyhedron.py:399-460 [_get_omega], given the attributes [_dp1] and
      [_sign].  Returns [(_omega, _domega)].  Simplification: without gradient
      the code leaves [_domega] a scalar zero (line 460 with dw = 0); the model
      keeps the zero vector.  It is never read in that case. *)
  Definition get_omega (f : face) (obs : vec A) (dp1 sgn : num A) (gradient : bool)
    : res (num A * vec A) :=
    if neps <? nabs dp1 then
      let npoints := f_npoints f in
      let points := map (fun p => vsub p obs) (f_points f) in
      let dots := map (fun p => dot (f_un f) p) points in
      let cross :=
        map (fun i => cross3 (pnth i points) (pnth ((i + 1) mod npoints)%nat points))
            (seq 0 npoints) in
      let nrm := map norm cross in
      let unitv := map (fun c => vdivs c (norm c)) cross in
      let cross_dp :=
        map (fun p => vmap (fun m => cross3 p m) minus_identity) points in
      do wdw <- foldM (omega_step gradient npoints points dots cross nrm unitv cross_dp)
                      (seq 0 npoints) (n0, vzero);
      let '(w, dw) := wdw in
      let w := w - nofZ (Z.of_nat npoints - 2)%Z * npi in
      Ok (nopp sgn * w, vscale (nopp sgn) dw)
    else Ok (n0, vzero).

  (** geec/polyhedron.py:722-736: gravity of the face from [_dp1], [_omega] and
      [_pqr]: the bracketed triple (_gx,_gy,_gz) and the gravity itself [mGal] *)
  Definition face_bracket (un : vec A) (omega : num A) (pqr : vec A) : vec A :=
    let '(V3 L M N) := un in
    let '(V3 P Q R) := pqr in
    V3 (L * omega + N * Q - M * R)
       (M * omega + L * R - N * P)
       (N * omega + M * P - L * Q).

  Definition face_factor (density Gc : num A) : num A :=
    nopp density * Gc * nofZ 100000%Z.

  Definition face_g (un : vec A) (density Gc dp1 omega : num A) (pqr : vec A)
    : vec A :=
    vscale (dp1 * face_factor density Gc) (face_bracket un omega pqr).

  (** geec/polyhedron.py:738-780: the gradient tensor [E]; only the upper
      triangle is computed, the lower one is copied from it. *)
  Definition face_tensor (un : vec A) (density Gc dp1 omega : num A)
    (domega : vec A) (pqr : vec A) (dpqr : mat A) : mat A :=
    let '(V3 L M N) := un in
    let '(V3 _gx _gy _gz) := face_bracket un omega pqr in
    let '(V3 (V3 px qx rx) (V3 py qy ry) (V3 pz qz rz)) := dpqr in
    let '(V3 dux duy duz) := vopp un in
    let '(V3 dox doy doz) := domega in
    let factor := face_factor density Gc * nofZ 10000%Z in
    let txx := factor * (dp1 * (L * dox + N * qx - M * rx) + dux * _gx) in
    let txy := factor * (dp1 * (L * doy + N * qy - M * ry) + duy * _gx) in
    let txz := factor * (dp1 * (L * doz + N * qz - M * rz) + duz * _gx) in
    let tyy := factor * (dp1 * (M * doy + L * ry - N * py) + duy * _gy) in
    let tyz := factor * (dp1 * (M * doz + L * rz - N * pz) + duz * _gy) in
    let tzz := factor * (dp1 * (N * doz + M * pz - L * qz) + duz * _gz) in
    V3 (V3 txx txy txz) (V3 txy tyy tyz) (V3 txz tyz tzz).

  (** geec/polyhedron.py:365-368 [_get_twinface]: index of the first neighbour
      whose simplex contains both end points; IndexError when there is none. *)
  Definition get_twinface (neighbors : list nat) (nbr_simplices : list (list nat))
    (pair : nat * nat) : res nat :=
    let inb p s := existsb (Nat.eqb p) s in
    match
      filter (fun ns => inb (fst pair) (snd ns) && inb (snd pair) (snd ns))%bool
             (combine neighbors nbr_simplices)
    with
    | (n, _) :: _ => Ok n
    | [] => Err IndexError
    end.

  (** consecutive pairs (itertools.pairwise) *)
  Fixpoint pairwise {X} (l : list X) : list (X * X) :=
    match l with
    | x :: ((y :: _) as l') => (x, y) :: pairwise l'
    | _ => []
    end.

  (** geec/polyhedron.py:343-353 [_get_edges].  [strict=True] cannot fail: both
      lists have one entry per point. *)
  Definition get_edges (points : list (vec A)) (simplex neighbors : list nat)
    (nbr_simplices : list (list nat)) : res (list (edge A)) :=
    let points' := points ++ [pnth 0 points] in
    let simplex' := simplex ++ [nth 0 simplex O] in
    mapM (fun ps =>
            do tf <- get_twinface neighbors nbr_simplices (snd ps);
            Ok (mk_edge (fst ps) (snd ps) tf))
         (combine (pairwise points') (pairwise simplex')).

  (** geec/polyhedron.py:249-286 [Face.__init__] *)
  Definition mk_face (points : list (vec A)) (simplex : list nat) (un : vec A)
    (neighbors : list nat) (nbr_simplices : list (list nat)) : res face :=
    do es <- get_edges points simplex neighbors nbr_simplices;
    Ok {| f_points := points; f_simplex := simplex; f_un := un;
          f_neighbors := neighbors; f_nbr_simplices := nbr_simplices;
          f_edges := es |}.
End Face.
Arguments face A : clear implicits.

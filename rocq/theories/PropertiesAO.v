(** * Properties C10 and C14 in double precision *)
From Coq Require Import Reals Lra Psatz ZArith Bool List Permutation Arith Lia Floats.SpecFloat.
From Coquelicot Require Import Coquelicot.
From Verif Require Import Base MUtils MEdge MFace MHull MPoly SpecPoly PPoly PStation PPlain FArith PCall PNan Examples.
From Verif Require Import RVec RArith REdge REdgeModel RAngle ROmega RFace RFacet RPoly RTwin RField
  RHull RHullZ ExamplesR RLinear RMove RMoved RGlue RLaws RPlaced RPlacedZ RRay RTrace RFlux RVolume RSolid RBound PropertiesR PropertiesS PropertiesT PropertiesV PropertiesY RTensor PropertiesAJ.
From Verif Require Import PropertiesF PropertiesE FReal FErr FDot PSim FHull FNorm FBuild FInt FLog FUnit FEdge FOmega FGrav FField FTField PropertiesG PropertiesAH PropertiesAK PropertiesAL PropertiesAN.
Import ListNotations.
Local Open Scope R_scope.
Local Open Scope list_scope.

Lemma scaled_step k D x y y' : Rabs (y - x) <= D -> Rabs (y' - k * x) <= D -> Rabs (y' - k * y) <= (1 + Rabs k) * D.
Proof.
  intros H H'. replace (y' - k * y) with ((y' - k * x) + (- (k * (y - x)))) by ring.
  eapply Rle_trans; [apply Rabs_triang|]. rewrite Rabs_Ropp, Rabs_mult.
  pose proof (Rmult_le_compat_l _ _ _ (Rabs_pos k) H). lra.
Qed.
Lemma scaled_within k D x y y' : within D (y - x)%v -> within D (y' - k * x)%v -> within ((1 + Rabs k) * D) (y' - k * y)%v.
Proof.
  intros (A1 & A2 & A3) (B1 & B2 & B3). destruct x as [x1 x2 x3], y as [y1 y2 y3], y' as [z1 z2 z3].
  cbn [vm sc vx vy vz] in *. split; [|split]; cbn [vm sc vx vy vz]; eapply scaled_step; eassumption.
Qed.
Lemma sum_step D D' D'' x x' y y' z : Rabs (y - x) <= D -> Rabs (y' - x') <= D' -> Rabs (z - (x + x')) <= D'' -> Rabs (z - (y + y')) <= D + D' + D''.
Proof.
  intros H H' H''. replace (z - (y + y')) with ((z - (x + x')) + (- (y - x) + - (y' - x'))) by ring.
  eapply Rle_trans; [apply Rabs_triang|]. pose proof (Rabs_triang (- (y - x)) (- (y' - x'))) as K. rewrite !Rabs_Ropp in K. lra.
Qed.
Lemma sum_within D D' D'' x x' y y' z : within D (y - x)%v -> within D' (y' - x')%v -> within D'' (z - (x + x'))%v -> within (D + D' + D'') (z - (y + y'))%v.
Proof.
  intros (A1 & A2 & A3) (B1 & B2 & B3) (C1 & C2 & C3). destruct x as [x1 x2 x3], x' as [u1 u2 u3], y as [y1 y2 y3], y' as [w1 w2 w3], z as [z1 z2 z3].
  cbn [vm va vx vy vz] in *. split; [|split]; cbn [vm va vx vy vz].
  - exact (sum_step _ _ _ _ _ _ _ _ A1 B1 C1).
  - exact (sum_step _ _ _ _ _ _ _ _ A2 B2 C2).
  - exact (sum_step _ _ _ _ _ _ _ _ A3 B3 C3).
Qed.

(** C10 in doubles: scaling the density and the constant by k scales the attraction by
    k, up to 1 + |k| times the rounding bound of C72 *)
Theorem C10_double :
  forall lg ac (DP : dotlib), libm lg ac ->
  forall convex_hull in_hull points (h : hull (FA lg ac DP)) M L g s,
  convex_hull points = Ok h -> correct_hull (real_hull lg ac DP h) ->
  / 2 ^ 20 <= L -> L <= 2 * M -> M <= 2 ^ 100 -> 1 <= g <= 1024 -> 1 <= s <= 32768 ->
  forall o : vec (FA lg ac DP), measured lg ac DP h M L g s o ->
  forall (density Gc density' Gc' : num (FA lg ac DP)) R0 G0 k, / 2 ^ 90 <= R0 <= 2 ^ 90 -> / 2 ^ 90 <= G0 <= 2 ^ 90 ->
  fin density -> Rabs (fv density) <= R0 -> fin Gc -> Rabs (fv Gc) <= G0 ->
  fin density' -> Rabs (fv density') <= R0 -> fin Gc' -> Rabs (fv Gc') <= G0 ->
  fv density' * fv Gc' = k * (fv density * fv Gc) ->
  let N := INR (length (h_simplices h)) in
  let D := N * (L * (100000 * (R0 * G0))) * (g ^ 3 + g * s + N) / 2 ^ 35 in
  exists p, mk_polyhedron convex_hull in_hull points = Ok p /\
  forall st st', reachable p st -> reachable p st' ->
  exists G T G' T', fst (get_gravity p o density Gc false st) = Ok (G, T) /\ fst (get_gravity p o density' Gc' false st') = Ok (G', T') /\
    within ((1 + Rabs k) * D) (fvec G' - k * fvec G)%v.
Proof.
  intros lg ac DP Hlib ch inh pts h M L g s Hc Hh H2 H3 H4 Hg Hs o Hme rho Gc rho' Gc' R0 G0 k HR HG Fr Br Fg Bg Fr' Br' Fg' Bg' Hk N D.
  destruct (measured_gravity lg ac DP Hlib ch inh pts h M L g s Hc Hh H2 H3 H4 Hg Hs o Hme rho Gc R0 G0 HR HG Fr Br Fg Bg) as (p & pR & G & T & Ep & EpR & HcR & Reg & Eg & W).
  destruct (measured_gravity lg ac DP Hlib ch inh pts h M L g s Hc Hh H2 H3 H4 Hg Hs o Hme rho' Gc' R0 G0 HR HG Fr' Br' Fg' Bg') as (p' & pR' & G' & T' & Ep' & EpR' & _ & _ & Eg' & W').
  rewrite Ep in Ep'. injection Ep' as <-. rewrite EpR in EpR'. injection EpR' as <-.
  fold N in W, W'. fold D in W, W'. exists p. split; [exact Ep|]. intros st st' Hst Hst'. exists G, T, G', T'.
  split; [now apply Eg|]. split; [now apply Eg'|]. apply (scaled_within k D _ _ _ W).
  pose proof (C10_linear pR (fvec o) (fv rho) (fv Gc) (fv rho') (fv Gc') k false pstate0 pstate0 (reach_new _) (reach_new _) Hk) as E.
  rewrite !gravity_spec in E by apply reach_new.
  rewrite !(well_value pR (fvec o) false _ _ HcR (steady_well _ _ _ HcR Reg)) in E. injection E as E _. rewrite <- E. exact W'.
Qed.
Print Assumptions C10_double.

(** and likewise the tensor, with the bound of C79 *)
Theorem C10_double_tensor :
  forall lg ac (DP : dotlib), libm lg ac ->
  forall convex_hull in_hull points (h : hull (FA lg ac DP)) M L g s,
  convex_hull points = Ok h -> correct_hull (real_hull lg ac DP h) ->
  / 2 ^ 20 <= L -> L <= 2 * M -> M <= 2 ^ 100 -> L <= 2 ^ 50 -> 1 <= g <= 1024 -> 1 <= s <= 8192 ->
  forall o : vec (FA lg ac DP), measured lg ac DP h M L g s o ->
  forall (density Gc density' Gc' : num (FA lg ac DP)) R0 G0 k, / 2 ^ 90 <= R0 <= 2 ^ 90 -> / 2 ^ 90 <= G0 <= 2 ^ 90 ->
  fin density -> Rabs (fv density) <= R0 -> fin Gc -> Rabs (fv Gc) <= G0 ->
  fin density' -> Rabs (fv density') <= R0 -> fin Gc' -> Rabs (fv Gc') <= G0 ->
  fv density' * fv Gc' = k * (fv density * fv Gc) ->
  let N := INR (length (h_simplices h)) in
  let D := N * (g ^ 5 + g ^ 2 * s ^ 3 + N * (g ^ 2 + g * s)) * (1000000000 * (R0 * G0)) / 2 ^ 30 in
  exists p, mk_polyhedron convex_hull in_hull points = Ok p /\
  forall st st', reachable p st -> reachable p st' ->
  exists G T G' T', fst (get_gravity p o density Gc true st) = Ok (G, T) /\ fst (get_gravity p o density' Gc' true st') = Ok (G', T') /\
    let B := (1 + Rabs k) * D in
    within B (fvec (vx T') - k * fvec (vx T))%v /\ within B (fvec (vy T') - k * fvec (vy T))%v /\ within B (fvec (vz T') - k * fvec (vz T))%v.
Proof.
  intros lg ac DP Hlib ch inh pts h M L g s Hc Hh H2 H3 H4 HL Hg Hs o Hme rho Gc rho' Gc' R0 G0 k HR HG Fr Br Fg Bg Fr' Br' Fg' Bg' Hk N D.
  destruct (measured_tensor lg ac DP Hlib ch inh pts h M L g s Hc Hh H2 H3 H4 HL Hg Hs o Hme rho Gc R0 G0 HR HG Fr Br Fg Bg) as (p & pR & G & T & Ep & EpR & HcR & Reg & Eg & W1 & W2 & W3).
  destruct (measured_tensor lg ac DP Hlib ch inh pts h M L g s Hc Hh H2 H3 H4 HL Hg Hs o Hme rho' Gc' R0 G0 HR HG Fr' Br' Fg' Bg') as (p' & pR' & G' & T' & Ep' & EpR' & _ & _ & Eg' & W1' & W2' & W3').
  rewrite Ep in Ep'. injection Ep' as <-. rewrite EpR in EpR'. injection EpR' as <-.
  fold N in W1, W2, W3, W1', W2', W3'. fold D in W1, W2, W3, W1', W2', W3'. exists p. split; [exact Ep|]. intros st st' Hst Hst'. exists G, T, G', T'.
  split; [now apply Eg|]. split; [now apply Eg'|].
  pose proof (C10_linear pR (fvec o) (fv rho) (fv Gc) (fv rho') (fv Gc') k true pstate0 pstate0 (reach_new _) (reach_new _) Hk) as E.
  rewrite !gravity_spec in E by apply reach_new.
  rewrite !(well_value pR (fvec o) true _ _ HcR (steady_well _ _ _ HcR Reg)) in E. injection E as _ E. rewrite E in W1', W2', W3'.
  cbn [vx vy vz] in W1', W2', W3'. cbv zeta.
  split; [exact (scaled_within k D _ _ _ W1 W1')|]. split; [exact (scaled_within k D _ _ _ W2 W2')|exact (scaled_within k D _ _ _ W3 W3')].
Qed.
Print Assumptions C10_double_tensor.

(** C14 in doubles: the attraction computed for a body made of two is the sum of those
    computed for the two, up to the three rounding bounds *)
Theorem C14_double :
  forall lg ac (DP : dotlib), libm lg ac ->
  forall convex_hull in_hull points convex_hull' in_hull' points' convex_hull2 in_hull2 points2 (h h' h2 : hull (FA lg ac DP)) M L g s,
  convex_hull points = Ok h -> correct_hull (real_hull lg ac DP h) ->
  convex_hull' points' = Ok h' -> correct_hull (real_hull lg ac DP h') ->
  convex_hull2 points2 = Ok h2 -> correct_hull (real_hull lg ac DP h2) ->
  forall pR pR' qR, mk_polyhedron (A := RA) (fun _ => Ok (real_hull lg ac DP h)) (fun _ _ => true) [] = Ok pR ->
  mk_polyhedron (A := RA) (fun _ => Ok (real_hull lg ac DP h')) (fun _ _ => true) [] = Ok pR' ->
  mk_polyhedron (A := RA) (fun _ => Ok (real_hull lg ac DP h2)) (fun _ _ => true) [] = Ok qR -> glued pR pR' qR ->
  / 2 ^ 20 <= L -> L <= 2 * M -> M <= 2 ^ 100 -> 1 <= g <= 1024 -> 1 <= s <= 32768 ->
  forall o : vec (FA lg ac DP), measured lg ac DP h M L g s o -> measured lg ac DP h' M L g s o -> measured lg ac DP h2 M L g s o ->
  forall (density Gc : num (FA lg ac DP)) R0 G0, / 2 ^ 90 <= R0 <= 2 ^ 90 -> / 2 ^ 90 <= G0 <= 2 ^ 90 ->
  fin density -> Rabs (fv density) <= R0 -> fin Gc -> Rabs (fv Gc) <= G0 ->
  let D n := INR n * (L * (100000 * (R0 * G0))) * (g ^ 3 + g * s + INR n) / 2 ^ 35 in
  exists p p' q, mk_polyhedron convex_hull in_hull points = Ok p /\ mk_polyhedron convex_hull' in_hull' points' = Ok p' /\
    mk_polyhedron convex_hull2 in_hull2 points2 = Ok q /\
  forall st st' st2, reachable p st -> reachable p' st' -> reachable q st2 ->
  exists G T G' T' G2 T2, fst (get_gravity p o density Gc false st) = Ok (G, T) /\ fst (get_gravity p' o density Gc false st') = Ok (G', T') /\
    fst (get_gravity q o density Gc false st2) = Ok (G2, T2) /\
    within (D (length (h_simplices h)) + D (length (h_simplices h')) + D (length (h_simplices h2))) (fvec G2 - (fvec G + fvec G'))%v.
Proof.
  intros lg ac DP Hlib ch inh pts ch' inh' pts' ch2 inh2 pts2 h h' h2 M L g s Hc Hh Hc' Hh' Hc2 Hh2 pR pR' qR EpR EpR' EqR Hgl
    H2 H3 H4 Hg Hs o Hme Hme' Hme2 rho Gc R0 G0 HR HG Fr Br Fg Bg D.
  destruct (measured_gravity lg ac DP Hlib ch inh pts h M L g s Hc Hh H2 H3 H4 Hg Hs o Hme rho Gc R0 G0 HR HG Fr Br Fg Bg) as (p & x & G & T & Ep & Ex & HcR & Reg & Eg & W).
  rewrite EpR in Ex. injection Ex as <-.
  destruct (measured_gravity lg ac DP Hlib ch' inh' pts' h' M L g s Hc' Hh' H2 H3 H4 Hg Hs o Hme' rho Gc R0 G0 HR HG Fr Br Fg Bg) as (p' & x & G' & T' & Ep' & Ex & HcR' & Reg' & Eg' & W').
  rewrite EpR' in Ex. injection Ex as <-.
  destruct (measured_gravity lg ac DP Hlib ch2 inh2 pts2 h2 M L g s Hc2 Hh2 H2 H3 H4 Hg Hs o Hme2 rho Gc R0 G0 HR HG Fr Br Fg Bg) as (q & x & G2 & T2 & Eq & Ex & HcR2 & Reg2 & Eg2 & W2).
  rewrite EqR in Ex. injection Ex as <-.
  exists p, p', q. do 3 (split; [assumption|]). intros st st' st2 Hst Hst' Hst2. exists G, T, G', T', G2, T2.
  split; [now apply Eg|]. split; [now apply Eg'|]. split; [now apply Eg2|].
  destruct (C14_glued pR pR' qR (fvec o) (fv rho) (fv Gc) false pstate0 pstate0 pstate0 HcR HcR' HcR2
    (proj1 (steady_well _ _ _ HcR Reg)) (proj1 (steady_well _ _ _ HcR' Reg')) (reach_new _) (reach_new _) (reach_new _) Hgl)
    as (G1r & T1r & G2r & T2r & V & V' & V2).
  rewrite !gravity_spec in V, V', V2 by apply reach_new.
  rewrite (well_value pR (fvec o) false (fv rho) (fv Gc) HcR (steady_well _ _ _ HcR Reg)) in V. injection V as V _.
  rewrite (well_value pR' (fvec o) false (fv rho) (fv Gc) HcR' (steady_well _ _ _ HcR' Reg')) in V'. injection V' as V' _.
  rewrite (well_value qR (fvec o) false (fv rho) (fv Gc) HcR2 (steady_well _ _ _ HcR2 Reg2)) in V2. injection V2 as V2 _.
  rewrite V in W. rewrite V' in W'. rewrite V2 in W2. exact (sum_within _ _ _ _ _ _ _ _ W W' W2).
Qed.
Print Assumptions C14_double.

Theorem C14_double_tensor :
  forall lg ac (DP : dotlib), libm lg ac ->
  forall convex_hull in_hull points convex_hull' in_hull' points' convex_hull2 in_hull2 points2 (h h' h2 : hull (FA lg ac DP)) M L g s,
  convex_hull points = Ok h -> correct_hull (real_hull lg ac DP h) ->
  convex_hull' points' = Ok h' -> correct_hull (real_hull lg ac DP h') ->
  convex_hull2 points2 = Ok h2 -> correct_hull (real_hull lg ac DP h2) ->
  forall pR pR' qR, mk_polyhedron (A := RA) (fun _ => Ok (real_hull lg ac DP h)) (fun _ _ => true) [] = Ok pR ->
  mk_polyhedron (A := RA) (fun _ => Ok (real_hull lg ac DP h')) (fun _ _ => true) [] = Ok pR' ->
  mk_polyhedron (A := RA) (fun _ => Ok (real_hull lg ac DP h2)) (fun _ _ => true) [] = Ok qR -> glued pR pR' qR ->
  / 2 ^ 20 <= L -> L <= 2 * M -> M <= 2 ^ 100 -> L <= 2 ^ 50 -> 1 <= g <= 1024 -> 1 <= s <= 8192 ->
  forall o : vec (FA lg ac DP), measured lg ac DP h M L g s o -> measured lg ac DP h' M L g s o -> measured lg ac DP h2 M L g s o ->
  forall (density Gc : num (FA lg ac DP)) R0 G0, / 2 ^ 90 <= R0 <= 2 ^ 90 -> / 2 ^ 90 <= G0 <= 2 ^ 90 ->
  fin density -> Rabs (fv density) <= R0 -> fin Gc -> Rabs (fv Gc) <= G0 ->
  let D n := INR n * (g ^ 5 + g ^ 2 * s ^ 3 + INR n * (g ^ 2 + g * s)) * (1000000000 * (R0 * G0)) / 2 ^ 30 in
  exists p p' q, mk_polyhedron convex_hull in_hull points = Ok p /\ mk_polyhedron convex_hull' in_hull' points' = Ok p' /\
    mk_polyhedron convex_hull2 in_hull2 points2 = Ok q /\
  forall st st' st2, reachable p st -> reachable p' st' -> reachable q st2 ->
  exists G T G' T' G2 T2, fst (get_gravity p o density Gc true st) = Ok (G, T) /\ fst (get_gravity p' o density Gc true st') = Ok (G', T') /\
    fst (get_gravity q o density Gc true st2) = Ok (G2, T2) /\
    let B := D (length (h_simplices h)) + D (length (h_simplices h')) + D (length (h_simplices h2)) in
    within B (fvec (vx T2) - (fvec (vx T) + fvec (vx T')))%v /\ within B (fvec (vy T2) - (fvec (vy T) + fvec (vy T')))%v /\
    within B (fvec (vz T2) - (fvec (vz T) + fvec (vz T')))%v.
Proof.
  intros lg ac DP Hlib ch inh pts ch' inh' pts' ch2 inh2 pts2 h h' h2 M L g s Hc Hh Hc' Hh' Hc2 Hh2 pR pR' qR EpR EpR' EqR Hgl
    H2 H3 H4 HL Hg Hs o Hme Hme' Hme2 rho Gc R0 G0 HR HG Fr Br Fg Bg D.
  destruct (measured_tensor lg ac DP Hlib ch inh pts h M L g s Hc Hh H2 H3 H4 HL Hg Hs o Hme rho Gc R0 G0 HR HG Fr Br Fg Bg) as (p & x & G & T & Ep & Ex & HcR & Reg & Eg & A1 & A2 & A3).
  rewrite EpR in Ex. injection Ex as <-.
  destruct (measured_tensor lg ac DP Hlib ch' inh' pts' h' M L g s Hc' Hh' H2 H3 H4 HL Hg Hs o Hme' rho Gc R0 G0 HR HG Fr Br Fg Bg) as (p' & x & G' & T' & Ep' & Ex & HcR' & Reg' & Eg' & B1 & B2 & B3).
  rewrite EpR' in Ex. injection Ex as <-.
  destruct (measured_tensor lg ac DP Hlib ch2 inh2 pts2 h2 M L g s Hc2 Hh2 H2 H3 H4 HL Hg Hs o Hme2 rho Gc R0 G0 HR HG Fr Br Fg Bg) as (q & x & G2 & T2 & Eq & Ex & HcR2 & Reg2 & Eg2 & C1 & C2 & C3).
  rewrite EqR in Ex. injection Ex as <-.
  exists p, p', q. do 3 (split; [assumption|]). intros st st' st2 Hst Hst' Hst2. exists G, T, G', T', G2, T2.
  split; [now apply Eg|]. split; [now apply Eg'|]. split; [now apply Eg2|].
  destruct (C14_glued pR pR' qR (fvec o) (fv rho) (fv Gc) true pstate0 pstate0 pstate0 HcR HcR' HcR2
    (proj1 (steady_well _ _ _ HcR Reg)) (proj1 (steady_well _ _ _ HcR' Reg')) (reach_new _) (reach_new _) (reach_new _) Hgl)
    as (G1r & T1r & G2r & T2r & V & V' & V2).
  rewrite !gravity_spec in V, V', V2 by apply reach_new.
  rewrite (well_value pR (fvec o) true (fv rho) (fv Gc) HcR (steady_well _ _ _ HcR Reg)) in V. injection V as _ V.
  rewrite (well_value pR' (fvec o) true (fv rho) (fv Gc) HcR' (steady_well _ _ _ HcR' Reg')) in V'. injection V' as _ V'.
  rewrite (well_value qR (fvec o) true (fv rho) (fv Gc) HcR2 (steady_well _ _ _ HcR2 Reg2)) in V2. injection V2 as _ V2.
  rewrite V in A1, A2, A3. rewrite V' in B1, B2, B3. rewrite V2 in C1, C2, C3. cbn [vx vy vz] in C1, C2, C3. cbv zeta.
  split; [exact (sum_within _ _ _ _ _ _ _ _ A1 B1 C1)|]. split; [exact (sum_within _ _ _ _ _ _ _ _ A2 B2 C2)|exact (sum_within _ _ _ _ _ _ _ _ A3 B3 C3)].
Qed.
Print Assumptions C14_double_tensor.

(** the two tetrahedra of C14_case and their union meet the hypotheses *)
Example C14_double_case : forall lg ac (DP : dotlib),
  (forall c, c = upZ \/ c = downZ \/ c = bothZ ->
    real_hull lg ac DP (fh lg ac DP c) = rh c /\ correct_hull (real_hull lg ac DP (fh lg ac DP c)) /\
    measured lg ac DP (fh lg ac DP c) 25 36 20 20 (PropertiesF.fv lg ac DP o_out)) /\
  exists p p' q, glued p p' q /\
    mk_polyhedron (A := RA) (fun _ => Ok (real_hull lg ac DP (fh lg ac DP upZ))) (fun _ _ => true) [] = Ok p /\
    mk_polyhedron (A := RA) (fun _ => Ok (real_hull lg ac DP (fh lg ac DP downZ))) (fun _ _ => true) [] = Ok p' /\
    mk_polyhedron (A := RA) (fun _ => Ok (real_hull lg ac DP (fh lg ac DP bothZ))) (fun _ _ => true) [] = Ok q.
Proof.
  intros lg ac DP. match goal with |- ?X /\ _ => assert (K0 : X) end.
  2:{ split; [exact K0|]. set (w c := {| pl_points := []; pl_faces := pl_faces (body c); pl_twin := pl_twin (body c) |} : polyhedron RA).
    exists (w upZ), (w downZ), (w bothZ). split; [exact (proj1 (proj2 (proj2 (proj2 C14_case))))|].
    assert (K : forall c, hullb c = true -> real_hull lg ac DP (fh lg ac DP c) = rh c ->
      mk_polyhedron (A := RA) (fun _ => Ok (real_hull lg ac DP (fh lg ac DP c))) (fun _ _ => true) [] = Ok (w c)).
    { intros c Hb ->. destruct (body_ok c Hb) as [E _]. unfold build, mk_polyhedron, bind in *.
      destruct (get_faces (rh c) (fun _ _ => true)) as [ft|e]; [|discriminate E].
      apply (f_equal (fun r : res (polyhedron RA) => match r with Ok x => (pl_faces x, pl_twin x) | Err _ => ([], fun _ => None) end)) in E.
      cbn [pl_faces pl_twin] in E. unfold w. injection E as <- <-. reflexivity. }
    split; [|split]; apply K; try (vm_compute; reflexivity); apply K0; auto. }
  intros c Hc.
  assert (Q : forall v, In v (z_points c) -> (Z.abs (vx v) <= 25)%Z /\ (Z.abs (vy v) <= 25)%Z /\ (Z.abs (vz v) <= 25)%Z).
  { intros v Hv. destruct Hc as [-> | [-> | ->]]; cbn in Hv; repeat (destruct Hv as [<-|Hv]; [cbn; lia|]); destruct Hv. }
  assert (Hb : hullb c = true) by (destruct Hc as [-> | [-> | ->]]; vm_compute; reflexivity).
  assert (ER : real_hull lg ac DP (fh lg ac DP c) = rh c) by (apply real_fh; intros v Hv; destruct (Q v Hv) as (? & ? & ?); lia).
  assert (Hh : correct_hull (real_hull lg ac DP (fh lg ac DP c))) by (rewrite ER; apply hullb_ok, Hb).
  split; [exact ER|]. split; [exact Hh|]. clear ER. set (z := o_out).
  set (h := fh lg ac DP c) in *. set (P i := pnth (A := FA lg ac DP) i (h_points h)).
  assert (EF : forall i, P i = PropertiesF.fv lg ac DP (zpt c i)).
  { intros i. unfold P, h, pnth, zpt. cbn [h_points fh]. change (vzero (A := FA lg ac DP)) with (PropertiesF.fv lg ac DP (V3 0 0 0)%Z). apply map_nth. }
  assert (WP : forall i, In i (h_vertices h) -> zwithin 25 (zpt c i) = true).
  { assert (Al : forallb (fun i => zwithin 25 (zpt c i)) (z_vertices c) = true) by (destruct Hc as [-> | [-> | ->]]; vm_compute; reflexivity).
    intros i Hi. rewrite forallb_forall in Al. exact (Al i Hi). }
  assert (PZ : forall i, In i (h_vertices h) -> vfin (P i) /\ fvec (P i) = rv (zpt c i)).
  { intros i Hi. rewrite EF. apply cube_fvec, WP, Hi. }
  assert (LV : (4 <= length (h_vertices h) <= 5)%nat) by (destruct Hc as [-> | [-> | ->]]; cbn; lia).
  assert (LS : (4 <= length (h_simplices h) <= 6)%nat) by (destruct Hc as [-> | [-> | ->]]; cbn; lia).
  assert (Hn : (length (h_vertices h) <= 500)%nat) by lia.
  assert (Hi : forall i, In i (h_vertices h) -> exists x y z, (Z.abs x <= 1024)%Z /\ (Z.abs y <= 1024)%Z /\ (Z.abs z <= 1024)%Z /\
     pnth (A := FA lg ac DP) i (h_points h) = V3 (fofZ x) (fofZ y) (fofZ z)).
  { intros i Hi. exists (vx (zpt c i)), (vy (zpt c i)), (vz (zpt c i)). pose proof (WP i Hi) as W. unfold zwithin in W.
    rewrite !andb_true_iff, !Z.leb_le in W. split; [lia|]. split; [lia|]. split; [lia|]. exact (EF i). }
  assert (Oz : zwithin 25 z = true) by (vm_compute; reflexivity).
  destruct (cube_fvec lg ac DP z Oz) as [Fo Eo].
  constructor.
  - split; [lia|]. apply (Nat.le_trans _ (2 ^ 3)); [change (2 ^ 3)%nat with 8%nat; lia|apply Nat.pow_le_mono_r; lia].
  - split; [lia|]. apply (Nat.le_trans _ (2 ^ 4)); [change (2 ^ 4)%nat with 16%nat; lia|apply Nat.pow_le_mono_r; lia].
  - intros i Hx. fold (P i). destruct (PZ i Hx) as (F & E). split; [exact F|]. rewrite E. exact (zwithin_ok 25 _ (WP i Hx)).
  - intros i j Hx Hy. fold (P i) (P j). destruct (PZ i Hx) as (_ & ->), (PZ j Hy) as (_ & ->). rewrite rv_sub. apply (zwithin_ok 36).
    assert (Al : forallb (fun i => forallb (fun j => zwithin 36 (zsub (zpt c i) (zpt c j))) (z_vertices c)) (z_vertices c) = true) by (destruct Hc as [-> | [-> | ->]]; vm_compute; reflexivity).
    rewrite forallb_forall in Al. specialize (Al i Hx). rewrite forallb_forall in Al. exact (Al j Hy).
  - intros P' a b d Hin. pose proof (int_margin lg ac DP h Hh Hn Hi a b d Hin) as K. unfold nrm3 in K. rewrite !pt_real in K.
    eapply Rle_lt_trans; [|exact K]. pose proof (le_INR _ _ (proj2 LV)) as B. pose proof (pos_INR (length (h_vertices h))). cbn [INR] in B. lra.
  - split; [exact Fo|]. rewrite Eo. exact (zwithin_ok 25 _ Oz).
  - intros P' a b d Hin. change (P' a) with (fvec (P a)). change (P' b) with (fvec (P b)). change (P' d) with (fvec (P d)). rewrite Eo.
    destruct (tri_in lg ac DP h Hh a b d Hin) as (Va & Vb & Vd). destruct (PZ a Va) as (_ & ->), (PZ b Vb) as (_ & ->), (PZ d Vd) as (_ & ->).
    rewrite !rv_sub.
    assert (Al : forallb (fun s => match s with [a; b; d] => zsees 36 20 20 (zsub (zpt c a) z) (zsub (zpt c b) z) (zsub (zpt c d) z) ||
      zlevel 36 20 (zsub (zpt c a) z) (zsub (zpt c b) z) (zsub (zpt c d) z) | _ => true end) (z_simplices c) = true)
      by (destruct Hc as [-> | [-> | ->]]; vm_compute; reflexivity).
    rewrite forallb_forall in Al. pose proof (Al [a; b; d] Hin) as K. cbv beta iota in K. apply orb_true_iff in K. destruct K as [K|K].
    + left. apply (zsees_ok 36 20 20); [lia|lia|exact K].
    + right. apply (zlevel_ok 36 20); [lia|exact K].
Qed.
(** two pairs of a density and a constant with k = 2 *)
Example C10_double_case : forall lg ac (DP : dotlib),
  correct_hull (real_hull lg ac DP (fh lg ac DP cubeZ)) /\
  measured lg ac DP (fh lg ac DP cubeZ) 25 36 100 100 (PropertiesF.fv lg ac DP o_out) /\
  fin (fofZ 2700) /\ fin (fofZ 5400) /\ fin (fofZ 1) /\ fv (fofZ 5400) * fv (fofZ 1) = 2 * (fv (fofZ 2700) * fv (fofZ 1)) /\
  Rabs (fv (fofZ 5400)) <= 2 ^ 13 /\ Rabs (fv (fofZ 2700)) <= 2 ^ 13 /\ Rabs (fv (fofZ 1)) <= 1.
Proof.
  intros lg ac DP. destruct (C93_double_case lg ac DP cubeZ (or_introl eq_refl)) as (_ & H1 & _ & H2). split; [exact H1|]. split; [exact H2|].
  destruct (fofZ_exact 2700 ltac:(lia)) as [F1 E1], (fofZ_exact 5400 ltac:(lia)) as [F2 E2], (fofZ_exact 1 ltac:(lia)) as [F3 E3].
  rewrite E1, E2, E3. do 3 (split; [assumption|]). split; [lra|]. rewrite !Rabs_pos_eq by lra. repeat split; lra.
Qed.

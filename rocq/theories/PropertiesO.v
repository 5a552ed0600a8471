(** * Property C79: accuracy of the gradient tensor computed in double precision *)
From Coq Require Import Reals Lra List ZArith Bool Arith Lia Permutation Floats.SpecFloat.
From Verif Require Import Base MUtils MEdge MFace MHull MPoly SpecPoly PPoly PStation PPlain FArith PCall PNan Examples.
From Verif Require Import RVec RArith REdge REdgeModel RAngle ROmega RFace RFacet RPoly RTwin RField
  RHull RHullZ ExamplesR RPlaced RPlacedZ RGlue RVolume RSolid PropertiesR PropertiesT PropertiesU PropertiesV PropertiesF PropertiesE FReal FErr FDot PSim FHull FNorm FBuild FInt
  FLog FUnit FEdge FOmega FGrav FField FTField PropertiesG.
Import ListNotations.
Local Open Scope R_scope.

(** Polyhedron(points).get_gravity(observer, density, Gc, gradient=True) in IEEE
    doubles (geec/polyhedron.py:980-1007, with the gradient branches of lines 173-193,
    422-462, 509-559 and 719-757), under the conditions of C72 and with L <= 2^50,
    s <= 8192.
    The call returns normally after any history of calls; the vector is as in C72;
    the nine entries of the tensor are finite and within
    N (g^5 + g^2 s^3 + N (g^2 + g s)) 10^9 R0 G0 / 2^30 of the entries of the
    tensor TR in exact arithmetic.  TR holds 10^4 times the partial derivatives of the
    exact gravity vector at the observer; for an observer beyond the plane of some
    facet the trace of the computed tensor is within three times that bound of 0. *)
Theorem C79_tensor_accuracy :
  forall lg ac (DP : dotlib), libm lg ac ->
  forall convex_hull in_hull points (h : hull (FA lg ac DP)) M L g s,
  convex_hull points = Ok h -> correct_hull (real_hull lg ac DP h) ->
  (1 <= length (h_vertices h) <= 2 ^ 20)%nat -> (length (h_simplices h) <= 2 ^ 20)%nat ->
  / 2 ^ 20 <= L -> L <= 2 * M -> M <= 2 ^ 100 -> L <= 2 ^ 50 -> 1 <= g <= 1024 -> 1 <= s <= 8192 ->
  let P i := pnth (A := FA lg ac DP) i (h_points h) in
  (forall i, In i (h_vertices h) -> vfin (P i) /\ within M (fvec (P i))) ->
  (forall i j, In i (h_vertices h) -> In j (h_vertices h) -> within L (fvec (P i) - fvec (P j))%v) ->
  let cen := centroid (A := RA) (map fvec (h_points h)) (h_vertices h) in
  let normal a b c := cr (fvec (P b) - fvec (P a)) (fvec (P c) - fvec (P a)) in
  (forall a b c, In [a; b; c] (h_simplices h) ->
     ((INR (length (h_vertices h)) + 1) * M + 8 * L) * (L * L) / 2 ^ 50 < Rabs (dt (normal a b c) (cen - fvec (P a))%v)) ->
  forall o : vec (FA lg ac DP), vfin o -> within M (fvec o) ->
  (forall a b c, In [a; b; c] (h_simplices h) -> views L g s (fvec (P a) - fvec o) (fvec (P b) - fvec o) (fvec (P c) - fvec o)) ->
  forall (density Gc : num (FA lg ac DP)) R0 G0, / 2 ^ 90 <= R0 <= 2 ^ 90 -> / 2 ^ 90 <= G0 <= 2 ^ 90 ->
  fin density -> Rabs (fv density) <= R0 -> fin Gc -> Rabs (fv Gc) <= G0 ->
  let N := INR (length (h_simplices h)) in
  let D := N * (g ^ 5 + g ^ 2 * s ^ 3 + N * (g ^ 2 + g * s)) * (1000000000 * (R0 * G0)) / 2 ^ 30 in
  exists p, mk_polyhedron convex_hull in_hull points = Ok p /\ forall st, reachable p st ->
  exists G T, fst (get_gravity p o density Gc true st) = Ok (G, T) /\
  vfin G /\ vfin (vx T) /\ vfin (vy T) /\ vfin (vz T) /\
  forall convex_hullR in_hullR pointsR, convex_hullR pointsR = Ok (real_hull lg ac DP h) ->
  exists pR, mk_polyhedron (A := RA) convex_hullR in_hullR pointsR = Ok pR /\ forall stR, reachable pR stR ->
  exists GR TR, gravity pR (fvec o) (fv density) (fv Gc) true stR = Ok (GR, TR) /\
    within (N * (L * (100000 * (R0 * G0))) * (g ^ 3 + g * s + N) / 2 ^ 35) (fvec G - GR)%v /\
    within D (fvec (vx T) - vx TR)%v /\ within D (fvec (vy T) - vy TR)%v /\ within D (fvec (vz T) - vz TR)%v /\
    (forall e : V, exists delta Gt, 0 < delta /\ Gt 0 = GR /\
       (forall t gradient stR', Rabs t < delta -> reachable pR stR' ->
          exists T', gravity pR (fvec o + t * e)%v (fv density) (fv Gc) gradient stR' = Ok (Gt t, T')) /\
       vder Gt 0 (/ 10000 * mdot TR e)%v) /\
    (forall f, In f (pl_faces pR) -> dt (f_un f) (vtx 0 f - fvec o) < 0 ->
       Rabs (fv (vx (vx T)) + fv (vy (vy T)) + fv (vz (vz T))) <= 3 * D).
Proof.
  intros lg ac DP Hlib ch inh pts h M L g s Hc Hh H1 H1' H2 H3 H4 HL Hg Hs P H5 H6 cen normal H7 o Fo Wo Hsee rho Gc R0 G0 HR HG Fr Br Fg Bg N D.
  assert (Hsz : sized M L g) by (split; assumption).
  assert (Hp : placed lg ac DP M L (h_points h) (h_vertices h)) by (split; assumption).
  assert (En : forall a b c, nrm3 (real_hull lg ac DP h) a b c = normal a b c).
  { intros a b c. unfold nrm3. rewrite !pt_real. reflexivity. }
  assert (Hm : margin lg ac DP M L h).
  { intros a b c Hin. rewrite En, pt_real. exact (H7 a b c Hin). }
  assert (Hsn : forall a b c, In [a; b; c] (h_simplices h) ->
    seen L g s (pt (real_hull lg ac DP h) a - fvec o)%v (pt (real_hull lg ac DP h) b - fvec o)%v (pt (real_hull lg ac DP h) c - fvec o)%v \/
    outlined L g (pt (real_hull lg ac DP h) a - fvec o)%v (pt (real_hull lg ac DP h) b - fvec o)%v (pt (real_hull lg ac DP h) c - fvec o)%v /\
    axial (pt (real_hull lg ac DP h) a - fvec o)%v (pt (real_hull lg ac DP h) b - fvec o)%v (pt (real_hull lg ac DP h) c - fvec o)%v).
  { intros a b c Hin. rewrite !pt_real. apply views_seen, Hsee, Hin. }
  pose proof (hull_tensor lg ac DP Hlib Hsz HL Hs h Hh H1 H1' Hp Hm o (conj Fo Wo) Hsn rho Gc R0 G0 HR HG (conj Fr Br) (conj Fg Bg) ch inh pts) as K.
  destruct (K (fun _ => Ok (real_hull lg ac DP h)) (fun _ _ => true) [] Hc eq_refl) as (p & _ & G & T & Ep & _ & _ & _ & Eg & Gf & T1 & T2 & T3 & _).
  exists p. split; [exact Ep|]. intros st Hst. exists G, T.
  split; [rewrite (history_independent p o rho Gc true st Hst), fresh_spec; exact Eg|]. do 4 (split; [assumption|]).
  intros chR inR ptsR HcR.
  destruct (K chR inR ptsR Hc HcR) as (p' & pR & G' & T' & Ep' & EpR & HcR' & Reg & Eg' & _ & _ & _ & _ & Wg & _ & W1 & W2 & W3 & _).
  assert (p' = p) by congruence. subst p'. assert (G' = G) by congruence. assert (T' = T) by congruence. subst G' T'. clear Ep' Eg'.
  exists pR. split; [exact EpR|]. intros stR HstR.
  assert (Val : gravity pR (fvec o) (fv rho) (fv Gc) true stR =
    Ok (vsum (gF (fv rho) (fv Gc) (fvec o)) (pl_faces pR), msum (tF (fv rho) (fv Gc) (fvec o)) (pl_faces pR))).
  { rewrite (gravity_spec pR _ _ _ _ stR HstR). exact (well_value pR (fvec o) true (fv rho) (fv Gc) HcR' (steady_well _ _ _ HcR' Reg)). }
  assert (ED : N * (g * g * (g * g * g) + g * s * (g * s * s) + N * (g * g + g * s)) * (1000000000 * (R0 * G0)) / 2 ^ 30 = D) by (unfold D, Rdiv; ring).
  fold N in W1, W2, W3. rewrite ED in W1, W2, W3.
  eexists _, _. split; [exact Val|]. split; [|split; [exact W1|split; [exact W2|split; [exact W3|split]]]].
  - fold N in Wg. replace (g ^ 3) with (g * g * g) by ring.
    match goal with |- within ?b _ => match type of Wg with within ?b' _ => replace b with b' by (unfold Rdiv; ring) end end. exact Wg.
  - destruct (C06_jacobian pR (fvec o) (fv rho) (fv Gc) stR HcR' Reg HstR) as (GR & TR & E & J).
    rewrite Val in E. injection E as <- <-. exact J.
  - intros f Hf Hd.
    destruct (C08_outside_hull chR inR ptsR (real_hull lg ac DP h) (fvec o) (fv rho) (fv Gc) HcR Hh) as (pR' & EpR' & V).
    rewrite EpR in EpR'. injection EpR' as <-.
    destruct (V stR f HstR (steady_well _ _ _ HcR' Reg) Hf Hd) as (GR & TR & E & Tr).
    rewrite Val in E. injection E as _ <-. revert W1 W2 W3 Tr. generalize (msum (tF (fv rho) (fv Gc) (fvec o)) (pl_faces pR)).
    intros [[a1 a2 a3] [b1 b2 b3] [c1 c2 c3]]. destruct T as [[x1 x2 x3] [y1 y2 y3] [z1 z2 z3]]. unfold within, fvec, vmap, vm. cbn [vx vy vz].
    intros (A & _) (_ & B & _) (_ & _ & C) Tr. revert A B C. unfold Rabs. repeat destruct (Rcase_abs _); lra.
Qed.
Print Assumptions C79_tensor_accuracy.

(** The cube of side 20 of C72_case, seen from outside and from inside, meets the
    hypotheses with L = 35, g = 12 and s = 5.  For density = Gc = 1 the bound is
    below 3.1*10^6, against 4 pi 10^9 for the trace inside the body. *)
Example C79_case : (exists lg ac, libm lg ac) /\ (forall lg ac (DP : dotlib), let h := fh lg ac DP cubeZ in let P i := pnth (A := FA lg ac DP) i (h_points h) in
  correct_hull (real_hull lg ac DP h) /\ (forall i, In i (h_vertices h) -> vfin (P i) /\ within 25 (fvec (P i))) /\
  (forall i j, In i (h_vertices h) -> In j (h_vertices h) -> within 35 (fvec (P i) - fvec (P j))%v) /\
  (let cen := centroid (A := RA) (map fvec (h_points h)) (h_vertices h) in
   let normal a b c := cr (fvec (P b) - fvec (P a)) (fvec (P c) - fvec (P a)) in
   forall a b c, In [a; b; c] (h_simplices h) ->
     ((INR (length (h_vertices h)) + 1) * 25 + 8 * 35) * (35 * 35) / 2 ^ 50 < Rabs (dt (normal a b c) (cen - fvec (P a))%v)) /\
  forall z, z = o_out \/ z = o_in \/ z = o_lev \/ z = o_on -> let o := PropertiesF.fv lg ac DP z in vfin o /\ within 25 (fvec o) /\
    forall a b c, In [a; b; c] (h_simplices h) -> views 35 12 5 (fvec (P a) - fvec o) (fvec (P b) - fvec o) (fvec (P c) - fvec o)) /\
  (forall lg ac (DP : dotlib), let N := INR (length (h_simplices (fh lg ac DP cubeZ))) in
   / 2 ^ 20 <= 35 /\ 35 <= 2 * 25 /\ 25 <= 2 ^ 100 /\ 35 <= 2 ^ 50 /\ 1 <= 12 <= 1024 /\ 1 <= 5 <= 8192 /\
   N * (12 ^ 5 + 12 ^ 2 * 5 ^ 3 + N * (12 ^ 2 + 12 * 5)) * (1000000000 * (1 * 1)) / 2 ^ 30 <= 3100000).
Proof.
  destruct C72_case as [E C]. split; [exact E|]. split; [exact C|]. intros lg ac DP N.
  assert (EN : N = 12) by (unfold N; rewrite INR_IZR_INZ; reflexivity). rewrite EN. repeat split; lra.
Qed.

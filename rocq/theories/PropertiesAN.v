(** * Properties C91, C92 and C93 for the tensor in double precision *)
From Coq Require Import Reals Lra Psatz ZArith Bool List Permutation Arith Lia Floats.SpecFloat.
From Coquelicot Require Import Coquelicot.
From Verif Require Import Base MUtils MEdge MFace MHull MPoly SpecPoly PPoly PStation PPlain FArith PCall PNan Examples.
From Verif Require Import RVec RArith REdge REdgeModel RAngle ROmega RFace RFacet RPoly RTwin RField
  RHull RHullZ ExamplesR RLinear RMove RMoved RGlue RLaws RPlaced RPlacedZ RRay RTrace RFlux RVolume RSolid RBound PropertiesR PropertiesT PropertiesV PropertiesY RTensor PropertiesAJ.
From Verif Require Import PropertiesF PropertiesE FReal FErr FDot PSim FHull FNorm FBuild FInt FLog FUnit FEdge FOmega FGrav FField FTField PropertiesG PropertiesAH PropertiesAK PropertiesAL.
Import ListNotations.
Local Open Scope R_scope.
Local Open Scope list_scope.

Lemma measured_tensor lg ac (DP : dotlib) : libm lg ac ->
  forall convex_hull in_hull points (h : hull (FA lg ac DP)) M L g s,
  convex_hull points = Ok h -> correct_hull (real_hull lg ac DP h) ->
  / 2 ^ 20 <= L -> L <= 2 * M -> M <= 2 ^ 100 -> L <= 2 ^ 50 -> 1 <= g <= 1024 -> 1 <= s <= 8192 ->
  forall o : vec (FA lg ac DP), measured lg ac DP h M L g s o ->
  forall (density Gc : num (FA lg ac DP)) R0 G0, / 2 ^ 90 <= R0 <= 2 ^ 90 -> / 2 ^ 90 <= G0 <= 2 ^ 90 ->
  fin density -> Rabs (fv density) <= R0 -> fin Gc -> Rabs (fv Gc) <= G0 ->
  let N := INR (length (h_simplices h)) in
  let D := N * (g ^ 5 + g ^ 2 * s ^ 3 + N * (g ^ 2 + g * s)) * (1000000000 * (R0 * G0)) / 2 ^ 30 in
  exists p pR G T, mk_polyhedron convex_hull in_hull points = Ok p /\
    mk_polyhedron (A := RA) (fun _ => Ok (real_hull lg ac DP h)) (fun _ _ => true) [] = Ok pR /\
    closed pR /\ steady pR (fvec o) /\ (forall st, reachable p st -> fst (get_gravity p o density Gc true st) = Ok (G, T)) /\
    let S := msum (tF (fv density) (fv Gc) (fvec o)) (pl_faces pR) in
    within D (fvec (vx T) - vx S)%v /\ within D (fvec (vy T) - vy S)%v /\ within D (fvec (vz T) - vz S)%v.
Proof.
  intros Hlib ch inh pts h M L g s Hc Hh H2 H3 H4 HL Hg Hs o Hme rho Gc R0 G0 HR HG Fr Br Fg Bg N D.
  destruct Hme as [H1 [H1n H1'] H5 H6 H7 [Fo Wo] Hsee].
  assert (Hsz : sized M L g) by (split; assumption).
  assert (Hp : placed lg ac DP M L (h_points h) (h_vertices h)) by (split; assumption).
  assert (Hmg : margin lg ac DP M L h).
  { intros a b c Hin. unfold nrm3. rewrite !pt_real. exact (H7 a b c Hin). }
  assert (Hsn : forall a b c, In [a; b; c] (h_simplices h) ->
    seen L g s (pt (real_hull lg ac DP h) a - fvec o)%v (pt (real_hull lg ac DP h) b - fvec o)%v (pt (real_hull lg ac DP h) c - fvec o)%v \/
    outlined L g (pt (real_hull lg ac DP h) a - fvec o)%v (pt (real_hull lg ac DP h) b - fvec o)%v (pt (real_hull lg ac DP h) c - fvec o)%v /\
    axial (pt (real_hull lg ac DP h) a - fvec o)%v (pt (real_hull lg ac DP h) b - fvec o)%v (pt (real_hull lg ac DP h) c - fvec o)%v).
  { intros a b c Hin. rewrite !pt_real. apply views_seen, Hsee, Hin. }
  destruct (FTField.hull_tensor lg ac DP Hlib Hsz HL Hs h Hh H1 H1' Hp Hmg o (conj Fo Wo) Hsn rho Gc R0 G0 HR HG (conj Fr Br) (conj Fg Bg) ch inh pts
    (fun _ => Ok (real_hull lg ac DP h)) (fun _ _ => true) [] Hc eq_refl) as (p & pR & G & T & Ep & EpR & HcR & Reg & Eg & _ & _ & _ & _ & _ & _ & W1 & W2 & W3 & _).
  exists p, pR, G, T. do 4 (split; [assumption|]).
  split; [intros st Hst; rewrite (history_independent p o rho Gc true st Hst), fresh_spec; exact Eg|].
  assert (ED : forall N, N * (g * g * (g * g * g) + g * s * (g * s * s) + N * (g * g + g * s)) * (1000000000 * (R0 * G0)) / 2 ^ 30 =
    N * (g ^ 5 + g ^ 2 * s ^ 3 + N * (g ^ 2 + g * s)) * (1000000000 * (R0 * G0)) / 2 ^ 30) by (intros n; unfold Rdiv; ring).
  rewrite ED in W1, W2, W3. fold N D in W1, W2, W3. auto.
Qed.
(** a bound along every direction bounds the entries *)
Lemma rows_within (S S' : vec3 V) b : (forall e, nm (mdot S e - mdot S' e) <= b * nm e) ->
  within b (vx S - vx S')%v /\ within b (vy S - vy S')%v /\ within b (vz S - vz S')%v.
Proof.
  intros H.
  assert (U : forall e, dt e e = 1 -> Rabs (dt (vx S - vx S') e) <= b /\ Rabs (dt (vy S - vy S') e) <= b /\ Rabs (dt (vz S - vz S') e) <= b).
  { intros e He. assert (NE : nm e = 1) by (apply nm_uniq; lra). specialize (H e). rewrite NE, Rmult_1_r in H.
    destruct (comp_nm (mdot S e - mdot S' e)%v) as (C1 & C2 & C3).
    rewrite !dt_sub_l. split; [exact (Rle_trans _ _ _ C1 H)|]. split; [exact (Rle_trans _ _ _ C2 H)|exact (Rle_trans _ _ _ C3 H)]. }
  destruct (U (V3 1 0 0)) as (A1 & A2 & A3); [unfold dt; cbn [vx vy vz]; ring|].
  destruct (U (V3 0 1 0)) as (B1 & B2 & B3); [unfold dt; cbn [vx vy vz]; ring|].
  destruct (U (V3 0 0 1)) as (C1 & C2 & C3); [unfold dt; cbn [vx vy vz]; ring|].
  assert (X1 : forall w : V, dt w (V3 1 0 0) = vx w) by (intros w; unfold dt; cbn [vx vy vz]; ring).
  assert (X2 : forall w : V, dt w (V3 0 1 0) = vy w) by (intros w; unfold dt; cbn [vx vy vz]; ring).
  assert (X3 : forall w : V, dt w (V3 0 0 1) = vz w) by (intros w; unfold dt; cbn [vx vy vz]; ring).
  rewrite X1 in A1, A2, A3. rewrite X2 in B1, B2, B3. rewrite X3 in C1, C2, C3. unfold within. auto.
Qed.
Lemma within_three b D x x' y y' : within b (x - x')%v -> within D (y - x)%v -> within D (y' - x')%v -> within (b + 2 * D) (y - y')%v.
Proof.
  intros (C1 & C2 & C3) (A1 & A2 & A3) (A1' & A2' & A3'). destruct x as [x1 x2 x3], x' as [z1 z2 z3], y as [y1 y2 y3], y' as [w1 w2 w3].
  cbn [vm vx vy vz] in *. split; [|split]; cbn [vm vx vy vz].
  - exact (three_steps _ _ _ _ _ _ _ (Rle_refl _) C1 A1 A1').
  - exact (three_steps _ _ _ _ _ _ _ (Rle_refl _) C2 A2 A2').
  - exact (three_steps _ _ _ _ _ _ _ (Rle_refl _) C3 A3 A3').
Qed.
Lemma within_two b D x x' y : within b (x - x')%v -> within D (y - x)%v -> within (b + D) (y - x')%v.
Proof.
  intros (C1 & C2 & C3) (A1 & A2 & A3). destruct x as [x1 x2 x3], x' as [z1 z2 z3], y as [y1 y2 y3].
  cbn [vm vx vy vz] in *. split; [|split]; cbn [vm vx vy vz].
  - exact (two_steps _ _ _ _ _ _ (Rle_refl _) C1 A1).
  - exact (two_steps _ _ _ _ _ _ (Rle_refl _) C2 A2).
  - exact (two_steps _ _ _ _ _ _ (Rle_refl _) C3 A3).
Qed.

(** C92 for the tensor in doubles: its nine entries at two observers differ by at most
    the bound of C92_tensor and twice the rounding bound D of C79 *)
Theorem C92_double_tensor :
  forall lg ac (DP : dotlib), libm lg ac ->
  forall convex_hull in_hull points (h : hull (FA lg ac DP)) M L g s,
  convex_hull points = Ok h -> correct_hull (real_hull lg ac DP h) ->
  / 2 ^ 20 <= L -> L <= 2 * M -> M <= 2 ^ 100 -> L <= 2 ^ 50 -> 1 <= g <= 1024 -> 1 <= s <= 8192 ->
  forall o o' : vec (FA lg ac DP), measured lg ac DP h M L g s o -> measured lg ac DP h M L g s o' ->
  forall z m, dt z z = 1 -> 0 < m ->
  (forall i, In i (h_vertices h) -> m <= dt z (pt (real_hull lg ac DP h) i - fvec o) /\ m <= dt z (pt (real_hull lg ac DP h) i - fvec o')) ->
  forall (density Gc : num (FA lg ac DP)) R0 G0, / 2 ^ 90 <= R0 <= 2 ^ 90 -> / 2 ^ 90 <= G0 <= 2 ^ 90 ->
  fin density -> Rabs (fv density) <= R0 -> fin Gc -> Rabs (fv Gc) <= G0 -> 0 <= fv density * fv Gc ->
  let N := INR (length (h_simplices h)) in
  let D := N * (g ^ 5 + g ^ 2 * s ^ 3 + N * (g ^ 2 + g * s)) * (1000000000 * (R0 * G0)) / 2 ^ 30 in
  exists p pR, mk_polyhedron convex_hull in_hull points = Ok p /\
    mk_polyhedron (A := RA) (fun _ => Ok (real_hull lg ac DP h)) (fun _ _ => true) [] = Ok pR /\
  forall st st', reachable p st -> reachable p st' ->
  exists G T G' T', fst (get_gravity p o density Gc true st) = Ok (G, T) /\ fst (get_gravity p o' density Gc true st') = Ok (G', T') /\
    let B := 24 * (fv density * fv Gc * 1000000000 * body_volume pR) / m ^ 4 * nm (fvec o - fvec o') + 2 * D in
    within B (fvec (vx T) - fvec (vx T'))%v /\ within B (fvec (vy T) - fvec (vy T'))%v /\ within B (fvec (vz T) - fvec (vz T'))%v.
Proof.
  intros lg ac DP Hlib ch inh pts h M L g s Hc Hh H2 H3 H4 HL Hg Hs o o' Hme Hme' z m Hz Hm HV rho Gc R0 G0 HR HG Fr Br Fg Bg Hk N D.
  destruct (measured_tensor lg ac DP Hlib ch inh pts h M L g s Hc Hh H2 H3 H4 HL Hg Hs o Hme rho Gc R0 G0 HR HG Fr Br Fg Bg) as (p & pR & G & T & Ep & EpR & HcR & Reg & Eg & W1 & W2 & W3).
  destruct (measured_tensor lg ac DP Hlib ch inh pts h M L g s Hc Hh H2 H3 H4 HL Hg Hs o' Hme' rho Gc R0 G0 HR HG Fr Br Fg Bg) as (p' & pR' & G' & T' & Ep' & EpR' & HcR' & Reg' & Eg' & W1' & W2' & W3').
  rewrite Ep in Ep'. injection Ep' as <-. rewrite EpR in EpR'. injection EpR' as <-.
  fold N in W1, W2, W3, W1', W2', W3'. fold D in W1, W2, W3, W1', W2', W3'.
  exists p, pR. split; [exact Ep|]. split; [exact EpR|]. intros st st' Hst Hst'. exists G, T, G', T'.
  split; [now apply Eg|]. split; [now apply Eg'|].
  destruct (C92_tensor (fun _ => Ok (real_hull lg ac DP h)) (fun _ _ => true) [] _ (fvec o) (fvec o') z m (fv rho) (fv Gc) eq_refl Hh Hk Hz Hm HV)
    as (q & Eq & _ & K). rewrite EpR in Eq. injection Eq as <-.
  destruct (K pstate0 pstate0 (reach_new _) (reach_new _) (steady_well _ _ _ HcR Reg) (steady_well _ _ _ HcR Reg'))
    as (GR & TR & GR' & TR' & V & V' & B).
  rewrite !gravity_spec in V, V' by apply reach_new.
  rewrite (well_value pR (fvec o) true (fv rho) (fv Gc) HcR (steady_well _ _ _ HcR Reg)) in V. injection V as _ V.
  rewrite (well_value pR (fvec o') true (fv rho) (fv Gc) HcR (steady_well _ _ _ HcR Reg')) in V'. injection V' as _ V'.
  rewrite <- V, <- V' in B. destruct (rows_within _ _ _ B) as (B1 & B2 & B3). cbv zeta.
  split; [exact (within_three _ _ _ _ _ _ B1 W1 W1')|]. split; [exact (within_three _ _ _ _ _ _ B2 W2 W2')|exact (within_three _ _ _ _ _ _ B3 W3 W3')].
Qed.
Print Assumptions C92_double_tensor.

(** C93 for the tensor in doubles *)
Theorem C93_double_tensor :
  forall lg ac (DP : dotlib), libm lg ac ->
  forall convex_hull in_hull points convex_hull' in_hull' points' (h h' : hull (FA lg ac DP)) M L g s,
  convex_hull points = Ok h -> correct_hull (real_hull lg ac DP h) ->
  convex_hull' points' = Ok h' -> correct_hull (real_hull lg ac DP h') -> h_simplices h' = h_simplices h ->
  / 2 ^ 20 <= L -> L <= 2 * M -> M <= 2 ^ 100 -> L <= 2 ^ 50 -> 1 <= g <= 1024 -> 1 <= s <= 8192 ->
  forall o : vec (FA lg ac DP), measured lg ac DP h M L g s o -> measured lg ac DP h' M L g s o ->
  forall z m d, dt z z = 1 -> 0 < m ->
  (forall i, In i (h_vertices h) -> nm (pt (real_hull lg ac DP h) i - pt (real_hull lg ac DP h') i) <= d) ->
  (forall i, In i (h_vertices h) -> m <= dt z (pt (real_hull lg ac DP h) i - fvec o)) ->
  (forall i, In i (h_vertices h') -> m <= dt z (pt (real_hull lg ac DP h') i - fvec o)) ->
  forall (density Gc : num (FA lg ac DP)) R0 G0, / 2 ^ 90 <= R0 <= 2 ^ 90 -> / 2 ^ 90 <= G0 <= 2 ^ 90 ->
  fin density -> Rabs (fv density) <= R0 -> fin Gc -> Rabs (fv Gc) <= G0 -> 0 <= fv density * fv Gc ->
  let N := INR (length (h_simplices h)) in
  let D := N * (g ^ 5 + g ^ 2 * s ^ 3 + N * (g ^ 2 + g * s)) * (1000000000 * (R0 * G0)) / 2 ^ 30 in
  exists p p' pR, mk_polyhedron convex_hull in_hull points = Ok p /\ mk_polyhedron convex_hull' in_hull' points' = Ok p' /\
    mk_polyhedron (A := RA) (fun _ => Ok (real_hull lg ac DP h)) (fun _ _ => true) [] = Ok pR /\
  forall st st', reachable p st -> reachable p' st' ->
  exists G T G' T', fst (get_gravity p o density Gc true st) = Ok (G, T) /\ fst (get_gravity p' o density Gc true st') = Ok (G', T') /\
    let B := fv density * fv Gc * 1000000000 * (24 * body_volume pR / m ^ 4 + 2 * N * (2 * L) ^ 2 / m ^ 3) * d + 2 * D in
    within B (fvec (vx T) - fvec (vx T'))%v /\ within B (fvec (vy T) - fvec (vy T'))%v /\ within B (fvec (vz T) - fvec (vz T'))%v.
Proof.
  intros lg ac DP Hlib ch inh pts ch' inh' pts' h h' M L g s Hc Hh Hc' Hh' HSim H2 H3 H4 HL Hg Hs o Hme Hme' z m d Hz Hm Hd HV HV' rho Gc R0 G0 HR HG Fr Br Fg Bg Hk N D.
  destruct (measured_tensor lg ac DP Hlib ch inh pts h M L g s Hc Hh H2 H3 H4 HL Hg Hs o Hme rho Gc R0 G0 HR HG Fr Br Fg Bg) as (p & pR & G & T & Ep & EpR & HcR & Reg & Eg & W1 & W2 & W3).
  destruct (measured_tensor lg ac DP Hlib ch' inh' pts' h' M L g s Hc' Hh' H2 H3 H4 HL Hg Hs o Hme' rho Gc R0 G0 HR HG Fr Br Fg Bg) as (p' & pR' & G' & T' & Ep' & EpR' & HcR' & Reg' & Eg' & W1' & W2' & W3').
  rewrite HSim in W1', W2', W3'. fold N in W1, W2, W3, W1', W2', W3'. fold D in W1, W2, W3, W1', W2', W3'.
  exists p, p', pR. do 3 (split; [assumption|]). intros st st' Hst Hst'. exists G, T, G', T'. split; [now apply Eg|]. split; [now apply Eg'|].
  assert (L0 : 0 <= L) by (eapply Rle_trans; [|exact H2]; left; apply Rinv_0_lt_compat, pow_lt; lra).
  assert (DI : forall hh, measured lg ac DP hh M L g s o -> forall i j, In i (h_vertices hh) -> In j (h_vertices hh) ->
    nm (pt (real_hull lg ac DP hh) i - pt (real_hull lg ac DP hh) j) <= 2 * L).
  { intros hh Hm0 i j Hi Hj. rewrite !pt_real. pose proof (within_nm _ _ (ms_size _ _ _ _ _ _ _ _ _ Hm0 i j Hi Hj)). lra. }
  destruct (C93_tensor (fun _ => Ok (real_hull lg ac DP h)) (fun _ _ => true) [] _ pR (fun _ => Ok (real_hull lg ac DP h')) (fun _ _ => true) [] _ pR'
    (fvec o) z m (2 * L) d (fv rho) (fv Gc) eq_refl Hh EpR eq_refl Hh' EpR' HSim Hd Hk Hz Hm HV HV' (DI h Hme) (DI h' Hme')
    pstate0 pstate0 (reach_new _) (reach_new _) (steady_well _ _ _ HcR Reg) (steady_well _ _ _ HcR' Reg')) as (GR & TR & GR' & TR' & V & V' & B).
  rewrite !gravity_spec in V, V' by apply reach_new.
  rewrite (well_value pR (fvec o) true (fv rho) (fv Gc) HcR (steady_well _ _ _ HcR Reg)) in V. injection V as _ V.
  rewrite (well_value pR' (fvec o) true (fv rho) (fv Gc) HcR' (steady_well _ _ _ HcR' Reg')) in V'. injection V' as _ V'.
  rewrite <- V, <- V' in B. destruct (rows_within _ _ _ B) as (B1 & B2 & B3). cbv zeta.
  split; [exact (within_three _ _ _ _ _ _ B1 W1 W1')|]. split; [exact (within_three _ _ _ _ _ _ B2 W2 W2')|exact (within_three _ _ _ _ _ _ B3 W3 W3')].
Qed.
Print Assumptions C93_double_tensor.

(** C91 in doubles: from the distance H of the centre c of a ball of radius R around
    the body, the tensor is that of a point mass at c, up to 384 R/H of it and the
    rounding bound *)
Theorem C91_double :
  forall lg ac (DP : dotlib), libm lg ac ->
  forall convex_hull in_hull points (h : hull (FA lg ac DP)) M L g s,
  convex_hull points = Ok h -> correct_hull (real_hull lg ac DP h) ->
  / 2 ^ 20 <= L -> L <= 2 * M -> M <= 2 ^ 100 -> L <= 2 ^ 50 -> 1 <= g <= 1024 -> 1 <= s <= 8192 ->
  forall o : vec (FA lg ac DP), measured lg ac DP h M L g s o ->
  forall c z R H, dt z z = 1 -> 0 < H -> 0 <= R -> 2 * R <= H -> fvec o = (c - H * z)%v ->
  (forall i, In i (h_vertices h) -> nm (pt (real_hull lg ac DP h) i - c) <= R) ->
  forall (density Gc : num (FA lg ac DP)) R0 G0, / 2 ^ 90 <= R0 <= 2 ^ 90 -> / 2 ^ 90 <= G0 <= 2 ^ 90 ->
  fin density -> Rabs (fv density) <= R0 -> fin Gc -> Rabs (fv Gc) <= G0 -> 0 <= fv density * fv Gc ->
  let N := INR (length (h_simplices h)) in
  let D := N * (g ^ 5 + g ^ 2 * s ^ 3 + N * (g ^ 2 + g * s)) * (1000000000 * (R0 * G0)) / 2 ^ 30 in
  exists p pR, mk_polyhedron convex_hull in_hull points = Ok p /\
    mk_polyhedron (A := RA) (fun _ => Ok (real_hull lg ac DP h)) (fun _ _ => true) [] = Ok pR /\ 0 <= body_volume pR /\
  forall st, reachable p st ->
  exists G T, fst (get_gravity p o density Gc true st) = Ok (G, T) /\
    let F := fv density * fv Gc * 1000000000 * body_volume pR / H ^ 3 in
    within (384 * R / H * F + D) (fvec (vx T) - F * (3 * vx z * z - V3 1 0 0))%v /\
    within (384 * R / H * F + D) (fvec (vy T) - F * (3 * vy z * z - V3 0 1 0))%v /\
    within (384 * R / H * F + D) (fvec (vz T) - F * (3 * vz z * z - V3 0 0 1))%v.
Proof.
  intros lg ac DP Hlib ch inh pts h M L g s Hc Hh H2 H3 H4 HL Hg Hs o Hme c z Rr H Hz HH HR1 HR2 Eo HV rho Gc R0 G0 HR HG Fr Br Fg Bg Hk N D.
  destruct (measured_tensor lg ac DP Hlib ch inh pts h M L g s Hc Hh H2 H3 H4 HL Hg Hs o Hme rho Gc R0 G0 HR HG Fr Br Fg Bg) as (p & pR & G & T & Ep & EpR & HcR & Reg & Eg & W1 & W2 & W3).
  fold N in W1, W2, W3. fold D in W1, W2, W3.
  destruct (C91_point_mass (fun _ => Ok (real_hull lg ac DP h)) (fun _ _ => true) [] _ c z Rr H (fv rho) (fv Gc) eq_refl Hh Hk Hz HH HR1 HR2 HV)
    as (q & Eq & Vq & K). rewrite EpR in Eq. injection Eq as <-.
  exists p, pR. split; [exact Ep|]. split; [exact EpR|]. split; [exact Vq|]. intros st Hst. exists G, T. split; [now apply Eg|]. cbv zeta.
  rewrite <- Eo in K. destruct (K pstate0 (reach_new _) (steady_well _ _ _ HcR Reg)) as (GR & TR & V & B).
  rewrite gravity_spec in V by apply reach_new.
  rewrite (well_value pR (fvec o) true (fv rho) (fv Gc) HcR (steady_well _ _ _ HcR Reg)) in V. injection V as _ V. rewrite <- V in B.
  set (F := fv rho * fv Gc * 1000000000 * body_volume pR / H ^ 3) in *.
  assert (B' : forall e, nm (mdot (msum (tF (fv rho) (fv Gc) (fvec o)) (pl_faces pR)) e -
    mdot (V3 (F * (3 * vx z * z - V3 1 0 0)) (F * (3 * vy z * z - V3 0 1 0)) (F * (3 * vz z * z - V3 0 0 1)))%v e) <= 384 * Rr / H * F * nm e).
  { intros e. specialize (B e). replace (mdot (V3 (F * (3 * vx z * z - V3 1 0 0)) (F * (3 * vy z * z - V3 0 1 0)) (F * (3 * vz z * z - V3 0 0 1)))%v e)
      with (F * (3 * dt z e * z - e))%v; [exact B|]. clear. destruct z as [z1 z2 z3], e as [e1 e2 e3]. unfold mdot. apply veq; unfold dt; cbn; ring. }
  destruct (rows_within _ _ _ B') as (B1 & B2 & B3). cbn [vx vy vz] in B1, B2, B3.
  split; [exact (within_two _ _ _ _ _ B1 W1)|]. split; [exact (within_two _ _ _ _ _ B2 W2)|exact (within_two _ _ _ _ _ B3 W3)].
Qed.
Print Assumptions C91_double.

(** the cubes of C61_double_case, C92_case and C93_double_case meet the hypotheses *)
Example C91_double_case : forall lg ac (DP : dotlib),
  (let o := zv 23 24 24 in let z := V3 (- 23 / 41) (- 24 / 41) (- 24 / 41) in
   correct_hull (real_hull lg ac DP (fh lg ac DP cubeZ)) /\ measured lg ac DP (fh lg ac DP cubeZ) 25 35 12 5 (PropertiesF.fv lg ac DP o) /\
   dt z z = 1 /\ 2 * 18 <= 41 /\ fvec (PropertiesF.fv lg ac DP o) = (v0 - 41 * z)%v /\
   forall i, In i (h_vertices (fh lg ac DP cubeZ)) -> nm (pt (real_hull lg ac DP (fh lg ac DP cubeZ)) i - v0) <= 18) /\
  (forall c, c = cubeZ \/ c = cubeZ_bent -> correct_hull (real_hull lg ac DP (fh lg ac DP c)) /\
     measured lg ac DP (fh lg ac DP c) 25 36 100 100 (PropertiesF.fv lg ac DP o_out)) /\
  (forall L g s, L = 35 /\ g = 12 /\ s = 5 \/ L = 36 /\ g = 100 /\ s = 100 ->
     / 2 ^ 20 <= L /\ L <= 2 * 25 /\ 25 <= 2 ^ 100 /\ L <= 2 ^ 50 /\ 1 <= g <= 1024 /\ 1 <= s <= 8192).
Proof.
  intros lg ac DP. split; [apply C61_double_case|]. split.
  - intros c Hc. destruct (C93_double_case lg ac DP c Hc) as (_ & H1 & _ & H2). auto.
  - assert (P : 1 <= 2 ^ 20) by (apply pow_R1_Rle; lra).
    assert (/ 2 ^ 20 <= 1) by (rewrite <- Rinv_1; apply Rinv_le_contravar; lra).
    assert (64 <= 2 ^ 50) by (replace 64 with (2 ^ 6) by ring; apply Rle_pow; [lra|lia]).
    assert (64 <= 2 ^ 100) by (replace 64 with (2 ^ 6) by ring; apply Rle_pow; [lra|lia]).
    intros L g s [(-> & -> & ->)|(-> & -> & ->)]; repeat split; lra.
Qed.

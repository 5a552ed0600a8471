(** * C89 in doubles: machines on which qhull cuts flat facets differently *)
(** Over the real numbers the results depend on the corners only (C89_corners_only in
    PropertiesAG.v).  In doubles the results of two triangulations of one body differ by at
    most the sum of the two rounding bounds of C72 and C79. *)
From Coq Require Import Reals Lra List ZArith Bool Arith Lia Permutation Floats.SpecFloat.
From Verif Require Import Base MUtils MEdge MFace MHull MPoly SpecPoly PPoly PStation PPlain FArith PCall PNan Examples.
From Verif Require Import RVec RArith REdge REdgeModel RAngle ROmega RFace RFacet RPoly RTwin RField
  RHull RHullZ ExamplesR RPlaced RPlacedZ RGlue RVolume RSolid PropertiesR PropertiesS PropertiesT PropertiesU PropertiesV PropertiesF PropertiesE FReal FErr FDot PSim FHull FNorm FBuild FInt
  FLog FUnit FEdge FOmega FGrav FField FTField PropertiesG PropertiesX PropertiesAC PropertiesAG.
Import ListNotations.
Local Open Scope R_scope.

(** The hypotheses of C72 on the hull and the observer. *)
Record measured lg ac (DP : dotlib) (h : hull (FA lg ac DP)) (M L g s : R) (o : vec (FA lg ac DP)) : Prop := {
  ms_vertices : (1 <= length (h_vertices h) <= 2 ^ 20)%nat;
  ms_facets : (1 <= length (h_simplices h) <= 2 ^ 20)%nat;
  ms_points : forall i, In i (h_vertices h) ->
    vfin (pnth (A := FA lg ac DP) i (h_points h)) /\ within M (fvec (pnth (A := FA lg ac DP) i (h_points h)));
  ms_size : forall i j, In i (h_vertices h) -> In j (h_vertices h) ->
    within L (fvec (pnth (A := FA lg ac DP) i (h_points h)) - fvec (pnth (A := FA lg ac DP) j (h_points h)))%v;
  ms_margin : let P i := fvec (pnth (A := FA lg ac DP) i (h_points h)) in
    forall a b c, In [a; b; c] (h_simplices h) ->
    ((INR (length (h_vertices h)) + 1) * M + 8 * L) * (L * L) / 2 ^ 50 <
      Rabs (dt (cr (P b - P a) (P c - P a)) (centroid (A := RA) (map fvec (h_points h)) (h_vertices h) - P a)%v);
  ms_observer : vfin o /\ within M (fvec o);
  ms_views : let P i := fvec (pnth (A := FA lg ac DP) i (h_points h)) in
    forall a b c, In [a; b; c] (h_simplices h) -> views L g s (P a - fvec o) (P b - fvec o) (P c - fvec o) }.

Lemma within_sum d d' u v w : within d (u - w)%v -> within d' (v - w)%v -> within (d + d') (u - v)%v.
Proof.
  destruct u as [a b c], v as [a' b' c'], w as [x y z]. unfold within, vm. cbn [vx vy vz].
  intros (A & B & C) (A' & B' & C'). revert A B C A' B' C'. unfold Rabs. repeat destruct (Rcase_abs _); lra.
Qed.
Lemma some_facets {X} (l : list X) : (1 <= length l)%nat -> l <> [].
Proof. destruct l; [cbn; lia|discriminate]. Qed.

Theorem C89_double_gravity :
  forall lg ac (DP : dotlib) lg' ac' (DP' : dotlib), libm lg ac -> libm lg' ac' ->
  forall convex_hull in_hull points (h : hull (FA lg ac DP)) convex_hull' in_hull' points' (h' : hull (FA lg' ac' DP')) M L g s,
  convex_hull points = Ok h -> correct_hull (real_hull lg ac DP h) ->
  convex_hull' points' = Ok h' -> correct_hull (real_hull lg' ac' DP' h') ->
  (forall q, corner (real_hull lg ac DP h) q <-> corner (real_hull lg' ac' DP' h') q) -> no_three_in_line (real_hull lg ac DP h) ->
  / 2 ^ 20 <= L -> L <= 2 * M -> M <= 2 ^ 100 -> 1 <= g <= 1024 -> 1 <= s <= 32768 ->
  forall o : vec (FA lg ac DP), measured lg ac DP h M L g s o -> measured lg' ac' DP' h' M L g s o ->
  forall (density Gc : num (FA lg ac DP)) R0 G0, / 2 ^ 90 <= R0 <= 2 ^ 90 -> / 2 ^ 90 <= G0 <= 2 ^ 90 ->
  fin density -> Rabs (fv density) <= R0 -> fin Gc -> Rabs (fv Gc) <= G0 ->
  let D N := N * (L * (100000 * (R0 * G0))) * (g ^ 3 + g * s + N) / 2 ^ 35 in
  exists p p', mk_polyhedron convex_hull in_hull points = Ok p /\ mk_polyhedron convex_hull' in_hull' points' = Ok p' /\
  forall st st', reachable p st -> reachable p' st' ->
  exists G T G' T', fst (get_gravity p o density Gc false st) = Ok (G, T) /\
    fst (get_gravity (A := FA lg' ac' DP') p' o density Gc false st') = Ok (G', T') /\
    within (D (INR (length (h_simplices h))) + D (INR (length (h_simplices h')))) (fvec G - fvec G')%v.
Proof.
  intros lg ac DP lg' ac' DP' Hlib Hlib' ch inh pts h ch' inh' pts' h' M L g s Hc Hh Hc' Hh' Hco Hst3 H2 H3 H4 Hg Hs
    o Hme Hme' rho Gc R0 G0 HR HG Fr Br Fg Bg D.
  destruct Hme as [H1 [H1n H1'] H5 H6 H7 [Fo Wo] Hsee]. destruct Hme' as [K1 [K1n K1'] K5 K6 K7 _ Ksee].
  assert (Hsz : sized M L g) by (split; assumption).
  assert (Hp : placed lg ac DP M L (h_points h) (h_vertices h)) by (split; assumption).
  assert (Kp : placed lg' ac' DP' M L (h_points h') (h_vertices h')) by (split; assumption).
  assert (Hm : margin lg ac DP M L h).
  { intros a b c Hin. unfold nrm3. rewrite !pt_real. exact (H7 a b c Hin). }
  assert (Km : margin lg' ac' DP' M L h').
  { intros a b c Hin. unfold nrm3. rewrite !pt_real. exact (K7 a b c Hin). }
  assert (Hsn : forall a b c, In [a; b; c] (h_simplices h) ->
    seen L g s (pt (real_hull lg ac DP h) a - fvec o)%v (pt (real_hull lg ac DP h) b - fvec o)%v (pt (real_hull lg ac DP h) c - fvec o)%v \/
    outlined L g (pt (real_hull lg ac DP h) a - fvec o)%v (pt (real_hull lg ac DP h) b - fvec o)%v (pt (real_hull lg ac DP h) c - fvec o)%v /\
    axial (pt (real_hull lg ac DP h) a - fvec o)%v (pt (real_hull lg ac DP h) b - fvec o)%v (pt (real_hull lg ac DP h) c - fvec o)%v).
  { intros a b c Hin. rewrite !pt_real. apply views_seen, Hsee, Hin. }
  assert (Ksn : forall a b c, In [a; b; c] (h_simplices h') ->
    seen L g s (pt (real_hull lg' ac' DP' h') a - fvec o)%v (pt (real_hull lg' ac' DP' h') b - fvec o)%v (pt (real_hull lg' ac' DP' h') c - fvec o)%v \/
    outlined L g (pt (real_hull lg' ac' DP' h') a - fvec o)%v (pt (real_hull lg' ac' DP' h') b - fvec o)%v (pt (real_hull lg' ac' DP' h') c - fvec o)%v /\
    axial (pt (real_hull lg' ac' DP' h') a - fvec o)%v (pt (real_hull lg' ac' DP' h') b - fvec o)%v (pt (real_hull lg' ac' DP' h') c - fvec o)%v).
  { intros a b c Hin. rewrite !pt_real. apply views_seen, Ksee, Hin. }
  destruct (hull_gravity lg ac DP Hlib Hsz Hs h Hh H1 H1' Hp Hm o (conj Fo Wo) Hsn rho Gc R0 G0 HR HG (conj Fr Br) (conj Fg Bg) ch inh pts
    (fun _ => Ok (real_hull lg ac DP h)) (fun _ _ => true) [] Hc eq_refl) as (p & pR & G & T & Ep & EpR & HcR & Reg & Eg & _ & Wg & _).
  destruct (hull_gravity lg' ac' DP' Hlib' Hsz Hs h' Hh' K1 K1' Kp Km o (conj Fo Wo) Ksn rho Gc R0 G0 HR HG (conj Fr Br) (conj Fg Bg) ch' inh' pts'
    (fun _ => Ok (real_hull lg' ac' DP' h')) (fun _ _ => true) [] Hc' eq_refl) as (p' & pR' & G' & T' & Ep' & EpR' & HcR' & Reg' & Eg' & _ & Wg' & _).
  exists p, p'. split; [exact Ep|]. split; [exact Ep'|]. intros st st' Hst Hst'. exists G, T, G', T'.
  split; [rewrite (history_independent p o rho Gc false st Hst), fresh_spec; exact Eg|].
  split; [rewrite (history_independent p' o rho Gc false st' Hst'), fresh_spec; exact Eg'|].
  destruct (C89_corners_only _ _ (fun _ => Ok (real_hull lg ac DP h)) (fun _ => Ok (real_hull lg' ac' DP' h')) (fun _ _ => true) (fun _ _ => true) [] []
    Hh Hh' (some_facets _ H1n) (some_facets _ K1n) Hco Hst3 eq_refl eq_refl)
    as (q & q' & Eq & Eq' & K). rewrite EpR in Eq. injection Eq as <-. rewrite EpR' in Eq'. injection Eq' as <-.
  pose proof (K (fvec o) false (proj1 (steady_well pR (fvec o) false HcR Reg)) (proj1 (steady_well pR' (fvec o) false HcR' Reg'))
    (fv rho) (fv Gc) pstate0 pstate0 (reach_new _) (reach_new _)) as V.
  rewrite !gravity_spec in V by apply reach_new.
  pose proof (well_value pR (fvec o) false (fv rho) (fv Gc) HcR (steady_well _ _ _ HcR Reg)) as V1.
  pose proof (well_value pR' (fvec o) false (fv rho) (fv Gc) HcR' (steady_well _ _ _ HcR' Reg')) as V2.
  assert (E : vsum (gF (fv rho) (fv Gc) (fvec o)) (pl_faces pR') = vsum (gF (fv rho) (fv Gc) (fvec o)) (pl_faces pR)) by congruence.
  rewrite E in Wg'.
  assert (ED : forall N, N * (g * g * g + g * s + N) * (L * (100000 * (R0 * G0))) / 2 ^ 35 = D N) by (intros N; unfold D, Rdiv; ring).
  rewrite ED in Wg, Wg'. exact (within_sum _ _ _ _ _ Wg Wg').
Qed.
Print Assumptions C89_double_gravity.

Theorem C89_double_tensor :
  forall lg ac (DP : dotlib) lg' ac' (DP' : dotlib), libm lg ac -> libm lg' ac' ->
  forall convex_hull in_hull points (h : hull (FA lg ac DP)) convex_hull' in_hull' points' (h' : hull (FA lg' ac' DP')) M L g s,
  convex_hull points = Ok h -> correct_hull (real_hull lg ac DP h) ->
  convex_hull' points' = Ok h' -> correct_hull (real_hull lg' ac' DP' h') ->
  (forall q, corner (real_hull lg ac DP h) q <-> corner (real_hull lg' ac' DP' h') q) -> no_three_in_line (real_hull lg ac DP h) ->
  / 2 ^ 20 <= L -> L <= 2 * M -> M <= 2 ^ 100 -> L <= 2 ^ 50 -> 1 <= g <= 1024 -> 1 <= s <= 8192 ->
  forall o : vec (FA lg ac DP), measured lg ac DP h M L g s o -> measured lg' ac' DP' h' M L g s o ->
  forall (density Gc : num (FA lg ac DP)) R0 G0, / 2 ^ 90 <= R0 <= 2 ^ 90 -> / 2 ^ 90 <= G0 <= 2 ^ 90 ->
  fin density -> Rabs (fv density) <= R0 -> fin Gc -> Rabs (fv Gc) <= G0 ->
  let D N := N * (g ^ 5 + g ^ 2 * s ^ 3 + N * (g ^ 2 + g * s)) * (1000000000 * (R0 * G0)) / 2 ^ 30 in
  let B := D (INR (length (h_simplices h))) + D (INR (length (h_simplices h'))) in
  exists p p', mk_polyhedron convex_hull in_hull points = Ok p /\ mk_polyhedron convex_hull' in_hull' points' = Ok p' /\
  forall st st', reachable p st -> reachable p' st' ->
  exists G T G' T', fst (get_gravity p o density Gc true st) = Ok (G, T) /\
    fst (get_gravity (A := FA lg' ac' DP') p' o density Gc true st') = Ok (G', T') /\
    within B (fvec (vx T) - fvec (vx T'))%v /\ within B (fvec (vy T) - fvec (vy T'))%v /\ within B (fvec (vz T) - fvec (vz T'))%v.
Proof.
  intros lg ac DP lg' ac' DP' Hlib Hlib' ch inh pts h ch' inh' pts' h' M L g s Hc Hh Hc' Hh' Hco Hst3 H2 H3 H4 HL Hg Hs
    o Hme Hme' rho Gc R0 G0 HR HG Fr Br Fg Bg D B.
  destruct Hme as [H1 [H1n H1'] H5 H6 H7 [Fo Wo] Hsee]. destruct Hme' as [K1 [K1n K1'] K5 K6 K7 _ Ksee].
  assert (Hsz : sized M L g) by (split; assumption).
  assert (Hp : placed lg ac DP M L (h_points h) (h_vertices h)) by (split; assumption).
  assert (Kp : placed lg' ac' DP' M L (h_points h') (h_vertices h')) by (split; assumption).
  assert (Hm : margin lg ac DP M L h).
  { intros a b c Hin. unfold nrm3. rewrite !pt_real. exact (H7 a b c Hin). }
  assert (Km : margin lg' ac' DP' M L h').
  { intros a b c Hin. unfold nrm3. rewrite !pt_real. exact (K7 a b c Hin). }
  assert (Hsn : forall a b c, In [a; b; c] (h_simplices h) ->
    seen L g s (pt (real_hull lg ac DP h) a - fvec o)%v (pt (real_hull lg ac DP h) b - fvec o)%v (pt (real_hull lg ac DP h) c - fvec o)%v \/
    outlined L g (pt (real_hull lg ac DP h) a - fvec o)%v (pt (real_hull lg ac DP h) b - fvec o)%v (pt (real_hull lg ac DP h) c - fvec o)%v /\
    axial (pt (real_hull lg ac DP h) a - fvec o)%v (pt (real_hull lg ac DP h) b - fvec o)%v (pt (real_hull lg ac DP h) c - fvec o)%v).
  { intros a b c Hin. rewrite !pt_real. apply views_seen, Hsee, Hin. }
  assert (Ksn : forall a b c, In [a; b; c] (h_simplices h') ->
    seen L g s (pt (real_hull lg' ac' DP' h') a - fvec o)%v (pt (real_hull lg' ac' DP' h') b - fvec o)%v (pt (real_hull lg' ac' DP' h') c - fvec o)%v \/
    outlined L g (pt (real_hull lg' ac' DP' h') a - fvec o)%v (pt (real_hull lg' ac' DP' h') b - fvec o)%v (pt (real_hull lg' ac' DP' h') c - fvec o)%v /\
    axial (pt (real_hull lg' ac' DP' h') a - fvec o)%v (pt (real_hull lg' ac' DP' h') b - fvec o)%v (pt (real_hull lg' ac' DP' h') c - fvec o)%v).
  { intros a b c Hin. rewrite !pt_real. apply views_seen, Ksee, Hin. }
  destruct (hull_tensor lg ac DP Hlib Hsz HL Hs h Hh H1 H1' Hp Hm o (conj Fo Wo) Hsn rho Gc R0 G0 HR HG (conj Fr Br) (conj Fg Bg) ch inh pts
    (fun _ => Ok (real_hull lg ac DP h)) (fun _ _ => true) [] Hc eq_refl) as (p & pR & G & T & Ep & EpR & HcR & Reg & Eg & _ & _ & _ & _ & _ & _ & W1 & W2 & W3 & _).
  destruct (hull_tensor lg' ac' DP' Hlib' Hsz HL Hs h' Hh' K1 K1' Kp Km o (conj Fo Wo) Ksn rho Gc R0 G0 HR HG (conj Fr Br) (conj Fg Bg) ch' inh' pts'
    (fun _ => Ok (real_hull lg' ac' DP' h')) (fun _ _ => true) [] Hc' eq_refl) as (p' & pR' & G' & T' & Ep' & EpR' & HcR' & Reg' & Eg' & _ & _ & _ & _ & _ & _ & W1' & W2' & W3' & _).
  exists p, p'. split; [exact Ep|]. split; [exact Ep'|]. intros st st' Hst Hst'. exists G, T, G', T'.
  split; [rewrite (history_independent p o rho Gc true st Hst), fresh_spec; exact Eg|].
  split; [rewrite (history_independent p' o rho Gc true st' Hst'), fresh_spec; exact Eg'|].
  destruct (C89_corners_only _ _ (fun _ => Ok (real_hull lg ac DP h)) (fun _ => Ok (real_hull lg' ac' DP' h')) (fun _ _ => true) (fun _ _ => true) [] []
    Hh Hh' (some_facets _ H1n) (some_facets _ K1n) Hco Hst3 eq_refl eq_refl)
    as (q & q' & Eq & Eq' & K). rewrite EpR in Eq. injection Eq as <-. rewrite EpR' in Eq'. injection Eq' as <-.
  pose proof (K (fvec o) true (proj1 (steady_well pR (fvec o) true HcR Reg)) (proj1 (steady_well pR' (fvec o) true HcR' Reg'))
    (fv rho) (fv Gc) pstate0 pstate0 (reach_new _) (reach_new _)) as V.
  rewrite !gravity_spec in V by apply reach_new.
  pose proof (well_value pR (fvec o) true (fv rho) (fv Gc) HcR (steady_well _ _ _ HcR Reg)) as V1.
  pose proof (well_value pR' (fvec o) true (fv rho) (fv Gc) HcR' (steady_well _ _ _ HcR' Reg')) as V2.
  assert (E : msum (tF (fv rho) (fv Gc) (fvec o)) (pl_faces pR') = msum (tF (fv rho) (fv Gc) (fvec o)) (pl_faces pR)).
  { rewrite V1, V2 in V. injection V as _ V. exact V. }
  rewrite E in W1', W2', W3'.
  assert (ED : forall N, N * (g * g * (g * g * g) + g * s * (g * s * s) + N * (g * g + g * s)) * (1000000000 * (R0 * G0)) / 2 ^ 30 = D N) by (intros N; unfold D, Rdiv; ring).
  rewrite ED in W1, W2, W3, W1', W2', W3'.
  split; [exact (within_sum _ _ _ _ _ W1 W1')|]. split; [exact (within_sum _ _ _ _ _ W2 W2')|exact (within_sum _ _ _ _ _ W3 W3')].
Qed.
Print Assumptions C89_double_tensor.

(** the cube of C72_case, and the cube with one facet cut along the other diagonal *)
Example C89_double_case : forall lg ac (DP : dotlib) c, c = cubeZ \/ c = cubeZ2 ->
  correct_hull (real_hull lg ac DP (fh lg ac DP c)) /\ no_three_in_line (real_hull lg ac DP (fh lg ac DP c)) /\
  (forall q, corner (real_hull lg ac DP (fh lg ac DP c)) q <-> corner (rh cubeZ) q) /\
  forall z, z = o_out \/ z = o_in -> measured lg ac DP (fh lg ac DP c) 25 35 12 5 (PropertiesF.fv lg ac DP z).
Proof.
  intros lg ac DP c Hc.
  assert (EP : z_points c = z_points cubeZ) by (destruct Hc as [-> | ->]; reflexivity).
  assert (EV : z_vertices c = z_vertices cubeZ) by (destruct Hc as [-> | ->]; reflexivity).
  assert (Q : forall v, In v (z_points c) -> (Z.abs (vx v) <= 25)%Z /\ (Z.abs (vy v) <= 25)%Z /\ (Z.abs (vz v) <= 25)%Z).
  { intros v Hv. rewrite EP in Hv. cbn in Hv. repeat (destruct Hv as [<-|Hv]; [cbn; lia|]). destruct Hv. }
  assert (Hb : hullb c = true) by (destruct Hc as [-> | ->]; vm_compute; reflexivity).
  assert (Hl : lineb c = true) by (destruct Hc as [-> | ->]; vm_compute; reflexivity).
  assert (ER : real_hull lg ac DP (fh lg ac DP c) = rh c) by (apply real_fh; intros v Hv; destruct (Q v Hv) as (? & ? & ?); lia).
  assert (Hh : correct_hull (real_hull lg ac DP (fh lg ac DP c))) by (rewrite ER; apply hullb_ok, Hb).
  split; [exact Hh|]. split; [rewrite ER; apply lineb_ok; assumption|].
  split; [rewrite ER; destruct Hc as [-> | ->]; intros q; reflexivity|]. clear ER. intros z Hz.
  set (h := fh lg ac DP c) in *. set (P i := pnth (A := FA lg ac DP) i (h_points h)).
  assert (QF : forall x, (Z.abs x <= 25)%Z -> fin (fofZ x) /\ fv (fofZ x) = IZR x) by (intros; apply fofZ_exact; lia).
  assert (EF : forall i, P i = PropertiesF.fv lg ac DP (zpt c i)).
  { intros i. unfold P, h, pnth, zpt. cbn [h_points fh]. change (vzero (A := FA lg ac DP)) with (PropertiesF.fv lg ac DP (V3 0 0 0)%Z). apply map_nth. }
  assert (FV : forall v, zwithin 25 v = true -> vfin (PropertiesF.fv lg ac DP v) /\ fvec (PropertiesF.fv lg ac DP v) = rv v).
  { intros [x y t] W. unfold zwithin in W. cbn [vx vy vz] in W.
    rewrite !andb_true_iff, !Z.leb_le in W. destruct W as [[W1 W2] W3]. destruct (QF x W1) as [F1 V1], (QF y W2) as [F2 V2], (QF t W3) as [F3 V3].
    split; [split; [exact F1|split; [exact F2|exact F3]]|]. unfold fvec, vmap, rv, PropertiesF.fv. cbn [vx vy vz]. congruence. }
  assert (WP : forall i, In i (h_vertices h) -> zwithin 25 (zpt c i) = true).
  { assert (Al : forallb (fun i => zwithin 25 (zpt c i)) (z_vertices c) = true) by (destruct Hc as [-> | ->]; vm_compute; reflexivity).
    intros i Hi. rewrite forallb_forall in Al. exact (Al i Hi). }
  assert (PZ : forall i, In i (h_vertices h) -> vfin (P i) /\ fvec (P i) = rv (zpt c i)).
  { intros i Hi. rewrite EF. apply FV, WP, Hi. }
  assert (Hn : (length (h_vertices h) <= 500)%nat) by (cbn; rewrite EV; cbn; lia).
  assert (Hi : forall i, In i (h_vertices h) -> exists x y z, (Z.abs x <= 1024)%Z /\ (Z.abs y <= 1024)%Z /\ (Z.abs z <= 1024)%Z /\
     pnth (A := FA lg ac DP) i (h_points h) = V3 (fofZ x) (fofZ y) (fofZ z)).
  { intros i Hi. exists (vx (zpt c i)), (vy (zpt c i)), (vz (zpt c i)). pose proof (WP i Hi) as W. unfold zwithin in W.
    rewrite !andb_true_iff, !Z.leb_le in W. split; [lia|]. split; [lia|]. split; [lia|]. exact (EF i). }
  assert (Hv : forall a b d, In [a; b; d] (h_simplices h) -> In a (h_vertices h) /\ In b (h_vertices h) /\ In d (h_vertices h)).
  { intros a b d Hin. apply (tri_in lg ac DP h Hh a b d Hin). }
  assert (Oz : zwithin 25 z = true) by (destruct Hz as [-> | ->]; vm_compute; reflexivity).
  destruct (FV z Oz) as [Fo Eo].
  constructor.
  - cbn [h fh h_vertices]. rewrite EV. cbn [length z_vertices cubeZ]. split; [lia|]. apply (Nat.le_trans _ (2 ^ 3)); [cbn; lia|apply Nat.pow_le_mono_r; lia].
  - replace (length (h_simplices h)) with 12%nat by (destruct Hc as [-> | ->]; reflexivity). split; [lia|].
    apply (Nat.le_trans _ (2 ^ 4)); [cbn; lia|apply Nat.pow_le_mono_r; lia].
  - intros i Hx. fold (P i). destruct (PZ i Hx) as (F & E). split; [exact F|]. rewrite E. exact (zwithin_ok 25 _ (WP i Hx)).
  - intros i j Hx Hy. fold (P i) (P j). destruct (PZ i Hx) as (_ & ->), (PZ j Hy) as (_ & ->). rewrite rv_sub. apply (zwithin_ok 35).
    assert (Al : forallb (fun i => forallb (fun j => zwithin 35 (zsub (zpt c i) (zpt c j))) (z_vertices c)) (z_vertices c) = true) by (destruct Hc as [-> | ->]; vm_compute; reflexivity).
    rewrite forallb_forall in Al. specialize (Al i Hx). rewrite forallb_forall in Al. exact (Al j Hy).
  - intros P' a b d Hin. pose proof (int_margin lg ac DP h Hh Hn Hi a b d Hin) as K. unfold nrm3 in K. rewrite !pt_real in K.
    eapply Rle_lt_trans; [|exact K]. rewrite (INR_IZR_INZ (length (h_vertices h))). cbn [h fh h_vertices]. rewrite EV.
    cbn [z_vertices cubeZ length Z.of_nat Pos.of_succ_nat Pos.succ]. lra.
  - split; [exact Fo|]. rewrite Eo. exact (zwithin_ok 25 _ Oz).
  - intros P' a b d Hin. change (P' a) with (fvec (P a)). change (P' b) with (fvec (P b)). change (P' d) with (fvec (P d)). rewrite Eo.
    destruct (Hv a b d Hin) as (Va & Vb & Vd). destruct (PZ a Va) as (_ & ->), (PZ b Vb) as (_ & ->), (PZ d Vd) as (_ & ->).
    rewrite !rv_sub.
    assert (Al : forallb (fun s => match s with [a; b; d] => zsees 35 12 5 (zsub (zpt c a) z) (zsub (zpt c b) z) (zsub (zpt c d) z) ||
      zlevel 35 12 (zsub (zpt c a) z) (zsub (zpt c b) z) (zsub (zpt c d) z) | _ => true end) (z_simplices c) = true)
      by (destruct Hc as [-> | ->], Hz as [-> | ->]; vm_compute; reflexivity).
    rewrite forallb_forall in Al. pose proof (Al [a; b; d] Hin) as K. cbv beta iota in K. apply orb_true_iff in K. destruct K as [K|K].
    + left. apply (zsees_ok 35 12 5); [lia|lia|exact K].
    + right. apply (zlevel_ok 35 12); [lia|exact K].
Qed.

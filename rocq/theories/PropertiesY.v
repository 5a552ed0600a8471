(** * Properties C60 and C61: bounds of the attraction and the point-mass limit *)
From Coq Require Import Reals Lra Psatz ZArith Bool List Permutation Arith Lia.
Import ListNotations.
From Coquelicot Require Import Coquelicot.
From Verif Require Import Base MUtils MEdge MFace MHull MPoly SpecPoly PPoly PStation PPlain.
From Verif Require Import RVec RArith REdge REdgeModel RAngle ROmega RFace RFacet RPoly RTwin RField
  RHull RHullZ ExamplesR RLinear RMove RMoved RGlue RLaws RPlaced RPlacedZ RRay RTrace RFlux RVolume RSolid RBound PropertiesR PropertiesT PropertiesV.
Local Open Scope R_scope.
Local Open Scope list_scope.

(** The volume enclosed by the facets: the sum of the signed volumes of the
    tetrahedra that join the origin to them. *)
Definition body_volume (p : polyhedron RA) : R :=
  fold_right Rplus 0 (map (fun f : face RA => dt (vtx 0 f) (cr (vtx 1 f) (vtx 2 f)) / 6) (pl_faces p)).
Lemma body_volume_signed p : body_volume p = signed_volume p.
Proof.
  unfold body_volume, signed_volume, rsum, det. induction (pl_faces p) as [|f l IH]; cbn [map fold_right]; [reflexivity|]. now rewrite IH.
Qed.

Lemma conv3 P a b c r s t : convex P -> P a -> P b -> P c -> 0 <= r -> 0 <= s -> 0 <= t -> r + s + t = 1 ->
  P (r * a + s * b + t * c)%v.
Proof.
  intros HC Ha Hb Hc Hr Hs Ht E. destruct (Req_dec (s + t) 0) as [Z|Z].
  - replace (r * a + s * b + t * c)%v with a; [exact Ha|]. replace r with 1 by lra. replace s with 0 by lra. replace t with 0 by lra. vring.
  - assert (K := HC b c (t / (s + t)) Hb Hc). assert (Q : 0 <= t / (s + t) <= 1).
    { assert (0 < s + t) by lra. split; [apply Rmult_le_pos; [lra|left; now apply Rinv_0_lt_compat]|].
      apply Rmult_le_reg_r with (s + t); [lra|]. unfold Rdiv. rewrite Rmult_assoc, Rinv_l by lra. lra. }
    specialize (K Q). assert (K2 := HC _ _ (s + t) Ha K ltac:(lra)).
    replace (r * a + s * b + t * c)%v with (a + (s + t) * (b + t / (s + t) * (c - b) - a))%v; [exact K2|].
    assert (F : (s + t) * (t / (s + t)) = t) by (field; exact Z).
    replace r with (1 - s - t) by lra. revert F. generalize (t / (s + t)). intros x F.
    transitivity (a + ((s + t) * (b - a) + ((s + t) * x) * (c - b)))%v; [vring|]. rewrite F. vring.
Qed.
Lemma convex_free P q0 o f : convex P -> P q0 -> P (vtx 0 f) -> P (vtx 1 f) -> P (vtx 2 f) -> ~ P o -> ~ in_tetra q0 o f.
Proof.
  intros HC H0 H1 H2 H3 HN (u & y & Hu & (r & s & t & Hr & Hs & Ht & E & ->) & ->). apply HN.
  apply HC; auto. now apply conv3.
Qed.

(** every bound of the kernel that holds on a convex set that contains the
    vertices and not the observer carries over to G *)
Lemma hull_integral convex_hull inh points h o P density Gc : convex_hull points = Ok h -> correct_hull h ->
  convex P -> ~ P o -> (forall i, In i (h_vertices h) -> P (pt h i)) ->
  exists p, mk_polyhedron (A := RA) convex_hull inh points = Ok p /\ 0 <= body_volume p /\
  forall s gradient, reachable p s -> well_placed p o gradient ->
  exists G T I, gravity p o density Gc gradient s = Ok (G, T) /\ G = (density * Gc * 100000 * I)%v /\
    (forall w c, (forall x, P x -> dt w (kernel o x) <= c) -> dt w I <= c * body_volume p) /\
    (forall w c, (forall x, P x -> c <= dt w (kernel o x)) -> c * body_volume p <= dt w I) /\
    (forall v c, 0 <= c -> (forall x, P x -> nm (kernel o x - v) <= c) -> nm (I - body_volume p * v) <= c * body_volume p).
Proof.
  intros E Hh HC HN HP. destruct (build_ok convex_hull inh points h E Hh) as (p & Ep & _ & Hc & HL & F).
  exists p. split; [exact Ep|]. pose proof (hull_behind h p Hh F) as HB.
  assert (HV : forall f i, In f (pl_faces p) -> (i < 3)%nat -> P (vtx i f)).
  { intros f i Hf Hi. apply In_nth_error in Hf. destruct Hf as [j Hj].
    destruct (face_of_parts _ _ _ (F j f Hj)) as (x & y & z & E0 & E1 & E2 & _ & _ & _ & s & Hs & HPm).
    assert (G : forall k, In k [x; y; z] -> P (pt h k)).
    { intros k Hk. apply HP, (ch_vert h Hh s); [eapply nth_error_In; eauto|].
      eapply Permutation_in; [apply Permutation_sym; exact HPm|exact Hk]. }
    destruct i as [|[|[|i]]]; [rewrite E0|rewrite E1|rewrite E2|lia]; apply G; simpl; auto. }
  assert (HQ : exists q0, (forall f, In f (pl_faces p) -> 0 <= dt (f_un f) (vtx 0 f - q0)) /\
    forall f, In f (pl_faces p) -> P q0 /\ P (vtx 0 f) /\ P (vtx 1 f) /\ P (vtx 2 f)).
  { destruct (pl_faces p) as [|f0 l] eqn:El.
    - exists v0. split; intros f [].
    - exists (vtx 0 f0). rewrite <- El in *. assert (Hf0 : In f0 (pl_faces p)) by (rewrite El; now left).
      split.
      + intros f Hf. assert (K : dt (f_un f) (vtx 0 f0 - vtx 0 f) <= 0).
        { apply (HB f f0); auto. destruct (proj1 Hc f0 Hf0) as (p1 & p2 & p3 & HF).
          unfold vtx, pnth. apply nth_In. destruct HF as [[-> _] _]. simpl; lia. }
        replace (dt (f_un f) (vtx 0 f - vtx 0 f0)) with (- dt (f_un f) (vtx 0 f0 - vtx 0 f)); [lra|].
        generalize (f_un f : V) (vtx 0 f) (vtx 0 f0). intros. vring.
      + intros f Hf. repeat split; apply HV; auto. }
  destruct HQ as (q0 & Hq & HPq). rewrite !body_volume_signed.
  split; [exact (volume_nonneg p q0 Hc Hq)|]. intros s g Hs Hr.
  destruct (C58_volume p o q0 density Gc g s Hc Hr Hs) as (G & T & I & EG & (If & HI & EI) & EG').
  { intros f Hf. destruct (HPq f Hf) as (? & ? & ? & ?). now apply (convex_free P). }
  exists G, T, I. split; [exact EG|]. split; [exact EG'|]. rewrite <- vsum_fold in EI. rewrite EI. split; [|split].
  - intros w c H. now apply (body_upper p q0 (kernel o) If P).
  - intros w c H. now apply (body_lower p q0 (kernel o) If P).
  - intros v c H0 H. now apply (body_near p q0 (kernel o) If P).
Qed.

(** ** C60: bounds *)
(** The body lies between the planes z.(x - o) = m and the sphere of radius M
    about the observer o: it is attracted along z, with G between the attraction
    of its whole mass at the worst and at the best place. *)
Theorem C60_bounds :
  forall convex_hull inh points h o z m M density Gc, convex_hull points = Ok h -> correct_hull h ->
  0 <= density * Gc -> dt z z = 1 -> 0 < m ->
  (forall i, In i (h_vertices h) -> m <= dt z (pt h i - o) /\ nm (pt h i - o) <= M) ->
  exists p, mk_polyhedron (A := RA) convex_hull inh points = Ok p /\ 0 <= body_volume p /\
  forall s gradient, reachable p s -> well_placed p o gradient ->
  exists G T, gravity p o density Gc gradient s = Ok (G, T) /\
    density * Gc * 100000 * body_volume p * m / M ^ 3 <= dt z G /\
    nm G <= density * Gc * 100000 * body_volume p / m ^ 2.
Proof.
  intros ch inh pts h o z m M d Gc E Hh Hk Hz Hm HV.
  set (P := fun x => m <= dt z (x - o) /\ nm (x - o) <= M).
  assert (HN : ~ P o).
  { intros [K _]. replace (dt z (o - o)) with 0 in K by vring. lra. }
  destruct (hull_integral ch inh pts h o P d Gc E Hh (and_convex _ _ (half_convex z o m) (ball_convex o M)) HN HV)
    as (p & Ep & Vp & K).
  exists p. split; [exact Ep|]. split; [exact Vp|]. intros s g Hs Hr.
  destruct (K s g Hs Hr) as (G & T & I & EG & EI & HU & HLo & HB). exists G, T. split; [exact EG|].
  set (k := d * Gc * 100000) in *. assert (Hk' : 0 <= k) by (unfold k; apply Rmult_le_pos; lra). split.
  - rewrite EI, dt_sc_r. 
    replace (k * body_volume p * m / M ^ 3) with (k * (m / (M * M * M) * body_volume p)) by (unfold Rdiv; replace (M ^ 3) with (M * M * M) by ring; ring).
    apply Rmult_le_compat_l; [exact Hk'|]. apply HLo. intros x [X1 X2]. rewrite kernel_field3. now apply field3_lower.
  - rewrite EI, nm_sc, Rabs_pos_eq by exact Hk'.
    replace (k * body_volume p / m ^ 2) with (k * (/ (m * m) * body_volume p)) by (unfold Rdiv; replace (m ^ 2) with (m * m) by ring; ring).
    apply Rmult_le_compat_l; [exact Hk'|].
    replace (nm I) with (nm (I - body_volume p * v0)) by (f_equal; vring). apply HB.
    + left. apply Rinv_0_lt_compat, Rmult_lt_0_compat; lra.
    + intros x [X1 X2]. replace (kernel o x - v0)%v with (kernel o x) by vring. rewrite kernel_field3. now apply (field3_upper _ z m).
Qed.
Print Assumptions C60_bounds.

(** ** C61: from far away the body is a point mass *)
(** Seen from c - D z, at a distance D of the centre c of a ball of radius R around
    the body, with D at least 2R: G is the attraction of the mass density * volume
    at c, up to a relative error 46 R / D. *)
Theorem C61_point_mass :
  forall convex_hull inh points h c z R D density Gc, convex_hull points = Ok h -> correct_hull h ->
  0 <= density * Gc -> dt z z = 1 -> 0 < D -> 2 * R <= D ->
  (forall i, In i (h_vertices h) -> nm (pt h i - c) <= R) ->
  exists p, mk_polyhedron (A := RA) convex_hull inh points = Ok p /\ 0 <= body_volume p /\
  forall s gradient, reachable p s -> well_placed p (c - D * z)%v gradient ->
  exists G T, gravity p (c - D * z)%v density Gc gradient s = Ok (G, T) /\
    nm (G - density * Gc * 100000 * body_volume p / D ^ 2 * z) <=
      46 * R / D * (density * Gc * 100000 * body_volume p / D ^ 2).
Proof.
  intros ch inh pts h c z Rr D d Gc E Hh Hk Hz HD H2 HV.
  assert (NZ : nm z = 1) by (apply nm_uniq; lra).
  assert (HN : ~ nm ((c - D * z) - c) <= Rr).
  { replace ((c - D * z) - c)%v with ((- D) * z)%v by vring. rewrite nm_sc, NZ, Rabs_left by lra. lra. }
  destruct (hull_integral ch inh pts h (c - D * z)%v (fun x => nm (x - c) <= Rr) d Gc E Hh (ball_convex c Rr) HN HV)
    as (p & Ep & Vp & K).
  exists p. split; [exact Ep|]. split; [exact Vp|]. intros s g Hs Hr.
  destruct (K s g Hs Hr) as (G & T & I & EG & EI & HU & HLo & HB). exists G, T. split; [exact EG|].
  set (k := d * Gc * 100000) in *. assert (Hk' : 0 <= k) by (unfold k; apply Rmult_le_pos; lra).
  replace (G - k * body_volume p / D ^ 2 * z)%v with (k * (I - body_volume p * (/ (D * D) * z)))%v.
  2:{ rewrite EI. replace (k * body_volume p / D ^ 2) with (k * (body_volume p * / (D * D))) by (field; lra).
      generalize (/ (D * D)) (body_volume p). intros. vring. }
  rewrite nm_sc, Rabs_pos_eq by exact Hk'.
  destruct (Rle_lt_dec 0 Rr) as [R0|R0].
  - replace (46 * Rr / D * (k * body_volume p / D ^ 2)) with (k * (46 * Rr / (D * D * D) * body_volume p)) by (field; lra).
    apply Rmult_le_compat_l; [exact Hk'|]. apply HB.
    + apply Rmult_le_pos; [lra|]. left. apply Rinv_0_lt_compat. repeat apply Rmult_lt_0_compat; lra.
    + intros x Hx. rewrite kernel_field3. replace (x - (c - D * z))%v with (D * z + (x - c))%v by vring. now apply field3_far.
  - assert (B0 : nm (I - body_volume p * (/ (D * D) * z)) <= 0 * body_volume p).
    { apply HB; [lra|]. intros x Hx. exfalso. pose proof (nm_nonneg (x - c)%v). lra. }
    assert (V0 : 0 * body_volume p = 0) by ring. 
    assert (BV : body_volume p <= 0).
    { assert (dt v0 I <= -1 * body_volume p); [|rewrite dt_0_l in *; lra].
      apply HU. intros x Hx. exfalso. pose proof (nm_nonneg (x - c)%v). lra. }
    replace (body_volume p) with 0 in B0 |- * by lra. pose proof (nm_nonneg (I - 0 * (/ (D * D) * z))%v).
    replace (46 * Rr / D * (k * 0 / D ^ 2)) with 0 by (field; lra). nra.
Qed.
Print Assumptions C61_point_mass.

(** ** Cases *)
(** the enclosed volume is positive as soon as the hull has a facet *)
Theorem C60_volume :
  forall convex_hull inh points h, convex_hull points = Ok h -> correct_hull h -> h_simplices h <> [] ->
  exists p, mk_polyhedron (A := RA) convex_hull inh points = Ok p /\ 0 < body_volume p.
Proof.
  intros ch inh pts h E Hh Hne. destruct (build_ok ch inh pts h E Hh) as (p & Ep & _ & Hc & HL & F).
  exists p. split; [exact Ep|]. rewrite body_volume_signed.
  destruct (pl_faces p) as [|f0 l] eqn:El.
  { destruct (h_simplices h); [now contradiction Hne|discriminate HL]. }
  assert (H0 : nth_error (pl_faces p) 0 = Some f0) by now rewrite El.
  rewrite <- El in F. destruct (face_of_parts _ _ _ (F 0%nat f0 H0)) as (x & y & z & E0 & E1 & E2 & _ & (N & O & k & Hk & Ok) & U & _).
  rewrite <- (volume_from p (pt h k) Hc).
  assert (D : forall f i, nth_error (pl_faces p) i = Some f -> 0 <= det (vtx 0 f - pt h k) (vtx 1 f - pt h k) (vtx 2 f - pt h k)).
  { intros f i Hi. destruct (face_of_parts _ _ _ (F i f Hi)) as (x' & y' & z' & -> & -> & -> & _ & (N' & O' & _) & _ & _).
    specialize (O' k Hk). unfold det. unfold nrm3 in O'. revert O'. generalize (pt h x') (pt h y') (pt h z') (pt h k). intros a b c q O'.
    replace (dt (a - q) (cr (b - q) (c - q)))%v with (- dt (cr (b - a) (c - a)) (q - a)) by vring. lra. }
  apply rsum_ge0.
  - intros f Hf. apply In_nth_error in Hf. destruct Hf as [i Hi]. specialize (D f i Hi). lra.
  - exists f0. split; [eapply nth_error_In; eauto|]. rewrite E0, E1, E2. unfold det, nrm3 in *. revert Ok.
    generalize (pt h x) (pt h y) (pt h z) (pt h k). intros a b c q Ok.
    replace (dt (a - q) (cr (b - q) (c - q)))%v with (- dt (cr (b - a) (c - a)) (q - a)) by vring. lra.
Qed.
Print Assumptions C60_volume.
(** the cube of side 20 seen from (25,13,17): z = -x, m = 15, M = 50 *)
Example C60_case :
  build cubeZ = Ok cube /\ correct_hull (rh cubeZ) /\ h_simplices (rh cubeZ) <> [] /\ (forall g, well_placed cube (rv o_out) g) /\
  dt (V3 (-1) 0 0) (V3 (-1) 0 0) = 1 /\
  forall i, In i (h_vertices (rh cubeZ)) -> 15 <= dt (V3 (-1) 0 0) (pt (rh cubeZ) i - rv o_out) /\ nm (pt (rh cubeZ) i - rv o_out) <= 50.
Proof.
  assert (Hb : hullb cubeZ = true) by (vm_compute; reflexivity).
  split; [apply (body_ok cubeZ Hb)|]. split; [apply hullb_ok; exact Hb|]. split; [discriminate|]. split; [exact cube_out_well|].
  split; [unfold dt; cbn [vx vy vz]; ring|]. intros i Hi. rewrite pt_rh, rv_sub.
  assert (Q : forallb (fun i => Z.leb (vx (zsub (zpt cubeZ i) o_out)) (-15) && Z.leb (zdt (zsub (zpt cubeZ i) o_out) (zsub (zpt cubeZ i) o_out)) 2500)%bool
    (z_vertices cubeZ) = true) by (vm_compute; reflexivity).
  rewrite forallb_forall in Q. specialize (Q i Hi). apply andb_true_iff in Q. destruct Q as [Q1 Q2].
  apply Z.leb_le, IZR_le in Q1, Q2. split.
  - unfold rv, dt; cbn [vx vy vz]. lra.
  - rewrite <- rv_dt, <- nm_sq in Q2. pose proof (nm_nonneg (rv (zsub (zpt cubeZ i) o_out))). nra.
Qed.
(** the cube of side 20, inside the ball of radius 18 about the origin, seen from
    (40,20,40), at the distance 60 *)
Example C61_case : let z := V3 (- 2 / 3) (- 1 / 3) (- 2 / 3) in
  build cubeZ = Ok cube /\ correct_hull (rh cubeZ) /\ dt z z = 1 /\ 2 * 18 <= 60 /\
  (v0 - 60 * z)%v = rv (zv 40 20 40) /\ (forall g, well_placed cube (rv (zv 40 20 40)) g) /\
  forall i, In i (h_vertices (rh cubeZ)) -> nm (pt (rh cubeZ) i - v0) <= 18.
Proof.
  assert (Hb : hullb cubeZ = true) by (vm_compute; reflexivity). cbv zeta.
  split; [apply (body_ok cubeZ Hb)|]. split; [apply hullb_ok; exact Hb|].
  split; [unfold dt; cbn [vx vy vz]; field|]. split; [lra|]. split; [apply veq; cbn; field|].
  split; [intros g; apply regular_well; [apply cube_closed|apply body_regular; vm_compute; reflexivity]|]. intros i Hi. rewrite pt_rh.
  assert (Q : forallb (fun i => Z.leb (zdt (zpt cubeZ i) (zpt cubeZ i)) 324) (z_vertices cubeZ) = true) by (vm_compute; reflexivity).
  rewrite forallb_forall in Q. specialize (Q i Hi). apply Z.leb_le, IZR_le in Q. rewrite <- rv_dt, <- nm_sq in Q.
  replace (rv (zpt cubeZ i) - v0)%v with (rv (zpt cubeZ i)) by vring. pose proof (nm_nonneg (rv (zpt cubeZ i))). nra.
Qed.

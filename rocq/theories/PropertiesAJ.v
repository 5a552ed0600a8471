(** * Property C91: the gradient tensor as Newton's integral over the body *)
From Coq Require Import Reals Lra Psatz ZArith Bool List Permutation Arith Lia.
Import ListNotations.
From Coquelicot Require Import Coquelicot.
From Verif Require Import Base MUtils MEdge MFace MHull MPoly SpecPoly PPoly PStation PPlain.
From Verif Require Import RVec RArith REdge REdgeModel RAngle ROmega RFace RFacet RPoly RTwin RField
  RHull RHullZ ExamplesR RLinear RMove RMoved RGlue RLaws RPlaced RPlacedZ RRay RTrace RFlux RVolume RSolid RBound PropertiesR PropertiesT PropertiesV PropertiesY RTensor.
Local Open Scope R_scope.
Local Open Scope list_scope.

(** The gradient along e of the attraction of a unit mass at x, as the observer o
    moves: 3 (R.e) R/|R|^5 - e/|R|^3 with R = x - o. *)
Definition tkernel (o e x : V) : V :=
  (3 * dt (x - o) e / nm (x - o) ^ 5 * (x - o) - / nm (x - o) ^ 3 * e)%v.
Lemma tkernel_tk o e x : tkernel o e x = tk e (x - o).
Proof.
  unfold tkernel, tk, Rdiv. replace (nm (x - o) ^ 3) with (nm (x - o) * nm (x - o) * nm (x - o)) by ring.
  replace (nm (x - o) ^ 5) with (nm (x - o) * nm (x - o) * nm (x - o) * nm (x - o) * nm (x - o)) by ring. reflexivity.
Qed.
(** the kernel is the derivative of Newton's law *)
Lemma tkernel_derivative o e x : x <> o -> vder (fun t : R => kernel (o + t * e)%v x) 0 (tkernel o e x).
Proof.
  intros H. assert (N : 0 < nm (x - o)).
  { apply nm_pos. intros Z. apply H. replace x with ((x - o) + o)%v by vring. rewrite Z. vring. }
  rewrite tkernel_tk. pose proof (field3_der (x - o)%v e 0) as D. rewrite path0 in D. destruct (D N) as (D1 & D2 & D3).
  split3; (eapply is_derive_ext; [|eassumption]); intros t; cbv beta; rewrite kernel_field3; do 2 f_equal; vring.
Qed.

(** T e is the integral of this kernel over the tetrahedra that join q0 to the
    facets, when q0 and the corners lie in a convex set at a positive distance of the
    observer *)
Lemma tensor_integral p o q0 P m density Gc s : closed p -> convex P ->
  (forall f, In f (pl_faces p) -> P q0 /\ P (vtx 0 f) /\ P (vtx 1 f) /\ P (vtx 2 f)) ->
  0 < m -> (forall x, P x -> m <= nm (x - o)) -> well_placed p o true -> reachable p s ->
  exists G T, gravity p o density Gc true s = Ok (G, T) /\
  forall e, exists If : face RA -> V,
    (forall f, In f (pl_faces p) -> volume_vintegral (tkernel o e) q0 (vtx 0 f) (vtx 1 f) (vtx 2 f) (If f)) /\
    mdot T e = (density * Gc * 1000000000 * vsum If (pl_faces p))%v.
Proof.
  intros Hc HC HP Hm HD Hr Hs. assert (Hof : offs p o) by (apply clear_offs; [exact Hc|apply Hr]).
  rewrite (gravity_spec p o density Gc true s Hs), (well_value p o true density Gc Hc Hr).
  eexists _, _. split; [reflexivity|]. intros e. exists (TI o q0 e).
  assert (HD2 : forall x, P x -> 2 * (m / 2) <= nm (x - o)) by (intros x Hx; specialize (HD x Hx); lra).
  split.
  - intros f Hf. destruct (far_tensor p o q0 e P (m / 2) Hc HC HP ltac:(lra) HD2 f Hf) as (A & B & C).
    split3; [eapply volume_ext2; [|exact A]|eapply volume_ext2; [|exact B]|eapply volume_ext2; [|exact C]]; intros x; cbv beta; now rewrite tkernel_tk.
  - change (mdot (msum (tF density Gc o) (pl_faces p)) e) with (mapp (msum (tF density Gc o) (pl_faces p)) e).
    rewrite (tensor_app_off p o density Gc Hc Hof e). exact (far_Jtot p o q0 e P (m / 2) Hc HC HP ltac:(lra) HD2 density Gc).
Qed.

(** ** C91 *)
(** The bodies the constructor builds from a correct hull, at an observer outside
    (beyond the plane of some facet), with q0 any point behind every facet: along
    every direction e, T e is density * Gc * 10^9 times the integral over the body
    of the gradient of Newton's law. *)
Theorem C91_tensor_volume :
  forall convex_hull inh points h o q0 density Gc, convex_hull points = Ok h -> correct_hull h ->
  exists p, mk_polyhedron (A := RA) convex_hull inh points = Ok p /\
  forall s f, reachable p s -> well_placed p o true -> In f (pl_faces p) -> dt (f_un f) (vtx 0 f - o) < 0 ->
  (forall f, In f (pl_faces p) -> 0 <= dt (f_un f) (vtx 0 f - q0)) ->
  exists G T, gravity p o density Gc true s = Ok (G, T) /\
  forall e, exists I, body_vintegral (tkernel o e) p q0 I /\ mdot T e = (density * Gc * 1000000000 * I)%v.
Proof.
  intros ch inh pts h o q0 d Gc E Hh. destruct (build_ok ch inh pts h E Hh) as (p & Ep & _ & Hc & _ & F).
  exists p. split; [exact Ep|]. intros s f Hs Hr Hf Hd Hq. pose proof (hull_behind h p Hh F) as HB.
  assert (U : nm (- f_un f)%v = 1).
  { destruct (facet_ne p Hc f Hf) as (_ & _ & _ & HN & Hu). rewrite nm_opp, Hu. unfold uu.
    apply nm_pos in HN. rewrite nm_sc, Rabs_pos_eq by (left; now apply Rinv_0_lt_compat). field. lra. }
  set (m := - dt (f_un f) (vtx 0 f - o)) in *.
  destruct (tensor_integral p o q0 (fun x => m <= dt (- f_un f) (x - o)) m d Gc s Hc (half_convex (- f_un f)%v o m)) as (G & T & EG & K); auto.
  - intros g Hg. assert (B : forall i, (i < 3)%nat -> m <= dt (- f_un f) (vtx i g - o)).
    { intros i Hi. assert (K : dt (f_un f) (vtx i g - vtx 0 f) <= 0).
      { apply (HB f g); auto. destruct (proj1 Hc g Hg) as (p1 & p2 & p3 & HF).
        unfold vtx, pnth. apply nth_In. destruct HF as [[-> _] _]. simpl; lia. }
      unfold m. revert K. generalize (f_un f : V) (vtx i g) (vtx 0 f). intros n a b K.
      replace (dt (- n) (a - o)) with (- dt n (b - o) - dt n (a - b)) by vring. lra. }
    split; [|split; [|split]]; try (apply B; lia). pose proof (Hq f Hf) as K. unfold m. revert K.
    generalize (f_un f : V) (vtx 0 f). intros n b K. replace (dt (- n) (q0 - o)) with (- dt n (b - o) + dt n (b - q0)) by vring. lra.
  - unfold m. lra.
  - intros x Hx. eapply Rle_trans; [exact Hx|]. pose proof (cs_upper (- f_un f)%v (x - o)%v) as C. rewrite U in C. lra.
  - exists G, T. split; [exact EG|]. intros e. destruct (K e) as (If & HI & EI). exists (vsum If (pl_faces p)).
    split; [|exact EI]. exists If. split; [exact HI|apply vsum_fold].
Qed.
Print Assumptions C91_tensor_volume.

(** every bound of the kernel on a convex set that contains the corners carries over *)
Lemma hull_tensor convex_hull inh points h o P m density Gc : convex_hull points = Ok h -> correct_hull h ->
  convex P -> 0 < m -> (forall x, P x -> m <= nm (x - o)) -> (forall i, In i (h_vertices h) -> P (pt h i)) ->
  exists p, mk_polyhedron (A := RA) convex_hull inh points = Ok p /\ 0 <= body_volume p /\
  forall s, reachable p s -> well_placed p o true ->
  exists G T, gravity p o density Gc true s = Ok (G, T) /\
    forall e v c, 0 <= density * Gc -> 0 <= c -> (forall x, P x -> nm (tkernel o e x - v) <= c) ->
      nm (mdot T e - density * Gc * 1000000000 * body_volume p * v) <= density * Gc * 1000000000 * (c * body_volume p).
Proof.
  intros E Hh HC Hm HD HP. destruct (build_ok convex_hull inh points h E Hh) as (p & Ep & _ & Hc & HL & F).
  exists p. split; [exact Ep|]. pose proof (hull_behind h p Hh F) as HB.
  assert (HV : forall f i, In f (pl_faces p) -> (i < 3)%nat -> P (vtx i f)).
  { intros f i Hf Hi. apply In_nth_error in Hf. destruct Hf as [j Hj].
    destruct (face_of_parts _ _ _ (F j f Hj)) as (x & y & z & E0 & E1 & E2 & _ & _ & _ & s & Hs & HPm).
    assert (G : forall k, In k (x :: y :: z :: nil) -> P (pt h k)).
    { intros k Hk. apply HP, (ch_vert h Hh s); [eapply nth_error_In; eauto|].
      eapply Permutation_in; [apply Permutation_sym; exact HPm|exact Hk]. }
    destruct i as [|[|[|i]]]; [rewrite E0|rewrite E1|rewrite E2|lia]; apply G; simpl; auto. }
  assert (HQ : exists q0, (forall f, In f (pl_faces p) -> 0 <= dt (f_un f) (vtx 0 f - q0)) /\
    forall f, In f (pl_faces p) -> P q0 /\ P (vtx 0 f) /\ P (vtx 1 f) /\ P (vtx 2 f)).
  { destruct (pl_faces p) as [|f0 l] eqn:El.
    - exists v0. split; intros f [].
    - exists (vtx 0 f0). rewrite <- El in *. assert (Hf0 : In f0 (pl_faces p)) by (rewrite El; now left).
      split.
      + intros f Hf. assert (K : dt (f_un f) (vtx 0 f0 - vtx 0 f) <= 0).
        { apply (HB f f0); auto. destruct (proj1 Hc f0 Hf0) as (p1 & p2 & p3 & HF).
          unfold vtx, pnth. apply nth_In. destruct HF as [[-> _] _]. simpl; lia. }
        replace (dt (f_un f) (vtx 0 f - vtx 0 f0)) with (- dt (f_un f) (vtx 0 f0 - vtx 0 f)); [lra|].
        generalize (f_un f : V) (vtx 0 f) (vtx 0 f0). intros. vring.
      + intros f Hf. repeat split; apply HV; auto. }
  destruct HQ as (q0 & Hq & HPq). rewrite !body_volume_signed.
  split; [exact (volume_nonneg p q0 Hc Hq)|]. intros s Hs Hr.
  destruct (tensor_integral p o q0 P m density Gc s Hc HC HPq Hm HD Hr Hs) as (G & T & EG & K).
  exists G, T. split; [exact EG|]. intros e v c Hk H0 H. destruct (K e) as (If & HI & EI).
  pose proof (body_near p q0 (tkernel o e) If P Hc Hq HI HC HPq v c H0 H) as B. rewrite EI.
  replace (density * Gc * 1000000000 * vsum If (pl_faces p) - density * Gc * 1000000000 * signed_volume p * v)%v with
    (density * Gc * 1000000000 * (vsum If (pl_faces p) - signed_volume p * v))%v by (generalize (vsum If (pl_faces p)); intros; vring).
  rewrite nm_sc, Rabs_pos_eq by (apply Rmult_le_pos; lra). apply Rmult_le_compat_l; [apply Rmult_le_pos; lra|exact B].
Qed.

(** The body lies beyond the plane z.(x - o) = m in front of the observer o: no
    gradient exceeds that of its whole mass at the distance m. *)
Theorem C91_bound :
  forall convex_hull inh points h o z m density Gc, convex_hull points = Ok h -> correct_hull h ->
  0 <= density * Gc -> dt z z = 1 -> 0 < m ->
  (forall i, In i (h_vertices h) -> m <= dt z (pt h i - o)) ->
  exists p, mk_polyhedron (A := RA) convex_hull inh points = Ok p /\ 0 <= body_volume p /\
  forall s, reachable p s -> well_placed p o true ->
  exists G T, gravity p o density Gc true s = Ok (G, T) /\
    forall e, nm (mdot T e) <= 2 * density * Gc * 1000000000 * body_volume p / m ^ 3 * nm e.
Proof.
  intros ch inh pts h o z m d Gc E Hh Hk Hz Hm HV.
  assert (HD : forall x, m <= dt z (x - o) -> m <= nm (x - o)).
  { intros x Hx. eapply Rle_trans; [exact Hx|]. now apply nm_unit_dt. }
  destruct (hull_tensor ch inh pts h o (fun x => m <= dt z (x - o)) m d Gc E Hh (half_convex z o m) Hm HD HV) as (p & Ep & Vp & K).
  exists p. split; [exact Ep|]. split; [exact Vp|]. intros s Hs Hr. destruct (K s Hs Hr) as (G & T & EG & B).
  exists G, T. split; [exact EG|]. intros e.
  specialize (B e v0 (2 * nm e / (m * m * m)) Hk).
  replace (mdot T e - d * Gc * 1000000000 * body_volume p * v0)%v with (mdot T e) in B
    by (generalize (mdot T e : V) (body_volume p); intros; vring).
  replace (2 * d * Gc * 1000000000 * body_volume p / m ^ 3 * nm e) with (d * Gc * 1000000000 * (2 * nm e / (m * m * m) * body_volume p)) by (field; lra).
  apply B.
  - apply Rmult_le_pos; [pose proof (nm_nonneg e); lra|]. left. apply Rinv_0_lt_compat. repeat apply Rmult_lt_0_compat; lra.
  - intros x Hx. rewrite tkernel_tk. replace (tk e (x - o) - v0)%v with (tk e (x - o)) by (generalize (tk e (x - o)); intros; vring).
    apply tk_bound; auto.
Qed.
Print Assumptions C91_bound.

(** Seen from c - D z, at a distance D of the centre c of a ball of radius R around
    the body, with D at least 2R: T is the gradient of the attraction of the mass
    density * volume at c, up to a relative error 384 R / D. *)
Theorem C91_point_mass :
  forall convex_hull inh points h c z R D density Gc, convex_hull points = Ok h -> correct_hull h ->
  0 <= density * Gc -> dt z z = 1 -> 0 < D -> 0 <= R -> 2 * R <= D ->
  (forall i, In i (h_vertices h) -> nm (pt h i - c) <= R) ->
  exists p, mk_polyhedron (A := RA) convex_hull inh points = Ok p /\ 0 <= body_volume p /\
  forall s, reachable p s -> well_placed p (c - D * z)%v true ->
  exists G T, gravity p (c - D * z)%v density Gc true s = Ok (G, T) /\
    forall e, nm (mdot T e - density * Gc * 1000000000 * body_volume p / D ^ 3 * (3 * dt z e * z - e)) <=
      384 * R / D * (density * Gc * 1000000000 * body_volume p / D ^ 3) * nm e.
Proof.
  intros ch inh pts h c z Rr D d Gc E Hh Hk Hz HD HR H2 HV.
  assert (NZ : nm z = 1) by (apply nm_uniq; lra).
  assert (ND : nm (D * z) = D) by (rewrite nm_sc, NZ, Rabs_pos_eq by lra; ring).
  assert (HN : forall x, nm (x - c) <= Rr -> D / 2 <= nm (x - (c - D * z))).
  { intros x Hx. pose proof (triangle (x - (c - D * z))%v (- (x - c))%v) as T. rewrite nm_opp in T.
    replace (x - (c - D * z) + - (x - c))%v with (D * z)%v in T by vring. lra. }
  destruct (hull_tensor ch inh pts h (c - D * z)%v (fun x => nm (x - c) <= Rr) (D / 2) d Gc E Hh (ball_convex c Rr) ltac:(lra) HN HV)
    as (p & Ep & Vp & K).
  exists p. split; [exact Ep|]. split; [exact Vp|]. intros s Hs Hr.
  destruct (K s Hs Hr) as (G & T & EG & B). exists G, T. split; [exact EG|]. intros e.
  specialize (B e (/ (D * D * D) * (3 * dt z e * z - e))%v (24 * nm e * Rr / (D / 2 * (D / 2) * (D / 2) * (D / 2))) Hk).
  replace (d * Gc * 1000000000 * body_volume p / D ^ 3 * (3 * dt z e * z - e))%v with
    (d * Gc * 1000000000 * body_volume p * (/ (D * D * D) * (3 * dt z e * z - e)))%v.
  2:{ replace (D ^ 3) with (D * D * D) by ring. unfold Rdiv. generalize (/ (D * D * D)) (d * Gc * 1000000000 * body_volume p) (3 * dt z e * z - e)%v. intros. vring. }
  replace (384 * Rr / D * (d * Gc * 1000000000 * body_volume p / D ^ 3) * nm e) with
    (d * Gc * 1000000000 * (24 * nm e * Rr / (D / 2 * (D / 2) * (D / 2) * (D / 2)) * body_volume p)) by (field; lra).
  assert (D2 : 0 < / (D / 2 * (D / 2) * (D / 2) * (D / 2))) by (apply Rinv_0_lt_compat; repeat apply Rmult_lt_0_compat; lra).
  pose proof (nm_nonneg e). apply B.
  - apply Rmult_le_pos; [|lra]. apply Rmult_le_pos; [|lra]. lra.
  - intros x Hx. rewrite tkernel_tk.
    replace (/ (D * D * D) * (3 * dt z e * z - e))%v with (tk e (D * z)).
    2:{ rewrite tk_unit by lra. rewrite ND. replace (/ D * (D * z))%v with z; [reflexivity|].
        transitivity ((/ D * D) * z)%v; [rewrite Rinv_l by lra; vring|vring]. }
    eapply Rle_trans; [apply (tk_lip e _ _ (D / 2)); [lra|apply HN, Hx|lra]|].
    replace (x - (c - D * z) - D * z)%v with (x - c)%v by vring. unfold Rdiv at 1.
    apply Rmult_le_compat_r; [lra|]. apply Rmult_le_compat_l; [lra|exact Hx].
Qed.
Print Assumptions C91_point_mass.
(** the cube of side 20 about the origin: from (25,13,17), 15 away from the plane of a
    facet that faces it; and from (40,20,40), at the distance 60 of the centre *)
Example C91_case : let z := V3 (- 2 / 3) (- 1 / 3) (- 2 / 3) in
  build cubeZ = Ok cube /\ correct_hull (rh cubeZ) /\ 0 < body_volume cube /\
  well_placed cube (rv o_out) true /\ (exists f, In f (pl_faces cube) /\ dt (f_un f) (vtx 0 f - rv o_out) < 0) /\
  (forall f, In f (pl_faces cube) -> 0 <= dt (f_un f) (vtx 0 f - rv o_in)) /\
  dt (V3 (-1) 0 0) (V3 (-1) 0 0) = 1 /\ (forall i, In i (h_vertices (rh cubeZ)) -> 15 <= dt (V3 (-1) 0 0) (pt (rh cubeZ) i - rv o_out)) /\
  dt z z = 1 /\ 2 * 18 <= 60 /\ (v0 - 60 * z)%v = rv (zv 40 20 40) /\ well_placed cube (rv (zv 40 20 40)) true /\
  forall i, In i (h_vertices (rh cubeZ)) -> nm (pt (rh cubeZ) i - v0) <= 18.
Proof.
  cbv zeta. destruct C60_case as (A1 & A2 & A3 & A4 & A5 & A6). destruct C61_case as (_ & _ & B1 & B2 & B3 & B4 & B5).
  destruct (C58_case cubeZ (or_introl eq_refl)) as (_ & _ & _ & _ & Q & W).
  split; [exact A1|]. split; [exact A2|]. split.
  { destruct (C60_volume (fun _ => Ok (rh cubeZ)) (fun _ _ => true) (map rv (z_points cubeZ)) (rh cubeZ) eq_refl A2 A3) as (p & Ep & Vp).
    unfold build in A1. rewrite A1 in Ep. injection Ep as <-. exact Vp. }
  split; [apply A4|]. split; [exact W|]. split; [intros f Hf; left; exact (Q f Hf)|]. split; [exact A5|].
  split; [intros i Hi; apply (A6 i Hi)|]. split; [exact B1|]. split; [exact B2|]. split; [exact B3|]. split; [apply B4|exact B5].
Qed.

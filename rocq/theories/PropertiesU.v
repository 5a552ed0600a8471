(** * Properties C08 and C09: the trace of the gradient tensor, outside and
      inside the body *)
From Coq Require Import Reals Lra Psatz ZArith Bool List Permutation Arith Lia.
Import ListNotations.
From Coquelicot Require Import Coquelicot.
From Verif Require Import Base MUtils MEdge MFace MHull MPoly SpecPoly PPoly PStation PPlain.
From Verif Require Import RVec RArith REdge REdgeModel RAngle ROmega RFace RFacet RPoly RTwin RField
  RHull RHullZ ExamplesR RLinear RMove RMoved RGlue RLaws RPlaced RPlacedZ RRay RTrace PropertiesR.
Local Open Scope R_scope.

(** the returned tensor has trace [x] *)
Definition trace_is (p : polyhedron RA) (o : V) (density Gc : R) (s : pstate RA) (x : R) : Prop :=
  exists G T, gravity p o density Gc true s = Ok (G, T) /\ vx (vx T) + vy (vy T) + vz (vz T) = x.
Lemma well_offs p o : closed p -> well_placed p o true -> offs p o.
Proof. intros Hc [H _]. now apply clear_offs. Qed.
Lemma trace_is_sum p o d G s x : closed p -> well_placed p o true -> reachable p s ->
  mtrace (msum (tF d G o) (pl_faces p)) = x -> trace_is p o d G s x.
Proof.
  intros Hc Hr Hs H. unfold trace_is. rewrite (gravity_spec p o d G true s Hs), (well_value p o true d G Hc Hr).
  eexists _, _. split; [reflexivity|exact H].
Qed.

(** ** C08: Laplace's equation *)
(** A ray from the observer that meets no facet. *)
Theorem C08_ray :
  forall p o z density Gc s, closed p -> well_placed p o true -> reachable p s -> z <> v0 ->
  (forall f t, In f (pl_faces p) -> 0 <= t -> ~ on_facet (o + t * z)%v f) ->
  trace_is p o density Gc s 0.
Proof. intros p o z d G s Hc Hr Hs Hz H. apply trace_is_sum; auto. apply (trace_outside p o z); auto using well_offs. Qed.
Print Assumptions C08_ray.

(** A plane through the observer with the whole body on one side. *)
Theorem C08_separated :
  forall p o z density Gc s, closed p -> well_placed p o true -> reachable p s ->
  (forall f q, In f (pl_faces p) -> In q (f_points f) -> dt z (q - o) < 0) ->
  trace_is p o density Gc s 0.
Proof. intros p o z d G s Hc Hr Hs H. apply trace_is_sum; auto. apply (trace_separated p o z); auto using well_offs. Qed.
Print Assumptions C08_separated.

(** The bodies the constructor builds from a correct hull: the observer is on
    the outer side of the plane of some facet. *)
Theorem C08_outside_hull :
  forall convex_hull inh points h o density Gc, convex_hull points = Ok h -> correct_hull h ->
  exists p, mk_polyhedron (A := RA) convex_hull inh points = Ok p /\
  forall s f, reachable p s -> well_placed p o true -> In f (pl_faces p) -> dt (f_un f) (vtx 0 f - o) < 0 ->
  trace_is p o density Gc s 0.
Proof.
  intros ch inh pts h o d G E Hh. destruct (build_ok ch inh pts h E Hh) as (p & Ep & _ & Hc & _ & F).
  exists p. split; [exact Ep|]. intros s f Hs Hr Hf Hd. apply trace_is_sum; auto.
  apply (trace_beyond p o f); auto using well_offs. eapply hull_behind; eauto.
Qed.
Print Assumptions C08_outside_hull.

(** In general the trace counts the facets a ray runs through: +1 for each one
    crossed outwards, -1 for each one crossed inwards. *)
Definition crossing_sign (o : V) (f : face RA) : R :=
  if Rlt_dec 0 (dt (f_un f) (vtx 0 f - o)) then 1 else -1.
Theorem C08_crossing_number :
  forall p o z density Gc s (cross : face RA -> bool), closed p -> well_placed p o true -> reachable p s -> z <> v0 ->
  (forall f t, In f (pl_faces p) -> cross f = false -> 0 <= t -> ~ on_facet (o + t * z)%v f) ->
  (forall f, In f (pl_faces p) -> cross f = true -> ~ flat o f /\ exists t, 0 <= t /\ inside_facet (o + t * z)%v f) ->
  trace_is p o density Gc s
    (- 4 * PI * density * Gc * 1000000000 *
     fold_right Rplus 0 (map (crossing_sign o) (filter cross (pl_faces p)))).
Proof.
  intros p o z d G s cross Hc Hr Hs Hz H1 H2. apply trace_is_sum; auto.
  rewrite (trace_crossings p o z d G Hc (well_offs _ _ Hc Hr) Hz cross); [|intros f Hf Hx t; exact (H1 f t Hf Hx)|intros f Hf Hx; exact (proj2 (H2 f Hf Hx))|intros f Hf Hx; exact (proj1 (H2 f Hf Hx))]. f_equal. unfold crossings.
  assert (K : forall f, In f (pl_faces p) -> cross f = true -> dt (f_un f) (vtx 0 f - o) <> 0).
  { intros f Hf Hx. apply (H2 f Hf Hx). }
  revert K. clear. induction (pl_faces p) as [|f l IH]; intros K; cbn [rsum fold_right filter map]; [reflexivity|].
  fold (rsum (fun f => if cross f then Rsgn (dt (f_un f) (vtx 0 f - o)) else 0) l).
  rewrite IH by (intros; apply K; simpl; auto). specialize (K f (or_introl eq_refl)).
  destruct (cross f) eqn:Ex; [specialize (K eq_refl)|clear K]; cbn [map fold_right]; [|ring]. f_equal. unfold crossing_sign.
  destruct (Rlt_dec 0 (dt (f_un f) (vtx 0 f - o))); [rewrite Rsgn_pos; auto|rewrite Rsgn_neg; auto; lra].
Qed.
Print Assumptions C08_crossing_number.
(** an observer outside the cube, beyond the plane of a facet; and one inside *)
Example C08_case : build cubeZ = Ok cube /\ closed cube /\ well_placed cube (rv o_out) true /\
  well_placed cube (rv o_plane) true /\ well_placed cube (rv o_line) true /\ reachable cube pstate0 /\
  (forall f q, In f (pl_faces cube) -> In q (f_points f) -> dt (V3 1 0 0) (q - rv o_out) < 0) /\
  (forall f t, In f (pl_faces cube) -> 0 <= t -> ~ on_facet (rv o_out + t * V3 1 0 0)%v f).
Proof.
  destruct (body_ok cubeZ ltac:(vm_compute; reflexivity)) as (E & Hc & HL & HF).
  split; [exact E|]. split; [exact Hc|]. split; [apply cube_out_well|]. split; [apply cube_plane_well|]. split; [apply cube_line_well|]. split; [constructor|].
  assert (S : forall f q, In f (pl_faces cube) -> In q (f_points f) -> dt (V3 1 0 0) (q - rv o_out) < 0).
  { intros f q Hf Hq. apply In_nth_error in Hf. destruct Hf as [i Hi].
    destruct (face_of_parts _ _ _ (HF i f Hi)) as (x & y & w & _ & _ & _ & P & _ & _ & sx & Hs & HP).
    assert (V : exists k, In k (z_vertices cubeZ) /\ q = pt (rh cubeZ) k).
    { rewrite P in Hq.
      assert (G : forall k, In k [x; y; w] -> In k (h_vertices (rh cubeZ))).
      { intros k Hk. apply (ch_vert _ cubeZ_ok sx); [eapply nth_error_In; eauto|].
        eapply Permutation_in; [apply Permutation_sym; exact HP|exact Hk]. }
      destruct Hq as [<- | [<- | [<- | []]]]; [exists x|exists y|exists w]; split; auto; apply G; simpl; auto. }
    destruct V as [k [Hk ->]]. rewrite pt_rh. cbn in Hk.
    destruct Hk as [<- | [<- | [<- | [<- | [<- | [<- | [<- | [<- | []]]]]]]]]; unfold dt, vm, rv, o_out, zv, zpt; cbn; lra. }
  split; [exact S|].
  intros f t Hf Ht [r [u [v [Hr [Hu [Hv [E1 K]]]]]]].
  assert (L : forall k, (k < 3)%nat -> dt (V3 1 0 0) (vtx k f - rv o_out) < 0).
  { intros k Hk. apply (S f); auto. destruct Hc as [Hc _]. destruct (Hc f Hf) as [p1 [p2 [p3 HF']]].
    destruct (facet_vtx _ _ _ _ HF') as [_ [_ _]]. unfold vtx, pnth. apply nth_In.
    destruct HF' as [[-> _] _]. simpl; lia. }
  pose proof (L 0%nat ltac:(lia)). pose proof (L 1%nat ltac:(lia)). pose proof (L 2%nat ltac:(lia)).
  apply (f_equal (fun w => dt (V3 1 0 0) (w - rv o_out))) in K.
  replace (dt (V3 1 0 0) (r * vtx 0 f + u * vtx 1 f + v * vtx 2 f - rv o_out))%v
    with (r * dt (V3 1 0 0) (vtx 0 f - rv o_out) + u * dt (V3 1 0 0) (vtx 1 f - rv o_out) + v * dt (V3 1 0 0) (vtx 2 f - rv o_out)) in K.
  2:{ replace r with (1 - u - v) by lra. vring. }
  replace (dt (V3 1 0 0) (rv o_out + t * V3 1 0 0 - rv o_out)%v) with t in K by (unfold dt, va, vm, sc; cbn; ring).
  assert (Z : forall x y, 0 <= x -> y < 0 -> x * y <= 0 /\ (x * y = 0 -> x = 0)) by (intros x y Hx Hy; split; [nra|intros Q; nra]).
  destruct (Z r _ Hr H) as [Z1 Z1']. destruct (Z u _ Hu H0) as [Z2 Z2']. destruct (Z v _ Hv H1) as [Z3 Z3'].
  rewrite Z1', Z2', Z3' in E1; lra.
Qed.

(** ** C09: Poisson's equation *)
(** The observer is strictly on the inner side of every facet of a body built
    from a correct hull; the facets do not all overlap: some facet has a point
    in its interior that belongs to no other facet. *)
Theorem C09_inside_hull :
  forall convex_hull inh points h o density Gc, convex_hull points = Ok h -> correct_hull h ->
  exists p, mk_polyhedron (A := RA) convex_hull inh points = Ok p /\
  forall s i f c, reachable p s -> well_placed p o true ->
  (forall f, In f (pl_faces p) -> 0 < dt (f_un f) (vtx 0 f - o)) ->
  nth_error (pl_faces p) i = Some f -> inside_facet c f ->
  (forall j g, nth_error (pl_faces p) j = Some g -> j <> i -> ~ on_facet c g) ->
  trace_is p o density Gc s (- 4 * PI * Gc * density * 1000000000).
Proof.
  intros ch inh pts h o d G E Hh. destruct (build_ok ch inh pts h E Hh) as (p & Ep & _ & Hc & _ & F).
  exists p. split; [exact Ep|]. intros s i f c Hs Hr Hin Hi Hci Hu. apply trace_is_sum; auto.
  rewrite (trace_inside p o d G i f c); auto using well_offs; [ring|]. eapply hull_behind; eauto.
Qed.
Print Assumptions C09_inside_hull.
(** the cube, with its coplanar facets, and the tetrahedron *)
Example C09_case : forall h, h = cubeZ \/ h = tetraZ ->
  build h = Ok (body h) /\ correct_hull (rh h) /\ well_placed (body h) (rv o_in) true /\
  (forall f, In f (pl_faces (body h)) -> 0 < dt (f_un f) (vtx 0 f - rv o_in)) /\
  exists f c, nth_error (pl_faces (body h)) 0 = Some f /\ inside_facet c f /\
    forall j g, nth_error (pl_faces (body h)) j = Some g -> j <> 0%nat -> ~ on_facet c g.
Proof.
  intros h Hh.
  assert (Hb : hullb h = true) by (destruct Hh as [-> | ->]; vm_compute; reflexivity).
  assert (Ho : obsb h o_in = true) by (destruct Hh as [-> | ->]; vm_compute; reflexivity).
  assert (Hi : insideb h o_in = true) by (destruct Hh as [-> | ->]; vm_compute; reflexivity).
  assert (Hsp : sepb h 0 = true) by (destruct Hh as [-> | ->]; vm_compute; reflexivity).
  destruct (body_ok h Hb) as (E & Hc & HL & HF).
  split; [exact E|]. split; [apply hullb_ok; exact Hb|]. split; [apply regular_well; [exact Hc|apply body_regular; auto]|].
  split.
  - intros f Hf. apply In_nth_error in Hf. destruct Hf as [j Hj]. apply (insideb_ok h o_in j f); auto.
    rewrite <- HL. apply nth_error_Some. rewrite Hj. discriminate.
  - destruct (nth_error (pl_faces (body h)) 0) as [f|] eqn:E0.
    + destruct (sepb_ok h (body h) 0 f Hsp HF HL E0) as [A B]. eexists f, _. split; [reflexivity|]. split; [exact A|exact B].
    + exfalso. apply nth_error_None in E0. rewrite HL in E0. destruct Hh as [-> | ->]; cbn in E0; lia.
Qed.

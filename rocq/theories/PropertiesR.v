(** * Properties C01, C02, C04, C06, C10, C30: values of
      Polyhedron.get_gravity over the real numbers *)
From Coq Require Import Reals Lra Psatz ZArith Bool List Permutation Arith Lia.
Import ListNotations.
From Coquelicot Require Import Coquelicot.
From Verif Require Import Base MUtils MEdge MFace MHull MPoly SpecPoly PPoly PStation PPlain.
From Verif Require Import RVec RArith REdge REdgeModel RAngle ROmega RFace RFacet RPoly RTwin RField
  RHull RHullZ ExamplesR RLinear RMove RMoved RGlue RLaws RPlaced RPlacedZ.
Local Open Scope R_scope.

(** The outcome of [p.get_gravity(o, density, Gc, gradient)] when the object is
    in state [s]; the theorems below let [s] be any state reached by calls that
    returned normally. *)
Definition gravity (p : polyhedron RA) (o : V) (density Gc : R) (gradient : bool) (s : pstate RA)
  : res (V * vec3 V) :=
  fst (get_gravity (A := RA) p o density Gc gradient s).
Lemma gravity_spec p o d G g s : reachable p s -> gravity p o d G g s = spec_gravity (A := RA) p o d G g.
Proof. intros H. unfold gravity. rewrite (history_independent p o d G g s H). exact (fresh_spec (A := RA) p o d G g). Qed.
(** product of a matrix, given by its rows, with a vector *)
Definition mdot (T : vec3 V) (e : V) : V := V3 (dt (vx T) e) (dt (vy T) e) (dt (vz T) e).

(** ** C01: the line integral of an edge *)
Theorem C01_line_integral :
  forall p q o simplex twinface gradient, p <> q -> eregular p q o ->
  exists I d,
    edge_integral (A := RA) (mk_edge (A := RA) (p, q) simplex twinface) o gradient =
      Ok ((I * (/ nm (q - p) * (q - p)))%v, d) /\
    is_RInt (fun t => / nm ((p + t * (/ nm (q - p) * (q - p))) - o)%v) 0 (nm (q - p)%v) I.
Proof.
  intros p q o s tf g Hne Hr. destruct (edge_regular_value p q o s tf g Hne Hr) as [Hoff [d [E _]]].
  exists (ell (p - o) (q - o)), d. split; [exact E|].
  pose proof (sub_pos p q Hne) as Hl.
  assert (Eq : ((p - o) + nm (q - p) * (/ nm (q - p) * (q - p)))%v = (q - o)%v).
  { transitivity ((p - o) + (nm (q - p) * / nm (q - p)) * (q - p))%v; [vring|]. rewrite Rinv_r by lra. vring. }
  pose proof (ell_integral (p - o)%v (uv p q) (nm (q - p)%v) (uv_unit p q Hne) Hl) as HI.
  unfold uv in HI. rewrite Eq in HI. specialize (HI Hoff).
  eapply is_RInt_ext; [|exact HI]. intros x _. cbv beta. f_equal. f_equal. vring.
Qed.
Print Assumptions C01_line_integral.

Lemma nm_axis x : 0 <= x -> nm (V3 x 0 0) = x.
Proof. intros H. unfold nm. rewrite (sqrt_lem_1 (dt _ _) x); unfold dt; cbn [vx vy vz]; nra. Qed.
(** an observer off the line, and one in line with the edge beyond its end *)
Example C01_case :
  eregular (V3 0 0 0) (V3 2 0 0) (V3 1 3 0) /\ eregular (V3 0 0 0) (V3 2 0 0) (V3 5 0 0).
Proof.
  assert (U : uv (V3 0 0 0) (V3 2 0 0) = V3 1 0 0).
  { unfold uv. replace (V3 2 0 0 - V3 0 0 0)%v with (V3 2 0 0) by vring. rewrite nm_axis by lra.
    apply veq; cbn; lra. }
  pose proof eps_small. split.
  - left. rewrite U. replace (dt (V3 1 0 0) (V3 0 0 0 - V3 1 3 0)%v) with (-1) by (unfold dt, vm; cbn; ring).
    replace (dt (V3 1 0 0) (V3 2 0 0 - V3 1 3 0)%v) with 1 by (unfold dt, vm; cbn; ring).
    assert (K : forall v, dt v v = 10 -> 3 < nm v).
    { intros v E. unfold nm. rewrite E. replace 3 with (sqrt (3 * 3)) by (apply sqrt_square; lra). apply sqrt_lt_1; lra. }
    pose proof (K (V3 0 0 0 - V3 1 3 0)%v ltac:(unfold dt, vm; cbn; ring)).
    pose proof (K (V3 2 0 0 - V3 1 3 0)%v ltac:(unfold dt, vm; cbn; ring)). lra.
  - right. right. exists 3. split; [lra|]. rewrite U. vring.
Qed.

(** ** C02: reversing an edge *)
(** Line integrals: also for observers in line with the edge. *)
Theorem C02_reversed :
  forall p q o s tf s' tf' gradient, p <> q -> eregular p q o ->
  exists v d d',
    edge_integral (A := RA) (mk_edge (A := RA) (p, q) s tf) o gradient = Ok (v, d) /\
    edge_integral (A := RA) (mk_edge (A := RA) (q, p) s' tf') o gradient = Ok ((- v)%v, d').
Proof.
  intros p q o s tf s' tf' g Hne Hr.
  destruct (edge_regular_value p q o s tf g Hne Hr) as [_ [d [E _]]].
  destruct (edge_regular_value q p o s' tf' g (not_eq_sym Hne) (eregular_sym _ _ _ Hr)) as [_ [d' [E' _]]].
  eexists _, d, d'. split; [exact E|]. rewrite E'. apply (f_equal Ok), (f_equal2 pair); [|reflexivity].
  rewrite (uv_sym p q), (ell_sym (q - o)%v). eqV. vring.
Qed.
Print Assumptions C02_reversed.
(** With the gradient, at observers outside the epsilon band of the line: the
    twin would have computed exactly what it is handed. *)
Theorem C02_reversed_gradient :
  forall p q o s tf s' tf', p <> q -> reg_edge p q o ->
  exists v m,
    edge_integral (A := RA) (mk_edge (A := RA) (p, q) s tf) o true = Ok (v, Some m) /\
    edge_integral (A := RA) (mk_edge (A := RA) (q, p) s' tf') o true =
      Ok ((- v)%v, Some (V3 (- vx m)%v (- vy m)%v (- vz m)%v)).
Proof.
  intros p q o s tf s' tf' Hne [H1 H2].
  eexists _, _. split; [exact (edge_main p q o s tf true Hne H1)|].
  assert (H3 : eps < nm (q - o)%v + dt (uv q p) (q - o)%v) by (rewrite (uv_sym p q), dt_opp_l; lra).
  etransitivity; [exact (edge_main q p o s' tf' true (not_eq_sym Hne) H3)|].
  unfold outer; cbn [vx vy vz]. rewrite (uv_sym p q), (ell_sym (q - o)%v), (gell_sym (p - o)%v (q - o)%v).
  apply (f_equal Ok), (f_equal2 pair); [eqV; vring|]. apply (f_equal Some), (f_equal3 V3); eqV; vring.
Qed.
Print Assumptions C02_reversed_gradient.
Example C02_case : reg_edge (V3 0 0 0) (V3 2 0 0) (V3 1 3 0).
Proof.
  destruct C01_case as [[H|[[k [_ H]]|[k [_ H]]]] _].
  - exact H.
  - exfalso. apply (f_equal vy) in H. unfold uv, vm, sc in H; cbn in H. lra.
  - exfalso. apply (f_equal vy) in H. unfold uv, vm, sc in H; cbn in H. lra.
Qed.

(** ** C04: range and sign of the solid angle *)
Theorem C04_solid_angle_range :
  forall f p1 p2 p3 o gradient, tri_face f p1 p2 p3 ->
  eps < Rabs (dt (f_un f) (p1 - o)) ->
  exists w dw,
    get_omega (A := RA) f o (dt (f_un f) (p1 - o)) (nsign (a := RA) (dt (f_un f) (p1 - o))) gradient = Ok (w, dw) /\
    - 2 * PI < w < 2 * PI /\ w <> 0 /\ w * dt (f_un f) (p1 - o) < 0.
Proof.
  intros f p1 p2 p3 o g Hf Hd. eexists _, _. split; [exact (get_omega_R f p1 p2 p3 o g Hf Hd)|].
  pose proof eps_pos. destruct Hf as (_ & _ & Hn & Hu).
  pose proof (tri_det p1 p2 p3 o Hn) as E. rewrite <- Hu in E. apply nm_pos in Hn.
  assert (D : det (p1 - o) (p2 - o) (p3 - o) <> 0).
  { rewrite E. intros Z. apply Rmult_integral in Z. destruct Z as [Z|Z]; [lra|]. rewrite Z, Rabs_R0 in Hd. lra. }
  destruct (om_range _ _ _ D) as [R1 R2]. split; [exact R1|].
  assert (S : om (p1 - o) (p2 - o) (p3 - o) * dt (f_un f) (p1 - o) < 0).
  { rewrite E in R2. set (w := om _ _ _) in *. set (d := dt _ _) in *. set (n := nm _) in *.
    apply (Rmult_lt_reg_l n); [exact Hn|]. rewrite Rmult_0_r. replace (n * (w * d)) with (w * (n * d)) by ring. exact R2. }
  split; [|exact S]. intros Z. rewrite Z in S. lra.
Qed.
Print Assumptions C04_solid_angle_range.
Example C04_case : exists f p1 p2 p3, In f (pl_faces cube) /\ tri_face f p1 p2 p3 /\
  eps < Rabs (dt (f_un f) (p1 - rv o_out)).
Proof.
  assert (L : length (pl_faces cube) = 12%nat) by (apply (body_ok cubeZ); vm_compute; reflexivity).
  destruct (pl_faces cube) as [|f l] eqn:E; [discriminate|].
  assert (Hf : In f (pl_faces cube)) by (rewrite E; left; auto).
  destruct (proj1 cube_closed f Hf) as (p1 & p2 & p3 & H). exists f, p1, p2, p3.
  split; [left; auto|]. split; [apply H|]. destruct (facet_vtx _ _ _ _ H) as [E1 [E2 E3]].
  pose proof (cube_out f Hf) as [K _]. rewrite E1, E2, E3 in K. destruct H as [(_ & _ & _ & ->) _]. exact K.
Qed.

(** ** C30: no exception *)
(** The observer is no vertex and clear of the edges: outside the epsilon band of
    the line through each edge, or in line with the edge beyond its end.  Without
    gradient, the edges of facets in whose plane the observer lies do not matter. *)
Theorem C30_no_exception :
  forall p o density Gc gradient s, closed p -> clear p o gradient -> reachable p s ->
  exists G T, gravity p o density Gc gradient s = Ok (G, T).
Proof.
  intros p o d G g s Hc Hr Hs. rewrite (gravity_spec p o d G g s Hs), (clear_value p o g d G Hc Hr). eauto.
Qed.
Print Assumptions C30_no_exception.
Lemma regular_clear p o g : closed p -> regular p o -> clear p o g.
Proof. intros Hc Hr. apply (regular_well p o g Hc Hr). Qed.
(** the cube of side 20; observers in general position, in the plane of facets, in
    line with an edge and, without gradient, inside an edge *)
Example C30_case : closed cube /\ length (pl_faces cube) = 12%nat /\ clear cube (rv o_out) true /\
  clear cube (rv o_plane) true /\ clear cube (rv o_line) true /\ clear cube (rv o_edge) false.
Proof.
  split; [apply cube_closed|]. split; [apply (body_ok cubeZ); vm_compute; reflexivity|].
  split; [apply cube_out_well|]. split; [apply cube_plane_well|]. split; [apply cube_line_well|apply cube_edge_well].
Qed.

(** ** C06: the tensor is the Jacobian of the gravity vector *)
(** Near the observer o, in every direction e, the call returns a gravity
    vector Gt(t) at o + t e; Gt is differentiable at 0 and 10^4 times its
    derivative is T e.  With e a unit vector of the axes: T[i][j] = 10^4 dG[i]/dx[j].
    The observer may lie in the planes of facets, off the lines through the edges. *)
Theorem C06_jacobian :
  forall p o density Gc s, closed p -> steady p o -> reachable p s ->
  exists G T, gravity p o density Gc true s = Ok (G, T) /\
  forall e : V, exists delta Gt, 0 < delta /\ Gt 0 = G /\
    (forall t gradient s', Rabs t < delta -> reachable p s' ->
       exists T', gravity p (o + t * e)%v density Gc gradient s' = Ok (Gt t, T')) /\
    vder Gt 0 (/ 10000 * mdot T e)%v.
Proof.
  intros p o d G s Hc Hr Hs. pose proof (steady_well p o true Hc Hr) as Hw.
  rewrite (gravity_spec p o d G true s Hs), (well_value p o true d G Hc Hw).
  eexists _, _. split; [reflexivity|]. intros e.
  destruct (edges_open p o e Hc (steady_edges p o Hr)) as [delta Hd].
  exists delta, (fun t => vsum (gC d G (o + t * e)%v) (pl_faces p)).
  split; [apply cond_pos|]. split; [|split].
  - rewrite obs0. apply vsum_in. intros f Hf. apply (exact_facet p o f d G Hc Hf). apply (Hr f Hf).
  - intros t g s' Ht Hs'. rewrite (gravity_spec p _ d G g s' Hs').
    rewrite (clear_value p (o + t * e)%v g d G Hc); [eauto|]. apply reg_edges_clear; [exact Hc|]. apply Hd.
    unfold ball; cbn. unfold AbsRing_ball, abs, minus, plus, opp; cbn. now rewrite Ropp_0, Rplus_0_r.
  - exact (steady_der p o d G Hc Hr e).
Qed.
Print Assumptions C06_jacobian.
(** the hypotheses hold for a built cube, with observers outside, inside and in the
    plane of two facets *)
Example C06_case : build cubeZ = Ok cube /\ closed cube /\ steady cube (rv o_out) /\ steady cube (rv o_in) /\
  steady cube (rv o_plane) /\ exists f, In f (pl_faces cube) /\ flat (rv o_plane) f.
Proof.
  pose proof cube_closed. split; [apply (body_ok cubeZ); vm_compute; reflexivity|]. split; [exact H|].
  split; [apply regular_steady; [exact H|apply cube_out]|]. split; [apply regular_steady; [exact H|apply cube_in]|].
  split; [apply cube_plane|]. apply cube_plane_flat.
Qed.

(** ** C10: density and gravitational constant *)
Theorem C10_linear :
  forall p o density Gc density' Gc' k gradient s s', reachable p s -> reachable p s' ->
  density' * Gc' = k * (density * Gc) ->
  gravity p o density' Gc' gradient s' =
  match gravity p o density Gc gradient s with
  | Ok (G, T) => Ok ((k * G)%v, V3 (k * vx T)%v (k * vy T)%v (k * vz T)%v)
  | Err e => Err e
  end.
Proof.
  intros p o d G d' G' k g s s' Hs Hs' H. rewrite !gravity_spec by auto. exact (spec_scale p o d G d' G' k g H).
Qed.
Print Assumptions C10_linear.
(** in every arithmetic, whether and how the call fails does not depend on them *)
Theorem C10_same_outcome :
  forall (A : arith) (p : polyhedron A) o density Gc density' Gc' gradient s s', reachable p s -> reachable p s' ->
  match fst (get_gravity p o density Gc gradient s), fst (get_gravity p o density' Gc' gradient s') with
  | Ok _, Ok _ => True
  | Err e, Err e' => e = e'
  | _, _ => False
  end.
Proof.
  intros A p o d G d' G' g s s' Hs Hs'. rewrite !history_independent, !fresh_spec by auto. apply spec_flow.
Qed.
Print Assumptions C10_same_outcome.
Example C10_case : reachable cube pstate0 /\ 5400 * 1 = 2 * (2700 * 1) /\
  exists G T, gravity cube (rv o_out) 2700 1 true pstate0 = Ok (G, T).
Proof.
  split; [constructor|]. split; [lra|]. apply C30_no_exception; [apply cube_closed|apply regular_clear; [apply cube_closed|apply cube_out]|constructor].
Qed.

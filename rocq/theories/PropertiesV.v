(** * Properties C03, C05, C58 and C59: solid angle, gravity and gradient as
      integrals *)
From Coq Require Import Reals Lra Psatz ZArith Bool List Permutation Arith Lia.
Import ListNotations.
From Coquelicot Require Import Coquelicot.
From Verif Require Import Base MUtils MEdge MFace MHull MPoly SpecPoly PPoly PStation PPlain.
From Verif Require Import RVec RArith REdge REdgeModel RAngle ROmega RFace RFacet RPoly RTwin RField
  RHull RHullZ ExamplesR RLinear RMove RMoved RGlue RLaws RPlaced RPlacedZ RWell RRay RTrace RFlux RVolume RSolid PropertiesR PropertiesT.
Local Open Scope R_scope.

(** The kernel of Newton's law: the attraction at o of a unit mass at x, R/|R|^3
    with R = x - o. *)
Definition kernel (o x : V) : V := (/ (nm (x - o) ^ 3) * (x - o))%v.
Lemma kernel_field3 o x : kernel o x = field3 (x - o).
Proof. unfold kernel, field3. replace (nm (x - o) ^ 3) with (nm (x - o) * nm (x - o) * nm (x - o)) by ring. reflexivity. Qed.
Lemma surface_kernel o p1 p2 p3 I : surface_vintegral (fun x => field3 (x - o)) p1 p2 p3 I -> surface_vintegral (kernel o) p1 p2 p3 I.
Proof.
  intros [A [B C]]. split3; [eapply surface_ext; [|exact A]|eapply surface_ext; [|exact B]|eapply surface_ext; [|exact C]];
    intros x; cbv beta; now rewrite kernel_field3.
Qed.
Lemma volume_ext f g q0 p1 p2 p3 I : (forall x, f x = g x) -> volume_integral f q0 p1 p2 p3 I -> volume_integral g q0 p1 p2 p3 I.
Proof. intros E [i [Hi HI]]. exists i. split; [|exact HI]. intros u Hu. eapply surface_ext; [exact E|now apply Hi]. Qed.
Lemma volume_kernel o q0 p1 p2 p3 I : volume_vintegral (fun x => field3 (x - o)) q0 p1 p2 p3 I -> volume_vintegral (kernel o) q0 p1 p2 p3 I.
Proof.
  intros [A [B C]]. split3; [eapply volume_ext; [|exact A]|eapply volume_ext; [|exact B]|eapply volume_ext; [|exact C]];
    intros x; cbv beta; now rewrite kernel_field3.
Qed.
(** What the two notions of integral give for the constant 1: the area of the
    triangle and the signed volume of the tetrahedron. *)
Example surface_integral_case p1 p2 p3 : surface_integral (fun _ => 1) p1 p2 p3 (nm (cr (p2 - p1) (p3 - p1)) / 2).
Proof. apply surface_area. Qed.
Example volume_integral_case q0 p1 p2 p3 : cr (p2 - p1) (p3 - p1) <> v0 ->
  volume_integral (fun _ => 1) q0 p1 p2 p3 (dt (p1 - q0) (cr (p2 - q0) (p3 - q0)) / 6).
Proof. apply volume_one. Qed.
Example surface_integral_value f p1 p2 p3 I J : surface_integral f p1 p2 p3 I -> surface_integral f p1 p2 p3 J -> I = J.
Proof. apply surface_unique. Qed.
Example volume_integral_value f q0 p1 p2 p3 I J : volume_integral f q0 p1 p2 p3 I -> volume_integral f q0 p1 p2 p3 J -> I = J.
Proof. apply volume_unique. Qed.

(** ** C03: the solid angle of a face is the flux of the kernel *)
Lemma off_plane_det f p1 p2 p3 o : tri_face f p1 p2 p3 -> eps < Rabs (dt (f_un f) (p1 - o)) ->
  det (p1 - o) (p2 - o) (p3 - o) <> 0.
Proof.
  intros (_ & _ & Hn & Hu) Hd. pose proof eps_pos. pose proof (tri_det p1 p2 p3 o Hn) as E. rewrite <- Hu in E. apply nm_pos in Hn.
  rewrite E. intros Z. apply Rmult_integral in Z. destruct Z as [Z|Z]; [lra|]. rewrite Z, Rabs_R0 in Hd. lra.
Qed.
Theorem C03_solid_angle_flux :
  forall f p1 p2 p3 o gradient, tri_face f p1 p2 p3 ->
  eps < Rabs (dt (f_un f) (p1 - o)) ->
  exists w dw,
    get_omega (A := RA) f o (dt (f_un f) (p1 - o)) (nsign (a := RA) (dt (f_un f) (p1 - o))) gradient = Ok (w, dw) /\
    surface_integral (fun x => dt (f_un f) (kernel o x)) p1 p2 p3 (- w).
Proof.
  intros f p1 p2 p3 o g Hf Hd. eexists _, _. split; [exact (get_omega_R f p1 p2 p3 o g Hf Hd)|].
  pose proof (off_plane_det _ _ _ _ _ Hf Hd) as D. destruct Hf as (_ & _ & Hn & Hu).
  pose proof (FF_integral p1 p2 p3 o D Hn) as H. apply surface_kernel in H. apply (surface_dt _ _ _ _ _ (f_un f)) in H.
  replace (dt (f_un f) (- FF (uu (cr (p2 - p1) (p3 - p1))) (p1 - o) (p2 - o) (p3 - o))) with
    (- om (p1 - o) (p2 - o) (p3 - o)) in H; [exact H|].
  rewrite Hu. change (tri_normal p1 p2 p3) with (uu (cr (p2 - p1) (p3 - p1))).
  rewrite <- (n_FF (p1 - o)%v (p2 - o)%v (p3 - o)%v (uu (cr (p2 - p1) (p3 - p1)))).
  - generalize (uu (cr (p2 - p1) (p3 - p1))) (FF (uu (cr (p2 - p1) (p3 - p1))) (p1 - o) (p2 - o) (p3 - o)). intros. vring.
  - rewrite <- nm_sq, uu_nm by exact Hn. ring.
Qed.
Print Assumptions C03_solid_angle_flux.
Example C03_case : exists f p1 p2 p3, In f (pl_faces cube) /\ tri_face f p1 p2 p3 /\
  eps < Rabs (dt (f_un f) (p1 - rv o_out)).
Proof. exact C04_case. Qed.

(** ** C05: the gravity of a face is the attraction of the cone from the observer *)
Theorem C05_facet_integral :
  forall p o density Gc gradient fi f s, closed p -> clear p o gradient -> reachable p s -> nth_error (pl_faces p) fi = Some f ->
  eps < Rabs (dt (f_un f) (vtx 0 f - o)) ->
  exists g T p1 p2 p3 I,
    facet_gravity p o density Gc gradient fi f s = Ok (g, T) /\ f_points f = [p1; p2; p3] /\
    surface_vintegral (kernel o) p1 p2 p3 I /\
    volume_vintegral (kernel o) o p1 p2 p3 (dt (f_un f) (p1 - o) * I)%v /\
    g = (density * Gc * 100000 * (dt (f_un f) (p1 - o) * I))%v.
Proof.
  intros p o d G g fi f s Hc Hr Hs Hf Hb. pose proof (nth_error_In _ _ Hf) as Hin.
  destruct (proj1 Hc f Hin) as (p1 & p2 & p3 & HF).
  pose proof (face_clear p o g d G fi f s Hc Hr (reachable_clean _ _ Hs) Hf) as E.
  rewrite (proj1 (exact_facet p o f d G Hc Hin (or_introl Hb))) in E.
  destruct (facet_vtx _ _ _ _ HF) as [E0 [E1 E2]]. destruct HF as [(Hp & _ & Hn & Hu) _].
  assert (D : det (p1 - o) (p2 - o) (p3 - o) <> 0).
  { rewrite (tri_det p1 p2 p3 o Hn). pose proof eps_pos. apply Rmult_integral_contrapositive. split; [pose proof (nm_pos _ Hn); lra|].
    intros Z. rewrite E0, Hu in Hb. pose proof (eq_trans (f_equal Rabs Z) Rabs_R0) as Z'. apply (Rlt_irrefl eps), (Rlt_trans _ _ _ Hb). eapply Rle_lt_trans; [exact (Req_le _ _ Z')|exact eps_pos]. }
  pose proof (FF_integral p1 p2 p3 o D Hn) as H.
  eexists _, _, p1, p2, p3, _. split; [exact E|]. split; [exact Hp|]. split; [apply surface_kernel; exact H|]. split.
  - apply cone_integral in H. apply volume_kernel. rewrite Hu. exact H.
  - unfold gF, kG. rewrite E0, E1, E2, Hu. change (tri_normal p1 p2 p3) with (uu (cr (p2 - p1) (p3 - p1))).
    generalize (uu (cr (p2 - p1) (p3 - p1))) (FF (uu (cr (p2 - p1) (p3 - p1))) (p1 - o) (p2 - o) (p3 - o)). intros. vring.
Qed.
Print Assumptions C05_facet_integral.
Example C05_case : exists f, closed cube /\ reachable cube pstate0 /\ nth_error (pl_faces cube) 7 = Some f /\
  forall o g, o = o_out \/ o = o_in -> clear cube (rv o) g /\ eps < Rabs (dt (f_un f) (vtx 0 f - rv o)).
Proof.
  destruct (body_ok cubeZ ltac:(vm_compute; reflexivity)) as (_ & Hc & HL & _).
  destruct (nth_error (pl_faces cube) 7) as [f|] eqn:E.
  - exists f. split; [exact Hc|]. split; [constructor|]. split; [reflexivity|]. intros o g Ho.
    assert (Hr : regular cube (rv o)) by (destruct Ho as [-> | ->]; [apply cube_out|apply cube_in]).
    split; [apply (regular_well _ _ g Hc Hr)|]. destruct (proj1 Hc f (nth_error_In _ _ E)) as (p1 & p2 & p3 & HF). destruct (facet_vtx _ _ _ _ HF) as [E0 [E1 E2]].
    destruct HF as [(_ & _ & _ & Hu) _]. pose proof (proj1 (Hr f (nth_error_In _ _ E))) as K. rewrite E0, E1, E2 in K. rewrite E0, Hu. exact K.
  - exfalso. apply nth_error_None in E. unfold cube in E. rewrite HL in E. cbn in E. lia.
Qed.

(** ** C58: Newton's law over the volume of the body *)
(** The integral of F over the body, cut into the tetrahedra that join q0 to
    its facets; each is counted with the sign of the side of the facet q0 is on. *)
Definition body_vintegral (F : V -> V) (p : polyhedron RA) (q0 I : V) : Prop :=
  exists If : face RA -> V,
    (forall f, In f (pl_faces p) -> volume_vintegral F q0 (vtx 0 f) (vtx 1 f) (vtx 2 f) (If f)) /\
    I = fold_right va v0 (map If (pl_faces p)).
Lemma vsum_fold {X} (F : X -> V) l : vsum F l = fold_right va v0 (map F l).
Proof. induction l as [|x l IH]; cbn [vsum fold_right map]; [reflexivity|]. unfold vsum in IH. now rewrite IH. Qed.
(** From any observer, inside, outside or on a facet: the sum of the cones from the
    observer to the facets; those in whose plane the observer lies add nothing. *)
Definition cones_vintegral (F : V -> V) (p : polyhedron RA) (o I : V) : Prop :=
  exists If : face RA -> V,
    (forall f, In f (pl_faces p) -> dt (f_un f) (vtx 0 f - o) = 0 -> If f = v0) /\
    (forall f, In f (pl_faces p) -> dt (f_un f) (vtx 0 f - o) <> 0 -> volume_vintegral F o (vtx 0 f) (vtx 1 f) (vtx 2 f) (If f)) /\
    I = fold_right va v0 (map If (pl_faces p)).
Lemma cones_form p o d G : closed p ->
  exists I, cones_vintegral (kernel o) p o I /\ vsum (gF d G o) (pl_faces p) = (d * G * 100000 * I)%v.
Proof.
  intros Hc.
  set (If := fun f : face RA => (dt (f_un f) (vtx 0 f - o) * - FF (f_un f) (vtx 0 f - o) (vtx 1 f - o) (vtx 2 f - o))%v).
  exists (vsum If (pl_faces p)). split.
  - exists If. split; [|split; [|apply vsum_fold]].
    + intros f Hin E. unfold If. rewrite E. generalize (FF (f_un f) (vtx 0 f - o) (vtx 1 f - o) (vtx 2 f - o)). intros. vring.
    + intros f Hin E. destruct (proj1 Hc f Hin) as (p1 & p2 & p3 & HF).
      destruct (facet_vtx _ _ _ _ HF) as [E0 [E1 E2]]. unfold If. rewrite E0, E1, E2 in *. destruct HF as [(Hp & _ & Hn & Hu) _].
      assert (D : det (p1 - o) (p2 - o) (p3 - o) <> 0).
      { rewrite (tri_det p1 p2 p3 o Hn). apply Rmult_integral_contrapositive. pose proof (nm_pos _ Hn). split; [lra|].
        rewrite Hu in E. exact E. }
      pose proof (FF_integral p1 p2 p3 o D Hn) as H. apply cone_integral in H. apply volume_kernel. rewrite Hu. exact H.
  - rewrite <- vsum_sc. apply vsum_ext. intros f _. unfold gF, kG, If.
    generalize (f_un f : V) (vtx 0 f - o)%v (FF (f_un f) (vtx 0 f - o) (vtx 1 f - o) (vtx 2 f - o)). intros. vring.
Qed.
Theorem C58_cones :
  forall p o density Gc gradient s, closed p -> well_placed p o gradient -> reachable p s ->
  exists G T I, gravity p o density Gc gradient s = Ok (G, T) /\
    cones_vintegral (kernel o) p o I /\ G = (density * Gc * 100000 * I)%v.
Proof.
  intros p o d G g s Hc Hr Hs. rewrite (gravity_spec p o d G g s Hs), (well_value p o g d G Hc Hr).
  destruct (cones_form p o d G Hc) as (I & HI & E). eexists _, _, I. split; [reflexivity|]. split; [exact HI|exact E].
Qed.
Print Assumptions C58_cones.

(** For every point q0 such that the observer is in none of the tetrahedra that
    join q0 to the facets: the integral over these tetrahedra. *)
Definition in_tetra (q0 o : V) (f : face RA) : Prop :=
  exists u y, 0 <= u <= 1 /\ on_facet y f /\ o = (q0 + u * (y - q0))%v.
Lemma in_tetra_dil q0 o f u : 0 <= u <= 1 ->
  on_tri o (dil q0 u (vtx 0 f)) (dil q0 u (vtx 1 f)) (dil q0 u (vtx 2 f)) -> in_tetra q0 o f.
Proof.
  intros Hu [r [s [t [Hr [Hs [Ht [E ->]]]]]]]. exists u, (r * vtx 0 f + s * vtx 1 f + t * vtx 2 f)%v.
  split; [exact Hu|]. split; [exists r, s, t; auto|]. replace r with (1 - s - t) by lra. unfold dil.
  generalize (vtx 0 f) (vtx 1 f) (vtx 2 f). intros. vring.
Qed.
Lemma dil_in_tetra q0 o f : in_tetra q0 o f -> exists u, 0 <= u <= 1 /\
  on_tri o (dil q0 u (vtx 0 f)) (dil q0 u (vtx 1 f)) (dil q0 u (vtx 2 f)).
Proof.
  intros (u & y & Hu & (r & s & t & Hr & Hs & Ht & E & ->) & ->). exists u. split; [exact Hu|]. exists r, s, t.
  repeat (split; [assumption|]). replace r with (1 - s - t) by lra. unfold dil.
  generalize (vtx 0 f) (vtx 1 f) (vtx 2 f). intros. vring.
Qed.
Theorem C58_volume :
  forall p o q0 density Gc gradient s, closed p -> well_placed p o gradient -> reachable p s ->
  (forall f, In f (pl_faces p) -> ~ in_tetra q0 o f) ->
  exists G T I, gravity p o density Gc gradient s = Ok (G, T) /\
    body_vintegral (kernel o) p q0 I /\ G = (density * Gc * 100000 * I)%v.
Proof.
  intros p o q0 d G g s Hc Hr Hs Ho. rewrite (gravity_spec p o d G g s Hs), (well_value p o g d G Hc Hr).
  assert (Hout : forall f u, In f (pl_faces p) -> 0 <= u <= 1 ->
    ~ on_tri o (dil q0 u (vtx 0 f)) (dil q0 u (vtx 1 f)) (dil q0 u (vtx 2 f))).
  { intros f u Hf Hu K. apply (Ho f Hf). eapply in_tetra_dil; eauto. }
  destruct (tet_integrals p o q0 Hc Hout) as [If HI].
  eexists _, _, (vsum If (pl_faces p)). split; [reflexivity|]. split.
  - exists If. split; [|apply vsum_fold]. intros f Hf. apply volume_kernel, (HI f Hf).
  - pose proof (volume_form p o q0 Hc Hout If HI) as E.
    transitivity (kG d G * vsum (fun f : face RA => dt (f_un f) (vtx 0 f - o) * FF (f_un f) (vtx 0 f - o) (vtx 1 f - o) (vtx 2 f - o)) (pl_faces p))%v.
    + rewrite <- vsum_sc. reflexivity.
    + rewrite E. unfold kG. generalize (vsum If (pl_faces p)). intros. vring.
Qed.
Print Assumptions C58_volume.

(** The bodies the constructor builds from a correct hull, at an observer outside
    (beyond the plane of some facet): q0 is any point of the body, behind every
    facet, so that all the tetrahedra count positively. *)
Theorem C58_hull :
  forall convex_hull inh points h o q0 density Gc, convex_hull points = Ok h -> correct_hull h ->
  exists p, mk_polyhedron (A := RA) convex_hull inh points = Ok p /\
  forall s f gradient, reachable p s -> well_placed p o gradient -> In f (pl_faces p) -> dt (f_un f) (vtx 0 f - o) < 0 ->
  (forall f, In f (pl_faces p) -> 0 <= dt (f_un f) (vtx 0 f - q0)) ->
  exists G T I, gravity p o density Gc gradient s = Ok (G, T) /\
    body_vintegral (kernel o) p q0 I /\ G = (density * Gc * 100000 * I)%v.
Proof.
  intros ch inh pts h o q0 d G E Hh. destruct (build_ok ch inh pts h E Hh) as (p & Ep & _ & Hc & _ & F).
  exists p. split; [exact Ep|]. intros s f g Hs Hr Hf Hd Hq. apply C58_volume; auto.
  intros f' Hf' K. apply dil_in_tetra in K. destruct K as (u & Hu & K). revert K.
  apply (hull_free p o q0 f); auto. eapply hull_behind; eauto.
Qed.
Print Assumptions C58_hull.
(** the cube and the tetrahedron, q0 = o_in inside and the observer o_out outside;
    some facet faces the observer *)
Example C58_case : forall h, h = cubeZ \/ h = tetraZ ->
  build h = Ok (body h) /\ correct_hull (rh h) /\ 
  (forall g, well_placed (body h) (rv o_out) g /\ well_placed (body h) (rv o_in) g /\ well_placed cube (rv o_plane) g /\
     well_placed cube (rv o_line) g /\ well_placed cube (rv o_facet) g) /\ well_placed cube (rv o_edge) false /\
  (forall f, In f (pl_faces (body h)) -> 0 < dt (f_un f) (vtx 0 f - rv o_in)) /\
  exists f, In f (pl_faces (body h)) /\ dt (f_un f) (vtx 0 f - rv o_out) < 0.
Proof.
  intros h Hh.
  assert (Hb : hullb h = true) by (destruct Hh as [-> | ->]; vm_compute; reflexivity).
  assert (Ho : obsb h o_out = true) by (destruct Hh as [-> | ->]; vm_compute; reflexivity).
  assert (Hi : obsb h o_in = true) by (destruct Hh as [-> | ->]; vm_compute; reflexivity).
  assert (Hin : insideb h o_in = true) by (destruct Hh as [-> | ->]; vm_compute; reflexivity).
  assert (Hx : existsb (beyondb h o_out) (seq 0 (length (z_simplices h))) = true) by (destruct Hh as [-> | ->]; vm_compute; reflexivity).
  destruct (body_ok h Hb) as (E & Hc & HL & HF).
  split; [exact E|]. split; [apply hullb_ok; exact Hb|].
  split; [intros g; split; [apply regular_well; [exact Hc|apply body_regular; auto]|split; [apply regular_well; [exact Hc|apply body_regular; auto]|
    split; [apply cube_plane_well|split; [apply cube_line_well|apply cube_facet_well]]]]|]. split; [apply cube_edge_well|].
  split.
  - intros f Hf. apply In_nth_error in Hf. destruct Hf as [j Hj]. apply (insideb_ok h o_in j f); auto.
    rewrite <- HL. apply nth_error_Some. rewrite Hj. discriminate.
  - apply existsb_exists in Hx. destruct Hx as [i [Hi' Hx]]. apply in_seq in Hi'.
    destruct (nth_error (pl_faces (body h)) i) as [f|] eqn:E0.
    + exists f. split; [eapply nth_error_In; eauto|]. eapply beyondb_ok; eauto.
    + exfalso. apply nth_error_None in E0. rewrite HL in E0. lia.
Qed.

(** ** C59: the gradient tensor as a surface integral *)
(** T e = - density Gc 10^9 sum over the facets of (n . e) times the integral of
    R/|R|^3 over the facet: the gradient of a homogeneous body is carried by its
    surface. *)
Theorem C59_tensor_surface :
  forall p o density Gc s, closed p -> well_placed p o true -> (forall f, In f (pl_faces p) -> ~ on_facet o f) -> reachable p s ->
  exists G T, gravity p o density Gc true s = Ok (G, T) /\
  exists If : face RA -> V,
    (forall f, In f (pl_faces p) -> surface_vintegral (kernel o) (vtx 0 f) (vtx 1 f) (vtx 2 f) (If f)) /\
    forall e, mdot T e = (- (density * Gc * 1000000000) *
      fold_right va v0 (map (fun f : face RA => dt (f_un f) e * If f)%v (pl_faces p)))%v.
Proof.
  intros p o d G s Hc Hr Ho Hs. assert (Hof : offs p o) by (apply clear_offs; [exact Hc|apply Hr]).
  rewrite (gravity_spec p o d G true s Hs), (well_value p o true d G Hc Hr).
  eexists _, _. split; [reflexivity|].
  exists (fun f : face RA => (- FF (f_un f) (vtx 0 f - o) (vtx 1 f - o) (vtx 2 f - o))%v). split.
  - intros f Hin. destruct (proj1 Hc f Hin) as (p1 & p2 & p3 & HF). pose proof (Ho f Hin) as D. unfold on_facet in D. rewrite <- on_tri_seen in D.
    destruct (facet_vtx _ _ _ _ HF) as [E0 [E1 E2]]. rewrite E0, E1, E2 in *. destruct HF as [(Hp & _ & Hn & Hu) _].
    apply surface_kernel. rewrite Hu, FF_FF0_all. now apply FF0_integral.
  - intros e. change (mdot (msum (tF d G o) (pl_faces p)) e) with (mapp (msum (tF d G o) (pl_faces p)) e).
    rewrite (tensor_app_off p o d G Hc Hof e), (Jtot_surface p o Hc Hof d G e), <- vsum_fold.
    assert (K : forall l, vsum (fun f : face RA => (dt (f_un f) e * - FF (f_un f) (vtx 0 f - o) (vtx 1 f - o) (vtx 2 f - o))%v) l =
      (- vsum (fun f : face RA => (dt (f_un f) e * FF (f_un f) (vtx 0 f - o) (vtx 1 f - o) (vtx 2 f - o))%v) l)%v).
    { intros l. induction l as [|f l IH]; cbn [vsum fold_right]; [vring|]. unfold vsum in IH. rewrite IH.
      generalize (dt (f_un f) e) (FF (f_un f) (vtx 0 f - o) (vtx 1 f - o) (vtx 2 f - o)).
      match goal with |- context [fold_right ?g v0 l] => generalize (fold_right g v0 l) end. intros. vring. }
    rewrite K. generalize (vsum (fun f : face RA => (dt (f_un f) e * FF (f_un f) (vtx 0 f - o) (vtx 1 f - o) (vtx 2 f - o))%v) (pl_faces p)). intros. vring.
Qed.
Print Assumptions C59_tensor_surface.
Lemma below_not_on z o f : dt z (vtx 0 f - o) < 0 -> dt z (vtx 1 f - o) < 0 -> dt z (vtx 2 f - o) < 0 -> ~ on_facet o f.
Proof.
  intros H0 H1 H2 (r & s & t & Hr & Hs & Ht & E & K). apply (f_equal (fun w => dt z (w - o))) in K. cbv beta in K.
  replace (dt z (o - o)) with 0 in K by vring.
  replace (dt z (r * vtx 0 f + s * vtx 1 f + t * vtx 2 f - o)) with
    (r * dt z (vtx 0 f - o) + s * dt z (vtx 1 f - o) + t * dt z (vtx 2 f - o)) in K.
  2:{ replace r with (1 - s - t) by lra. generalize (vtx 0 f) (vtx 1 f) (vtx 2 f). intros. vring. }
  revert H0 H1 H2 K. generalize (dt z (vtx 0 f - o)) (dt z (vtx 1 f - o)) (dt z (vtx 2 f - o)). intros A B C HA HB HC K.
  assert (Z : forall x y, 0 <= x -> y < 0 -> x * y <= 0 /\ (x * y = 0 -> x = 0)).
  { intros x y Hx Hy. split; [nra|]. intros Q. apply Rmult_integral in Q. destruct Q as [Q|Q]; [exact Q|lra]. }
  destruct (Z r A Hr HA) as [Z1 Z1']. destruct (Z s B Hs HB) as [Z2 Z2']. destruct (Z t C Ht HC) as [Z3 Z3'].
  rewrite Z1', Z2', Z3' in E; lra.
Qed.
(** observers in general position, inside, and in the plane of two facets *)
Example C59_case : closed cube /\ reachable cube pstate0 /\
  forall o, o = o_out \/ o = o_in \/ o = o_plane ->
    well_placed cube (rv o) true /\ forall f, In f (pl_faces cube) -> ~ on_facet (rv o) f.
Proof.
  split; [apply cube_closed|]. split; [constructor|].
  assert (G : forall o, regular cube (rv o) -> forall f, In f (pl_faces cube) -> ~ on_facet (rv o) f).
  { intros o Hr f Hf. unfold on_facet. rewrite <- on_tri_seen. intros K. apply in_tri_det in K.
    destruct (proj1 cube_closed f Hf) as (p1 & p2 & p3 & HF). destruct (facet_vtx _ _ _ _ HF) as (E0 & E1 & E2).
    rewrite E0, E1, E2 in K. exact (proj1 (off3_reg cube (rv o) Hr f p1 p2 p3 HF Hf) K). }
  intros o [-> | [-> | ->]].
  - split; [apply cube_out_well|apply G, cube_out].
  - split; [apply cube_in_well|apply G, cube_in].
  - split; [apply cube_plane_well|]. intros f Hf.
    destruct (face_parts cubeZ cube_hull f Hf) as (s & x & y & z & Hs & Hp & _ & _ & _ & E0 & E1 & E2).
    assert (Q : forall k, In k [x; y; z] -> dt (V3 0 0 1) (pt (rh cubeZ) k - rv o_plane) < 0).
    { intros k Hk. assert (Hks : In k s) by (eapply Permutation_in; [apply Permutation_sym; exact Hp|exact Hk]).
      assert (B : forallb (forallb (fun k => Z.ltb (vz (zpt cubeZ k)) 17)) (z_simplices cubeZ) = true) by (vm_compute; reflexivity).
      rewrite forallb_forall in B. specialize (B s Hs). rewrite forallb_forall in B. specialize (B k Hks).
      apply Z.ltb_lt, IZR_lt in B. rewrite pt_rh. unfold dt, vm, rv, o_plane, zv; cbn [vx vy vz]. lra. }
    apply (below_not_on (V3 0 0 1)); [rewrite E0|rewrite E1|rewrite E2]; apply Q; simpl; auto.
Qed.

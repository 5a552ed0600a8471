(** * Property C62: observers in the epsilon bands of the planes of facets *)
From Coq Require Import Reals Lra Psatz ZArith Bool List Permutation Arith Lia.
Import ListNotations.
From Coquelicot Require Import Coquelicot.
From Verif Require Import Base MUtils MEdge MFace MHull MPoly SpecPoly PPoly PStation PPlain.
From Verif Require Import RVec RArith REdge REdgeModel RAngle ROmega RFace RFacet RPoly RTwin RField
  RHull RHullZ ExamplesR RLinear RMove RMoved RGlue RLaws RPlaced RPlacedZ RRay RTrace RFlux RVolume RSolid RBound PropertiesR PropertiesT PropertiesV.
Local Open Scope R_scope.
Local Open Scope list_scope.

(** the observer is off the plane of the facet by at most epsilon *)
Definition in_band (o : V) (f : face RA) : bool :=
  if Req_EM_T (dt (f_un f) (vtx 0 f - o)) 0 then false
  else if Rlt_dec eps (Rabs (dt (f_un f) (vtx 0 f - o))) then false else true.
Lemma band_facet p o d G f : closed p -> In f (pl_faces p) ->
  nm (gC d G o f - gF d G o f) <= Rabs (d * G) * 100000 * (2 * PI * eps) * (if in_band o f then 1 else 0).
Proof.
  intros Hc Hf. unfold in_band. destruct (Req_EM_T (dt (f_un f) (vtx 0 f - o)) 0) as [E|E].
  - rewrite (proj1 (exact_facet p o f d G Hc Hf (or_intror E))). replace (gF d G o f - gF d G o f)%v with v0 by (generalize (gF d G o f); intros; vring).
    rewrite nm_0. lra.
  - destruct (Rlt_dec eps (Rabs (dt (f_un f) (vtx 0 f - o)))) as [L|L].
    + rewrite (proj1 (exact_facet p o f d G Hc Hf (or_introl L))). replace (gF d G o f - gF d G o f)%v with v0 by (generalize (gF d G o f); intros; vring).
      rewrite nm_0. lra.
    + destruct (proj1 Hc f Hf) as (p1 & p2 & p3 & HF). pose proof (un_unit _ _ _ _ HF) as U.
      destruct (facet_vtx _ _ _ _ HF) as (E0 & E1 & E2).
      assert (D : det (vtx 0 f - o) (vtx 1 f - o) (vtx 2 f - o) <> 0).
      { rewrite E0, E1, E2 in *. destruct HF as [(_ & _ & Hn & Hu) _]. rewrite (tri_det p1 p2 p3 o Hn).
        apply Rmult_integral_contrapositive. pose proof (nm_pos _ Hn). split; [lra|]. rewrite Hu in E. exact E. }
      destruct (om_range _ _ _ D) as [RG _].
      assert (Q : (gC d G o f - gF d G o f)%v =
        (kG d G * (dt (f_un f) (vtx 0 f - o) * (- om (vtx 0 f - o) (vtx 1 f - o) (vtx 2 f - o))) * f_un f)%v).
      { unfold gC, gF, FF, omC. destruct (Rlt_dec eps (Rabs (dt (f_un f) (vtx 0 f - o)))) as [Z|_]; [contradiction|].
        generalize (om (vtx 0 f - o) (vtx 1 f - o) (vtx 2 f - o)) (Isum (vtx 0 f - o) (vtx 1 f - o) (vtx 2 f - o)) (dt (f_un f) (vtx 0 f - o)) (f_un f : V).
        intros. vring. }
      rewrite Q, nm_sc. assert (NU : nm (f_un f) = 1) by (apply nm_uniq; lra). rewrite NU, !Rmult_1_r.
      rewrite (Rabs_mult (kG d G)), (Rabs_mult (dt (f_un f) (vtx 0 f - o))), Rabs_Ropp. unfold kG.
      replace (Rabs (- d * G * 100000)) with (Rabs (d * G) * 100000).
      2:{ replace (- d * G * 100000) with (- (d * G) * 100000) by ring. rewrite (Rabs_mult (- (d * G)) 100000), Rabs_Ropp, (Rabs_pos_eq 100000) by lra. reflexivity. }
      assert (K1 : Rabs (om (vtx 0 f - o) (vtx 1 f - o) (vtx 2 f - o)) <= 2 * PI) by (apply Rabs_le; lra).
      pose proof (Rabs_pos (dt (f_un f) (vtx 0 f - o))). pose proof (Rabs_pos (om (vtx 0 f - o) (vtx 1 f - o) (vtx 2 f - o))).
      apply Rmult_le_compat_l; [apply Rmult_le_pos; [apply Rabs_pos|lra]|]. rewrite (Rmult_comm (2 * PI) eps).
      apply Rmult_le_compat; lra.
Qed.
(** Every observer that is no vertex and clear of the edges, whatever its distance to
    the planes of the facets: G is Newton's integral over the body, up to 2 pi eps
    (in units of density Gc 10^5) for each facet whose band the observer is in. *)
Theorem C62_band :
  forall p o q0 density Gc gradient s, closed p -> clear p o gradient -> reachable p s ->
  (forall f, In f (pl_faces p) -> ~ in_tetra q0 o f) ->
  exists G T I, gravity p o density Gc gradient s = Ok (G, T) /\
    body_vintegral (kernel o) p q0 I /\
    nm (G - density * Gc * 100000 * I) <=
      Rabs (density * Gc) * 100000 * (2 * PI * eps) * INR (length (filter (in_band o) (pl_faces p))).
Proof.
  intros p o q0 d G g s Hc Hr Hs Ho. rewrite (gravity_spec p o d G g s Hs), (clear_value p o g d G Hc Hr).
  assert (Hout : forall f u, In f (pl_faces p) -> 0 <= u <= 1 ->
    ~ on_tri o (dil q0 u (vtx 0 f)) (dil q0 u (vtx 1 f)) (dil q0 u (vtx 2 f))).
  { intros f u Hf Hu K. apply (Ho f Hf). eapply in_tetra_dil; eauto. }
  destruct (tet_integrals p o q0 Hc Hout) as [If HI].
  eexists _, _, (vsum If (pl_faces p)). split; [reflexivity|]. split.
  - exists If. split; [|apply vsum_fold]. intros f Hf. apply volume_kernel, (HI f Hf).
  - pose proof (volume_form p o q0 Hc Hout If HI) as E.
    replace (d * G * 100000 * vsum If (pl_faces p))%v with (vsum (gF d G o) (pl_faces p)).
    2:{ transitivity (kG d G * vsum (fun f : face RA => dt (f_un f) (vtx 0 f - o) * FF (f_un f) (vtx 0 f - o) (vtx 1 f - o) (vtx 2 f - o)) (pl_faces p))%v.
        - rewrite <- vsum_sc. reflexivity.
        - rewrite E. unfold kG. generalize (vsum If (pl_faces p)). intros. vring. }
    assert (K : forall l, (forall f, In f l -> In f (pl_faces p)) ->
      nm (vsum (gC d G o) l - vsum (gF d G o) l) <= Rabs (d * G) * 100000 * (2 * PI * eps) * INR (length (filter (in_band o) l))).
    { induction l as [|f l IH]; intros Hl.
      - cbn [vsum fold_right filter length INR]. replace (v0 - v0)%v with v0 by vring. rewrite nm_0. lra.
      - cbn [vsum fold_right]. fold (vsum (gC d G o) l) (vsum (gF d G o) l).
        replace (gC d G o f + vsum (gC d G o) l - (gF d G o f + vsum (gF d G o) l))%v with
          ((gC d G o f - gF d G o f) + (vsum (gC d G o) l - vsum (gF d G o) l))%v
          by (generalize (gC d G o f) (gF d G o f) (vsum (gC d G o) l) (vsum (gF d G o) l); intros; vring).
        eapply Rle_trans; [apply triangle|].
        pose proof (band_facet p o d G f Hc (Hl f (or_introl eq_refl))) as B.
        pose proof (IH (fun x Hx => Hl x (or_intror Hx))) as B2. cbn [filter]. destruct (in_band o f).
        + cbn [length]. rewrite S_INR. lra.
        + lra. }
    apply K. auto.
Qed.
Print Assumptions C62_band.
(** off the plane x = 10 of two facets of the cube, by less than epsilon *)
Example C62_case : exists o, closed cube /\ (forall g, clear cube o g) /\ reachable cube pstate0 /\
  (forall f, In f (pl_faces cube) -> ~ in_tetra (rv o_in) o f) /\
  exists f, In f (pl_faces cube) /\ in_band o f = true.
Proof.
  destruct (edges_open cube (rv o_plane) (V3 1 0 0) cube_closed (steady_edges _ _ cube_plane)) as [delta Hd].
  pose proof eps_pos as He. pose proof (cond_pos delta) as Hdp.
  set (t := Rmin (delta / 2) (eps / 2)).
  assert (Ht : 0 < t /\ t < delta /\ t < eps).
  { unfold t. split; [apply Rmin_pos; lra|]. pose proof (Rmin_l (delta / 2) (eps / 2)). pose proof (Rmin_r (delta / 2) (eps / 2)). lra. }
  exists (rv o_plane + t * V3 1 0 0)%v. split; [apply cube_closed|]. split.
  { intros g. apply reg_edges_clear; [apply cube_closed|]. apply Hd.
    unfold ball; cbn. unfold AbsRing_ball, abs, minus, plus, opp; cbn. rewrite Ropp_0, Rplus_0_r, Rabs_pos_eq; lra. }
  split; [constructor|]. split.
  - intros f Hf. destruct (face_parts cubeZ cube_hull f Hf) as (s & x & y & z & Hs & Hp & _ & _ & _ & E0 & E1 & E2).
    assert (Q : forall k, In k [x; y; z] -> vz (pt (rh cubeZ) k) <= 10).
    { intros k Hk. assert (Hks : In k s) by (eapply Permutation_in; [apply Permutation_sym; exact Hp|exact Hk]).
      assert (B : forallb (forallb (fun k => Z.leb (vz (zpt cubeZ k)) 10)) (z_simplices cubeZ) = true) by (vm_compute; reflexivity).
      rewrite forallb_forall in B. specialize (B s Hs). rewrite forallb_forall in B. specialize (B k Hks).
      apply Z.leb_le, IZR_le in B. rewrite pt_rh. exact B. }
    intros (u & w & Hu & (r & s0 & t0 & Hr & Hs0 & Ht0 & E & ->) & K). apply (f_equal vz) in K. rewrite E0, E1, E2 in K.
    pose proof (Q x ltac:(simpl; auto)) as X. pose proof (Q y ltac:(simpl; auto)) as Y. pose proof (Q z ltac:(simpl; auto)) as Z.
    revert X Y Z K. generalize (pt (rh cubeZ) x) (pt (rh cubeZ) y) (pt (rh cubeZ) z). intros a b c X Y Z K.
    unfold va, vm, sc, rv, o_plane, o_in, zv in K; cbn [vx vy vz] in K.
    assert (M : r * vz a + s0 * vz b + t0 * vz c <= 10) by nra. revert M K. generalize (r * vz a + s0 * vz b + t0 * vz c). intros m M K. nra.
  - destruct (body_ok cubeZ cube_hull) as (_ & _ & HL & HF). destruct (nth_error (pl_faces cube) 2) as [f|] eqn:Ef.
    2:{ exfalso. apply nth_error_None in Ef. unfold cube in Ef. rewrite HL in Ef. cbn in Ef. lia. }
    pose proof (nth_error_In _ _ Ef) as Hf. exists f. split; [exact Hf|].
    destruct (HF 2%nat f Ef) as (s & x & y & z & t1 & t2 & t3 & Hs & Hp & _ & _ & _ & _ & Hpts & _).
    destruct (proj1 cube_closed f Hf) as (p1 & p2 & p3 & HFf). pose proof (un_unit _ _ _ _ HFf) as U.
    destruct (facet_vtx _ _ _ _ HFf) as (E0 & _ & _). destruct HFf as [(Ep & _ & Hn & Hu) _].
    rewrite Ep in Hpts. injection Hpts as -> -> ->. cbn in Hs. injection Hs as <-.
    assert (X : forall k, In k [x; y; z] -> vx (pt (rh cubeZ) k) = 10).
    { intros k Hk. apply (Permutation_in _ (Permutation_sym Hp)) in Hk. rewrite pt_rh. destruct Hk as [<-|[<-|[<-|[]]]]; reflexivity. }
    pose proof (X x ltac:(simpl; auto)) as X1. pose proof (X y ltac:(simpl; auto)) as X2. pose proof (X z ltac:(simpl; auto)) as X3.
    assert (Y : @vy R (f_un f) = 0 /\ @vz R (f_un f) = 0).
    { rewrite Hu. unfold tri_normal, uu, sc, cr, vm; cbn [vx vy vz]. rewrite X1, X2, X3. split; eqR; ring. }
    destruct Y as [Y Z]. unfold in_band. rewrite E0.
    assert (ED : dt (f_un f) (pt (rh cubeZ) x - (rv o_plane + t * V3 1 0 0)) = - t * @vx R (f_un f)).
    { unfold dt, vm, va, sc, rv, o_plane, zv; cbn [vx vy vz]. rewrite X1. rewrite Y, Z. ring. }
    rewrite ED. unfold dt in U. rewrite Y, Z in U. assert (AX : Rabs (@vx R (f_un f)) = 1).
    { assert (Q : @vx R (f_un f) * @vx R (f_un f) = 1) by lra. unfold Rabs. destruct (Rcase_abs (@vx R (f_un f))); nra. }
    destruct (Req_EM_T (- t * @vx R (f_un f)) 0) as [C|C].
    + exfalso. apply Rmult_integral in C. destruct C as [C|C]; [lra|]. rewrite C, Rabs_R0 in AX. lra.
    + destruct (Rlt_dec eps (Rabs (- t * @vx R (f_un f)))) as [L|L]; [|reflexivity].
      exfalso. rewrite Rabs_mult, AX, Rabs_Ropp, (Rabs_pos_eq t) in L; lra.
Qed.

(** * Gravity and gradient tensor of a hull in doubles against the same in exact arithmetic *)
From Coq Require Import ZArith Reals Lra Lia Bool Psatz Floats.SpecFloat List Arith Permutation.
From Flocq Require Import Core.
From Verif Require Import Base MUtils MEdge MFace MHull MPoly SpecPoly PPoly PStation PPlain FArith FReal FErr FDot RVec RArith REdge REdgeModel
  RAngle ROmega RFace RFacet RPoly RTwin RHull RPlaced RGlue PSim FHull FNorm FBuild FLog FUnit FEdge FOmega FDeriv FGrav FTensor FField.
Import ListNotations.
Local Open Scope R_scope.

Section TField.
  Variables lg ac : F -> F.
  Variable DP : dotlib.
  Local Notation FD := (FA lg ac DP).
  Hypothesis Hlib : libm lg ac.
  Context {M L g s : R} (Hsz : sized M L g) (HL : L <= 2 ^ 50) (Hs : 1 <= s <= 8192).
  Variable h : hull FD.
  Let RH := real_hull lg ac DP h.
  Hypothesis Hh : correct_hull RH.
  Hypothesis Hv : (1 <= length (h_vertices h) <= 2 ^ 20)%nat.
  Hypothesis Hf : (length (h_simplices h) <= 2 ^ 20)%nat.
  Hypothesis Hp : placed lg ac DP M L (h_points h) (h_vertices h).
  Hypothesis Hm : margin lg ac DP M L h.
  Variable o : vec FD.
  Hypothesis Ho : vfin o /\ within M (fvec o).
  Hypothesis Hseen : forall a b c, In [a; b; c] (h_simplices h) ->
    seen L g s (pt RH a - fvec o)%v (pt RH b - fvec o)%v (pt RH c - fvec o)%v \/
    outlined L g (pt RH a - fvec o)%v (pt RH b - fvec o)%v (pt RH c - fvec o)%v /\ axial (pt RH a - fvec o)%v (pt RH b - fvec o)%v (pt RH c - fvec o)%v.
  Variables (rho Gc : F) (R0 G0 : R).
  Hypothesis HR0 : / 2 ^ 90 <= R0 <= 2 ^ 90.
  Hypothesis HG0 : / 2 ^ 90 <= G0 <= 2 ^ 90.
  Hypothesis Hrho : fin rho /\ Rabs (fv rho) <= R0.
  Hypothesis HGc : fin Gc /\ Rabs (fv Gc) <= G0.

  Theorem hull_tensor ch inF pts chR inR ptsR : ch pts = Ok h -> chR ptsR = Ok RH ->
    exists p pR G T, mk_polyhedron (A := FD) ch inF pts = Ok p /\ mk_polyhedron (A := RA) chR inR ptsR = Ok pR /\
      closed pR /\ steady pR (fvec o) /\ spec_gravity (A := FD) p o rho Gc true = Ok (G, T) /\
      vfin G /\ vfin (vx T) /\ vfin (vy T) /\ vfin (vz T) /\
      (let n := INR (length (h_simplices h)) in
       within (n * (g * g * g + g * s + n) * (L * (100000 * (R0 * G0))) / 2 ^ 35)
         (fvec G - vsum (gF (fv rho) (fv Gc) (fvec o)) (pl_faces pR))%v /\
       within (489 * n * (L * (100000 * (R0 * G0)))) (vsum (gF (fv rho) (fv Gc) (fvec o)) (pl_faces pR)) /\
       let D := n * (g * g * (g * g * g) + g * s * (g * s * s) + n * (g * g + g * s)) * (1000000000 * (R0 * G0)) / 2 ^ 30 in
       let S := msum (tF (fv rho) (fv Gc) (fvec o)) (pl_faces pR) in
       within D (fvec (vx T) - vx S)%v /\ within D (fvec (vy T) - vy S)%v /\ within D (fvec (vz T) - vz S)%v /\
       mwithin (1027 * (g * g + g * s) * n * (1000000000 * (R0 * G0))) S).
  Proof.
    intros Ec EcR. assert (Hs' : 1 <= s <= 32768) by lra.
    destruct (hull_match lg ac DP Hsz h Hh Hv Hf Hp Hm o Ho Hseen ch inF pts chR inR ptsR Ec EcR) as (p & pR & Ep & EpR & HcR & Reg & Hl & AM & HE & HT).
    destruct (hull_gravity lg ac DP Hlib Hsz Hs' h Hh Hv Hf Hp Hm o Ho Hseen rho Gc R0 G0 HR0 HG0 Hrho HGc ch inF pts chR inR ptsR Ec EcR)
      as (p' & pR' & G & T0 & Ep' & EpR' & _ & _ & Eg & Fg & Wg & Wb).
    assert (p' = p) by congruence. assert (pR' = pR) by congruence. subst p' pR'. clear Ep' EpR'.
    assert (Val : msum (ftval lg ac DP o rho Gc) (pl_faces p) = msum (tF (fv rho) (fv Gc) (fvec o)) (pl_faces pR)).
    { clear - AM. induction AM as [|f fR l lR (x & y & z & Hg & V1 & V2 & V3' & Un) AM IH]; [reflexivity|].
      cbn [msum fold_right]. f_equal; [|exact IH]. rewrite (gface_pts' lg ac DP o rho Gc f _ _ _ Hg). unfold ttval, tF, jF. rewrite V1, V2, V3', Un. reflexivity. }
    exists p, pR.
    destruct (gravity_grad_ap lg ac DP Hlib Hsz HL Hs p o) with (rho := rho) (Gc := Gc) (R0 := R0) (G0 := G0) as (G' & T & Et & F1 & F2 & F3 & Wt); try assumption.
    - intros k e He. destruct (HE k e He) as (u & v & ss & tt & Fu & Fv & Wu & Wv & Wd & Hc & ->).
      destruct (edge_grad_ap lg ac DP Hlib Hsz u v o ss tt Fu Fv Ho Wu Wv Wd Hc true) as (w & m & Ew & Hw & Hm').
      exists w, m. split; [exact Ew|]. split; [|exact Hm']. unfold near. cbn [e_start e_end mk_edge fst snd]. eapply (svap_weaken unit_1); [exact Hw|lra|].
      pose proof (X_bounds Hsz Hs') as (_ & _ & _ & B & _). lra.
    - intros f Hin. destruct (Forall2_in1 _ _ _ _ AM Hin) as (fR & _ & x & y & z & Hg & _). eauto.
    - now rewrite Hl.
    - assert (EG : G' = G).
      { pose proof (gradient_flag p o rho Gc G' T (eq_trans (fresh_spec p o rho Gc true) Et)) as (T1 & E1 & _).
        rewrite fresh_spec in E1. congruence. }
      subst G'. exists G, T. repeat (split; [assumption|]). cbv zeta in Wt |- *. rewrite Hl in Wt. exact (Wt _ (eq_sym Val)).
  Qed.
End TField.

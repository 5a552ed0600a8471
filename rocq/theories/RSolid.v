(** * The gravity of a closed surface as a volume integral *)
From Coq Require Import Reals Lra Psatz ZArith Bool List Permutation Arith Lia.
Import ListNotations.
From Coquelicot Require Import Coquelicot.
From Verif Require Import Base MUtils MEdge MFace MHull MPoly SpecPoly PPoly PStation PPlain.
From Verif Require Import RVec RArith REdge REdgeModel RAngle ROmega RFace RFacet RPoly RTwin RField RHull RHullZ RMoved RGlue RRay RTrace RFlux RVolume.
Local Open Scope R_scope.
Local Open Scope list_scope.

(** ** Volume integrals over a tetrahedron with apex q0 *)
(** The tetrahedron is swept by the images of the triangle p1 p2 p3 under the
    dilations about q0 with ratios u from 0 to 1; the layer between u and u + du
    has thickness h du, h being the signed distance from q0 to the plane of the
    triangle along its normal. *)
Definition dil (q0 : V) (u : R) (q : V) : V := (q0 + u * (q - q0))%v.
Definition volume_integral (F : V -> R) (q0 p1 p2 p3 : V) (I : R) : Prop :=
  exists inner : R -> R,
    (forall u, 0 < u <= 1 -> surface_integral F (dil q0 u p1) (dil q0 u p2) (dil q0 u p3) (inner u)) /\
    is_RInt (fun u => dt (uu (cr (p2 - p1) (p3 - p1))) (p1 - q0) * inner u) 0 1 I.
Definition volume_vintegral (F : V -> V) (q0 p1 p2 p3 : V) (I : V) : Prop :=
  volume_integral (fun x => vx (F x)) q0 p1 p2 p3 (vx I) /\ volume_integral (fun x => vy (F x)) q0 p1 p2 p3 (vy I) /\
  volume_integral (fun x => vz (F x)) q0 p1 p2 p3 (vz I).
Lemma dil_cr q0 u p1 p2 p3 : cr (dil q0 u p2 - dil q0 u p1) (dil q0 u p3 - dil q0 u p1) = (u * u * cr (p2 - p1) (p3 - p1))%v.
Proof. unfold dil. vring. Qed.
Lemma sc_nz k w : 0 < k -> w <> v0 -> (k * w)%v <> v0.
Proof.
  intros Hk Hw Z. pose proof (nm_pos _ Hw) as P. apply (f_equal nm) in Z. rewrite nm_sc, nm_0, Rabs_pos_eq in Z by lra.
  pose proof (Rmult_lt_0_compat _ _ Hk P). lra.
Qed.
(** the volume *)
Lemma volume_one q0 p1 p2 p3 : cr (p2 - p1) (p3 - p1) <> v0 ->
  volume_integral (fun _ => 1) q0 p1 p2 p3 (det (p1 - q0) (p2 - q0) (p3 - q0) / 6).
Proof.
  intros HN. set (A := nm (cr (p2 - p1) (p3 - p1))). set (h := dt (uu (cr (p2 - p1) (p3 - p1))) (p1 - q0)).
  pose proof (nm_pos _ HN) as HA. fold A in HA.
  exists (fun u => u * u * A / 2). split.
  - intros u Hu. replace (u * u * A / 2) with (nm (cr (dil q0 u p2 - dil q0 u p1) (dil q0 u p3 - dil q0 u p1)) / 2).
    + apply surface_area.
    + rewrite dil_cr, nm_sc, Rabs_pos_eq by nra. reflexivity.
  - fold h. replace (det (p1 - q0) (p2 - q0) (p3 - q0) / 6) with ((fun u => h * (u * u * u * A / 6)) 1 - (fun u => h * (u * u * u * A / 6)) 0).
    + apply (ftc_open (fun u => h * (u * u * u * A / 6))); [lra| | |].
      * intros x _. auto_derive; auto. field.
      * intros x _. apply @ex_derive_continuous. auto_derive. auto.
      * intros x _. apply @ex_derive_continuous. auto_derive. auto.
    + cbv beta.
      replace (det (p1 - q0) (p2 - q0) (p3 - q0)) with (dt (cr (p2 - p1) (p3 - p1)) (p1 - q0)) by (unfold det; vring).
      unfold h, uu. rewrite dt_sc_l. fold A. field. lra.
Qed.

Lemma vcont_vsum {X} (H : X -> R -> V) l t :
  (forall x, In x l -> vcont (H x) t) -> vcont (fun s => vsum (fun x => H x s) l) t.
Proof.
  induction l as [|x l IH]; intros K.
  - exact (vcont_const v0 t).
  - apply (vcont_add (H x) (fun s => vsum (fun y => H y s) l)); [apply K; left; auto|].
    apply IH. intros y Hy. apply K. right. auto.
Qed.
Lemma vint_cont (f : R -> V) a b : a < b -> (forall x, a <= x <= b -> vcont f x) -> exists I, is_vint f a b I.
Proof.
  intros Hab H.
  assert (Hx : forall x, a <= x <= b -> continuous (fun s => vx (f s)) x) by (intros x0 Hx0; destruct (H x0 Hx0) as [? [? ?]]; assumption).
  assert (Hy : forall x, a <= x <= b -> continuous (fun s => vy (f s)) x) by (intros x0 Hx0; destruct (H x0 Hx0) as [? [? ?]]; assumption).
  assert (Hz : forall x, a <= x <= b -> continuous (fun s => vz (f s)) x) by (intros x0 Hx0; destruct (H x0 Hx0) as [? [? ?]]; assumption).
  assert (K : forall g : R -> R, (forall x, a <= x <= b -> continuous g x) -> exists I, is_RInt g a b I).
  { intros g Hg. destruct (@ex_RInt_continuous R_CompleteNormedModule g a b) as [I HI]; [|exists I; exact HI].
    rewrite Rmin_left, Rmax_right by lra. exact Hg. }
  destruct (K (fun s => vx (f s)) Hx) as [x Jx].
  destruct (K (fun s => vy (f s)) Hy) as [y Jy].
  destruct (K (fun s => vz (f s)) Hz) as [z Jz].
  exists (V3 x y z). split3; assumption.
Qed.
Lemma vint_unique f a b I J : is_vint f a b I -> is_vint f a b J -> I = J.
Proof.
  intros [A1 [A2 A3]] [B1 [B2 B3]]. apply veq.
  - apply (@is_RInt_unique R_CompleteNormedModule) in A1, B1. rewrite <- A1. exact B1.
  - apply (@is_RInt_unique R_CompleteNormedModule) in A2, B2. rewrite <- A2. exact B2.
  - apply (@is_RInt_unique R_CompleteNormedModule) in A3, B3. rewrite <- A3. exact B3.
Qed.
Lemma vint_sum {X} (H : X -> R -> V) (I : X -> V) l a b :
  (forall x, In x l -> is_vint (H x) a b (I x)) -> is_vint (fun s => vsum (fun x => H x s) l) a b (vsum I l).
Proof.
  induction l as [|x l IH]; intros K.
  - assert (Z : is_RInt (fun _ : R => 0) a b 0).
    { pose proof (is_RInt_const (V := R_NormedModule) a b 0) as Z. unfold scal in Z; cbn in Z; unfold mult in Z; cbn in Z.
      rewrite Rmult_0_r in Z. exact Z. }
    split3; exact Z.
  - destruct (K x (or_introl eq_refl)) as [A1 [A2 A3]].
    destruct IH as [B1 [B2 B3]]; [intros y Hy; apply K; right; exact Hy|].
    split3; cbn [vsum fold_right va vx vy vz].
    + exact (is_RInt_plus _ _ a b _ _ A1 B1).
    + exact (is_RInt_plus _ _ a b _ _ A2 B2).
    + exact (is_RInt_plus _ _ a b _ _ A3 B3).
Qed.

Section Volume.
  Variables (p : polyhedron RA) (o q0 : V).
  Hypothesis Hcl : closed p.
  Hypothesis Hout : forall f u, In f (pl_faces p) -> 0 <= u <= 1 ->
    ~ on_tri o (dil q0 u (vtx 0 f)) (dil q0 u (vtx 1 f)) (dil q0 u (vtx 2 f)).
  Let a := (q0 - o)%v.
  Let b (u : R) (q : V) : V := (a + u * (q - q0))%v.

  Lemma b_dil u q : (dil q0 u q - o)%v = b u q.
  Proof. unfold dil, b, a. vring. Qed.
  Lemma vol_out f u : In f (pl_faces p) -> 0 <= u <= 1 -> ~ in_tri (b u (vtx 0 f)) (b u (vtx 1 f)) (b u (vtx 2 f)).
  Proof. intros Hf Hu. rewrite <- !b_dil. rewrite on_tri_seen. now apply Hout. Qed.
  Lemma vol_off3 f u : In f (pl_faces p) -> 0 <= u <= 1 -> off3 (b u (vtx 0 f)) (b u (vtx 1 f)) (b u (vtx 2 f)).
  Proof. intros. now apply not_in_off3, vol_out. Qed.
  Lemma b_cont q u : vcont (fun s => b s q) u. Proof. apply vcont_lin. Qed.
  Lemma b_1 q : b 1 q = (q - o)%v. Proof. unfold b, a. vring. Qed.
  Lemma b_0 q : b 0 q = a. Proof. unfold b. vring. Qed.

  Definition Phi (f : face RA) (u : R) : V :=
    (om0 (b u (vtx 0 f)) (b u (vtx 1 f)) (b u (vtx 2 f)) * f_un f +
     cr (ell (b u (vtx 0 f)) (b u (vtx 1 f)) * uv (vtx 0 f) (vtx 1 f) +
         ell (b u (vtx 1 f)) (b u (vtx 2 f)) * uv (vtx 1 f) (vtx 2 f) +
         ell (b u (vtx 2 f)) (b u (vtx 0 f)) * uv (vtx 2 f) (vtx 0 f)) (f_un f))%v.
  Definition hgt (f : face RA) : R := dt (f_un f) (vtx 0 f - q0).

  Lemma b_uv u q r : 0 < u -> q <> r -> uv (b u q) (b u r) = uv q r.
  Proof.
    intros Hu Hq. rewrite !uv_uu. replace (b u r - b u q)%v with (u * (r - q))%v by (unfold b; vring).
    apply uu_sc; [exact Hu|]. intros Z. apply Hq.
    apply veq; [apply (f_equal vx) in Z|apply (f_equal vy) in Z|apply (f_equal vz) in Z]; cbn in Z; lra.
  Qed.
  Lemma facet_ne f : In f (pl_faces p) -> vtx 0 f <> vtx 1 f /\ vtx 1 f <> vtx 2 f /\ vtx 2 f <> vtx 0 f /\
    cr (vtx 1 f - vtx 0 f) (vtx 2 f - vtx 0 f) <> v0 /\ f_un f = uu (cr (vtx 1 f - vtx 0 f) (vtx 2 f - vtx 0 f)).
  Proof.
    intros Hf. destruct Hcl as [Hc _]. destruct (Hc f Hf) as [p1 [p2 [p3 HF]]].
    destruct (facet_vtx _ _ _ _ HF) as [-> [-> ->]]. destruct (facet_nondeg _ _ _ _ HF) as [D1 [D2 D3]].
    destruct HF as [[_ [_ [HN Hu]]] _]. repeat split; auto.
  Qed.
  Lemma Phi_FF0 f u : In f (pl_faces p) -> 0 < u ->
    Phi f u = FF0 (f_un f) (b u (vtx 0 f)) (b u (vtx 1 f)) (b u (vtx 2 f)).
  Proof.
    intros Hf Hu. destruct (facet_ne f Hf) as [D1 [D2 [D3 _]]]. unfold Phi, FF0, Isum. now rewrite !b_uv.
  Qed.
  Lemma Phi_cont f u : In f (pl_faces p) -> 0 <= u <= 1 -> vcont (Phi f) u.
  Proof.
    intros Hf Hu. destruct (vol_off3 f u Hf Hu) as [O1 [O2 O3]]. pose proof (vol_out f u Hf Hu) as Hn.
    unfold Phi. apply vcont_add.
    - apply vcont_sc; [|apply vcont_const]. apply cont_om0; auto using b_cont.
      apply S_pos0; [now apply not_in_off3|]. intros Z. now apply DD_out.
    - apply vcont_cr; [|apply vcont_const].
      apply vcont_add; [apply vcont_add|]; (apply vcont_sc; [apply cont_ell; [apply b_cont|apply b_cont|assumption]|apply vcont_const]).
  Qed.
  Lemma Phi_der f u : In f (pl_faces p) -> 0 < u <= 1 ->
    vder (Phi f) u (/ u * (dt (gom (b u (vtx 0 f)) (b u (vtx 1 f)) (b u (vtx 2 f))) a * f_un f +
       cr (dIs (b u (vtx 0 f)) (b u (vtx 1 f)) (b u (vtx 2 f)) a) (f_un f)))%v.
  Proof.
    intros Hf Hu. destruct (facet_ne f Hf) as [D1 [D2 [D3 _]]]. destruct (vol_off3 f u Hf ltac:(lra)) as [O1 [O2 O3]].
    pose proof (vol_out f u Hf ltac:(lra)) as Hn.
    assert (Ns : forall q r : V, q <> r -> (q - q0)%v <> (r - q0)%v).
    { intros q r H E. apply H. apply veq; [apply (f_equal vx) in E|apply (f_equal vy) in E|apply (f_equal vz) in E]; cbn in E; lra. }
    eapply vder_eq.
    - unfold Phi. apply vder_add.
      + apply (vder_sc (fun s => om0 (b s (vtx 0 f)) (b s (vtx 1 f)) (b s (vtx 2 f))) (fun _ => f_un f)); [|apply vder_const].
        apply om_dil_der; [lra|exact Hn].
      + apply (cr_der (fun u => (ell (b u (vtx 0 f)) (b u (vtx 1 f)) * uv (vtx 0 f) (vtx 1 f) +
           ell (b u (vtx 1 f)) (b u (vtx 2 f)) * uv (vtx 1 f) (vtx 2 f) +
           ell (b u (vtx 2 f)) (b u (vtx 0 f)) * uv (vtx 2 f) (vtx 0 f))%v) (fun _ => f_un f)); [|apply vder_const].
        apply vder_add; [apply vder_add|].
        * apply (vder_sc (fun s => ell (b s (vtx 0 f)) (b s (vtx 1 f))) (fun _ => uv (vtx 0 f) (vtx 1 f))); [|apply vder_const].
          apply ell_dil_der; auto; lra.
        * apply (vder_sc (fun s => ell (b s (vtx 1 f)) (b s (vtx 2 f))) (fun _ => uv (vtx 1 f) (vtx 2 f))); [|apply vder_const].
          apply ell_dil_der; auto; lra.
        * apply (vder_sc (fun s => ell (b s (vtx 2 f)) (b s (vtx 0 f))) (fun _ => uv (vtx 2 f) (vtx 0 f))); [|apply vder_const].
          apply ell_dil_der; auto; lra.
    - change (a + u * (vtx 0 f - q0))%v with (b u (vtx 0 f)). change (a + u * (vtx 1 f - q0))%v with (b u (vtx 1 f)).
      change (a + u * (vtx 2 f - q0))%v with (b u (vtx 2 f)).
      unfold dIs. rewrite !b_uv by (auto; lra).
      generalize (/ u) (om0 (b u (vtx 0 f)) (b u (vtx 1 f)) (b u (vtx 2 f))) (uv (vtx 0 f) (vtx 1 f)) (uv (vtx 1 f) (vtx 2 f)) (uv (vtx 2 f) (vtx 0 f)).
      generalize (dt (gom (b u (vtx 0 f)) (b u (vtx 1 f)) (b u (vtx 2 f))) a) (dt (gell (b u (vtx 0 f)) (b u (vtx 1 f))) a)
        (dt (gell (b u (vtx 1 f)) (b u (vtx 2 f))) a) (dt (gell (b u (vtx 2 f)) (b u (vtx 0 f))) a).
      generalize (ell (b u (vtx 0 f)) (b u (vtx 1 f))) (ell (b u (vtx 1 f)) (b u (vtx 2 f))) (ell (b u (vtx 2 f)) (b u (vtx 0 f))).
      generalize (f_un f : V). clear. intros. vring.
  Qed.

  Definition edgs (f : face RA) (u : R) : V :=
    (- (dt (cr (b u (vtx 0 f)) (b u (vtx 1 f))) a * seg3 (b u (vtx 0 f)) (b u (vtx 1 f)) +
        dt (cr (b u (vtx 1 f)) (b u (vtx 2 f))) a * seg3 (b u (vtx 1 f)) (b u (vtx 2 f)) +
        dt (cr (b u (vtx 2 f)) (b u (vtx 0 f))) a * seg3 (b u (vtx 2 f)) (b u (vtx 0 f))))%v.
  Definition Hf (f : face RA) (u : R) : V := (dt (f_un f) (b u (vtx 0 f)) * Phi f u)%v.
  Lemma Hf_der f u : In f (pl_faces p) -> 0 < u <= 1 ->
    vder (Hf f) u (hgt f * Phi f u + / u * edgs f u)%v.
  Proof.
    intros Hin Hu. destruct (facet_ne f Hin) as [D1 [D2 [D3 [HN Hn]]]].
    eapply vder_eq.
    - unfold Hf. apply (vder_sc (fun s => dt (f_un f) (b s (vtx 0 f))) (Phi f)).
      + apply (dt_der (fun _ => f_un f) (fun s => b s (vtx 0 f))); [apply vder_const|apply vder_line].
      + apply Phi_der; auto.
    - unfold edgs.
      assert (EN : cr (b u (vtx 1 f) - b u (vtx 0 f)) (b u (vtx 2 f) - b u (vtx 0 f)) = (u * u * cr (vtx 1 f - vtx 0 f) (vtx 2 f - vtx 0 f))%v)
        by (unfold b; vring).
      rewrite <- (FF_gradient (f_un f) (b u (vtx 0 f)) (b u (vtx 1 f)) (b u (vtx 2 f)) a (vol_off3 f u Hin ltac:(lra))).
      + unfold hgt. rewrite dt_0_l.
        generalize (dt (f_un f) (b u (vtx 0 f))) (/ u) (Phi f u) (dt (f_un f) (vtx 0 f - q0)%v).
        generalize (dt (gom (b u (vtx 0 f)) (b u (vtx 1 f)) (b u (vtx 2 f))) a) (cr (dIs (b u (vtx 0 f)) (b u (vtx 1 f)) (b u (vtx 2 f)) a) (f_un f)).
        generalize (f_un f : V). clear. intros. vring.
      + rewrite EN. apply sc_nz; [nra|exact HN].
      + rewrite EN. rewrite uu_sc; [exact Hn|nra|exact HN].
  Qed.

  Lemma Htot : is_vint (fun u => vsum (fun f => hgt f * Phi f u)%v (pl_faces p)) 0 1
    (vsum (fun f => Hf f 1) (pl_faces p) - vsum (fun f => Hf f 0) (pl_faces p))%v.
  Proof.
    apply (vftc_open (fun u => vsum (fun f => Hf f u) (pl_faces p))).
    - lra.
    - intros u Hu. eapply vder_eq; [apply (vder_vsum Hf); intros f Hin; apply Hf_der; auto; lra|].
      assert (Z : vsum (fun f => edgs f u) (pl_faces p) = v0) by (apply (edge_cancel p Hcl (b u) a)).
      assert (S : forall l, vsum (fun f => hgt f * Phi f u + / u * edgs f u)%v l =
         (vsum (fun f => hgt f * Phi f u)%v l + / u * vsum (fun f => edgs f u) l)%v).
      { induction l as [|f l IH]; cbn [vsum fold_right]; [vring|].
        fold (vsum (fun f => hgt f * Phi f u + / u * edgs f u)%v l) (vsum (fun f => hgt f * Phi f u)%v l) (vsum (fun f => edgs f u) l).
        rewrite IH. generalize (vsum (fun f => hgt f * Phi f u)%v l) (vsum (fun f => edgs f u) l) (hgt f * Phi f u)%v (edgs f u). intros. vring. }
      rewrite S, Z. generalize (vsum (fun f => hgt f * Phi f u)%v (pl_faces p)). intros. vring.
    - intros u Hu. apply (vcont_vsum Hf). intros f Hin. unfold Hf. apply vcont_sc; [|now apply Phi_cont].
      apply cont_dt2; [apply vcont_const|apply b_cont].
    - intros u Hu. apply (vcont_vsum (fun f u => (hgt f * Phi f u)%v)). intros f Hin.
      apply vcont_sc; [apply @continuous_const|now apply Phi_cont].
  Qed.

  Lemma Phi_0 f : Phi f 0 = v0.
  Proof.
    unfold Phi. rewrite !b_0.
    assert (Eo : om0 a a a = 0).
    { unfold om0. replace (det a a a) with 0 by (unfold det; vring). unfold Rdiv. rewrite Rmult_0_l, atan_0. ring. }
    assert (El : ell a a = 0).
    { unfold ell, elf. replace (a - a)%v with v0 by vring. rewrite nm_0. destruct (Req_dec (nm a) 0) as [Z|Z].
      - rewrite Z. replace ((0 + 0 + 0) / (0 + 0 - 0)) with 0 by (unfold Rdiv; ring).
        unfold ln. destruct (Rlt_dec 0 0) as [h|h]; [exfalso; exact (Rlt_irrefl 0 h)|reflexivity].
      - replace ((nm a + nm a + 0) / (nm a + nm a - 0)) with 1 by (field; lra). apply ln_1. }
    rewrite Eo, El. generalize (f_un f : V) (uv (vtx 0 f) (vtx 1 f)) (uv (vtx 1 f) (vtx 2 f)) (uv (vtx 2 f) (vtx 0 f)). intros. vring.
  Qed.

  (** the volume integral over the tetrahedron (q0, f) *)
  Lemma tet_integral f : In f (pl_faces p) ->
    exists I, volume_vintegral (fun x => field3 (x - o)) q0 (vtx 0 f) (vtx 1 f) (vtx 2 f) I /\
      is_vint (fun u => (hgt f * Phi f u)%v) 0 1 (- I)%v.
  Proof.
    intros Hin. destruct (facet_ne f Hin) as [D1 [D2 [D3 [HN Hn]]]].
    destruct (vint_cont (fun u => (hgt f * - Phi f u)%v) 0 1 ltac:(lra)) as [I HI].
    { intros u Hu. apply vcont_sc; [apply @continuous_const|]. destruct (Phi_cont f u Hin Hu) as [C1 [C2 C3]].
      split3; cbn [vn vx vy vz]; now apply @continuous_opp. }
    exists I. split.
    - assert (J : forall u, 0 < u <= 1 -> surface_vintegral (fun x => field3 (x - o))
         (dil q0 u (vtx 0 f)) (dil q0 u (vtx 1 f)) (dil q0 u (vtx 2 f)) (- Phi f u)%v).
      { intros u Hu. rewrite (Phi_FF0 f u Hin ltac:(lra)). rewrite <- !b_dil.
        rewrite Hn. rewrite <- (uu_sc (u * u) (cr (vtx 1 f - vtx 0 f) (vtx 2 f - vtx 0 f)) ltac:(nra) HN).
        rewrite <- (dil_cr q0). apply FF0_integral.
        - rewrite !b_dil. apply vol_out; auto; lra.
        - rewrite dil_cr. apply sc_nz; [nra|exact HN]. }
      destruct HI as [H1 [H2 H3]]. unfold hgt in H1, H2, H3. rewrite Hn in H1, H2, H3.
      split; [|split].
      + exists (fun u => vx (- Phi f u)%v). split; [intros u Hu; exact (proj1 (J u Hu))|exact H1].
      + exists (fun u => vy (- Phi f u)%v). split; [intros u Hu; exact (proj1 (proj2 (J u Hu)))|exact H2].
      + exists (fun u => vz (- Phi f u)%v). split; [intros u Hu; exact (proj2 (proj2 (J u Hu)))|exact H3].
    - destruct HI as [H1 [H2 H3]].
      split3; cbn [vn vx vy vz]; [apply @is_RInt_opp in H1; eapply is_RInt_ext; [|exact H1]|apply @is_RInt_opp in H2; eapply is_RInt_ext; [|exact H2]
        |apply @is_RInt_opp in H3; eapply is_RInt_ext; [|exact H3]]; intros u _; cbn [sc vn vx vy vz]; unfold opp; cbn;
        match goal with |- @eq _ ?l ?r => change (@eq R l r) end; ring.
  Qed.

  Lemma tet_integrals : exists If : face RA -> V, forall f, In f (pl_faces p) ->
    volume_vintegral (fun x => field3 (x - o)) q0 (vtx 0 f) (vtx 1 f) (vtx 2 f) (If f) /\
    is_vint (fun u => (hgt f * Phi f u)%v) 0 1 (- If f)%v.
  Proof.
    exists (fun f => (- V3 (RInt (fun u => vx (hgt f * Phi f u)%v) 0 1) (RInt (fun u => vy (hgt f * Phi f u)%v) 0 1)
       (RInt (fun u => vz (hgt f * Phi f u)%v) 0 1))%v).
    intros f Hin. destruct (tet_integral f Hin) as [I [HI HJ]].
    match goal with |- volume_vintegral _ _ _ _ _ ?J /\ _ => replace J with I; [split; [exact HI|exact HJ]|] end.
    destruct HJ as [J1 [J2 J3]]. apply (@is_RInt_unique R_CompleteNormedModule) in J1, J2, J3.
    rewrite J1, J2, J3. apply veq; cbn [vn vx vy vz]; ring.
  Qed.

  Lemma Hf_0 f : Hf f 0 = v0.
  Proof. unfold Hf. rewrite Phi_0. vring. Qed.

  Theorem volume_form : forall I : face RA -> V,
    (forall f, In f (pl_faces p) -> volume_vintegral (fun x => field3 (x - o)) q0 (vtx 0 f) (vtx 1 f) (vtx 2 f) (I f) /\
      is_vint (fun u => (hgt f * Phi f u)%v) 0 1 (- I f)%v) ->
    vsum (fun f : face RA => dt (f_un f) (vtx 0 f - o) * FF (f_un f) (vtx 0 f - o) (vtx 1 f - o) (vtx 2 f - o))%v (pl_faces p) =
    (- vsum I (pl_faces p))%v.
  Proof.
    intros I HI.
    pose proof (vint_sum (fun f u => (hgt f * Phi f u)%v) (fun f => (- I f)%v) (pl_faces p) 0 1 (fun f Hin => proj2 (HI f Hin))) as A.
    pose proof (vint_unique _ _ _ _ _ Htot A) as E.
    assert (Z : forall l, vsum (fun f => Hf f 0) l = v0).
    { induction l as [|f l IH]; cbn [vsum fold_right]; [reflexivity|]. fold (vsum (fun f => Hf f 0) l). rewrite IH, Hf_0. vring. }
    assert (O : forall l, vsum (fun f => (- I f)%v) l = (- vsum I l)%v).
    { induction l as [|f l IH]; cbn [vsum fold_right]; [vring|]. fold (vsum (fun f => (- I f)%v) l) (vsum I l). rewrite IH. vring. }
    rewrite Z, O in E. rewrite <- E.
    transitivity (vsum (fun f => Hf f 1) (pl_faces p)); [|generalize (vsum (fun f => Hf f 1) (pl_faces p)); intros; vring].
    apply vsum_ext. intros f Hin. unfold Hf. rewrite (Phi_FF0 f 1 Hin ltac:(lra)), !b_1.
    now rewrite FF_FF0_all.
  Qed.
End Volume.

(** ** The value of a surface or volume integral is unique *)
Lemma RInt_same (f g : R -> R) a b I J : a < b -> (forall x, a < x < b -> f x = g x) -> is_RInt f a b I -> is_RInt g a b J -> I = J.
Proof.
  intros Hab E HI HJ. assert (K : is_RInt g a b I).
  { eapply is_RInt_ext; [|exact HI]. rewrite Rmin_left, Rmax_right by lra. exact E. }
  apply (@is_RInt_unique R_CompleteNormedModule) in K, HJ. rewrite <- K. exact HJ.
Qed.
Lemma surface_unique f p1 p2 p3 I J : surface_integral f p1 p2 p3 I -> surface_integral f p1 p2 p3 J -> I = J.
Proof.
  intros [i [Hi HI]] [j [Hj HJ]]. eapply (RInt_same _ _ 0 1 I J); [lra| |exact HI|exact HJ].
  intros u Hu. cbv beta. f_equal. eapply (RInt_same _ _ 0 1 (i u) (j u)); [lra| |apply Hi; lra|apply Hj; lra]. reflexivity.
Qed.
Lemma volume_unique f q0 p1 p2 p3 I J : volume_integral f q0 p1 p2 p3 I -> volume_integral f q0 p1 p2 p3 J -> I = J.
Proof.
  intros [i [Hi HI]] [j [Hj HJ]]. eapply (RInt_same _ _ 0 1 I J); [lra| |exact HI|exact HJ].
  intros u Hu. cbv beta. f_equal. eapply surface_unique; [apply Hi; lra|apply Hj; lra].
Qed.
Lemma volume_vunique f q0 p1 p2 p3 I J : volume_vintegral f q0 p1 p2 p3 I -> volume_vintegral f q0 p1 p2 p3 J -> I = J.
Proof.
  intros [A1 [A2 A3]] [B1 [B2 B3]]. apply veq; eapply volume_unique; eassumption.
Qed.

(** ** The tetrahedron with its apex at the observer *)
Lemma field3_sc k r : 0 < k -> field3 (k * r) = (/ (k * k) * field3 r)%v.
Proof.
  intros Hk. unfold field3. rewrite nm_sc, Rabs_pos_eq by lra.
  destruct (Req_dec (nm r) 0) as [Z|Z].
  - apply nm_zero in Z. rewrite Z. vring.
  - assert (E : / (k * nm r * (k * nm r) * (k * nm r)) * k = / (k * k) * / (nm r * nm r * nm r)) by (field; split; lra).
    generalize dependent (/ (k * nm r * (k * nm r) * (k * nm r))). generalize (/ (k * k)) (/ (nm r * nm r * nm r)).
    intros x y z E. apply veq; cbn [sc vx vy vz]; rewrite <- (Rmult_assoc z), E; ring.
Qed.
Lemma cone_point o k p1 p2 p3 u v : (tri_point (dil o k p1) (dil o k p2) (dil o k p3) u v - o = k * (tri_point p1 p2 p3 u v - o))%v.
Proof. unfold tri_point, dil. vring. Qed.
Lemma cone_comp (c : V -> R) o p1 p2 p3 I : (forall k w, c (k * w)%v = k * c w) ->
  surface_integral (fun x => c (field3 (x - o))) p1 p2 p3 I ->
  volume_integral (fun x => c (field3 (x - o))) o p1 p2 p3 (dt (uu (cr (p2 - p1) (p3 - p1))) (p1 - o) * I).
Proof.
  intros Hc [i [Hi HI]]. exists (fun _ => I). split.
  - intros k Hk. exists (fun u => / (k * k) * i u). split.
    + intros u Hu. eapply is_RInt_ext; [|apply (is_RInt_scal (V := R_NormedModule)), (Hi u Hu)].
      intros v _. cbv beta. rewrite cone_point, field3_sc, Hc by lra. reflexivity.
    + eapply is_RInt_ext; [|exact HI]. intros u _. cbv beta. rewrite dil_cr, nm_sc, Rabs_pos_eq by nra.
      match goal with |- @eq _ ?l ?r => change (@eq R l r) end. field. lra.
  - pose proof (is_RInt_const (V := R_NormedModule) 0 1 (dt (uu (cr (p2 - p1) (p3 - p1))) (p1 - o) * I)) as H.
    unfold scal in H; cbn in H; unfold mult in H; cbn in H. rewrite Rminus_0_r, Rmult_1_l in H. exact H.
Qed.
Lemma cone_integral o p1 p2 p3 I : surface_vintegral (fun x => field3 (x - o)) p1 p2 p3 I ->
  volume_vintegral (fun x => field3 (x - o)) o p1 p2 p3 (dt (uu (cr (p2 - p1) (p3 - p1))) (p1 - o) * I)%v.
Proof.
  intros [H1 [H2 H3]]. split; [|split].
  - exact (cone_comp vx o p1 p2 p3 _ (fun k w => eq_refl) H1).
  - exact (cone_comp vy o p1 p2 p3 _ (fun k w => eq_refl) H2).
  - exact (cone_comp vz o p1 p2 p3 _ (fun k w => eq_refl) H3).
Qed.

(** ** Convex bodies: the tetrahedra on a point behind every facet *)
Lemma hull_free p o q0 f : closed p -> behind p -> In f (pl_faces p) -> dt (f_un f) (vtx 0 f - o) < 0 ->
  (forall g, In g (pl_faces p) -> 0 <= dt (f_un g) (vtx 0 g - q0)) ->
  forall g u, In g (pl_faces p) -> 0 <= u <= 1 -> ~ on_tri o (dil q0 u (vtx 0 g)) (dil q0 u (vtx 1 g)) (dil q0 u (vtx 2 g)).
Proof.
  intros Hc Hb Hf Ho Hq g u Hg Hu [r [s [t [Hr [Hs [Ht [E K]]]]]]].
  assert (B : forall i, (i < 3)%nat -> dt (f_un f) (vtx i g - vtx 0 f) <= 0).
  { intros i Hi. apply (Hb f g); auto. destruct (proj1 Hc g Hg) as (p1 & p2 & p3 & HF).
    unfold vtx, pnth. apply nth_In. destruct HF as [[-> _] _]. simpl; lia. }
  pose proof (B 0%nat ltac:(lia)) as B0. pose proof (B 1%nat ltac:(lia)) as B1. pose proof (B 2%nat ltac:(lia)) as B2.
  pose proof (Hq f Hf) as Q.
  apply (f_equal (fun w => dt (f_un f) (vtx 0 f - w))) in K.
  replace (dt (f_un f) (vtx 0 f - (r * dil q0 u (vtx 0 g) + s * dil q0 u (vtx 1 g) + t * dil q0 u (vtx 2 g))))%v
    with ((1 - u) * dt (f_un f) (vtx 0 f - q0) - u * (r * dt (f_un f) (vtx 0 g - vtx 0 f) + s * dt (f_un f) (vtx 1 g - vtx 0 f) + t * dt (f_un f) (vtx 2 g - vtx 0 f))) in K.
  2:{ replace r with (1 - s - t) by lra. unfold dil.
      generalize (f_un f : V) (vtx 0 f) (vtx 0 g) (vtx 1 g) (vtx 2 g). intros. vring. }
  set (x := dt (f_un f) (vtx 0 g - vtx 0 f)) in *. set (y := dt (f_un f) (vtx 1 g - vtx 0 f)) in *.
  set (z := dt (f_un f) (vtx 2 g - vtx 0 f)) in *. set (w := dt (f_un f) (vtx 0 f - q0)) in *. set (d := dt (f_un f) (vtx 0 f - o)) in *.
  pose proof (Rmult_le_pos r (- x) Hr ltac:(lra)). pose proof (Rmult_le_pos s (- y) Hs ltac:(lra)).
  pose proof (Rmult_le_pos t (- z) Ht ltac:(lra)). pose proof (Rmult_le_pos (1 - u) w ltac:(lra) Q).
  pose proof (Rmult_le_pos u (- (r * x + s * y + t * z)) ltac:(lra) ltac:(lra)). lra.
Qed.

(** the observer is strictly beyond facet i *)
Definition beyondb (h : zhull) (o : ZV) (i : nat) : bool :=
  all3 (sim h i) (fun x y z =>
    negb (neb x y && neb y z && neb z x) ||
    Z.ltb (zdt (znrm3 h x y z) (zsub (zpt h x) o)) 0 ||
    existsb (fun k => Z.ltb 0 (zdt (znrm3 h x y z) (zsub (zpt h k) (zpt h x)))) (z_vertices h)).
Lemma beyondb_ok h o i f : beyondb h o i = true -> face_of (rh h) i f -> dt (f_un f) (vtx 0 f - rv o) < 0.
Proof.
  intros H (s & x & y & z & t1 & t2 & t3 & Hs & HP & D1 & D2 & D3 & (N & O & _) & Pf & _ & U & _).
  cbn [rh h_simplices] in Hs.
  assert (Es : sim h i = s) by (unfold sim; now apply nth_error_nth).
  assert (Hin : forall k, In k [x; y; z] -> In k s) by (intros; eapply Permutation_in; [apply Permutation_sym; exact HP|auto]).
  unfold beyondb in H. rewrite Es in H.
  apply (all3_ok _ _ x y z) in H; [|apply Hin; simpl; auto|apply Hin; simpl; auto|apply Hin; simpl; auto].
  unfold vtx, pnth. rewrite Pf. cbn [nth]. rewrite U.
  change (tri_normal (pt (rh h) x) (pt (rh h) y) (pt (rh h) z)) with (/ nm (nrm3 (rh h) x y z) * nrm3 (rh h) x y z)%v. rewrite dt_sc_l.
  assert (0 < / nm (nrm3 (rh h) x y z)) by (apply Rinv_0_lt_compat, nm_pos; exact N).
  enough (dt (nrm3 (rh h) x y z) (pt (rh h) x - rv o) < 0) by nra. rewrite nrm3_rh, pt_rh, rv_sub, rv_dt.
  apply orb_true_iff in H. destruct H as [H|H]. apply orb_true_iff in H. destruct H as [H|H].
  - exfalso. apply negb_true_iff in H.
    rewrite (proj2 (neb_ne x y) D1), (proj2 (neb_ne y z) D2), (proj2 (neb_ne z x) D3) in H. discriminate.
  - now apply Z.ltb_lt, IZR_lt in H.
  - exfalso. apply existsb_exists in H. destruct H as [k [Hk H]]. apply Z.ltb_lt, IZR_lt in H.
    specialize (O k Hk). rewrite nrm3_rh, !pt_rh, rv_sub, rv_dt in O. lra.
Qed.

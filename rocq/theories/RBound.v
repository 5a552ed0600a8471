(** * Order of integrals, and bounds of the attraction of a body *)
From Coq Require Import Reals Lra Psatz ZArith Bool List Permutation Arith Lia.
Import ListNotations.
From Coquelicot Require Import Coquelicot.
From Verif Require Import Base MUtils MEdge MFace MHull MPoly SpecPoly PPoly PStation PPlain.
From Verif Require Import RVec RArith REdge REdgeModel RAngle ROmega RFace RFacet RPoly RTwin RField RHull RHullZ RMoved RGlue RRay RTrace RFlux RVolume RSolid.
Local Open Scope R_scope.
Local Open Scope list_scope.

(** ** Monotonicity *)
Lemma RInt_mono (f g : R -> R) a b I J : a <= b -> is_RInt f a b I -> is_RInt g a b J ->
  (forall x, a < x < b -> f x <= g x) -> I <= J.
Proof. intros Hab HI HJ H. exact (is_RInt_le f g a b I J Hab HI HJ H). Qed.
Lemma surface_mono f g p1 p2 p3 I J : surface_integral f p1 p2 p3 I -> surface_integral g p1 p2 p3 J ->
  (forall u v, 0 <= u <= 1 -> 0 <= v <= 1 -> f (tri_point p1 p2 p3 u v) <= g (tri_point p1 p2 p3 u v)) -> I <= J.
Proof.
  intros [i [Hi HI]] [j [Hj HJ]] H. eapply (RInt_mono _ _ 0 1 I J); [lra|exact HI|exact HJ|].
  intros u Hu. cbv beta. pose proof (nm_nonneg (cr (p2 - p1) (p3 - p1))) as HN.
  assert (K : i u <= j u).
  { eapply (RInt_mono _ _ 0 1); [lra|apply Hi; lra|apply Hj; lra|]. intros v Hv. cbv beta. apply H; lra. }
  apply Rmult_le_compat_l; [|exact K]. apply Rmult_le_pos; lra.
Qed.
Lemma volume_mono f g q0 p1 p2 p3 I J : 0 <= dt (uu (cr (p2 - p1) (p3 - p1))) (p1 - q0) ->
  volume_integral f q0 p1 p2 p3 I -> volume_integral g q0 p1 p2 p3 J ->
  (forall s u v, 0 <= s <= 1 -> 0 <= u <= 1 -> 0 <= v <= 1 ->
     let x := tri_point (dil q0 s p1) (dil q0 s p2) (dil q0 s p3) u v in f x <= g x) -> I <= J.
Proof.
  intros Hh [i [Hi HI]] [j [Hj HJ]] H. eapply (RInt_mono _ _ 0 1 I J); [lra|exact HI|exact HJ|].
  intros s Hs. cbv beta. apply Rmult_le_compat_l; [exact Hh|].
  eapply surface_mono; [apply Hi; lra|apply Hj; lra|]. intros u v Hu Hv. apply H; lra.
Qed.
Lemma volume_lin f g q0 p1 p2 p3 x y I J :
  volume_integral f q0 p1 p2 p3 I -> volume_integral g q0 p1 p2 p3 J ->
  volume_integral (fun s => x * f s + y * g s) q0 p1 p2 p3 (x * I + y * J).
Proof.
  intros [i [Hi HI]] [j [Hj HJ]]. exists (fun u => x * i u + y * j u). split.
  - intros u Hu. apply surface_lin; auto.
  - eapply is_RInt_ext; [|apply (is_RInt_lin _ _ 0 1 x y _ _ HI HJ)]. intros u _. cbv beta.
    match goal with |- @eq _ ?l ?r => change (@eq R l r) end. ring.
Qed.
Lemma volume_ext2 f g q0 p1 p2 p3 I : (forall x, f x = g x) -> volume_integral f q0 p1 p2 p3 I -> volume_integral g q0 p1 p2 p3 I.
Proof. intros E [i [Hi HI]]. exists i. split; [|exact HI]. intros u Hu. eapply surface_ext; [exact E|now apply Hi]. Qed.
Lemma volume_dt f q0 p1 p2 p3 I w : volume_vintegral f q0 p1 p2 p3 I -> volume_integral (fun x => dt w (f x)) q0 p1 p2 p3 (dt w I).
Proof.
  intros [Hx [Hy Hz]]. unfold dt.
  pose proof (volume_lin _ _ q0 p1 p2 p3 1 (vz w) _ _ (volume_lin _ _ q0 p1 p2 p3 (vx w) (vy w) _ _ Hx Hy) Hz) as H.
  replace (vx w * vx I + vy w * vy I + vz w * vz I) with (1 * (vx w * vx I + vy w * vy I) + vz w * vz I) by ring.
  eapply volume_ext2; [|exact H]. intros x. cbv beta. ring.
Qed.
Lemma volume_const c q0 p1 p2 p3 : cr (p2 - p1) (p3 - p1) <> v0 ->
  volume_integral (fun _ => c) q0 p1 p2 p3 (c * (det (p1 - q0) (p2 - q0) (p3 - q0) / 6)).
Proof.
  intros HN. pose proof (volume_one q0 p1 p2 p3 HN) as H.
  pose proof (volume_lin _ _ q0 p1 p2 p3 c 0 _ _ H H) as K. 
  replace (c * (det (p1 - q0) (p2 - q0) (p3 - q0) / 6)) with
    (c * (det (p1 - q0) (p2 - q0) (p3 - q0) / 6) + 0 * (det (p1 - q0) (p2 - q0) (p3 - q0) / 6)) by ring.
  eapply volume_ext2; [|exact K]. intros x. cbv beta. ring.
Qed.

(** ** Points of a tetrahedron *)
(** a set of points that contains the segments between its points *)
Definition convex (P : V -> Prop) : Prop :=
  forall x y t, P x -> P y -> 0 <= t <= 1 -> P (x + t * (y - x))%v.
Lemma tetra_point P q0 p1 p2 p3 s u v : convex P -> P q0 -> P p1 -> P p2 -> P p3 ->
  0 <= s <= 1 -> 0 <= u <= 1 -> 0 <= v <= 1 -> P (tri_point (dil q0 s p1) (dil q0 s p2) (dil q0 s p3) u v).
Proof.
  intros HC H0 H1 H2 H3 Hs Hu Hv.
  assert (A : P (p2 + v * (p3 - p2))%v) by (apply HC; auto).
  assert (B : P (p1 + u * ((p2 + v * (p3 - p2)) - p1))%v) by (apply HC; auto).
  assert (C := HC _ _ s H0 B Hs).
  replace (tri_point (dil q0 s p1) (dil q0 s p2) (dil q0 s p3) u v) with
    (q0 + s * ((p1 + u * ((p2 + v * (p3 - p2)) - p1)) - q0))%v; [exact C|]. unfold tri_point, dil. vring.
Qed.
Lemma half_convex z o m : convex (fun x => m <= dt z (x - o)).
Proof.
  intros x y t Hx Hy Ht. replace (dt z (x + t * (y - x) - o)%v) with ((1 - t) * dt z (x - o) + t * dt z (y - o)) by vring.
  pose proof (Rmult_le_pos (1 - t) (dt z (x - o) - m) ltac:(lra) ltac:(lra)).
  pose proof (Rmult_le_pos t (dt z (y - o) - m) ltac:(lra) ltac:(lra)). lra.
Qed.
Lemma ball_convex o M : convex (fun x => nm (x - o) <= M).
Proof.
  intros x y t Hx Hy Ht. replace (x + t * (y - x) - o)%v with ((1 - t) * (x - o) + t * (y - o))%v by vring.
  eapply Rle_trans; [apply triangle|]. rewrite !nm_sc, !Rabs_pos_eq by lra.
  pose proof (Rmult_le_compat_l (1 - t) _ _ ltac:(lra) Hx). pose proof (Rmult_le_compat_l t _ _ ltac:(lra) Hy). lra.
Qed.
Lemma and_convex P Q : convex P -> convex Q -> convex (fun x => P x /\ Q x).
Proof. intros HP HQ x y t [? ?] [? ?] Ht. split; [now apply HP|now apply HQ]. Qed.

(** ** The signed volume of a body *)
Definition signed_volume (p : polyhedron RA) : R := rsum (fun f => det (vtx 0 f) (vtx 1 f) (vtx 2 f) / 6) (pl_faces p).
Lemma volume_from p q0 : closed p ->
  rsum (fun f => det (vtx 0 f - q0) (vtx 1 f - q0) (vtx 2 f - q0) / 6) (pl_faces p) = signed_volume p.
Proof.
  intros Hc. unfold signed_volume.
  rewrite <- (Rplus_0_r (rsum (fun f => det (vtx 0 f) (vtx 1 f) (vtx 2 f) / 6) (pl_faces p))).
  rewrite <- (antisym_sum p (fun q r => - dt q0 (cr q r) / 6) Hc) by (intros q r; rewrite (cr_anti q r), dt_opp_r; field).
  rewrite <- rsum_plus. apply rsum_ext. intros f _. unfold det. generalize (vtx 0 f) (vtx 1 f) (vtx 2 f). intros a b c.
  unfold dt, cr, vm; cbn [vx vy vz]. field.
Qed.
Lemma rsum_mono {X} (h k : X -> R) l : (forall x, In x l -> h x <= k x) -> rsum h l <= rsum k l.
Proof.
  induction l as [|x l IH]; intros H; unfold rsum; cbn [fold_right]; [lra|].
  apply Rplus_le_compat; [apply H; now left|]. apply IH. intros y Hy. apply H. now right.
Qed.

Section Bound.
  Variables (p : polyhedron RA) (q0 : V) (F : V -> V) (If : face RA -> V) (P : V -> Prop).
  Hypothesis Hc : closed p.
  Hypothesis Hq : forall f, In f (pl_faces p) -> 0 <= dt (f_un f) (vtx 0 f - q0).
  Hypothesis HI : forall f, In f (pl_faces p) -> volume_vintegral F q0 (vtx 0 f) (vtx 1 f) (vtx 2 f) (If f).
  Hypothesis HC : convex P.
  Hypothesis HP : forall f, In f (pl_faces p) -> P q0 /\ P (vtx 0 f) /\ P (vtx 1 f) /\ P (vtx 2 f).
  Lemma volume_nonneg : 0 <= signed_volume p.
  Proof.
    rewrite <- (volume_from p q0 Hc). rewrite <- (rsum_zero (pl_faces p)). apply rsum_mono. intros f Hf.
    pose proof (Hq f Hf) as H. destruct (facet_ne p Hc f Hf) as (_ & _ & _ & HN & Hu). rewrite Hu in H. unfold uu in H. rewrite dt_sc_l in H.
    replace (det (vtx 0 f - q0) (vtx 1 f - q0) (vtx 2 f - q0)) with (dt (cr (vtx 1 f - vtx 0 f) (vtx 2 f - vtx 0 f)) (vtx 0 f - q0))
      by (unfold det; generalize (vtx 0 f) (vtx 1 f) (vtx 2 f); intros; vring).
    apply nm_pos in HN. assert (0 < / nm (cr (vtx 1 f - vtx 0 f) (vtx 2 f - vtx 0 f))) by now apply Rinv_0_lt_compat.
    enough (0 <= dt (cr (vtx 1 f - vtx 0 f) (vtx 2 f - vtx 0 f)) (vtx 0 f - q0)) by lra.
    apply Rmult_le_reg_l with (/ nm (cr (vtx 1 f - vtx 0 f) (vtx 2 f - vtx 0 f))); [assumption|]. now rewrite Rmult_0_r.
  Qed.
  Lemma body_upper w c : (forall x, P x -> dt w (F x) <= c) -> dt w (vsum If (pl_faces p)) <= c * signed_volume p.
  Proof.
    intros H. rewrite <- (volume_from p q0 Hc), <- rsum_scal, dt_comm, dt_vsum. apply rsum_mono. intros f Hf. rewrite dt_comm.
    destruct (facet_ne p Hc f Hf) as (_ & _ & _ & HN & Hu). destruct (HP f Hf) as (P0 & P1 & P2 & P3).
    eapply volume_mono; [|apply volume_dt, (HI f Hf)|apply (volume_const c); exact HN|].
    - rewrite <- Hu. apply Hq, Hf.
    - intros s u v Hs Hu' Hv. cbv zeta beta. apply H. now apply tetra_point.
  Qed.
  Lemma body_lower w c : (forall x, P x -> c <= dt w (F x)) -> c * signed_volume p <= dt w (vsum If (pl_faces p)).
  Proof.
    intros H. pose proof (body_upper (- w)%v (- c)) as K. rewrite dt_opp_l in K.
    assert (forall x, P x -> dt (- w) (F x) <= - c) by (intros x Hx; rewrite dt_opp_l; specialize (H x Hx); lra).
    specialize (K H0). lra.
  Qed.
  (** a vector bound *)
  Lemma body_near v c : 0 <= c -> (forall x, P x -> nm (F x - v) <= c) -> nm (vsum If (pl_faces p) - signed_volume p * v) <= c * signed_volume p.
  Proof.
    intros Hc0 H. pose proof volume_nonneg as HV.
    set (X := (vsum If (pl_faces p) - signed_volume p * v)%v). destruct (Req_dec (nm X) 0) as [Z|Z].
    { rewrite Z. now apply Rmult_le_pos. }
    assert (K : dt X (vsum If (pl_faces p)) <= (nm X * c + dt X v) * signed_volume p).
    { apply body_upper. intros x Hx. pose proof (cs_upper X (F x - v)%v) as C. rewrite dt_sub_r in C.
      pose proof (Rmult_le_compat_l (nm X) _ _ (nm_nonneg X) (H x Hx)). lra. }
    assert (E : dt X X = dt X (vsum If (pl_faces p)) - signed_volume p * dt X v).
    { unfold X at 2. now rewrite dt_sub_r, dt_sc_r. }
    rewrite <- nm_sq in E. pose proof (nm_nonneg X).
    apply Rmult_le_reg_l with (nm X); [lra|]. lra.
  Qed.
End Bound.

(** ** Bounds of the kernel *)
Lemma nm_unit_dt z x : dt z z = 1 -> dt z x <= nm x.
Proof.
  intros Hz. pose proof (cs_upper z x) as C. replace (nm z) with 1 in C; [lra|]. symmetry. apply nm_uniq; lra.
Qed.
Lemma field3_norm r : 0 < nm r -> nm (field3 r) = / (nm r * nm r).
Proof.
  intros H. unfold field3. assert (0 < nm r * nm r * nm r) by (apply Rmult_lt_0_compat; [apply Rmult_lt_0_compat|]; lra).
  rewrite nm_sc, Rabs_pos_eq by (left; now apply Rinv_0_lt_compat). field. lra.
Qed.
Lemma field3_upper r z m : dt z z = 1 -> 0 < m -> m <= dt z r -> nm (field3 r) <= / (m * m).
Proof.
  intros Hz Hm H. pose proof (nm_unit_dt z r Hz). rewrite field3_norm by lra.
  apply Rinv_le_contravar; [now apply Rmult_lt_0_compat|]. apply Rmult_le_compat; lra.
Qed.
Lemma field3_lower r z m M : dt z z = 1 -> 0 < m -> m <= dt z r -> nm r <= M -> m / (M * M * M) <= dt z (field3 r).
Proof.
  intros Hz Hm H HM. pose proof (nm_unit_dt z r Hz). unfold field3. rewrite dt_sc_r. unfold Rdiv. rewrite Rmult_comm.
  assert (0 < nm r) by lra.
  assert (0 < nm r * nm r * nm r) by (apply Rmult_lt_0_compat; [apply Rmult_lt_0_compat|]; lra).
  assert (nm r * nm r * nm r <= M * M * M).
  { apply Rmult_le_compat; [apply Rmult_le_pos; lra|lra| |lra]. apply Rmult_le_compat; lra. }
  apply Rmult_le_compat; [left; apply Rinv_0_lt_compat; lra|lra| |exact H].
  apply Rinv_le_contravar; assumption.
Qed.
(** the kernel from far away *)
Lemma field3_far D y z Rr : dt z z = 1 -> nm y <= Rr -> 0 < D -> 2 * Rr <= D ->
  nm (field3 (D * z + y) - / (D * D) * z) <= 46 * Rr / (D * D * D).
Proof.
  intros Hz Hy HD H2. pose proof (nm_nonneg y). set (r := (D * z + y)%v).
  assert (Nz : nm z = 1) by (apply nm_uniq; lra).
  assert (U : nm r <= D + Rr).
  { unfold r. eapply Rle_trans; [apply triangle|]. rewrite nm_sc, Nz, Rabs_pos_eq by lra. lra. }
  assert (L : D - Rr <= nm r).
  { pose proof (triangle r (- y)%v) as T. rewrite nm_opp in T. replace (r + - y)%v with (D * z)%v in T by (unfold r; vring).
    rewrite nm_sc, Nz, Rabs_pos_eq in T by lra. lra. }
  set (n := nm r) in *. assert (Hn : D / 2 <= n) by lra. assert (Hn0 : 0 < n) by lra.
  assert (HD3 : 0 < D * D * D) by (repeat apply Rmult_lt_0_compat; lra).
  assert (Hn3 : 0 < n * n * n) by (repeat apply Rmult_lt_0_compat; lra).
  assert (I : / (n * n * n) <= 8 / (D * D * D)).
  { replace (8 / (D * D * D)) with (/ (D / 2 * (D / 2) * (D / 2))) by (field; lra).
    apply Rinv_le_contravar; [repeat apply Rmult_lt_0_compat; lra|].
    apply Rmult_le_compat; [apply Rmult_le_pos; lra|lra| |lra]. apply Rmult_le_compat; lra. }
  assert (E : (field3 r - / (D * D) * z)%v = (/ (n * n * n) * y + (D * (/ (n * n * n) - / (D * D * D))) * z)%v).
  { unfold field3. fold n. unfold r. 
    assert (Q : / (D * D) = D * / (D * D * D)) by (field; lra). rewrite Q.
    generalize (/ (n * n * n)) (/ (D * D * D)). intros a b. vring. }
  rewrite E. eapply Rle_trans; [apply triangle|]. rewrite !nm_sc, Nz, Rmult_1_r.
  rewrite (Rabs_pos_eq (/ (n * n * n))) by (left; now apply Rinv_0_lt_compat).
  assert (A1 : / (n * n * n) * nm y <= 8 / (D * D * D) * Rr).
  { apply Rmult_le_compat; try lra. left; now apply Rinv_0_lt_compat. }
  assert (A2 : Rabs (D * (/ (n * n * n) - / (D * D * D))) <= 38 * Rr / (D * D * D)).
  { replace (D * (/ (n * n * n) - / (D * D * D))) with ((D - n) * ((D * D + D * n + n * n) / (D * D)) * / (n * n * n)) by (field; lra).
    rewrite !Rabs_mult. rewrite (Rabs_pos_eq (/ (n * n * n))) by (left; now apply Rinv_0_lt_compat).
    assert (B1 : Rabs (D - n) <= Rr) by (apply Rabs_le; lra).
    assert (B2 : Rabs ((D * D + D * n + n * n) / (D * D)) <= 19 / 4).
    { rewrite Rabs_pos_eq.
      - apply Rmult_le_reg_r with (D * D); [apply Rmult_lt_0_compat; lra|]. unfold Rdiv at 1. rewrite Rmult_assoc, Rinv_l, Rmult_1_r by nra.
        assert (n <= 3 / 2 * D) by lra. nra.
      - apply Rmult_le_pos; [nra|]. left. apply Rinv_0_lt_compat. nra. }
    replace (38 * Rr / (D * D * D)) with (Rr * (19 / 4) * (8 / (D * D * D))) by (field; lra).
    apply Rmult_le_compat; [apply Rmult_le_pos; apply Rabs_pos|left; now apply Rinv_0_lt_compat| |exact I].
    apply Rmult_le_compat; auto using Rabs_pos. }
  replace (46 * Rr / (D * D * D)) with (8 / (D * D * D) * Rr + 38 * Rr / (D * D * D)) by (field; lra). lra.
Qed.

(** * Dependence of a call on density and gravitational constant *)
From Coq Require Import Reals Lra ZArith Bool List Arith.
Import ListNotations.
From Verif Require Import Base MUtils MEdge MFace MHull MPoly SpecPoly PPoly PStation.
From Verif Require Import RVec RArith REdge REdgeModel.
Local Open Scope R_scope.

(** ** Control flow: every arithmetic *)
(** same kind of outcome: both return, or both raise the same exception *)
Definition same_kind {X Y} (r : res X) (r' : res Y) : Prop :=
  match r, r' with Ok _, Ok _ => True | Err e, Err e' => e = e' | _, _ => False end.

Section Flow.
  Context {A : arith}.
  Lemma spec_face_flow tw o d G d' G' g c fi (f : face A) :
    match spec_face tw o d G g c fi f, spec_face tw o d' G' g c fi f with
    | Ok (_, _, c1), Ok (_, _, c2) => c1 = c2
    | Err e, Err e' => e = e'
    | _, _ => False
    end.
  Proof.
    unfold spec_face. destruct (get_omega _ _ _ _ _) as [od|e]; simpl; auto.
    destruct (sum_edges _ _ _ _ _ _) as [[[[pqr dpqr]|] c']|e]; simpl; auto.
    destruct g; auto. destruct dpqr; auto.
  Qed.
  Lemma spec_faces_flow tw o d G d' G' g fs : forall c GT GT',
    same_kind (spec_faces (A := A) tw o d G g c GT fs) (spec_faces tw o d' G' g c GT' fs).
  Proof.
    induction fs as [|[fi f] fs IH]; intros c GT GT'; simpl; auto.
    pose proof (spec_face_flow tw o d G d' G' g c fi f) as H.
    destruct (spec_face tw o d G g c fi f) as [[[g1 t1] c1]|e];
      destruct (spec_face tw o d' G' g c fi f) as [[[g2 t2] c2]|e']; simpl; try contradiction; auto.
    subst. apply IH.
  Qed.
  Lemma spec_flow (p : polyhedron A) o d G d' G' g :
    same_kind (spec_gravity p o d G g) (spec_gravity p o d' G' g).
  Proof. apply spec_faces_flow. Qed.
End Flow.

(** ** Values: real numbers *)
Definition msc (k : R) (m : vec3 V) : vec3 V := V3 (k * vx m)%v (k * vy m)%v (k * vz m)%v.
Definition scale_res (k : R) (r : res (V * vec3 V)) : res (V * vec3 V) :=
  match r with Ok (g, t) => Ok ((k * g)%v, msc k t) | Err e => Err e end.

Lemma face_g_scale un d G d' G' k dp1 w pqr : d' * G' = k * (d * G) ->
  face_g (A := RA) un d' G' dp1 w pqr = (k * face_g (A := RA) un d G dp1 w pqr)%v.
Proof.
  intros H. unfold face_g, face_factor, face_bracket, vscale, vmap. destruct un as [L M N], pqr as [P Q S].
  toR. unfold sc; cbn [vx vy vz].
  assert (E : dp1 * (- d' * G' * 100000) = k * (dp1 * (- d * G * 100000))).
  { replace (dp1 * (- d' * G' * 100000)) with (- dp1 * 100000 * (d' * G')) by ring. rewrite H. ring. }
  f_equal; toR; rewrite E; ring.
Qed.
Lemma face_tensor_scale un d G d' G' k dp1 w dw pqr dpqr : d' * G' = k * (d * G) ->
  face_tensor (A := RA) un d' G' dp1 w dw pqr dpqr = msc k (face_tensor (A := RA) un d G dp1 w dw pqr dpqr).
Proof.
  intros H. destruct un as [L M N], pqr as [P Q S], dw as [w1 w2 w3], dpqr as [[a1 a2 a3] [b1 b2 b3] [c1 c2 c3]].
  unfold face_tensor, face_factor, face_bracket. unfold msc, sc; cbn [vx vy vz vopp vmap]. toR.
  assert (E : - d' * G' * 100000 * 10000 = k * (- d * G * 100000 * 10000)).
  { replace (- d' * G' * 100000 * 10000) with (-1000000000 * (d' * G')) by ring. rewrite H. ring. }
  cbn [vx vy vz]. toR. rewrite E. f_equal; f_equal; ring.
Qed.

Lemma spec_faces_scale tw o d G d' G' k g fs : d' * G' = k * (d * G) -> forall c Gt T,
  spec_faces (A := RA) tw o d' G' g c ((k * Gt)%v, msc k T) fs =
  scale_res k (spec_faces (A := RA) tw o d G g c (Gt, T) fs).
Proof.
  intros H. induction fs as [|[fi f] fs IH]; intros c Gt T; [reflexivity|].
  cbn [spec_faces]. unfold spec_face.
  destruct (get_omega _ _ _ _ _) as [od|e]; [|reflexivity]. cbn [bind].
  destruct (sum_edges _ _ _ _ _ _) as [[[[pqr dpqr]|] c']|e]; try reflexivity. cbn [bind fst snd].
  assert (EG : forall x y : V, vadd (A := RA) (k * x)%v (k * y)%v = (k * vadd (A := RA) x y)%v) by (intros; toR; vring).
  assert (EM : forall x y : vec3 V, madd (A := RA) (msc k x) (msc k y) = msc k (madd (A := RA) x y)).
  { intros [x1 x2 x3] [y1 y2 y3]. unfold madd, vmap2, msc; cbn [vx vy vz]. now rewrite !EG. }
  destruct g; [destruct dpqr as [m|]; [|reflexivity]|]; cbn [bind fst snd].
  - rewrite (face_g_scale _ d G d' G' k), (face_tensor_scale _ d G d' G' k) by exact H.
    etransitivity; [|apply IH]. f_equal. f_equal; [apply EG|apply EM].
  - rewrite (face_g_scale _ d G d' G' k) by exact H.
    etransitivity; [|apply IH]. f_equal. f_equal; [apply EG|].
    rewrite <- EM. f_equal. unfold mzero, msc, vzero; cbn [vx vy vz]. unfold sc; cbn [vx vy vz].
    change (nofZ (a := RA) 0) with 0%R. now rewrite Rmult_0_r.
Qed.
Lemma spec_scale p o d G d' G' k g : d' * G' = k * (d * G) ->
  spec_gravity (A := RA) p o d' G' g = scale_res k (spec_gravity (A := RA) p o d G g).
Proof.
  intros H. unfold spec_gravity.
  etransitivity; [|apply spec_faces_scale; exact H]. f_equal. f_equal.
  - unfold vzero, sc; cbn [vx vy vz]. change (nofZ (a := RA) 0) with 0%R. now rewrite Rmult_0_r.
  - unfold mzero, msc, vzero, sc; cbn [vx vy vz]. change (nofZ (a := RA) 0) with 0%R. now rewrite Rmult_0_r.
Qed.

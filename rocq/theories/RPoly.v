(** * Polyhedron.get_gravity over the reals for closed triangulated surfaces *)
From Coq Require Import Reals Lra Psatz ZArith Bool List Permutation Arith.
Import ListNotations.
From Coquelicot Require Import Coquelicot.
From Verif Require Import Base MUtils MEdge MFace MHull MPoly SpecPoly PPoly PStation PPlain.
From Verif Require Import RVec RArith REdge REdgeModel RAngle ROmega RFace RFacet.
Local Open Scope R_scope.

(** ** Closed triangulated surfaces *)
(** face object of the triangle p1 p2 p3, with its three edge objects *)
Definition facet (f : face RA) (p1 p2 p3 : V) : Prop :=
  tri_face f p1 p2 p3 /\
  exists s1 s2 s3 t1 t2 t3,
    f_edges f = [mk_edge (A := RA) (p1, p2) s1 t1; mk_edge (A := RA) (p2, p3) s2 t2; mk_edge (A := RA) (p3, p1) s3 t3].

(** every face is a triangle counter-clockwise about its unit normal, and
    every edge has a twin with reversed end points, whose twin it is *)
Definition closed (p : polyhedron RA) : Prop :=
  (forall f, In f (pl_faces p) -> exists p1 p2 p3, facet f p1 p2 p3) /\
  (forall k e, has_edge p k e -> exists k' e',
     pl_twin p k = Some k' /\ has_edge p k' e' /\ pl_twin p k' = Some k /\
     e_start e' = e_end e /\ e_end e' = e_start e).

(** ** Regular observers: outside the epsilon bands of planes and edge lines *)
Definition reg_edge (p q o : V) : Prop :=
  eps < nm (p - o) + dt (uv p q) (p - o) /\ eps < nm (q - o) - dt (uv p q) (q - o).
Definition reg_tri (p1 p2 p3 o : V) : Prop :=
  eps < Rabs (dt (tri_normal p1 p2 p3) (p1 - o)) /\
  reg_edge p1 p2 o /\ reg_edge p2 p3 o /\ reg_edge p3 p1 o.
Definition vtx (i : nat) (f : face RA) : V := pnth (A := RA) i (f_points f).
Definition regular (p : polyhedron RA) (o : V) : Prop :=
  forall f, In f (pl_faces p) -> reg_tri (vtx 0 f) (vtx 1 f) (vtx 2 f) o.

Lemma facet_vtx f p1 p2 p3 : facet f p1 p2 p3 -> vtx 0 f = p1 /\ vtx 1 f = p2 /\ vtx 2 f = p3.
Proof. intros [[H _] _]. unfold vtx, pnth. rewrite H. auto. Qed.

Lemma reg_edge_sym p q o : reg_edge p q o -> reg_edge q p o.
Proof. intros [H1 H2]. unfold reg_edge. rewrite (uv_sym p q), !dt_opp_l. split; lra. Qed.

(** ** Sums *)
Definition vsum {X} (h : X -> V) (l : list X) : V := fold_right (fun x s => (h x + s)%v) v0 l.
Definition mplus (m k : vec3 V) : vec3 V := V3 (vx m + vx k)%v (vy m + vy k)%v (vz m + vz k)%v.
Definition m0 : vec3 V := V3 v0 v0 v0.
Definition msum {X} (h : X -> vec3 V) (l : list X) : vec3 V := fold_right (fun x s => mplus (h x) s) m0 l.
Definition rsum {X} (h : X -> R) (l : list X) : R := fold_right (fun x s => h x + s) 0 l.

Lemma va_assoc a b c : (a + (b + c) = (a + b) + c)%v. Proof. vring. Qed.
Lemma va_0_l a : (v0 + a = a)%v. Proof. vring. Qed.
Lemma va_0_r a : (a + v0 = a)%v. Proof. vring. Qed.
Lemma mplus_assoc a b c : mplus a (mplus b c) = mplus (mplus a b) c.
Proof. unfold mplus; cbn [vx vy vz]. now rewrite !va_assoc. Qed.
Lemma mplus_0_l a : mplus m0 a = a.
Proof. destruct a as [a1 a2 a3]. unfold mplus, m0; cbn [vx vy vz]. now rewrite !va_0_l. Qed.
Lemma mplus_0_r a : mplus a m0 = a.
Proof. destruct a as [a1 a2 a3]. unfold mplus, m0; cbn [vx vy vz]. now rewrite !va_0_r. Qed.

Lemma foldM_sum {X} (F : X -> res (V * vec3 V)) (h : X -> V) (k : X -> vec3 V) l :
  (forall x, In x l -> F x = Ok (h x, k x)) ->
  forall G T,
  foldM (fun GT f => do gt <- F f; Ok (vadd (A := RA) (fst GT) (fst gt), madd (A := RA) (snd GT) (snd gt))) l (G, T) =
  Ok ((G + vsum h l)%v, mplus T (msum k l)).
Proof.
  induction l as [|x l IH]; intros H G T; cbn [foldM vsum msum fold_right].
  - rewrite va_0_r, mplus_0_r. reflexivity.
  - rewrite H by (left; auto). cbn [bind fst snd].
    assert (IH' := IH (fun y Hy => H y (or_intror Hy)) (vadd (A := RA) G (h x)) (madd (A := RA) T (k x))).
    etransitivity; [exact IH'|]. f_equal. f_equal.
    + change (@vadd RA) with va. now rewrite va_assoc.
    + change (madd (A := RA) T (k x)) with (mplus T (k x)). now rewrite mplus_assoc.
Qed.

(** ** The values *)
Definition kG (density Gc : R) : R := - density * Gc * 100000.
Definition gF (density Gc : R) (o : V) (f : face RA) : V :=
  let a := (vtx 0 f - o)%v in let b := (vtx 1 f - o)%v in let c := (vtx 2 f - o)%v in
  (kG density Gc * (dt (f_un f) a * FF (f_un f) a b c))%v.
Definition ex : V := V3 1 0 0.
Definition ey : V := V3 0 1 0.
Definition ez : V := V3 0 0 1.
(** the matrix with entries M i j = component i of J (e_j), copied from the upper triangle *)
Definition up (J : V -> V) : vec3 V :=
  V3 (V3 (vx (J ex)) (vx (J ey)) (vx (J ez)))
     (V3 (vx (J ey)) (vy (J ey)) (vy (J ez)))
     (V3 (vx (J ez)) (vy (J ez)) (vz (J ez))).
Definition full (J : V -> V) : vec3 V :=
  V3 (V3 (vx (J ex)) (vx (J ey)) (vx (J ez)))
     (V3 (vy (J ex)) (vy (J ey)) (vy (J ez)))
     (V3 (vz (J ex)) (vz (J ey)) (vz (J ez))).
Definition jF (density Gc : R) (o : V) (f : face RA) (e : V) : V :=
  let a := (vtx 0 f - o)%v in let b := (vtx 1 f - o)%v in let c := (vtx 2 f - o)%v in
  (kG density Gc * 10000 * JJ (f_un f) a b c e)%v.
Definition tF (density Gc : R) (o : V) (f : face RA) : vec3 V := up (jF density Gc o f).

Definition eval (o : V) (g : bool) (e : edge RA) : ev RA :=
  ((ell (e_start e - o) (e_end e - o) * uv (e_start e) (e_end e))%v,
   if g then Some (outer (gell (e_start e - o) (e_end e - o)) (uv (e_start e) (e_end e))) else None).

Lemma facet_nondeg f p1 p2 p3 : facet f p1 p2 p3 -> nondeg p1 p2 p3.
Proof. intros [[_ [_ [H _]]] _]. now apply cross_nondeg. Qed.

Lemma eval_neg o g p q s t s' t' :
  eval o g (mk_edge (A := RA) (q, p) s t) = ev_neg (A := RA) (eval o g (mk_edge (A := RA) (p, q) s' t')).
Proof.
  unfold eval, ev_neg. cbn [e_start e_end mk_edge fst snd].
  rewrite (uv_sym p q), (ell_sym (q - o)%v), (gell_sym (p - o)%v (q - o)%v). toR. apply (f_equal2 pair); [vring|].
  destruct g; [|reflexivity]. cbn [option_map]. unfold mopp, vmap, outer. cbn [vx vy vz]. toR.
  apply (f_equal Some); apply (f_equal3 V3); vring.
Qed.

Lemma has_edge_facet p k e : has_edge p k e -> closed p ->
  exists f p1 p2 p3, In f (pl_faces p) /\ facet f p1 p2 p3 /\ In e (f_edges f).
Proof.
  intros [f [H1 H2]] [Hc _]. apply nth_error_In in H1. apply nth_error_In in H2.
  destruct (Hc f H1) as [p1 [p2 [p3 Hf]]]. eauto 8.
Qed.
Lemma facet_edges f p1 p2 p3 e : facet f p1 p2 p3 -> In e (f_edges f) ->
  exists q r s t, e = mk_edge (A := RA) (q, r) s t /\
    ((q = p1 /\ r = p2) \/ (q = p2 /\ r = p3) \/ (q = p3 /\ r = p1)).
Proof.
  intros [_ [s1 [s2 [s3 [t1 [t2 [t3 ->]]]]]]] [<-|[<-|[<-|[]]]]; eauto 12.
Qed.

Section Value.
  Variables (p : polyhedron RA) (o : V).
  Hypothesis Hcl : closed p.
  Hypothesis Hreg : regular p o.

  Lemma edge_eval g k e : has_edge p k e -> edge_integral (A := RA) e o g = Ok (eval o g e).
  Proof.
    intros H. destruct (has_edge_facet p k e H Hcl) as [f [p1 [p2 [p3 [Hin [Hf He]]]]]].
    destruct (facet_edges f p1 p2 p3 e Hf He) as [q [r [s [t [-> Hqr]]]]].
    pose proof (facet_nondeg _ _ _ _ Hf) as [N1 [N2 N3]].
    pose proof (Hreg f Hin) as [_ [R1 [R2 R3]]].
    destruct (facet_vtx _ _ _ _ Hf) as [E1 [E2 E3]]. rewrite E1, E2, E3 in *.
    assert (HQ : q <> r /\ reg_edge q r o).
    { destruct Hqr as [[-> ->]|[[-> ->]|[-> ->]]]; auto. }
    destruct HQ as [Hqr1 [HR _]].
    exact (edge_main q r o s t g Hqr1 HR).
  Qed.

  Lemma twin_eval g k e : has_edge p k e -> exists k' e',
    pl_twin p k = Some k' /\ has_edge p k' e' /\ eval o g e' = ev_neg (A := RA) (eval o g e).
  Proof.
    intros H. destruct Hcl as [_ Htw]. destruct (Htw k e H) as [k' [e' [T [H' [_ [S1 S2]]]]]].
    exists k', e'. split; [auto|]. split; [auto|].
    destruct (has_edge_facet p k e H Hcl) as [f [p1 [p2 [p3 [_ [Hf He]]]]]].
    destruct (facet_edges f p1 p2 p3 e Hf He) as [q [r [s [t [-> _]]]]].
    cbn [e_start e_end mk_edge fst snd] in *.
    unfold eval at 1. rewrite S1, S2.
    exact (eval_neg o g q r s t s t).
  Qed.

  Lemma off3_reg f p1 p2 p3 : facet f p1 p2 p3 -> In f (pl_faces p) ->
    det (p1 - o) (p2 - o) (p3 - o) <> 0 /\ off3 (p1 - o) (p2 - o) (p3 - o).
  Proof.
    intros Hf Hin. pose proof eps_pos. destruct (facet_vtx _ _ _ _ Hf) as [E1 [E2 E3]].
    pose proof (Hreg f Hin) as [Hd _]. rewrite E1, E2, E3 in Hd.
    destruct Hf as [[_ [_ [Hn _]]] _].
    assert (D : det (p1 - o) (p2 - o) (p3 - o) <> 0).
    { rewrite tri_det by exact Hn. apply nm_pos in Hn. intros Z. apply Rmult_integral in Z.
      destruct Z as [Z|Z]; [lra|]. rewrite Z, Rabs_R0 in Hd. lra. }
    split; [exact D|]. now apply off3_det.
  Qed.

  Lemma plain_facet g density Gc f : In f (pl_faces p) ->
    plain_face (A := RA) o g (eval o g) density Gc f =
    Ok (gF density Gc o f, if g then tF density Gc o f else m0).
  Proof.
    intros Hin. destruct Hcl as [Hc _]. destruct (Hc f Hin) as [p1 [p2 [p3 Hf]]].
    pose proof (off3_reg f p1 p2 p3 Hf Hin) as [Hdet Hoff].
    destruct (facet_vtx _ _ _ _ Hf) as [E1 [E2 E3]].
    pose proof (Hreg f Hin) as [Hd _].
    unfold plain_face, dot_point1. fold (vtx 0 f). toR.
    destruct Hf as [Ht [s1 [s2 [s3 [t1 [t2 [t3 He]]]]]]].
    assert (Hun : f_un f = tri_normal p1 p2 p3) by apply Ht.
    rewrite E1, E2, E3, <- Hun in Hd.
    pose proof (get_omega_R f p1 p2 p3 o g Ht Hd) as HO. rewrite E1.
    match goal with |- bind ?e _ = _ =>
      replace e with (@Ok (R * V) (om (p1 - o) (p2 - o) (p3 - o), if g then gom (p1 - o) (p2 - o) (p3 - o) else v0)) by (symmetry; exact HO) end.
    cbn [bind]. rewrite He. cbn [fold_left].
    set (a := (p1 - o)%v) in *. set (b := (p2 - o)%v) in *. set (c := (p3 - o)%v) in *.
    unfold eval. cbn [e_start e_end mk_edge fst snd]. fold a b c. unfold ev_add. cbn [fst snd].
    assert (EI : (ell a b * uv p1 p2 + ell b c * uv p2 p3 + ell c a * uv p3 p1)%v = Isum a b c).
    { unfold Isum, a, b, c. now rewrite !uv_shift. }
    assert (EG : face_g (A := RA) (f_un f) density Gc (dt (f_un f) a) (om a b c) (Isum a b c) = gF density Gc o f).
    { unfold gF, face_g, face_bracket, face_factor, FF. rewrite E1, E2, E3. fold a b c. 
      generalize (Isum a b c) (om a b c). intros I w. 
      destruct (f_un f) as [L M N]; destruct I as [P Q R']. unfold kG. toR.
      cbn [vscale vmap]. toR. vring. }
    destruct g.
    - cbn [fst snd]. toR. rewrite EI. rewrite EG. f_equal. f_equal.
      unfold tF, up, face_tensor, face_bracket, face_factor, jF. rewrite E1, E2, E3. fold a b c.
      unfold JJ, FF, dIs. rewrite <- !(uv_shift p1 p2 o), <- !(uv_shift p2 p3 o), <- !(uv_shift p3 p1 o). fold a b c.
      generalize (Isum a b c) (om a b c) (gom a b c). intros I w dw. unfold madd, vmap2, outer. cbn [vx vy vz]. toR.
      generalize (gell a b) (gell b c) (gell c a) (uv a b) (uv b c) (uv c a). intros g1 g2 g3 u1 u2 u3.
      generalize (dt (f_un f) a). intros d0.
      destruct (f_un f) as [L M N]; destruct I as [P Q R']; destruct dw as [wx wy wz].
      destruct g1 as [g1x g1y g1z], g2 as [g2x g2y g2z], g3 as [g3x g3y g3z], u1 as [u1x u1y u1z], u2 as [u2x u2y u2z], u3 as [u3x u3y u3z].
      unfold kG, ex, ey, ez.
      unfold va, vm, vn, sc, cr, dt; cbn [vx vy vz]. toR. unfold vn; cbn [vx vy vz].
      f_equal; f_equal; ring.
    - cbn [fst snd]. toR. rewrite EI. rewrite EG. reflexivity.
  Qed.

  Theorem gravity_value g density Gc :
    spec_gravity (A := RA) p o density Gc g =
    Ok (vsum (gF density Gc o) (pl_faces p), if g then msum (tF density Gc o) (pl_faces p) else m0).
  Proof.
    rewrite (spec_plain p o g (eval o g) (edge_eval g) (twin_eval g)).
    pose proof (foldM_sum _ (gF density Gc o) (fun f => if g then tF density Gc o f else m0) (pl_faces p)
      (plain_facet g density Gc) v0 m0) as H.
    etransitivity; [exact H|]. rewrite va_0_l, mplus_0_l. f_equal. f_equal.
    destruct g; [reflexivity|]. clear H.
    induction (pl_faces p) as [|f l IH]; [reflexivity|]. cbn [msum fold_right]. fold (msum (fun _ : face RA => m0) l).
    rewrite IH. apply mplus_0_l.
  Qed.
End Value.

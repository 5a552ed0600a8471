(** * The gravity of a closed surface as a volume integral, its gradient as a
      surface integral *)
From Coq Require Import Reals Lra Psatz Bool List.
Import ListNotations.
From Coquelicot Require Import Coquelicot.
From Verif Require Import Base MUtils MEdge MFace MHull MPoly SpecPoly PPoly PStation PPlain.
From Verif Require Import RVec RArith REdge REdgeModel RAngle ROmega RFace RFacet RPoly RTwin RField RHull RHullZ RMoved RGlue RRay RTrace RFlux.
Local Open Scope R_scope.

(** ** An identity for the derivative of FF, edge by edge *)
Definition Vt (N x e : V) : V := (dt N x * cr e N - dt N e * cr x N)%v.
Lemma edge_poly1 (b w w2 e : V) :
  let N := cr w w2 in let c := (b + w)%v in
  (dt N b * (- dt (cr b c) e * N + dt b e * cr w N) + (dt N N * dt (cr b c) e) * b)%v
  = (dt b c * Vt N b e - dt b b * Vt N c e)%v.
Proof. destruct b, w, w2, e. cbv zeta. unfold Vt. vring. Qed.
Lemma edge_poly2 (b w w2 e : V) :
  let N := cr w w2 in let c := (b + w)%v in
  (dt N b * (- dt (cr b c) e * N + dt c e * cr w N) + (dt N N * dt (cr b c) e) * c)%v
  = (dt c c * Vt N b e - dt b c * Vt N c e)%v.
Proof. destruct b, w, w2, e. cbv zeta. unfold Vt. vring. Qed.
Lemma edge_identity (b c w2 e : V) : off b c -> b <> c -> cr (c - b) w2 <> v0 ->
  let n := uu (cr (c - b) w2) in
  (dt n b * (- dt (edge_term b c) e * n + dt (gell b c) e * cr (uv b c) n) + dt (cr b c) e * seg3 b c)%v
  = (/ nm b * Vt n b e - / nm c * Vt n c e)%v.
Proof.
  intros O Hne HN n. destruct (off_nz _ _ O) as [Hb Hc]. pose proof (sub_pos b c Hne) as Hl.
  set (N := cr (c - b) w2) in *. pose proof (nm_pos _ HN) as HL. pose proof (nm_sq N) as EL.
  assert (Ec : (b + (c - b))%v = c) by vring.
  pose proof (edge_poly1 b (c - b)%v w2 e) as P1. cbv zeta in P1. fold N in P1. rewrite Ec in P1.
  pose proof (edge_poly2 b (c - b)%v w2 e) as P2. cbv zeta in P2. fold N in P2. rewrite Ec in P2.
  set (il := / nm N). assert (Eil : il * il * dt N N = 1) by (rewrite <- EL; unfold il; field; lra).
  assert (En : n = (il * N)%v) by reflexivity.
  assert (EV : forall x, Vt n x e = (il * il * Vt N x e)%v) by (intros; rewrite En; unfold Vt; generalize il; intros; vring).
  assert (Q1 : (dt n b * (- dt (cr b c) e * n + dt b e * cr (c - b) n) + dt (cr b c) e * b)%v = (dt b c * Vt n b e - dt b b * Vt n c e)%v).
  { rewrite !EV. transitivity (il * il * (dt b c * Vt N b e - dt b b * Vt N c e))%v; [|generalize (Vt N b e) (Vt N c e); intros; vring].
    rewrite <- P1, En. rewrite <- (Rmult_1_l (dt (cr b c) e)) at 2. rewrite <- Eil. rewrite !dt_sc_l.
    generalize (dt (cr b c) e) (dt N N) (dt b e) (dt N b) (c - b)%v. intros. vring. }
  assert (Q2 : (dt n b * (- dt (cr b c) e * n + dt c e * cr (c - b) n) + dt (cr b c) e * c)%v = (dt c c * Vt n b e - dt b c * Vt n c e)%v).
  { rewrite !EV. transitivity (il * il * (dt c c * Vt N b e - dt b c * Vt N c e))%v; [|generalize (Vt N b e) (Vt N c e); intros; vring].
    rewrite <- P2, En. rewrite <- (Rmult_1_l (dt (cr b c) e)) at 2. rewrite <- Eil. rewrite !dt_sc_l.
    generalize (dt (cr b c) e) (dt N N) (dt c e) (dt N b) (c - b)%v. intros. vring. }
  clearbody n. clear P1 P2 EV En.
  set (k := Kab b c). assert (Ek : k * (nm b * nm c + dt b c) = 1) by (unfold k, Kab; unfold off in O; field; lra).
  transitivity (k * / nm b * (dt n b * (- dt (cr b c) e * n + dt b e * cr (c - b) n) + dt (cr b c) e * b) +
                k * / nm c * (dt n b * (- dt (cr b c) e * n + dt c e * cr (c - b) n) + dt (cr b c) e * c))%v.
  - unfold edge_term, gell, seg3, uv. fold k.
    replace (cr (/ nm (c - b) * (c - b)) n) with (/ nm (c - b) * cr (c - b) n)%v by (generalize (c - b)%v (/ nm (c - b)); intros; vring).
    rewrite !dt_sc_l, !dt_add_l, !dt_sc_l.
    generalize dependent (nm (c - b)). intros l Hl.
    generalize (dt n b) (dt (cr b c) e) (dt b e) (dt c e) (cr (c - b) n). intros.
    apply veq; cbn [va vm sc vx vy vz]; field; lra.
  - rewrite Q1, Q2. rewrite <- (nm_sq b), <- (nm_sq c).
    generalize (Vt n b e) (Vt n c e). intros x y.
    assert (Z : forall p q, k * / nm b * (dt b c * p - nm b * nm b * q) + k * / nm c * (nm c * nm c * p - dt b c * q) =
      k * (nm b * nm c + dt b c) * (/ nm b * p - / nm c * q)) by (intros; field; lra).
    rewrite Ek in Z. apply veq; cbn [va vm sc vx vy vz]; rewrite Z; ring.
Qed.

(** the derivative of FF at fixed normal, times the distance to the plane *)
Theorem FF_gradient (n a b c e : V) : off3 a b c -> cr (b - a) (c - a) <> v0 -> n = uu (cr (b - a) (c - a)) ->
  (dt n a * (dt (gom a b c) e * n + cr (dIs a b c e) n))%v =
  (- (dt (cr a b) e * seg3 a b + dt (cr b c) e * seg3 b c + dt (cr c a) e * seg3 c a))%v.
Proof.
  intros [O1 [O2 O3]] HN En. destruct (cross_nondeg a b c HN) as [D1 [D2 D3]].
  assert (N2 : cr (c - b) (a - b) = cr (b - a) (c - a)) by vring.
  assert (N3 : cr (a - c) (b - c) = cr (b - a) (c - a)) by vring.
  pose proof (edge_identity a b (c - a)%v e O1 D1 HN) as I1. cbv zeta in I1. rewrite <- En in I1.
  pose proof (edge_identity b c (a - b)%v e O2 D2) as I2. rewrite N2 in I2. specialize (I2 HN). cbv zeta in I2. rewrite <- En in I2.
  pose proof (edge_identity c a (b - c)%v e O3 D3) as I3. rewrite N3 in I3. specialize (I3 HN). cbv zeta in I3. rewrite <- En in I3.
  assert (Eb : dt n b = dt n a).
  { rewrite En. unfold uu. rewrite !dt_sc_l. f_equal. vring. }
  assert (Ec : dt n c = dt n a).
  { rewrite En. unfold uu. rewrite !dt_sc_l. f_equal. vring. }
  rewrite Eb in I2. rewrite Ec in I3.
  unfold gom, dIs. rewrite dt_opp_l, !dt_add_l.
  assert (Z : forall p q r : V, p = q -> (p - q + r)%v = r) by (intros ? ? ? ->; vring).
  revert I1 I2 I3.
  generalize (dt n a) (dt (edge_term a b) e) (dt (edge_term b c) e) (dt (edge_term c a) e) (dt (gell a b) e) (dt (gell b c) e) (dt (gell c a) e).
  generalize (/ nm a * Vt n a e)%v (/ nm b * Vt n b e)%v (/ nm c * Vt n c e)%v.
  generalize (dt (cr a b) e) (dt (cr b c) e) (dt (cr c a) e) (seg3 a b) (seg3 b c) (seg3 c a) (uv a b) (uv b c) (uv c a).
  clear. intros d1 d2 d3 s1 s2 s3 u1 u2 u3 v1 v2 v3 d t1 t2 t3 g1 g2 g3 I1 I2 I3.
  pose proof (f_equal2 va (f_equal2 va I1 I2) I3) as I. clear I1 I2 I3. rename I into I3.
  replace (v1 - v2 + (v2 - v3) + (v3 - v1))%v with v0 in I3 by vring.
  match type of I3 with ?l = _ => transitivity (l - (d1 * s1 + d2 * s2 + d3 * s3))%v end; [vring|].
  rewrite I3. vring.
Qed.

Lemma seg3_sym a b : seg3 b a = seg3 a b.
Proof. unfold seg3. rewrite (Kab_sym b a). generalize (/ nm a) (/ nm b) (Kab a b). intros. vring. Qed.
Lemma vsum_dt_zero {X} (h : X -> V) l : (forall w, rsum (fun x => dt (h x) w) l = 0) -> vsum h l = v0.
Proof.
  intros H. apply dt_zero. rewrite dt_vsum. apply H.
Qed.

Section Surface.
  Variables (p : polyhedron RA) (o : V).
  Hypothesis Hcl : closed p.
  (** the edge terms cancel on a closed surface *)
  Lemma edge_cancel (sh : V -> V) (e : V) :
    vsum (fun f => - (dt (cr (sh (vtx 0 f)) (sh (vtx 1 f))) e * seg3 (sh (vtx 0 f)) (sh (vtx 1 f)) +
                      dt (cr (sh (vtx 1 f)) (sh (vtx 2 f))) e * seg3 (sh (vtx 1 f)) (sh (vtx 2 f)) +
                      dt (cr (sh (vtx 2 f)) (sh (vtx 0 f))) e * seg3 (sh (vtx 2 f)) (sh (vtx 0 f))))%v (pl_faces p) = v0.
  Proof.
    apply vsum_dt_zero. intros w.
    rewrite <- (antisym_sum p (fun q r => - dt (dt (cr (sh q) (sh r)) e * seg3 (sh q) (sh r)) w) Hcl).
    - apply rsum_ext. intros f _. dts. ring.
    - intros q r. rewrite (seg3_sym (sh q)), (cr_anti (sh q)). dts. ring.
  Qed.

  Hypothesis Hof : offs p o.
  (** the Jacobian as a sum over the facets of n (x) FF *)
  Lemma Jtot_surface density Gc e :
    Jtot p o density Gc e =
    (density * Gc * 1000000000 *
     vsum (fun f : face RA => dt (f_un f) e * FF (f_un f) (vtx 0 f - o) (vtx 1 f - o) (vtx 2 f - o)) (pl_faces p))%v.
  Proof.
    pose proof (edge_cancel (fun q => (q - o)%v) e) as HE. cbv beta in HE.
    set (Eg := fun f : face RA => (- (dt (cr (vtx 0 f - o) (vtx 1 f - o)) e * seg3 (vtx 0 f - o) (vtx 1 f - o) +
        dt (cr (vtx 1 f - o) (vtx 2 f - o)) e * seg3 (vtx 1 f - o) (vtx 2 f - o) +
        dt (cr (vtx 2 f - o) (vtx 0 f - o)) e * seg3 (vtx 2 f - o) (vtx 0 f - o)))%v) in HE.
    set (Sf := fun f : face RA => (dt (f_un f) e * FF (f_un f) (vtx 0 f - o) (vtx 1 f - o) (vtx 2 f - o))%v).
    assert (K : forall f, In f (pl_faces p) -> jF density Gc o f e = (kG density Gc * 10000 * (Eg f - Sf f))%v).
    { intros f Hf. pose proof Hcl as [Hc _]. destruct (Hc f Hf) as [p1 [p2 [p3 HF]]].
      pose proof (offs_facet p o Hof f p1 p2 p3 HF Hf) as Ho.
      unfold jF, JJ, Eg, Sf. destruct (facet_vtx _ _ _ _ HF) as [-> [-> ->]].
      destruct HF as [[_ [_ [HN Hu]]] _].
      rewrite (FF_gradient (f_un f) (p1 - o)%v (p2 - o)%v (p3 - o)%v e Ho); [reflexivity| |].
      - replace ((p2 - o) - (p1 - o))%v with (p2 - p1)%v by vring. replace ((p3 - o) - (p1 - o))%v with (p3 - p1)%v by vring. exact HN.
      - replace ((p2 - o) - (p1 - o))%v with (p2 - p1)%v by vring. replace ((p3 - o) - (p1 - o))%v with (p3 - p1)%v by vring. exact Hu. }
    unfold Jtot. change (vsum (fun f : face RA => dt (f_un f) e * FF (f_un f) (vtx 0 f - o) (vtx 1 f - o) (vtx 2 f - o))%v (pl_faces p))
      with (vsum Sf (pl_faces p)).
    assert (S : forall l, (forall f, In f l -> jF density Gc o f e = (kG density Gc * 10000 * (Eg f - Sf f))%v) ->
      vsum (fun f => jF density Gc o f e) l = (kG density Gc * 10000 * (vsum Eg l - vsum Sf l))%v).
    { induction l as [|f l IH]; intros Hl; cbn [vsum fold_right]; [vring|].
      fold (vsum (fun f => jF density Gc o f e) l) (vsum Eg l) (vsum Sf l).
      rewrite IH, Hl by (intros; try apply Hl; simpl; auto). generalize (vsum Eg l) (vsum Sf l) (Eg f) (Sf f). intros. vring. }
    rewrite (S _ K). change (vsum Eg (pl_faces p) = v0) in HE. rewrite HE. unfold kG.
    generalize (vsum Sf (pl_faces p)). intros w. vring.
  Qed.
End Surface.

(** ** Dilation about a point *)
Lemma uu_sc k w : 0 < k -> w <> v0 -> uu (k * w) = uu w.
Proof.
  intros Hk Hw. pose proof (nm_pos _ Hw). unfold uu. rewrite nm_sc, Rabs_pos_eq by lra.
  apply veq; cbn [sc vx vy vz]; field; lra.
Qed.
Lemma ell_dil_der a e1 e2 u : 0 < u -> e1 <> e2 -> off (a + u * e1) (a + u * e2) ->
  is_derive (fun s => ell (a + s * e1) (a + s * e2)) u (/ u * dt (gell (a + u * e1) (a + u * e2)) a).
Proof.
  intros Hu Hne O. set (b := fun s : R => (a + s * e1)%v). set (c := fun s : R => (a + s * e2)%v).
  change (off (b u) (c u)) in O. destruct (off_nz _ _ O) as [Hb Hc].
  assert (El : (c u - b u = u * (e2 - e1))%v) by (unfold c, b; vring).
  assert (HE : (e2 - e1)%v <> v0).
  { intros Z. apply Hne. apply veq; [apply (f_equal vx) in Z|apply (f_equal vy) in Z|apply (f_equal vz) in Z]; cbn in Z; lra. }
  pose proof (nm_pos _ HE) as Hl.
  assert (Hbc : b u <> c u).
  { intros Z. rewrite <- Z in El. assert (K : (u * (e2 - e1))%v = v0) by (rewrite <- El; vring).
    apply (f_equal nm) in K. rewrite nm_sc, nm_0, Rabs_pos_eq in K by lra. nra. }
  eapply is_derive_eq; [apply (ell_der b c u e1 e2); auto; apply vder_line|].
  change (a + u * e1)%v with (b u). change (a + u * e2)%v with (c u). unfold gell.
  rewrite El, nm_sc, Rabs_pos_eq by lra. rewrite (dt_sc_l u (e2 - e1)%v (e2 - e1)%v), <- (nm_sq (e2 - e1)%v).
  assert (Kb : u * dt (b u) e1 = nm (b u) * nm (b u) - dt (b u) a).
  { rewrite nm_sq, <- dt_sc_r. replace (u * e1)%v with (b u - a)%v by (unfold b; vring). dts. ring. }
  assert (Kc : u * dt (c u) e2 = nm (c u) * nm (c u) - dt (c u) a).
  { rewrite nm_sq, <- dt_sc_r. replace (u * e2)%v with (c u - a)%v by (unfold c; vring). dts. ring. }
  dts. set (k := Kab (b u) (c u)). set (rb := nm (b u)) in *. set (rc := nm (c u)) in *. set (l := nm (e2 - e1)) in *.
  set (x := dt (b u) e1) in *. set (y := dt (c u) e2) in *. set (z := dt (b u) a) in *. set (w := dt (c u) a) in *.
  transitivity (k * ((rb + rc) * l - l * ((u * x) / rb + (u * y) / rc))).
  - rewrite Kb, Kc. field. lra.
  - field. lra.
Qed.
Lemma om_dil_der a e1 e2 e3 u : 0 < u -> ~ in_tri (a + u * e1) (a + u * e2) (a + u * e3) ->
  is_derive (fun s => om0 (a + s * e1) (a + s * e2) (a + s * e3)) u
    (/ u * dt (gom (a + u * e1) (a + u * e2) (a + u * e3)) a).
Proof.
  intros Hu Hn.
  set (w := fun s : R => (/ s * a + e1)%v).
  assert (Dw : vder w u (- (/ (u * u)) * a)%v).
  { eapply vder_eq; [apply vder_add; [apply (vder_sc (fun s => / s) (fun _ => a)); [|apply vder_const]|apply vder_const]|].
    - apply (inv_der (fun s => s) u 1); [exact (is_derive_id u : is_derive (fun s : R => s) u 1)|lra].
    - cbv beta. apply veq; cbn [vx vy vz va sc v0]; field; lra. }
  assert (Ew : forall s e, 0 < s -> (w s + (e - e1))%v = (/ s * (a + s * e))%v).
  { intros s e Hs. rewrite sc_inv by auto. unfold w. vring. }
  assert (E0 : forall s, 0 < s -> w s = (/ s * (a + s * e1))%v) by (intros; now rewrite sc_inv).
  assert (Hdw : ~ in_tri (w u) (w u + (e2 - e1)) (w u + (e3 - e1))).
  { rewrite !Ew, E0 by auto. intros K. apply in_tri_sc in K; auto. now apply Rinv_0_lt_compat. }
  pose proof (om0_der w (e2 - e1)%v (e3 - e1)%v u _ Dw (not_in_off3 _ _ _ Hdw) (fun Z => DD_out _ _ _ Z Hdw)) as D.
  eapply is_derive_ext_loc; [|eapply is_derive_eq; [exact D|]].
  - exists (mkposreal u Hu). intros s Hs.
    assert (Hs' : 0 < s).
    { unfold ball in Hs; cbn in Hs. unfold AbsRing_ball, abs, minus, plus, opp in Hs; cbn in Hs. apply Rabs_def2 in Hs. lra. }
    rewrite !Ew, E0 by auto. apply om0_sc3. now apply Rinv_0_lt_compat.
  - rewrite dt_sc_r, !Ew, E0 by auto.
    assert (X : gom (/ u * (a + u * e1)) (/ u * (a + u * e2)) (/ u * (a + u * e3)) = (u * gom (a + u * e1) (a + u * e2) (a + u * e3))%v).
    { unfold gom. rewrite !edge_term_sc by (now apply Rinv_0_lt_compat). rewrite Rinv_inv.
      generalize (edge_term (a + u * e1) (a + u * e2)) (edge_term (a + u * e2) (a + u * e3)) (edge_term (a + u * e3) (a + u * e1)).
      intros. vring. }
    rewrite X, dt_sc_l. field. lra.
Qed.


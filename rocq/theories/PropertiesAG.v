(** * Properties C88 and C89: mirror images, symmetric bodies, other triangulations *)
From Coq Require Import Reals Lra Psatz ZArith Bool List Permutation Arith Lia.
Import ListNotations.
From Coquelicot Require Import Coquelicot.
From Verif Require Import Base MUtils MEdge MFace MHull MPoly SpecPoly PPoly PStation PPlain.
From Verif Require Import RVec RArith REdge REdgeModel RAngle ROmega RFace RFacet RPoly RTwin RField
  RHull RHullZ ExamplesR RLinear RMove RMoved RGlue RLaws RPlaced RPlacedZ RWell RTri RCorners RMirror PropertiesR PropertiesS PropertiesX.
Import ListNotations.
Local Open Scope R_scope.
Local Open Scope list_scope.

(** a linear isometry that turns right-handed frames into left-handed ones *)
Record mirror (Q : V -> V) : Prop := {
  mir_add : forall a b, Q (a + b)%v = (Q a + Q b)%v;
  mir_sc : forall k a, Q (k * a)%v = (k * Q a)%v;
  mir_dt : forall a b, dt (Q a) (Q b) = dt a b;
  mir_cr : forall a b, cr (Q a) (Q b) = (- Q (cr a b))%v }.
Lemma mirror_iso Q : mirror Q -> isometry (-1) Q.
Proof. intros [A B C D]. constructor; auto. intros a b. rewrite D. vring. Qed.

(** ** The mirror image of a body has the mirror image of its gravity *)
(** No assumption on [in_hull], for either body. *)
Theorem C88_mirror_image :
  forall (h : hull RA) convex_hull convex_hull' in_hull in_hull' points points' (Q : V -> V) (v : V),
  mirror Q -> correct_hull h -> convex_hull points = Ok h ->
  convex_hull' points' = Ok (move_hull (fun x => (Q x + v)%v) h) ->
  exists p p',
    mk_polyhedron (A := RA) convex_hull in_hull points = Ok p /\
    mk_polyhedron (A := RA) convex_hull' in_hull' points' = Ok p' /\
    forall o gradient, well_placed p o gradient ->
    forall density Gc s s', reachable p s -> reachable p' s' ->
    exists G T T',
      gravity p o density Gc gradient s = Ok (G, T) /\
      gravity p' (Q o + v)%v density Gc gradient s' = Ok (Q G, T') /\
      forall e, mdot T' (Q e) = Q (mdot T e).
Proof.
  intros h ch ch' ih ih' points points' Q v HQ Hh E E'. apply mirror_iso in HQ.
  destruct (build_ok ch ih points h E Hh) as (p & EP & _ & Hc & HL & HF).
  destruct (build_ok ch' ih' points' _ E' (correct_iso (-1) Q v HQ h Hh)) as (p' & EP' & _ & Hc' & HL' & HF').
  exists p, p'. split; [exact EP|]. split; [exact EP'|]. intros o g Hw d G s s' Hs Hs'. rewrite !gravity_spec by auto.
  exact (proj2 (mirror_well Q v h p p' o d G g HQ Hh Hc Hc' HL HF HL' HF' Hw)).
Qed.
Print Assumptions C88_mirror_image.


(** ** C89: only the corners matter *)
(** the points qhull lists as vertices *)
Definition corner (h : hull RA) (q : V) : Prop := exists i, In i (h_vertices h) /\ q = pt h i.
Definition no_three_in_line (h : hull RA) : Prop :=
  forall x y q, corner h x -> corner h y -> corner h q -> x <> y -> cr (y - x) (q - x) = v0 -> q = x \/ q = y.
Lemma corner_in h q : corner h q <-> In q (map (pt h) (h_vertices h)).
Proof. unfold corner. rewrite in_map_iff. split; intros (i & A & B); exists i; auto. Qed.
Lemma strict_corners h : no_three_in_line h -> strict (map (pt h) (h_vertices h)).
Proof. intros H x y q Hx Hy Hq. apply H; apply corner_in; assumption. Qed.
Lemma faces_some (p : polyhedron RA) (l : list (list nat)) : length (pl_faces p) = length l -> l <> [] -> pl_faces p <> [].
Proof. intros L N E. rewrite E in L. destruct l; [congruence|discriminate]. Qed.

(** Two answers of qhull for one convex body, with the same corners: facets and
    points in any order, and every facet with more than three corners cut into
    triangles in any way. *)
Theorem C89_corners_only :
  forall (h h' : hull RA) convex_hull convex_hull' in_hull in_hull' points points',
  correct_hull h -> correct_hull h' -> h_simplices h <> [] -> h_simplices h' <> [] ->
  (forall q, corner h q <-> corner h' q) -> no_three_in_line h ->
  convex_hull points = Ok h -> convex_hull' points' = Ok h' ->
  exists p p',
    mk_polyhedron (A := RA) convex_hull in_hull points = Ok p /\
    mk_polyhedron (A := RA) convex_hull' in_hull' points' = Ok p' /\
    forall o gradient, clear p o gradient -> clear p' o gradient ->
    forall density Gc s s', reachable p s -> reachable p' s' ->
      gravity p' o density Gc gradient s' = gravity p o density Gc gradient s.
Proof.
  intros h h' ch ch' ih ih' points points' Hh Hh' Hne Hne' HE HS E E'.
  destruct (build_ok ch ih points h E Hh) as (p & EP & _ & Hc & HL & HF).
  destruct (build_ok ch' ih' points' h' E' Hh') as (p' & EP' & _ & Hc' & HL' & HF').
  exists p, p'. split; [exact EP|]. split; [exact EP'|]. intros o g Hr Hr' d G s s' Hs Hs'. rewrite !gravity_spec by auto. symmetry.
  apply (same_corners p p' (map (pt h) (h_vertices h)) (map (pt h') (h_vertices h'))); auto using hull_body, strict_corners.
  - intros q. rewrite <- !corner_in. apply HE.
  - exact (faces_some _ _ HL Hne).
  - exact (faces_some _ _ HL' Hne').
Qed.
Print Assumptions C89_corners_only.

(** a decidable criterion for integer points *)
Definition lineb (h : zhull) : bool :=
  forallb (fun i => forallb (fun j => forallb (fun k =>
    veqz (zpt h i) (zpt h j) || veqz (zpt h k) (zpt h i) || veqz (zpt h k) (zpt h j) ||
    negb (veqz (zcr (zsub (zpt h j) (zpt h i)) (zsub (zpt h k) (zpt h i))) (V3 0 0 0)%Z)) (z_vertices h)) (z_vertices h)) (z_vertices h).
Lemma lineb_ok h : hullb h = true -> lineb h = true -> no_three_in_line (rh h).
Proof.
  intros Hb H x y q (i & Hi & ->) (j & Hj & ->) (k & Hk & ->) N Z.
  unfold lineb in H. rewrite forallb_forall in H. specialize (H i Hi). rewrite forallb_forall in H. specialize (H j Hj).
  rewrite forallb_forall in H. specialize (H k Hk).
  pose proof (hullb_ok h Hb) as Hh.
  assert (EP : forall a, In a (z_vertices h) -> pt (rh h) a = rv (zpt h a)).
  { intros a Ha. apply pt_rh. }
  rewrite (EP i Hi), (EP j Hj), (EP k Hk) in *. rewrite !rv_sub, rv_cr in Z.
  apply orb_true_iff in H. destruct H as [H|H]; [apply orb_true_iff in H; destruct H as [H|H]; [apply orb_true_iff in H; destruct H as [H|H]|]|].
  - apply RPlacedZ.veqz_true in H. congruence.
  - apply RPlacedZ.veqz_true in H. left. congruence.
  - apply RPlacedZ.veqz_true in H. right. congruence.
  - exfalso. apply negb_true_iff in H. revert H Z. generalize (zcr (zsub (zpt h j) (zpt h i)) (zsub (zpt h k) (zpt h i))). intros [a b c] H Z.
    unfold rv in Z. cbn in Z. injection Z as Z1 Z2 Z3. apply eq_IZR in Z1. apply eq_IZR in Z2. apply eq_IZR in Z3. subst. discriminate.
Qed.
(** the cube with one facet cut along the other diagonal *)
Example C89_case : correct_hull (rh cubeZ) /\ correct_hull (rh cubeZ2) /\ h_simplices (rh cubeZ) <> [] /\ h_simplices (rh cubeZ2) <> [] /\
  (forall q, corner (rh cubeZ) q <-> corner (rh cubeZ2) q) /\ no_three_in_line (rh cubeZ) /\
  h_simplices (rh cubeZ) <> h_simplices (rh cubeZ2) /\
  forall o g, o = o_out \/ o = o_in -> clear (body cubeZ) (rv o) g /\ clear (body cubeZ2) (rv o) g.
Proof.
  split; [apply cubeZ_ok|]. split; [apply hullb_ok; vm_compute; reflexivity|]. split; [discriminate|]. split; [discriminate|].
  split; [intros q; reflexivity|]. split; [apply lineb_ok; vm_compute; reflexivity|]. split; [discriminate|].
  intros o g [-> | ->]; split; refine (proj1 (clearb_ok _ _ _ g _)); vm_compute; reflexivity.
Qed.

(** the inverse of a rotation *)
Definition back (Q : V -> V) (y : V) : V := V3 (dt y (Q (V3 1 0 0))) (dt y (Q (V3 0 1 0))) (dt y (Q (V3 0 0 1))).
Lemma back_ok Q : rotation Q -> forall x, back Q (Q x) = x.
Proof. intros H x. unfold back. rewrite !(rot_dt Q H). destruct x as [x y z]. apply veq; unfold dt; cbn; ring. Qed.

(** ** A body mapped onto itself *)
(** [Q x + v] maps the corners of the body to corners of the body and leaves the
    observer where it is.  The triangulation need not be symmetric. *)
Theorem C88_symmetric_body :
  forall (h : hull RA) convex_hull in_hull points (Q : V -> V) (v : V),
  rotation Q \/ mirror Q -> correct_hull h -> h_simplices h <> [] -> no_three_in_line h -> convex_hull points = Ok h ->
  (forall x, corner h x -> corner h (Q x + v)%v) ->
  exists p, mk_polyhedron (A := RA) convex_hull in_hull points = Ok p /\
    forall o gradient, (Q o + v)%v = o -> well_placed p o gradient ->
    forall density Gc s, reachable p s ->
    exists G T, gravity p o density Gc gradient s = Ok (G, T) /\
      Q G = G /\ forall e, mdot T (Q e) = Q (mdot T e).
Proof.
  intros h ch ih points Q v HQ Hh Hne HS E HC.
  assert (HI : exists sg, isometry sg Q).
  { destruct HQ as [HQ|HQ]; [exists 1; apply rotation_isometry, HQ|exists (-1); apply mirror_iso, HQ]. }
  destruct HI as [sg HI].
  assert (Hh' : correct_hull (move_hull (fun x => (Q x + v)%v) h)) by exact (correct_iso sg Q v HI h Hh).
  set (h' := move_hull (fun x => (Q x + v)%v) h) in *. set (ch' := fun _ : list V => @Ok (hull RA) h').
  set (ih' := fun (_ : list V) (y : V) => ih (h_points h) (back Q (y - v)%v)).
  destruct (build_ok ch ih points h E Hh) as (p & EP & _ & Hc & HL & HF).
  destruct (build_ok ch' ih' (map (fun x => (Q x + v)%v) points) h' eq_refl Hh') as (p' & EP' & _ & Hc' & HL' & HF').
  exists p. split; [exact EP|]. intros o g Ho Hw d G s Hs.
  assert (K : clear p' (Q o + v)%v g /\
     exists G0 T T', gravity p o d G g s = Ok (G0, T) /\ gravity p' (Q o + v)%v d G g pstate0 = Ok (Q G0, T') /\
     forall e, mdot T' (Q e) = Q (mdot T e)).
  { destruct HQ as [HQ|HQ].
    - destruct (C12_rotation h ch ch' ih ih' points Q v HQ Hh Hne E eq_refl) as (p1 & p1' & EP1 & EP1' & H1).
      { intros x. unfold ih'. replace (Q x + v - v)%v with (Q x) by vring. now rewrite back_ok. }
      rewrite EP in EP1. injection EP1 as <-. rewrite EP' in EP1'. injection EP1' as <-.
      destruct (H1 o g Hw) as [W H2]. split; [exact (proj1 W)|]. apply H2; [exact Hs|apply reach_new].
    - rewrite (gravity_spec p) by auto. rewrite (gravity_spec p') by apply reach_new.
      exact (mirror_well Q v h p p' o d G g (mirror_iso Q HQ) Hh Hc Hc' HL HF HL' HF' Hw). }
  destruct K as (C' & G0 & T & T' & K1 & K2 & K3). exists G0, T. split; [exact K1|]. rewrite Ho in C', K2.
  rewrite (gravity_spec p) in K1 by auto. rewrite (gravity_spec p') in K2 by apply reach_new.
  assert (PT : forall i, In i (h_vertices h) -> pt h' i = (Q (pt h i) + v)%v) by (intros i Hi; apply (pt_iso Q v h Hh i Hi)).
  assert (HE : forall q, In q (map (pt h) (h_vertices h)) <-> In q (map (pt h') (h_vertices h'))).
  { assert (EM : map (pt h') (h_vertices h') = map (fun x => (Q x + v)%v) (map (pt h) (h_vertices h))).
    { rewrite map_map. apply map_ext_in. exact PT. }
    rewrite EM. clear EM.
    assert (I1 : incl (map (fun x => (Q x + v)%v) (map (pt h) (h_vertices h))) (map (pt h) (h_vertices h))).
    { intros q Hq. apply in_map_iff in Hq. destruct Hq as (x & <- & Hx). apply corner_in, HC, corner_in, Hx. }
    assert (I2 : incl (map (pt h) (h_vertices h)) (map (fun x => (Q x + v)%v) (map (pt h) (h_vertices h)))).
    { set (P := map (pt h) (h_vertices h)) in *. set (N := nodup RTri.veq_dec P).
      assert (ND : NoDup (map (fun x => (Q x + v)%v) N)).
      { apply FinFun.Injective_map_NoDup; [intros a b Eab; exact (iso_inj sg Q v HI a b Eab)|apply NoDup_nodup]. }
      assert (J : incl N (map (fun x => (Q x + v)%v) N)).
      { apply NoDup_length_incl; [exact ND|rewrite map_length; apply le_n|]. intros q Hq. apply in_map_iff in Hq. destruct Hq as (x & <- & Hx).
        apply nodup_In. apply I1. apply (in_map (fun x => (Q x + v)%v)). apply nodup_In in Hx. exact Hx. }
      intros q Hq. apply (nodup_In RTri.veq_dec) in Hq. apply J in Hq. apply in_map_iff in Hq. destruct Hq as (x & <- & Hx).
      apply (in_map (fun x => (Q x + v)%v)). apply nodup_In in Hx. exact Hx. }
    intros q. split; intros Hq; [apply I2|apply I1]; exact Hq. }
  pose proof (same_corners p p' _ _ o d G g (hull_body h p Hh Hc HF) (hull_body h' p' Hh' Hc' HF') HE (strict_corners h HS)
    (faces_some _ _ HL Hne) (faces_some _ _ HL' Hne) (proj1 Hw) C') as EQ.
  rewrite K1, K2 in EQ. injection EQ as EG ET. split; [symmetry; exact EG|]. subst T'. exact K3.
Qed.
Print Assumptions C88_symmetric_body.

(** No gravity at the centre of a body symmetric about a point. *)
Theorem C88_centre_of_symmetry :
  forall (h : hull RA) convex_hull in_hull points (m : V),
  correct_hull h -> h_simplices h <> [] -> no_three_in_line h -> convex_hull points = Ok h ->
  (forall x, corner h x -> corner h (2 * m - x)%v) ->
  exists p, mk_polyhedron (A := RA) convex_hull in_hull points = Ok p /\
    forall gradient, well_placed p m gradient -> forall density Gc s, reachable p s ->
    exists T, gravity p m density Gc gradient s = Ok (V3 0 0 0, T).
Proof.
  intros h ch ih points m Hh Hne HS E HC.
  assert (HQ : mirror (fun x => (- x)%v)) by (constructor; intros; vring).
  assert (HC' : forall x, corner h x -> corner h (- x + 2 * m)%v).
  { intros x Hx. replace (- x + 2 * m)%v with (2 * m - x)%v by vring. auto. }
  destruct (C88_symmetric_body h ch ih points _ (2 * m)%v (or_intror HQ) Hh Hne HS E HC') as (p & EP & H).
  exists p. split; [exact EP|]. intros g Hw d G s Hs.
  destruct (H m g ltac:(vring) Hw d G s Hs) as (G0 & T & K & EG & _). exists T. rewrite K. apply (f_equal Ok), (f_equal2 pair); [|reflexivity].
  apply veq; [apply (f_equal vx) in EG|apply (f_equal vy) in EG|apply (f_equal vz) in EG]; cbn in EG |- *; lra.
Qed.
Print Assumptions C88_centre_of_symmetry.

(** In the plane of symmetry [n . x = n . m] (n of length 1) the gravity lies in
    the plane, and n is a principal direction of the gradient tensor. *)
Theorem C88_plane_of_symmetry :
  forall (h : hull RA) convex_hull in_hull points (n m : V),
  dt n n = 1 -> correct_hull h -> h_simplices h <> [] -> no_three_in_line h -> convex_hull points = Ok h ->
  (forall x, corner h x -> corner h (x - 2 * dt n (x - m) * n)%v) ->
  exists p, mk_polyhedron (A := RA) convex_hull in_hull points = Ok p /\
    forall o gradient, dt n (o - m) = 0 -> well_placed p o gradient -> forall density Gc s, reachable p s ->
    exists G T, gravity p o density Gc gradient s = Ok (G, T) /\
      dt n G = 0 /\ mdot T n = (dt n (mdot T n) * n)%v.
Proof.
  intros h ch ih points n m Hn Hh Hne HS E HC. set (Q := fun x : V => (x - 2 * dt n x * n)%v).
  assert (HQ : mirror Q).
  { constructor; unfold Q.
    - intros. vring.
    - intros. vring.
    - intros a b. assert (X : dt (a - 2 * dt n a * n) (b - 2 * dt n b * n) = dt a b + 4 * dt n a * dt n b * (dt n n - 1)) by vring.
      rewrite X, Hn. ring.
    - intros a b.
      assert (X : cr (a - 2 * dt n a * n) (b - 2 * dt n b * n) =
         (- (cr a b - 2 * dt n (cr a b) * n) - 2 * (dt n n - 1) * cr a b)%v) by vring.
      rewrite X, Hn. vring. }
  set (v := (2 * dt n m * n)%v).
  assert (HC' : forall x, corner h x -> corner h (Q x + v)%v).
  { intros x Hx. replace (Q x + v)%v with (x - 2 * dt n (x - m) * n)%v by (unfold Q, v; vring). auto. }
  destruct (C88_symmetric_body h ch ih points Q v (or_intror HQ) Hh Hne HS E HC') as (p & EP & H).
  exists p. split; [exact EP|]. intros o g Ho Hw d G s Hs.
  assert (Eo : (Q o + v)%v = o).
  { transitivity (o - 2 * dt n (o - m) * n)%v; [unfold Q, v; vring|]. rewrite Ho. vring. }
  destruct (H o g Eo Hw d G s Hs) as (G0 & T & K & EG & ET). exists G0, T. split; [exact K|]. split.
  - assert (X : dt n (Q G0) = dt n G0 - 2 * dt n G0 * dt n n) by (unfold Q; vring). rewrite EG, Hn in X. lra.
  - specialize (ET n). replace (Q n) with (- n)%v in ET.
    2:{ unfold Q. rewrite Hn. vring. }
    assert (L : mdot T (- n)%v = (- mdot T n)%v) by (unfold mdot; apply veq; cbn [vx vy vz vn vmap]; rewrite dt_opp_r; reflexivity).
    rewrite L in ET. unfold Q in ET. revert ET. generalize (mdot T n). intros w ET.
    apply veq; [apply (f_equal vx) in ET|apply (f_equal vy) in ET|apply (f_equal vz) in ET]; cbn in ET |- *; lra.
Qed.
Print Assumptions C88_plane_of_symmetry.

(** On an axis of symmetry, that is a line of direction n fixed by a rotation that
    maps the body onto itself and fixes no other direction, the gravity is along
    the axis. *)
Theorem C88_axis_of_symmetry :
  forall (h : hull RA) convex_hull in_hull points (Q : V -> V) (n m : V),
  rotation Q -> (forall x, Q x = x -> exists k, x = (k * n)%v) -> Q n = n ->
  correct_hull h -> h_simplices h <> [] -> no_three_in_line h -> convex_hull points = Ok h ->
  (forall x, corner h x -> corner h (m + Q (x - m))%v) ->
  exists p, mk_polyhedron (A := RA) convex_hull in_hull points = Ok p /\
    forall t gradient, well_placed p (m + t * n)%v gradient -> forall density Gc s, reachable p s ->
    exists k T, gravity p (m + t * n)%v density Gc gradient s = Ok ((k * n)%v, T) /\
      exists l, mdot T n = (l * n)%v.
Proof.
  intros h ch ih points Q n m HQ Hf En Hh Hne HS E HC. set (v := (m - Q m)%v).
  assert (QS : forall x, Q (x - m)%v = (Q x - Q m)%v).
  { intros x. replace (x - m)%v with (x + (-1) * m)%v by vring. rewrite (rot_add Q HQ), (rot_sc Q HQ). vring. }
  assert (HC' : forall x, corner h x -> corner h (Q x + v)%v).
  { intros x Hx. replace (Q x + v)%v with (m + Q (x - m))%v by (unfold v; rewrite QS; vring). auto. }
  destruct (C88_symmetric_body h ch ih points Q v (or_introl HQ) Hh Hne HS E HC') as (p & EP & H).
  exists p. split; [exact EP|]. intros t g Hw d G s Hs.
  assert (Eo : (Q (m + t * n) + v)%v = (m + t * n)%v).
  { rewrite (rot_add Q HQ), (rot_sc Q HQ), En. unfold v. vring. }
  destruct (H _ g Eo Hw d G s Hs) as (G0 & T & K & EG & ET). destruct (Hf G0 EG) as [k Ek]. exists k, T. split; [rewrite K, Ek; reflexivity|].
  specialize (ET n). rewrite En in ET. exact (Hf _ (eq_sym ET)).
Qed.
Print Assumptions C88_axis_of_symmetry.

(** the cube is symmetric about its centre, about the plane x = y, and about its
    diagonal; so is the cube with one facet cut the other way *)
Definition swapxy (a : V) : V := V3 (vy a) (vx a) (vz a).
Lemma swapxy_mirror : mirror swapxy.
Proof. constructor; intros; unfold swapxy, va, sc, vn, dt, cr; cbn [vx vy vz]; try (apply veq; cbn [vx vy vz vmap]; ring); ring. Qed.
Ltac cube_corners :=
  intros ? (i & Hi & ->); cbn in Hi;
  repeat (destruct Hi as [<-|Hi]; [first [
    exists 0%nat; split; [cbn; auto 12|apply veq; cbn; lra] | exists 1%nat; split; [cbn; auto 12|apply veq; cbn; lra] |
    exists 2%nat; split; [cbn; auto 12|apply veq; cbn; lra] | exists 3%nat; split; [cbn; auto 12|apply veq; cbn; lra] |
    exists 4%nat; split; [cbn; auto 12|apply veq; cbn; lra] | exists 5%nat; split; [cbn; auto 12|apply veq; cbn; lra] |
    exists 6%nat; split; [cbn; auto 12|apply veq; cbn; lra] | exists 7%nat; split; [cbn; auto 12|apply veq; cbn; lra]]|]); destruct Hi.
Example C88_case : forall c, c = cubeZ \/ c = cubeZ2 ->
  correct_hull (rh c) /\ h_simplices (rh c) <> [] /\ no_three_in_line (rh c) /\ mirror swapxy /\
  (forall x, corner (rh c) x -> corner (rh c) (2 * rv (zv 0 0 0) - x)%v) /\
  (let n := V3 (/ sqrt 2) (- / sqrt 2) 0 in dt n n = 1 /\
   (forall x, corner (rh c) x -> corner (rh c) (x - 2 * dt n (x - rv (zv 0 0 0)) * n)%v) /\
   dt n (rv (zv 5 5 25) - rv (zv 0 0 0)) = 0) /\
  rotation rotxyz /\ (forall x, rotxyz x = x -> exists k, x = (k * rv (zv 1 1 1))%v) /\ rotxyz (rv (zv 1 1 1)) = rv (zv 1 1 1) /\
  (forall x, corner (rh c) x -> corner (rh c) (rv (zv 0 0 0) + rotxyz (x - rv (zv 0 0 0)))%v) /\
  exists p, mk_polyhedron (A := RA) (fun _ => Ok (rh c)) (fun _ _ => true) (map rv (z_points c)) = Ok p /\
    forall g, well_placed p (rv (zv 0 0 0)) g /\ well_placed p (rv (zv 5 5 25)) g /\
      well_placed p (rv (zv 0 0 0) + 20 * rv (zv 1 1 1))%v g.
Proof.
  intros c Hc.
  assert (Hb : hullb c = true) by (destruct Hc as [-> | ->]; vm_compute; reflexivity).
  assert (Hl : lineb c = true) by (destruct Hc as [-> | ->]; vm_compute; reflexivity).
  assert (B1 : clearb c (zv 0 0 0) = true) by (destruct Hc as [-> | ->]; vm_compute; reflexivity).
  assert (B2 : clearb c (zv 5 5 25) = true) by (destruct Hc as [-> | ->]; vm_compute; reflexivity).
  assert (B3 : clearb c (zv 20 20 20) = true) by (destruct Hc as [-> | ->]; vm_compute; reflexivity).
  split; [apply hullb_ok, Hb|]. split; [destruct Hc as [-> | ->]; discriminate|]. split; [apply lineb_ok; assumption|]. split; [apply swapxy_mirror|].
  assert (CQ : forall q, corner (rh c) q <-> corner (rh cubeZ) q) by (destruct Hc as [-> | ->]; intros q; reflexivity).
  split; [intros x Hx; apply CQ; apply CQ in Hx; revert x Hx; cube_corners|].
  split.
  { cbv zeta. assert (H2 : / sqrt 2 * / sqrt 2 = 1 / 2).
    { rewrite <- Rinv_mult. rewrite sqrt_def by lra. lra. }
    set (r := / sqrt 2) in *. split; [unfold dt; cbn [vx vy vz]; nra|]. split.
    - intros x Hx. apply CQ. apply CQ in Hx. replace (x - 2 * dt (V3 r (- r)%R 0) (x - rv (zv 0 0 0)) * V3 r (- r)%R 0)%v with (swapxy x).
      + revert x Hx. cube_corners.
      + destruct x as [x y z]. unfold swapxy, dt. apply veq; cbn.
        * replace (x - 2 * (r * (x - 0) + - r * (y - 0) + 0 * (z - 0)) * r) with ((x - 2 * (r * r) * (x - y))%R) by ring. rewrite H2. field.
        * replace (y - 2 * (r * (x - 0) + - r * (y - 0) + 0 * (z - 0)) * - r) with ((y + 2 * (r * r) * (x - y))%R) by ring. rewrite H2. field.
        * ring.
    - unfold dt; cbn. ring. }
  split; [apply rotxyz_ok|]. split.
  { intros [x y z] E. unfold rotxyz in E. cbn in E. injection E as E1 E2 E3. exists x. apply veq; cbn; lra. }
  split; [apply veq; cbn; reflexivity|].
  split; [intros x Hx; apply CQ; apply CQ in Hx; revert x Hx; cube_corners|].
  exists (body c). split; [exact (proj1 (body_ok c Hb))|]. intros g.
  split; [exact (clearb_ok c (zv 0 0 0) Hb g B1)|]. split; [exact (clearb_ok c (zv 5 5 25) Hb g B2)|].
  replace (rv (zv 0 0 0) + 20 * rv (zv 1 1 1))%v with (rv (zv 20 20 20)) by (apply veq; cbn; lra).
  exact (clearb_ok c (zv 20 20 20) Hb g B3).
Qed.

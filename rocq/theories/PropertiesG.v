(** * Property C72: accuracy of gravity computed in double precision *)
From Coq Require Import Reals Lra List ZArith Bool Arith Lia Permutation Floats.SpecFloat.
From Verif Require Import Base MUtils MEdge MFace MHull MPoly SpecPoly PPoly PStation PPlain FArith PCall PNan Examples.
From Verif Require Import RVec RArith REdge REdgeModel RAngle ROmega RFace RFacet RPoly RTwin RField
  RHull RHullZ ExamplesR RPlaced RPlacedZ RGlue RVolume RSolid PropertiesR PropertiesT PropertiesV PropertiesF PropertiesE FReal FErr FDot PSim FHull FNorm FBuild FInt
  FLog FUnit FEdge FOmega FGrav FField.
Import ListNotations.
Local Open Scope R_scope.

(** How well an observer sees a triangle whose vertices are at a, b and c from it:
    - coordinates of a, b, c and of the sides are at most L;
    - twice the area of the triangle is at least L^2/g (no needles);
    - the observer is at least L/g off the plane of the triangle;
    - each side, with the observer, spans a parallelogram of area at least L^2/g
      (no side is seen end on);
    - at the vertex b the planes through the observer and the sides ab and bc
      make an angle of sine at least 1/s, and so at c and a. *)
Definition sees (L g s : R) (a b c : V) : Prop :=
  (within L a /\ within L b /\ within L c /\ within L (b - a)%v /\ within L (c - b)%v /\ within L (a - c)%v) /\
  (let n := cr (b - a) (c - a) in L * L <= g * nm n /\ L * nm n <= g * Rabs (dt n a)) /\
  (L * L <= g * nm (cr a b) /\ L * L <= g * nm (cr b c) /\ L * L <= g * nm (cr c a)) /\
  (nm (cr a b) * nm (cr b c) <= s * nm (cr (cr a b) (cr b c)) /\
   nm (cr b c) * nm (cr c a) <= s * nm (cr (cr b c) (cr c a)) /\
   nm (cr c a) * nm (cr a b) <= s * nm (cr (cr c a) (cr a b))).

(** The observer is exactly in the plane of the triangle, which is perpendicular to
    a coordinate axis (as for the faces of a prism or a cube along the axes): the
    same conditions but those on the distance to the plane and on the angles. *)
Definition level (L g : R) (a b c : V) : Prop :=
  (within L a /\ within L b /\ within L c /\ within L (b - a)%v /\ within L (c - b)%v /\ within L (a - c)%v) /\
  L * L <= g * nm (cr (b - a) (c - a)) /\
  (L * L <= g * nm (cr a b) /\ L * L <= g * nm (cr b c) /\ L * L <= g * nm (cr c a)) /\
  ((vx a = 0 /\ vx b = 0 /\ vx c = 0) \/ (vy a = 0 /\ vy b = 0 /\ vy c = 0) \/ (vz a = 0 /\ vz b = 0 /\ vz c = 0)).
Definition views (L g s : R) (a b c : V) : Prop := sees L g s a b c \/ level L g a b c.

Arguments sees (_ _ _)%R_scope (_ _ _)%v_scope.
Arguments level (_ _)%R_scope (_ _ _)%v_scope.
Arguments views (_ _ _)%R_scope (_ _ _)%v_scope.
Lemma cr_cr a b c : nm (cr (cr a b) (cr b c)) = Rabs (det a b c) * nm b.
Proof. replace (cr (cr a b) (cr b c)) with (det a b c * b)%v by (unfold det; vring). apply nm_sc. Qed.
Lemma sees_seen L g s a b c : sees L g s a b c -> seen L g s a b c.
Proof.
  intros ((A1 & A2 & A3 & A4 & A5 & A6) & (B1 & B2) & (C1 & C2 & C3) & (D1 & D2 & D3)).
  rewrite !cr_cr in D1, D2, D3. rewrite <- (det_perm a b c) in D2. rewrite (det_perm c a b) in D3.
  split; try assumption. replace (det a b c) with (dt (cr (b - a) (c - a)) a); [exact B2|]. unfold det. vring.
Qed.

Lemma views_seen L g s a b c : views L g s a b c -> seen L g s a b c \/ outlined L g a b c /\ axial a b c.
Proof.
  intros [H|((A1 & A2 & A3 & A4 & A5 & A6) & B & (C1 & C2 & C3) & D)]; [left; now apply sees_seen|right]. split; [split; assumption|exact D].
Qed.

(** Polyhedron(points).get_gravity(observer, density, Gc) without gradient in IEEE
    doubles: [lg] and [ac] are math.log and math.acos, assumed accurate to a few
    units in the last place ([libm]).  The body is as in C71, of N facets; its
    vertices and the observer have coordinates at most M; the observer sees each
    facet as said above or is exactly in its plane, perpendicular to an axis, with L >= 2^-20, g <= 1024 and s <= 32768; density and Gc
    are at most R0 and G0 in absolute value.  Then the call returns normally,
    after any history of calls, and each component of its result is finite and
    within N L 10^5 R0 G0 (g^3 + g s + N) / 2^35 of what the same
    call returns in exact arithmetic. *)
Theorem C72_accuracy :
  forall lg ac (DP : dotlib), libm lg ac ->
  forall convex_hull in_hull points (h : hull (FA lg ac DP)) M L g s,
  convex_hull points = Ok h -> correct_hull (real_hull lg ac DP h) ->
  (1 <= length (h_vertices h) <= 2 ^ 20)%nat -> (length (h_simplices h) <= 2 ^ 20)%nat ->
  / 2 ^ 20 <= L -> L <= 2 * M -> M <= 2 ^ 100 -> 1 <= g <= 1024 -> 1 <= s <= 32768 ->
  let P i := pnth (A := FA lg ac DP) i (h_points h) in
  (forall i, In i (h_vertices h) -> vfin (P i) /\ within M (fvec (P i))) ->
  (forall i j, In i (h_vertices h) -> In j (h_vertices h) -> within L (fvec (P i) - fvec (P j))%v) ->
  let cen := centroid (A := RA) (map fvec (h_points h)) (h_vertices h) in
  let normal a b c := cr (fvec (P b) - fvec (P a)) (fvec (P c) - fvec (P a)) in
  (forall a b c, In [a; b; c] (h_simplices h) ->
     ((INR (length (h_vertices h)) + 1) * M + 8 * L) * (L * L) / 2 ^ 50 < Rabs (dt (normal a b c) (cen - fvec (P a))%v)) ->
  forall o : vec (FA lg ac DP), vfin o -> within M (fvec o) ->
  (forall a b c, In [a; b; c] (h_simplices h) -> views L g s (fvec (P a) - fvec o) (fvec (P b) - fvec o) (fvec (P c) - fvec o)) ->
  forall (density Gc : num (FA lg ac DP)) R0 G0, / 2 ^ 90 <= R0 <= 2 ^ 90 -> / 2 ^ 90 <= G0 <= 2 ^ 90 ->
  fin density -> Rabs (fv density) <= R0 -> fin Gc -> Rabs (fv Gc) <= G0 ->
  exists p, mk_polyhedron convex_hull in_hull points = Ok p /\ forall st, reachable p st ->
  exists G T, fst (get_gravity p o density Gc false st) = Ok (G, T) /\ vfin G /\
  forall convex_hullR in_hullR pointsR, convex_hullR pointsR = Ok (real_hull lg ac DP h) ->
  exists pR, mk_polyhedron (A := RA) convex_hullR in_hullR pointsR = Ok pR /\ forall stR, reachable pR stR ->
  exists GR TR, gravity pR (fvec o) (fv density) (fv Gc) false stR = Ok (GR, TR) /\
    (let N := INR (length (h_simplices h)) in
     within (N * (L * (100000 * (R0 * G0))) * (g ^ 3 + g * s + N) / 2 ^ 35) (fvec G - GR)%v) /\
    (forall f q0, In f (pl_faces pR) -> dt (f_un f) (vtx 0 f - fvec o) < 0 ->
       (forall f', In f' (pl_faces pR) -> 0 <= dt (f_un f') (vtx 0 f' - q0)) ->
       exists I, body_vintegral (kernel (fvec o)) pR q0 I /\ GR = (fv density * fv Gc * 100000 * I)%v).
Proof.
  intros lg ac DP Hlib ch inh pts h M L g s Hc Hh H1 H1' H2 H3 H4 Hg Hs P H5 H6 cen normal H7 o Fo Wo Hsee rho Gc R0 G0 HR HG Fr Br Fg Bg.
  assert (Hsz : sized M L g) by (split; assumption).
  assert (Hp : placed lg ac DP M L (h_points h) (h_vertices h)) by (split; assumption).
  assert (En : forall a b c, nrm3 (real_hull lg ac DP h) a b c = normal a b c).
  { intros a b c. unfold nrm3. rewrite !pt_real. reflexivity. }
  assert (Hm : margin lg ac DP M L h).
  { intros a b c Hin. rewrite En, pt_real. exact (H7 a b c Hin). }
  assert (Hsn : forall a b c, In [a; b; c] (h_simplices h) ->
    seen L g s (pt (real_hull lg ac DP h) a - fvec o)%v (pt (real_hull lg ac DP h) b - fvec o)%v (pt (real_hull lg ac DP h) c - fvec o)%v \/
    outlined L g (pt (real_hull lg ac DP h) a - fvec o)%v (pt (real_hull lg ac DP h) b - fvec o)%v (pt (real_hull lg ac DP h) c - fvec o)%v /\
    axial (pt (real_hull lg ac DP h) a - fvec o)%v (pt (real_hull lg ac DP h) b - fvec o)%v (pt (real_hull lg ac DP h) c - fvec o)%v).
  { intros a b c Hin. rewrite !pt_real. apply views_seen, Hsee, Hin. }
  pose proof (hull_gravity lg ac DP Hlib Hsz Hs h Hh H1 H1' Hp Hm o (conj Fo Wo) Hsn rho Gc R0 G0 HR HG (conj Fr Br) (conj Fg Bg) ch inh pts) as K.
  destruct (K (fun _ => Ok (real_hull lg ac DP h)) (fun _ _ => true) [] Hc eq_refl) as (p & _ & G & T & Ep & _ & _ & _ & Eg & Gf & _).
  exists p. split; [exact Ep|]. intros st Hst. exists G, T.
  split; [rewrite (history_independent p o rho Gc false st Hst), fresh_spec; exact Eg|]. split; [exact Gf|].
  intros chR inR ptsR HcR.
  destruct (K chR inR ptsR Hc HcR) as (p' & pR & G' & T' & Ep' & EpR & HcR' & Reg & Eg' & _ & Wg & _).
  assert (p' = p) by congruence. subst p'. assert (G' = G) by congruence. subst G'. clear Ep' Eg'.
  exists pR. split; [exact EpR|]. intros stR HstR.
  assert (Val : gravity pR (fvec o) (fv rho) (fv Gc) false stR = Ok (vsum (gF (fv rho) (fv Gc) (fvec o)) (pl_faces pR), m0)).
  { rewrite (gravity_spec pR _ _ _ _ stR HstR). exact (well_value pR (fvec o) false (fv rho) (fv Gc) HcR' (steady_well _ _ _ HcR' Reg)). }
  eexists _, _. split; [exact Val|]. split.
  - cbv zeta in Wg |- *. replace (g ^ 3) with (g * g * g) by ring.
    match goal with |- within ?b _ => match type of Wg with within ?b' _ => replace b with b' by (unfold Rdiv; ring) end end. exact Wg.
  - intros f q0 Hf Hd Hq.
    destruct (C58_hull chR inR ptsR (real_hull lg ac DP h) (fvec o) q0 (fv rho) (fv Gc) HcR Hh) as (pR' & EpR' & V).
    rewrite EpR in EpR'. injection EpR' as <-.
    destruct (V stR f false HstR (steady_well _ _ _ HcR' Reg) Hf Hd Hq) as (GR & TR & I & E & HI & EI).
    rewrite Val in E. injection E as EG _. exists I. split; [exact HI|]. rewrite EG. exact EI.
Qed.
Print Assumptions C72_accuracy.

(** conditions checked on integers *)
Definition zwithin (L : Z) (a : ZV) : bool := (Z.abs (vx a) <=? L)%Z && (Z.abs (vy a) <=? L)%Z && (Z.abs (vz a) <=? L)%Z.
Definition zsees (L g s : Z) (a b c : ZV) : bool :=
  let q v := zdt v v in
  zwithin L a && zwithin L b && zwithin L c && zwithin L (zsub b a) && zwithin L (zsub c b) && zwithin L (zsub a c) &&
  (let n := zcr (zsub b a) (zsub c a) in ((L * L) ^ 2 <=? g ^ 2 * q n)%Z && (L ^ 2 * q n <=? g ^ 2 * zdt n a ^ 2)%Z) &&
  ((L * L) ^ 2 <=? g ^ 2 * q (zcr a b))%Z && ((L * L) ^ 2 <=? g ^ 2 * q (zcr b c))%Z && ((L * L) ^ 2 <=? g ^ 2 * q (zcr c a))%Z &&
  (q (zcr a b) * q (zcr b c) <=? s ^ 2 * q (zcr (zcr a b) (zcr b c)))%Z &&
  (q (zcr b c) * q (zcr c a) <=? s ^ 2 * q (zcr (zcr b c) (zcr c a)))%Z &&
  (q (zcr c a) * q (zcr a b) <=? s ^ 2 * q (zcr (zcr c a) (zcr a b)))%Z.
Lemma zwithin_ok L a : zwithin L a = true -> within (IZR L) (rv a).
Proof.
  unfold zwithin, within. rewrite !andb_true_iff, !Z.leb_le. intros [[H1 H2] H3]. unfold rv. cbn [vx vy vz]. rewrite <- !abs_IZR.
  auto using IZR_le.
Qed.
Lemma sq_le x y : 0 <= y -> x * x <= y * y -> x <= y.
Proof. intros Hy H. apply Rnot_lt_le. intros K. assert (y * y < x * x) by (apply Rmult_le_0_lt_compat; lra). lra. Qed.
Lemma rv_nm a : nm (rv a) * nm (rv a) = IZR (zdt a a).
Proof. rewrite nm_sq, rv_dt. reflexivity. Qed.
Lemma zsees_ok L g s a b c : (0 <= g)%Z -> (0 <= s)%Z -> zsees L g s a b c = true -> sees (IZR L) (IZR g) (IZR s) (rv a) (rv b) (rv c).
Proof.
  intros Hg Hs. unfold zsees. cbv zeta. rewrite !andb_true_iff, !Z.leb_le.
  intros [[[[[[[[[[[[A1 A2] A3] A4] A5] A6] [B1 B2]] C1] C2] C3] D1] D2] D3].
  apply IZR_le in Hg. apply IZR_le in Hs.
  assert (N1 : forall v : ZV, ((L * L) ^ 2 <= g ^ 2 * zdt v v)%Z -> IZR L * IZR L <= IZR g * nm (rv v)).
  { intros v H. apply sq_le; [apply Rmult_le_pos; [exact Hg|apply nm_nonneg]|].
    replace (IZR g * nm (rv v) * (IZR g * nm (rv v))) with (IZR g * IZR g * (nm (rv v) * nm (rv v))) by ring.
    rewrite rv_nm, <- !mult_IZR. apply IZR_le. lia. }
  assert (N2 : forall u v w : ZV, (zdt u u * zdt v v <= s ^ 2 * zdt w w)%Z -> nm (rv u) * nm (rv v) <= IZR s * nm (rv w)).
  { intros u v w H. apply sq_le; [apply Rmult_le_pos; [exact Hs|apply nm_nonneg]|].
    replace (nm (rv u) * nm (rv v) * (nm (rv u) * nm (rv v))) with (nm (rv u) * nm (rv u) * (nm (rv v) * nm (rv v))) by ring.
    replace (IZR s * nm (rv w) * (IZR s * nm (rv w))) with (IZR s * IZR s * (nm (rv w) * nm (rv w))) by ring.
    rewrite !rv_nm, <- !mult_IZR. apply IZR_le. lia. }
  unfold sees. rewrite !rv_sub, !rv_cr. cbv zeta. rewrite rv_dt.
  repeat split; try (apply zwithin_ok; assumption); try (apply N1; assumption); try (apply N2; assumption).
  set (n := zcr (zsub b a) (zsub c a)) in *. apply sq_le; [apply Rmult_le_pos; [exact Hg|apply Rabs_pos]|].
  replace (IZR L * nm (rv n) * (IZR L * nm (rv n))) with (IZR L * IZR L * (nm (rv n) * nm (rv n))) by ring.
  replace (IZR g * Rabs (IZR (zdt n a)) * (IZR g * Rabs (IZR (zdt n a)))) with (IZR g * IZR g * (Rabs (IZR (zdt n a)) * Rabs (IZR (zdt n a)))) by ring.
  rewrite <- Rabs_mult, (Rabs_pos_eq (_ * _)) by apply Rle_0_sqr. rewrite rv_nm, <- !mult_IZR. apply IZR_le. lia.
Qed.

(** axial conditions on integers *)
Definition zlevel (L g : Z) (a b c : ZV) : bool :=
  let q v := zdt v v in
  zwithin L a && zwithin L b && zwithin L c && zwithin L (zsub b a) && zwithin L (zsub c b) && zwithin L (zsub a c) &&
  ((L * L) ^ 2 <=? g ^ 2 * q (zcr (zsub b a) (zsub c a)))%Z &&
  ((L * L) ^ 2 <=? g ^ 2 * q (zcr a b))%Z && ((L * L) ^ 2 <=? g ^ 2 * q (zcr b c))%Z && ((L * L) ^ 2 <=? g ^ 2 * q (zcr c a))%Z &&
  (((vx a =? 0) && (vx b =? 0) && (vx c =? 0)) || ((vy a =? 0) && (vy b =? 0) && (vy c =? 0)) || ((vz a =? 0) && (vz b =? 0) && (vz c =? 0)))%Z.
Lemma zlevel_ok L g a b c : (0 <= g)%Z -> zlevel L g a b c = true -> level (IZR L) (IZR g) (rv a) (rv b) (rv c).
Proof.
  intros Hg. unfold zlevel. cbv zeta. rewrite !andb_true_iff, !orb_true_iff, !andb_true_iff, !Z.leb_le, !Z.eqb_eq.
  intros [[[[[[[[[[A1 A2] A3] A4] A5] A6] B1] C1] C2] C3] D]. apply IZR_le in Hg.
  assert (N1 : forall v : ZV, ((L * L) ^ 2 <= g ^ 2 * zdt v v)%Z -> IZR L * IZR L <= IZR g * nm (rv v)).
  { intros v H. apply sq_le; [apply Rmult_le_pos; [exact Hg|apply nm_nonneg]|].
    replace (IZR g * nm (rv v) * (IZR g * nm (rv v))) with (IZR g * IZR g * (nm (rv v) * nm (rv v))) by ring.
    rewrite rv_nm, <- !mult_IZR. apply IZR_le. lia. }
  unfold level. rewrite !rv_sub, !rv_cr. repeat split; try (apply zwithin_ok; assumption); try (apply N1; assumption).
  unfold rv. cbn [vx vy vz]. destruct D as [[[[D1 D2] D3]|[[D1 D2] D3]]|[[D1 D2] D3]]; rewrite D1, D2, D3; auto.
Qed.
Definition o_lev : ZV := zv 25 1 10.
Definition o_on : ZV := zv 3 (-4) 10.

(** the cube of side 20 seen from outside, from inside, from beyond a face in the
    plane of another (o_lev) and from a point of its top face (o_on) meets the hypotheses, and
    suitable log and acos exist *)
Example C72_case : (exists lg ac, libm lg ac) /\ forall lg ac (DP : dotlib), let h := fh lg ac DP cubeZ in let P i := pnth (A := FA lg ac DP) i (h_points h) in
  correct_hull (real_hull lg ac DP h) /\ (forall i, In i (h_vertices h) -> vfin (P i) /\ within 25 (fvec (P i))) /\
  (forall i j, In i (h_vertices h) -> In j (h_vertices h) -> within 35 (fvec (P i) - fvec (P j))%v) /\
  (let cen := centroid (A := RA) (map fvec (h_points h)) (h_vertices h) in
   let normal a b c := cr (fvec (P b) - fvec (P a)) (fvec (P c) - fvec (P a)) in
   forall a b c, In [a; b; c] (h_simplices h) ->
     ((INR (length (h_vertices h)) + 1) * 25 + 8 * 35) * (35 * 35) / 2 ^ 50 < Rabs (dt (normal a b c) (cen - fvec (P a))%v)) /\
  forall z, z = o_out \/ z = o_in \/ z = o_lev \/ z = o_on -> let o := PropertiesF.fv lg ac DP z in vfin o /\ within 25 (fvec o) /\
    forall a b c, In [a; b; c] (h_simplices h) -> views 35 12 5 (fvec (P a) - fvec o) (fvec (P b) - fvec o) (fvec (P c) - fvec o).
Proof.
  split; [eexists _, _; exact libm_exists|]. intros lg ac DP h P.
  destruct (C71_case lg ac DP) as (Hh & Hn & Hi). fold h in Hh, Hn, Hi.
  assert (PZ : forall i, In i (h_vertices h) -> vfin (P i) /\ fvec (P i) = rv (zpt cubeZ i) /\ zwithin 25 (zpt cubeZ i) = true).
  { intros i Hv. assert (Q : forall x, (Z.abs x <= 25)%Z -> fin (fofZ x) /\ fv (fofZ x) = IZR x) by (intros; apply fofZ_exact; lia).
    assert (W : zwithin 25 (zpt cubeZ i) = true).
    { assert (Al : forallb (fun i => zwithin 25 (zpt cubeZ i)) (z_vertices cubeZ) = true) by (vm_compute; reflexivity).
      rewrite forallb_forall in Al. exact (Al i Hv). }
    assert (E : P i = PropertiesF.fv lg ac DP (zpt cubeZ i)).
    { unfold P, h, pnth, zpt. cbn [h_points fh]. change (vzero (A := FA lg ac DP)) with (PropertiesF.fv lg ac DP (V3 0 0 0)%Z). apply map_nth. }
    rewrite E. clear E. revert W. generalize (zpt cubeZ i). intros [x y z] W. pose proof W as W'. unfold zwithin in W'. cbn [vx vy vz] in W'.
    rewrite !andb_true_iff, !Z.leb_le in W'. destruct W' as [[W1 W2] W3]. destruct (Q x W1) as [F1 V1], (Q y W2) as [F2 V2], (Q z W3) as [F3 V3].
    split; [split; [exact F1|split; [exact F2|exact F3]]|]. split; [|exact W]. unfold fvec, vmap, rv, PropertiesF.fv. cbn [vx vy vz]. congruence. }
  assert (Hv : forall a b c, In [a; b; c] (h_simplices h) -> In a (h_vertices h) /\ In b (h_vertices h) /\ In c (h_vertices h)).
  { intros a b c Hin. apply (tri_in lg ac DP h Hh a b c Hin). }
  split; [exact Hh|]. split; [|split; [|split]].
  - intros i Hx. destruct (PZ i Hx) as (F & E & W). split; [exact F|]. rewrite E. exact (zwithin_ok 25 _ W).
  - intros i j Hx Hy. destruct (PZ i Hx) as (_ & -> & _), (PZ j Hy) as (_ & -> & _). rewrite rv_sub. apply (zwithin_ok 35).
    assert (Al : forallb (fun i => forallb (fun j => zwithin 35 (zsub (zpt cubeZ i) (zpt cubeZ j))) (z_vertices cubeZ)) (z_vertices cubeZ) = true) by (vm_compute; reflexivity).
    rewrite forallb_forall in Al. specialize (Al i Hx). rewrite forallb_forall in Al. exact (Al j Hy).
  - intros cen normal a b c Hin. pose proof (int_margin lg ac DP h Hh Hn Hi a b c Hin) as K. unfold nrm3 in K. rewrite !pt_real in K.
    eapply Rle_lt_trans; [|exact K]. rewrite (INR_IZR_INZ (length (h_vertices h))). cbn [h fh h_vertices z_vertices cubeZ length Z.of_nat Pos.of_succ_nat Pos.succ]. lra.
  - intros z Hz o.
    assert (Oz : vfin o /\ fvec o = rv z /\ zwithin 25 z = true).
    { assert (Q : forall x, (Z.abs x <= 25)%Z -> fin (fofZ x) /\ fv (fofZ x) = IZR x) by (intros; apply fofZ_exact; lia).
      unfold o, fvec, vmap, rv, vfin. destruct Hz as [-> |[-> |[-> | ->]]]; cbn [PropertiesF.fv o_out o_in o_lev o_on zv vx vy vz];
        (repeat split; try (apply Q; lia); rewrite ?(proj2 (Q 25%Z ltac:(lia))), ?(proj2 (Q 13%Z ltac:(lia))), ?(proj2 (Q 17%Z ltac:(lia))), ?(proj2 (Q 1%Z ltac:(lia))), ?(proj2 (Q 2%Z ltac:(lia))), ?(proj2 (Q 4%Z ltac:(lia))), ?(proj2 (Q 10%Z ltac:(lia))), ?(proj2 (Q 3%Z ltac:(lia))), ?(proj2 (Q (-4)%Z ltac:(lia))); reflexivity). }
    destruct Oz as (Fo & Eo & Wo). split; [exact Fo|]. rewrite Eo. split; [exact (zwithin_ok 25 _ Wo)|].
    intros a b c Hin. destruct (Hv a b c Hin) as (Va & Vb & Vc). destruct (PZ a Va) as (_ & -> & _), (PZ b Vb) as (_ & -> & _), (PZ c Vc) as (_ & -> & _).
    rewrite !rv_sub.
    assert (Al : forallb (fun s => match s with [a; b; c] => zsees 35 12 5 (zsub (zpt cubeZ a) z) (zsub (zpt cubeZ b) z) (zsub (zpt cubeZ c) z) ||
      zlevel 35 12 (zsub (zpt cubeZ a) z) (zsub (zpt cubeZ b) z) (zsub (zpt cubeZ c) z) | _ => true end) (z_simplices cubeZ) = true)
      by (destruct Hz as [-> |[-> |[-> | ->]]]; vm_compute; reflexivity).
    rewrite forallb_forall in Al. pose proof (Al [a; b; c] Hin) as K. cbv beta iota in K. apply orb_true_iff in K. destruct K as [K|K].
    + left. apply (zsees_ok 35 12 5); [lia|lia|exact K].
    + right. apply (zlevel_ok 35 12); [lia|exact K].
Qed.

(** * Properties C64 and C65 on a lattice: no domain error, and finite results *)
From Coq Require Import Reals Lra List ZArith Bool Arith Lia Permutation Floats.SpecFloat.
From Verif Require Import Base MUtils MEdge MFace MHull MPoly SpecPoly PPoly PStation PPlain FArith PCall PNan Examples.
From Verif Require Import RVec RArith REdge REdgeModel RAngle ROmega RFace RFacet RPoly RTwin RField
  RHull RHullZ ExamplesR RPlaced RPlacedZ RGlue RVolume RSolid PropertiesR PropertiesT PropertiesV PropertiesF PropertiesE FReal FErr FDot PSim FHull FNorm FBuild FInt
  FLog FUnit FEdge FOmega FGrav FField FTField PropertiesG PropertiesO.
Import ListNotations.
Local Open Scope R_scope.

(** ** What an observer sees does not depend on the unit of length *)
Lemma within_sc d L v : 0 <= d -> within L v -> within (d * L) (d * v)%v.
Proof.
  intros Hd (H1 & H2 & H3). unfold within. cbn [sc vmap vx vy vz]. rewrite !Rabs_mult, (Rabs_pos_eq d) by exact Hd.
  repeat split; apply Rmult_le_compat_l; assumption.
Qed.
Lemma sc_minus d a b : (d * a - d * b = d * (a - b))%v. Proof. vring. Qed.
Lemma sc_cr d e a b : cr (d * a)%v (e * b)%v = ((d * e)%R * cr a b)%v. Proof. vring. Qed.
Lemma sc_dt d e a b : dt (d * a)%v (e * b)%v = d * e * dt a b. Proof. vring. Qed.
Lemma nm_sc_pos d v : 0 <= d -> nm (d * v)%v = d * nm v. Proof. intros H. now rewrite nm_sc, Rabs_pos_eq. Qed.
Lemma views_sc d L g s a b c : 0 < d -> views L g s a b c -> views (d * L) g s (d * a) (d * b) (d * c).
Proof.
  intros d0. assert (D2 : 0 <= d * d) by nra. assert (D4 : 0 <= d * d * (d * d)) by nra.
  assert (W : forall v, within L v -> within (d * L) (d * v)%v) by (intros; apply within_sc; [lra|assumption]).
  assert (M2 : forall x y, x <= y -> d * d * x <= d * d * y) by (intros; apply Rmult_le_compat_l; lra).
  assert (M3 : forall x y, x <= y -> d * d * d * x <= d * d * d * y) by (intros; apply Rmult_le_compat_l; [apply Rmult_le_pos; lra|assumption]).
  assert (M4 : forall x y, x <= y -> d * d * (d * d) * x <= d * d * (d * d) * y) by (intros; apply Rmult_le_compat_l; lra).
  intros [((A1 & A2 & A3 & A4 & A5 & A6) & (B1 & B2) & (C1 & C2 & C3) & (D1' & D2' & D3'))|((A1 & A2 & A3 & A4 & A5 & A6) & B & (C1 & C2 & C3) & D)]; [left|right].
  - split; [rewrite !sc_minus; repeat split; auto; apply W; assumption|]. cbv zeta. rewrite !sc_minus, !sc_cr, !sc_dt, !nm_sc_pos by lra.
    split; [split|split; [split; [|split]|split; [|split]]].
    + apply M2 in B1. lra.
    + rewrite Rabs_mult, (Rabs_pos_eq (d * d * d)) by nra. apply M3 in B2. lra.
    + apply M2 in C1. lra.
    + apply M2 in C2. lra.
    + apply M2 in C3. lra.
    + apply M4 in D1'. lra.
    + apply M4 in D2'. lra.
    + apply M4 in D3'. lra.
  - split; [rewrite !sc_minus; repeat split; auto; apply W; assumption|]. rewrite !sc_minus, !sc_cr, !nm_sc_pos by lra.
    split; [apply M2 in B; lra|]. split.
    + apply M2 in C1, C2, C3. repeat split; lra.
    + cbn [sc vmap vx vy vz]. destruct D as [(-> & -> & ->)|[(-> & -> & ->)|(-> & -> & ->)]]; rewrite Rmult_0_r; auto.
Qed.

(** ** Integer vectors *)
Lemma int_nm (w : ZV) : rv w <> v0 -> 1 <= nm (rv w).
Proof.
  intros H. assert (Hz : (1 <= zdt w w)%Z).
  { unfold zdt. destruct (Z.eq_dec (vx w) 0) as [E1|], (Z.eq_dec (vy w) 0) as [E2|], (Z.eq_dec (vz w) 0) as [E3|]; try nia.
    exfalso. apply H. unfold rv, v0. now rewrite E1, E2, E3. }
  unfold nm. rewrite rv_dt, <- sqrt_1. apply sqrt_le_1_alt. now apply IZR_le.
Qed.
Lemma int_abs z : IZR z <> 0 -> 1 <= Rabs (IZR z).
Proof. intros H. rewrite <- abs_IZR. apply IZR_le. assert (z <> 0%Z) by (intros ->; now apply H). lia. Qed.

Definition small (a : ZV) : Prop := (Z.abs (vx a) <= 6 /\ Z.abs (vy a) <= 6 /\ Z.abs (vz a) <= 6)%Z.
Lemma small_within a : small a -> within 6 (rv a).
Proof. intros (H1 & H2 & H3). unfold within, rv. cbn [vx vy vz]. rewrite <- !abs_IZR. repeat split; apply IZR_le; assumption. Qed.

Lemma lattice_views (a b c : ZV) : small a -> small b -> small c -> small (zsub b a) -> small (zsub c b) -> small (zsub a c) ->
  cr (rv b - rv a)%v (rv c - rv a)%v <> v0 ->
  (dt (cr (rv b - rv a)%v (rv c - rv a)%v) (rv a) <> 0 \/
   (cr (rv a) (rv b) <> v0 /\ cr (rv b) (rv c) <> v0 /\ cr (rv c) (rv a) <> v0 /\
    ((vx (rv a) = 0 /\ vx (rv b) = 0 /\ vx (rv c) = 0) \/ (vy (rv a) = 0 /\ vy (rv b) = 0 /\ vy (rv c) = 0) \/ (vz (rv a) = 0 /\ vz (rv b) = 0 /\ vz (rv c) = 0)))) ->
  views 6 1024 1200 (rv a) (rv b) (rv c).
Proof.
  intros Sa Sb Sc Sab Sbc Sca Hn H.
  assert (W : within 6 (rv a) /\ within 6 (rv b) /\ within 6 (rv c) /\ within 6 (rv b - rv a)%v /\ within 6 (rv c - rv b)%v /\ within 6 (rv a - rv c)%v).
  { rewrite !rv_sub. repeat split; apply small_within; assumption. }
  assert (N1 : 1 <= nm (cr (rv b - rv a) (rv c - rv a))) by (rewrite !rv_sub, rv_cr in *; now apply int_nm).
  destruct H as [Hd|(C1 & C2 & C3 & Ax)].
  - left. set (n := cr (rv b - rv a) (rv c - rv a)) in *.
    assert (Ed : dt n (rv a) = det (rv a) (rv b) (rv c)) by (unfold n, det; vring).
    assert (Hdet : det (rv a) (rv b) (rv c) <> 0) by (rewrite <- Ed; exact Hd).
    assert (D1 : 1 <= Rabs (det (rv a) (rv b) (rv c))) by (unfold det in *; rewrite rv_cr, rv_dt in *; now apply int_abs).
    assert (Q : forall x y : ZV, 0 < nm (cr (rv x) (rv y)) -> 1 <= nm (cr (rv x) (rv y))).
    { intros x y Hp. rewrite rv_cr in *. apply int_nm. intros E. rewrite E in Hp. unfold nm, dt, v0 in Hp. cbn in Hp.
      replace (0 * 0 + 0 * 0 + 0 * 0) with 0 in Hp by ring. rewrite sqrt_0 in Hp. lra. }
    destruct (det_cross _ _ _ Hdet) as (P1 & P2 & P3). apply Q in P1, P2, P3.
    destruct W as (W1 & W2 & W3 & W4 & W5 & W6).
    assert (B : forall v, within 6 v -> 0 <= nm v <= 21 / 2) by (intros v Hv; split; [apply nm_nonneg|]; apply within_nm in Hv; lra).
    assert (Wc : within 6 (rv c - rv a)%v).
    { destruct W6 as (X1 & X2 & X3). unfold within. cbn [vm vx vy vz] in *.
      rewrite (Rabs_minus_sym (vx (rv c))), (Rabs_minus_sym (vy (rv c))), (Rabs_minus_sym (vz (rv c))). auto. }
    split; [repeat split; try apply W1; try apply W2; try apply W3; try apply W4; try apply W5; apply W6|]. cbv zeta. fold n. split; [split; [lra|]|split; [lra|]].
    + assert (nm n <= 21 / 2 * (21 / 2)).
      { unfold n. eapply Rle_trans; [apply nm_cr_le|]. pose proof (B _ W4). pose proof (B _ Wc). apply Rmult_le_compat; lra. }
      rewrite Ed. lra.
    + assert (T : forall x y z, 1 <= Rabs (det x y z) -> 0 <= nm x <= 21 / 2 -> 0 <= nm y <= 21 / 2 -> 0 <= nm z <= 21 / 2 ->
        nm (cr x y) * nm (cr y z) <= 1200 * (Rabs (det x y z) * nm y)).
      { intros x y z Hxyz Hx Hy Hz. apply Rle_trans with ((nm x * nm y) * (nm y * nm z)); [apply Rmult_le_compat; try apply nm_nonneg; apply nm_cr_le|].
        assert (nm x * nm y <= 21 / 2 * (21 / 2)) by (apply Rmult_le_compat; lra).
        assert (nm x * nm y * nm z <= 21 / 2 * (21 / 2) * (21 / 2)) by (apply Rmult_le_compat; try lra; apply Rmult_le_pos; lra).
        replace ((nm x * nm y) * (nm y * nm z)) with ((nm x * nm y * nm z) * nm y) by ring. rewrite <- Rmult_assoc.
        apply Rmult_le_compat_r; lra. }
      rewrite !cr_cr. split; [|split]; apply T; auto.
      * replace (det (rv b) (rv c) (rv a)) with (det (rv a) (rv b) (rv c)) by (unfold det; vring). exact D1.
      * replace (det (rv c) (rv a) (rv b)) with (det (rv a) (rv b) (rv c)) by (unfold det; vring). exact D1.
  - right. rewrite rv_cr in C1, C2, C3. apply int_nm in C1, C2, C3. rewrite <- rv_cr in C1, C2, C3.
    split; [exact W|]. split; [lra|]. split; [lra|exact Ax].
Qed.

(** ** The body and the observer on a lattice of spacing d *)
(** v is the point d z, z of integer coordinates of at most 1024 *)
Definition node (d : R) (v : V) : Prop :=
  exists z : ZV, v = (d * rv z)%v /\ (Z.abs (vx z) <= 1024 /\ Z.abs (vy z) <= 1024 /\ Z.abs (vz z) <= 1024)%Z.
(** at most six steps of the lattice apart in each coordinate *)
Definition near (d : R) (v w : V) : Prop := within (6 * d) (v - w)%v.
(** the observer, from which the triangle is seen at a, b, c, is off its plane, or the
    plane is perpendicular to an axis and the observer in it, on no line of a side *)
Definition clear (a b c : V) : Prop :=
  dt (cr (b - a) (c - a)) a <> 0 \/
  (cr a b <> v0 /\ cr b c <> v0 /\ cr c a <> v0 /\
   ((vx a = 0 /\ vx b = 0 /\ vx c = 0) \/ (vy a = 0 /\ vy b = 0 /\ vy c = 0) \/ (vz a = 0 /\ vz b = 0 /\ vz c = 0))).
Arguments near _%R_scope (_ _)%v_scope.
Arguments clear (_ _ _)%v_scope.

Lemma near_small d (a b : ZV) : 0 < d -> near d (d * rv a) (d * rv b) -> small (zsub a b).
Proof.
  intros d0. unfold near. rewrite sc_minus, rv_sub. intros (H1 & H2 & H3). cbn [sc rv vx vy vz] in *.
  rewrite Rabs_mult, (Rabs_pos_eq d), <- abs_IZR in H1, H2, H3 by lra.
  assert (X : forall z, d * IZR z <= 6 * d -> (z <= 6)%Z) by (intros z Hz; apply le_IZR; apply Rmult_le_reg_l with d; lra).
  apply X in H1, H2, H3. split; [|split]; assumption.
Qed.
Lemma sc_v0 d v : d <> 0 -> (d * v)%v <> v0 -> v <> v0.
Proof. intros _ H ->. apply H. unfold sc, v0. cbn. f_equal; ring. Qed.
Lemma clear_sc d a b c : d <> 0 -> clear (d * a) (d * b) (d * c) -> clear a b c.
Proof.
  intros d0. assert (Q : forall x, d * x = 0 -> x = 0) by (intros x H; apply Rmult_integral in H as [H|H]; [contradiction|exact H]).
  unfold clear. rewrite !sc_minus, !sc_cr, sc_dt. intros [H|(H1 & H2 & H3 & H)]; [left|right].
  - intros E. apply H. rewrite E. ring.
  - assert (D : d * d <> 0) by (apply Rmult_integral_contrapositive; auto).
    split; [now apply (sc_v0 (d * d))|]. split; [now apply (sc_v0 (d * d))|]. split; [now apply (sc_v0 (d * d))|].
    cbn [sc vx vy vz] in H. destruct H as [(X & Y & Z)|[(X & Y & Z)|(X & Y & Z)]]; apply Q in X, Y, Z; auto.
Qed.

Lemma node_views d (a b c o : V) : 0 < d -> node d a -> node d b -> node d c -> node d o ->
  near d a o -> near d b o -> near d c o -> near d b a -> near d c b -> near d a c ->
  cr (b - a)%v (c - a)%v <> v0 -> clear (a - o) (b - o) (c - o) -> views (6 * d) 1024 1200 (a - o) (b - o) (c - o).
Proof.
  intros d0 (za & -> & _) (zb & -> & _) (zc & -> & _) (zo & -> & _) N1 N2 N3 N4 N5 N6 Hn Hc.
  apply near_small in N1, N2, N3, N4, N5, N6; try assumption.
  rewrite !sc_minus, !rv_sub in *. rewrite sc_cr in Hn. apply clear_sc in Hc; [|lra].
  rewrite (Rmult_comm 6 d). apply views_sc; [exact d0|].
  assert (E : forall x y z : ZV, zsub (zsub x z) (zsub y z) = zsub x y) by (intros; unfold zsub; cbn; f_equal; ring).
  assert (Hn' : cr (rv (zsub zb za)) (rv (zsub zc za)) <> v0) by (apply (sc_v0 (d * d)); [nra|exact Hn]).
  apply lattice_views; try (rewrite ?rv_sub, ?E; auto; fail). exact Hc.
Qed.

Section Lattice.
  Variables lg ac : F -> F.
  Variable DP : dotlib.
  Let FD := FA lg ac DP.
  Variable d : R.
  Hypothesis Hd : / 2 ^ 20 <= d <= 2 ^ 40.
  Let d0 : 0 < d. Proof. assert (0 < / 2 ^ 20) by (apply Rinv_0_lt_compat; lra). lra. Qed.

  Lemma node_within v : node d v -> within (1024 * d) v.
  Proof.
    intros (z & -> & H1 & H2 & H3). rewrite (Rmult_comm 1024). apply within_sc; [lra|].
    unfold within, rv. cbn [vx vy vz]. rewrite <- !abs_IZR. repeat split; apply IZR_le; assumption.
  Qed.

  Lemma lattice_margin (h : hull FD) : correct_hull (real_hull lg ac DP h) -> (length (h_vertices h) <= 500)%nat ->
    (forall i, In i (h_vertices h) -> node d (fvec (pnth (A := FD) i (h_points h)))) ->
    forall a b c, In [a; b; c] (h_simplices h) ->
      nrm3 (real_hull lg ac DP h) a b c <> v0 /\
      ((INR (length (h_vertices h)) + 1) * (1024 * d) + 8 * (6 * d)) * (6 * d * (6 * d)) / 2 ^ 50 <
        Rabs (dt (nrm3 (real_hull lg ac DP h) a b c) (centroid (A := RA) (h_points (real_hull lg ac DP h)) (h_vertices h) - pt (real_hull lg ac DP h) a)%v).
  Proof.
    intros Hh Hn Hi a b c Hin. set (RH := real_hull lg ac DP h) in *. set (n := length (h_vertices h)) in *.
    pose proof (centroid_strict RH a b c Hh Hin) as HC. cbv zeta in HC.
    assert (Ia : In a (h_vertices h)) by (apply (ch_vert RH Hh [a; b; c]); [exact Hin|cbn; auto]).
    assert (Ib : In b (h_vertices h)) by (apply (ch_vert RH Hh [a; b; c]); [exact Hin|cbn; auto]).
    assert (Ic : In c (h_vertices h)) by (apply (ch_vert RH Hh [a; b; c]); [exact Hin|cbn; auto]).
    assert (Hne : h_vertices RH <> []) by (intros E; change (h_vertices RH) with (h_vertices h) in E; rewrite E in Ia; destruct Ia).
    pose proof (centroid_side (h_points RH) (h_vertices RH) (nrm3 RH a b c) (pt RH a) Hne) as S.
    assert (Zp : forall i, In i (h_vertices h) -> exists q : ZV, pt RH i = (d * rv q)%v).
    { intros i Hv. destruct (Hi i Hv) as (q & E & _). exists q. unfold RH. rewrite pt_real. exact E. }
    destruct (Zp a Ia) as [qa Ea], (Zp b Ib) as [qb Eb], (Zp c Ic) as [qc Ec].
    assert (Int : exists k, rsum (fun i => dt (nrm3 RH a b c) (nth i (h_points RH) v0 - pt RH a)) (h_vertices RH) = d * d * d * IZR k).
    { assert (G : forall l, incl l (h_vertices h) -> exists k, rsum (fun i => dt (nrm3 RH a b c) (nth i (h_points RH) v0 - pt RH a)) l = d * d * d * IZR k).
      { induction l as [|i l IH]; intros Hl; [exists 0%Z; cbn; ring|].
        destruct IH as [k Ek]; [intros x Hx; apply Hl; now right|].
        destruct (Zp i (Hl i (or_introl eq_refl))) as [qi Ei]. unfold pt in Ei.
        exists (zdt (zcr (zsub qb qa) (zsub qc qa)) (zsub qi qa) + k)%Z. cbn [rsum fold_right].
        rewrite plus_IZR, Rmult_plus_distr_l. f_equal; [|exact Ek]. rewrite Ei, Ea. unfold nrm3.
        rewrite Ea, Eb, Ec, !sc_minus, sc_cr, sc_dt, !rv_sub, rv_cr, rv_dt. reflexivity. }
      apply G. apply incl_refl. }
    destruct Int as [k Ek]. pose proof (eq_trans S (f_equal (Rmult _) Ek)) as S'. clear S. rename S' into S.
    change (h_vertices RH) with (h_vertices h) in *. fold n in S.
    change (dt (nrm3 RH a b c) (centroid (A := RA) (h_points RH) (h_vertices h) - pt RH a) = / INR n * (d * d * d * IZR k)) in S.
    set (q := dt (nrm3 RH a b c) (centroid (A := RA) (h_points RH) (h_vertices h) - pt RH a)) in *.
    assert (Hq0 : q <> 0) by (destruct HC as [[Q _]|[Q _]]; lra).
    assert (Hn0 : 0 < INR n) by (apply lt_0_INR; unfold n; destruct (h_vertices h); [congruence|cbn; lia]).
    assert (D3 : 0 < d * d * d) by (apply Rmult_lt_0_compat; [apply Rmult_lt_0_compat|]; assumption).
    split; [intros E; apply Hq0; unfold q; rewrite E; unfold dt, v0; cbn; ring|].
    assert (Hk : (1 <= Z.abs k)%Z).
    { destruct (Z.eq_dec k 0) as [->|]; [|lia]. exfalso. apply Hq0. rewrite S. ring. }
    assert (Hq : / INR n * (d * d * d) <= Rabs q).
    { rewrite S, !Rabs_mult, Rabs_inv, (Rabs_pos_eq (INR n)), (Rabs_pos_eq d), <- abs_IZR by lra. rewrite <- (Rmult_1_r (d * d * d)) at 1.
      apply Rmult_le_compat_l; [apply Rlt_le, Rinv_0_lt_compat; exact Hn0|]. apply Rmult_le_compat_l; [lra|]. now apply IZR_le. }
    eapply Rlt_le_trans; [|exact Hq]. assert (Hn5 : INR n <= 500) by (apply le_INR in Hn; rewrite (INR_IZR_INZ 500) in Hn; exact Hn).
    apply Rmult_lt_reg_r with (INR n); [exact Hn0|].
    replace (/ INR n * (d * d * d) * INR n) with (d * d * d * 1) by (field; lra).
    replace (((INR n + 1) * (1024 * d) + 8 * (6 * d)) * (6 * d * (6 * d)) / 2 ^ 50 * INR n) with
      (d * d * d * ((((INR n + 1) * 1024 + 48) * 36 / 2 ^ 50) * INR n)) by field.
    apply Rmult_lt_compat_l; [exact D3|].
    assert (INR n * INR n <= 250000) by nra. lra.
  Qed.

  Theorem lattice_call : libm lg ac ->
    forall convex_hull in_hull points (h : hull FD),
    convex_hull points = Ok h -> correct_hull (real_hull lg ac DP h) ->
    (1 <= length (h_vertices h) <= 500)%nat -> (length (h_simplices h) <= 2 ^ 20)%nat ->
    let P i := pnth (A := FD) i (h_points h) in
    (forall i, In i (h_vertices h) -> vfin (P i) /\ node d (fvec (P i))) ->
    (forall i j, In i (h_vertices h) -> In j (h_vertices h) -> near d (fvec (P i)) (fvec (P j))) ->
    forall o : vec FD, vfin o -> node d (fvec o) ->
    (forall i, In i (h_vertices h) -> near d (fvec (P i)) (fvec o)) ->
    (forall a b c, In [a; b; c] (h_simplices h) -> clear (fvec (P a) - fvec o) (fvec (P b) - fvec o) (fvec (P c) - fvec o)) ->
    forall density Gc : num FD, fin density -> Rabs (fv density) <= 2 ^ 90 -> fin Gc -> Rabs (fv Gc) <= 2 ^ 90 ->
    exists p, mk_polyhedron convex_hull in_hull points = Ok p /\ forall st gradient, reachable p st ->
    exists G T, fst (get_gravity p o density Gc gradient st) = Ok (G, T) /\ vfin G /\
      (gradient = true -> vfin (vx T) /\ vfin (vy T) /\ vfin (vz T)).
  Proof.
    intros Hlib ch inh pts h Hc Hh H1 H2 P Hv Hnear o Fo No Hno Hclear rho Gc Fr Br Fg Bg.
    assert (HM : forall a b c, In [a; b; c] (h_simplices h) ->
      cr (fvec (P b) - fvec (P a)) (fvec (P c) - fvec (P a)) <> v0 /\
      ((INR (length (h_vertices h)) + 1) * (1024 * d) + 8 * (6 * d)) * (6 * d * (6 * d)) / 2 ^ 50 <
      Rabs (dt (cr (fvec (P b) - fvec (P a)) (fvec (P c) - fvec (P a)))
              (centroid (A := RA) (map fvec (h_points h)) (h_vertices h) - fvec (P a))%v)).
    { intros a b c Hin. destruct (lattice_margin h Hh (proj2 H1) (fun i Hi => proj2 (Hv i Hi)) a b c Hin) as [X Y].
      unfold nrm3 in X, Y. rewrite !pt_real in X, Y. split; [exact X|exact Y]. }
    assert (Hvw : forall a b c, In [a; b; c] (h_simplices h) ->
      views (6 * d) 1024 1200 (fvec (P a) - fvec o) (fvec (P b) - fvec o) (fvec (P c) - fvec o)).
    { intros a b c Hin. set (RH := real_hull lg ac DP h) in *.
      assert (Ia : In a (h_vertices h)) by (apply (ch_vert RH Hh [a; b; c]); [exact Hin|cbn; auto]).
      assert (Ib : In b (h_vertices h)) by (apply (ch_vert RH Hh [a; b; c]); [exact Hin|cbn; auto]).
      assert (Ic : In c (h_vertices h)) by (apply (ch_vert RH Hh [a; b; c]); [exact Hin|cbn; auto]).
      apply node_views; try apply Hv; try apply Hnear; try apply Hno; auto. exact (proj1 (HM a b c Hin)). }
    assert (H20 : (1 <= length (h_vertices h) <= 2 ^ 20)%nat).
    { split; [apply H1|]. apply Nat.le_trans with (1 := proj2 H1). apply Nat.le_trans with (2 ^ 9)%nat; [cbn; lia|]. apply Nat.pow_le_mono_r; lia. }
    assert (D1 : / 2 ^ 20 <= 6 * d) by lra. assert (D2 : 6 * d <= 2 * (1024 * d)) by lra.
    assert (D5 : 6 * d <= 2 ^ 50) by lra.
    assert (D3 : 1024 * d <= 2 ^ 100) by (apply Rle_trans with (2 ^ 50); [lra|]; apply Rle_pow; [lra|lia]).
    assert (R9 : / 2 ^ 90 <= 2 ^ 90 <= 2 ^ 90).
    { split; [|lra]. apply Rle_trans with 1; [|apply pow_R1_Rle; lra]. rewrite <- Rinv_1. apply Rinv_le_contravar; [lra|]. apply pow_R1_Rle; lra. }
    assert (Hf : forall i, In i (h_vertices h) -> vfin (P i) /\ within (1024 * d) (fvec (P i))).
    { intros i Hi. split; [apply Hv, Hi|]. apply node_within, Hv, Hi. }
    pose proof (C72_accuracy lg ac DP Hlib ch inh pts h (1024 * d) (6 * d) 1024 1200 Hc Hh H20 H2 D1 D2 D3 ltac:(lra) ltac:(lra)
      Hf Hnear (fun a b c Hin => proj2 (HM a b c Hin)) o Fo (node_within _ No) Hvw rho Gc (2 ^ 90) (2 ^ 90) R9 R9 Fr Br Fg Bg) as (p & Ep & K).
    pose proof (C79_tensor_accuracy lg ac DP Hlib ch inh pts h (1024 * d) (6 * d) 1024 1200 Hc Hh H20 H2 D1 D2 D3 D5 ltac:(lra) ltac:(lra)
      Hf Hnear (fun a b c Hin => proj2 (HM a b c Hin)) o Fo (node_within _ No) Hvw rho Gc (2 ^ 90) (2 ^ 90) R9 R9 Fr Br Fg Bg) as (p' & Ep' & K').
    assert (p' = p) by congruence. subst p'. exists p. split; [exact Ep|]. intros st [|] Hst.
    - destruct (K' st Hst) as (G & T & E & G1 & T1 & T2 & T3 & _). exists G, T. auto.
    - destruct (K st Hst) as (G & T & E & G1 & _). exists G, T. split; [exact E|]. split; [exact G1|discriminate].
  Qed.
End Lattice.

(** C64: no domain error, and indeed no exception, for bodies and observers on a
    lattice: all hull vertices and the observer are multiples of some d between 2^-20
    and 2^40, of at most 1024 d, at most six steps d apart in each coordinate, at
    most 500 vertices; the observer is in the plane of a facet only if this is
    perpendicular to an axis, and then on no line of a side.  For every log and acos
    accurate to a few units in the last place and every np.dot adding three
    products, rounded or fused, in any order; with and without gradient, after any
    history of calls.  Missing: other bodies and observers; in the plane of a slanted
    facet the claim is false (C64_domain_error_refuted). *)
Theorem C64_lattice_partial :
  forall lg ac (DP : dotlib), libm lg ac -> forall d, / 2 ^ 20 <= d <= 2 ^ 40 ->
  forall convex_hull in_hull points (h : hull (FA lg ac DP)),
  convex_hull points = Ok h -> correct_hull (real_hull lg ac DP h) ->
  (1 <= length (h_vertices h) <= 500)%nat -> (length (h_simplices h) <= 2 ^ 20)%nat ->
  let P i := pnth (A := FA lg ac DP) i (h_points h) in
  (forall i, In i (h_vertices h) -> vfin (P i) /\ node d (fvec (P i))) ->
  (forall i j, In i (h_vertices h) -> In j (h_vertices h) -> near d (fvec (P i)) (fvec (P j))) ->
  forall o : vec (FA lg ac DP), vfin o -> node d (fvec o) ->
  (forall i, In i (h_vertices h) -> near d (fvec (P i)) (fvec o)) ->
  (forall a b c, In [a; b; c] (h_simplices h) -> clear (fvec (P a) - fvec o) (fvec (P b) - fvec o) (fvec (P c) - fvec o)) ->
  forall density Gc : num (FA lg ac DP), fin density -> Rabs (fv density) <= 2 ^ 90 -> fin Gc -> Rabs (fv Gc) <= 2 ^ 90 ->
  exists p, mk_polyhedron convex_hull in_hull points = Ok p /\ forall st gradient, reachable p st ->
  forall x, fst (get_gravity p o density Gc gradient st) <> Err x.
Proof.
  intros lg ac DP Hlib d Hd ch inh pts h Hc Hh H1 H2 P Hv Hn o Fo No Hno Hcl rho Gc Fr Br Fg Bg.
  destruct (lattice_call lg ac DP d Hd Hlib ch inh pts h Hc Hh H1 H2 Hv Hn o Fo No Hno Hcl rho Gc Fr Br Fg Bg) as (p & Ep & K).
  exists p. split; [exact Ep|]. intros st gr Hst x. destruct (K st gr Hst) as (G & T & -> & _). discriminate.
Qed.
Print Assumptions C64_lattice_partial.

(** C65: under the same conditions the three components of the vector are finite, and
    with gradient=True the nine of the tensor.  Missing: other bodies and observers;
    for those in line with an oblique edge the claim is false (C65_finite_refuted). *)
Theorem C65_lattice_partial :
  forall lg ac (DP : dotlib), libm lg ac -> forall d, / 2 ^ 20 <= d <= 2 ^ 40 ->
  forall convex_hull in_hull points (h : hull (FA lg ac DP)),
  convex_hull points = Ok h -> correct_hull (real_hull lg ac DP h) ->
  (1 <= length (h_vertices h) <= 500)%nat -> (length (h_simplices h) <= 2 ^ 20)%nat ->
  let P i := pnth (A := FA lg ac DP) i (h_points h) in
  (forall i, In i (h_vertices h) -> vfin (P i) /\ node d (fvec (P i))) ->
  (forall i j, In i (h_vertices h) -> In j (h_vertices h) -> near d (fvec (P i)) (fvec (P j))) ->
  forall o : vec (FA lg ac DP), vfin o -> node d (fvec o) ->
  (forall i, In i (h_vertices h) -> near d (fvec (P i)) (fvec o)) ->
  (forall a b c, In [a; b; c] (h_simplices h) -> clear (fvec (P a) - fvec o) (fvec (P b) - fvec o) (fvec (P c) - fvec o)) ->
  forall density Gc : num (FA lg ac DP), fin density -> Rabs (fv density) <= 2 ^ 90 -> fin Gc -> Rabs (fv Gc) <= 2 ^ 90 ->
  exists p, mk_polyhedron convex_hull in_hull points = Ok p /\ forall st gradient, reachable p st ->
  exists G T, fst (get_gravity p o density Gc gradient st) = Ok (G, T) /\ vfin G /\
    (gradient = true -> vfin (vx T) /\ vfin (vy T) /\ vfin (vz T)).
Proof. intros lg ac DP Hlib d Hd. exact (lattice_call lg ac DP d Hd Hlib). Qed.
Print Assumptions C65_lattice_partial.

(** *** Cases *)
Definition boxZ : zhull :=
  {| z_points := [zv 0 0 0; zv 0 0 4; zv 0 4 0; zv 0 4 4; zv 4 0 0; zv 4 0 4; zv 4 4 0; zv 4 4 4];
     z_simplices := z_simplices cubeZ; z_neighbors := z_neighbors cubeZ; z_vertices := z_vertices cubeZ |}.
Definition wedgeZ : zhull :=
  {| z_points := [zv 0 0 0; zv 5 0 0; zv 0 4 0; zv 0 0 3];
     z_simplices := z_simplices tetraZ; z_neighbors := z_neighbors tetraZ; z_vertices := z_vertices tetraZ |}.

Definition znz (a : ZV) : bool := negb ((vx a =? 0) && (vy a =? 0) && (vz a =? 0))%Z.
Definition zclear (a b c : ZV) : bool :=
  negb (zdt (zcr (zsub b a) (zsub c a)) a =? 0)%Z ||
  (znz (zcr a b) && znz (zcr b c) && znz (zcr c a) &&
   (((vx a =? 0) && (vx b =? 0) && (vx c =? 0)) || ((vy a =? 0) && (vy b =? 0) && (vy c =? 0)) || ((vz a =? 0) && (vz b =? 0) && (vz c =? 0))))%Z.
Lemma znz_ok a : znz a = true -> rv a <> v0.
Proof.
  unfold znz. rewrite negb_true_iff, !andb_false_iff, !Z.eqb_neq. unfold rv, v0. intros H E. injection E as E1 E2 E3.
  apply eq_IZR in E1, E2, E3. tauto.
Qed.
Lemma zclear_ok a b c : zclear a b c = true -> clear (rv a) (rv b) (rv c).
Proof.
  unfold zclear, clear. rewrite orb_true_iff, negb_true_iff, !andb_true_iff, !orb_true_iff, !andb_true_iff, Z.eqb_neq, !Z.eqb_eq.
  rewrite !rv_sub, !rv_cr, rv_dt. intros [H|(((H1 & H2) & H3) & H)]; [left|right].
  - intros E. apply H. now apply eq_IZR in E.
  - split; [now apply znz_ok|]. split; [now apply znz_ok|]. split; [now apply znz_ok|].
    unfold rv. cbn [vx vy vz]. destruct H as [[((-> & ->) & ->)|((-> & ->) & ->)]|((-> & ->) & ->)]; auto.
Qed.
Definition latticeb (h : zhull) (o : ZV) : bool :=
  hullb h && forallb (zwithin 1024) (z_points h) && forallb (fun i => i <? length (z_points h)) (z_vertices h) && zwithin 1024 o &&
  forallb (fun i => zwithin 6 (zsub (zpt h i) o) && forallb (fun j => zwithin 6 (zsub (zpt h i) (zpt h j))) (z_vertices h)) (z_vertices h) &&
  forallb (fun s => match s with [a; b; c] => zclear (zsub (zpt h a) o) (zsub (zpt h b) o) (zsub (zpt h c) o) | _ => true end) (z_simplices h).

Lemma latticeb_ok lg ac (DP : dotlib) h z : latticeb h z = true ->
  let H := fh lg ac DP h in let P i := pnth (A := FA lg ac DP) i (h_points H) in let o := PropertiesF.fv lg ac DP z in
  correct_hull (real_hull lg ac DP H) /\
  (forall i, In i (h_vertices H) -> vfin (P i) /\ node 1 (fvec (P i))) /\
  (forall i j, In i (h_vertices H) -> In j (h_vertices H) -> near 1 (fvec (P i)) (fvec (P j))) /\
  vfin o /\ node 1 (fvec o) /\ (forall i, In i (h_vertices H) -> near 1 (fvec (P i)) (fvec o)) /\
  (forall a b c, In [a; b; c] (h_simplices H) -> clear (fvec (P a) - fvec o) (fvec (P b) - fvec o) (fvec (P c) - fvec o)).
Proof.
  intros Hb H P o. unfold latticeb in Hb. rewrite !andb_true_iff, !forallb_forall in Hb. destruct Hb as [[[[[Hh Hp] Hi] Ho] Hn] Hc].
  assert (Q : forall v, zwithin 1024 v = true -> (Z.abs (vx v) <= 1024 /\ Z.abs (vy v) <= 1024 /\ Z.abs (vz v) <= 1024)%Z).
  { intros v. unfold zwithin. rewrite !andb_true_iff, !Z.leb_le. tauto. }
  assert (S1 : forall v : V, (1 * v)%v = v) by (intros [x y z']; unfold sc; cbn; f_equal; ring).
  assert (X : forall v, zwithin 1024 v = true -> vfin (PropertiesF.fv lg ac DP v) /\ fvec (PropertiesF.fv lg ac DP v) = rv v /\ node 1 (rv v)).
  { intros v Hv. apply Q in Hv. destruct Hv as (H1 & H2 & H3).
    destruct (fofZ_exact (vx v) ltac:(lia)) as [F1 E1], (fofZ_exact (vy v) ltac:(lia)) as [F2 E2], (fofZ_exact (vz v) ltac:(lia)) as [F3 E3].
    split; [split; [exact F1|split; [exact F2|exact F3]]|]. split.
    - unfold fvec, vmap, rv, PropertiesF.fv. cbn [vx vy vz]. congruence.
    - exists v. rewrite S1. auto. }
  assert (PZ : forall i, In i (h_vertices H) -> vfin (P i) /\ fvec (P i) = rv (zpt h i) /\ node 1 (rv (zpt h i))).
  { intros i Hv. assert (E : P i = PropertiesF.fv lg ac DP (zpt h i)).
    { unfold P, H, pnth, zpt. cbn [h_points fh]. change (vzero (A := FA lg ac DP)) with (PropertiesF.fv lg ac DP (V3 0 0 0)%Z). apply map_nth. }
    rewrite E. apply X, Hp. unfold zpt. apply nth_In, Nat.ltb_lt, Hi, Hv. }
  assert (Ch : correct_hull (real_hull lg ac DP H)).
  { unfold H. rewrite real_fh; [now apply hullb_ok|]. intros v Hv. specialize (Q v (Hp v Hv)). lia. }
  destruct (X z Ho) as (O1 & O2 & O3). fold o in O1, O2.
  assert (Nr : forall a b, zwithin 6 (zsub a b) = true -> near 1 (rv a) (rv b)).
  { intros a b Hab. unfold near. rewrite rv_sub, Rmult_1_r. exact (zwithin_ok 6 _ Hab). }
  split; [exact Ch|]. split; [|split; [|split; [exact O1|split; [now rewrite O2|split]]]].
  - intros i Hv. destruct (PZ i Hv) as (A1 & -> & A3). auto.
  - intros i j Hv Hw. destruct (PZ i Hv) as (_ & -> & _), (PZ j Hw) as (_ & -> & _). apply Nr.
    specialize (Hn i Hv). rewrite andb_true_iff, forallb_forall in Hn. now apply Hn.
  - intros i Hv. destruct (PZ i Hv) as (_ & -> & _). rewrite O2. apply Nr. specialize (Hn i Hv). rewrite andb_true_iff in Hn. apply Hn.
  - intros a b c Hin. destruct (tri_in lg ac DP H Ch a b c Hin) as (Va & Vb & Vc).
    destruct (PZ a Va) as (_ & -> & _), (PZ b Vb) as (_ & -> & _), (PZ c Vc) as (_ & -> & _). rewrite O2, !rv_sub. apply zclear_ok. exact (Hc [a; b; c] Hin).
Qed.

(** A box of side 4 and a wedge with a slanted facet: seen from outside and inside, from
    the plane of a facet beside it and on it.  Every call on them, by any log, acos and
    np.dot as above, returns finite numbers - with density 2670 and the constant 1. *)
Example C64_C65_case : (exists lg ac, libm lg ac) /\ forall h z,
  (h = boxZ /\ (z = zv 2 1 6 \/ z = zv 1 2 3 \/ z = zv 4 6 5 \/ z = zv 1 2 4)) \/
  (h = wedgeZ /\ (z = zv 4 3 2 \/ z = zv 1 1 1 \/ z = zv 3 3 0)) ->
  forall lg ac (DP : dotlib), libm lg ac -> exists p, fbuild lg ac DP h = Ok p /\ forall st gradient, reachable p st ->
  exists G T, fst (get_gravity p (PropertiesF.fv lg ac DP z) (fofZ 2670 : num (FA lg ac DP)) (fofZ 1 : num (FA lg ac DP)) gradient st) = Ok (G, T) /\ vfin G /\
    (gradient = true -> vfin (vx T) /\ vfin (vy T) /\ vfin (vz T)).
Proof.
  split; [eexists _, _; exact libm_exists|]. intros h z Hz lg ac DP Hlib.
  assert (Hb : latticeb h z = true).
  { destruct Hz as [(-> & Hz)|(-> & Hz)]; repeat (destruct Hz as [-> |Hz]; [vm_compute; reflexivity|]); rewrite Hz; vm_compute; reflexivity. }
  destruct (latticeb_ok lg ac DP h z Hb) as (A1 & A2 & A3 & A4 & A5 & A6 & A7).
  assert (D1 : / 2 ^ 20 <= 1 <= 2 ^ 40) by (split; [apply Rmult_le_reg_r with (2 ^ 20); [lra|]; rewrite Rinv_l; lra|lra]).
  assert (B : 2670 <= 2 ^ 90) by (apply Rle_trans with (2 ^ 12); [lra|]; apply Rle_pow; [lra|lia]).
  destruct (fofZ_exact 2670 ltac:(lia)) as [F1 E1], (fofZ_exact 1 ltac:(lia)) as [F2 E2].
  apply (C65_lattice_partial lg ac DP Hlib 1 D1 (fun _ => Ok (fh lg ac DP h)) (fun _ _ => true) _ (fh lg ac DP h) eq_refl A1); try assumption.
  - destruct Hz as [(-> & _)|(-> & _)]; cbn; lia.
  - apply Nat.le_trans with 12%nat; [destruct Hz as [(-> & _)|(-> & _)]; cbn; lia|].
    apply Nat.le_trans with (2 ^ 4)%nat; [cbn; lia|]. apply Nat.pow_le_mono_r; lia.
  - rewrite E1, Rabs_pos_eq; lra.
  - rewrite E2, Rabs_pos_eq; lra.
Qed.

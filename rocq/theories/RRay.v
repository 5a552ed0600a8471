(** * The solid angles of a closed surface add up to the crossing number of a ray *)
From Coq Require Import Reals Lra Psatz ZArith Bool List Permutation Arith Lia.
Import ListNotations.
From Coquelicot Require Import Coquelicot.
From Verif Require Import Base MUtils MEdge MFace MHull MPoly SpecPoly PPoly PStation PPlain.
From Verif Require Import RVec RArith REdge REdgeModel RAngle ROmega RFace RFacet RPoly RTwin RField.
Local Open Scope R_scope.
Local Open Scope list_scope.
Arguments det (_ _ _)%v_scope. Arguments DD (_ _ _)%v_scope. Arguments SS (_ _ _)%v_scope.
Arguments om (_ _ _)%v_scope. Arguments om0 (_ _ _)%v_scope. Arguments om1 (_ _ _)%v_scope.
Arguments gom (_ _ _)%v_scope. Arguments edge_term (_ _)%v_scope. Arguments cr (_ _)%v_scope. Arguments dt (_ _)%v_scope.

(** ** Continuity of the basic functions along continuous paths *)
Definition vcont (f : R -> V) (t : R) : Prop :=
  continuous (fun s => vx (f s)) t /\ continuous (fun s => vy (f s)) t /\ continuous (fun s => vz (f s)) t.
Lemma vcont_lin (a d : V) t : vcont (fun s => (a + s * d)%v) t.
Proof.
  split3; cbn [va sc vx vy vz]; apply @ex_derive_continuous; eexists; auto_derive; auto; reflexivity.
Qed.
Lemma cont_dt2 f g t : vcont f t -> vcont g t -> continuous (fun s => dt (f s) (g s)) t.
Proof.
  intros [F1 [F2 F3]] [G1 [G2 G3]]. unfold dt.
  apply @continuous_plus; [apply @continuous_plus|]; now apply @continuous_mult.
Qed.
Lemma cont_nm2 f t : vcont f t -> continuous (fun s => nm (f s)) t.
Proof. intros F. unfold nm. apply continuous_sqrt_comp. now apply cont_dt2. Qed.
Lemma vcont_cr f g t : vcont f t -> vcont g t -> vcont (fun s => cr (f s) (g s)) t.
Proof.
  intros [F1 [F2 F3]] [G1 [G2 G3]]. split3; cbn [cr vx vy vz];
    (apply @continuous_minus; now apply @continuous_mult).
Qed.
Lemma cont_det f g h t : vcont f t -> vcont g t -> vcont h t -> continuous (fun s => det (f s) (g s) (h s)) t.
Proof. intros. unfold det. apply cont_dt2; auto. now apply vcont_cr. Qed.
Lemma cont_DD f g h t : vcont f t -> vcont g t -> vcont h t -> continuous (fun s => DD (f s) (g s) (h s)) t.
Proof.
  intros F G H. unfold DD.
  repeat apply @continuous_plus; repeat apply @continuous_mult;
    first [now apply cont_nm2 | now apply cont_dt2].
Qed.
Lemma cont_om0 f g h t : vcont f t -> vcont g t -> vcont h t ->
  0 < SS (f t) (g t) (h t) + DD (f t) (g t) (h t) ->
  continuous (fun s => om0 (f s) (g s) (h s)) t.
Proof.
  intros F G H P.
  pose proof (cont_DD _ _ _ _ F G H) as CD. pose proof (cont_det _ _ _ _ F G H) as Cd.
  assert (CS : continuous (fun s => SS (f s) (g s) (h s)) t).
  { unfold SS. apply continuous_sqrt_comp. apply @continuous_plus; now apply @continuous_mult. }
  unfold om0. apply @continuous_opp. apply @continuous_mult; [apply continuous_const|].
  apply (continuous_comp (fun s => det (f s) (g s) (h s) / (SS (f s) (g s) (h s) + DD (f s) (g s) (h s))) atan).
  - apply @continuous_mult; [exact Cd|].
    apply continuous_Rinv_comp; [|lra]. now apply @continuous_plus.
  - apply @ex_derive_continuous. eexists. apply is_derive_atan.
Qed.

(** ** Position of the observer (the origin) with respect to a triangle *)
(** the origin is in the closed triangle *)
Definition in_tri (a b c : V) : Prop :=
  exists x y z, 0 <= x /\ 0 <= y /\ 0 <= z /\ x + y + z = 1 /\ (x * a + y * b + z * c)%v = v0.
(** in its relative interior *)
Definition in_open_tri (a b c : V) : Prop :=
  exists x y z, 0 < x /\ 0 < y /\ 0 < z /\ x + y + z = 1 /\ (x * a + y * b + z * c)%v = v0.

Lemma in_tri_perm a b c : in_tri a b c -> in_tri b c a.
Proof.
  intros [x [y [z [Hx [Hy [Hz [S E]]]]]]]. exists y, z, x. repeat split; auto; [lra|].
  rewrite <- E. vring.
Qed.
Lemma not_in_off a b c : ~ in_tri a b c -> off a b.
Proof.
  intros H. apply off_segment. intros s Hs E. apply H. exists (1 - s), s, 0.
  repeat split; try lra. rewrite <- E. vring.
Qed.
Lemma not_in_off3 a b c : ~ in_tri a b c -> off3 a b c.
Proof.
  intros H. repeat split.
  - now apply (not_in_off a b c).
  - apply (not_in_off b c a). intros K. apply H. now do 2 apply in_tri_perm.
  - apply (not_in_off c a b). intros K. apply H. now apply in_tri_perm.
Qed.
Lemma in_tri_det a b c : in_tri a b c -> det a b c = 0.
Proof.
  intros [x [y [z [Hx [Hy [Hz [S E]]]]]]].
  assert (E1 : x * det a b c = 0).
  { transitivity (dt (x * a + y * b + z * c) (cr b c)); [unfold det; dts; rewrite dt_cr_1, dt_cr_2; ring|].
    rewrite E. apply dt_0_l. }
  assert (E2 : y * det a b c = 0).
  { transitivity (dt (x * a + y * b + z * c) (cr c a)).
    - unfold det. dts. rewrite dt_cr_1, dt_cr_2, (dt_cr_perm a b c). ring.
    - rewrite E. apply dt_0_l. }
  assert (E3 : z * det a b c = 0).
  { transitivity (dt (x * a + y * b + z * c) (cr a b)).
    - unfold det. dts. rewrite dt_cr_1, dt_cr_2, (dt_cr_perm' a b c). ring.
    - rewrite E. apply dt_0_l. }
  replace (det a b c) with ((x + y + z) * det a b c) by (rewrite S; ring).
  replace ((x + y + z) * det a b c) with (x * det a b c + y * det a b c + z * det a b c) by ring. lra.
Qed.

(** in the plane of the triangle, outside it: D > 0 *)
Lemma DD_out a b c : det a b c = 0 -> ~ in_tri a b c -> 0 < DD a b c.
Proof.
  intros Hd Hn.
  set (g := (/ 3 * (a + b + c))%v).
  set (h := fun s : R => DD (a + s * (g - a))%v (b + s * (g - b))%v (c + s * (g - c))%v).
  assert (Hz : forall s, 0 <= s <= 1 -> h s <> 0).
  { intros s Hs.
    set (a' := (a + s * (g - a))%v). set (b' := (b + s * (g - b))%v). set (c' := (c + s * (g - c))%v).
    assert (N : ~ in_tri a' b' c').
    { intros [x [y [z [Hx [Hy [Hz [S E]]]]]]]. apply Hn.
      exists ((1 - s) * x + s / 3), ((1 - s) * y + s / 3), ((1 - s) * z + s / 3).
      repeat split; try nra.
      rewrite <- E. unfold a', b', c', g.
      replace z with (1 - x - y) by lra.
      unfold va, vm, sc; cbn [vx vy vz]; apply veq; cbn [vx vy vz]; field. }
    assert (D0 : det a' b' c' = 0).
    { transitivity ((1 - s) * (1 - s) * det a b c); [|rewrite Hd; ring].
      unfold a', b', c', g, det, dt, cr, va, vm, sc; cbn [vx vy vz]. field. }
    pose proof (off3_S _ _ _ (not_in_off3 _ _ _ N)) as P. rewrite D0 in P.
    unfold h. fold a' b' c'. intros Z. rewrite Z in P. lra. }
  assert (H1 : 0 < h 1).
  { unfold h.
    replace (a + 1 * (g - a))%v with g by vring. replace (b + 1 * (g - b))%v with g by vring.
    replace (c + 1 * (g - c))%v with g by vring.
    unfold DD. rewrite <- nm_sq. 
    assert (0 < nm g).
    { apply nm_pos. intros E. apply Hn. exists (/3), (/3), (/3). repeat split; try lra.
      rewrite <- E. unfold g. vring. }
    assert (0 < nm g * nm g) by nra. nra. }
  assert (E0 : DD a b c = h 0).
  { unfold h. f_equal; vring. }
  rewrite E0. destruct (Rlt_le_dec 0 (h 0)) as [|L]; auto. exfalso.
  destruct (IVT_gen h 0 1 0) as [s [Hs E]].
  - intros s. apply continuity_pt_filterlim. unfold h. apply cont_DD; apply vcont_lin.
  - rewrite Rmin_left, Rmax_right by lra. lra.
  - rewrite Rmin_left, Rmax_right in Hs by lra. now apply (Hz s).
Qed.

(** in the triangle: D < 0 *)
Lemma DD_in a b c : in_open_tri a b c -> off3 a b c -> DD a b c < 0.
Proof.
  intros [x [y [z [Hx [Hy [Hz [S E]]]]]]] Ho.
  assert (D0 : det a b c = 0) by (apply in_tri_det; exists x, y, z; repeat split; auto; lra).
  pose proof (off3_S _ _ _ Ho) as P. rewrite D0 in P.
  destruct Ho as [O1 [O2 O3]]. destruct (off_nz _ _ O1) as [Pa Pb]. destruct (off_nz _ _ O2) as [_ Pc].
  (* sides of the triangle with side vectors x a, y b, z c *)
  set (p := x * nm a). set (q := y * nm b). set (r := z * nm c).
  assert (Pp : 0 < p) by (unfold p; nra). assert (Pq : 0 < q) by (unfold q; nra). assert (Pr : 0 < r) by (unfold r; nra).
  assert (Eab : p * p + q * q + 2 * x * y * dt a b = r * r).
  { unfold p, q, r. transitivity (dt (x * a + y * b) (x * a + y * b)).
    - dts. rewrite <- !nm_sq, (dt_comm b a). ring.
    - replace (x * a + y * b)%v with ((x * a + y * b + z * c) - z * c)%v by vring. rewrite E.
      dts. rewrite ?dt_0_l, ?dt_0_r, <- nm_sq. ring. }
  assert (Ebc : q * q + r * r + 2 * y * z * dt b c = p * p).
  { unfold p, q, r. transitivity (dt (y * b + z * c) (y * b + z * c)).
    - dts. rewrite <- !nm_sq, (dt_comm c b). ring.
    - replace (y * b + z * c)%v with ((x * a + y * b + z * c) - x * a)%v by vring. rewrite E.
      dts. rewrite ?dt_0_l, ?dt_0_r, <- nm_sq. ring. }
  assert (Eca : r * r + p * p + 2 * z * x * dt c a = q * q).
  { unfold p, q, r. transitivity (dt (z * c + x * a) (z * c + x * a)).
    - dts. rewrite <- !nm_sq, (dt_comm a c). ring.
    - replace (z * c + x * a)%v with ((x * a + y * b + z * c) - y * b)%v by vring. rewrite E.
      dts. rewrite ?dt_0_l, ?dt_0_r, <- nm_sq. ring. }
  (* x y z D = p q r + ... *)
  assert (ED : 2 * (x * y * z * DD a b c) =
    2 * p * q * r + (r * r - p * p - q * q) * r + (p * p - q * q - r * r) * p + (q * q - r * r - p * p) * q).
  { unfold DD.
    replace (r * r - p * p - q * q) with (2 * x * y * dt a b) by lra.
    replace (p * p - q * q - r * r) with (2 * y * z * dt b c) by lra.
    replace (q * q - r * r - p * p) with (2 * z * x * dt c a) by lra.
    unfold p, q, r. ring. }
  (* triangle inequalities *)
  assert (T1 : r <= p + q).
  { pose proof (cs_upper a b) as C. assert (x * y * dt a b <= x * y * (nm a * nm b)) by (apply Rmult_le_compat_l; nra).
    assert (r * r <= (p + q) * (p + q)) by (unfold p, q in *; nra). nra. }
  assert (T2 : p <= q + r).
  { pose proof (cs_upper b c) as C. assert (y * z * dt b c <= y * z * (nm b * nm c)) by (apply Rmult_le_compat_l; nra).
    assert (p * p <= (q + r) * (q + r)) by (unfold q, r in *; nra). nra. }
  assert (T3 : q <= r + p).
  { pose proof (cs_upper c a) as C. assert (z * x * dt c a <= z * x * (nm c * nm a)) by (apply Rmult_le_compat_l; nra).
    assert (q * q <= (r + p) * (r + p)) by (unfold p, r in *; nra). nra. }
  assert (F : 2 * p * q * r + (r * r - p * p - q * q) * r + (p * p - q * q - r * r) * p + (q * q - r * r - p * p) * q
     = - ((p + q - r) * (q + r - p) * (r + p - q))) by ring.
  rewrite F in ED.
  assert (0 <= (p + q - r) * (q + r - p) * (r + p - q)) by (repeat apply Rmult_le_pos; lra).
  assert (0 < x * y * z) by (repeat apply Rmult_lt_0_compat; auto).
  assert (DD a b c <= 0) by nra.
  destruct (Req_dec (DD a b c) 0) as [Z|Z]; [rewrite Z in P; lra|lra].
Qed.

(** ** Scaling *)
Lemma det_sc3 k a b c : det (k * a) (k * b) (k * c) = k * k * k * det a b c.
Proof. unfold det. vring. Qed.
Lemma DD_sc3 k a b c : 0 < k -> DD (k * a) (k * b) (k * c) = k * k * k * DD a b c.
Proof.
  intros Hk. unfold DD. rewrite !nm_sc, Rabs_pos_eq by lra. dts. ring.
Qed.
Lemma SS_sc3 k a b c : 0 < k -> SS (k * a) (k * b) (k * c) = k * k * k * SS a b c.
Proof.
  intros Hk. unfold SS. rewrite DD_sc3, det_sc3 by auto.
  replace (k * k * k * DD a b c * (k * k * k * DD a b c) + k * k * k * det a b c * (k * k * k * det a b c))
    with ((k * k * k)² * (DD a b c * DD a b c + det a b c * det a b c)) by (unfold Rsqr; ring).
  assert (0 < k * k * k) by (repeat apply Rmult_lt_0_compat; auto).
  rewrite sqrt_mult; [rewrite sqrt_Rsqr by lra; reflexivity|apply Rle_0_sqr|nra].
Qed.
Lemma om0_sc3 k a b c : 0 < k -> om0 (k * a) (k * b) (k * c) = om0 a b c.
Proof.
  intros Hk. unfold om0. rewrite DD_sc3, SS_sc3, det_sc3 by auto.
  assert (P : 0 < k * k * k) by (repeat apply Rmult_lt_0_compat; auto).
  do 3 f_equal. rewrite <- Rmult_plus_distr_l. unfold Rdiv.
  destruct (Req_dec (SS a b c + DD a b c) 0) as [Z|Z].
  - rewrite Z, Rmult_0_r. rewrite Rinv_0. ring.
  - field. split; lra.
Qed.

(** ** The observer goes to infinity *)
Lemma om0_far a b c z : z <> v0 ->
  is_lim (fun t => om0 (a - t * z) (b - t * z) (c - t * z)) p_infty 0.
Proof.
  intros Hz.
  set (h := fun u : R => om0 (- z + u * a)%v (- z + u * b)%v (- z + u * c)%v).
  assert (Pz : 0 < nm z) by now apply nm_pos.
  assert (C : continuous h 0).
  { apply cont_om0; try apply vcont_lin.
    replace (- z + 0 * a)%v with (- z)%v by vring. replace (- z + 0 * b)%v with (- z)%v by vring.
    replace (- z + 0 * c)%v with (- z)%v by vring.
    assert (0 < DD (- z) (- z) (- z)).
    { unfold DD. rewrite <- nm_sq, nm_opp. assert (0 < nm z * nm z) by nra. nra. }
    pose proof (sqrt_pos (DD (- z) (- z) (- z) * DD (- z) (- z) (- z) + det (- z) (- z) (- z) * det (- z) (- z) (- z))).
    unfold SS. lra. }
  assert (H0 : h 0 = 0).
  { unfold h. replace (- z + 0 * a)%v with (- z)%v by vring. replace (- z + 0 * b)%v with (- z)%v by vring.
    replace (- z + 0 * c)%v with (- z)%v by vring. unfold om0.
    replace (det (- z) (- z) (- z)) with 0 by (unfold det; rewrite dt_cr_1; ring).
    unfold Rdiv. rewrite Rmult_0_l, atan_0. ring. }
  apply (is_lim_ext_loc (fun t => h (/ t))).
  { exists 0. intros t Ht. unfold h.
    rewrite <- (om0_sc3 t (- z + / t * a)%v) by auto. f_equal;
      (unfold va, vm, vn, sc; cbn [vx vy vz]; apply veq; cbn [vx vy vz]; field; lra). }
  rewrite <- H0.
  apply is_lim_comp_continuous with (l := 0).
  - apply (is_lim_inv (fun t => t) p_infty p_infty); [apply is_lim_id|discriminate].
  - exact C.
Qed.

(** ** Along a ray *)
Section Ray.
  Variables (p : polyhedron RA) (o z : V) (cross : face RA -> bool).
  Hypothesis Hcl : closed p.
  Hypothesis Hz : z <> v0.
  (** corners of a facet seen from the point o + t z *)
  Let at_ (i : nat) (t : R) (f : face RA) : V := ((vtx i f - o) - t * z)%v.
  Hypothesis Hoff : forall f, In f (pl_faces p) -> cross f = true -> det (vtx 0 f - o) (vtx 1 f - o) (vtx 2 f - o) <> 0.
  Hypothesis Hmiss : forall f, In f (pl_faces p) -> cross f = false ->
    forall t, 0 <= t -> ~ in_tri (at_ 0 t f) (at_ 1 t f) (at_ 2 t f).
  Hypothesis Hcross : forall f, In f (pl_faces p) -> cross f = true ->
    exists t, 0 <= t /\ in_open_tri (at_ 0 t f) (at_ 1 t f) (at_ 2 t f).

  (** det is affine in t *)
  Lemma det_ray a b c t :
    det (a - t * z) (b - t * z) (c - t * z) = det a b c - t * dt (cr (b - a) (c - a)) z.
  Proof. unfold det. vring. Qed.

  Definition hray (f : face RA) (t : R) : R :=
    if cross f then om1 (at_ 0 t f) (at_ 1 t f) (at_ 2 t f) else om0 (at_ 0 t f) (at_ 1 t f) (at_ 2 t f).
  Definition gray (f : face RA) (t : R) : R := dt (gom (at_ 0 t f) (at_ 1 t f) (at_ 2 t f)) z.

  Lemma facet_area f : In f (pl_faces p) -> cr (vtx 1 f - vtx 0 f) (vtx 2 f - vtx 0 f) <> v0.
  Proof.
    intros Hf. destruct Hcl as [Hc _]. destruct (Hc f Hf) as [p1 [p2 [p3 HF]]].
    destruct (facet_vtx _ _ _ _ HF) as [-> [-> ->]]. destruct HF as [[_ [_ [Hn _]]] _]. exact Hn.
  Qed.
  Lemma at_diff i j t f : (at_ i t f - at_ j t f = vtx i f - vtx j f)%v.
  Proof. unfold at_. vring. Qed.

  Lemma open_off3 f t : In f (pl_faces p) ->
    in_open_tri (at_ 0 t f) (at_ 1 t f) (at_ 2 t f) -> off3 (at_ 0 t f) (at_ 1 t f) (at_ 2 t f).
  Proof.
    intros Hf [x [y [w [Hx [Hy [Hw [S E]]]]]]].
    pose proof (facet_area f Hf) as HA. rewrite <- !(at_diff _ _ t) in HA.
    set (a := at_ 0 t f) in *. set (b := at_ 1 t f) in *. set (c := at_ 2 t f) in *.
    assert (G : forall u v w' x' y' z', 0 < x' -> 0 < y' -> 0 < z' -> (x' * u + y' * v + z' * w')%v = v0 ->
       cr (v - u) (w' - u) <> v0 -> off u v).
    { intros u v w' x' y' z' X Y Z E' HA'. apply off_cross. intros K. apply HA'.
      assert (E1 : cr v w' = v0).
      { apply (f_equal (fun q => cr v q)) in E'.
        assert (z' * cr v w' = v0)%v.
        { transitivity (cr v (x' * u + y' * v + z' * w') + x' * cr u v)%v; [vring|].
          rewrite E', K. vring. }
        transitivity (/ z' * (z' * cr v w'))%v; [|rewrite H; vring].
        unfold sc; cbn [vx vy vz]. apply veq; cbn [vx vy vz]; field; lra. }
      assert (E2 : cr w' u = v0).
      { apply (f_equal (fun q => cr q u)) in E'.
        assert (z' * cr w' u = v0)%v.
        { transitivity (cr (x' * u + y' * v + z' * w') u + y' * cr u v)%v; [vring|].
          rewrite E', K. vring. }
        transitivity (/ z' * (z' * cr w' u))%v; [|rewrite H; vring].
        unfold sc; cbn [vx vy vz]. apply veq; cbn [vx vy vz]; field; lra. }
      transitivity (cr u v + cr v w' + cr w' u)%v; [vring|]. rewrite K, E1, E2. vring. }
    assert (HA2 : cr (c - b) (a - b) <> v0).
    { intros K. apply HA. rewrite <- K. vring. }
    assert (HA3 : cr (a - c) (b - c) <> v0).
    { intros K. apply HA. rewrite <- K. vring. }
    repeat split.
    - apply (G a b c x y w); auto.
    - apply (G b c a y w x); auto. rewrite <- E. vring.
    - apply (G c a b w x y); auto. rewrite <- E. vring.
  Qed.

  Lemma ray_conditions f t : In f (pl_faces p) -> 0 <= t ->
    off3 (at_ 0 t f) (at_ 1 t f) (at_ 2 t f) /\
    (if cross f then det (at_ 0 t f) (at_ 1 t f) (at_ 2 t f) = 0 -> DD (at_ 0 t f) (at_ 1 t f) (at_ 2 t f) < 0
     else det (at_ 0 t f) (at_ 1 t f) (at_ 2 t f) = 0 -> 0 < DD (at_ 0 t f) (at_ 1 t f) (at_ 2 t f)).
  Proof.
    intros Hf Ht. destruct (cross f) eqn:C.
    - destruct (Hcross f Hf C) as [t0 [Ht0 HI]].
      destruct (Req_dec (det (at_ 0 t f) (at_ 1 t f) (at_ 2 t f)) 0) as [Z|Z].
      + assert (D0 : det (at_ 0 t0 f) (at_ 1 t0 f) (at_ 2 t0 f) = 0).
        { apply in_tri_det. destruct HI as [x [y [w [? [? [? [? ?]]]]]]]. exists x, y, w. repeat split; auto; lra. }
        assert (t = t0) as ->.
        { unfold at_ in Z, D0. rewrite det_ray in Z, D0. pose proof (Hoff f Hf C) as N.
          set (k := dt (cr (vtx 1 f - o - (vtx 0 f - o)) (vtx 2 f - o - (vtx 0 f - o))) z) in *.
          assert ((t - t0) * k = 0) by lra. apply Rmult_integral in H. destruct H as [H|H]; [lra|].
          exfalso. rewrite H in Z. lra. }
        pose proof (open_off3 f t0 Hf HI) as O. split; [exact O|]. intros _. now apply DD_in.
      + split; [now apply off3_det|]. intros K. contradiction.
    - pose proof (Hmiss f Hf C t Ht) as N. split; [now apply not_in_off3|].
      intros D0. now apply DD_out.
  Qed.

  Lemma at_der i t f : vder (fun s => at_ i s f) t (- z)%v.
  Proof.
    unfold at_. eapply vder_eq; [apply vder_sub; [apply vder_const|]|].
    - apply (vder_sc (fun s => s) (fun _ => z)); [apply @is_derive_id|apply vder_const].
    - unfold one; cbn. vring.
  Qed.

  Lemma hray_der f t : In f (pl_faces p) -> 0 <= t -> is_derive (hray f) t (gray f t).
  Proof.
    intros Hf Ht. destruct (ray_conditions f t Hf Ht) as [O K].
    assert (E1 : forall s, at_ 1 s f = (at_ 0 s f + (vtx 1 f - vtx 0 f))%v) by (intros; unfold at_; vring).
    assert (E2 : forall s, at_ 2 s f = (at_ 0 s f + (vtx 2 f - vtx 0 f))%v) by (intros; unfold at_; vring).
    unfold hray, gray. destruct (cross f).
    - rewrite E1, E2 in O, K |- *.
      pose proof (om1_der (fun s => at_ 0 s f) _ _ t _ (at_der 0 t f) O K) as D.
      eapply is_derive_ext; [|eapply is_derive_eq; [exact D|]].
      + intros s. cbn beta. now rewrite E1, E2.
      + rewrite dt_opp_r. req. ring.
    - rewrite E1, E2 in O, K |- *.
      pose proof (om0_der (fun s => at_ 0 s f) _ _ t _ (at_der 0 t f) O K) as D.
      eapply is_derive_ext; [|eapply is_derive_eq; [exact D|]].
      + intros s. cbn beta. now rewrite E1, E2.
      + rewrite dt_opp_r. req. ring.
  Qed.

  Lemma edge_term_sym a b : edge_term b a = (- edge_term a b)%v.
  Proof. unfold edge_term. rewrite (Kab_sym b a). vring. Qed.

  Lemma gray_sum t : rsum (fun f => gray f t) (pl_faces p) = 0.
  Proof.
    rewrite <- (antisym_sum p (fun q r => - dt (edge_term ((q - o) - t * z) ((r - o) - t * z)) z) Hcl).
    - apply rsum_ext. intros f _. unfold gray, gom, at_. dts. ring.
    - intros q r. rewrite (edge_term_sym ((q - o) - t * z)%v). dts. ring.
  Qed.

  Lemma rsum_der {X} (H D : X -> R -> R) l t :
    (forall x, In x l -> is_derive (H x) t (D x t)) ->
    is_derive (fun s => rsum (fun x => H x s) l) t (rsum (fun x => D x t) l).
  Proof.
    induction l as [|x l IH]; intros K; simpl; [apply @is_derive_const|].
    apply sum_der; [apply K; left; auto|apply IH; intros; apply K; right; auto].
  Qed.

  Lemma ray_const t : 0 < t -> rsum (fun f => hray f 0) (pl_faces p) = rsum (fun f => hray f t) (pl_faces p).
  Proof.
    intros Ht. apply (eq_is_derive (fun s => rsum (fun f => hray f s) (pl_faces p)) 0 t); [|exact Ht].
    intros s Hs. eapply is_derive_eq; [apply rsum_der; intros f Hf; apply hray_der; auto; lra|].
    rewrite gray_sum. reflexivity.
  Qed.

  (** sign of the crossing: the facet's normal side on which the observer is *)
  Definition csign (f : face RA) : R :=
    if cross f then Rsgn (det (vtx 0 f - o) (vtx 1 f - o) (vtx 2 f - o)) else 0.

  Lemma at_0 i f : at_ i 0 f = (vtx i f - o)%v.
  Proof. unfold at_. vring. Qed.
  Lemma hray_0 f : In f (pl_faces p) ->
    hray f 0 = om (vtx 0 f - o) (vtx 1 f - o) (vtx 2 f - o) + 2 * PI * csign f.
  Proof.
    intros Hf. unfold hray, csign. rewrite !at_0. destruct (cross f) eqn:C.
    - pose proof (Hoff f Hf C) as N. rewrite om_om1 by auto. ring.
    - rewrite om_om0_all. ring.
  Qed.

  (** past the crossing point the sign of det is opposite *)
  Lemma hray_far f : In f (pl_faces p) -> is_lim (hray f) p_infty (- 2 * PI * csign f).
  Proof.
    intros Hf. pose proof (om0_far (vtx 0 f - o)%v (vtx 1 f - o)%v (vtx 2 f - o)%v z Hz) as L.
    unfold csign. destruct (cross f) eqn:C.
    - destruct (Hcross f Hf C) as [t0 [Ht0 HI]]. pose proof (Hoff f Hf C) as N.
      assert (D0 : det (at_ 0 t0 f) (at_ 1 t0 f) (at_ 2 t0 f) = 0).
      { apply in_tri_det. destruct HI as [x [y [w [? [? [? [? ?]]]]]]]. exists x, y, w. repeat split; auto; lra. }
      apply (is_lim_ext_loc (fun t => om0 (at_ 0 t f) (at_ 1 t f) (at_ 2 t f)
                 + - 2 * PI * Rsgn (det (vtx 0 f - o) (vtx 1 f - o) (vtx 2 f - o)))).
      + exists t0. intros t Ht. unfold hray. rewrite C.
        assert (S : Rsgn (det (at_ 0 t f) (at_ 1 t f) (at_ 2 t f)) =
                    - Rsgn (det (vtx 0 f - o) (vtx 1 f - o) (vtx 2 f - o)) /\
                    det (at_ 0 t f) (at_ 1 t f) (at_ 2 t f) <> 0).
        { unfold at_ in D0 |- *. rewrite det_ray in D0 |- *.
          set (d := det (vtx 0 f - o) (vtx 1 f - o) (vtx 2 f - o)) in *.
          set (k := dt (cr (vtx 1 f - o - (vtx 0 f - o)) (vtx 2 f - o - (vtx 0 f - o))) z) in *.
          assert (Ed : d = t0 * k) by lra.
          assert (T0 : 0 < t0).
          { destruct Ht0 as [|E]; [auto|]. exfalso. apply N. rewrite Ed, <- E. ring. }
          destruct (Rtotal_order k 0) as [K|[K|K]].
          - assert (d < 0) by nra. rewrite (Rsgn_neg d) by auto. 
            assert (0 < d - t * k) by nra. rewrite Rsgn_pos by auto. split; lra.
          - exfalso. apply N. rewrite Ed, K. ring.
          - assert (0 < d) by nra. rewrite (Rsgn_pos d) by auto. 
            assert (d - t * k < 0) by nra. rewrite Rsgn_neg by auto. split; lra. }
        destruct S as [S N']. rewrite <- om_om0 by auto. rewrite om_om1, S by auto. ring.
      + set (k := - 2 * PI * Rsgn (det (vtx 0 f - o) (vtx 1 f - o) (vtx 2 f - o))).
        assert (G : is_lim (fun t => om0 (at_ 0 t f) (at_ 1 t f) (at_ 2 t f) + k) p_infty (0 + k))
          by (apply is_lim_plus'; [exact L|apply is_lim_const]).
        rewrite Rplus_0_l in G. exact G.
    - rewrite Rmult_0_r. eapply is_lim_ext; [|exact L]. intros t. unfold hray, at_. now rewrite C.
  Qed.

  Lemma rsum_lim {X} (H : X -> R -> R) (L : X -> R) l :
    (forall x, In x l -> is_lim (H x) p_infty (L x)) ->
    is_lim (fun t => rsum (fun x => H x t) l) p_infty (rsum L l).
  Proof.
    induction l as [|x l IH]; intros K; simpl; [apply is_lim_const|].
    apply is_lim_plus'; [apply K; left; auto|apply IH; intros; apply K; right; auto].
  Qed.

  Theorem ray_sum :
    rsum (fun f => om (vtx 0 f - o) (vtx 1 f - o) (vtx 2 f - o)) (pl_faces p) =
    - 4 * PI * rsum csign (pl_faces p).
  Proof.
    pose proof (rsum_lim hray (fun f => - 2 * PI * csign f) (pl_faces p) hray_far) as L.
    assert (L' : is_lim (fun t => rsum (fun f => hray f t) (pl_faces p)) p_infty
                   (rsum (fun f => hray f 0) (pl_faces p))).
    { apply (is_lim_ext_loc (fun _ => rsum (fun f => hray f 0) (pl_faces p))); [|apply is_lim_const].
      exists 0. intros t Ht. now apply ray_const. }
    apply is_lim_unique in L. apply is_lim_unique in L'. rewrite L in L'. injection L' as E.
    assert (E0 : rsum (fun f => hray f 0) (pl_faces p) =
      rsum (fun f => om (vtx 0 f - o) (vtx 1 f - o) (vtx 2 f - o)) (pl_faces p) + 2 * PI * rsum csign (pl_faces p)).
    { rewrite <- rsum_scal, <- rsum_plus. apply rsum_ext. intros f Hf. now apply hray_0. }
    rewrite rsum_scal in E. lra.
  Qed.
End Ray.

(** * Face._get_omega over the reals, for triangles *)
From Coq Require Import Reals Lra Psatz ZArith Bool List.
Import ListNotations.
From Coquelicot Require Import Coquelicot.
From Verif Require Import Base MUtils MEdge MFace RVec RArith REdge REdgeModel RAngle ROmega.
Local Open Scope R_scope.

Arguments cr (_ _)%v_scope. Arguments det (_ _ _)%v_scope. Arguments DD (_ _ _)%v_scope.
Arguments om (_ _ _)%v_scope. Arguments om0 (_ _ _)%v_scope. Arguments om1 (_ _ _)%v_scope.
Arguments gom (_ _ _)%v_scope. Arguments nm _%v_scope. Arguments dt (_ _)%v_scope.
Arguments ell (_ _)%v_scope. Arguments gell (_ _)%v_scope. Arguments off (_ _)%v_scope.
Arguments off3 (_ _ _)%v_scope. Arguments uv (_ _)%v_scope. Arguments Kab (_ _)%v_scope.

Definition uu (v : V) : V := (/ nm v * v)%v.
Arguments uu _%v_scope.
Lemma uu_der (f : R -> V) (t : R) d : vder f t d -> 0 < nm (f t) ->
  vder (fun s => uu (f s)) t (/ (nm (f t) * nm (f t)) * (nm (f t) * d - dt d (uu (f t)) * f t))%v.
Proof.
  intros H P. unfold uu. eapply vder_eq.
  - apply (vder_sc (fun s => / nm (f s)) f); [|exact H].
    apply (is_derive_inv (fun s => nm (f s)) t _ (nm_der _ _ _ H P)). lra.
  - rewrite dt_sc_r, (dt_comm d (f t)). vunf; apply veq; cbn [vx vy vz]; field; lra.
Qed.

Lemma ang_uu a b c : ang a b c = acos (- dt (uu (cr a b)) (uu (cr b c))).
Proof.
  unfold ang. f_equal. unfold uu. rewrite XX_cross. dts. 
  unfold Rdiv. rewrite Rinv_mult. ring.
Qed.

(** rate of change of [a x b] when both move with velocity [e] *)
Definition dV (a b e : V) : V := (cr a e - cr b e)%v.
Definition dU (a b e : V) : V :=
  (/ (nm (cr a b) * nm (cr a b)) * (nm (cr a b) * dV a b e - dt (dV a b e) (uu (cr a b)) * cr a b))%v.
Definition dang (a b c e : V) : R :=
  (dt (dU a b e) (uu (cr b c)) + dt (dU b c e) (uu (cr a b))) /
  sqrt (1 - dt (uu (cr a b)) (uu (cr b c)) * dt (uu (cr a b)) (uu (cr b c))).

Lemma uu_bound a b c : det a b c <> 0 -> -1 < dt (uu (cr a b)) (uu (cr b c)) < 1.
Proof.
  intros H. destruct (ang_spec a b c H) as [Hb [Hc _]].
  assert (E : - dt (uu (cr a b)) (uu (cr b c)) = cos (ang a b c)).
  { rewrite Hc, XX_cross. unfold uu. dts. unfold Rdiv. rewrite Rinv_mult. ring. }
  destruct Hb as [H0 H1]. pose proof PI_RGT_0.
  assert (cos PI < cos (ang a b c)) by (apply cos_decreasing_1; lra).
  assert (cos (ang a b c) < cos 0) by (apply cos_decreasing_1; lra).
  rewrite cos_PI, cos_0 in *. lra.
Qed.

Lemma acos_lim x : -1 < x < 1 -> derivable_pt_lim acos x (-1 / sqrt (1 - x²)).
Proof. intros H. apply (derive_pt_eq_1 _ _ _ (derivable_pt_acos x H)). apply derive_pt_acos. Qed.

Lemma ang_der (a b c : R -> V) (t : R) e : vder a t e -> vder b t e -> vder c t e ->
  det (a t) (b t) (c t) <> 0 ->
  is_derive (fun s => ang (a s) (b s) (c s)) t (dang (a t) (b t) (c t) e).
Proof.
  intros Ha Hb Hc Hd. destruct (det_cross _ _ _ Hd) as [N1 [N2 _]].
  pose proof (uu_bound _ _ _ Hd) as HB.
  assert (Hab : vder (fun s => uu (cr (a s) (b s))) t (dU (a t) (b t) e)).
  { eapply vder_eq; [apply (uu_der (fun s => cr (a s) (b s))); [apply cr_der; eassumption|exact N1]|].
    unfold dU. cbn beta.
    replace (cr e (b t) + cr (a t) e)%v with (dV (a t) (b t) e) by (unfold dV; vring). reflexivity. }
  assert (Hbc : vder (fun s => uu (cr (b s) (c s))) t (dU (b t) (c t) e)).
  { eapply vder_eq; [apply (uu_der (fun s => cr (b s) (c s))); [apply cr_der; eassumption|exact N2]|].
    unfold dU. cbn beta.
    replace (cr e (c t) + cr (b t) e)%v with (dV (b t) (c t) e) by (unfold dV; vring). reflexivity. }
  pose proof (dt_der _ _ _ _ _ Hab Hbc) as HD. cbn beta in HD.
  eapply is_derive_ext; [intros s; symmetry; apply ang_uu|].
  eapply is_derive_eq.
  - apply (is_derive_comp acos (fun s => - dt (uu (cr (a s) (b s))) (uu (cr (b s) (c s))))).
    + apply is_derive_Reals. apply acos_lim. lra.
    + apply (is_derive_opp (fun s => dt (uu (cr (a s) (b s))) (uu (cr (b s) (c s))))). exact HD.
  - rn. unfold dang. unfold Rsqr.
    set (k := dt (uu (cr (a t) (b t))) (uu (cr (b t) (c t)))) in *.
    replace (- k * - k) with (k * k) by ring.
    assert (0 < sqrt (1 - k * k)) by (apply sqrt_lt_R0; nra).
    rewrite (dt_comm (dU (b t) (c t) e)). field. lra.
Qed.

Lemma vx_sc k a : vx (k * a)%v = k * vx a. Proof. reflexivity. Qed.
Lemma vy_sc k a : vy (k * a)%v = k * vy a. Proof. reflexivity. Qed.
Lemma vz_sc k a : vz (k * a)%v = k * vz a. Proof. reflexivity. Qed.
Lemma vx_vn a : vx (- a)%v = - vx a. Proof. reflexivity. Qed.
Lemma vy_vn a : vy (- a)%v = - vy a. Proof. reflexivity. Qed.
Lemma vz_vn a : vz (- a)%v = - vz a. Proof. reflexivity. Qed.
Lemma vx_va a b : vx (a + b)%v = vx a + vx b. Proof. reflexivity. Qed.
Lemma vy_va a b : vy (a + b)%v = vy a + vy b. Proof. reflexivity. Qed.
Lemma vz_va a b : vz (a + b)%v = vz a + vz b. Proof. reflexivity. Qed.
Ltac proj := rewrite ?vx_sc, ?vy_sc, ?vz_sc, ?vx_vn, ?vy_vn, ?vz_vn, ?vx_va, ?vy_va, ?vz_va.

(** ** One iteration of the loop of [_get_omega] *)
Definition mex : V := V3 (-1) 0 0.
Definition mey : V := V3 0 (-1) 0.
Definition mez : V := V3 0 0 (-1).

Definition A1A2 (d : R) (a b c : V) : V * V :=
  if Rltb 0 d then (uu (cr b c), (- uu (cr a b))%v) else ((- uu (cr a b))%v, uu (cr b c)).

Lemma dot_A d a b c : dt (fst (A1A2 d a b c)) (snd (A1A2 d a b c)) = - dt (uu (cr a b)) (uu (cr b c)).
Proof. unfold A1A2. destruct (Rltb 0 d); cbn [fst snd]; dts; auto. rewrite dt_comm. ring. Qed.

Lemma perp_pos d a b c : 0 < d * det a b c ->
  0 < dt (if Rltb 0 d then a else c) (fst (A1A2 d a b c)).
Proof.
  intros H. assert (Hd : det a b c <> 0) by (intros Z; rewrite Z in H; lra).
  destruct (det_cross _ _ _ Hd) as [N1 [N2 _]]. unfold A1A2.
  destruct (Rltb 0 d) eqn:E; cbn [fst]; unfold uu; dts.
  - apply Rltb_true in E. fold (det a b c).
    apply Rmult_lt_0_compat; [apply Rinv_0_lt_compat; auto|nra].
  - apply Rltb_false in E. replace (dt c (cr a b)) with (det a b c) by (unfold det; vring).
    replace (- (/ nm (cr a b) * det a b c)) with (/ nm (cr a b) * - det a b c) by ring.
    apply Rmult_lt_0_compat; [apply Rinv_0_lt_compat; auto|nra].
Qed.

Lemma get_angle_R d a b c p : 0 < d * det a b c -> 0 < p ->
  get_angle (A := RA) d (- dt (uu (cr a b)) (uu (cr b c))) p = Ok (ang a b c).
Proof.
  intros H Hp. assert (Hd : det a b c <> 0) by (intros Z; rewrite Z in H; lra).
  assert (Hd' : d <> 0) by (intros Z; rewrite Z in H; lra).
  pose proof (uu_bound _ _ _ Hd). unfold get_angle. toR.
  rewrite (proj2 (Reqb_false _ _)) by auto.
  rewrite (proj2 (Rltb_false _ _)) by lra. rewrite (proj2 (Rltb_false _ _)) by lra. cbn [orb].
  rewrite (proj2 (Rltb_false _ _)) by lra. now rewrite ang_uu.
Qed.

(** the derivative computed for one angle, in terms of the entries it reads *)
Definition dangle_of (d : R) (a b c : V) (p : R) : res (vec RA) :=
  let cdp v := V3 (cr v mex) (cr v mey) (cr v mez) in
  let mo (m : vec3 V) := V3 (- vx m)%v (- vy m)%v (- vz m)%v in
  get_dangle (A := RA) 0 d (- dt (uu (cr a b)) (uu (cr b c))) p
    (fst (A1A2 d a b c)) (snd (A1A2 d a b c)) 3
    [cdp a; cdp b; cdp c] [cr a b; cr b c; cr c a] [nm (cr a b); nm (cr b c); nm (cr c a)]
    [uu (cr a b); uu (cr b c); uu (cr c a)].

Lemma get_dangle_R d a b c p : 0 < d * det a b c -> 0 < p ->
  dangle_of d a b c p = Ok (V3 (dang a b c mex) (dang a b c mey) (dang a b c mez)).
Proof.
  intros H Hp. assert (Hd : det a b c <> 0) by (intros Z; rewrite Z in H; lra).
  pose proof (uu_bound _ _ _ Hd) as HB. destruct (det_cross _ _ _ Hd) as [N1 [N2 _]].
  unfold dangle_of, get_dangle. cbn [nth pnth Nat.modulo Nat.divmod Nat.add fst snd Nat.sub].
  unfold pnth. cbn [nth]. toR. 
  set (k := dt (uu (cr a b)) (uu (cr b c))) in *.
  assert (Hk : 0 < 1 - k * k) by nra.
  assert (Hs : 0 < sqrt (1 - k * k)) by (apply sqrt_lt_R0; auto).
  unfold A1A2. destruct (Rltb 0 d) eqn:E; cbn [fst snd].
  - replace (- k * - k) with (k * k) by ring.
    rewrite (proj2 (Rltb_false _ _)) by lra.
    rewrite (proj2 (Reqb_false _ _)) by lra. cbn [negb].
    rewrite (proj2 (Rltb_false _ _)) by lra. f_equal.
    unfold mopp, madd, mdot, vmap2, vmap. cbn [vx vy vz]. toR. unfold vmap2. cbn [vx vy vz]. toR.
    rewrite ?vdivs_R, ?vmuls_R. apply veq; cbn [vx vy vz]; proj; cbn [vx vy vz]; unfold dang; fold k;
      req; (match goal with |- ?x * ?y = _ => rewrite (Rmult_comm x y) end); unfold Rdiv; f_equal;
      unfold dU, dV; dts; ring.
  - replace (- k * - k) with (k * k) by ring.
    rewrite (proj2 (Rltb_false _ _)) by lra.
    rewrite (proj2 (Reqb_false _ _)) by lra. cbn [negb].
    rewrite (proj2 (Rltb_false _ _)) by lra. f_equal.
    unfold mopp, madd, mdot, vmap2, vmap. cbn [vx vy vz]. toR. unfold vmap2. cbn [vx vy vz]. toR.
    rewrite ?vdivs_R, ?vmuls_R. apply veq; cbn [vx vy vz]; proj; cbn [vx vy vz]; unfold dang; fold k;
      req; (match goal with |- ?x * ?y = _ => rewrite (Rmult_comm x y) end); unfold Rdiv; f_equal;
      unfold dU, dV; dts; ring.
Qed.

(** ** Triangular faces *)
Definition tri_normal (p1 p2 p3 : V) : V := uu (cr (p2 - p1) (p3 - p1)).
(** the face object of the triangle p1 p2 p3: counter-clockwise about its unit normal *)
Definition tri_face (f : face RA) (p1 p2 p3 : V) : Prop :=
  f_points f = [p1; p2; p3] /\ length (f_simplex f) = 3%nat /\
  cr (p2 - p1) (p3 - p1) <> v0 /\ f_un f = tri_normal p1 p2 p3.

Lemma tri_det p1 p2 p3 o : cr (p2 - p1)%v (p3 - p1)%v <> v0 ->
  det (p1 - o) (p2 - o) (p3 - o) =
  nm (cr (p2 - p1) (p3 - p1)) * dt (tri_normal p1 p2 p3) (p1 - o)%v.
Proof.
  intros H. apply nm_pos in H. unfold tri_normal, uu. dts.
  transitivity (dt (cr (p2 - p1) (p3 - p1)) (p1 - o)%v).
  - unfold det. vring.
  - rewrite dt_sub_r. field. lra.
Qed.
Lemma tri_dots p1 p2 p3 o :
  dt (tri_normal p1 p2 p3) (p2 - o)%v = dt (tri_normal p1 p2 p3) (p1 - o)%v /\
  dt (tri_normal p1 p2 p3) (p3 - o)%v = dt (tri_normal p1 p2 p3) (p1 - o)%v.
Proof. unfold tri_normal, uu. rewrite !dt_sc_l. split; f_equal; vring. Qed.
Lemma uu_nm v : v <> v0 -> nm (uu v) = 1.
Proof.
  intros H. apply nm_pos in H. unfold uu. rewrite nm_sc, Rabs_pos_eq; [field; lra|].
  left. now apply Rinv_0_lt_compat.
Qed.

Lemma omega_step_R g (pts : list V) (dots : list R) (cross : list V) (nrm : list R) (uni : list V)
    (cdp : list (vec3 V)) w dw i a b c d :
  0 < d * det a b c ->
  nth i dots 0 = d -> 
  get_A1A2 (A := RA) i d 3 uni = A1A2 d a b c ->
  (if Rltb 0 d then pnth (A := RA) i pts else pnth (A := RA) ((i + 2) mod 3)%nat pts) = (if Rltb 0 d then a else c) ->
  (forall p, get_dangle (A := RA) i d (- dt (uu (cr a b)) (uu (cr b c))) p (fst (A1A2 d a b c)) (snd (A1A2 d a b c)) 3 cdp cross nrm uni
             = dangle_of d a b c p) ->
  omega_step (A := RA) g 3 pts dots cross nrm uni cdp (w, dw) i =
  Ok (w + ang a b c, if g then (dw + V3 (dang a b c mex) (dang a b c mey) (dang a b c mez))%v else dw).
Proof.
  intros H Hd HA Hp HD. assert (Hd' : d <> 0) by (intros Z; rewrite Z in H; lra).
  unfold omega_step. toR. rewrite Hd, HA.
  pose proof (perp_pos d a b c H) as Hpp. pose proof (dot_A d a b c) as Hdot.
  destruct (A1A2 d a b c) as [x y]. cbn [fst snd] in *.
  unfold get_perp. toR. rewrite (proj2 (Reqb_false _ _)) by auto. rewrite Hp, Hdot.
  pose proof (get_angle_R d a b c _ H Hpp) as Hga.
  match goal with |- bind ?e _ = _ =>
    replace e with (@Ok R (ang a b c)) by (symmetry; exact Hga) end.
  cbn [bind]. toR.
  destruct g; [|reflexivity]. pose proof (get_dangle_R d a b c _ H Hpp) as Hgd. rewrite <- HD in Hgd.
  match goal with |- bind ?e _ = _ =>
    replace e with (@Ok V (V3 (dang a b c mex) (dang a b c mey) (dang a b c mez))) by (symmetry; exact Hgd) end.
  reflexivity.
Qed.

Lemma domega_sum a b c e : det a b c <> 0 ->
  - Rsgn (det a b c) * (dang a b c e + dang b c a e + dang c a b e) = - dt (gom a b c) e.
Proof.
  intros H.
  set (wa := fun t : R => (a + t * e)%v). set (wb := fun t : R => (b + t * e)%v).
  set (wc := fun t : R => (c + t * e)%v).
  assert (Ea : wa 0 = a) by (unfold wa; vring). assert (Eb : wb 0 = b) by (unfold wb; vring).
  assert (Ec : wc 0 = c) by (unfold wc; vring).
  assert (Ha : vder wa 0 e) by apply vder_line. assert (Hb : vder wb 0 e) by apply vder_line.
  assert (Hc : vder wc 0 e) by apply vder_line.
  assert (H1 : det b c a <> 0) by (rewrite <- det_perm; auto).
  assert (H2 : det c a b <> 0) by (rewrite det_perm; auto).
  assert (D1 : is_derive (fun s => - Rsgn (det a b c) * (ang (wa s) (wb s) (wc s) + ang (wb s) (wc s) (wa s) + ang (wc s) (wa s) (wb s) - PI)) 0
     (- Rsgn (det a b c) * (dang a b c e + dang b c a e + dang c a b e))).
  { apply (is_derive_scal (fun s => ang (wa s) (wb s) (wc s) + ang (wb s) (wc s) (wa s) + ang (wc s) (wa s) (wb s) - PI)).
    eapply is_derive_eq.
    - apply @is_derive_minus; [|apply @is_derive_const].
      apply sum_der; [apply sum_der|]; apply ang_der; eauto; rewrite ?Ea, ?Eb, ?Ec; auto.
    - rn. rewrite Ea, Eb, Ec. req. ring. }
  assert (D2 : is_derive (fun s => om (wa s) (wa s + (b - a))%v (wa s + (c - a))%v) 0 (- dt (gom a b c) e)).
  { assert (Eb' : (wa 0 + (b - a))%v = b) by (rewrite Ea; vring).
    assert (Ec' : (wa 0 + (c - a))%v = c) by (rewrite Ea; vring).
    pose proof (om_der wa (b - a)%v (c - a)%v 0 e Ha) as D. rewrite Eb', Ec', Ea in D.
    apply D; [apply off3_det; auto|auto]. }
  assert (D3 : is_derive (fun s => om (wa s) (wa s + (b - a))%v (wa s + (c - a))%v) 0
     (- Rsgn (det a b c) * (dang a b c e + dang b c a e + dang c a b e))).
  { eapply is_derive_ext_loc; [|exact D1].
    pose proof (det_der _ _ _ _ _ _ _ Ha Hb Hc) as Hdet.
    assert (HC : continuous (fun s => det (wa s) (wb s) (wc s)) 0).
    { apply @ex_derive_continuous. eexists. exact Hdet. }
    assert (Hl : locally (det a b c) (fun y => y <> 0 /\ Rsgn y = Rsgn (det a b c))).
    { exists (mkposreal _ (Rabs_pos_lt _ H)). intros y Hy.
      unfold ball in Hy. cbn in Hy. unfold AbsRing_ball, minus, plus, opp, abs in Hy. cbn in Hy.
      destruct (Rlt_le_dec 0 (det a b c)) as [P|P].
      - rewrite (Rabs_pos_eq (det a b c)) in Hy by lra. apply Rabs_def2 in Hy.
        rewrite !Rsgn_pos by lra. split; lra.
      - rewrite (Rabs_left (det a b c)) in Hy by lra. apply Rabs_def2 in Hy.
        rewrite !Rsgn_neg by lra. split; lra. }
    rewrite <- Ea, <- Eb, <- Ec in Hl at 1.
    specialize (HC _ Hl). unfold filtermap in HC.
    eapply filter_imp; [|exact HC]. intros s [Hs1 Hs2]. cbn beta.
    replace (wa s + (b - a))%v with (wb s) by (unfold wa, wb; vring).
    replace (wa s + (c - a))%v with (wc s) by (unfold wa, wc; vring).
    rewrite om_excess by auto. rewrite Hs2. req. ring. }
  apply is_derive_unique in D2. apply is_derive_unique in D3. rewrite <- D2, <- D3. reflexivity.
Qed.

Lemma get_omega_R f p1 p2 p3 o g : tri_face f p1 p2 p3 ->
  let d := dt (f_un f) (p1 - o)%v in
  eps < Rabs d ->
  get_omega (A := RA) f o d (Rsgn d) g =
  Ok (om (p1 - o) (p2 - o) (p3 - o), if g then gom (p1 - o)%v (p2 - o)%v (p3 - o)%v else v0).
Proof.
  intros [Hp [Hl [Hn Hu]]] d Hd. pose proof eps_pos.
  assert (Hdet := tri_det p1 p2 p3 o Hn). destruct (tri_dots p1 p2 p3 o) as [T2 T3].
  rewrite <- Hu in Hdet, T2, T3. fold d in Hdet, T2, T3.
  apply nm_pos in Hn.
  assert (Hd0 : d <> 0) by (intros Z; rewrite Z, Rabs_R0 in Hd; lra).
  assert (Hd2 : 0 < d * d) by nra.
  assert (Hdd : 0 < d * det (p1 - o) (p2 - o) (p3 - o)).
  { rewrite Hdet. replace (d * (nm (cr (p2 - p1) (p3 - p1)) * d)) with (nm (cr (p2 - p1) (p3 - p1)) * (d * d)) by ring.
    apply Rmult_lt_0_compat; auto. }
  assert (Hs : Rsgn (det (p1 - o) (p2 - o) (p3 - o)) = Rsgn d).
  { destruct (Rlt_le_dec 0 d) as [P|P]; [rewrite !Rsgn_pos by nra|rewrite !Rsgn_neg by nra]; reflexivity. }
  unfold get_omega, f_npoints. rewrite Hl, Hp. toR.
  rewrite (proj2 (Rltb_true _ _)) by exact Hd.
  cbn [map seq]. toR. unfold pnth at 1 2 3 4 5 6 7 8 9 10 11 12. 
  cbn [nth Nat.modulo Nat.divmod Nat.add fst snd Nat.sub]. toR. 
  fold d. rewrite T2, T3.
  set (a := (p1 - o)%v) in *. set (b := (p2 - o)%v) in *. set (c := (p3 - o)%v) in *.
  fold (uu (cr a b)) (uu (cr b c)) (uu (cr c a)).
  assert (Hd1 : 0 < d * det b c a) by (rewrite <- det_perm; auto).
  assert (Hd3 : 0 < d * det c a b) by (rewrite det_perm; auto).
  unfold vmap. cbn [vx vy vz minus_identity]. toR.
  change (V3 (IZR (-1)) (IZR 0) (IZR 0)) with mex. change (V3 (IZR 0) (IZR (-1)) (IZR 0)) with mey.
  change (V3 (IZR 0) (IZR 0) (IZR (-1))) with mez.
  rewrite ?cross3_R.
  assert (Hfin : (- Rsgn d * (0 + ang a b c + ang b c a + ang c a b - 1 * PI)) = om a b c).
  { rewrite om_excess by (intros Z; rewrite Z in Hdd; lra). rewrite Hs. ring. }
  assert (Hgr : (- Rsgn d * (v0 + V3 (dang a b c mex) (dang a b c mey) (dang a b c mez)
     + V3 (dang b c a mex) (dang b c a mey) (dang b c a mez) + V3 (dang c a b mex) (dang c a b mey) (dang c a b mez)))%v
     = gom a b c).
  { assert (Hdn : det a b c <> 0) by (intros Z; rewrite Z in Hdd; lra).
    pose proof (domega_sum a b c mex Hdn) as Ex. pose proof (domega_sum a b c mey Hdn) as Ey.
    pose proof (domega_sum a b c mez Hdn) as Ez. rewrite Hs in Ex, Ey, Ez.
    apply veq; cbn [vx vy vz sc va v0].
    - transitivity (- dt (gom a b c) mex); [rewrite <- Ex; ring|unfold dt, mex; cbn [vx vy vz]; ring].
    - transitivity (- dt (gom a b c) mey); [rewrite <- Ey; ring|unfold dt, mey; cbn [vx vy vz]; ring].
    - transitivity (- dt (gom a b c) mez); [rewrite <- Ez; ring|unfold dt, mez; cbn [vx vy vz]; ring]. }
  cbn [foldM].
  rewrite (omega_step_R g _ _ _ _ _ _ _ _ 0 a b c d Hdd); [|reflexivity|reflexivity|reflexivity|intros p; reflexivity].
  cbn [bind].
  rewrite (omega_step_R g _ _ _ _ _ _ _ _ 1 b c a d Hd1); [|reflexivity|reflexivity|reflexivity|intros p; reflexivity].
  cbn [bind].
  rewrite (omega_step_R g _ _ _ _ _ _ _ _ 2 c a b d Hd3); [|reflexivity|reflexivity|reflexivity|intros p; reflexivity].
  cbn [bind]. change (Z.of_nat 3 - 2)%Z with 1%Z. toR. rewrite Hfin. 
  destruct g; [rewrite Hgr; reflexivity|].
  do 2 f_equal. vring.
Qed.

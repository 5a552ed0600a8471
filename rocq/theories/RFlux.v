(** * The facet vector FF as a surface integral over the triangle *)
From Coq Require Import Reals Lra Psatz Bool List.
From Coquelicot Require Import Coquelicot.
From Verif Require Import Base RVec RArith REdge REdgeModel RAngle ROmega RFace RFacet RRay.
Local Open Scope R_scope.
Arguments in_tri (_ _ _)%v_scope. Arguments ell (_ _)%v_scope. Arguments Kab (_ _)%v_scope. Arguments gell (_ _)%v_scope.
Arguments off (_ _)%v_scope. Arguments nm (_)%v_scope. Arguments uv (_ _)%v_scope. Arguments uu (_)%v_scope.

(** ** The fundamental theorem with a derivative inside the interval only *)
Definition clamp (a b x : R) : R := Rmax a (Rmin b x).
Lemma clamp_in a b x : a <= b -> a <= clamp a b x <= b.
Proof. intros H. unfold clamp, Rmax, Rmin. repeat destruct Rle_dec; lra. Qed.
Lemma clamp_id a b x : a <= x <= b -> clamp a b x = x.
Proof. intros H. unfold clamp, Rmax, Rmin. repeat destruct Rle_dec; lra. Qed.
Lemma clamp_lip a b x y : a <= b -> Rabs (clamp a b y - clamp a b x) <= Rabs (y - x).
Proof.
  intros H. unfold clamp, Rmax, Rmin. repeat destruct Rle_dec; unfold Rabs; repeat destruct Rcase_abs; lra.
Qed.
Lemma clamp_cont a b x : a <= b -> continuous (clamp a b) x.
Proof.
  intros H P [d Hd]. exists d. intros y Hy. apply Hd.
  unfold ball in *; cbn in *. unfold AbsRing_ball, abs, minus, plus, opp in *; cbn in *.
  eapply Rle_lt_trans; [apply clamp_lip; exact H|exact Hy].
Qed.
Lemma ftc_open (f df : R -> R) a b : a < b ->
  (forall x, a < x < b -> is_derive f x (df x)) ->
  (forall x, a <= x <= b -> continuous f x) ->
  (forall x, a <= x <= b -> continuous df x) ->
  is_RInt df a b (f b - f a).
Proof.
  intros Hab Hd Hc Hdc.
  set (g := fun x => df (clamp a b x)).
  assert (Cg : forall x, continuous g x).
  { intros x. unfold g. apply (continuous_comp (clamp a b) df); [apply clamp_cont; lra|].
    apply Hdc, clamp_in. lra. }
  assert (Eg : forall x y, ex_RInt g x y) by (intros; apply (@ex_RInt_continuous R_CompleteNormedModule); auto).
  set (G := fun x => RInt g a x).
  assert (DG : forall x, is_derive G x (g x)).
  { intros x. apply (is_derive_RInt g G a); [|apply Cg]. exists (mkposreal 1 Rlt_0_1). intros y _.
    apply (@RInt_correct R_CompleteNormedModule), Eg. }
  assert (CG : forall x, continuous G x) by (intros x; apply @ex_derive_continuous; eexists; apply DG).
  destruct (MVT_gen (fun x => f x - G x) a b (fun _ => 0)) as [c [_ E]].
  - intros x. rewrite Rmin_left, Rmax_right by lra. intros Hx.
    eapply is_derive_eq; [apply @is_derive_minus; [apply Hd; exact Hx|apply DG]|].
    unfold g. rewrite clamp_id by lra. unfold minus, plus, opp; cbn. ring.
  - intros x. rewrite Rmin_left, Rmax_right by lra. intros Hx. apply continuity_pt_filterlim.
    apply (@continuous_minus R_UniformSpace R_AbsRing R_NormedModule f G); [now apply Hc|apply CG].
  - assert (G0 : G a = 0) by (unfold G; rewrite RInt_point; reflexivity).
    replace (f b - f a) with (G b) by lra.
    apply (is_RInt_ext g).
    + intros x. rewrite Rmin_left, Rmax_right by lra. intros Hx. unfold g. rewrite clamp_id by lra. reflexivity.
    + unfold G. apply (@RInt_correct R_CompleteNormedModule), Eg.
Qed.

(** ** Integrals of vector functions, by components *)
Definition is_vint (f : R -> V) (a b : R) (I : V) : Prop :=
  is_RInt (fun s => vx (f s)) a b (vx I) /\ is_RInt (fun s => vy (f s)) a b (vy I) /\
  is_RInt (fun s => vz (f s)) a b (vz I).
Lemma vftc_open (f df : R -> V) a b : a < b ->
  (forall x, a < x < b -> vder f x (df x)) ->
  (forall x, a <= x <= b -> vcont f x) -> (forall x, a <= x <= b -> vcont df x) ->
  is_vint df a b (f b - f a)%v.
Proof.
  intros Hab Hd Hc Hdc. split3; cbn [vm vx vy vz].
  - apply (ftc_open (fun s => vx (f s)) (fun s => vx (df s))); auto; intros x Hx; [apply Hd|apply Hc|apply Hdc]; auto.
  - apply (ftc_open (fun s => vy (f s)) (fun s => vy (df s))); auto; intros x Hx; [apply Hd|apply Hc|apply Hdc]; auto.
  - apply (ftc_open (fun s => vz (f s)) (fun s => vz (df s))); auto; intros x Hx; [apply Hd|apply Hc|apply Hdc]; auto.
Qed.

(** ** Continuity of the pieces *)
Lemma vcont_const c t : vcont (fun _ => c) t.
Proof. split3; apply @continuous_const. Qed.
Lemma vcont_add f g t : vcont f t -> vcont g t -> vcont (fun s => (f s + g s)%v) t.
Proof. intros [? [? ?]] [? [? ?]]. split3; cbn [va vx vy vz]; now apply @continuous_plus. Qed.
Lemma vcont_sub f g t : vcont f t -> vcont g t -> vcont (fun s => (f s - g s)%v) t.
Proof. intros [? [? ?]] [? [? ?]]. split3; cbn [vm vx vy vz]; now apply @continuous_minus. Qed.
Lemma vcont_sc k f t : continuous k t -> vcont f t -> vcont (fun s => (k s * f s)%v) t.
Proof. intros ? [? [? ?]]. split3; cbn [sc vx vy vz]; now apply @continuous_mult. Qed.
Lemma cont_inv (k : R -> R) t : continuous k t -> k t <> 0 -> continuous (fun s => / k s) t.
Proof. intros H N. apply (continuous_comp k Rinv); [exact H|]. now apply continuous_Rinv. Qed.
Lemma cont_Kab f g t : vcont f t -> vcont g t -> off (f t) (g t) -> continuous (fun s => Kab (f s) (g s)) t.
Proof.
  intros F G O. unfold Kab. apply cont_inv; [|unfold off in O; lra].
  apply @continuous_plus; [apply @continuous_mult; now apply cont_nm2|now apply cont_dt2].
Qed.
Lemma cont_ell f g t : vcont f t -> vcont g t -> off (f t) (g t) -> continuous (fun s => ell (f s) (g s)) t.
Proof.
  intros F G O. unfold ell, elf. pose proof (off_lt _ _ O). pose proof (nm_nonneg (g t - f t)%v).
  pose proof (cont_nm2 _ _ F). pose proof (cont_nm2 _ _ G).
  pose proof (cont_nm2 _ _ (vcont_sub _ _ _ G F)).
  assert (P : 0 < (nm (f t) + nm (g t) + nm (g t - f t)) / (nm (f t) + nm (g t) - nm (g t - f t))).
  { apply Rdiv_lt_0_compat; lra. }
  apply (continuous_comp (fun s => (nm (f s) + nm (g s) + nm (g s - f s)) / (nm (f s) + nm (g s) - nm (g s - f s))) ln).
  - unfold Rdiv. apply @continuous_mult.
    + apply @continuous_plus; [now apply @continuous_plus|auto].
    + apply cont_inv; [|lra]. apply @continuous_minus; [now apply @continuous_plus|auto].
  - apply @ex_derive_continuous. eexists. now apply is_derive_ln.
Qed.

(** ** The line integral of R/|R|^3 *)
Definition field3 (r : V) : V := (/ (nm r * nm r * nm r) * r)%v.
Arguments field3 (_)%v_scope.
Lemma vcont_field3 f t : vcont f t -> 0 < nm (f t) -> vcont (fun s => field3 (f s)) t.
Proof.
  intros F P. unfold field3. apply vcont_sc; [|exact F]. pose proof (cont_nm2 _ _ F).
  apply cont_inv; [repeat apply @continuous_mult; auto|]. 
  assert (0 < nm (f t) * nm (f t) * nm (f t)) by (repeat apply Rmult_lt_0_compat; auto). lra.
Qed.
Definition seg3 (b c : V) : V := (Kab b c * (/ nm b * b + / nm c * c))%v.
Arguments seg3 (_ _)%v_scope.
Lemma inv_der (k : R -> R) t k' : is_derive k t k' -> k t <> 0 -> is_derive (fun s => / k s) t (- k' / (k t * k t)).
Proof.
  intros H N. eapply is_derive_eq; [apply @is_derive_inv; eauto|]. field. exact N.
Qed.
Lemma seg3_alg rb rho s v PE bE bi Pi Ei : 0 < rb -> 0 < rho -> 0 < rb * rho + s ->
  v * PE = rho * rho - s -> v * bE = s - rb * rb -> v * Ei = Pi - bi ->
  (/ (rb * rho + s) + v * (- (rb * (PE / rho) + bE) / ((rb * rho + s) * (rb * rho + s)))) * (/ rb * bi + / rho * Pi)
   + v * / (rb * rho + s) * (- (PE / rho) / (rho * rho) * Pi + / rho * Ei) = / (rho * rho * rho) * Pi.
Proof.
  intros Hb Hr Hk E1 E2 E3.
  transitivity ((/ (rb * rho + s) + - (rb * (v * PE / rho) + v * bE) / ((rb * rho + s) * (rb * rho + s))) * (/ rb * bi + / rho * Pi)
   + / (rb * rho + s) * (- (v * PE / rho) / (rho * rho) * Pi + / rho * (v * Ei))).
  - field. repeat split; lra.
  - rewrite E1, E2, E3. field. repeat split; lra.
Qed.

Lemma seg3_int b c : off b c -> is_vint (fun v => field3 (b + v * (c - b))) 0 1 (seg3 b c).
Proof.
  intros O. set (E := (c - b)%v). set (P := fun v : R => (b + v * E)%v).
  assert (Ov : forall v, 0 <= v <= 1 -> off b (P v)) by (intros; now apply off_sub).
  assert (CP : forall v, vcont P v) by (intros; apply vcont_lin).
  assert (DP : forall v, vder P v E) by (intros; apply vder_line).
  replace (seg3 b c) with ((fun v => (v * seg3 b (P v))%v) 1 - (fun v => (v * seg3 b (P v))%v) 0)%v.
  2:{ cbv beta. unfold P. replace (b + 1 * E)%v with c by (unfold E; vring). generalize (seg3 b c) (seg3 b (b + 0 * E)).
      intros. vring. }
  apply (vftc_open (fun v => (v * seg3 b (P v))%v)).
  - lra.
  - intros v Hv. destruct (off_nz _ _ (Ov v ltac:(lra))) as [Hb Hr]. pose proof (Ov v ltac:(lra)) as Ho. unfold off in Ho.
    assert (Dr : is_derive (fun s => nm (P s)) v (dt (P v) E / nm (P v))) by (apply nm_der; auto).
    assert (Db : vder (fun _ : R => b) v v0) by (apply vder_const).
    assert (Dk : is_derive (fun s => Kab b (P s)) v
       (- (nm b * (dt (P v) E / nm (P v)) + dt b E) / ((nm b * nm (P v) + dt b (P v)) * (nm b * nm (P v) + dt b (P v))))).
    { unfold Kab. apply (inv_der (fun s => nm b * nm (P s) + dt b (P s)) v); [|lra]. apply @is_derive_plus.
      - eapply is_derive_eq; [apply (is_derive_scal (fun s => nm (P s)) v (nm b)); exact Dr|]. reflexivity.
      - eapply is_derive_eq; [apply dt_der; eauto|]. rewrite dt_0_l. ring. }
    eapply vder_eq.
    + unfold seg3. apply (vder_sc (fun s => s) (fun s => (Kab b (P s) * (/ nm b * b + / nm (P s) * P s))%v)); [exact (is_derive_id v : is_derive (fun s : R => s) v 1)|].
      apply (vder_sc (fun s => Kab b (P s)) (fun s => (/ nm b * b + / nm (P s) * P s)%v)); [exact Dk|].
      apply vder_add; [apply vder_const|].
      apply (vder_sc (fun s => / nm (P s)) P); [|apply DP]. apply (inv_der (fun s => nm (P s)) v); [exact Dr|lra].
    + assert (E1 : v * dt (P v) E = nm (P v) * nm (P v) - dt b (P v)) by (rewrite nm_sq; unfold P; dts; rewrite (dt_comm E b); ring).
      assert (E2 : v * dt b E = dt b (P v) - nm b * nm b) by (rewrite nm_sq; unfold P; dts; ring).
      assert (E3 : (v * E = P v - b)%v) by (unfold P; vring).
      change (b + v * E)%v with (P v). unfold field3, Kab.
      set (rho := nm (P v)) in *. set (s := dt b (P v)) in *. set (PE := dt (P v) E) in *. set (bE := dt b E) in *.
      set (rb := nm b) in *.
      apply veq; cbn [va sc v0 vx vy vz].
      * rewrite <- (seg3_alg rb rho s v PE bE (vx b) (vx (P v)) (vx E) Hb Hr Ho E1 E2 (f_equal vx E3)). ring.
      * rewrite <- (seg3_alg rb rho s v PE bE (vy b) (vy (P v)) (vy E) Hb Hr Ho E1 E2 (f_equal vy E3)). ring.
      * rewrite <- (seg3_alg rb rho s v PE bE (vz b) (vz (P v)) (vz E) Hb Hr Ho E1 E2 (f_equal vz E3)). ring.
  - intros v Hv. destruct (off_nz _ _ (Ov v Hv)) as [Hb Hr].
    apply vcont_sc; [apply continuous_id|]. unfold seg3. apply vcont_sc.
    + apply cont_Kab; auto. apply vcont_const.
    + apply vcont_add; [apply vcont_const|]. apply vcont_sc; auto. apply cont_inv; [now apply cont_nm2|lra].
  - intros v Hv. destruct (off_nz _ _ (Ov v Hv)) as [Hb Hr]. now apply vcont_field3.
Qed.

(** ** The triangle, swept from its first vertex *)
Lemma edge_term_sc k b c : 0 < k -> edge_term (k * b) (k * c) = (/ k * edge_term b c)%v.
Proof.
  intros Hk. unfold edge_term, Kab. rewrite !nm_sc, Rabs_pos_eq by lra. dts.
  replace (k * nm b * (k * nm c) + k * (k * dt b c)) with (k * k * (nm b * nm c + dt b c)) by ring.
  rewrite !Rinv_mult.
  replace (cr (k * b) (k * c))%v with (k * k * cr b c)%v by vring.
  set (x := / nm b). set (y := / nm c). set (z := / (nm b * nm c + dt b c)). generalize (cr b c). intros w.
  apply veq; cbn [sc vx vy vz]; field; lra.
Qed.

Lemma ell_ray_der a e u : 0 < u -> e <> v0 -> off a (a + u * e) ->
  is_derive (fun s => ell a (a + s * e)) u (nm e / nm (a + u * e)).
Proof.
  intros Hu He O. set (b := fun s : R => (a + s * e)%v). change (off a (b u)) in O.
  destruct (off_nz _ _ O) as [Ha Hb].
  assert (El : (b u - a = u * e)%v) by (unfold b; vring).
  pose proof (nm_pos _ He) as Hl.
  assert (Hne : a <> b u).
  { intros Z. rewrite <- Z in El. assert (K : (u * e)%v = v0) by (rewrite <- El; vring).
    apply (f_equal nm) in K. rewrite nm_sc, nm_0, Rabs_pos_eq in K by lra. nra. }
  eapply is_derive_eq; [apply (ell_der (fun _ => a) b u v0 e); auto; [apply vder_const|apply vder_line]|].
  cbv beta. change (a + u * e)%v with (b u).
  rewrite El, nm_sc, Rabs_pos_eq by lra. replace (e - v0)%v with e by vring. rewrite dt_0_r, dt_sc_l, <- nm_sq.
  assert (K : u * dt (b u) e = nm (b u) * nm (b u) - dt a (b u)).
  { rewrite nm_sq. rewrite <- dt_sc_r, <- El. dts. rewrite (dt_comm (b u) a). ring. }
  unfold Kab. unfold off in O. set (rb := nm (b u)) in *. set (s := dt a (b u)) in *. set (ra := nm a) in *. set (l := nm e) in *.
  set (q := dt (b u) e) in *.
  transitivity (/ (ra * rb + s) * ((ra + rb) * l - l * (u * q) / rb)).
  - rewrite K. field. lra.
  - field. repeat split; lra.
Qed.

Lemma sc_inv u a e : 0 < u -> (/ u * (a + u * e))%v = (/ u * a + e)%v.
Proof. intros H. vdes; vunf; cbn [vx vy vz]; apply veq; cbn [vx vy vz]; field; lra. Qed.
Lemma dt_cr_a1 k a e : dt (cr (k * a) (k * a + e))%v a = 0. Proof. vring. Qed.
Lemma dt_cr_a2 k a e : dt (cr (k * a + e) (k * a))%v a = 0. Proof. vring. Qed.

(** the vector identity behind the derivative: N = e1 x e2, b = a + u e1, c = a + u e2 *)
Lemma sweep_alg (a e1 e2 : V) u k rb rc l : 0 < u -> 0 < rb -> 0 < rc -> 0 < l ->
  let b := (a + u * e1)%v in let c := (a + u * e2)%v in let N := cr e1 e2 in
  rb * rb = dt b b -> rc * rc = dt c c -> l * l = dt N N -> k * (rb * rc + dt b c) = 1 ->
  let L := k * (dt a b / rb + dt a c / rc) in
  (- (/ u * (k * (/ rb + / rc) * dt (cr b c) a)) * (/ l * N)
   + cr (/ rb * e1 + L * (e2 - e1) - / rc * e2) (/ l * N))%v
  = (- (l * u) * (k * (/ rb * b + / rc * c)))%v.
Proof.
  intros Hu Hb Hc Hl b c N Eb Ec El Ek L.
  assert (A1 : / rb - L = u * k * (dt e2 b / rb + dt e2 c / rc)).
  { unfold L. replace (u * k * (dt e2 b / rb + dt e2 c / rc)) with (k * ((u * dt e2 b) / rb + (u * dt e2 c) / rc)) by (field; lra).
    replace (u * dt e2 b) with (dt b c - dt a b) by (unfold b, c; vring).
    replace (u * dt e2 c) with (rc * rc - dt a c) by (rewrite Ec; unfold c; vring).
    apply Rminus_diag_uniq.
    replace (/ rb - k * (dt a b / rb + dt a c / rc) - k * ((dt b c - dt a b) / rb + (rc * rc - dt a c) / rc))
      with ((1 - k * (rb * rc + dt b c)) / rb) by (field; lra).
    rewrite Ek. field. lra. }
  assert (A2 : L - / rc = - (u * k * (dt e1 b / rb + dt e1 c / rc))).
  { unfold L. replace (u * k * (dt e1 b / rb + dt e1 c / rc)) with (k * ((u * dt e1 b) / rb + (u * dt e1 c) / rc)) by (field; lra).
    replace (u * dt e1 b) with (rb * rb - dt a b) by (rewrite Eb; unfold b; vring).
    replace (u * dt e1 c) with (dt b c - dt a c) by (unfold b, c; vring).
    apply Rminus_diag_uniq.
    replace (k * (dt a b / rb + dt a c / rc) - / rc - - (k * ((rb * rb - dt a b) / rb + (dt b c - dt a c) / rc)))
      with ((k * (rb * rc + dt b c) - 1) / rc) by (field; lra).
    rewrite Ek. field. lra. }
  set (S := (k * (/ rb * b + / rc * c))%v).
  assert (X : (/ rb * e1 + L * (e2 - e1) - / rc * e2 = - u * cr N S)%v).
  { transitivity ((/ rb - L) * e1 + (L - / rc) * e2)%v; [generalize L; intros; vring|].
    rewrite A1, A2. unfold S, N. unfold Rdiv. generalize (/ rb) (/ rc) b c. intros. vring. }
  rewrite X.
  assert (NS : dt N S = k * (/ rb + / rc) * dt N a).
  { unfold S. rewrite dt_sc_r, dt_add_r, !dt_sc_r.
    replace (dt N b) with (dt N a) by (unfold N, b; vring). replace (dt N c) with (dt N a) by (unfold N, c; vring). ring. }
  assert (DN : dt (cr b c) a = u * u * dt N a) by (unfold b, c, N; vring).
  rewrite DN.
  replace (cr (- u * cr N S) (/ l * N))%v with (- u * / l * (dt N N * S - dt N S * N))%v by (generalize N S; intros; vring).
  rewrite NS, <- El. clear - Hl Hu. generalize N S (dt N a) (/ rb) (/ rc). intros.
  apply veq; cbn [va vm sc vx vy vz]; field; lra.
Qed.

Lemma in_tri_sc k a b c : 0 < k -> in_tri (k * a) (k * b) (k * c) -> in_tri a b c.
Proof.
  intros Hk [x [y [z [Hx [Hy [Hz [S E]]]]]]]. exists x, y, z. repeat split; auto.
  assert (K : (k * (x * a + y * b + z * c))%v = v0) by (rewrite <- E; vring).
  apply veq; [apply (f_equal vx) in K|apply (f_equal vy) in K|apply (f_equal vz) in K]; cbn [sc v0 vx vy vz] in K |- *;
    apply Rmult_integral in K; destruct K; lra.
Qed.
(** [FF], continued through the plane of the triangle outside the triangle *)
Definition FF0 (n a b c : V) : V := (om0 a b c * n + cr (Isum a b c) n)%v.
Arguments FF0 (_ _ _ _)%v_scope.
Lemma FF_FF0 n a b c : det a b c <> 0 -> FF n a b c = FF0 n a b c.
Proof. intros H. unfold FF, FF0. now rewrite om_om0. Qed.
Lemma FF_FF0_all n a b c : FF n a b c = FF0 n a b c.
Proof. unfold FF, FF0. now rewrite om_om0_all. Qed.

Section Sweep.
  Variables a e1 e2 : V.
  Let N := cr e1 e2.
  Let E := (e2 - e1)%v.
  Hypothesis HN : N <> v0.
  Hypothesis Hd : ~ in_tri a (a + e1) (a + e2).
  Let n := uu N.
  Let b (u : R) := (a + u * e1)%v.
  Let c (u : R) := (a + u * e2)%v.

  Lemma sw_det u : det a (b u) (c u) = u * u * dt N a.
  Proof. unfold det, b, c, N. vring. Qed.
  Lemma sw_out u : 0 <= u <= 1 -> ~ in_tri a (b u) (c u).
  Proof.
    intros Hu [x [y [z [Hx [Hy [Hz [S E0]]]]]]]. apply Hd. exists (x + (1 - u) * (y + z)), (u * y), (u * z).
    repeat split; try nra. rewrite <- E0. unfold b, c. vring.
  Qed.
  Lemma sw_e1 : e1 <> v0. Proof. intros Z. apply HN. unfold N. rewrite Z. vring. Qed.
  Lemma sw_e2 : e2 <> v0. Proof. intros Z. apply HN. unfold N. rewrite Z. vring. Qed.
  Lemma sw_E : E <> v0.
  Proof. intros Z. apply HN. unfold N. replace e2 with (e1 + E)%v by (unfold E; vring). rewrite Z. vring. Qed.
  Lemma sw_a : 0 < nm a.
  Proof. apply nm_pos. intros Z. apply Hd. exists 1, 0, 0. repeat split; try lra. rewrite Z. vring. Qed.

  Lemma sw_off3 u : 0 <= u <= 1 -> off3 a (b u) (c u).
  Proof. intros Hu. now apply not_in_off3, sw_out. Qed.
  Lemma sw_pos0 u : 0 <= u <= 1 -> 0 < SS a (b u) (c u) + DD a (b u) (c u).
  Proof. intros Hu. apply S_pos0; [now apply sw_off3|]. intros Z. apply DD_out; [exact Z|now apply sw_out]. Qed.

  Lemma sw_cb u : vcont b u. Proof. apply vcont_lin. Qed.
  Lemma sw_cc u : vcont c u. Proof. apply vcont_lin. Qed.
  Lemma sw_db u : vder b u e1. Proof. apply vder_line. Qed.
  Lemma sw_dc u : vder c u e2. Proof. apply vder_line. Qed.


  (** the opposite edge *)
  Let L (u : R) : R := Kab (b u) (c u) * (dt a (b u) / nm (b u) + dt a (c u) / nm (c u)).
  Lemma bc_der u : 0 < u <= 1 -> is_derive (fun s => ell (b s) (c s)) u (nm E * L u).
  Proof.
    intros Hu. destruct (sw_off3 u ltac:(lra)) as [_ [O _]]. destruct (off_nz _ _ O) as [Hb Hc].
    assert (El : (c u - b u = u * E)%v) by (unfold c, b, E; vring).
    pose proof (nm_pos _ sw_E) as Hl.
    assert (Hne : b u <> c u).
    { intros Z. rewrite <- Z in El. assert (K : (u * E)%v = v0) by (rewrite <- El; vring).
      apply (f_equal nm) in K. rewrite nm_sc, nm_0, Rabs_pos_eq in K by lra. nra. }
    eapply is_derive_eq; [apply (ell_der b c u e1 e2); auto; [apply sw_db|apply sw_dc]|].
    rewrite El, nm_sc, Rabs_pos_eq by lra. fold E. rewrite dt_sc_l, <- nm_sq.
    assert (Kb : u * dt (b u) e1 = nm (b u) * nm (b u) - dt a (b u)).
    { rewrite nm_sq, <- dt_sc_r. replace (u * e1)%v with (b u - a)%v by (unfold b; vring). dts. rewrite (dt_comm (b u) a). ring. }
    assert (Kc : u * dt (c u) e2 = nm (c u) * nm (c u) - dt a (c u)).
    { rewrite nm_sq, <- dt_sc_r. replace (u * e2)%v with (c u - a)%v by (unfold c; vring). dts. rewrite (dt_comm (c u) a). ring. }
    unfold L. set (k := Kab (b u) (c u)). set (rb := nm (b u)) in *. set (rc := nm (c u)) in *. set (l := nm E) in *.
    set (p := dt (b u) e1) in *. set (q := dt (c u) e2) in *. set (x := dt a (b u)) in *. set (y := dt a (c u)) in *.
    transitivity (k * ((rb + rc) * l - l * ((u * p) / rb + (u * q) / rc))).
    - rewrite Kb, Kc. field. lra.
    - field. repeat split; lra.
  Qed.

  (** the solid angle *)
  Lemma om_sw u : 0 < u -> om0 a (b u) (c u) = om0 (/ u * a) (/ u * a + e1) (/ u * a + e2).
  Proof.
    intros Hu. rewrite <- (om0_sc3 (/ u) a (b u) (c u)) by (now apply Rinv_0_lt_compat).
    unfold b, c. now rewrite !sc_inv.
  Qed.
  Lemma sw_om u : 0 < u <= 1 ->
    is_derive (fun s => om0 a (b s) (c s)) u (- (/ u * dt (edge_term (b u) (c u)) a)).
  Proof.
    intros Hu.
    set (w := fun s : R => (/ s * a)%v).
    assert (Dw : vder w u (- (/ (u * u)) * a)%v).
    { eapply vder_eq; [apply (vder_sc (fun s => / s) (fun _ => a)); [|apply vder_const]|].
      - apply (inv_der (fun s => s) u 1); [exact (is_derive_id u : is_derive (fun s : R => s) u 1)|lra].
      - cbv beta. apply veq; cbn [vx vy vz va sc v0]; field; lra. }
    assert (Hdw : ~ in_tri (w u) (w u + e1) (w u + e2)).
    { unfold w. rewrite <- (sc_inv u a e1), <- (sc_inv u a e2) by lra. intros K. apply in_tri_sc in K; [|apply Rinv_0_lt_compat; lra].
      revert K. apply sw_out. lra. }
    pose proof (om0_der w e1 e2 u _ Dw (not_in_off3 _ _ _ Hdw) (fun Z => DD_out _ _ _ Z Hdw)) as D.
    eapply is_derive_ext_loc; [|eapply is_derive_eq; [exact D|]].
    - exists (mkposreal u (proj1 Hu)). intros s Hs. symmetry. apply om_sw.
      unfold ball in Hs; cbn in Hs. unfold AbsRing_ball, abs, minus, plus, opp in Hs; cbn in Hs.
      apply Rabs_def2 in Hs. lra.
    - rewrite dt_sc_r.
      assert (X : dt (gom (w u) (w u + e1) (w u + e2)) a = - (u * dt (edge_term (b u) (c u)) a)).
      { unfold gom. 
        replace (edge_term (w u + e1) (w u + e2)) with (u * edge_term (b u) (c u))%v.
        2:{ replace (w u + e1)%v with (/ u * b u)%v by (apply sc_inv; lra).
            replace (w u + e2)%v with (/ u * c u)%v by (apply sc_inv; lra).
            rewrite edge_term_sc by (apply Rinv_0_lt_compat; lra). now rewrite Rinv_inv. }
        rewrite dt_opp_l, !dt_add_l, dt_sc_l.
        replace (dt (edge_term (w u) (w u + e1)) a) with 0 by (unfold edge_term, w; rewrite dt_sc_l, dt_cr_a1; ring).
        replace (dt (edge_term (w u + e2) (w u)) a) with 0 by (unfold edge_term, w; rewrite dt_sc_l, dt_cr_a2; ring).
        ring. }
      rewrite X. field. lra.
  Qed.

  Definition sweep (u : R) : V :=
    (om0 a (b u) (c u) * n +
     cr (ell a (b u) * uu e1 + ell (b u) (c u) * uu E - ell a (c u) * uu e2) n)%v.
  Lemma sweep_der u : 0 < u <= 1 -> vder sweep u (- (nm N * u) * seg3 (b u) (c u))%v.
  Proof.
    intros Hu. destruct (sw_off3 u ltac:(lra)) as [O1 [O2 O3]].
    destruct (off_nz _ _ O1) as [Ha Hb]. destruct (off_nz _ _ O3) as [Hc _].
    pose proof (ell_ray_der a e1 u (proj1 Hu) sw_e1 O1) as D1.
    pose proof (bc_der u Hu) as D2.
    pose proof (ell_ray_der a e2 u (proj1 Hu) sw_e2 (off_sym _ _ O3)) as D3.
    eapply vder_eq.
    - unfold sweep. apply vder_add.
      + apply (vder_sc (fun s => om0 a (b s) (c s)) (fun _ => n)); [now apply sw_om|apply vder_const].
      + apply (cr_der (fun u => (ell a (b u) * uu e1 + ell (b u) (c u) * uu E - ell a (c u) * uu e2)%v) (fun _ => n)); [|apply vder_const].
        apply vder_sub; [apply vder_add|].
        * apply (vder_sc (fun s => ell a (b s)) (fun _ => uu e1)); [exact D1|apply vder_const].
        * apply (vder_sc (fun s => ell (b s) (c s)) (fun _ => uu E)); [exact D2|apply vder_const].
        * apply (vder_sc (fun s => ell a (c s)) (fun _ => uu e2)); [exact D3|apply vder_const].
    - symmetry.
      pose proof (sweep_alg a e1 e2 u (Kab (b u) (c u)) (nm (b u)) (nm (c u)) (nm N) (proj1 Hu) Hb Hc (nm_pos _ HN)) as K.
      cbv zeta in K. fold (b u) (c u) N in K.
      specialize (K (nm_sq _) (nm_sq _) (nm_sq _)).
      specialize (K ltac:(unfold Kab; unfold off in O2; field; lra)).
      fold E in K. fold (L u) in K.
      fold (seg3 (b u) (c u)) in K. rewrite <- K.
      pose proof (nm_pos _ sw_e1) as L1. pose proof (nm_pos _ sw_e2) as L2. pose proof (nm_pos _ sw_E) as L3.
      unfold n, uu.
      change (a + u * e1)%v with (b u). change (a + u * e2)%v with (c u).
      unfold edge_term. rewrite dt_sc_l.
      assert (Z : forall l w, 0 < l -> forall x, (l * x * (/ l * w) = x * w)%v).
      { intros l w Hl x. apply veq; cbn [sc vx vy vz]; field; lra. }
      unfold Rdiv. rewrite (Z _ e1 L1), (Z _ E L3), (Z _ e2 L2).
      generalize (L u) (/ nm (b u)) (/ nm (c u)) (/ nm N * N)%v (om0 a (b u) (c u)) (ell a (b u)) (ell (b u) (c u)) (ell a (c u)).
      generalize (/ nm e1 * e1)%v (/ nm e2 * e2)%v (/ nm E * E)%v (Kab (b u) (c u)) (dt (cr (b u) (c u)) a).
      generalize E. clear. intros. vring.
  Qed.
  Lemma sweep_cont u : 0 <= u <= 1 -> vcont sweep u.
  Proof.
    intros Hu. destruct (sw_off3 u Hu) as [O1 [O2 O3]].
    unfold sweep. apply vcont_add.
    - apply vcont_sc; [|apply vcont_const]. apply cont_om0; auto using vcont_const, sw_cb, sw_cc. now apply sw_pos0.
    - apply vcont_cr; [|apply vcont_const]. apply vcont_sub; [apply vcont_add|]; apply vcont_sc; try apply vcont_const;
        apply cont_ell; auto using vcont_const, sw_cb, sw_cc, off_sym.
  Qed.
  Lemma seg3_cont u : 0 <= u <= 1 -> vcont (fun s => seg3 (b s) (c s)) u.
  Proof.
    intros Hu. destruct (sw_off3 u Hu) as [O1 [O2 O3]]. destruct (off_nz _ _ O2) as [Hb Hc].
    unfold seg3. apply vcont_sc; [apply cont_Kab; auto using sw_cb, sw_cc|].
    apply vcont_add; apply vcont_sc; auto using sw_cb, sw_cc; apply cont_inv; try lra; apply cont_nm2; auto using sw_cb, sw_cc.
  Qed.
  Lemma sweep_0 : sweep 0 = v0.
  Proof.
    unfold sweep, b, c. replace (a + 0 * e1)%v with a by vring. replace (a + 0 * e2)%v with a by vring.
    assert (El : ell a a = 0).
    { unfold ell, elf. replace (a - a)%v with v0 by vring. rewrite nm_0. pose proof sw_a.
      replace ((nm a + nm a + 0) / (nm a + nm a - 0)) with 1 by (field; lra). apply ln_1. }
    assert (Eo : om0 a a a = 0).
    { unfold om0. replace (det a a a) with 0 by (unfold det; vring). unfold Rdiv. rewrite Rmult_0_l, atan_0. ring. }
    rewrite El, Eo. generalize n (uu e1) (uu e2) (uu E). intros. vring.
  Qed.
  Lemma sweep_1 : sweep 1 = FF0 n a (a + e1) (a + e2).
  Proof.
    unfold sweep, b, c. replace (a + 1 * e1)%v with (a + e1)%v by vring. replace (a + 1 * e2)%v with (a + e2)%v by vring.
    unfold FF0, Isum. rewrite !uv_uu, (ell_sym (a + e2)%v a).
    replace ((a + e1) - a)%v with e1 by vring. replace ((a + e2) - (a + e1))%v with E by (unfold E; vring).
    replace (uu (a - (a + e2))) with (- uu e2)%v.
    - generalize n (uu e1) (uu e2) (uu E). intros. vring.
    - replace (a - (a + e2))%v with (- e2)%v by vring. unfold uu. rewrite nm_opp. vring.
  Qed.

  Theorem sweep_int : is_vint (fun u => ((nm N * u) * seg3 (b u) (c u))%v) 0 1 (- FF0 n a (a + e1) (a + e2))%v.
  Proof.
    replace (- FF0 n a (a + e1) (a + e2))%v with ((- sweep 1) - (- sweep 0))%v by (rewrite sweep_0, sweep_1; vring).
    apply (vftc_open (fun u => (- sweep u)%v)).
    - lra.
    - intros u Hu. destruct (sweep_der u ltac:(lra)) as [D1 [D2 D3]].
      split3; cbn [vn vx vy vz]; (eapply is_derive_eq; [apply @is_derive_opp; eassumption|]); unfold opp; cbn; ring.
    - intros u Hu. destruct (sweep_cont u ltac:(lra)) as [D1 [D2 D3]].
      split3; cbn [vn vx vy vz]; now apply @continuous_opp.
    - intros u Hu. apply vcont_sc; [|apply seg3_cont; lra].
      apply @continuous_mult; [apply @continuous_const|apply continuous_id].
  Qed.
End Sweep.

(** ** Surface integrals over a triangle *)
(** The triangle is swept by the point p1 + u ((1-v) (p2-p1) + v (p3-p1)), u and v
    from 0 to 1, with area element |(p2-p1) x (p3-p1)| u du dv. *)
Definition tri_point (p1 p2 p3 : V) (u v : R) : V := (p1 + u * ((1 - v) * (p2 - p1) + v * (p3 - p1)))%v.
Definition surface_integral (f : V -> R) (p1 p2 p3 : V) (I : R) : Prop :=
  exists inner : R -> R,
    (forall u, 0 <= u <= 1 -> is_RInt (fun v => f (tri_point p1 p2 p3 u v)) 0 1 (inner u)) /\
    is_RInt (fun u => nm (cr (p2 - p1) (p3 - p1)) * u * inner u) 0 1 I.
Definition surface_vintegral (f : V -> V) (p1 p2 p3 : V) (I : V) : Prop :=
  surface_integral (fun x => vx (f x)) p1 p2 p3 (vx I) /\ surface_integral (fun x => vy (f x)) p1 p2 p3 (vy I) /\
  surface_integral (fun x => vz (f x)) p1 p2 p3 (vz I).

Lemma is_RInt_lin (f g : R -> R) a b x y I J : is_RInt f a b I -> is_RInt g a b J ->
  is_RInt (fun s => x * f s + y * g s) a b (x * I + y * J).
Proof.
  intros F G. apply (is_RInt_plus (fun s => x * f s) (fun s => y * g s)).
  - apply (is_RInt_scal f a b x I F).
  - apply (is_RInt_scal g a b y J G).
Qed.
Lemma surface_lin f g p1 p2 p3 x y I J :
  surface_integral f p1 p2 p3 I -> surface_integral g p1 p2 p3 J ->
  surface_integral (fun s => x * f s + y * g s) p1 p2 p3 (x * I + y * J).
Proof.
  intros [i [Hi HI]] [j [Hj HJ]]. exists (fun u => x * i u + y * j u). split.
  - intros u Hu. apply is_RInt_lin; auto.
  - eapply is_RInt_ext; [|apply (is_RInt_lin _ _ 0 1 x y _ _ HI HJ)]. intros u _. cbv beta.
    match goal with |- @eq _ ?l ?r => change (@eq R l r) end. ring.
Qed.
Lemma surface_ext f g p1 p2 p3 I : (forall x, f x = g x) -> surface_integral f p1 p2 p3 I -> surface_integral g p1 p2 p3 I.
Proof.
  intros E [i [Hi HI]]. exists i. split; [|exact HI]. intros u Hu. eapply is_RInt_ext; [|apply Hi; exact Hu].
  intros v _. apply E.
Qed.
Lemma surface_dt f p1 p2 p3 I w : surface_vintegral f p1 p2 p3 I -> surface_integral (fun x => dt w (f x)) p1 p2 p3 (dt w I).
Proof.
  intros [Hx [Hy Hz]]. unfold dt.
  pose proof (surface_lin _ _ p1 p2 p3 1 (vz w) _ _ (surface_lin _ _ p1 p2 p3 (vx w) (vy w) _ _ Hx Hy) Hz) as H.
  replace (vx w * vx I + vy w * vy I + vz w * vz I) with (1 * (vx w * vx I + vy w * vy I) + vz w * vz I) by ring.
  eapply surface_ext; [|exact H]. intros x. cbv beta. ring.
Qed.
Lemma surface_sc f p1 p2 p3 I k : surface_vintegral f p1 p2 p3 I ->
  surface_vintegral (fun x => (k * f x)%v) p1 p2 p3 (k * I)%v.
Proof.
  intros [Hx [Hy Hz]]. split3; cbn [sc vx vy vz].
  - pose proof (surface_lin _ _ p1 p2 p3 k 0 _ _ Hx Hx) as H. replace (k * vx I) with (k * vx I + 0 * vx I) by ring.
    eapply surface_ext; [|exact H]. intros x. cbv beta. ring.
  - pose proof (surface_lin _ _ p1 p2 p3 k 0 _ _ Hy Hy) as H. replace (k * vy I) with (k * vy I + 0 * vy I) by ring.
    eapply surface_ext; [|exact H]. intros x. cbv beta. ring.
  - pose proof (surface_lin _ _ p1 p2 p3 k 0 _ _ Hz Hz) as H. replace (k * vz I) with (k * vz I + 0 * vz I) by ring.
    eapply surface_ext; [|exact H]. intros x. cbv beta. ring.
Qed.
(** the area *)
Lemma surface_area p1 p2 p3 : surface_integral (fun _ => 1) p1 p2 p3 (nm (cr (p2 - p1) (p3 - p1)) / 2).
Proof.
  exists (fun _ => 1). split.
  - intros u _. pose proof (is_RInt_const (V := R_NormedModule) 0 1 1) as H. unfold scal in H; cbn in H; unfold mult in H; cbn in H.
    replace ((1 - 0) * 1) with 1 in H by ring. exact H.
  - set (A := nm (cr (p2 - p1) (p3 - p1))).
    replace (A / 2) with ((fun u => A * u * u / 2) 1 - (fun u => A * u * u / 2) 0) by (cbv beta; field).
    apply (ftc_open (fun u => A * u * u / 2)); [lra| | |].
    + intros x _. auto_derive; auto. field.
    + intros x _. unfold Rdiv. repeat apply @continuous_mult; first [apply continuous_id | apply @continuous_const].
    + intros x _. repeat apply @continuous_mult; first [apply continuous_id | apply @continuous_const].
Qed.

Theorem FF0_integral p1 p2 p3 o : ~ in_tri (p1 - o) (p2 - o) (p3 - o) -> cr (p2 - p1) (p3 - p1) <> v0 ->
  surface_vintegral (fun x => field3 (x - o)) p1 p2 p3 (- FF0 (uu (cr (p2 - p1) (p3 - p1))) (p1 - o) (p2 - o) (p3 - o))%v.
Proof.
  intros Hd HN. set (a := (p1 - o)%v). set (e1 := (p2 - p1)%v). set (e2 := (p3 - p1)%v).
  replace (p2 - o)%v with (a + e1)%v by (unfold a, e1; vring). replace (p3 - o)%v with (a + e2)%v by (unfold a, e2; vring).
  assert (Hd' : ~ in_tri a (a + e1) (a + e2)).
  { replace (a + e1)%v with (p2 - o)%v by (unfold a, e1; vring). replace (a + e2)%v with (p3 - o)%v by (unfold a, e2; vring). exact Hd. }
  destruct (sweep_int a e1 e2 HN Hd') as [I1 [I2 I3]].
  assert (J : forall u, 0 <= u <= 1 -> is_vint (fun v => field3 (tri_point p1 p2 p3 u v - o)) 0 1 (seg3 (a + u * e1) (a + u * e2))).
  { intros u Hu. destruct (sw_off3 a e1 e2 Hd' u Hu) as [_ [O _]].
    destruct (seg3_int _ _ O) as [J1 [J2 J3]].
    assert (E : forall v, ((a + u * e1) + v * ((a + u * e2) - (a + u * e1)))%v = (tri_point p1 p2 p3 u v - o)%v).
    { intros v. unfold tri_point. fold e1 e2. unfold a. vring. }
    split3; (eapply is_RInt_ext; [|eassumption]); intros v _; cbv beta; now rewrite E. }
  split3; cbn [vn vx vy vz]; eexists (fun u => _ (seg3 (a + u * e1) (a + u * e2)));
    (split; [intros u Hu; destruct (J u Hu) as [J1 [J2 J3]]; eassumption|]); fold e1 e2;
    (eapply is_RInt_ext; [|eassumption]); intros u _; cbn [sc vx vy vz]; reflexivity.
Qed.
Theorem FF_integral p1 p2 p3 o : det (p1 - o) (p2 - o) (p3 - o) <> 0 -> cr (p2 - p1) (p3 - p1) <> v0 ->
  surface_vintegral (fun x => field3 (x - o)) p1 p2 p3 (- FF (uu (cr (p2 - p1) (p3 - p1))) (p1 - o) (p2 - o) (p3 - o))%v.
Proof.
  intros Hd HN. rewrite FF_FF0 by exact Hd. apply FF0_integral; [|exact HN]. intros K. now apply Hd, in_tri_det.
Qed.

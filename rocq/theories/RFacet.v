(** * The bracket of Face.get_gravity as a function of the observer *)
From Coq Require Import Reals Lra Psatz ZArith Bool List.
Import ListNotations.
From Coquelicot Require Import Coquelicot.
From Verif Require Import Base MUtils MEdge MFace RVec RArith REdge REdgeModel RAngle ROmega RFace.
Local Open Scope R_scope.

Lemma uv_uu a b : uv a b = uu (b - a). Proof. reflexivity. Qed.
Lemma uv_shift p q o : uv (p - o) (q - o) = uv p q.
Proof. unfold uv. replace ((q - o) - (p - o))%v with (q - p)%v by vring. reflexivity. Qed.
Lemma uv_scal p q : p <> q -> (q - p)%v = (nm (q - p) * uv p q)%v.
Proof. exact (Hlu p q). Qed.

(** sum of the line integrals of a triangle *)
Definition Isum (a b c : V) : V :=
  (ell a b * uv a b + ell b c * uv b c + ell c a * uv c a)%v.
(** its rate of change when the observer moves with velocity e *)
Definition dIs (a b c e : V) : V :=
  (dt (gell a b) e * uv a b + dt (gell b c) e * uv b c + dt (gell c a) e * uv c a)%v.
Definition FF (n a b c : V) : V := (om a b c * n + cr (Isum a b c) n)%v.
(** rate of change of (n.a) F *)
Definition JJ (n a b c e : V) : V :=
  (dt n a * (dt (gom a b c) e * n + cr (dIs a b c e) n) - dt n e * FF n a b c)%v.

Arguments Isum (_ _ _)%v_scope. Arguments dIs (_ _ _ _)%v_scope.
Arguments FF (_ _ _ _)%v_scope. Arguments JJ (_ _ _ _ _)%v_scope.

(** ** Algebra *)
Lemma edge_term_gell a b : off a b -> edge_term a b = cr (gell a b) (uv a b).
Proof.
  intros H. destruct (off_nz _ _ H) as [Ha Hb].
  unfold edge_term, gell. destruct (Req_dec (nm (b - a)) 0) as [Z|Z].
  - assert (E : b = a).
    { apply nm_zero in Z. apply veq;
      [apply (f_equal vx) in Z|apply (f_equal vy) in Z|apply (f_equal vz) in Z]; cbn in Z; lra. }
    subst b. unfold uv. replace (a - a)%v with v0 by vring. vring.
  - unfold uv.
    transitivity (Kab a b * cr (/ nm a * a + / nm b * b) (b - a))%v; [|].
    + vring.
    + transitivity ((nm (b - a) * / nm (b - a)) * (Kab a b * cr (/ nm a * a + / nm b * b) (b - a)))%v;
        [rewrite Rinv_r by auto; vring|vring].
Qed.

Lemma gell_uv a b : off a b -> a <> b -> dt (gell a b) (uv a b) = / nm a - / nm b.
Proof.
  intros H Hne. destruct (off_nz _ _ H) as [Ha Hb]. pose proof (sub_pos a b Hne) as Hl.
  unfold gell, uv, Kab. dts. rewrite (dt_comm b a), <- !nm_sq. unfold off in H. field. lra.
Qed.

Definition nondeg (a b c : V) : Prop := a <> b /\ b <> c /\ c <> a.
Lemma cross_nondeg a b c : cr (b - a) (c - a) <> v0 -> nondeg a b c.
Proof.
  intros H. repeat split; intros E; apply H.
  - subst. vring.
  - subst. vring.
  - subst. vring.
Qed.

Section Facet.
  Variables (a b c n : V).
  Hypothesis Ho : off3 a b c.
  Hypothesis Hn : dt n n = 1.
  Hypothesis Hab : dt n (b - a) = 0.
  Hypothesis Hac : dt n (c - a) = 0.
  Hypothesis Hnd : nondeg a b c.

  Lemma n_uab : dt n (uv a b) = 0.
  Proof. unfold uv. rewrite dt_sc_r, Hab. ring. Qed.
  Lemma n_uca : dt n (uv c a) = 0.
  Proof. unfold uv. rewrite dt_sc_r. replace (a - c)%v with (- (c - a))%v by vring. rewrite dt_opp_r, Hac. ring. Qed.
  Lemma n_ubc : dt n (uv b c) = 0.
  Proof.
    unfold uv. rewrite dt_sc_r. replace (c - b)%v with ((c - a) - (b - a))%v by vring.
    rewrite dt_sub_r, Hac, Hab. ring.
  Qed.
  Lemma gom_gell : gom a b c =
    (- (cr (gell a b) (uv a b) + cr (gell b c) (uv b c) + cr (gell c a) (uv c a)))%v.
  Proof. destruct Ho as [H1 [H2 H3]]. unfold gom. now rewrite !edge_term_gell. Qed.

  Lemma n_Isum : dt n (Isum a b c) = 0.
  Proof. unfold Isum. dts. rewrite n_uab, n_ubc, n_uca. ring. Qed.
  Lemma n_FF : dt n (FF n a b c) = om a b c.
  Proof.
    unfold FF. dts. rewrite Hn. replace (dt n (cr (Isum a b c) n)) with 0 by vring. ring.
  Qed.

  (** antisymmetric part: the copy of the upper triangle is wrong by Isum *)
  Lemma JJ_anti e f : dt (JJ n a b c e) f - dt (JJ n a b c f) e = dt (Isum a b c) (cr f e).
  Proof.
    set (x := gell a b). set (y := gell b c). set (z := gell c a).
    set (ux := uv a b). set (uy := uv b c). set (uz := uv c a). set (I := Isum a b c).
    assert (Hx : dt n ux = 0) by apply n_uab. assert (Hy : dt n uy = 0) by apply n_ubc.
    assert (Hz : dt n uz = 0) by apply n_uca. assert (HI : dt n I = 0) by apply n_Isum.
    assert (HS : dt x ux + dt y uy + dt z uz = 0).
    { destruct Ho as [H1 [H2 H3]]. destruct Hnd as [D1 [D2 D3]].
      unfold x, y, z, ux, uy, uz. rewrite !gell_uv by auto. ring. }
    unfold JJ, FF, dIs. rewrite gom_gell. fold x y z ux uy uz I.
    set (d := dt n a). set (w := om a b c). clearbody x y z ux uy uz I d w.
    (* d-part vanishes *)
    assert (G : forall g u, dt n u = 0 ->
      (dt (- cr g u) e * dt n f + dt g e * dt (cr u n) f)
      - (dt (- cr g u) f * dt n e + dt g f * dt (cr u n) e) = dt g u * dt n (cr f e)).
    { intros g u Hu.
      transitivity (dt g u * dt n (cr f e) - dt n u * dt g (cr f e)); [vring|rewrite Hu; ring]. }
    assert (G2 : dt (cr I n) e * dt n f - dt (cr I n) f * dt n e = dt I (cr f e)).
    { transitivity (dt I (cr f e) * dt n n - dt n I * dt n (cr f e)).
      - clear. unfold dt, cr; cbn [vx vy vz]. ring.
      - rewrite Hn, HI. ring. }
    transitivity (d * (((dt (- cr x ux) e * dt n f + dt x e * dt (cr ux n) f)
      - (dt (- cr x ux) f * dt n e + dt x f * dt (cr ux n) e)) +
      ((dt (- cr y uy) e * dt n f + dt y e * dt (cr uy n) f)
      - (dt (- cr y uy) f * dt n e + dt y f * dt (cr uy n) e)) +
      ((dt (- cr z uz) e * dt n f + dt z e * dt (cr uz n) f)
      - (dt (- cr z uz) f * dt n e + dt z f * dt (cr uz n) e)))
      - (dt (cr I n) f * dt n e - dt (cr I n) e * dt n f)).
    { vring. }
    rewrite !G by auto.
    replace (dt (cr I n) f * dt n e - dt (cr I n) e * dt n f) with (- (dt (cr I n) e * dt n f - dt (cr I n) f * dt n e)) by ring.
    rewrite G2.
    transitivity (d * dt n (cr f e) * (dt x ux + dt y uy + dt z uz) + dt I (cr f e)); [ring|].
    rewrite HS. ring.
  Qed.

  (** trace *)
  Definition trace3 (J : V -> V) : R :=
    vx (J (V3 1 0 0)) + vy (J (V3 0 1 0)) + vz (J (V3 0 0 1)).
  Lemma JJ_trace : trace3 (JJ n a b c) = - om a b c.
  Proof.
    rewrite <- n_FF at 1.
    unfold trace3, JJ, dIs. rewrite gom_gell. set (F := FF n a b c).
    set (x := gell a b). set (y := gell b c). set (z := gell c a).
    set (ux := uv a b). set (uy := uv b c). set (uz := uv c a).
    unfold dt, cr, va, vm, vn, sc; cbn [vx vy vz]. ring.
  Qed.

  (** ** The observer moves *)
  Variables (e : V).
  Let pa (t : R) : V := (a - t * e)%v.
  Let pb (t : R) : V := (b - t * e)%v.
  Let pc (t : R) : V := (c - t * e)%v.

  Lemma path_der v : vder (fun t : R => (v - t * e)%v) 0 (- e)%v.
  Proof.
    eapply vder_eq; [apply vder_sub; [apply vder_const|]|].
    - apply (vder_sc (fun t => t) (fun _ => e)); [apply @is_derive_id|apply vder_const].
    - unfold one; cbn. vring.
  Qed.
  Lemma path0 v : (v - 0 * e)%v = v. Proof. vring. Qed.

  Lemma ell_path v w : off v w -> v <> w ->
    is_derive (fun t : R => ell (v - t * e) (w - t * e)) 0 (dt (gell v w) e).
  Proof.
    intros H Hne.
    pose proof (ell_der (fun t => (v - t * e)%v) (fun t => (w - t * e)%v) 0 _ _ (path_der v) (path_der w)) as D.
    cbn beta in D. rewrite !path0 in D. specialize (D H Hne).
    eapply is_derive_eq; [exact D|]. destruct (off_nz _ _ H) as [Hv Hw]. pose proof (sub_pos v w Hne) as Hl.
    unfold gell. dts. req. field. lra.
  Qed.
  Lemma uv_path v w t : uv (v - t * e) (w - t * e) = uv v w.
  Proof. unfold uv. replace ((w - t * e) - (v - t * e))%v with (w - v)%v by vring. reflexivity. Qed.

  Lemma Isum_path : vder (fun t : R => Isum (pa t) (pb t) (pc t)) 0 (dIs a b c e).
  Proof.
    destruct Ho as [H1 [H2 H3]]. destruct Hnd as [D1 [D2 D3]].
    eapply vder_eq.
    - unfold Isum. apply vder_add; [apply vder_add|].
      + apply (vder_sc (fun t => ell (pa t) (pb t)) (fun t => uv (pa t) (pb t))); [apply ell_path; auto|].
        unfold pa, pb. eapply vder_eq; [|reflexivity].
        instantiate (1 := v0). split3; (eapply is_derive_ext; [intros t; rewrite uv_path; reflexivity|apply @is_derive_const]).
      + apply (vder_sc (fun t => ell (pb t) (pc t)) (fun t => uv (pb t) (pc t))); [apply ell_path; auto|].
        unfold pb, pc. eapply vder_eq; [|reflexivity].
        instantiate (1 := v0). split3; (eapply is_derive_ext; [intros t; rewrite uv_path; reflexivity|apply @is_derive_const]).
      + apply (vder_sc (fun t => ell (pc t) (pa t)) (fun t => uv (pc t) (pa t))); [apply ell_path; auto|].
        unfold pc, pa. eapply vder_eq; [|reflexivity].
        instantiate (1 := v0). split3; (eapply is_derive_ext; [intros t; rewrite uv_path; reflexivity|apply @is_derive_const]).
    - cbn beta. unfold pa, pb, pc. rewrite !uv_path. unfold dIs. vring.
  Qed.

  Lemma om_path : det a b c <> 0 -> is_derive (fun t : R => om (pa t) (pb t) (pc t)) 0 (dt (gom a b c) e).
  Proof.
    intros Hd. pose proof (om_der pa (b - a)%v (c - a)%v 0 _ (path_der a)) as D.
    unfold pa in D. cbn beta in D. rewrite path0 in D.
    replace (a + (b - a))%v with b in D by vring. replace (a + (c - a))%v with c in D by vring.
    specialize (D Ho Hd).
    eapply is_derive_ext; [|eapply is_derive_eq; [exact D|]].
    - intros t. cbn beta. unfold pa, pb, pc. f_equal; vring.
    - rewrite dt_opp_r. req. ring.
  Qed.

  Lemma bracket_path : det a b c <> 0 ->
    vder (fun t : R => (dt n (pa t) * FF n (pa t) (pb t) (pc t))%v) 0 (JJ n a b c e).
  Proof.
    intros Hd. eapply vder_eq.
    - apply (vder_sc (fun t => dt n (pa t)) (fun t => FF n (pa t) (pb t) (pc t))).
      + apply dt_der; [apply vder_const|apply path_der].
      + unfold FF. apply vder_add.
        * apply (vder_sc (fun t => om (pa t) (pb t) (pc t)) (fun _ => n)); [apply om_path; auto|apply vder_const].
        * apply cr_der; [apply Isum_path|apply vder_const].
    - cbn beta. unfold pa, pb, pc. rewrite !path0. unfold JJ, FF. rewrite dt_opp_r, dt_0_l. vring.
  Qed.
End Facet.

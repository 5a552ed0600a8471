(** * The tensor returned is the Jacobian of the gravity returned *)
From Coq Require Import Reals Lra Psatz ZArith Bool List Permutation Arith Lia.
Import ListNotations.
From Coquelicot Require Import Coquelicot.
From Verif Require Import Base MUtils MEdge MFace MHull MPoly SpecPoly PPoly PStation PPlain.
From Verif Require Import RVec RArith REdge REdgeModel RAngle ROmega RFace RFacet RPoly RTwin.
Local Open Scope R_scope.

(** ** Regularity is an open condition *)
Lemma loc_lt (h : R -> R) c : continuous h 0 -> c < h 0 -> locally 0 (fun t => c < h t).
Proof.
  intros Hc H. assert (Hl : locally (h 0) (fun y => c < y)) by (apply (open_gt c); exact H).
  exact (Hc _ Hl).
Qed.
Lemma loc_list {X} (P : X -> R -> Prop) (l : list X) :
  (forall x, In x l -> locally 0 (P x)) -> locally 0 (fun t => forall x, In x l -> P x t).
Proof.
  induction l as [|x l IH]; intros H.
  - apply filter_forall. intros t y [].
  - assert (H1 : locally 0 (P x)) by (apply H; left; auto).
    assert (H2 : locally 0 (fun t => forall y, In y l -> P y t)) by (apply IH; intros; apply H; right; auto).
    eapply filter_imp; [|exact (filter_and _ _ H1 H2)]. intros t [K1 K2] y [<-|Hy]; auto.
Qed.
Lemma sub_path p o e t : (p - (o + t * e) = (p - o) - t * e)%v. Proof. vring. Qed.

Lemma cont_nm p o e : 0 < nm (p - o) -> continuous (fun t : R => nm (p - (o + t * e))) 0.
Proof.
  intros H. apply @ex_derive_continuous. eexists.
  eapply is_derive_ext; [intros t; rewrite sub_path; reflexivity|].
  apply (nm_der (fun t => ((p - o) - t * e)%v)); [apply path_der|]. rewrite path0. exact H.
Qed.
Lemma cont_dt u p o e : continuous (fun t : R => dt u (p - (o + t * e))) 0.
Proof.
  apply @ex_derive_continuous. eexists.
  eapply is_derive_ext; [intros t; rewrite sub_path; reflexivity|].
  apply (dt_der (fun _ => u) (fun t => ((p - o) - t * e)%v)); [apply vder_const|apply path_der].
Qed.
Lemma obs0 o e : (o + 0 * e = o)%v. Proof. vring. Qed.

Lemma reg_edge_pos p q o : p <> q -> reg_edge p q o -> 0 < nm (p - o) /\ 0 < nm (q - o).
Proof.
  intros Hne [H1 H2]. pose proof eps_pos.
  pose proof (cs_upper (uv p q) (p - o)%v) as C1. pose proof (cs_upper (- uv p q)%v (q - o)%v) as C2.
  rewrite nm_opp, dt_opp_l in C2. rewrite uv_unit in C1, C2 by auto. split; lra.
Qed.

Lemma reg_edge_open p q o e : p <> q -> reg_edge p q o -> locally 0 (fun t => reg_edge p q (o + t * e)%v).
Proof.
  intros Hne HR. destruct (reg_edge_pos p q o Hne HR) as [Pp Pq]. destruct HR as [H1 H2].
  apply filter_and.
  - apply (loc_lt (fun t => nm (p - (o + t * e)) + dt (uv p q) (p - (o + t * e)))).
    + apply @continuous_plus; [apply cont_nm; auto|apply cont_dt].
    + rewrite obs0. auto.
  - apply (loc_lt (fun t => nm (q - (o + t * e)) - dt (uv p q) (q - (o + t * e)))).
    + apply @continuous_minus; [apply cont_nm; auto|apply cont_dt].
    + rewrite obs0. auto.
Qed.
Lemma regular_open p o e : closed p -> regular p o -> locally 0 (fun t => regular p (o + t * e)%v).
Proof.
  intros Hc HR. apply (loc_list (fun f t => reg_tri (vtx 0 f) (vtx 1 f) (vtx 2 f) (o + t * e)%v)).
  intros f Hf. destruct (HR f Hf) as [H0 [H1 [H2 H3]]].
  destruct Hc as [Hc _]. destruct (Hc f Hf) as [p1 [p2 [p3 HF]]].
  destruct (facet_vtx _ _ _ _ HF) as [E1 [E2 E3]]. rewrite E1, E2, E3 in *.
  destruct (facet_nondeg _ _ _ _ HF) as [N1 [N2 N3]].
  apply filter_and; [|apply filter_and; [|apply filter_and]]; try (apply reg_edge_open; auto).
  apply (loc_lt (fun t => Rabs (dt (tri_normal p1 p2 p3) (p1 - (o + t * e))))).
  - apply continuous_comp; [apply cont_dt|apply continuous_Rabs].
  - rewrite obs0. auto.
Qed.

(** ** Derivative of the total *)
Lemma vder_vsum {X} (H : X -> R -> V) (D : X -> V) l t :
  (forall x, In x l -> vder (H x) t (D x)) -> vder (fun s => vsum (fun x => H x s) l) t (vsum D l).
Proof.
  induction l as [|x l IH]; intros K.
  - exact (vder_const v0 t).
  - apply (vder_add (H x) (fun s => vsum (fun y => H y s) l)); [apply K; left; auto|].
    apply IH. intros y Hy. apply K. right. auto.
Qed.

Lemma un_unit f p1 p2 p3 : facet f p1 p2 p3 -> dt (f_un f) (f_un f) = 1.
Proof.
  intros [[_ [_ [Hn ->]]] _]. rewrite <- nm_sq. unfold tri_normal. rewrite uu_nm by auto. ring.
Qed.
Lemma un_perp f p1 p2 p3 o : facet f p1 p2 p3 ->
  dt (f_un f) ((p2 - o) - (p1 - o)) = 0 /\ dt (f_un f) ((p3 - o) - (p1 - o)) = 0.
Proof.
  intros [[_ [_ [Hn ->]]] _]. destruct (tri_dots p1 p2 p3 o) as [T2 T3].
  rewrite !dt_sub_r. rewrite !dt_sub_r in T2, T3. split; lra.
Qed.
Lemma nondeg_shift p1 p2 p3 o : nondeg p1 p2 p3 -> nondeg (p1 - o)%v (p2 - o)%v (p3 - o)%v.
Proof.
  intros [H1 [H2 H3]].
  assert (G : forall p q : V, (p - o = q - o)%v -> p = q).
  { intros p q E. apply veq; [apply (f_equal vx) in E|apply (f_equal vy) in E|apply (f_equal vz) in E]; cbn in E; lra. }
  repeat split; intros E; apply G in E; auto.
Qed.

Lemma dt_lin w e : dt w e = vx e * dt w ex + vy e * dt w ey + vz e * dt w ez.
Proof. unfold dt, ex, ey, ez; cbn [vx vy vz]. ring. Qed.
Lemma JJ_lin n a b c e : JJ n a b c e = (vx e * JJ n a b c ex + vy e * JJ n a b c ey + vz e * JJ n a b c ez)%v.
Proof.
  unfold JJ, dIs. rewrite (dt_lin _ e), (dt_lin (gell a b) e), (dt_lin (gell b c) e), (dt_lin (gell c a) e), (dt_lin n e).
  generalize (dt (gom a b c) ex) (dt (gom a b c) ey) (dt (gom a b c) ez)
    (dt (gell a b) ex) (dt (gell a b) ey) (dt (gell a b) ez) (dt (gell b c) ex) (dt (gell b c) ey) (dt (gell b c) ez)
    (dt (gell c a) ex) (dt (gell c a) ey) (dt (gell c a) ez) (dt n ex) (dt n ey) (dt n ez) (dt n a)
    (uv a b) (uv b c) (uv c a) (FF n a b c). vring.
Qed.

(** the observer is off the edges of all facets *)
Definition offs (p : polyhedron RA) (o : V) : Prop :=
  forall f, In f (pl_faces p) -> off3 (vtx 0 f - o) (vtx 1 f - o) (vtx 2 f - o).
Lemma regular_offs p o : closed p -> regular p o -> offs p o.
Proof.
  intros Hc Hr f Hf. destruct (proj1 Hc f Hf) as [p1 [p2 [p3 HF]]].
  destruct (facet_vtx _ _ _ _ HF) as [-> [-> ->]]. exact (proj2 (off3_reg p o Hr f p1 p2 p3 HF Hf)).
Qed.

Section Off.
  Variables (p : polyhedron RA) (o : V) (density Gc : R).
  Hypothesis Hcl : closed p.
  Hypothesis Hof : offs p o.
  Lemma offs_facet f p1 p2 p3 : facet f p1 p2 p3 -> In f (pl_faces p) -> off3 (p1 - o) (p2 - o) (p3 - o).
  Proof. intros HF Hf. pose proof (Hof f Hf) as H. destruct (facet_vtx _ _ _ _ HF) as [E1 [E2 E3]]. now rewrite E1, E2, E3 in H. Qed.

  Definition Jtot (e : V) : V := vsum (fun f => jF density Gc o f e) (pl_faces p).

  Lemma dt_vsum {X} (h : X -> V) l w : dt (vsum h l) w = rsum (fun x => dt (h x) w) l.
  Proof. induction l as [|x l IH]; simpl; [apply dt_0_l|]. rewrite dt_add_l. now rewrite <- IH. Qed.

  Lemma Isum_zero w :
    rsum (fun f => dt (Isum (vtx 0 f - o) (vtx 1 f - o) (vtx 2 f - o)) w) (pl_faces p) = 0.
  Proof.
    rewrite <- (antisym_sum p (fun q r => dt (ell (q - o) (r - o) * uv q r) w) Hcl).
    - apply rsum_ext. intros f _. unfold Isum. rewrite !uv_shift. dts. reflexivity.
    - intros q r. rewrite (uv_sym q r), (ell_sym (r - o)%v). dts. ring.
  Qed.

  (** symmetry of the summed Jacobian *)
  Lemma Jtot_sym_off e f : dt (Jtot e) f = dt (Jtot f) e.
  Proof.
    unfold Jtot. rewrite !dt_vsum.
    assert (E : rsum (fun x => dt (jF density Gc o x e) f + -1 * dt (jF density Gc o x f) e) (pl_faces p) = 0).
    { transitivity (kG density Gc * 10000 * rsum (fun x => dt (Isum (vtx 0 x - o) (vtx 1 x - o) (vtx 2 x - o)) (cr f e)) (pl_faces p)).
      - rewrite <- rsum_scal. apply rsum_ext. intros x Hx.
        pose proof Hcl as [Hc _]. destruct (Hc x Hx) as [p1 [p2 [p3 HF]]].
        pose proof (offs_facet x p1 p2 p3 HF Hx) as Ho.
        destruct (un_perp x p1 p2 p3 o HF) as [Hab Hac].
        pose proof (nondeg_shift _ _ _ o (facet_nondeg _ _ _ _ HF)) as Hnd.
        pose proof (JJ_anti _ _ _ _ Ho (un_unit _ _ _ _ HF) Hab Hac Hnd e f) as HA.
        destruct (facet_vtx _ _ _ _ HF) as [E1 [E2 E3]]. unfold jF. rewrite E1, E2, E3. dts. rewrite <- HA. ring.
      - rewrite Isum_zero. ring. }
    rewrite rsum_plus, rsum_scal in E. lra.
  Qed.

  Lemma Jtot_lin e : Jtot e = (vx e * Jtot ex + vy e * Jtot ey + vz e * Jtot ez)%v.
  Proof.
    unfold Jtot. induction (pl_faces p) as [|f l IH]; cbn [vsum fold_right]; [vring|].
    fold (vsum (fun f => jF density Gc o f e) l) (vsum (fun f => jF density Gc o f ex) l)
         (vsum (fun f => jF density Gc o f ey) l) (vsum (fun f => jF density Gc o f ez) l).
    rewrite IH. unfold jF. rewrite (JJ_lin _ _ _ _ e).
    generalize (JJ (f_un f) (vtx 0 f - o) (vtx 1 f - o) (vtx 2 f - o)). intros J. vring.
  Qed.

  Lemma msum_up : msum (tF density Gc o) (pl_faces p) = up Jtot.
  Proof.
    unfold Jtot. induction (pl_faces p) as [|f l IH]; cbn [vsum msum fold_right]; [reflexivity|].
    fold (msum (tF density Gc o) l). rewrite IH. unfold tF, up, mplus, va; cbn [vx vy vz]. reflexivity.
  Qed.

  (** row i of the returned tensor, applied to a direction *)
  Definition mapp (T : vec3 V) (e : V) : V := V3 (dt (vx T) e) (dt (vy T) e) (dt (vz T) e).
  Lemma up_full_off : up Jtot = full Jtot.
  Proof.
    assert (E1 : vy (Jtot ex) = vx (Jtot ey)).
    { pose proof (Jtot_sym_off ex ey) as H. unfold dt, ex, ey in H; cbn [vx vy vz] in H. unfold ex, ey. lra. }
    assert (E2 : vz (Jtot ex) = vx (Jtot ez)).
    { pose proof (Jtot_sym_off ex ez) as H. unfold dt, ex, ez in H; cbn [vx vy vz] in H. unfold ex, ez. lra. }
    assert (E3 : vz (Jtot ey) = vy (Jtot ez)).
    { pose proof (Jtot_sym_off ey ez) as H. unfold dt, ey, ez in H; cbn [vx vy vz] in H. unfold ey, ez. lra. }
    unfold up, full. now rewrite E1, E2, E3.
  Qed.
  Lemma tensor_app_off e : mapp (msum (tF density Gc o) (pl_faces p)) e = Jtot e.
  Proof.
    rewrite msum_up, up_full_off, (Jtot_lin e). unfold mapp, full. unfold dt, va, sc; cbn [vx vy vz].
    f_equal; ring.
  Qed.

  (** trace *)
  Definition mtrace (T : vec3 V) : R := vx (vx T) + vy (vy T) + vz (vz T).
  Lemma tensor_trace_off :
    mtrace (msum (tF density Gc o) (pl_faces p)) =
    density * Gc * 1000000000 * rsum (fun f => om (vtx 0 f - o) (vtx 1 f - o) (vtx 2 f - o)) (pl_faces p).
  Proof.
    rewrite <- rsum_scal.
    transitivity (rsum (fun f => mtrace (tF density Gc o f)) (pl_faces p)).
    - clear. induction (pl_faces p) as [|f l IH]; cbn [msum rsum fold_right]; [unfold mtrace; cbn; ring|].
      fold (msum (tF density Gc o) l). fold (rsum (fun f => mtrace (tF density Gc o f)) l). rewrite <- IH.
      unfold mtrace, mplus, va; cbn [vx vy vz]. ring.
    - apply rsum_ext. intros f Hf.
      pose proof Hcl as [Hc _]. destruct (Hc f Hf) as [p1 [p2 [p3 HF]]].
      pose proof (offs_facet f p1 p2 p3 HF Hf) as Ho.
      destruct (un_perp f p1 p2 p3 o HF) as [Hab Hac].
      pose proof (JJ_trace _ _ _ (f_un f) Ho (un_unit _ _ _ _ HF)) as HT.
      destruct (facet_vtx _ _ _ _ HF) as [E1 [E2 E3]].
      unfold mtrace, tF, up; cbn [vx vy vz]. unfold jF. rewrite E1, E2, E3. unfold kG.
      replace (om (p1 - o) (p2 - o) (p3 - o)) with (- trace3 (JJ (f_un f) (p1 - o)%v (p2 - o)%v (p3 - o)%v)) by lra.
      unfold trace3, ex, ey, ez. unfold sc; cbn [vx vy vz]. ring.
  Qed.
End Off.

Section Jac.
  Variables (p : polyhedron RA) (o : V) (density Gc : R).
  Hypothesis Hcl : closed p.
  Hypothesis Hreg : regular p o.

  Lemma gF_der f e : In f (pl_faces p) ->
    vder (fun t : R => gF density Gc (o + t * e)%v f) 0 (/ 10000 * jF density Gc o f e)%v.
  Proof.
    intros Hf. pose proof Hcl as [Hc _]. destruct (Hc f Hf) as [p1 [p2 [p3 HF]]].
    destruct (off3_reg p o Hreg f p1 p2 p3 HF Hf) as [Hd Ho].
    destruct (facet_vtx _ _ _ _ HF) as [E1 [E2 E3]].
    pose proof (nondeg_shift _ _ _ o (facet_nondeg _ _ _ _ HF)) as Hnd.
    pose proof (bracket_path _ _ _ (f_un f) Ho Hnd e Hd) as HB.
    eapply vder_eq.
    - unfold gF. rewrite E1, E2, E3. 
      apply (vder_sc (fun _ => kG density Gc) (fun t : R => (dt (f_un f) (p1 - (o + t * e)) *
         FF (f_un f) (p1 - (o + t * e)) (p2 - (o + t * e)) (p3 - (o + t * e)))%v)); [apply @is_derive_const|].
      destruct HB as [B1 [B2 B3]].
      split3; (eapply is_derive_ext; [intros t; rewrite !sub_path; reflexivity|]); eassumption.
    - unfold jF. rewrite E1, E2, E3. unfold zero; cbn [AbelianGroup.zero]. cbn. 
      unfold sc, va; cbn [vx vy vz]. apply veq; cbn [vx vy vz]; field.
  Qed.

  Lemma Jtot_der e :
    vder (fun t : R => vsum (gF density Gc (o + t * e)%v) (pl_faces p)) 0 (/ 10000 * Jtot p o density Gc e)%v.
  Proof.
    eapply vder_eq; [apply (vder_vsum (fun f t => gF density Gc (o + t * e)%v f)); intros f Hf; apply gF_der; exact Hf|].
    unfold Jtot. induction (pl_faces p) as [|f l IH]; cbn [vsum fold_right]; [vring|].
    fold (vsum (fun f => jF density Gc o f e) l). fold (vsum (fun f => (/ 10000 * jF density Gc o f e)%v) l).
    rewrite <- IH. vring.
  Qed.

  Lemma tensor_app e : mapp (msum (tF density Gc o) (pl_faces p)) e = Jtot p o density Gc e.
  Proof. apply tensor_app_off; [exact Hcl|now apply regular_offs]. Qed.
  Lemma tensor_trace :
    mtrace (msum (tF density Gc o) (pl_faces p)) =
    density * Gc * 1000000000 * rsum (fun f => om (vtx 0 f - o) (vtx 1 f - o) (vtx 2 f - o)) (pl_faces p).
  Proof. apply tensor_trace_off; [exact Hcl|now apply regular_offs]. Qed.
End Jac.

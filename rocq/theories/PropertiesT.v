(** * Properties C07, C28, C29, C31-C34, C38: special observers, defects of the
      edge integral, algebra of the vector product, longitudes *)
From Coq Require Import Reals Lra Psatz ZArith Bool List Permutation Arith Lia.
Import ListNotations.
From Coquelicot Require Import Coquelicot.
From Verif Require Import Base MUtils MEdge MFace MHull MPoly MConfig MCrs MDataset SpecPoly PPoly PStation PPlain PUtils PCrs.
From Verif Require Import RVec RArith REdge REdgeModel RAngle ROmega RFace RFacet RPoly RTwin RField
  RHull RHullZ ExamplesR RLinear RMove RMoved RGlue RLaws RPlaced RPlacedZ RWell PropertiesR PropertiesS.
Local Open Scope R_scope.
Local Open Scope list_scope.

Lemma tri_eq (a b c a' b' c' : V) : (a, b, c) = (a', b', c') -> a = a' /\ b = b' /\ c = c'.
Proof. intros H. injection H. auto. Qed.

(** ** C07: the copied lower triangle *)
(** outcome of Face.get_gravity on the face number fi of p *)
Definition facet_gravity (p : polyhedron RA) (o : V) (density Gc : R) (gradient : bool) (fi : nat) (f : face RA)
  (s : pstate RA) : res (V * vec3 V) :=
  fst (face_get_gravity (A := RA) (pl_twin p) o density Gc gradient fi f s).
(** J is 10^4 times the derivative, at the observer o, of the gravity that the
    face number fi returns *)
Definition facet_jacobian (p : polyhedron RA) (o : V) (density Gc : R) (fi : nat) (f : face RA) (J : V -> V) : Prop :=
  forall e : V, exists delta Gt, 0 < delta /\
    (forall t gradient s', Rabs t < delta -> reachable p s' ->
       exists T', facet_gravity p (o + t * e)%v density Gc gradient fi f s' = Ok (Gt t, T')) /\
    vder Gt 0 (/ 10000 * J e)%v.

Lemma facet_jac p o d G fi f : closed p -> regular p o -> nth_error (pl_faces p) fi = Some f ->
  facet_jacobian p o d G fi f (jF d G o f).
Proof.
  intros Hc Hr Hf e. destruct (regular_open p o e Hc Hr) as [delta Hd].
  exists delta, (fun t => gF d G (o + t * e)%v f). split; [apply cond_pos|]. split.
  - intros t g s' Ht Hs'. eexists.
    refine (face_value p (o + t * e)%v g d G fi f s' Hc _ (reachable_clean _ _ Hs') Hf). apply Hd.
    unfold ball; cbn. unfold AbsRing_ball, abs, minus, plus, opp; cbn. now rewrite Ropp_0, Rplus_0_r.
  - exact (gF_der p o d G Hc Hr f e (nth_error_In _ _ Hf)).
Qed.

Lemma facet_steady p o d G fi f : closed p -> steady p o -> nth_error (pl_faces p) fi = Some f ->
  facet_jacobian p o d G fi f (jF d G o f).
Proof.
  intros Hc Hr Hf e. destruct (edges_open p o e Hc (steady_edges p o Hr)) as [delta Hd].
  exists delta, (fun t => gC d G (o + t * e)%v f). split; [apply cond_pos|]. split.
  - intros t g s' Ht Hs'. eexists.
    refine (face_clear p (o + t * e)%v g d G fi f s' Hc _ (reachable_clean _ _ Hs') Hf). apply reg_edges_clear; [exact Hc|]. apply Hd.
    unfold ball; cbn. unfold AbsRing_ball, abs, minus, plus, opp; cbn. now rewrite Ropp_0, Rplus_0_r.
  - exact (gC_der p o d G Hc Hr f e (nth_error_In _ _ Hf)).
Qed.

(** Each face returns the upper triangle of its Jacobian, copied below the
    diagonal; its Jacobian is symmetric up to the sum B of its edge integrals;
    in the total the copy is exact. *)
Theorem C07_copied_triangle :
  forall p o density Gc s, closed p -> steady p o -> reachable p s ->
  exists (J : face RA -> V -> V) G T,
    (forall fi f, nth_error (pl_faces p) fi = Some f ->
       facet_jacobian p o density Gc fi f (J f) /\
       (exists Gf, facet_gravity p o density Gc true fi f s = Ok (Gf,
          V3 (V3 (vx (J f ex)) (vx (J f ey)) (vx (J f ez)))
             (V3 (vx (J f ey)) (vy (J f ey)) (vy (J f ez)))
             (V3 (vx (J f ez)) (vy (J f ez)) (vz (J f ez))))) /\
       exists B, (exists e1 e2 e3 b1 b2 b3 m1 m2 m3, f_edges f = [e1; e2; e3] /\
           edge_integral (A := RA) e1 o true = Ok (b1, m1) /\ edge_integral (A := RA) e2 o true = Ok (b2, m2) /\
           edge_integral (A := RA) e3 o true = Ok (b3, m3) /\ B = (b1 + b2 + b3)%v) /\
         forall e e', dt (J f e) e' - dt (J f e') e = - density * Gc * 1000000000 * dt B (cr e' e)) /\
    gravity p o density Gc true s = Ok (G, T) /\
    forall e, mdot T e = vsum (fun f => J f e) (pl_faces p).
Proof.
  intros p o d G s Hc Hr Hs. exists (jF d G o). eexists _, _.
  split; [|split; [rewrite (gravity_spec p o d G true s Hs); exact (well_value p o true d G Hc (steady_well p o true Hc Hr))|exact (tensor_app_off p o d G Hc (steady_offs p o Hc Hr))]].
  intros fi f Hf. pose proof (nth_error_In _ _ Hf) as Hin.
  split; [exact (facet_steady p o d G fi f Hc Hr Hf)|].
  split.
  { exists (gC d G o f). unfold facet_gravity. etransitivity; [exact (face_clear p o true d G fi f s Hc (proj1 (steady_well p o true Hc Hr)) (reachable_clean _ _ Hs) Hf)|].
    destruct (exact_facet p o f d G Hc Hin (proj2 (Hr f Hin))) as [_ EJ]. unfold tC, up. rewrite !EJ. reflexivity. }
  destruct (proj1 Hc f Hin) as (p1 & p2 & p3 & HF).
  exists (Isum (p1 - o) (p2 - o) (p3 - o)). split.
  - pose proof (facet_nondeg _ _ _ _ HF) as (N1 & N2 & N3). destruct (facet_vtx _ _ _ _ HF) as (E1 & E2 & E3).
    destruct (Hr f Hin) as ((R1 & R2 & R3) & _). rewrite E1, E2, E3 in *.
    destruct HF as (_ & s1 & s2 & s3 & t1 & t2 & t3 & HE).
    eexists _, _, _, _, _, _, _, _, _. split; [exact HE|].
    split; [exact (edge_main p1 p2 o s1 t1 true N1 (proj1 R1))|].
    split; [exact (edge_main p2 p3 o s2 t2 true N2 (proj1 R2))|].
    split; [exact (edge_main p3 p1 o s3 t3 true N3 (proj1 R3))|].
    unfold Isum. now rewrite !uv_shift.
  - intros e e'. pose proof (offs_facet p o (steady_offs p o Hc Hr) f p1 p2 p3 HF Hin) as Ho.
    destruct (un_perp f p1 p2 p3 o HF) as [P1 P2]. destruct (facet_vtx _ _ _ _ HF) as [E1 [E2 E3]].
    pose proof (JJ_anti _ _ _ _ Ho (un_unit _ _ _ _ HF) P1 P2 (nondeg_shift _ _ _ o (facet_nondeg _ _ _ _ HF)) e e') as K.
    unfold jF. rewrite E1, E2, E3, !dt_sc_l, <- K. unfold kG. ring.
Qed.
Print Assumptions C07_copied_triangle.
(** a tetrahedron and an observer below one of its vertices *)
Definition copyZ : zhull :=
  {| z_points := [zv 0 0 0; zv 12 0 0; zv 0 12 0; zv 3 3 12];
     z_simplices := [[0; 1; 2]; [0; 1; 3]; [0; 2; 3]; [1; 2; 3]];
     z_neighbors := [[3; 2; 1]; [3; 2; 0]; [3; 1; 0]; [2; 1; 0]];
     z_vertices := [0; 1; 2; 3] |}%nat.
Example C07_case : closed (body copyZ) /\ regular (body copyZ) (rv (zv 0 0 (-5))) /\ closed cube /\ steady cube (rv o_out) /\ steady cube (rv o_plane).
Proof.
  split; [apply body_ok; vm_compute; reflexivity|]. split; [apply body_regular; vm_compute; reflexivity|].
  split; [apply cube_closed|]. split; [apply regular_steady; [apply cube_closed|apply cube_out]|apply cube_plane].
Qed.
(** for one face the copy is not the derivative: T[z][y] <> 10^4 dG_z/dy *)
Theorem C07_facet_copy_refuted :
  exists p o fi f G T J, closed p /\ regular p o /\ nth_error (pl_faces p) fi = Some f /\
  facet_gravity p o 1 1 true fi f pstate0 = Ok (G, T) /\ facet_jacobian p o 1 1 fi f J /\
  vy (vz T) <> vz (J ey).
Proof.
  destruct C07_case as (Hc & Hr & _). set (p := body copyZ) in *. set (o := rv (zv 0 0 (-5))) in *.
  destruct (pl_faces p) as [|f l] eqn:E.
  { assert (L : length (pl_faces p) = 4%nat) by (apply (body_ok copyZ); vm_compute; reflexivity). rewrite E in L. discriminate. }
  assert (Hf : nth_error (pl_faces p) 0 = Some f) by (rewrite E; reflexivity).
  pose proof (nth_error_In _ _ Hf) as Hin.
  exists p, o, 0%nat, f. eexists _, _, (jF 1 1 o f). split; [exact Hc|]. split; [exact Hr|]. split; [exact Hf|].
  split; [exact (face_value p o true 1 1 0%nat f pstate0 Hc Hr clean_pstate0 Hf)|].
  split; [exact (facet_jac p o 1 1 0%nat f Hc Hr Hf)|].
  unfold tF, up. cbn [vx vy vz]. intros Z.
  destruct (proj1 Hc f Hin) as (p1 & p2 & p3 & HF).
  destruct (off3_reg p o Hr f p1 p2 p3 HF Hin) as [Hd Ho].
  destruct (un_perp f p1 p2 p3 o HF) as [P1 P2]. destruct (facet_vtx _ _ _ _ HF) as [E1 [E2 E3]].
  pose proof (JJ_anti _ _ _ _ Ho (un_unit _ _ _ _ HF) P1 P2 (nondeg_shift _ _ _ o (facet_nondeg _ _ _ _ HF)) ez ey) as K.
  assert (K0 : dt (Isum (p1 - o) (p2 - o) (p3 - o)) (cr ey ez) = 0).
  { rewrite <- K. revert Z. unfold jF. rewrite E1, E2, E3.
    generalize (JJ (f_un f) (p1 - o) (p2 - o) (p3 - o) ez) (JJ (f_un f) (p1 - o) (p2 - o) (p3 - o) ey).
    intros [x1 x2 x3] [y1 y2 y3]. unfold kG, sc, dt, ey, ez; cbn [vx vy vz]. lra. }
  assert (HT : Forall2 cyc (tris p) (map (ptri (rh copyZ)) [(0, 2, 1); (0, 1, 3); (0, 3, 2); (1, 2, 3)]%nat))
    by (apply body_tris; vm_compute; reflexivity).
  unfold tris in HT. rewrite E in HT. cbn [map] in HT.
  assert (C : cyc (tri_of f) (ptri (rh copyZ) (0, 2, 1)%nat)) by (inversion HT; assumption).
  assert (K1 : Isum (p1 - o) (p2 - o) (p3 - o) = Isum (V3 0 0 5) (V3 0 12 5) (V3 12 0 5)).
  { apply cyc_sym in C. unfold tri_of, cyc, trot, ptri in C. rewrite E1, E2, E3 in C.
    assert (A1 : pt (rh copyZ) 0 = (V3 0 0 5 + o)%v) by (cbn; unfold rv, o, zv, va; cbn; f_equal; ring).
    assert (A2 : pt (rh copyZ) 2 = (V3 0 12 5 + o)%v) by (cbn; unfold rv, o, zv, va; cbn; f_equal; ring).
    assert (A3 : pt (rh copyZ) 1 = (V3 12 0 5 + o)%v) by (cbn; unfold rv, o, zv, va; cbn; f_equal; ring).
    rewrite A1, A2, A3 in C.
    assert (W : forall x, ((x + o) - o)%v = x) by (intros; vring).
    destruct C as [C|[C|C]]; apply tri_eq in C; destruct C as (-> & -> & ->); rewrite !W;
      [reflexivity|apply Isum_rot|rewrite Isum_rot; apply Isum_rot]. }
  rewrite K1 in K0. clear - K0.
  assert (N1 : nm (V3 0 0 5) = 5) by (apply nm_uniq; unfold dt; cbn; lra).
  assert (N2 : nm (V3 0 12 5) = 13) by (apply nm_uniq; unfold dt; cbn; lra).
  assert (N3 : nm (V3 12 0 5) = 13) by (apply nm_uniq; unfold dt; cbn; lra).
  set (r := sqrt 2) in *.
  assert (Hr : r * r = 2) by (apply sqrt_sqrt; lra).
  assert (Hr0 : 0 <= r) by apply sqrt_pos.
  assert (N4 : nm (V3 12 0 5 - V3 0 12 5)%v = 12 * r) by (apply nm_uniq; [lra|unfold dt, vm; cbn; nra]).
  assert (N5 : nm (V3 0 0 5 - V3 12 0 5)%v = 12) by (apply nm_uniq; unfold dt, vm; cbn; lra).
  assert (K1 : ell (V3 0 12 5) (V3 12 0 5) * / r - ell (V3 12 0 5) (V3 0 0 5) = 0).
  { assert (r <> 0) by (intros Z; rewrite Z in Hr; lra).
    etransitivity; [|exact K0]. unfold Isum, uv. rewrite N4, N5.
    generalize (ell (V3 0 12 5) (V3 12 0 5)) (ell (V3 12 0 5) (V3 0 0 5)) (ell (V3 0 0 5) (V3 0 12 5)) (/ nm (V3 0 12 5 - V3 0 0 5)%v).
    intros x y z w. unfold dt, cr, va, sc, vm, ey, ez; cbn [vx vy vz]. field. assumption. }
  assert (L1 : ell (V3 12 0 5) (V3 0 0 5) = ln 5).
  { unfold ell, elf. rewrite N1, N3, N5. f_equal. field. }
  assert (L2 : ell (V3 0 12 5) (V3 12 0 5) < ln 5).
  { unfold ell, elf. rewrite N2, N3, N4.
    assert (r < 17 / 12) by nra. 
    apply ln_increasing.
    - apply Rdiv_lt_0_compat; nra.
    - apply (Rmult_lt_reg_r (13 + 13 - 12 * r)); [lra|]. unfold Rdiv. rewrite Rmult_assoc, Rinv_l by lra. lra. }
  assert (L3 : 0 < ln 5) by (rewrite <- ln_1; apply ln_increasing; lra).
  assert (Hr1 : 1 < r) by nra.
  assert (Hi : 0 < / r < 1).
  { split; [apply Rinv_0_lt_compat; lra|]. rewrite <- Rinv_1. apply Rinv_lt_contravar; lra. }
  rewrite L1 in K1. destruct (Rle_dec (ell (V3 0 12 5) (V3 12 0 5)) 0); nra.
Qed.
Print Assumptions C07_facet_copy_refuted.

(** ** C28: observers in the plane of a facet *)
Lemma in_plane p o g d G fi f s : closed p -> nth_error (pl_faces p) fi = Some f -> reachable p s ->
  dt (f_un f) (vtx 0 f - o) = 0 ->
  (forall e, In e (f_edges f) -> exists v, edge_integral (A := RA) e o g = Ok v) ->
  exists T, facet_gravity p o d G g fi f s = Ok (v0, T).
Proof.
  intros Hc Hf Hs Hd Hv. unfold facet_gravity.
  assert (E := face_fresh (A := RA) (pl_twin p) o d G g fi f s (reachable_clean _ _ Hs)).
  destruct (sum_edges_return p o g Hc (keyed_edges_of fi f)) with (c := fun _ : ekey => @None (ev RA)) (acc := @None (ev RA)) as [r Hr].
  - intros k e Hk. exact (keyed_in p fi f k e Hf Hk).
  - intros k e Hk. apply Hv. apply (in_map snd) in Hk. unfold keyed_edges_of in Hk. cbn [snd] in Hk.
    revert Hk. generalize 0%nat. generalize (f_edges f). clear. intros l.
    induction l as [|x l IH]; intros n; cbn; [tauto|]. intros [->|H]; [now left|right; eapply IH; eauto].
  - assert (Hg : ginv g (fun _ : ekey => @None (ev RA))) by (intros _ k v; discriminate).
    pose proof (face_outcome p o d G g Hc (fun _ => None) fi f Hg Hf) as H. rewrite Hr in H. destruct r as [r c'].
    destruct H as ([g0 t0] & H & _). rewrite E.
    match goal with |- exists T, match ?x with _ => _ end = _ => assert (E' : x = Ok (g0, t0, c')) by exact H; rewrite E' end.
    exists t0. revert H. unfold spec_face. 
    assert (D0 : dot_point1 (A := RA) f o = 0) by exact Hd. rewrite D0.
    destruct (get_omega _ _ _ _ _) as [[w dw]|]; [|discriminate]. cbn [bind].
    match goal with |- bind ?x _ = _ -> _ => assert (E2 : x = Ok (r, c')) by exact Hr; rewrite E2 end. cbn [bind fst snd].
    destruct r as [[pqr dpqr]|]; [|discriminate].
    assert (Z : face_g (A := RA) (f_un f) d G 0 w pqr = v0).
    { unfold face_g. toR. rewrite Rmult_0_l. eqV. vring. }
    destruct g.
    + destruct dpqr; [|discriminate]. intros [= <- <-]. rewrite <- Z. reflexivity.
    + intros [= <- <-]. rewrite <- Z. reflexivity.
Qed.
(** Without gradient: every observer in the plane other than the three points
    of the facet (also on the edge lines and inside the edges). *)
Theorem C28_in_plane :
  forall p o density Gc fi f s, closed p -> reachable p s -> nth_error (pl_faces p) fi = Some f ->
  (forall x, In x (f_points f) -> dt (f_un f) (x - o) = 0) -> ~ In o (f_points f) ->
  exists T, facet_gravity p o density Gc false fi f s = Ok (V3 0 0 0, T).
Proof.
  intros p o d G fi f s Hc Hs Hf Hd Ho. destruct (proj1 Hc f (nth_error_In _ _ Hf)) as (p1 & p2 & p3 & HF).
  pose proof (proj1 (proj1 HF)) as Hp.
  apply (in_plane p o false d G fi f s Hc Hf Hs).
  - apply Hd. unfold vtx, pnth. rewrite Hp. left. reflexivity.
  - intros e He. destruct (facet_edges f p1 p2 p3 e HF He) as (q & r & s' & t & -> & Hq).
    apply edge_nograd. cbn [mk_edge e_start fst]. intros ->. apply Ho. rewrite Hp. cbn.
    destruct Hq as [[-> _]|[[-> _]|[-> _]]]; auto.
Qed.
Print Assumptions C28_in_plane.
(** With gradient: observers in the plane, off the edges, in line with an edge
    or outside the epsilon band of its line. *)
Theorem C28_in_plane_gradient :
  forall p o density Gc fi f s p1 p2 p3, closed p -> reachable p s -> nth_error (pl_faces p) fi = Some f ->
  f_points f = [p1; p2; p3] -> dt (f_un f) (p1 - o) = 0 ->
  eregular p1 p2 o -> eregular p2 p3 o -> eregular p3 p1 o ->
  exists T, facet_gravity p o density Gc true fi f s = Ok (V3 0 0 0, T).
Proof.
  intros p o d G fi f s p1 p2 p3 Hc Hs Hf Hp Hd R1 R2 R3. destruct (proj1 Hc f (nth_error_In _ _ Hf)) as (q1 & q2 & q3 & HF).
  pose proof (proj1 (proj1 HF)) as Hp'. rewrite Hp in Hp'. injection Hp' as <- <- <-.
  pose proof (facet_nondeg _ _ _ _ HF) as (N1 & N2 & N3).
  apply (in_plane p o true d G fi f s Hc Hf Hs).
  - unfold vtx, pnth. rewrite Hp. exact Hd.
  - intros e He. destruct (facet_edges f p1 p2 p3 e HF He) as (q & r & s' & t & -> & Hq).
    assert (K : q <> r /\ eregular q r o) by (destruct Hq as [[-> ->]|[[-> ->]|[-> ->]]]; auto).
    destruct K as [K1 K2]. destruct (edge_regular_value q r o s' t true K1 K2) as [_ [m [E _]]]. eauto.
Qed.
Print Assumptions C28_in_plane_gradient.
(** Off these observers the gradient may raise: l = r and r + u.R = eps *)
Theorem C28_gradient_raises_refuted :
  exists p q o, p <> q /\ cr (p - o) (q - o) <> v0 /\
  forall s tf, edge_integral (A := RA) (mk_edge (A := RA) (p, q) s tf) o true = Err ZeroDivisionError.
Proof.
  pose proof eps_pos as He. pose proof eps_small as He'.
  set (y := sqrt (1 - (1 - eps) * (1 - eps))).
  assert (Hy : y * y = 1 - (1 - eps) * (1 - eps)) by (apply sqrt_sqrt; nra).
  assert (Hy0 : 0 < y) by (apply sqrt_lt_R0; nra).
  set (a := V3 (eps - 1) (- y) 0). set (b := V3 eps (- y) 0).
  assert (Na : nm a = 1) by (apply nm_uniq; [lra|unfold a, dt; cbn [vx vy vz]; nra]).
  set (o := V3 (1 - eps) y 0). exists (V3 0 0 0), (V3 1 0 0), o.
  assert (Ea : (V3 0 0 0 - o)%v = a) by (unfold a, o, vm; cbn; f_equal; ring).
  assert (Eb : (V3 1 0 0 - o)%v = b) by (unfold b, o, vm; cbn; f_equal; ring).
  split; [intros E; apply (f_equal vx) in E; cbn in E; lra|].
  split; [intros E; apply (f_equal vz) in E; rewrite Ea, Eb in E; unfold a, b, cr, v0 in E; cbn in E; nra|].
  intros s tf. unfold edge_integral, mk_edge. cbn [e_start e_end e_vector e_length fst snd]. toR.
  assert (El : (V3 1 0 0 - V3 0 0 0)%v = V3 1 0 0) by vring. rewrite Ea, Eb, El.
  assert (Nl : nm (V3 1 0 0) = 1) by (apply nm_axis; lra).
  assert (S : (Rltb (nm b) (nm a) && Reqb (dt a b / (nm a * nm b)) 1)%bool = false).
  { destruct (Rltb (nm b) (nm a)) eqn:E; [|reflexivity]. apply Reqb_false. rewrite Na, Rmult_1_l. intros Z.
    assert (0 < nm b) by (apply nm_pos; intros Q; apply (f_equal vy) in Q; unfold b, v0 in Q; cbn in Q; lra).
    assert (Q : dt a b = nm b) by (replace (dt a b) with (dt a b / nm b * nm b) by (field; lra); rewrite Z; ring).
    pose proof (nm_sq b) as Q2. rewrite <- Q in Q2. revert Q2. unfold a, b, dt; cbn [vx vy vz].
    replace ((eps - 1) * eps + - y * - y + 0 * 0) with eps by nra. nra. }
  rewrite S, Na, Nl. clear S.
  assert (D : dt a (V3 1 0 0) = eps - 1) by (unfold a, dt; cbn; ring). rewrite D.
  assert (B : 1 + 2 * (eps - 1) / 1 / 2 = eps) by field.
  match goal with |- context [Rltb (Rabs ?x) eps] => replace x with eps by (symmetry; exact B) end.
  rewrite Rabs_pos_eq by lra.
  assert (L : Rltb eps eps = false) by (apply Rltb_false; lra). rewrite L.
  unfold line_integral_along_edge, line_integral_grad. toR.
  match goal with |- context [Rltb eps (Rabs ?x)] => replace x with eps by (symmetry; exact B) end.
  rewrite Rabs_pos_eq by lra. rewrite L.
  assert (Q : Reqb 1 0 = false) by (apply Reqb_false; lra). rewrite Q. cbn [bind].
  assert (Q' : Reqb (Rabs (1 - 1)) 0 = true) by (apply Reqb_true; replace (1 - 1) with 0 by ring; apply Rabs_R0).
  rewrite Q'. reflexivity.
Qed.
Print Assumptions C28_gradient_raises_refuted.
(** an observer in the planes of two facets of the cube, off its edges, in line
    with none of them *)
Example C28_case : exists f, In f (pl_faces cube) /\
  (forall x, In x (f_points f) -> dt (f_un f) (x - V3 (-10) 3 31) = 0) /\ ~ In (V3 (-10) 3 31) (f_points f).
Proof.
  destruct (pl_faces cube) as [|f l] eqn:E.
  { assert (L : length (pl_faces cube) = 12%nat) by (apply (body_ok cubeZ); vm_compute; reflexivity). rewrite E in L. discriminate. }
  exists f. split; [now left|].
  assert (Hin : In f (pl_faces cube)) by (rewrite E; now left).
  destruct (proj1 cube_closed f Hin) as (p1 & p2 & p3 & HF). destruct (facet_vtx _ _ _ _ HF) as [E1 [E2 E3]].
  assert (HT : Forall2 cyc (tris cube) (map (ptri (rh cubeZ))
     [(0, 1, 3); (0, 3, 2); (4, 7, 5); (4, 6, 7); (0, 5, 1); (0, 4, 5); (2, 3, 7); (2, 7, 6); (0, 2, 6); (0, 6, 4); (1, 7, 3); (1, 5, 7)]%nat))
    by (apply body_tris; vm_compute; reflexivity).
  unfold tris in HT. rewrite E in HT. cbn [map] in HT.
  assert (C : cyc (tri_of f) (ptri (rh cubeZ) (0, 1, 3)%nat)) by (inversion HT; assumption).
  pose proof (proj1 (proj1 HF)) as Hp. rewrite Hp.
  destruct HF as [(_ & _ & _ & ->) _].
  assert (K : vx p1 = -10 /\ vx p2 = -10 /\ vx p3 = -10 /\ vz p1 < 31 /\ vz p2 < 31 /\ vz p3 < 31).
  { apply cyc_sym in C. unfold tri_of, cyc, trot, ptri in C. rewrite E1, E2, E3 in C.
    destruct C as [C|[C|C]]; apply tri_eq in C; destruct C as (-> & -> & ->); cbn; lra. }
  destruct K as (K1 & K2 & K3 & K4 & K5 & K6). split.
  - assert (N : forall x, vx x = -10 -> dt (tri_normal p1 p2 p3) (x - V3 (-10) 3 31) = 0).
    { intros x Hx. unfold tri_normal, uu, dt, sc, cr, vm; cbn [vx vy vz]. rewrite K1, K2, K3, Hx. ring. }
    intros x [<-|[<-|[<-|[]]]]; auto.
  - intros [H|[H|[H|[]]]]; rewrite H in *; cbn [vz] in *; lra.
Qed.

(** ** C29: observers at a vertex *)
Theorem C29_vertex_raises :
  forall p o density Gc gradient s, closed p -> reachable p s ->
  (exists f, In f (pl_faces p) /\ In o (f_points f)) ->
  gravity p o density Gc gradient s = Err ZeroDivisionError.
Proof. intros p o d G g s Hc Hs H. rewrite (gravity_spec p o d G g s Hs). exact (vertex_raises p o d G g Hc H). Qed.
Print Assumptions C29_vertex_raises.
(** without gradient these are the only observers that raise *)
Theorem C29_only_vertices :
  forall p o density Gc s, closed p -> reachable p s ->
  ~ (exists f, In f (pl_faces p) /\ In o (f_points f)) ->
  exists G T, gravity p o density Gc false s = Ok (G, T).
Proof.
  intros p o d G s Hc Hs H. rewrite (gravity_spec p o d G false s Hs).
  destruct (closed_return p o d G false Hc) as [[G0 T0] E]; [|eauto].
  intros k e He. apply edge_nograd. intros ->. apply H.
  destruct (has_edge_facet p k e He Hc) as (f & p1 & p2 & p3 & Hin & Hf & Hi). exists f. split; [exact Hin|].
  destruct (facet_edges f p1 p2 p3 e Hf Hi) as (q & r & s' & t & -> & Hq). rewrite (proj1 (proj1 Hf)). cbn.
  destruct Hq as [[-> _]|[[-> _]|[-> _]]]; auto.
Qed.
Print Assumptions C29_only_vertices.
(** and the only exception any observer can get is ZeroDivisionError *)
Theorem C29_only_zero_division :
  forall p o density Gc gradient s x, closed p -> reachable p s ->
  gravity p o density Gc gradient s = Err x -> x = ZeroDivisionError.
Proof. intros p o d G g s x Hc Hs H. rewrite (gravity_spec p o d G g s Hs) in H. exact (closed_exn p o d G g Hc x H). Qed.
Print Assumptions C29_only_zero_division.
Example C29_case : exists o, exists f, In f (pl_faces cube) /\ In o (f_points f).
Proof.
  destruct (pl_faces cube) as [|f l] eqn:E.
  { assert (L : length (pl_faces cube) = 12%nat) by (apply (body_ok cubeZ); vm_compute; reflexivity). rewrite E in L. discriminate. }
  assert (Hin : In f (pl_faces cube)) by (rewrite E; now left).
  destruct (proj1 cube_closed f Hin) as (p1 & p2 & p3 & HF). exists p1, f. split; [now left|].
  rewrite (proj1 (proj1 HF)). now left.
Qed.

(** ** C31: observers in the epsilon band of the line of an edge *)
(** In exact arithmetic: the observer (3, 10^-9, 0) gets a vector pointing
    against the edge, while the integral is positive. *)
Theorem C31_near_line_refuted :
  exists p q o I v, p <> q /\ cr (p - o) (q - o) <> v0 /\
  is_RInt (fun t => / nm ((p + t * (/ nm (q - p) * (q - p))) - o)%v) 0 (nm (q - p)%v) I /\ 0 < I /\
  (forall s tf, edge_integral (A := RA) (mk_edge (A := RA) (p, q) s tf) o false = Ok (v, None)) /\
  dt v (q - p) < 0.
Proof.
  set (y := / 1000000000). assert (Hy : 0 < y < / 100000000) by (unfold y; lra).
  set (p := V3 0 0 0). set (q := V3 1 0 0). set (o := V3 3 y 0).
  assert (Hne : p <> q) by (intros E; apply (f_equal vx) in E; cbn in E; lra).
  assert (Hcr : cr (p - o) (q - o) <> v0).
  { intros E. apply (f_equal vz) in E. unfold p, q, o, cr, vm, v0 in E; cbn in E. lra. }
  assert (Hoff : off (p - o) (q - o)) by now apply off_cross.
  exists p, q, o, (ell (p - o) (q - o)). eexists.
  split; [exact Hne|]. split; [exact Hcr|]. split; [|split; [|split]].
  - pose proof (sub_pos p q Hne) as Hl.
    assert (Eq : ((p - o) + nm (q - p) * (/ nm (q - p) * (q - p)))%v = (q - o)%v).
    { transitivity ((p - o) + (nm (q - p) * / nm (q - p)) * (q - p))%v; [vring|]. rewrite Rinv_r by lra. vring. }
    pose proof (ell_integral (p - o)%v (uv p q) (nm (q - p)%v) (uv_unit p q Hne) Hl) as HI.
    unfold uv in HI. rewrite Eq in HI. specialize (HI Hoff).
    eapply is_RInt_ext; [|exact HI]. intros x _. cbv beta. f_equal. f_equal. vring.
  - unfold ell, elf. pose proof (off_lt _ _ Hoff) as L.
    assert (0 < nm ((q - o) - (p - o))%v).
    { replace ((q - o) - (p - o))%v with (q - p)%v by vring. now apply sub_pos. }
    rewrite <- ln_1. apply ln_increasing; [lra|].
    apply (Rmult_lt_reg_r (nm (p - o)%v + nm (q - o)%v - nm ((q - o) - (p - o))%v)); [lra|].
    unfold Rdiv. rewrite Rmult_assoc, Rinv_l by lra. lra.
  - intros s tf. apply edge_band; try lra.
    + assert (S : sqrt (3 * 3 + y * y) < 3 + y * y / 5).
      { rewrite <- (sqrt_square (3 + y * y / 5)) by nra. apply sqrt_lt_1; nra. }
      unfold eps. assert (y * y / 5 < / 2 ^ 52) by (unfold y; simpl; lra). lra.
    + pose proof eps_small. lra.
    + intros [_ E].
      assert (Pa : 0 < nm (V3 (- (3)) (- y) 0)) by (apply nm_pos; intros Q; apply (f_equal vx) in Q; unfold v0 in Q; cbn in Q; lra).
      assert (Pb : 0 < nm (V3 (1 - 3) (- y) 0)) by (apply nm_pos; intros Q; apply (f_equal vx) in Q; unfold v0 in Q; cbn in Q; lra).
      set (a := V3 (- (3)) (- y) 0) in *. set (b := V3 (1 - 3) (- y) 0) in *.
      assert (E' : dt a b = nm a * nm b).
      { transitivity (dt a b / (nm a * nm b) * (nm a * nm b)); [field; lra|rewrite E; ring]. }
      pose proof (gram a b) as Q. rewrite E', Rminus_diag_eq, Rmult_0_r in Q by reflexivity.
      revert Q. unfold a, b, dt, cr; cbn [vx vy vz]. nra.
  - unfold q, p, dt, vm; cbn [vx vy vz].
    assert (L : 0 < ln ((sqrt ((1 + 3) * (1 + 3) + y * y) + 1 + 3) / (sqrt (3 * 3 + y * y) + 3))); [|lra].
    rewrite <- ln_1. pose proof (sqrt_pos (3 * 3 + y * y)).
    assert (sqrt (3 * 3 + y * y) < sqrt ((1 + 3) * (1 + 3) + y * y)) by (apply sqrt_lt_1; nra).
    apply ln_increasing; [lra|].
    apply (Rmult_lt_reg_r (sqrt (3 * 3 + y * y) + 3)); [lra|].
    unfold Rdiv. rewrite Rmult_assoc, Rinv_l by lra. lra.
Qed.
Print Assumptions C31_near_line_refuted.

(** ** C32: observers inside an edge *)
(** The integral of 1/r over the part of the edge before the observer exceeds
    every bound, and yet every call without gradient returns. *)
Theorem C32_inside_edge_refuted :
  (exists p q o v, p <> q /\ o = (p + / 2 * (q - p))%v /\
    (forall M, exists c I, 0 < c < / 2 /\ M < I /\ is_RInt (fun t => / nm ((p + t * (q - p)) - o)%v) 0 c I) /\
    forall s tf, edge_integral (A := RA) (mk_edge (A := RA) (p, q) s tf) o false = Ok (v, None)) /\
  (forall p k e density Gc s, closed p -> reachable p s -> has_edge p k e ->
    let o := (e_start e + / 2 * (e_end e - e_start e))%v in
    ~ (exists f, In f (pl_faces p) /\ In o (f_points f)) ->
    exists G T, gravity p o density Gc false s = Ok (G, T)).
Proof.
  split.
  - exists (V3 0 0 0), (V3 1 0 0), (V3 (/ 2) 0 0). eexists.
    split; [intros E; apply (f_equal vx) in E; cbn in E; lra|].
    split; [unfold va, sc, vm; cbn; f_equal; lra|]. split.
    + intros M. set (m := Rmax M 0).
      assert (Hm : 0 <= m) by apply Rmax_r. assert (HM : M <= m) by apply Rmax_l.
      assert (He : 0 < exp (- m - 1) < 1).
      { split; [apply exp_pos|]. assert (E : exp (- m - 1) < exp 0) by (apply exp_increasing; lra). rewrite exp_0 in E. exact E. }
      exists (/ 2 * (1 - exp (- m - 1))), (m + 1). split; [lra|]. split; [lra|].
      assert (Q : is_RInt (fun t => / (/ 2 - t)) 0 (/ 2 * (1 - exp (- m - 1))) (m + 1)).
      { replace (m + 1) with (minus (- ln (/ 2 - (/ 2 * (1 - exp (- m - 1))))) (- ln (/ 2 - 0))).
        2:{ replace (/ 2 - / 2 * (1 - exp (- m - 1))) with (/ 2 * exp (- m - 1)) by ring.
            rewrite ln_mult, ln_exp, Rminus_0_r by lra. unfold minus, plus, opp; cbn. ring. }
        apply (is_RInt_derive (fun t => - ln (/ 2 - t)) (fun t => / (/ 2 - t))).
        - intros t Ht. rewrite Rmin_left, Rmax_right in Ht by lra. auto_derive; [lra|field; lra].
        - intros t Ht. rewrite Rmin_left, Rmax_right in Ht by lra.
          apply @ex_derive_continuous. auto_derive. lra. }
      eapply is_RInt_ext; [|exact Q]. intros t Ht. rewrite Rmin_left, Rmax_right in Ht by lra. cbv beta. f_equal.
      symmetry. apply nm_uniq; [lra|]. unfold dt, va, vm, sc; cbn [vx vy vz]. ring.
    + intros s tf. apply edge_band; [lra|lra|lra| | |].
      * replace (/ 2 * / 2 + 0 * 0) with (/ 2 * / 2) by ring. rewrite sqrt_square by lra.
        pose proof eps_pos. lra.
      * unfold eps. simpl. lra.
      * intros [_ E]. replace (dt (V3 (- / 2) (- 0) 0) (V3 (1 - / 2) (- 0) 0)) with (- / 4) in E by (unfold dt; cbn; field).
        assert (P1 : nm (V3 (- / 2) (- 0) 0) = / 2) by (apply nm_uniq; unfold dt; cbn; lra).
        assert (P2 : nm (V3 (1 - / 2) (- 0) 0) = / 2) by (apply nm_uniq; unfold dt; cbn; lra).
        rewrite P1, P2 in E. lra.
  - intros p k e d G s Hc Hs He o Ho. exact (C29_only_vertices p o d G s Hc Hs Ho).
Qed.
Print Assumptions C32_inside_edge_refuted.

(** ** C33: interchanged end points *)
(** Observers (3+t, 0, 0) beyond the end of the edge from 0 to (1,0,0): row x
    of the returned gradient is not the derivative of the returned integral. *)
Theorem C33_gradient_sign_refuted :
  exists p q o v m D, p <> q /\
  (forall s tf, edge_integral (A := RA) (mk_edge (A := RA) (p, q) s tf) o true = Ok (v 0, Some m)) /\
  (forall t s tf, Rabs t < 1 -> exists m', edge_integral (A := RA) (mk_edge (A := RA) (p, q) s tf) (o + t * ex)%v true = Ok (v t, m')) /\
  vder v 0 D /\ vx m = (- D)%v /\ D <> v0.
Proof.
  set (p := V3 0 0 0). set (q := V3 1 0 0). set (o := V3 3 0 0).
  assert (Hne : p <> q) by (intros E; apply (f_equal vx) in E; cbn in E; lra).
  assert (U : uv p q = ex) by (apply uv_x; lra).
  assert (K : forall t, (q - (o + t * ex))%v = (- (2 + t) * uv p q)%v).
  { intros t. rewrite U. unfold q, o, ex, vm, va, sc; cbn [vx vy vz]. f_equal; ring. }
  pose proof eps_small as He.
  assert (V0 : (o + 0 * ex)%v = o) by vring.
  exists p, q, o, (fun t => (ell (p - (o + t * ex)) (q - (o + t * ex)) * uv p q)%v),
    (mneg (outer (gell (p - o)%v (q - o)%v) (uv p q))), (dt (gell (p - o)%v (q - o)%v) ex * uv p q)%v.
  split; [exact Hne|]. split; [|split; [|split; [|split]]].
  - intros s tf. rewrite V0. rewrite <- V0 at 1 4.
    pose proof (edge_swap p q (o + 0 * ex)%v s tf true (2 + 0) Hne (K 0)) as E. rewrite V0 in E. rewrite V0. apply E. lra.
  - intros t s tf Ht. apply Rabs_def2 in Ht. eexists.
    exact (edge_swap p q (o + t * ex)%v s tf true (2 + t) Hne (K t) ltac:(lra)).
  - assert (Hoff : off (p - o) (q - o)).
    { unfold off. unfold p, q, o. replace (V3 0 0 0 - V3 3 0 0)%v with (V3 (-3) 0 0) by (unfold vm; cbn; f_equal; ring).
      replace (V3 1 0 0 - V3 3 0 0)%v with (V3 (-2) 0 0) by (unfold vm; cbn; f_equal; ring).
      assert (P1 : nm (V3 (-3) 0 0) = 3) by (apply nm_uniq; unfold dt; cbn; lra).
      assert (P2 : nm (V3 (-2) 0 0) = 2) by (apply nm_uniq; unfold dt; cbn; lra).
      rewrite P1, P2. unfold dt; cbn. lra. }
    assert (Hn' : (p - o)%v <> (q - o)%v).
    { intros E. apply (f_equal vx) in E. unfold p, q, o in E; cbn in E. lra. }
    eapply vder_eq; [apply vder_sc; [|exact (vder_const (uv p q) 0)]|].
    + eapply is_derive_ext; [intros t; rewrite !sub_path; reflexivity|]. exact (ell_path ex _ _ Hoff Hn').
    + cbn beta. vring.
  - unfold mneg, outer. cbn [vx vy vz]. f_equal. f_equal. unfold dt, ex; cbn [vx vy vz]. ring.
  - intros E. rewrite U in E. apply (f_equal vx) in E. unfold sc, ex at 2, v0 in E. cbn [vx] in E.
    assert (Hoff : off (p - o) (q - o)).
    { unfold off. unfold p, q, o. replace (V3 0 0 0 - V3 3 0 0)%v with (V3 (-3) 0 0) by (unfold vm; cbn; f_equal; ring).
      replace (V3 1 0 0 - V3 3 0 0)%v with (V3 (-2) 0 0) by (unfold vm; cbn; f_equal; ring).
      assert (P1 : nm (V3 (-3) 0 0) = 3) by (apply nm_uniq; unfold dt; cbn; lra).
      assert (P2 : nm (V3 (-2) 0 0) = 2) by (apply nm_uniq; unfold dt; cbn; lra).
      rewrite P1, P2. unfold dt; cbn. lra. }
    assert (Hn' : (p - o)%v <> (q - o)%v).
    { intros E'. apply (f_equal vx) in E'. unfold p, q, o in E'; cbn in E'. lra. }
    pose proof (gell_uv _ _ Hoff Hn') as G. rewrite uv_shift, U in G.
    assert (P1 : nm (p - o)%v = 3) by (apply nm_uniq; unfold p, o, dt, vm; cbn; lra).
    assert (P2 : nm (q - o)%v = 2) by (apply nm_uniq; unfold q, o, dt, vm; cbn; lra).
    rewrite P1, P2 in G. lra.
Qed.
Print Assumptions C33_gradient_sign_refuted.

Lemma off_open p q o e : off (p - o) (q - o) ->
  locally 0 (fun t => off (p - (o + t * e)) (q - (o + t * e))).
Proof.
  intros H. pose proof (off_nz _ _ H) as [Hp Hq].
  assert (Dt : continuous (fun t : R => dt (p - (o + t * e)) (q - (o + t * e))) 0).
  { apply @ex_derive_continuous. eexists.
    eapply is_derive_ext; [intros t; rewrite !sub_path; reflexivity|].
    apply (dt_der (fun t => ((p - o) - t * e)%v) (fun t => ((q - o) - t * e)%v)); apply path_der. }
  unfold off. apply (loc_lt (fun t => nm (p - (o + t * e)) * nm (q - (o + t * e)) + dt (p - (o + t * e)) (q - (o + t * e)))).
  - apply @continuous_plus; [apply @continuous_mult; apply cont_nm; assumption|exact Dt].
  - rewrite obs0. exact H.
Qed.
Lemma behind_off p q o k : p <> q -> (q - o)%v = ((- k) * uv p q)%v -> 0 < k -> off (p - o) (q - o).
Proof.
  intros Hne Hq Hk. pose proof (sub_pos p q Hne) as Hl.
  assert (Hp : (p - o)%v = ((- (k + nm (q - p))) * uv p q)%v).
  { transitivity ((q - o) - (q - p))%v; [vring|]. rewrite Hq.
    assert (E : (q - p)%v = (nm (q - p) * uv p q)%v) by exact (uv_scal p q Hne).
    rewrite E at 1. generalize (nm (q - p)) (uv p q). intros n u. vring. }
  unfold off. rewrite Hp, Hq, !nm_sc, dt_sc_l, dt_sc_r, uv_unit by exact Hne.
  rewrite !Rabs_left by lra. rewrite <- (nm_sq (uv p q)), (uv_unit p q Hne). nra.
Qed.
(** For every edge and every observer in line with it beyond its end: the
    integral is right (the line integral of 1/r along the edge times its
    direction) and the gradient is minus the derivative of that integral, in
    every direction e. *)
Theorem C33_negated :
  forall p q o k e s tf, p <> q -> (q - o)%v = ((- k) * uv p q)%v -> eps < 2 * k ->
  exists I m,
  edge_integral (A := RA) (mk_edge (A := RA) (p, q) s tf) o true = Ok ((I 0 * uv p q)%v, Some m) /\
  locally 0 (fun t => is_RInt (fun x => / nm ((p + x * uv p q) - (o + t * e))%v) 0 (nm (q - p)) (I t)) /\
  vder (fun t => (I t * uv p q)%v) 0 (- (vx e * vx m + vy e * vy m + vz e * vz m))%v.
Proof.
  intros p q o k e s tf Hne Hq Hk. pose proof eps_pos as He. pose proof (sub_pos p q Hne) as Hl.
  assert (Hoff : off (p - o) (q - o)) by (apply (behind_off p q o k Hne Hq); lra).
  assert (Hn' : (p - o)%v <> (q - o)%v).
  { intros E. apply Hne. transitivity ((p - o) + o)%v; [vring|]. rewrite E. vring. }
  exists (fun t => ell (p - (o + t * e)) (q - (o + t * e))), (mneg (outer (gell (p - o)%v (q - o)%v) (uv p q))).
  split; [|split].
  - rewrite obs0. exact (edge_swap p q o s tf true k Hne Hq Hk).
  - eapply filter_imp; [|exact (off_open p q o e Hoff)]. intros t Ht. cbv beta in Ht |- *.
    assert (Eq : (q - (o + t * e))%v = ((p - (o + t * e)) + nm (q - p) * uv p q)%v).
    { assert (E : (q - p)%v = (nm (q - p) * uv p q)%v) by exact (uv_scal p q Hne).
      rewrite <- E. vring. }
    rewrite Eq in Ht |- *.
    eapply is_RInt_ext; [|exact (ell_integral _ (uv p q) _ (uv_unit p q Hne) Hl Ht)].
    intros x _. cbn beta. do 2 f_equal. generalize (uv p q). intros u. vring.
  - eapply vder_eq; [apply vder_sc; [|exact (vder_const (uv p q) 0)]|].
    + eapply is_derive_ext; [intros t; rewrite !sub_path; reflexivity|]. exact (ell_path e _ _ Hoff Hn').
    + cbn beta. rewrite !sub_path. unfold mneg, outer. cbn [vx vy vz].
      generalize (gell (p - o)%v (q - o)%v) (uv p q) (ell ((p - o) - 0 * e)%v ((q - o) - 0 * e)%v). intros w u z. vring.
Qed.
Print Assumptions C33_negated.
Example C33_case : V3 0 0 0 <> V3 2 4 4 /\
  ((V3 2 4 4 : V) - V3 4 8 8)%v = (- 6 * uv (V3 0 0 0) (V3 2 4 4))%v /\ eps < 2 * 6.
Proof.
  split; [intros E; apply (f_equal vx) in E; cbn in E; lra|]. split; [|pose proof eps_small; lra].
  assert (N : nm (V3 2 4 4 - V3 0 0 0)%v = 6) by (apply nm_uniq; unfold dt, vm; cbn; lra).
  unfold uv. rewrite N. unfold vm, sc; cbn [vx vy vz]. f_equal; field.
Qed.

(** ** C34: the algebra of cross_product *)
Theorem C34_vector_product :
  forall a1 a2 a3 b1 b2 b3 : R, exists c1 c2 c3,
  cross_product (A := RA) (row (A := RA) [a1; a2; a3]) (row (A := RA) [b1; b2; b3]) = Ok (row (A := RA) [c1; c2; c3]) /\
  cross_product (A := RA) (row (A := RA) [b1; b2; b3]) (row (A := RA) [a1; a2; a3]) = Ok (row (A := RA) [- c1; - c2; - c3]) /\
  a1 * c1 + a2 * c2 + a3 * c3 = 0 /\ b1 * c1 + b2 * c2 + b3 * c3 = 0 /\
  (c1 * c1 + c2 * c2 + c3 * c3) + (a1 * b1 + a2 * b2 + a3 * b3) * (a1 * b1 + a2 * b2 + a3 * b3) =
  (a1 * a1 + a2 * a2 + a3 * a3) * (b1 * b1 + b2 * b2 + b3 * b3) /\
  (* right-handed: the determinant of (a, b, a x b) is the square of its length *)
  a1 * (b2 * c3 - b3 * c2) - a2 * (b1 * c3 - b3 * c1) + a3 * (b1 * c2 - b2 * c1) = c1 * c1 + c2 * c2 + c3 * c3.
Proof.
  intros a1 a2 a3 b1 b2 b3. exists (a2 * b3 - a3 * b2), (a3 * b1 - a1 * b3), (a1 * b2 - a2 * b1).
  split; [rewrite cross_product_1d, cross_1d_rows; reflexivity|].
  split; [rewrite cross_product_1d, cross_1d_rows; do 2 f_equal; toR; repeat (apply f_equal2; [ring|]); reflexivity|].
  repeat split; ring.
Qed.
Print Assumptions C34_vector_product.

(** ** C38: longitudes *)
Definition lons (d : dataset RA) : list R := map vx (rows (d_coords d)).
Theorem C38_ranges :
  forall d : dataset RA, c_name (d_crs d) = ELLPS ->
  (forall x, In x (lons d) -> - 180 < x <= 540) ->
  (forall x, In x (lons (to_lon180 d)) -> - 180 < x <= 180) /\ to_lon180 (to_lon180 d) = to_lon180 d.
Proof.
  intros d He H.
  assert (K : forall x, In x (lons (to_lon180 d)) -> - 180 < x <= 180).
  { intros x. unfold lons, to_lon180. rewrite He. cbn [d_coords d_crs]. unfold wrap180. cbn [rows]. rewrite map_map. cbn [vx].
    rewrite in_map_iff. intros (r & E & Hr). specialize (H (vx r) (in_map vx _ _ Hr)).
    assert (L : forall y : R, - 180 < y <= 540 -> - 180 < (if Rltb 180 y then y - 360 else y) <= 180).
    { intros y Hy. destruct (Rltb 180 y) eqn:L; [apply Rltb_true in L|apply Rltb_false in L]; lra. }
    rewrite <- E. exact (L (vx r) H). }
  split; [exact K|].
  assert (C : c_name (d_crs (to_lon180 d)) = ELLPS) by (unfold to_lon180; rewrite He; exact He).
  assert (W : wrap180 (d_coords (to_lon180 d)) = d_coords (to_lon180 d)).
  { revert K. unfold lons. generalize (d_coords (to_lon180 d)). intros [i l] K. unfold wrap180. cbn [is_int rows] in *. f_equal.
    rewrite <- (map_id l) at 2. apply map_ext_in. intros [x y z] Hr. cbn [vx vy vz].
    specialize (K _ (in_map vx _ _ Hr)). cbn [vx] in K. toR.
    assert (L : Rltb 180 x = false) by (apply Rltb_false; lra). rewrite L. reflexivity. }
  unfold to_lon180 at 1. rewrite C. rewrite W. destruct (to_lon180 d) as [? ?]; reflexivity.
Qed.
Print Assumptions C38_ranges.
(** outside this range the result may be outside (-180, 180], and a second
    wrap changes it again *)
Definition lon_data (x : R) : dataset RA :=
  {| d_coords := {| is_int := false; rows := (V3 x 0 0 :: nil : list (vec RA)) |};
     d_crs := {| c_name := ELLPS; c_ellps := None; c_enu := None; c_vdatum := VD_ELLPS |} |}.
Theorem C38_out_of_range_refuted :
  (exists d : dataset RA, c_name (d_crs d) = ELLPS /\ lons d = 900 :: nil /\ lons (to_lon180 d) = 540 :: nil /\
     lons (to_lon180 (to_lon180 d)) = 180 :: nil) /\
  (exists d : dataset RA, c_name (d_crs d) = ELLPS /\ lons d = - 200 :: nil /\ lons (to_lon180 d) = - 200 :: nil).
Proof.
  assert (W : forall x, lons (to_lon180 (lon_data x)) = (if Rltb 180 x then x - 360 else x) :: nil) by reflexivity.
  split.
  - exists (lon_data 900). split; [reflexivity|]. split; [reflexivity|].
    assert (T : to_lon180 (lon_data 900) = lon_data 540).
    { unfold to_lon180, lon_data, wrap180; cbn [d_crs d_coords c_name rows is_int map vx vy vz]. toR.
      rewrite (proj2 (Rltb_true _ _)) by lra. do 4 f_equal. toR. ring. }
    rewrite T. split; [reflexivity|]. rewrite W. rewrite (proj2 (Rltb_true _ _)) by lra. f_equal. ring.
  - exists (lon_data (- 200)). split; [reflexivity|]. split; [reflexivity|].
    rewrite W. rewrite (proj2 (Rltb_false _ _)) by lra. reflexivity.
Qed.
Print Assumptions C38_out_of_range_refuted.
Example C38_case : c_name (d_crs (lon_data 190)) = ELLPS /\ (forall x, In x (lons (lon_data 190)) -> - 180 < x <= 540) /\
  lons (to_lon180 (lon_data 190)) = - 170 :: nil.
Proof.
  split; [reflexivity|]. split; [intros x [H|[]]; cbn in H; change (num RA) with R in H; lra|].
  change (lons (to_lon180 (lon_data 190))) with ((if Rltb 180 190 then 190 - 360 else 190) :: nil).
  rewrite (proj2 (Rltb_true _ _)) by lra. f_equal. ring.
Qed.

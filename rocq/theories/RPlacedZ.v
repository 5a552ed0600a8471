(** * Integer observers in the planes of facets and in line with edges *)
From Coq Require Import Reals Lra Psatz ZArith Bool List Permutation Arith Lia.
Import ListNotations.
From Verif Require Import Base MUtils MEdge MFace MHull MPoly SpecPoly PPoly PStation PPlain.
From Verif Require Import RVec RArith REdge REdgeModel RAngle ROmega RFace RFacet RPoly RTwin RField RHull RHullZ ExamplesR RMove RLaws RPlaced.
Local Open Scope R_scope.
Local Open Scope list_scope.

(** the observer is in line with the edge a b, beyond an end *)
Definition line_edge (h : zhull) (o : ZV) (a b : nat) : bool :=
  let p := zsub (zpt h a) o in let q := zsub (zpt h b) o in
  veqz (zcr p q) (V3 0 0 0)%Z && Z.leb 1 (zdt p q) && negb (veqz (zpt h a) (zpt h b)).
(** the points of a simplex are in a plane with o *)
Definition flatb (h : zhull) (o : ZV) (s : list nat) : bool :=
  forallb (fun a => forallb (fun b => forallb (fun c =>
    Z.eqb (zdt (zsub (zpt h a) o) (zcr (zsub (zpt h b) o) (zsub (zpt h c) o))) 0) s) s) s.
Definition edgesb (ok : nat -> nat -> bool) (s : list nat) : bool :=
  forallb (fun a => forallb (fun b => Nat.eqb a b || ok a b) s) s.
Definition near (h : zhull) (s : list nat) : bool :=
  edgesb (fun a b => Z.leb (zdt (zsub (zpt h b) (zpt h a)) (zsub (zpt h b) (zpt h a))) 1000000) s.
Definition steadyb (h : zhull) (o : ZV) : bool :=
  forallb (fun s => near h s && edgesb (obs_edge h o) s) (z_simplices h).
Definition clearb (h : zhull) (o : ZV) : bool :=
  forallb (fun s => near h s && edgesb (fun a b => obs_edge h o a b || line_edge h o a b) s) (z_simplices h).
Definition placedb (h : zhull) (o : ZV) : bool :=
  forallb (fun s => near h s && (flatb h o s || edgesb (fun a b => obs_edge h o a b || line_edge h o a b) s)) (z_simplices h) &&
  forallb (fun i => negb (veqz (zpt h i) o)) (z_vertices h).

Lemma veqz_true a b : veqz a b = true -> a = b.
Proof.
  unfold veqz. intros H. bsplit. repeat match goal with K : Z.eqb _ _ = true |- _ => apply Z.eqb_eq in K end.
  destruct a, b; cbn in *; congruence.
Qed.
Lemma rv_inj a b : rv a = rv b -> a = b.
Proof. unfold rv. intros E. injection E as E1 E2 E3. apply eq_IZR in E1, E2, E3. destruct a, b; cbn in *; congruence. Qed.
Lemma veqz_refl a : veqz a a = true.
Proof. unfold veqz. now rewrite !Z.eqb_refl. Qed.

(** collinear vectors on one side *)
Lemma collinear (a b : V) : cr a b = v0 -> 0 < dt a b -> a <> b ->
  (0 < dt a (b - a) /\ a = (nm a * uu (b - a))%v) \/ (dt b (b - a) < 0 /\ b = (- nm b * uu (b - a))%v).
Proof.
  intros C D N.
  assert (A0 : a <> v0) by (intros ->; rewrite dt_0_l in D; lra).
  assert (Pa : 0 < nm a) by now apply nm_pos.
  assert (Q : (dt a a * b = dt a b * a)%v).
  { assert (K : cr a (cr a b) = (dt a b * a - dt a a * b)%v) by (destruct a, b; unfold cr, dt, vm, sc; cbn; f_equal; ring).
    rewrite C in K. assert (Z : cr a v0 = v0) by (destruct a; unfold cr, v0; cbn; f_equal; ring). rewrite Z in K.
    destruct a, b; unfold dt, vm, sc, v0 in *; cbn in *. injection K as K1 K2 K3. f_equal; lra. }
  set (s := dt a b / dt a a). assert (Pd : 0 < dt a a) by (rewrite <- nm_sq; nra).
  assert (Eb : b = (s * a)%v).
  { unfold s. transitivity (/ dt a a * (dt a a * b))%v; [|rewrite Q].
    - generalize (dt a a) Pd. intros y Hy. destruct b; unfold sc; cbn; f_equal; field; lra.
    - unfold Rdiv. generalize (dt a a) (dt a b). intros. vring. }
  assert (Ps : 0 < s) by (apply Rmult_lt_0_compat; [exact D|now apply Rinv_0_lt_compat]).
  assert (Es : (b - a)%v = ((s - 1) * a)%v) by (rewrite Eb; vring).
  assert (Ns : s <> 1) by (intros Z; apply N; rewrite Eb, Z; vring).
  unfold uu. rewrite Es. rewrite nm_sc. destruct (Rlt_dec 1 s) as [L|L].
  - left. split; [rewrite dt_sc_r; apply Rmult_lt_0_compat; lra|]. rewrite Rabs_pos_eq by lra.
    generalize (nm a) Pa. intros n Hn. destruct a; unfold sc; cbn; f_equal; field; lra.
  - right. split.
    + rewrite Eb, dt_sc_l. replace (s * a - a)%v with ((s - 1) * a)%v by vring. rewrite dt_sc_r. assert (0 < s * (1 - s)) by (apply Rmult_lt_0_compat; lra). nra.
    + rewrite Eb, nm_sc, (Rabs_pos_eq s), Rabs_left by lra.
      generalize (nm a) Pa. intros n Hn. destruct a; unfold sc; cbn; f_equal; field; lra.
Qed.
Lemma nm_1 (a : ZV) : rv a <> v0 -> 1 <= nm (rv a).
Proof.
  intros H. pose proof (nm_pos _ H) as P. pose proof (nm_sq (rv a)) as E. rewrite rv_dt in E.
  assert (Q : (1 <= zdt a a)%Z).
  { assert (K : 0 < IZR (zdt a a)) by nra. apply lt_IZR in K. lia. }
  apply IZR_le in Q. nra.
Qed.
Lemma eps_lt_1 : eps < 2.
Proof. pose proof eps_1000. pose proof eps_pos. lra. Qed.
Lemma line_edge_ok h o a b : line_edge h o a b = true -> eregular (pt (rh h) a) (pt (rh h) b) (rv o).
Proof.
  unfold line_edge. intros H. bsplit. rewrite !pt_rh.
  match goal with K : veqz _ _ = true |- _ => apply veqz_true in K; apply (f_equal rv) in K; rename K into HC end.
  match goal with K : Z.leb _ _ = true |- _ => apply Z.leb_le, IZR_le in K; rename K into HD end.
  assert (N : rv (zsub (zpt h a) o) <> rv (zsub (zpt h b) o)).
  { intros E. apply rv_inj in E. match goal with K : negb _ = true |- _ => apply negb_true_iff in K; rename K into HN end.
    assert (Q : zpt h a = zpt h b).
    { destruct (zpt h a), (zpt h b), o. unfold zsub in E; cbn in E. injection E as E1 E2 E3. f_equal; lia. }
    rewrite Q, veqz_refl in HN. discriminate. }
  rewrite <- rv_cr in HC. rewrite <- rv_dt in HD. unfold eregular. rewrite rv_sub, rv_sub.
  assert (HC' : cr (rv (zsub (zpt h a) o)) (rv (zsub (zpt h b) o)) = v0) by (rewrite HC; reflexivity).
  pose proof eps_lt_1 as E1.
  assert (U : uv (rv (zpt h a)) (rv (zpt h b)) = uu (rv (zsub (zpt h b) o) - rv (zsub (zpt h a) o))).
  { unfold uv, uu. rewrite <- !rv_sub. replace (rv (zpt h b) - rv o - (rv (zpt h a) - rv o))%v with (rv (zpt h b) - rv (zpt h a))%v by vring. reflexivity. }
  right. destruct (collinear _ _ HC' ltac:(lra) N) as [[_ K]|[_ K]].
  - left. exists (nm (rv (zsub (zpt h a) o))). rewrite U. split; [|exact K].
    assert (1 <= nm (rv (zsub (zpt h a) o))); [|lra]. apply nm_1. intros Z. rewrite Z, dt_0_l in HD. lra.
  - right. exists (nm (rv (zsub (zpt h b) o))). rewrite U. split; [|exact K].
    assert (1 <= nm (rv (zsub (zpt h b) o))); [|lra]. apply nm_1. intros Z. rewrite Z, dt_comm, dt_0_l in HD. lra.
Qed.
Lemma edgesb_ok ok s x y z : edgesb ok s = true -> Permutation s [x; y; z] ->
  forall a b, In a [x; y; z] -> In b [x; y; z] -> a <> b -> ok a b = true.
Proof.
  intros He Hp a b Ha Hb Hab. unfold edgesb in He. rewrite forallb_forall in He.
  specialize (He a (Permutation_in _ (Permutation_sym Hp) Ha)). rewrite forallb_forall in He.
  specialize (He b (Permutation_in _ (Permutation_sym Hp) Hb)). apply orb_true_iff in He.
  destruct He as [K|K]; [apply Nat.eqb_eq in K; contradiction|auto].
Qed.

Section Obs.
  Variables (h : zhull) (o : ZV).
  Hypothesis Hh : hullb h = true.
  Let F := proj2 (proj2 (proj2 (body_ok h Hh))).
  Let Hc := proj1 (proj2 (body_ok h Hh)).

  Lemma face_parts f : In f (pl_faces (body h)) -> exists s x y z, In s (z_simplices h) /\ Permutation s [x; y; z] /\
    x <> y /\ y <> z /\ z <> x /\ vtx 0 f = pt (rh h) x /\ vtx 1 f = pt (rh h) y /\ vtx 2 f = pt (rh h) z.
  Proof.
    intros Hf. apply In_nth_error in Hf. destruct Hf as [i Hi].
    destruct (F i f Hi) as (s & x & y & z & t1 & t2 & t3 & Hs & Hp & Hxy & Hyz & Hzx & Hout & Hpts & _).
    exists s, x, y, z. unfold vtx, pnth. rewrite Hpts. cbn [nth].
    split; [exact (nth_error_In _ _ Hs)|]. auto 10.
  Qed.
  Lemma plane_alt f s x y z : In f (pl_faces (body h)) -> near h s = true -> Permutation s [x; y; z] ->
    x <> y -> y <> z -> z <> x -> vtx 0 f = pt (rh h) x -> vtx 1 f = pt (rh h) y -> vtx 2 f = pt (rh h) z ->
    eps < Rabs (dt (f_un f) (vtx 0 f - rv o)) \/ flat (rv o) f.
  Proof.
    intros Hf Hn Hp N1 N2 N3 E0 E1 E2. destruct (proj1 Hc f Hf) as (p1 & p2 & p3 & HF).
    destruct (facet_vtx _ _ _ _ HF) as (D0 & D1 & D2). destruct HF as [(_ & _ & HN & Hu) _]. unfold flat. rewrite Hu, D0.
    assert (Q0 : p1 = pt (rh h) x) by congruence. assert (Q1 : p2 = pt (rh h) y) by congruence. assert (Q2 : p3 = pt (rh h) z) by congruence.
    assert (Nr : forall a b, In a [x; y; z] -> In b [x; y; z] -> a <> b -> nm (pt (rh h) b - pt (rh h) a) <= 1000).
    { intros a b Ha Hb Hab. pose proof (edgesb_ok _ _ _ _ _ Hn Hp a b Ha Hb Hab) as K. cbv beta in K.
      rewrite !pt_rh, rv_sub. apply nm_1000. now apply Z.leb_le. }
    set (D := zdt (zsub (zpt h x) o) (zcr (zsub (zpt h y) o) (zsub (zpt h z) o))).
    assert (ED : det (p1 - rv o) (p2 - rv o) (p3 - rv o) = IZR D).
    { rewrite Q0, Q1, Q2, !pt_rh, !rv_sub. unfold det. now rewrite rv_cr, rv_dt. }
    destruct (Z.eq_dec D 0) as [Z|Z].
    - right. rewrite Z, (tri_det p1 p2 p3 (rv o) HN) in ED. apply Rmult_integral in ED. pose proof (nm_pos _ HN).
      destruct ED as [ED|ED]; [lra|exact ED].
    - left. apply (reg_plane_suff _ _ _ _ 1000); [| | |pose proof eps_1000; pose proof eps_pos; lra|exact HN].
      + rewrite ED, <- abs_IZR. apply IZR_le. lia.
      + rewrite Q0, Q1. apply Nr; simpl; auto.
      + rewrite Q0, Q2. apply Nr; simpl; auto.
  Qed.
  Lemma steadyb_ok : steadyb h o = true -> steady (body h) (rv o).
  Proof.
    intros H f Hf. destruct (face_parts f Hf) as (s & x & y & z & Hs & Hp & N1 & N2 & N3 & E0 & E1 & E2).
    unfold steadyb in H. rewrite forallb_forall in H. specialize (H s Hs). apply andb_true_iff in H. destruct H as [Hn He].
    split; [|exact (plane_alt f s x y z Hf Hn Hp N1 N2 N3 E0 E1 E2)]. rewrite E0, E1, E2.
    pose proof (edgesb_ok _ _ _ _ _ He Hp) as K.
    split; [|split]; apply obs_edge_ok, K; simpl; auto.
  Qed.
  Lemma clear3_ok f s x y z : edgesb (fun a b => obs_edge h o a b || line_edge h o a b) s = true -> Permutation s [x; y; z] ->
    x <> y -> y <> z -> z <> x -> vtx 0 f = pt (rh h) x -> vtx 1 f = pt (rh h) y -> vtx 2 f = pt (rh h) z -> clear3 (rv o) f.
  Proof.
    intros He Hp N1 N2 N3 E0 E1 E2. pose proof (edgesb_ok _ _ _ _ _ He Hp) as K. cbv beta in K.
    assert (Q : forall a b, In a [x; y; z] -> In b [x; y; z] -> a <> b -> eregular (pt (rh h) a) (pt (rh h) b) (rv o)).
    { intros a b Ha Hb Hab. specialize (K a b Ha Hb Hab). apply orb_true_iff in K.
      destruct K as [K|K]; [left; apply (obs_edge_ok h o a b K)|now apply line_edge_ok]. }
    unfold clear3. rewrite E0, E1, E2. split; [|split]; apply Q; simpl; auto.
  Qed.
  Lemma clearb_ok g : clearb h o = true -> well_placed (body h) (rv o) g.
  Proof.
    intros H. unfold clearb in H. rewrite forallb_forall in H.
    assert (K : forall f, In f (pl_faces (body h)) -> clear3 (rv o) f /\ (eps < Rabs (dt (f_un f) (vtx 0 f - rv o)) \/ flat (rv o) f)).
    { intros f Hf. destruct (face_parts f Hf) as (s & x & y & z & Hs & Hp & N1 & N2 & N3 & E0 & E1 & E2).
      specialize (H s Hs). apply andb_true_iff in H. destruct H as [Hn He].
      split; [exact (clear3_ok f s x y z He Hp N1 N2 N3 E0 E1 E2)|exact (plane_alt f s x y z Hf Hn Hp N1 N2 N3 E0 E1 E2)]. }
    split; [apply clear3_all; [exact Hc|]; intros f Hf; apply K, Hf|intros f Hf; apply K, Hf].
  Qed.
  Lemma flatb_ok f s x y z : In f (pl_faces (body h)) -> flatb h o s = true -> Permutation s [x; y; z] ->
    vtx 0 f = pt (rh h) x -> vtx 1 f = pt (rh h) y -> vtx 2 f = pt (rh h) z -> flat (rv o) f.
  Proof.
    intros Hf H Hp E0 E1 E2. destruct (proj1 Hc f Hf) as (p1 & p2 & p3 & HF).
    destruct (facet_vtx _ _ _ _ HF) as (D0 & D1 & D2). destruct HF as [(_ & _ & HN & Hu) _]. unfold flat. rewrite Hu, D0.
    assert (I : forall a, In a [x; y; z] -> In a s) by (intros a Ha; exact (Permutation_in _ (Permutation_sym Hp) Ha)).
    unfold flatb in H. rewrite forallb_forall in H. specialize (H x (I x ltac:(simpl; auto))).
    rewrite forallb_forall in H. specialize (H y (I y ltac:(simpl; auto))).
    rewrite forallb_forall in H. specialize (H z (I z ltac:(simpl; auto))). apply Z.eqb_eq in H.
    assert (ED : det (p1 - rv o) (p2 - rv o) (p3 - rv o) = 0).
    { rewrite <- D0, <- D1, <- D2, E0, E1, E2, !pt_rh, !rv_sub. unfold det. rewrite rv_cr, rv_dt, H. reflexivity. }
    rewrite (tri_det p1 p2 p3 (rv o) HN) in ED. apply Rmult_integral in ED. pose proof (nm_pos _ HN).
    destruct ED as [ED|ED]; [lra|exact ED].
  Qed.
  Lemma placedb_ok : placedb h o = true -> well_placed (body h) (rv o) false.
  Proof.
    intros H. unfold placedb in H. apply andb_true_iff in H. destruct H as [H HV]. rewrite forallb_forall in H, HV.
    split; [split|].
    - intros f Hf Hin. apply In_nth_error in Hf. destruct Hf as [i Hi].
      destruct (F i f Hi) as (sx & x & y & z & t1 & t2 & t3 & Hs & HP & _ & _ & _ & _ & P & _). rewrite P in Hin.
      assert (G : forall k, In k [x; y; z] -> pt (rh h) k <> rv o).
      { intros k Hk E. rewrite pt_rh in E. apply rv_inj in E.
        assert (Hv : In k (h_vertices (rh h))).
        { apply (ch_vert _ (hullb_ok h Hh) sx); [eapply nth_error_In; eauto|].
          eapply Permutation_in; [apply Permutation_sym; exact HP|exact Hk]. }
        specialize (HV k Hv). rewrite E, veqz_refl in HV. discriminate. }
      destruct Hin as [E|[E|[E|[]]]]; revert E; apply G; simpl; auto.
    - intros f Hf. destruct (face_parts f Hf) as (s & x & y & z & Hs & Hp & N1 & N2 & N3 & E0 & E1 & E2).
      specialize (H s Hs). apply andb_true_iff in H. destruct H as [_ H]. apply orb_true_iff in H. destruct H as [H|H].
      + right. split; [reflexivity|]. exact (flatb_ok f s x y z Hf H Hp E0 E1 E2).
      + left. exact (clear3_ok f s x y z H Hp N1 N2 N3 E0 E1 E2).
    - intros f Hf. destruct (face_parts f Hf) as (s & x & y & z & Hs & Hp & N1 & N2 & N3 & E0 & E1 & E2).
      specialize (H s Hs). apply andb_true_iff in H. destruct H as [Hn _].
      exact (plane_alt f s x y z Hf Hn Hp N1 N2 N3 E0 E1 E2).
  Qed.
End Obs.

(** observers of the cube of side 20: in the plane x = 10, in line with an edge,
    inside an edge, inside a facet *)
Definition o_plane : ZV := zv 10 13 17.
Definition o_line : ZV := zv 25 10 10.
Definition o_edge : ZV := zv 3 10 10.
Definition o_facet : ZV := zv 10 3 5.
Lemma cube_hull : hullb cubeZ = true. Proof. vm_compute. reflexivity. Qed.
Lemma cube_plane : steady cube (rv o_plane).
Proof. apply (steadyb_ok cubeZ o_plane cube_hull). vm_compute. reflexivity. Qed.
Lemma cube_facet : steady cube (rv o_facet).
Proof. apply (steadyb_ok cubeZ o_facet cube_hull). vm_compute. reflexivity. Qed.
Lemma cube_out_well g : well_placed cube (rv o_out) g.
Proof. apply regular_well; [apply cube_closed|apply cube_out]. Qed.
Lemma cube_in_well g : well_placed cube (rv o_in) g.
Proof. apply regular_well; [apply cube_closed|apply cube_in]. Qed.
Lemma cube_plane_well g : well_placed cube (rv o_plane) g.
Proof. apply steady_well; [apply cube_closed|apply cube_plane]. Qed.
Lemma cube_facet_well g : well_placed cube (rv o_facet) g.
Proof. apply steady_well; [apply cube_closed|apply cube_facet]. Qed.
Lemma cube_line_well g : well_placed cube (rv o_line) g.
Proof. apply (clearb_ok cubeZ o_line cube_hull). vm_compute. reflexivity. Qed.
Lemma cube_edge_well : well_placed cube (rv o_edge) false.
Proof. apply (placedb_ok cubeZ o_edge cube_hull). vm_compute. reflexivity. Qed.
Lemma cube_flat o : existsb (flatb cubeZ o) (z_simplices cubeZ) = true -> exists f, In f (pl_faces cube) /\ flat (rv o) f.
Proof.
  intros H. apply existsb_exists in H. destruct H as (s & Hs & H). apply In_nth_error in Hs. destruct Hs as [i Hi].
  destruct (body_ok cubeZ cube_hull) as (_ & Hc & HL & HF).
  destruct (nth_error (pl_faces cube) i) as [f|] eqn:E.
  2:{ exfalso. apply nth_error_None in E. unfold cube in E. rewrite HL in E. apply nth_error_None in E. congruence. }
  exists f. split; [exact (nth_error_In _ _ E)|].
  destruct (HF i f E) as (s' & x & y & z & t1 & t2 & t3 & Hs' & Hp & _ & _ & _ & _ & Hpts & _).
  cbn [rh h_simplices] in Hs'. assert (s' = s) by congruence. subst s'.
  apply (flatb_ok cubeZ o cube_hull f s x y z (nth_error_In _ _ E) H Hp); unfold vtx, pnth; rewrite Hpts; reflexivity.
Qed.
Lemma cube_plane_flat : exists f, In f (pl_faces cube) /\ flat (rv o_plane) f.
Proof. apply cube_flat. vm_compute. reflexivity. Qed.

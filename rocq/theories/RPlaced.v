(** * Polyhedron.get_gravity at observers in the planes of some facets *)
From Coq Require Import Reals Lra Psatz ZArith Bool List Permutation Arith.
Import ListNotations.
From Coquelicot Require Import Coquelicot.
From Verif Require Import Base MUtils MEdge MFace MHull MPoly SpecPoly PPoly PStation PPlain.
From Verif Require Import RVec RArith REdge REdgeModel RAngle ROmega RFace RFacet RPoly RTwin RField RMove RLaws.
Local Open Scope R_scope.
Local Open Scope list_scope.

(** the observer lies in the plane of the facet *)
Definition flat (o : V) (f : face RA) : Prop := dt (f_un f) (vtx 0 f - o) = 0.
(** the observer is outside the epsilon bands of the edges of the facet, or exactly
    in line with an edge, beyond its end *)
Definition clear3 (o : V) (f : face RA) : Prop :=
  eregular (vtx 0 f) (vtx 1 f) o /\ eregular (vtx 1 f) (vtx 2 f) o /\ eregular (vtx 2 f) (vtx 0 f) o.
(** the observer is not a vertex *)
Definition vertex_free (p : polyhedron RA) (o : V) : Prop :=
  forall f, In f (pl_faces p) -> ~ In o (f_points f).
(** With gradient: the observer is clear of all edges.  Without, it may come close
    to, or lie on, the edges of facets in whose plane it is. *)
Definition clear (p : polyhedron RA) (o : V) (gradient : bool) : Prop :=
  vertex_free p o /\ forall f, In f (pl_faces p) -> clear3 o f \/ (gradient = false /\ flat o f).
(** moreover each facet is outside its epsilon band or lies in a plane through the observer *)
Definition well_placed (p : polyhedron RA) (o : V) (gradient : bool) : Prop :=
  clear p o gradient /\ forall f, In f (pl_faces p) -> eps < Rabs (dt (f_un f) (vtx 0 f - o)) \/ flat o f.

(** what the code takes for the solid angle and its gradient *)
Definition omC (o : V) (f : face RA) : R :=
  if Rlt_dec eps (Rabs (dt (f_un f) (vtx 0 f - o))) then om (vtx 0 f - o) (vtx 1 f - o) (vtx 2 f - o) else 0.
Definition gomC (o : V) (f : face RA) : V :=
  if Rlt_dec eps (Rabs (dt (f_un f) (vtx 0 f - o))) then gom (vtx 0 f - o) (vtx 1 f - o) (vtx 2 f - o) else v0.
(** the contribution of a facet to the gravity vector, and to the gradient in the direction e *)
Definition gC (density Gc : R) (o : V) (f : face RA) : V :=
  (kG density Gc * (dt (f_un f) (vtx 0 f - o) *
    (omC o f * f_un f + cr (Isum (vtx 0 f - o) (vtx 1 f - o) (vtx 2 f - o)) (f_un f))))%v.
Definition jC (density Gc : R) (o : V) (f : face RA) (e : V) : V :=
  (kG density Gc * 10000 *
    (dt (f_un f) (vtx 0 f - o) * (dt (gomC o f) e * f_un f + cr (dIs (vtx 0 f - o) (vtx 1 f - o) (vtx 2 f - o) e) (f_un f))
     - dt (f_un f) e * (omC o f * f_un f + cr (Isum (vtx 0 f - o) (vtx 1 f - o) (vtx 2 f - o)) (f_un f))))%v.
Definition tC (density Gc : R) (o : V) (f : face RA) : vec3 V := up (jC density Gc o f).

Lemma inline_flat k p q o : (p - o)%v = (k * uv p q)%v -> forall r, det (p - o) (q - o) (r - o) = 0.
Proof.
  intros H r. unfold uv in H. replace (q - o)%v with ((q - p) + (p - o))%v by vring. rewrite H.
  generalize (nm (q - p)) (q - p)%v (r - o)%v. intros n w y. unfold det. vring.
Qed.
Lemma eregular_reg q r o s : eregular q r o -> det (q - o) (r - o) (s - o) <> 0 -> reg_edge q r o.
Proof.
  intros [H|[[k [_ H]]|[k [_ H]]]] D; [exact H| |].
  - exfalso. apply D. exact (inline_flat k q r o H s).
  - exfalso. apply D. assert (E : det (r - o) (q - o) (s - o) = 0).
    { apply (inline_flat k). rewrite H, (uv_sym q r). vring. }
    replace (det (q - o) (r - o) (s - o)) with (- det (r - o) (q - o) (s - o)) by (unfold det; vring). rewrite E. ring.
Qed.

Lemma eval_swap o g (e e' : edge RA) : e_start e' = e_end e -> e_end e' = e_start e -> eval o g e' = ev_neg (A := RA) (eval o g e).
Proof.
  intros S1 S2. unfold eval at 1. rewrite S1, S2.
  destruct e as [s p q v l t]. cbn [e_start e_end].
  exact (eval_neg o g p q s t s t).
Qed.

Section Placed.
  Variables (p : polyhedron RA) (o : V) (g : bool).
  Hypothesis Hcl : closed p.
  Hypothesis Hret : forall k e, has_edge p k e -> exists v, edge_integral (A := RA) e o g = Ok v.

  (** the value of an edge is right as far as the observer allows *)
  Definition good (e : edge RA) (v : ev RA) : Prop :=
    (eregular (e_start e) (e_end e) o -> fst v = fst (eval o g e)) /\
    (reg_edge (e_start e) (e_end e) o -> v = eval o g e) /\
    (g = true -> exists m, snd v = Some m).
  Definition pinv (c : known RA) : Prop := forall k e v, has_edge p k e -> c k = Some v -> good e v.

  Lemma good_val k e v : has_edge p k e -> edge_integral (A := RA) e o g = Ok v -> good e v.
  Proof.
    intros H Hv. destruct (has_edge_facet p k e H Hcl) as (f & p1 & p2 & p3 & Hin & Hf & He).
    destruct (facet_edges f p1 p2 p3 e Hf He) as (q & r & s & t & -> & Hqr).
    pose proof (facet_nondeg _ _ _ _ Hf) as (N1 & N2 & N3).
    assert (Hne : q <> r) by (destruct Hqr as [[-> ->]|[[-> ->]|[-> ->]]]; auto).
    unfold good. cbn [e_start e_end mk_edge fst snd]. split; [|split].
    - intros K. destruct (edge_regular_value q r o s t g Hne K) as [_ [d [E _]]].
      assert (E' : Ok v = Ok ((ell (q - o) (r - o) * uv q r)%v, d)) by (rewrite <- Hv; exact E). injection E' as ->. reflexivity.
    - intros [K _]. pose proof (edge_main q r o s t g Hne K) as E.
      assert (E' : Ok v = Ok (eval o g (mk_edge (A := RA) (q, r) s t))) by (rewrite <- Hv; exact E). now injection E'.
    - intros ->. exact (edge_grad _ _ _ Hv).
  Qed.
  Lemma good_neg e e' v : e_start e' = e_end e -> e_end e' = e_start e -> good e v -> good e' (ev_neg (A := RA) v).
  Proof.
    intros S1 S2 (H1 & H2 & H3). unfold good. rewrite (eval_swap o g e e' S1 S2), S1, S2. split; [|split].
    - intros K. apply eregular_sym in K. unfold ev_neg. cbn [fst]. now rewrite (H1 K).
    - intros K. apply reg_edge_sym in K. now rewrite (H2 K).
    - intros Hg. destruct (H3 Hg) as [m Em]. unfold ev_neg. cbn [snd]. rewrite Em. eexists. reflexivity.
  Qed.
  Lemma learn_good c k e : pinv c -> has_edge p k e ->
    exists c' v, learn (A := RA) (pl_twin p) o g c k e = Ok c' /\ pinv c' /\ c' k = Some v /\ good e v.
  Proof.
    intros Hc He. unfold learn. destruct (c k) as [v|] eqn:Ek.
    - exists c, v. split; [reflexivity|split; [exact Hc|split; [exact Ek|exact (Hc k e v He Ek)]]].
    - destruct (Hret k e He) as [v Ev]. rewrite Ev. cbn [bind].
      destruct (proj2 Hcl k e He) as (k' & e' & Ht & He' & _ & S1 & S2). rewrite Ht.
      pose proof (good_val k e v He Ev) as G. pose proof (good_neg e e' v S1 S2 G) as G'.
      assert (I : pinv (upd ekey_eqb (upd ekey_eqb c k (Some v)) k' (Some (ev_neg (A := RA) v)))).
      { intros k1 e1 v1 H1. unfold upd. destruct (ekey_eqb k' k1) eqn:E1.
        - apply ekey_eqb_true in E1. subst k1. intros [= <-]. rewrite (has_edge_fun p k' e1 e' H1 He'). exact G'.
        - destruct (ekey_eqb k k1) eqn:E2; [|now apply Hc].
          apply ekey_eqb_true in E2. subst k1. intros [= <-]. rewrite (has_edge_fun p k e1 e H1 He). exact G. }
      assert (Q : exists w, upd ekey_eqb (upd ekey_eqb c k (Some v)) k' (Some (ev_neg (A := RA) v)) k = Some w).
      { unfold upd. destruct (ekey_eqb k' k); [eauto|]. rewrite (proj2 (ekey_eqb_true k k) eq_refl). eauto. }
      destruct Q as [w Ew]. exists (upd ekey_eqb (upd ekey_eqb c k (Some v)) k' (Some (ev_neg (A := RA) v))), w.
      split; [reflexivity|]. split; [exact I|]. split; [exact Ew|]. exact (I k e w He Ew).
  Qed.

  Lemma face_placed density Gc c fi f : pinv c -> nth_error (pl_faces p) fi = Some f ->
    clear3 o f \/ (g = false /\ flat o f) ->
    exists c', spec_face (A := RA) (pl_twin p) o density Gc g c fi f =
      Ok (gC density Gc o f, if g then tC density Gc o f else m0, c') /\ pinv c'.
  Proof.
    intros Hc Hfi Hpl. pose proof (nth_error_In _ _ Hfi) as Hin.
    destruct (proj1 Hcl f Hin) as (p1 & p2 & p3 & HF). destruct (facet_vtx _ _ _ _ HF) as (E1 & E2 & E3).
    assert (Hk : forall k e, In (k, e) (keyed_edges_of fi f) -> has_edge p k e).
    { intros k e H. pose proof (keyed_has p fi f Hfi) as K. rewrite Forall_forall in K. exact (K (k, e) H). }
    pose proof HF as [Ht (s1 & s2 & s3 & t1 & t2 & t3 & He)].
    assert (Hke : keyed_edges_of fi f = [((fi, 0%nat), mk_edge (A := RA) (p1, p2) s1 t1); ((fi, 1%nat), mk_edge (A := RA) (p2, p3) s2 t2); ((fi, 2%nat), mk_edge (A := RA) (p3, p1) s3 t3)]).
    { unfold keyed_edges_of. rewrite He. reflexivity. }
    destruct (learn_good c (fi, 0%nat) (mk_edge (A := RA) (p1, p2) s1 t1) Hc) as (c1 & v1 & L1 & I1 & K1 & G1); [apply Hk; rewrite Hke; simpl; auto|].
    destruct (learn_good c1 (fi, 1%nat) (mk_edge (A := RA) (p2, p3) s2 t2) I1) as (c2 & v2 & L2 & I2 & K2 & G2); [apply Hk; rewrite Hke; simpl; auto|].
    destruct (learn_good c2 (fi, 2%nat) (mk_edge (A := RA) (p3, p1) s3 t3) I2) as (c3 & v3 & L3 & I3 & K3 & G3); [apply Hk; rewrite Hke; simpl; auto|].
    assert (Es : sum_edges (A := RA) (pl_twin p) o g c None (keyed_edges_of fi f) = Ok (Some (ev_add (ev_add v1 v2) v3), c3)).
    { rewrite Hke. cbn [sum_edges]. rewrite L1. cbn [bind]. rewrite K1, L2. cbn [bind]. rewrite K2, L3. cbn [bind]. rewrite K3. reflexivity. }
    unfold good in G1, G2, G3. cbn [e_start e_end mk_edge fst snd] in G1, G2, G3.
    destruct G1 as (A1 & B1 & D1). destruct G2 as (A2 & B2 & D2). destruct G3 as (A3 & B3 & D3).
    assert (Hun : f_un f = tri_normal p1 p2 p3) by apply Ht.
    assert (Hdet : det (p1 - o) (p2 - o) (p3 - o) = nm (cr (p2 - p1) (p3 - p1)) * dt (f_un f) (p1 - o)).
    { rewrite Hun. apply tri_det. apply Ht. }
    unfold spec_face, dot_point1. rewrite Es. fold (vtx 0 f). toR.
    assert (HO : get_omega (A := RA) f o (dt (f_un f) (vtx 0 f - o)) (Rsgn (dt (f_un f) (vtx 0 f - o))) g =
      Ok (omC o f, if g then gomC o f else v0)).
    { unfold omC, gomC. destruct (Rlt_dec eps (Rabs (dt (f_un f) (vtx 0 f - o)))) as [L|L].
      - rewrite E1, E2, E3 in *. exact (get_omega_R f p1 p2 p3 o g Ht L).
      - unfold get_omega. change (@neps RA) with eps.
        assert (Q : Rltb eps (Rabs (dt (f_un f) (vtx 0 f - o))) = false) by (unfold Rltb; destruct (Rlt_dec eps _); [contradiction|reflexivity]).
        toR. rewrite Q. destruct g; reflexivity. }
    match goal with |- context [bind ?e _] => replace e with (@Ok (R * V) (omC o f, if g then gomC o f else v0)) by (symmetry; exact HO) end.
    cbn [bind fst snd]. clear HO.
    unfold gC, tC, jC, clear3, flat in *. rewrite E1, E2, E3 in *.
    generalize (omC o f) (gomC o f). intros w dw.
    set (a := (p1 - o)%v) in *. set (b := (p2 - o)%v) in *. set (c0 := (p3 - o)%v) in *.
    assert (EI : (ell a b * uv p1 p2 + ell b c0 * uv p2 p3 + ell c0 a * uv p3 p1)%v = Isum a b c0).
    { unfold Isum, a, b, c0. now rewrite !uv_shift. }
    assert (EG : face_g (A := RA) (f_un f) density Gc (dt (f_un f) a) w (Isum a b c0) =
      (kG density Gc * (dt (f_un f) a * (w * f_un f + cr (Isum a b c0) (f_un f))))%v).
    { unfold face_g, face_bracket, face_factor.
      generalize (Isum a b c0). intros I.
      destruct (f_un f) as [L M N]; destruct I as [P Q R']. unfold kG. toR.
      cbn [vscale vmap]. toR. vring. }
    destruct Hpl as [(R1 & R2 & R3)|[Hg Hd]].
    - specialize (A1 R1). specialize (A2 R2). specialize (A3 R3).
      destruct (Req_dec (dt (f_un f) a) 0) as [Hd|Hd].
      + destruct v1 as [v1 d1], v2 as [v2 d2], v3 as [v3 d3]. cbn [fst snd] in *. rewrite A1, A2, A3.
        unfold ev_add. cbn [fst snd]. unfold eval. cbn [e_start e_end mk_edge fst snd]. fold a b c0. toR. rewrite EI, EG.
        destruct g.
        * destruct (D1 eq_refl) as [m1 ->]. destruct (D2 eq_refl) as [m2 ->]. destruct (D3 eq_refl) as [m3 ->].
          exists c3. split; [|exact I3]. apply (f_equal Ok), (f_equal2 pair); [|reflexivity]. apply (f_equal2 pair); [reflexivity|].
          generalize (madd (A := RA) (madd (A := RA) m1 m2) m3). intros m. rewrite Hd.
          unfold up, face_tensor, face_bracket, face_factor.
          generalize (Isum a b c0) (dIs a b c0). intros I dI.
          destruct (f_un f) as [L M N]; destruct I as [P Q R']; destruct dw as [wx wy wz].
          destruct m as [[m11 m12 m13] [m21 m22 m23] [m31 m32 m33]].
          unfold kG, ex, ey, ez.
          unfold va, vm, vn, sc, cr, dt; cbn [vx vy vz]. toR. unfold vn, v0; cbn [vx vy vz].
          f_equal; f_equal; ring.
        * exists c3. split; [reflexivity|exact I3].
      + assert (DD : det a b c0 <> 0).
        { rewrite Hdet. apply Rmult_integral_contrapositive. split; [|exact Hd].
          assert (0 < nm (cr (p2 - p1) (p3 - p1))) by (apply nm_pos; apply Ht). lra. }
        assert (R1' : reg_edge p1 p2 o) by (exact (eregular_reg p1 p2 o p3 R1 DD)).
        assert (R2' : reg_edge p2 p3 o).
        { apply (eregular_reg p2 p3 o p1 R2). fold a b c0. replace (det b c0 a) with (det a b c0); [exact DD|]. generalize a b c0. intros. unfold det. vring. }
        assert (R3' : reg_edge p3 p1 o).
        { apply (eregular_reg p3 p1 o p2 R3). fold a b c0. replace (det c0 a b) with (det a b c0); [exact DD|]. generalize a b c0. intros. unfold det. vring. }
        rewrite (B1 R1'), (B2 R2'), (B3 R3'). unfold eval. cbn [e_start e_end mk_edge fst snd]. fold a b c0.
        unfold ev_add. cbn [fst snd]. destruct g.
        * toR. rewrite EI, EG. exists c3. split; [|exact I3]. apply (f_equal Ok), (f_equal2 pair); [|reflexivity]. apply (f_equal2 pair); [reflexivity|].
          unfold up, face_tensor, face_bracket, face_factor.
          unfold dIs. rewrite <- !(uv_shift p1 p2 o), <- !(uv_shift p2 p3 o), <- !(uv_shift p3 p1 o). fold a b c0.
          generalize (Isum a b c0). intros I. unfold madd, vmap2, outer. cbn [vx vy vz]. toR.
          generalize (gell a b) (gell b c0) (gell c0 a) (uv a b) (uv b c0) (uv c0 a). intros g1 g2 g3 u1 u2 u3.
          generalize (dt (f_un f) a). intros d0.
          destruct (f_un f) as [L M N]; destruct I as [P Q R']; destruct dw as [wx wy wz].
          destruct g1 as [g1x g1y g1z], g2 as [g2x g2y g2z], g3 as [g3x g3y g3z], u1 as [u1x u1y u1z], u2 as [u2x u2y u2z], u3 as [u3x u3y u3z].
          unfold kG, ex, ey, ez.
          unfold va, vm, vn, sc, cr, dt; cbn [vx vy vz]. toR. unfold vn; cbn [vx vy vz].
          f_equal; f_equal; ring.
        * toR. rewrite EI, EG. exists c3. split; [reflexivity|exact I3].
    - (* in the plane of the facet, without gradient *)
      fold a in Hd. rewrite Hd. destruct (ev_add (A := RA) (ev_add (A := RA) v1 v2) v3) as [pqr dpqr].
      exists c3. split; [|exact I3]. rewrite Hg. apply (f_equal Ok), (f_equal2 pair); [|reflexivity]. apply (f_equal2 pair); [|reflexivity].
      unfold face_g. toR. rewrite Rmult_0_l. generalize (face_bracket (A := RA) (f_un f) w pqr) (w * f_un f + cr (Isum a b c0) (f_un f))%v. intros B W.
      eqV. vring.
  Qed.

  Theorem placed_value density Gc : clear p o g ->
    spec_gravity (A := RA) p o density Gc g =
    Ok (vsum (gC density Gc o) (pl_faces p), if g then msum (tC density Gc o) (pl_faces p) else m0).
  Proof.
    intros [_ Hp]. unfold spec_gravity.
    assert (K : forall fs n c G T, pinv c -> (forall j, nth_error fs j = nth_error (pl_faces p) (n + j)) ->
      spec_faces (A := RA) (pl_twin p) o density Gc g c (G, T) (combine (seq n (length fs)) fs) =
        Ok ((G + vsum (gC density Gc o) fs)%v, mplus T (if g then msum (tC density Gc o) fs else m0))).
    { induction fs as [|f fs IH]; intros n c G T Hc Hn; cbn [length seq combine spec_faces].
      - cbn [vsum msum fold_right]. replace (if g then m0 else m0) with m0 by now destruct g. rewrite va_0_r, mplus_0_r. reflexivity.
      - assert (Hf : nth_error (pl_faces p) n = Some f) by (specialize (Hn 0%nat); rewrite Nat.add_0_r in Hn; auto).
        destruct (face_placed density Gc c n f Hc Hf (Hp f (nth_error_In _ _ Hf))) as (c' & E & Hc').
        rewrite E. cbn [bind]. cbv zeta beta iota.
        etransitivity.
        { apply (IH (S n) c' (vadd (A := RA) G (gC density Gc o f)) (madd (A := RA) T (if g then tC density Gc o f else m0)) Hc').
          intros j. specialize (Hn (S j)). cbn [nth_error] in Hn. rewrite Hn. f_equal. rewrite Nat.add_succ_r. reflexivity. }
        cbn [vsum fold_right]. change (@vadd RA) with va. rewrite va_assoc. apply (f_equal Ok), (f_equal2 pair); [reflexivity|].
        change (madd (A := RA) T ?x) with (mplus T x). rewrite <- mplus_assoc. f_equal. destruct g; [reflexivity|apply mplus_0_l]. }
    etransitivity; [apply (K (pl_faces p) 0%nat (fun _ => None) v0 m0)|].
    - intros k e v _ Z. discriminate Z.
    - intros j. reflexivity.
    - now rewrite va_0_l, mplus_0_l.
  Qed.
End Placed.

(** ** The observers get_gravity answers *)
Lemma off_ne p q o : off (p - o) (q - o) -> o <> p.
Proof.
  intros H ->. unfold off, nm, dt in H. replace (p - p)%v with v0 in H by vring. revert H. unfold v0; cbn [vx vy vz].
  replace (0 * 0 + 0 * 0 + 0 * 0) with 0 by ring. rewrite sqrt_0. intros H. lra.
Qed.
Lemma clear_offs p o : closed p -> clear p o true -> offs p o.
Proof.
  intros Hc [_ H] f Hf. destruct (proj1 Hc f Hf) as [p1 [p2 [p3 HF]]].
  pose proof (facet_nondeg _ _ _ _ HF) as (N1 & N2 & N3). specialize (H f Hf).
  destruct (facet_vtx _ _ _ _ HF) as [E1 [E2 E3]]. unfold clear3 in H. rewrite E1, E2, E3 in *.
  destruct H as [(K1 & K2 & K3)|[Z _]]; [|discriminate Z].
  assert (E : forall q r, q <> r -> eregular q r o -> off (q - o) (r - o)).
  { intros q r Hne H0. exact (proj1 (edge_regular_value q r o (0%nat, 0%nat) 0%nat false Hne H0)). }
  split; [apply E; auto|split; apply E; auto].
Qed.
Lemma offs_vertex_free p o : closed p -> offs p o -> vertex_free p o.
Proof.
  intros Hc H f Hf Hin. destruct (proj1 Hc f Hf) as [p1 [p2 [p3 HF]]].
  destruct (offs_facet p o H f p1 p2 p3 HF Hf) as (O1 & O2 & O3).
  destruct HF as [(Ep & _) _]. rewrite Ep in Hin.
  destruct Hin as [<-|[<-|[<-|[]]]]; [apply off_ne in O1|apply off_ne in O2|apply off_ne in O3]; auto.
Qed.
Lemma clear_false p o g : clear p o true -> clear p o g.
Proof. intros [H1 H2]. split; [exact H1|]. intros f Hf. destruct (H2 f Hf) as [K|[K _]]; [left; exact K|discriminate K]. Qed.
Lemma well_false p o g : well_placed p o true -> well_placed p o g.
Proof. intros [H1 H2]. split; [now apply clear_false|exact H2]. Qed.
Lemma regular_well p o g : closed p -> regular p o -> well_placed p o g.
Proof.
  intros Hc H. split; [split|].
  - apply offs_vertex_free; [exact Hc|]. now apply regular_offs.
  - intros f Hf. left. destruct (H f Hf) as (_ & R1 & R2 & R3). split; [left; exact R1|split; [left; exact R2|left; exact R3]].
  - intros f Hf. left. destruct (H f Hf) as (Hd & _). destruct (proj1 Hc f Hf) as [p1 [p2 [p3 HF]]].
    destruct (facet_vtx _ _ _ _ HF) as [E1 [E2 E3]]. rewrite E1, E2, E3 in *. destruct HF as [(_ & _ & _ & ->) _]. exact Hd.
Qed.

Theorem clear_value p o g density Gc : closed p -> clear p o g ->
  spec_gravity (A := RA) p o density Gc g =
  Ok (vsum (gC density Gc o) (pl_faces p), if g then msum (tC density Gc o) (pl_faces p) else m0).
Proof.
  intros Hc H. apply placed_value; [exact Hc| |exact H]. destruct H as [HV H].
  intros k e He. destruct (has_edge_facet p k e He Hc) as (f & p1 & p2 & p3 & Hin & Hf & Hfe).
  destruct (facet_edges f p1 p2 p3 e Hf Hfe) as (q & r & s & t & -> & Hqr).
  pose proof (facet_nondeg _ _ _ _ Hf) as (N1 & N2 & N3). destruct (facet_vtx _ _ _ _ Hf) as (E1 & E2 & E3).
  destruct g.
  - specialize (H f Hin). unfold clear3 in H. rewrite E1, E2, E3 in H.
    assert (K : q <> r /\ eregular q r o).
    { destruct H as [(R1 & R2 & R3)|[Z _]]; [|discriminate Z].
      destruct Hqr as [[-> ->]|[[-> ->]|[-> ->]]]; split; auto. }
    destruct K as [K1 K2]. destruct (edge_regular_value q r o s t true K1 K2) as [_ [d [E _]]]. eexists. exact E.
  - apply edge_nograd. cbn [e_start mk_edge]. intros ->. apply (HV f Hin). destruct Hf as [(-> & _) _].
    destruct Hqr as [[-> _]|[[-> _]|[-> _]]]; simpl; auto.
Qed.

(** outside the band, and exactly in the plane, the code has the exact contribution *)
Lemma exact_facet p o f d G : closed p -> In f (pl_faces p) ->
  eps < Rabs (dt (f_un f) (vtx 0 f - o)) \/ flat o f -> gC d G o f = gF d G o f /\ forall e, jC d G o f e = jF d G o f e.
Proof.
  intros Hc Hf H. unfold gC, jC, gF, jF, JJ, FF, omC, gomC.
  destruct (Rlt_dec eps (Rabs (dt (f_un f) (vtx 0 f - o)))) as [L|L]; [split; [reflexivity|intros; reflexivity]|].
  destruct H as [H|H]; [contradiction|]. unfold flat in H. rewrite H.
  assert (Z : om (vtx 0 f - o) (vtx 1 f - o) (vtx 2 f - o) = 0).
  { destruct (proj1 Hc f Hf) as [p1 [p2 [p3 HF]]]. destruct (facet_vtx _ _ _ _ HF) as [E1 [E2 E3]]. rewrite E1, E2, E3 in *.
    destruct HF as [(_ & _ & Hn & Hu) _]. apply om_flat. rewrite (tri_det p1 p2 p3 o Hn).
    change (uu (cr (p2 - p1) (p3 - p1))) with (tri_normal p1 p2 p3). rewrite <- Hu, H. ring. }
  rewrite Z. split; [reflexivity|]. intros e.
  generalize (gom (vtx 0 f - o) (vtx 1 f - o) (vtx 2 f - o)) (dIs (vtx 0 f - o) (vtx 1 f - o) (vtx 2 f - o) e)
    (Isum (vtx 0 f - o) (vtx 1 f - o) (vtx 2 f - o)) (f_un f : V). intros. vring.
Qed.
Lemma vsum_in {X} (F H : X -> V) l : (forall x, In x l -> F x = H x) -> vsum F l = vsum H l.
Proof. induction l as [|x l IH]; intros E; cbn [vsum fold_right]; [reflexivity|]. rewrite (E x) by now left. f_equal. apply IH. intros; apply E; now right. Qed.
Lemma msum_in {X} (F H : X -> vec3 V) l : (forall x, In x l -> F x = H x) -> msum F l = msum H l.
Proof. induction l as [|x l IH]; intros E; cbn [msum fold_right]; [reflexivity|]. rewrite (E x) by now left. f_equal. apply IH. intros; apply E; now right. Qed.

Theorem well_value p o g density Gc : closed p -> well_placed p o g ->
  spec_gravity (A := RA) p o density Gc g =
  Ok (vsum (gF density Gc o) (pl_faces p), if g then msum (tF density Gc o) (pl_faces p) else m0).
Proof.
  intros Hc [H1 H2]. rewrite (clear_value p o g density Gc Hc H1). apply (f_equal Ok), (f_equal2 pair).
  - apply vsum_in. intros f Hf. apply (exact_facet p o f density Gc Hc Hf (H2 f Hf)).
  - destruct g; [|reflexivity]. apply msum_in. intros f Hf. unfold tC, tF, up.
    destruct (exact_facet p o f density Gc Hc Hf (H2 f Hf)) as [_ E]. now rewrite !E.
Qed.

(** ** The observer moves *)
(** clear of the epsilon bands of all lines through edges; each plane of a facet
    passes through the observer or stays outside its epsilon band *)
Definition steady (p : polyhedron RA) (o : V) : Prop :=
  forall f, In f (pl_faces p) ->
    (reg_edge (vtx 0 f) (vtx 1 f) o /\ reg_edge (vtx 1 f) (vtx 2 f) o /\ reg_edge (vtx 2 f) (vtx 0 f) o) /\
    (eps < Rabs (dt (f_un f) (vtx 0 f - o)) \/ flat o f).
Definition reg_edges (p : polyhedron RA) (o : V) : Prop :=
  forall f, In f (pl_faces p) ->
    reg_edge (vtx 0 f) (vtx 1 f) o /\ reg_edge (vtx 1 f) (vtx 2 f) o /\ reg_edge (vtx 2 f) (vtx 0 f) o.
Lemma clear3_all p o g : closed p -> (forall f, In f (pl_faces p) -> clear3 o f) -> clear p o g.
Proof.
  intros Hc H. split; [|intros f Hf; left; auto]. intros f Hf Hin.
  destruct (proj1 Hc f Hf) as [p1 [p2 [p3 HF]]]. pose proof (facet_nondeg _ _ _ _ HF) as (N1 & N2 & N3).
  specialize (H f Hf). unfold clear3 in H.
  destruct (facet_vtx _ _ _ _ HF) as [E1 [E2 E3]]. rewrite E1, E2, E3 in *. destruct H as (K1 & K2 & K3).
  assert (E : forall q r, q <> r -> eregular q r o -> o <> q).
  { intros q r Hne H0. exact (off_ne _ _ _ (proj1 (edge_regular_value q r o (0%nat, 0%nat) 0%nat false Hne H0))). }
  destruct HF as [(Ep & _) _]. rewrite Ep in Hin.
  destruct Hin as [Q|[Q|[Q|[]]]]; [apply (E p1 p2)|apply (E p2 p3)|apply (E p3 p1)]; auto.
Qed.
Lemma reg_edges_clear p o g : closed p -> reg_edges p o -> clear p o g.
Proof.
  intros Hc H. apply clear3_all; [exact Hc|]. intros f Hf. destruct (H f Hf) as (R1 & R2 & R3).
  split; [left; exact R1|split; [left; exact R2|left; exact R3]].
Qed.
Lemma steady_edges p o : steady p o -> reg_edges p o.
Proof. intros H f Hf. apply (H f Hf). Qed.
Lemma steady_well p o g : closed p -> steady p o -> well_placed p o g.
Proof. intros Hc H. split; [apply reg_edges_clear; [exact Hc|now apply steady_edges]|]. intros f Hf. apply (H f Hf). Qed.
Lemma regular_steady p o : closed p -> regular p o -> steady p o.
Proof.
  intros Hc H f Hf. destruct (regular_well p o true Hc H) as [_ K]. split; [|auto]. apply (H f Hf).
Qed.
Lemma edges_open p o e : closed p -> reg_edges p o -> locally 0 (fun t => reg_edges p (o + t * e)%v).
Proof.
  intros Hc HR. apply (loc_list (fun f t => reg_edge (vtx 0 f) (vtx 1 f) (o + t * e)%v /\
    reg_edge (vtx 1 f) (vtx 2 f) (o + t * e)%v /\ reg_edge (vtx 2 f) (vtx 0 f) (o + t * e)%v)).
  intros f Hf. destruct (HR f Hf) as [H1 [H2 H3]].
  destruct (proj1 Hc f Hf) as [p1 [p2 [p3 HF]]].
  destruct (facet_vtx _ _ _ _ HF) as [E1 [E2 E3]]. rewrite E1, E2, E3 in *.
  destruct (facet_nondeg _ _ _ _ HF) as [N1 [N2 N3]].
  apply filter_and; [|apply filter_and]; apply reg_edge_open; auto.
Qed.
Lemma vder_loc (F H : R -> V) t d : locally t (fun s => F s = H s) -> vder F t d -> vder H t d.
Proof.
  intros L (D1 & D2 & D3).
  split3; eapply is_derive_ext_loc; try eassumption; (eapply filter_imp; [|exact L]); intros s E; cbv beta in *; now rewrite E.
Qed.

Section Move.
  Variables (p : polyhedron RA) (o : V) (density Gc : R).
  Hypothesis Hcl : closed p.
  Hypothesis Hst : steady p o.

  Lemma steady_offs : offs p o.
  Proof. apply clear_offs; [exact Hcl|]. apply (steady_well p o true Hcl Hst). Qed.
  Lemma gC_der f e : In f (pl_faces p) ->
    vder (fun t : R => gC density Gc (o + t * e)%v f) 0 (/ 10000 * jF density Gc o f e)%v.
  Proof.
    intros Hf. destruct (proj1 Hcl f Hf) as [p1 [p2 [p3 HF]]].
    pose proof (offs_facet p o steady_offs f p1 p2 p3 HF Hf) as Ho.
    pose proof (proj2 (Hst f Hf)) as Hd. unfold flat in Hd.
    destruct (facet_vtx _ _ _ _ HF) as [E1 [E2 E3]].
    pose proof (nondeg_shift _ _ _ o (facet_nondeg _ _ _ _ HF)) as Hnd.
    assert (Hdet : det (p1 - o) (p2 - o) (p3 - o) = nm (cr (p2 - p1) (p3 - p1)) * dt (f_un f) (p1 - o)).
    { destruct HF as [(_ & _ & Hn & Hu) _]. rewrite Hu. now apply tri_det. }
    assert (HN : 0 < nm (cr (p2 - p1) (p3 - p1))) by (apply nm_pos; destruct HF as [(_ & _ & Hn & _) _]; exact Hn).
    rewrite E1 in Hd. pose proof eps_pos as He.
    destruct Hd as [Hd|Hd].
    - (* outside the band *)
      assert (D : det (p1 - o) (p2 - o) (p3 - o) <> 0).
      { rewrite Hdet. apply Rmult_integral_contrapositive. split; [lra|]. intros Z. rewrite Z, Rabs_R0 in Hd. lra. }
      pose proof (bracket_path _ _ _ (f_un f) Ho Hnd e D) as HB.
      apply (vder_loc (fun t : R => gF density Gc (o + t * e)%v f)).
      + assert (L : locally 0 (fun t => eps < Rabs (dt (f_un f) (p1 - (o + t * e))))).
        { apply (loc_lt (fun t => Rabs (dt (f_un f) (p1 - (o + t * e))))).
          - apply continuous_comp; [apply cont_dt|apply continuous_Rabs].
          - rewrite obs0. exact Hd. }
        eapply filter_imp; [|exact L]. intros t Ht. cbv beta in *. symmetry. apply (exact_facet p); auto. left. now rewrite E1.
      + eapply vder_eq.
        * unfold gF. rewrite E1, E2, E3. 
          apply (vder_sc (fun _ => kG density Gc) (fun t : R => (dt (f_un f) (p1 - (o + t * e)) *
             FF (f_un f) (p1 - (o + t * e)) (p2 - (o + t * e)) (p3 - (o + t * e)))%v)); [apply @is_derive_const|].
          destruct HB as [B1 [B2 B3]].
          split3; (eapply is_derive_ext; [intros t; rewrite !sub_path; reflexivity|]); eassumption.
        * unfold jF. rewrite E1, E2, E3. unfold zero; cbn [AbelianGroup.zero]. cbn. 
          unfold sc, va; cbn [vx vy vz]. apply veq; cbn [vx vy vz]; field.
    - (* in the plane: the code drops the solid angle in the whole band *)
      apply (vder_loc (fun t : R => (kG density Gc * (dt (f_un f) ((p1 - o) - t * e) *
        cr (Isum ((p1 - o) - t * e) ((p2 - o) - t * e) ((p3 - o) - t * e)) (f_un f)))%v)).
      + assert (L : locally 0 (fun t => - eps < - Rabs (dt (f_un f) (p1 - (o + t * e))))).
        { apply (loc_lt (fun t => - Rabs (dt (f_un f) (p1 - (o + t * e))))).
          - apply @continuous_opp. apply continuous_comp; [apply cont_dt|apply continuous_Rabs].
          - rewrite obs0, Hd, Rabs_R0. lra. }
        eapply filter_imp; [|exact L]. intros t Ht. cbv beta in *. unfold gC, omC. rewrite E1, E2, E3, !sub_path.
        rewrite sub_path in Ht. destruct (Rlt_dec _ _) as [Z|_]; [lra|].
        generalize (Isum ((p1 - o) - t * e) ((p2 - o) - t * e) ((p3 - o) - t * e)) (dt (f_un f) ((p1 - o) - t * e)) (f_un f : V). intros. vring.
      + pose proof (Isum_path _ _ _ Ho Hnd e) as HI. eapply vder_eq.
        * apply (vder_sc (fun _ => kG density Gc) (fun t : R => (dt (f_un f) ((p1 - o) - t * e) *
            cr (Isum ((p1 - o) - t * e) ((p2 - o) - t * e) ((p3 - o) - t * e)) (f_un f))%v)); [apply @is_derive_const|].
          apply (vder_sc (fun t => dt (f_un f) ((p1 - o) - t * e)) (fun t => cr (Isum ((p1 - o) - t * e) ((p2 - o) - t * e) ((p3 - o) - t * e)) (f_un f))).
          -- apply (dt_der (fun _ => f_un f : V) (fun t => ((p1 - o) - t * e)%v)); [apply vder_const|apply path_der].
          -- apply (cr_der (fun t => Isum ((p1 - o) - t * e) ((p2 - o) - t * e) ((p3 - o) - t * e)) (fun _ => f_un f : V)); [exact HI|apply vder_const].
        * cbn beta. rewrite !path0. unfold jF, JJ, FF. rewrite E1, E2, E3, Hd.
          assert (Z : om (p1 - o) (p2 - o) (p3 - o) = 0) by (apply om_flat; rewrite Hdet, Hd; ring). rewrite Z.
          rewrite dt_opp_r, dt_0_l. unfold zero; cbn.
          generalize (gom (p1 - o) (p2 - o) (p3 - o)) (dIs (p1 - o) (p2 - o) (p3 - o) e) (Isum (p1 - o) (p2 - o) (p3 - o)) (kG density Gc) (dt (f_un f) e).
          generalize (f_un f : V). intros n w dI I k x. unfold sc, va, vm, vn, cr, dt, v0; cbn [vx vy vz]. apply veq; cbn [vx vy vz]; field.
  Qed.
  Lemma steady_der e :
    vder (fun t : R => vsum (gC density Gc (o + t * e)%v) (pl_faces p)) 0
      (/ 10000 * mapp (msum (tF density Gc o) (pl_faces p)) e)%v.
  Proof.
    eapply vder_eq; [apply (vder_vsum (fun f t => gC density Gc (o + t * e)%v f)); intros f Hf; apply gC_der; exact Hf|].
    rewrite (tensor_app_off p o density Gc Hcl steady_offs e).
    unfold Jtot. induction (pl_faces p) as [|f l IH]; cbn [vsum fold_right]; [vring|].
    fold (vsum (fun f => jF density Gc o f e) l). fold (vsum (fun f => (/ 10000 * jF density Gc o f e)%v) l).
    rewrite <- IH. vring.
  Qed.
End Move.

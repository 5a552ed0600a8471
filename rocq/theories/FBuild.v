(** * Polyhedron(points) in double precision *)
From Coq Require Import ZArith Reals Lra Lia Bool Psatz Floats.SpecFloat List Arith Permutation.
From Flocq Require Import Core.
From Verif Require Import Base MUtils MEdge MFace MHull SpecPoly PPoly PStation PPlain FArith FReal FErr FDot RVec RArith
  REdge REdgeModel RAngle ROmega RFace RFacet RPoly RTwin RHull PSim FHull FNorm.
Import ListNotations.
Local Open Scope R_scope.

Lemma within_nm d v : within d v -> nm v <= 7 / 4 * d.
Proof.
  intros (H1 & H2 & H3). pose proof (Rabs_pos (vx v)) as P0.
  assert (Sq : forall a, Rabs a <= d -> a * a <= d * d).
  { intros a Ha. replace (a * a) with (Rabs a * Rabs a) by (rewrite <- Rabs_mult, Rabs_pos_eq; nra). apply Rmult_le_compat; auto using Rabs_pos. }
  pose proof (Sq _ H1). pose proof (Sq _ H2). pose proof (Sq _ H3).
  unfold nm, dt. replace (7 / 4 * d) with (sqrt ((7 / 4 * d) * (7 / 4 * d))) by (apply sqrt_square; lra).
  apply sqrt_le_1_alt. nra.
Qed.

Lemma orient3 {A : arith} (pts : list (vec A)) cen inh a b c (s : bool) :
  let cross := cross3 (vsub (pnth b pts) (pnth a pts)) (vsub (pnth c pts) (pnth a pts)) in
  let d := dot cross (vsub cen (pnth a pts)) in
  (nltb n0 d = s /\ neqb d n0 = false) ->
  orient pts cen inh [a; b; c] =
    Ok (if s then ([a; c; b], vdivs (vopp cross) (norm cross)) else ([a; b; c], vdivs cross (norm cross))).
Proof. intros cross d [H1 H2]. unfold orient. fold cross. fold d. rewrite H1, H2. now destruct s. Qed.

Section Build.
  Variables lg ac : F -> F.
  Variable DP : dotlib.
  Let FD := FA lg ac DP.

  (** the same hull, its points read as real numbers *)
  Definition real_hull (h : hull FD) : hull RA :=
    {| h_points := (map fvec (h_points h) : list (vec RA)); h_simplices := h_simplices h; h_neighbors := h_neighbors h; h_vertices := h_vertices h |}.

  Lemma pt_real h i : pt (real_hull h) i = fvec (pnth (A := FD) i (h_points h)).
  Proof. apply fvec_nth. Qed.

  (** ** Unit normal *)
  Lemma un_close {M L n} (H : scale n M L) (c : vec FD) (N : V) : vap c N (2 * (L * L)) (9 * (L * L)) ->
    / 2 ^ 48 * (L * L) <= nm N ->
    within (/ 2 ^ 47 * (L * L / nm N)) (fvec (vdivs (A := FD) c (norm c)) - uu N)%v /\
    within (/ 2 ^ 47 * (L * L / nm N)) (fvec (vdivs (A := FD) (vopp c) (norm c)) - uu (- N))%v /\
    vfin (vdivs (A := FD) c (norm c)) /\ vfin (vdivs (A := FD) (vopp c) (norm c)).
  Proof.
    intros Hc Hn. pose proof (sc_pos H) as [L0 _]. set (L2 := L * L) in *. assert (P2 : 0 < L2) by (unfold L2; nra).
    pose proof u53_pos as u0. assert (us : u53 <= / 1000000) by (unfold u53; lra).
    assert (I47 : / 2 ^ 47 = 64 * u53) by (unfold u53; field).
    assert (I48 : / 2 ^ 48 = 32 * u53) by (unfold u53; field).
    destruct c as [c1 c2 c3], N as [N1 N2 N3]. destruct Hc as (A1 & A2 & A3). cbn [vx vy vz] in *.
    set (N := V3 N1 N2 N3) in *. set (c := (V3 c1 c2 c3 : vec FD)).
    assert (Fc : vfin c) by (split; [|split]; [eapply ap_fin; exact A1|eapply ap_fin; exact A2|eapply ap_fin; exact A3]).
    set (nu := nm N) in *. rewrite I48 in Hn. assert (u0L : 0 < u53 * L2) by (apply Rmult_lt_0_compat; lra). assert (nu0 : 0 < nu) by lra.
    assert (Dw : nm (fvec c - N)%v <= 63 / 4 * (L2 * u53)).
    { eapply Rle_trans; [apply (within_nm (9 * L2 * u53))|lra].
      split; [exact (proj1 (proj2 A1))|]. split; [exact (proj1 (proj2 A2))|exact (proj1 (proj2 A3))]. }
    assert (Nw : nu <= 7 / 2 * L2).
    { unfold nu. eapply Rle_trans; [apply (within_nm (2 * L2))|lra]. split; [apply A1|]. split; [apply A2|apply A3]. }
    set (m := nm (fvec c)).
    assert (T1 : nu <= m + nm (fvec c - N)%v).
    { pose proof (nm_triang (fvec c) (- (fvec c - N))%v) as T. replace (fvec c + - (fvec c - N))%v with N in T by vring.
      replace (nm (- (fvec c - N))%v) with (nm (fvec c - N)%v) in T by (unfold nm; f_equal; vring). exact T. }
    assert (T2 : m <= nu + nm (fvec c - N)%v).
    { pose proof (nm_triang N (fvec c - N)%v) as T. replace (N + (fvec c - N))%v with (fvec c) in T by vring. exact T. }
    assert (mlo : 16 * (u53 * L2) <= m) by lra.
    assert (m0 : 0 < m) by lra.
    assert (Lb : bpow radix2 (-400) <= L2 <= bpow radix2 402).
    { pose proof (sc_lo _ _ _ H) as K1. pose proof (L_hi H) as K2. rewrite lo_bpow in K1. change (- Z.of_nat 200)%Z with (-200)%Z in K1.
      split; unfold L2.
      - apply Rle_trans with (bpow radix2 (-200) * bpow radix2 (-200)); [rewrite <- bpow_plus; apply bpow_le; lia|].
        apply Rmult_le_compat; auto using bpow_ge_0.
      - apply Rle_trans with (bpow radix2 201 * bpow radix2 201); [apply Rmult_le_compat; lra|]. rewrite <- bpow_plus. apply bpow_le. lia. }
    assert (mrange : / 2 ^ 460 <= m <= 2 ^ 460).
    { rewrite lo_bpow, hi_bpow. split.
      - apply Rle_trans with (2 := mlo). apply Rle_trans with (u53 * L2); [|lra]. rewrite u53_bpow.
        apply Rle_trans with (bpow radix2 (-53) * bpow radix2 (-400)); [rewrite <- bpow_plus; apply bpow_le; lia|].
        apply Rmult_le_compat_l; [apply bpow_ge_0|lra].
      - apply Rle_trans with (8 * bpow radix2 402).
        + assert (L2 * u53 <= L2 * / 1000000) by (apply Rmult_le_compat_l; lra). lra.
        + change 8 with (bpow radix2 3). rewrite <- bpow_plus. apply bpow_le. lia. }
    destruct (norm_close lg ac DP c Fc mrange) as [Fq Vq]. fold FD in Fq, Vq. fold m in Vq. set (q := norm (A := FD) c) in *.
    destruct (comp_nm (fvec c)) as (G1 & G2 & G3). fold m in G1, G2, G3.
    pose proof (unit_close (fvec c) N nu0 m0) as UC. fold nu m in UC.
    destruct (comp_nm (/ m * fvec c - / nu * N)%v) as (W1 & W2 & W3).
    assert (Bd : 2 * nm (fvec c - N)%v / nu <= 63 / 2 * (L2 * u53 / nu)).
    { unfold Rdiv. assert (I : 0 < / nu) by now apply Rinv_0_lt_compat.
      assert (nm (fvec c - N)%v * / nu <= 63 / 4 * (L2 * u53) * / nu) by (apply Rmult_le_compat_r; lra). lra. }
    assert (Four : 4 * u53 <= 14 * (L2 * u53 / nu)).
    { apply Rmult_le_reg_r with nu; [exact nu0|]. replace (14 * (L2 * u53 / nu) * nu) with (14 * (L2 * u53)) by (field; lra).
      assert (u53 * nu <= u53 * (7 / 2 * L2)) by (apply Rmult_le_compat_l; lra). lra. }
    assert (Q0 : 0 < L2 * u53 / nu).
    { apply Rmult_lt_0_compat; [lra|now apply Rinv_0_lt_compat]. }
    assert (E64 : / 2 ^ 47 * (L2 / nu) = 64 * (L2 * u53 / nu)) by (rewrite I47; field; lra). rewrite E64.
    assert (St : forall x y, fin x -> Rabs (fv x) <= m -> Rabs (/ m * fv x - / nu * y) <= nm (/ m * fvec c - / nu * N)%v ->
      (fin (fdiv x q) /\ Rabs (fv (fdiv x q) - / nu * y) <= 64 * (L2 * u53 / nu)) /\
      (fin (fdiv (SFopp x) q) /\ Rabs (fv (fdiv (SFopp x) q) - / nu * - y) <= 64 * (L2 * u53 / nu))).
    { intros x y Fx Hx Hd.
      destruct (div_close x q m Fx Fq (proj1 mrange) Hx Vq) as [D1 D2].
      destruct (fopp_ok x Fx) as [Fo Vo].
      destruct (div_close (SFopp x) q m Fo Fq (proj1 mrange)) as [D3 D4]; [rewrite Vo, Rabs_Ropp; exact Hx|exact Vq|].
      rewrite Vo in D4. split; (split; [assumption|]).
      - replace (fv (fdiv x q) - / nu * y) with ((fv (fdiv x q) - fv x / m) + (/ m * fv x - / nu * y)) by (field; lra).
        eapply Rle_trans; [apply Rabs_triang|]. lra.
      - replace (fv (fdiv (SFopp x) q) - / nu * - y) with ((fv (fdiv (SFopp x) q) - - fv x / m) + - (/ m * fv x - / nu * y)) by (field; lra).
        eapply Rle_trans; [apply Rabs_triang|]. rewrite Rabs_Ropp. lra. }
    destruct Fc as (Fc1 & Fc2 & Fc3).
    destruct (St c1 N1 Fc1 G1 W1) as [[X1 Y1] [X1' Y1']]. destruct (St c2 N2 Fc2 G2 W2) as [[X2 Y2] [X2' Y2']].
    destruct (St c3 N3 Fc3 G3 W3) as [[X3 Y3] [X3' Y3']].
    assert (En : nm (- N)%v = nu) by (unfold nu, nm; f_equal; vring).
    split; [|split; [|split]].
    - unfold uu. fold nu. split; [exact Y1|]. split; [exact Y2|exact Y3].
    - unfold uu. rewrite En. split; [exact Y1'|]. split; [exact Y2'|exact Y3'].
    - split; [exact X1|]. split; assumption.
    - split; [exact X1'|]. split; assumption.
  Qed.

  (** ** Margin: no facet is too flat as seen from the centroid, for the size of the body *)
  Definition margin (M L : R) (h : hull FD) : Prop :=
    forall a b c, In [a; b; c] (h_simplices h) ->
      ((INR (length (h_vertices h)) + 1) * M + 8 * L) * (L * L) / 2 ^ 50 <
      Rabs (dt (nrm3 (real_hull h) a b c) (centroid (A := RA) (h_points (real_hull h)) (h_vertices h) - pt (real_hull h) a)%v).

  Section One.
    Context {M L : R} (h : hull FD).
    Hypothesis Hh : correct_hull (real_hull h).
    Hypothesis Hs : scale (length (h_vertices h)) M L.
    Hypothesis Hp : placed lg ac DP M L (h_points h) (h_vertices h).
    Hypothesis Hm : margin M L h.
    Let P i := pnth (A := FD) i (h_points h).
    Let RH := real_hull h.
    Let bound x y z := / 2 ^ 47 * (L * L / nm (nrm3 RH x y z)).

    Lemma tri_in a b c : In [a; b; c] (h_simplices h) -> In a (h_vertices h) /\ In b (h_vertices h) /\ In c (h_vertices h).
    Proof.
      intros Hin. repeat split; apply (ch_vert RH Hh [a; b; c]); auto; cbn; auto.
    Qed.

    Lemma orient_close inF inR a b c : In [a; b; c] (h_simplices h) ->
      exists y z un, orient (A := FD) (h_points h) (centroid (A := FD) (h_points h) (h_vertices h)) inF [a; b; c] = Ok ([a; y; z], un) /\
        orient (A := RA) (h_points RH) (centroid (A := RA) (h_points RH) (h_vertices RH)) inR [a; b; c]
          = Ok ([a; y; z], tri_normal (pt RH a) (pt RH y) (pt RH z)) /\
        vfin un /\ within (bound a y z) (fvec un - tri_normal (pt RH a) (pt RH y) (pt RH z))%v.
    Proof.
      intros Hin. destruct (tri_in a b c Hin) as (Ia & Ib & Ic).
      pose proof (det_close lg ac DP (h_points h) (h_vertices h) a b c Hs Hp Ia Ib Ic) as D. cbv zeta in D. fold FD in D. fold (P a) (P b) (P c) in D.
      destruct Hp as [Hp1 Hp2]. pose proof Hs as Hs'.
      assert (Cx : vap (cross3 (A := FD) (vsub (P b) (P a)) (vsub (P c) (P a))) (nrm3 RH a b c) (2 * (L * L)) (9 * (L * L))).
      { unfold nrm3, RH. rewrite !pt_real. destruct (Hp1 a Ia), (Hp1 b Ib), (Hp1 c Ic).
        apply (cross_ap lg ac DP Hs); apply (diff_ap lg ac DP Hs); try assumption; apply Hp2; assumption. }
      assert (Dm := Hm a b c Hin). fold RH in Dm.
      assert (Ed : dt (cr (fvec (P b) - fvec (P a)) (fvec (P c) - fvec (P a))) (centroid (A := RA) (map fvec (h_points h)) (h_vertices h) - fvec (P a))%v =
        dt (nrm3 RH a b c) (centroid (A := RA) (h_points RH) (h_vertices h) - pt RH a)%v).
      { unfold nrm3, RH, P. rewrite !pt_real. reflexivity. }
      apply (ap_ext _ _ _ _ _ Ed) in D. clear Ed. set (dr := dt (nrm3 RH a b c) _) in *.
      assert (Wc : within L (centroid (A := RA) (h_points RH) (h_vertices h) - pt RH a)%v).
      { apply centroid_within; [intros E; rewrite E in Ia; destruct Ia|]. intros i Hi. unfold RH. rewrite pt_real. cbn [real_hull h_points].
        change (within L (nth i (map fvec (h_points h)) v0 - fvec (pnth (A := FD) a (h_points h)))%v).
        pose proof (fvec_nth lg ac DP (h_points h) i) as En. fold FD in En. rewrite En. apply Hp2; assumption. }
      pose proof (sc_pos Hs) as [L0 M0]. pose proof (sc_L _ _ _ Hs) as LM. pose proof (sc_n_hi Hs) as Hn.
      assert (I50 : / 2 ^ 50 = 8 * u53) by (unfold u53; field). pose proof u53_pos as u0.
      assert (L20 : 0 < L * L) by nra.
      assert (Mg : (8 * ((INR (length (h_vertices h)) + 1) * M * (L * L)) + 64 * (L * L * L)) * u53 < Rabs dr).
      { eapply Rle_lt_trans; [|exact Dm]. unfold Rdiv. rewrite I50. right. ring. }
      assert (Nu : / 2 ^ 48 * (L * L) <= nm (nrm3 RH a b c)).
      { assert (CS : Rabs dr <= nm (nrm3 RH a b c) * (7 / 4 * L)).
        { unfold dr. eapply Rle_trans; [|apply Rmult_le_compat_l; [apply nm_nonneg|apply (within_nm L); exact Wc]].
          set (u := nrm3 RH a b c). set (v := (centroid (A := RA) (h_points RH) (h_vertices h) - pt RH a)%v). clearbody u v.
          pose proof (nm_sq u). pose proof (nm_sq v). pose proof (nm_nonneg u). pose proof (nm_nonneg v).
          assert (K : dt u u * dt v v - dt u v * dt u v = dt (cr u v) (cr u v)) by (vdes; vring). pose proof (dt_nonneg (cr u v)).
          assert (Q : 0 <= nm u * nm v) by (apply Rmult_le_pos; assumption).
          apply Rsqr_incr_0; [|apply Rabs_pos|exact Q]. rewrite <- Rsqr_abs. unfold Rsqr.
          replace (nm u * nm v * (nm u * nm v)) with ((nm u * nm u) * (nm v * nm v)) by ring. rewrite H, H0. lra. }
        assert (I48 : / 2 ^ 48 = 32 * u53) by (unfold u53; field). rewrite I48.
        apply Rmult_le_reg_r with (7 / 4 * L); [lra|]. apply Rle_trans with (2 := CS). apply Rlt_le, Rle_lt_trans with (2 := Mg).
        assert (0 <= (INR (length (h_vertices h)) + 1) * M * (L * L)) by (apply Rmult_le_pos; [apply Rmult_le_pos|]; lra).
        assert (X : 32 * u53 * (L * L) * (7 / 4 * L) = (56 * (L * L * L)) * u53) by field. rewrite X.
        apply Rmult_le_compat_r; [lra|]. assert (0 < L * L * L) by (apply Rmult_lt_0_compat; lra). lra. }
      destruct (un_close Hs _ _ Cx Nu) as (U1 & U2 & U3 & U4).
      pose proof (centroid_strict RH a b c Hh Hin) as HC. cbv zeta in HC. change (h_vertices RH) with (h_vertices h) in HC. fold dr in HC.
      destruct HC as [[Hq Ho]|[Hq Ho]].
      - rewrite Rabs_left in Mg by exact Hq.
        pose proof (ap_neg _ _ _ _ D ltac:(lra)) as Z.
        exists b, c. eexists. split; [exact (orient3 (A := FD) (h_points h) _ inF a b c false Z)|]. split; [|split; [exact U3|exact U1]].
        unfold orient, pnth. toR. change (@vzero RA) with v0.
        fold (pt RH a) (pt RH b) (pt RH c). fold (nrm3 RH a b c). change (h_vertices RH) with (h_vertices h). fold dr.
        rewrite (proj2 (Reqb_false _ _)) by lra. cbn [andb]. rewrite (proj2 (Rltb_false _ _)) by lra. cbn [negb]. toR. reflexivity.
      - rewrite Rabs_pos_eq in Mg by lra.
        pose proof (ap_pos _ _ _ _ D ltac:(lra)) as Z.
        exists c, b. eexists. split; [exact (orient3 (A := FD) (h_points h) _ inF a b c true Z)|]. split; [|split; [exact U4|]].
        + unfold orient, pnth. toR. change (@vzero RA) with v0.
          fold (pt RH a) (pt RH b) (pt RH c). fold (nrm3 RH a b c). change (h_vertices RH) with (h_vertices h). fold dr.
          rewrite (proj2 (Reqb_false _ _)) by lra. cbn [andb]. rewrite (proj2 (Rltb_true _ _)) by lra. cbn [negb]. toR. cbn [rev app]. do 2 f_equal.
          unfold tri_normal, uu. fold (nrm3 RH a c b). rewrite (nrm3_swap RH a b c), nm_opp. reflexivity.
        + unfold bound, tri_normal. fold (nrm3 RH a c b). rewrite (nrm3_swap RH a b c), nm_opp. exact U2.
    Qed.

    Lemma eqs_agree i j : In i (h_vertices h) -> In j (h_vertices h) ->
      veqb (A := RA) (pnth (A := RA) i (h_points RH)) (pnth (A := RA) j (h_points RH)) = veqb (A := FD) (P i) (P j).
    Proof.
      intros Hi Hj. change (veqb (A := RA) (pt RH i) (pt RH j) = veqb (A := FD) (P i) (P j)). unfold RH. rewrite !pt_real. fold (P i) (P j).
      destruct Hp as [Hp1 _]. destruct (Hp1 i Hi) as [(I1 & I2 & I3) _], (Hp1 j Hj) as [(J1 & J2 & J3) _].
      assert (K : forall x y, fin x -> fin y -> Reqb (fv x) (fv y) = SFeqb x y).
      { intros x y Fx Fy. rewrite (feqb_ok x y Fx Fy). unfold Reqb. destruct (Req_EM_T (fv x) (fv y)) as [E|E].
        - now rewrite Req_bool_true.
        - now rewrite Req_bool_false. }
      unfold veqb. change (@neqb RA) with Reqb. change (@neqb FD) with SFeqb. rewrite <- !K by assumption. reflexivity.
    Qed.

    (** one face *)
    Definition good_face (i : nat) (f : face FD) : Prop :=
      exists s x y z, nth_error (h_simplices h) i = Some s /\ Permutation s [x; y; z] /\ outward RH x y z /\
        f_simplex f = [x; y; z] /\ f_points f = [P x; P y; P z] /\
        map (fun e => (e_start e, e_end e)) (f_edges f) = [(P x, P y); (P y, P z); (P z, P x)] /\
        vfin (f_un f) /\ within (bound x y z) (fvec (f_un f) - tri_normal (pt RH x) (pt RH y) (pt RH z))%v.

    Lemma nth_combine {X Y} (l : list X) (l' : list Y) k s n : nth_error (combine l l') k = Some (s, n) ->
      nth_error l k = Some s /\ nth_error l' k = Some n.
    Proof.
      revert l' k. induction l as [|x l IH]; intros [|y l'] [|k]; cbn; try discriminate.
      - intros [= -> ->]. auto.
      - apply IH.
    Qed.

    Theorem built_close inF : exists fs tw, get_faces h inF = Ok (fs, tw) /\ length fs = length (h_simplices h) /\
      (forall i f, nth_error fs i = Some f -> good_face i f) /\
      (forall i f j e, nth_error fs i = Some f -> nth_error (f_edges f) j = Some e ->
        exists i' j' f' e', tw (i, j) = Some (i', j') /\ nth_error fs i' = Some f' /\ nth_error (f_edges f') j' = Some e' /\
          i' <> i /\ tw (i', j') = Some (i, j) /\ e_start e' = e_end e /\ e_end e' = e_start e).
    Proof.
      (* exact arithmetic *)
      destruct (faces_loop_ok RH (fun _ => true) (combine (h_simplices RH) (h_neighbors RH)) Hh 0 (h_simplices RH)) as [fsR [ER [HlR HfsR]]].
      { split; [auto|tauto]. }
      { intros k s n Hk. apply nth_combine in Hk. exact Hk. }
      assert (HlenR : length fsR = length (h_simplices RH)).
      { rewrite HlR, combine_length, (ch_len RH Hh). lia. }
      destruct (twins_ok RH fsR Hh HlenR HfsR) as [tw [ET HT]].
      (* the same in doubles *)
      assert (Hor : forall s n, In (s, n) (combine (h_simplices RH) (h_neighbors RH)) -> exists s' uA uB,
        orient (A := RA) (h_points RH) (centroid (A := RA) (h_points RH) (h_vertices RH)) (fun _ => true) s = Ok (s', uA) /\
        orient (A := FD) (h_points h) (centroid (A := FD) (h_points h) (h_vertices h)) (inF (h_points h)) s = Ok (s', uB)).
      { intros s n Hin. apply in_combine_l in Hin. destruct (ch_tri RH Hh s Hin) as (a & b & c & -> & _).
        destruct (orient_close (inF (h_points h)) (fun _ => true) a b c Hin) as (y & z & un & E1 & E2 & _). eauto. }
      destruct (loop_sim (A := RA) (B := FD) _ (h_points h) _ (centroid (A := FD) (h_points h) (h_vertices h)) _ (inF (h_points h)) _ _ _ _ Hor ER)
        as (fs & EF & LF).
      pose proof (loop_at _ _ _ _ _ _ _ ER) as AR. pose proof (loop_at _ _ _ _ _ _ _ EF) as AF.
      assert (AR' : Forall (at_points (h_points RH)) fsR) by (clear - AR; induction AR as [|? ? ? ? [? _] ? ?]; constructor; auto).
      assert (AF' : Forall (at_points (h_points h)) fs) by (clear - AF; induction AF as [|? ? ? ? [? _] ? ?]; constructor; auto).
      assert (Hsx : forall k f, nth_error fsR k = Some f -> exists x y z, f_simplex f = [x; y; z] /\
         In x (h_vertices h) /\ In y (h_vertices h) /\ In z (h_vertices h) /\ x <> y /\ y <> z /\ z <> x /\
         map (@e_simplex RA) (f_edges f) = [(x, y); (y, z); (z, x)]).
      { intros k f Hf. destruct (HfsR k f Hf) as (s & x & y & z & t1 & t2 & t3 & Hk & Hpm & N1 & N2 & N3 & Ho & Hpt & Hsi & Hun & He & _).
        exists x, y, z. split; [exact Hsi|].
        assert (V : forall v, In v [x; y; z] -> In v (h_vertices h)).
        { intros v Hv. apply (ch_vert RH Hh s); [eapply nth_error_In; exact Hk|]. eapply Permutation_in; [apply Permutation_sym; exact Hpm|exact Hv]. }
        split; [apply V; cbn; auto|]. split; [apply V; cbn; auto|]. split; [apply V; cbn; auto|].
        split; [exact N1|]. split; [exact N2|]. split; [exact N3|]. rewrite He. reflexivity. }
      assert (ET' : get_edge_twin fs = Ok tw).
      { rewrite <- ET. symmetry.
        apply (twins_like (A := RA) (B := FD) (h_points RH) (h_points h) (fun i => In i (h_vertices h)) eqs_agree fsR fs AR' AF' LF).
        intros f e Hf He. apply In_nth_error in Hf. destruct Hf as [k Hf]. destruct (Hsx k f Hf) as (x & y & z & _ & Vx & Vy & Vz & _ & _ & _ & Hm').
        apply (in_map (@e_simplex RA)) in He. rewrite Hm' in He. destruct He as [<-|[<-|[<-|[]]]]; auto. }
      exists fs, tw. split.
      { unfold get_faces. rewrite (ch_len RH Hh : length (h_neighbors h) = length (h_simplices h)), Nat.eqb_refl. cbn [negb].
        change (h_simplices RH) with (h_simplices h) in EF. change (h_neighbors RH) with (h_neighbors h) in EF.
        match goal with |- bind ?e _ = _ => replace e with (@Ok (list (face FD)) fs) by (symmetry; exact EF) end.
        cbn [bind]. rewrite ET'. reflexivity. }
      assert (Hlen : length fs = length (h_simplices h)) by (rewrite <- (Forall2_length _ _ _ LF); exact HlenR).
      split; [exact Hlen|].
      (* faces by index *)
      assert (Ix : forall i f, nth_error fs i = Some f -> exists fR x y z, nth_error fsR i = Some fR /\ f_simplex f = [x; y; z] /\
        In x (h_vertices h) /\ In y (h_vertices h) /\ In z (h_vertices h) /\ x <> y /\ y <> z /\ z <> x /\
        map (@e_simplex RA) (f_edges fR) = [(x, y); (y, z); (z, x)] /\ map (@e_simplex FD) (f_edges f) = [(x, y); (y, z); (z, x)]).
      { intros i f Hf. pose proof (F2_nth _ _ _ i LF) as K. rewrite Hf in K. destruct (nth_error fsR i) as [fR|] eqn:EfR; [|contradiction].
        destruct (Hsx i fR EfR) as (x & y & z & Sx & Vx & Vy & Vz & N1 & N2 & N3 & Mx). destruct K as (K1 & _ & _ & K4).
        exists fR, x, y, z. split; [reflexivity|]. split; [congruence|]. do 6 (split; [assumption|]). split; [exact Mx|]. rewrite <- Mx.
        clear - K4. induction K4 as [|e e' l l' [E _] _ IH]; cbn; congruence. }
      assert (Pe : forall i f e, nth_error fs i = Some f -> In e (f_edges f) -> e_start e = P (fst (e_simplex e)) /\ e_end e = P (snd (e_simplex e))).
      { intros i f e Hf He. rewrite Forall_forall in AF'. pose proof (AF' f (nth_error_In _ _ Hf)) as [_ Q]. rewrite Forall_forall in Q.
        pose proof (Q e He) as E. split; rewrite E at 1; reflexivity. }
      split.
      - intros i f Hf. destruct (Ix i f Hf) as (fR & x & y & z & HfR & Sx & Vx & Vy & Vz & N1 & N2 & N3 & MR & MF).
        destruct (HfsR i fR HfR) as (s & x' & y' & z' & t1 & t2 & t3 & Hk & Hpm & _ & _ & _ & Ho & _ & Hsi & _ & He & _).
        assert (E : [x'; y'; z'] = [x; y; z]).
        { assert (Q : map (@e_simplex RA) (f_edges fR) = [(x', y'); (y', z'); (z', x')]) by (rewrite He; reflexivity). rewrite MR in Q.
          injection Q. congruence. }
        injection E as -> -> ->. exists s, x, y, z. split; [exact Hk|]. split; [exact Hpm|]. split; [exact Ho|]. split; [exact Sx|].
        pose proof (Forall_forall (at_points (h_points h)) fs) as [FF _]. pose proof (FF AF' f (nth_error_In _ _ Hf)) as [Q1 Q2].
        split; [rewrite Q1, Sx; reflexivity|]. split.
        + assert (W : map (fun e => (e_start e, e_end e)) (f_edges f) = map (fun p => (P (fst p), P (snd p))) (map (@e_simplex FD) (f_edges f))).
          { rewrite map_map. apply map_ext_in. intros e He'. destruct (Pe i f e Hf He') as [-> ->]. reflexivity. }
          rewrite W, MF. reflexivity.
        + pose proof (F2_nth _ _ _ i AF) as K. rewrite Hf in K. destruct (nth_error (combine (h_simplices RH) (h_neighbors RH)) i) as [[s0 n0]|] eqn:Es; [|contradiction].
          apply nth_combine in Es. destruct Es as [Es _]. change (h_simplices RH) with (h_simplices h) in Es. pose proof (eq_trans (eq_sym Es) Hk) as Ek. injection Ek as ->.
          destruct K as [_ K]. cbn [fst] in K. destruct (ch_tri RH Hh s (nth_error_In _ _ Hk)) as (a & b & c & -> & _).
          destruct (orient_close (inF (h_points h)) (fun _ => true) a b c (nth_error_In _ _ Hk)) as (y1 & z1 & un & E1 & _ & E3 & E4).
          pose proof (eq_trans (eq_sym K) E1) as K'. injection K' as K1 K2. rewrite Sx in K1. injection K1 as -> -> ->. rewrite K2. split; assumption.
      - intros i f j e Hf He. destruct (Ix i f Hf) as (fR & x & y & z & HfR & Sx & Vx & Vy & Vz & N1 & N2 & N3 & MR & MF).
        destruct (nth_error (f_edges fR) j) as [eR|] eqn:EeR.
        2:{ exfalso. apply nth_error_None in EeR. assert (G : (j < length (f_edges f))%nat) by (apply nth_error_Some; congruence).
            pose proof (f_equal (@length _) MR) as G1. pose proof (f_equal (@length _) MF) as G2. rewrite map_length in G1, G2. cbn [length] in G1, G2.
            assert (G3 : length (f_edges f) = 3%nat) by exact G2. assert (G4 : length (f_edges fR) = 3%nat) by exact G1.
            assert (G5 : (3 <= j)%nat) by (rewrite <- G4; exact EeR). rewrite G3 in G. lia. }
        destruct (HT (i, j) eR) as ([i' j'] & e1R & T1 & (f1R & Hf1R & He1R) & T2 & T3 & T4); [exists fR; auto|].
        cbn [fst snd pl_faces] in Hf1R, He1R.
        destruct (nth_error fs i') as [f1|] eqn:Ef1.
        2:{ exfalso. apply nth_error_None in Ef1. assert (G : (i' < length fsR)%nat) by (apply nth_error_Some; congruence).
            rewrite HlenR in G. change (h_simplices RH) with (h_simplices h) in G. lia. }
        destruct (Ix i' f1 Ef1) as (f1R' & x1 & y1 & z1 & HfR1 & Sx1 & Vx1 & Vy1 & Vz1 & O1 & O2 & O3 & MR1 & MF1).
        rewrite Hf1R in HfR1. injection HfR1 as <-.
        destruct (nth_error (f_edges f1) j') as [e1|] eqn:Ee1.
        2:{ exfalso. apply nth_error_None in Ee1. assert (G : (j' < length (f_edges f1R))%nat) by (apply nth_error_Some; congruence).
            pose proof (f_equal (@length _) MR1) as G1. pose proof (f_equal (@length _) MF1) as G2. rewrite map_length in G1, G2. cbn [length] in G1, G2.
            assert (G3 : length (f_edges f1) = 3%nat) by exact G2. assert (G4 : length (f_edges f1R) = 3%nat) by exact G1.
            assert (G5 : (3 <= j')%nat) by (rewrite <- G3; exact Ee1). rewrite G4 in G. lia. }
        exists i', j', f1, e1. split; [exact T1|]. split; [exact Ef1|]. split; [exact Ee1|].
        (* index pairs *)
        assert (S0 : e_simplex e = e_simplex eR).
        { pose proof (map_nth_error (@e_simplex FD) _ _ He) as A1. pose proof (map_nth_error (@e_simplex RA) _ _ EeR) as A2.
          rewrite MF in A1. rewrite MR in A2. congruence. }
        assert (S1 : e_simplex e1 = e_simplex e1R).
        { pose proof (map_nth_error (@e_simplex FD) _ _ Ee1) as A1. pose proof (map_nth_error (@e_simplex RA) _ _ He1R) as A2.
          rewrite MF1 in A1. rewrite MR1 in A2. congruence. }
        assert (PR : forall k g d, nth_error fsR k = Some g -> In d (f_edges g) -> e_start d = pt RH (fst (e_simplex d)) /\ e_end d = pt RH (snd (e_simplex d))).
        { intros k g d Hg Hd. rewrite Forall_forall in AR'. pose proof (AR' g (nth_error_In _ _ Hg)) as [_ Q]. rewrite Forall_forall in Q.
          pose proof (Q d Hd) as E. split; rewrite E at 1; reflexivity. }
        destruct (PR i fR eR HfR (nth_error_In _ _ EeR)) as [P1 P2].
        destruct (PR i' f1R e1R Hf1R (nth_error_In _ _ He1R)) as [P3 P4].
        assert (Vr : forall k g d, nth_error fs k = Some g -> In d (f_edges g) -> In (fst (e_simplex d)) (h_vertices h) /\ In (snd (e_simplex d)) (h_vertices h)).
        { intros k g d Hg Hd. destruct (Ix k g Hg) as (? & x2 & y2 & z2 & _ & _ & V1 & V2 & V3 & _ & _ & _ & _ & Mg).
          apply (in_map (@e_simplex FD)) in Hd. rewrite Mg in Hd. destruct Hd as [<-|[<-|[<-|[]]]]; auto. }
        destruct (Vr i f e Hf (nth_error_In _ _ He)) as [B1 B2]. destruct (Vr i' f1 e1 Ef1 (nth_error_In _ _ Ee1)) as [B3 B4].
        rewrite P2, P3 in T3. rewrite P1, P4 in T4. rewrite <- S0, <- S1 in T3, T4.
        apply (ch_inj RH Hh) in T3; [|exact B3|exact B2]. apply (ch_inj RH Hh) in T4; [|exact B4|exact B1].
        destruct (Pe i f e Hf (nth_error_In _ _ He)) as [Q1 Q2]. destruct (Pe i' f1 e1 Ef1 (nth_error_In _ _ Ee1)) as [Q3 Q4].
        split; [|split; [exact T2|split; congruence]].
        intros ->. rewrite Hf in Ef1. injection Ef1 as <-.
        pose proof (in_map (@e_simplex FD) _ _ (nth_error_In _ _ He)) as I1. pose proof (in_map (@e_simplex FD) _ _ (nth_error_In _ _ Ee1)) as I2.
        rewrite MF in I1, I2. destruct (e_simplex e) as [p q], (e_simplex e1) as [p' q']. cbn [fst snd] in T3, T4. subst p' q'.
        destruct I1 as [[= <- <-]|[[= <- <-]|[[= <- <-]|[]]]]; destruct I2 as [X|[X|[X|[]]]]; inversion X; congruence.
    Qed.
  End One.
End Build.

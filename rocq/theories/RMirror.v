(** * Mirror images *)
From Coq Require Import Reals Lra Psatz ZArith Bool List Permutation Arith Lia.
Import ListNotations.
From Coquelicot Require Import Coquelicot.
From Verif Require Import Base MUtils MEdge MFace MHull MPoly SpecPoly PPoly PStation PPlain.
From Verif Require Import RVec RArith REdge REdgeModel RAngle ROmega RFace RFacet RPoly RTwin RField RHull RMove RMoved RGlue RLaws
  RPlaced RRay RTrace RVolume RTri RWell.
Local Open Scope R_scope.
Local Open Scope list_scope.

(** ** Reflection in a point: all differences change their sign *)
Lemma nm_neg a : nm (- a)%v = nm a. Proof. apply nm_opp. Qed.
Lemma dt_neg2 a b : dt (- a)%v (- b)%v = dt a b. Proof. vring. Qed.
Lemma ell_neg a b : ell (- a)%v (- b)%v = ell a b.
Proof. unfold ell. replace ((- b) - (- a))%v with (- (b - a))%v by vring. now rewrite !nm_neg. Qed.
Lemma uv_neg a b : uv (- a)%v (- b)%v = (- uv a b)%v.
Proof. unfold uv. replace ((- b) - (- a))%v with (- (b - a))%v by vring. rewrite nm_neg. vring. Qed.
Lemma Kab_neg a b : Kab (- a)%v (- b)%v = Kab a b.
Proof. unfold Kab. now rewrite !nm_neg, dt_neg2. Qed.
Lemma gell_neg a b : gell (- a)%v (- b)%v = (- gell a b)%v.
Proof. unfold gell. replace ((- b) - (- a))%v with (- (b - a))%v by vring. rewrite Kab_neg, !nm_neg. vring. Qed.
Lemma edge_term_neg a b : edge_term (- a)%v (- b)%v = edge_term a b.
Proof. unfold edge_term. rewrite Kab_neg, !nm_neg. vring. Qed.
Lemma gom_neg a b c : gom (- a)%v (- b)%v (- c)%v = gom a b c.
Proof. unfold gom. now rewrite !edge_term_neg. Qed.
Lemma Isum_neg a b c : Isum (- a) (- b) (- c) = (- Isum a b c)%v.
Proof. unfold Isum. rewrite !ell_neg, !uv_neg. generalize (uv a b) (uv b c) (uv c a). intros. vring. Qed.
Lemma dIs_neg a b c e : dIs (- a) (- b) (- c) e = dIs a b c e.
Proof.
  unfold dIs. rewrite !gell_neg, !uv_neg, !dt_opp_l.
  generalize (uv a b) (uv b c) (uv c a) (dt (gell a b) e) (dt (gell b c) e) (dt (gell c a) e). intros. vring.
Qed.
Lemma det_neg a b c : det (- a)%v (- b)%v (- c)%v = - det a b c. Proof. unfold det. vring. Qed.
Lemma DD_neg a b c : DD (- a)%v (- b)%v (- c)%v = DD a b c.
Proof. unfold DD. now rewrite !nm_neg, !dt_neg2. Qed.
Lemma om_neg a b c : om (- a)%v (- b)%v (- c)%v = - om a b c.
Proof.
  destruct (Req_dec (det a b c) 0) as [Z|Z]; [rewrite !om_flat; [ring|exact Z|rewrite det_neg, Z; ring]|].
  unfold om. rewrite det_neg, DD_neg, Rsgn_opp. replace (DD a b c / - det a b c) with (- (DD a b c / det a b c)) by (field; auto).
  rewrite atan_opp. ring.
Qed.

(** the image of an oriented triangle, listed counterclockwise seen from outside *)
Definition tpr (v : V) (t : tri) : tri := let '(a, b, c) := t in ((v - a)%v, (v - c)%v, (v - b)%v).
Lemma pr_obs v a o : ((v - a) - (v - o))%v = (- (a - o))%v. Proof. vring. Qed.
Lemma normal_pr v a b c : tri_normal (v - a)%v (v - b)%v (v - c)%v = tri_normal a b c.
Proof. unfold tri_normal. f_equal. vring. Qed.
Lemma gCT_pr d G v o t : gCT d G (v - o)%v (tpr v t) = (- gCT d G o t)%v.
Proof.
  destruct t as [[a b] c]. change (tpr v (a, b, c)) with (tflip ((v - a)%v, (v - b)%v, (v - c)%v)). rewrite gCT_flip. f_equal.
  unfold gCT, omT, band. rewrite !pr_obs, normal_pr, om_neg, Isum_neg, dt_opp_r, Rabs_Ropp.
  generalize (Isum (a - o) (b - o) (c - o)) (tri_normal a b c). intros I n. destruct (Rlt_dec _ _); [generalize (om (a - o) (b - o) (c - o))|]; intros; vring.
Qed.
Lemma jCT_pr d G v o e t : jCT d G (v - o)%v e (tpr v t) = jCT d G o e t.
Proof.
  destruct t as [[a b] c]. change (tpr v (a, b, c)) with (tflip ((v - a)%v, (v - b)%v, (v - c)%v)). rewrite jCT_flip.
  unfold jCT, omT, gomT, band. rewrite !pr_obs, normal_pr, om_neg, gom_neg, dIs_neg, Isum_neg, dt_opp_r, Rabs_Ropp.
  generalize (Isum (a - o) (b - o) (c - o)) (dIs (a - o) (b - o) (c - o) e) (tri_normal a b c). intros I D n.
  destruct (Rlt_dec _ _); [generalize (om (a - o) (b - o) (c - o)) (dt (gom (a - o) (b - o) (c - o)) e)|rewrite dt_0_l]; intros; vring.
Qed.
Lemma eregular_pr v p q o : eregular p q o -> eregular (v - p)%v (v - q)%v (v - o)%v.
Proof.
  unfold eregular. rewrite !pr_obs, !nm_neg.
  assert (U : uv (v - p)%v (v - q)%v = (- uv p q)%v).
  { unfold uv. replace ((v - q) - (v - p))%v with (- (q - p))%v by vring. rewrite nm_neg. vring. }
  rewrite U, !dt_neg2. intros [H|[[k [H1 H2]]|[k [H1 H2]]]]; [left; exact H|right; left|right; right]; exists k; (split; [exact H1|]); rewrite H2; vring.
Qed.
Lemma clearT_pr v o g t : clearT o g t -> clearT (v - o)%v g (tpr v t).
Proof.
  destruct t as [[a b] c]. intros [(N1 & N2 & N3) H].
  assert (I : forall x, o <> x -> (v - o)%v <> (v - x)%v).
  { intros x N E. apply N. apply veq; [apply (f_equal vx) in E|apply (f_equal vy) in E|apply (f_equal vz) in E]; cbn in E; lra. }
  split; [auto|]. destruct H as [(H1 & H2 & H3)|[H1 H2]]; [left|right].
  - split; [|split]; apply eregular_pr; apply eregular_sym; assumption.
  - split; [exact H1|]. rewrite normal_flip, normal_pr, pr_obs, dt_opp_l, dt_opp_r, H2. ring.
Qed.

Theorem mirror_clear v p p' o d G g : closed p -> closed p' -> Forall2 (fun t t' => cyc (tpr v t) t') (tris p) (tris p') ->
  clear p o g -> clear p' (v - o)%v g /\
  exists G0 T0, spec_gravity (A := RA) p o d G g = Ok (G0, T0) /\ spec_gravity (A := RA) p' (v - o)%v d G g = Ok ((- G0)%v, T0).
Proof.
  intros Hp Hp' HF Rp.
  assert (Rq : clear p' (v - o)%v g).
  { apply clear_clearT; [exact Hp'|]. intros t Ht. destruct (Forall2_in _ _ _ HF t Ht) as (t0 & Ht0 & C).
    apply (clearT_cyc _ g _ t C). apply clearT_pr. exact (proj1 (clear_clearT p o g Hp) Rp t0 Ht0). }
  split; [exact Rq|]. rewrite (clear_tris p o g d G Hp Rp), (clear_tris p' _ g d G Hp' Rq). do 2 eexists. split; [reflexivity|].
  assert (EG : forall l l', Forall2 (fun t t' => cyc (tpr v t) t') l l' -> vsum (gCT d G (v - o)%v) l' = (- vsum (gCT d G o) l)%v).
  { induction 1 as [|t t' l l' C _ IH]; [cbn; vring|]. cbn [vsum fold_right]. unfold vsum in IH. rewrite IH, (gCT_cyc _ _ _ _ _ C), gCT_pr. vring. }
  assert (EJ : forall e l l', Forall2 (fun t t' => cyc (tpr v t) t') l l' -> vsum (jCT d G (v - o)%v e) l' = vsum (jCT d G o e) l).
  { intros e. induction 1 as [|t t' l l' C _ IH]; [reflexivity|]. cbn [vsum fold_right]. unfold vsum in IH. now rewrite IH, (jCT_cyc _ _ _ _ _ _ C), jCT_pr. }
  apply (f_equal Ok), (f_equal2 pair); [exact (EG _ _ HF)|]. destruct g; [|reflexivity]. unfold up. now rewrite !(EJ _ _ _ HF).
Qed.

(** ** Isometries of either handedness *)
Record isometry (s : R) (Q : V -> V) : Prop := {
  iso_add : forall a b, Q (a + b)%v = (Q a + Q b)%v;
  iso_sc : forall k a, Q (k * a)%v = (k * Q a)%v;
  iso_dt : forall a b, dt (Q a) (Q b) = dt a b;
  iso_cr : forall a b, cr (Q a) (Q b) = (s * Q (cr a b))%v;
  iso_s : s = 1 \/ s = -1 }.

Section Iso.
  Variables (s : R) (Q : V -> V) (v : V).
  Hypothesis HQ : isometry s Q.
  Let S (x : V) : V := (Q x + v)%v.
  Lemma iso_opp a : Q (- a)%v = (- Q a)%v.
  Proof. replace (- a)%v with ((-1) * a)%v by vring. rewrite (iso_sc s Q HQ). vring. Qed.
  Lemma iso_sub a b : (S a - S b)%v = Q (a - b)%v.
  Proof. unfold S. replace (a - b)%v with (a + - b)%v by vring. rewrite (iso_add s Q HQ), iso_opp. vring. Qed.
  Lemma iso_0 : Q v0 = v0.
  Proof. replace v0 with (0 * v0)%v by vring. rewrite (iso_sc s Q HQ). vring. Qed.
  Lemma iso_nm a : nm (Q a) = nm a. Proof. unfold nm. now rewrite (iso_dt s Q HQ). Qed.
  Lemma iso_zero a : Q a = v0 -> a = v0.
  Proof. intros E. apply nm_zero. rewrite <- iso_nm, E. unfold nm. replace (dt v0 v0) with 0 by vring. apply sqrt_0. Qed.
  Lemma iso_inj a b : S a = S b -> a = b.
  Proof.
    intros E. assert (Z : (a - b)%v = v0) by (apply iso_zero; rewrite <- iso_sub, E; vring).
    apply veq; [apply (f_equal vx) in Z|apply (f_equal vy) in Z|apply (f_equal vz) in Z]; cbn in Z; lra.
  Qed.

  Variable h : hull RA.
  Hypothesis Hh : correct_hull h.
  Definition iso_hull : hull RA :=
    {| h_points := (map S (h_points h) : list (vec RA)); h_simplices := h_simplices h;
       h_neighbors := h_neighbors h; h_vertices := h_vertices h |}.
  Lemma pt_iso i : In i (h_vertices h) -> pt iso_hull i = S (pt h i).
  Proof.
    intros H. unfold pt, iso_hull; cbn [h_points]. pose proof (ch_range h Hh i H) as L.
    rewrite (nth_indep _ v0 (S v0)) by now rewrite map_length. now rewrite map_nth.
  Qed.
  Lemma nrm3_iso a b c : In a (h_vertices h) -> In b (h_vertices h) -> In c (h_vertices h) ->
    nrm3 iso_hull a b c = (s * Q (nrm3 h a b c))%v.
  Proof. intros Ha Hb Hc. unfold nrm3. rewrite !pt_iso by auto. rewrite !iso_sub. apply (iso_cr s Q HQ). Qed.
  Lemma side_iso a b c i : In a (h_vertices h) -> In b (h_vertices h) -> In c (h_vertices h) -> In i (h_vertices h) ->
    dt (nrm3 iso_hull a b c) (pt iso_hull i - pt iso_hull a) = s * dt (nrm3 h a b c) (pt h i - pt h a).
  Proof. intros Ha Hb Hc Hi. rewrite nrm3_iso by auto. rewrite !pt_iso by auto. rewrite iso_sub, dt_sc_l, (iso_dt s Q HQ). reflexivity. Qed.
  Lemma verts a b c : In [a; b; c] (h_simplices h) -> In a (h_vertices h) /\ In b (h_vertices h) /\ In c (h_vertices h).
  Proof. intros H. split; [|split]; apply (ch_vert h Hh _ _ H); simpl; auto. Qed.

  Lemma correct_iso : correct_hull iso_hull.
  Proof.
    pose proof (iso_s s Q HQ) as Hs. constructor; try exact (ch_len h Hh); try exact (ch_tri h Hh); try exact (ch_vert h Hh);
      try exact (ch_nbr h Hh); try exact (ch_nbr_range h Hh).
    - intros a b c Hin. change (In [a; b; c] (h_simplices h)) in Hin. destruct (verts _ _ _ Hin) as (Ha & Hb & Hc). rewrite nrm3_iso by auto. intros E.
      apply (ch_area h Hh a b c Hin). apply iso_zero.
      destruct Hs as [-> | ->]; apply veq; [apply (f_equal vx) in E|apply (f_equal vy) in E|apply (f_equal vz) in E|apply (f_equal vx) in E|apply (f_equal vy) in E|apply (f_equal vz) in E]; cbn in E |- *; lra.
    - intros i Hi. unfold iso_hull in *; cbn [h_points h_vertices] in *. rewrite map_length. exact (ch_range h Hh i Hi).
    - intros i j Hi Hj E. change (In i (h_vertices h)) in Hi. change (In j (h_vertices h)) in Hj. rewrite !pt_iso in E by auto.
      apply (ch_inj h Hh); auto. apply iso_inj, E.
    - intros a b c Hin. change (In [a; b; c] (h_simplices h)) in Hin. destruct (verts _ _ _ Hin) as (Ha & Hb & Hc).
      destruct Hs as [E|E]; destruct (ch_side h Hh a b c Hin) as [H|H].
      + left. intros i Hi. rewrite (side_iso a b c i), E by auto. specialize (H i Hi). lra.
      + right. intros i Hi. rewrite (side_iso a b c i), E by auto. specialize (H i Hi). lra.
      + right. intros i Hi. rewrite (side_iso a b c i), E by auto. specialize (H i Hi). lra.
      + left. intros i Hi. rewrite (side_iso a b c i), E by auto. specialize (H i Hi). lra.
    - intros a b c Hin. change (In [a; b; c] (h_simplices h)) in Hin. destruct (verts _ _ _ Hin) as (Ha & Hb & Hc).
      destruct (ch_solid h Hh a b c Hin) as (i & Hi & N). exists i. split; [exact Hi|]. rewrite side_iso by auto.
      destruct Hs as [-> | ->]; lra.
    - intros i j t t' a b c d Hij Ht Ht' P P' D. change (nth_error (h_simplices h) i = Some t) in Ht.
      change (nth_error (h_simplices h) j = Some t') in Ht'.
      assert (IV : forall x, In x [a; b; c] -> In x (h_vertices h)).
      { intros x Hx. apply (ch_vert h Hh t); [apply nth_error_In in Ht; exact Ht|]. eapply Permutation_in; [apply Permutation_sym, P|exact Hx]. }
      assert (IV' : forall x, In x [a; b; d] -> In x (h_vertices h)).
      { intros x Hx. apply (ch_vert h Hh t'); [apply nth_error_In in Ht'; exact Ht'|]. eapply Permutation_in; [apply Permutation_sym, P'|exact Hx]. }
      assert (Ha := IV a (or_introl eq_refl)). assert (Hb := IV b (or_intror (or_introl eq_refl))).
      assert (Hc := IV c (or_intror (or_intror (or_introl eq_refl)))). assert (Hd := IV' d (or_intror (or_intror (or_introl eq_refl)))).
      rewrite (side_iso a b c d) in D by auto. rewrite !nrm3_iso by auto. rewrite dt_sc_l, dt_sc_r, (iso_dt s Q HQ).
      assert (D' : dt (nrm3 h a b c) (pt h d - pt h a) = 0) by (destruct Hs as [E|E]; rewrite E in D; lra).
      pose proof (ch_flat h Hh i j t t' a b c d Hij Ht Ht' P P' D'). destruct Hs as [-> | ->]; lra.
  Qed.

  (** the image of an oriented triangle under an isometry that changes the handedness *)
  Definition tmir (t : tri) : tri := let '(a, b, c) := t in (S a, S c, S b).

  Lemma mirror_tris p p' : s = -1 ->
    length (pl_faces p) = length (h_simplices h) -> (forall i f, nth_error (pl_faces p) i = Some f -> face_of h i f) ->
    length (pl_faces p') = length (h_simplices h) -> (forall i f, nth_error (pl_faces p') i = Some f -> face_of iso_hull i f) ->
    Forall2 (fun t t' => cyc (tmir t) t') (tris p) (tris p').
  Proof.
    intros Es L1 F1 L2 F2. apply Forall2_nth; [unfold tris; rewrite !map_length; congruence|].
    intros i t t' Ht Ht'. unfold tris in Ht, Ht'. rewrite nth_error_map in Ht, Ht'.
    destruct (nth_error (pl_faces p) i) as [f|] eqn:Ef; [|discriminate]. destruct (nth_error (pl_faces p') i) as [f'|] eqn:Ef'; [|discriminate].
    cbn [option_map] in Ht, Ht'. injection Ht as <-. injection Ht' as <-.
    destruct (F1 i f Ef) as (w & x & y & z & t1 & t2 & t3 & Hw & Hp & N1 & N2 & N3 & (_ & O1 & j & Hj & Oj) & Hpts & _).
    destruct (F2 i f' Ef') as (w' & x' & y' & z' & t1' & t2' & t3' & Hw' & Hp' & _ & _ & _ & (_ & O1' & _) & Hpts' & _).
    change (nth_error (h_simplices h) i = Some w') in Hw'. rewrite Hw in Hw'. injection Hw' as <-.
    change (h_vertices iso_hull) with (h_vertices h) in O1'.
    assert (IV : forall q, In q [x; y; z] -> In q (h_vertices h)).
    { intros q Hq. apply (ch_vert h Hh w); [apply nth_error_In in Hw; exact Hw|]. eapply Permutation_in; [apply Permutation_sym, Hp|exact Hq]. }
    assert (Hx := IV x (or_introl eq_refl)). assert (Hy := IV y (or_intror (or_introl eq_refl))).
    assert (Hz := IV z (or_intror (or_intror (or_introl eq_refl)))).
    assert (P3 : Permutation [x; y; z] [x'; y'; z']) by (eapply Permutation_trans; [apply Permutation_sym, Hp|exact Hp']).
    assert (T1 : tri_of f = (pt h x, pt h y, pt h z)) by (unfold tri_of, vtx, pnth; rewrite Hpts; reflexivity).
    assert (T2 : tri_of f' = (pt iso_hull x', pt iso_hull y', pt iso_hull z')) by (unfold tri_of, vtx, pnth; rewrite Hpts'; reflexivity).
    rewrite T1, T2. cbn [tmir]. pose proof (O1' j Hj) as OJ. clear T1 T2 O1 O1'.
    destruct (perm3 _ _ _ _ _ _ P3) as [[E|[E|E]]|[E|[E|E]]]; injection E as -> -> ->;
      rewrite side_iso in OJ by auto; rewrite !pt_iso by auto; rewrite Es in OJ.
    1-3: exfalso; unfold nrm3 in *.
    - lra.
    - assert (E : dt (cr (pt h z - pt h y) (pt h x - pt h y)) (pt h j - pt h y) =
        dt (cr (pt h y - pt h x) (pt h z - pt h x)) (pt h j - pt h x)) by vring. lra.
    - assert (E : dt (cr (pt h x - pt h z) (pt h y - pt h z)) (pt h j - pt h z) =
        dt (cr (pt h y - pt h x) (pt h z - pt h x)) (pt h j - pt h x)) by vring. lra.
    - unfold cyc. auto.
    - unfold cyc. auto.
    - unfold cyc. auto.
  Qed.
End Iso.

(** an isometry that changes the handedness is a rotation followed by the reflection in a point *)
Lemma mirror_rotation Q : isometry (-1) Q -> rotation (fun x => (- Q x)%v).
Proof.
  intros H. constructor.
  - intros a b. rewrite (iso_add _ _ H). vring.
  - intros k a. rewrite (iso_sc _ _ H). vring.
  - intros a b. rewrite dt_neg2. apply (iso_dt _ _ H).
  - intros a b. replace (cr (- Q a) (- Q b)) with (cr (Q a) (Q b)) by vring. rewrite (iso_cr _ _ H). vring.
Qed.
Lemma rotation_isometry Q : rotation Q -> isometry 1 Q.
Proof. intros [A B C D]. constructor; auto. intros a b. rewrite D. vring. Qed.

Theorem mirror_well Q v h p p' o d G g : isometry (-1) Q -> correct_hull h -> closed p -> closed p' ->
  length (pl_faces p) = length (h_simplices h) -> (forall i f, nth_error (pl_faces p) i = Some f -> face_of h i f) ->
  length (pl_faces p') = length (h_simplices h) -> (forall i f, nth_error (pl_faces p') i = Some f -> face_of (iso_hull Q v h) i f) ->
  well_placed p o g ->
  clear p' (Q o + v)%v g /\
  exists G0 T0 T1, spec_gravity (A := RA) p o d G g = Ok (G0, T0) /\
    spec_gravity (A := RA) p' (Q o + v)%v d G g = Ok (Q G0, T1) /\ forall e, mapp T1 (Q e) = Q (mapp T0 e).
Proof.
  intros HQ Hh Hc Hc' L1 F1 L2 F2 Hw. pose proof (mirror_rotation Q HQ) as HR. set (R := fun x => (- Q x)%v) in *.
  pose proof (mirror_tris (-1) Q v HQ h Hh p p' eq_refl L1 F1 L2 F2) as HT.
  set (p1 := map_poly R 1 v0 p).
  assert (S1 : forall x, simil R 1 v0 x = (- Q x)%v) by (intros x; unfold simil, R; vring).
  assert (Hc1 : closed p1) by (apply closed_map; auto; lra).
  assert (Hw1 : well_placed p1 (simil R 1 v0 o) g) by (apply well_map; auto; lra).
  assert (HT1 : Forall2 (fun t t' => cyc (tpr v t) t') (tris p1) (tris p')).
  { assert (ET : tris p1 = map (fun t => let '(a, b, c) := t in ((- Q a)%v, (- Q b)%v, (- Q c)%v)) (tris p)).
    { unfold tris, p1, map_poly; cbn [pl_faces]. rewrite !map_map. apply map_ext_in. intros f Hf.
      destruct (proj1 Hc f Hf) as (q1 & q2 & q3 & Hq). unfold tri_of. destruct (facet_vtx _ _ _ _ Hq) as (-> & -> & ->).
      destruct (vtx_map R 1 v0 HR Rlt_0_1 f q1 q2 q3 Hq) as (-> & -> & ->). now rewrite !S1. }
    rewrite ET. revert HT. generalize (tris p) (tris p'). induction 1 as [|[[a b] c] t' l l' C _ IH]; cbn [map]; constructor; [|exact IH].
    cbn [tpr]. cbn [tmir] in C. replace (v - - Q a)%v with (Q a + v)%v by vring. replace (v - - Q b)%v with (Q b + v)%v by vring.
    replace (v - - Q c)%v with (Q c + v)%v by vring. exact C. }
  destruct (similar_well R 1 v0 HR Rlt_0_1 p o d G g Hc Hw Hw1) as (G0 & T0 & T1 & A1 & A2 & A3).
  destruct (mirror_clear v p1 p' (simil R 1 v0 o) d G g Hc1 Hc' HT1 (proj1 Hw1)) as (C' & G1 & T1' & B1 & B2).
  rewrite S1 in C', B2. replace (v - - Q o)%v with (Q o + v)%v in C', B2 by vring. split; [exact C'|].
  exists G0, T0, T1. split; [exact A1|]. fold p1 in A2. rewrite B1 in A2. injection A2 as EG ET. subst T1'. split.
  - etransitivity; [exact B2|]. apply (f_equal Ok), (f_equal2 pair); [|reflexivity]. rewrite EG. unfold R. eqV. vring.
  - intros e. specialize (A3 e). unfold R in A3.
    assert (L : mapp T1 (- Q e)%v = (- mapp T1 (Q e))%v).
    { unfold mapp. apply veq; cbn [vx vy vz vn vmap]; rewrite dt_opp_r; reflexivity. }
    rewrite L in A3. apply (f_equal vn) in A3. revert A3. generalize (mapp T1 (Q e)) (Q (mapp T0 e)). intros x y E.
    replace x with (- - x)%v by vring. rewrite E. vring.
Qed.

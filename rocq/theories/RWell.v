(** * Reversal, order, gluing, triangulation, rotation and scaling at every
      observer for which get_gravity is known to answer *)
From Coq Require Import Reals Lra Psatz ZArith Bool List Permutation Arith Lia.
Import ListNotations.
From Coquelicot Require Import Coquelicot.
From Verif Require Import Base MUtils MEdge MFace MHull MPoly SpecPoly PPoly PStation PPlain.
From Verif Require Import RVec RArith REdge REdgeModel RAngle ROmega RFace RFacet RPoly RTwin RField RHull RMove RMoved RGlue RLaws
  RPlaced RRay RTrace RVolume RTri.
Local Open Scope R_scope.
Local Open Scope list_scope.

(** ** Face.get_gravity called on one face *)
Lemma clear_ret p o g : closed p -> clear p o g ->
  forall k e, has_edge p k e -> exists v, edge_integral (A := RA) e o g = Ok v.
Proof.
  intros Hc [HV H] k e He. destruct (has_edge_facet p k e He Hc) as (f & p1 & p2 & p3 & Hin & Hf & Hfe).
  destruct (facet_edges f p1 p2 p3 e Hf Hfe) as (q & r & s & t & -> & Hqr).
  pose proof (facet_nondeg _ _ _ _ Hf) as (N1 & N2 & N3). destruct (facet_vtx _ _ _ _ Hf) as (E1 & E2 & E3).
  destruct g.
  - specialize (H f Hin). unfold clear3 in H. rewrite E1, E2, E3 in H.
    assert (K : q <> r /\ eregular q r o).
    { destruct H as [(R1 & R2 & R3)|[Z _]]; [|discriminate Z].
      destruct Hqr as [[-> ->]|[[-> ->]|[-> ->]]]; split; auto. }
    destruct K as [K1 K2]. destruct (edge_regular_value q r o s t true K1 K2) as [_ [d [E _]]]. eexists. exact E.
  - apply edge_nograd. cbn [e_start mk_edge]. intros ->. apply (HV f Hin). destruct Hf as [(-> & _) _].
    destruct Hqr as [[-> _]|[[-> _]|[-> _]]]; simpl; auto.
Qed.
Theorem face_clear p o g density Gc fi f s : closed p -> clear p o g -> clean s ->
  nth_error (pl_faces p) fi = Some f ->
  fst (face_get_gravity (A := RA) (pl_twin p) o density Gc g fi f s) =
  Ok (gC density Gc o f, if g then tC density Gc o f else m0).
Proof.
  intros Hc Hr Hs Hf. etransitivity; [apply face_fresh; exact Hs|].
  assert (Hk : pinv p o g (fun _ => None)) by (intros k e v _; discriminate).
  destruct (face_placed p o g Hc (clear_ret p o g Hc Hr) density Gc (fun _ => None) fi f Hk Hf (proj2 Hr f (nth_error_In _ _ Hf))) as (c' & E & _).
  match goal with |- match ?x with _ => _ end = _ => assert (E' : x = Ok (gC density Gc o f, if g then tC density Gc o f else m0, c')) by exact E; rewrite E' end.
  reflexivity.
Qed.

(** ** Contributions of oriented triangles, as the code computes them *)
Definition band (o : V) (t : tri) : R := let '(a, b, c) := t in Rabs (dt (tri_normal a b c) (a - o)).
Definition omT (o : V) (t : tri) : R :=
  let '(a, b, c) := t in if Rlt_dec eps (band o t) then om (a - o) (b - o) (c - o) else 0.
Definition gomT (o : V) (t : tri) : V :=
  let '(a, b, c) := t in if Rlt_dec eps (band o t) then gom (a - o) (b - o) (c - o) else v0.
Definition gCT (d G : R) (o : V) (t : tri) : V :=
  let '(a, b, c) := t in let n := tri_normal a b c in
  (kG d G * (dt n (a - o) * (omT o t * n + cr (Isum (a - o) (b - o) (c - o)) n)))%v.
Definition jCT (d G : R) (o : V) (e : V) (t : tri) : V :=
  let '(a, b, c) := t in let n := tri_normal a b c in
  (kG d G * 10000 * (dt n (a - o) * (dt (gomT o t) e * n + cr (dIs (a - o) (b - o) (c - o) e) n)
     - dt n e * (omT o t * n + cr (Isum (a - o) (b - o) (c - o)) n)))%v.

Lemma gC_gCT p d G o f : closed p -> In f (pl_faces p) -> gC d G o f = gCT d G o (tri_of f).
Proof.
  intros [Hc _] Hf. destruct (Hc f Hf) as (p1 & p2 & p3 & H). destruct (facet_vtx _ _ _ _ H) as (E1 & E2 & E3).
  unfold gC, gCT, omC, omT, band, tri_of. rewrite E1, E2, E3. destruct H as [(_ & _ & _ & ->) _]. reflexivity.
Qed.
Lemma jC_jCT p d G o f e : closed p -> In f (pl_faces p) -> jC d G o f e = jCT d G o e (tri_of f).
Proof.
  intros [Hc _] Hf. destruct (Hc f Hf) as (p1 & p2 & p3 & H). destruct (facet_vtx _ _ _ _ H) as (E1 & E2 & E3).
  unfold jC, jCT, omC, omT, gomC, gomT, band, tri_of. rewrite E1, E2, E3. destruct H as [(_ & _ & _ & ->) _]. reflexivity.
Qed.

Lemma om_flip_all a b c : om a c b = - om a b c.
Proof.
  destruct (Req_dec (det a b c) 0) as [Z|Z]; [|now apply om_flip].
  rewrite !om_flat; [ring|exact Z|rewrite det_flip, Z; ring].
Qed.
Lemma band_flip o t : band o (tflip t) = band o t.
Proof. destruct t as [[a b] c]. unfold band, tflip. now rewrite normal_flip, dt_opp_l, Rabs_Ropp. Qed.
Lemma band_rot o t : band o (trot t) = band o t.
Proof. destruct t as [[a b] c]. unfold band, trot. now rewrite normal_rot, dt_rot. Qed.
Lemma omT_flip o t : omT o (tflip t) = - omT o t.
Proof.
  pose proof (band_flip o t) as E. destruct t as [[a b] c]. unfold omT. cbn [tflip] in *. rewrite E.
  destruct (Rlt_dec _ _); [apply om_flip_all|ring].
Qed.
Lemma omT_rot o t : omT o (trot t) = omT o t.
Proof.
  pose proof (band_rot o t) as E. destruct t as [[a b] c]. unfold omT. cbn [trot] in *. rewrite E.
  destruct (Rlt_dec _ _); [apply om_rot|reflexivity].
Qed.
Lemma gomT_flip o t : gomT o (tflip t) = (- gomT o t)%v.
Proof.
  pose proof (band_flip o t) as E. destruct t as [[a b] c]. unfold gomT. cbn [tflip] in *. rewrite E.
  destruct (Rlt_dec _ _); [apply gom_flip|vring].
Qed.
Lemma gomT_rot o t : gomT o (trot t) = gomT o t.
Proof.
  pose proof (band_rot o t) as E. destruct t as [[a b] c]. unfold gomT. cbn [trot] in *. rewrite E.
  destruct (Rlt_dec _ _); [apply gom_rot|reflexivity].
Qed.
Lemma gCT_flip d G o t : gCT d G o (tflip t) = (- gCT d G o t)%v.
Proof.
  pose proof (omT_flip o t) as E. destruct t as [[a b] c]. unfold gCT. cbn [tflip] in *.
  rewrite normal_flip, E, Isum_flip, dt_opp_l.
  generalize (omT o (a, b, c)) (Isum (a - o) (b - o) (c - o)) (tri_normal a b c) (dt (tri_normal a b c) (a - o)). intros. vring.
Qed.
Lemma gCT_rot d G o t : gCT d G o (trot t) = gCT d G o t.
Proof.
  pose proof (omT_rot o t) as E. destruct t as [[a b] c]. unfold gCT. cbn [trot] in *.
  now rewrite normal_rot, E, Isum_rot, dt_rot.
Qed.
Lemma jCT_flip d G o e t : jCT d G o e (tflip t) = (- jCT d G o e t)%v.
Proof.
  pose proof (omT_flip o t) as E. pose proof (gomT_flip o t) as E'. destruct t as [[a b] c]. unfold jCT. cbn [tflip] in *.
  rewrite normal_flip, E, E', Isum_flip, dIs_flip, !dt_opp_l.
  generalize (omT o (a, b, c)) (dt (gomT o (a, b, c)) e) (Isum (a - o) (b - o) (c - o)) (dIs (a - o) (b - o) (c - o) e)
    (dt (tri_normal a b c) (a - o)) (dt (tri_normal a b c) e) (tri_normal a b c). intros. vring.
Qed.
Lemma jCT_rot d G o e t : jCT d G o e (trot t) = jCT d G o e t.
Proof.
  pose proof (omT_rot o t) as E. pose proof (gomT_rot o t) as E'. destruct t as [[a b] c]. unfold jCT. cbn [trot] in *.
  now rewrite normal_rot, E, E', Isum_rot, dIs_rot, dt_rot.
Qed.
Lemma gCT_cyc d G o t t' : cyc t t' -> gCT d G o t' = gCT d G o t.
Proof. intros [->|[->| ->]]; rewrite ?gCT_rot; auto. Qed.
Lemma jCT_cyc d G o e t t' : cyc t t' -> jCT d G o e t' = jCT d G o e t.
Proof. intros [->|[->| ->]]; rewrite ?jCT_rot; auto. Qed.

(** ** The whole body *)
Lemma clear_up p d G o : msum (tC d G o) (pl_faces p) = up (fun e => vsum (fun f => jC d G o f e) (pl_faces p)).
Proof.
  induction (pl_faces p) as [|f l IH]; cbn [msum vsum fold_right]; [reflexivity|].
  unfold msum, vsum in IH. rewrite IH. reflexivity.
Qed.
Lemma clear_tris p o g d G : closed p -> clear p o g ->
  spec_gravity (A := RA) p o d G g =
    Ok (vsum (gCT d G o) (tris p), if g then up (fun e => vsum (jCT d G o e) (tris p)) else m0).
Proof.
  intros Hc Hr. rewrite (clear_value p o g d G Hc Hr). apply (f_equal Ok), (f_equal2 pair).
  - unfold tris. rewrite vsum_map. apply vsum_ext. intros f Hf. now apply (gC_gCT p).
  - destruct g; [|reflexivity]. rewrite clear_up.
    assert (E : forall e, vsum (fun f => jC d G o f e) (pl_faces p) = vsum (jCT d G o e) (tris p)).
    { intros e. unfold tris. rewrite vsum_map. apply vsum_ext. intros f Hf. now apply (jC_jCT p). }
    unfold up. now rewrite !E.
Qed.

(** [clear], in terms of the triangles *)
Definition clearT (o : V) (g : bool) (t : tri) : Prop :=
  let '(a, b, c) := t in (o <> a /\ o <> b /\ o <> c) /\
  ((eregular a b o /\ eregular b c o /\ eregular c a o) \/ (g = false /\ dt (tri_normal a b c) (a - o) = 0)).
Lemma clear_clearT p o g : closed p -> (clear p o g <-> forall t, In t (tris p) -> clearT o g t).
Proof.
  intros [Hc _].
  assert (K : forall f, In f (pl_faces p) -> (clearT o g (tri_of f) <-> ~ In o (f_points f) /\ (clear3 o f \/ (g = false /\ flat o f)))).
  { intros f Hf. destruct (Hc f Hf) as (p1 & p2 & p3 & H). destruct (facet_vtx _ _ _ _ H) as (E1 & E2 & E3).
    destruct H as [(Ep & _ & _ & En) _]. unfold clearT, tri_of, clear3, flat. rewrite E1, E2, E3, En, Ep. cbn [In]. 
    split; [intros [(N1 & N2 & N3) Q]; split; [intros [Z|[Z|[Z|[]]]]; congruence|exact Q]|].
    intros [N Q]. split; [|exact Q]. split; [|split]; intros ->; apply N; auto. }
  split.
  - intros [H1 H2] t Ht. apply in_map_iff in Ht. destruct Ht as (f & <- & Hf). apply (K f Hf). auto.
  - intros H. split; intros f Hf; pose proof (proj1 (K f Hf) (H _ (in_map _ _ _ Hf))) as [A B]; assumption.
Qed.
Lemma clearT_cyc o g t t' : cyc t t' -> clearT o g t -> clearT o g t'.
Proof.
  assert (R1 : forall t, clearT o g t -> clearT o g (trot t)).
  { intros [[a b] c] [(N1 & N2 & N3) H]. split; [auto|]. rewrite normal_rot, dt_rot.
    destruct H as [(H1 & H2 & H3)|H]; [left|right]; auto. }
  intros [->|[->| ->]] H; auto.
Qed.
Lemma Forall2_in {X Y} (R : X -> Y -> Prop) l l' : Forall2 R l l' -> forall y, In y l' -> exists x, In x l /\ R x y.
Proof.
  induction 1 as [|x y l l' Hxy _ IH]; intros z [].
  - subst. exists x. split; [left; reflexivity|exact Hxy].
  - destruct (IH z H) as (w & A & B). exists w. split; [right; exact A|exact B].
Qed.

(** ** Glued bodies *)
Lemma cancelC d G o I : vsum (gCT d G o) (I ++ map tflip I) = v0 /\ forall e, vsum (jCT d G o e) (I ++ map tflip I) = v0.
Proof.
  rewrite vsum_app, vsum_map. split; [|intros e; rewrite vsum_app, vsum_map].
  - rewrite (vsum_ext (fun t => gCT d G o (tflip t)) (fun t => ((-1) * gCT d G o t)%v)), vsum_sc; [generalize (vsum (gCT d G o) I); intros; vring|].
    intros t Ht. rewrite gCT_flip by auto. generalize (gCT d G o t). intros. vring.
  - rewrite (vsum_ext (fun t => jCT d G o e (tflip t)) (fun t => ((-1) * jCT d G o e t)%v)), vsum_sc; [generalize (vsum (jCT d G o e) I); intros; vring|].
    intros t Ht. rewrite jCT_flip by auto. generalize (jCT d G o e t). intros. vring.
Qed.
Theorem glue_clear p p' q o d G g :
  closed p -> closed p' -> closed q -> clear p o g -> clear p' o g -> glued p p' q ->
  clear q o g /\
  exists G1 T1 G2 T2,
    spec_gravity (A := RA) p o d G g = Ok (G1, T1) /\
    spec_gravity (A := RA) p' o d G g = Ok (G2, T2) /\
    spec_gravity (A := RA) q o d G g = Ok ((G1 + G2)%v, mplus T1 T2).
Proof.
  intros Hp Hp' Hq Rp Rp' (I & L & HL & HP).
  assert (Rq : clear q o g).
  { apply clear_clearT; [exact Hq|]. intros t Ht.
    assert (Hin : In t L) by (eapply Permutation_in; [apply Permutation_sym; exact HP|apply in_or_app; auto]).
    destruct (Forall2_in _ _ _ HL t Hin) as (t0 & Ht0 & C). apply (clearT_cyc o g t0 t C).
    apply in_app_or in Ht0. destruct Ht0 as [K|K]; [exact (proj1 (clear_clearT p o g Hp) Rp t0 K)|exact (proj1 (clear_clearT p' o g Hp') Rp' t0 K)]. }
  split; [exact Rq|].
  destruct (cancelC d G o I) as [Z1 Z2].
  assert (EG : vsum (gCT d G o) (tris q) = (vsum (gCT d G o) (tris p) + vsum (gCT d G o) (tris p'))%v).
  { rewrite <- vsum_app, <- (vsum_Forall2 (gCT d G o) cyc _ _ (gCT_cyc d G o) HL), (vsum_perm _ _ _ HP), vsum_app, Z1. symmetry. apply va_0_r. }
  assert (EJ : forall e, vsum (jCT d G o e) (tris q) = (vsum (jCT d G o e) (tris p) + vsum (jCT d G o e) (tris p'))%v).
  { intros e. rewrite <- vsum_app, <- (vsum_Forall2 (jCT d G o e) cyc _ _ (jCT_cyc d G o e) HL), (vsum_perm _ _ _ HP), vsum_app, Z2. symmetry. apply va_0_r. }
  rewrite (clear_tris p o g d G Hp Rp), (clear_tris p' o g d G Hp' Rp'), (clear_tris q o g d G Hq Rq), EG.
  do 4 eexists. split; [reflexivity|]. split; [reflexivity|]. apply (f_equal Ok), (f_equal2 pair); [reflexivity|].
  destruct g; [|now rewrite mplus_0_r]. unfold up. rewrite !EJ. reflexivity.
Qed.

(** ** Order of the facets and of the points *)
Theorem same_tris_clear p q o d G g :
  closed p -> closed q -> clear p o g -> same_tris p q ->
  clear q o g /\ spec_gravity (A := RA) q o d G g = spec_gravity (A := RA) p o d G g.
Proof.
  intros Hp Hq Rp (L & HL & HP).
  assert (Rq : clear q o g).
  { apply clear_clearT; [exact Hq|]. intros t Ht.
    assert (Hin : In t L) by (eapply Permutation_in; [apply Permutation_sym; exact HP|exact Ht]).
    destruct (Forall2_in _ _ _ HL t Hin) as (t0 & Ht0 & C). apply (clearT_cyc o g t0 t C).
    exact (proj1 (clear_clearT p o g Hp) Rp t0 Ht0). }
  split; [exact Rq|].
  assert (EG : vsum (gCT d G o) (tris q) = vsum (gCT d G o) (tris p)).
  { now rewrite <- (vsum_Forall2 (gCT d G o) cyc _ _ (gCT_cyc d G o) HL), (vsum_perm _ _ _ HP). }
  assert (EJ : forall e, vsum (jCT d G o e) (tris q) = vsum (jCT d G o e) (tris p)).
  { intros e. now rewrite <- (vsum_Forall2 (jCT d G o e) cyc _ _ (jCT_cyc d G o e) HL), (vsum_perm _ _ _ HP). }
  rewrite (clear_tris p o g d G Hp Rp), (clear_tris q o g d G Hq Rq), EG. apply (f_equal Ok), (f_equal2 pair); [reflexivity|].
  destruct g; [|reflexivity]. unfold up. rewrite !EJ. reflexivity.
Qed.

(** ** Triangulations of planar facets *)
Section RetriC.
  Variables (p p' : polyhedron RA) (o : V) (density Gc : R).
  Hypothesis Hc : closed p. Hypothesis Hc' : closed p'.

  Section OnePatch.
  Variables (n : V) (L L' : list (face RA)).
  Hypothesis HL : forall f, In f L -> In f (pl_faces p). Hypothesis HL' : forall f, In f L' -> In f (pl_faces p').
  Hypothesis Hun : forall f, In f (L ++ L') -> f_un f = n.
  Hypothesis Hpl : forall f g q r, In f (L ++ L') -> In g (L ++ L') -> In q (f_points f) -> In r (f_points g) -> dt n (q - r) = 0.
  Hypothesis Hb : same_boundary L L'.

  Lemma patch_allC : L ++ L' <> [] -> exists d, dt n n = 1 /\ (forall f, In f L -> in_patch n o d f) /\ (forall f, In f L' -> in_patch n o d f).
  Proof.
    destruct (L ++ L') as [|f0 l] eqn:E; [tauto|]. intros _. rewrite <- E in *.
    assert (H0 : In f0 (L ++ L')) by (rewrite E; left; auto).
    assert (Hfac : forall f, In f (L ++ L') -> exists p1 p2 p3, facet f p1 p2 p3).
    { intros f Hf. apply in_app_or in Hf. destruct Hf as [K|K]; [apply (proj1 Hc f), HL, K|apply (proj1 Hc' f), HL', K]. }
    assert (Hpt : forall f, In f (L ++ L') -> In (vtx 0 f) (f_points f)).
    { intros f Hf. destruct (Hfac f Hf) as (p1 & p2 & p3 & [(A & _) _]). unfold vtx, pnth. rewrite A. left. reflexivity. }
    assert (Hin : forall f, In f (L ++ L') -> in_patch n o (dt n (vtx 0 f0 - o)) f).
    { intros f Hf. destruct (Hfac f Hf) as (p1 & p2 & p3 & HF). pose proof HF as [(A & _ & B & C) _].
      destruct (facet_vtx _ _ _ _ HF) as (E0 & E1 & E2). repeat split.
      - rewrite E0, E1, E2. exact B.
      - rewrite E0, E1, E2, <- (Hun f Hf). symmetry. exact C.
      - pose proof (Hpl f f0 _ _ Hf H0 (Hpt f Hf) (Hpt f0 H0)) as K.
        replace (vtx 0 f - o)%v with ((vtx 0 f - vtx 0 f0) + (vtx 0 f0 - o))%v by vring. rewrite dt_add_r, K. ring. }
    exists (dt n (vtx 0 f0 - o)). split; [|split].
    - destruct (Hfac f0 H0) as (p1 & p2 & p3 & HF). rewrite <- (Hun f0 H0). eapply un_unit; eauto.
    - intros f Hf. apply Hin, in_or_app; auto.
    - intros f Hf. apply Hin, in_or_app; auto.
  Qed.
  Lemma patch_Isum : vsum (fun f => Isum (vtx 0 f - o) (vtx 1 f - o) (vtx 2 f - o)) L = vsum (fun f => Isum (vtx 0 f - o) (vtx 1 f - o) (vtx 2 f - o)) L'.
  Proof.
    apply (boundary_vsum (fun q r => ell (q - o) (r - o) * uv (q - o) (r - o))%v L L'); [|exact Hb].
    intros q r. rewrite (ell_sym (r - o)%v), (uv_sym (q - o)%v). generalize (ell (q - o) (r - o)) (uv (q - o) (r - o)). intros. vring.
  Qed.
  Lemma patch_dIs e : vsum (fun f => dIs (vtx 0 f - o) (vtx 1 f - o) (vtx 2 f - o) e) L = vsum (fun f => dIs (vtx 0 f - o) (vtx 1 f - o) (vtx 2 f - o) e) L'.
  Proof.
    apply (boundary_vsum (fun q r => dt (gell (q - o) (r - o)) e * uv (q - o) (r - o))%v L L'); [|exact Hb].
    intros q r. rewrite (gell_sym (q - o)%v), (uv_sym (q - o)%v). generalize (dt (gell (q - o) (r - o)) e) (uv (q - o) (r - o)). intros. vring.
  Qed.
  Lemma patch_C : vsum (gC density Gc o) L = vsum (gC density Gc o) L' /\
    forall e, vsum (fun f => jC density Gc o f e) L = vsum (fun f => jC density Gc o f e) L'.
  Proof.
    assert (Q : L ++ L' = [] \/ L ++ L' <> []) by (destruct (L ++ L'); [left; reflexivity|right; discriminate]).
    destruct Q as [Z|N].
    { apply app_eq_nil in Z. destruct Z as [-> ->]. auto. }
    destruct (patch_allC N) as (d & Hn & A & B).
    assert (Hl : forall f, In f L -> In f (L ++ L')) by (intros; apply in_or_app; auto).
    assert (Hl' : forall f, In f L' -> In f (L ++ L')) by (intros; apply in_or_app; auto).
    destruct (Rlt_dec eps (Rabs d)) as [E|E].
    - (* outside the band *)
      assert (Hd : d <> 0) by (intros ->; rewrite Rabs_R0 in E; pose proof eps_pos; lra).
      assert (S : forall l, (forall f, In f l -> In f (L ++ L')) -> (forall f, In f l -> in_patch n o d f) ->
        vsum (gC density Gc o) l = (kG density Gc * (d * vsum (fun f => FF n (vtx 0 f - o) (vtx 1 f - o) (vtx 2 f - o)) l))%v /\
        forall e, vsum (fun f => jC density Gc o f e) l = (kG density Gc * 10000 * vsum (fun f => JJ n (vtx 0 f - o) (vtx 1 f - o) (vtx 2 f - o) e) l)%v).
      { intros l H1 H2. split; [|intros e]; rewrite <- !vsum_sc; apply vsum_ext; intros f Hf;
          unfold gC, jC, omC, gomC; rewrite (Hun f (H1 f Hf)); unfold JJ, FF; destruct (H2 f Hf) as (_ & _ & ->);
          (destruct (Rlt_dec eps (Rabs d)); [reflexivity|contradiction]). }
      destruct (S L Hl A) as [S1 S2]. destruct (S L' Hl' B) as [S1' S2']. split; [|intros e].
      + rewrite S1, S1', (patch_FF n o d Hd Hn L L' A B Hb). reflexivity.
      + rewrite S2, S2', (patch_JJ n o d Hd Hn L L' e A B Hb). reflexivity.
    - (* inside: no solid angles *)
      assert (S : forall l, (forall f, In f l -> In f (L ++ L')) -> (forall f, In f l -> in_patch n o d f) ->
        vsum (gC density Gc o) l = (kG density Gc * (d * cr (vsum (fun f => Isum (vtx 0 f - o) (vtx 1 f - o) (vtx 2 f - o)) l) n))%v /\
        forall e, vsum (fun f => jC density Gc o f e) l =
          (kG density Gc * 10000 * (d * cr (vsum (fun f => dIs (vtx 0 f - o) (vtx 1 f - o) (vtx 2 f - o) e) l) n
             - dt n e * cr (vsum (fun f => Isum (vtx 0 f - o) (vtx 1 f - o) (vtx 2 f - o)) l) n))%v).
      { induction l as [|f l IH]; intros H1 H2; [split; [|intros e]; cbn [vsum fold_right]; vring|].
        destruct IH as [I1 I2]; [intros; apply H1; right; auto|intros; apply H2; right; auto|].
        unfold vsum in I1, I2. split; [|intros e]; cbn [vsum fold_right]; [rewrite I1|rewrite I2];
          unfold gC at 1 || unfold jC at 1; unfold omC, gomC; rewrite (Hun f (H1 f (or_introl eq_refl)));
          destruct (H2 f (or_introl eq_refl)) as (_ & _ & ->);
          (destruct (Rlt_dec eps (Rabs d)); [contradiction|]); rewrite ?dt_0_l.
        - match goal with |- context [cr (fold_right ?g v0 l)] => generalize (fold_right g v0 l) end.
          generalize (Isum (vtx 0 f - o) (vtx 1 f - o) (vtx 2 f - o)). intros. vring.
        - match goal with |- context [cr (fold_right ?g v0 l)] => generalize (fold_right g v0 l) end.
          match goal with |- context [cr (fold_right ?g v0 l)] => generalize (fold_right g v0 l) end.
          generalize (Isum (vtx 0 f - o) (vtx 1 f - o) (vtx 2 f - o)) (dIs (vtx 0 f - o) (vtx 1 f - o) (vtx 2 f - o) e) (dt n e). intros. vring. }
      destruct (S L Hl A) as [S1 S2]. destruct (S L' Hl' B) as [S1' S2']. split; [|intros e].
      + rewrite S1, S1', patch_Isum. reflexivity.
      + rewrite S2, S2', patch_Isum, patch_dIs. reflexivity.
  Qed.
  End OnePatch.

  Variable facets : list (list (face RA) * list (face RA)).
  Hypothesis HP : Permutation (pl_faces p) (concat (map fst facets)).
  Hypothesis HP' : Permutation (pl_faces p') (concat (map snd facets)).
  Hypothesis Hall : forall L L', In (L, L') facets -> retriangulated L L'.

  Theorem retri_clear g : clear p o g -> clear p' o g ->
    spec_gravity (A := RA) p o density Gc g = spec_gravity (A := RA) p' o density Gc g.
  Proof.
    intros Hr Hr'. rewrite (clear_value p o g density Gc Hc Hr), (clear_value p' o g density Gc Hc' Hr').
    apply (f_equal Ok), (f_equal2 pair).
    - apply (retri_sum p p' facets HP HP' Hall). intros n L L' H1 H2 H3 H4 H5. exact (proj1 (patch_C n L L' H1 H2 H3 H4 H5)).
    - destruct g; [|reflexivity]. rewrite !clear_up.
      assert (J : forall e, vsum (fun f => jC density Gc o f e) (pl_faces p) = vsum (fun f => jC density Gc o f e) (pl_faces p')).
      { intros e. apply (retri_sum p p' facets HP HP' Hall). intros n L L' H1 H2 H3 H4 H5. exact (proj2 (patch_C n L L' H1 H2 H3 H4 H5) e). }
      unfold up. now rewrite !J.
  Qed.
End RetriC.

(** ** Rotation and scaling *)
Section SimilarC.
  Variables (Q : V -> V) (k : R) (v : V).
  Hypothesis HQ : rotation Q.
  Hypothesis Hk : 0 < k.
  Notation S := (simil Q k v).
  Notation T := (fun a => (k * Q a)%v).

  Lemma T_om_all a b c : om (k * Q a)%v (k * Q b)%v (k * Q c)%v = om a b c.
  Proof.
    destruct (Req_dec (det a b c) 0) as [Z|Z]; [|now apply (T_om Q k HQ Hk)].
    rewrite !om_flat; [reflexivity|exact Z|].
    rewrite (T_det Q k HQ), Z. ring.
  Qed.
  Lemma T_FF_all n a b c : off3 a b c -> FF (Q n) (k * Q a) (k * Q b) (k * Q c) = Q (FF n a b c).
  Proof.
    intros H. unfold FF. rewrite T_om_all, (T_Isum Q k HQ Hk) by auto.
    now rewrite (rot_add Q HQ), (rot_sc Q HQ), <- (rot_cr Q HQ).
  Qed.
  Lemma T_JJ_all n a b c e : off3 a b c -> JJ (Q n) (k * Q a) (k * Q b) (k * Q c) (Q e) = Q (JJ n a b c e).
  Proof.
    intros H. unfold JJ. rewrite T_FF_all, (T_gom Q k HQ Hk) by auto. unfold dIs.
    destruct H as (H1 & H2 & H3). rewrite !(T_gell Q k HQ Hk), !(T_uv Q k HQ Hk) by auto.
    rewrite !dt_sc_l, !dt_sc_r, !(rot_dt Q HQ).
    rewrite (Q_sub Q HQ), !(rot_sc Q HQ), (rot_add Q HQ), (rot_sc Q HQ), <- (rot_cr Q HQ), !(rot_add Q HQ), !(rot_sc Q HQ).
    set (x := dt (gom a b c) e). set (y1 := dt (gell a b) e). set (y2 := dt (gell b c) e). set (y3 := dt (gell c a) e).
    set (d := dt n a). set (F := Q (FF n a b c)). set (u1 := Q (uv a b)). set (u2 := Q (uv b c)). set (u3 := Q (uv c a)).
    set (m := Q n). set (ne := dt n e). clearbody x y1 y2 y3 d F u1 u2 u3 m ne.
    transitivity ((k * / k) * (d * (x * m + cr (y1 * u1 + y2 * u2 + y3 * u3) m)) - ne * F)%v; [vring|].
    rewrite Rinv_r by lra. vring.
  Qed.
  Lemma clear3_off3 p o f : closed p -> In f (pl_faces p) -> clear3 o f -> off3 (vtx 0 f - o) (vtx 1 f - o) (vtx 2 f - o).
  Proof.
    intros Hc Hf H. destruct (proj1 Hc f Hf) as [p1 [p2 [p3 HF]]].
    pose proof (facet_nondeg _ _ _ _ HF) as (N1 & N2 & N3).
    destruct (facet_vtx _ _ _ _ HF) as [E1 [E2 E3]]. unfold clear3 in H. rewrite E1, E2, E3 in *.
    destruct H as (K1 & K2 & K3).
    assert (E : forall q r, q <> r -> eregular q r o -> off (q - o) (r - o)).
    { intros q r Hne H0. exact (proj1 (edge_regular_value q r o (0%nat, 0%nat) 0%nat false Hne H0)). }
    split; [apply E; auto|split; apply E; auto].
  Qed.
  Lemma gF_map_all p o d G f : closed p -> In f (pl_faces p) -> clear3 o f \/ flat o f ->
    gF d G (S o) (map_face Q k v f) = (k * Q (gF d G o f))%v.
  Proof.
    intros Hc Hin H. pose proof Hc as [Hc' _]. destruct (Hc' f Hin) as (p1 & p2 & p3 & Hf).
    destruct (vtx_map Q k v HQ Hk f p1 p2 p3 Hf) as (E1 & E2 & E3). pose proof (clear3_off3 p o f Hc Hin) as HO.
    destruct (facet_vtx _ _ _ _ Hf) as (F1 & F2 & F3).
    unfold gF, flat in *. rewrite E1, E2, E3, F1, F2, F3, !(S_obs Q k v HQ) in *. change (f_un (map_face Q k v f)) with (Q (f_un f)).
    rewrite dt_sc_r, (rot_dt Q HQ), !(rot_sc Q HQ). destruct H as [H|H].
    - rewrite T_FF_all by auto. vring.
    - rewrite H. generalize (FF (Q (f_un f)) (k * Q (p1 - o)%v) (k * Q (p2 - o)%v) (k * Q (p3 - o)%v)) (Q (FF (f_un f) (p1 - o) (p2 - o) (p3 - o))).
      intros. vring.
  Qed.
  Lemma jF_map_all p o d G f e : closed p -> In f (pl_faces p) -> clear3 o f ->
    jF d G (S o) (map_face Q k v f) (Q e) = Q (jF d G o f e).
  Proof.
    intros Hc Hin H. pose proof Hc as [Hc' _]. destruct (Hc' f Hin) as (p1 & p2 & p3 & Hf).
    destruct (vtx_map Q k v HQ Hk f p1 p2 p3 Hf) as (E1 & E2 & E3). pose proof (clear3_off3 p o f Hc Hin H) as HO.
    destruct (facet_vtx _ _ _ _ Hf) as (F1 & F2 & F3).
    unfold jF. rewrite E1, E2, E3, F1, F2, F3, !(S_obs Q k v HQ) in *. change (f_un (map_face Q k v f)) with (Q (f_un f)).
    rewrite T_JJ_all by auto. now rewrite !(rot_sc Q HQ).
  Qed.

  Theorem similar_well p o d G g : closed p -> well_placed p o g -> well_placed (map_poly Q k v p) (S o) g ->
    exists G0 T0 T1,
      spec_gravity (A := RA) p o d G g = Ok (G0, T0) /\
      spec_gravity (A := RA) (map_poly Q k v p) (S o) d G g = Ok ((k * Q G0)%v, T1) /\
      (forall e, mapp T1 (Q e) = Q (mapp T0 e)).
  Proof.
    intros Hc Hr Hr'. pose proof (closed_map Q k v HQ Hk p Hc) as Hc'.
    rewrite (well_value p o g d G Hc Hr).
    pose proof (well_value _ _ g d G Hc' Hr') as E'. do 3 eexists. split; [reflexivity|]. split.
    - etransitivity; [exact E'|]. apply (f_equal Ok), (f_equal2 pair); [|reflexivity].
      change (pl_faces (map_poly Q k v p)) with (map (map_face Q k v) (pl_faces p)). rewrite vsum_map.
      rewrite (vsum_ext _ (fun f => (k * Q (gF d G o f))%v)).
      + now rewrite vsum_sc, (vsum_Q Q HQ).
      + intros f Hf. apply (gF_map_all p); auto. destruct (proj2 (proj1 Hr) f Hf) as [K|[_ K]]; auto.
    - destruct g.
      + intros e. pose proof (clear_offs _ _ Hc (proj1 Hr)) as O. pose proof (clear_offs _ _ Hc' (proj1 Hr')) as O'.
        rewrite (tensor_app_off _ _ d G Hc' O'), (tensor_app_off _ _ d G Hc O). unfold Jtot.
        change (pl_faces (map_poly Q k v p)) with (map (map_face Q k v) (pl_faces p)). rewrite vsum_map.
        rewrite (vsum_ext _ (fun f => Q (jF d G o f e))).
        * apply (vsum_Q Q HQ).
        * intros f Hf. apply (jF_map_all p); auto. destruct (proj2 (proj1 Hr) f Hf) as [K|[K _]]; [exact K|discriminate K].
      + intros e. unfold mapp, m0; cbn [vx vy vz]. rewrite !dt_0_l. change (V3 0 0 0) with v0. now rewrite (Q_0 Q HQ).
  Qed.

  (** a rotation does not change which observers are well placed *)
  Lemma well_map p o g : k = 1 -> closed p -> well_placed p o g -> well_placed (map_poly Q k v p) (S o) g.
  Proof.
    intros K1 Hc [[HV HC] HB].
    assert (RE : forall q r, eregular q r o -> eregular (S q) (S r) (S o)).
    { intros q r H. unfold eregular in *. rewrite <- (uv_shift (S q) (S r) (S o)), !(S_obs Q k v HQ), (T_uv Q k HQ Hk), uv_shift.
      rewrite !(T_nm Q k HQ Hk), !dt_sc_r, !(rot_dt Q HQ), K1, !Rmult_1_l.
      destruct H as [H|[[x [H1 H2]]|[x [H1 H2]]]]; [left; exact H|right; left|right; right]; exists x; (split; [exact H1|]);
        rewrite H2, (rot_sc Q HQ); vring. }
    assert (P : forall f, In f (pl_faces p) -> dt (f_un (map_face Q k v f)) (vtx 0 (map_face Q k v f) - S o) = dt (f_un f) (vtx 0 f - o)).
    { intros f Hf. destruct (proj1 Hc f Hf) as (p1 & p2 & p3 & HF). destruct (vtx_map Q k v HQ Hk f p1 p2 p3 HF) as (E1 & _).
      destruct (facet_vtx _ _ _ _ HF) as (F1 & _). rewrite E1, F1. change (f_un (map_face Q k v f)) with (Q (f_un f)).
      rewrite (S_obs Q k v HQ), dt_sc_r, (rot_dt Q HQ), K1. ring. }
    split; [split|]; intros f Hin; unfold map_poly in Hin; cbn [pl_faces] in Hin; apply in_map_iff in Hin;
      destruct Hin as (f0 & <- & Hin).
    - intros Z. apply (HV f0 Hin). unfold map_face in Z; cbn [f_points] in Z. apply in_map_iff in Z.
      destruct Z as (x & Ex & Hx). assert (E : (S x - S o)%v = v0) by (rewrite Ex; vring).
      rewrite (S_obs Q k v HQ) in E. assert (E2 : x = o); [|now rewrite <- E2].
      assert (E3 : (x - o)%v = v0).
      { apply (Q_inj Q HQ). rewrite (Q_0 Q HQ). apply (sc_zero k); [lra|exact E]. }
      replace o with ((o - x) + x)%v by vring. replace (o - x)%v with (- (x - o))%v by vring. rewrite E3. vring.
    - destruct (HC f0 Hin) as [K|[Kg K]]; [left|right; split; [exact Kg|]].
      + destruct (proj1 Hc f0 Hin) as (p1 & p2 & p3 & HF). destruct (vtx_map Q k v HQ Hk f0 p1 p2 p3 HF) as (E1 & E2 & E3).
        destruct (facet_vtx _ _ _ _ HF) as (F1 & F2 & F3). unfold clear3 in *. rewrite E1, E2, E3. rewrite F1, F2, F3 in K.
        destruct K as (R1 & R2 & R3). auto.
      + unfold flat in *. now rewrite P.
    - unfold flat. rewrite P by exact Hin. exact (HB f0 Hin).
  Qed.
End SimilarC.

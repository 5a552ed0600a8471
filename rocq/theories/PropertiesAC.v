(** * C83: two machines agree *)
From Coq Require Import Reals Lra List ZArith Bool Arith Lia Permutation Floats.SpecFloat.
From Verif Require Import Base MUtils MEdge MFace MHull MPoly SpecPoly PPoly PStation PPlain FArith PCall PNan Examples.
From Verif Require Import RVec RArith REdge REdgeModel RAngle ROmega RFace RFacet RPoly RTwin RField
  RHull RHullZ ExamplesR RPlaced RPlacedZ RGlue RVolume RSolid PropertiesR PropertiesS PropertiesT PropertiesU PropertiesV PropertiesF PropertiesE FReal FErr FDot PSim FHull FNorm FBuild FInt
  FLog FUnit FEdge FOmega FGrav FField FTField PropertiesG.
Import ListNotations.
Local Open Scope R_scope.

(** The hulls [h] and [h'] describe the same surface: [h'] lists the points, the
    vertices, the facets and the vertices of each facet in any order; [sigma i] is the
    number in [h'] of point [i] of [h]. *)
Definition relisted {lg ac DP lg' ac' DP'} (h : hull (FA lg ac DP)) (h' : hull (FA lg' ac' DP')) (sigma : nat -> nat) : Prop :=
  (forall i, In i (h_vertices h) -> pnth (A := FA lg' ac' DP') (sigma i) (h_points h') = pnth (A := FA lg ac DP) i (h_points h)) /\
  Permutation (map sigma (h_vertices h)) (h_vertices h') /\
  exists l, Permutation (map (map sigma) (h_simplices h)) l /\ Forall2 (@Permutation nat) l (h_simplices h').

Lemma fold_vadd_perm l l' : Permutation l l' -> forall a, fold_left (vadd (A := RA)) l a = fold_left (vadd (A := RA)) l' a.
Proof.
  induction 1 as [|x l l' _ IH|x y l|l l' l'' _ IH1 _ IH2]; intros a; cbn [fold_left]; auto.
  - replace (vadd (vadd a y) x) with (vadd (vadd a x) y); [reflexivity|]. apply veq; cbn; ring.
  - now rewrite IH1.
Qed.

Section Two.
  Variables lg ac lg' ac' : F -> F.
  Variables DP DP' : dotlib.
  Notation FD := (FA lg ac DP).
  Notation FD' := (FA lg' ac' DP').
  Variable h : hull FD.
  Variable h' : hull FD'.
  Variable sigma : nat -> nat.
  Hypothesis Hr : relisted h h' sigma.
  Notation RH := (real_hull lg ac DP h).
  Notation RH' := (real_hull lg' ac' DP' h').
  Hypothesis Hh : correct_hull RH.
  Hypothesis Hh' : correct_hull RH'.

  Lemma re_pt i : In i (h_vertices h) -> pt RH' (sigma i) = pt RH i.
  Proof. intros Hi. rewrite !pt_real. destruct Hr as (E & _). f_equal; exact (E i Hi). Qed.
  Lemma re_vert i : In i (h_vertices h') -> exists j, In j (h_vertices h) /\ sigma j = i.
  Proof.
    intros Hi. destruct Hr as (_ & P & _). apply (Permutation_in _ (Permutation_sym P)) in Hi. apply in_map_iff in Hi.
    destruct Hi as (j & E & Hj). eauto.
  Qed.
  Lemma re_nv : length (h_vertices h') = length (h_vertices h).
  Proof. destruct Hr as (_ & P & _). rewrite <- (Permutation_length P). apply map_length. Qed.
  Lemma re_ns : length (h_simplices h') = length (h_simplices h).
  Proof.
    destruct Hr as (_ & _ & l & P & Q). rewrite <- (map_length (map sigma) (h_simplices h)), (Permutation_length P).
    clear - Q. induction Q; cbn [length]; congruence.
  Qed.
  Lemma re_surface : same_surface RH RH' sigma.
  Proof.
    split; [exact re_pt|]. destruct Hr as (_ & P & Q). split; [|exact Q]. intros i Hi. apply (Permutation_in _ P). now apply in_map.
  Qed.
  Lemma re_tri x y z : In [x; y; z] (h_simplices h') -> exists a b c, In [a; b; c] (h_simplices h) /\
    Permutation [sigma a; sigma b; sigma c] [x; y; z] /\ In a (h_vertices h) /\ In b (h_vertices h) /\ In c (h_vertices h).
  Proof.
    intros Hi. destruct Hr as (_ & _ & l & P & Q).
    assert (K : forall (m m' : list (list nat)) s', Forall2 (@Permutation nat) m m' -> In s' m' -> exists s, In s m /\ Permutation s s').
    { intros m m' s2. induction 1 as [|s0 s0' m m' E _ IH]; [intros []|]. intros [<-|H]; [exists s0; split; [now left|exact E]|]. destruct (IH H) as (s1 & ? & ?). exists s1. split; [now right|assumption]. }
    destruct (K _ _ _ Q Hi) as (s0 & Hs0 & E). apply (Permutation_in _ (Permutation_sym P)) in Hs0. apply in_map_iff in Hs0.
    destruct Hs0 as (s1 & <- & Hs1). destruct (ch_tri RH Hh s1 Hs1) as (a & b & c & -> & _). exists a, b, c. split; [exact Hs1|]. split; [exact E|].
    exact (tri_in lg ac DP h Hh a b c Hs1).
  Qed.
  Lemma re_centroid : centroid (A := RA) (h_points RH') (h_vertices h') = centroid (A := RA) (h_points RH) (h_vertices h).
  Proof.
    unfold centroid. rewrite re_nv. f_equal. destruct Hr as (_ & P & _).
    rewrite <- (fold_vadd_perm _ _ (Permutation_map (fun i => pnth (A := RA) i (h_points RH')) P)). rewrite map_map. f_equal.
    apply map_ext_in. intros i Hi. exact (re_pt i Hi).
  Qed.
  Lemma re_placed M L : placed lg ac DP M L (h_points h) (h_vertices h) -> placed lg' ac' DP' M L (h_points h') (h_vertices h').
  Proof.
    intros [H1 H2]. destruct Hr as (E & _). split.
    - intros i Hi. destruct (re_vert i Hi) as (j & Hj & <-). rewrite (E j Hj). exact (H1 j Hj).
    - intros i k Hi Hk. destruct (re_vert i Hi) as (j & Hj & <-), (re_vert k Hk) as (m & Hm & <-). rewrite (E j Hj), (E m Hm). exact (H2 j m Hj Hm).
  Qed.
  Lemma re_margin M L : margin lg ac DP M L h -> margin lg' ac' DP' M L h'.
  Proof.
    intros Hm x y z Hin. destruct (re_tri x y z Hin) as (a & b & c & Hs & P & Va & Vb & Vc). rewrite re_nv. specialize (Hm a b c Hs). rewrite re_centroid.
    eapply Rlt_le_trans; [exact Hm|]. apply Req_le. unfold nrm3. rewrite <- (re_pt a Va), <- (re_pt b Vb), <- (re_pt c Vc).
    generalize (centroid (A := RA) (h_points RH) (h_vertices h)). intros C.
    destruct (perm3 _ _ _ _ _ _ P) as [[E|[E|E]]|[E|[E|E]]]; injection E as -> -> ->; [| | |rewrite <- Rabs_Ropp|rewrite <- Rabs_Ropp|rewrite <- Rabs_Ropp]; f_equal; vring.
  Qed.
  Lemma re_seen L g s (o : V) :
    (forall a b c, In [a; b; c] (h_simplices h) -> seen L g s (pt RH a - o)%v (pt RH b - o)%v (pt RH c - o)%v \/
      outlined L g (pt RH a - o)%v (pt RH b - o)%v (pt RH c - o)%v /\ axial (pt RH a - o)%v (pt RH b - o)%v (pt RH c - o)%v) ->
    forall a b c, In [a; b; c] (h_simplices h') -> seen L g s (pt RH' a - o)%v (pt RH' b - o)%v (pt RH' c - o)%v \/
      outlined L g (pt RH' a - o)%v (pt RH' b - o)%v (pt RH' c - o)%v /\ axial (pt RH' a - o)%v (pt RH' b - o)%v (pt RH' c - o)%v.
  Proof.
    intros H x y z Hin. destruct (re_tri x y z Hin) as (a & b & c & Hs & P & Va & Vb & Vc). specialize (H a b c Hs).
    rewrite <- (re_pt a Va), <- (re_pt b Vb), <- (re_pt c Vc) in H. destruct H as [H|[H1 H2]]; [left|right; split].
    - exact (seen_perm (fun k => (pt RH' k - o)%v) L g s _ _ _ _ _ _ P H).
    - exact (outlined_perm (fun k => (pt RH' k - o)%v) L g _ _ _ _ _ _ P H1).
    - exact (axial_perm (fun k => (pt RH' k - o)%v) _ _ _ _ _ _ P H2).
  Qed.
End Two.

Lemma within_two d u v w : within d (u - w)%v -> within d (v - w)%v -> within (2 * d) (u - v)%v.
Proof.
  destruct u as [a b c], v as [a' b' c'], w as [x y z]. unfold within, vm. cbn [vx vy vz].
  intros (A & B & C) (A' & B' & C'). revert A B C A' B' C'. unfold Rabs. repeat destruct (Rcase_abs _); lra.
Qed.

(** Two machines, with different log, acos and scalar products, on which qhull may list
    the same facets in different orders, or to which the points were given in different
    orders, compute gravity vectors that differ by at most twice the bound of C72. *)
Theorem C83_gravity :
  forall lg ac (DP : dotlib) lg' ac' (DP' : dotlib), libm lg ac -> libm lg' ac' ->
  forall convex_hull in_hull points (h : hull (FA lg ac DP)) convex_hull' in_hull' points' (h' : hull (FA lg' ac' DP')) sigma M L g s,
  convex_hull points = Ok h -> correct_hull (real_hull lg ac DP h) ->
  convex_hull' points' = Ok h' -> correct_hull (real_hull lg' ac' DP' h') -> relisted h h' sigma ->
  (1 <= length (h_vertices h) <= 2 ^ 20)%nat -> (length (h_simplices h) <= 2 ^ 20)%nat ->
  / 2 ^ 20 <= L -> L <= 2 * M -> M <= 2 ^ 100 -> 1 <= g <= 1024 -> 1 <= s <= 32768 ->
  let P i := pnth (A := FA lg ac DP) i (h_points h) in
  (forall i, In i (h_vertices h) -> vfin (P i) /\ within M (fvec (P i))) ->
  (forall i j, In i (h_vertices h) -> In j (h_vertices h) -> within L (fvec (P i) - fvec (P j))%v) ->
  let cen := centroid (A := RA) (map fvec (h_points h)) (h_vertices h) in
  let normal a b c := cr (fvec (P b) - fvec (P a)) (fvec (P c) - fvec (P a)) in
  (forall a b c, In [a; b; c] (h_simplices h) ->
     ((INR (length (h_vertices h)) + 1) * M + 8 * L) * (L * L) / 2 ^ 50 < Rabs (dt (normal a b c) (cen - fvec (P a))%v)) ->
  forall o : vec (FA lg ac DP), vfin o -> within M (fvec o) ->
  (forall a b c, In [a; b; c] (h_simplices h) -> views L g s (fvec (P a) - fvec o) (fvec (P b) - fvec o) (fvec (P c) - fvec o)) ->
  forall (density Gc : num (FA lg ac DP)) R0 G0, / 2 ^ 90 <= R0 <= 2 ^ 90 -> / 2 ^ 90 <= G0 <= 2 ^ 90 ->
  fin density -> Rabs (fv density) <= R0 -> fin Gc -> Rabs (fv Gc) <= G0 ->
  let N := INR (length (h_simplices h)) in
  exists p p', mk_polyhedron convex_hull in_hull points = Ok p /\ mk_polyhedron convex_hull' in_hull' points' = Ok p' /\
  forall st st', reachable p st -> reachable p' st' ->
  exists G T G' T', fst (get_gravity p o density Gc false st) = Ok (G, T) /\
    fst (get_gravity (A := FA lg' ac' DP') p' o density Gc false st') = Ok (G', T') /\
    within (2 * (N * (L * (100000 * (R0 * G0))) * (g ^ 3 + g * s + N) / 2 ^ 35)) (fvec G - fvec G')%v.
Proof.
  intros lg ac DP lg' ac' DP' Hlib Hlib' ch inh pts h ch' inh' pts' h' sigma M L g s Hc Hh Hc' Hh' Hre H1 H1' H2 H3 H4 Hg Hs P H5 H6 cen normal H7
    o Fo Wo Hsee rho Gc R0 G0 HR HG Fr Br Fg Bg N.
  assert (Hsz : sized M L g) by (split; assumption).
  assert (Hp : placed lg ac DP M L (h_points h) (h_vertices h)) by (split; assumption).
  assert (Hm : margin lg ac DP M L h).
  { intros a b c Hin. unfold nrm3. rewrite !pt_real. exact (H7 a b c Hin). }
  assert (Hsn : forall a b c, In [a; b; c] (h_simplices h) ->
    seen L g s (pt (real_hull lg ac DP h) a - fvec o)%v (pt (real_hull lg ac DP h) b - fvec o)%v (pt (real_hull lg ac DP h) c - fvec o)%v \/
    outlined L g (pt (real_hull lg ac DP h) a - fvec o)%v (pt (real_hull lg ac DP h) b - fvec o)%v (pt (real_hull lg ac DP h) c - fvec o)%v /\
    axial (pt (real_hull lg ac DP h) a - fvec o)%v (pt (real_hull lg ac DP h) b - fvec o)%v (pt (real_hull lg ac DP h) c - fvec o)%v).
  { intros a b c Hin. rewrite !pt_real. apply views_seen, Hsee, Hin. }
  destruct (hull_gravity lg ac DP Hlib Hsz Hs h Hh H1 H1' Hp Hm o (conj Fo Wo) Hsn rho Gc R0 G0 HR HG (conj Fr Br) (conj Fg Bg) ch inh pts
    (fun _ => Ok (real_hull lg ac DP h)) (fun _ _ => true) [] Hc eq_refl) as (p & pR & G & T & Ep & EpR & HcR & Reg & Eg & _ & Wg & _).
  assert (H1b : (1 <= length (h_vertices h') <= 2 ^ 20)%nat) by (rewrite (re_nv _ _ _ _ _ _ h h' sigma Hre); exact H1).
  assert (H1b' : (length (h_simplices h') <= 2 ^ 20)%nat) by (rewrite (re_ns _ _ _ _ _ _ h h' sigma Hre); exact H1').
  destruct (hull_gravity lg' ac' DP' Hlib' Hsz Hs h' Hh' H1b H1b' (re_placed _ _ _ _ _ _ h h' sigma Hre M L Hp)
    (re_margin _ _ _ _ _ _ h h' sigma Hre Hh M L Hm) o (conj Fo Wo) (re_seen _ _ _ _ _ _ h h' sigma Hre Hh L g s (fvec o) Hsn)
    rho Gc R0 G0 HR HG (conj Fr Br) (conj Fg Bg) ch' inh' pts' (fun _ => Ok (real_hull lg' ac' DP' h')) (fun _ _ => true) [] Hc' eq_refl)
    as (p' & pR' & G' & T' & Ep' & EpR' & HcR' & Reg' & Eg' & _ & Wg' & _).
  exists p, p'. split; [exact Ep|]. split; [exact Ep'|]. intros st st' Hst Hst'. exists G, T, G', T'.
  split; [rewrite (history_independent p o rho Gc false st Hst), fresh_spec; exact Eg|].
  split; [rewrite (history_independent p' o rho Gc false st' Hst'), fresh_spec; exact Eg'|].
  destruct (C57_order_independent _ _ (fun _ => Ok (real_hull lg ac DP h)) (fun _ => Ok (real_hull lg' ac' DP' h')) (fun _ _ => true) (fun _ _ => true) [] [] sigma Hh Hh' (re_surface _ _ _ _ _ _ h h' sigma Hre) eq_refl eq_refl)
    as (q & q' & Eq & Eq' & K). rewrite EpR in Eq. injection Eq as <-. rewrite EpR' in Eq'. injection Eq' as <-.
  destruct (K (fvec o) false (proj1 (steady_well pR (fvec o) false HcR Reg))) as [_ V].
  specialize (V (fv rho) (fv Gc) pstate0 pstate0 (reach_new _) (reach_new _)).
  rewrite !gravity_spec in V by apply reach_new.
  pose proof (well_value pR (fvec o) false (fv rho) (fv Gc) HcR (steady_well _ _ _ HcR Reg)) as V1.
  pose proof (well_value pR' (fvec o) false (fv rho) (fv Gc) HcR' (steady_well _ _ _ HcR' Reg')) as V2.
  assert (E : vsum (gF (fv rho) (fv Gc) (fvec o)) (pl_faces pR') = vsum (gF (fv rho) (fv Gc) (fvec o)) (pl_faces pR)) by congruence.
  rewrite E, (re_ns _ _ _ _ _ _ h h' sigma Hre) in Wg'. fold N in Wg, Wg'.
  replace (N * (L * (100000 * (R0 * G0))) * (g ^ 3 + g * s + N) / 2 ^ 35) with (N * (g * g * g + g * s + N) * (L * (100000 * (R0 * G0))) / 2 ^ 35) by (unfold Rdiv; ring).
  exact (within_two _ _ _ _ Wg Wg').
Qed.
Print Assumptions C83_gravity.

(** Two machines, with different log, acos and scalar products, on which qhull may list
    the same facets in different orders, or to which the points were given in different
    orders, compute tensors whose entries differ by at most twice the bound of C79. *)
Theorem C83_tensor :
  forall lg ac (DP : dotlib) lg' ac' (DP' : dotlib), libm lg ac -> libm lg' ac' ->
  forall convex_hull in_hull points (h : hull (FA lg ac DP)) convex_hull' in_hull' points' (h' : hull (FA lg' ac' DP')) sigma M L g s,
  convex_hull points = Ok h -> correct_hull (real_hull lg ac DP h) ->
  convex_hull' points' = Ok h' -> correct_hull (real_hull lg' ac' DP' h') -> relisted h h' sigma ->
  (1 <= length (h_vertices h) <= 2 ^ 20)%nat -> (length (h_simplices h) <= 2 ^ 20)%nat ->
  / 2 ^ 20 <= L -> L <= 2 * M -> M <= 2 ^ 100 -> L <= 2 ^ 50 -> 1 <= g <= 1024 -> 1 <= s <= 8192 ->
  let P i := pnth (A := FA lg ac DP) i (h_points h) in
  (forall i, In i (h_vertices h) -> vfin (P i) /\ within M (fvec (P i))) ->
  (forall i j, In i (h_vertices h) -> In j (h_vertices h) -> within L (fvec (P i) - fvec (P j))%v) ->
  let cen := centroid (A := RA) (map fvec (h_points h)) (h_vertices h) in
  let normal a b c := cr (fvec (P b) - fvec (P a)) (fvec (P c) - fvec (P a)) in
  (forall a b c, In [a; b; c] (h_simplices h) ->
     ((INR (length (h_vertices h)) + 1) * M + 8 * L) * (L * L) / 2 ^ 50 < Rabs (dt (normal a b c) (cen - fvec (P a))%v)) ->
  forall o : vec (FA lg ac DP), vfin o -> within M (fvec o) ->
  (forall a b c, In [a; b; c] (h_simplices h) -> views L g s (fvec (P a) - fvec o) (fvec (P b) - fvec o) (fvec (P c) - fvec o)) ->
  forall (density Gc : num (FA lg ac DP)) R0 G0, / 2 ^ 90 <= R0 <= 2 ^ 90 -> / 2 ^ 90 <= G0 <= 2 ^ 90 ->
  fin density -> Rabs (fv density) <= R0 -> fin Gc -> Rabs (fv Gc) <= G0 ->
  let N := INR (length (h_simplices h)) in
  let D := N * (g ^ 5 + g ^ 2 * s ^ 3 + N * (g ^ 2 + g * s)) * (1000000000 * (R0 * G0)) / 2 ^ 30 in
  exists p p', mk_polyhedron convex_hull in_hull points = Ok p /\ mk_polyhedron convex_hull' in_hull' points' = Ok p' /\
  forall st st', reachable p st -> reachable p' st' ->
  exists G T G' T', fst (get_gravity p o density Gc true st) = Ok (G, T) /\
    fst (get_gravity (A := FA lg' ac' DP') p' o density Gc true st') = Ok (G', T') /\
    within (2 * D) (fvec (vx T) - fvec (vx T'))%v /\ within (2 * D) (fvec (vy T) - fvec (vy T'))%v /\ within (2 * D) (fvec (vz T) - fvec (vz T'))%v.
Proof.
  intros lg ac DP lg' ac' DP' Hlib Hlib' ch inh pts h ch' inh' pts' h' sigma M L g s Hc Hh Hc' Hh' Hre H1 H1' H2 H3 H4 HL Hg Hs P H5 H6 cen normal H7
    o Fo Wo Hsee rho Gc R0 G0 HR HG Fr Br Fg Bg N D.
  assert (Hsz : sized M L g) by (split; assumption).
  assert (Hp : placed lg ac DP M L (h_points h) (h_vertices h)) by (split; assumption).
  assert (Hm : margin lg ac DP M L h).
  { intros a b c Hin. unfold nrm3. rewrite !pt_real. exact (H7 a b c Hin). }
  assert (Hsn : forall a b c, In [a; b; c] (h_simplices h) ->
    seen L g s (pt (real_hull lg ac DP h) a - fvec o)%v (pt (real_hull lg ac DP h) b - fvec o)%v (pt (real_hull lg ac DP h) c - fvec o)%v \/
    outlined L g (pt (real_hull lg ac DP h) a - fvec o)%v (pt (real_hull lg ac DP h) b - fvec o)%v (pt (real_hull lg ac DP h) c - fvec o)%v /\
    axial (pt (real_hull lg ac DP h) a - fvec o)%v (pt (real_hull lg ac DP h) b - fvec o)%v (pt (real_hull lg ac DP h) c - fvec o)%v).
  { intros a b c Hin. rewrite !pt_real. apply views_seen, Hsee, Hin. }
  destruct (hull_tensor lg ac DP Hlib Hsz HL Hs h Hh H1 H1' Hp Hm o (conj Fo Wo) Hsn rho Gc R0 G0 HR HG (conj Fr Br) (conj Fg Bg) ch inh pts
    (fun _ => Ok (real_hull lg ac DP h)) (fun _ _ => true) [] Hc eq_refl) as (p & pR & G & T & Ep & EpR & HcR & Reg & Eg & _ & _ & _ & _ & _ & _ & W1 & W2 & W3 & _).
  assert (H1b : (1 <= length (h_vertices h') <= 2 ^ 20)%nat) by (rewrite (re_nv _ _ _ _ _ _ h h' sigma Hre); exact H1).
  assert (H1b' : (length (h_simplices h') <= 2 ^ 20)%nat) by (rewrite (re_ns _ _ _ _ _ _ h h' sigma Hre); exact H1').
  destruct (hull_tensor lg' ac' DP' Hlib' Hsz HL Hs h' Hh' H1b H1b' (re_placed _ _ _ _ _ _ h h' sigma Hre M L Hp)
    (re_margin _ _ _ _ _ _ h h' sigma Hre Hh M L Hm) o (conj Fo Wo) (re_seen _ _ _ _ _ _ h h' sigma Hre Hh L g s (fvec o) Hsn)
    rho Gc R0 G0 HR HG (conj Fr Br) (conj Fg Bg) ch' inh' pts' (fun _ => Ok (real_hull lg' ac' DP' h')) (fun _ _ => true) [] Hc' eq_refl)
    as (p' & pR' & G' & T' & Ep' & EpR' & HcR' & Reg' & Eg' & _ & _ & _ & _ & _ & _ & W1' & W2' & W3' & _).
  exists p, p'. split; [exact Ep|]. split; [exact Ep'|]. intros st st' Hst Hst'. exists G, T, G', T'.
  split; [rewrite (history_independent p o rho Gc true st Hst), fresh_spec; exact Eg|].
  split; [rewrite (history_independent p' o rho Gc true st' Hst'), fresh_spec; exact Eg'|].
  destruct (C57_order_independent _ _ (fun _ => Ok (real_hull lg ac DP h)) (fun _ => Ok (real_hull lg' ac' DP' h')) (fun _ _ => true) (fun _ _ => true) [] [] sigma Hh Hh' (re_surface _ _ _ _ _ _ h h' sigma Hre) eq_refl eq_refl)
    as (q & q' & Eq & Eq' & K). rewrite EpR in Eq. injection Eq as <-. rewrite EpR' in Eq'. injection Eq' as <-.
  destruct (K (fvec o) true (proj1 (steady_well pR (fvec o) true HcR Reg))) as [_ V].
  specialize (V (fv rho) (fv Gc) pstate0 pstate0 (reach_new _) (reach_new _)).
  rewrite !gravity_spec in V by apply reach_new.
  pose proof (well_value pR (fvec o) true (fv rho) (fv Gc) HcR (steady_well _ _ _ HcR Reg)) as V1.
  pose proof (well_value pR' (fvec o) true (fv rho) (fv Gc) HcR' (steady_well _ _ _ HcR' Reg')) as V2.
  assert (E : msum (tF (fv rho) (fv Gc) (fvec o)) (pl_faces pR') = msum (tF (fv rho) (fv Gc) (fvec o)) (pl_faces pR)).
  { rewrite V1, V2 in V. injection V as _ V. exact V. }
  rewrite E, (re_ns _ _ _ _ _ _ h h' sigma Hre) in W1', W2', W3'. fold N in W1, W2, W3, W1', W2', W3'.
  assert (ED : N * (g * g * (g * g * g) + g * s * (g * s * s) + N * (g * g + g * s)) * (1000000000 * (R0 * G0)) / 2 ^ 30 = D) by (unfold D, Rdiv; ring).
  rewrite ED in W1, W2, W3, W1', W2', W3'.
  split; [exact (within_two _ _ _ _ W1 W1')|]. split; [exact (within_two _ _ _ _ W2 W2')|exact (within_two _ _ _ _ W3 W3')].
Qed.
Print Assumptions C83_tensor.

(** the cube of side 20 of C72_case with its points, facets and the points of each facet
    listed in other orders *)
Definition cubeZ' : zhull :=
  {| z_points := rev (z_points cubeZ);
     z_simplices := rev (map (fun s => rev (map (fun i => 7 - i) s)) (z_simplices cubeZ));
     z_neighbors := rev (map (fun s => rev (map (fun i => 11 - i) s)) (z_neighbors cubeZ));
     z_vertices := [3; 2; 1; 0; 7; 6; 5; 4] |}%nat.
Example C83_case : forall lg ac (DP : dotlib) lg' ac' (DP' : dotlib),
  correct_hull (real_hull lg' ac' DP' (fh lg' ac' DP' cubeZ')) /\ relisted (fh lg ac DP cubeZ) (fh lg' ac' DP' cubeZ') (fun i => 7 - i)%nat.
Proof.
  intros lg ac DP lg' ac' DP'. split; [|split; [|split]].
  - rewrite real_fh; [apply hullb_ok; vm_compute; reflexivity|]. intros v Hv. cbn in Hv. repeat (destruct Hv as [<-|Hv]; [cbn; lia|]). destruct Hv.
  - intros i. cbn. intros H. repeat destruct H as [<-|H]; try destruct H; reflexivity.
  - cbn. apply (Permutation_app_comm [7; 6; 5; 4]%nat [3; 2; 1; 0]%nat).
  - exists (rev (map (map (fun i => 7 - i)%nat) (z_simplices cubeZ))). split; [apply Permutation_rev|].
    cbn. repeat constructor; match goal with |- Permutation [?a; ?b; ?c] _ => apply (Permutation_rev [a; b; c]) end.
Qed.

(** * Property C93: errors of the corners of a body *)
From Coq Require Import Reals Lra Psatz ZArith Bool List Permutation Arith Lia Floats.SpecFloat.
From Coquelicot Require Import Coquelicot.
From Verif Require Import Base MUtils MEdge MFace MHull MPoly SpecPoly PPoly PStation PPlain FArith PCall PNan Examples.
From Verif Require Import RVec RArith REdge REdgeModel RAngle ROmega RFace RFacet RPoly RTwin RField
  RHull RHullZ ExamplesR RLinear RMove RMoved RGlue RLaws RPlaced RPlacedZ RRay RTrace RFlux RVolume RSolid RBound PropertiesR PropertiesT PropertiesV PropertiesY RTensor PropertiesAJ.
From Verif Require Import PropertiesF PropertiesE FReal FErr FDot PSim FHull FNorm FBuild FInt FLog FUnit FEdge FOmega FGrav FField FTField PropertiesG PropertiesAH PropertiesAK.
Import ListNotations.
Local Open Scope R_scope.
Local Open Scope list_scope.

(** ** Integrals over two tetrahedra, compared point by point *)
Lemma int_id c : is_RInt (fun u => u * c) 0 1 (c / 2).
Proof.
  replace (c / 2) with ((fun u => u * u * c / 2) 1 - (fun u => u * u * c / 2) 0) by (cbv beta; field).
  apply (ftc_open (fun u => u * u * c / 2)); [lra| | |].
  - intros x _. auto_derive; auto. field.
  - intros x _. apply @ex_derive_continuous. auto_derive. auto.
  - intros x _. apply @ex_derive_continuous. auto_derive. auto.
Qed.
Lemma int_sq c : is_RInt (fun u => u * u * c) 0 1 (c / 3).
Proof.
  replace (c / 3) with ((fun u => u * u * u * c / 3) 1 - (fun u => u * u * u * c / 3) 0) by (cbv beta; field).
  apply (ftc_open (fun u => u * u * u * c / 3)); [lra| | |].
  - intros x _. auto_derive; auto. field.
  - intros x _. apply @ex_derive_continuous. auto_derive. auto.
  - intros x _. apply @ex_derive_continuous. auto_derive. auto.
Qed.
Lemma int_const (c : R) : is_RInt (fun _ : R => c) 0 1 c.
Proof.
  pose proof (@is_RInt_const R_NormedModule 0 1 c) as H. unfold scal in H; cbn in H. unfold mult in H; cbn in H.
  replace ((1 - 0) * c) with c in H by ring. exact H.
Qed.
Definition tdet (q0 p1 p2 p3 : V) : R := dt (cr (p2 - p1) (p3 - p1)) (p1 - q0).
Arguments tdet (_ _ _ _)%v_scope.
Lemma tet_compare F F' q0 p1 p2 p3 q0' p1' p2' p3' I I' c : cr (p2 - p1) (p3 - p1) <> v0 -> cr (p2' - p1') (p3' - p1') <> v0 ->
  volume_integral F q0 p1 p2 p3 I -> volume_integral F' q0' p1' p2' p3' I' ->
  (forall s u v, 0 <= s <= 1 -> 0 <= u <= 1 -> 0 <= v <= 1 ->
     tdet q0 p1 p2 p3 * F (tri_point (dil q0 s p1) (dil q0 s p2) (dil q0 s p3) u v) -
     tdet q0' p1' p2' p3' * F' (tri_point (dil q0' s p1') (dil q0' s p2') (dil q0' s p3') u v) <= c) ->
  I - I' <= c / 6.
Proof.
  intros N0 N0' (i & Hi & HI) (i' & Hi' & HI') H. apply nm_pos in N0. apply nm_pos in N0'.
  assert (EH : dt (uu (cr (p2 - p1) (p3 - p1))) (p1 - q0) * nm (cr (p2 - p1) (p3 - p1)) = tdet q0 p1 p2 p3)
    by (unfold uu, tdet; rewrite dt_sc_l; field; lra).
  assert (EH' : dt (uu (cr (p2' - p1') (p3' - p1'))) (p1' - q0') * nm (cr (p2' - p1') (p3' - p1')) = tdet q0' p1' p2' p3')
    by (unfold uu, tdet; rewrite dt_sc_l; field; lra).
  pose proof (is_RInt_lin _ _ 0 1 1 (- 1) _ _ HI HI') as HL.
  replace (I - I') with (1 * I + - 1 * I') by ring. replace (c / 6) with (c / 2 / 3) by field.
  eapply RInt_mono; [apply Rle_0_1|exact HL|apply (int_sq (c / 2))|]. intros s Hs. cbv beta.
  destruct (Hi s ltac:(lra)) as (j & Hj & HJ). destruct (Hi' s ltac:(lra)) as (j' & Hj' & HJ').
  set (h := dt (uu (cr (p2 - p1) (p3 - p1))) (p1 - q0)) in *. set (h' := dt (uu (cr (p2' - p1') (p3' - p1'))) (p1' - q0')) in *.
  pose proof (is_RInt_lin _ _ 0 1 h (- h') _ _ HJ HJ') as HL2.
  replace (1 * (h * i s) + -1 * (h' * i' s)) with (h * i s + - h' * i' s) by ring.
  replace (s * s * (c / 2)) with (s * s * c / 2) by field.
  eapply RInt_mono; [apply Rle_0_1|exact HL2|apply (int_id (s * s * c))|]. intros u Hu. cbv beta.
  rewrite !dil_cr, !nm_sc, !(Rabs_pos_eq (s * s)) by (apply Rmult_le_pos; lra).
  pose proof (is_RInt_lin _ _ 0 1 (tdet q0 p1 p2 p3) (- tdet q0' p1' p2' p3') _ _ (Hj u ltac:(lra)) (Hj' u ltac:(lra))) as HL3.
  assert (K : tdet q0 p1 p2 p3 * j u + - tdet q0' p1' p2' p3' * j' u <= c).
  { eapply RInt_mono; [apply Rle_0_1|exact HL3|apply (int_const c)|]. intros v Hv. cbv beta. specialize (H s u v ltac:(lra) ltac:(lra) ltac:(lra)). lra. }
  replace (h * (s * s * nm (cr (p2 - p1) (p3 - p1)) * u * j u) + - h' * (s * s * nm (cr (p2' - p1') (p3' - p1')) * u * j' u)) with
    (u * (s * s) * (h * nm (cr (p2 - p1) (p3 - p1)) * j u + - (h' * nm (cr (p2' - p1') (p3' - p1'))) * j' u)) by ring.
  rewrite EH, EH'. replace (u * (s * s * c)) with (u * (s * s) * c) by ring. apply Rmult_le_compat_l; [|exact K].
  apply Rmult_le_pos; [lra|]. apply Rmult_le_pos; lra.
Qed.

(** ** Determinants *)
Lemma det_nm a b c : Rabs (dt (cr a b) c) <= nm a * nm b * nm c.
Proof.
  eapply Rle_trans; [apply cs_abs|]. apply Rmult_le_compat_r; [apply nm_nonneg|].
  apply Rsqr_incr_0_var; [|apply Rmult_le_pos; apply nm_nonneg]. unfold Rsqr. rewrite nm_sq, lagrange.
  replace (nm a * nm b * (nm a * nm b)) with ((nm a * nm a) * (nm b * nm b)) by ring. rewrite !nm_sq.
  pose proof (Rle_0_sqr (dt a b)). unfold Rsqr in *. lra.
Qed.
Lemma tdet_near q0 p1 p2 p3 q0' p1' p2' p3' L d : 0 <= d ->
  nm (p1 - q0) <= L -> nm (p2 - q0) <= L -> nm (p3 - q0) <= L -> nm (p1' - q0') <= L -> nm (p2' - q0') <= L -> nm (p3' - q0') <= L ->
  nm (q0 - q0') <= d -> nm (p1 - p1') <= d -> nm (p2 - p2') <= d -> nm (p3 - p3') <= d ->
  Rabs (tdet q0 p1 p2 p3 - tdet q0' p1' p2' p3') <= 6 * d * (L * L).
Proof.
  intros D0 A1 A2 A3 B1 B2 B3 E0 E1 E2 E3.
  assert (X : forall p p', nm (p - p') <= d -> nm ((p - q0) - (p' - q0')) <= 2 * d).
  { intros p p' Hp. replace (p - q0 - (p' - q0'))%v with ((p - p') + - (q0 - q0'))%v by vring. eapply Rle_trans; [apply triangle|]. rewrite nm_opp. lra. }
  pose proof (X _ _ E1) as X1. pose proof (X _ _ E2) as X2. pose proof (X _ _ E3) as X3.
  replace (tdet q0 p1 p2 p3) with (dt (cr (p1 - q0) (p2 - q0)) (p3 - q0)) by (unfold tdet; vring).
  replace (tdet q0' p1' p2' p3') with (dt (cr (p1' - q0') (p2' - q0')) (p3' - q0')) by (unfold tdet; vring).
  revert A1 A2 A3 B1 B2 B3 X1 X2 X3. generalize (p1 - q0)%v (p2 - q0)%v (p3 - q0)%v (p1' - q0')%v (p2' - q0')%v (p3' - q0')%v.
  intros a b c a' b' c' A1 A2 A3 B1 B2 B3 X1 X2 X3.
  replace (dt (cr a b) c - dt (cr a' b') c') with (dt (cr (a - a') b) c + (dt (cr a' (b - b')) c + dt (cr a' b') (c - c'))) by vring.
  assert (P : forall x y w X Y W, nm x <= X -> nm y <= Y -> nm w <= W -> Rabs (dt (cr x y) w) <= X * Y * W).
  { intros x y w X' Y W Hx Hy Hw. eapply Rle_trans; [apply det_nm|]. pose proof (nm_nonneg x). pose proof (nm_nonneg y). pose proof (nm_nonneg w).
    apply Rmult_le_compat; try assumption; [apply Rmult_le_pos; assumption|]. apply Rmult_le_compat; assumption. }
  pose proof (P _ _ _ _ _ _ X1 A2 A3) as Q1. pose proof (P _ _ _ _ _ _ B1 X2 A3) as Q2. pose proof (P _ _ _ _ _ _ B1 B2 X3) as Q3.
  eapply Rle_trans; [apply Rabs_triang|]. eapply Rle_trans; [apply Rplus_le_compat_l, Rabs_triang|].
  replace (6 * d * (L * L)) with (2 * d * L * L + (L * (2 * d) * L + L * L * (2 * d))) by ring. lra.
Qed.
(** corresponding points of two tetrahedra are as near as their corners *)
Lemma tet_near q0 p1 p2 p3 q0' p1' p2' p3' s u v d : 0 <= s <= 1 -> 0 <= u <= 1 -> 0 <= v <= 1 ->
  nm (q0 - q0') <= d -> nm (p1 - p1') <= d -> nm (p2 - p2') <= d -> nm (p3 - p3') <= d ->
  nm (tri_point (dil q0 s p1) (dil q0 s p2) (dil q0 s p3) u v - tri_point (dil q0' s p1') (dil q0' s p2') (dil q0' s p3') u v) <= d.
Proof.
  intros Hs Hu Hv E0 E1 E2 E3.
  replace (tri_point (dil q0 s p1) (dil q0 s p2) (dil q0 s p3) u v - tri_point (dil q0' s p1') (dil q0' s p2') (dil q0' s p3') u v)%v with
    (tri_point (dil (q0 - q0') s (p1 - p1')) (dil (q0 - q0') s (p2 - p2')) (dil (q0 - q0') s (p3 - p3')) u v)%v by (unfold tri_point, dil; vring).
  assert (C : convex (fun x => nm (x - v0) <= d)) by apply ball_convex.
  assert (Z : forall x, nm x <= d <-> nm (x - v0) <= d) by (intros x; replace (x - v0)%v with x by vring; tauto).
  rewrite Z in *. now apply (tetra_point (fun x => nm (x - v0) <= d)).
Qed.

(** ** C93 *)
(** the corners of two facets, one by one, at most d apart, the last two perhaps exchanged *)
Definition facets_near (d : R) (f f' : face RA) : Prop :=
  nm (vtx 0 f - vtx 0 f') <= d /\
  (nm (vtx 1 f - vtx 1 f') <= d /\ nm (vtx 2 f - vtx 2 f') <= d \/ nm (vtx 1 f - vtx 2 f') <= d /\ nm (vtx 2 f - vtx 1 f') <= d).

Section Near.
  Variables (K : V -> V) (P : V -> Prop) (q0 q0' : V) (k0 k1 L d : R).
  Hypothesis HC : convex P.
  Hypothesis HK0 : forall x, P x -> nm (K x) <= k0.
  Hypothesis HK1 : forall x x', P x -> P x' -> nm (K x - K x') <= k1 * nm (x - x').
  Hypothesis K1 : 0 <= k1.
  Hypothesis K0 : 0 <= k0.
  Hypothesis Hd : 0 <= d.
  Lemma facet_near (f f' : face RA) I I' w : facets_near d f f' -> nm (q0 - q0') <= d ->
    cr (vtx 1 f - vtx 0 f) (vtx 2 f - vtx 0 f) <> v0 -> cr (vtx 1 f' - vtx 0 f') (vtx 2 f' - vtx 0 f') <> v0 ->
    0 <= tdet q0 (vtx 0 f) (vtx 1 f) (vtx 2 f) -> 0 <= tdet q0' (vtx 0 f') (vtx 1 f') (vtx 2 f') ->
    P q0 -> P q0' -> (forall i, (i < 3)%nat -> P (vtx i f) /\ P (vtx i f') /\ nm (vtx i f - q0) <= L /\ nm (vtx i f' - q0') <= L) ->
    volume_vintegral K q0 (vtx 0 f) (vtx 1 f) (vtx 2 f) I -> volume_vintegral K q0' (vtx 0 f') (vtx 1 f') (vtx 2 f') I' ->
    dt w (I - I') <= nm w * (k1 * d * (tdet q0 (vtx 0 f) (vtx 1 f) (vtx 2 f) / 6) + k0 * d * (L * L)).
  Proof.
    intros [E0 E] Eq N N' Hdet Hdet' Q Q' HP HI HI'.
    destruct (HP 0%nat ltac:(lia)) as (P0 & P0' & L0 & L0'). destruct (HP 1%nat ltac:(lia)) as (P1 & P1' & L1 & L1'). destruct (HP 2%nat ltac:(lia)) as (P2 & P2' & L2 & L2').
    set (D := tdet q0 (vtx 0 f) (vtx 1 f) (vtx 2 f)) in *. set (D' := tdet q0' (vtx 0 f') (vtx 1 f') (vtx 2 f')) in *.
    rewrite dt_sub_r.
    replace (nm w * (k1 * d * (D / 6) + k0 * d * (L * L))) with ((nm w * (D * (k1 * d) + 6 * d * (L * L) * k0)) / 6) by field.
    eapply tet_compare; [exact N|exact N'|apply volume_dt; exact HI|apply volume_dt; exact HI'|].
    intros s u v Hs Hu Hv. cbv beta. fold D D'.
    pose proof (tetra_point P q0 _ _ _ s u v HC Q P0 P1 P2 Hs Hu Hv) as X.
    pose proof (tetra_point P q0' _ _ _ s u v HC Q' P0' P1' P2' Hs Hu Hv) as X'.
    assert (Y : Rabs (D - D') <= 6 * d * (L * L) /\
      nm (tri_point (dil q0 s (vtx 0 f)) (dil q0 s (vtx 1 f)) (dil q0 s (vtx 2 f)) u v - tri_point (dil q0' s (vtx 0 f')) (dil q0' s (vtx 1 f')) (dil q0' s (vtx 2 f')) u v) <= d
      \/ D + D' <= 6 * d * (L * L)).
    { destruct E as [[E1 E2]|[E1 E2]].
      - left. split; [apply tdet_near; assumption|]. now apply tet_near.
      - right. assert (KD : Rabs (D - tdet q0' (vtx 0 f') (vtx 2 f') (vtx 1 f')) <= 6 * d * (L * L)) by (apply tdet_near; assumption).
        replace (tdet q0' (vtx 0 f') (vtx 2 f') (vtx 1 f')) with (- D') in KD by (unfold D', tdet; generalize (vtx 0 f') (vtx 1 f') (vtx 2 f'); intros; vring).
        pose proof (Rle_abs (D - - D')). lra. }
    revert X X' Y.
    generalize (tri_point (dil q0 s (vtx 0 f)) (dil q0 s (vtx 1 f)) (dil q0 s (vtx 2 f)) u v)
      (tri_point (dil q0' s (vtx 0 f')) (dil q0' s (vtx 1 f')) (dil q0' s (vtx 2 f')) u v). intros x x' X X' Y.
    pose proof (HK0 x' X') as U. destruct Y as [[HD Y]|Y].
    2:{ pose proof (HK0 x X) as U0.
        replace (D * dt w (K x) - D' * dt w (K x')) with (dt w (D * K x + - (D' * K x')))
          by (generalize (K x) (K x'); intros; vring).
        eapply Rle_trans; [apply cs_upper|]. apply Rmult_le_compat_l; [apply nm_nonneg|].
        eapply Rle_trans; [apply triangle|]. rewrite nm_opp, !nm_sc, (Rabs_pos_eq D), (Rabs_pos_eq D') by assumption.
        pose proof (Rmult_le_compat_l D _ _ Hdet U0) as B1. pose proof (Rmult_le_compat_l D' _ _ Hdet' U) as B2.
        pose proof (Rmult_le_compat_r k0 _ _ K0 Y) as B3.
        assert (0 <= D * (k1 * d)) by (apply Rmult_le_pos; [exact Hdet|now apply Rmult_le_pos]). lra. }
    replace (D * dt w (K x) - D' * dt w (K x')) with (dt w (D * (K x - K x') + (D - D') * K x'))
      by (generalize (K x) (K x'); intros; vring).
    eapply Rle_trans; [apply cs_upper|]. apply Rmult_le_compat_l; [apply nm_nonneg|].
    eapply Rle_trans; [apply triangle|]. rewrite !nm_sc, (Rabs_pos_eq D) by exact Hdet. apply Rplus_le_compat.
    - apply Rmult_le_compat_l; [exact Hdet|]. eapply Rle_trans; [exact (HK1 x x' X X')|]. apply Rmult_le_compat_l; [exact K1|exact Y].
    - apply Rmult_le_compat; [apply Rabs_pos|apply nm_nonneg|exact HD|exact U].
  Qed.
End Near.

(** every facet has its corners among those of the hull, behind every other facet *)
Lemma hull_corner convex_hull inh points h p (P : V -> Prop) : convex_hull points = Ok h -> correct_hull h -> mk_polyhedron (A := RA) convex_hull inh points = Ok p ->
  (forall i, In i (h_vertices h) -> P (pt h i)) ->
  closed p /\ (forall f i, In f (pl_faces p) -> (i < 3)%nat -> P (vtx i f)) /\
  forall f g, In f (pl_faces p) -> In g (pl_faces p) -> 0 <= dt (f_un f) (vtx 0 f - vtx 0 g).
Proof.
  intros E Hh Ep0 HP. destruct (build_ok convex_hull inh points h E Hh) as (p1 & Ep & _ & Hc & HL & F).
  rewrite Ep0 in Ep. injection Ep as <-. pose proof (hull_behind h p Hh F) as HB. split; [exact Hc|]. split.
  - intros f i Hf Hi. apply In_nth_error in Hf. destruct Hf as [j Hj].
    destruct (face_of_parts _ _ _ (F j f Hj)) as (x & y & z & E0 & E1 & E2 & _ & _ & _ & s & Hs & HPm).
    assert (G : forall k, In k (x :: y :: z :: nil) -> P (pt h k)).
    { intros k Hk. apply HP, (ch_vert h Hh s); [eapply nth_error_In; eauto|].
      eapply Permutation_in; [apply Permutation_sym; exact HPm|exact Hk]. }
    destruct i as [|[|[|i]]]; [rewrite E0|rewrite E1|rewrite E2|lia]; apply G; simpl; auto.
  - intros f g Hf Hg. assert (K : dt (f_un f) (vtx 0 g - vtx 0 f) <= 0).
    { apply (HB f g); auto. destruct (proj1 Hc g Hg) as (p1 & p2 & p3 & HF).
      unfold vtx, pnth. apply nth_In. destruct HF as [[-> _] _]. simpl; lia. }
    replace (dt (f_un f) (vtx 0 f - vtx 0 g)) with (- dt (f_un f) (vtx 0 g - vtx 0 f)); [lra|].
    generalize (f_un f : V) (vtx 0 f) (vtx 0 g). intros. vring.
Qed.

(** the first corners of the two bodies as apexes; m is any bound valid for all corners *)
Lemma two_apexes convex_hull inh points h p convex_hull' inh' points' h' p' (P : V -> Prop) L d :
  convex_hull points = Ok h -> correct_hull h -> mk_polyhedron (A := RA) convex_hull inh points = Ok p ->
  convex_hull' points' = Ok h' -> correct_hull h' -> mk_polyhedron (A := RA) convex_hull' inh' points' = Ok p' ->
  Forall2 (facets_near d) (pl_faces p) (pl_faces p') ->
  (forall i, In i (h_vertices h) -> P (pt h i)) -> (forall i, In i (h_vertices h') -> P (pt h' i)) ->
  (forall i j, In i (h_vertices h) -> In j (h_vertices h) -> nm (pt h i - pt h j) <= L) ->
  (forall i j, In i (h_vertices h') -> In j (h_vertices h') -> nm (pt h' i - pt h' j) <= L) ->
  closed p /\ closed p' /\ exists q0 q0',
  (forall f, In f (pl_faces p) -> P q0 /\ P q0' /\ nm (q0 - q0') <= d /\ 0 <= tdet q0 (vtx 0 f) (vtx 1 f) (vtx 2 f) /\
     forall i, (i < 3)%nat -> P (vtx i f) /\ nm (vtx i f - q0) <= L) /\
  (forall f, In f (pl_faces p') -> P q0' /\ 0 <= tdet q0' (vtx 0 f) (vtx 1 f) (vtx 2 f) /\
     forall i, (i < 3)%nat -> P (vtx i f) /\ nm (vtx i f - q0') <= L).
Proof.
  intros E Hh Ep E' Hh' Ep' Hn HV HV' HS HS'.
  destruct (hull_corner convex_hull inh points h p P E Hh Ep HV) as (Hc & HP & HB).
  destruct (hull_corner convex_hull' inh' points' h' p' P E' Hh' Ep' HV') as (Hc' & HP' & HB').
  destruct (hull_corner convex_hull inh points h p (fun x => forall j, In j (h_vertices h) -> nm (x - pt h j) <= L) E Hh Ep (fun i Hi j Hj => HS i j Hi Hj)) as (_ & HS1 & _).
  destruct (hull_corner convex_hull' inh' points' h' p' (fun x => forall j, In j (h_vertices h') -> nm (x - pt h' j) <= L) E' Hh' Ep' (fun i Hi j Hj => HS' i j Hi Hj)) as (_ & HS1' & _).
  destruct (hull_corner convex_hull inh points h p (fun x => forall f i, In f (pl_faces p) -> (i < 3)%nat -> nm (vtx i f - x) <= L) E Hh Ep (fun j Hj f i Hf Hi => HS1 f i Hf Hi j Hj)) as (_ & HS2 & _).
  destruct (hull_corner convex_hull' inh' points' h' p' (fun x => forall f i, In f (pl_faces p') -> (i < 3)%nat -> nm (vtx i f - x) <= L) E' Hh' Ep' (fun j Hj f i Hf Hi => HS1' f i Hf Hi j Hj)) as (_ & HS2' & _).
  assert (TDD : forall p1 q1, closed p1 -> forall f, In f (pl_faces p1) -> 0 <= dt (f_un f) (vtx 0 f - q1) -> 0 <= tdet q1 (vtx 0 f) (vtx 1 f) (vtx 2 f)).
  { intros p1 q1 Hc1 f Hf K. destruct (facet_ne p1 Hc1 f Hf) as (_ & _ & _ & N & Hu). rewrite Hu in K. unfold uu in K. rewrite dt_sc_l in K.
    apply nm_pos in N. unfold tdet. apply Rmult_le_reg_l with (/ nm (cr (vtx 1 f - vtx 0 f) (vtx 2 f - vtx 0 f))); [now apply Rinv_0_lt_compat|]. now rewrite Rmult_0_r. }
  split; [exact Hc|]. split; [exact Hc'|].
  destruct (pl_faces p) as [|f0 l] eqn:El, (pl_faces p') as [|f0' l'] eqn:El'; [|inversion Hn..|].
  - exists v0, v0. split; intros f [].
  - assert (Hf0 : facets_near d f0 f0') by (inversion Hn; assumption). exists (vtx 0 f0), (vtx 0 f0').
    assert (I0 : In f0 (f0 :: l)) by now left. assert (I0' : In f0' (f0' :: l')) by now left.
    split.
    + intros f Hf. split; [apply HP; [exact I0|lia]|]. split; [apply HP'; [exact I0'|lia]|]. split; [apply Hf0|].
      split; [apply (TDD p _ Hc); [now rewrite El|apply HB; assumption]|]. intros i Hi. split; [now apply HP|]. apply (HS2 f0 0%nat I0 ltac:(lia) f i Hf Hi).
    + intros f Hf. split; [apply HP'; [exact I0'|lia]|]. split; [apply (TDD p' _ Hc'); [now rewrite El'|apply HB'; assumption]|].
      intros i Hi. split; [now apply HP'|]. apply (HS2' f0' 0%nat I0' ltac:(lia) f i Hf Hi).
Qed.
(** the integrals of one kernel over the two bodies *)
Lemma bodies_near (p p' : polyhedron RA) K (P : V -> Prop) q0 q0' k0 k1 L d If If' : closed p -> closed p' ->
  Forall2 (facets_near d) (pl_faces p) (pl_faces p') -> convex P -> (forall x, P x -> nm (K x) <= k0) ->
  (forall x x', P x -> P x' -> nm (K x - K x') <= k1 * nm (x - x')) -> 0 <= k1 -> 0 <= k0 ->
  (forall f, In f (pl_faces p) -> P q0 /\ P q0' /\ nm (q0 - q0') <= d /\ 0 <= tdet q0 (vtx 0 f) (vtx 1 f) (vtx 2 f) /\
     forall i, (i < 3)%nat -> P (vtx i f) /\ nm (vtx i f - q0) <= L) ->
  (forall f, In f (pl_faces p') -> P q0' /\ 0 <= tdet q0' (vtx 0 f) (vtx 1 f) (vtx 2 f) /\
     forall i, (i < 3)%nat -> P (vtx i f) /\ nm (vtx i f - q0') <= L) ->
  (forall f, In f (pl_faces p) -> volume_vintegral K q0 (vtx 0 f) (vtx 1 f) (vtx 2 f) (If f)) ->
  (forall f, In f (pl_faces p') -> volume_vintegral K q0' (vtx 0 f) (vtx 1 f) (vtx 2 f) (If' f)) ->
  nm (vsum If (pl_faces p) - vsum If' (pl_faces p')) <= (k1 * signed_volume p + INR (length (pl_faces p)) * L ^ 2 * k0) * d.
Proof.
  intros Hc Hc' Hn HC HK0 HK1 K1 K0 Q Q' HI HI'.
  set (c f := k1 * d * (tdet q0 (vtx 0 f) (vtx 1 f) (vtx 2 f) / 6) + k0 * d * (L * L)).
  set (X := (vsum If (pl_faces p) - vsum If' (pl_faces p'))%v).
  assert (KX : dt X X <= nm X * rsum c (pl_faces p)).
  { assert (forall l l', incl l (pl_faces p) -> incl l' (pl_faces p') -> Forall2 (facets_near d) l l' ->
      dt X (vsum If l - vsum If' l') <= nm X * rsum c l).
    { intros l l' Hl Hl' H2. revert Hl Hl'. induction H2 as [|f f' l l' Hff H2 IH]; intros Hl Hl'.
      - cbn [vsum fold_right]. unfold rsum; cbn [fold_right]. replace (dt X (v0 - v0)) with 0 by vring. lra.
      - assert (Hf : In f (pl_faces p)) by (apply Hl; now left). assert (Hf' : In f' (pl_faces p')) by (apply Hl'; now left).
        specialize (IH (fun x Hx => Hl x (or_intror Hx)) (fun x Hx => Hl' x (or_intror Hx))).
        destruct (Q f Hf) as (Q1 & Q2 & Q3 & QD & QL). destruct (Q' f' Hf') as (_ & QD' & QL').
        assert (D0 : 0 <= d) by (eapply Rle_trans; [apply nm_nonneg|exact Q3]).
        assert (KF : dt X (If f - If' f') <= nm X * c f).
        { apply (facet_near K P q0 q0' k0 k1 L d HC HK0 HK1 K1 K0 D0 f f' _ _ X Hff Q3).
          - now destruct (facet_ne p Hc f Hf) as (_ & _ & _ & N & _).
          - now destruct (facet_ne p' Hc' f' Hf') as (_ & _ & _ & N & _).
          - exact QD.
          - exact QD'.
          - exact Q1.
          - exact Q2.
          - intros i Hi. destruct (QL i Hi), (QL' i Hi). auto.
          - exact (HI f Hf).
          - exact (HI' f' Hf'). }
        cbn [vsum fold_right]. fold (vsum If l) (vsum If' l'). unfold rsum; cbn [fold_right]. fold (rsum c l).
        replace (If f + vsum If l - (If' f' + vsum If' l'))%v with ((If f - If' f') + (vsum If l - vsum If' l'))%v
          by (generalize (vsum If l) (vsum If' l'); intros; vring).
        rewrite dt_add_r. lra. }
    exact (H _ _ (incl_refl _) (incl_refl _) Hn). }
  assert (ES : rsum c (pl_faces p) = (k1 * signed_volume p + INR (length (pl_faces p)) * L ^ 2 * k0) * d).
  { rewrite <- (volume_from p q0 Hc). unfold c. clear. induction (pl_faces p) as [|f l IH]; unfold rsum; cbn [fold_right length].
    - cbn [INR]. unfold Rdiv. ring.
    - rewrite S_INR.
      match goal with |- _ + ?a = _ => change a with (rsum (fun f => k1 * d * (tdet q0 (vtx 0 f) (vtx 1 f) (vtx 2 f) / 6) + k0 * d * (L * L)) l) end.
      rewrite IH. fold (rsum (fun f0 => det (vtx 0 f0 - q0) (vtx 1 f0 - q0) (vtx 2 f0 - q0) / 6) l).
      replace (tdet q0 (vtx 0 f) (vtx 1 f) (vtx 2 f)) with (det (vtx 0 f - q0) (vtx 1 f - q0) (vtx 2 f - q0))
        by (unfold tdet, det; generalize (vtx 0 f) (vtx 1 f) (vtx 2 f); intros; vring).
      unfold Rdiv. ring. }
  rewrite <- nm_sq in KX. pose proof (nm_nonneg X) as X0. rewrite <- ES.
  destruct (Req_dec (nm X) 0) as [Z|Z]; [|apply Rmult_le_reg_l with (nm X); [lra|exact KX]].
  rewrite Z. rewrite <- (rsum_zero (pl_faces p)). apply rsum_mono. intros f Hf. unfold c.
  destruct (Q f Hf) as (_ & _ & Q3 & QD & _). assert (D0 : 0 <= d) by (eapply Rle_trans; [apply nm_nonneg|exact Q3]).
  assert (0 <= k1 * d) by now apply Rmult_le_pos. assert (0 <= k0 * d) by now apply Rmult_le_pos.
  apply Rplus_le_le_0_compat; apply Rmult_le_pos; [assumption|lra|assumption|apply Rle_0_sqr].
Qed.

(** the facet built from a triple of indices keeps its first corner *)
Lemma loop_order points cen inh todo : forall simps i fs, faces_loop (A := RA) points cen inh simps i todo = Ok fs ->
  forall k f a b c n, nth_error fs k = Some f -> nth_error todo k = Some (a :: b :: c :: nil, n) ->
  f_simplex f = a :: b :: c :: nil \/ f_simplex f = a :: c :: b :: nil.
Proof.
  induction todo as [|[s n] todo IH]; intros simps i fs E k f a b c n' Hf Ht; [destruct k; discriminate|].
  cbn [faces_loop] in E. destruct (orient (A := RA) points cen inh s) as [[s1 un]|] eqn:EO; [|discriminate]. cbn [bind] in E.
  match type of E with bind ?e _ = _ => destruct e as [f1|] eqn:EF; [|discriminate] end. cbn [bind] in E.
  match type of E with bind ?e _ = _ => destruct e as [fs1|] eqn:EL; [|discriminate] end. cbn [bind] in E. injection E as <-.
  destruct k as [|k]; [|exact (IH _ _ _ EL k f a b c n' Hf Ht)].
  cbn [nth_error] in Hf, Ht. injection Hf as <-. injection Ht as -> _.
  unfold mk_face in EF. repeat match type of EF with bind ?e _ = _ => destruct e; [cbn [bind] in EF|discriminate] end.
  injection EF as <-. cbn [f_simplex]. unfold orient in EO.
  destruct (_ && _)%bool; [discriminate|]. destruct (negb _); injection EO as <- _; [now left|now right].
Qed.
Lemma hull_order convex_hull inh points h p : convex_hull points = Ok h -> correct_hull h -> mk_polyhedron (A := RA) convex_hull inh points = Ok p ->
  length (pl_faces p) = length (h_simplices h) /\
  forall i f, nth_error (pl_faces p) i = Some f -> exists a b c, nth_error (h_simplices h) i = Some (a :: b :: c :: nil) /\ vtx 0 f = pt h a /\
    (vtx 1 f = pt h b /\ vtx 2 f = pt h c \/ vtx 1 f = pt h c /\ vtx 2 f = pt h b).
Proof.
  intros E Hh Ep. destruct (build_ok convex_hull inh points h E Hh) as (p1 & Ep1 & _ & _ & HL & F).
  rewrite Ep in Ep1. injection Ep1 as <-. split; [exact HL|]. intros i f Hf.
  pose proof (F i f Hf) as (s & x & y & z & t1 & t2 & t3 & Hs & _ & _ & _ & _ & _ & Hpt & Hsi & _).
  destruct (ch_tri h Hh s (nth_error_In _ _ Hs)) as (a & b & c & -> & _). exists a, b, c. split; [exact Hs|].
  assert (HO : f_simplex f = a :: b :: c :: nil \/ f_simplex f = a :: c :: b :: nil).
  { unfold mk_polyhedron in Ep. match type of Ep with bind ?e _ = _ => replace e with (@Ok (hull RA) h) in Ep by (symmetry; exact E) end.
    cbn [bind] in Ep. unfold get_faces in Ep. rewrite (ch_len h Hh), Nat.eqb_refl in Ep. cbn [negb] in Ep.
    destruct (faces_loop _ _ _ _ _ _) as [fs|] eqn:EL; cbn [bind] in Ep; [|discriminate].
    destruct (get_edge_twin fs) as [tw|]; cbn [bind] in Ep; [|discriminate]. injection Ep as <-. cbn [pl_faces fst snd] in Hf.
    destruct (nth_error (combine (h_simplices h) (h_neighbors h)) i) as [[s n]|] eqn:EC.
    - assert (s = a :: b :: c :: nil).
      { clear - EC Hs. revert EC Hs. generalize (h_simplices h) (h_neighbors h). intros l l'. revert l' i.
        induction l as [|x l IH]; intros [|y l'] [|i]; cbn; try discriminate; [|apply IH]. intros [= -> _] [= ->]. reflexivity. }
      subst s. exact (loop_order _ _ _ _ _ _ _ EL i f a b c n Hf EC).
    - exfalso. apply nth_error_None in EC. rewrite combine_length, (ch_len h Hh), Nat.min_id in EC.
      assert (i < length (h_simplices h))%nat by (apply nth_error_Some; congruence). lia. }
  unfold vtx, pnth. rewrite Hpt, Hsi in *. cbn [nth].
  destruct HO as [HO|HO]; injection HO as -> -> ->; auto.
Qed.

(** facets with the same number come from the same triple *)
Lemma hulls_near convex_hull inh points h p convex_hull' inh' points' h' p' d :
  convex_hull points = Ok h -> correct_hull h -> mk_polyhedron (A := RA) convex_hull inh points = Ok p ->
  convex_hull' points' = Ok h' -> correct_hull h' -> mk_polyhedron (A := RA) convex_hull' inh' points' = Ok p' ->
  h_simplices h' = h_simplices h -> (forall i, In i (h_vertices h) -> nm (pt h i - pt h' i) <= d) ->
  length (pl_faces p) = length (h_simplices h) /\ Forall2 (facets_near d) (pl_faces p) (pl_faces p').
Proof.
  intros E Hh Ep E' Hh' Ep' HSim HD.
  destruct (hull_order convex_hull inh points h p E Hh Ep) as [HL HO]. destruct (hull_order convex_hull' inh' points' h' p' E' Hh' Ep') as [HL' HO'].
  split; [exact HL|].
  assert (HN : forall i f f', nth_error (pl_faces p) i = Some f -> nth_error (pl_faces p') i = Some f' -> facets_near d f f').
  { intros i f f' Hf Hf'. destruct (HO i f Hf) as (a & b & c & Hs & E0 & E12). destruct (HO' i f' Hf') as (a' & b' & c' & Hs' & E0' & E12').
    rewrite HSim, Hs in Hs'. injection Hs' as <- <- <-.
    assert (V : forall k, In k (a :: b :: c :: nil) -> nm (pt h k - pt h' k) <= d).
    { intros k Hk. apply HD, (ch_vert h Hh (a :: b :: c :: nil)); [eapply nth_error_In; eauto|exact Hk]. }
    pose proof (V a (or_introl eq_refl)). pose proof (V b (or_intror (or_introl eq_refl))). pose proof (V c (or_intror (or_intror (or_introl eq_refl)))).
    unfold facets_near. rewrite E0, E0'. split; [assumption|].
    destruct E12 as [[-> ->]|[-> ->]], E12' as [[-> ->]|[-> ->]]; auto. }
  rewrite <- HSim, <- HL' in HL. clear - HL HN. revert HL HN. generalize (pl_faces p) (pl_faces p'). intros l. induction l as [|f l IH]; intros [|f' l'] HL HN; try discriminate; constructor.
  - exact (HN 0%nat f f' eq_refl eq_refl).
  - apply IH; [now injection HL|]. intros i. exact (HN (S i)).
Qed.

(** Two runs of scipy give the same triples of indices, for points that differ by at
    most d: both bodies have diameter at most L and lie beyond a plane at the
    distance m in front of the observer.  Then the gravity vectors differ by at most
    density Gc 10^5 (2 Volume/m^3 + N L^2/m^2) d, N being the number of facets, and
    the tensors by at most density Gc 10^9 (24 Volume/m^4 + 2 N L^2/m^3) d. *)
Theorem C93_corners :
  forall convex_hull inh points h p convex_hull' inh' points' h' p' o z m L d density Gc,
  convex_hull points = Ok h -> correct_hull h -> mk_polyhedron (A := RA) convex_hull inh points = Ok p ->
  convex_hull' points' = Ok h' -> correct_hull h' -> mk_polyhedron (A := RA) convex_hull' inh' points' = Ok p' ->
  h_simplices h' = h_simplices h -> (forall i, In i (h_vertices h) -> nm (pt h i - pt h' i) <= d) ->
  0 <= density * Gc -> dt z z = 1 -> 0 < m ->
  (forall i, In i (h_vertices h) -> m <= dt z (pt h i - o)) -> (forall i, In i (h_vertices h') -> m <= dt z (pt h' i - o)) ->
  (forall i j, In i (h_vertices h) -> In j (h_vertices h) -> nm (pt h i - pt h j) <= L) ->
  (forall i j, In i (h_vertices h') -> In j (h_vertices h') -> nm (pt h' i - pt h' j) <= L) ->
  forall s s' gradient gradient', reachable p s -> reachable p' s' -> well_placed p o gradient -> well_placed p' o gradient' ->
  exists G T G' T', gravity p o density Gc gradient s = Ok (G, T) /\ gravity p' o density Gc gradient' s' = Ok (G', T') /\
    nm (G - G') <= density * Gc * 100000 * (2 * body_volume p / m ^ 3 + INR (length (h_simplices h)) * L ^ 2 / m ^ 2) * d.
Proof.
  intros ch inh pts h p ch' inh' pts' h' p' o z m L d rho Gc E Hh Ep E' Hh' Ep' HSim HD Hk Hz Hm HV HV' HS HS' s s' g g' Hs Hs' Hr Hr'.
  destruct (hulls_near ch inh pts h p ch' inh' pts' h' p' d E Hh Ep E' Hh' Ep' HSim HD) as [LN Hn]. rewrite <- LN, body_volume_signed.
  set (P := fun x => m <= dt z (x - o)).
  destruct (two_apexes ch inh pts h p ch' inh' pts' h' p' P L d E Hh Ep E' Hh' Ep' Hn HV HV' HS HS') as (Hc & Hc' & q0 & q0' & Q & Q').
  assert (HN : ~ P o) by (unfold P; replace (dt z (o - o)) with 0 by vring; lra).
  destruct (C58_volume p o q0 rho Gc g s Hc Hr Hs) as (G & T & I & EG & (If & HI & EI) & EG').
  { intros f Hf. destruct (Q f Hf) as (Q1 & _ & _ & _ & QP). apply (convex_free P); [apply half_convex|exact Q1|apply QP; lia..|exact HN]. }
  destruct (C58_volume p' o q0' rho Gc g' s' Hc' Hr' Hs') as (G' & T' & I' & EG2 & (If' & HI' & EI') & EG2').
  { intros f Hf. destruct (Q' f Hf) as (Q1 & _ & QP). apply (convex_free P); [apply half_convex|exact Q1|apply QP; lia..|exact HN]. }
  exists G, T, G', T'. split; [exact EG|]. split; [exact EG2|].
  assert (M2 : 0 < / (m * m)) by (apply Rinv_0_lt_compat; repeat apply Rmult_lt_0_compat; lra).
  assert (M3 : 0 < / (m * m * m)) by (apply Rinv_0_lt_compat; repeat apply Rmult_lt_0_compat; lra).
  pose proof (bodies_near p p' (kernel o) P q0 q0' (/ (m * m)) (2 / (m * m * m)) L d If If' Hc Hc' Hn (half_convex z o m)) as B.
  rewrite !vsum_fold, <- EI, <- EI' in B.
  replace (G - G')%v with (rho * Gc * 100000 * (I - I'))%v by (rewrite EG', EG2'; vring).
  rewrite nm_sc, Rabs_pos_eq by (apply Rmult_le_pos; lra). rewrite (Rmult_assoc (rho * Gc * 100000)).
  apply Rmult_le_compat_l; [apply Rmult_le_pos; lra|].
  replace (2 * signed_volume p / m ^ 3 + INR (length (pl_faces p)) * L ^ 2 / m ^ 2) with
    (2 / (m * m * m) * signed_volume p + INR (length (pl_faces p)) * L ^ 2 * / (m * m)) by (field; lra).
  apply B; auto; try lra.
  - intros x Hx. rewrite kernel_field3. exact (field3_upper _ z m Hz Hm Hx).
  - intros x x' Hx Hx'. rewrite !kernel_field3. pose proof (field3_lip z m _ _ Hz Hm Hx Hx') as Lp. replace (x - o - (x' - o))%v with (x - x')%v in Lp by vring. exact Lp.
Qed.
Print Assumptions C93_corners.
Theorem C93_tensor :
  forall convex_hull inh points h p convex_hull' inh' points' h' p' o z m L d density Gc,
  convex_hull points = Ok h -> correct_hull h -> mk_polyhedron (A := RA) convex_hull inh points = Ok p ->
  convex_hull' points' = Ok h' -> correct_hull h' -> mk_polyhedron (A := RA) convex_hull' inh' points' = Ok p' ->
  h_simplices h' = h_simplices h -> (forall i, In i (h_vertices h) -> nm (pt h i - pt h' i) <= d) ->
  0 <= density * Gc -> dt z z = 1 -> 0 < m ->
  (forall i, In i (h_vertices h) -> m <= dt z (pt h i - o)) -> (forall i, In i (h_vertices h') -> m <= dt z (pt h' i - o)) ->
  (forall i j, In i (h_vertices h) -> In j (h_vertices h) -> nm (pt h i - pt h j) <= L) ->
  (forall i j, In i (h_vertices h') -> In j (h_vertices h') -> nm (pt h' i - pt h' j) <= L) ->
  forall s s', reachable p s -> reachable p' s' -> well_placed p o true -> well_placed p' o true ->
  exists G T G' T', gravity p o density Gc true s = Ok (G, T) /\ gravity p' o density Gc true s' = Ok (G', T') /\
    forall e, nm (mdot T e - mdot T' e) <=
      density * Gc * 1000000000 * (24 * body_volume p / m ^ 4 + 2 * INR (length (h_simplices h)) * L ^ 2 / m ^ 3) * d * nm e.
Proof.
  intros ch inh pts h p ch' inh' pts' h' p' o z m L d rho Gc E Hh Ep E' Hh' Ep' HSim HD Hk Hz Hm HV HV' HS HS' s s' Hs Hs' Hr Hr'.
  destruct (hulls_near ch inh pts h p ch' inh' pts' h' p' d E Hh Ep E' Hh' Ep' HSim HD) as [LN Hn]. rewrite <- LN, body_volume_signed.
  set (P := fun x => m <= dt z (x - o)).
  destruct (two_apexes ch inh pts h p ch' inh' pts' h' p' P L d E Hh Ep E' Hh' Ep' Hn HV HV' HS HS') as (Hc & Hc' & q0 & q0' & Q & Q').
  assert (D1 : forall x, P x -> m <= nm (x - o)) by (intros x X; eapply Rle_trans; [exact X|now apply nm_unit_dt]).
  assert (HPq : forall f, In f (pl_faces p) -> P q0 /\ P (vtx 0 f) /\ P (vtx 1 f) /\ P (vtx 2 f)).
  { intros f Hf. destruct (Q f Hf) as (Q1 & _ & _ & _ & QP). split; [exact Q1|]. split; [apply QP; lia|]. split; apply QP; lia. }
  assert (HPq' : forall f, In f (pl_faces p') -> P q0' /\ P (vtx 0 f) /\ P (vtx 1 f) /\ P (vtx 2 f)).
  { intros f Hf. destruct (Q' f Hf) as (Q1 & _ & QP). split; [exact Q1|]. split; [apply QP; lia|]. split; apply QP; lia. }
  destruct (tensor_integral p o q0 P m rho Gc s Hc (half_convex z o m) HPq Hm D1 Hr Hs) as (G & T & EG & K).
  destruct (tensor_integral p' o q0' P m rho Gc s' Hc' (half_convex z o m) HPq' Hm D1 Hr' Hs') as (G' & T' & EG' & K').
  exists G, T, G', T'. split; [exact EG|]. split; [exact EG'|]. intros e.
  destruct (K e) as (If & HI & ->). destruct (K' e) as (If' & HI' & ->).
  assert (M3 : 0 < / (m * m * m)) by (apply Rinv_0_lt_compat; repeat apply Rmult_lt_0_compat; lra).
  assert (M4 : 0 < / (m * m * m * m)) by (apply Rinv_0_lt_compat; repeat apply Rmult_lt_0_compat; lra).
  pose proof (nm_nonneg e) as E0.
  pose proof (bodies_near p p' (tkernel o e) P q0 q0' (2 * nm e / (m * m * m)) (24 * nm e / (m * m * m * m)) L d If If' Hc Hc' Hn (half_convex z o m)) as B.
  set (I := vsum If (pl_faces p)) in *. set (I' := vsum If' (pl_faces p')) in *.
  replace (rho * Gc * 1000000000 * I - rho * Gc * 1000000000 * I')%v with (rho * Gc * 1000000000 * (I - I'))%v by vring.
  rewrite nm_sc, Rabs_pos_eq by (apply Rmult_le_pos; lra).
  replace (rho * Gc * 1000000000 * (24 * signed_volume p / m ^ 4 + 2 * INR (length (pl_faces p)) * L ^ 2 / m ^ 3) * d * nm e) with
    (rho * Gc * 1000000000 * ((24 * nm e / (m * m * m * m) * signed_volume p + INR (length (pl_faces p)) * L ^ 2 * (2 * nm e / (m * m * m))) * d)) by (field; lra).
  apply Rmult_le_compat_l; [apply Rmult_le_pos; lra|].
  apply B; auto.
  - intros x Hx. rewrite tkernel_tk. apply tk_bound; auto.
  - intros x x' Hx Hx'. rewrite !tkernel_tk. pose proof (tk_lip e _ _ m Hm (D1 x Hx) (D1 x' Hx')) as Lp. replace (x - o - (x' - o))%v with (x - x')%v in Lp by vring.
    eapply Rle_trans; [exact Lp|]. right. unfold Rdiv. ring.
  - apply Rmult_le_pos; lra.
  - apply Rmult_le_pos; lra.
Qed.
Print Assumptions C93_tensor.

(** the cube of side 20 and the one whose corner (10,10,10) is moved to (11,11,11),
    seen from (25,13,17) *)
Definition cubeZ_bent : zhull :=
  {| z_points := [zv (-10) (-10) (-10); zv (-10) (-10) 10; zv (-10) 10 (-10); zv (-10) 10 10; zv 10 (-10) (-10); zv 10 (-10) 10; zv 10 10 (-10); zv 11 11 11];
     z_simplices := z_simplices cubeZ; z_neighbors := z_neighbors cubeZ; z_vertices := z_vertices cubeZ |}.
Example C93_case : build cubeZ = Ok cube /\ correct_hull (rh cubeZ) /\ build cubeZ_bent = Ok (body cubeZ_bent) /\ correct_hull (rh cubeZ_bent) /\
  h_simplices (rh cubeZ_bent) = h_simplices (rh cubeZ) /\ pt (rh cubeZ_bent) 7 <> pt (rh cubeZ) 7 /\
  (forall i, In i (h_vertices (rh cubeZ)) -> nm (pt (rh cubeZ) i - pt (rh cubeZ_bent) i) <= 2) /\
  (forall g, well_placed cube (rv o_out) g /\ well_placed (body cubeZ_bent) (rv o_out) g) /\ dt (V3 (-1) 0 0) (V3 (-1) 0 0) = 1 /\
  (forall i, In i (h_vertices (rh cubeZ)) -> 14 <= dt (V3 (-1) 0 0) (pt (rh cubeZ) i - rv o_out)) /\
  (forall i, In i (h_vertices (rh cubeZ_bent)) -> 14 <= dt (V3 (-1) 0 0) (pt (rh cubeZ_bent) i - rv o_out)) /\
  (forall i j, In i (h_vertices (rh cubeZ)) -> In j (h_vertices (rh cubeZ)) -> nm (pt (rh cubeZ) i - pt (rh cubeZ) j) <= 40) /\
  (forall i j, In i (h_vertices (rh cubeZ_bent)) -> In j (h_vertices (rh cubeZ_bent)) -> nm (pt (rh cubeZ_bent) i - pt (rh cubeZ_bent) j) <= 40).
Proof.
  assert (Hb : hullb cubeZ = true) by (vm_compute; reflexivity). assert (Hb' : hullb cubeZ_bent = true) by (vm_compute; reflexivity).
  assert (NM : forall a c, (0 <= c)%Z -> Z.leb (zdt a a) (c * c) = true -> nm (rv a) <= IZR c).
  { intros a c Hc Q. apply Z.leb_le, IZR_le in Q. rewrite <- rv_dt, <- nm_sq, mult_IZR in Q. apply IZR_le in Hc. apply Rsqr_incr_0_var; [exact Q|exact Hc]. }
  assert (DI : forall h, forallb (fun i => forallb (fun j => let a := zsub (zpt h i) (zpt h j) in Z.leb (zdt a a) (40 * 40)) (z_vertices h)) (z_vertices h) = true ->
    forall i j, In i (h_vertices (rh h)) -> In j (h_vertices (rh h)) -> nm (pt (rh h) i - pt (rh h) j) <= 40).
  { intros h Q i j Hi Hj. rewrite forallb_forall in Q. specialize (Q i Hi). rewrite forallb_forall in Q. specialize (Q j Hj).
    rewrite !pt_rh, rv_sub. apply NM; [lia|exact Q]. }
  assert (PL : forall h, forallb (fun i => Z.leb (vx (zsub (zpt h i) o_out)) (-14)) (z_vertices h) = true ->
    forall i, In i (h_vertices (rh h)) -> 14 <= dt (V3 (-1) 0 0) (pt (rh h) i - rv o_out)).
  { intros h Q i Hi. rewrite forallb_forall in Q. specialize (Q i Hi). apply Z.leb_le, IZR_le in Q. rewrite pt_rh, rv_sub. unfold rv, dt; cbn [vx vy vz]. lra. }
  split; [apply (body_ok cubeZ Hb)|]. split; [apply hullb_ok, Hb|]. split; [apply (body_ok cubeZ_bent Hb')|]. split; [apply hullb_ok, Hb'|].
  split; [reflexivity|]. split; [rewrite !pt_rh; intros H; apply (f_equal vx) in H; cbn in H; lra|].
  split.
  { intros i Hi. rewrite !pt_rh, rv_sub. apply NM; [lia|].
    assert (Q : forallb (fun i => let a := zsub (zpt cubeZ i) (zpt cubeZ_bent i) in Z.leb (zdt a a) (2 * 2)) (z_vertices cubeZ) = true) by (vm_compute; reflexivity).
    rewrite forallb_forall in Q. exact (Q i Hi). }
  split.
  { intros g. split; [apply cube_out_well|]. apply regular_well; [apply (body_ok cubeZ_bent Hb')|]. apply body_regular; vm_compute; reflexivity. }
  split; [unfold dt; cbn [vx vy vz]; ring|]. split; [apply PL; vm_compute; reflexivity|]. split; [apply PL; vm_compute; reflexivity|].
  split; apply DI; vm_compute; reflexivity.
Qed.

(** ** In doubles *)
(** what the measures of a hull and of an observer give (C72) *)
Lemma measured_gravity lg ac (DP : dotlib) : libm lg ac ->
  forall convex_hull in_hull points (h : hull (FA lg ac DP)) M L g s,
  convex_hull points = Ok h -> correct_hull (real_hull lg ac DP h) ->
  / 2 ^ 20 <= L -> L <= 2 * M -> M <= 2 ^ 100 -> 1 <= g <= 1024 -> 1 <= s <= 32768 ->
  forall o : vec (FA lg ac DP), measured lg ac DP h M L g s o ->
  forall (density Gc : num (FA lg ac DP)) R0 G0, / 2 ^ 90 <= R0 <= 2 ^ 90 -> / 2 ^ 90 <= G0 <= 2 ^ 90 ->
  fin density -> Rabs (fv density) <= R0 -> fin Gc -> Rabs (fv Gc) <= G0 ->
  let N := INR (length (h_simplices h)) in
  exists p pR G T, mk_polyhedron convex_hull in_hull points = Ok p /\
    mk_polyhedron (A := RA) (fun _ => Ok (real_hull lg ac DP h)) (fun _ _ => true) [] = Ok pR /\
    closed pR /\ steady pR (fvec o) /\ (forall st, reachable p st -> fst (get_gravity p o density Gc false st) = Ok (G, T)) /\
    within (N * (L * (100000 * (R0 * G0))) * (g ^ 3 + g * s + N) / 2 ^ 35) (fvec G - vsum (gF (fv density) (fv Gc) (fvec o)) (pl_faces pR))%v.
Proof.
  intros Hlib ch inh pts h M L g s Hc Hh H2 H3 H4 Hg Hs o Hme rho Gc R0 G0 HR HG Fr Br Fg Bg N.
  destruct Hme as [H1 [H1n H1'] H5 H6 H7 [Fo Wo] Hsee].
  assert (Hsz : sized M L g) by (split; assumption).
  assert (Hp : placed lg ac DP M L (h_points h) (h_vertices h)) by (split; assumption).
  assert (Hmg : margin lg ac DP M L h).
  { intros a b c Hin. unfold nrm3. rewrite !pt_real. exact (H7 a b c Hin). }
  assert (Hsn : forall a b c, In [a; b; c] (h_simplices h) ->
    seen L g s (pt (real_hull lg ac DP h) a - fvec o)%v (pt (real_hull lg ac DP h) b - fvec o)%v (pt (real_hull lg ac DP h) c - fvec o)%v \/
    outlined L g (pt (real_hull lg ac DP h) a - fvec o)%v (pt (real_hull lg ac DP h) b - fvec o)%v (pt (real_hull lg ac DP h) c - fvec o)%v /\
    axial (pt (real_hull lg ac DP h) a - fvec o)%v (pt (real_hull lg ac DP h) b - fvec o)%v (pt (real_hull lg ac DP h) c - fvec o)%v).
  { intros a b c Hin. rewrite !pt_real. apply views_seen, Hsee, Hin. }
  destruct (hull_gravity lg ac DP Hlib Hsz Hs h Hh H1 H1' Hp Hmg o (conj Fo Wo) Hsn rho Gc R0 G0 HR HG (conj Fr Br) (conj Fg Bg) ch inh pts
    (fun _ => Ok (real_hull lg ac DP h)) (fun _ _ => true) [] Hc eq_refl) as (p & pR & G & T & Ep & EpR & HcR & Reg & Eg & _ & Wg & _).
  exists p, pR, G, T. do 4 (split; [assumption|]).
  split; [intros st Hst; rewrite (history_independent p o rho Gc false st Hst), fresh_spec; exact Eg|].
  assert (ED : forall N, N * (g * g * g + g * s + N) * (L * (100000 * (R0 * G0))) / 2 ^ 35 = N * (L * (100000 * (R0 * G0))) * (g ^ 3 + g * s + N) / 2 ^ 35)
    by (intros n; unfold Rdiv; ring).
  rewrite ED in Wg. exact Wg.
Qed.
Lemma three_vsteps b D x x' y y' : nm (x - x') <= b -> within D (y - x)%v -> within D (y' - x')%v -> within (b + 2 * D) (y - y')%v.
Proof.
  intros B. destruct (comp_nm (x - x')%v) as (C1 & C2 & C3). revert B C1 C2 C3. generalize (nm (x - x')%v). intros n B C1 C2 C3.
  intros (A1 & A2 & A3) (A1' & A2' & A3'). destruct x as [x1 x2 x3], x' as [z1 z2 z3], y as [y1 y2 y3], y' as [w1 w2 w3].
  cbn [vm vx vy vz] in *. split; [|split]; cbn [vm vx vy vz].
  - exact (three_steps _ _ _ _ _ _ _ B C1 A1 A1').
  - exact (three_steps _ _ _ _ _ _ _ B C2 A2 A2').
  - exact (three_steps _ _ _ _ _ _ _ B C3 A3 A3').
Qed.
(** the same in doubles, with twice the rounding bound D of C72 *)
Theorem C93_double :
  forall lg ac (DP : dotlib), libm lg ac ->
  forall convex_hull in_hull points convex_hull' in_hull' points' (h h' : hull (FA lg ac DP)) M L g s,
  convex_hull points = Ok h -> correct_hull (real_hull lg ac DP h) ->
  convex_hull' points' = Ok h' -> correct_hull (real_hull lg ac DP h') -> h_simplices h' = h_simplices h ->
  / 2 ^ 20 <= L -> L <= 2 * M -> M <= 2 ^ 100 -> 1 <= g <= 1024 -> 1 <= s <= 32768 ->
  forall o : vec (FA lg ac DP), measured lg ac DP h M L g s o -> measured lg ac DP h' M L g s o ->
  forall z m d, dt z z = 1 -> 0 < m ->
  (forall i, In i (h_vertices h) -> nm (pt (real_hull lg ac DP h) i - pt (real_hull lg ac DP h') i) <= d) ->
  (forall i, In i (h_vertices h) -> m <= dt z (pt (real_hull lg ac DP h) i - fvec o)) ->
  (forall i, In i (h_vertices h') -> m <= dt z (pt (real_hull lg ac DP h') i - fvec o)) ->
  forall (density Gc : num (FA lg ac DP)) R0 G0, / 2 ^ 90 <= R0 <= 2 ^ 90 -> / 2 ^ 90 <= G0 <= 2 ^ 90 ->
  fin density -> Rabs (fv density) <= R0 -> fin Gc -> Rabs (fv Gc) <= G0 -> 0 <= fv density * fv Gc ->
  let N := INR (length (h_simplices h)) in
  let D := N * (L * (100000 * (R0 * G0))) * (g ^ 3 + g * s + N) / 2 ^ 35 in
  exists p p' pR, mk_polyhedron convex_hull in_hull points = Ok p /\ mk_polyhedron convex_hull' in_hull' points' = Ok p' /\
    mk_polyhedron (A := RA) (fun _ => Ok (real_hull lg ac DP h)) (fun _ _ => true) [] = Ok pR /\
  forall st st', reachable p st -> reachable p' st' ->
  exists G T G' T', fst (get_gravity p o density Gc false st) = Ok (G, T) /\ fst (get_gravity p' o density Gc false st') = Ok (G', T') /\
    within (fv density * fv Gc * 100000 * (2 * body_volume pR / m ^ 3 + N * (2 * L) ^ 2 / m ^ 2) * d + 2 * D) (fvec G - fvec G')%v.
Proof.
  intros lg ac DP Hlib ch inh pts ch' inh' pts' h h' M L g s Hc Hh Hc' Hh' HSim H2 H3 H4 Hg Hs o Hme Hme' z m d Hz Hm Hd HV HV' rho Gc R0 G0 HR HG Fr Br Fg Bg Hk N D.
  destruct (measured_gravity lg ac DP Hlib ch inh pts h M L g s Hc Hh H2 H3 H4 Hg Hs o Hme rho Gc R0 G0 HR HG Fr Br Fg Bg) as (p & pR & G & T & Ep & EpR & HcR & Reg & Eg & Wg).
  destruct (measured_gravity lg ac DP Hlib ch' inh' pts' h' M L g s Hc' Hh' H2 H3 H4 Hg Hs o Hme' rho Gc R0 G0 HR HG Fr Br Fg Bg) as (p' & pR' & G' & T' & Ep' & EpR' & HcR' & Reg' & Eg' & Wg').
  rewrite HSim in Wg'. fold N in Wg, Wg'. fold D in Wg, Wg'.
  exists p, p', pR. do 3 (split; [assumption|]). intros st st' Hst Hst'. exists G, T, G', T'. split; [now apply Eg|]. split; [now apply Eg'|].
  assert (L0 : 0 <= L) by (eapply Rle_trans; [|exact H2]; left; apply Rinv_0_lt_compat, pow_lt; lra).
  assert (DI : forall hh, measured lg ac DP hh M L g s o -> forall i j, In i (h_vertices hh) -> In j (h_vertices hh) ->
    nm (pt (real_hull lg ac DP hh) i - pt (real_hull lg ac DP hh) j) <= 2 * L).
  { intros hh Hm0 i j Hi Hj. rewrite !pt_real. pose proof (within_nm _ _ (ms_size _ _ _ _ _ _ _ _ _ Hm0 i j Hi Hj)). lra. }
  destruct (C93_corners (fun _ => Ok (real_hull lg ac DP h)) (fun _ _ => true) [] _ pR (fun _ => Ok (real_hull lg ac DP h')) (fun _ _ => true) [] _ pR'
    (fvec o) z m (2 * L) d (fv rho) (fv Gc) eq_refl Hh EpR eq_refl Hh' EpR' HSim Hd Hk Hz Hm HV HV' (DI h Hme) (DI h' Hme')
    pstate0 pstate0 false false (reach_new _) (reach_new _) (steady_well _ _ _ HcR Reg) (steady_well _ _ _ HcR' Reg')) as (GR & TR & GR' & TR' & V & V' & B).
  rewrite !gravity_spec in V, V' by apply reach_new.
  rewrite (well_value pR (fvec o) false (fv rho) (fv Gc) HcR (steady_well _ _ _ HcR Reg)) in V. injection V as V _.
  rewrite (well_value pR' (fvec o) false (fv rho) (fv Gc) HcR' (steady_well _ _ _ HcR' Reg')) in V'. injection V' as V' _.
  rewrite <- V, <- V' in B. exact (three_vsteps _ _ _ _ _ _ B Wg Wg').
Qed.
Print Assumptions C93_double.

Example C93_double_case : forall lg ac (DP : dotlib) c, c = cubeZ \/ c = cubeZ_bent ->
  real_hull lg ac DP (fh lg ac DP c) = rh c /\ correct_hull (real_hull lg ac DP (fh lg ac DP c)) /\
  fvec (PropertiesF.fv lg ac DP o_out) = rv o_out /\
  measured lg ac DP (fh lg ac DP c) 25 36 100 100 (PropertiesF.fv lg ac DP o_out).
Proof.
  intros lg ac DP c Hc.
  assert (EV : z_vertices c = z_vertices cubeZ) by (destruct Hc as [-> | ->]; reflexivity).
  assert (Q : forall v, In v (z_points c) -> (Z.abs (vx v) <= 25)%Z /\ (Z.abs (vy v) <= 25)%Z /\ (Z.abs (vz v) <= 25)%Z).
  { intros v Hv. destruct Hc as [-> | ->]; cbn in Hv; repeat (destruct Hv as [<-|Hv]; [cbn; lia|]); destruct Hv. }
  assert (Hb : hullb c = true) by (destruct Hc as [-> | ->]; vm_compute; reflexivity).
  assert (ER : real_hull lg ac DP (fh lg ac DP c) = rh c) by (apply real_fh; intros v Hv; destruct (Q v Hv) as (? & ? & ?); lia).
  assert (Hh : correct_hull (real_hull lg ac DP (fh lg ac DP c))) by (rewrite ER; apply hullb_ok, Hb).
  split; [exact ER|]. split; [exact Hh|]. split; [apply cube_fvec; reflexivity|]. clear ER. set (z := o_out).
  set (h := fh lg ac DP c) in *. set (P i := pnth (A := FA lg ac DP) i (h_points h)).
  assert (EF : forall i, P i = PropertiesF.fv lg ac DP (zpt c i)).
  { intros i. unfold P, h, pnth, zpt. cbn [h_points fh]. change (vzero (A := FA lg ac DP)) with (PropertiesF.fv lg ac DP (V3 0 0 0)%Z). apply map_nth. }
  assert (WP : forall i, In i (h_vertices h) -> zwithin 25 (zpt c i) = true).
  { assert (Al : forallb (fun i => zwithin 25 (zpt c i)) (z_vertices c) = true) by (destruct Hc as [-> | ->]; vm_compute; reflexivity).
    intros i Hi. rewrite forallb_forall in Al. exact (Al i Hi). }
  assert (PZ : forall i, In i (h_vertices h) -> vfin (P i) /\ fvec (P i) = rv (zpt c i)).
  { intros i Hi. rewrite EF. apply cube_fvec, WP, Hi. }
  assert (Hn : (length (h_vertices h) <= 500)%nat) by (cbn; rewrite EV; cbn; lia).
  assert (Hi : forall i, In i (h_vertices h) -> exists x y z, (Z.abs x <= 1024)%Z /\ (Z.abs y <= 1024)%Z /\ (Z.abs z <= 1024)%Z /\
     pnth (A := FA lg ac DP) i (h_points h) = V3 (fofZ x) (fofZ y) (fofZ z)).
  { intros i Hi. exists (vx (zpt c i)), (vy (zpt c i)), (vz (zpt c i)). pose proof (WP i Hi) as W. unfold zwithin in W.
    rewrite !andb_true_iff, !Z.leb_le in W. split; [lia|]. split; [lia|]. split; [lia|]. exact (EF i). }
  assert (Oz : zwithin 25 z = true) by (vm_compute; reflexivity).
  destruct (cube_fvec lg ac DP z Oz) as [Fo Eo].
  constructor.
  - cbn [h fh h_vertices]. rewrite EV. cbn [length z_vertices cubeZ]. split; [lia|]. apply (Nat.le_trans _ (2 ^ 3)); [cbn; lia|apply Nat.pow_le_mono_r; lia].
  - replace (length (h_simplices h)) with 12%nat by (destruct Hc as [-> | ->]; reflexivity). split; [lia|].
    apply (Nat.le_trans _ (2 ^ 4)); [cbn; lia|apply Nat.pow_le_mono_r; lia].
  - intros i Hx. fold (P i). destruct (PZ i Hx) as (F & E). split; [exact F|]. rewrite E. exact (zwithin_ok 25 _ (WP i Hx)).
  - intros i j Hx Hy. fold (P i) (P j). destruct (PZ i Hx) as (_ & ->), (PZ j Hy) as (_ & ->). rewrite rv_sub. apply (zwithin_ok 36).
    assert (Al : forallb (fun i => forallb (fun j => zwithin 36 (zsub (zpt c i) (zpt c j))) (z_vertices c)) (z_vertices c) = true) by (destruct Hc as [-> | ->]; vm_compute; reflexivity).
    rewrite forallb_forall in Al. specialize (Al i Hx). rewrite forallb_forall in Al. exact (Al j Hy).
  - intros P' a b d Hin. pose proof (int_margin lg ac DP h Hh Hn Hi a b d Hin) as K. unfold nrm3 in K. rewrite !pt_real in K.
    eapply Rle_lt_trans; [|exact K]. rewrite (INR_IZR_INZ (length (h_vertices h))). cbn [h fh h_vertices]. rewrite EV.
    cbn [z_vertices cubeZ length Z.of_nat Pos.of_succ_nat Pos.succ]. lra.
  - split; [exact Fo|]. rewrite Eo. exact (zwithin_ok 25 _ Oz).
  - intros P' a b d Hin. change (P' a) with (fvec (P a)). change (P' b) with (fvec (P b)). change (P' d) with (fvec (P d)). rewrite Eo.
    destruct (tri_in lg ac DP h Hh a b d Hin) as (Va & Vb & Vd). destruct (PZ a Va) as (_ & ->), (PZ b Vb) as (_ & ->), (PZ d Vd) as (_ & ->).
    rewrite !rv_sub.
    assert (Al : forallb (fun s => match s with [a; b; d] => zsees 36 100 100 (zsub (zpt c a) z) (zsub (zpt c b) z) (zsub (zpt c d) z) ||
      zlevel 36 100 (zsub (zpt c a) z) (zsub (zpt c b) z) (zsub (zpt c d) z) | _ => true end) (z_simplices c) = true)
      by (destruct Hc as [-> | ->]; vm_compute; reflexivity).
    rewrite forallb_forall in Al. pose proof (Al [a; b; d] Hin) as K. cbv beta iota in K. apply orb_true_iff in K. destruct K as [K|K].
    + left. apply (zsees_ok 36 100 100); [lia|lia|exact K].
    + right. apply (zlevel_ok 36 100); [lia|exact K].
Qed.

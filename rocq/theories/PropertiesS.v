(** * Properties C07, C11-C14, C25-C29, C31-C33, C57: construction, symmetries
      and special observers over the real numbers *)
From Coq Require Import Reals Lra Psatz ZArith Bool List Permutation Arith Lia.
Import ListNotations.
From Coquelicot Require Import Coquelicot.
From Verif Require Import Base MUtils MEdge MFace MHull MPoly SpecPoly PPoly PStation PPlain.
From Verif Require Import RVec RArith REdge REdgeModel RAngle ROmega RFace RFacet RPoly RTwin RField
  RHull RHullZ ExamplesR RLinear RMove RMoved RGlue RLaws RPlaced RPlacedZ RWell PropertiesR.
Import ListNotations.
Local Open Scope R_scope.
Local Open Scope list_scope.

(** scipy's answer for the points moved by [f]: the same lists of indices *)
Definition move_hull (f : V -> V) (h : hull RA) : hull RA :=
  {| h_points := (map f (h_points h) : list (vec RA)); h_simplices := h_simplices h;
     h_neighbors := h_neighbors h; h_vertices := h_vertices h |}.
Lemma move_ext f f' h : (forall x, f x = f' x) -> move_hull f h = move_hull f' h.
Proof. intros H. unfold move_hull. now rewrite (map_ext f f' H). Qed.

(** ** C11: translations *)
(** For every point set and every answer of scipy (not only correct hulls), every
    observer (also irregular ones) and every outcome. *)
Theorem C11_translation :
  forall (h : hull RA) convex_hull convex_hull' in_hull in_hull' points (v : V),
  in_range h -> convex_hull points = Ok h ->
  convex_hull' (map (fun x => (x + v)%v) points) = Ok (move_hull (fun x => (x + v)%v) h) ->
  (forall x, in_hull' (map (fun x => (x + v)%v) (h_points h)) (x + v)%v = in_hull (h_points h) x) ->
  match mk_polyhedron (A := RA) convex_hull in_hull points,
        mk_polyhedron (A := RA) convex_hull' in_hull' (map (fun x => (x + v)%v) points) with
  | Ok p, Ok p' => forall o density Gc gradient s s', reachable p s -> reachable p' s' ->
      gravity p' (o + v)%v density Gc gradient s' = gravity p o density Gc gradient s
  | Err e, Err e' => e = e'
  | _, _ => False
  end.
Proof.
  intros h ch ch' ih ih' points v Hr E E' Hih.
  assert (S : forall x, simil idV 1 v x = (x + v)%v) by (intros x; unfold simil, idV; vring).
  assert (M : forall l : list V, map (fun x => (x + v)%v) l = map (simil idV 1 v) l) by (intros l; apply map_ext; intros; now rewrite S).
  assert (HB := build_map idV 1 v rotation_id Rlt_0_1 h ih ih' ch ch' points (map (fun x => (x + v)%v) points) E).
  rewrite HB; clear HB; auto.
  - destruct (mk_polyhedron (A := RA) ch ih points) as [p|] eqn:EP; [|reflexivity].
    intros o d G g s s' Hs Hs'. rewrite !gravity_spec by auto. rewrite <- S.
    apply (shift_gravity v p o d G g). exact (built_points (A := RA) ch ih points p EP).
  - rewrite E'. unfold move_hull, map_hull. now rewrite M.
  - intros x. rewrite <- M, S. apply Hih.
Qed.
Print Assumptions C11_translation.

Example C11_case : in_range (rh cubeZ) /\
  mk_polyhedron (A := RA) (fun _ => Ok (rh cubeZ)) (fun _ _ => true) (map rv (z_points cubeZ)) = Ok cube.
Proof.
  split; [|apply (body_ok cubeZ); vm_compute; reflexivity].
  apply correct_in_range; [apply cubeZ_ok|discriminate].
Qed.

(** ** C12: rotations (and translations) *)
Theorem C12_rotation :
  forall (h : hull RA) convex_hull convex_hull' in_hull in_hull' points (Q : V -> V) (v : V),
  rotation Q -> correct_hull h -> h_simplices h <> [] -> convex_hull points = Ok h ->
  convex_hull' (map (fun x => (Q x + v)%v) points) = Ok (move_hull (fun x => (Q x + v)%v) h) ->
  (forall x, in_hull' (map (fun x => (Q x + v)%v) (h_points h)) (Q x + v)%v = in_hull (h_points h) x) ->
  exists p p',
    mk_polyhedron (A := RA) convex_hull in_hull points = Ok p /\
    mk_polyhedron (A := RA) convex_hull' in_hull' (map (fun x => (Q x + v)%v) points) = Ok p' /\
    forall o gradient, well_placed p o gradient -> well_placed p' (Q o + v)%v gradient /\
    forall density Gc s s', reachable p s -> reachable p' s' ->
    exists G T T',
      gravity p o density Gc gradient s = Ok (G, T) /\
      gravity p' (Q o + v)%v density Gc gradient s' = Ok (Q G, T') /\
      forall e, mdot T' (Q e) = Q (mdot T e).
Proof.
  intros h ch ch' ih ih' points Q v HQ Hh Hne E E' Hih.
  assert (S : forall x, simil Q 1 v x = (Q x + v)%v) by (intros x; unfold simil; vring).
  assert (M : forall l : list V, map (fun x => (Q x + v)%v) l = map (simil Q 1 v) l) by (intros l; apply map_ext; intros; now rewrite S).
  destruct (build_ok ch ih points h E Hh) as (p & EP & _ & Hc & _).
  exists p, (map_poly Q 1 v p). split; [exact EP|].
  assert (HB := build_map Q 1 v HQ Rlt_0_1 h ih ih' ch ch' points (map (fun x => (Q x + v)%v) points) E).
  split.
  { rewrite HB; clear HB; auto.
    - rewrite EP. reflexivity.
    - rewrite E'. unfold move_hull, map_hull. now rewrite M.
    - now apply correct_in_range.
    - intros x. rewrite <- M, S. apply Hih. }
  intros o g Hr. assert (Hr' : well_placed (map_poly Q 1 v p) (Q o + v)%v g).
  { rewrite <- S. apply well_map; auto; lra. }
  split; [exact Hr'|]. intros d G s s' Hs Hs'. rewrite !gravity_spec by auto.
  rewrite <- S in *. destruct (similar_well Q 1 v HQ Rlt_0_1 p o d G g Hc Hr Hr') as (G0 & T0 & T1 & A1 & A2 & A3).
  exists G0, T0, T1. split; [exact A1|]. split; [|exact A3].
  etransitivity; [exact A2|]. apply (f_equal Ok), (f_equal2 pair); [|reflexivity]. eqV. vring.
Qed.
Print Assumptions C12_rotation.

(** a rotation by the angle with cosine 3/5 about the z axis, and one that
    permutes the axes *)
Definition rot345 (a : V) : V := V3 (3/5 * vx a - 4/5 * vy a) (4/5 * vx a + 3/5 * vy a) (vz a).
Definition rotxyz (a : V) : V := V3 (vz a) (vx a) (vy a).
Lemma rot345_ok : rotation rot345.
Proof.
  constructor; intros; unfold rot345, va, sc, dt, cr; cbn [vx vy vz]; try (apply veq; cbn [vx vy vz]; field); field.
Qed.
Lemma rotxyz_ok : rotation rotxyz.
Proof.
  constructor; intros; unfold rotxyz, va, sc, dt, cr; cbn [vx vy vz]; try (apply veq; cbn [vx vy vz]; ring); ring.
Qed.
Example C12_case : rotation rot345 /\ rotation rotxyz /\ correct_hull (rh cubeZ) /\ h_simplices (rh cubeZ) <> [] /\
  exists p, mk_polyhedron (A := RA) (fun _ => Ok (rh cubeZ)) (fun _ _ => true) (map rv (z_points cubeZ)) = Ok p /\
  (forall g, well_placed p (rv o_out) g /\ well_placed p (rv o_in) g /\ well_placed p (rv o_plane) g /\ well_placed p (rv o_line) g) /\
  well_placed p (rv o_edge) false.
Proof.
  split; [apply rot345_ok|]. split; [apply rotxyz_ok|]. split; [apply cubeZ_ok|]. split; [discriminate|].
  exists cube. split; [apply (body_ok cubeZ); vm_compute; reflexivity|].
  split; [|apply cube_edge_well]. intros g. split; [apply cube_out_well|split; [apply cube_in_well|split; [apply cube_plane_well|apply cube_line_well]]].
Qed.

(** ** C13: scaling *)
Theorem C13_scaling :
  forall (h : hull RA) convex_hull convex_hull' in_hull in_hull' points (k : R),
  0 < k -> correct_hull h -> h_simplices h <> [] -> convex_hull points = Ok h ->
  convex_hull' (map (fun x => (k * x)%v) points) = Ok (move_hull (fun x => (k * x)%v) h) ->
  (forall x, in_hull' (map (fun x => (k * x)%v) (h_points h)) (k * x)%v = in_hull (h_points h) x) ->
  exists p p',
    mk_polyhedron (A := RA) convex_hull in_hull points = Ok p /\
    mk_polyhedron (A := RA) convex_hull' in_hull' (map (fun x => (k * x)%v) points) = Ok p' /\
    forall o gradient, well_placed p o gradient -> well_placed p' (k * o)%v gradient ->
    forall density Gc s s', reachable p s -> reachable p' s' ->
    exists G T,
      gravity p o density Gc gradient s = Ok (G, T) /\
      gravity p' (k * o)%v density Gc gradient s' = Ok ((k * G)%v, T).
Proof.
  intros h ch ch' ih ih' points k Hk Hh Hne E E' Hih.
  assert (S : forall x, simil idV k v0 x = (k * x)%v) by (intros x; unfold simil, idV; vring).
  assert (M : forall l : list V, map (fun x => (k * x)%v) l = map (simil idV k v0) l) by (intros l; apply map_ext; intros; now rewrite S).
  destruct (build_ok ch ih points h E Hh) as (p & EP & _ & Hc & _).
  exists p, (map_poly idV k v0 p). split; [exact EP|].
  assert (HB := build_map idV k v0 rotation_id Hk h ih ih' ch ch' points (map (fun x => (k * x)%v) points) E).
  split.
  { rewrite HB; clear HB; auto.
    - rewrite EP. reflexivity.
    - rewrite E'. unfold move_hull, map_hull. now rewrite M.
    - now apply correct_in_range.
    - intros x. rewrite <- M, S. apply Hih. }
  intros o g Hr Hr' d G s s' Hs Hs'. rewrite !gravity_spec by auto. rewrite <- S in *.
  destruct (similar_well idV k v0 rotation_id Hk p o d G g Hc Hr Hr') as (G0 & T0 & T1 & A1 & A2 & A3).
  exists G0, T0. split; [exact A1|]. etransitivity; [exact A2|].
  assert (ET : T1 = T0) by (apply mapp_inj; exact A3). rewrite ET. reflexivity.
Qed.
Print Assumptions C13_scaling.
(** cube of half side 10 and observer (25,13,17), scaled by 3 *)
Definition zscale (k : Z) (a : ZV) : ZV := V3 (k * vx a)%Z (k * vy a)%Z (k * vz a)%Z.
Definition cube3Z : zhull :=
  {| z_points := map (zscale 3) (z_points cubeZ); z_simplices := z_simplices cubeZ;
     z_neighbors := z_neighbors cubeZ; z_vertices := z_vertices cubeZ |}.
Example C13_case : correct_hull (rh cubeZ) /\ rh cube3Z = move_hull (fun x => (3 * x)%v) (rh cubeZ) /\
  forall o g, o = o_out \/ o = o_plane -> well_placed cube (rv o) g /\ well_placed (body cube3Z) (3 * rv o)%v g.
Proof.
  split; [apply cubeZ_ok|]. split; [|intros o g Ho; split; [destruct Ho as [-> | ->]; [apply cube_out_well|apply cube_plane_well]|]].
  - unfold rh, move_hull, cube3Z; cbn [z_points z_simplices z_neighbors z_vertices h_points h_simplices h_neighbors h_vertices].
    f_equal. rewrite !map_map. apply map_ext. intros [x y z]. unfold rv, zscale, sc; cbn [vx vy vz]. now rewrite !mult_IZR.
  - replace (3 * rv o)%v with (rv (zscale 3 o)).
    + destruct Ho as [-> | ->]; apply clearb_ok; vm_compute; reflexivity.
    + unfold rv, zscale, sc; cbn [vx vy vz]. now rewrite !mult_IZR.
Qed.

(** ** C14: internal facets *)
(** a facet seen from the two bodies that share it: the two calls of
    Face.get_gravity return opposite values *)
Theorem C14_facet_cancels :
  forall p p' o density Gc gradient fi f fi' f' s s', closed p -> closed p' -> clear p o gradient -> clear p' o gradient ->
  reachable p s -> reachable p' s' ->
  nth_error (pl_faces p) fi = Some f -> nth_error (pl_faces p') fi' = Some f' ->
  (exists a b c, f_points f = [a; b; c] /\ (f_points f' = [a; c; b] \/ f_points f' = [c; b; a] \/ f_points f' = [b; a; c])) ->
  exists G T,
    fst (face_get_gravity (A := RA) (pl_twin p) o density Gc gradient fi f s) = Ok (G, T) /\
    fst (face_get_gravity (A := RA) (pl_twin p') o density Gc gradient fi' f' s') =
      Ok ((- G)%v, V3 (- vx T)%v (- vy T)%v (- vz T)%v).
Proof.
  intros p p' o d G g fi f fi' f' s s' Hc Hc' Hr Hr' Hs Hs' Hf Hf' (a & b & c & E1 & E2).
  pose proof (nth_error_In _ _ Hf) as I1. pose proof (nth_error_In _ _ Hf') as I2.
  exists (gC d G o f), (if g then tC d G o f else m0).
  split; [exact (face_clear p o g d G fi f s Hc Hr (reachable_clean _ _ Hs) Hf)|].
  etransitivity; [exact (face_clear p' o g d G fi' f' s' Hc' Hr' (reachable_clean _ _ Hs') Hf')|].
  assert (C : cyc (tflip (tri_of f)) (tri_of f')).
  { unfold tri_of, vtx, pnth, tflip, cyc, trot. rewrite E1. destruct E2 as [-> | [-> | ->]]; cbn [nth]; auto. }
  assert (EG : gC d G o f' = (- gC d G o f)%v).
  { rewrite (gC_gCT p' d G o f' Hc' I2), (gC_gCT p d G o f Hc I1), (gCT_cyc d G o _ _ C). apply gCT_flip. }
  assert (EJ : forall e, jC d G o f' e = (- jC d G o f e)%v).
  { intros e. rewrite (jC_jCT p' d G o f' e Hc' I2), (jC_jCT p d G o f e Hc I1), (jCT_cyc d G o e _ _ C). apply jCT_flip. }
  rewrite EG. apply (f_equal Ok), (f_equal2 pair); [reflexivity|].
  destruct g; [unfold tC, up; rewrite !EJ; cbn [vx vy vz]; reflexivity|].
  unfold m0; cbn [vx vy vz]. replace (- v0)%v with v0 by vring. reflexivity.
Qed.
Print Assumptions C14_facet_cancels.
(** two bodies glued along facets: the outer surface gives the sum *)
Theorem C14_glued :
  forall p p' q o density Gc gradient s s' s'', closed p -> closed p' -> closed q ->
  clear p o gradient -> clear p' o gradient -> reachable p s -> reachable p' s' -> reachable q s'' ->
  glued p p' q ->
  exists G1 T1 G2 T2,
    gravity p o density Gc gradient s = Ok (G1, T1) /\ gravity p' o density Gc gradient s' = Ok (G2, T2) /\
    gravity q o density Gc gradient s'' = Ok ((G1 + G2)%v, V3 (vx T1 + vx T2)%v (vy T1 + vy T2)%v (vz T1 + vz T2)%v).
Proof.
  intros p p' q o d G g s s' s'' H1 H2 H3 R1 R2 S1 S2 S3 Hg. rewrite !gravity_spec by auto.
  exact (proj2 (glue_clear p p' q o d G g H1 H2 H3 R1 R2 Hg)).
Qed.
Print Assumptions C14_glued.

(** two tetrahedra on the two sides of a triangle, and their union *)
Definition upZ : zhull :=
  {| z_points := [zv 0 0 0; zv 12 0 0; zv 0 12 0; zv 2 3 9];
     z_simplices := [[0; 1; 2]; [0; 1; 3]; [0; 2; 3]; [1; 2; 3]];
     z_neighbors := [[3; 2; 1]; [3; 2; 0]; [3; 1; 0]; [2; 1; 0]];
     z_vertices := [0; 1; 2; 3] |}%nat.
Definition downZ : zhull :=
  {| z_points := [zv 0 0 0; zv 12 0 0; zv 0 12 0; zv 4 3 (-7)];
     z_simplices := [[0; 1; 2]; [0; 1; 3]; [0; 2; 3]; [1; 2; 3]];
     z_neighbors := [[3; 2; 1]; [3; 2; 0]; [3; 1; 0]; [2; 1; 0]];
     z_vertices := [0; 1; 2; 3] |}%nat.
Definition bothZ : zhull :=
  {| z_points := [zv 0 0 0; zv 12 0 0; zv 0 12 0; zv 2 3 9; zv 4 3 (-7)];
     z_simplices := [[0; 1; 3]; [0; 2; 3]; [1; 2; 3]; [0; 1; 4]; [0; 2; 4]; [1; 2; 4]];
     z_neighbors := [[2; 1; 3]; [2; 0; 4]; [1; 0; 5]; [5; 4; 0]; [5; 3; 1]; [4; 3; 2]];
     z_vertices := [0; 1; 2; 3; 4] |}%nat.
Lemma cyc_sym t t' : cyc t t' -> cyc t' t.
Proof. destruct t as [[a b] c]. intros [-> | [-> | ->]]; unfold cyc, trot; auto. Qed.
Lemma cyc_trans t t' t'' : cyc t t' -> cyc t' t'' -> cyc t t''.
Proof. destruct t as [[a b] c]. intros [-> | [-> | ->]] H; destruct H as [-> | [-> | ->]]; unfold cyc, trot; auto. Qed.
Lemma cyc_sym2 l l' : Forall2 cyc l l' -> Forall2 cyc l' l.
Proof. induction 1; constructor; auto using cyc_sym. Qed.
Lemma cyc_trans2 l l' : Forall2 cyc l l' -> forall l'', Forall2 cyc l' l'' -> Forall2 cyc l l''.
Proof. induction 1; intros l'' H''; inversion H''; subst; constructor; eauto using cyc_trans. Qed.
Lemma glued_intro p p' q L L' M I : Forall2 cyc (tris p) L -> Forall2 cyc (tris p') L' -> Forall2 cyc (tris q) M ->
  Permutation (L ++ L') (M ++ I ++ map tflip I) -> glued p p' q.
Proof.
  intros H1 H2 H3 HP.
  assert (F : Forall2 cyc (M ++ I ++ map tflip I) (tris q ++ I ++ map tflip I)).
  { apply Forall2_app; [now apply cyc_sym2|].
    generalize (I ++ map tflip I). intros l. induction l; constructor; auto. left; reflexivity. }
  destruct (Forall2_perm cyc _ _ HP _ F) as (m & P & F'). exists I, m. split; [|exact P].
  eapply cyc_trans2; [apply Forall2_app; [exact H1|exact H2]|exact F'].
Qed.
Example C14_case : let p := body upZ in let p' := body downZ in let q := body bothZ in
  closed p /\ closed p' /\ closed q /\ glued p p' q /\
  (* in general position, and in the plane of the common triangle *)
  forall o g, o = o_out \/ o = zv 20 5 0 -> clear p (rv o) g /\ clear p' (rv o) g.
Proof.
  cbv zeta. split; [apply body_ok; vm_compute; reflexivity|]. split; [apply body_ok; vm_compute; reflexivity|].
  split; [apply body_ok; vm_compute; reflexivity|]. split.
  2:{ intros o g [-> | ->]; split; refine (proj1 (clearb_ok _ _ _ g _)); vm_compute; reflexivity. }
  apply (glued_intro _ _ _ _ _ _ (ptri (rh upZ) (0, 2, 1)%nat :: nil)
    (body_tris upZ [(0, 2, 1); (0, 1, 3); (0, 3, 2); (1, 2, 3)]%nat ltac:(vm_compute; reflexivity) ltac:(vm_compute; reflexivity))
    (body_tris downZ [(0, 1, 2); (0, 3, 1); (0, 2, 3); (1, 3, 2)]%nat ltac:(vm_compute; reflexivity) ltac:(vm_compute; reflexivity))
    (body_tris bothZ [(0, 1, 3); (0, 3, 2); (1, 2, 3); (0, 4, 1); (0, 2, 4); (1, 4, 2)]%nat ltac:(vm_compute; reflexivity) ltac:(vm_compute; reflexivity))).
  cbn [map app].
  assert (K : forall (x y : tri) A B, Permutation (x :: A ++ y :: B) (A ++ B ++ [x; y])).
  { intros x y A B. transitivity (x :: y :: A ++ B).
    - constructor. apply Permutation_sym, Permutation_middle.
    - rewrite app_assoc. apply (Permutation_app_comm [x; y] (A ++ B)). }
  exact (K _ _ [_; _; _] [_; _; _]).
Qed.

(** ** C57: order of facets and points *)
Theorem C57_order_independent :
  forall (h h' : hull RA) convex_hull convex_hull' in_hull in_hull' points points' sigma,
  correct_hull h -> correct_hull h' -> same_surface h h' sigma ->
  convex_hull points = Ok h -> convex_hull' points' = Ok h' ->
  exists p p',
    mk_polyhedron (A := RA) convex_hull in_hull points = Ok p /\
    mk_polyhedron (A := RA) convex_hull' in_hull' points' = Ok p' /\
    forall o gradient, clear p o gradient -> clear p' o gradient /\
    forall density Gc s s', reachable p s -> reachable p' s' ->
      gravity p' o density Gc gradient s' = gravity p o density Gc gradient s.
Proof.
  intros h h' ch ch' ih ih' points points' sigma Hh Hh' HS E E'.
  destruct (build_ok ch ih points h E Hh) as (p & EP & _ & Hc & HL & HF).
  destruct (build_ok ch' ih' points' h' E' Hh') as (p' & EP' & _ & Hc' & HL' & HF').
  exists p, p'. split; [exact EP|]. split; [exact EP'|]. intros o g Hr.
  pose proof (same_surface_tris h h' sigma p p' Hh Hh' HS HL HF HL' HF') as HT.
  split; [exact (proj1 (same_tris_clear p p' o 0 0 g Hc Hc' Hr HT))|].
  intros d G s s' Hs Hs'. rewrite !gravity_spec by auto. exact (proj2 (same_tris_clear p p' o d G g Hc Hc' Hr HT)).
Qed.
Print Assumptions C57_order_independent.
(** the tetrahedron with its points, facets and facet points listed in other orders *)
Definition tetraZ' : zhull :=
  {| z_points := [zv 0 0 12; zv 0 12 0; zv 12 0 0; zv 0 0 0];
     z_simplices := [[2; 0; 1]; [3; 1; 0]; [2; 3; 0]; [1; 2; 3]];
     z_neighbors := [[1; 3; 2]; [0; 2; 3]; [1; 0; 3]; [2; 1; 0]];
     z_vertices := [0; 1; 2; 3] |}%nat.
Example C57_case : correct_hull (rh tetraZ) /\ correct_hull (rh tetraZ') /\
  same_surface (rh tetraZ) (rh tetraZ') (fun i => (3 - i)%nat) /\ forall g, clear tetra (rv o_out) g.
Proof.
  split; [apply tetraZ_ok|]. split; [apply hullb_ok; vm_compute; reflexivity|]. split; [|intros g; exact (proj1 (regular_well _ _ g tetra_closed tetra_out))].
  split; [|split].
  - cbn. intros i [<-|[<-|[<-|[<-|[]]]]]; reflexivity.
  - cbn. intros i [<-|[<-|[<-|[<-|[]]]]]; cbn; auto.
  - exists [[2; 1; 0]; [3; 1; 0]; [3; 2; 0]; [3; 2; 1]]%nat. split.
    + cbn. apply (Permutation_rev [[3; 2; 1]; [3; 2; 0]; [3; 1; 0]; [2; 1; 0]]%nat).
    + repeat constructor.
      apply (Permutation_rev [3; 2; 1]%nat).
Qed.

(** ** C25: orientation of the facets *)
Theorem C25_outward_facets :
  forall convex_hull in_hull points (h : hull RA),
  convex_hull points = Ok h -> correct_hull h ->
  exists p, mk_polyhedron (A := RA) convex_hull in_hull points = Ok p /\ pl_points p = points /\
  length (pl_faces p) = length (h_simplices h) /\
  forall i f, nth_error (pl_faces p) i = Some f -> exists s a b c,
    nth_error (h_simplices h) i = Some s /\ Permutation s [a; b; c] /\
    f_points f = [pt h a; pt h b; pt h c] /\
    (* unit normal, perpendicular to the facet, counter-clockwise *)
    nm (f_un f) = 1 /\ dt (f_un f) (pt h b - pt h a) = 0 /\ dt (f_un f) (pt h c - pt h a) = 0 /\
    0 < dt (f_un f) (cr (pt h b - pt h a) (pt h c - pt h a)) /\
    (* no vertex is in front of the facet, some are behind *)
    (forall j, In j (h_vertices h) -> dt (f_un f) (pt h j - pt h a) <= 0) /\
    (exists j, In j (h_vertices h) /\ dt (f_un f) (pt h j - pt h a) < 0).
Proof.
  intros ch ih points h E Hh. destruct (build_ok ch ih points h E Hh) as (p & EP & Hp & _ & HL & HF).
  exists p. split; [exact EP|]. split; [exact Hp|]. split; [exact HL|]. intros i f Hf.
  destruct (HF i f Hf) as (s & x & y & z & t1 & t2 & t3 & Hs & HP & _ & _ & _ & (N & O1 & j & Hj & O2) & Hpts & _ & Hu & _).
  exists s, x, y, z. split; [exact Hs|]. split; [exact HP|]. split; [exact Hpts|].
  rewrite Hu. unfold tri_normal. fold (nrm3 h x y z). pose proof (nm_pos _ N) as HN.
  assert (K : forall w, dt (uu (nrm3 h x y z)) w = / nm (nrm3 h x y z) * dt (nrm3 h x y z) w) by (intros w; unfold uu; vring).
  assert (HI : 0 < / nm (nrm3 h x y z)) by now apply Rinv_0_lt_compat.
  split; [|split; [|split; [|split; [|split]]]].
  - unfold uu. rewrite nm_sc, Rabs_pos_eq by lra. apply Rinv_l. lra.
  - rewrite K. replace (dt (nrm3 h x y z) (pt h y - pt h x)) with 0 by (unfold nrm3; vring). ring.
  - rewrite K. replace (dt (nrm3 h x y z) (pt h z - pt h x)) with 0 by (unfold nrm3; vring). ring.
  - rewrite K, <- nm_sq. apply Rmult_lt_0_compat; [exact HI|]. apply Rmult_lt_0_compat; exact HN.
  - intros k Hk. rewrite K. specialize (O1 k Hk). nra.
  - exists j. split; [exact Hj|]. rewrite K. nra.
Qed.
Print Assumptions C25_outward_facets.
Example C25_case : correct_hull (rh cubeZ) /\ length (h_simplices (rh cubeZ)) = 12%nat /\ correct_hull (rh tetraZ).
Proof. split; [apply cubeZ_ok|]. split; [reflexivity|apply tetraZ_ok]. Qed.

(** ** C26: twins *)
Theorem C26_twins :
  forall convex_hull in_hull points (h : hull RA),
  convex_hull points = Ok h -> correct_hull h ->
  exists p, mk_polyhedron (A := RA) convex_hull in_hull points = Ok p /\
  (* the twin of every edge: reversed, in another facet, mutual, and the only edge reversing it *)
  (forall k e, has_edge p k e -> exists k' e',
     pl_twin p k = Some k' /\ has_edge p k' e' /\ pl_twin p k' = Some k /\
     e_start e' = e_end e /\ e_end e' = e_start e /\ fst k' <> fst k /\
     forall k'' e'', has_edge p k'' e'' -> e_start e'' = e_end e -> e_end e'' = e_start e -> k'' = k') /\
  (* no call ever raises TypeError *)
  (forall o density Gc gradient s, reachable p s -> gravity p o density Gc gradient s <> Err TypeError).
Proof.
  intros ch ih points h E Hh. destruct (build_ok ch ih points h E Hh) as (p & EP & Hp & Hc & HL & HF).
  exists p. split; [exact EP|]. split.
  - intros k e He. destruct (proj2 Hc k e He) as (k' & e' & T & He' & T' & S1 & S2).
    exists k', e'. split; [auto|]. split; [auto|]. split; [auto|]. split; [auto|]. split; [auto|].
    assert (U : forall k'' e'', has_edge p k'' e'' -> e_start e'' = e_end e -> e_end e'' = e_start e -> k'' = k').
    { intros k'' e'' H'' Q1 Q2. apply (has_unique h (pl_faces p) Hh HF k'' e'' k' e' H'' He'); congruence. }
    split; [|exact U].
    destruct (has_rev h (pl_faces p) Hh HL HF k e He) as (ft & j & e2 & B1 & B2 & B3 & B4).
    assert (H2 : has_edge p (e_twinface e, j) e2) by (exists ft; auto).
    assert (EK := U _ _ H2 B3 B4).
    destruct (has_index h (pl_faces p) HF k e He) as (f & s & x & y & z & a & b & c & _ & _ & _ & _ & _ & _ & _ & _ & _ & _ & _ & _ & W).
    destruct W as [W _]. rewrite <- EK. exact W.
  - intros o d G g s Hs Z. rewrite gravity_spec in Z by auto. apply closed_exn in Z; [discriminate|exact Hc].
Qed.
Print Assumptions C26_twins.
Example C26_case : exists k e, has_edge cube k e.
Proof.
  assert (L : length (pl_faces cube) = 12%nat) by (apply (body_ok cubeZ); vm_compute; reflexivity).
  destruct (pl_faces cube) as [|f l] eqn:E; [discriminate|].
  assert (Hf : In f (pl_faces cube)) by (rewrite E; left; auto).
  destruct (proj1 cube_closed f Hf) as (p1 & p2 & p3 & _ & s1 & s2 & s3 & t1 & t2 & t3 & H).
  exists (0, 0)%nat. eexists. exists f. split; [rewrite E; reflexivity|]. cbn [snd]. rewrite H. reflexivity.
Qed.

(** ** C27: the search for another interior point *)
(** [needs_search] is the condition of the while loop for one simplex. *)
Theorem C27_not_needed :
  forall convex_hull in_hull points (h : hull RA),
  convex_hull points = Ok h -> correct_hull h ->
  (exists p, mk_polyhedron (A := RA) convex_hull in_hull points = Ok p) /\
  forall s, In s (h_simplices h) ->
    needs_search (A := RA) (h_points h) (centroid (A := RA) (h_points h) (h_vertices h)) (in_hull (h_points h)) s = false.
Proof.
  intros ch ih points h E Hh. destruct (build_ok ch ih points h E Hh) as (p & EP & _).
  split; [eauto|]. exact (built_no_search (A := RA) ch ih points h p E EP).
Qed.
Print Assumptions C27_not_needed.
(** in every arithmetic: a polyhedron that was built never needed the search,
    and the first facet that needs it makes the constructor raise NameError *)
Theorem C27_cannot_work :
  forall (A : arith) convex_hull in_hull points (h : hull A), convex_hull points = Ok h ->
  let needs := needs_search (h_points h) (centroid (h_points h) (h_vertices h)) (in_hull (h_points h)) in
  (forall p, mk_polyhedron convex_hull in_hull points = Ok p -> forall s, In s (h_simplices h) -> needs s = false) /\
  (forall s n todo1 todo2 fs, combine (h_simplices h) (h_neighbors h) = todo1 ++ (s, n) :: todo2 ->
     length (h_simplices h) = length (h_neighbors h) ->
     faces_loop (h_points h) (centroid (h_points h) (h_vertices h)) (in_hull (h_points h)) (h_simplices h) 0 todo1 = Ok fs ->
     needs s = true -> mk_polyhedron convex_hull in_hull points = Err NameError).
Proof.
  intros A ch ih points h E needs. split.
  - intros p Hp. exact (built_no_search ch ih points h p E Hp).
  - intros s n t1 t2 fs HC HL HF Hn. unfold mk_polyhedron. rewrite E. cbn [bind]. unfold get_faces.
    rewrite HL, Nat.eqb_refl. cbn [negb]. rewrite HC.
    rewrite (loop_search _ _ _ s n t2 t1 Hn _ _ _ HF). reflexivity.
Qed.
Print Assumptions C27_cannot_work.
(** a flat "hull": its centroid is in the plane of the first facet *)
Definition flat_hull : hull RA :=
  {| h_points := ([V3 0 0 0; V3 3 0 0; V3 0 3 0] : list (vec RA)); h_simplices := ([0; 1; 2] :: nil)%nat;
     h_neighbors := ([0; 0; 0] :: nil)%nat; h_vertices := [0; 1; 2]%nat |}.
Example C27_case :
  mk_polyhedron (A := RA) (fun _ => Ok flat_hull) (fun _ _ => false) [] = Err NameError /\
  (exists p, mk_polyhedron (A := RA) (fun _ => Ok (rh cubeZ)) (fun _ _ => false) [] = Ok p).
Proof.
  split.
  - destruct (C27_cannot_work RA (fun _ => Ok flat_hull) (fun _ _ => false) [] flat_hull eq_refl) as [_ H].
    refine (H _ _ [] [] [] eq_refl eq_refl eq_refl _).
    unfold needs_search. rewrite andb_true_r. apply Reqb_true.
    match goal with |- @dot RA ?a ?b = _ => change (@dot RA a b) with (dt a b) end.
    unfold flat_hull, dt; cbn. change (num RA) with R. lra.
  - exact (proj1 (C27_not_needed (fun _ => Ok (rh cubeZ)) (fun _ _ => false) [] (rh cubeZ) eq_refl cubeZ_ok)).
Qed.

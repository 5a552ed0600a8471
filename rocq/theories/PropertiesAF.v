(** * Property C87: integer bodies moved by integer vectors, in double precision *)
From Coq Require Import Reals Lra List ZArith Bool Arith Lia Permutation Floats.SpecFloat.
From Verif Require Import Base MUtils MEdge MFace MHull MPoly SpecPoly PPoly PStation PPlain FArith PCall PNan Examples.
From Verif Require Import RVec RArith REdge REdgeModel RAngle ROmega RFace RFacet RPoly RTwin RField
  RHull RHullZ ExamplesR PropertiesR PropertiesF FReal FErr FDot PSim FHull FNorm FBuild FInt PropertiesE FMove.
Import ListNotations.
Local Open Scope R_scope.

(** A body with integer coordinates up to 1024 and up to 500 hull vertices, and the
    body moved by the integer vector (a, b, c), for which scipy lists the same facets;
    an observer with integer coordinates up to 2^52, and the observer moved likewise.
    In doubles, with any log, acos and np.dot, any density and gravitational constant,
    and after any calls on the two bodies, both computations return the same vector and
    tensor bit for bit, or raise the same exception. *)
Theorem C87_translation :
  forall lg ac (DP : dotlib) convex_hull convex_hull' in_hull in_hull' points points' (h h' : hull (FA lg ac DP)) (a b c : Z),
  convex_hull points = Ok h -> convex_hull' points' = Ok h' ->
  correct_hull (real_hull lg ac DP h) -> (length (h_vertices h) <= 500)%nat ->
  h_simplices h' = h_simplices h -> h_neighbors h' = h_neighbors h -> h_vertices h' = h_vertices h ->
  length (h_points h') = length (h_points h) ->
  (forall i, In i (h_vertices h) -> exists x y z : Z,
     (Z.abs x <= 1024 /\ Z.abs y <= 1024 /\ Z.abs z <= 1024)%Z /\
     (Z.abs (x + a) <= 1024 /\ Z.abs (y + b) <= 1024 /\ Z.abs (z + c) <= 1024)%Z /\
     pnth (A := FA lg ac DP) i (h_points h) = V3 (fofZ x) (fofZ y) (fofZ z) /\
     pnth (A := FA lg ac DP) i (h_points h') = V3 (fofZ (x + a)) (fofZ (y + b)) (fofZ (z + c))) ->
  exists p p', mk_polyhedron convex_hull in_hull points = Ok p /\ mk_polyhedron convex_hull' in_hull' points' = Ok p' /\
  forall (x y z : Z) density Gc gradient s s',
    (Z.abs x <= 2 ^ 52 /\ Z.abs y <= 2 ^ 52 /\ Z.abs z <= 2 ^ 52)%Z ->
    (Z.abs (x + a) <= 2 ^ 52 /\ Z.abs (y + b) <= 2 ^ 52 /\ Z.abs (z + c) <= 2 ^ 52)%Z ->
    reachable p s -> reachable p' s' ->
    fst (get_gravity p' (V3 (fofZ (x + a)) (fofZ (y + b)) (fofZ (z + c)) : vec (FA lg ac DP)) density Gc gradient s') =
    fst (get_gravity p (V3 (fofZ x) (fofZ y) (fofZ z) : vec (FA lg ac DP)) density Gc gradient s).
Proof.
  intros lg ac DP ch ch' ih ih' pts pts' h h' a b c E E' Hc Hn H1 H2 H3 H4 H5.
  assert (Hm : moved lg ac DP a b c h h').
  { split; [exact H1|]. split; [exact H2|]. split; [exact H3|]. split; [exact H4|]. intros i Hi.
    destruct (H5 i Hi) as (x & y & z & (A1 & A2 & A3) & (A4 & A5 & A6) & A7 & A8). exists x, y, z. auto 10. }
  destruct (Nat.eq_dec (length (h_vertices h)) 0) as [Z0|Z0].
  - (* no vertex: no simplex *)
    assert (V0 : h_vertices h = []) by (destruct (h_vertices h); [reflexivity|discriminate]).
    assert (S0 : h_simplices h = []).
    { destruct (h_simplices h) as [|s l] eqn:Es; [reflexivity|exfalso].
      assert (Hin : In s (h_simplices (real_hull lg ac DP h))) by (cbn; rewrite Es; now left).
      destruct (ch_tri _ Hc s Hin) as (i & j & k & -> & _).
      assert (Q : In i (h_vertices h)) by (apply (ch_vert _ Hc [i; j; k]); [exact Hin|now left]). rewrite V0 in Q. destruct Q. }
    pose proof (ch_len _ Hc) as Hl. cbn in Hl. rewrite S0 in Hl. cbn in Hl.
    assert (N0 : h_neighbors h = []) by (destruct (h_neighbors h); [reflexivity|discriminate]).
    exists {| pl_points := pts; pl_faces := []; pl_twin := fun _ => None |}, {| pl_points := pts'; pl_faces := []; pl_twin := fun _ => None |}.
    split; [unfold mk_polyhedron, get_faces; rewrite E; cbn [bind]; rewrite S0, N0; reflexivity|].
    split; [unfold mk_polyhedron, get_faces; rewrite E'; cbn [bind]; rewrite H1, H2, S0, N0; reflexivity|].
    intros x y z d G g s s' _ _ Hs Hs'. rewrite !history_independent, !fresh_spec by assumption. reflexivity.
  - destruct (mv_faces lg ac DP a b c h h' Hm Hc Hn ltac:(lia) ih ih') as (fs & fs' & tw & G1 & G2 & K).
    exists {| pl_points := pts; pl_faces := fs; pl_twin := tw |}, {| pl_points := pts'; pl_faces := fs'; pl_twin := tw |}.
    split; [unfold mk_polyhedron; rewrite E; cbn [bind]; rewrite G1; reflexivity|].
    split; [unfold mk_polyhedron; rewrite E'; cbn [bind]; rewrite G2; reflexivity|].
    intros x y z d G g s s' (B1 & B2 & B3) (B4 & B5 & B6) Hs Hs'. rewrite !history_independent, !fresh_spec by assumption.
    symmetry. apply same_gravity; [reflexivity|]. apply K. intros i Hi.
    destruct (H5 i Hi) as (u & v & w & (A1 & A2 & A3) & (A4 & A5 & A6) & -> & ->).
    unfold vsub, vmap2. cbn [vx vy vz]. change (@nsub (FA lg ac DP)) with fsub. rewrite !fofZ_sub by lia. f_equal; f_equal; lia.
Qed.
Print Assumptions C87_translation.

(** the cube of the examples, moved by (300, -7, 41), meets the hypotheses, and its
    field at two corresponding points (with stand-ins for log and acos) is not zero *)
Definition cubeZ_moved : zhull :=
  {| z_points := map (fun v => zv (vx v + 300) (vy v + -7) (vz v + 41))%Z (z_points cubeZ);
     z_simplices := z_simplices cubeZ; z_neighbors := z_neighbors cubeZ; z_vertices := z_vertices cubeZ |}.
Example C87_case : forall lg ac (DP : dotlib),
  let h := fh lg ac DP cubeZ in let h' := fh lg ac DP cubeZ_moved in
  correct_hull (real_hull lg ac DP h) /\ (length (h_vertices h) <= 500)%nat /\
  h_simplices h' = h_simplices h /\ h_neighbors h' = h_neighbors h /\ h_vertices h' = h_vertices h /\
  length (h_points h') = length (h_points h) /\
  (forall i, In i (h_vertices h) -> exists x y z : Z,
     (Z.abs x <= 1024 /\ Z.abs y <= 1024 /\ Z.abs z <= 1024)%Z /\
     (Z.abs (x + 300) <= 1024 /\ Z.abs (y + -7) <= 1024 /\ Z.abs (z + 41) <= 1024)%Z /\
     pnth (A := FA lg ac DP) i (h_points h) = V3 (fofZ x) (fofZ y) (fofZ z) /\
     pnth (A := FA lg ac DP) i (h_points h') = V3 (fofZ (x + 300)) (fofZ (y + -7)) (fofZ (z + 41))).
Proof.
  intros lg ac DP h h'. destruct (C71_case lg ac DP) as (A1 & A2 & _).
  split; [exact A1|]. split; [exact A2|]. do 4 (split; [reflexivity|]).
  intros i Hi. exists (vx (zpt cubeZ i)), (vy (zpt cubeZ i)), (vz (zpt cubeZ i)).
  cbn in Hi. repeat (destruct Hi as [<-|Hi]; [cbn; repeat split; try lia|]). destruct Hi.
Qed.
Example C87_case_field :
  let p := fbody (fun x => x) (fun x => x) plain_dot cubeZ in let p' := fbody (fun x => x) (fun x => x) plain_dot cubeZ_moved in
  match fst (get_gravity p (PropertiesF.fv (fun x => x) (fun x => x) plain_dot (zv 25 13 17)) (fofZ 2670 : num (FA (fun x => x) (fun x => x) plain_dot)) (fofZ 1) true pstate0),
        fst (get_gravity p' (PropertiesF.fv (fun x => x) (fun x => x) plain_dot (zv 325 6 58)) (fofZ 2670 : num (FA (fun x => x) (fun x => x) plain_dot)) (fofZ 1) true pstate0) with
  | Ok (G, _), Ok (G', _) => vx G = vx G' /\ SFeqb (vx G) (fofZ 0) = false
  | _, _ => False
  end.
Proof. vm_compute. split; reflexivity. Qed.

(** * Property C71: construction of a body in double precision *)
From Coq Require Import Reals Lra List ZArith Bool Arith Lia Permutation Floats.SpecFloat.
From Verif Require Import Base MUtils MEdge MFace MHull MPoly SpecPoly PPoly PStation PPlain FArith PCall PNan Examples.
From Verif Require Import RVec RArith REdge REdgeModel RAngle ROmega RFace RFacet RPoly RTwin RField
  RHull RHullZ ExamplesR RPlaced RPlacedZ PropertiesR PropertiesF FReal FErr FDot PSim FHull FNorm FBuild FInt.
Import ListNotations.
Local Open Scope R_scope.

(** Polyhedron(points) computed in IEEE doubles, [h] being what scipy returned.
    Coordinates of the n hull vertices are at most M and their differences at
    most L in absolute value; read as real numbers they form a correct hull;
    and each facet, with the centroid, spans a parallelepiped of volume more
    than ((n+1) M + 8 L) L^2 2^-50.  Then every face lists its vertices
    counterclockwise seen from outside, its unit normal is the true outward one
    to within 2^-47 L^2 / |(B-A) x (C-A)| in each coordinate, and every edge has
    for twin its reverse, in another face. *)
Theorem C71_built_in_doubles :
  forall lg ac (DP : dotlib) convex_hull in_hull points (h : hull (FA lg ac DP)) M L,
  convex_hull points = Ok h -> correct_hull (real_hull lg ac DP h) ->
  (1 <= length (h_vertices h) <= 2 ^ 20)%nat -> / 2 ^ 200 <= L -> L <= 2 * M -> M <= 2 ^ 200 ->
  let P i := pnth (A := FA lg ac DP) i (h_points h) in
  (forall i, In i (h_vertices h) -> vfin (P i) /\ within M (fvec (P i))) ->
  (forall i j, In i (h_vertices h) -> In j (h_vertices h) -> within L (fvec (P i) - fvec (P j))%v) ->
  let cen := centroid (A := RA) (map fvec (h_points h)) (h_vertices h) in
  let normal a b c := cr (fvec (P b) - fvec (P a)) (fvec (P c) - fvec (P a)) in
  (forall a b c, In [a; b; c] (h_simplices h) ->
     ((INR (length (h_vertices h)) + 1) * M + 8 * L) * (L * L) / 2 ^ 50 < Rabs (dt (normal a b c) (cen - fvec (P a))%v)) ->
  exists p, mk_polyhedron convex_hull in_hull points = Ok p /\ pl_points p = points /\
    length (pl_faces p) = length (h_simplices h) /\
    (forall i f, nth_error (pl_faces p) i = Some f ->
       exists s x y z, nth_error (h_simplices h) i = Some s /\ Permutation s [x; y; z] /\
         (forall k, In k (h_vertices h) -> dt (normal x y z) (fvec (P k) - fvec (P x))%v <= 0) /\
         f_points f = [P x; P y; P z] /\
         map (fun e => (e_start e, e_end e)) (f_edges f) = [(P x, P y); (P y, P z); (P z, P x)] /\
         vfin (f_un f) /\
         within (/ 2 ^ 47 * (L * L / nm (normal x y z))) (fvec (f_un f) - / nm (normal x y z) * normal x y z)%v) /\
    (forall i f j e, nth_error (pl_faces p) i = Some f -> nth_error (f_edges f) j = Some e ->
       exists i' j' f' e', pl_twin p (i, j) = Some (i', j') /\ nth_error (pl_faces p) i' = Some f' /\
         nth_error (f_edges f') j' = Some e' /\ i' <> i /\ pl_twin p (i', j') = Some (i, j) /\
         e_start e' = e_end e /\ e_end e' = e_start e).
Proof.
  intros lg ac DP ch inh pts h M L Hc Hh H1 H2 H3 H4 P H5 H6 cen normal H7.
  assert (Hs : scale (length (h_vertices h)) M L) by (split; assumption).
  assert (Hp : placed lg ac DP M L (h_points h) (h_vertices h)) by (split; assumption).
  assert (En : forall a b c, nrm3 (real_hull lg ac DP h) a b c = normal a b c).
  { intros a b c. unfold nrm3. rewrite !pt_real. reflexivity. }
  assert (Hm : margin lg ac DP M L h).
  { intros a b c Hin. rewrite En, pt_real. exact (H7 a b c Hin). }
  destruct (built_close lg ac DP h Hh Hs Hp Hm inh) as (fs & tw & E & Hl & Hf & Ht).
  exists {| pl_points := pts; pl_faces := fs; pl_twin := tw |}. cbn [pl_points pl_faces pl_twin].
  split; [unfold mk_polyhedron; rewrite Hc; cbn [bind]; rewrite E; reflexivity|]. split; [reflexivity|]. split; [exact Hl|]. split; [|exact Ht].
  intros i f Hi. destruct (Hf i f Hi) as (s & x & y & z & A1 & A2 & (_ & A3 & _) & _ & A5 & A6 & A7 & A8).
  exists s, x, y, z. split; [exact A1|]. split; [exact A2|]. split.
  { intros k Hk. pose proof (A3 k Hk) as Q. rewrite En, !pt_real in Q. exact Q. }
  split; [exact A5|]. split; [exact A6|]. split; [exact A7|].
  unfold tri_normal, uu in A8. rewrite En in A8. rewrite !pt_real in A8. exact A8.
Qed.
Print Assumptions C71_built_in_doubles.

(** Bodies with integer coordinates (in whatever unit) up to 1024 and up to 500
    hull vertices meet these conditions: nothing is asked but a correct hull. *)
Theorem C71_integer_bodies :
  forall lg ac (DP : dotlib) convex_hull in_hull points (h : hull (FA lg ac DP)),
  convex_hull points = Ok h -> correct_hull (real_hull lg ac DP h) -> (length (h_vertices h) <= 500)%nat ->
  let P i := pnth (A := FA lg ac DP) i (h_points h) in
  (forall i, In i (h_vertices h) -> exists x y z, (Z.abs x <= 1024)%Z /\ (Z.abs y <= 1024)%Z /\ (Z.abs z <= 1024)%Z /\
     P i = V3 (fofZ x) (fofZ y) (fofZ z)) ->
  let normal a b c := cr (fvec (P b) - fvec (P a)) (fvec (P c) - fvec (P a)) in
  exists p, mk_polyhedron convex_hull in_hull points = Ok p /\ length (pl_faces p) = length (h_simplices h) /\
    (forall i f, nth_error (pl_faces p) i = Some f ->
       exists s x y z, nth_error (h_simplices h) i = Some s /\ Permutation s [x; y; z] /\
         (forall k, In k (h_vertices h) -> dt (normal x y z) (fvec (P k) - fvec (P x))%v <= 0) /\
         f_points f = [P x; P y; P z]) /\
    (forall i f j e, nth_error (pl_faces p) i = Some f -> nth_error (f_edges f) j = Some e ->
       exists i' j' f' e', pl_twin p (i, j) = Some (i', j') /\ nth_error (pl_faces p) i' = Some f' /\
         nth_error (f_edges f') j' = Some e' /\ i' <> i /\ pl_twin p (i', j') = Some (i, j) /\
         e_start e' = e_end e /\ e_end e' = e_start e).
Proof.
  intros lg ac DP ch inh pts h Hc Hh Hn P Hi normal.
  destruct (Nat.eq_dec (length (h_vertices h)) 0) as [Z0|Z0].
  - (* no vertex: no simplex *)
    assert (V0 : h_vertices h = []) by (destruct (h_vertices h); [reflexivity|discriminate]).
    assert (S0 : h_simplices h = []).
    { destruct (h_simplices h) as [|s l] eqn:Es; [reflexivity|exfalso].
      assert (Hin : In s (h_simplices (real_hull lg ac DP h))) by (cbn; rewrite Es; now left).
      destruct (ch_tri _ Hh s Hin) as (a & b & c & -> & _).
      assert (Q : In a (h_vertices h)) by (apply (ch_vert _ Hh [a; b; c]); [exact Hin|now left]). rewrite V0 in Q. destruct Q. }
    pose proof (ch_len _ Hh) as Hl. cbn in Hl. rewrite S0 in Hl. cbn in Hl.
    assert (N0 : h_neighbors h = []) by (destruct (h_neighbors h); [reflexivity|discriminate]).
    exists {| pl_points := pts; pl_faces := []; pl_twin := fun _ => None |}. cbn [pl_faces pl_twin]. rewrite S0.
    split; [unfold mk_polyhedron, get_faces; rewrite Hc; cbn [bind]; rewrite S0, N0; reflexivity|]. split; [reflexivity|].
    split; intros [|i]; discriminate.
  - destruct (C71_built_in_doubles lg ac DP ch inh pts h 1024 2048 Hc Hh) as (p & A1 & A2 & A3 & A4 & A5).
    + split; [lia|]. apply (sc_n _ _ _ (int_scale lg ac DP h ltac:(lia))).
    + apply (sc_lo _ _ _ (int_scale lg ac DP h ltac:(lia))).
    + lra.
    + apply (sc_hi _ _ _ (int_scale lg ac DP h ltac:(lia))).
    + apply (int_placed lg ac DP h Hi).
    + apply (int_placed lg ac DP h Hi).
    + intros a b c Hin. pose proof (int_margin lg ac DP h Hh Hn Hi a b c Hin) as K.
      unfold nrm3 in K. rewrite !pt_real in K. exact K.
    + exists p. split; [exact A1|]. split; [exact A3|]. split; [|exact A5].
      intros i f Hf. destruct (A4 i f Hf) as (s & x & y & z & B1 & B2 & B3 & B4 & _). exists s, x, y, z. auto.
Qed.
Print Assumptions C71_integer_bodies.

(** the real image of an integer hull built in doubles *)
Lemma real_fh lg ac (DP : dotlib) (h : zhull) : (forall v, In v (z_points h) -> (Z.abs (vx v) <= 2 ^ 53)%Z /\ (Z.abs (vy v) <= 2 ^ 53)%Z /\ (Z.abs (vz v) <= 2 ^ 53)%Z) ->
  real_hull lg ac DP (fh lg ac DP h) = rh h.
Proof.
  intros H. unfold real_hull, rh, fh. cbn [h_points h_simplices h_neighbors h_vertices]. f_equal.
  rewrite map_map. apply map_ext_in. intros v Hv. destruct (H v Hv) as (H1 & H2 & H3). unfold fvec, vmap, rv, PropertiesF.fv. cbn [vx vy vz].
  rewrite (proj2 (fofZ_exact _ H1)), (proj2 (fofZ_exact _ H2)), (proj2 (fofZ_exact _ H3)). reflexivity.
Qed.

(** the cube of the examples meets the hypotheses *)
Example C71_case : forall lg ac (DP : dotlib), correct_hull (real_hull lg ac DP (fh lg ac DP cubeZ)) /\ (length (h_vertices (fh lg ac DP cubeZ)) <= 500)%nat /\
  forall i, In i (h_vertices (fh lg ac DP cubeZ)) -> exists x y z, (Z.abs x <= 1024)%Z /\ (Z.abs y <= 1024)%Z /\ (Z.abs z <= 1024)%Z /\
     pnth (A := FA lg ac DP) i (h_points (fh lg ac DP cubeZ)) = V3 (fofZ x) (fofZ y) (fofZ z).
Proof.
  intros lg ac DP. assert (Q : forall v, In v (z_points cubeZ) -> (Z.abs (vx v) <= 1024)%Z /\ (Z.abs (vy v) <= 1024)%Z /\ (Z.abs (vz v) <= 1024)%Z).
  { intros v Hv. cbn in Hv. repeat (destruct Hv as [<-|Hv]; [cbn; lia|]). destruct Hv. }
  split; [|split].
  - rewrite real_fh; [apply hullb_ok; vm_compute; reflexivity|]. intros v Hv. destruct (Q v Hv) as (? & ? & ?). lia.
  - cbn. lia.
  - intros i Hi. exists (vx (zpt cubeZ i)), (vy (zpt cubeZ i)), (vz (zpt cubeZ i)).
    cbn in Hi. repeat (destruct Hi as [<-|Hi]; [cbn; repeat split; lia|]). destruct Hi.
Qed.

(** Without the margin the claim is false: the pyramid of side 1 at
    x = 2^52, where doubles are 1 apart.  The computed centroid lies in the facet
    x = 2^52; if scipy.optimize.linprog finds it inside the hull that facet is kept
    as Qhull listed it, with the normal pointing inwards; otherwise NameError. *)
Definition farZ : zhull :=
  {| z_points := [zv (2 ^ 52) 0 0; zv (2 ^ 52) 1 0; zv (2 ^ 52) 0 1; zv (2 ^ 52 + 1) 0 0];
     z_simplices := [[0; 1; 2]; [0; 1; 3]; [0; 2; 3]; [1; 2; 3]]%nat;
     z_neighbors := [[3; 2; 1]; [3; 2; 0]; [3; 1; 0]; [2; 1; 0]]%nat;
     z_vertices := [0; 1; 2; 3]%nat |}.
Definition name_error {X} (r : res X) : bool := match r with Err NameError => true | _ => false end.
Theorem C71_far_body_refuted :
  forall lg ac (DP : dotlib), known_dot DP -> exists (h : hull (FA lg ac DP)),
  correct_hull (real_hull lg ac DP h) /\
  (forall i, In i (h_vertices h) -> vfin (pnth (A := FA lg ac DP) i (h_points h))) /\
  (exists p f, mk_polyhedron (fun _ => Ok h) (fun _ _ => true) (h_points h) = Ok p /\ nth_error (pl_faces p) 0 = Some f /\
     f_simplex f = [0; 1; 2]%nat /\ fvec (f_un f) = V3 1 0 0 /\
     forall i, In i (h_vertices h) -> vx (fvec (pnth (A := FA lg ac DP) 0 (h_points h))) <= vx (fvec (pnth (A := FA lg ac DP) i (h_points h)))) /\
  mk_polyhedron (fun _ => Ok h) (fun _ _ => false) (h_points h) = Err NameError.
Proof.
  intros lg ac DP Kd. exists (fh lg ac DP farZ).
  assert (Q : forall v, In v (z_points farZ) -> (Z.abs (vx v) <= 2 ^ 53)%Z /\ (Z.abs (vy v) <= 2 ^ 53)%Z /\ (Z.abs (vz v) <= 2 ^ 53)%Z).
  { intros v Hv. cbn in Hv. repeat (destruct Hv as [<-|Hv]; [cbn; lia|]). destruct Hv. }
  split; [rewrite real_fh by exact Q; apply hullb_ok; vm_compute; reflexivity|].
  assert (Pe : forall i, pnth (A := FA lg ac DP) i (h_points (fh lg ac DP farZ)) = PropertiesF.fv lg ac DP (zpt farZ i)).
  { intros i. unfold pnth, zpt. cbn [h_points fh]. change (vzero (A := FA lg ac DP)) with (PropertiesF.fv lg ac DP (V3 0 0 0)%Z). apply map_nth. }
  assert (Rg : forall i, In i (h_vertices (fh lg ac DP farZ)) -> (Z.abs (vx (zpt farZ i)) <= 2 ^ 53)%Z /\ (Z.abs (vy (zpt farZ i)) <= 2 ^ 53)%Z /\ (Z.abs (vz (zpt farZ i)) <= 2 ^ 53)%Z).
  { intros i Hi. cbn in Hi. repeat (destruct Hi as [<-|Hi]; [cbn; lia|]). destruct Hi. }
  split; [|split].
  - intros i Hi. rewrite Pe. destruct (Rg i Hi) as (R1 & R2 & R3).
    split; [exact (proj1 (fofZ_exact _ R1))|]. split; [exact (proj1 (fofZ_exact _ R2))|exact (proj1 (fofZ_exact _ R3))].
  - assert (Ok1 : fbuild lg ac DP farZ = Ok (fbody lg ac DP farZ)) by (apply fbody_ok; destruct Kd as [-> | ->]; vm_compute; reflexivity).
    assert (F0 : match nth_error (pl_faces (fbody lg ac DP farZ)) 0 with
      | Some f => f_simplex f = [0; 1; 2]%nat /\ f_un f = V3 (fofZ 1) (fofZ 0) (fofZ 0) | None => False end) by (destruct Kd as [-> | ->]; vm_compute; auto).
    destruct (nth_error (pl_faces (fbody lg ac DP farZ)) 0) as [f|] eqn:Ef; [|contradiction]. destruct F0 as [F1 F2].
    exists (fbody lg ac DP farZ), f. split; [exact Ok1|]. split; [exact Ef|]. split; [exact F1|]. split.
    + rewrite F2. unfold fvec, vmap. cbn [vx vy vz].
      rewrite (proj2 (fofZ_exact 1 ltac:(lia))), (proj2 (fofZ_exact 0 ltac:(lia))). reflexivity.
    + intros i Hi. rewrite !Pe. destruct (Rg i Hi) as (R1 & _ & _). destruct (Rg 0%nat ltac:(cbn; auto)) as (R0 & _ & _).
      change (fv (fofZ (vx (zpt farZ 0))) <= fv (fofZ (vx (zpt farZ i)))).
      rewrite (proj2 (fofZ_exact _ R0)), (proj2 (fofZ_exact _ R1)). apply IZR_le.
      cbn in Hi. repeat (destruct Hi as [<-|Hi]; [cbn; lia|]). destruct Hi.
  - assert (N : name_error (mk_polyhedron (fun _ => Ok (fh lg ac DP farZ)) (fun _ _ => false) (h_points (fh lg ac DP farZ))) = true)
      by (destruct Kd as [-> | ->]; vm_compute; reflexivity).
    destruct (mk_polyhedron _ _ _) as [q|[]]; try discriminate N. reflexivity.
Qed.
Print Assumptions C71_far_body_refuted.

(** Such bodies leave no edge without a twin, so the TypeError of C63 cannot
    occur, and the hypothesis on twins of C66 holds. *)
Theorem C63_integer_bodies :
  forall lg ac (DP : dotlib) convex_hull in_hull points (h : hull (FA lg ac DP)) (p : polyhedron (FA lg ac DP)) s,
  convex_hull points = Ok h -> correct_hull (real_hull lg ac DP h) -> (length (h_vertices h) <= 500)%nat ->
  (forall i, In i (h_vertices h) -> exists x y z, (Z.abs x <= 1024)%Z /\ (Z.abs y <= 1024)%Z /\ (Z.abs z <= 1024)%Z /\
     pnth (A := FA lg ac DP) i (h_points h) = V3 (fofZ x) (fofZ y) (fofZ z)) ->
  mk_polyhedron convex_hull in_hull points = Ok p -> reachable p s ->
  forall o density Gc gradient x,
  fst (get_gravity p o density Gc gradient s) = Err x -> x = ZeroDivisionError \/ x = ValueError.
Proof.
  intros lg ac DP ch inh pts h p s Hc Hh Hn Hi Hb Hs o d G g x E.
  destruct (C63_only_these _ ch inh pts p s Hb Hs o d G g x E) as [H|[H|(_ & i & f & j & e & Hf & He & Ht)]]; [auto|auto|exfalso].
  destruct (C71_integer_bodies lg ac DP ch inh pts h Hc Hh Hn Hi) as (p' & Ep & _ & _ & T).
  rewrite Hb in Ep. injection Ep as <-. destruct (T i f j e Hf He) as (i' & j' & f' & e' & K & _). rewrite Ht in K. discriminate.
Qed.
Print Assumptions C63_integer_bodies.

Theorem C66_integer_bodies :
  forall lg ac (DP : dotlib), lg S754_nan = S754_nan ->
  forall convex_hull in_hull points (h : hull (FA lg ac DP)) (p : polyhedron (FA lg ac DP)) s,
  convex_hull points = Ok h -> correct_hull (real_hull lg ac DP h) -> (length (h_vertices h) <= 500)%nat ->
  (forall i, In i (h_vertices h) -> exists x y z, (Z.abs x <= 1024)%Z /\ (Z.abs y <= 1024)%Z /\ (Z.abs z <= 1024)%Z /\
     pnth (A := FA lg ac DP) i (h_points h) = V3 (fofZ x) (fofZ y) (fofZ z)) ->
  h_simplices h <> [] -> mk_polyhedron convex_hull in_hull points = Ok p -> reachable p s ->
  forall (o : vec (FA lg ac DP)) density Gc gradient, (vx o = S754_nan \/ vy o = S754_nan \/ vz o = S754_nan) ->
  let nan3 := V3 S754_nan S754_nan S754_nan : vec (FA lg ac DP) in
  exists T, fst (get_gravity p o density Gc gradient s) = Ok (nan3, T) /\ (gradient = true -> T = V3 nan3 nan3 nan3).
Proof.
  intros lg ac DP Hlg ch inh pts h p s Hc Hh Hn Hi Hne Hb Hs.
  destruct (C71_integer_bodies lg ac DP ch inh pts h Hc Hh Hn Hi) as (p' & Ep & Hl & _ & T).
  rewrite Hb in Ep. injection Ep as <-.
  apply (C66_nan_observer lg ac DP Hlg (dl_nan DP) ch inh pts p s Hb Hs).
  - intros E0. rewrite E0 in Hl. destruct (h_simplices h); [now apply Hne|discriminate].
  - intros i f j e Hf He. destruct (T i f j e Hf He) as (i' & j' & f' & e' & K & _). rewrite K. discriminate.
Qed.
Print Assumptions C66_integer_bodies.

(** * Properties C63 - C66: exceptions of a call, and double precision *)
From Coq Require Import Reals Lra List ZArith Bool Arith Lia Floats.SpecFloat.
From Verif Require Import Base MUtils MEdge MFace MHull MPoly SpecPoly PPoly PStation PPlain FArith FReal FDot PCall PNan Examples.
From Verif Require Import RVec RArith REdge REdgeModel RAngle ROmega RFace RFacet RPoly RTwin RField
  RHull RHullZ ExamplesR RPlaced RPlacedZ PropertiesR.
Import ListNotations.
Local Open Scope nat_scope.

(** ** C63: which exceptions a call can raise, and why (every arithmetic) *)
(** Polyhedron.get_gravity on a body built by Polyhedron(points), whatever scipy
    returned and whatever the arithmetic (IEEE doubles included): only
    ZeroDivisionError and ValueError, and TypeError if an edge has no twin. *)
Theorem C63_only_these :
  forall (A : arith) convex_hull in_hull points (p : polyhedron A) s,
  mk_polyhedron convex_hull in_hull points = Ok p -> reachable p s ->
  forall o density Gc gradient x,
  fst (get_gravity p o density Gc gradient s) = Err x ->
  x = ZeroDivisionError \/ x = ValueError \/
  (x = TypeError /\ exists i f j e, nth_error (pl_faces p) i = Some f /\ nth_error (f_edges f) j = Some e /\ pl_twin p (i, j) = None).
Proof.
  intros A ch inh pts p s Hb Hs o d G g x. rewrite (history_independent p o d G g s Hs), fresh_spec.
  apply call_err. exact (built_edged _ _ _ _ Hb).
Qed.
Print Assumptions C63_only_these.

(** Without gradient the causes are exact: the observer at distance 0 of an end
    point of an edge; or a facet at more than epsilon from the observer, two of
    whose sides, consecutive, span with the observer planes whose unit normals
    have a computed scalar product outside [-1, 1]. *)
Theorem C63_causes :
  forall (A : arith) convex_hull in_hull points (p : polyhedron A) s,
  mk_polyhedron convex_hull in_hull points = Ok p -> reachable p s ->
  forall o density Gc x,
  fst (get_gravity p o density Gc false s) = Err x ->
  (x = ZeroDivisionError /\ exists f e, In f (pl_faces p) /\ In e (f_edges f) /\
     (neqb (norm (vsub (e_start e) o)) (nofZ 0) = true \/ neqb (norm (vsub (e_end e) o)) (nofZ 0) = true)) \/
  (x = ValueError /\ exists f i b, In f (pl_faces p) /\ i < length (f_points f) /\
     nltb neps (nabs (dot (f_un f) (vsub (nth 0 (f_points f) vzero) o))) = true /\
     (b = dot (vopp (side_normal f o i)) (side_normal f o ((i + 1) mod length (f_points f))) \/
      b = dot (side_normal f o ((i + 1) mod length (f_points f))) (vopp (side_normal f o i))) /\
     (nltb b (nofZ (-1)) = true \/ nltb (nofZ 1) b = true)) \/
  (x = TypeError /\ exists i f j e, nth_error (pl_faces p) i = Some f /\ nth_error (f_edges f) j = Some e /\ pl_twin p (i, j) = None).
Proof.
  intros A ch inh pts p s Hb Hs o d G x. rewrite (history_independent p o d G false s Hs), fresh_spec. intros E.
  destruct (call_cause p o d G false x (built_edged _ _ _ _ Hb) E) as (i & f & Hf & [H|(j & e & He & [H|[-> H]])]).
  - right. left. destruct (angle_bad f o x _ H) as (-> & Hd & k & Hk & Ha). split; [reflexivity|].
    pose proof (built_points _ _ _ _ f Hb (nth_error_In _ _ Hf)) as HL.
    destruct (angle_bad_cos f o k HL Hk Ha) as (b & Hb' & Hr). exists f, k, b.
    split; [exact (nth_error_In _ _ Hf)|]. split; [now rewrite HL|]. auto.
  - left. destruct (edge_zero_div e o x H) as [-> K]. split; [reflexivity|]. exists f, e.
    split; [exact (nth_error_In _ _ Hf)|]. split; [exact (nth_error_In _ _ He)|]. exact K.
  - right. right. split; [reflexivity|]. exists i, f, j, e. auto.
Qed.
Print Assumptions C63_causes.

(** ** Double precision *)
Lemma new_spec {B : arith} (p : polyhedron B) o d G g : fst (get_gravity p o d G g pstate0) = spec_gravity p o d G g.
Proof. exact (fresh_spec p o d G g). Qed.
Section Doubles.
  Variables lg ac : F -> F.
  Variable DP : vec3 F -> vec3 F -> F.
  Notation A := (FA lg ac DP).
  Definition fv (a : ZV) : vec A := V3 (fofZ (vx a) : num A) (fofZ (vy a)) (fofZ (vz a)).
  Definition fh (h : zhull) : hull A :=
    {| h_points := map fv (z_points h); h_simplices := z_simplices h;
       h_neighbors := z_neighbors h; h_vertices := z_vertices h |}.
  Definition fbuild (h : zhull) : res (polyhedron A) :=
    mk_polyhedron (fun _ => Ok (fh h)) (fun _ _ => true) (map fv (z_points h)).
  Definition fbody (h : zhull) : polyhedron A :=
    match fbuild h with Ok p => p | Err _ => {| pl_points := []; pl_faces := []; pl_twin := fun _ => None |} end.
  Lemma fbody_ok h : (if fbuild h then true else false) = true -> fbuild h = Ok (fbody h).
  Proof. unfold fbody. destruct (fbuild h); [reflexivity|discriminate]. Qed.
End Doubles.

(** two ways of computing np.dot: rounding every product, or with fused multiply-add *)
Definition known_dot (d : vec3 F -> vec3 F -> F) : Prop := d = plain_dot \/ d = fused_dot.

(** the pyramid below the slanted facet x + y + z = 16, that facet first *)
Definition slantZ : zhull :=
  {| z_points := [zv 16 0 0; zv 0 16 0; zv 0 0 16; zv 0 0 0];
     z_simplices := [[0; 1; 2]; [0; 1; 3]; [0; 2; 3]; [1; 2; 3]];
     z_neighbors := [[3; 2; 1]; [3; 2; 0]; [3; 1; 0]; [2; 1; 0]];
     z_vertices := [0; 1; 2; 3] |}.
(** on that facet, and outside the body in its plane *)
Definition o_slant : ZV := zv 2 2 12.
Definition o_beside : ZV := zv 4 14 (-2).

(** C64: "a call raises no domain error where exact arithmetic raises none" is
    false in doubles: math.acos is called on a scalar product that rounding
    pushes below -1.  The hull is correct, the observers have integer
    coordinates and are well placed (over the reals the call returns).  This does
    not depend on how np.dot is computed: with or without fused multiply-add. *)
Theorem C64_domain_error_refuted :
  forall lg ac DP, known_dot DP -> exists h o_on o_off p,
  correct_hull (rh h) /\ fbuild lg ac DP h = Ok p /\
  forall o, o = o_on \/ o = o_off ->
    (forall density Gc gradient, fst (get_gravity p (fv lg ac DP o) density Gc gradient pstate0) = Err ValueError) /\
    (forall density Gc gradient, exists G T, gravity (body h) (rv o) density Gc gradient pstate0 = Ok (G, T)).
Proof.
  intros lg ac DP Kd. exists slantZ, o_slant, o_beside, (fbody lg ac DP slantZ).
  assert (H : hullb slantZ = true) by (vm_compute; reflexivity).
  split; [exact (hullb_ok _ H)|]. split; [apply fbody_ok; destruct Kd as [-> | ->]; vm_compute; reflexivity|].
  intros o Ho. split.
  - intros d G g.
    rewrite new_spec. destruct Ho as [-> | ->], g, Kd as [-> | ->]; vm_compute; reflexivity.
  - intros d G g. apply C30_no_exception; [apply (body_ok _ H)| |constructor].
    apply steady_well; [apply (body_ok _ H)|]. destruct Ho as [-> | ->]; apply (steadyb_ok slantZ _ H); vm_compute; reflexivity.
Qed.
Print Assumptions C64_domain_error_refuted.

(** C63, all three causes occur in doubles: at a vertex, with rounding, and on a
    "hull" that lists one facet twice *)
Definition twiceZ : zhull :=
  {| z_points := z_points slantZ; z_simplices := [[0; 1; 2]; [0; 1; 2]]; z_neighbors := [[1; 1; 1]; [0; 0; 0]];
     z_vertices := [0; 1; 2; 3] |}.
Example C63_case : forall lg ac DP, known_dot DP -> forall density Gc,
  (exists p, fbuild lg ac DP slantZ = Ok p /\
     fst (get_gravity p (fv lg ac DP (zv 16 0 0)) density Gc false pstate0) = Err ZeroDivisionError /\
     fst (get_gravity p (fv lg ac DP o_slant) density Gc false pstate0) = Err ValueError) /\
  (exists p, fbuild lg ac DP twiceZ = Ok p /\
     fst (get_gravity p (fv lg ac DP (zv 25 13 17)) density Gc false pstate0) = Err TypeError).
Proof.
  intros lg ac DP Kd d G. split.
  - exists (fbody lg ac DP slantZ). split; [apply fbody_ok; destruct Kd as [-> | ->]; vm_compute; reflexivity|].
    rewrite !new_spec. split; destruct Kd as [-> | ->]; vm_compute; reflexivity.
  - exists (fbody lg ac DP twiceZ). split; [apply fbody_ok; destruct Kd as [-> | ->]; vm_compute; reflexivity|].
    rewrite new_spec. destruct Kd as [-> | ->]; vm_compute; reflexivity.
Qed.

(** C65: "a call that returns, returns numbers" is false in doubles: an observer
    outside the body, in line with an oblique edge, gets nan in every component
    (rounding lets the test for being in line fail and the logarithm see a
    negative number).  Over the reals the call returns the correct attraction.
    The only thing assumed of [log] is log of a negative number = nan; again with
    or without fused multiply-add. *)
Definition leanZ : zhull :=
  {| z_points := [zv 0 0 0; zv 4 4 4; zv 0 4 0; zv 4 0 0];
     z_simplices := [[0; 1; 2]; [0; 1; 3]; [0; 2; 3]; [1; 2; 3]];
     z_neighbors := [[3; 2; 1]; [3; 2; 0]; [3; 1; 0]; [2; 1; 0]];
     z_vertices := [0; 1; 2; 3] |}.
Definition first_neg {lg ac : F -> F} {DP : vec3 F -> vec3 F -> F} (p : polyhedron (FA lg ac DP)) (o : vec (FA lg ac DP)) : bool :=
  match pl_faces p with
  | f :: _ => match f_edges f with
              | e :: _ => match edge_log e o with Ok (t, _, _) => match t with S754_finite true _ _ => true | _ => false end | Err _ => false end
              | [] => false end
  | [] => false end.
Lemma first_neg_ok {lg ac : F -> F} {DP : vec3 F -> vec3 F -> F} (p : polyhedron (FA lg ac DP)) o : first_neg p o = true ->
  exists f r e es L ch m x, pl_faces p = f :: r /\ f_edges f = e :: es /\
    edge_log e o = Ok (S754_finite true m x : num (FA lg ac DP), L, ch).
Proof.
  unfold first_neg. destruct (pl_faces p) as [|f r]; [discriminate|]. destruct (f_edges f) as [|e es] eqn:He; [discriminate|].
  destruct (edge_log e o) as [[[t L] ch]|] eqn:El; [|discriminate]. destruct t as [|[]| |[] m x]; try discriminate.
  intros _. exists f, r, e, es, L, ch, m, x. auto.
Qed.
Theorem C65_finite_refuted :
  forall lg ac DP, known_dot DP -> (forall m e, lg (S754_finite true m e) = S754_nan) ->
  exists h o p, correct_hull (rh h) /\ fbuild lg ac DP h = Ok p /\
  (forall density Gc, exists T,
     fst (get_gravity p (fv lg ac DP o) density Gc false pstate0) = Ok (V3 S754_nan S754_nan S754_nan : vec (FA lg ac DP), T)) /\
  well_placed (body h) (rv o) false /\
  (forall density Gc, exists G T, gravity (body h) (rv o) density Gc false pstate0 = Ok (G, T)).
Proof.
  intros lg ac DP Kd Hlg. exists leanZ, (zv 6 6 6), (fbody lg ac DP leanZ).
  assert (H : hullb leanZ = true) by (vm_compute; reflexivity).
  assert (W : well_placed (body leanZ) (rv (zv 6 6 6)) false) by (apply (clearb_ok leanZ _ H); vm_compute; reflexivity).
  split; [exact (hullb_ok _ H)|]. split; [apply fbody_ok; destruct Kd as [-> | ->]; vm_compute; reflexivity|]. split; [|split; [exact W|]].
  - intros d G.
    destruct (faces_return (pl_twin (fbody lg ac DP leanZ)) (fv lg ac DP (zv 6 6 6)) d G
      (combine (seq 0 (length (pl_faces (fbody lg ac DP leanZ)))) (pl_faces (fbody lg ac DP leanZ))) (fun _ => None) (vzero, mzero)
      ltac:(destruct Kd as [-> | ->]; vm_compute; reflexivity)) as [[g t] E].
    assert (E' : spec_gravity (fbody lg ac DP leanZ) (fv lg ac DP (zv 6 6 6)) d G false = Ok (g, t)) by exact E.
    destruct (first_neg_ok (fbody lg ac DP leanZ) (fv lg ac DP (zv 6 6 6)) ltac:(destruct Kd as [-> | ->]; vm_compute; reflexivity))
      as (f & r & e & es & L & ch & m & x & Hf & He & Hl).
    pose proof (first_edge_nan lg ac DP (fbody lg ac DP leanZ) (fv lg ac DP (zv 6 6 6)) d G f r e es _ L ch _ Hf He Hl (Hlg m x)
      ltac:(destruct Kd as [-> | ->]; vm_compute; discriminate) E') as N.
    cbn [fst] in N. subst g. exists t. 
    rewrite new_spec. exact E'.
  - intros d G. apply C30_no_exception; [apply (body_ok _ H)|apply W|constructor].
Qed.
Print Assumptions C65_finite_refuted.

(** ** C66: a missing coordinate never yields a number *)
(** One nan coordinate of the observer (a gap in the table of stations): the call
    returns, and every component of G, and of T if it was asked for, is nan -
    whatever the body, the densities and the history of the object.  Needed of log
    and np.dot: nan for nan. *)
Theorem C66_nan_observer :
  forall lg ac DP, lg S754_nan = S754_nan -> nan_dot DP ->
  forall convex_hull in_hull points (p : polyhedron (FA lg ac DP)) s,
  mk_polyhedron convex_hull in_hull points = Ok p -> reachable p s -> pl_faces p <> [] ->
  (forall i f j e, nth_error (pl_faces p) i = Some f -> nth_error (f_edges f) j = Some e -> pl_twin p (i, j) <> None) ->
  forall (o : vec (FA lg ac DP)) density Gc gradient, (vx o = S754_nan \/ vy o = S754_nan \/ vz o = S754_nan) ->
  let nan3 := V3 S754_nan S754_nan S754_nan : vec (FA lg ac DP) in
  exists T, fst (get_gravity p o density Gc gradient s) = Ok (nan3, T) /\ (gradient = true -> T = V3 nan3 nan3 nan3).
Proof.
  intros lg ac DP Hlg Hdp ch inh pts p s Hb Hs Hne Hp o d G g Ho. cbv zeta.
  rewrite (history_independent p o d G g s Hs), fresh_spec.
  exact (call_nan lg ac DP Hdp Hlg p o d G g Ho Hp (built_edged _ _ _ _ Hb) Hne).
Qed.
Print Assumptions C66_nan_observer.

(** the hypotheses hold for the slanted body, built in doubles *)
Example C66_case : forall lg ac DP, known_dot DP -> exists p, fbuild lg ac DP slantZ = Ok p /\ reachable p pstate0 /\ pl_faces p <> [] /\
  (forall i f j e, nth_error (pl_faces p) i = Some f -> nth_error (f_edges f) j = Some e -> pl_twin p (i, j) <> None).
Proof.
  intros lg ac DP Kd. exists (fbody lg ac DP slantZ). split; [apply fbody_ok; destruct Kd as [-> | ->]; vm_compute; reflexivity|]. split; [constructor|].
  assert (L : length (pl_faces (fbody lg ac DP slantZ)) = 4) by (destruct Kd as [-> | ->]; vm_compute; reflexivity).
  split; [intros Z; rewrite Z in L; discriminate L|].
  - intros i f j e Hf He.
    assert (Hi : i < 4) by (rewrite <- L; apply nth_error_Some; congruence).
    assert (M : map (fun f => length (f_edges f)) (pl_faces (fbody lg ac DP slantZ)) = [3; 3; 3; 3]) by (destruct Kd as [-> | ->]; vm_compute; reflexivity).
    assert (Hl : length (f_edges f) = 3).
    { assert (K : nth_error (map (fun f => length (f_edges f)) (pl_faces (fbody lg ac DP slantZ))) i = Some (length (f_edges f))) by exact (map_nth_error (fun f : face (FA lg ac DP) => length (f_edges f)) i (pl_faces (fbody lg ac DP slantZ)) Hf).
      rewrite M in K. destruct i as [|[|[|[|i]]]]; cbn in K; congruence || lia. }
    assert (Hj : j < 3) by (rewrite <- Hl; apply nth_error_Some; congruence).
    assert (K : forallb (fun k => if pl_twin (fbody lg ac DP slantZ) k then true else false)
      (flat_map (fun i => map (fun j => (i, j)) (seq 0 3)) (seq 0 4)) = true) by (destruct Kd as [-> | ->]; vm_compute; reflexivity).
    rewrite forallb_forall in K. specialize (K (i, j)). intros Z. rewrite Z in K. discriminate K.
    apply in_flat_map. exists i. split; [apply in_seq; lia|]. apply in_map, in_seq. lia.
Qed.

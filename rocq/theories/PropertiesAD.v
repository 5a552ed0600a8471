(** * C84, C85: arrays of other shapes *)
From Coq Require Import List ZArith Bool Arith Lia.
Import ListNotations.
From Verif Require Import Base MUtils MEdge MFace MHull MPoly MShape SpecPoly PPoly PStation Examples.

Section Shapes.
  Context {A : arith}.

  Lemma test_long (f : face A) obs l m d : rev (sh obs) = l :: m :: d -> face_test f obs = Err ValueError.
  Proof.
    intros E. unfold face_test, nd_sub, bcast. change (rev (sh (nd_vec (pnth 0 (f_points f))))) with [3]. rewrite E.
    assert (K : forall p : ndarray A, rev (sh p) = 3 :: m :: d -> (do dp1 <- nd_dot (f_un f) p; nd_above dp1) = Err ValueError).
    { intros p Ep. unfold nd_dot. rewrite Ep. destruct (Nat.eqb_spec m 3) as [->|N]; [|reflexivity]. cbn [bind]. unfold nd_above. cbn [sh].
      destruct (Nat.eqb_spec (fold_right Nat.mul 1 (rev d ++ [3])) 1) as [F|F]; [exfalso|reflexivity].
      rewrite fold_right_app in F. revert F. cbn [fold_right]. generalize (rev d). intros r F.
      assert (Q : forall x, exists k, fold_right Nat.mul x r = k * x).
      { clear. intros x. induction r as [|y r [k IH]]; [exists 1; cbn; lia|]. exists (y * k). cbn [fold_right]. rewrite IH. lia. }
      destruct (Q (3 * 1)) as [k Ek]. lia. }
    cbn [bcast_rev]. destruct (Nat.eqb_spec 3 l) as [El|N]; [subst l; cbn [option_map]; apply K; cbn [sh]; apply rev_involutive|].
    cbn [Nat.eqb]. destruct (Nat.eqb l 1); [|reflexivity]. cbn [option_map]. apply K. cbn [sh]. apply rev_involutive.
  Qed.
  Lemma test_short (f : face A) obs : sh obs = [] \/ sh obs = [1] \/ sh obs = [3] ->
    exists b, face_test f obs = Ok b.
  Proof.
    intros H. unfold face_test, nd_sub, bcast. change (rev (sh (nd_vec (pnth 0 (f_points f))))) with [3].
    destruct H as [-> |[-> | ->]]; cbn; eexists; reflexivity.
  Qed.
  (** the test made is the one of the model of [Face._get_omega], for that observer *)
  Lemma test_value (f : face A) obs : sh obs = [] \/ sh obs = [1] \/ sh obs = [3] ->
    face_test f obs = Ok (nltb neps (nabs (dot_point1 f (observer_of obs)))).
  Proof.
    intros H. unfold face_test, nd_sub, bcast, dot_point1, observer_of. change (rev (sh (nd_vec (pnth 0 (f_points f))))) with [3].
    destruct H as [E|[E|E]]; rewrite E; cbn; reflexivity.
  Qed.

  Lemma test_one (f : face A) obs n : sh obs = [n] -> n <> 1 -> n <> 3 -> face_test f obs = Err ValueError.
  Proof.
    intros E H1 H3. unfold face_test, nd_sub, bcast. change (rev (sh (nd_vec (pnth 0 (f_points f))))) with [3]. rewrite E. cbn [rev app bcast_rev].
    destruct (Nat.eqb_spec 3 n); [lia|]. cbn [Nat.eqb]. destruct (Nat.eqb_spec n 1); [lia|]. reflexivity.
  Qed.
  Lemma shapes_split (s : list nat) : s = [] \/ s = [1] \/ s = [3] \/ (exists n, s = [n] /\ n <> 1 /\ n <> 3) \/ exists l m d, rev s = l :: m :: d.
  Proof.
    destruct s as [|n [|m s]]; [auto| |].
    - destruct (Nat.eq_dec n 1) as [-> |]; [auto|]. destruct (Nat.eq_dec n 3) as [-> |]; [auto|]. do 3 right. left. eauto.
    - do 4 right. cbn [rev]. destruct (rev s) as [|a [|b r]]; cbn [app]; eauto.
  Qed.
End Shapes.

(** ** C84: shape of the observer *)
(** [get_gravity] with an observer given as an array of any shape (with at least one
    entry), on a body with facets, in any state: three numbers are the observer; a
    single number, with or without an axis, stands for all three coordinates; every
    other shape raises ValueError and leaves the body as it was. *)
Theorem C84_observer_exact :
  forall (A : arith) (p : polyhedron A) obs density Gc gradient s, pl_faces p <> [] ->
  (sh obs = [3] -> get_gravity_nd p obs density Gc gradient s =
     get_gravity p (V3 (entry obs [0]) (entry obs [1]) (entry obs [2])) density Gc gradient s) /\
  (sh obs = [1] -> get_gravity_nd p obs density Gc gradient s =
     get_gravity p (V3 (entry obs [0]) (entry obs [0]) (entry obs [0])) density Gc gradient s) /\
  (sh obs = [] -> get_gravity_nd p obs density Gc gradient s =
     get_gravity p (V3 (entry obs []) (entry obs []) (entry obs [])) density Gc gradient s) /\
  (~ In (sh obs) [[]; [1]; [3]] -> ~ In 0 (sh obs) -> get_gravity_nd p obs density Gc gradient s = (Err ValueError, s)).
Proof.
  intros A p obs rho Gc g s Hf. unfold get_gravity_nd. destruct (pl_faces p) as [|f fs]; [congruence|].
  split; [|split; [|split]].
  - intros E. rewrite (test_value f obs) by auto. unfold observer_of. rewrite E. reflexivity.
  - intros E. rewrite (test_value f obs) by auto. unfold observer_of. rewrite E. reflexivity.
  - intros E. rewrite (test_value f obs) by auto. unfold observer_of. rewrite E. reflexivity.
  - intros H _. destruct (shapes_split (sh obs)) as [E|[E|[E|[(n & E & H1 & H3)|(l & m & d & E)]]]].
    + destruct H. rewrite E. cbn. auto.
    + destruct H. rewrite E. cbn. auto.
    + destruct H. rewrite E. cbn. auto.
    + now rewrite (test_one f obs n).
    + now rewrite (test_long f obs l m d).
Qed.
Print Assumptions C84_observer_exact.

Definition one (z : Z) : ndarray ZA := {| sh := [1]; entry := fun _ => (z : num ZA) |}.
Definition pair2 (z : Z) : ndarray ZA := {| sh := [2]; entry := fun _ => (z : num ZA) |}.
Definition square (z : Z) : ndarray ZA := {| sh := [3; 3]; entry := fun _ => (z : num ZA) |}.
Example C84_case : pl_faces tetra <> [] /\
  (exists r, fst (get_gravity_nd tetra (nd_vec (zv 30 17 11)) (1%Z : num ZA) 1%Z true pstate0) = Ok r) /\
  ~ In (sh (pair2 1)) [[]; [1]; [3]] /\ ~ In 0 (sh (pair2 1)) /\ ~ In (sh (square 1)) [[]; [1]; [3]] /\ ~ In 0 (sh (square 1)).
Proof.
  split; [vm_compute; discriminate|]. split; [eexists; vm_compute; reflexivity|].
  cbn. repeat split; intros H; repeat (destruct H as [H|H]; try discriminate); assumption.
Qed.

(** The claim that an observer which is not three numbers raises is false. *)
Theorem C84_one_number_refuted :
  exists (A : arith) (p : polyhedron A) obs density Gc r,
  pl_faces p <> [] /\ sh obs = [1] /\ fst (get_gravity_nd p obs density Gc true pstate0) = Ok r.
Proof.
  exists ZA, tetra, (one 30), 1%Z, 1%Z. eexists. split; [vm_compute; discriminate|]. split; [reflexivity|]. vm_compute. reflexivity.
Qed.
Print Assumptions C84_one_number_refuted.

Definition with_sums {A} (x : ndarray A) (st : station A) : station_nd A := {| sn_coord := x; sn_G := st_G st; sn_T := st_T st |}.

Lemma compute_loop A density Gc gradient (x : ndarray A) v :
  (forall (p : polyhedron A) s, pl_faces p <> [] -> get_gravity_nd p x density Gc gradient s = get_gravity p v density Gc gradient s) ->
  forall ids w G T, (forall i, In i ids -> pl_faces (w_poly w i) <> []) ->
  compute_gravity_nd density Gc gradient ids w {| sn_coord := x; sn_G := G; sn_T := T |} =
  let '(r, w', st) := station_loop density Gc gradient (map PyPoly ids) w {| st_coord := v; st_G := G; st_T := T |} in (r, w', with_sums x st).
Proof.
  intros K. induction ids as [|i ids IH]; intros w G T H; [reflexivity|]. cbn [map station_loop compute_gravity_nd sn_coord st_coord sn_G sn_T st_G st_T].
  rewrite K by (apply H; now left). destruct (get_gravity (w_poly w i) v density Gc gradient (w_state w i)) as [[[G' T']|e] s']; [|reflexivity].
  apply IH. intros j Hj. cbn [wset w_poly]. apply H. now right.
Qed.

(** The same for [Station(coord).compute_gravity(bodies, ...)]: with three numbers, or one
    standing for three, it is [compute_gravity] of the model for that point; with any
    other shape it raises ValueError as soon as there is a body, and the station and the
    bodies are as before. *)
Theorem C84_station_exact :
  forall (A : arith) (w : world A) st ids density Gc gradient,
  (forall i, In i ids -> pl_faces (w_poly w i) <> []) ->
  let x := sn_coord st in
  let same v := compute_gravity_nd density Gc gradient ids w st =
    let '(r, w', st') := compute_gravity w {| st_coord := v; st_G := sn_G st; st_T := sn_T st |} (ArgList (map PyPoly ids)) density Gc gradient in
    (r, w', {| sn_coord := x; sn_G := st_G st'; sn_T := st_T st' |}) in
  (sh x = [3] -> same (V3 (entry x [0]) (entry x [1]) (entry x [2]))) /\
  (sh x = [1] -> same (V3 (entry x [0]) (entry x [0]) (entry x [0]))) /\
  (sh x = [] -> same (V3 (entry x []) (entry x []) (entry x []))) /\
  (~ In (sh x) [[]; [1]; [3]] -> ~ In 0 (sh x) -> ids <> [] ->
   exists w', compute_gravity_nd density Gc gradient ids w st = (Err ValueError, w', st) /\
     forall i, w_poly w' i = w_poly w i /\ w_state w' i = w_state w i).
Proof.
  intros A w [x G T] ids rho Gc g H. cbn [sn_coord sn_G sn_T]. cbv zeta.
  assert (L : forallb (@is_poly) (map PyPoly ids) = true) by (clear; induction ids; [reflexivity|assumption]).
  unfold compute_gravity. rewrite L. cbn [negb].
  split; [|split; [|split]]; try (intros E; apply compute_loop; [|exact H]; intros p s Hp; destruct (C84_observer_exact A p x rho Gc g s Hp) as (K3 & K1 & K0 & _); auto).
  intros E N Hi. destruct ids as [|i ids]; [congruence|]. cbn [compute_gravity_nd sn_coord].
  destruct (C84_observer_exact A (w_poly w i) x rho Gc g (w_state w i) (H i (or_introl eq_refl))) as (_ & _ & _ & K). rewrite (K E N).
  eexists. split; [reflexivity|]. intros j. cbn [wset w_poly w_state]. split; [reflexivity|]. destruct (Nat.eqb_spec j i); congruence.
Qed.
Print Assumptions C84_station_exact.

(** ** C85: shape of the points *)
Section Points.
  Context {A : arith}.
  Lemma size_arr (l : list (num A)) : nd_size (Arr (map (@Sc A) l)) = length l.
  Proof. induction l as [|x l IH]; [reflexivity|]. cbn [map length]. rewrite <- IH. reflexivity. Qed.
  Lemma cross_other (l l' : list (num A)) : length l <> 3 -> l <> [] -> l' <> [] -> cross_product (Arr (map (@Sc A) l)) (Arr (map (@Sc A) l')) = Err TypeError.
  Proof.
    intros H N N'. destruct l as [|a l]; [congruence|]. destruct l' as [|a' l']; [congruence|]. unfold cross_product, cross_v1_1d.
    assert (E : forall (b : num A) m, nd_ndim (Arr (map (@Sc A) (b :: m))) = 1) by reflexivity.
    rewrite !E. cbn [Nat.eqb]. unfold cross_1d. rewrite !size_arr. destruct (Nat.eqb_spec (length (a :: l)) 3); [contradiction|reflexivity].
  Qed.
  Lemma cross_three (l l' : list (num A)) : length l = 3 -> length l' = 3 -> exists r, cross_product (Arr (map (@Sc A) l)) (Arr (map (@Sc A) l')) = Ok r.
  Proof.
    destruct l as [|a [|b [|c [|]]]]; try discriminate. destruct l' as [|a' [|b' [|c' [|]]]]; try discriminate. intros _ _. eexists. cbn. reflexivity.
  Qed.
  Lemma row_length n d (x : ndarray A) i : i < n -> length (nth i (table n d x) []) = d.
  Proof.
    intros H. unfold table. rewrite (nth_indep _ _ (map (fun j => entry x [i; j]) (seq 0 d))) by (now rewrite map_length, seq_length).
    rewrite (map_nth (fun i => map (fun j => entry x [i; j]) (seq 0 d)) (seq 0 n) i i). rewrite map_length. apply seq_length.
  Qed.
  Lemma diff_arr (a b : list (num A)) : map (fun p => Sc (nsub (fst p) (snd p))) (combine a b) = map (@Sc A) (map (fun p => nsub (fst p) (snd p)) (combine a b)).
  Proof. now rewrite map_map. Qed.
End Points.

(** [Polyhedron(points)] for an array of any shape, provided that qhull returns at least
    one facet and as many points on each, all of them in the array, as there are
    columns: whenever a body is returned the array has two axes and three columns, and
    then the body is the one [mk_polyhedron] builds from its rows. *)
Theorem C85_three_columns :
  forall (A : arith) qhull in_hull (x : ndarray A),
  (forall d rows q, qhull d rows = Ok q -> q_simplices q <> [] /\
     forall s, In s (q_simplices q) -> length s = d /\ forall i, In i s -> i < length rows) ->
  (forall p, mk_polyhedron_nd qhull in_hull x = Ok p -> exists n, sh x = [n; 3]) /\
  (forall n, sh x = [n; 3] -> mk_polyhedron_nd qhull in_hull x =
     mk_polyhedron (hull3 qhull) in_hull (map (fun i => V3 (entry x [i; 0]) (entry x [i; 1]) (entry x [i; 2])) (seq 0 n))).
Proof.
  intros A qh inh x Q. unfold mk_polyhedron_nd.
  assert (LT : forall n d, length (table n d x) = n) by (intros; unfold table; now rewrite map_length, seq_length).
  split.
  - intros p. destruct (sh x) as [|n [|d [|]]]; try discriminate. destruct (Nat.ltb_spec d 2) as [|Hd]; [discriminate|].
    destruct (qh d (table n d x)) as [q|e] eqn:Eq; [|discriminate]. cbn [bind]. destruct (Q _ _ _ Eq) as [N L].
    destruct (q_simplices q) as [|s ss]; [congruence|]. destruct (L s (or_introl eq_refl)) as [Ls Lr]. rewrite LT in Lr.
    destruct (Nat.eq_dec d 3) as [-> |D]; [intros _; now exists n|]. unfold facet_cross.
    destruct s as [|a [|b [|c s]]]; cbn [firstn]; try discriminate.
    rewrite !diff_arr, cross_other; [discriminate| | |].
    + rewrite map_length, combine_length, !row_length by (apply Lr; cbn; auto). lia.
    + intros E. apply (f_equal (@length _)) in E. rewrite map_length, combine_length, !row_length in E by (apply Lr; cbn; auto). cbn in E. lia.
    + intros E. apply (f_equal (@length _)) in E. rewrite map_length, combine_length, !row_length in E by (apply Lr; cbn; auto). cbn in E. lia.
  - intros n E. rewrite E. cbn [Nat.ltb Nat.leb].
    assert (ER : map row_vec (table n 3 x) = map (fun i => V3 (entry x [i; 0]) (entry x [i; 1]) (entry x [i; 2])) (seq 0 n)).
    { unfold table. rewrite map_map. reflexivity. }
    assert (ET : table n 3 x = map (fun v => [vx v; vy v; vz v]) (map row_vec (table n 3 x))).
    { rewrite ER, map_map. reflexivity. }
    rewrite ER. destruct (qh 3 (table n 3 x)) as [q|e] eqn:Eq.
    + cbn [bind]. destruct (Q _ _ _ Eq) as [N L]. destruct (q_simplices q) as [|s ss]; [congruence|].
      destruct (L s (or_introl eq_refl)) as [Ls Lr]. rewrite LT in Lr. destruct s as [|a [|b [|c [|]]]]; try discriminate. unfold facet_cross. cbn [firstn].
      rewrite !diff_arr. match goal with |- (do _ <- cross_product (Arr (map _ ?l)) (Arr (map _ ?l')); _) = _ => destruct (cross_three l l') as [r ->]; [| |reflexivity] end;
        rewrite map_length, combine_length, !row_length by (apply Lr; cbn; auto); reflexivity.
    + cbn [bind]. unfold mk_polyhedron, hull3. rewrite <- ER, <- ET, Eq. reflexivity.
Qed.
Print Assumptions C85_three_columns.
(** the tetrahedron of Examples.v as a 4 x 3 array; and a 4 x 2 array, which raises
    although qhull returns facets *)
Definition tetra_qhull (d : nat) (rows : list (list Z)) : res facets :=
  if Nat.eqb (length rows) 4 then
    if Nat.eqb d 3 then Ok {| q_simplices := h_simplices tetra_hull; q_neighbors := h_neighbors tetra_hull; q_vertices := [0; 1; 2; 3] |}
    else if Nat.eqb d 2 then Ok {| q_simplices := [[0; 1]; [1; 2]; [2; 3]; [3; 0]]; q_neighbors := [[1; 3]; [2; 0]; [3; 1]; [0; 2]]; q_vertices := [0; 1; 2; 3] |}
    else Err ValueError
  else Err ValueError.
Definition tetra_array (d : nat) : ndarray ZA :=
  {| sh := [4; d]; entry := fun i => match i with [S j; k] => if Nat.eqb j k then 12%Z else 0%Z | _ => 0%Z end : num ZA |}.
Example C85_case :
  (forall d rows q, tetra_qhull d rows = Ok q -> q_simplices q <> [] /\
     forall s, In s (q_simplices q) -> length s = d /\ forall i, In i s -> i < length rows) /\
  (exists p, mk_polyhedron_nd (A := ZA) tetra_qhull (fun _ _ => true) (tetra_array 3) = Ok p /\ length (pl_faces p) = 4) /\
  mk_polyhedron_nd (A := ZA) tetra_qhull (fun _ _ => true) (tetra_array 2) = Err ValueError.
Proof.
  split; [|split; [|reflexivity]].
  - intros d rows q. unfold tetra_qhull. destruct (Nat.eqb_spec (length rows) 4) as [->|]; [|discriminate].
    destruct (Nat.eqb_spec d 3) as [->|]; [|destruct (Nat.eqb_spec d 2) as [->|]; [|discriminate]]; intros [= <-]; (split; [discriminate|]);
      intros s Hs; cbn in Hs; repeat (destruct Hs as [<-|Hs]; [split; [reflexivity|]; intros i Hi; cbn in Hi; lia|]); destruct Hs.
  - destruct (mk_polyhedron_nd (A := ZA) tetra_qhull (fun _ _ => true) (tetra_array 3)) as [p|e] eqn:E.
    + exists p. split; [reflexivity|].
      assert (K : match mk_polyhedron_nd (A := ZA) tetra_qhull (fun _ _ => true) (tetra_array 3) with Ok p => length (pl_faces p) = 4 | _ => False end) by (vm_compute; reflexivity).
      rewrite E in K. exact K.
    + exfalso. assert (K : match mk_polyhedron_nd (A := ZA) tetra_qhull (fun _ _ => true) (tetra_array 3) with Ok p => True | _ => False end) by (vm_compute; exact I).
      rewrite E in K. exact K.
Qed.

(** * Construction and evaluation of a moved, rotated or scaled body *)
From Coq Require Import Reals Lra Psatz ZArith Bool List Permutation Arith Lia.
Import ListNotations.
From Verif Require Import Base MUtils MEdge MFace MHull MPoly SpecPoly PPoly PStation PPlain.
From Verif Require Import RVec RArith REdge REdgeModel RAngle ROmega RFace RFacet RPoly RTwin RField RHull.
Local Open Scope R_scope.

(** A rotation: a linear map that preserves scalar products and vector products. *)
Record rotation (Q : V -> V) : Prop := {
  rot_add : forall a b, Q (a + b)%v = (Q a + Q b)%v;
  rot_sc : forall k a, Q (k * a)%v = (k * Q a)%v;
  rot_dt : forall a b, dt (Q a) (Q b) = dt a b;
  rot_cr : forall a b, cr (Q a) (Q b) = Q (cr a b) }.

Lemma cr_sc2 k a b : cr (k * a) (k * b) = (k * k * cr a b)%v. Proof. vring. Qed.
Ltac eqR := match goal with |- @eq _ ?a ?b => change (@eq R a b) end.
Ltac eqV := match goal with |- @eq _ ?a ?b => change (@eq V a b) end.
Section Move.
  Variables (Q : V -> V) (k : R) (v : V).
  Hypothesis HQ : rotation Q.
  Hypothesis Hk : 0 < k.
  (** rotation, then scaling, then translation *)
  Definition simil (x : V) : V := (k * Q x + v)%v.
  Notation S := simil.

  Lemma Q_opp a : Q (- a)%v = (- Q a)%v.
  Proof. replace (- a)%v with ((-1) * a)%v by vring. rewrite (rot_sc Q HQ). vring. Qed.
  Lemma Q_sub a b : Q (a - b)%v = (Q a - Q b)%v.
  Proof. replace (a - b)%v with (a + - b)%v by vring. rewrite (rot_add Q HQ), Q_opp. vring. Qed.
  Lemma Q_0 : Q v0 = v0.
  Proof. replace v0 with (0 * v0)%v by vring. rewrite (rot_sc Q HQ). vring. Qed.
  Lemma Q_nm a : nm (Q a) = nm a.
  Proof. unfold nm. now rewrite (rot_dt Q HQ). Qed.
  Lemma Q_inj a b : Q a = Q b -> a = b.
  Proof.
    intros E. assert (Z : (a - b)%v = v0).
    { apply nm_zero. rewrite <- Q_nm, Q_sub, E. replace (Q b - Q b)%v with v0 by vring. apply nm_0. }
    apply veq; [apply (f_equal vx) in Z|apply (f_equal vy) in Z|apply (f_equal vz) in Z]; cbn in Z; lra.
  Qed.
  Lemma S_sub a b : (S a - S b)%v = (k * Q (a - b))%v.
  Proof. unfold simil. rewrite Q_sub. vring. Qed.
  Lemma S_inj a b : S a = S b -> a = b.
  Proof.
    intros E. apply Q_inj. assert (Z : (k * (Q a - Q b))%v = v0).
    { replace (k * (Q a - Q b))%v with (S a - S b)%v by (unfold simil; vring). rewrite E. vring. }
    apply veq; [apply (f_equal vx) in Z|apply (f_equal vy) in Z|apply (f_equal vz) in Z]; cbn in Z; nra.
  Qed.
  Lemma nm_S a : nm (k * Q a)%v = k * nm a.
  Proof. rewrite nm_sc, Q_nm, Rabs_pos_eq by lra. reflexivity. Qed.

  (** ** The moved objects *)
  Definition map_edge (e : edge RA) : edge RA :=
    {| e_simplex := e_simplex e; e_start := (S (e_start e) : vec RA); e_end := (S (e_end e) : vec RA);
       e_vector := ((k * Q (e_vector e))%v : vec RA); e_length := (k * e_length e : R);
       e_twinface := e_twinface e |}.
  Definition map_face (f : face RA) : face RA :=
    {| f_points := (map S (f_points f) : list (vec RA)); f_simplex := f_simplex f; f_un := (Q (f_un f) : vec RA);
       f_neighbors := f_neighbors f; f_nbr_simplices := f_nbr_simplices f;
       f_edges := map map_edge (f_edges f) |}.
  Definition map_poly (p : polyhedron RA) : polyhedron RA :=
    {| pl_points := (map S (pl_points p) : list (vec RA)); pl_faces := map map_face (pl_faces p);
       pl_twin := pl_twin p |}.
  Definition map_hull (h : hull RA) : hull RA :=
    {| h_points := (map S (h_points h) : list (vec RA)); h_simplices := h_simplices h;
       h_neighbors := h_neighbors h; h_vertices := h_vertices h |}.

  Lemma mk_edge_map p q s t :
    mk_edge (A := RA) (S p, S q) s t = map_edge (mk_edge (A := RA) (p, q) s t).
  Proof.
    unfold mk_edge, map_edge; cbn [fst snd e_simplex e_start e_end e_vector e_length e_twinface].
    change (vsub (A := RA)) with vm. change (norm (A := RA)) with nm. f_equal.
    - apply S_sub.
    - rewrite S_sub. apply nm_S.
  Qed.

  Lemma pnth_map i (l : list V) : (i < length l)%nat -> pnth (A := RA) i (map S l) = S (pnth (A := RA) i l).
  Proof.
    intros H. unfold pnth. rewrite (nth_indep _ _ (S v0)) by now rewrite map_length. now rewrite map_nth.
  Qed.

  Lemma orient_map (pts : list V) (cen : V) (ih ih' : V -> bool) s :
    (forall i, In i s -> (i < length pts)%nat) -> ih' (S cen) = ih cen ->
    orient (A := RA) (map S pts) (S cen) ih' s =
    match orient (A := RA) pts cen ih s with Ok (s', un) => Ok (s', Q un : vec RA) | Err e => Err e end.
  Proof.
    intros Hr Hih. destruct s as [|a [|b [|c t]]]; try reflexivity.
    unfold orient. rewrite !pnth_map by (apply Hr; simpl; auto). rewrite Hih.
    set (pA := pnth (A := RA) a pts). set (pB := pnth (A := RA) b pts). set (pC := pnth (A := RA) c pts).
    set (N := cr (pB - pA) (pC - pA)).
    assert (EN : cross3 (A := RA) (vsub (A := RA) (S pB) (S pA)) (vsub (A := RA) (S pC) (S pA)) = (k * k * Q N)%v).
    { rewrite cross3_R. change (vsub (A := RA)) with vm. rewrite !S_sub.
      unfold N. rewrite <- (rot_cr Q HQ). apply cr_sc2. }
    assert (EN0 : cross3 (A := RA) (vsub (A := RA) pB pA) (vsub (A := RA) pC pA) = N) by (rewrite cross3_R; reflexivity).
    rewrite EN, EN0. set (d := dt N (cen - pA)).
    assert (Ed : dot (A := RA) (k * k * Q N)%v (vsub (A := RA) (S cen) (S pA)) = k * k * k * d).
    { change (vsub (A := RA)) with vm. change (dot (A := RA)) with dt. rewrite S_sub.
      rewrite dt_sc_l, dt_sc_r, (rot_dt Q HQ). unfold d. eqR. ring. }
    assert (Ed0 : dot (A := RA) N (vsub (A := RA) cen pA) = d) by reflexivity.
    rewrite Ed, Ed0. toR.
    assert (K3 : 0 < k * k * k) by (repeat apply Rmult_lt_0_compat; auto).
    assert (B1 : Reqb (k * k * k * d) 0 = Reqb d 0).
    { apply eq_true_iff_eq. rewrite !Reqb_true. split; intros; nra. }
    assert (B2 : Rltb 0 (k * k * k * d) = Rltb 0 d).
    { apply eq_true_iff_eq. rewrite !Rltb_true. split; intros; nra. }
    rewrite B1, B2.
    assert (Eu : vdivs (A := RA) (k * k * Q N)%v (norm (A := RA) (k * k * Q N)%v) = Q (vdivs (A := RA) N (norm (A := RA) N))).
    { rewrite !vdivs_R, (rot_sc Q HQ). change (norm (A := RA)) with nm.
      rewrite nm_sc, Q_nm, Rabs_pos_eq by nra.
      destruct (Req_dec (nm N) 0) as [Z|Z].
      - apply nm_zero in Z. rewrite Z, Q_0. vring.
      - assert (Ek : / (k * k * nm N) * (k * k) = / nm N) by (field; nra).
        rewrite <- Ek. vring. }
    assert (Eu' : vdivs (A := RA) (vopp (A := RA) (k * k * Q N)%v) (norm (A := RA) (k * k * Q N)%v) =
                  Q (vdivs (A := RA) (vopp (A := RA) N) (norm (A := RA) N))).
    { assert (EO : forall (x : V) (y : R), vdivs (A := RA) (vopp (A := RA) x) y = (- vdivs (A := RA) x y)%v).
      { intros x y. rewrite !vdivs_R. eqV. change (vopp (A := RA) x) with (- x)%v. vring. }
      etransitivity; [apply EO|]. etransitivity; [|symmetry; apply (f_equal Q), EO].
      rewrite Q_opp. apply (f_equal vn). exact Eu. }
    destruct (Reqb d 0 && negb (ih cen))%bool; [reflexivity|].
    destruct (negb (Rltb 0 d)).
    - apply (f_equal Ok), (f_equal2 pair); [reflexivity|rewrite !vdivs_R in Eu; exact Eu].
    - apply (f_equal Ok), (f_equal2 pair); [reflexivity|rewrite !vdivs_R in Eu'; exact Eu'].
  Qed.

  Lemma pairwise_map {X Y} (f : X -> Y) l : pairwise (map f l) = map (fun p => (f (fst p), f (snd p))) (pairwise l).
  Proof.
    induction l as [|x [|y l] IH]; [reflexivity|reflexivity|].
    change (pairwise (map f (x :: y :: l))) with ((f x, f y) :: pairwise (map f (y :: l))).
    rewrite IH. reflexivity.
  Qed.

  Lemma get_edges_map (pts : list V) s n ns : pts <> [] ->
    get_edges (A := RA) (map S pts) s n ns =
    match get_edges (A := RA) pts s n ns with Ok es => Ok (map map_edge es) | Err e => Err e end.
  Proof.
    intros Hne. unfold get_edges. cbv zeta.
    rewrite pnth_map by (destruct pts; [congruence|simpl; lia]).
    change [S (pnth (A := RA) 0 pts)] with (map S [pnth (A := RA) 0 pts]).
    rewrite <- map_app.
    set (F := fun ps : vec RA * vec RA * (nat * nat) =>
      do tf <- get_twinface n ns (snd ps); Ok (mk_edge (A := RA) (fst ps) (snd ps) tf)).
    assert (G : forall (l : list (vec RA * vec RA)) m,
      mapM F (combine (map (fun p => (S (fst p) : vec RA, S (snd p) : vec RA)) l) m) =
      match mapM F (combine l m) with Ok es => Ok (map map_edge es) | Err e => Err e end).
    { induction l as [|[p q] l IH]; intros [|ab m]; try reflexivity.
      cbn [map combine mapM]. unfold F at 1 3. cbn [fst snd].
      destruct (get_twinface n ns ab) as [tf|e]; [|reflexivity].
      cbn [bind]. rewrite IH.
      destruct (mapM F (combine l m)) as [es|e]; [|reflexivity].
      cbn [bind map]. f_equal. f_equal. apply mk_edge_map. }
    etransitivity; [|apply G]. apply (f_equal (fun l => mapM F (combine l _))).
    exact (pairwise_map S (pts ++ [pnth (A := RA) 0 pts])).
  Qed.

  Lemma mk_face_map (pts : list V) s un n ns : pts <> [] ->
    mk_face (A := RA) (map S pts) s (Q un) n ns =
    match mk_face (A := RA) pts s un n ns with Ok f => Ok (map_face f) | Err e => Err e end.
  Proof.
    intros H. unfold mk_face. rewrite get_edges_map by exact H.
    destruct (get_edges (A := RA) pts s n ns); reflexivity.
  Qed.

  Lemma orient_perm (pts : list V) cen ih s s' un : orient (A := RA) pts cen ih s = Ok (s', un) ->
    s' <> [] /\ forall i, In i s' -> In i s.
  Proof.
    destruct s as [|a [|b [|c t]]]; try discriminate. unfold orient. cbv zeta.
    match goal with |- (if ?x then _ else _) = _ -> _ => destruct x end; [discriminate|].
    match goal with |- (if ?x then _ else _) = _ -> _ => destruct x end; intros [= <- _].
    - split; [discriminate|auto].
    - split; [discriminate|]. intros i [<-|Hi]; [left; auto|]. right.
      match type of Hi with In _ ?l => assert (E : l = rev (b :: c :: t)) by reflexivity; rewrite E in Hi end.
      now apply in_rev.
  Qed.

  Lemma faces_loop_map (pts : list V) cen ih ih' : ih' (S cen) = ih cen -> forall todo simps i,
    (forall s n j, In (s, n) todo -> In j s -> (j < length pts)%nat) ->
    faces_loop (A := RA) (map S pts) (S cen) ih' simps i todo =
    match faces_loop (A := RA) pts cen ih simps i todo with Ok fs => Ok (map map_face fs) | Err e => Err e end.
  Proof.
    intros Hih. induction todo as [|[s n] todo IH]; intros simps i Hr; [reflexivity|].
    cbn [faces_loop].
    rewrite (orient_map pts cen ih ih' s) by (first [exact Hih | intros; eapply Hr; [left; reflexivity|auto]]).
    destruct (orient (A := RA) pts cen ih s) as [[s' un]|e] eqn:Eo; [|reflexivity]. cbn [bind].
    destruct (orient_perm _ _ _ _ _ _ Eo) as [Hne Hin].
    assert (Em : map (fun j => pnth (A := RA) j (map S pts)) s' = map S (map (fun j => pnth (A := RA) j pts) s')).
    { rewrite map_map. apply map_ext_in. intros j Hj. apply pnth_map. eapply Hr; [left; reflexivity|auto]. }
    match goal with |- bind (mk_face ?a ?b ?c ?d ?x) _ = _ =>
      replace (mk_face a b c d x) with
       (match mk_face (A := RA) (map (fun j => pnth (A := RA) j pts) s') b un d x with Ok f => Ok (map_face f) | Err e => Err e end)
    end.
    2:{ symmetry. etransitivity; [|apply mk_face_map; destruct s'; [congruence|discriminate]].
        apply (f_equal (fun l => mk_face (A := RA) l _ _ _ _)). exact Em. }
    destruct (mk_face (A := RA) _ _ _ _ _) as [f|e]; [|reflexivity]. cbn [bind].
    rewrite IH by (intros s1 n1 j H1 H2; eapply Hr; [right; exact H1|exact H2]).
    destruct (faces_loop _ _ _ _ _ _) as [fs|e]; reflexivity.
  Qed.

  Lemma veqb_map (a b : V) : veqb (A := RA) (S a) (S b) = veqb (A := RA) a b.
  Proof.
    apply eq_true_iff_eq. rewrite !veqb_R. split; [apply S_inj|now intros ->].
  Qed.
  Lemma find_twin_map e j es :
    find_twin (A := RA) (map_edge e) j (map map_edge es) = find_twin (A := RA) e j es.
  Proof.
    revert j. induction es as [|t es IH]; intros j; [reflexivity|].
    cbn [find_twin map]. unfold map_edge at 1 2 3 4; cbn [e_start e_end]. rewrite !veqb_map, IH. reflexivity.
  Qed.
  Lemma twin_edge_map fs tw key e :
    twin_edge (A := RA) (map map_face fs) tw (key, map_edge e) = twin_edge (A := RA) fs tw (key, e).
  Proof.
    unfold twin_edge. destruct (tw key); [reflexivity|].
    change (e_twinface (map_edge e)) with (e_twinface e). rewrite nth_error_map.
    destruct (nth_error fs (e_twinface e)) as [f|]; [|reflexivity]. cbn [option_map].
    change (f_edges (map_face f)) with (map map_edge (f_edges f)). rewrite find_twin_map. reflexivity.
  Qed.
  Lemma keyed_of_map i f : keyed_edges_of i (map_face f) = map (fun ke => (fst ke, map_edge (snd ke))) (keyed_edges_of i f).
  Proof.
    unfold keyed_edges_of. change (f_edges (map_face f)) with (map map_edge (f_edges f)). rewrite map_length.
    generalize (map (fun j => (i, j)) (seq 0 (length (f_edges f)))) as l.
    induction (f_edges f) as [|e es IH]; intros [|x l]; cbn [map combine]; auto. f_equal. apply IH.
  Qed.
  Lemma keyed_map fs : keyed_edges (map map_face fs) = map (fun ke => (fst ke, map_edge (snd ke))) (keyed_edges fs).
  Proof.
    unfold keyed_edges. rewrite map_length. generalize (seq 0 (length fs)) as l.
    induction fs as [|f fs IH]; intros [|i l]; cbn [map combine concat fst snd]; auto.
    rewrite map_app, keyed_of_map. f_equal. apply IH.
  Qed.
  Lemma twins_map fs : get_edge_twin (A := RA) (map map_face fs) = get_edge_twin (A := RA) fs.
  Proof.
    unfold get_edge_twin. rewrite keyed_map. generalize (fun _ : ekey => @None ekey) as tw.
    generalize (keyed_edges fs) as l. induction l as [|[key e] l IH]; intros tw; [reflexivity|].
    cbn [map foldM fst snd]. rewrite twin_edge_map. destruct (twin_edge fs tw (key, e)); [|reflexivity]. apply IH.
  Qed.

  Lemma centroid_map (pts : list V) vs : vs <> [] -> (forall i, In i vs -> (i < length pts)%nat) ->
    centroid (A := RA) (map S pts) vs = S (centroid (A := RA) pts vs).
  Proof.
    intros Hne Hr. unfold centroid. change (@vadd RA) with va. change (@vzero RA) with v0. change (@nofZ RA) with IZR.
    rewrite !fold_va, !vdivs_R, <- INR_IZR_INZ.
    set (n := INR (length vs)). assert (Hn : n <> 0) by (apply not_0_INR; destruct vs; [congruence|simpl; lia]).
    assert (E : fold_right va v0 (map (fun i => pnth (A := RA) i (map S pts)) vs) =
      (k * Q (fold_right va v0 (map (fun i => pnth (A := RA) i pts) vs)) + n * v)%v).
    { unfold n. clear Hne Hn n. induction vs as [|i vs IH].
      - cbn [map fold_right length]. rewrite Q_0. cbn [INR]. vring.
      - cbn [map fold_right]. rewrite IH by (intros; apply Hr; right; auto).
        rewrite pnth_map by (apply Hr; left; auto).
        rewrite (rot_add Q HQ). change (length (i :: vs)) with (Datatypes.S (length vs)). rewrite S_INR.
        unfold simil. vring. }
    rewrite E. unfold simil. set (F := fold_right va v0 (map (fun i => pnth (A := RA) i pts) vs)).
    rewrite !va_0_l, (rot_sc Q HQ).
    transitivity ((k * (/ n * Q F)) + ((/ n * n) * v))%v; [vring|]. rewrite Rinv_l by auto. vring.
  Qed.

  Definition in_range (h : hull RA) : Prop :=
    h_vertices h <> [] /\ (forall i, In i (h_vertices h) -> (i < length (h_points h))%nat) /\
    (forall s i, In s (h_simplices h) -> In i s -> (i < length (h_points h))%nat).

  Theorem build_map h ih ih' ch ch' points points' :
    ch points = Ok h -> ch' points' = Ok (map_hull h) -> points' = map S points -> in_range h ->
    (forall x, ih' (map S (h_points h)) (S x) = ih (h_points h) x) ->
    mk_polyhedron (A := RA) ch' ih' points' =
    match mk_polyhedron (A := RA) ch ih points with Ok p => Ok (map_poly p) | Err e => Err e end.
  Proof.
    intros E E' -> (Hne & Hr & Hs) Hih. unfold mk_polyhedron. rewrite E, E'. cbn [bind]. unfold get_faces.
    change (h_simplices (map_hull h)) with (h_simplices h). change (h_neighbors (map_hull h)) with (h_neighbors h).
    change (h_vertices (map_hull h)) with (h_vertices h).
    destruct (negb _); [reflexivity|].
    assert (Ec : centroid (A := RA) (h_points (map_hull h)) (h_vertices h) =
                 S (centroid (A := RA) (h_points h) (h_vertices h))) by (apply centroid_map; auto).
    rewrite Ec.
    match goal with |- context [faces_loop (h_points (map_hull h)) ?c ?f ?a ?b ?d] =>
      assert (EF : faces_loop (A := RA) (h_points (map_hull h)) c f a b d =
        match faces_loop (A := RA) (h_points h) (centroid (A := RA) (h_points h) (h_vertices h)) (ih (h_points h)) a b d
        with Ok fs => Ok (map map_face fs) | Err e => Err e end)
    end.
    { apply faces_loop_map; [apply Hih|]. intros s n j H1 H2. apply in_combine_l in H1. eapply Hs; eauto. }
    rewrite EF. destruct (faces_loop (A := RA) (h_points h) _ _ _ _ _) as [fs|e]; [|reflexivity].
    cbn [bind]. rewrite twins_map. destruct (get_edge_twin fs) as [tw|e]; reflexivity.
  Qed.

  Lemma correct_in_range h : correct_hull h -> h_simplices h <> [] -> in_range h.
  Proof.
    intros Hh Hs. split; [|split].
    - destruct (h_simplices h) as [|s l] eqn:E; [congruence|].
      destruct (ch_tri h Hh s) as (a & b & c & -> & _); [rewrite E; left; auto|].
      assert (Ha : In a (h_vertices h)) by (apply (ch_vert h Hh [a; b; c]); [rewrite E; left; auto|left; auto]).
      intros Z. rewrite Z in Ha. destruct Ha.
    - apply (ch_range h Hh).
    - intros s i H1 H2. apply (ch_range h Hh), (ch_vert h Hh s i H1 H2).
  Qed.
End Move.

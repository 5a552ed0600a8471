(** * Property C15: the triangulation of the planar facets does not matter *)
From Coq Require Import Reals Lra Psatz ZArith Bool List Permutation Arith Lia.
Import ListNotations.
From Verif Require Import Base MUtils MEdge MFace MHull MPoly SpecPoly PPoly PStation PPlain.
From Verif Require Import RVec RArith REdge REdgeModel RAngle ROmega RFace RFacet RPoly RTwin RField
  RHull RHullZ ExamplesR RPlaced RPlacedZ RWell RRay RTrace RMoved RVolume RTri PropertiesR.
Local Open Scope R_scope.
Local Open Scope list_scope.

(** ** C15: independence of the triangulation *)
(** The facets of the two bodies can be grouped so that the groups correspond:
    two corresponding groups have one normal, lie in one plane, and have the same
    boundary (each directed edge x -> y occurs, net of y -> x, as often in one
    as in the other).  Then G and T are the same. *)
Theorem C15_triangulation :
  forall p p' o density Gc gradient s s' (groups : list (list (face RA) * list (face RA))),
  closed p -> closed p' -> clear p o gradient -> clear p' o gradient -> reachable p s -> reachable p' s' ->
  Permutation (pl_faces p) (concat (map fst groups)) -> Permutation (pl_faces p') (concat (map snd groups)) ->
  (forall L L', In (L, L') groups ->
     (exists n, (forall f, In f (L ++ L') -> f_un f = n) /\
        forall f g q r, In f (L ++ L') -> In g (L ++ L') -> In q (f_points f) -> In r (f_points g) -> dt n (q - r) = 0) /\
     same_boundary L L') ->
  gravity p o density Gc gradient s = gravity p' o density Gc gradient s'.
Proof.
  intros p p' o d G g s s' groups Hc Hc' Hr Hr' Hs Hs' HP HP' Hall.
  rewrite (gravity_spec p o d G g s Hs), (gravity_spec p' o d G g s' Hs').
  exact (retri_clear p p' o d G Hc Hc' groups HP HP' Hall g Hr Hr').
Qed.
Print Assumptions C15_triangulation.

(** ** The groups of the usual case *)
Lemma edge_is_swap x y u v : edge_is y x (u, v) = edge_is x y (v, u).
Proof. unfold edge_is; cbn [fst snd]. destruct (veq_dec u y), (veq_dec v x); reflexivity. Qed.
Ltac boundary x y :=
  unfold edges_of, fedges, vtx, pnth; cbn [flat_map app];
  repeat match goal with H : f_points _ = _ |- _ => rewrite !H; clear H end; cbn [nth];
  rewrite !count_cons, !(edge_is_swap x y); unfold count; cbn [filter length];
  repeat match goal with |- context [if edge_is x y ?e then 1%nat else 0%nat] => generalize (if edge_is x y e then 1%nat else 0%nat); intros end;
  lia.
(** a quadrilateral a b c d cut along either diagonal *)
Theorem C15_quadrilateral :
  forall f1 f2 g1 g2 a b c d, f_points f1 = [a; b; c] -> f_points f2 = [a; c; d] ->
  f_points g1 = [a; b; d] -> f_points g2 = [b; c; d] ->
  same_boundary [f1; f2] [g1; g2].
Proof. intros f1 f2 g1 g2 a b c d H1 H2 H3 H4 x y. boundary x y. Qed.
Print Assumptions C15_quadrilateral.
(** the same quadrilateral with an additional point q joined to its corners *)
Theorem C15_fan_point :
  forall f1 f2 g1 g2 g3 g4 a b c d q, f_points f1 = [a; b; c] -> f_points f2 = [a; c; d] ->
  f_points g1 = [q; a; b] -> f_points g2 = [q; b; c] -> f_points g3 = [q; c; d] -> f_points g4 = [q; d; a] ->
  same_boundary [f1; f2] [g1; g2; g3; g4].
Proof. intros f1 f2 g1 g2 g3 g4 a b c d q H1 H2 H3 H4 H5 H6 x y. boundary x y. Qed.
Print Assumptions C15_fan_point.

(** a fan of any number of triangles: the closed polygon a, l, back to a, cut from
    its corner a, or from any point q of its plane *)
Definition steps (l : list V) : list (V * V) := combine l (tl l).
Definition fan (q : V) (l : list V) (L : list (face RA)) : Prop :=
  Forall2 (fun e (f : face RA) => f_points f = [q; fst e; snd e]) (steps l) L.
Definition net (x y : V) (l : list (V * V)) : Z := (Z.of_nat (count x y l) - Z.of_nat (count y x l))%Z.
Lemma net_cons x y e l : net x y (e :: l) = (net x y [e] + net x y l)%Z.
Proof. unfold net. rewrite !(count_cons _ _ e). change (count x y []) with 0%nat. change (count y x []) with 0%nat. lia. Qed.
Lemma net_app x y l l' : net x y (l ++ l') = (net x y l + net x y l')%Z.
Proof. unfold net. rewrite !count_app. lia. Qed.
Lemma net_swap (x y u v : V) : net x y [(v, u)] = (- net x y [(u, v)])%Z.
Proof. unfold net. rewrite !count_cons, !(edge_is_swap x y). unfold count. cbn [filter length]. lia. Qed.
Lemma steps_cons (u w : V) (r : list V) : steps (u :: w :: r) = (u, w) :: steps (w :: r).
Proof. reflexivity. Qed.
Lemma fan_cons (q u w : V) (r : list V) L : fan q (u :: w :: r) L -> exists f L', L = f :: L' /\ f_points f = [q; u; w] /\ fan q (w :: r) L'.
Proof. unfold fan. rewrite steps_cons. intros H. inversion H; subst. eauto. Qed.
Lemma edges_tri (f : face RA) L (a b c : V) : f_points f = [a; b; c] -> edges_of (f :: L) = [(a, b); (b, c); (c, a)] ++ edges_of L.
Proof. intros H. unfold edges_of, fedges, vtx, pnth. cbn [flat_map]. rewrite H. reflexivity. Qed.
Lemma fan_net (x y q : V) (l : list V) : forall (u v : V) L, fan q (u :: l ++ [v]) L ->
  net x y (edges_of L) = (net x y [(q, u)] + net x y (steps (u :: l ++ [v])) + net x y [(v, q)])%Z.
Proof.
  induction l as [|w l IH]; intros u v L H; cbn [app] in H |- *;
    apply fan_cons in H; destruct H as (f & L' & -> & Hf & HL); rewrite (edges_tri f L' _ _ _ Hf), net_app, steps_cons,
    (net_cons x y (q, u)), (net_cons x y (u, _)).
  - inversion HL; subst. change (steps [v]) with (@nil (V * V)). change (edges_of []) with (@nil (V * V)).
    change (net x y []) with 0%Z. rewrite Z.add_0_r, Z.add_assoc. reflexivity.
  - rewrite (IH w v L' HL), (net_cons x y (u, w) (steps _)), (net_swap x y q w).
    assert (Q : forall a b c S d, (a + (b + - c) + (c + S + d) = a + (b + S) + d)%Z) by (intros; lia). apply Q.
Qed.
Lemma steps_snoc l : forall u v w, steps (u :: l ++ [v; w]) = steps (u :: l ++ [v]) ++ [(v, w)].
Proof.
  induction l as [|x l IH]; intros u v w; [reflexivity|]. cbn [app]. rewrite !steps_cons, IH. reflexivity.
Qed.
Theorem C15_polygon :
  forall a u l v q L L', fan a (u :: l ++ [v]) L -> fan q (a :: u :: l ++ [v; a]) L' -> same_boundary L L'.
Proof.
  intros a u l v q L L' H H' x y. fold (net x y (edges_of L)). fold (net x y (edges_of L')).
  rewrite (fan_net x y a l u v L H).
  assert (E : u :: l ++ [v; a] = (u :: l ++ [v]) ++ [a]) by (cbn [app]; now rewrite <- app_assoc).
  rewrite E in H'. rewrite (fan_net x y q _ a a L' H'), <- E.
  assert (S : steps (a :: u :: l ++ [v; a]) = (a, u) :: steps (u :: l ++ [v]) ++ [(v, a)]).
  { change (steps (a :: u :: l ++ [v; a])) with ((a, u) :: steps (u :: l ++ [v; a])). now rewrite steps_snoc. }
  rewrite S, (net_cons x y (a, u) (_ ++ _)), net_app, (net_swap x y q a).
  assert (Q : forall a b c d, (a + b + c = d + (a + (b + c)) + - d)%Z) by (intros; lia). apply Q.
Qed.
Print Assumptions C15_polygon.

(** ** Case: the cube, with one of its sides cut along the other diagonal *)
Definition cubeZ2 : zhull := {| z_points := [zv (-10) (-10) (-10); zv (-10) (-10) 10; zv (-10) 10 (-10); zv (-10) 10 10; zv 10 (-10) (-10); zv 10 (-10) 10; zv 10 10 (-10); zv 10 10 10]; z_simplices := [[0;1;2];[1;2;3];[4;5;7];[4;6;7];[0;1;5];[0;4;5];[2;3;7];[2;6;7];[0;2;6];[0;4;6];[1;3;7];[1;5;7]]; z_neighbors := [[1;8;4];[6;10;0];[11;3;5];[7;2;9];[11;5;0];[2;4;9];[10;7;1];[3;6;8];[7;9;0];[3;8;5];[6;11;1];[2;10;4]]; z_vertices := [0;1;2;3;4;5;6;7] |}%nat.

Definition triples (s : list nat) : list (nat * nat * nat) :=
  flat_map (fun a => flat_map (fun b => map (fun c => (a, b, c)) s) s) s.
Definition outb (h : zhull) (t : nat * nat * nat) : bool :=
  let '(a, b, c) := t in
  (neb a b && neb b c && neb c a && forallb (fun i => Z.leb (zdt (znrm3 h a b c) (zsub (zpt h i) (zpt h a))) 0) (z_vertices h))%bool.
Definition orders (h : zhull) (i : nat) : list (nat * nat * nat) := filter (outb h) (triples (sim h i)).
Fixpoint choices {X} (l : list (list X)) : list (list X) :=
  match l with [] => [[]] | a :: r => flat_map (fun x => map (cons x) (choices r)) a end.
Definition tedges (t : nat * nat * nat) : list (nat * nat) := let '(a, b, c) := t in [(a, b); (b, c); (c, a)].
Definition tverts (t : nat * nat * nat) : list nat := let '(a, b, c) := t in [a; b; c].
Definition tnorm (h : zhull) (t : nat * nat * nat) : ZV := let '(a, b, c) := t in znrm3 h a b c.
Definition planarb (h : zhull) (n : ZV) (l : list (nat * nat * nat)) : bool :=
  forallb (fun t => veqz (tnorm h t) n &&
    forallb (fun t' => forallb (fun i => forallb (fun j => Z.eqb (zdt n (zsub (zpt h i) (zpt h j))) 0) (tverts t')) (tverts t)) l)%bool l.
Definition groupb (h h' : zhull) (g : list nat * list nat) : bool :=
  forallb (fun L => forallb (fun L' =>
    planarb h (tnorm h (hd (0, 0, 0)%nat L)) (L ++ L') &&
    cancelb 100 (flat_map tedges L ++ map (fun e => (snd e, fst e)) (flat_map tedges L'))) (choices (map (orders h') (snd g))))
    (choices (map (orders h) (fst g))).

Definition shape (h : zhull) (t : nat * nat * nat) (f : face RA) : Prop :=
  f_points f = map (fun i => rv (zpt h i)) (tverts t) /\ f_un f = uu (rv (tnorm h t)).
Lemma face_shape h i f : face_of (rh h) i f -> exists t, In t (orders h i) /\ shape h t f.
Proof.
  intros (s & x & y & z & t1 & t2 & t3 & Hs & HP & D1 & D2 & D3 & HO & Pf & _ & Hu & _).
  exists (x, y, z). split.
  - apply filter_In. assert (Es : sim h i = s) by (unfold sim; now apply nth_error_nth).
    split.
    + rewrite Es. unfold triples. assert (K : forall k, In k [x; y; z] -> In k s).
      { intros k Hk. eapply Permutation_in; [apply Permutation_sym; exact HP|exact Hk]. }
      apply in_flat_map. exists x. split; [apply K; simpl; auto|]. apply in_flat_map. exists y. split; [apply K; simpl; auto|].
      apply in_map_iff. exists z. split; [reflexivity|apply K; simpl; auto].
    + unfold outb. apply neb_ne in D1, D2, D3. rewrite D1, D2, D3. cbn [andb]. apply forallb_forall. intros k Hk.
      apply Z.leb_le, le_IZR. rewrite <- side_rh. apply HO. exact Hk.
  - split; [rewrite Pf; cbn [tverts map]; now rewrite !pt_rh|]. rewrite Hu. unfold tri_normal. fold (nrm3 (rh h) x y z). now rewrite nrm3_rh.
Qed.
Lemma choose h I : forall L, Forall2 (face_of (rh h)) I L ->
  exists T, In T (choices (map (orders h) I)) /\ Forall2 (shape h) T L.
Proof.
  induction I as [|i I IH]; intros L H; inversion H as [|? f ? L' Hf HL]; subst.
  - exists []. split; [now left|constructor].
  - destruct (IH L' HL) as (T & HT & HS). destruct (face_shape h i f Hf) as (t & Ht & Hsh).
    exists (t :: T). split; [|now constructor]. cbn [map choices]. apply in_flat_map. exists t. split; [auto|]. now apply in_map.
Qed.
Lemma shape_edges h T L : Forall2 (shape h) T L -> edges_of L = pedges (fun i => rv (zpt h i)) (flat_map tedges T).
Proof.
  induction 1 as [|[[a b] c] f T L [Hp _] _ IH]; [reflexivity|]. cbn [edges_of flat_map]. fold (edges_of L). rewrite IH.
  unfold fedges, vtx, pnth. rewrite Hp. reflexivity.
Qed.
Lemma veqz_eq a b : veqz a b = true -> a = b.
Proof.
  destruct a as [a1 a2 a3], b as [b1 b2 b3]. unfold veqz; cbn [vx vy vz]. intros H. bsplit.
  repeat match goal with K : Z.eqb _ _ = true |- _ => apply Z.eqb_eq in K end. now subst.
Qed.
Lemma shape_planar h n T L : planarb h n T = true -> Forall2 (shape h) T L -> coplanar L.
Proof.
  intros H HS. exists (uu (rv n)). unfold planarb in H. rewrite forallb_forall in H.
  assert (Q : forall f, In f L -> exists t, In t T /\ shape h t f).
  { intros f Hf. apply In_nth_error in Hf. destruct Hf as [k Hk]. clear H.
    revert k Hk. induction HS as [|t f' T L Ht HS IH]; intros [|k] Hk; try discriminate.
    - injection Hk as <-. exists t. split; [now left|auto].
    - destruct (IH k Hk) as (t' & ? & ?). exists t'. split; [now right|auto]. }
  split.
  - intros f Hf. destruct (Q f Hf) as (t & Ht & _ & Hu). specialize (H t Ht). apply andb_true_iff in H. destruct H as [H _].
    apply veqz_eq in H. now rewrite Hu, H.
  - intros f g q r Hf Hg Hq Hr'. destruct (Q f Hf) as (t & Ht & Hp & _), (Q g Hg) as (t' & Ht' & Hp' & _).
    rewrite Hp in Hq. rewrite Hp' in Hr'. apply in_map_iff in Hq, Hr'. destruct Hq as (i & <- & Hi), Hr' as (j & <- & Hj).
    specialize (H t Ht). apply andb_true_iff in H. destruct H as [_ H].
    rewrite forallb_forall in H. specialize (H t' Ht'). rewrite forallb_forall in H. specialize (H i Hi).
    rewrite forallb_forall in H. specialize (H j Hj). apply Z.eqb_eq in H.
    unfold uu. rewrite dt_sc_l, rv_sub, rv_dt, H. ring.
Qed.
Lemma groupb_ok h h' I I' L L' : z_points h = z_points h' -> groupb h h' (I, I') = true ->
  Forall2 (face_of (rh h)) I L -> Forall2 (face_of (rh h')) I' L' -> retriangulated L L'.
Proof.
  intros Ep H F F'. destruct (choose h I L F) as (T & HT & HS), (choose h' I' L' F') as (T' & HT' & HS').
  unfold groupb in H; cbn [fst snd] in H. rewrite forallb_forall in H. specialize (H T HT). rewrite forallb_forall in H.
  specialize (H T' HT'). apply andb_true_iff in H. destruct H as [HP HC].
  assert (Ez : forall i, zpt h i = zpt h' i) by (intros; unfold zpt; now rewrite Ep).
  assert (HS2 : Forall2 (shape h) T' L').
  { clear -HS' Ez. induction HS' as [|[[a b] c] f T' L' [Q U] HS' IH]; constructor; auto. split.
    - rewrite Q. apply map_ext. intros i. now rewrite Ez.
    - rewrite U. unfold tnorm, znrm3. now rewrite !Ez. }
  split.
  - eapply shape_planar; [exact HP|]. now apply Forall2_app.
  - intros x y. rewrite (shape_edges h T L HS), (shape_edges h T' L' HS2).
    pose proof (cancelb_count (fun i => rv (zpt h i)) _ _ HC x y) as K. unfold pedges in K |- *.
    rewrite !map_app, !count_app, !map_map in K. cbn [fst snd] in K.
    assert (S : forall x y l, count x y (map (fun e : nat * nat => (rv (zpt h (snd e)), rv (zpt h (fst e)))) l) =
      count y x (map (fun e : nat * nat => (rv (zpt h (fst e)), rv (zpt h (snd e)))) l)).
    { clear. intros x y l. rewrite <- count_swap, map_map. reflexivity. }
    rewrite !S in K. lia.
Qed.

(** the two triangles of the side x = -10 correspond to each other, the others are
    the same in both; the constructor builds both bodies, and they differ *)
Definition same_sides : list (list nat * list nat) :=
  ([0; 1], [0; 1])%nat :: map (fun i => ([i], [i])) (seq 2 10).
Definition no_face : face RA := {| f_points := []; f_simplex := []; f_un := vzero; f_neighbors := []; f_nbr_simplices := []; f_edges := [] |}.
Definition fat (p : polyhedron RA) (i : nat) : face RA := nth i (pl_faces p) no_face.
Definition groups_at (p p' : polyhedron RA) (g : list (list nat * list nat)) : list (list (face RA) * list (face RA)) :=
  map (fun k => (map (fat p) (fst k), map (fat p') (snd k))) g.
Lemma fat_all p n : length (pl_faces p) = n -> pl_faces p = map (fat p) (seq 0 n).
Proof.
  intros H. apply (nth_ext _ _ no_face no_face).
  - now rewrite map_length, seq_length.
  - intros i Hi. rewrite (nth_indep (map (fat p) (seq 0 n)) no_face (fat p 0)) by (rewrite map_length, seq_length; lia).
    rewrite map_nth, seq_nth by lia. reflexivity.
Qed.
Example C15_case :
  build cubeZ = Ok cube /\ build cubeZ2 = Ok (body cubeZ2) /\ closed cube /\ closed (body cubeZ2) /\
  (* outside, inside, in the plane of a side, and at an inner point of a side *)
  (forall o g, o = o_out \/ o = o_in \/ o = o_plane \/ o = o_facet -> clear cube (rv o) g /\ clear (body cubeZ2) (rv o) g) /\
  ~ (exists f g, nth_error (pl_faces cube) 0 = Some f /\ nth_error (pl_faces (body cubeZ2)) 0 = Some g /\ f_points f = f_points g) /\
  exists groups, Permutation (pl_faces cube) (concat (map fst groups)) /\
  Permutation (pl_faces (body cubeZ2)) (concat (map snd groups)) /\
  forall L L', In (L, L') groups -> coplanar (L ++ L') /\ same_boundary L L'.
Proof.
  assert (Hb : hullb cubeZ = true) by (vm_compute; reflexivity).
  assert (Hb2 : hullb cubeZ2 = true) by (vm_compute; reflexivity).
  destruct (body_ok cubeZ Hb) as (E & Hc & HL & HF). destruct (body_ok cubeZ2 Hb2) as (E2 & Hc2 & HL2 & HF2).
  split; [exact E|]. split; [exact E2|]. split; [exact Hc|]. split; [exact Hc2|]. split.
  { intros o g [-> |[-> |[-> | ->]]]; split; refine (proj1 (clearb_ok _ _ _ g _)); vm_compute; reflexivity. }
  split.
  { intros (f & g & Hf & Hg & K). destruct (face_shape _ _ _ (HF _ _ Hf)) as (t & Ht & P & _).
    destruct (face_shape _ _ _ (HF2 _ _ Hg)) as (t' & Ht' & P' & _). rewrite P, P' in K.
    assert (Q : forallb (fun t => forallb (fun t' => negb (forallb (fun p => veqz (fst p) (snd p))
      (combine (map (zpt cubeZ) (tverts t)) (map (zpt cubeZ2) (tverts t'))))) (orders cubeZ2 0)) (orders cubeZ 0) = true) by (vm_compute; reflexivity).
    rewrite forallb_forall in Q. specialize (Q t Ht). rewrite forallb_forall in Q. specialize (Q t' Ht').
    apply negb_true_iff in Q. apply Bool.not_true_iff_false in Q. apply Q.
    assert (RI : forall a b : ZV, rv a = rv b -> veqz a b = true).
    { intros [a1 a2 a3] [b1 b2 b3] Z. unfold rv in Z; cbn [vx vy vz] in Z. injection Z as Z1 Z2 Z3. apply eq_IZR in Z1, Z2, Z3. subst.
      unfold veqz; cbn [vx vy vz]. now rewrite !Z.eqb_refl. }
    destruct t as [[a b] c], t' as [[a' b'] c']. cbn [tverts map] in K. 
    assert (J : forall x y z x' y' z' : V, [x; y; z] = [x'; y'; z'] -> x = x' /\ y = y' /\ z = z') by (clear; intros; repeat split; congruence).
    destruct (J _ _ _ _ _ _ K) as (K1 & K2 & K3).
    cbn [tverts map combine forallb fst snd]. rewrite (RI _ _ K1), (RI _ _ K2), (RI _ _ K3). reflexivity. }
  exists (groups_at cube (body cubeZ2) same_sides).
  assert (LE : length (z_simplices cubeZ) = 12%nat) by reflexivity. assert (LE2 : length (z_simplices cubeZ2) = 12%nat) by reflexivity.
  rewrite LE in HL. rewrite LE2 in HL2.
  assert (FA : forall I, (forall i, In i I -> (i < 12)%nat) -> Forall2 (face_of (rh cubeZ)) I (map (fat cube) I)).
  { induction I as [|i I IH]; intros HI; constructor; [|apply IH; intros; apply HI; now right].
    apply HF. apply nth_error_nth'. unfold cube in *. rewrite HL. apply HI. now left. }
  assert (FA2 : forall I, (forall i, In i I -> (i < 12)%nat) -> Forall2 (face_of (rh cubeZ2)) I (map (fat (body cubeZ2)) I)).
  { induction I as [|i I IH]; intros HI; constructor; [|apply IH; intros; apply HI; now right].
    apply HF2. apply nth_error_nth'. rewrite HL2. apply HI. now left. }
  split; [|split].
  - rewrite (fat_all cube 12 HL). reflexivity.
  - rewrite (fat_all (body cubeZ2) 12 HL2). reflexivity.
  - intros L L' Hin. unfold groups_at in Hin. apply in_map_iff in Hin. destruct Hin as ([I I'] & EL & HI).
    cbn [fst snd] in EL. injection EL as <- <-.
    assert (G : forallb (fun g => groupb cubeZ cubeZ2 g && forallb (fun i => Nat.ltb i 12) (fst g) && forallb (fun i => Nat.ltb i 12) (snd g)) same_sides = true)
      by (vm_compute; reflexivity).
    rewrite forallb_forall in G. specialize (G _ HI). apply andb_true_iff in G. destruct G as [G G3].
    apply andb_true_iff in G. destruct G as [G1 G2]. cbn [fst snd] in G2, G3. rewrite forallb_forall in G2, G3.
    apply (groupb_ok cubeZ cubeZ2 I I'); auto.
    + apply FA. intros i Hi. apply Nat.ltb_lt, G2, Hi.
    + apply FA2. intros i Hi. apply Nat.ltb_lt, G3, Hi.
Qed.

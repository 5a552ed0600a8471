(** * Property C19, exact form: repeated calls of Face.get_gravity without reset *)
From Coq Require Import Reals Lra ZArith Bool List Arith Lia.
Import ListNotations.
From Verif Require Import Base MUtils MEdge MFace MHull MPoly SpecPoly PPoly PStation PPlain PRepeat.
From Verif Require Import RVec RArith REdge REdgeModel RFace RPoly RHull RHullZ ExamplesR RLaws PropertiesR PropertiesT Examples.
Import ListNotations.
Local Open Scope list_scope.

Lemma F2_len {X Y} (P : X -> Y -> Prop) l l' : Forall2 P l l' -> length l = length l'.
Proof. induction 1; cbn; congruence. Qed.

(** the caches after calls with the given arguments (observer, density, constant) *)
Definition face_calls {A} tw fi (f : face A) (cs : list (vec A * num A * num A)) (s : pstate A) : pstate A :=
  fold_left (fun s c => snd (face_get_gravity tw (fst (fst c)) (snd (fst c)) (snd c) false fi f s)) cs s.

(** A new face is called at [o0], then with arguments [cs], then at [o].  [I :: Is]
    are the integrals of its edges at [o0].  The last call computes the solid angle
    at [o] but uses the integrals at [o0]: it sees neither [o] nor the observers of
    [cs] there, and every call adds the running total to itself before it adds all
    the edges but the first. *)
Theorem C19_repeated :
  forall (A : arith) tw fi (f : face A) (o0 : vec A) d0 G0 cs (o : vec A) d G I Is om,
  Forall2 (fun e I => edge_integral e o0 false = Ok (I, None)) (f_edges f) (I :: Is) ->
  (forall i, i < length (f_edges f) -> exists k, tw (fi, i) = Some k /\ fst k <> fi) ->
  (forall o', In o' (o0 :: map (fun c => fst (fst c)) cs) ->
     exists om', get_omega f o' (dot_point1 f o') (nsign (dot_point1 f o')) false = Ok om') ->
  get_omega f o (dot_point1 f o) (nsign (dot_point1 f o)) false = Ok om ->
  fst (face_get_gravity tw o d G false fi f (face_calls tw fi f ((o0, d0, G0) :: cs) pstate0)) =
  Ok (face_g (f_un f) d G (dot_point1 f o) (fst om)
        (Nat.iter (S (length cs)) (fun P => fold_left vadd Is (vadd P P)) (fold_left vadd Is I)), mzero).
Proof.
  intros A tw fi f o0 d0 G0 cs o d G I Is om HI Ht Hom Ho.
  assert (HL : length (f_edges f) = S (length Is)).
  { rewrite (F2_len _ _ _ HI); reflexivity. }
  assert (K : filled fi (face_calls tw fi f ((o0, d0, G0) :: cs) pstate0) (length (f_edges f)) (I :: Is)
                (Nat.iter (length cs) (fun P => fold_left vadd Is (vadd P P)) (fold_left vadd Is I))).
  { destruct (Hom o0 (or_introl eq_refl)) as [om0 H0].
    pose proof (proj2 (first_call tw fi o0 d0 G0 f om0 I Is HI Ht H0)) as K0.
    unfold face_calls. cbn [fold_left fst snd].
    set (F := fun P => fold_left vadd Is (vadd P P)) in *.
    assert (Hsw : forall n P, Nat.iter n F (F P) = F (Nat.iter n F P)).
    { intros n P. induction n as [|n IH]; [reflexivity|]. cbn [Nat.iter nat_rect]. change (Nat.iter n F (F P)) with (Nat.iter n F (F P)). f_equal. exact IH. }
    revert K0. generalize (snd (face_get_gravity tw o0 d0 G0 false fi f pstate0)). generalize (fold_left vadd Is I).
    assert (Hom' : forall c, In c cs -> exists om', get_omega f (fst (fst c)) (dot_point1 f (fst (fst c))) (nsign (dot_point1 f (fst (fst c)))) false = Ok om').
    { intros c Hc. apply Hom. right. apply in_map_iff. exists c. auto. }
    clear Hom HI. induction cs as [|c cs IH]; intros P s K0; cbn [fold_left length].
    - exact K0.
    - destruct (Hom' c (or_introl eq_refl)) as [omc Hc].
      pose proof (proj2 (further_call tw fi s (fst (fst c)) (snd (fst c)) (snd c) f omc I Is P HL K0 Hc)) as K1. cbv zeta in K1.
      specialize (IH (fun c' Hc' => Hom' c' (or_intror Hc')) _ _ K1).
      change (fold_left vadd Is (vadd P P)) with (F P) in IH. rewrite Hsw in IH. exact IH. }
  exact (proj1 (further_call tw fi _ o d G f om I Is _ HL K Ho)).
Qed.
Print Assumptions C19_repeated.
(** face 1 of the tetrahedron, called at three different observers *)
Example C19_repeated_case : exists f I Is om,
  nth_error (pl_faces tetra) 1 = Some f /\ length Is = 2 /\
  Forall2 (fun e I => edge_integral e (zv 30 17 11) false = Ok (I, None)) (f_edges f) (I :: Is) /\
  (forall i, i < length (f_edges f) -> exists k, pl_twin tetra (1, i) = Some k /\ fst k <> 1) /\
  (forall o', In o' [zv 30 17 11; zv 1 2 50] ->
     exists om', get_omega f o' (dot_point1 f o') (nsign (dot_point1 f o')) false = Ok om') /\
  get_omega f (zv 40 1 1) (dot_point1 f (zv 40 1 1)) (nsign (dot_point1 f (zv 40 1 1))) false = Ok om.
Proof.
  set (d := {| f_points := []; f_simplex := []; f_un := zv 0 0 0; f_neighbors := []; f_nbr_simplices := []; f_edges := [] |} : face ZA).
  set (de := {| e_simplex := (0, 0); e_start := zv 0 0 0; e_end := zv 0 0 0; e_vector := zv 0 0 0; e_length := 0%Z; e_twinface := 0 |} : edge ZA).
  set (f := nth 1 (pl_faces tetra) d). assert (L : length (f_edges f) = 3) by (vm_compute; reflexivity).
  set (v := fun i => match edge_integral (nth i (f_edges f) de) (zv 30 17 11) false with Ok (J, _) => J | Err _ => zv 0 0 0 end).
  set (w := fun o' => match get_omega f o' (dot_point1 f o') (nsign (dot_point1 f o')) false with Ok om => om | Err _ => (0%Z : num ZA, zv 0 0 0) end).
  exists f, (v 0), [v 1; v 2], (w (zv 40 1 1)).
  split; [apply nth_error_nth'; vm_compute; lia|]. split; [reflexivity|]. split; [|split; [|split]].
  - assert (E : f_edges f = [nth 0 (f_edges f) de; nth 1 (f_edges f) de; nth 2 (f_edges f) de]).
    { destruct (f_edges f) as [|a [|b [|c [|x l]]]]; cbn in L; try discriminate L. reflexivity. }
    rewrite E. repeat apply Forall2_cons; [vm_compute; reflexivity ..|apply Forall2_nil].
  - clearbody v w. rewrite L. intros i Hi. exists (match pl_twin tetra (1, i) with Some k => k | None => (0, 0) end).
    destruct i as [|[|[|i]]]; [split; [vm_compute; reflexivity|vm_compute; discriminate] ..|lia].
  - intros o' [<-|[<-|[]]]; [exists (w (zv 30 17 11))|exists (w (zv 1 2 50))]; vm_compute; reflexivity.
  - vm_compute. reflexivity.
Qed.

Local Open Scope R_scope.
(** Over the reals, for every body and every observer that is not a vertex: calling
    one facet again and again at the same observer, the n-th repetition is off by
    2^n - 1 times a fixed vector, the difference between the second and the first
    result. *)
Theorem C19_doubling :
  forall p fi f (o : V) density Gc, closed p -> nth_error (pl_faces p) fi = Some f -> ~ In o (f_points f) ->
  exists G D, forall n,
    fst (face_get_gravity (A := RA) (pl_twin p) o density Gc false fi f
           (face_calls (pl_twin p) fi f (repeat (o, density, Gc) n) pstate0)) =
    Ok ((G + (2 ^ n - 1) * D)%v, mzero (A := RA)).
Proof.
  intros p fi f o d Gc Hc Hf Hv.
  destruct (proj1 Hc f (nth_error_In _ _ Hf)) as (p1 & p2 & p3 & HF).
  destruct (omega_ok f p1 p2 p3 o false HF) as [om Hom].
  pose proof (proj1 (proj1 HF)) as Hpts. destruct HF as [HT (s1 & s2 & s3 & t1 & t2 & t3 & Hed)].
  assert (HE : forall e, In e (f_edges f) -> exists v, edge_integral (A := RA) e o false = Ok (v, None)).
  { intros e He. destruct (edge_nograd e o) as [[v od] Ev].
    - intros ->. apply Hv. rewrite Hpts. rewrite Hed in He. destruct He as [<-|[<-|[<-|[]]]]; cbn; auto.
    - pose proof (edge_integral_shape e o false _ Ev) as Hs. unfold shape in Hs. cbn [snd] in Hs. destruct od; [discriminate|]. eauto. }
  rewrite Hed in HE.
  destruct (HE _ (or_introl eq_refl)) as [I1 E1].
  destruct (HE _ (or_intror (or_introl eq_refl))) as [I2 E2].
  destruct (HE _ (or_intror (or_intror (or_introl eq_refl)))) as [I3 E3]. clear HE.
  assert (HI : Forall2 (fun e I => edge_integral (A := RA) e o false = Ok (I, None)) (f_edges f) [I1; I2; I3]).
  { rewrite Hed. repeat constructor; assumption. }
  assert (Ht : forall i, (i < length (f_edges f))%nat -> exists k, pl_twin p (fi, i) = Some k /\ fst k <> fi).
  { intros i Hi. destruct (nth_error (f_edges f) i) as [e|] eqn:Ei; [|apply nth_error_None in Ei; lia].
    destruct (proj2 Hc (fi, i) e) as (k' & e' & T1 & He' & _ & S1 & S2); [exists f; auto|].
    exists k'. split; [exact T1|]. intros Hk. destruct He' as (f' & Hf' & Hn'). rewrite Hk, Hf in Hf'. injection Hf' as <-.
    apply nth_error_In in Ei, Hn'. destruct HT as (_ & _ & Hnd & _). apply Hnd. rewrite Hed in Ei, Hn'.
    destruct Ei as [<-|[<-|[<-|[]]]], Hn' as [<-|[<-|[<-|[]]]]; cbn [e_start e_end mk_edge fst snd] in S1, S2; subst; vring. }
  pose (S0 := ((I1 + I2) + I3)%v). pose (B := fun P : V => face_g (A := RA) (f_un f) d Gc (dot_point1 (A := RA) f o) (fst om) P).
  exists (B S0), (B (S0 + (S0 + (I2 + I3)))%v + (- B S0))%v. intros n.
  assert (HN : fst (face_get_gravity (A := RA) (pl_twin p) o d Gc false fi f (face_calls (pl_twin p) fi f (repeat (o, d, Gc) n) pstate0)) =
    Ok (B (Nat.iter n (fun P : V => ((P + P) + I2) + I3)%v S0), mzero (A := RA))).
  { destruct n as [|n].
    - exact (proj1 (first_call (A := RA) (pl_twin p) fi o d Gc f om I1 [I2; I3] HI Ht Hom)).
    - cbn [repeat]. etransitivity; [apply (C19_repeated RA (pl_twin p) fi f o d Gc (repeat (o, d, Gc) n) o d Gc I1 [I2; I3] om HI Ht); [|exact Hom]|].
      + intros o' [<-|Ho']; [eauto|]. apply in_map_iff in Ho'. destruct Ho' as (c & <- & Hin). apply repeat_spec in Hin. subst c. eauto.
      + rewrite repeat_length. reflexivity. }
  etransitivity; [exact HN|]. f_equal. f_equal.
  assert (HP : Nat.iter n (fun P : V => ((P + P) + I2) + I3)%v S0 = (S0 + (2 ^ n - 1) * (S0 + (I2 + I3)))%v).
  { clear. induction n as [|n IH]; [cbn; vring|]. change (Nat.iter (S n) (fun P : V => ((P + P) + I2) + I3)%v S0) with ((((Nat.iter n (fun P : V => ((P + P) + I2) + I3)%v S0) + (Nat.iter n (fun P : V => ((P + P) + I2) + I3)%v S0)) + I2) + I3)%v.
    rewrite IH. cbn [pow]. vring. }
  rewrite HP. unfold B, face_g, face_bracket, face_factor. destruct (f_un f) as [L M N]. generalize (2 ^ n - 1). generalize (dot_point1 (A := RA) f o). generalize (fst om).
  change (num RA) with R. intros w dp k. clear. unfold S0. destruct I1 as [a1 b1 c1], I2 as [a2 b2 c2], I3 as [a3 b3 c3]. cbn. unfold vscale. cbn. change (num RA) with R in *. apply veq; unfold va, sc, vn, vmap; cbn [vmap vx vy vz]; ring.
Qed.
Print Assumptions C19_doubling.
(** the cube of side 20 and an observer outside; the vertices are at coordinates 0 and 20 *)
Example C19_doubling_case : exists f, nth_error (pl_faces cube) 3 = Some f /\ closed cube /\ ~ In (rv o_out) (f_points f).
Proof.
  assert (L : length (pl_faces cube) = 12%nat) by (apply (body_ok cubeZ); vm_compute; reflexivity).
  destruct (nth_error (pl_faces cube) 3) as [f|] eqn:E; [|apply nth_error_None in E; lia].
  exists f. split; [reflexivity|]. split; [apply cube_closed|]. intros Hin.
  destruct (C30_no_exception cube (rv o_out) 1 1 false pstate0 cube_closed (regular_clear _ _ _ cube_closed cube_out) (reach_new _)) as (G & T & EG).
  rewrite (C29_vertex_raises cube (rv o_out) 1 1 false pstate0 cube_closed (reach_new _)) in EG; [discriminate|].
  exists f. split; [exact (nth_error_In _ _ E)|exact Hin].
Qed.

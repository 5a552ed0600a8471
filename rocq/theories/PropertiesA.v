(** * Properties C16-C24: history, aliasing, Station (every arithmetic) *)
From Coq Require Import List ZArith Bool Arith.
Import ListNotations.
From Verif Require Import MReset PReset.
From Verif Require Import Base MUtils MEdge MFace MHull MPoly SpecPoly PPoly PStation Examples.

(** ** C16: the outcome of get_gravity after any history of calls that returned
    normally is the outcome on a newly built polyhedron. *)
Theorem C16_history_independent :
  forall (A : arith) (p : polyhedron A) (s : pstate A),
  reachable p s ->
  forall obs density Gc gradient,
  fst (get_gravity p obs density Gc gradient s) =
  fst (get_gravity p obs density Gc gradient pstate0).
Proof. intros. exact (history_independent p obs density Gc gradient s H). Qed.
Print Assumptions C16_history_independent.

(** a tetrahedron after a call with gradient and a call without: the state
    differs from the initial one and is reachable *)
Example C16_case :
  let s1 := snd (get_gravity tetra (zv 30 17 11) (1%Z : num ZA) 1%Z true pstate0) in
  let s2 := snd (get_gravity tetra (zv (-5) 9 40) (3%Z : num ZA) 1%Z false s1) in
  reachable tetra s2 /\ length (hv s2) <> 0 /\
  exists r, fst (get_gravity tetra (zv 30 17 11) (1%Z : num ZA) 1%Z true s2) = Ok r.
Proof.
  split; [|split; [vm_compute; discriminate|eexists; vm_compute; reflexivity]].
  eapply reach_call; [eapply reach_call; [apply reach_new|]|];
    rewrite (surjective_pairing (get_gravity _ _ _ _ _ _)); f_equal; vm_compute; reflexivity.
Qed.

(** ** C17: one call computes the stateless specification of SpecPoly.v,
    whatever the twin relation, the observer and the arithmetic. *)
Theorem C17_aliasing_harmless :
  forall (A : arith) (p : polyhedron A) (s : pstate A),
  reachable p s ->
  forall obs density Gc gradient,
  fst (get_gravity p obs density Gc gradient s) =
  spec_gravity p obs density Gc gradient.
Proof.
  intros. rewrite (history_independent p obs density Gc gradient s H). apply fresh_spec.
Qed.
Print Assumptions C17_aliasing_harmless.

Example C17_case : exists r,
  spec_gravity tetra (zv 30 17 11) (1%Z : num ZA) 1%Z true = Ok r /\ fst r <> vzero.
Proof. eexists. split; vm_compute; [reflexivity|discriminate]. Qed.

(** ** C18: refuted.  After a call that raised, a later call may return a value
    that a fresh polyhedron would not return. *)
Theorem C18_failed_call_corrupts_refuted :
  exists (A : arith) (p : polyhedron A) obs1 obs2 density Gc gradient e r r',
  fst (get_gravity p obs1 density Gc gradient pstate0) = Err e /\
  fst (get_gravity p obs2 density Gc gradient
         (snd (get_gravity p obs1 density Gc gradient pstate0))) = Ok r /\
  fst (get_gravity p obs2 density Gc gradient pstate0) = Ok r' /\
  r <> r'.
Proof.
  exists ZA, tetra, (zv 0 0 0), (zv 30 17 11), 1%Z, 1%Z, true.
  eexists. eexists. eexists.
  repeat apply conj; [vm_compute; reflexivity ..| vm_compute; discriminate].
Qed.
Print Assumptions C18_failed_call_corrupts_refuted.

(** What does hold: whatever state exceptions left, a call that returns
    normally makes every later call right again. *)
Theorem C18_normal_return_heals_partial :
  forall (A : arith) (p : polyhedron A) (s s' : pstate A) obs density Gc gradient r,
  get_gravity p obs density Gc gradient s = (Ok r, s') ->
  forall obs' density' Gc' gradient',
  fst (get_gravity p obs' density' Gc' gradient' s') =
  fst (get_gravity p obs' density' Gc' gradient' pstate0).
Proof.
  intros. exact (clean_outcome _ _ _ _ _ _ (get_gravity_clean _ _ _ _ _ _ _ _ H)).
Qed.
Print Assumptions C18_normal_return_heals_partial.

Example C18_case :
  let s := snd (get_gravity tetra (zv 0 0 0) (1%Z : num ZA) 1%Z true pstate0) in
  exists r, fst (get_gravity tetra (zv 30 17 11) (1%Z : num ZA) 1%Z true s) = Ok r.
Proof. eexists. vm_compute. reflexivity. Qed.

(** Also: whatever happened before (any caches, any heap), Polyhedron.reset()
    makes every later call right. *)
Theorem C18_reset_heals_partial :
  forall (A : arith) (p : polyhedron A) (s : pstate A) obs density Gc gradient,
  fst (get_gravity p obs density Gc gradient (snd (polyhedron_reset p s))) =
  fst (get_gravity p obs density Gc gradient pstate0).
Proof. intros. apply poly_after_reset. Qed.
Print Assumptions C18_reset_heals_partial.
Example C18_reset_case :
  let s := snd (get_gravity tetra (zv 0 0 0) (1%Z : num ZA) 1%Z true pstate0) in
  exists r r', fst (get_gravity tetra (zv 30 17 11) (1%Z : num ZA) 1%Z true s) = Ok r /\
  fst (get_gravity tetra (zv 30 17 11) (1%Z : num ZA) 1%Z true (snd (polyhedron_reset tetra s))) = Ok r' /\ r <> r'.
Proof. eexists. eexists. repeat apply conj; [vm_compute; reflexivity ..| vm_compute; discriminate]. Qed.

(** ** C19: refuted.  Face.get_gravity twice with the same arguments. *)
Theorem C19_face_repeat_refuted :
  exists (A : arith) (p : polyhedron A) fi f obs density Gc gradient r r',
  nth_error (pl_faces p) fi = Some f /\
  fst (face_get_gravity (pl_twin p) obs density Gc gradient fi f pstate0) = Ok r /\
  fst (face_get_gravity (pl_twin p) obs density Gc gradient fi f
         (snd (face_get_gravity (pl_twin p) obs density Gc gradient fi f pstate0))) = Ok r' /\
  r <> r'.
Proof.
  exists ZA, tetra, 1. eexists. exists (zv 30 17 11), 1%Z, 1%Z, true.
  eexists. eexists.
  repeat apply conj; [vm_compute; reflexivity ..| vm_compute; discriminate].
Qed.
Print Assumptions C19_face_repeat_refuted.

(** What does hold: after Face.reset(), whatever happened before (calls on this
    face, on its neighbours, on the polyhedron, with other observers, or calls
    that raised), the next call returns what it returns on a new object. *)
Theorem C19_reset_repeat_partial :
  forall (A : arith) tw fi (f : face A) (s : pstate A) obs density Gc gradient,
  fst (face_get_gravity tw obs density Gc gradient fi f (snd (face_reset (fi, f) s))) =
  fst (face_get_gravity tw obs density Gc gradient fi f pstate0).
Proof. intros. apply face_after_reset. Qed.
Print Assumptions C19_reset_repeat_partial.
Example C19_case :
  let f := nth 1 (pl_faces tetra) (nth 0 (pl_faces tetra) {| f_points := []; f_simplex := []; f_un := vzero; f_neighbors := []; f_nbr_simplices := []; f_edges := [] |}) in
  let call s := face_get_gravity (pl_twin tetra) (zv 30 17 11) (1%Z : num ZA) 1%Z true 1 f s in
  exists r r', fst (call pstate0) = Ok r /\ fst (call (snd (call pstate0))) = Ok r' /\ r <> r' /\
    fst (call (snd (face_reset (1, f) (snd (call pstate0))))) = Ok r.
Proof. eexists. eexists. repeat apply conj; [vm_compute; reflexivity ..| vm_compute; discriminate | vm_compute; reflexivity]. Qed.

(** ** C20: superposition over a list of bodies, in list order. *)
Theorem C20_superposition :
  forall (A : arith) (w : world A) (st : station A) ids density Gc gradient gts,
  world_ok w ->
  mapM (fun id => fst (get_gravity (w_poly w id) (st_coord st) density Gc gradient pstate0))
       ids = Ok gts ->
  exists w' st',
    compute_gravity w st (ArgList (map PyPoly ids)) density Gc gradient = (Ok tt, w', st') /\
    st_G st' = fold_left vadd (map fst gts) (st_G st) /\
    st_T st' = fold_left madd (map snd gts) (st_T st) /\
    st_coord st' = st_coord st /\
    w_poly w' = w_poly w /\ world_ok w'.
Proof.
  intros A w st ids density Gc gradient gts Hw E.
  destruct (compute_gravity_list w st ids density Gc gradient gts Hw E) as [w' [E' [Hp [Ho _]]]].
  exists w'. eexists. split; [exact E'|]. simpl. auto.
Qed.
Print Assumptions C20_superposition.

Definition tetra_world : world ZA :=
  {| w_poly := fun _ => tetra; w_state := fun _ => pstate0 |}.
Lemma tetra_world_ok : world_ok tetra_world.
Proof. intros i. apply reach_new. Qed.

(** the same object twice and another one *)
Example C20_case : exists g1 g2 g3,
  mapM (fun id => fst (get_gravity (w_poly tetra_world id) (zv 30 17 11)
                         (1%Z : num ZA) 1%Z true pstate0)) [4; 7; 4] = Ok [g1; g2; g3] /\
  fst g1 <> vzero.
Proof. do 3 eexists. split; vm_compute; [reflexivity|discriminate]. Qed.

(** A single body instead of a list is the one-element list. *)
Theorem C20_single_body :
  forall (A : arith) (w : world A) st id density Gc gradient,
  compute_gravity w st (ArgOne (PyPoly id)) density Gc gradient =
  compute_gravity w st (ArgList [PyPoly id]) density Gc gradient.
Proof. exact @compute_gravity_one. Qed.
Print Assumptions C20_single_body.

(** ** C21: any sequence of successful calls accumulates. *)
Theorem C21_accumulation :
  forall (A : arith) (w : world A) (st : station A) (cs : list scall) gtss,
  world_ok w ->
  mapM (fun c => mapM (fun id => fst (get_gravity (w_poly w id) (st_coord st)
                          (sc_density c) (sc_Gc c) (sc_gradient c) pstate0)) (sc_ids c)) cs
    = Ok gtss ->
  exists w' st',
    run_calls w st cs = (Ok tt, w', st') /\
    st_G st' = fold_left vadd (map fst (concat gtss)) (st_G st) /\
    st_T st' = fold_left madd (map snd (concat gtss)) (st_T st).
Proof.
  intros A w st cs gtss Hw E.
  destruct (run_calls_sum cs w st gtss Hw E) as [w' [E' _]].
  exists w'. eexists. split; [exact E'|]. simpl. auto.
Qed.
Print Assumptions C21_accumulation.

Example C21_case : exists a b c,
  mapM (fun c => mapM (fun id => fst (get_gravity (w_poly tetra_world id) (zv 30 17 11)
          (sc_density c) (sc_Gc c) (sc_gradient c) pstate0)) (sc_ids c))
    [ {| sc_ids := [1;2]; sc_density := 1%Z : num ZA; sc_Gc := 1%Z; sc_gradient := true |};
      {| sc_ids := [1]; sc_density := (5%Z : num ZA); sc_Gc := 1%Z; sc_gradient := false |} ]
  = Ok [[a; b]; [c]].
Proof. do 3 eexists. vm_compute. reflexivity. Qed.

(** ** C22: the argument check precedes every effect, and only it. *)
Theorem C22_argument_check :
  forall (A : arith) (w : world A) (st : station A) l density Gc gradient,
  (In PyOther l ->
   compute_gravity w st (ArgList l) density Gc gradient = (Err TypeError, w, st)) /\
  (compute_gravity w st (ArgOne PyOther) density Gc gradient = (Err TypeError, w, st)) /\
  (~ In PyOther l ->
   exists ids, l = map PyPoly ids /\
   compute_gravity w st (ArgList l) density Gc gradient =
   station_loop density Gc gradient (map PyPoly ids) w st).
Proof. exact @compute_gravity_check. Qed.
Print Assumptions C22_argument_check.

Example C22_case : In PyOther [PyPoly 1; PyOther; PyPoly 2] /\ ~ In PyOther [PyPoly 1; PyPoly 2].
Proof. simpl. intuition discriminate. Qed.

(** ** C23: an exception in the middle of the list. *)
Theorem C23_prefix_sum :
  forall (A : arith) (w : world A) (st : station A) pre id post density Gc gradient gts e,
  world_ok w ->
  mapM (fun id => fst (get_gravity (w_poly w id) (st_coord st) density Gc gradient pstate0))
       pre = Ok gts ->
  fst (get_gravity (w_poly w id) (st_coord st) density Gc gradient pstate0) = Err e ->
  exists w' st',
    compute_gravity w st (ArgList (map PyPoly (pre ++ id :: post))) density Gc gradient
      = (Err e, w', st') /\
    st_G st' = fold_left vadd (map fst gts) (st_G st) /\
    st_T st' = fold_left madd (map snd gts) (st_T st) /\
    (forall j, ~ In j pre -> j <> id -> w_state w' j = w_state w j).
Proof.
  intros A w st pre id post density Gc gradient gts e Hw E1 E2.
  destruct (compute_gravity_prefix w st pre id post density Gc gradient gts e Hw E1 E2)
    as [w' [E' [_ Hu]]].
  exists w'. eexists. split; [exact E'|]. simpl. auto.
Qed.
Print Assumptions C23_prefix_sum.

(** a good body, then one with a vertex at the station, then another *)
Definition shifted_points : list (vec ZA) :=
  [zv 30 17 11; zv 42 17 11; zv 30 29 11; zv 30 17 23].
Definition shifted : polyhedron ZA :=
  match mk_polyhedron (fun _ => Ok {| h_points := shifted_points;
      h_simplices := h_simplices tetra_hull; h_neighbors := h_neighbors tetra_hull;
      h_vertices := h_vertices tetra_hull |}) (fun _ _ => true) shifted_points
  with Ok p => p | Err _ => empty_poly end.
Definition mixed_world : world ZA :=
  {| w_poly := fun i => if Nat.eqb i 2 then shifted else tetra; w_state := fun _ => pstate0 |}.
Example C23_case : exists g,
  mapM (fun id => fst (get_gravity (w_poly mixed_world id) (zv 30 17 11)
                        (1%Z : num ZA) 1%Z true pstate0)) [1] = Ok [g] /\
  fst (get_gravity (w_poly mixed_world 2) (zv 30 17 11) (1%Z : num ZA) 1%Z true pstate0)
    = Err ZeroDivisionError.
Proof. eexists. split; vm_compute; reflexivity. Qed.

(** ** C24: the gradient flag does not change G; T is zero without it. *)
Theorem C24_gradient_flag :
  forall (A : arith) (p : polyhedron A) obs density Gc G T,
  fst (get_gravity p obs density Gc true pstate0) = Ok (G, T) ->
  exists T0, fst (get_gravity p obs density Gc false pstate0) = Ok (G, T0) /\
             (@nadd A n0 n0 = n0 -> T0 = mzero).
Proof. exact @gradient_flag. Qed.
Print Assumptions C24_gradient_flag.

Example C24_case : (exists r,
  fst (get_gravity tetra (zv 30 17 11) (1%Z : num ZA) 1%Z true pstate0) = Ok r /\
  snd r <> mzero) /\ @nadd ZA n0 n0 = n0.
Proof. split; [eexists; split; vm_compute; [reflexivity|discriminate]|reflexivity]. Qed.

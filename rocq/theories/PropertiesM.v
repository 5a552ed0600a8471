(** * Properties C77 and C78: threads and interruptions *)
From Coq Require Import List ZArith Bool Arith Lia.
Import ListNotations.
From Verif Require Import Base MUtils MEdge MFace MHull MPoly MReset PPoly PStation PReset MThread PThread Examples.

(** the memory as MPoly.v sees it *)
Definition world_of {A} (polys : nat -> polyhedron A) (m : mem A) : world A := {| w_poly := polys; w_state := bodies m |}.

Lemma t_loop_uses {A} (call : nat -> vec A -> prog (vec A * mat A)) sid ids : forall (B : nat -> Prop),
  (forall i, In i ids -> B i) -> (forall i o, uses (is_id i) none (call i o)) -> uses B (eq sid) (t_loop call sid ids).
Proof.
  induction ids as [|i ids IH]; intros B HB Hc; [exact I|]. cbn [t_loop uses]. split; [reflexivity|]. intros st.
  apply uses_bind.
  - assert (K : forall X (p : prog (A := A) X), uses (is_id i) none p -> uses B (eq sid) p).
    { intros X p. induction p as [r|j Y o k IHp|j f k IHp]; cbn [uses]; intros Hp; auto.
      - destruct Hp as [E Hk]. split; [red in E; subst; apply HB; left; reflexivity|auto].
      - destruct Hp as [[] _]. }
    apply K, Hc.
  - intros GT. cbn [uses]. repeat (split; [reflexivity|]; intros). apply IH; [intros; apply HB; right; assumption|exact Hc].
Qed.

(** one call of compute_gravity on its own is that of MPoly.v *)
Lemma t_loop_run {A} (polys : nat -> polyhedron A) d Gc g sid ids : forall (m : mem A) (w : world A),
  w_poly w = polys -> (forall i, bodies m i = w_state w i) ->
  let q := run (t_compute polys sid ids d Gc g) m in
  let '(r, w', st') := station_loop d Gc g (map PyPoly ids) w (stations m sid) in
  fst q = r /\ (forall i, bodies (snd q) i = w_state w' i) /\ stations (snd q) sid = st' /\
  (forall j, j <> sid -> stations (snd q) j = stations m j).
Proof.
  unfold t_compute. set (call := fun id obs => t_get_gravity id (polys id) obs d Gc g).
  induction ids as [|i ids IH]; intros m w Hp Hb; cbv zeta; cbn [map station_loop t_loop].
  - cbn. auto.
  - cbn [run]. rewrite run_bind.
    set (m1 := set_station m sid (stations m sid)).
    destruct (mir_gravity i (polys i) (st_coord (stations m sid)) d Gc g) as [U Hm].
    specialize (Hm m1). fold (call i (st_coord (stations m sid))) in Hm, U.
    assert (F : (forall j, j <> i -> bodies (snd (run (call i (st_coord (stations m sid))) m1)) j = bodies m1 j) /\
                (forall j, stations (snd (run (call i (st_coord (stations m sid))) m1)) j = stations m1 j)).
    { destruct (steps_end (call i (st_coord (stations m sid))) m1) as [n Hn].
      destruct (steps_frame _ _ n _ m1 U) as (_ & F1 & F2). rewrite Hn in F1, F2. cbn [snd] in F1, F2.
      split; intros j; [intros Hj; apply F1; unfold is_id; congruence|apply F2; intros []]. }
    destruct F as [F1 F2]. rewrite Hp, <- Hb.
    change (bodies m1 i) with (bodies m i) in Hm. destruct Hm as [E1 E2].
    assert (Hs1 : forall j, stations m1 j = stations m j).
    { intros j. unfold m1. cbn [set_station stations]. unfold put. destruct (Nat.eqb_spec j sid); congruence. }
    assert (Hb1 : forall j, bodies (snd (run (call i (st_coord (stations m sid))) m1)) j =
      w_state (wset w i (snd (get_gravity (polys i) (st_coord (stations m sid)) d Gc g (bodies m i)))) j).
    { intros j. cbn [wset w_state]. destruct (Nat.eqb_spec j i) as [->|Hj]; [exact E2|]. rewrite F1 by exact Hj. apply Hb. }
    destruct (run (call i (st_coord (stations m sid))) m1) as [r m2]. cbn [fst snd] in *.
    destruct (get_gravity (polys i) (st_coord (stations m sid)) d Gc g (bodies m i)) as [r0 s']. cbn [fst snd] in *. subst r.
    destruct r0 as [[G T]|e].
    + cbn [run fst snd].
      set (m3 := set_station (set_station m2 sid _) sid _).
      specialize (IH m3 (wset w i s')). rewrite wset_poly in IH. specialize (IH Hp). specialize (IH Hb1). cbv zeta in IH.
      assert (Est : stations m3 sid = {| st_coord := st_coord (stations m sid); st_G := vadd (st_G (stations m sid)) G; st_T := madd (st_T (stations m sid)) T |}).
      { unfold m3. cbn [set_station stations]. rewrite !put_same, F2, Hs1. reflexivity. }
      rewrite Est in IH. destruct (station_loop d Gc g (map PyPoly ids) _ _) as [[r w'] st']. destruct IH as (K1 & K2 & K3 & K4).
      split; [exact K1|]. split; [exact K2|]. split; [exact K3|]. intros j Hj. rewrite K4 by exact Hj.
      unfold m3. cbn [set_station stations]. rewrite !put_other by exact Hj. rewrite F2. apply Hs1.
    + split; [reflexivity|]. split; [exact Hb1|]. split; [rewrite F2; apply Hs1|]. intros j _. rewrite F2. apply Hs1.
Qed.

(** ** C77: threads that use different bodies and stations *)
(** Thread [i] calls compute_gravity of station [i] with the bodies [ids i].  No body
    is used by two threads.  Under every schedule, as soon as the call of a thread
    has ended it returned or raised what it does when it runs alone from the start,
    and left its station and its bodies in the same state; and it does end when the
    thread gets enough steps, whatever the others do. *)
Theorem C77_separate_threads :
  forall (A : arith) (polys : nat -> polyhedron A) (ids : nat -> list nat) (d Gc : nat -> num A) (g : nat -> bool) (m : mem A),
  (forall i j x, i <> j -> In x (ids i) -> ~ In x (ids j)) ->
  let start := (fun i => t_compute polys i (ids i) (d i) (Gc i) (g i), m) in
  forall i, let '(r, w', st') := compute_gravity (world_of polys m) (stations m i) (ArgList (map PyPoly (ids i))) (d i) (Gc i) (g i) in
  (forall sch r', fst (exec sch start) i = PRet r' ->
     r' = r /\ stations (snd (exec sch start)) i = st' /\
     forall x, In x (ids i) -> bodies (snd (exec sch start)) x = w_state w' x) /\
  exists n, forall sch, n <= count_occ Nat.eq_dec sch i -> fst (exec sch start) i = PRet r.
Proof.
  intros A polys ids d Gc g m Hd. cbv zeta. intros i. unfold compute_gravity. rewrite is_poly_map. cbn [negb].
  pose proof (t_loop_run polys (d i) (Gc i) (g i) i (ids i) m (world_of polys m) eq_refl (fun _ => eq_refl)) as R. cbv zeta in R.
  destruct (station_loop _ _ _ _ _ _) as [[r w'] st']. destruct R as (R1 & R2 & R3 & _).
  set (P := fun i => t_compute polys i (ids i) (d i) (Gc i) (g i)).
  assert (K : forall sch, let q := steps (count_occ Nat.eq_dec sch i) (P i) m in
     fst (exec sch (P, m)) i = fst q /\ same (fun x => In x (ids i)) (eq i) (snd (exec sch (P, m))) (snd q)).
  { intros sch. refine (exec_alone (fun i x => In x (ids i)) (fun i => eq i) sch P m _ _ _ i).
    - intros j. unfold P, t_compute. apply t_loop_uses; [auto|]. intros x o. apply mir_gravity.
    - exact Hd.
    - intros a b x Hab <- E. congruence. }
  split.
  - intros sch r' E. destruct (K sch) as [K1 [K2 K3]]. rewrite E in K1.
    destruct (steps (count_occ Nat.eq_dec sch i) (P i) m) as [p' m'] eqn:Es. cbn [fst snd] in *. subst p'.
    apply steps_run in Es. unfold P in Es. rewrite Es in R1, R2, R3. cbn [fst snd] in *. split; [exact R1|].
    split; [rewrite (K3 i eq_refl); exact R3|]. intros x Hx. rewrite (K2 x Hx). apply R2.
  - destruct (steps_end (P i) m) as [n Hn]. exists n. intros sch Hs. destruct (K sch) as [K1 _]. rewrite K1.
    replace (count_occ Nat.eq_dec sch i) with (n + (count_occ Nat.eq_dec sch i - n)) by lia.
    rewrite steps_add, Hn. cbn [fst snd]. rewrite steps_ret. cbn [fst]. unfold P. now rewrite R1.
Qed.
Print Assumptions C77_separate_threads.

Definition tetras : nat -> polyhedron ZA := fun _ => tetra.
Definition mem0 (c : nat -> vec ZA) : mem ZA := {| bodies := fun _ => pstate0; stations := fun i => mk_station (c i) |}.
Definition two_obs (i : nat) : vec ZA := if Nat.eqb i 0 then zv 30 17 11 else zv (-5) 9 40.
(** two threads, two bodies, one step each in turn *)
Fixpoint alternate (n : nat) : list nat := match n with O => [] | S n => 0 :: 1 :: alternate n end.
Example C77_case :
  let ids i := match i with 0 => [0] | 1 => [1] | _ => [] end in
  let start := (fun i => t_compute tetras i (ids i) (2%Z : num ZA) (1%Z : num ZA) true, mem0 two_obs) in
  (forall i j x, i <> j -> In x (ids i) -> ~ In x (ids j)) /\
  fst (exec (alternate 400) start) 0 = PRet (Ok tt) /\ fst (exec (alternate 400) start) 1 = PRet (Ok tt) /\
  st_G (stations (snd (exec (alternate 400) start)) 0) <> st_G (stations (snd (exec (alternate 400) start)) 1).
Proof.
  cbv zeta. split; [intros [|[|i]] [|[|j]] x Hij; cbn; intuition lia|].
  split; [vm_compute; reflexivity|]. split; [vm_compute; reflexivity|]. vm_compute. discriminate.
Qed.

(** With one body for both threads the claim is false: the second thread runs
    entirely between two steps of the first.  Both calls return, both stations hold
    values that neither has when it runs alone. *)
Definition one_body (g : bool) : pool (A := ZA) unit * mem ZA :=
  (fun i => t_compute tetras i [0] (2%Z : num ZA) (1%Z : num ZA) g, mem0 two_obs).
Definition inside (k : nat) : list nat := repeat 0 k ++ repeat 1 400 ++ repeat 0 400.
Theorem C77_shared_body_refuted :
  exists (A : arith) (polys : nat -> polyhedron A) d Gc g (m : mem A) sch,
  let start := (fun i => t_compute polys i [0] d Gc g, m) in
  let alone i := snd (compute_gravity (world_of polys m) (stations m i) (ArgList [PyPoly 0]) d Gc g) in
  (forall i, bodies m i = pstate0) /\
  (forall i, i < 2 -> fst (exec sch start) i = PRet (Ok tt) /\ stations (snd (exec sch start)) i <> alone i).
Proof.
  exists ZA, tetras, (2%Z : num ZA), (1%Z : num ZA), false, (mem0 two_obs), (inside 100). cbv zeta.
  split; [reflexivity|]. intros [|[|i]] Hi; [..|lia]; (split; [vm_compute; reflexivity|]);
    intros E; apply (f_equal (fun st => vx (st_G st))) in E; vm_compute in E; discriminate.
Qed.
Print Assumptions C77_shared_body_refuted.
(** ... or one of them raises an exception that the library raises for missing
    preparation, though it was prepared. *)
Theorem C77_shared_body_raises_refuted :
  exists (A : arith) (polys : nat -> polyhedron A) d Gc g (m : mem A) sch sch',
  let start := (fun i => t_compute polys i [0] d Gc g, m) in
  (forall i, bodies m i = pstate0) /\
  (forall i, fst (fst (compute_gravity (world_of polys m) (stations m i) (ArgList [PyPoly 0]) d Gc g)) = Ok tt) /\
  fst (exec sch start) 0 = PRet (Err NotImplementedError) /\ fst (exec sch' start) 0 = PRet (Err TypeError).
Proof.
  exists ZA, tetras, (2%Z : num ZA), (1%Z : num ZA), false, (mem0 two_obs), (inside 10), (inside 34). cbv zeta.
  split; [reflexivity|]. split; [|split; vm_compute; reflexivity].
  intros [|i]; vm_compute; reflexivity.
Qed.
Print Assumptions C77_shared_body_raises_refuted.

(** With a lock around each get_gravity, bodies may be shared: for any threads, any
    bodies and any schedule, if every body has gravity for every observer that uses
    it, no call raises, and a thread that has ended has what it gets alone. *)
Section Locked.
  Context {A : arith}.
  Variables (polys : nat -> polyhedron A) (sid : nat) (d Gc : num A) (g : bool) (c : vec A) (G1 : vec A) (T1 : mat A).
  Let call := fun id obs => op id (get_gravity (polys id) obs d Gc g).
  Let fresh := fun id => fst (get_gravity (polys id) c d Gc g pstate0).
  Let addG (GT : vec A * mat A) (st : station A) := {| st_coord := st_coord st; st_G := vadd (st_G st) (fst GT); st_T := st_T st |}.
  Let addT (GT : vec A * mat A) (st : station A) := {| st_coord := st_coord st; st_G := st_G st; st_T := madd (st_T st) (snd GT) |}.
  Let rest GT ids := PStat sid (addG GT) (fun _ => PStat sid (addT GT) (fun _ => t_loop call sid ids)).
  (** where a thread is, and what is still to be added to its station *)
  Inductive at_point : prog (A := A) unit -> station A -> Prop :=
  | at_loop ids gts st : st_coord st = c -> mapM fresh ids = Ok gts ->
      fold_left vadd (map fst gts) (st_G st) = G1 -> fold_left madd (map snd gts) (st_T st) = T1 ->
      at_point (t_loop call sid ids) st
  | at_call id ids gt gts st : st_coord st = c -> fresh id = Ok gt -> mapM fresh ids = Ok gts ->
      fold_left vadd (map fst (gt :: gts)) (st_G st) = G1 -> fold_left madd (map snd (gt :: gts)) (st_T st) = T1 ->
      at_point (PBody id (get_gravity (polys id) c d Gc g) (fun GT => rest GT ids)) st
  | at_G gt ids gts st : st_coord st = c -> mapM fresh ids = Ok gts ->
      fold_left vadd (map fst (gt :: gts)) (st_G st) = G1 -> fold_left madd (map snd (gt :: gts)) (st_T st) = T1 ->
      at_point (rest gt ids) st
  | at_T gt ids gts st : st_coord st = c -> mapM fresh ids = Ok gts ->
      fold_left vadd (map fst gts) (st_G st) = G1 -> fold_left madd (map snd (gt :: gts)) (st_T st) = T1 ->
      at_point (PStat sid (addT gt) (fun _ => t_loop call sid ids)) st.
  Lemma at_step p (m : mem A) : (forall i, reachable (polys i) (bodies m i)) -> at_point p (stations m sid) ->
    at_point (fst (step p m)) (stations (snd (step p m)) sid) /\
    (forall i, reachable (polys i) (bodies (snd (step p m)) i)) /\
    (forall j, j <> sid -> stations (snd (step p m)) j = stations m j).
  Proof.
    intros Hr Hp. remember (stations m sid) as st0 eqn:Est.
    destruct Hp as [ids gts st Hc Hm HG HT|id ids gt gts st Hc Hf Hm HG HT|gt ids gts st Hc Hm HG HT|gt ids gts st Hc Hm HG HT].
    - destruct ids as [|id ids]; cbn [t_loop].
      + cbn [step fst snd pret]. rewrite <- Est. split; [|auto]. exact (at_loop [] gts st Hc Hm HG HT).
      + cbn [mapM] in Hm. destruct (fresh id) as [gt|] eqn:Ef; cbn [bind] in Hm; [|discriminate].
        destruct (mapM fresh ids) as [gts'|] eqn:Em; cbn [bind] in Hm; [|discriminate]. injection Hm as <-.
        cbn [step fst snd set_station stations bodies]. rewrite put_same, <- Est. split.
        * unfold call, op. cbn [pbind]. rewrite Hc. exact (at_call id ids gt gts' st Hc Ef Em HG HT).
        * split; [exact Hr|]. intros j Hj. apply put_other, Hj.
    - cbn [step]. pose proof (history_independent (polys id) c d Gc g _ (Hr id)) as Hi. unfold fresh_outcome in Hi. unfold fresh in Hf. rewrite Hf in Hi.
      destruct (get_gravity (polys id) c d Gc g (bodies m id)) as [r s] eqn:Eg. cbn [fst] in Hi. subst r.
      cbn [fst snd set_body stations bodies]. rewrite <- Est. split; [exact (at_G gt ids gts st Hc Hm HG HT)|]. split; [|reflexivity].
      intros i. unfold put. destruct (Nat.eqb_spec i id) as [->|_]; [|apply Hr]. exact (reach_call _ _ _ _ _ _ _ _ (Hr id) Eg).
    - unfold rest. cbn [step fst snd set_station stations bodies]. rewrite put_same, <- Est. split.
      + apply (at_T gt ids gts); [exact Hc|exact Hm|exact HG|exact HT].
      + split; [exact Hr|]. intros j Hj. apply put_other, Hj.
    - cbn [step fst snd set_station stations bodies]. rewrite put_same, <- Est. split.
      + apply (at_loop ids gts); [exact Hc|exact Hm|exact HG|exact HT].
      + split; [exact Hr|]. intros j Hj. apply put_other, Hj.
  Qed.
  Lemma at_end r st : at_point (PRet r) st -> r = Ok tt /\ st_coord st = c /\ st_G st = G1 /\ st_T st = T1.
  Proof.
    intros H. remember (PRet r) as p eqn:E. destruct H as [ids gts st Hc Hm HG HT| | |]; try discriminate.
    destruct ids as [|id ids]; [|discriminate]. injection E as <-. cbn in Hm. injection Hm as <-. auto.
  Qed.
End Locked.
Theorem C77_locked :
  forall (A : arith) (polys : nat -> polyhedron A) (ids : nat -> list nat) (d Gc : nat -> num A) (g : nat -> bool)
    (gts : nat -> list (vec A * mat A)) (m : mem A) sch,
  (forall i, reachable (polys i) (bodies m i)) ->
  (forall i, mapM (fun x => fst (get_gravity (polys x) (st_coord (stations m i)) (d i) (Gc i) (g i) pstate0)) (ids i) = Ok (gts i)) ->
  let c := exec sch (fun i => t_compute_locked polys i (ids i) (d i) (Gc i) (g i), m) in
  (forall x, reachable (polys x) (bodies (snd c) x)) /\
  forall i r, fst c i = PRet r ->
    r = Ok tt /\
    st_G (stations (snd c) i) = fold_left vadd (map fst (gts i)) (st_G (stations m i)) /\
    st_T (stations (snd c) i) = fold_left madd (map snd (gts i)) (st_T (stations m i)).
Proof.
  intros A polys ids d Gc g gts m sch Hr Hg. cbv zeta.
  assert (K : let c := exec sch (fun i => t_compute_locked polys i (ids i) (d i) (Gc i) (g i), m) in
    (forall x, reachable (polys x) (bodies (snd c) x)) /\
    forall i, at_point polys i (d i) (Gc i) (g i) (st_coord (stations m i))
      (fold_left vadd (map fst (gts i)) (st_G (stations m i))) (fold_left madd (map snd (gts i)) (st_T (stations m i)))
      (fst c i) (stations (snd c) i)).
  { cbv zeta. induction sch as [|j sch IH] using rev_ind.
    - cbn [exec fold_left fst snd]. split; [exact Hr|]. intros i. unfold t_compute_locked. eapply at_loop; [reflexivity|apply Hg|reflexivity|reflexivity].
    - unfold exec in *. rewrite fold_left_app. cbn [fold_left]. destruct IH as [I1 I2]. unfold sched_step. cbn [fst snd].
      match goal with |- context [step (fst ?c j) (snd ?c)] => destruct (at_step polys j _ _ _ _ _ _ (fst c j) (snd c) I1 (I2 j)) as (S1 & S2 & S3) end.
      split; [exact S2|]. intros i. destruct (Nat.eq_dec i j) as [->|Hne]; [rewrite put_same; exact S1|].
      rewrite put_other by exact Hne. rewrite S3 by exact Hne. apply I2. }
  destruct K as [K1 K2]. split; [exact K1|]. intros i r E. specialize (K2 i). rewrite E in K2. destruct (at_end _ _ _ _ _ _ _ _ _ _ K2) as (E1 & _ & E2 & E3). auto.
Qed.
Print Assumptions C77_locked.
Example C77_locked_case :
  let ids i := match i with 0 => [0; 1] | 1 => [1; 0; 1] | _ => [] end in
  let c := exec (alternate 50) (fun i => t_compute_locked tetras i (ids i) (2%Z : num ZA) (1%Z : num ZA) true, mem0 two_obs) in
  (forall i, reachable (tetras i) (bodies (mem0 two_obs) i)) /\
  (forall i, exists gts, mapM (fun x => fst (get_gravity (tetras x) (st_coord (stations (mem0 two_obs) i)) (2%Z : num ZA) (1%Z : num ZA) true pstate0)) (ids i) = Ok gts) /\
  fst c 0 = PRet (Ok tt) /\ fst c 1 = PRet (Ok tt).
Proof.
  cbv zeta. split; [intros; apply reach_new|]. split.
  - intros [|[|i]]; [eexists; vm_compute; reflexivity ..|eexists; reflexivity].
  - split; vm_compute; reflexivity.
Qed.

(** ** C78: a call interrupted at any point *)
Lemma steps_bind {A X Y} n : forall (p : prog (A := A) X) (f : X -> prog Y) m,
  (exists p', fst (steps n p m) = p' /\ (forall r, p' <> PRet r) /\ steps n (pbind p f) m = (pbind p' f, snd (steps n p m))) \/
  (exists a b r m1, n = a + b /\ steps a p m = (PRet r, m1) /\
     steps n (pbind p f) m = match r with Ok x => steps b (f x) m1 | Err e => (PRet (Err e), m1) end).
Proof.
  induction n as [|n IH]; intros p f m.
  - destruct p as [r|id Z o k|id h k].
    + right. exists 0, 0, r, m. split; [reflexivity|]. split; [reflexivity|]. destruct r; reflexivity.
    + left. eexists. split; [reflexivity|]. split; [discriminate|reflexivity].
    + left. eexists. split; [reflexivity|]. split; [discriminate|reflexivity].
  - destruct p as [r|id Z o k|id h k].
    + right. exists 0, (S n), r, m. split; [reflexivity|]. split; [reflexivity|]. destruct r as [x|e]; [reflexivity|]. cbn [pbind]. apply steps_ret.
    + cbn [pbind steps step]. destruct (o (bodies m id)) as [[y|e] s] eqn:Eo; cbn [fst snd].
      * destruct (IH (k y) f (set_body m id s)) as [H|(a & b & r & m1 & -> & E1 & E2)]; [left; exact H|right].
        exists (S a), b, r, m1. split; [reflexivity|]. split; [cbn [steps step]; rewrite Eo; exact E1|exact E2].
      * right. exists 1, n, (Err e), (set_body m id s). split; [reflexivity|]. split; [cbn [steps step]; rewrite Eo; reflexivity|apply steps_ret].
    + cbn [pbind steps step fst snd].
      destruct (IH (k (stations m id)) f (set_station m id (h (stations m id)))) as [H|(a & b & r & m1 & -> & E1 & E2)]; [left; exact H|right].
      exists (S a), b, r, m1. split; [reflexivity|]. split; [exact E1|exact E2].
Qed.

(** Station.compute_gravity on a list of bodies, stopped after any number of
    operations (by an exception of its own or by a KeyboardInterrupt).  The bodies
    of a prefix of the list are done: G holds the sum over them, T too, or T lacks
    the last one of them.  Only the next body may be left with half-filled caches;
    bodies outside the list and other stations are as before. *)
Theorem C78_interrupted :
  forall (A : arith) (polys : nat -> polyhedron A) sid ids d Gc g (m : mem A) n,
  (forall i, reachable (polys i) (bodies m i)) ->
  let m' := snd (steps n (t_compute polys sid ids d Gc g) m) in
  let st := stations m sid in
  exists done rest gts,
  ids = done ++ rest /\
  mapM (fun x => fst (get_gravity (polys x) (st_coord st) d Gc g pstate0)) done = Ok gts /\
  st_coord (stations m' sid) = st_coord st /\
  st_G (stations m' sid) = fold_left vadd (map fst gts) (st_G st) /\
  (st_T (stations m' sid) = fold_left madd (map snd gts) (st_T st) \/
   st_T (stations m' sid) = fold_left madd (map snd (removelast gts)) (st_T st)) /\
  (forall i, hd_error rest <> Some i -> reachable (polys i) (bodies m' i)) /\
  (forall i, ~ In i ids -> bodies m' i = bodies m i) /\
  (forall j, j <> sid -> stations m' j = stations m j).
Proof.
  intros A polys sid ids d Gc g m n Hr. cbv zeta.
  assert (Fr : (forall i, ~ In i ids -> bodies (snd (steps n (t_compute polys sid ids d Gc g) m)) i = bodies m i) /\
    (forall j, j <> sid -> stations (snd (steps n (t_compute polys sid ids d Gc g) m)) j = stations m j)).
  { destruct (steps_frame (fun x => In x ids) (eq sid) n (t_compute polys sid ids d Gc g) m) as (_ & F1 & F2).
    - apply t_loop_uses; [auto|]. intros. apply mir_gravity.
    - split; [exact F1|]. intros j Hj. apply F2. congruence. }
  cut (exists done rest gts, ids = done ++ rest /\
    mapM (fun x => fst (get_gravity (polys x) (st_coord (stations m sid)) d Gc g pstate0)) done = Ok gts /\
    let m' := snd (steps n (t_compute polys sid ids d Gc g) m) in
    st_coord (stations m' sid) = st_coord (stations m sid) /\
    st_G (stations m' sid) = fold_left vadd (map fst gts) (st_G (stations m sid)) /\
    (st_T (stations m' sid) = fold_left madd (map snd gts) (st_T (stations m sid)) \/
     st_T (stations m' sid) = fold_left madd (map snd (removelast gts)) (st_T (stations m sid))) /\
    (forall i, hd_error rest <> Some i -> reachable (polys i) (bodies m' i))).
  { intros (dn & rs & gts & H1 & H2 & H3 & H4 & H5 & H6). exists dn, rs, gts. destruct Fr as [Fr1 Fr2]. auto 10. }
  clear Fr. unfold t_compute. set (call := fun id obs => t_get_gravity id (polys id) obs d Gc g).
  revert m n Hr. induction ids as [|x ids IH]; intros m n Hr; cbv zeta.
  - exists [], [], []. cbn [t_loop]. unfold pret. rewrite steps_ret. cbn. auto 10.
  - destruct n as [|n].
    { exists [], (x :: ids), []. cbn. auto 10. }
    cbn [t_loop]. cbn [steps step fst snd].
    set (m1 := set_station m sid (stations m sid)). set (c := st_coord (stations m sid)).
    assert (Hs1 : stations m1 sid = stations m sid) by apply put_same.
    pose proof (mir_gravity x (polys x) c d Gc g) as [U Hm]. fold (call x c) in U, Hm.
    match goal with |- context [pbind _ ?f] => destruct (steps_bind n (call x c) f m1) as [(p' & _ & _ & E)|(a & b & r & m2 & -> & E1 & E2)] end.
    + rewrite E. cbn [snd]. destruct (steps_frame _ _ n _ m1 U) as (_ & F1 & F2).
      exists [], (x :: ids), []. cbn [app mapM map fold_left removelast]. rewrite F2 by (intros []). rewrite Hs1.
      do 4 (split; [reflexivity|]). split; [auto|]. intros i Hi. rewrite F1; [apply Hr|]. unfold is_id. cbn in Hi. congruence.
    + rewrite E2. destruct (steps_frame _ _ a _ m1 U) as (_ & F1 & F2). rewrite E1 in F1, F2. cbn [snd] in F1, F2.
      specialize (F2 sid (fun H => H)). rewrite Hs1 in F2.
      pose proof (steps_run _ _ _ _ _ E1) as Er. specialize (Hm m1). rewrite Er in Hm. cbn [fst snd] in Hm.
      change (bodies m1 x) with (bodies m x) in Hm. destruct Hm as [M1 M2].
      pose proof (history_independent (polys x) c d Gc g _ (Hr x)) as Hi. unfold fresh_outcome in Hi.
      destruct r as [GT|e].
      2:{ exists [], (x :: ids), []. cbn [app mapM map fold_left removelast snd]. rewrite F2.
          do 4 (split; [reflexivity|]). split; [auto|]. intros i Hx. rewrite F1; [apply Hr|]. unfold is_id. cbn in Hx. congruence. }
      assert (Hr2 : forall i, reachable (polys i) (bodies m2 i)).
      { intros i. destruct (Nat.eq_dec i x) as [->|Hne]; [|rewrite F1 by exact Hne; apply Hr].
        eapply reach_call; [apply (Hr x)|]. rewrite M2. rewrite (surjective_pairing (get_gravity (polys x) c d Gc g (bodies m x))) at 1.
        rewrite <- M1. reflexivity. }
      rewrite <- M1 in Hi.
      destruct b as [|[|b]].
      * exists [], (x :: ids), []. cbn [steps snd app mapM map fold_left removelast]. rewrite F2.
        do 4 (split; [reflexivity|]). split; [auto|]. auto.
      * exists [x], ids, [GT]. cbn [steps step fst snd app mapM map fold_left removelast bodies stations set_station]. fold c. rewrite <- Hi. cbn [bind].
        rewrite put_same. rewrite F2. cbn [st_coord st_G st_T]. do 4 (split; [reflexivity|]). split; [auto|]. auto.
      * cbn [steps step fst snd].
        set (m3 := set_station (set_station m2 sid _) sid _).
        assert (E3 : stations m3 sid = {| st_coord := c; st_G := vadd (st_G (stations m sid)) (fst GT); st_T := madd (st_T (stations m sid)) (snd GT) |}).
        { unfold m3. cbn [set_station stations]. rewrite !put_same, F2. reflexivity. }
        destruct (IH m3 b Hr2) as (dn & rs & gts & I1 & I2 & I3 & I4 & I5 & I6). cbv zeta in *. rewrite E3 in *. cbn [st_coord st_G st_T] in *.
        exists (x :: dn), rs, (GT :: gts). cbn [app mapM map fold_left]. fold c. rewrite <- Hi, I2. cbn [bind].
        split; [congruence|]. split; [reflexivity|]. split; [exact I3|]. split; [exact I4|]. split; [|exact I6].
        destruct gts as [|gt gts]; [left; destruct I5 as [I5|I5]; exact I5|]. destruct I5 as [I5|I5]; [left; exact I5|right; exact I5].
Qed.
Print Assumptions C78_interrupted.
(** interrupted during the second body, and between G and T of the first *)
Example C78_case :
  let q n := snd (steps n (t_compute tetras 0 [0; 1; 2] (2%Z : num ZA) (1%Z : num ZA) true) (mem0 two_obs)) in
  (forall i, reachable (tetras i) (bodies (mem0 two_obs) i)) /\
  e_pqr (bodies (q 250) 1) (0, 0) <> None /\ e_pqr (bodies (q 250) 0) (0, 0) = None /\
  st_G (stations (q 189) 0) <> vzero /\ st_T (stations (q 189) 0) = mzero.
Proof.
  cbv zeta. split; [intros; apply reach_new|]. split; [vm_compute; discriminate|]. split; [vm_compute; reflexivity|].
  split; [vm_compute; discriminate|vm_compute; reflexivity].
Qed.

(** Then Polyhedron.reset() on that one body, the next of the list, is enough: every
    later call on any station and any bodies is right again. *)
Definition behaves_new {A} (p : polyhedron A) (s : pstate A) : Prop :=
  forall obs d Gc g, fst (get_gravity p obs d Gc g s) = fst (get_gravity p obs d Gc g pstate0).
Lemma station_loop_new {A} d Gc g ids : forall (w : world A) st gts,
  (forall i, behaves_new (w_poly w i) (w_state w i)) ->
  mapM (fun i => fst (get_gravity (w_poly w i) (st_coord st) d Gc g pstate0)) ids = Ok gts ->
  exists w', station_loop d Gc g (map PyPoly ids) w st =
    (Ok tt, w', {| st_coord := st_coord st; st_G := fold_left vadd (map fst gts) (st_G st); st_T := fold_left madd (map snd gts) (st_T st) |}).
Proof.
  induction ids as [|i ids IH]; intros w st gts Hw E; cbn [mapM map station_loop] in *.
  - injection E as <-. exists w. destruct st. reflexivity.
  - rewrite <- (Hw i) in E. destruct (get_gravity (w_poly w i) (st_coord st) d Gc g (w_state w i)) as [[[G T]|e] s'] eqn:Eg; cbn [fst bind] in E; [|discriminate].
    destruct (mapM _ ids) as [gts'|] eqn:Em; cbn [bind] in E; [|discriminate]. injection E as <-.
    apply (IH (wset w i s') {| st_coord := st_coord st; st_G := vadd (st_G st) G; st_T := madd (st_T st) T |} gts').
    + intros j. cbn [wset w_poly w_state]. destruct (Nat.eqb_spec j i) as [->|_]; [|apply Hw].
      intros o d' Gc' g'. exact (clean_outcome _ _ _ _ _ _ (get_gravity_clean _ _ _ _ _ _ _ _ Eg)).
    + exact Em.
Qed.
Theorem C78_recovery :
  forall (A : arith) (polys : nat -> polyhedron A) sid ids d Gc g (m : mem A) n,
  (forall i, reachable (polys i) (bodies m i)) ->
  let m' := snd (steps n (t_compute polys sid ids d Gc g) m) in
  exists next, (forall k, next = Some k -> In k ids) /\
  let w := {| w_poly := polys;
              w_state := fun i => match next with
                | Some k => if Nat.eqb i k then snd (polyhedron_reset (polys k) (bodies m' k)) else bodies m' i
                | None => bodies m' i
                end |} in
  forall st ids' d' Gc' g' gts,
  mapM (fun i => fst (get_gravity (polys i) (st_coord st) d' Gc' g' pstate0)) ids' = Ok gts ->
  exists w', compute_gravity w st (ArgList (map PyPoly ids')) d' Gc' g' =
    (Ok tt, w', {| st_coord := st_coord st; st_G := fold_left vadd (map fst gts) (st_G st); st_T := fold_left madd (map snd gts) (st_T st) |}).
Proof.
  intros A polys sid ids d Gc g m n Hr. cbv zeta.
  destruct (C78_interrupted A polys sid ids d Gc g m n Hr) as (dn & rs & gts0 & E & _ & _ & _ & _ & K & _). cbv zeta in K.
  exists (hd_error rs). split.
  { intros k Hk. rewrite E. apply in_or_app. right. destruct rs; [discriminate|]. injection Hk as <-. left. reflexivity. }
  intros st ids' d' Gc' g' gts Eg. unfold compute_gravity. rewrite is_poly_map. cbn [negb].
  apply station_loop_new; [|exact Eg]. intros i. cbn [w_poly w_state].
  destruct (hd_error rs) as [k|].
  - destruct (Nat.eqb_spec i k) as [->|Hne]; intros o d1 G1 g1; [apply poly_after_reset|]. apply history_independent, K. congruence.
  - intros o d1 G1 g1. apply history_independent, K. discriminate.
Qed.
Print Assumptions C78_recovery.
(** without the reset the body interrupted is left wrong *)
Theorem C78_no_reset_refuted :
  exists (A : arith) (polys : nat -> polyhedron A) ids d Gc g (m : mem A) n,
  (forall i, bodies m i = pstate0) /\
  let m' := snd (steps n (t_compute polys 0 ids d Gc g) m) in
  exists obs r r', fst (get_gravity (polys 0) obs d Gc g (bodies m' 0)) = Ok r /\
    fst (get_gravity (polys 0) obs d Gc g pstate0) = Ok r' /\ r <> r'.
Proof.
  exists ZA, tetras, [0], (2%Z : num ZA), (1%Z : num ZA), false, (mem0 two_obs), 100. split; [reflexivity|]. cbv zeta.
  exists (zv (-5) 9 40). eexists. eexists. split; [vm_compute; reflexivity|]. split; [vm_compute; reflexivity|]. discriminate.
Qed.
Print Assumptions C78_no_reset_refuted.

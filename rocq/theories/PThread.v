(** * Interleavings of calls: what a thread does depends on the objects it uses only *)
From Coq Require Import List ZArith Bool Arith Lia.
Import ListNotations.
From Verif Require Import Base MUtils MEdge MFace MHull MPoly PPoly PStation MThread.

Section PThread.
  Context {A : arith}.

  Lemma put_same {X} (f : nat -> X) i x : put f i x i = x.
  Proof. unfold put. now rewrite Nat.eqb_refl. Qed.
  Lemma put_other {X} (f : nat -> X) i x j : j <> i -> put f i x j = f j.
  Proof. intros H. unfold put. apply Nat.eqb_neq in H. now rewrite H. Qed.

  (** the objects a call may use *)
  Fixpoint uses {X} (B S : nat -> Prop) (p : prog (A := A) X) : Prop :=
    match p with
    | PRet _ => True
    | PBody id _ k => B id /\ forall y, uses B S (k y)
    | PStat id _ k => S id /\ forall s, uses B S (k s)
    end.
  Definition same (B S : nat -> Prop) (m n : mem A) : Prop :=
    (forall i, B i -> bodies m i = bodies n i) /\ (forall i, S i -> stations m i = stations n i).

  Lemma step_frame {X} B S (p : prog (A := A) X) m : uses B S p ->
    uses B S (fst (step p m)) /\
    (forall i, ~ B i -> bodies (snd (step p m)) i = bodies m i) /\
    (forall i, ~ S i -> stations (snd (step p m)) i = stations m i).
  Proof.
    destruct p as [r|id Y o k|id f k]; cbn [uses step].
    - auto.
    - intros [Hb Hk]. destruct (o (bodies m id)) as [[y|e] s]; cbn [fst snd uses]; (split; [auto|]); (split; [|reflexivity]);
        intros i Hi; apply put_other; congruence.
    - intros [Hs Hk]. cbn [fst snd]. split; [auto|]. split; [reflexivity|]. intros i Hi. apply put_other. congruence.
  Qed.
  Lemma step_same {X} B S (p : prog (A := A) X) m n : uses B S p -> same B S m n ->
    fst (step p m) = fst (step p n) /\ same B S (snd (step p m)) (snd (step p n)).
  Proof.
    destruct p as [r|id Y o k|id f k]; cbn [uses step].
    - auto.
    - intros [Hb _] [H1 H2]. rewrite (H1 id Hb). destruct (o (bodies n id)) as [[y|e] s]; cbn [fst snd]; (split; [reflexivity|]);
        (split; [|exact H2]); intros i Hi; cbn [set_body bodies]; unfold put; destruct (Nat.eqb i id); auto.
    - intros [Hs _] [H1 H2]. cbn [fst snd]. rewrite (H2 id Hs). split; [reflexivity|]. split; [exact H1|].
      intros i Hi; cbn [set_station stations]; unfold put; destruct (Nat.eqb i id); auto.
  Qed.

  Lemma steps_S {X} n (p : prog (A := A) X) m : steps (S n) p m = step (fst (steps n p m)) (snd (steps n p m)).
  Proof.
    revert p m. induction n as [|n IH]; intros p m; [cbn; destruct (step p m); reflexivity|].
    change (steps (S (S n)) p m) with (steps (S n) (fst (step p m)) (snd (step p m))). rewrite IH. reflexivity.
  Qed.
  Lemma steps_add {X} a b (p : prog (A := A) X) m : steps (a + b) p m = steps b (fst (steps a p m)) (snd (steps a p m)).
  Proof. revert p m. induction a as [|a IH]; intros p m; [reflexivity|]. cbn [steps plus]. apply IH. Qed.
  Lemma steps_ret {X} n (r : res X) (m : mem A) : steps n (PRet r) m = (PRet r, m).
  Proof. induction n as [|n IH]; [reflexivity|]. exact IH. Qed.
  Lemma steps_frame {X} B S n : forall (p : prog (A := A) X) m, uses B S p ->
    uses B S (fst (steps n p m)) /\
    (forall i, ~ B i -> bodies (snd (steps n p m)) i = bodies m i) /\
    (forall i, ~ S i -> stations (snd (steps n p m)) i = stations m i).
  Proof.
    induction n as [|n IH]; intros p m Hu; [auto|]. cbn [steps]. destruct (step_frame B S p m Hu) as (H1 & H2 & H3).
    destruct (IH _ (snd (step p m)) H1) as (K1 & K2 & K3). split; [exact K1|].
    split; intros i Hi; [rewrite K2, H2 by assumption|rewrite K3, H3 by assumption]; reflexivity.
  Qed.

  (** a call that has ended returned what it returns on its own *)
  Lemma steps_run {X} n : forall (p : prog (A := A) X) m r m', steps n p m = (PRet r, m') -> run p m = (r, m').
  Proof.
    induction n as [|n IH]; intros p m r m' E.
    - cbn in E. injection E as -> ->. reflexivity.
    - cbn [steps] in E. apply IH in E. destruct p as [r0|id Y o k|id f k]; cbn [step fst snd run] in *.
      + exact E.
      + destruct (o (bodies m id)) as [[y|e] s]; exact E.
      + exact E.
  Qed.
  Lemma steps_end {X} (p : prog (A := A) X) m : exists n, steps n p m = (PRet (fst (run p m)), snd (run p m)).
  Proof.
    revert m. induction p as [r|id Y o k IH|id f k IH]; intros m.
    - exists 0. reflexivity.
    - cbn [run]. destruct (o (bodies m id)) as [[y|e] s] eqn:E.
      + destruct (IH y (set_body m id s)) as [n Hn]. exists (S n). cbn [steps step]. rewrite E. exact Hn.
      + exists 1. cbn [steps step]. rewrite E. reflexivity.
    - destruct (IH (stations m id) (set_station m id (f (stations m id)))) as [n Hn]. exists (S n). exact Hn.
  Qed.

  (** ** Any schedule of threads that use different objects *)
  Lemma exec_alone {X} (B S : nat -> nat -> Prop) (sch : list nat) : forall (P : pool (A := A) X) m,
    (forall i, uses (B i) (S i) (P i)) ->
    (forall i j x, i <> j -> B i x -> ~ B j x) -> (forall i j x, i <> j -> S i x -> ~ S j x) ->
    let c := exec sch (P, m) in
    forall i, let q := steps (count_occ Nat.eq_dec sch i) (P i) m in
    fst c i = fst q /\ same (B i) (S i) (snd c) (snd q).
  Proof.
    induction sch as [|j sch IH] using rev_ind; intros P m Hu HB HS; cbv zeta; intros i.
    - cbn. split; [reflexivity|]. split; reflexivity.
    - unfold exec. rewrite fold_left_app. cbn [fold_left]. fold (exec sch (P, m)).
      destruct (IH P m Hu HB HS i) as [K1 K2]. destruct (IH P m Hu HB HS j) as [J1 J2]. cbv zeta in *.
      rewrite count_occ_app. cbn [count_occ].
      set (c := exec sch (P, m)) in *. unfold sched_step. cbn [fst snd].
      destruct (Nat.eq_dec j i) as [->|Hne].
      + rewrite put_same. replace (count_occ Nat.eq_dec sch i + 1) with (Datatypes.S (count_occ Nat.eq_dec sch i)) by lia.
        rewrite steps_S, K1.
        apply step_same; [apply steps_frame, Hu|exact K2].
      + rewrite put_other by congruence. rewrite Nat.add_0_r. split; [exact K1|].
        destruct (steps_frame (B j) (S j) (count_occ Nat.eq_dec sch j) (P j) m (Hu j)) as [Hj _]. rewrite <- J1 in Hj.
        destruct (step_frame (B j) (S j) (fst c j) (snd c) Hj) as (_ & F1 & F2). destruct K2 as [K2 K3].
        split; intros x Hx; [rewrite F1 by (apply (HB i j); auto); auto|rewrite F2 by (apply (HS i j); auto); auto].
  Qed.

  (** ** The programs are the methods of MPoly.v *)
  Lemma run_bind {X Y} (p : prog (A := A) X) (f : X -> prog Y) : forall m,
    run (pbind p f) m = match run p m with (Ok x, m') => run (f x) m' | (Err e, m') => (Err e, m') end.
  Proof.
    induction p as [[x|e]|id Z o k IH|id g k IH]; intros m; cbn [pbind run]; try reflexivity.
    - destruct (o (bodies m id)) as [[y|e] s]; [apply IH|reflexivity].
    - apply IH.
  Qed.
  Lemma uses_bind {X Y} B S (p : prog (A := A) X) (f : X -> prog Y) : uses B S p -> (forall x, uses B S (f x)) -> uses B S (pbind p f).
  Proof.
    induction p as [[x|e]|id Z o k IH|id g k IH]; cbn [pbind uses]; intros Hp Hf; auto.
    - destruct Hp as [H1 H2]. split; [exact H1|]. intros y. apply IH; auto.
    - destruct Hp as [H1 H2]. split; [exact H1|]. intros y. apply IH; auto.
  Qed.

  Section Mirror.
    Variable id : nat.
    Definition is_id (i : nat) : Prop := i = id.
    Definition none (i : nat) : Prop := False.
    (** [p] does on body [id] what the method [o] does, and uses nothing else *)
    Definition mir {X} (p : prog (A := A) X) (o : M (A := A) X) : Prop :=
      uses is_id none p /\
      forall m, fst (run p m) = fst (o (bodies m id)) /\ bodies (snd (run p m)) id = snd (o (bodies m id)).
    Lemma mir_ret {X} (x : X) : mir (pret x) (mret x).
    Proof. split; [exact I|]. split; reflexivity. Qed.
    Lemma mir_raise {X} e : mir (X := X) (praise e) (mraise e).
    Proof. split; [exact I|]. split; reflexivity. Qed.
    Lemma mir_op {X} (o : M (A := A) X) : mir (op id o) o.
    Proof.
      split; [split; [reflexivity|intros; exact I]|]. intros m. unfold op. cbn [run].
      destruct (o (bodies m id)) as [[y|e] s]; cbn [fst snd run]; (split; [reflexivity|apply put_same]).
    Qed.
    Lemma mir_bind {X Y} (p : prog (A := A) X) o (f : X -> prog Y) g : mir p o -> (forall x, mir (f x) (g x)) -> mir (pbind p f) (mbind o g).
    Proof.
      intros [U1 H1] H2. split; [apply uses_bind; [exact U1|apply H2]|]. intros m. rewrite run_bind. unfold mbind.
      destruct (H1 m) as [E1 E2]. destruct (run p m) as [[x|e] m']; destruct (o (bodies m id)) as [[x'|e'] s']; cbn [fst snd] in *; try discriminate.
      - injection E1 as <-. destruct (H2 x) as [_ H]. rewrite <- E2. apply H.
      - injection E1 as <-. auto.
    Qed.
    (** reading an attribute twice *)
    Lemma mir_get {X} (f : pstate A -> prog X) (o : M (A := A) X) :
      (forall s, uses is_id none (f s)) ->
      (forall m, fst (run (f (bodies m id)) m) = fst (o (bodies m id)) /\ bodies (snd (run (f (bodies m id)) m)) id = snd (o (bodies m id))) ->
      mir (pbind (op id mget) f) o.
    Proof.
      intros Hu H. split; [apply uses_bind; [split; [reflexivity|intros; exact I]|exact Hu]|]. intros m. rewrite run_bind. unfold op.
      cbn [run mget]. set (m' := set_body m id (bodies m id)).
      assert (E : bodies m' id = bodies m id) by apply put_same. specialize (H m'). rewrite E in H. exact H.
    Qed.
    Lemma mir_iter {X} (f : X -> prog (A := A) unit) g l : (forall x, mir (f x) (g x)) -> mir (piter f l) (miter g l).
    Proof. intros H. induction l as [|x l IH]; [apply mir_ret|]. cbn. apply mir_bind; [apply H|intros; apply IH]. Qed.
    Lemma mir_fold {X T} (f : T -> X -> prog (A := A) T) g l : (forall a x, mir (f a x) (g a x)) -> forall a, mir (pfold f l a) (mfold g l a).
    Proof. intros H. induction l as [|x l IH]; intros a; [apply mir_ret|]. cbn. apply mir_bind; [apply H|intros; apply IH]. Qed.

    Ltac mb := apply mir_bind; [|intros].
    Lemma mir_twin tw k : mir (t_set_twin_pqr id tw k) (set_twin_pqr tw k).
    Proof.
      unfold t_set_twin_pqr, set_twin_pqr. destruct (tw k); [|apply mir_raise]. mb; [apply mir_op|]. mb.
      - destruct (e_pqr x k); [|apply mir_ret]. mb; apply mir_op.
      - mb; [apply mir_op|]. destruct (e_dpqr x1 k); [|apply mir_ret]. mb; apply mir_op.
    Qed.
    Lemma mir_edge tw o g k e : mir (t_edge_ccw id tw o g k e) (edge_ccw tw o g k e).
    Proof.
      unfold t_edge_ccw, edge_ccw. mb; [apply mir_op|]. destruct (e_pqr x k); [apply mir_ret|].
      mb; [apply mir_op|]. destruct x0 as [pqr dpqr]. cbn [fst snd]. mb; [apply mir_op|]. mb; [apply mir_op|]. mb.
      - destruct dpqr; [mb; apply mir_op|apply mir_op].
      - apply mir_twin.
    Qed.
    Lemma run_op {X} (o : M (A := A) X) m : fst (run (op id o) m) = fst (o (bodies m id)) /\ bodies (snd (run (op id o) m)) id = snd (o (bodies m id)).
    Proof. apply (mir_op o). Qed.
    Lemma mir_add_pqr fi o : mir (t_add_pqr id fi o) (add_pqr fi o).
    Proof.
      unfold t_add_pqr. apply mir_get.
      - intros s. destruct (f_pqr s fi); (split; [reflexivity|intros; exact I]).
      - intros m. unfold add_pqr, mbind, mget. destruct (f_pqr (bodies m id) fi) eqn:E.
        + match goal with |- context [op id ?o] => destruct (run_op o m) as [-> ->] end. cbv beta. rewrite E. destruct o; [|split; reflexivity]. split; reflexivity.
        + match goal with |- context [op id ?o] => destruct (run_op o m) as [-> ->] end. split; reflexivity.
    Qed.
    Lemma mir_add_dpqr fi o : mir (t_add_dpqr id fi o) (add_dpqr fi o).
    Proof.
      unfold t_add_dpqr. apply mir_get.
      - intros s. destruct (f_dpqr s fi); (split; [reflexivity|intros; exact I]).
      - intros m. unfold add_dpqr, mbind, mget. destruct (f_dpqr (bodies m id) fi) eqn:E.
        + match goal with |- context [op id ?o] => destruct (run_op o m) as [-> ->] end. cbv beta. rewrite E. destruct o; [|split; reflexivity]. split; reflexivity.
        + match goal with |- context [op id ?o] => destruct (run_op o m) as [-> ->] end. split; reflexivity.
    Qed.
    Lemma mir_edge_step tw o g fi ke : mir (t_face_edge_step id tw o g fi ke) (face_edge_step tw o g fi ke).
    Proof.
      destruct ke as [k e]. unfold t_face_edge_step, face_edge_step. cbn [fst snd]. mb; [apply mir_edge|]. mb; [apply mir_op|].
      mb; [apply mir_add_pqr|]. mb; [apply mir_op|]. apply mir_add_dpqr.
    Qed.
    Lemma mir_face tw o d Gc g fi f : mir (t_face_get_gravity id tw o d Gc g fi f) (face_get_gravity tw o d Gc g fi f).
    Proof.
      unfold t_face_get_gravity, face_get_gravity. mb; [apply mir_op|]. mb; [apply mir_op|]. mb.
      { destruct (f_dp1 x0 fi); [apply mir_op|apply mir_raise]. }
      mb; [apply mir_op|]. mb.
      { destruct (f_dp1 x2 fi); [|apply mir_raise]. destruct (f_sign x2 fi); [|apply mir_raise]. mb; [apply mir_op|]. mb; apply mir_op. }
      mb; [unfold face_ccw; apply mir_iter; intros; apply mir_edge_step|]. mb; [apply mir_op|].
      destruct (f_dp1 x5 fi); [|apply mir_raise]. destruct (f_omega x5 fi); [|apply mir_raise].
      destruct (f_domega x5 fi); [|apply mir_raise]. destruct (f_pqr x5 fi); [|apply mir_raise].
      destruct g; [|mb; [apply mir_op|apply mir_ret]]. destruct (f_dpqr x5 fi); [|apply mir_raise]. mb; [apply mir_op|apply mir_ret].
    Qed.
    Lemma mir_gravity p o d Gc g : mir (t_get_gravity id p o d Gc g) (get_gravity p o d Gc g).
    Proof.
      unfold t_get_gravity, get_gravity. mb.
      - apply mir_fold. intros. unfold poly_step. mb; [apply mir_face|apply mir_ret].
      - mb; [apply mir_op|apply mir_ret].
    Qed.
  End Mirror.
End PThread.

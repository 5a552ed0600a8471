(** * The facets listed in other triangulations: only the corners matter *)
From Coq Require Import Reals Lra Psatz ZArith Bool List Permutation Arith Lia.
Import ListNotations.
From Coquelicot Require Import Coquelicot.
From Verif Require Import Base MUtils MEdge MFace MHull MPoly SpecPoly PPoly PStation PPlain.
From Verif Require Import RVec RArith REdge REdgeModel RAngle ROmega RFace RFacet RPoly RTwin RField RHull RRay RTrace RMoved RVolume RTri RPlaced RWell.
Local Open Scope R_scope.
Local Open Scope list_scope.

(** ** Vectors of a plane *)
Section Plane.
  Variables (n w : V).
  Hypothesis Hn : dt n n = 1.
  Hypothesis Hw : dt n w = 0.
  Let e := cr n w.
  Lemma plane_cr r s : dt n r = 0 -> dt n s = 0 -> cr r s = (dt n (cr r s) * n)%v.
  Proof.
    intros Hr Hs.
    assert (K : (dt n n * cr r s - dt n (cr r s) * n)%v = (dt n r * cr n s - dt n s * cr n r)%v) by vring.
    rewrite Hn, Hr, Hs in K.
    apply veq; [apply (f_equal vx) in K|apply (f_equal vy) in K|apply (f_equal vz) in K]; cbn in K |- *; lra.
  Qed.
  Lemma plane_split r : dt n r = 0 -> (dt w w * r)%v = (dt w r * w + dt e r * e)%v.
  Proof.
    intros Hr. pose proof (plane_cr r w Hr Hw) as K.
    assert (X : (dt w w * r - dt w r * w)%v = cr w (cr r w)) by vring.
    assert (Y : cr w (dt n (cr r w) * n) = (dt e r * e)%v) by (unfold e; vring).
    rewrite K, Y in X. apply veq; [apply (f_equal vx) in X|apply (f_equal vy) in X|apply (f_equal vz) in X]; cbn in X |- *; lra.
  Qed.
  Lemma left_e r : dt n (cr w r) = dt e r. Proof. unfold e. vring. Qed.
  Lemma plane_area r s : 0 < dt w w -> dt n r = 0 -> dt n s = 0 ->
    dt w w * dt n (cr r s) = dt w r * dt e s - dt e r * dt w s.
  Proof.
    intros W Hr Hs. apply (Rmult_eq_reg_l (dt w w)); [|lra].
    transitivity (dt n (cr (dt w w * r) (dt w w * s))); [vring|].
    rewrite (plane_split r Hr), (plane_split s Hs).
    transitivity ((dt w r * dt e s - dt e r * dt w s) * dt n (cr w e)); [vring|].
    assert (X : dt n (cr w e) = dt n n * dt w w - dt n w * dt n w) by (unfold e; vring).
    rewrite X, Hn, Hw. ring.
  Qed.
End Plane.

(** ** Edges of the polygon of corners in the supporting plane with normal n *)
Definition rim (n : V) (P : list V) (x y : V) : Prop :=
  In x P /\ In y P /\ x <> y /\ (forall q, In q P -> dt n (q - x) <= 0) /\ dt n (y - x) = 0 /\
  forall q, In q P -> dt n (q - x) = 0 -> q = x \/ q = y \/ 0 < dt n (cr (y - x) (q - x)).
Definition strict (P : list V) : Prop :=
  forall x y q, In x P -> In y P -> In q P -> x <> y -> cr (y - x) (q - x) = v0 -> q = x \/ q = y.

Lemma vsub_nz (x y : V) : x <> y -> 0 < dt (y - x) (y - x).
Proof.
  intros N. destruct (Req_dec (dt (y - x) (y - x)) 0) as [Z|Z].
  - exfalso. apply N. assert (E : (y - x)%v = v0) by (apply nm_zero; unfold nm; rewrite Z; apply sqrt_0).
    apply veq; [apply (f_equal vx) in E|apply (f_equal vy) in E|apply (f_equal vz) in E]; cbn in E; lra.
  - pose proof (dt_nonneg (y - x)%v). lra.
Qed.
Lemma rim_same n P x y x' y' : rim n P x y -> rim n P x' y' -> dt n (x' - x) = 0.
Proof.
  intros (Hx & Hy & _ & S & _) (Hx' & _ & _ & S' & _). specialize (S x' Hx'). specialize (S' x Hx).
  replace (x - x')%v with (- (x' - x))%v in S' by vring. rewrite dt_opp_r in S'. lra.
Qed.
Lemma rim_fun n P x y y' : rim n P x y -> rim n P x y' -> y = y'.
Proof.
  intros (Hx & Hy & N & _ & Z & L) (_ & Hy' & N' & _ & Z' & L').
  destruct (L y' Hy' Z') as [E|[E|A]]; [congruence|auto|].
  destruct (L' y Hy Z) as [E|[E|A']]; [congruence|auto|].
  replace (cr (y' - x) (y - x)) with (- cr (y - x) (y' - x))%v in A' by vring. rewrite dt_opp_r in A'. lra.
Qed.

Lemma argmin {X} (phi : X -> R) (l : list X) : l <> [] -> exists a, In a l /\ forall b, In b l -> phi a <= phi b.
Proof.
  induction l as [|x l IH]; [congruence|intros _]. destruct l as [|y l].
  - exists x. split; [left; auto|]. intros b [<-|[]]. lra.
  - destruct (IH ltac:(discriminate)) as (a & Ha & Hm). destruct (Rle_dec (phi x) (phi a)) as [H|H].
    + exists x. split; [left; auto|]. intros b [<-|Hb]; [lra|]. specialize (Hm b Hb). lra.
    + exists a. split; [right; auto|]. intros b [<-|Hb]; [lra|auto].
Qed.

(** edges of the rim that go on and on are the whole rim *)
Lemma rim_all n P (bl : list (V * V)) : dt n n = 1 -> bl <> [] ->
  (forall x y, In (x, y) bl -> rim n P x y) ->
  (forall x y, In (x, y) bl -> exists z, In (y, z) bl) -> (forall x y, In (x, y) bl -> exists z, In (z, x) bl) ->
  forall u v, rim n P u v -> In (u, v) bl.
Proof.
  intros Hn Hne HR Hsucc Hpred u v Huv.
  destruct (in_dec (fun e e' : V * V => ltac:(decide equality; apply veq_dec)) (u, v) bl) as [I|I]; [exact I|exfalso].
  assert (NU : forall a b, In (a, b) bl -> a <> u).
  { intros a b H ->. apply I. rewrite (rim_fun n P u v b Huv (HR _ _ H)). exact H. }
  set (w := (v - u)%v). set (e := cr n w). set (phi := fun a : V => dt e (a - u)).
  destruct (argmin (fun s => phi (fst s)) bl Hne) as ([a b] & Hab & Hmin). cbn [fst] in Hmin.
  destruct (Hsucc a b Hab) as [d Hbd]. destruct (Hpred a b Hab) as [c Hca].
  pose proof (Hmin _ Hbd) as Mb. pose proof (Hmin _ Hca) as Mc. cbn [fst] in Mb, Mc.
  pose proof (HR _ _ Hab) as Rab. pose proof (HR _ _ Hbd) as Rbd. pose proof (HR _ _ Hca) as Rca.
  pose proof (rim_same _ _ _ _ _ _ Huv Rab) as Za. pose proof (rim_same _ _ _ _ _ _ Huv Rbd) as Zb.
  pose proof (rim_same _ _ _ _ _ _ Huv Rca) as Zc.
  destruct Huv as (Pu & Pv & Nuv & _ & Zv & Lu).
  assert (W : 0 < dt w w) by (apply vsub_nz, Nuv).
  assert (T : 0 <= phi a).
  { destruct (Lu a (proj1 Rab) Za) as [->|[->|H]].
    - destruct (NU _ _ Hab eq_refl).
    - unfold phi, e, w. right. vring.
    - fold w in H. rewrite left_e in H. unfold phi, e. lra. }
  assert (A1 : 0 < dt n (cr (b - a) (u - a))).
  { destruct Rab as (_ & _ & _ & _ & _ & L). destruct (L u Pu) as [->|[->|H]]; [| | |exact H].
    - replace (u - a)%v with (- (a - u))%v by vring. rewrite dt_opp_r, Za. ring.
    - destruct (NU _ _ Hab eq_refl).
    - destruct (NU _ _ Hbd eq_refl). }
  assert (A2 : 0 < dt n (cr (a - c) (u - a))).
  { destruct Rca as (_ & _ & _ & _ & _ & L). destruct (L u Pu) as [->|[->|H]].
    - replace (u - c)%v with (- (c - u))%v by vring. rewrite dt_opp_r, Zc. ring.
    - destruct (NU _ _ Hca eq_refl).
    - destruct (NU _ _ Hab eq_refl).
    - replace (cr (a - c) (u - a)) with (cr (a - c) (u - c)) by vring. exact H. }
  assert (A3 : 0 < dt n (cr (a - c) (b - a))).
  { destruct Rca as (_ & _ & _ & _ & _ & L). destruct (L b (proj1 Rbd)) as [->|[->|H]].
    - replace (b - c)%v with ((b - u) - (c - u))%v by vring. rewrite dt_sub_r, Zb, Zc. ring.
    - exfalso. assert (X : dt n (cr (a - c) (u - a)) = - dt n (cr (c - a) (u - a))) by vring. lra.
    - destruct Rab as (_ & _ & N & _). congruence.
    - replace (cr (a - c) (b - a)) with (cr (a - c) (b - c)) by vring. exact H. }
  assert (Q1 : dt n (b - a) = 0) by (replace (b - a)%v with ((b - u) - (a - u))%v by vring; rewrite dt_sub_r, Zb, Za; ring).
  assert (Q2 : dt n (a - c) = 0) by (replace (a - c)%v with ((a - u) - (c - u))%v by vring; rewrite dt_sub_r, Zc, Za; ring).
  assert (Q3 : dt n (u - a) = 0) by (replace (u - a)%v with (- (a - u))%v by vring; rewrite dt_opp_r, Za; ring).
  pose proof (plane_area n w Hn Zv (b - a)%v (u - a)%v W Q1 Q3) as B1.
  pose proof (plane_area n w Hn Zv (a - c)%v (u - a)%v W Q2 Q3) as B2.
  pose proof (plane_area n w Hn Zv (a - c)%v (b - a)%v W Q2 Q1) as B3. fold e in B1, B2, B3.
  assert (C1 : 0 < dt w w * dt n (cr (b - a) (u - a))) by (apply Rmult_lt_0_compat; auto).
  assert (C2 : 0 < dt w w * dt n (cr (a - c) (u - a))) by (apply Rmult_lt_0_compat; auto).
  assert (C3 : 0 < dt w w * dt n (cr (a - c) (b - a))) by (apply Rmult_lt_0_compat; auto).
  rewrite B1 in C1. rewrite B2 in C2. rewrite B3 in C3. clear B1 B2 B3.
  assert (E1 : dt e (u - a) = - phi a) by (unfold phi; vring).
  assert (E2 : 0 <= dt e (b - a)) by (assert (X : dt e (b - a) = phi b - phi a) by (unfold phi; vring); lra).
  assert (E3 : dt e (a - c) <= 0) by (assert (X : dt e (a - c) = phi a - phi c) by (unfold phi; vring); lra).
  rewrite E1 in *. revert C1 C2 C3 E2 E3 T. clear.
  generalize (phi a) (dt w (b - a)) (dt e (b - a)) (dt w (a - c)) (dt e (a - c)) (dt w (u - a)). clear.
  intros t p q p' q' r C1 C2 C3 E2 E3 T.
  assert (X : 0 <= q * (p' * - t - q' * r) + - q' * (p * - t - q * r)).
  { apply Rplus_le_le_0_compat; apply Rmult_le_pos; lra. }
  assert (Y : q * (p' * - t - q' * r) + - q' * (p * - t - q * r) = - t * (p' * q - q' * p)) by ring.
  assert (Z : t * (p' * q - q' * p) <= 0) by lra.
  destruct (Rle_lt_or_eq_dec _ _ T) as [P|P]; [nra|]. subst t.
  assert (q * r < 0) by lra. assert (q' * r < 0) by lra.
  assert (0 < q) by (destruct (Rle_lt_or_eq_dec _ _ E2); [auto|subst; lra]).
  assert (q' < 0) by (destruct (Rle_lt_or_eq_dec _ _ E3); [auto|subst; lra]). nra.
Qed.

(** ** The directed edges of the facets of one plane *)
Definition grp (n : V) (p : polyhedron RA) : list (face RA) :=
  filter (fun f : face RA => if veq_dec (f_un f) n then true else false) (pl_faces p).
Lemma in_grp n p f : In f (grp n p) <-> In f (pl_faces p) /\ f_un f = n.
Proof. unfold grp. rewrite filter_In. destruct (veq_dec (f_un f) n); split; intros [H1 H2]; split; auto; congruence. Qed.
Definition edge_dec (e e' : V * V) : {e = e'} + {e <> e'}.
Proof. decide equality; apply veq_dec. Defined.
Definition bd (L : list (face RA)) : list (V * V) :=
  filter (fun e => if in_dec edge_dec (snd e, fst e) (edges_of L) then false else true) (edges_of L).
Lemma in_bd L x y : In (x, y) (bd L) <-> In (x, y) (edges_of L) /\ ~ In (y, x) (edges_of L).
Proof. unfold bd. rewrite filter_In. cbn [fst snd]. destruct (in_dec edge_dec (y, x) (edges_of L)); split; intros [H1 H2]; split; auto; try discriminate; contradiction. Qed.
Lemma in_edges L x y : In (x, y) (edges_of L) <-> exists f, In f L /\ In (x, y) (fedges f).
Proof. unfold edges_of. apply in_flat_map. Qed.

Definition tri3 (f : face RA) : Prop := vtx 0 f <> vtx 1 f /\ vtx 1 f <> vtx 2 f /\ vtx 2 f <> vtx 0 f.
Definition outs (y : V) (l : list (V * V)) : list V := map snd (filter (fun e => if veq_dec (fst e) y then true else false) l).
Definition ins (y : V) (l : list (V * V)) : list V := map fst (filter (fun e => if veq_dec (snd e) y then true else false) l).
Lemma in_outs y l z : In z (outs y l) <-> In (y, z) l.
Proof.
  unfold outs. rewrite in_map_iff. split.
  - intros ([a b] & E & H). cbn [snd] in E. subst b. apply filter_In in H. cbn [fst] in H. destruct H as [H E].
    destruct (veq_dec a y); [subst; exact H|discriminate].
  - intros H. exists (y, z). split; [reflexivity|]. apply filter_In. split; [exact H|]. cbn [fst]. destruct (veq_dec y y); congruence.
Qed.
Lemma in_ins y l z : In z (ins y l) <-> In (z, y) l.
Proof.
  unfold ins. rewrite in_map_iff. split.
  - intros ([a b] & E & H). cbn [fst] in E. subst a. apply filter_In in H. cbn [snd] in H. destruct H as [H E].
    destruct (veq_dec b y); [subst; exact H|discriminate].
  - intros H. exists (z, y). split; [reflexivity|]. apply filter_In. split; [exact H|]. cbn [snd]. destruct (veq_dec y y); congruence.
Qed.
Lemma nodup_outs y l : NoDup l -> NoDup (outs y l).
Proof.
  induction 1 as [|[a b] l N _ IH]; [constructor|]. unfold outs in *. cbn [filter fst]. destruct (veq_dec a y) as [->|D]; [|exact IH].
  cbn [map snd]. constructor; [|exact IH]. intros K. apply N. apply in_outs, K.
Qed.
Lemma nodup_ins y l : NoDup l -> NoDup (ins y l).
Proof.
  induction 1 as [|[a b] l N _ IH]; [constructor|]. unfold ins in *. cbn [filter snd]. destruct (veq_dec b y) as [->|D]; [|exact IH].
  cbn [map fst]. constructor; [|exact IH]. intros K. apply N. apply in_ins, K.
Qed.
Lemma length_outs y L : (forall f, In f L -> tri3 f) -> length (outs y (edges_of L)) = length (ins y (edges_of L)).
Proof.
  intros H. unfold outs, ins. rewrite !map_length. induction L as [|f L IH]; [reflexivity|].
  unfold edges_of. cbn [flat_map]. fold (edges_of L). rewrite !filter_app, !app_length, IH by (intros; apply H; right; auto). f_equal.
  unfold fedges. cbn [filter fst snd]. destruct (H f (or_introl eq_refl)) as (A & B & C).
  destruct (veq_dec (vtx 0 f) y), (veq_dec (vtx 1 f) y), (veq_dec (vtx 2 f) y); try congruence; reflexivity.
Qed.
Lemma bd_succ L : (forall f, In f L -> tri3 f) -> NoDup (edges_of L) -> forall x y, In (x, y) (bd L) -> exists z, In (y, z) (bd L).
Proof.
  intros HT HN x y H. apply in_bd in H. destruct H as [H1 H2].
  destruct (in_dec edge_dec (y, x) (edges_of L)) as [K|K]; [contradiction|].
  assert (D : (exists z, In (y, z) (bd L)) \/ forall z, In (y, z) (edges_of L) -> In (z, y) (edges_of L)).
  { destruct (Exists_dec (fun z => ~ In (z, y) (edges_of L)) (outs y (edges_of L))) as [X|X].
    - intros z. destruct (in_dec edge_dec (z, y) (edges_of L)); [right; tauto|left; auto].
    - left. apply Exists_exists in X. destruct X as (z & Hz & X). exists z. apply in_bd. split; [now apply in_outs|exact X].
    - right. intros z Hz. destruct (in_dec edge_dec (z, y) (edges_of L)) as [Y|Y]; [exact Y|].
      exfalso. apply X, Exists_exists. exists z. split; [now apply in_outs|exact Y]. }
  destruct D as [D|D]; [exact D|exfalso]. apply K, in_outs.
  assert (I : incl (ins y (edges_of L)) (outs y (edges_of L))).
  { apply NoDup_length_incl; [apply nodup_outs, HN|rewrite length_outs by exact HT; apply le_n|]. intros z Hz. apply in_ins, D, in_outs, Hz. }
  apply I, in_ins, H1.
Qed.
Lemma bd_pred L : (forall f, In f L -> tri3 f) -> NoDup (edges_of L) -> forall x y, In (x, y) (bd L) -> exists z, In (z, x) (bd L).
Proof.
  intros HT HN x y H. apply in_bd in H. destruct H as [H1 H2].
  assert (D : (exists z, In (z, x) (bd L)) \/ forall z, In (z, x) (edges_of L) -> In (x, z) (edges_of L)).
  { destruct (Exists_dec (fun z => ~ In (x, z) (edges_of L)) (ins x (edges_of L))) as [X|X].
    - intros z. destruct (in_dec edge_dec (x, z) (edges_of L)); [right; tauto|left; auto].
    - left. apply Exists_exists in X. destruct X as (z & Hz & X). exists z. apply in_bd. split; [now apply in_ins|exact X].
    - right. intros z Hz. destruct (in_dec edge_dec (x, z) (edges_of L)) as [Y|Y]; [exact Y|].
      exfalso. apply X, Exists_exists. exists z. split; [now apply in_ins|exact Y]. }
  destruct D as [D|D]; [exact D|exfalso]. apply H2, in_ins.
  assert (I : incl (outs x (edges_of L)) (ins x (edges_of L))).
  { apply NoDup_length_incl; [apply nodup_ins, HN|rewrite length_outs by exact HT; apply le_n|]. intros z Hz. apply in_outs, D, in_ins, Hz. }
  apply I, in_outs, H1.
Qed.
Lemma count_nodup x y l : NoDup l -> count x y l = if in_dec edge_dec (x, y) l then 1%nat else 0%nat.
Proof.
  induction 1 as [|e l N _ IH]; [reflexivity|]. rewrite count_cons, IH.
  destruct (edge_is x y e) eqn:E.
  - apply edge_is_true in E. subst e. destruct (in_dec edge_dec (x, y) l) as [I|I]; [contradiction|].
    destruct (in_dec edge_dec (x, y) ((x, y) :: l)) as [J|J]; [reflexivity|]. exfalso. apply J. left. reflexivity.
  - assert (Ne : e <> (x, y)) by (intros K; apply edge_is_true in K; congruence).
    destruct (in_dec edge_dec (x, y) l) as [I|I], (in_dec edge_dec (x, y) (e :: l)) as [J|J]; try reflexivity.
    + exfalso. apply J. right. exact I.
    + exfalso. destruct J as [J|J]; [congruence|contradiction].
Qed.
Lemma bd_same L L' : NoDup (edges_of L) -> NoDup (edges_of L') -> (forall x y, In (x, y) (bd L) <-> In (x, y) (bd L')) -> same_boundary L L'.
Proof.
  intros N N' H x y. rewrite !(count_nodup _ _ _ N), !(count_nodup _ _ _ N'). pose proof (H x y) as A. pose proof (H y x) as B. rewrite !in_bd in A, B.
  destruct (in_dec edge_dec (x, y) (edges_of L)), (in_dec edge_dec (y, x) (edges_of L)),
    (in_dec edge_dec (x, y) (edges_of L')), (in_dec edge_dec (y, x) (edges_of L')); try reflexivity; exfalso; tauto.
Qed.

(** a family of facets with one normal has a boundary *)
Definition turns (n : V) (f : face RA) : Prop := 0 < dt n (cr (vtx 1 f - vtx 0 f) (vtx 2 f - vtx 0 f)).
Lemma bd_some n L : L <> [] -> (forall f, In f L -> turns n f) -> NoDup (edges_of L) -> bd L <> [].
Proof.
  intros Hne HL HN E.
  assert (S : same_boundary L []).
  { apply bd_same; [exact HN|constructor|]. intros x y. rewrite E. reflexivity. }
  pose proof (boundary_sum (fun q r => dt n (cr q r)) L [] ltac:(intros; vring) S) as Z.
  cbn [rsum fold_right] in Z. change (fold_right (fun f acc => dt n (cr (vtx 0 f) (vtx 1 f)) + dt n (cr (vtx 1 f) (vtx 2 f)) + dt n (cr (vtx 2 f) (vtx 0 f)) + acc) 0 L)
    with (rsum (fun f => dt n (cr (vtx 0 f) (vtx 1 f)) + dt n (cr (vtx 1 f) (vtx 2 f)) + dt n (cr (vtx 2 f) (vtx 0 f))) L) in Z.
  assert (K : forall l, (forall f, In f l -> turns n f) -> l <> [] ->
     0 < rsum (fun f => dt n (cr (vtx 0 f) (vtx 1 f)) + dt n (cr (vtx 1 f) (vtx 2 f)) + dt n (cr (vtx 2 f) (vtx 0 f))) l).
  { induction l as [|f l IH]; [congruence|]. intros Hl _. cbn [rsum fold_right].
    match goal with |- context [fold_right ?g 0 l] => change (fold_right g 0 l) with (rsum (fun f => dt n (cr (vtx 0 f) (vtx 1 f)) + dt n (cr (vtx 1 f) (vtx 2 f)) + dt n (cr (vtx 2 f) (vtx 0 f))) l) end.
    pose proof (Hl f (or_introl eq_refl)) as T. unfold turns in T.
    assert (X : dt n (cr (vtx 0 f) (vtx 1 f)) + dt n (cr (vtx 1 f) (vtx 2 f)) + dt n (cr (vtx 2 f) (vtx 0 f)) = dt n (cr (vtx 1 f - vtx 0 f) (vtx 2 f - vtx 0 f)))
      by (generalize (vtx 0 f) (vtx 1 f) (vtx 2 f); intros; vring).
    rewrite X. destruct l as [|g l]; [cbn; lra|]. specialize (IH (fun f H => Hl f (or_intror H)) ltac:(discriminate)). lra. }
  specialize (K L HL Hne). cbv beta in Z. lra.
Qed.

Lemma nodup_app {X} (l l' : list X) : NoDup (l ++ l') -> NoDup l /\ NoDup l'.
Proof.
  induction l as [|x l IH]; cbn [app]; intros N; [split; [constructor|exact N]|]. inversion N as [|? ? N1 N2]; subst.
  destruct (IH N2). split; [constructor; auto|auto]. intros K. apply N1, in_or_app. left. exact K.
Qed.

(** ** Convex bodies *)
Record convex_body (p : polyhedron RA) (P : list V) : Prop := {
  cb_closed : closed p;
  cb_corner : forall f i, In f (pl_faces p) -> (i < 3)%nat -> In (vtx i f) P;
  cb_turn : forall f, In f (pl_faces p) -> dt (f_un f) (f_un f) = 1 /\ turns (f_un f) f /\
     dt (f_un f) (vtx 1 f - vtx 0 f) = 0 /\ dt (f_un f) (vtx 2 f - vtx 0 f) = 0;
  cb_behind : forall f q, In f (pl_faces p) -> In q P -> dt (f_un f) (q - vtx 0 f) <= 0;
  cb_solid : forall f, In f (pl_faces p) -> exists q, In q P /\ dt (f_un f) (q - vtx 0 f) < 0;
  cb_once : NoDup (edges_of (pl_faces p));
  cb_twin : forall x y, In (x, y) (edges_of (pl_faces p)) -> In (y, x) (edges_of (pl_faces p)) }.

Section Body.
  Variables (p : polyhedron RA) (P : list V).
  Hypothesis Hp : convex_body p P.
  Hypothesis HP : strict P.
  Lemma turns_tri3 n f : turns n f -> tri3 f.
  Proof.
    unfold turns, tri3. intros T. split; [|split]; intros E; rewrite E in T;
      revert T; generalize (vtx 0 f) (vtx 1 f) (vtx 2 f); intros a b c T.
    - replace (dt n (cr (b - b) (c - b))) with 0 in T by vring. lra.
    - replace (dt n (cr (c - a) (c - a))) with 0 in T by vring. lra.
    - replace (dt n (cr (b - a) (a - a))) with 0 in T by vring. lra.
  Qed.
  Lemma edges_grp n x y : In (x, y) (edges_of (grp n p)) -> In (x, y) (edges_of (pl_faces p)).
  Proof. rewrite !in_edges. intros (f & Hf & H). exists f. split; [apply in_grp in Hf; tauto|exact H]. Qed.
  Lemma once_grp n : NoDup (edges_of (grp n p)).
  Proof.
    pose proof (cb_once p P Hp) as N. unfold grp. revert N. generalize (pl_faces p). induction l as [|f l IH]; intros N; [constructor|].
    unfold edges_of in N. cbn [flat_map] in N. fold (edges_of l) in N. cbn [filter].
    assert (Nl : NoDup (edges_of l)) by (apply (nodup_app (fedges f)), N).
    destruct (veq_dec (f_un f) n); [|auto]. unfold edges_of. cbn [flat_map]. fold (edges_of (filter (fun f : face RA => if veq_dec (f_un f) n then true else false) l)).
    specialize (IH Nl). assert (N1 := proj1 (nodup_app _ _ N)).
    assert (D : forall e, In e (fedges f) -> ~ In e (edges_of l)).
    { clear - N. induction (fedges f) as [|e0 r IHr]; [intros e []|]. cbn [app] in N. inversion N as [|? ? N1 N2]; subst.
      intros e [<-|He]; [|auto]. intros K. apply N1, in_or_app. right. exact K. }
    clear N. induction (fedges f) as [|e0 r IHr]; [exact IH|]. cbn [app]. inversion N1; subst. constructor.
    - intros K. apply in_app_or in K. destruct K as [K|K]; [contradiction|]. apply (D e0 (or_introl eq_refl)).
      revert K. unfold edges_of. rewrite !in_flat_map. intros (g & Hg & K). apply filter_In in Hg. exists g. tauto.
    - apply IHr; [assumption|]. intros e He. apply D. right. exact He.
  Qed.
  (** the third corner is on the left of each edge *)
  Lemma third f x y : In f (pl_faces p) -> In (x, y) (fedges f) ->
    In x P /\ In y P /\ dt (f_un f) (x - vtx 0 f) = 0 /\ dt (f_un f) (y - vtx 0 f) = 0 /\
    exists z, In z P /\ dt (f_un f) (z - x) = 0 /\ 0 < dt (f_un f) (cr (y - x) (z - x)).
  Proof.
    intros Hf H. destruct (cb_turn p P Hp f Hf) as (_ & T & Z1 & Z2). unfold turns in T.
    pose proof (cb_corner p P Hp f 0 Hf ltac:(lia)) as P0. pose proof (cb_corner p P Hp f 1 Hf ltac:(lia)) as P1.
    pose proof (cb_corner p P Hp f 2 Hf ltac:(lia)) as P2.
    revert H T Z1 Z2 P0 P1 P2. unfold fedges. generalize (vtx 0 f) (vtx 1 f) (vtx 2 f) (f_un f : V). intros a b c n H T Z1 Z2 P0 P1 P2.
    assert (Z0 : dt n (a - a) = 0) by vring.
    destruct H as [E|[E|[E|[]]]]; injection E as <- <-; (split; [assumption|]); (split; [assumption|]); (split; [assumption|]); (split; [assumption|]).
    - exists c. auto.
    - exists a. split; [auto|]. split.
      + replace (a - b)%v with (- (b - a))%v by vring. rewrite dt_opp_r, Z1. ring.
      + replace (cr (c - b) (a - b)) with (cr (b - a) (c - a)) by vring. exact T.
    - exists b. split; [auto|]. split.
      + replace (b - c)%v with ((b - a) - (c - a))%v by vring. rewrite dt_sub_r, Z1, Z2. ring.
      + replace (cr (a - c) (b - c)) with (cr (b - a) (c - a)) by vring. exact T.
  Qed.
  Lemma base_move n (a x q : V) : dt n (x - a) = 0 -> dt n (q - x) = dt n (q - a).
  Proof. intros H. replace (q - x)%v with ((q - a) - (x - a))%v by vring. rewrite dt_sub_r, H. ring. Qed.

  Lemma bd_rim n x y : In (x, y) (bd (grp n p)) -> rim n P x y.
  Proof.
    intros H. apply in_bd in H. destruct H as [H NH].
    apply in_edges in H. destruct H as (f & Hf & He). apply in_grp in Hf. destruct Hf as [Hf Un].
    destruct (third f x y Hf He) as (Px & Py & X0 & Y0 & z & Pz & Zz & Lz). pose proof (cb_turn p P Hp f Hf) as (N1 & _).
    assert (Ht : In (y, x) (edges_of (pl_faces p))).
    { apply (cb_twin p P Hp). apply in_edges. eauto. }
    apply in_edges in Ht. destruct Ht as (g & Hg & Hge).
    assert (Ng : f_un g <> n).
    { intros E. apply NH. apply in_edges. exists g. split; [apply in_grp; auto|exact Hge]. }
    destruct (third g y x Hg Hge) as (_ & _ & Y1 & X1 & _). pose proof (cb_turn p P Hp g Hg) as (M1 & _).
    assert (Bn : forall q, In q P -> dt n (q - x) <= 0).
    { intros q Hq. rewrite <- Un, (base_move _ (vtx 0 f)) by exact X0. apply (cb_behind p P Hp f q Hf Hq). }
    assert (Bm : forall q, In q P -> dt (f_un g) (q - x) <= 0).
    { intros q Hq. rewrite (base_move _ (vtx 0 g)) by exact X1. apply (cb_behind p P Hp g q Hg Hq). }
    destruct (cb_solid p P Hp g Hg) as (q0 & Hq0 & S0). rewrite <- (base_move _ _ x q0 X1) in S0.
    rewrite Un in *. set (m := f_un g : V) in *. clearbody m. clear Hf He Hg Hge NH Un.
    set (w := (y - x)%v) in *. assert (Nw : x <> y).
    { intros E. assert (w = v0) by (unfold w; rewrite E; vring). rewrite H in Lz. replace (dt n (cr v0 (z - x))) with 0 in Lz by vring. lra. }
    assert (W : 0 < dt w w) by (apply vsub_nz, Nw).
    assert (Hnw : dt n w = 0) by (unfold w; rewrite (base_move _ _ x y X0); exact Y0).
    assert (Hmw : dt m w = 0) by (unfold w; rewrite (base_move _ _ x y X1); exact Y1).
    set (e := cr n w).
    assert (D : forall r, dt n r = 0 -> dt w w * dt m r = dt e r * dt m e).
    { intros r Hr. transitivity (dt m (dt w w * r)%v); [vring|]. rewrite (plane_split n w N1 Hnw r Hr). fold e. rewrite dt_add_r, !dt_sc_r, Hmw. ring. }
    assert (ME : dt m e < 0).
    { pose proof (D _ Zz) as Dz. rewrite left_e in Lz. fold e in Lz. specialize (Bm z Pz).
      assert (LE : dt m e <= 0) by nra. destruct (Rle_lt_or_eq_dec _ _ LE) as [K|K]; [exact K|exfalso].
      assert (Em : (m - dt n m * n)%v = v0).
      { assert (Q : dt n (m - dt n m * n) = 0) by (rewrite dt_sub_r, dt_sc_r, N1; ring).
        pose proof (plane_split n w N1 Hnw _ Q) as S. fold e in S.
        assert (S1 : dt w (m - dt n m * n) = 0).
        { rewrite dt_sub_r, dt_sc_r. replace (dt w m) with (dt m w) by vring. replace (dt w n) with (dt n w) by vring. rewrite Hmw, Hnw. ring. }
        assert (S2 : dt e (m - dt n m * n) = 0).
        { rewrite dt_sub_r, dt_sc_r. replace (dt e m) with (dt m e) by vring. replace (dt e n) with 0 by (unfold e; vring). rewrite K. ring. }
        rewrite S1, S2 in S. apply veq; [apply (f_equal vx) in S|apply (f_equal vy) in S|apply (f_equal vz) in S]; cbn in S |- *; nra. }
      assert (Em' : m = (dt n m * n)%v).
      { apply veq; [apply (f_equal vx) in Em|apply (f_equal vy) in Em|apply (f_equal vz) in Em]; cbn in Em |- *; lra. }
      assert (U : dt n m * dt n m = 1).
      { assert (U' : dt m m = dt n m * (dt n m * dt n n)) by (rewrite Em' at 1 2; rewrite dt_sc_l, dt_sc_r; reflexivity). rewrite N1, M1 in U'. lra. }
      assert (C : dt n m = 1 \/ dt n m = -1).
      { assert ((dt n m - 1) * (dt n m + 1) = 0) by lra. apply Rmult_integral in H. destruct H; [left|right]; lra. }
      destruct C as [C|C]; rewrite C in Em'.
      - apply Ng. rewrite Em'. vring.
      - rewrite Em', dt_sc_l in S0. specialize (Bn q0 Hq0). lra. }
    split; [exact Px|]. split; [exact Py|]. split; [exact Nw|]. split; [exact Bn|]. split; [exact Hnw|].
    intros q Hq Zq. pose proof (D _ Zq) as Dq. specialize (Bm q Hq). fold w. rewrite left_e. fold e.
    assert (G : 0 <= dt e (q - x)) by nra. destruct (Rle_lt_or_eq_dec _ _ G) as [K|K]; [auto|].
    destruct (HP x y q Px Py Hq Nw) as [->| ->]; auto. fold w. rewrite (plane_cr n N1 w _ Hnw Zq), left_e. fold e. rewrite <- K. vring.
  Qed.

  Lemma grp_rim n : grp n p <> [] -> forall x y, In (x, y) (bd (grp n p)) <-> rim n P x y.
  Proof.
    intros Hne x y. split; [apply bd_rim|].
    assert (N1 : dt n n = 1).
    { destruct (grp n p) as [|f l] eqn:E; [congruence|]. assert (Hf : In f (grp n p)) by (rewrite E; left; auto). apply in_grp in Hf.
      destruct Hf as [Hf <-]. apply (cb_turn p P Hp f Hf). }
    assert (HT : forall f, In f (grp n p) -> turns n f).
    { intros f Hf. apply in_grp in Hf. destruct Hf as [Hf <-]. apply (cb_turn p P Hp f Hf). }
    apply rim_all; [exact N1|apply (bd_some n); auto using once_grp|apply bd_rim|apply bd_succ|apply bd_pred];
      auto using once_grp; intros f Hf; apply (turns_tri3 n), HT, Hf.
  Qed.
End Body.

(** ** Every plane with facets of one body has facets of the other *)
Lemma small_step (l : list (R * R)) : (forall a b, In (a, b) l -> a < 0) ->
  exists eps, 0 < eps /\ forall a b, In (a, b) l -> a + eps * b < 0.
Proof.
  induction l as [|[a b] l IH]; intros H; [exists 1; split; [lra|intros a b []]|].
  destruct IH as (e & He & IH); [intros; eapply H; right; eauto|]. specialize (H a b (or_introl eq_refl)) as Ha.
  set (e' := Rmin e (- a / (2 * (1 + Rabs b)))).
  assert (Pb : 0 <= Rabs b) by apply Rabs_pos. pose proof (Rle_abs b) as Lb.
  assert (Q : 0 < - a / (2 * (1 + Rabs b))) by (apply Rdiv_lt_0_compat; lra).
  exists e'. split; [unfold e'; apply Rmin_pos; auto|]. assert (P' : 0 < e') by (unfold e'; apply Rmin_pos; auto). intros a' b' [E|Hin].
  - injection E as <- <-. assert (L : e' <= - a / (2 * (1 + Rabs b))) by apply Rmin_r.
    assert (L2 : e' * (2 * (1 + Rabs b)) <= - a).
    { apply (Rmult_le_compat_r (2 * (1 + Rabs b))) in L; [|lra]. unfold Rdiv in L. rewrite Rmult_assoc, Rinv_l in L by lra. lra. }
    nra.
  - specialize (IH a' b' Hin). pose proof (H a' b' (or_intror Hin)). assert (L : e' <= e) by apply Rmin_l.
    destruct (Rle_dec b' 0); nra.
Qed.

Lemma sum_om_inside p o : closed p -> pl_faces p <> [] -> (forall f, In f (pl_faces p) -> 0 < dt (f_un f) (vtx 0 f - o)) ->
  rsum (fun f => om (vtx 0 f - o) (vtx 1 f - o) (vtx 2 f - o)) (pl_faces p) < 0.
Proof.
  intros Hc Hne H.
  assert (K : forall f, In f (pl_faces p) -> om (vtx 0 f - o) (vtx 1 f - o) (vtx 2 f - o) < 0).
  { intros f Hf. destruct (det_side p o Hc f Hf) as (k & Hk & E). specialize (H f Hf).
    assert (D : 0 < det (vtx 0 f - o) (vtx 1 f - o) (vtx 2 f - o)) by (rewrite E; apply Rmult_lt_0_compat; auto).
    destruct (om_range (vtx 0 f - o)%v (vtx 1 f - o)%v (vtx 2 f - o)%v) as [_ S]; [lra|]. nra. }
  revert Hne K. clear. induction (pl_faces p) as [|f l IH]; [congruence|]. intros _ K. cbn [rsum fold_right].
  match goal with |- context [fold_right ?g 0 l] => change (fold_right g 0 l) with (rsum (fun f => om (vtx 0 f - o) (vtx 1 f - o) (vtx 2 f - o)) l) end.
  pose proof (K f (or_introl eq_refl)). destruct l as [|g l]; [cbn; lra|]. specialize (IH ltac:(discriminate) (fun f H => K f (or_intror H))). lra.
Qed.
Lemma sum_om_separated p o z : closed p -> z <> v0 -> (forall f i, In f (pl_faces p) -> (i < 3)%nat -> dt z (vtx i f - o) < 0) ->
  rsum (fun f => om (vtx 0 f - o) (vtx 1 f - o) (vtx 2 f - o)) (pl_faces p) = 0.
Proof.
  intros Hc Hz H. rewrite (ray_sum p o z (fun _ => false) Hc Hz).
  - unfold csign. rewrite rsum_zero. ring.
  - intros f Hf C. discriminate.
  - intros f Hf _ t Ht K. rewrite <- !sub_path in K. apply on_tri_seen in K.
    destruct (on_tri_dt _ _ _ _ z o K) as [r [s [u [H1 [H2 [H3 [S E]]]]]]].
    pose proof (H f 0%nat Hf ltac:(lia)). pose proof (H f 1%nat Hf ltac:(lia)). pose proof (H f 2%nat Hf ltac:(lia)).
    replace ((o + t * z) - o)%v with (t * z)%v in E by vring. rewrite dt_sc_r in E.
    pose proof (dt_nonneg z). assert (0 <= t * dt z z) by (apply Rmult_le_pos; auto).
    assert (r * dt z (vtx 0 f - o) + s * dt z (vtx 1 f - o) + u * dt z (vtx 2 f - o) < 0); [|lra].
    destruct (Rle_lt_or_eq_dec _ _ H1) as [P|P]; [nra|].
    destruct (Rle_lt_or_eq_dec _ _ H2) as [Q|Q]; [nra|].
    replace r with 0 by lra. replace s with 0 by lra. replace u with 1 by lra. lra.
  - intros f Hf C. discriminate.
Qed.

Lemma grp_both p p' P P' n : convex_body p P -> convex_body p' P' -> (forall q, In q P <-> In q P') -> pl_faces p' <> [] ->
  grp n p <> [] -> grp n p' <> [].
Proof.
  intros Hp Hp' HE Hne Hg E.
  destruct (grp n p) as [|f l] eqn:Eg; [congruence|]. assert (Hf : In f (grp n p)) by (rewrite Eg; left; auto).
  apply in_grp in Hf. destruct Hf as [Hf Un]. destruct (cb_turn p P Hp f Hf) as (N1 & T & Z1 & Z2). rewrite Un in *. unfold turns in T.
  assert (PC : forall i, (i < 3)%nat -> In (vtx i f) P') by (intros i Hi; apply HE, (cb_corner p P Hp f i Hf Hi)).
  set (a := vtx 0 f) in *. set (b := vtx 1 f) in *. set (d := vtx 2 f) in *.
  assert (Pa : In a P') by (apply (PC 0%nat); lia). assert (Pb : In b P') by (apply (PC 1%nat); lia). assert (Pd : In d P') by (apply (PC 2%nat); lia).
  set (c := (/ 3 * (a + b + d))%v).
  assert (S : forall g, In g (pl_faces p') -> dt (f_un g) (c - vtx 0 g) < 0).
  { intros g Hg'. pose proof (cb_behind p' P' Hp' g a Hg' Pa) as Ba. pose proof (cb_behind p' P' Hp' g b Hg' Pb) as Bb.
    pose proof (cb_behind p' P' Hp' g d Hg' Pd) as Bd.
    assert (Ec : dt (f_un g) (c - vtx 0 g) = / 3 * (dt (f_un g) (a - vtx 0 g) + dt (f_un g) (b - vtx 0 g) + dt (f_un g) (d - vtx 0 g))).
    { unfold c. generalize (f_un g : V) (vtx 0 g). intros m x. replace (/ 3 * (a + b + d) - x)%v with (/ 3 * ((a - x) + (b - x) + (d - x)))%v.
      - rewrite dt_sc_r, !dt_add_r. reflexivity.
      - apply veq; cbn; lra. }
    rewrite Ec. destruct (Req_dec (dt (f_un g) (a - vtx 0 g)) 0) as [Ka|Ka]; [|lra].
    destruct (Req_dec (dt (f_un g) (b - vtx 0 g)) 0) as [Kb|Kb]; [|lra].
    destruct (Req_dec (dt (f_un g) (d - vtx 0 g)) 0) as [Kd|Kd]; [|lra]. exfalso.
    destruct (cb_turn p' P' Hp' g Hg') as (M1 & _). destruct (cb_solid p' P' Hp' g Hg') as (q & Hq & Sq).
    pose proof (cb_behind p P Hp f q Hf (proj2 (HE q) Hq)) as Bq. rewrite Un in Bq. fold a in Bq.
    assert (Ng : f_un g <> n) by (intros K; assert (I : In g (grp n p')) by (apply in_grp; auto); rewrite E in I; destruct I).
    rewrite <- (base_move _ _ a q Ka) in Sq. rewrite <- (base_move _ _ a b Ka) in Kb. rewrite <- (base_move _ _ a d Ka) in Kd.
    set (m := f_un g : V) in *. clearbody m.
    (* m is parallel to n *)
    set (N := cr (b - a) (d - a)) in *.
    assert (PN : N = (dt n N * n)%v) by (apply plane_cr; auto).
    assert (PM : (dt N N * m)%v = (dt N m * N)%v).
    { assert (X : (dt N N * m - dt N m * N)%v = (dt m (d - a) * cr N (b - a) - dt m (b - a) * cr N (d - a))%v) by (unfold N; vring).
      rewrite Kb, Kd in X. apply veq; [apply (f_equal vx) in X|apply (f_equal vy) in X|apply (f_equal vz) in X]; cbn in X |- *; lra. }
    set (k := dt n N) in *. assert (NN : dt N N = k * k) by (rewrite PN, dt_sc_l, dt_sc_r, N1; ring).
    assert (NM : dt N m = k * dt n m) by (rewrite PN, dt_sc_l; reflexivity). rewrite NN, NM in PM.
    assert (Em : m = (dt n m * n)%v).
    { rewrite PN in PM. apply veq; [apply (f_equal vx) in PM|apply (f_equal vy) in PM|apply (f_equal vz) in PM]; cbn in PM |- *;
        apply (Rmult_eq_reg_l (k * k)); nra. }
    assert (U : dt n m * dt n m = 1).
    { assert (U' : dt m m = dt n m * (dt n m * dt n n)) by (rewrite Em at 1 2; rewrite dt_sc_l, dt_sc_r; reflexivity). rewrite N1, M1 in U'. lra. }
    assert (C : dt n m = 1 \/ dt n m = -1).
    { assert (X : (dt n m - 1) * (dt n m + 1) = 0) by lra. apply Rmult_integral in X. destruct X; [left|right]; lra. }
    destruct C as [C|C]; rewrite C in Em.
    - apply Ng. rewrite Em. vring.
    - rewrite Em, dt_sc_l in Sq. lra. }
  destruct (small_step (map (fun g : face RA => (dt (f_un g) (c - vtx 0 g), dt (f_un g) n)) (pl_faces p'))) as (eps & He & Hs).
  { intros x y H. apply in_map_iff in H. destruct H as (g & Eg' & Hg'). injection Eg' as <- _. auto. }
  set (o := (c + eps * n)%v).
  pose proof (sum_om_inside p' o (cb_closed p' P' Hp') Hne) as I1.
  pose proof (sum_om_separated p' o n (cb_closed p' P' Hp')) as I2.
  assert (J : rsum (fun f => om (vtx 0 f - o) (vtx 1 f - o) (vtx 2 f - o)) (pl_faces p') = 0).
  { apply I2.
    - intros K. rewrite K in N1. replace (dt v0 v0) with 0 in N1 by vring. lra.
    - intros g i Hg' Hi. pose proof (cb_corner p' P' Hp' g i Hg' Hi) as Hq. apply HE in Hq. pose proof (cb_behind p P Hp f _ Hf Hq) as B.
      rewrite Un in B. fold a in B.
      assert (X : dt n (vtx i g - o) = dt n (vtx i g - a) - / 3 * (dt n (b - a) + dt n (d - a)) - eps * dt n n).
      { unfold o, c. generalize (vtx i g). intros x. unfold dt; cbn. field. }
      rewrite X, Z1, Z2, N1. lra. }
  assert (Q : rsum (fun f => om (vtx 0 f - o) (vtx 1 f - o) (vtx 2 f - o)) (pl_faces p') < 0); [|lra].
  apply I1. intros g Hg'. specialize (Hs _ _ (in_map (fun g : face RA => (dt (f_un g) (c - vtx 0 g), dt (f_un g) n)) _ g Hg')).
  assert (X : dt (f_un g) (vtx 0 g - o) = - (dt (f_un g) (c - vtx 0 g) + eps * dt (f_un g) n)).
  { unfold o. generalize (f_un g : V) (vtx 0 g). intros. vring. }
  rewrite X. lra.
Qed.

(** ** The bodies built from correct hulls *)
Lemma nodup_flat {X Y} (g : X -> list Y) l : (forall x, In x l -> NoDup (g x)) ->
  (forall i j x y e, i <> j -> nth_error l i = Some x -> nth_error l j = Some y -> In e (g x) -> In e (g y) -> False) -> NoDup (flat_map g l).
Proof.
  induction l as [|x l IH]; intros H1 H2; [constructor|]. cbn [flat_map].
  assert (N : NoDup (flat_map g l)).
  { apply IH; [intros; apply H1; right; auto|]. intros i j a b e Hij. apply (H2 (S i) (S j)). lia. }
  assert (D : forall e, In e (g x) -> ~ In e (flat_map g l)).
  { intros e He K. apply in_flat_map in K. destruct K as (y & Hy & K). apply In_nth_error in Hy. destruct Hy as [j Hj].
    exact (H2 0%nat (S j) x y e ltac:(lia) eq_refl Hj He K). }
  specialize (H1 x (or_introl eq_refl)). revert H1 D. generalize (g x). induction l0 as [|e r IHr]; intros H1 D; [exact N|].
  cbn [app]. inversion H1; subst. constructor.
  - intros K. apply in_app_or in K. destruct K as [K|K]; [contradiction|exact (D e (or_introl eq_refl) K)].
  - apply IHr; [assumption|]. intros e' He'. apply D. right. exact He'.
Qed.
Lemma fedges_dedge h x y z (f : face RA) a b : vtx 0 f = pt h x -> vtx 1 f = pt h y -> vtx 2 f = pt h z -> In (a, b) (fedges f) ->
  exists i j k, dedge [x; y; z] i j k /\ a = pt h i /\ b = pt h j.
Proof.
  intros E0 E1 E2. unfold fedges. rewrite E0, E1, E2. intros [E|[E|[E|[]]]]; injection E as <- <-.
  - exists x, y, z. split; [left; reflexivity|auto].
  - exists y, z, x. split; [right; left; reflexivity|auto].
  - exists z, x, y. split; [right; right; reflexivity|auto].
Qed.
Lemma dedge_in l a b c : dedge l a b c -> In a l /\ In b l.
Proof. intros [->|[->| ->]]; cbn; auto. Qed.

Lemma hull_body h p : correct_hull h -> closed p -> (forall i f, nth_error (pl_faces p) i = Some f -> face_of h i f) ->
  convex_body p (map (pt h) (h_vertices h)).
Proof.
  intros Hh Hc HF.
  assert (HV : forall i f, nth_error (pl_faces p) i = Some f -> exists x y z,
    vtx 0 f = pt h x /\ vtx 1 f = pt h y /\ vtx 2 f = pt h z /\ outward h x y z /\ f_un f = (/ nm (nrm3 h x y z) * nrm3 h x y z)%v /\
    In x (h_vertices h) /\ In y (h_vertices h) /\ In z (h_vertices h) /\ x <> y /\ y <> z /\ z <> x /\
    exists s, nth_error (h_simplices h) i = Some s /\ Permutation s [x; y; z]).
  { intros i f Hf. destruct (HF i f Hf) as (s & x & y & z & t1 & t2 & t3 & Hs & HP & N1 & N2 & N3 & HO & Hpts & _ & Hu & _).
    exists x, y, z. unfold vtx, pnth. rewrite Hpts. cbn [nth]. do 3 (split; [reflexivity|]). split; [exact HO|]. split; [exact Hu|].
    assert (G : forall k, In k [x; y; z] -> In k (h_vertices h)).
    { intros k Hk. apply (ch_vert h Hh s); [eapply nth_error_In; eauto|]. eapply Permutation_in; [apply Permutation_sym, HP|exact Hk]. }
    split; [apply G; simpl; auto|]. split; [apply G; simpl; auto|]. split; [apply G; simpl; auto|]. repeat (split; [assumption|]). eauto. }
  assert (HV' : forall f, In f (pl_faces p) -> exists i, nth_error (pl_faces p) i = Some f) by (intros f Hf; now apply In_nth_error).
  constructor.
  - exact Hc.
  - intros f i Hf Hi. destruct (HV' f Hf) as [k Hk]. destruct (HV k f Hk) as (x & y & z & E0 & E1 & E2 & _ & _ & Hx & Hy & Hz & _).
    destruct i as [|[|[|i]]]; [rewrite E0|rewrite E1|rewrite E2|lia]; apply in_map; assumption.
  - intros f Hf. destruct (HV' f Hf) as [k Hk]. destruct (HV k f Hk) as (x & y & z & E0 & E1 & E2 & (N & _) & U & _).
    unfold turns. rewrite U, E0, E1, E2. fold (nrm3 h x y z). pose proof (nm_pos _ N) as P. pose proof (nm_sq (nrm3 h x y z)) as Q.
    assert (Pi : 0 < / nm (nrm3 h x y z)) by (apply Rinv_0_lt_compat, P).
    split; [rewrite dt_sc_l, dt_sc_r, <- Q; field; lra|]. split; [rewrite dt_sc_l, <- Q; apply Rmult_lt_0_compat; [exact Pi|apply Rmult_lt_0_compat; exact P]|].
    rewrite !dt_sc_l. unfold nrm3 at 2 4. split; [replace (dt (cr (pt h y - pt h x) (pt h z - pt h x)) (pt h y - pt h x)) with 0 by vring|
      replace (dt (cr (pt h y - pt h x) (pt h z - pt h x)) (pt h z - pt h x)) with 0 by vring]; ring.
  - intros f q Hf Hq. apply in_map_iff in Hq. destruct Hq as (i & <- & Hi). destruct (HV' f Hf) as [k Hk].
    destruct (HV k f Hk) as (x & y & z & E0 & _ & _ & (N & O & _) & U & _). rewrite U, E0, dt_sc_l. specialize (O i Hi).
    assert (0 < / nm (nrm3 h x y z)) by (apply Rinv_0_lt_compat, nm_pos; exact N). nra.
  - intros f Hf. destruct (HV' f Hf) as [k Hk]. destruct (HV k f Hk) as (x & y & z & E0 & _ & _ & (N & _ & i & Hi & O) & U & _).
    exists (pt h i). split; [now apply in_map|]. rewrite U, E0, dt_sc_l.
    assert (0 < / nm (nrm3 h x y z)) by (apply Rinv_0_lt_compat, nm_pos; exact N). nra.
  - unfold edges_of. apply nodup_flat.
    + intros f Hf. destruct (HV' f Hf) as [k Hk]. destruct (HV k f Hk) as (x & y & z & E0 & E1 & E2 & _ & _ & Hx & Hy & Hz & N1 & N2 & N3 & _).
      assert (M1 : pt h x <> pt h y) by (intros K; apply N1, (ch_inj h Hh); auto).
      assert (M2 : pt h y <> pt h z) by (intros K; apply N2, (ch_inj h Hh); auto).
      assert (M3 : pt h z <> pt h x) by (intros K; apply N3, (ch_inj h Hh); auto).
      unfold fedges. rewrite E0, E1, E2. repeat constructor; cbn; intros K; repeat destruct K as [K|K]; try injection K as K1 K2; try contradiction; congruence.
    + intros i j f g [a b] Hij Hi Hj Ha Hb.
      destruct (HV i f Hi) as (x & y & z & E0 & E1 & E2 & O & _ & Hx & Hy & Hz & _ & _ & _ & s & Hs & HP).
      destruct (HV j g Hj) as (x' & y' & z' & E0' & E1' & E2' & O' & _ & Hx' & Hy' & Hz' & _ & _ & _ & s' & Hs' & HP').
      destruct (fedges_dedge h x y z f a b E0 E1 E2 Ha) as (u & v & w & D & -> & ->).
      destruct (fedges_dedge h x' y' z' g _ _ E0' E1' E2' Hb) as (u' & v' & w' & D' & Ku & Kv).
      assert (IV : forall q, In q [x; y; z] -> In q (h_vertices h)) by (intros q [<-|[<-|[<-|[]]]]; assumption).
      assert (IV' : forall q, In q [x'; y'; z'] -> In q (h_vertices h)) by (intros q [<-|[<-|[<-|[]]]]; assumption).
      destruct (dedge_in _ _ _ _ D) as [I1 I2]. destruct (dedge_in _ _ _ _ D') as [I1' I2'].
      apply (ch_inj h Hh) in Ku; auto. apply (ch_inj h Hh) in Kv; auto. subst u' v'.
      exact (no_common_dedge h i j s s' x y z x' y' z' u v w w' Hh Hij Hs Hs' HP HP' O O' D D').
  - intros x y H. apply in_edges in H. destruct H as (f & Hf & He). destruct (HV' f Hf) as [i Hi].
    destruct (proj1 Hc f Hf) as (p1 & p2 & p3 & Hq). destruct (facet_vtx _ _ _ _ Hq) as (V0 & V1 & V2).
    destruct Hq as [_ (s1 & s2 & s3 & t1 & t2 & t3 & Ee)].
    assert (K : exists j e, nth_error (f_edges f) j = Some e /\ e_start e = x /\ e_end e = y).
    { rewrite Ee. unfold fedges in He. rewrite V0, V1, V2 in He. destruct He as [E|[E|[E|[]]]]; injection E as <- <-;
        [exists 0%nat|exists 1%nat|exists 2%nat]; eexists; (split; [reflexivity|split; reflexivity]). }
    destruct K as (j & e & Hj & Es & Et).
    destruct (proj2 Hc (i, j) e) as (k' & e' & _ & (g & Hg & Hge) & _ & Es' & Et'); [exists f; split; assumption|].
    apply in_edges. exists g. apply nth_error_In in Hg as Hg'. split; [exact Hg'|].
    destruct (proj1 Hc g Hg') as (r1 & r2 & r3 & Hr). destruct (facet_vtx _ _ _ _ Hr) as (W0 & W1 & W2).
    destruct Hr as [_ (s1' & s2' & s3' & t1' & t2' & t3' & Ee')]. rewrite Ee' in Hge. apply nth_error_In in Hge.
    unfold fedges. rewrite W0, W1, W2. rewrite <- Es, <- Et, <- Es', <- Et'.
    destruct Hge as [<-|[<-|[<-|[]]]]; cbn; auto.
Qed.

(** ** Grouping by normals *)
Lemma filter_perm {X} (key : X -> V) (keys : list V) l : NoDup keys -> (forall x, In x l -> In (key x) keys) ->
  Permutation l (concat (map (fun n => filter (fun x => if veq_dec (key x) n then true else false) l) keys)).
Proof.
  intros N. revert l. induction N as [|k keys Nk N IH]; intros l H.
  - destruct l as [|x l]; [constructor|destruct (H x (or_introl eq_refl))].
  - cbn [map concat]. set (g := fun x => if veq_dec (key x) k then true else false).
    assert (P : Permutation l (filter g l ++ filter (fun x => negb (g x)) l)).
    { clear. induction l as [|x l IHl]; [constructor|]. cbn [filter]. destruct (g x); cbn [negb app]; [now constructor|].
      eapply Permutation_trans; [apply perm_skip, IHl|]. apply Permutation_middle. }
    eapply Permutation_trans; [exact P|]. apply Permutation_app_head.
    eapply Permutation_trans; [apply IH|].
    + intros x Hx. apply filter_In in Hx. destruct Hx as [Hx Kx]. unfold g in Kx. destruct (veq_dec (key x) k) as [->|D]; [discriminate|].
      destruct (H x Hx) as [E|E]; [congruence|exact E].
    + assert (E : forall n, In n keys -> filter (fun x => if veq_dec (key x) n then true else false) (filter (fun x => negb (g x)) l) =
        filter (fun x => if veq_dec (key x) n then true else false) l).
      { intros n Hn. clear - Hn Nk. induction l as [|x l IHl]; [reflexivity|]. cbn [filter]. unfold g at 1. destruct (veq_dec (key x) k) as [Ek|D]; cbn [negb].
        - destruct (veq_dec (key x) n) as [En|D]; [exfalso; apply Nk; congruence|exact IHl].
        - cbn [filter]. destruct (veq_dec (key x) n); now rewrite IHl. }
      clear - E. induction keys as [|n keys IHk]; [constructor|]. cbn [map concat]. rewrite (E n (or_introl eq_refl)).
      apply Permutation_app_head. apply IHk. intros m Hm. apply E. right. exact Hm.
Qed.

Theorem same_corners p p' P P' o d G g : convex_body p P -> convex_body p' P' -> (forall q, In q P <-> In q P') -> strict P ->
  pl_faces p <> [] -> pl_faces p' <> [] -> clear p o g -> clear p' o g ->
  spec_gravity (A := RA) p o d G g = spec_gravity (A := RA) p' o d G g.
Proof.
  intros Hp Hp' HE HS Hne Hne' Hr Hr'.
  assert (HS' : strict P') by (intros x y q Hx Hy Hq; apply HS; apply HE; assumption).
  set (keys := nodup veq_dec (map (fun f : face RA => f_un f : V) (pl_faces p ++ pl_faces p'))).
  set (groups := map (fun n => (grp n p, grp n p')) keys).
  assert (HK : forall f, In f (pl_faces p) \/ In f (pl_faces p') -> In (f_un f : V) keys).
  { intros f Hf. unfold keys. apply nodup_In. apply (in_map (fun f : face RA => f_un f : V)). apply in_or_app. exact Hf. }
  apply (retri_clear p p' o d G (cb_closed p P Hp) (cb_closed p' P' Hp') groups); auto.
  - unfold groups. rewrite map_map. cbn [fst]. apply (filter_perm (fun f : face RA => f_un f : V)); [apply NoDup_nodup|]. intros; apply HK; auto.
  - unfold groups. rewrite map_map. cbn [snd]. apply (filter_perm (fun f : face RA => f_un f : V)); [apply NoDup_nodup|]. intros; apply HK; auto.
  - intros L L' H. unfold groups in H. apply in_map_iff in H. destruct H as (n & E & Hn). injection E as <- <-.
    assert (B1 : grp n p <> [] -> grp n p' <> []) by (apply (grp_both p p' P P'); auto).
    assert (B2 : grp n p' <> [] -> grp n p <> []) by (apply (grp_both p' p P' P); auto; intros q; symmetry; apply HE).
    split.
    + exists n. split.
      * intros f Hf. apply in_app_or in Hf. destruct Hf as [Hf|Hf]; apply in_grp in Hf; tauto.
      * assert (K : forall f q, In f (grp n p ++ grp n p') -> In q (f_points f) -> In q P /\ forall r, In r P -> dt n (r - q) <= 0).
        { intros f q Hf Hq. apply in_app_or in Hf. destruct Hf as [Hf|Hf]; apply in_grp in Hf; destruct Hf as [Hf Un].
          - destruct (proj1 (cb_closed p P Hp) f Hf) as (p1 & p2 & p3 & HF). destruct (facet_vtx _ _ _ _ HF) as (V0 & V1 & V2).
            destruct (cb_turn p P Hp f Hf) as (_ & _ & Z1 & Z2). rewrite Un in *.
            assert (KP : exists i, (i < 3)%nat /\ q = vtx i f /\ dt n (q - vtx 0 f) = 0).
            { destruct HF as [[EP _] _]. rewrite EP in Hq. destruct Hq as [<-|[<-|[<-|[]]]].
              - exists 0%nat. rewrite V0. split; [lia|split; [reflexivity|vring]].
              - exists 1%nat. rewrite <- V1. split; [lia|split; [reflexivity|exact Z1]].
              - exists 2%nat. rewrite <- V2. split; [lia|split; [reflexivity|exact Z2]]. }
            destruct KP as (i & Hi & -> & Z). split; [apply (cb_corner p P Hp); auto|]. intros r Hr0. rewrite (base_move _ _ _ r Z).
            rewrite <- Un. apply (cb_behind p P Hp f r Hf Hr0).
          - destruct (proj1 (cb_closed p' P' Hp') f Hf) as (p1 & p2 & p3 & HF). destruct (facet_vtx _ _ _ _ HF) as (V0 & V1 & V2).
            destruct (cb_turn p' P' Hp' f Hf) as (_ & _ & Z1 & Z2). rewrite Un in *.
            assert (KP : exists i, (i < 3)%nat /\ q = vtx i f /\ dt n (q - vtx 0 f) = 0).
            { destruct HF as [[EP _] _]. rewrite EP in Hq. destruct Hq as [<-|[<-|[<-|[]]]].
              - exists 0%nat. rewrite V0. split; [lia|split; [reflexivity|vring]].
              - exists 1%nat. rewrite <- V1. split; [lia|split; [reflexivity|exact Z1]].
              - exists 2%nat. rewrite <- V2. split; [lia|split; [reflexivity|exact Z2]]. }
            destruct KP as (i & Hi & -> & Z). split; [apply HE, (cb_corner p' P' Hp'); auto|]. intros r Hr0. rewrite (base_move _ _ _ r Z).
            rewrite <- Un. apply (cb_behind p' P' Hp' f r Hf). apply HE, Hr0. }
        intros f g0 q r Hf Hg Hq Hr0. destruct (K f q Hf Hq) as [Pq Bq]. destruct (K g0 r Hg Hr0) as [Pr Br].
        specialize (Bq r Pr). specialize (Br q Pq). replace (r - q)%v with (- (q - r))%v in Bq by vring. rewrite dt_opp_r in Bq. lra.
    + destruct (grp n p) as [|f0 l0] eqn:Eg.
      * destruct (grp n p') as [|f1 l1] eqn:Eg'; [intros x y; reflexivity|]. exfalso. apply B2; [discriminate|reflexivity].
      * rewrite <- Eg in *. assert (Ne : grp n p <> []) by (rewrite Eg; discriminate).
        apply bd_same; [apply (once_grp p P Hp)|apply (once_grp p' P' Hp')|]. intros x y.
        rewrite (grp_rim p P Hp HS n Ne), (grp_rim p' P' Hp' HS' n (B1 Ne)). unfold rim. setoid_rewrite HE. reflexivity.
Qed.

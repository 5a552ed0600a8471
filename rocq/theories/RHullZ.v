(** * A decision procedure for integer hulls and observers (for examples)

    [hullb h = true] implies that the hull [rh h], with the same integer
    coordinates seen as reals, is a correct hull; [obsb h o = true] that the
    integer observer [o] is regular for every polyhedron built from it. *)
From Coq Require Import Reals Lra Psatz ZArith Bool List Permutation Arith Lia.
Import ListNotations.
From Verif Require Import Base MUtils MEdge MFace MHull MPoly SpecPoly PPoly PStation PPlain Examples.
From Verif Require Import RVec RArith REdge REdgeModel RAngle ROmega RFace RFacet RPoly RTwin RField RHull.
Local Open Scope R_scope.

Notation ZV := (vec3 Z).
Definition rv (a : ZV) : V := V3 (IZR (vx a)) (IZR (vy a)) (IZR (vz a)).
Definition zsub (a b : ZV) : ZV := V3 (vx a - vx b)%Z (vy a - vy b)%Z (vz a - vz b)%Z.
Definition zdt (a b : ZV) : Z := (vx a * vx b + vy a * vy b + vz a * vz b)%Z.
Definition zcr (a b : ZV) : ZV :=
  V3 (vy a * vz b - vz a * vy b)%Z (vz a * vx b - vx a * vz b)%Z (vx a * vy b - vy a * vx b)%Z.
Lemma rv_sub a b : (rv a - rv b)%v = rv (zsub a b).
Proof. unfold rv, zsub, vm; cbn [vx vy vz]. now rewrite !minus_IZR. Qed.
Lemma rv_dt a b : dt (rv a) (rv b) = IZR (zdt a b).
Proof. unfold rv, zdt, dt; cbn [vx vy vz]. now rewrite !plus_IZR, !mult_IZR. Qed.
Lemma rv_cr a b : cr (rv a) (rv b) = rv (zcr a b).
Proof. unfold rv, zcr, cr; cbn [vx vy vz]. now rewrite !minus_IZR, !mult_IZR. Qed.
Lemma rv_0 a : rv a = v0 -> zdt a a = 0%Z.
Proof. intros H. apply eq_IZR. rewrite <- rv_dt, H. apply dt_0_l. Qed.

Record zhull : Type := {
  z_points : list ZV; z_simplices : list (list nat); z_neighbors : list (list nat); z_vertices : list nat }.
Definition zpt (h : zhull) (i : nat) : ZV := nth i (z_points h) (V3 0 0 0)%Z.
Definition rh (h : zhull) : hull RA :=
  {| h_points := (map rv (z_points h) : list (vec RA)); h_simplices := z_simplices h;
     h_neighbors := z_neighbors h; h_vertices := z_vertices h |}.
Lemma pt_rh h i : pt (rh h) i = rv (zpt h i).
Proof.
  unfold pt, zpt, rh; cbn [h_points]. change v0 with (rv (V3 0 0 0)%Z). apply map_nth.
Qed.
Definition znrm3 h a b c := zcr (zsub (zpt h b) (zpt h a)) (zsub (zpt h c) (zpt h a)).
Lemma nrm3_rh h a b c : nrm3 (rh h) a b c = rv (znrm3 h a b c).
Proof. unfold nrm3, znrm3. now rewrite !pt_rh, !rv_sub, rv_cr. Qed.
Lemma side_rh h a b c i : dt (nrm3 (rh h) a b c) (pt (rh h) i - pt (rh h) a) =
  IZR (zdt (znrm3 h a b c) (zsub (zpt h i) (zpt h a))).
Proof. now rewrite nrm3_rh, !pt_rh, rv_sub, rv_dt. Qed.

Definition inb (x : nat) (l : list nat) : bool := existsb (Nat.eqb x) l.
Definition neb (x y : nat) : bool := negb (Nat.eqb x y).
Definition tri_okb (h : zhull) (s : list nat) : bool :=
  match s with
  | [a; b; c] =>
      neb a b && neb b c && neb c a &&
      negb (Z.eqb (zdt (znrm3 h a b c) (znrm3 h a b c)) 0) &&
      forallb (fun i => inb i (z_vertices h)) s &&
      (let q i := zdt (znrm3 h a b c) (zsub (zpt h i) (zpt h a)) in
       (forallb (fun i => Z.leb (q i) 0) (z_vertices h) || forallb (fun i => Z.leb 0 (q i)) (z_vertices h)) &&
       existsb (fun i => negb (Z.eqb (q i) 0)) (z_vertices h))
  | _ => false
  end.
Definition veqz (a b : ZV) : bool := (Z.eqb (vx a) (vx b) && Z.eqb (vy a) (vy b) && Z.eqb (vz a) (vz b))%bool.
Definition idx (h : zhull) : list nat := seq 0 (length (z_simplices h)).
Definition sim (h : zhull) (i : nat) : list nat := nth i (z_simplices h) [].
Definition nbr (h : zhull) (i : nat) : list nat := nth i (z_neighbors h) [].
Definition nbr_okb (h : zhull) (i : nat) : bool :=
  forallb (fun a => forallb (fun b => Nat.eqb a b ||
    existsb (fun j => neb j i && Nat.ltb j (length (z_simplices h)) && inb a (sim h j) && inb b (sim h j) &&
      forallb (fun k => negb (inb a (sim h k) && inb b (sim h k)) || (Nat.eqb k i || Nat.eqb k j)) (idx h))
     (nbr h i)) (sim h i)) (sim h i) &&
  forallb (fun j => neb j i && Nat.ltb j (length (z_simplices h))) (nbr h i).
Definition flat_okb (h : zhull) (i j : nat) : bool :=
  Nat.eqb i j ||
  forallb (fun a => forallb (fun b => forallb (fun c => forallb (fun d =>
     negb (neb a b && neb b c && neb c a && neb a d && neb b d && inb a (sim h j) && inb b (sim h j)) ||
     negb (Z.eqb (zdt (znrm3 h a b c) (zsub (zpt h d) (zpt h a))) 0) ||
     Z.ltb (zdt (znrm3 h a b c) (znrm3 h a b d)) 0)
   (sim h j)) (sim h i)) (sim h i)) (sim h i).
Definition rangeb (h : zhull) : bool := forallb (fun i => Nat.ltb i (length (z_points h))) (z_vertices h).
Definition hullb (h : zhull) : bool :=
  rangeb h &&
  Nat.eqb (length (z_neighbors h)) (length (z_simplices h)) &&
  forallb (tri_okb h) (z_simplices h) &&
  forallb (fun i => forallb (fun j => Nat.eqb i j || negb (veqz (zpt h i) (zpt h j))) (z_vertices h)) (z_vertices h) &&
  forallb (nbr_okb h) (idx h) &&
  forallb (fun i => forallb (flat_okb h i) (idx h)) (idx h).

Lemma inb_in x l : inb x l = true <-> In x l. Proof. apply existsb_in. Qed.
Lemma neb_ne x y : neb x y = true <-> x <> y.
Proof. unfold neb. rewrite negb_true_iff. apply Nat.eqb_neq. Qed.
Ltac bsplit := repeat match goal with
  | H : (_ && _)%bool = true |- _ => apply andb_true_iff in H; destruct H
  | H : neb _ _ = true |- _ => apply neb_ne in H
  | H : inb _ _ = true |- _ => apply inb_in in H
  end.

Lemma tri_okb_ok h s : tri_okb h s = true -> exists a b c, s = [a; b; c] /\ a <> b /\ b <> c /\ c <> a /\
  zdt (znrm3 h a b c) (znrm3 h a b c) <> 0%Z /\ (forall i, In i s -> In i (z_vertices h)) /\
  (let q i := zdt (znrm3 h a b c) (zsub (zpt h i) (zpt h a)) in
   ((forall i, In i (z_vertices h) -> (q i <= 0)%Z) \/ (forall i, In i (z_vertices h) -> (0 <= q i)%Z)) /\
   exists i, In i (z_vertices h) /\ q i <> 0%Z).
Proof.
  destruct s as [|a [|b [|c [|x s]]]]; try discriminate. intros H. exists a, b, c.
  cbv beta iota zeta delta [tri_okb] in H. bsplit.
  split; [auto|]. split; [auto|]. split; [auto|]. split; [auto|]. split.
  { apply Z.eqb_neq. now apply negb_true_iff. }
  split.
  { intros i Hi. match goal with K : forallb _ [a; b; c] = true |- _ => exact (proj1 (inb_in _ _) (proj1 (forallb_forall _ _) K i Hi)) end. }
  cbv zeta. split.
  - match goal with K : (_ || _)%bool = true |- _ => apply orb_true_iff in K; destruct K as [Q|Q]; rewrite forallb_forall in Q end.
    + left. intros i Hi. apply Z.leb_le. now apply Q.
    + right. intros i Hi. apply Z.leb_le. now apply Q.
  - match goal with K : existsb _ _ = true |- _ => apply existsb_exists in K; destruct K as [i [Hi Q]] end.
    exists i. split; auto. apply Z.eqb_neq. now apply negb_true_iff.
Qed.

Lemma hullb_ok h : hullb h = true -> correct_hull (rh h).
Proof.
  intros H. unfold hullb in H. bsplit.
  match goal with K : Nat.eqb _ _ = true |- _ => apply Nat.eqb_eq in K; rename K into Hlen end.
  repeat match goal with K : forallb _ _ = true |- _ => rewrite forallb_forall in K end.
  match goal with K : forall x, In x (z_simplices h) -> _ |- _ => rename K into Htri end.
  match goal with K : forall x, In x (z_vertices h) -> _ |- _ => rename K into Hinj end.
  match goal with K : forall x, In x (idx h) -> nbr_okb h x = true |- _ => rename K into Hnbr end.
  match goal with K : forall x, In x (idx h) -> forallb _ _ = true |- _ => rename K into Hflat end.
  assert (Hidx : forall i s, nth_error (z_simplices h) i = Some s -> In i (idx h) /\ sim h i = s).
  { intros i s Hs. split.
    - apply in_seq. split; [lia|]. cbn [Nat.add]. apply nth_error_Some. congruence.
    - unfold sim. now apply nth_error_nth. }
  constructor; cbn [rh h_neighbors h_simplices h_vertices]; auto.
  - intros s Hs. destruct (tri_okb_ok h s (Htri s Hs)) as (a & b & c & K). exists a, b, c. intuition.
  - intros a b c Hs. destruct (tri_okb_ok h _ (Htri _ Hs)) as (a' & b' & c' & E & _ & _ & _ & K & _).
    injection E as <- <- <-. rewrite nrm3_rh. intros Z. apply K. now apply rv_0.
  - intros s i Hs Hi. destruct (tri_okb_ok h _ (Htri _ Hs)) as (a' & b' & c' & E & _ & _ & _ & _ & K & _). auto.
  - intros i Hi. match goal with K : rangeb h = true |- _ => unfold rangeb in K; rewrite forallb_forall in K; specialize (K i Hi); apply Nat.ltb_lt in K end.
    unfold rh; cbn [h_points]. rewrite map_length. assumption.
  - intros i j Hi Hj E. rewrite !pt_rh in E. specialize (Hinj i Hi). rewrite forallb_forall in Hinj. specialize (Hinj j Hj).
    apply orb_true_iff in Hinj. destruct Hinj as [K|K]; [now apply Nat.eqb_eq|]. exfalso.
    apply negb_true_iff in K. unfold veqz in K. unfold rv in E. injection E as E1 E2 E3.
    apply eq_IZR in E1, E2, E3. rewrite E1, E2, E3, !Z.eqb_refl in K. discriminate.
  - intros a b c Hs. destruct (tri_okb_ok h _ (Htri _ Hs)) as (a' & b' & c' & E & _ & _ & _ & _ & _ & K & _).
    injection E as <- <- <-. destruct K as [K|K]; [left|right]; intros i Hi; rewrite side_rh; apply IZR_le; auto.
  - intros a b c Hs. destruct (tri_okb_ok h _ (Htri _ Hs)) as (a' & b' & c' & E & _ & _ & _ & _ & _ & _ & i & Hi & K).
    injection E as <- <- <-. exists i. split; [auto|]. rewrite side_rh. apply not_0_IZR. auto.
  - intros i s n Hs Hn a b Ha Hb Hab. destruct (Hidx i s Hs) as [Hi Es].
    specialize (Hnbr i Hi). unfold nbr_okb in Hnbr. apply andb_true_iff in Hnbr. destruct Hnbr as [K _].
    rewrite forallb_forall in K. rewrite Es in K. specialize (K a Ha). rewrite forallb_forall in K. specialize (K b Hb).
    apply orb_true_iff in K. destruct K as [K|K]; [apply Nat.eqb_eq in K; contradiction|].
    apply existsb_exists in K. destruct K as [j [Hj K]]. bsplit.
    match goal with K : Nat.ltb _ _ = true |- _ => apply Nat.ltb_lt in K; rename K into Hjl end.
    exists j, (sim h j). unfold nbr in Hj. rewrite (nth_error_nth _ _ [] Hn) in Hj.
    split; [auto|]. split; [auto|]. split.
    { unfold sim. apply nth_error_nth'. auto. }
    split; [auto|]. split; [auto|].
    intros k s'' Hk Ha'' Hb''. destruct (Hidx k s'' Hk) as [Hki Ek].
    match goal with K : forallb _ (idx h) = true |- _ => rewrite forallb_forall in K; specialize (K k Hki); rename K into Q end.
    rewrite Ek in Q. apply inb_in in Ha'', Hb''. rewrite Ha'', Hb'' in Q. cbn [andb negb orb] in Q.
    apply orb_true_iff in Q. destruct Q as [Q|Q]; apply Nat.eqb_eq in Q; auto.
  - intros i n j Hn Hj.
    assert (Hi : In i (idx h)).
    { apply in_seq. split; [lia|]. cbn [Nat.add]. rewrite <- Hlen. apply nth_error_Some. congruence. }
    specialize (Hnbr i Hi). unfold nbr_okb in Hnbr. apply andb_true_iff in Hnbr. destruct Hnbr as [_ K].
    rewrite forallb_forall in K. unfold nbr in K. rewrite (nth_error_nth _ _ [] Hn) in K. specialize (K j Hj).
    bsplit. split; [auto|]. now apply Nat.ltb_lt.
  - intros i j s s' a b c d Hij Hs Hs' Hp Hp' HZ. destruct (Hidx i s Hs) as [Hi Es]. destruct (Hidx j s' Hs') as [Hj Es'].
    specialize (Hflat i Hi). rewrite forallb_forall in Hflat. specialize (Hflat j Hj). unfold flat_okb in Hflat.
    apply orb_true_iff in Hflat. destruct Hflat as [K|K]; [apply Nat.eqb_eq in K; contradiction|].
    rewrite Es, Es' in K.
    assert (Hin : forall q, In q [a; b; c] -> In q s) by (intros q; apply Permutation_in; now apply Permutation_sym).
    assert (Hin' : forall q, In q [a; b; d] -> In q s') by (intros q; apply Permutation_in; now apply Permutation_sym).
    rewrite forallb_forall in K. specialize (K a (Hin a ltac:(simpl; auto))).
    rewrite forallb_forall in K. specialize (K b (Hin b ltac:(simpl; auto))).
    rewrite forallb_forall in K. specialize (K c (Hin c ltac:(simpl; auto))).
    rewrite forallb_forall in K. specialize (K d (Hin' d ltac:(simpl; auto))).
    assert (N : NoDup [a; b; c]).
    { eapply Permutation_NoDup; [exact Hp|]. destruct (tri_okb_ok h s (Htri s (nth_error_In _ _ Hs))) as (x & y & z & -> & D1 & D2 & D3 & _).
      repeat constructor; simpl; intuition. }
    assert (N' : NoDup [a; b; d]).
    { eapply Permutation_NoDup; [exact Hp'|]. destruct (tri_okb_ok h s' (Htri s' (nth_error_In _ _ Hs'))) as (x & y & z & -> & D1 & D2 & D3 & _).
      repeat constructor; simpl; intuition. }
    inversion N as [|? ? A1 A2]; subst. inversion A2 as [|? ? B1 B2]; subst.
    inversion N' as [|? ? A1' A2']; subst. inversion A2' as [|? ? B1' B2']; subst. simpl in *.
    assert (R1 : neb a b = true) by (apply neb_ne; intuition).
    assert (R2 : neb b c = true) by (apply neb_ne; intuition).
    assert (R3 : neb c a = true) by (apply neb_ne; intuition).
    assert (R4 : neb a d = true) by (apply neb_ne; intuition).
    assert (R5 : neb b d = true) by (apply neb_ne; intuition).
    assert (R6 : inb a (sim h j) = true) by (apply inb_in, Hin'; auto).
    assert (R7 : inb b (sim h j) = true) by (apply inb_in, Hin'; auto).
    rewrite R1, R2, R3, R4, R5, R6, R7 in K. cbn [andb negb orb] in K.
    apply orb_true_iff in K. destruct K as [K|K].
    + exfalso. apply negb_true_iff, Z.eqb_neq in K. apply K. apply eq_IZR. rewrite <- side_rh. exact HZ.
    + rewrite !nrm3_rh, rv_dt. apply IZR_lt. now apply Z.ltb_lt.
Qed.

(** ** Integer observers *)
Lemma reg_edge_suff p q o M : p <> q -> 1 <= dt (cr (p - o) (q - o)) (cr (p - o) (q - o)) ->
  nm (q - p) <= M -> nm (p - o) <= M -> nm (q - o) <= M -> 2 * M * M * M * eps < 1 -> reg_edge p q o.
Proof.
  intros Hne HC Hl Ha Hb HM. pose proof eps_pos as He. pose proof (sub_pos p q Hne) as Hl0.
  assert (G : forall a s, nm a <= M -> (s = 1 \/ s = -1) -> cr (q - p) a = cr (p - o) (q - o) \/ cr (q - p) a = (- cr (p - o) (q - o))%v ->
     eps < nm a + s * dt (uv p q) a).
  { intros a s HaM Hs Hc.
    assert (Q : dt (cr (q - p) a) (cr (q - p) a) = dt (cr (p - o) (q - o)) (cr (p - o) (q - o))).
    { destruct Hc as [-> | ->]; [auto|]. dts. ring. }
    rewrite lagrange in Q.
    assert (E : (nm a + s * dt (uv p q) a) * (nm a - s * dt (uv p q) a) * (nm (q - p) * nm (q - p)) =
                dt (cr (p - o) (q - o)) (cr (p - o) (q - o))).
    { rewrite <- Q. rewrite <- (nm_sq (q - p)%v), <- (nm_sq a). unfold uv. rewrite dt_sc_l.
      destruct Hs as [-> | ->]; field; lra. }
    pose proof (cs_abs (uv p q) a) as C. rewrite uv_unit, Rmult_1_l in C by auto. pose proof (Rle_abs (dt (uv p q) a)) as C1.
    pose proof (Rle_abs (- dt (uv p q) a)) as C2. rewrite Rabs_Ropp in C2.
    set (x := s * dt (uv p q) a) in *. assert (Hx : - nm a <= x <= nm a) by (unfold x; destruct Hs as [-> | ->]; lra).
    pose proof (nm_nonneg a) as Ha0.
    assert (L : 1 <= (nm a + x) * (2 * M * (M * M))).
    { apply Rle_trans with (1 := HC). rewrite <- E. rewrite Rmult_assoc. apply Rmult_le_compat_l; [lra|].
      apply Rmult_le_compat; try nra. }
    apply Rnot_le_lt. intros K.
    assert ((nm a + x) * (2 * M * (M * M)) <= eps * (2 * M * (M * M))).
    { apply Rmult_le_compat_r; [nra|exact K]. }
    nra. }
  split.
  - pose proof (G (p - o)%v 1 Ha (or_introl eq_refl)) as K. rewrite Rmult_1_l in K. apply K. right. vring.
  - pose proof (G (q - o)%v (-1) Hb (or_intror eq_refl)) as K.
    replace (nm (q - o) - dt (uv p q) (q - o)) with (nm (q - o) + -1 * dt (uv p q) (q - o)) by ring. apply K. right. vring.
Qed.

Lemma reg_plane_suff p1 p2 p3 o M : 1 <= Rabs (det (p1 - o) (p2 - o) (p3 - o)) ->
  nm (p2 - p1) <= M -> nm (p3 - p1) <= M -> M * M * eps < 1 -> cr (p2 - p1) (p3 - p1) <> v0 ->
  eps < Rabs (dt (tri_normal p1 p2 p3) (p1 - o)).
Proof.
  intros HD H2 H3 HM Hn. pose proof eps_pos as He. rewrite (tri_det p1 p2 p3 o Hn) in HD.
  pose proof (nm_pos _ Hn) as Hp. rewrite Rabs_mult, (Rabs_pos_eq (nm _)) in HD by lra.
  set (x := Rabs _) in *.
  assert (HC : nm (cr (p2 - p1) (p3 - p1)) <= M * M).
  { assert (HS : nm (cr (p2 - p1) (p3 - p1)) * nm (cr (p2 - p1) (p3 - p1)) <= (M * M) * (M * M)).
    { rewrite nm_sq, lagrange. pose proof (nm_nonneg (p2 - p1)%v). pose proof (nm_nonneg (p3 - p1)%v).
      rewrite <- !nm_sq. apply Rle_trans with ((nm (p2 - p1) * nm (p3 - p1)) * (nm (p2 - p1) * nm (p3 - p1))).
      - pose proof (Rle_0_sqr (dt (p2 - p1) (p3 - p1))). unfold Rsqr in *. lra.
      - apply Rmult_le_compat; try nra. }
    pose proof (nm_nonneg (p2 - p1)%v). apply Rsqr_incr_0_var; [exact HS|nra]. }
  assert (0 <= x) by apply Rabs_pos. apply Rnot_le_lt. intros K.
  assert (nm (cr (p2 - p1) (p3 - p1)) * x <= M * M * eps) by (apply Rmult_le_compat; lra). lra.
Qed.

Definition obs_edge (h : zhull) (o : ZV) (a b : nat) : bool :=
  let p := zpt h a in let q := zpt h b in
  let c := zcr (zsub p o) (zsub q o) in
  negb (veqz p q) && Z.leb 1 (zdt c c) &&
  Z.leb (zdt (zsub q p) (zsub q p)) 1000000 && Z.leb (zdt (zsub p o) (zsub p o)) 1000000 &&
  Z.leb (zdt (zsub q o) (zsub q o)) 1000000.
Definition obsb (h : zhull) (o : ZV) : bool :=
  forallb (fun s => forallb (fun a => forallb (fun b => Nat.eqb a b || obs_edge h o a b) s) s &&
    match s with
    | [a; b; c] => negb (Z.eqb (zdt (zsub (zpt h a) o) (zcr (zsub (zpt h b) o) (zsub (zpt h c) o))) 0)
    | _ => false
    end) (z_simplices h).

Lemma nm_1000 (a : ZV) : (zdt a a <= 1000000)%Z -> nm (rv a) <= 1000.
Proof.
  intros H. apply Rsqr_incr_0_var; [|lra]. unfold Rsqr. rewrite nm_sq, rv_dt.
  apply IZR_le in H. lra.
Qed.
Lemma eps_1000 : 2 * 1000 * 1000 * 1000 * eps < 1.
Proof.
  unfold eps. apply (Rmult_lt_reg_r (2 ^ 52)); [apply pow_lt; lra|].
  rewrite Rmult_assoc, Rinv_l by (apply pow_nonzero; lra). simpl. lra.
Qed.
Lemma obs_edge_ok h o a b : obs_edge h o a b = true -> reg_edge (pt (rh h) a) (pt (rh h) b) (rv o).
Proof.
  unfold obs_edge. intros H. bsplit. rewrite !pt_rh.
  repeat match goal with K : Z.leb _ _ = true |- _ => apply Z.leb_le in K end.
  apply (reg_edge_suff _ _ _ 1000); rewrite ?rv_sub; try (apply nm_1000; assumption); [| |apply eps_1000].
  - intros E. match goal with K : negb _ = true |- _ => apply negb_true_iff in K; unfold veqz in K end.
    unfold rv in E. injection E as E1 E2 E3. apply eq_IZR in E1, E2, E3.
    match goal with K : _ = false |- _ => rewrite E1, E2, E3, !Z.eqb_refl in K; discriminate end.
  - rewrite rv_cr, rv_dt. apply IZR_le. assumption.
Qed.
Lemma obsb_ok h o p : hullb h = true -> obsb h o = true ->
  (forall i f, nth_error (pl_faces p) i = Some f -> face_of (rh h) i f) -> regular p (rv o).
Proof.
  intros Hh Ho Hf f Hin. apply In_nth_error in Hin. destruct Hin as [i Hi].
  destruct (Hf i f Hi) as (s & x & y & z & t1 & t2 & t3 & Hs & Hp & Hxy & Hyz & Hzx & Hout & Hpts & _).
  unfold vtx, pnth. rewrite Hpts. cbn [nth]. cbn [rh h_simplices] in Hs.
  unfold obsb in Ho. rewrite forallb_forall in Ho. specialize (Ho s (nth_error_In _ _ Hs)).
  apply andb_true_iff in Ho. destruct Ho as [He Hd]. rewrite forallb_forall in He.
  assert (G : forall a b, In a [x; y; z] -> In b [x; y; z] -> a <> b -> obs_edge h o a b = true).
  { intros a b Ha Hb Hab. specialize (He a (Permutation_in _ (Permutation_sym Hp) Ha)). rewrite forallb_forall in He.
    specialize (He b (Permutation_in _ (Permutation_sym Hp) Hb)). apply orb_true_iff in He.
    destruct He as [K|K]; [apply Nat.eqb_eq in K; contradiction|auto]. }
  assert (G' : forall a b, In a [x; y; z] -> In b [x; y; z] -> a <> b -> nm (pt (rh h) b - pt (rh h) a) <= 1000).
  { intros a b Ha Hb Hab. specialize (G a b Ha Hb Hab). unfold obs_edge in G. bsplit. rewrite !pt_rh, rv_sub. apply nm_1000.
    now apply Z.leb_le. }
  split; [|split; [|split]]; try (apply obs_edge_ok, G; simpl; auto; fail).
  apply (reg_plane_suff _ _ _ _ 1000); [|apply G'; simpl; auto|apply G'; simpl; auto|pose proof eps_1000; pose proof eps_pos; lra|apply Hout].
  destruct s as [|a [|b [|c [|u s]]]]; try discriminate.
  assert (HD : Rabs (det (pt (rh h) x - rv o) (pt (rh h) y - rv o) (pt (rh h) z - rv o)) =
               Rabs (det (pt (rh h) a - rv o) (pt (rh h) b - rv o) (pt (rh h) c - rv o))).
  { assert (Q : forall l l', Permutation l l' -> forall a b c, l = [a; b; c] -> exists x y z, l' = [x; y; z] /\
       Rabs (det (pt (rh h) x - rv o) (pt (rh h) y - rv o) (pt (rh h) z - rv o)) =
       Rabs (det (pt (rh h) a - rv o) (pt (rh h) b - rv o) (pt (rh h) c - rv o))).
    { clear. intros l l' P. 
      assert (Sw1 : forall u v w, Rabs (det v u w) = Rabs (det u v w)) by (intros; rewrite <- Rabs_Ropp; f_equal; unfold det; vring).
      assert (Sw2 : forall u v w, Rabs (det u w v) = Rabs (det u v w)) by (intros; rewrite <- Rabs_Ropp; f_equal; unfold det; vring).
      assert (Cy : forall u v w, Rabs (det v w u) = Rabs (det u v w)) by (intros; f_equal; unfold det; vring).
      intros a b c ->. pose proof (Permutation_length P) as L. destruct l' as [|x [|y [|z [|? ?]]]]; try discriminate.
      exists x, y, z. split; [auto|].
      pose proof (Permutation_in x (Permutation_sym P) ltac:(simpl; auto)) as Hx. 
      assert (P3 : forall u v u' v' : nat, Permutation [u; v] [u'; v'] -> (u = u' /\ v = v') \/ (u = v' /\ v = u')).
      { intros u v u' v' PP. apply Permutation_length_2 in PP. intuition. }
      destruct Hx as [<-|[<-|[<-|[]]]].
      - apply Permutation_cons_inv in P. apply P3 in P. destruct P as [[<- <-]|[<- <-]]; auto.
      - assert (P' : Permutation [b; a; c] [b; y; z]) by (etransitivity; [apply perm_swap|exact P]).
        apply Permutation_cons_inv in P'. apply P3 in P'. destruct P' as [[<- <-]|[<- <-]]; auto.
      - assert (P' : Permutation [c; a; b] [c; y; z]).
        { etransitivity; [|exact P]. change [c; a; b] with ([c] ++ [a; b]). change [a; b; c] with ([a; b] ++ [c]). apply Permutation_app_comm. }
        apply Permutation_cons_inv in P'. apply P3 in P'. destruct P' as [[<- <-]|[<- <-]]; auto.
        rewrite Sw2. rewrite Sw1. rewrite Sw2. auto. }
    destruct (Q _ _ Hp a b c eq_refl) as (x' & y' & z' & E & K). injection E as <- <- <-. exact K. }
  rewrite HD. rewrite !pt_rh, !rv_sub. unfold det. rewrite rv_cr, rv_dt.
  rewrite <- abs_IZR. apply IZR_le. apply negb_true_iff, Z.eqb_neq in Hd. lia.
Qed.

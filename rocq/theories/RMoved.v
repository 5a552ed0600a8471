(** * Gravity of a moved, rotated or scaled body *)
From Coq Require Import Reals Lra Psatz ZArith Bool List Permutation Arith Lia.
Import ListNotations.
From Verif Require Import Base MUtils MEdge MFace MHull MPoly SpecPoly PPoly PStation PPlain.
From Verif Require Import RVec RArith REdge REdgeModel RAngle ROmega RFace RFacet RPoly RTwin RField RHull RMove.
Local Open Scope R_scope.

(** ** Translation: every observer, every outcome *)
Definition idV (x : V) : V := x.
Lemma rotation_id : rotation idV.
Proof. split; reflexivity. Qed.

Section Shift.
  Variable v : V.
  Notation S := (simil idV 1 v).
  Notation ME := (map_edge idV 1 v).
  Notation MF := (map_face idV 1 v).
  Lemma sc1 (a : V) : (1 * a)%v = a. Proof. vring. Qed.
  Lemma shift_sub a b : (S a - S b)%v = (a - b)%v.
  Proof. rewrite (S_sub idV 1 v rotation_id). apply sc1. Qed.
  Lemma shift_edge e o g : edge_integral (A := RA) (ME e) (S o) g = edge_integral (A := RA) e o g.
  Proof.
    unfold edge_integral, map_edge; cbn [e_start e_end e_vector e_length].
    change (vsub (A := RA)) with vm. rewrite !shift_sub. unfold idV. rewrite sc1, Rmult_1_l. reflexivity.
  Qed.
  Lemma shift_dp1 f o : f_points f <> [] -> dot_point1 (A := RA) (MF f) (S o) = dot_point1 (A := RA) f o.
  Proof.
    intros H. unfold dot_point1, map_face; cbn [f_un f_points].
    rewrite pnth_map by (destruct (f_points f); [congruence|simpl; lia]).
    change (vsub (A := RA)) with vm. rewrite shift_sub. reflexivity.
  Qed.
  Lemma shift_omega f o d s g : get_omega (A := RA) (MF f) (S o) d s g = get_omega (A := RA) f o d s g.
  Proof.
    unfold get_omega. destruct (neps <? nabs d)%num; [|reflexivity]. cbv zeta.
    assert (E : map (fun q => vsub (A := RA) q (S o)) (f_points (MF f)) = map (fun q => vsub (A := RA) q o) (f_points f)).
    { unfold map_face; cbn [f_points]. rewrite map_map. apply map_ext. intros q. apply shift_sub. }
    rewrite E. reflexivity.
  Qed.
  Lemma shift_learn tw o g c key e : learn (A := RA) tw (S o) g c key (ME e) = learn (A := RA) tw o g c key e.
  Proof. unfold learn. now rewrite shift_edge. Qed.
  Lemma shift_sum tw o g kes : forall c acc,
    sum_edges (A := RA) tw (S o) g c acc (map (fun ke => (fst ke, ME (snd ke))) kes) = sum_edges (A := RA) tw o g c acc kes.
  Proof.
    induction kes as [|[key e] kes IH]; intros c acc; [reflexivity|]. cbn [map sum_edges fst snd]. rewrite shift_learn.
    destruct (learn (A := RA) tw o g c key e) as [c'|er]; [|reflexivity]. cbn [bind]. destruct (c' key); [|reflexivity]. apply IH.
  Qed.
  Lemma shift_face tw o d G g c fi f : f_points f <> [] ->
    spec_face (A := RA) tw (S o) d G g c fi (MF f) = spec_face (A := RA) tw o d G g c fi f.
  Proof.
    intros H. unfold spec_face. rewrite shift_dp1 by exact H. rewrite shift_omega, keyed_of_map, shift_sum. reflexivity.
  Qed.
  Lemma shift_faces tw o d G g fs : (forall i f, In (i, f) fs -> f_points f <> []) -> forall c GT,
    spec_faces (A := RA) tw (S o) d G g c GT (map (fun kf => (fst kf, MF (snd kf))) fs) =
    spec_faces (A := RA) tw o d G g c GT fs.
  Proof.
    intros H. induction fs as [|[i f] fs IH]; intros c GT; [reflexivity|]. cbn [map spec_faces fst snd].
    rewrite shift_face by (eapply H; left; reflexivity).
    destruct (spec_face (A := RA) tw o d G g c i f) as [[[gr t] c']|e]; [|reflexivity]. cbn [bind].
    apply IH. intros j f' Hj. eapply H. right. exact Hj.
  Qed.
  Theorem shift_gravity p o d G g : (forall f, In f (pl_faces p) -> f_points f <> []) ->
    spec_gravity (A := RA) (map_poly idV 1 v p) (S o) d G g = spec_gravity (A := RA) p o d G g.
  Proof.
    intros H. unfold spec_gravity, map_poly; cbn [pl_twin pl_faces]. rewrite map_length.
    rewrite <- (shift_faces (pl_twin p) o d G g (combine (seq 0 (length (pl_faces p))) (pl_faces p))).
    - f_equal. generalize (seq 0 (length (pl_faces p))) as l. clear H.
      induction (pl_faces p) as [|f fs IH]; intros [|i l]; cbn [map combine fst snd]; auto. now rewrite IH.
    - intros i f Hi. apply in_combine_r in Hi. auto.
  Qed.
End Shift.

Lemma sc_zero (c : R) (a : V) : c <> 0 -> (c * a)%v = v0 -> a = v0.
Proof.
  intros H E. apply nm_zero. apply (f_equal nm) in E. rewrite nm_sc, nm_0 in E.
  apply Rmult_integral in E. destruct E as [E|E]; [|exact E]. apply Rabs_no_R0 in H. contradiction.
Qed.
(** ** Rotation and scaling: regular observers *)
Section Similar.
  Variables (Q : V -> V) (k : R) (v : V).
  Hypothesis HQ : rotation Q.
  Hypothesis Hk : 0 < k.
  Notation S := (simil Q k v).
  Notation T x := (k * Q x)%v.
  Let k0 : k <> 0. Proof. lra. Qed.

  Lemma T_nm a : nm (T a) = k * nm a. Proof. apply nm_S; auto. Qed.
  Lemma T_dt a b : dt (T a) (T b) = k * k * dt a b.
  Proof. rewrite dt_sc_l, dt_sc_r, (rot_dt Q HQ). ring. Qed.
  Lemma T_cr a b : cr (T a) (T b) = (k * k * Q (cr a b))%v.
  Proof. rewrite <- (rot_cr Q HQ). apply cr_sc2. Qed.
  Lemma T_sub a b : (T a - T b)%v = T (a - b)%v.
  Proof. rewrite (Q_sub Q HQ). vring. Qed.
  Lemma T_det a b c : det (T a) (T b) (T c) = k * k * k * det a b c.
  Proof. unfold det. rewrite T_cr, dt_sc_l, dt_sc_r, (rot_dt Q HQ). ring. Qed.
  Lemma T_DD a b c : DD (T a) (T b) (T c) = k * k * k * DD a b c.
  Proof. unfold DD. rewrite !T_nm, !T_dt. ring. Qed.
  Lemma T_om a b c : det a b c <> 0 -> om (T a) (T b) (T c) = om a b c.
  Proof.
    intros Hd. assert (K3 : 0 < k * k * k) by (repeat apply Rmult_lt_0_compat; auto).
    unfold om. rewrite T_det, T_DD. f_equal.
    - f_equal. f_equal. field. split; auto.
    - f_equal. destruct (Rtotal_order (det a b c) 0) as [L|[L|L]].
      + now rewrite !Rsgn_neg by nra.
      + contradiction.
      + now rewrite !Rsgn_pos by nra.
  Qed.
  Lemma Q_vec_inv (x : V) (y : R) : Q (/ y * x)%v = (/ y * Q x)%v. Proof. apply (rot_sc Q HQ). Qed.
  Lemma T_uu x : uu (T x) = Q (uu x).
  Proof.
    unfold uu. rewrite T_nm, (rot_sc Q HQ). destruct (Req_dec (nm x) 0) as [Z|Z].
    - apply nm_zero in Z. rewrite Z, (Q_0 Q HQ). vring.
    - transitivity ((/ (k * nm x) * k) * Q x)%v; [vring|]. f_equal. field. auto.
  Qed.
  Lemma T_uv a b : uv (T a) (T b) = Q (uv a b).
  Proof. rewrite !uv_uu, T_sub. apply T_uu. Qed.
  Lemma T_ell a b : off a b -> ell (T a) (T b) = ell a b.
  Proof.
    intros H. unfold ell, elf. rewrite T_sub, !T_nm. f_equal.
    pose proof (sig_lam a b) as E. unfold off in H.
    pose proof (nm_nonneg a). pose proof (nm_nonneg b). pose proof (nm_nonneg (b - a)%v).
    field. split; [nra|]. nra.
  Qed.
  Lemma T_Kab a b : off a b -> Kab (T a) (T b) = / (k * k) * Kab a b.
  Proof. intros H. unfold Kab, off in *. rewrite !T_nm, T_dt.
    replace (k * nm a * (k * nm b) + k * k * dt a b) with (k * k * (nm a * nm b + dt a b)) by ring. field. split; auto; lra. Qed.
  Lemma T_gell a b : off a b -> gell (T a) (T b) = (/ k * Q (gell a b))%v.
  Proof.
    intros H. destruct (off_nz _ _ H) as [Ha Hb]. unfold gell. rewrite T_sub, !T_nm, T_Kab by auto.
    rewrite (rot_sc Q HQ), (rot_add Q HQ), !(rot_sc Q HQ).
    transitivity (/ k * ((nm (b - a) * Kab a b) * ((k * / (k * nm a) * Q a) + (k * / (k * nm b) * Q b))))%v.
    - transitivity ((/ k * (k * k * / (k * k))) * ((nm (b - a) * Kab a b) * ((k * / (k * nm a) * Q a) + (k * / (k * nm b) * Q b))))%v;
        [|replace (k * k * / (k * k)) with 1 by (field; auto); rewrite Rmult_1_r; reflexivity].
      replace (/ k * (k * k * / (k * k))) with (k * / (k * k)) by (field; auto). vring.
    - replace (k * / (k * nm a)) with (/ nm a) by (field; lra). replace (k * / (k * nm b)) with (/ nm b) by (field; lra). reflexivity.
  Qed.
  Lemma T_off a b : off a b -> off (T a) (T b).
  Proof.
    unfold off. rewrite !T_nm, T_dt. intros H.
    replace (k * nm a * (k * nm b) + k * k * dt a b) with (k * k * (nm a * nm b + dt a b)) by ring.
    repeat apply Rmult_lt_0_compat; auto.
  Qed.
  Lemma T_edge_term a b : off a b -> edge_term (T a) (T b) = (/ k * Q (edge_term a b))%v.
  Proof.
    intros H. destruct (off_nz _ _ H) as [Ha Hb]. unfold edge_term. rewrite T_Kab, !T_nm, T_cr by auto.
    rewrite (rot_sc Q HQ).
    transitivity ((/ k * (Kab a b * (/ nm a + / nm b))) * Q (cr a b))%v; [|vring].
    transitivity ((/ (k * k) * Kab a b * (/ (k * nm a) + / (k * nm b)) * (k * k)) * Q (cr a b))%v; [vring|].
    f_equal. field. split; [lra|]. split; [lra|auto].
  Qed.
  Lemma T_gom a b c : off3 a b c -> gom (T a) (T b) (T c) = (/ k * Q (gom a b c))%v.
  Proof.
    intros (H1 & H2 & H3). unfold gom. rewrite !T_edge_term by auto.
    rewrite (Q_opp Q HQ), !(rot_add Q HQ). vring.
  Qed.
  Lemma T_Isum a b c : off3 a b c -> Isum (T a) (T b) (T c) = Q (Isum a b c).
  Proof.
    intros (H1 & H2 & H3). unfold Isum. rewrite !T_ell, !T_uv by auto.
    now rewrite !(rot_add Q HQ), !(rot_sc Q HQ).
  Qed.
  Lemma T_FF n a b c : off3 a b c -> det a b c <> 0 -> FF (Q n) (T a) (T b) (T c) = Q (FF n a b c).
  Proof.
    intros H Hd. unfold FF. rewrite T_om, T_Isum by auto.
    now rewrite (rot_add Q HQ), (rot_sc Q HQ), <- (rot_cr Q HQ).
  Qed.
  Lemma T_JJ n a b c e : off3 a b c -> det a b c <> 0 -> JJ (Q n) (T a) (T b) (T c) (Q e) = Q (JJ n a b c e).
  Proof.
    intros H Hd. unfold JJ. rewrite T_FF, T_gom by auto. unfold dIs.
    destruct H as (H1 & H2 & H3). rewrite !T_gell, !T_uv by auto.
    rewrite !dt_sc_l, !dt_sc_r, !(rot_dt Q HQ).
    rewrite (Q_sub Q HQ), !(rot_sc Q HQ), (rot_add Q HQ), (rot_sc Q HQ), <- (rot_cr Q HQ), !(rot_add Q HQ), !(rot_sc Q HQ).
    set (x := dt (gom a b c) e). set (y1 := dt (gell a b) e). set (y2 := dt (gell b c) e). set (y3 := dt (gell c a) e).
    set (d := dt n a). set (F := Q (FF n a b c)). set (u1 := Q (uv a b)). set (u2 := Q (uv b c)). set (u3 := Q (uv c a)).
    set (m := Q n). set (ne := dt n e). clearbody x y1 y2 y3 d F u1 u2 u3 m ne.
    transitivity ((k * / k) * (d * (x * m + cr (y1 * u1 + y2 * u2 + y3 * u3) m)) - ne * F)%v; [vring|].
    rewrite Rinv_r by auto. vring.
  Qed.

  (** the moved surface *)
  Lemma S_obs p o : (S p - S o)%v = T (p - o)%v. Proof. apply S_sub; auto. Qed.
  Lemma facet_map f p1 p2 p3 : facet f p1 p2 p3 -> facet (map_face Q k v f) (S p1) (S p2) (S p3).
  Proof.
    intros [(H1 & H2 & H3 & H4) (s1 & s2 & s3 & t1 & t2 & t3 & He)]. split.
    - split; [|split; [|split]].
      + unfold map_face; cbn [f_points]. change (@f_points RA f) with (f_points f). rewrite H1. reflexivity.
      + exact H2.
      + rewrite !S_obs, T_cr. intros Z. apply H3.
        assert (Z2 : Q (cr (p2 - p1) (p3 - p1)) = v0).
        { apply (sc_zero (k * k)); [nra|exact Z]. }
        apply (Q_inj Q HQ). now rewrite (Q_0 Q HQ).
      + unfold map_face; cbn [f_un]. rewrite H4. unfold tri_normal. rewrite !S_obs, T_cr.
        rewrite <- T_uu. unfold uu. rewrite !nm_sc, (Q_nm Q HQ), !(Rabs_pos_eq) by nra.
        set (N := cr (p2 - p1) (p3 - p1)) in *. assert (HN : 0 < nm N) by now apply nm_pos.
        transitivity ((/ (k * nm N) * k) * Q N)%v; [vring|]. transitivity ((/ (k * k * nm N) * (k * k)) * Q N)%v; [|vring].
        f_equal. field. split; lra.
    - exists s1, s2, s3, t1, t2, t3. unfold map_face; cbn [f_edges]. rewrite He. cbn [map].
      now rewrite !mk_edge_map by auto.
  Qed.
  Lemma has_edge_map p key e : has_edge (map_poly Q k v p) key e <-> exists e0, e = map_edge Q k v e0 /\ has_edge p key e0.
  Proof.
    unfold has_edge, map_poly; cbn [pl_faces]. split.
    - intros (f & H1 & H2). rewrite nth_error_map in H1.
      destruct (nth_error (pl_faces p) (fst key)) as [f0|] eqn:E; [|discriminate]. injection H1 as <-.
      unfold map_face in H2; cbn [f_edges] in H2. rewrite nth_error_map in H2.
      destruct (nth_error (f_edges f0) (snd key)) as [e0|] eqn:E2; [|discriminate]. injection H2 as <-.
      exists e0. split; auto. exists f0. auto.
    - intros (e0 & -> & f & H1 & H2). exists (map_face Q k v f). rewrite nth_error_map, H1. split; [reflexivity|].
      unfold map_face; cbn [f_edges]. rewrite nth_error_map, H2. reflexivity.
  Qed.
  Lemma closed_map p : closed p -> closed (map_poly Q k v p).
  Proof.
    intros [Hf Ht]. split.
    - intros f Hin. unfold map_poly in Hin; cbn [pl_faces] in Hin. apply in_map_iff in Hin.
      destruct Hin as (f0 & <- & Hin). destruct (Hf f0 Hin) as (p1 & p2 & p3 & H). exists (S p1), (S p2), (S p3).
      now apply facet_map.
    - intros key e He. apply has_edge_map in He. destruct He as (e0 & -> & He).
      destruct (Ht key e0 He) as (k' & e' & T1 & T2 & T3 & T4 & T5).
      exists k', (map_edge Q k v e'). cbn [map_poly pl_twin]. split; [auto|]. split; [apply has_edge_map; eauto|].
      split; [auto|]. unfold map_edge; cbn [e_start e_end]. rewrite T4, T5. auto.
  Qed.
  Lemma vtx_map f p1 p2 p3 : facet f p1 p2 p3 ->
    vtx 0 (map_face Q k v f) = S p1 /\ vtx 1 (map_face Q k v f) = S p2 /\ vtx 2 (map_face Q k v f) = S p3.
  Proof. intros H. apply facet_vtx, facet_map, H. Qed.

  Lemma vsum_map {X Y} (h : Y -> V) (f : X -> Y) l : vsum h (map f l) = vsum (fun x => h (f x)) l.
  Proof. induction l as [|x l IH]; simpl; [auto|]. now rewrite IH. Qed.
  Lemma vsum_ext {X} (h g : X -> V) l : (forall x, In x l -> h x = g x) -> vsum h l = vsum g l.
  Proof. induction l as [|x l IH]; simpl; intros H; auto. rewrite H, IH by auto. reflexivity. Qed.
  Lemma vsum_Q {X} (h : X -> V) l : vsum (fun x => Q (h x)) l = Q (vsum h l).
  Proof. induction l as [|x l IH]; simpl; [now rewrite (Q_0 Q HQ)|]. now rewrite IH, (rot_add Q HQ). Qed.
  Lemma vsum_sc {X} (c : R) (h : X -> V) l : vsum (fun x => (c * h x)%v) l = (c * vsum h l)%v.
  Proof. induction l as [|x l IH]; simpl; [vring|]. rewrite IH. vring. Qed.

  Lemma gF_map p o d G f : closed p -> regular p o -> In f (pl_faces p) ->
    gF d G (S o) (map_face Q k v f) = (k * Q (gF d G o f))%v.
  Proof.
    intros Hc Hr Hin. destruct Hc as [Hc _]. destruct (Hc f Hin) as (p1 & p2 & p3 & Hf).
    destruct (off3_reg p o Hr f p1 p2 p3 Hf Hin) as [Hd Ho].
    destruct (vtx_map f p1 p2 p3 Hf) as (E1 & E2 & E3). destruct (facet_vtx _ _ _ _ Hf) as (F1 & F2 & F3).
    unfold gF. rewrite E1, E2, E3, F1, F2, F3, !S_obs. change (f_un (map_face Q k v f)) with (Q (f_un f)).
    rewrite T_FF by auto. rewrite dt_sc_r, (rot_dt Q HQ), !(rot_sc Q HQ). vring.
  Qed.
  Lemma jF_map p o d G f e : closed p -> regular p o -> In f (pl_faces p) ->
    jF d G (S o) (map_face Q k v f) (Q e) = Q (jF d G o f e).
  Proof.
    intros Hc Hr Hin. destruct Hc as [Hc _]. destruct (Hc f Hin) as (p1 & p2 & p3 & Hf).
    destruct (off3_reg p o Hr f p1 p2 p3 Hf Hin) as [Hd Ho].
    destruct (vtx_map f p1 p2 p3 Hf) as (E1 & E2 & E3). destruct (facet_vtx _ _ _ _ Hf) as (F1 & F2 & F3).
    unfold jF. rewrite E1, E2, E3, F1, F2, F3, !S_obs. change (f_un (map_face Q k v f)) with (Q (f_un f)).
    rewrite T_JJ by auto. now rewrite !(rot_sc Q HQ).
  Qed.

  Theorem similar_gravity p o d G g : closed p -> regular p o -> regular (map_poly Q k v p) (S o) ->
    exists G0 T0 T1,
      spec_gravity (A := RA) p o d G g = Ok (G0, T0) /\
      spec_gravity (A := RA) (map_poly Q k v p) (S o) d G g = Ok ((k * Q G0)%v, T1) /\
      (forall e, mapp T1 (Q e) = Q (mapp T0 e)).
  Proof.
    intros Hc Hr Hr'. pose proof (closed_map p Hc) as Hc'.
    rewrite (gravity_value p o Hc Hr g d G).
    pose proof (gravity_value _ _ Hc' Hr' g d G) as E'. do 3 eexists. split; [reflexivity|]. split.
    - etransitivity; [exact E'|]. apply (f_equal Ok), (f_equal2 pair); [|reflexivity].
      change (pl_faces (map_poly Q k v p)) with (map (map_face Q k v) (pl_faces p)). rewrite vsum_map.
      rewrite (vsum_ext _ (fun f => (k * Q (gF d G o f))%v)) by (intros; apply (gF_map p); auto).
      now rewrite vsum_sc, vsum_Q.
    - destruct g.
      + intros e. rewrite (tensor_app _ _ d G Hc' Hr'), (tensor_app _ _ d G Hc Hr). unfold Jtot.
        change (pl_faces (map_poly Q k v p)) with (map (map_face Q k v) (pl_faces p)). rewrite vsum_map.
        rewrite (vsum_ext _ (fun f => Q (jF d G o f e))) by (intros; apply (jF_map p); auto). apply vsum_Q.
      + intros e. unfold mapp, m0; cbn [vx vy vz]. rewrite !dt_0_l. change (V3 0 0 0) with v0. now rewrite (Q_0 Q HQ).
  Qed.

  (** a rotation does not change which observers are regular *)
  Lemma regular_map p o : k = 1 -> closed p -> regular p o -> regular (map_poly Q k v p) (S o).
  Proof.
    intros K1 Hc Hr f Hin. unfold map_poly in Hin; cbn [pl_faces] in Hin. apply in_map_iff in Hin.
    destruct Hin as (f0 & <- & Hin). destruct Hc as [Hc _]. destruct (Hc f0 Hin) as (p1 & p2 & p3 & Hf).
    destruct (vtx_map f0 p1 p2 p3 Hf) as (E1 & E2 & E3). destruct (facet_vtx _ _ _ _ Hf) as (F1 & F2 & F3).
    pose proof (Hr f0 Hin) as HR. rewrite F1, F2, F3 in HR. rewrite E1, E2, E3.
    assert (RE : forall q r, reg_edge q r o -> reg_edge (S q) (S r) (S o)).
    { intros q r [R1 R2]. unfold reg_edge. rewrite <- (uv_shift (S q) (S r) (S o)), !S_obs, T_uv, uv_shift.
      rewrite !T_nm, !dt_sc_r, !(rot_dt Q HQ), K1, !Rmult_1_l. auto. }
    destruct HR as (HR0 & HR1 & HR2 & HR3). split; [|split; [|split]]; auto.
    destruct (facet_map f0 p1 p2 p3 Hf) as [(_ & _ & _ & EN) _]. destruct Hf as [(_ & _ & _ & EN0) _].
    rewrite <- EN. change (f_un (map_face Q k v f0)) with (Q (f_un f0)). rewrite EN0.
    rewrite S_obs, dt_sc_r, (rot_dt Q HQ), K1, Rmult_1_l. exact HR0.
  Qed.
End Similar.

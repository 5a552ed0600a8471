(** * Property C73, in double precision: the run command with the gradient *)
From Coq Require Import String Reals Lra List ZArith Bool Arith Lia Permutation Floats.SpecFloat.
From Verif Require Import Base MUtils MConfig MCrs MDataset MEdge MFace MHull MPoly MCli SpecPoly PPoly PStation PPlain PCrs PCli PRun FArith PCall PNan Examples.
From Verif Require Import RVec RArith REdge REdgeModel RAngle ROmega RFace RFacet RPoly RTwin RField
  RHull RHullZ ExamplesR RPlaced RPlacedZ RGlue RVolume RSolid PropertiesR PropertiesT PropertiesU PropertiesV PropertiesC PropertiesH PropertiesF PropertiesE FReal FErr FDot PSim FHull FNorm FBuild FInt
  FLog FUnit FEdge FOmega FGrav FTensor FField FTField FSum PropertiesG PropertiesI.
Import ListNotations.
Local Open Scope R_scope.

(** one body, one observer *)
Lemma fair_tensor lg ac (DP : dotlib) : libm lg ac ->
  forall ch inh pts (h : hull (FA lg ac DP)) M L g s N, ch pts = Ok h -> fair lg ac DP M L N h ->
  (N <= 2 ^ 20)%nat -> / 2 ^ 20 <= L -> L <= 2 * M -> M <= 2 ^ 100 -> L <= 2 ^ 50 -> 1 <= g <= 1024 -> 1 <= s <= 8192 ->
  forall o : vec (FA lg ac DP), vfin o -> within M (fvec o) ->
  (let P i := pnth (A := FA lg ac DP) i (h_points h) in
   forall a b c, In [a; b; c] (h_simplices h) -> views L g s (fvec (P a) - fvec o) (fvec (P b) - fvec o) (fvec (P c) - fvec o)) ->
  forall (density Gc : num (FA lg ac DP)) R0 G0, / 2 ^ 90 <= R0 <= 2 ^ 90 -> / 2 ^ 90 <= G0 <= 2 ^ 90 ->
  fin density -> Rabs (fv density) <= R0 -> fin Gc -> Rabs (fv Gc) <= G0 ->
  exists p pR G T GR TR, mk_polyhedron ch inh pts = Ok p /\ exact_body lg ac DP h = Ok pR /\
    fst (get_gravity p o density Gc true pstate0) = Ok (G, T) /\
    gravity pR (fvec o) (fv density) (fv Gc) true pstate0 = Ok (GR, TR) /\
    (let n := INR N in svap (L * (100000 * (R0 * G0))) G GR (489 * n) (n * (g * g * g + g * s + n) * 2 ^ 18)) /\
    (let n := INR N in smap (1000000000 * (R0 * G0)) T TR (1027 * (g * g + g * s) * n)
       (n * (g * g * (g * g * g) + g * s * (g * s * s) + n * (g * g + g * s)) * 2 ^ 23)) /\
    (forall f q0, In f (pl_faces pR) -> dt (f_un f) (vtx 0 f - fvec o) < 0 ->
       vx (vx TR) + vy (vy TR) + vz (vz TR) = 0 /\
       ((forall f', In f' (pl_faces pR) -> 0 <= dt (f_un f') (vtx 0 f' - q0)) ->
       exists I, body_vintegral (kernel (fvec o)) pR q0 I /\ GR = (fv density * fv Gc * 100000 * I)%v)).
Proof.
  intros Hlib ch inh pts h M L g s N Hc (Hh & H1 & H1' & H5 & H6 & H7) HN H2 H3 H4 HL Hg Hs o Fo Wo Hsee rho Gc R0 G0 HR HG Fr Br Fg Bg.
  assert (Hsz : sized M L g) by (split; assumption).
  assert (Hp : placed lg ac DP M L (h_points h) (h_vertices h)) by (split; assumption).
  assert (Hm : margin lg ac DP M L h).
  { intros a b c Hin. unfold nrm3. rewrite !pt_real. exact (H7 a b c Hin). }
  assert (Hsn : forall a b c, In [a; b; c] (h_simplices h) ->
    seen L g s (pt (real_hull lg ac DP h) a - fvec o)%v (pt (real_hull lg ac DP h) b - fvec o)%v (pt (real_hull lg ac DP h) c - fvec o)%v \/
    outlined L g (pt (real_hull lg ac DP h) a - fvec o)%v (pt (real_hull lg ac DP h) b - fvec o)%v (pt (real_hull lg ac DP h) c - fvec o)%v /\
    axial (pt (real_hull lg ac DP h) a - fvec o)%v (pt (real_hull lg ac DP h) b - fvec o)%v (pt (real_hull lg ac DP h) c - fvec o)%v).
  { intros a b c Hin. rewrite !pt_real. apply views_seen, Hsee, Hin. }
  destruct (hull_tensor lg ac DP Hlib Hsz HL Hs h Hh H1 ltac:(lia) Hp Hm o (conj Fo Wo) Hsn rho Gc R0 G0 HR HG (conj Fr Br) (conj Fg Bg) ch inh pts
    (fun _ => Ok (real_hull lg ac DP h)) (fun _ _ => true) (map fvec (h_points h)) Hc eq_refl)
    as (p & pR & G & T & Ep & EpR & HcR & Reg & Eg & Gf & Tf1 & Tf2 & Tf3 & Wg & Wb & WD).
  assert (Val : gravity pR (fvec o) (fv rho) (fv Gc) true pstate0 =
    Ok (vsum (gF (fv rho) (fv Gc) (fvec o)) (pl_faces pR), msum (tF (fv rho) (fv Gc) (fvec o)) (pl_faces pR))).
  { rewrite (gravity_spec pR _ _ _ _ pstate0 (reach_new pR)). exact (well_value pR (fvec o) true (fv rho) (fv Gc) HcR (steady_well _ _ _ HcR Reg)). }
  exists p, pR, G, T. eexists _, _. split; [exact Ep|]. split; [exact EpR|].
  split; [etransitivity; [exact (fresh_spec p o rho Gc true)|exact Eg]|]. split; [exact Val|].
  pose proof (pos_INR (length (h_simplices h))) as n0. assert (Hs' : 1 <= s <= 32768) by lra.
  assert (Hn : 0 <= INR (length (h_simplices h)) <= INR N) by (split; [exact n0|apply le_INR; exact H1']).
  split; [|split].
  - cbv zeta in Wg, Wb |- *. destruct (K_units Hsz R0 G0 HR HG) as (_ & _ & _ & _ & HU). pose proof (unit_pos _ HU) as P0.
    set (U := L * (100000 * (R0 * G0))) in *. set (n := INR (length (h_simplices h))) in *. set (n' := INR N) in *.
    pose proof (X_bounds Hsz Hs') as (X1 & _). set (X := g * g * g + g * s) in *.
    assert (X0 : 0 <= X) by lra.
    assert (B1 : 489 * n * U <= 489 * n' * U) by (apply Rmult_le_compat_r; lra).
    assert (B2 : n * (X + n) * U / 2 ^ 35 <= n' * (X + n') * 2 ^ 18 * U * u53).
    { replace (n' * (X + n') * 2 ^ 18 * U * u53) with (n' * (X + n') * U / 2 ^ 35) by (unfold u53; field).
      unfold Rdiv. apply Rmult_le_compat_r; [lra|]. apply Rmult_le_compat_r; [lra|]. apply Rmult_le_compat; lra. }
    revert Wg Wb. generalize (vsum (gF (fv rho) (fv Gc) (fvec o)) (pl_faces pR)). intros [r1 r2 r3]. destruct G as [G1 G2 G3].
    unfold within, fvec, vmap, vm. cbn [vx vy vz]. destruct Gf as (F1 & F2 & F3). cbn [vx vy vz] in F1, F2, F3.
    intros (W1 & W2 & W3) (V1 & V2 & V3). split; [|split]; (split; [assumption|]; split; [eapply Rle_trans; [eassumption|exact B2]|eapply Rle_trans; [eassumption|exact B1]]).
  - cbv zeta in WD |- *. destruct (unit_U Hsz R0 G0 HR HG) as (HU & _). pose proof (unit_pos _ HU) as P0.
    replace (100000 * (R0 * G0) * 10000) with (1000000000 * (R0 * G0)) in P0 by ring.
    set (U := 1000000000 * (R0 * G0)) in *. set (n := INR (length (h_simplices h))) in *. set (n' := INR N) in *.
    pose proof (Y_bounds Hsz Hs) as (y1 & y2 & y3 & y4 & _). set (Y := g * g * (g * g * g) + g * s * (g * s * s)) in *. set (Z := g * g + g * s) in *.
    assert (Z0 : 0 <= Z) by lra. assert (Y0 : 0 <= Y) by (unfold Y; lra).
    assert (nZ : n * Z <= n' * Z) by (apply Rmult_le_compat_r; lra). assert (nZ0 : 0 <= n * Z) by (apply Rmult_le_pos; lra).
    assert (B1 : 1027 * Z * n * U <= 1027 * Z * n' * U) by (apply Rmult_le_compat_r; [lra|]; replace (1027 * Z * n) with (1027 * (n * Z)) by ring; replace (1027 * Z * n') with (1027 * (n' * Z)) by ring; lra).
    assert (B2 : n * (Y + n * Z) * U / 2 ^ 30 <= n' * (Y + n' * Z) * 2 ^ 23 * U * u53).
    { replace (n' * (Y + n' * Z) * 2 ^ 23 * U * u53) with (n' * (Y + n' * Z) * U / 2 ^ 30) by (unfold u53; field).
      unfold Rdiv. apply Rmult_le_compat_r; [lra|]. apply Rmult_le_compat_r; [lra|]. apply Rmult_le_compat; lra. }
    destruct WD as (W1 & W2 & W3 & V1 & V2 & V3). revert W1 W2 W3 V1 V2 V3. generalize (msum (tF (fv rho) (fv Gc) (fvec o)) (pl_faces pR)).
    assert (Row : forall (v : vec (FA lg ac DP)) r, vfin v -> within (n * (Y + n * Z) * U / 2 ^ 30) (fvec v - r)%v -> within (1027 * Z * n * U) r ->
      svap U v r (1027 * Z * n') (n' * (Y + n' * Z) * 2 ^ 23)).
    { intros [v1 v2 v3] [r1 r2 r3] (F1 & F2 & F3). unfold within, fvec, vmap, vm. cbn [vx vy vz] in *.
      intros (W1 & W2 & W3) (V1 & V2 & V3). split; [|split]; (split; [assumption|]; split; [eapply Rle_trans; [eassumption|exact B2]|eapply Rle_trans; [eassumption|exact B1]]). }
    intros m W1 W2 W3 V1 V2 V3. split; [|split]; apply Row; assumption.
  - intros f q0 Hf Hd. split.
    + destruct (C08_outside_hull (fun _ => Ok (real_hull lg ac DP h)) (fun _ _ => true) (map fvec (h_points h)) (real_hull lg ac DP h) (fvec o) (fv rho) (fv Gc) eq_refl Hh) as (pR' & EpR' & V).
      rewrite EpR in EpR'. injection EpR' as <-.
      destruct (V pstate0 f (reach_new pR) (steady_well _ _ _ HcR Reg) Hf Hd) as (GR & TR & E & Tr).
      rewrite Val in E. injection E as _ <-. exact Tr.
    + intros Hq.
      destruct (C58_hull (fun _ => Ok (real_hull lg ac DP h)) (fun _ _ => true) (map fvec (h_points h)) (real_hull lg ac DP h) (fvec o) q0 (fv rho) (fv Gc) eq_refl Hh) as (pR' & EpR' & V).
      rewrite EpR in EpR'. injection EpR' as <-.
      destruct (V pstate0 f true (reach_new pR) (steady_well _ _ _ HcR Reg) Hf Hd Hq) as (GR & TR & I & E & HI & EI).
      rewrite Val in E. injection E as EG _. exists I. split; [exact HI|]. rewrite EG. exact EI.
Qed.

Lemma madd_rows lg ac (DP : dotlib) (l : list (mat (FA lg ac DP))) : forall m, fold_left (madd (A := FA lg ac DP)) l m =
  V3 (fold_left (vadd (A := FA lg ac DP)) (map vx l) (vx m)) (fold_left (vadd (A := FA lg ac DP)) (map vy l) (vy m)) (fold_left (vadd (A := FA lg ac DP)) (map vz l) (vz m)).
Proof. induction l as [|a l IH]; intros m; cbn [map fold_left]; [destruct m; reflexivity|]. rewrite IH. destruct m, a. reflexivity. Qed.
Lemma mplus_rows (l : list (vec3 V)) : fold_right mplus m0 l =
  V3 (fold_right va v0 (map vx l)) (fold_right va v0 (map vy l)) (fold_right va v0 (map vz l)).
Proof. induction l as [|a l IH]; cbn [map fold_right]; [reflexivity|]. rewrite IH. reflexivity. Qed.
Lemma trace_sum (l : list (vec3 V)) : (forall m, In m l -> vx (vx m) + vy (vy m) + vz (vz m) = 0) ->
  let m := fold_right mplus m0 l in vx (vx m) + vy (vy m) + vz (vz m) = 0.
Proof.
  cbv zeta. induction l as [|a l IH]; intros H; cbn [fold_right]; [unfold m0, v0; cbn [vx vy vz]; ring|].
  pose proof (IH (fun m Hm => H m (or_intror Hm))) as I. pose proof (H a (or_introl eq_refl)) as Ha. revert I Ha. generalize (fold_right mplus m0 l).
  destruct a as [[a1 a2 a3] [a4 a5 a6] [a7 a8 a9]]. intros [[b1 b2 b3] [b4 b5 b6] [b7 b8 b9]]. unfold mplus, va. cbn [vx vy vz]. lra.
Qed.
Lemma trace_close lg ac (DP : dotlib) D (t1 t2 t3 : vec (FA lg ac DP)) (r1 r2 r3 : V) : within D (fvec t1 - r1)%v -> within D (fvec t2 - r2)%v -> within D (fvec t3 - r3)%v ->
  vx r1 + vy r2 + vz r3 = 0 -> Rabs (fv (vx t1) + fv (vy t2) + fv (vz t3)) <= 3 * D.
Proof.
  destruct r1 as [a1 a2 a3], r2 as [b1 b2 b3], r3 as [c1 c2 c3], t1 as [p1 p2 p3], t2 as [q1 q2 q3], t3 as [s1 s2 s3]. unfold within, fvec, vmap, vm. cbn [vx vy vz].
  intros (A & _) (_ & B & _) (_ & _ & C) Tr. revert A B C. unfold Rabs. repeat destruct (Rcase_abs _); lra.
Qed.

(** ** geec run --gradient in double precision
    Under the conditions of C73_double with L <= 2^50 and s <= 8192, for J masses of
    at most N facets: the run succeeds; in each row the gravity is as in C73_double,
    and each entry of the gradient is finite and within
    D = J N 10^9 R0 G0 (g^5 + g^2 s^3 + (N + J)(g^2 + g s)) / 2^29
    of the sum over the bodies of the exact tensors, 10^4 times the derivatives of
    the exact gravity (C06); the diagonal adds up to at most 3 D in absolute value. *)
Theorem C73_double_gradient :
  forall lg ac (DP : dotlib), libm lg ac ->
  forall (E : env (FA lg ac DP)) (c : sources (FA lg ac DP)) output ms m0 o M L g s N R0 G0 (q : mass (FA lg ac DP) -> V),
  (1 <= N <= 2 ^ 20)%nat -> (List.length ms <= 2 ^ 20)%nat ->
  / 2 ^ 20 <= L -> L <= 2 * M -> M <= 2 ^ 100 -> L <= 2 ^ 50 -> 1 <= g <= 1024 -> 1 <= s <= 8192 ->
  / 2 ^ 90 <= R0 <= 2 ^ 90 -> / 2 ^ 90 <= G0 <= 2 ^ 90 ->
  show c = Ok tt ->
  get_masses (en_lib E) (en_read_csv E) c = Ok ms -> hd_error ms = Some m0 ->
  fin (m_density m0) -> Rabs (fv (m_density m0)) <= R0 -> fin (m_Gc m0) -> Rabs (fv (m_Gc m0)) <= G0 ->
  get_observer (en_lib E) (en_read_csv E) c = Ok o -> c_name (d_crs (o_dataset o)) = CART ->
  let obs := rows (d_coords (o_dataset o)) in
  obs <> [] -> (forall ob, In ob obs -> vfin ob /\ within M (fvec ob)) ->
  (forall m, In m ms -> c_name (d_crs (m_dataset m)) = CART /\
     exists h, en_convex_hull E (rows (d_coords (m_dataset m))) = Ok h /\ fair lg ac DP M L N h /\
       (forall a b c ob, In [a; b; c] (h_simplices h) -> In ob obs ->
          let P i := pnth (A := FA lg ac DP) i (h_points h) in
          views L g s (fvec (P a) - fvec ob) (fvec (P b) - fvec ob) (fvec (P c) - fvec ob)) /\
       (* in exact arithmetic q is in the body and the observers are outside *)
       forall p, exact_body lg ac DP h = Ok p ->
         (forall f, In f (pl_faces p) -> 0 <= dt (f_un f) (vtx 0 f - q m)) /\
         forall ob, In ob obs -> exists f, In f (pl_faces p) /\ dt (f_un f) (vtx 0 f - fvec ob) < 0) ->
  exists t,
    (output = ""%string -> run E c output true = ([], Ok tt)) /\
    (output <> ""%string -> (forall x, en_refuse E x = None) -> p_name (en_resolve E output) <> ""%string ->
       exists p, run E c output true = ([Mkdir (p_dir p); WriteCsv p t], Ok tt)) /\
    Forall2 (fun (ob : vec (FA lg ac DP)) row => exists (G : vec (FA lg ac DP)) (T : mat (FA lg ac DP)) Is,
        row = row_of ob G T /\ vfin G /\ vfin (vx T) /\ vfin (vy T) /\ vfin (vz T) /\
        Forall2 (fun m IT => exists h p GR, en_convex_hull E (rows (d_coords (m_dataset m))) = Ok h /\
            exact_body lg ac DP h = Ok p /\ body_vintegral (kernel (fvec ob)) p (q m) (fst IT) /\
            gravity p (fvec ob) (fv (m_density m0)) (fv (m_Gc m0)) true pstate0 = Ok (GR, snd IT)) ms Is /\
        let J := INR (List.length ms) in
        let D := J * INR N * (1000000000 * (R0 * G0)) * (g ^ 5 + g ^ 2 * s ^ 3 + (INR N + J) * (g ^ 2 + g * s)) / 2 ^ 29 in
        let TR := fold_right mplus RPoly.m0 (map snd Is) in
        within (J * INR N * (L * (100000 * (R0 * G0))) * (g ^ 3 + g * s + INR N + J) / 2 ^ 34)
          (fvec G - fv (m_density m0) * fv (m_Gc m0) * 100000 * fold_right va v0 (map fst Is))%v /\
        within D (fvec (vx T) - vx TR)%v /\ within D (fvec (vy T) - vy TR)%v /\ within D (fvec (vz T) - vz TR)%v /\
        Rabs (fv (vx (vx T)) + fv (vy (vy T)) + fv (vz (vz T))) <= 3 * D)
      obs (t_rows t).
Proof.
  intros lg ac DP Hlib E c out ms m0 o M L g s N R0 G0 q HN HJ H2 H3 H4 HL Hg Hsr HR HG Hs Hm H0 Fr Br Fg Bg Ho Hco obs Hne Fob Hms.
  assert (Hsz : sized M L g) by (split; assumption). assert (Hsr' : 1 <= s <= 32768) by lra.
  assert (PM : prepared_masses E c = Ok ms).
  { unfold prepared_masses. rewrite Hm. cbn [bind]. apply cart_masses. intros m Hin. apply (Hms m Hin). }
  assert (PO : exists o', prepared_observer E c = Ok o' /\ o_dataset o' = o_dataset o).
  { unfold prepared_observer. rewrite Ho. cbn [bind]. unfold observer_to_wgs84, to_wgs84. rewrite Hco. cbn [bind]. eexists. split; reflexivity. }
  destruct PO as (o' & PO & Ed). unfold obs in *. clear obs. rewrite <- Ed in *.
  set (obs := rows (d_coords (o_dataset o'))) in *.
  set (mk := fun m : mass (FA lg ac DP) => mk_polyhedron (en_convex_hull E) (en_in_hull E) (rows (d_coords (m_dataset m)))) in *.
  set (U := L * (100000 * (R0 * G0))) in *. set (U' := 1000000000 * (R0 * G0)) in *.
  set (n := INR N) in *. set (X := g * g * g + g * s) in *. set (e := n * (X + n) * 2 ^ 18) in *.
  set (Y := g * g * (g * g * g) + g * s * (g * s * s)) in *. set (Z := g * g + g * s) in *. set (e' := n * (Y + n * Z) * 2 ^ 23) in *.
  set (k := fv (m_density m0) * fv (m_Gc m0) * 100000) in *.
  set (Rel := fun (ob : vec (FA lg ac DP)) m (IT : V * vec3 V) => exists h p GR, en_convex_hull E (rows (d_coords (m_dataset m))) = Ok h /\
     exact_body lg ac DP h = Ok p /\ body_vintegral (kernel (fvec ob)) p (q m) (fst IT) /\
     gravity p (fvec ob) (fv (m_density m0)) (fv (m_Gc m0)) true pstate0 = Ok (GR, snd IT)) in *.
  assert (K : forall m ob, In m ms -> In ob obs -> exists p G T IT,
    mk m = Ok p /\ fst (get_gravity p ob (m_density m0) (m_Gc m0) true pstate0) = Ok (G, T) /\
    Rel ob m IT /\ svap U G (k * fst IT)%v (489 * n) e /\ smap U' T (snd IT) (1027 * Z * n) e' /\
    vx (vx (snd IT)) + vy (vy (snd IT)) + vz (vz (snd IT)) = 0).
  { intros m ob Hin Hob. destruct (Hms m Hin) as (_ & h & E1 & E2 & E3 & E4). destruct (Fob ob Hob) as [Fo Wo].
    destruct (fair_tensor lg ac DP Hlib (en_convex_hull E) (en_in_hull E) _ h M L g s N E1 E2 (proj2 HN) H2 H3 H4 HL Hg Hsr ob Fo Wo
      (fun a b c Hx => E3 a b c ob Hx Hob) (m_density m0) (m_Gc m0) R0 G0 HR HG Fr Br Fg Bg)
      as (p & pR & G & T & GR & TR & Ep & EpR & Eg & Ev & W & W' & V).
    destruct (E4 pR EpR) as [Hq Hout]. destruct (Hout ob Hob) as (f & Hf & Hd). destruct (V f (q m) Hf Hd) as (Tr & V'). destruct (V' Hq) as (I & HI & EG).
    exists p, G, T, (I, TR). split; [exact Ep|]. split; [exact Eg|]. split; [exists h, pR, GR; auto|]. cbn [fst snd]. rewrite EG in W. auto. }
  assert (PB : exists ps, bodies E ms = Ok ps).
  { apply mapM_exists. intros m Hin. destruct obs as [|ob l]; [congruence|].
    destruct (K m ob Hin (or_introl eq_refl)) as (p & _ & _ & _ & Ep & _). eauto. }
  destruct PB as [ps PB]. pose proof (mapM_forall _ _ _ PB) as PF. fold mk in PF.
  assert (Zp : forall p, In p ps -> exists m, In m ms /\ mk m = Ok p).
  { intros p Hin. clear -PF Hin. induction PF as [|m p' l l' H _ IH]; [destruct Hin|].
    destruct Hin as [<-|Hin]; [exists m; simpl; auto|]. destruct (IH Hin) as (m' & H1 & H2). exists m'. simpl. auto. }
  destruct (run_table_ok E c true ms m0 ps o' Hs PM H0 PB PO Hne) as [t Ht].
  { intros ob p Hob Hin. destruct (Zp p Hin) as (m & H1 & H5). destruct (K m ob H1 Hob) as (p' & G & T & _ & Ep & Eg & _).
    rewrite H5 in Ep. injection Ep as <-. eauto. }
  exists t. destruct (run E c out true) as [effs r] eqn:Er.
  destruct (C53_all_or_nothing _ E c out true effs r Er) as [_ R2]. destruct (R2 t Ht) as (R3 & R4 & _).
  split; [intros Hx; destruct (R3 Hx) as [-> ->]; reflexivity|].
  split; [intros Hx Hy Hz; destruct (R4 Hx Hy Hz) as [-> [p ->]]; eauto|].
  destruct (run_table_spec E c true t Ht) as (m1 & ms1 & ps1 & o1 & S1 & S2 & S3 & _ & _ & _ & S6).
  rewrite PM in S1. injection S1 as S1. rewrite <- S1, PB in S2. injection S2 as <-.
  assert (m1 = m0) as -> by (rewrite S1 in H0; cbn in H0; congruence). clear S1 ms1.
  rewrite PO in S3. injection S3 as <-. fold obs in S6.
  destruct (K_units Hsz R0 G0 HR HG) as (_ & _ & _ & _ & HU). fold U in HU. pose proof (unit_pos _ HU) as P0.
  destruct (unit_U Hsz R0 G0 HR HG) as (HU' & _). replace (100000 * (R0 * G0) * 10000) with U' in HU' by (unfold U'; ring). pose proof (unit_pos _ HU') as P0'.
  assert (n1 : 1 <= n <= 2 ^ 20).
  { destruct HN as [A1 A2]. apply le_INR in A1, A2. rewrite pow_INR in A2. replace (INR 2) with 2 in A2 by (simpl; ring). simpl in A1. split; assumption. }
  assert (X0 : 0 <= X <= 2 ^ 31).
  { assert (0 <= g * g <= 1024 * 1024) by (split; [apply Rmult_le_pos|apply Rmult_le_compat]; lra).
    assert (0 <= g * g * g <= 1024 * 1024 * 1024) by (split; [apply Rmult_le_pos|apply Rmult_le_compat]; lra).
    assert (0 <= g * s <= 1024 * 32768) by (split; [apply Rmult_le_pos|apply Rmult_le_compat]; lra). unfold X. lra. }
  assert (e0 : 0 <= e <= 2 ^ 110).
  { assert (0 <= n * (X + n) <= 2 ^ 20 * 2 ^ 32) by (split; [apply Rmult_le_pos|apply Rmult_le_compat]; lra). unfold e. lra. }
  pose proof (Y_bounds Hsz Hsr) as (y1 & y2 & y3 & y4 & y5 & _). fold Y in y3. fold Z in y4, y5.
  assert (Y0 : 0 <= Y) by (unfold Y; lra).
  assert (nZ : 2 <= n * Z <= 2 ^ 20 * 10000000) by (split; [apply Rle_trans with (1 * 2); [lra|]|]; apply Rmult_le_compat; lra).
  assert (Bz : 1 <= 1027 * Z * n <= 2 ^ 60) by (replace (1027 * Z * n) with (1027 * (n * Z)) by ring; lra).
  assert (e0' : 0 <= e' <= 2 ^ 110).
  { assert (0 <= n * (Y + n * Z) <= 2 ^ 20 * 2 ^ 62) by (split; [apply Rmult_le_pos|apply Rmult_le_compat]; lra). unfold e'. lra. }
  assert (Q : forall ob, In ob obs -> forall row,
    (exists gts, mapM (fun p => fst (get_gravity p ob (m_density m0) (m_Gc m0) true pstate0)) ps = Ok gts /\
        row = row_of ob (fold_left vadd (map fst gts) vzero) (fold_left madd (map snd gts) mzero)) ->
    exists (G : vec (FA lg ac DP)) (T : mat (FA lg ac DP)) Is,
        row = row_of ob G T /\ vfin G /\ vfin (vx T) /\ vfin (vy T) /\ vfin (vz T) /\
        Forall2 (Rel ob) ms Is /\
        let J := INR (List.length ms) in
        let D := J * n * U' * (g ^ 5 + g ^ 2 * s ^ 3 + (n + J) * (g ^ 2 + g * s)) / 2 ^ 29 in
        let TR := fold_right mplus RPoly.m0 (map snd Is) in
        within (J * n * U * (g ^ 3 + g * s + n + J) / 2 ^ 34) (fvec G - k * fold_right va v0 (map fst Is))%v /\
        within D (fvec (vx T) - vx TR)%v /\ within D (fvec (vy T) - vy TR)%v /\ within D (fvec (vz T) - vz TR)%v /\
        Rabs (fv (vx (vx T)) + fv (vy (vy T)) + fv (vz (vz T))) <= 3 * D).
  { intros ob Hob row (gts & Hgt & ->). apply mapM_forall in Hgt.
    assert (Yy : exists Is, Forall2 (Rel ob) ms Is /\
        Forall2 (fun y t => svap U y t (489 * n) e) (map fst gts) (map (fun I => k * I)%v (map fst Is)) /\
        Forall2 (fun y t => smap U' y t (1027 * Z * n) e') (map snd gts) (map snd Is) /\
        forall m, In m (map snd Is) -> vx (vx m) + vy (vy m) + vz (vz m) = 0).
    { assert (K' : forall m, In m ms -> exists p G T IT,
        mk m = Ok p /\ fst (get_gravity p ob (m_density m0) (m_Gc m0) true pstate0) = Ok (G, T) /\
        Rel ob m IT /\ svap U G (k * fst IT)%v (489 * n) e /\ smap U' T (snd IT) (1027 * Z * n) e' /\
        vx (vx (snd IT)) + vy (vy (snd IT)) + vz (vz (snd IT)) = 0) by (intros; now apply K).
      clear -PF Hgt K'. clearbody Rel. revert gts Hgt. induction PF as [|m p l l' H _ IH]; intros gts Hgt; inversion Hgt as [|? gt ? gts' Hg1 Hg2]; subst.
      - exists []. split; [constructor|]. split; [constructor|]. split; [constructor|]. intros m [].
      - destruct (IH (fun m' Hin => K' m' (or_intror Hin)) _ Hg2) as (Is & I1 & I2 & I3 & I4).
        destruct (K' m (or_introl eq_refl)) as (p' & G & T & IT & J1 & J2 & J3 & J4 & J5 & J6).
        rewrite H in J1. injection J1 as <-. cbv beta in Hg1. rewrite J2 in Hg1. injection Hg1 as <-.
        exists (IT :: Is). split; [constructor; assumption|]. split; [constructor; assumption|]. split; [constructor; assumption|].
        intros m' [<-|Hm']; [exact J6|exact (I4 m' Hm')]. }
    destruct Yy as (Is & Y1 & Y2 & Y3 & Y4).
    assert (Len : List.length (map fst gts) = List.length ms).
    { rewrite map_length. apply Forall2_length in Hgt, PF. congruence. }
    assert (Len' : List.length (map snd gts) = List.length ms) by (rewrite map_length in *; exact Len).
    destruct (sum_total U (489 * n) e HU ltac:(lra) e0 lg ac DP (map fst gts) _ ltac:(rewrite Len; exact HJ) Y2) as [FS WS].
    assert (Row : forall (pr : forall X, vec3 X -> X),
      (forall (T : mat (FA lg ac DP)) r B e, smap U' T r B e -> svap U' (pr _ T) (pr _ r) B e) ->
      Forall2 (fun y t => svap U' y t (1027 * Z * n) e') (map (pr _) (map snd gts)) (map (pr _) (map snd Is))).
    { intros pr Hpr. clear -Hpr Y3. induction Y3; cbn [map]; constructor; auto. }
    assert (RX := Row (@vx) ltac:(intros ? ? ? ? (? & ? & ?); assumption)).
    assert (RY := Row (@vy) ltac:(intros ? ? ? ? (? & ? & ?); assumption)).
    assert (RZ := Row (@vz) ltac:(intros ? ? ? ? (? & ? & ?); assumption)).
    destruct (sum_total U' (1027 * Z * n) e' HU' Bz e0' lg ac DP _ _ ltac:(rewrite map_length, Len'; exact HJ) RX) as [FX WX].
    destruct (sum_total U' (1027 * Z * n) e' HU' Bz e0' lg ac DP _ _ ltac:(rewrite map_length, Len'; exact HJ) RY) as [FY WY].
    destruct (sum_total U' (1027 * Z * n) e' HU' Bz e0' lg ac DP _ _ ltac:(rewrite map_length, Len'; exact HJ) RZ) as [FZ WZ].
    eexists _, _, Is. split; [reflexivity|]. rewrite madd_rows. cbn [vx vy vz mzero]. do 4 (split; [assumption|]). split; [exact Y1|].
    assert (Ek : forall Is, fold_right va v0 (map (fun I => k * I)%v Is) = (k * fold_right va v0 Is)%v).
    { clear. induction Is as [|I Is IH]; cbn [map fold_right]; [vring|]. rewrite IH. vring. }
    rewrite Ek in WS. cbv zeta in WS, WX, WY, WZ |- *. rewrite Len in WS. rewrite map_length, Len' in WX, WY, WZ. set (J := INR (List.length ms)) in *.
    assert (j0 : 0 <= J) by apply pos_INR.
    assert (Bd : J * (2 * e + 2 * J * (489 * n)) * U * u53 <= J * n * U * (g ^ 3 + g * s + n + J) / 2 ^ 34).
    { replace (g ^ 3 + g * s) with X by (unfold X; ring). unfold e.
      replace (J * (2 * (n * (X + n) * 2 ^ 18) + 2 * J * (489 * n)) * U * u53) with ((J * n * U) * ((2 ^ 19 * (X + n) + 978 * J) * u53)) by ring.
      replace (J * n * U * (X + n + J) / 2 ^ 34) with ((J * n * U) * ((X + n + J) / 2 ^ 34)) by (unfold Rdiv; ring).
      apply Rmult_le_compat_l; [repeat (apply Rmult_le_pos; [|lra]); lra|]. unfold u53. lra. }
    set (D := J * n * U' * (g ^ 5 + g ^ 2 * s ^ 3 + (n + J) * (g ^ 2 + g * s)) / 2 ^ 29).
    assert (Bd' : J * (2 * e' + 2 * J * (1027 * Z * n)) * U' * u53 <= D).
    { unfold D. replace (g ^ 5 + g ^ 2 * s ^ 3 + (n + J) * (g ^ 2 + g * s)) with (Y + (n + J) * Z) by (unfold Y, Z; ring). unfold e'.
      replace (J * (2 * (n * (Y + n * Z) * 2 ^ 23) + 2 * J * (1027 * Z * n)) * U' * u53) with ((J * n * U') * ((2 ^ 24 * (Y + n * Z) + 2054 * (J * Z)) * u53)) by ring.
      replace (J * n * U' * (Y + (n + J) * Z) / 2 ^ 29) with ((J * n * U') * ((Y + n * Z + J * Z) / 2 ^ 29)) by (unfold Rdiv; ring).
      assert (0 <= J * Z) by (apply Rmult_le_pos; lra).
      apply Rmult_le_compat_l; [repeat (apply Rmult_le_pos; [|lra]); lra|]. unfold u53. lra. }
    assert (Wk : forall v, within (J * (2 * e' + 2 * J * (1027 * Z * n)) * U' * u53) v -> within D v).
    { intros v (A1 & A2 & A3). split; [|split]; (eapply Rle_trans; [eassumption|exact Bd']). }
    apply Wk in WX, WY, WZ.
    split; [destruct WS as (W1 & W2 & W3); split; [|split]; (eapply Rle_trans; [eassumption|exact Bd])|].
    pose proof (trace_sum (map snd Is) Y4) as Tr. cbv zeta in Tr. rewrite mplus_rows in Tr |- *. cbn [vx vy vz] in Tr |- *.
    split; [exact WX|]. split; [exact WY|]. split; [exact WZ|].
    exact (trace_close lg ac DP D _ _ _ _ _ _ WX WY WZ Tr). }
  clear -Q S6. clearbody obs. induction S6 as [|ob row l l' H _ IH]; constructor.
  - apply Q; [simpl; auto|exact H].
  - apply IH. intros ob' Hob. apply Q. simpl; auto.
Qed.
Print Assumptions C73_double_gradient.

(** the two cubes and two observers of C73_double_case, the body of hypotheses being
    the same, with the further limits on L and s *)
Example C73_double_gradient_case : (exists lg ac, libm lg ac) /\ (35 <= 2 ^ 50 /\ 1 <= 5 <= 8192) /\ forall lg ac (DP : dotlib), exists ms m0 o,
  show (fconfig lg ac DP) = Ok tt /\
  get_masses (flib lg ac DP) (fun _ => None) (fconfig lg ac DP) = Ok ms /\ hd_error ms = Some m0 /\ List.length ms = 2%nat /\
  (fin (m_density m0) /\ Rabs (fv (m_density m0)) <= 4000 /\ fin (m_Gc m0) /\ Rabs (fv (m_Gc m0)) <= / 10 ^ 9) /\
  get_observer (flib lg ac DP) (fun _ => None) (fconfig lg ac DP) = Ok o /\ c_name (d_crs (o_dataset o)) = CART /\
  let obs := rows (d_coords (o_dataset o)) in
  List.length obs = 2%nat /\ (forall ob, In ob obs -> vfin ob /\ within 25 (fvec ob)) /\
  (forall m, In m ms -> c_name (d_crs (m_dataset m)) = CART /\
     exists h, en_convex_hull (fenv lg ac DP) (rows (d_coords (m_dataset m))) = Ok h /\ h_points h = rows (d_coords (m_dataset m)) /\
       fair lg ac DP 25 35 12 h /\
       (forall a b c ob, In [a; b; c] (h_simplices h) -> In ob obs ->
          let P i := pnth (A := FA lg ac DP) i (h_points h) in
          views 35 12 5 (fvec (P a) - fvec ob) (fvec (P b) - fvec ob) (fvec (P c) - fvec ob)) /\
       forall p, exact_body lg ac DP h = Ok p ->
         (forall f, In f (pl_faces p) -> 0 <= dt (f_un f) (vtx 0 f - rv o_in)) /\
         forall ob, In ob obs -> exists f, In f (pl_faces p) /\ dt (f_un f) (vtx 0 f - fvec ob) < 0).
Proof. destruct C73_double_case as [H1 H2]. split; [exact H1|]. split; [lra|exact H2]. Qed.

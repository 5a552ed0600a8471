(** * The solid angle as a function of the observer: branches and gradient *)
From Coq Require Import Reals Lra Psatz.
From Coquelicot Require Import Coquelicot.
From Verif Require Import Base RVec RArith REdge REdgeModel RAngle.
Local Open Scope R_scope.

(** solid angle of the triangle with corners a, b, c seen from the origin *)
Definition om (a b c : V) : R := 2 * atan (DD a b c / det a b c) - Rsgn (det a b c) * PI.
Definition SS (a b c : V) : R := sqrt (DD a b c * DD a b c + det a b c * det a b c).
(** the same, continued through det = 0 where D > 0 (outside the triangle) *)
Definition om0 (a b c : V) : R := - (4 * atan (det a b c / (SS a b c + DD a b c))).
(** up to a multiple of 2 pi, continued through det = 0 where D < 0 (inside) *)
Definition om1 (a b c : V) : R := 4 * atan (det a b c / (SS a b c - DD a b c)).

Lemma half_angle x y : 0 < y ->
  atan (x / y) = PI / 2 - 2 * atan (y / (sqrt (x * x + y * y) + x)).
Proof.
  intros Hy. set (S := sqrt (x * x + y * y)).
  assert (HS : S * S = x * x + y * y) by (apply sqrt_sqrt; nra).
  assert (HS0 : 0 < S) by (apply sqrt_lt_R0; nra).
  assert (Hp : 0 < S + x) by nra.
  set (k := y / (S + x)).
  assert (Hk : 0 < k) by (apply Rmult_lt_0_compat; [auto|apply Rinv_0_lt_compat; auto]).
  pose proof (atan_bound k) as Hb.
  assert (Ha : 0 < atan k) by (rewrite <- atan_0; apply atan_increasing; auto).
  rewrite <- (atan_tan (PI / 2 - 2 * atan k)) by lra. f_equal.
  unfold tan. rewrite sin_shift, cos_shift, cos_2atan, sin_2atan.
  assert (Ek : x / y = (1 - k * k) / (2 * k)).
  { assert (0 < y * (2 * k)) by nra.
    unfold k. apply (Rmult_eq_reg_r (y * (2 * (y / (S + x))))); [|fold k; lra].
    replace (x / y * (y * (2 * (y / (S + x))))) with (2 * x * y / (S + x)) by (field; lra).
    replace ((1 - y / (S + x) * (y / (S + x))) / (2 * (y / (S + x))) * (y * (2 * (y / (S + x)))))
      with (y * ((S + x) * (S + x) - y * y) / ((S + x) * (S + x))) by (field; lra).
    replace ((S + x) * (S + x) - y * y) with (2 * x * (S + x)) by nra. field. lra. }
  rewrite Ek. field. repeat split; nra.
Qed.

Lemma half_angle' x y : 0 < y ->
  atan (x / y) = 2 * atan (y / (sqrt (x * x + y * y) - x)) - PI / 2.
Proof.
  intros Hy. pose proof (half_angle (- x) y Hy) as H.
  replace (- x / y) with (- (x / y)) in H by (field; lra). rewrite atan_opp in H.
  replace (- x * - x) with (x * x) in H by ring.
  replace (sqrt (x * x + y * y) + - x) with (sqrt (x * x + y * y) - x) in H by ring. lra.
Qed.

Lemma om_om0 a b c : det a b c <> 0 -> om a b c = om0 a b c.
Proof.
  intros H. unfold om, om0, SS. destruct (Rlt_le_dec 0 (det a b c)) as [P|P].
  - rewrite half_angle, Rsgn_pos by auto. lra.
  - assert (P' : 0 < - det a b c) by lra. rewrite (Rsgn_neg (det a b c)) by lra.
    pose proof (half_angle (DD a b c) _ P') as E.
    replace (- det a b c * - det a b c) with (det a b c * det a b c) in E by ring.
    replace (DD a b c / - det a b c) with (- (DD a b c / det a b c)) in E by (field; auto).
    rewrite atan_opp in E.
    unfold Rdiv in *. rewrite Ropp_mult_distr_l_reverse, atan_opp in E. lra.
Qed.
(** also at det = 0, where both are 0 *)
Lemma om_om0_all a b c : om a b c = om0 a b c.
Proof.
  destruct (Req_dec (det a b c) 0) as [Z|Z]; [|now apply om_om0].
  unfold om, om0. rewrite Z, Rsgn_0. unfold Rdiv. rewrite Rinv_0, Rmult_0_r, !Rmult_0_l, atan_0. ring.
Qed.
Lemma om_flat a b c : det a b c = 0 -> om a b c = 0.
Proof. intros Z. unfold om. rewrite Z, Rsgn_0. unfold Rdiv. rewrite Rinv_0, Rmult_0_r, atan_0. ring. Qed.
Lemma om_om1 a b c : det a b c <> 0 -> om a b c = om1 a b c - 2 * PI * Rsgn (det a b c).
Proof.
  intros H. unfold om, om1, SS. destruct (Rlt_le_dec 0 (det a b c)) as [P|P].
  - rewrite half_angle', Rsgn_pos by auto. lra.
  - assert (P' : 0 < - det a b c) by lra. rewrite (Rsgn_neg (det a b c)) by lra.
    pose proof (half_angle' (DD a b c) _ P') as E.
    replace (- det a b c * - det a b c) with (det a b c * det a b c) in E by ring.
    replace (DD a b c / - det a b c) with (- (DD a b c / det a b c)) in E by (field; auto).
    rewrite atan_opp in E.
    unfold Rdiv in *. rewrite Ropp_mult_distr_l_reverse, atan_opp in E. lra.
Qed.

(** range and sign *)
Lemma om_range a b c : det a b c <> 0 ->
  - 2 * PI < om a b c < 2 * PI /\ om a b c * det a b c < 0.
Proof.
  intros H. unfold om. pose proof (atan_bound (DD a b c / det a b c)). pose proof PI_RGT_0.
  destruct (Rlt_le_dec 0 (det a b c)) as [P|P].
  - rewrite Rsgn_pos by auto. split; nra.
  - rewrite (Rsgn_neg (det a b c)) by lra. split; nra.
Qed.

Lemma om_excess a b c : det a b c <> 0 ->
  om a b c = - Rsgn (det a b c) * (ang c a b + ang a b c + ang b c a - PI).
Proof.
  intros H. rewrite excess by auto. unfold om. destruct (Rlt_le_dec 0 (det a b c)) as [P|P].
  - rewrite Rsgn_pos, Rabs_pos_eq by lra. ring.
  - rewrite (Rsgn_neg (det a b c)), Rabs_left by lra.
    replace (DD a b c / - det a b c) with (- (DD a b c / det a b c)) by (field; auto).
    rewrite atan_opp. ring.
Qed.

(** ** Derivatives *)
Ltac req := match goal with |- @eq _ ?x ?y => change (@eq R x y) end.
Lemma prod_der (p q : R -> R) (t p' q' : R) : is_derive p t p' -> is_derive q t q' ->
  is_derive (fun s => p s * q s) t (p' * q t + p t * q').
Proof.
  intros. eapply is_derive_eq; [apply @is_derive_mult; eauto; intros; apply Rmult_comm|].
  unfold plus, mult; cbn. ring.
Qed.
Lemma sum_der (p q : R -> R) (t p' q' : R) : is_derive p t p' -> is_derive q t q' ->
  is_derive (fun s => p s + q s) t (p' + q').
Proof. intros. now apply @is_derive_plus. Qed.

(** derivative of atan (y / (sqrt(x^2+y^2) + e x)), e = 1 or -1 *)
Lemma atan_half_der (e : R) (x y : R -> R) (t x' y' : R) : e * e = 1 ->
  is_derive x t x' -> is_derive y t y' ->
  0 < sqrt (x t * x t + y t * y t) + e * x t ->
  is_derive (fun s => atan (y s / (sqrt (x s * x s + y s * y s) + e * x s))) t
    (e * (x t * y' - y t * x') / (2 * (x t * x t + y t * y t))).
Proof.
  intros He Hx Hy Hp.
  set (S := sqrt (x t * x t + y t * y t)) in *.
  assert (H2 : 0 <= x t * x t + y t * y t) by nra.
  assert (HS : S * S = x t * x t + y t * y t) by (apply sqrt_sqrt; auto).
  assert (HSp : 0 <= S) by apply sqrt_pos.
  assert (Hpos : 0 < x t * x t + y t * y t).
  { destruct H2 as [|Z]; [assumption|]. exfalso. assert (x t = 0) by nra. assert (S = 0) by nra.
    rewrite H, H0 in Hp. lra. }
  assert (HS0 : 0 < S) by nra.
  eapply is_derive_eq.
  - apply (is_derive_comp atan (fun s => y s / (sqrt (x s * x s + y s * y s) + e * x s))).
    + apply is_derive_Reals, derivable_pt_lim_atan.
    + apply is_derive_div; [exact Hy| |fold S; lra].
      apply sum_der.
      * apply (is_derive_sqrt (fun s => x s * x s + y s * y s)); [|exact Hpos].
        apply sum_der; apply prod_der; eauto.
      * apply (is_derive_scal x t e _ Hx).
  - rn. fold S.
    assert (HQ : (S + e * x t) * (S + e * x t) + y t * y t = 2 * S * (S + e * x t)).
    { replace ((S + e * x t) * (S + e * x t)) with (S * S + 2 * S * (e * x t) + (e * e) * (x t * x t)) by ring.
      rewrite He. nra. }
    replace (/ (1 + (y t / (S + e * x t)) ^ 2)) with
      ((S + e * x t) * (S + e * x t) / (2 * S * (S + e * x t))).
    2:{ assert (0 < 2 * S * (S + e * x t)) by (apply Rmult_lt_0_compat; lra).
        rewrite <- HQ in H |- *. field. split; [|lra]. intros Z. lra. }
    rewrite <- HS.
    match goal with |- ?l = ?r =>
      replace r with (((y' * (S + e * x t) - y t * ((x' * x t + x t * x' + (y' * y t + y t * y')) / (2 * S) + e * x')) / (2 * S * (S + e * x t))))
    end.
    2:{ field. lra. }
    apply (Rmult_eq_reg_r (2 * S * S * (S + e * x t))); [|nra].
    transitivity (e * (x t * y' - y t * x') * (S + e * x t)); [field; lra|].
    transitivity (y' * (S + e * x t) * S - y t * (x' * x t + y' * y t) - y t * e * x' * S); [|field; lra].
    replace (e * (x t * y' - y t * x') * (S + e * x t)) with
      (e * (x t * y' - y t * x') * S + (e * e) * (x t * (x t * y' - y t * x'))) by ring.
    rewrite He. ring_simplify.
    replace (y' * S ^ 2) with (y' * (S * S)) by ring. rewrite HS. ring.
Qed.

(** DD and det along moving corners *)
Lemma det_der (a b c : R -> V) (t : R) a' b' c' : vder a t a' -> vder b t b' -> vder c t c' ->
  is_derive (fun s => det (a s) (b s) (c s)) t
    (det a' (b t) (c t) + det (a t) b' (c t) + det (a t) (b t) c').
Proof.
  intros Ha Hb Hc. unfold det. eapply is_derive_eq.
  - apply dt_der; [exact Ha|]. apply cr_der; [exact Hb|exact Hc].
  - cbn beta. rewrite dt_add_r. ring.
Qed.
Lemma DD_der (a b c : R -> V) (t : R) a' b' c' : vder a t a' -> vder b t b' -> vder c t c' ->
  0 < nm (a t) -> 0 < nm (b t) -> 0 < nm (c t) ->
  let ra := nm (a t) in let rb := nm (b t) in let rc := nm (c t) in
  let ra' := dt (a t) a' / ra in let rb' := dt (b t) b' / rb in let rc' := dt (c t) c' / rc in
  is_derive (fun s => DD (a s) (b s) (c s)) t
    ((ra' * rb + ra * rb') * rc + ra * rb * rc'
     + ((dt a' (b t) + dt (a t) b') * rc + dt (a t) (b t) * rc')
     + ((dt b' (c t) + dt (b t) c') * ra + dt (b t) (c t) * ra')
     + ((dt c' (a t) + dt (c t) a') * rb + dt (c t) (a t) * rb')).
Proof.
  intros Ha Hb Hc Pa Pb Pc ra rb rc ra' rb' rc'. unfold DD.
  pose proof (nm_der a t a' Ha Pa) as Na. pose proof (nm_der b t b' Hb Pb) as Nb.
  pose proof (nm_der c t c' Hc Pc) as Nc.
  eapply is_derive_eq.
  - apply (sum_der (fun s => nm (a s) * nm (b s) * nm (c s) + dt (a s) (b s) * nm (c s) + dt (b s) (c s) * nm (a s))
      (fun s => dt (c s) (a s) * nm (b s))).
    + apply (sum_der (fun s => nm (a s) * nm (b s) * nm (c s) + dt (a s) (b s) * nm (c s))
        (fun s => dt (b s) (c s) * nm (a s))).
      * apply (sum_der (fun s => nm (a s) * nm (b s) * nm (c s)) (fun s => dt (a s) (b s) * nm (c s))).
        -- apply (prod_der (fun s => nm (a s) * nm (b s)) (fun s => nm (c s))); [|exact Nc].
           exact (prod_der _ _ _ _ _ Na Nb).
        -- exact (prod_der _ _ _ _ _ (dt_der _ _ _ _ _ Ha Hb) Nc).
      * exact (prod_der _ _ _ _ _ (dt_der _ _ _ _ _ Hb Hc) Na).
    + exact (prod_der _ _ _ _ _ (dt_der _ _ _ _ _ Hc Ha) Nb).
  - reflexivity.
Qed.

(** ** Observer moving: all corners move with the same velocity *)
Definition edge_term (a b : V) : V := (Kab a b * (/ nm a + / nm b) * cr a b)%v.
(** gradient of the solid angle with respect to the observer *)
Definition gom (a b c : V) : V := (- (edge_term a b + edge_term b c + edge_term c a))%v.

Lemma gom_alg a b c w : off a b -> off b c -> off c a -> 
  let ra := nm a in let rb := nm b in let rc := nm c in
  let ra' := dt a w / ra in let rb' := dt b w / rb in let rc' := dt c w / rc in
  let D' := (ra' * rb + ra * rb') * rc + ra * rb * rc'
     + ((dt w b + dt a w) * rc + dt a b * rc')
     + ((dt w c + dt b w) * ra + dt b c * ra')
     + ((dt w a + dt c w) * rb + dt c a * rb') in
  let det' := det w b c + det a w c + det a b w in
  2 * (D' * det a b c - DD a b c * det') =
    - dt (gom a b c) w * (DD a b c * DD a b c + det a b c * det a b c).
Proof.
  intros Oab Obc Oca ra rb rc ra' rb' rc' D' det'.
  destruct (off_nz _ _ Oab) as [Pa Pb]. destruct (off_nz _ _ Obc) as [_ Pc].
  unfold off in *. fold ra rb rc in Pa, Pb, Pc, Oab, Obc, Oca.
  set (P := dt (cr a b) w). set (Q := dt (cr b c) w). set (S := dt (cr c a) w).
  assert (Ea : det a b c * dt a w = Q * (ra * ra) + S * dt a b + P * dt c a).
  { unfold ra. rewrite nm_sq. unfold det, P, Q, S. vring. }
  assert (Eb : det a b c * dt b w = Q * dt a b + S * (rb * rb) + P * dt b c).
  { unfold rb. rewrite nm_sq. unfold det, P, Q, S. vring. }
  assert (Ec : det a b c * dt c w = Q * dt c a + S * dt b c + P * (rc * rc)).
  { unfold rc. rewrite nm_sq. unfold det, P, Q, S. vring. }
  assert (Ed : det' = P + Q + S) by (unfold det', det, P, Q, S; vring).
  rewrite D_det, Ed. unfold gom. rewrite dt_opp_l, !dt_add_l. unfold edge_term. rewrite !dt_sc_l.
  fold P Q S ra rb rc. unfold Kab. fold ra rb rc.
  assert (ED : D' * det a b c =
    (det a b c * dt a w) / ra * rb * rc + ra * ((det a b c * dt b w) / rb) * rc + ra * rb * ((det a b c * dt c w) / rc)
    + ((det a b c * dt a w + det a b c * dt b w) * rc + dt a b * (det a b c * dt c w / rc))
    + ((det a b c * dt b w + det a b c * dt c w) * ra + dt b c * (det a b c * dt a w / ra))
    + ((det a b c * dt c w + det a b c * dt a w) * rb + dt c a * (det a b c * dt b w / rb))).
  { unfold D', ra', rb', rc'. rewrite (dt_comm w a), (dt_comm w b), (dt_comm w c). field. lra. }
  rewrite ED, Ea, Eb, Ec. unfold DD. fold ra rb rc. unfold Kab. clearbody P Q S ra rb rc.
  set (x := dt a b) in *. set (y := dt b c) in *. set (z := dt c a) in *. clearbody x y z.
  field. repeat split; lra.
Qed.

(** observer on none of the three edges *)
Definition off3 (a b c : V) : Prop := off a b /\ off b c /\ off c a.
Lemma off3_S a b c : off3 a b c -> 0 < DD a b c * DD a b c + det a b c * det a b c.
Proof.
  intros [H1 [H2 H3]]. rewrite D_det. unfold off in *. repeat apply Rmult_lt_0_compat; lra.
Qed.
Lemma off3_det a b c : det a b c <> 0 -> off3 a b c.
Proof.
  intros H. destruct (det_cross _ _ _ H) as [H1 [H2 H3]].
  repeat split; apply off_cross; intros E; rewrite E, nm_0 in *; lra.
Qed.
Lemma S_pos0 a b c : off3 a b c -> (det a b c = 0 -> 0 < DD a b c) -> 0 < SS a b c + DD a b c.
Proof.
  intros H K. pose proof (off3_S _ _ _ H) as P. unfold SS.
  pose proof (sqrt_sqrt _ (Rlt_le _ _ P)). pose proof (sqrt_lt_R0 _ P).
  destruct (Req_dec (det a b c) 0) as [Z|Z]; [specialize (K Z); lra|]. 
  assert (0 < det a b c * det a b c) by nra. nra.
Qed.
Lemma S_pos1 a b c : off3 a b c -> (det a b c = 0 -> DD a b c < 0) -> 0 < SS a b c - DD a b c.
Proof.
  intros H K. pose proof (off3_S _ _ _ H) as P. unfold SS.
  pose proof (sqrt_sqrt _ (Rlt_le _ _ P)). pose proof (sqrt_lt_R0 _ P).
  destruct (Req_dec (det a b c) 0) as [Z|Z]; [specialize (K Z); lra|]. 
  assert (0 < det a b c * det a b c) by nra. nra.
Qed.

Section Translate.
  Variables (w : R -> V) (e1 e2 : V) (t : R) (w' : V).
  Hypothesis Hw : vder w t w'.
  Let a := w t. Let b := (w t + e1)%v. Let c := (w t + e2)%v.
  Hypothesis Ho : off3 a b c.

  Let Hvb : vder (fun s => (w s + e1)%v) t w'.
  Proof. eapply vder_eq; [apply vder_add; [exact Hw|apply vder_const]|]. vring. Qed.
  Let Hvc : vder (fun s => (w s + e2)%v) t w'.
  Proof. eapply vder_eq; [apply vder_add; [exact Hw|apply vder_const]|]. vring. Qed.

  Lemma om0_der : (det a b c = 0 -> 0 < DD a b c) ->
    is_derive (fun s => om0 (w s) (w s + e1)%v (w s + e2)%v) t (- dt (gom a b c) w').
  Proof.
    intros K. pose proof (S_pos0 _ _ _ Ho K) as Hp. pose proof (off3_S _ _ _ Ho) as HS.
    destruct Ho as [O1 [O2 O3]]. destruct (off_nz _ _ O1) as [Pa Pb]. destruct (off_nz _ _ O2) as [_ Pc].
    pose proof (DD_der w _ _ t _ _ _ Hw Hvb Hvc Pa Pb Pc) as HD.
    pose proof (det_der w _ _ t _ _ _ Hw Hvb Hvc) as Hdet.
    pose proof (gom_alg a b c w' O1 O2 O3) as HG. cbn zeta in *. fold b c a in HD, Hdet.
    match type of HD with is_derive _ _ ?d => set (D' := d) in * end.
    match type of Hdet with is_derive _ _ ?d => set (d' := d) in * end.
    assert (Hp' : 0 < sqrt (DD a b c * DD a b c + det a b c * det a b c) + 1 * DD a b c)
      by (rewrite Rmult_1_l; exact Hp).
    pose proof (atan_half_der 1 (fun s => DD (w s) (w s + e1)%v (w s + e2)%v)
      (fun s => det (w s) (w s + e1)%v (w s + e2)%v) t D' d' ltac:(ring) HD Hdet Hp') as HA. cbn beta in HA.
    fold b c a in HA. unfold om0, SS.
    eapply is_derive_ext; [|eapply is_derive_eq; [exact (is_derive_scal _ t (-4) _ HA)|]].
    - intros s. cbn beta. rewrite Rmult_1_l. req. ring.
    - apply (Rmult_eq_reg_r (DD a b c * DD a b c + det a b c * det a b c)); [|lra].
      assert (HG' : 2 * (D' * det a b c - DD a b c * d') =
        - dt (gom a b c) w' * (DD a b c * DD a b c + det a b c * det a b c)) by exact HG.
      rewrite <- HG'. clear -HS. clearbody D' d'. field. lra.
  Qed.

  Lemma om1_der : (det a b c = 0 -> DD a b c < 0) ->
    is_derive (fun s => om1 (w s) (w s + e1)%v (w s + e2)%v) t (- dt (gom a b c) w').
  Proof.
    intros K. pose proof (S_pos1 _ _ _ Ho K) as Hp. pose proof (off3_S _ _ _ Ho) as HS.
    destruct Ho as [O1 [O2 O3]]. destruct (off_nz _ _ O1) as [Pa Pb]. destruct (off_nz _ _ O2) as [_ Pc].
    pose proof (DD_der w _ _ t _ _ _ Hw Hvb Hvc Pa Pb Pc) as HD.
    pose proof (det_der w _ _ t _ _ _ Hw Hvb Hvc) as Hdet.
    pose proof (gom_alg a b c w' O1 O2 O3) as HG. cbn zeta in *. fold b c a in HD, Hdet.
    match type of HD with is_derive _ _ ?d => set (D' := d) in * end.
    match type of Hdet with is_derive _ _ ?d => set (d' := d) in * end.
    assert (Hp' : 0 < sqrt (DD a b c * DD a b c + det a b c * det a b c) + -1 * DD a b c)
      by (replace (-1 * DD a b c) with (- DD a b c) by ring; exact Hp).
    pose proof (atan_half_der (-1) (fun s => DD (w s) (w s + e1)%v (w s + e2)%v)
      (fun s => det (w s) (w s + e1)%v (w s + e2)%v) t D' d' ltac:(ring) HD Hdet Hp') as HA. cbn beta in HA.
    fold b c a in HA. unfold om1, SS.
    eapply is_derive_ext; [|eapply is_derive_eq; [exact (is_derive_scal _ t 4 _ HA)|]].
    - intros s. cbn beta. replace (-1 * DD (w s) (w s + e1)%v (w s + e2)%v) with (- DD (w s) (w s + e1)%v (w s + e2)%v) by ring. reflexivity.
    - apply (Rmult_eq_reg_r (DD a b c * DD a b c + det a b c * det a b c)); [|lra].
      assert (HG' : 2 * (D' * det a b c - DD a b c * d') =
        - dt (gom a b c) w' * (DD a b c * DD a b c + det a b c * det a b c)) by exact HG.
      rewrite <- HG'. clear -HS. clearbody D' d'. field. lra.
  Qed.

  (** continuity of det along the path, and the derivative of [om] itself *)
  Lemma om_der : det a b c <> 0 ->
    is_derive (fun s => om (w s) (w s + e1)%v (w s + e2)%v) t (- dt (gom a b c) w').
  Proof.
    intros Hd. eapply is_derive_ext_loc; [|apply om0_der; intros Z; contradiction].
    pose proof (det_der w _ _ t _ _ _ Hw Hvb Hvc) as Hdet.
    assert (HC : continuous (fun s => det (w s) (w s + e1)%v (w s + e2)%v) t).
    { apply @ex_derive_continuous. eexists. exact Hdet. }
    assert (Hl : locally (det a b c) (fun y => y <> 0)).
    { exists (mkposreal _ (Rabs_pos_lt _ Hd)). intros y Hy E. subst y.
      unfold ball, AbsRing_ball in Hy. cbn in Hy. unfold AbsRing_ball, minus, plus, opp, abs in Hy. cbn in Hy.
      rewrite Rplus_0_l, Rabs_Ropp in Hy. lra. }
    specialize (HC _ Hl). unfold filtermap in HC.
    eapply filter_imp; [|exact HC]. intros s Hs. cbn beta in Hs. symmetry. now apply om_om0.
  Qed.
End Translate.

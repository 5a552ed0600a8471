(** * np.dot of two arrays of three doubles

    numpy leaves dot products to BLAS.  The three products are added in some
    order, and each product is either rounded or, with a fused multiply-add,
    entered exactly.  [dotlib] is a function that does this for all arguments
    (the order and the fusing may depend on them), and gives nan for a nan.
    Simplification: nothing is said about infinite arguments and overflow. *)
From Coq Require Import ZArith Reals Lra Lia Bool Psatz Floats.SpecFloat.
From Flocq Require Import Core Calc.Operations IEEE754.BinarySingleNaN.
From Verif Require Import Base FArith FReal FErr.
Local Open Scope R_scope.

(** a product entering the sum *)
Definition term (x y a : R) : Prop := a = x * y \/ a = rnd (x * y).
(** three terms added in some order *)
Definition sum3 (a b c z : R) : Prop :=
  z = rnd (rnd (a + b) + c) \/ z = rnd (rnd (a + c) + b) \/ z = rnd (rnd (b + c) + a).

Record dotlib : Type := {
  dl_dot :> vec3 F -> vec3 F -> F;
  dl_value : forall x1 x2 x3 y1 y2 y3,
    fin x1 -> fin x2 -> fin x3 -> fin y1 -> fin y2 -> fin y3 ->
    4 * (Rabs (fv x1 * fv y1) + Rabs (fv x2 * fv y2) + Rabs (fv x3 * fv y3)) <= big ->
    let d := dl_dot (V3 x1 x2 x3) (V3 y1 y2 y3) in
    fin d /\ exists a b c, term (fv x1) (fv y1) a /\ term (fv x2) (fv y2) b /\ term (fv x3) (fv y3) c /\ sum3 a b c (fv d);
  dl_nan : nan_dot dl_dot
}.

(** ** Error of such a sum *)
Definition rap (t r B e : R) : Prop := Rabs (t - r) <= e * u53 /\ Rabs r <= B.
Lemma rap_add a b r s B C e f : rap a r B e -> rap b s C f -> eta <= u53 * (B + C) / 64 ->
  rap (rnd (a + b)) (r + s) (B + C) (1025 / 1024 * (e + f) + 65 / 64 * (B + C)).
Proof.
  intros [A1 A2] [B1 B2] He. pose proof u53_pos as u0. pose proof u53_small as us.
  assert (P1 : 0 <= e * u53) by (apply Rle_trans with (2 := A1), Rabs_pos). assert (P2 : 0 <= f * u53) by (apply Rle_trans with (2 := B1), Rabs_pos).
  assert (D : Rabs (a + b - (r + s)) <= (e + f) * u53).
  { replace (a + b - (r + s)) with ((a - r) + (b - s)) by ring. eapply Rle_trans; [apply Rabs_triang|]. lra. }
  assert (W : Rabs (r + s) <= B + C) by (eapply Rle_trans; [apply Rabs_triang|]; lra).
  split; [|exact W]. pose proof (rnd_err (a + b)) as K.
  assert (T : Rabs (a + b) <= B + C + (e + f) * u53).
  { replace (a + b) with ((a + b - (r + s)) + (r + s)) by ring. eapply Rle_trans; [apply Rabs_triang|]. lra. }
  assert (u53 * Rabs (a + b) <= u53 * (B + C + (e + f) * u53)) by (apply Rmult_le_compat_l; lra).
  assert (u53 * ((e + f) * u53) <= / 1024 * ((e + f) * u53)) by (apply Rmult_le_compat_r; lra).
  replace (rnd (a + b) - (r + s)) with ((rnd (a + b) - (a + b)) + (a + b - (r + s))) by ring. eapply Rle_trans; [apply Rabs_triang|]. lra.
Qed.
(** both readings of a product *)
Definition prd (x y t B e : R) : Prop := Rabs (x * y - t) <= e * u53 /\ Rabs (rnd (x * y) - t) <= e * u53 /\ Rabs t <= B.
Lemma prd_of x y r s B C e f B' e' : ap x r B e -> ap y s C f -> eta <= u53 * (B * C) / 64 ->
  2 * ((B + e) * (C + f)) <= big -> f * u53 <= C / 64 \/ e * u53 <= B / 64 ->
  B * C <= B' -> 33 / 32 * (B * f + C * e + B * C) <= e' -> prd (fv x) (fv y) (r * s) B' e'.
Proof.
  intros Hx Hy H1 H2 H3 H4 H5. pose proof (ap_nonneg _ _ _ _ Hx) as [B0 e0]. pose proof (ap_nonneg _ _ _ _ Hy) as [C0 f0].
  pose proof u53_pos as u0. pose proof u53_small as us.
  pose proof (ap_mul' x y r s B C e f B' e' Hx Hy H1 H2 H3 H4 H5) as (M1 & M2 & M3).
  destruct (fmul_ok x y (ap_fin _ _ _ _ Hx) (ap_fin _ _ _ _ Hy)) as [_ V].
  { pose proof (ap_abs _ _ _ _ Hx). pose proof (ap_abs _ _ _ _ Hy). rewrite Rabs_mult.
    assert (e * u53 <= e * 1) by (apply Rmult_le_compat_l; lra). assert (f * u53 <= f * 1) by (apply Rmult_le_compat_l; lra).
    assert (Rabs (fv x) * Rabs (fv y) <= (B + e) * (C + f)) by (apply Rmult_le_compat; auto using Rabs_pos; lra).
    assert (0 <= (B + e) * (C + f)) by (apply Rmult_le_pos; lra). lra. }
  rewrite V in M2. split; [|split; assumption].
  destruct Hx as (_ & X2 & X3), Hy as (_ & Y2 & Y3).
  replace (fv x * fv y - r * s) with (r * (fv y - s) + s * (fv x - r) + (fv x - r) * (fv y - s)) by ring.
  assert (M : forall a b p q, Rabs a <= p -> Rabs b <= q -> Rabs (a * b) <= p * q).
  { intros a b p q Ha Hb. rewrite Rabs_mult. apply Rmult_le_compat; auto using Rabs_pos. }
  pose proof (M _ _ _ _ X3 Y2) as P1. pose proof (M _ _ _ _ Y3 X2) as P2. pose proof (M _ _ _ _ X2 Y2) as P3.
  assert (Q : e * u53 * (f * u53) <= (B * f + C * e) * u53 / 64).
  { assert (0 <= B * f * u53) by (repeat apply Rmult_le_pos; lra). assert (0 <= C * e * u53) by (repeat apply Rmult_le_pos; lra).
    assert (0 <= e * u53) by (apply Rmult_le_pos; lra). assert (0 <= f * u53) by (apply Rmult_le_pos; lra).
    destruct H3 as [H3|H3].
    - assert (e * u53 * (f * u53) <= e * u53 * (C / 64)) by (apply Rmult_le_compat_l; lra). lra.
    - assert (e * u53 * (f * u53) <= B / 64 * (f * u53)) by (apply Rmult_le_compat_r; lra). lra. }
  assert (K : 33 / 32 * (B * f + C * e + B * C) * u53 <= e' * u53) by (apply Rmult_le_compat_r; lra).
  assert (0 <= B * f * u53) by (repeat apply Rmult_le_pos; lra). assert (0 <= C * e * u53) by (repeat apply Rmult_le_pos; lra).
  assert (0 <= B * C * u53) by (repeat apply Rmult_le_pos; lra).
  eapply Rle_trans; [apply Rabs_triang|]. eapply Rle_trans; [apply Rplus_le_compat_r, Rabs_triang|]. lra.
Qed.

Lemma dot_by (DP : dotlib) x1 x2 x3 y1 y2 y3 t1 t2 t3 B1 B2 B3 e1 e2 e3 B E :
  fin x1 -> fin x2 -> fin x3 -> fin y1 -> fin y2 -> fin y3 ->
  prd (fv x1) (fv y1) t1 B1 e1 -> prd (fv x2) (fv y2) t2 B2 e2 -> prd (fv x3) (fv y3) t3 B3 e3 ->
  eta <= u53 * (B1 + B2) / 64 -> eta <= u53 * (B1 + B3) / 64 -> eta <= u53 * (B2 + B3) / 64 ->
  4 * (B1 + B2 + B3 + e1 + e2 + e3) <= big -> B1 + B2 + B3 <= B ->
  1025 / 1024 * (1025 / 1024 * (e1 + e2) + 65 / 64 * (B1 + B2) + e3) + 65 / 64 * (B1 + B2 + B3) <= E ->
  1025 / 1024 * (1025 / 1024 * (e1 + e3) + 65 / 64 * (B1 + B3) + e2) + 65 / 64 * (B1 + B2 + B3) <= E ->
  1025 / 1024 * (1025 / 1024 * (e2 + e3) + 65 / 64 * (B2 + B3) + e1) + 65 / 64 * (B1 + B2 + B3) <= E ->
  ap (DP (V3 x1 x2 x3) (V3 y1 y2 y3)) (t1 + t2 + t3) B E.
Proof.
  intros X1 X2 X3 Y1 Y2 Y3 P1 P2 P3 U1 U2 U3 Hb HB H1 H2 H3. pose proof u53_pos as u0. pose proof u53_small as us.
  assert (N : forall x y t b e, prd x y t b e -> 0 <= e /\ 0 <= b /\ Rabs (x * y) <= b + e * u53 /\ e * u53 <= e).
  { intros x y t b e (Q1 & _ & Q3). assert (e0 : 0 <= e * u53) by (apply Rle_trans with (2 := Q1), Rabs_pos).
    assert (0 <= e) by (apply Rmult_le_reg_r with u53; lra). split; [assumption|]. split; [apply Rle_trans with (2 := Q3), Rabs_pos|]. split.
    - replace (x * y) with ((x * y - t) + t) by ring. eapply Rle_trans; [apply Rabs_triang|]. lra.
    - rewrite <- (Rmult_1_r e) at 2. apply Rmult_le_compat_l; lra. }
  destruct (N _ _ _ _ _ P1) as (e01 & b01 & Q1 & Q1'). destruct (N _ _ _ _ _ P2) as (e02 & b02 & Q2 & Q2'). destruct (N _ _ _ _ _ P3) as (e03 & b03 & Q3 & Q3').
  destruct (dl_value DP x1 x2 x3 y1 y2 y3 X1 X2 X3 Y1 Y2 Y3) as (F1 & a & b & c & Ta & Tb & Tc & Sm); [lra|].
  set (z := fv (DP (V3 x1 x2 x3) (V3 y1 y2 y3))) in *.
  assert (R : forall x y t b e q, prd x y t b e -> term x y q -> rap q t b e).
  { intros x y t b' e q (D1 & D2 & D3) [-> | ->]; split; assumption. }
  pose proof (R _ _ _ _ _ _ P1 Ta) as Ra. pose proof (R _ _ _ _ _ _ P2 Tb) as Rb. pose proof (R _ _ _ _ _ _ P3 Tc) as Rc.
  split; [exact F1|].
  assert (Fin : forall e, rap z (t1 + t2 + t3) (B1 + B2 + B3) e -> e <= E -> Rabs (z - (t1 + t2 + t3)) <= E * u53 /\ Rabs (t1 + t2 + t3) <= B).
  { intros e [Z1 Z2] He. split; [|lra]. apply Rle_trans with (1 := Z1). apply Rmult_le_compat_r; lra. }
  assert (Un : forall p q, eta <= u53 * p / 64 -> 0 <= q -> eta <= u53 * (p + q) / 64).
  { intros p q Hp Hq. assert (0 <= u53 * q) by (apply Rmult_le_pos; lra). lra. }
  destruct Sm as [S|[S|S]].
  - pose proof (rap_add _ _ _ _ _ _ _ _ (rap_add _ _ _ _ _ _ _ _ Ra Rb U1) Rc (Un _ _ U1 b03)) as Z. rewrite <- S in Z. eapply Fin; [exact Z|exact H1].
  - pose proof (rap_add _ _ _ _ _ _ _ _ (rap_add _ _ _ _ _ _ _ _ Ra Rc U2) Rb (Un _ _ U2 b02)) as Z. rewrite <- S in Z.
    replace (t1 + t3 + t2) with (t1 + t2 + t3) in Z by ring. replace (B1 + B3 + B2) with (B1 + B2 + B3) in Z by ring. eapply Fin; [exact Z|exact H2].
  - pose proof (rap_add _ _ _ _ _ _ _ _ (rap_add _ _ _ _ _ _ _ _ Rb Rc U3) Ra (Un _ _ U3 b01)) as Z. rewrite <- S in Z.
    replace (t2 + t3 + t1) with (t1 + t2 + t3) in Z by ring. replace (B2 + B3 + B1) with (B1 + B2 + B3) in Z by ring. eapply Fin; [exact Z|exact H3].
Qed.

(** three products that are exactly zero *)
Lemma rnd_0 : rnd 0 = 0. Proof. exact (rnd_IZR 0 ltac:(lia)). Qed.
Lemma dot_null (DP : dotlib) x1 x2 x3 y1 y2 y3 : fin x1 -> fin x2 -> fin x3 -> fin y1 -> fin y2 -> fin y3 ->
  fv x1 * fv y1 = 0 -> fv x2 * fv y2 = 0 -> fv x3 * fv y3 = 0 ->
  fin (DP (V3 x1 x2 x3) (V3 y1 y2 y3)) /\ fv (DP (V3 x1 x2 x3) (V3 y1 y2 y3)) = 0.
Proof.
  intros X1 X2 X3 Y1 Y2 Y3 E1 E2 E3.
  destruct (dl_value DP x1 x2 x3 y1 y2 y3 X1 X2 X3 Y1 Y2 Y3) as (F1 & a & b & c & Ta & Tb & Tc & Sm).
  { rewrite E1, E2, E3, Rabs_R0. pose proof (bpow_ge_0 radix2 1000). unfold big. lra. }
  assert (T : forall x y q, x * y = 0 -> term x y q -> q = 0) by (intros x y q E [-> | ->]; rewrite E; [reflexivity|exact rnd_0]).
  split; [exact F1|]. rewrite (T _ _ _ E1 Ta), (T _ _ _ E2 Tb), (T _ _ _ E3 Tc) in Sm. unfold sum3 in Sm.
  replace (0 + 0) with 0 in Sm by ring. rewrite rnd_0 in Sm. replace (0 + 0) with 0 in Sm by ring. rewrite rnd_0 in Sm. tauto.
Qed.

(** ** Two such libraries *)
Lemma big_64 : 64 <= big.
Proof. change 64 with (bpow radix2 6). apply bpow_le. lia. Qed.
Lemma eta_1 : eta <= 1.
Proof. change 1 with (bpow radix2 0). apply bpow_le. lia. Qed.
Lemma rnd_grow r M : Rabs r <= M -> Rabs (rnd r) <= 1025 / 1024 * M + 1.
Proof.
  intros H. pose proof (rnd_err r) as K. pose proof u53_small as us. pose proof eta_1.
  replace (rnd r) with ((rnd r - r) + r) by ring. eapply Rle_trans; [apply Rabs_triang|].
  assert (u53 * Rabs r <= / 1024 * Rabs r) by (apply Rmult_le_compat_r; [apply Rabs_pos|exact us]). lra.
Qed.

(** the products rounded, added from the left *)
Lemma plain_value x1 x2 x3 y1 y2 y3 :
  fin x1 -> fin x2 -> fin x3 -> fin y1 -> fin y2 -> fin y3 ->
  4 * (Rabs (fv x1 * fv y1) + Rabs (fv x2 * fv y2) + Rabs (fv x3 * fv y3)) <= big ->
  let d := plain_dot (V3 x1 x2 x3) (V3 y1 y2 y3) in
  fin d /\ exists a b c, term (fv x1) (fv y1) a /\ term (fv x2) (fv y2) b /\ term (fv x3) (fv y3) c /\ sum3 a b c (fv d).
Proof.
  intros X1 X2 X3 Y1 Y2 Y3 Hb d. pose proof big_64 as B64.
  pose proof (Rabs_pos (fv x1 * fv y1)). pose proof (Rabs_pos (fv x2 * fv y2)). pose proof (Rabs_pos (fv x3 * fv y3)).
  destruct (fmul_ok x1 y1 X1 Y1) as [F1 V1]; [lra|]. destruct (fmul_ok x2 y2 X2 Y2) as [F2 V2]; [lra|].
  destruct (fmul_ok x3 y3 X3 Y3) as [F3 V3]; [lra|].
  pose proof (rnd_grow _ _ (Rle_refl (Rabs (fv x1 * fv y1)))) as G1. pose proof (rnd_grow _ _ (Rle_refl (Rabs (fv x2 * fv y2)))) as G2.
  pose proof (rnd_grow _ _ (Rle_refl (Rabs (fv x3 * fv y3)))) as G3.
  assert (A : Rabs (fv (fmul x1 y1) + fv (fmul x2 y2)) <= 1025 / 1024 * (Rabs (fv x1 * fv y1) + Rabs (fv x2 * fv y2)) + 2).
  { rewrite V1, V2. eapply Rle_trans; [apply Rabs_triang|]. lra. }
  destruct (fadd_ok _ _ F1 F2) as [F4 V4]; [lra|]. pose proof (rnd_grow _ _ A) as G4. rewrite <- V4 in G4.
  destruct (fadd_ok _ _ F4 F3) as [F5 V5]. { eapply Rle_trans; [apply Rabs_triang|]. rewrite V3. lra. }
  split; [exact F5|]. exists (rnd (fv x1 * fv y1)), (rnd (fv x2 * fv y2)), (rnd (fv x3 * fv y3)).
  do 3 (split; [right; reflexivity|]). left. unfold d, plain_dot. cbn [vx vy vz]. rewrite V5, V4, V1, V2, V3. reflexivity.
Qed.
Definition plain : dotlib := {| dl_dot := plain_dot; dl_value := plain_value; dl_nan := plain_nan |}.

(** x*y + z rounded once *)
Definition ffma (x y z : F) : F :=
  match x, y with
  | S754_finite sx mx ex, S754_finite sy my ey =>
      let '(Float _ m e) := Fmult (Float radix2 (cond_Zopp sx (Zpos mx)) ex) (Float radix2 (cond_Zopp sy (Zpos my)) ey) in
      match z with
      | S754_nan | S754_infinity _ => z
      | S754_zero _ => SpecFloat.binary_normalize fprec femax m e false
      | S754_finite sz mz ez =>
          let '(Float _ m' e') := Fplus (Float radix2 m e) (Float radix2 (cond_Zopp sz (Zpos mz)) ez) in
          SpecFloat.binary_normalize fprec femax m' e' false
      end
  | _, _ => fadd (fmul x y) z
  end.
Lemma normalize_ok m e t : t = F2R (Float radix2 m e) -> Rabs t <= big ->
  fin (SpecFloat.binary_normalize fprec femax m e false) /\ fv (SpecFloat.binary_normalize fprec femax m e false) = rnd t.
Proof.
  intros -> Hb. rewrite normalize_equiv.
  pose proof (binary_normalize_correct fprec femax Hprec Hmax mode_NE m e false) as H. cbv zeta in H.
  rewrite (rnd_big _ Hb) in H. destruct H as (H1 & H2 & _). destruct (B_fin _ H2) as [G1 G2]. split; [exact G1|]. rewrite G2. exact H1.
Qed.
Lemma ffma_ok x y z : fin x -> fin y -> fin z -> Rabs (fv x * fv y) <= big -> Rabs (fv x * fv y + fv z) <= big ->
  fin (ffma x y z) /\ fv (ffma x y z) = rnd (fv x * fv y + fv z).
Proof.
  intros Hx Hy Hz H1 H2.
  assert (Z : fv x * fv y = 0 -> fin (fadd (fmul x y) z) /\ fv (fadd (fmul x y) z) = rnd (fv x * fv y + fv z)).
  { intros E. destruct (fmul_ok x y Hx Hy H1) as [F1 V1]. rewrite E, rnd_0 in V1. rewrite E in *.
    destruct (fadd_ok _ z F1 Hz) as [F2 V2]; [rewrite V1; exact H2|]. split; [exact F2|]. rewrite V2, V1. reflexivity. }
  destruct x as [sx|sx| |sx mx ex]; try (destruct Hx as [_ Hx]; discriminate Hx); [apply Z; unfold fv at 1; simpl; ring|].
  destruct y as [sy|sy| |sy my ey]; try (destruct Hy as [_ Hy]; discriminate Hy); [apply Z; unfold fv at 2; simpl; ring|].
  clear Z. unfold ffma. destruct (Fmult _ _) as [m e] eqn:E.
  assert (P : fv (S754_finite sx mx ex) * fv (S754_finite sy my ey) = F2R (Float radix2 m e)).
  { rewrite <- E, F2R_mult. reflexivity. }
  destruct z as [sz|sz| |sz mz ez]; try (destruct Hz as [_ Hz]; discriminate Hz).
  - apply normalize_ok; [|exact H2]. rewrite P. unfold fv. simpl. ring.
  - destruct (Fplus _ _) as [m' e'] eqn:E'. apply normalize_ok; [|exact H2]. rewrite <- E', F2R_plus, P. reflexivity.
Qed.
Lemma ffma_nan x y z : x = S754_nan \/ y = S754_nan \/ z = S754_nan -> ffma x y z = S754_nan.
Proof.
  intros [-> | [-> | ->]].
  - unfold ffma. rewrite nan_mul_l. apply nan_add_l.
  - unfold ffma. destruct x; rewrite nan_mul_r; apply nan_add_l.
  - unfold ffma. destruct x, y; try apply nan_add_r. now destruct (Fmult _ _).
Qed.

(** the first product rounded, the others added by fused multiply-add *)
Definition fused_dot (v w : vec3 F) : F := ffma (vz v) (vz w) (ffma (vy v) (vy w) (fmul (vx v) (vx w))).
Lemma fused_value x1 x2 x3 y1 y2 y3 :
  fin x1 -> fin x2 -> fin x3 -> fin y1 -> fin y2 -> fin y3 ->
  4 * (Rabs (fv x1 * fv y1) + Rabs (fv x2 * fv y2) + Rabs (fv x3 * fv y3)) <= big ->
  let d := fused_dot (V3 x1 x2 x3) (V3 y1 y2 y3) in
  fin d /\ exists a b c, term (fv x1) (fv y1) a /\ term (fv x2) (fv y2) b /\ term (fv x3) (fv y3) c /\ sum3 a b c (fv d).
Proof.
  intros X1 X2 X3 Y1 Y2 Y3 Hb d. pose proof big_64 as B64.
  pose proof (Rabs_pos (fv x1 * fv y1)). pose proof (Rabs_pos (fv x2 * fv y2)). pose proof (Rabs_pos (fv x3 * fv y3)).
  destruct (fmul_ok x1 y1 X1 Y1) as [F1 V1]; [lra|].
  pose proof (rnd_grow _ _ (Rle_refl (Rabs (fv x1 * fv y1)))) as G1.
  assert (A : Rabs (fv x2 * fv y2 + fv (fmul x1 y1)) <= 1025 / 1024 * (Rabs (fv x1 * fv y1) + Rabs (fv x2 * fv y2)) + 1).
  { rewrite V1. eapply Rle_trans; [apply Rabs_triang|]. lra. }
  destruct (ffma_ok _ _ _ X2 Y2 F1) as [F4 V4]; [lra|lra|]. pose proof (rnd_grow _ _ A) as G4. rewrite <- V4 in G4.
  destruct (ffma_ok _ _ _ X3 Y3 F4) as [F5 V5]; [lra| |]. { eapply Rle_trans; [apply Rabs_triang|]. lra. }
  split; [exact F5|]. exists (rnd (fv x1 * fv y1)), (fv x2 * fv y2), (fv x3 * fv y3).
  split; [right; reflexivity|]. do 2 (split; [left; reflexivity|]). left. unfold d, fused_dot. cbn [vx vy vz].
  rewrite V5, V4, V1, (Rplus_comm (fv x2 * fv y2)), (Rplus_comm (fv x3 * fv y3)). reflexivity.
Qed.
Lemma fused_nan : nan_dot fused_dot.
Proof.
  intros v w. unfold fused_dot. intros [E|[E|[E|[E|[E|E]]]]]; rewrite E; apply ffma_nan; auto; right; right;
    apply ffma_nan; auto; right; right; rewrite ?nan_mul_l, ?nan_mul_r; reflexivity.
Qed.
Definition fused : dotlib := {| dl_dot := fused_dot; dl_value := fused_value; dl_nan := fused_nan |}.

(** they differ: (1+2^-52)^2 - (1+2^-51) is 2^-104 with one rounding, 0 with two *)
Example plain_fused :
  let x := fadd (fofZ 1) feps in let v := V3 (fofZ (-1)) x (fofZ 0) in
  let w := V3 (fadd (fofZ 1) (fadd feps feps)) x (fofZ 0) in
  plain_dot v w = S754_zero false /\ fused_dot v w = S754_finite false 4503599627370496 (-156).
Proof. vm_compute. split; reflexivity. Qed.

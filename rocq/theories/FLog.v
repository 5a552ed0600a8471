(** * Logarithm, arc cosine and pi in double precision *)
From Coq Require Import ZArith Reals Lra Lia Bool Psatz Floats.SpecFloat Machin.
From Flocq Require Import Core IEEE754.BinarySingleNaN.
From Verif Require Import Base FArith FReal FErr.
Local Open Scope R_scope.

(** ** Real functions of close arguments *)
Lemma ln_le_1 x : 0 < x -> ln x <= x - 1.
Proof. intros H. pose proof (exp_ineq1_le (ln x)) as K. rewrite exp_ln in K by exact H. lra. Qed.
Lemma ln_close x y e : 0 < y -> Rabs (x - y) <= e * y -> 0 <= e <= / 4 -> 0 < x /\ Rabs (ln x - ln y) <= 4 / 3 * e.
Proof.
  intros Hy Hd He. apply Rabs_le_inv in Hd. assert (Q : e * y <= / 4 * y) by (apply Rmult_le_compat_r; lra).
  assert (Hx : 3 / 4 * y <= x) by lra. assert (x0 : 0 < x) by lra. split; [exact x0|].
  assert (I : 0 < / x) by now apply Rinv_0_lt_compat. assert (J : 0 < / y) by now apply Rinv_0_lt_compat.
  assert (A1 : ln x - ln y <= e).
  { replace (ln x - ln y) with (ln (x / y)) by (unfold Rdiv; rewrite ln_mult, ln_Rinv; lra).
    eapply Rle_trans; [apply ln_le_1; apply Rmult_lt_0_compat; assumption|].
    apply Rmult_le_reg_r with y; [exact Hy|]. replace ((x / y - 1) * y) with (x - y) by (field; lra). lra. }
  assert (A2 : ln y - ln x <= 4 / 3 * e).
  { replace (ln y - ln x) with (ln (y / x)) by (unfold Rdiv; rewrite ln_mult, ln_Rinv; lra).
    eapply Rle_trans; [apply ln_le_1; apply Rmult_lt_0_compat; assumption|].
    apply Rmult_le_reg_r with x; [exact x0|]. replace ((y / x - 1) * x) with (y - x) by (field; lra).
    assert (e * (3 / 4 * y) <= e * x) by (apply Rmult_le_compat_l; lra). lra. }
  apply Rabs_le. lra.
Qed.

(** the arc cosine is Lipschitz away from -1 and 1 *)
Lemma acos_close_aux x y k : 0 < k -> -1 <= x -> x <= y -> y <= 1 -> / (k * k) <= 1 - x * x -> / (k * k) <= 1 - y * y ->
  0 <= acos x - acos y <= k * (y - x).
Proof.
  intros Hk H1 H2 H3 Ex Ey. set (a := acos y). set (b := acos x).
  pose proof (acos_bound x) as Bx. pose proof (acos_bound y) as By. fold a in By. fold b in Bx.
  assert (Ca : cos a = y) by (apply cos_acos; lra). assert (Cb : cos b = x) by (apply cos_acos; lra).
  assert (Hab : a <= b).
  { destruct (Rle_lt_dec a b) as [|Q]; [assumption|]. assert (K : cos a < cos b) by (apply cos_decreasing_1; lra). lra. }
  split; [lra|].
  destruct Hab as [Hab|Hab]; [|rewrite Hab; assert (0 <= k * (y - x)) by (apply Rmult_le_pos; lra); lra].
  destruct (MVT_cor2 cos (fun t => - sin t) a b Hab (fun c _ => derivable_pt_lim_cos c)) as (c & Hc & Hc1).
  assert (Sq : forall z w, sin z * sin z = 1 - w * w -> 0 <= sin z -> / (k * k) <= 1 - w * w -> / k <= sin z).
  { intros z w Hz Hz0 Hw. rewrite <- Hz in Hw. destruct (Rle_lt_dec (/ k) (sin z)) as [|Q]; [assumption|].
    assert (sin z * sin z < / k * / k) by (apply Rmult_le_0_lt_compat; lra). rewrite <- Rinv_mult in H. lra. }
  assert (Sa : / k <= sin a).
  { apply (Sq a y); [|apply sin_ge_0; lra|exact Ey]. pose proof (sin2_cos2 a) as T. unfold Rsqr in T. rewrite Ca in T. lra. }
  assert (Sb : / k <= sin b).
  { apply (Sq b x); [|apply sin_ge_0; lra|exact Ex]. pose proof (sin2_cos2 b) as T. unfold Rsqr in T. rewrite Cb in T. lra. }
  assert (Sc : / k <= sin c).
  { destruct (Rle_lt_dec c (PI / 2)) as [Q|Q].
    - apply Rle_trans with (1 := Sa). apply sin_incr_1; lra.
    - apply Rle_trans with (1 := Sb). apply sin_decr_1; lra. }
  rewrite Ca, Cb in Hc. assert (I : 0 < / k) by now apply Rinv_0_lt_compat.
  assert (E : y - x = sin c * (b - a)) by lra. rewrite E.
  assert (T : / k * (b - a) <= sin c * (b - a)) by (apply Rmult_le_compat_r; lra).
  apply Rmult_le_reg_l with (/ k); [exact I|]. rewrite <- Rmult_assoc, Rinv_l, Rmult_1_l by lra. exact T.
Qed.
Lemma acos_close x y k : 0 < k -> -1 <= x <= 1 -> -1 <= y <= 1 -> / (k * k) <= 1 - x * x -> / (k * k) <= 1 - y * y ->
  Rabs (acos x - acos y) <= k * Rabs (x - y).
Proof.
  intros Hk Hx Hy Ex Ey. destruct (Rle_lt_dec x y) as [Q|Q].
  - pose proof (acos_close_aux x y k Hk ltac:(lra) Q ltac:(lra) Ex Ey). rewrite (Rabs_minus_sym x y), !Rabs_pos_eq by lra. lra.
  - pose proof (acos_close_aux y x k Hk ltac:(lra) ltac:(lra) ltac:(lra) Ey Ex). rewrite (Rabs_minus_sym (acos x)), !Rabs_pos_eq by lra. lra.
Qed.

(** ** pi *)
Lemma PI_digits : 314159265358979323 / 100000000000000000 <= PI <= 314159265358979324 / 100000000000000000.
Proof.
  pose proof (PI_2_3_7_ineq 9) as K. cbn [Nat.mul Nat.add] in K.
  unfold sum_f_R0, tg_alt, PI_2_3_7_tg, Ratan_seq in K. 
  cbn [Nat.mul Nat.add pow INR] in K. lra.
Qed.
Lemma fpi_fin : fin fpi. Proof. split; reflexivity. Qed.
Lemma fpi_val : fv fpi = 7074237752028440 / 2251799813685248.
Proof.
  unfold fv, fpi, SF2R, F2R. cbn [Fnum Fexp cond_Zopp].
  replace (bpow radix2 (-51)) with (/ 2251799813685248) by reflexivity. lra.
Qed.
Lemma fpi_ap : ap fpi PI 4 2.
Proof.
  split; [exact fpi_fin|]. pose proof PI_digits. rewrite fpi_val. split.
  - unfold u53. apply Rabs_le. lra.
  - rewrite Rabs_pos_eq; lra.
Qed.
Lemma feps_fin : fin feps. Proof. split; reflexivity. Qed.
Lemma feps_val : fv feps = 2 * u53.
Proof.
  unfold fv, feps, SF2R, F2R, u53. cbn [Fnum Fexp cond_Zopp].
  replace (bpow radix2 (-104)) with (/ 20282409603651670423947251286016) by reflexivity. lra.
Qed.

(** ** Absolute value and sign *)
Lemma fabs_ok x : fin x -> fin (SFabs x) /\ fv (SFabs x) = Rabs (fv x).
Proof.
  intros [H1 H2]. destruct x as [b|b| |b m e]; cbn in *; try discriminate.
  - split; [split; reflexivity|]. unfold fv. cbn. now rewrite Rabs_R0.
  - split; [split; auto|]. unfold fv, SF2R. rewrite <- F2R_Zabs. f_equal. f_equal. now destruct b.
Qed.
Lemma fsign_pos x : fin x -> 0 < fv x -> fsign x = fofZ 1.
Proof.
  intros [H1 H2] H. destruct x as [b|b| |b m e]; try discriminate; [unfold fv in H; cbn in H; lra|].
  destruct b; [|reflexivity]. exfalso. unfold fv, SF2R in H. cbn [cond_Zopp] in H.
  assert (F2R (beta := radix2) {| Fnum := (- Z.pos m)%Z; Fexp := e |} < 0) by (apply F2R_lt_0; reflexivity). lra.
Qed.
Lemma fsign_neg x : fin x -> fv x < 0 -> fsign x = fofZ (-1).
Proof.
  intros [H1 H2] H. destruct x as [b|b| |b m e]; try discriminate; [unfold fv in H; cbn in H; lra|].
  destruct b; [reflexivity|]. exfalso. unfold fv, SF2R in H. cbn [cond_Zopp] in H.
  assert (0 < F2R (beta := radix2) {| Fnum := Z.pos m; Fexp := e |}) by (apply F2R_gt_0; reflexivity). lra.
Qed.

(** ** The mathematical library: a few units in the last place *)
Definition libm (lg ac : F -> F) : Prop :=
  (forall x, fin x -> 0 < fv x -> fin (lg x) /\ Rabs (fv (lg x) - ln (fv x)) <= 4 * (1 + Rabs (ln (fv x))) * u53) /\
  (forall x, fin x -> -1 <= fv x <= 1 -> fin (ac x) /\ Rabs (fv (ac x) - acos (fv x)) <= 20 * u53).
(** Such libraries exist: round to a multiple of 2^-53 (not computable in Coq, as
    the real functions are not, but a function all the same). *)
Definition dbl (r : R) : F := fdiv (fofZ (ZnearestE (r * 9007199254740992))) (fofZ 9007199254740992).
Lemma dbl_ok r : Rabs r <= 2000 -> fin (dbl r) /\ Rabs (fv (dbl r) - r) <= 4 * (1 + Rabs r) * u53.
Proof.
  intros Hr. set (k := ZnearestE (r * 9007199254740992)). pose proof u53_pos as u0.
  assert (Hk : Rabs (IZR k - r * 9007199254740992) <= / 2) by (rewrite Rabs_minus_sym; apply Znearest_half).
  assert (Kb : Rabs (IZR k) <= Rabs r * 9007199254740992 + / 2).
  { replace (IZR k) with ((IZR k - r * 9007199254740992) + r * 9007199254740992) by ring. eapply Rle_trans; [apply Rabs_triang|].
    rewrite Rabs_mult, (Rabs_pos_eq 9007199254740992) by lra. lra. }
  assert (B : bpow radix2 70 <= big) by (apply bpow_le; lia). change (bpow radix2 70) with 1180591620717411303424 in B.
  destruct (fofZ_ok k) as [F1 V1]; [lra|]. destruct (fofZ_exact 9007199254740992 ltac:(lia)) as [F2 V2].
  pose proof (rnd_err (IZR k)) as E1. rewrite <- V1 in E1.
  assert (Ee : eta <= u53 / 1024).
  { unfold eta. rewrite u53_bpow. unfold Rdiv. change 1024 with (bpow radix2 10). rewrite <- bpow_opp, <- bpow_plus. apply bpow_le. lia. }
  set (y := fofZ k) in *. set (c := 9007199254740992) in *.
  assert (Pr : 0 <= Rabs r) by apply Rabs_pos. assert (Er : 0 <= Rabs r * u53) by (apply Rmult_le_pos; lra).
  assert (cu : c * u53 = 1) by (unfold c, u53; lra).
  assert (Uk : u53 * Rabs (IZR k) <= Rabs r + u53 / 2).
  { apply Rle_trans with (u53 * (Rabs r * c + / 2)); [apply Rmult_le_compat_l; [lra|exact Kb]|].
    replace (u53 * (Rabs r * c + / 2)) with (Rabs r * (c * u53) + u53 / 2) by field. rewrite cu. lra. }
  assert (us : u53 <= / 1024) by apply u53_small.
  assert (D : Rabs (fv y - r * c) <= 2 / 3 + 11 / 10 * Rabs r).
  { replace (fv y - r * c) with ((fv y - IZR k) + (IZR k - r * c)) by ring. eapply Rle_trans; [apply Rabs_triang|]. lra. }
  assert (Q : Rabs (fv y / c - r) <= (2 / 3 + 11 / 10 * Rabs r) * u53).
  { replace (fv y / c - r) with ((fv y - r * c) * u53) by (unfold c, u53; field). rewrite Rabs_mult, (Rabs_pos_eq u53) by lra.
    apply Rmult_le_compat_r; lra. }
  assert (Qb : Rabs (fv y / c) <= 11 / 10 * Rabs r + / 1024).
  { replace (fv y / c) with ((fv y / c - r) + r) by ring. eapply Rle_trans; [apply Rabs_triang|].
    assert ((2 / 3 + 11 / 10 * Rabs r) * u53 <= (2 / 3 + 11 / 10 * Rabs r) * / 1024) by (apply Rmult_le_compat_l; lra). lra. }
  destruct (fdiv_ok y (fofZ 9007199254740992) F1 F2) as [F3 V3].
  { rewrite V2. fold c. unfold c. apply IZR_neq. lia. }
  { rewrite V2. fold c. lra. }
  split; [exact F3|]. change (dbl r) with (fdiv y (fofZ 9007199254740992)). rewrite V3, V2. fold c.
  pose proof (rnd_err (fv y / c)) as E2.
  assert (u53 * Rabs (fv y / c) <= u53 * (11 / 10 * Rabs r + / 1024)) by (apply Rmult_le_compat_l; lra).
  replace (rnd (fv y / c) - r) with ((rnd (fv y / c) - fv y / c) + (fv y / c - r)) by ring. eapply Rle_trans; [apply Rabs_triang|]. lra.
Qed.
Lemma ln_bpow k : ln (bpow radix2 k) = IZR k * ln 2.
Proof. rewrite bpow_powerRZ. change (IZR radix2) with 2. rewrite powerRZ_Rpower by lra. unfold Rpower. apply ln_exp. Qed.
Lemma fv_range x : fin x -> 0 < fv x -> bpow radix2 (-1074) <= fv x <= bpow radix2 1024.
Proof.
  intros Hx H. destruct (fin_B x Hx) as (b & _ & Fb & E). rewrite <- E in *. split.
  - destruct b as [| | |s m e Hb]; try discriminate; [cbn in H; lra|]. cbn [B2R] in *.
    destruct s; [exfalso; cbn [cond_Zopp] in H; assert (F2R (beta := radix2) {| Fnum := (- Z.pos m)%Z; Fexp := e |} < 0) by (apply F2R_lt_0; reflexivity); lra|].
    cbn [cond_Zopp].
    unfold F2R. cbn [Fnum Fexp]. assert (e0 : (-1074 <= e)%Z).
    { pose proof Hb as Hc. clear - Hc. unfold SpecFloat.bounded in Hc. apply andb_prop in Hc. destruct Hc as [Hb _]. unfold canonical_mantissa in Hb. apply Zeq_bool_eq in Hb.
      unfold fexp, SpecFloat.fexp, emin, SpecFloat.emin, fprec, femax in Hb. lia. }
    apply Rle_trans with (1 * bpow radix2 e); [rewrite Rmult_1_l; now apply bpow_le|].
    apply Rmult_le_compat_r; [apply bpow_ge_0|]. apply IZR_le. lia.
  - apply Rle_trans with (1 := Rle_abs _). left. exact (abs_B2R_lt_emax _ _ b).
Qed.
Lemma libm_exists : libm (fun x => dbl (ln (fv x))) (fun x => dbl (acos (fv x))).
Proof.
  assert (L2 : 0 < ln 2 <= 1).
  { split; [rewrite <- ln_1; apply ln_increasing; lra|]. pose proof (ln_le_1 2). lra. }
  split.
  - intros x Fx Hx. apply dbl_ok. destruct (fv_range x Fx Hx) as [H1 H2]. pose proof (bpow_gt_0 radix2 (-1074)) as P1.
    apply Rabs_le.
    assert (A : ln (bpow radix2 (-1074)) <= ln (fv x)) by (destruct H1 as [H1|H1]; [left; now apply ln_increasing|rewrite <- H1; lra]).
    assert (B : ln (fv x) <= ln (bpow radix2 1024)) by (destruct H2 as [H2|H2]; [left; now apply ln_increasing|rewrite <- H2; lra]).
    rewrite ln_bpow in A, B. lra.
  - intros x Fx Hx. pose proof (acos_bound (fv x)) as B. pose proof PI_digits. pose proof u53_pos. split.
    + apply dbl_ok. rewrite Rabs_pos_eq; lra.
    + eapply Rle_trans; [apply dbl_ok; rewrite Rabs_pos_eq; lra|]. rewrite Rabs_pos_eq by lra. apply Rmult_le_compat_r; lra.
Qed.

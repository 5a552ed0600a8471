(** * Doubles and real numbers

    The operations of FArith are the correctly rounded ones: on finite numbers,
    below the overflow threshold, each returns the rounding (to nearest even)
    of the exact real result.  Proved with Flocq's BinarySingleNaN. *)
From Coq Require Import ZArith Reals Lra Lia Bool Psatz Floats.SpecFloat.
From Flocq Require Import Core IEEE754.BinarySingleNaN Relative.
From Verif Require Import Base FArith.
Local Open Scope R_scope.

Local Instance Hprec : Prec_gt_0 fprec := eq_refl.
Local Instance Hmax : Prec_lt_emax fprec femax := eq_refl.

(** a finite double, and its value *)
Definition fin (x : F) : Prop := valid_binary fprec femax x = true /\ is_fin x = true.
Definition fv (x : F) : R := SF2R radix2 x.
(** rounding to nearest, ties to even, with gradual underflow *)
Definition rnd (r : R) : R := round radix2 (FLT_exp (-1074) 53) ZnearestE r.

Lemma fin_B x : fin x -> exists b : binary_float fprec femax, B2SF b = x /\ is_finite b = true /\ B2R b = fv x.
Proof.
  intros [H1 H2]. exists (SF2B x H1). split; [apply B2SF_SF2B|]. split.
  - rewrite is_finite_SF2B. now destruct x.
  - apply B2R_SF2B.
Qed.
Lemma B_fin (b : binary_float fprec femax) : is_finite b = true -> fin (B2SF b) /\ fv (B2SF b) = B2R b.
Proof.
  intros H. split; [split|].
  - apply valid_binary_B2SF.
  - now destruct b.
  - apply SF2R_B2SF.
Qed.

(** ** The functions of SpecFloat are those of Flocq *)
Lemma round_nearest_even_equiv s m l : round_nearest_even m l = choice_mode mode_NE s m l.
Proof. destruct l as [|c]; [reflexivity|]. destruct c; [|reflexivity..]. simpl. unfold Round.cond_incr. now destruct (Z.even m). Qed.
Lemma round_aux_equiv sx mx ex lx :
  SpecFloat.binary_round_aux fprec femax sx mx ex lx = binary_round_aux fprec femax mode_NE sx mx ex lx.
Proof.
  unfold SpecFloat.binary_round_aux, binary_round_aux.
  destruct (shr_fexp _ _ _) as [mrs e]. simpl. now rewrite (round_nearest_even_equiv sx).
Qed.
Lemma round_equiv s m e : SpecFloat.binary_round fprec femax s m e = binary_round fprec femax mode_NE s m e.
Proof.
  unfold SpecFloat.binary_round, binary_round, shl_align_fexp. destruct (shl_align _ _ _) as [mz ez]. apply round_aux_equiv.
Qed.
Lemma normalize_equiv m e s :
  SpecFloat.binary_normalize fprec femax m e s = B2SF (binary_normalize fprec femax Hprec Hmax mode_NE m e s).
Proof. destruct m; [reflexivity| |]; simpl; rewrite B2SF_SF2B; apply round_equiv. Qed.
Lemma add_equiv (x y : binary_float fprec femax) : fadd (B2SF x) (B2SF y) = B2SF (Bplus mode_NE x y).
Proof.
  destruct x as [sx|sx| |sx mx ex Bx], y as [sy|sy| |sy my ey By]; [now (trivial || simpl; case Bool.eqb).. |].
  apply normalize_equiv.
Qed.
Lemma sub_equiv (x y : binary_float fprec femax) : fsub (B2SF x) (B2SF y) = B2SF (Bminus mode_NE x y).
Proof.
  destruct x as [sx|sx| |sx mx ex Bx], y as [sy|sy| |sy my ey By]; [now (trivial || simpl; case Bool.eqb).. |].
  simpl. unfold Zminus. rewrite <- cond_Zopp_negb. apply normalize_equiv.
Qed.
Lemma mul_equiv (x y : binary_float fprec femax) : fmul (B2SF x) (B2SF y) = B2SF (Bmult mode_NE x y).
Proof.
  destruct x as [sx|sx| |sx mx ex Bx], y as [sy|sy| |sy my ey By]; [now trivial.. |].
  simpl. rewrite B2SF_SF2B. apply round_aux_equiv.
Qed.
Lemma div_equiv (x y : binary_float fprec femax) : fdiv (B2SF x) (B2SF y) = B2SF (Bdiv mode_NE x y).
Proof.
  destruct x as [sx|sx| |sx mx ex Bx], y as [sy|sy| |sy my ey By]; [now (trivial || simpl; case Bool.eqb).. |].
  simpl. rewrite B2SF_SF2B. set (melz := SFdiv_core_binary _ _ _ _ _ _). destruct melz as [[mz ez] lz]. apply round_aux_equiv.
Qed.
Lemma sqrt_equiv (x : binary_float fprec femax) : fsqrt (B2SF x) = B2SF (Bsqrt mode_NE x).
Proof.
  destruct x as [sx|sx| |sx mx ex Bx]; [now (trivial || case sx).. |]. destruct sx; [reflexivity|].
  simpl. rewrite B2SF_SF2B. set (melz := SFsqrt_core_binary _ _ _ _). destruct melz as [[mz ez] lz]. apply round_aux_equiv.
Qed.

(** ** Rounding *)
Definition big : R := bpow radix2 1000.
Lemma rnd_big r : Rabs r <= big -> Rlt_bool (Rabs (round radix2 (SpecFloat.fexp fprec femax) (round_mode mode_NE) r)) (bpow radix2 femax) = true.
Proof.
  intros H. apply Rlt_bool_true. apply Rle_lt_trans with big; [|apply bpow_lt; reflexivity].
  apply abs_round_le_generic; [typeclasses eauto|typeclasses eauto| |exact H].
  apply generic_format_bpow. unfold SpecFloat.fexp, SpecFloat.emin, fprec, femax. simpl. lia.
Qed.

Lemma fadd_ok x y : fin x -> fin y -> Rabs (fv x + fv y) <= big ->
  fin (fadd x y) /\ fv (fadd x y) = rnd (fv x + fv y).
Proof.
  intros Hx Hy Hb. destruct (fin_B x Hx) as (a & <- & Fa & Va). destruct (fin_B y Hy) as (b & <- & Fb & Vb).
  pose proof (Bplus_correct _ _ _ _ mode_NE a b Fa Fb) as H. rewrite add_equiv.
  rewrite Va, Vb, (rnd_big _ Hb) in H. destruct H as (H1 & H2 & _).
  destruct (B_fin _ H2) as [G1 G2]. split; [exact G1|]. rewrite G2. exact H1.
Qed.
Lemma fsub_ok x y : fin x -> fin y -> Rabs (fv x - fv y) <= big ->
  fin (fsub x y) /\ fv (fsub x y) = rnd (fv x - fv y).
Proof.
  intros Hx Hy Hb. destruct (fin_B x Hx) as (a & <- & Fa & Va). destruct (fin_B y Hy) as (b & <- & Fb & Vb).
  pose proof (Bminus_correct _ _ _ _ mode_NE a b Fa Fb) as H. rewrite sub_equiv.
  rewrite Va, Vb, (rnd_big _ Hb) in H. destruct H as (H1 & H2 & _).
  destruct (B_fin _ H2) as [G1 G2]. split; [exact G1|]. rewrite G2. exact H1.
Qed.
Lemma fmul_ok x y : fin x -> fin y -> Rabs (fv x * fv y) <= big ->
  fin (fmul x y) /\ fv (fmul x y) = rnd (fv x * fv y).
Proof.
  intros Hx Hy Hb. destruct (fin_B x Hx) as (a & <- & Fa & Va). destruct (fin_B y Hy) as (b & <- & Fb & Vb).
  pose proof (Bmult_correct _ _ _ _ mode_NE a b) as H. rewrite mul_equiv.
  rewrite Va, Vb, (rnd_big _ Hb) in H. destruct H as (H1 & H2 & _). rewrite Fa, Fb in H2.
  destruct (B_fin _ H2) as [G1 G2]. split; [exact G1|]. rewrite G2. exact H1.
Qed.
Lemma fdiv_ok x y : fin x -> fin y -> fv y <> 0 -> Rabs (fv x / fv y) <= big ->
  fin (fdiv x y) /\ fv (fdiv x y) = rnd (fv x / fv y).
Proof.
  intros Hx Hy Hn Hb. destruct (fin_B x Hx) as (a & <- & Fa & Va). destruct (fin_B y Hy) as (b & <- & Fb & Vb).
  assert (Hn' : B2R b <> 0) by (rewrite Vb; exact Hn).
  pose proof (Bdiv_correct _ _ _ _ mode_NE a b Hn') as H. rewrite div_equiv.
  rewrite Va, Vb, (rnd_big _ Hb) in H. destruct H as (H1 & H2 & _). rewrite Fa in H2.
  destruct (B_fin _ H2) as [G1 G2]. split; [exact G1|]. rewrite G2. exact H1.
Qed.
Lemma fsqrt_ok x : fin x -> 0 <= fv x -> fin (fsqrt x) /\ fv (fsqrt x) = rnd (sqrt (fv x)).
Proof.
  intros Hx H0. destruct (fin_B x Hx) as (a & <- & Fa & Va). rewrite sqrt_equiv.
  pose proof (Bsqrt_correct _ _ _ _ mode_NE a) as (H1 & H2 & _).
  assert (F2 : is_finite (Bsqrt mode_NE a) = true).
  { rewrite H2. destruct a as [s|s| |s m e B]; try reflexivity; try discriminate. destruct s; [|reflexivity].
    exfalso. rewrite <- Va in H0. cbn in H0. pose proof (F2R_lt_0 radix2 (Float radix2 (Zneg m) e) eq_refl). lra. }
  destruct (B_fin _ F2) as [G1 G2]. split; [exact G1|]. rewrite G2, H1, Va. reflexivity.
Qed.
Lemma fofZ_ok z : Rabs (IZR z) <= big -> fin (fofZ z) /\ fv (fofZ z) = rnd (IZR z).
Proof.
  intros Hb. unfold fofZ. rewrite normalize_equiv.
  pose proof (binary_normalize_correct fprec femax Hprec Hmax mode_NE z 0 false) as H. cbv zeta in H.
  assert (E : F2R (Float radix2 z 0) = IZR z) by (unfold F2R; simpl; ring). rewrite E, (rnd_big _ Hb) in H.
  destruct H as (H1 & H2 & _). destruct (B_fin _ H2) as [G1 G2]. split; [exact G1|]. rewrite G2. exact H1.
Qed.
Lemma fopp_ok x : fin x -> fin (SFopp x) /\ fv (SFopp x) = - fv x.
Proof.
  intros [H1 H2]. destruct x as [s|s| |s m e]; try discriminate; (split; [split; assumption|]); unfold fv; cbn; [ring|].
  destruct s; cbn; rewrite <- F2R_Zopp; reflexivity.
Qed.
Lemma fltb_ok x y : fin x -> fin y -> SFltb x y = Rlt_bool (fv x) (fv y).
Proof.
  intros Hx Hy. destruct (fin_B x Hx) as (a & <- & Fa & Va). destruct (fin_B y Hy) as (b & <- & Fb & Vb).
  rewrite <- Va, <- Vb. exact (Bltb_correct _ _ a b Fa Fb).
Qed.
Lemma feqb_ok x y : fin x -> fin y -> SFeqb x y = Req_bool (fv x) (fv y).
Proof.
  intros Hx Hy. destruct (fin_B x Hx) as (a & <- & Fa & Va). destruct (fin_B y Hy) as (b & <- & Fb & Vb).
  rewrite <- Va, <- Vb. exact (Beqb_correct _ _ a b Fa Fb).
Qed.
Lemma fin_format x : fin x -> generic_format radix2 (FLT_exp (-1074) 53) (fv x).
Proof. intros Hx. destruct (fin_B x Hx) as (a & <- & Fa & <-). exact (generic_format_B2R fprec femax a). Qed.

(** error of one rounding: half a unit in the last place, relative, or 2^-1075 *)
Definition u53 : R := / 9007199254740992. (* 2^-53 *)
Definition eta : R := bpow radix2 (-1075).
Lemma u53_bpow : u53 = bpow radix2 (-53).
Proof. unfold u53. change (-53)%Z with (- (53))%Z. rewrite bpow_opp. reflexivity. Qed.
Lemma rnd_err r : Rabs (rnd r - r) <= u53 * Rabs r + eta.
Proof.
  destruct (error_N_FLT radix2 (-1074) 53 eq_refl (fun x => negb (Z.even x)) r) as (d & t & Hd & Ht & _ & E).
  unfold rnd. rewrite E. replace (r * (1 + d) + t - r) with (r * d + t) by ring.
  eapply Rle_trans; [apply Rabs_triang|]. rewrite Rabs_mult.
  assert (U : / 2 * bpow radix2 (- (53) + 1) = u53).
  { rewrite u53_bpow. change (/ 2) with (bpow radix2 (-1)). rewrite <- bpow_plus. reflexivity. }
  assert (W : / 2 * bpow radix2 (-1074) = eta).
  { unfold eta. change (/ 2) with (bpow radix2 (-1)). rewrite <- bpow_plus. reflexivity. }
  rewrite U in Hd. rewrite W in Ht. pose proof (Rabs_pos r). apply Rplus_le_compat; [|exact Ht].
  rewrite Rmult_comm. apply Rmult_le_compat_r; assumption.
Qed.
(** integers up to 2^53 are exact *)
Lemma rnd_IZR z : (Z.abs z <= 2 ^ 53)%Z -> rnd (IZR z) = IZR z.
Proof.
  intros H. apply round_generic; [typeclasses eauto|].
  destruct (Z.eq_dec (Z.abs z) (2 ^ 53)) as [E|E].
  - assert (K : IZR z = bpow radix2 53 \/ IZR z = - bpow radix2 53).
    { change (bpow radix2 53) with (IZR (2 ^ 53)). rewrite <- opp_IZR. destruct (Z.abs_eq_or_opp z); [left|right]; f_equal; lia. }
    destruct K as [-> | ->]; [|apply generic_format_opp]; apply generic_format_FLT_bpow; [reflexivity|lia|reflexivity|lia].
  - apply generic_format_FLT. exists (Float radix2 z 0); cbn; [unfold F2R; cbn; ring| |lia]. lia.
Qed.
Lemma big_IZR z : (Z.abs z <= 2 ^ 53)%Z -> Rabs (IZR z) <= big.
Proof.
  intros H. rewrite <- abs_IZR. apply Rle_trans with (IZR (2 ^ 53)); [now apply IZR_le|].
  change (IZR (2 ^ 53)) with (bpow radix2 53). apply bpow_le. lia.
Qed.
Lemma fofZ_exact z : (Z.abs z <= 2 ^ 53)%Z -> fin (fofZ z) /\ fv (fofZ z) = IZR z.
Proof. intros H. destruct (fofZ_ok z (big_IZR z H)) as [H1 H2]. split; [exact H1|]. now rewrite H2, rnd_IZR. Qed.

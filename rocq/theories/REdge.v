(** * The line integral of 1/r along an edge, over the reals *)
From Coq Require Import Reals Lra Psatz.
From Coquelicot Require Import Coquelicot.
From Verif Require Import Base MUtils MEdge RVec RArith.
Local Open Scope R_scope.

(** ** Paths and derivatives of norms and dot products *)
Lemma is_derive_eq (f : R -> R) (x l l' : R) : is_derive f x l' -> l = l' -> is_derive f x l.
Proof. now intros H ->. Qed.

(** Coquelicot's structure operations at R *)
Ltac rn := unfold scal, minus, plus, opp, zero, one, mult; cbn -[nm dt va vm vn sc cr pow ln sqrt].

(** a moving vector: value and velocity at a parameter *)
Definition vder (f : R -> V) (t : R) (d : V) : Prop :=
  is_derive (fun s => vx (f s)) t (vx d) /\ is_derive (fun s => vy (f s)) t (vy d) /\
  is_derive (fun s => vz (f s)) t (vz d).
Ltac split3 := split; [|split].
Lemma vder_eq f t d d' : vder f t d' -> d = d' -> vder f t d.
Proof. now intros H ->. Qed.
Lemma vder_const c t : vder (fun _ => c) t v0.
Proof. split3; apply @is_derive_const. Qed.
Lemma vder_add f g t d e : vder f t d -> vder g t e -> vder (fun s => (f s + g s)%v) t (d + e)%v.
Proof. intros [? [? ?]] [? [? ?]]. split3; cbn [va vx vy vz]; now apply @is_derive_plus. Qed.
Lemma vder_sub f g t d e : vder f t d -> vder g t e -> vder (fun s => (f s - g s)%v) t (d - e)%v.
Proof. intros [? [? ?]] [? [? ?]]. split3; cbn [vm vx vy vz]; now apply @is_derive_minus. Qed.
Lemma vder_sc (k : R -> R) f t k' d : is_derive k t k' -> vder f t d ->
  vder (fun s => (k s * f s)%v) t (k' * f t + k t * d)%v.
Proof.
  intros Hk [? [? ?]].
  split3; cbn [va sc vx vy vz];
    (eapply is_derive_eq; [apply @is_derive_mult; eauto; intros; apply Rmult_comm|reflexivity]).
Qed.
Lemma vder_line a d t : vder (fun s => (a + s * d)%v) t d.
Proof.
  split3; cbn [va sc vx vy vz]; auto_derive; auto; ring.
Qed.
Lemma dt_der f g t d e : vder f t d -> vder g t e ->
  is_derive (fun s => dt (f s) (g s)) t (dt d (g t) + dt (f t) e).
Proof.
  intros [H1 [H2 H3]] [K1 [K2 K3]]. unfold dt.
  eapply is_derive_eq.
  - apply @is_derive_plus; [apply @is_derive_plus|]; apply @is_derive_mult; eauto;
      intros; apply Rmult_comm.
  - unfold plus, mult; cbn. ring.
Qed.
Lemma nm_der f t d : vder f t d -> 0 < nm (f t) ->
  is_derive (fun s => nm (f s)) t (dt (f t) d / nm (f t)).
Proof.
  intros H Hp. unfold nm.
  assert (Hd : 0 < dt (f t) (f t)) by (rewrite <- nm_sq; nra).
  eapply is_derive_eq.
  - apply (is_derive_sqrt (fun s => dt (f s) (f s))); [apply dt_der; eauto|exact Hd].
  - fold (nm (f t)). rewrite (dt_comm d). field. lra.
Qed.
Lemma cr_der f g t d e : vder f t d -> vder g t e ->
  vder (fun s => cr (f s) (g s)) t (cr d (g t) + cr (f t) e)%v.
Proof.
  intros [H1 [H2 H3]] [K1 [K2 K3]].
  assert (Hm : forall p q p' q', is_derive p t p' -> is_derive q t q' ->
             is_derive (fun s => p s * q s) t (p' * q t + p t * q')).
  { intros. eapply is_derive_eq; [apply @is_derive_mult; eauto; intros; apply Rmult_comm|].
    unfold plus, mult; cbn. ring. }
  split3; cbn [cr va vx vy vz];
    (eapply is_derive_eq; [apply @is_derive_minus; apply Hm; eauto|unfold minus, plus, opp; cbn; ring]).
Qed.

(** ** The logarithm *)
Definition elf (s l : R) : R := ln ((s + l) / (s - l)).
(** [ell a b]: the integral of 1/|x| over the segment from a to b *)
Definition ell (a b : V) : R := elf (nm a + nm b) (nm (b - a)%v).
Definition Kab (a b : V) : R := / (nm a * nm b + dt a b).

Lemma ell_sym a b : ell a b = ell b a.
Proof. unfold ell. rewrite (Rplus_comm (nm a)), (nm_sym b a). reflexivity. Qed.
Lemma Kab_sym a b : Kab a b = Kab b a.
Proof. unfold Kab. rewrite (Rmult_comm (nm a)), (dt_comm a b). reflexivity. Qed.

Lemma sig_lam a b :
  (nm a + nm b) * (nm a + nm b) - nm (b - a)%v * nm (b - a)%v = 2 * (nm a * nm b + dt a b).
Proof. rewrite nm_sq. dts. rewrite <- !nm_sq, (dt_comm b a). ring. Qed.
Lemma off_lt a b : off a b -> nm (b - a)%v < nm a + nm b.
Proof.
  unfold off. intros H. pose proof (sig_lam a b). pose proof (nm_nonneg (b - a)%v).
  pose proof (nm_nonneg a). pose proof (nm_nonneg b). nra.
Qed.

Lemma elf_der (s l : R -> R) t s' l' :
  is_derive s t s' -> is_derive l t l' -> 0 <= l t -> l t < s t ->
  is_derive (fun x => elf (s x) (l x)) t ((2 * s t * l' - 2 * l t * s') / (s t * s t - l t * l t)).
Proof.
  intros Hs Hl H0 H. unfold elf.
  assert (Hp : 0 < (s t + l t) / (s t - l t)).
  { apply Rmult_lt_0_compat; [lra|apply Rinv_0_lt_compat; lra]. }
  eapply is_derive_eq.
  - apply (is_derive_comp ln (fun x => (s x + l x) / (s x - l x))).
    + apply is_derive_ln. exact Hp.
    + apply is_derive_div; [apply @is_derive_plus; eauto|apply @is_derive_minus; eauto|lra].
  - unfold scal, minus, plus, opp; cbn. unfold mult; cbn. field. repeat split; try lra.
    replace (s t * s t - l t * l t) with ((s t + l t) * (s t - l t)) by ring.
    apply Rmult_integral_contrapositive_currified; lra.
Qed.

(** variation of [ell] when both end points move *)
Lemma ell_der (a b : R -> V) t a' b' :
  vder a t a' -> vder b t b' -> off (a t) (b t) -> a t <> b t ->
  is_derive (fun x => ell (a x) (b x)) t
    (Kab (a t) (b t) *
     ((nm (a t) + nm (b t)) * (dt (b t - a t)%v (b' - a')%v / nm (b t - a t)%v)
      - nm (b t - a t)%v * (dt (a t) a' / nm (a t) + dt (b t) b' / nm (b t)))).
Proof.
  intros Ha Hb Ho Hne. destruct (off_nz _ _ Ho) as [Hra Hrb].
  assert (Hl : 0 < nm (b t - a t)%v).
  { apply nm_pos. intros E. apply Hne. apply veq;
      [apply (f_equal vx) in E|apply (f_equal vy) in E|apply (f_equal vz) in E]; cbn in E; lra. }
  eapply is_derive_eq.
  - unfold ell. apply elf_der.
    + apply @is_derive_plus; apply nm_der; eauto.
    + apply (nm_der (fun x => (b x - a x)%v)); [apply vder_sub; eauto|exact Hl].
    + lra.
    + now apply off_lt.
  - rn. rewrite sig_lam. unfold Kab. unfold off in Ho. field. repeat split; lra.
Qed.

(** ** The integral *)
Lemma nm_line_pos a u s : (a + s * u)%v <> v0 -> 0 < nm (a + s * u)%v.
Proof. apply nm_pos. Qed.

Lemma off_sub a b s : 0 <= s <= 1 -> off a b -> off a (a + s * (b - a))%v.
Proof.
  intros Hs H. apply off_segment. intros x Hx. rewrite off_segment in H.
  replace (a + x * ((a + s * (b - a)) - a))%v with (a + (x * s) * (b - a))%v by vring.
  apply H. nra.
Qed.

Lemma ell_integral a u l :
  nm u = 1 -> 0 < l -> off a (a + l * u)%v ->
  is_RInt (fun s => / nm (a + s * u)%v) 0 l (ell a (a + l * u)%v).
Proof.
  intros Hu Hl Ho.
  assert (Hos : forall s, 0 <= s <= l -> off a (a + s * u)%v).
  { intros s Hs. replace (a + s * u)%v with (a + (s / l) * ((a + l * u) - a))%v.
    - apply off_sub; auto. split; [apply Rmult_le_pos; [lra|left; apply Rinv_0_lt_compat; lra]|].
      apply (Rmult_le_reg_r l); [lra|]. field_simplify; lra.
    - vdes; vunf; cbn [vx vy vz]; apply veq; cbn [vx vy vz]; field; lra. }
  replace (ell a (a + l * u)%v) with
    (minus ((fun s => elf (nm a + nm (a + s * u)%v) s) l) ((fun s => elf (nm a + nm (a + s * u)%v) s) 0)).
  - apply (is_RInt_derive (fun s => elf (nm a + nm (a + s * u)%v) s)).
    + intros s. rewrite Rmin_left, Rmax_right by lra. intros Hs.
      specialize (Hos s Hs). destruct (off_nz _ _ Hos) as [Hra Hrs].
      assert (Hls : s < nm a + nm (a + s * u)%v).
      { pose proof (off_lt _ _ Hos) as H.
        replace ((a + s * u) - a)%v with (s * u)%v in H by vring.
        rewrite nm_sc, Hu, Rabs_pos_eq in H by lra. lra. }
      eapply is_derive_eq.
      * apply (elf_der (fun s => nm a + nm (a + s * u)%v) (fun s => s)).
        -- apply @is_derive_plus; [apply @is_derive_const|apply (nm_der (fun s => (a + s * u)%v)); [apply vder_line|exact Hrs]].
        -- apply @is_derive_id.
        -- lra.
        -- exact Hls.
      * rn.
        assert (E : (nm a + nm (a + s * u)%v) * (nm a + nm (a + s * u)%v) - s * s =
                    2 * (nm a * nm (a + s * u)%v + dt a (a + s * u)%v)).
        { rewrite <- sig_lam. replace ((a + s * u) - a)%v with (s * u)%v by vring.
          rewrite (nm_sq (s * u)%v). dts. rewrite <- (nm_sq u), Hu. ring. }
        rewrite E. unfold off in Hos.
        assert (Eu : dt u u = 1) by (rewrite <- nm_sq, Hu; ring).
        assert (Er : nm (a + s * u)%v * nm (a + s * u)%v = nm a * nm a + 2 * s * dt a u + s * s).
        { rewrite nm_sq, nm_sq. dts. rewrite Eu, (dt_comm u a). ring. }
        set (r := nm (a + s * u)%v) in *.
        replace (dt (a + s * u)%v u) with (dt a u + s) by (dts; rewrite Eu; ring).
        replace (dt a (a + s * u)%v) with (nm a * nm a + s * dt a u) in * by (rewrite nm_sq; dts; ring).
        apply (Rmult_eq_reg_r (r * (2 * (nm a * r + (nm a * nm a + s * dt a u))))); [|nra].
        field_simplify; [|lra|lra]. nra.
    + intros s. rewrite Rmin_left, Rmax_right by lra. intros Hs.
      specialize (Hos s Hs). destruct (off_nz _ _ Hos) as [_ Hrs].
      apply continuous_comp with (g := Rinv).
      * apply (ex_derive_continuous (fun s => nm (a + s * u)%v)). eexists.
        apply (nm_der (fun s => (a + s * u)%v)); [apply vder_line|exact Hrs].
      * apply continuous_Rinv. lra.
  - rn. unfold ell.
    replace ((a + l * u) - a)%v with (l * u)%v by vring. rewrite nm_sc, Hu, (Rabs_pos_eq l), Rmult_1_r by lra.
    replace (a + 0 * u)%v with a by vring. unfold elf at 2.
    destruct (off_nz _ _ Ho). replace ((nm a + nm a + 0) / (nm a + nm a - 0)) with 1 by (field; lra).
    rewrite ln_1. ring.
Qed.

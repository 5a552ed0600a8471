(** * Not-a-number in double precision *)
From Coq Require Import List ZArith Bool Arith Lia Floats.SpecFloat.
Import ListNotations.
From Verif Require Import Base MUtils MEdge MFace MHull MPoly SpecPoly PPoly PStation PPlain FArith PCall.

Section Nan.
  Variables lg ac : F -> F.
  Variable DP : vec3 F -> vec3 F -> F.
  Notation A := (FA lg ac DP).
  Notation nan := S754_nan.
  Definition nanv : vec A := V3 (nan : num A) nan nan.
  Definition nanm : mat A := V3 nanv nanv nanv.
  (** some coordinate is nan *)
  Definition has_nan (v : vec A) : Prop := vx v = nan \/ vy v = nan \/ vz v = nan.

  Ltac nans := repeat first
    [ rewrite nan_add_l | rewrite nan_add_r | rewrite nan_sub_l | rewrite nan_sub_r
    | rewrite nan_mul_l | rewrite nan_mul_r | rewrite nan_div_l | rewrite nan_div_r ].

  Lemma has_nan_sub v w : has_nan w -> has_nan (vsub v w).
  Proof. unfold has_nan, vsub, vmap2; cbn. intros [->|[->| ->]]; nans; auto. Qed.
  Hypothesis dp_nan : nan_dot DP.
  Lemma dot_nan_r v w : has_nan w -> dot v w = nan.
  Proof. intros H. apply dp_nan. unfold has_nan in H. tauto. Qed.
  Lemma dot_nan_l v w : has_nan v -> dot v w = nan.
  Proof. intros H. apply dp_nan. unfold has_nan in H. tauto. Qed.
  Lemma norm_nan v : has_nan v -> norm v = nan.
  Proof. intros H. unfold norm. now rewrite (dot_nan_r v v H). Qed.
  Lemma vscale_nan (v : vec A) : vscale (nan : num A) v = nanv.
  Proof. reflexivity. Qed.
  Lemma vadd_nan_l v : vadd nanv v = nanv.
  Proof. unfold vadd, vmap2; cbn. now nans. Qed.
  Lemma vadd_nan_r v : vadd v nanv = nanv.
  Proof. unfold vadd, vmap2; cbn. now nans. Qed.
  Lemma vmuls_nan k : vmuls nanv k = nanv.
  Proof. unfold vmuls, vmap; cbn. now nans. Qed.
  Lemma vopp_nan : vopp nanv = nanv. Proof. reflexivity. Qed.
  Lemma vscale_nanv k : vscale k nanv = nanv.
  Proof. unfold vscale, vmap; cbn. now nans. Qed.
  Lemma madd_nan_l m : madd nanm m = nanm.
  Proof. unfold madd, vmap2; cbn. now rewrite !vadd_nan_l. Qed.
  Lemma madd_nan_r m : madd m nanm = nanm.
  Proof. unfold madd, vmap2; cbn. now rewrite !vadd_nan_r. Qed.
  Lemma face_g_nan_dp1 un d G om pqr : face_g un d G (nan : num A) om pqr = nanv.
  Proof. unfold face_g. cbn. nans. reflexivity. Qed.
  Lemma face_g_nan_pqr un d G dp1 om : face_g un d G dp1 om nanv = nanv.
  Proof.
    unfold face_g, face_bracket. destruct un as [L M N]. cbn. unfold vscale, vmap; cbn. now nans.
  Qed.
  Lemma face_tensor_nan un d G om dom pqr dpqr : face_tensor un d G (nan : num A) om dom pqr dpqr = nanm.
  Proof.
    unfold face_tensor. destruct un as [L M N], dpqr as [[a1 a2 a3] [b1 b2 b3] [c1 c2 c3]], dom as [x y z], pqr as [p q r].
    cbn. now nans.
  Qed.

  Hypothesis lg_nan : lg nan = nan.

  Definition nan_value (g : bool) (v : ev A) : Prop := fst v = nanv /\ shape g v.
  Lemma edge_nan (e : edge A) o g : has_nan o -> exists v, edge_integral e o g = Ok v /\ nan_value g v.
  Proof.
    intros Ho. unfold edge_integral. cbv zeta.
    set (R1 := vsub (e_start e) o). set (R2 := vsub (e_end e) o).
    assert (H1 : has_nan R1) by now apply has_nan_sub.
    rewrite (norm_nan R1 H1). cbn [nltb FA]. rewrite nan_ltb_r. cbn [andb].
    rewrite (dot_nan_l R1 (e_vector e) H1).
    cbn [nmul ndiv nadd nopp nabs FA nofZ neps num]. nans. cbn [SFabs]. rewrite nan_ltb_l.
    nans. unfold line_integral_along_edge. cbn [neps nabs FA nltb neqb SFabs]. rewrite nan_ltb_r, nan_eqb_l.
    cbn [bind nsub ndiv nlog FA nabs]. nans. cbn [SFabs]. nans. rewrite lg_nan, vscale_nan.
    destruct g; cbn [bind].
    - unfold line_integral_grad. cbn [neps nabs FA nltb neqb nsub SFabs]. rewrite nan_ltb_r. nans. cbn [SFabs].
      rewrite nan_eqb_l. cbn [bind]. eexists. split; [reflexivity|]. split; [apply vmuls_nan|reflexivity].
    - eexists. split; [reflexivity|]. split; [apply vmuls_nan|reflexivity].
  Qed.
  Definition nan_cache (g : bool) (c : known A) : Prop := forall k v, c k = Some v -> nan_value g v.
  Lemma nan_neg g v : nan_value g v -> nan_value g (ev_neg v).
  Proof. intros [H1 H2]. split; [unfold ev_neg; cbn [fst]; rewrite H1; apply vopp_nan|now apply shape_neg]. Qed.
  Lemma nan_add g a v : nan_value g a -> nan_value g v -> nan_value g (ev_add a v).
  Proof. intros [H1 H2] [H3 H4]. split; [unfold ev_add; cbn [fst]; rewrite H1; apply vadd_nan_l|now apply shape_add]. Qed.
  Lemma sum_nan tw o g kes : has_nan o -> (forall ke, In ke kes -> tw (fst ke) <> None) ->
    forall (c : known A) acc, nan_cache g c -> (forall v, acc = Some v -> nan_value g v) -> (acc <> None \/ kes <> []) ->
    exists v c', sum_edges tw o g c acc kes = Ok (Some v, c') /\ nan_value g v /\ nan_cache g c'.
  Proof.
    intros Ho. induction kes as [|[k e] kes IH]; intros Ht c acc Hc Ha Hn; cbn [sum_edges].
    - destruct acc as [a|]; [|destruct Hn; congruence]. exists a, c. auto.
    - assert (K : exists c1 v, learn tw o g c k e = Ok c1 /\ c1 k = Some v /\ nan_cache g c1).
      { unfold learn. destruct (c k) as [v|] eqn:Ek; [exists c, v; auto|].
        destruct (edge_nan e o g Ho) as (v & -> & Hv). cbn [bind].
        destruct (tw k) as [k'|] eqn:Et; [|exfalso; exact (Ht (k, e) (or_introl eq_refl) Et)].
        assert (Kk : ekey_eqb k k = true) by now apply ekey_eqb_true.
        eexists. destruct (ekey_eqb k' k) eqn:E; (eexists; split; [reflexivity|]; split; [unfold upd; rewrite E; rewrite ?Kk; reflexivity|]);
          intros k1 w; unfold upd; destruct (ekey_eqb k' k1); try (intros [= <-]; now apply nan_neg);
          destruct (ekey_eqb k k1); try (intros [= <-]; exact Hv); apply Hc. }
      destruct K as (c1 & v & -> & Ev & H1). cbn [bind]. rewrite Ev. apply IH; auto.
      + intros ke Hi. apply Ht. now right.
      + intros w [= <-]. destruct acc as [a|]; [apply nan_add; auto; eapply H1; eauto|eapply H1; eauto].
      + left. discriminate.
  Qed.
  Lemma face_nan (p : polyhedron A) o d G g c fi f : has_nan o -> paired p -> nth_error (pl_faces p) fi = Some f -> f_edges f <> [] ->
    nan_cache g c ->
    exists c', spec_face (pl_twin p) o d G g c fi f = Ok (nanv, if g then nanm else mzero, c') /\ nan_cache g c'.
  Proof.
    intros Ho Hp Hf Hne Hc. unfold spec_face.
    assert (D : dot_point1 f o = nan) by (apply dot_nan_r, has_nan_sub, Ho).
    rewrite D. unfold get_omega. cbn [neps nabs FA nltb SFabs]. rewrite nan_ltb_r. cbn [bind fst snd].
    destruct (sum_nan (pl_twin p) o g (keyed_edges_of fi f) Ho) with (c := c) (acc := @None (ev A)) as (v & c' & E & Hv & Hc'); auto.
    - intros ke Hi. destruct (in_keyed p fi f ke Hf Hi) as (j & e & Hj & ->). eapply Hp; eauto.
    - intros v H. discriminate.
    - right. unfold keyed_edges_of. destruct (f_edges f); [congruence|discriminate].
    - rewrite E. cbn [bind fst snd]. destruct v as [pqr dpqr]. destruct Hv as [Hv Hs]. cbn [fst] in Hv. subst pqr.
      rewrite face_g_nan_dp1. exists c'. split; [|exact Hc']. destruct g; [|reflexivity].
      destruct dpqr as [m|]; [|discriminate Hs]. now rewrite face_tensor_nan.
  Qed.
  Lemma call_nan (p : polyhedron A) o d G g : has_nan o -> paired p -> edged p -> pl_faces p <> [] ->
    exists T, spec_gravity p o d G g = Ok (nanv, T) /\ (g = true -> T = nanm).
  Proof.
    intros Ho Hp He Hne. unfold spec_gravity.
    assert (K : forall fs n c GT, nan_cache g c -> (forall j, nth_error fs j = nth_error (pl_faces p) (n + j)) ->
      (fs <> [] \/ (fst GT = nanv /\ (g = true -> snd GT = nanm))) ->
      exists T, spec_faces (pl_twin p) o d G g c GT (combine (seq n (length fs)) fs) = Ok (nanv, T) /\ (g = true -> T = nanm)).
    { induction fs as [|f fs IH]; intros n c GT Hc Hn H; cbn [length seq combine spec_faces].
      - destruct H as [H|[H1 H2]]; [congruence|]. destruct GT as [G0 T0]. cbn [fst snd] in *. subst G0. eauto.
      - assert (Hf : nth_error (pl_faces p) n = Some f) by (specialize (Hn 0%nat); rewrite Nat.add_0_r in Hn; auto).
        destruct (face_nan p o d G g c n f Ho Hp Hf (He f (nth_error_In _ _ Hf)) Hc) as (c' & -> & Hc'). cbn [bind].
        apply IH; auto.
        + intros j. specialize (Hn (S j)). simpl in Hn. rewrite Hn. f_equal. lia.
        + right. cbn [fst snd]. rewrite vadd_nan_r. split; [auto|]. intros ->. apply madd_nan_r. }
    apply K; auto. intros k v H. discriminate.
  Qed.

  (** an edge whose logarithm is nan spoils everything, if it is computed first *)
  Lemma sum_stays_nan tw o kes : forall (c : known A) a r c', fst a = nanv ->
    sum_edges tw o false c (Some a) kes = Ok (r, c') -> exists v, r = Some v /\ fst v = nanv.
  Proof.
    induction kes as [|[k e] kes IH]; intros c a r c' Ha; cbn [sum_edges].
    - intros [= <- <-]. eauto.
    - destruct (learn tw o false c k e) as [c1|]; cbn [bind]; [|discriminate].
      destruct (c1 k) as [v|]; [|discriminate]. apply IH. unfold ev_add; cbn [fst]. rewrite Ha. apply vadd_nan_l.
  Qed.
  Lemma spec_stays_nan tw o d G fs : forall (c : known A) GT r, fst GT = nanv ->
    spec_faces tw o d G false c GT fs = Ok r -> fst r = nanv.
  Proof.
    induction fs as [|[i f] fs IH]; intros c GT r H; cbn [spec_faces]; [now intros [= <-]|].
    destruct (spec_face tw o d G false c i f) as [[[g t] c']|]; cbn [bind]; [|discriminate].
    apply IH. cbn [fst]. rewrite H. apply vadd_nan_l.
  Qed.
  Lemma first_edge_nan (p : polyhedron A) o d G f fs e es t L ch r :
    pl_faces p = f :: fs -> f_edges f = e :: es -> edge_log e o = Ok (t, L, ch) -> lg t = nan ->
    pl_twin p (0, 0)%nat <> Some (0, 0)%nat ->
    spec_gravity p o d G false = Ok r -> fst r = nanv.
  Proof.
    intros Hf He Hl Ht Htw. unfold spec_gravity. rewrite Hf. cbn [length seq combine spec_faces].
    destruct (spec_face (pl_twin p) o d G false (fun _ => None) 0 f) as [[[g t'] c']|] eqn:E; cbn [bind]; [|discriminate].
    apply spec_stays_nan. cbn [fst]. revert E. unfold spec_face.
    destruct (get_omega f o _ _ false) as [od|]; cbn [bind]; [|discriminate].
    unfold keyed_edges_of. rewrite He. cbn [length seq map combine sum_edges]. unfold learn at 1.
    rewrite edge_log_ok, Hl. cbn [bind]. destruct (pl_twin p (0, 0)%nat) as [k'|] eqn:Et; [|discriminate].
    cbn [bind]. unfold upd at 1. destruct (ekey_eqb k' (0, 0)%nat) eqn:Ek.
    { apply ekey_eqb_true in Ek. exfalso. apply Htw. now rewrite Ek in *. }
    unfold upd at 1. cbn [ekey_eqb fst snd Nat.eqb andb]. cbn [nlog FA]. rewrite Ht, vscale_nan, vmuls_nan.
    match goal with |- bind ?m _ = _ -> _ => destruct m as [[r' c1]|] eqn:Es end; cbn [bind fst snd]; [|discriminate].
    destruct (sum_stays_nan _ _ _ _ (nanv, None) _ _ eq_refl Es) as ([pqr dpqr] & -> & Hp). cbn [fst] in Hp. subst pqr.
    rewrite face_g_nan_pqr. intros [= <- _ _]. apply vadd_nan_r.
  Qed.
End Nan.

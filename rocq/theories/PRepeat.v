(** * Repeated calls of Face.get_gravity without reset (geec/polyhedron.py:195-235,
      329-341, 679-784): the exact state of the caches after every call *)
From Coq Require Import List ZArith Bool Arith Lia.
From Verif Require Import Base MUtils MEdge MFace MHull MPoly PPoly.
Import ListNotations.

Section Repeat.
  Context {A : arith}.
  Variable tw : twinmap.
  Variable fi : nat.

  (** one edge whose integral is not cached *)
  Lemma step_fresh : forall (s : pstate A) o j e I k,
    e_pqr s (fi, j) = None -> edge_integral e o false = Ok (I, None) ->
    tw (fi, j) = Some k -> fst k <> fi -> f_dpqr s fi = None ->
    exists s', face_edge_step tw o false fi ((fi, j), e) s = (Ok tt, s') /\
      e_pqr s' (fi, j) = Some (length (hv s)) /\ e_dpqr s' (fi, j) = None /\
      (forall j', j' <> j -> e_pqr s' (fi, j') = e_pqr s (fi, j') /\ e_dpqr s' (fi, j') = e_dpqr s (fi, j')) /\
      f_dpqr s' fi = None /\
      f_dp1 s' = f_dp1 s /\ f_sign s' = f_sign s /\ f_omega s' = f_omega s /\ f_domega s' = f_domega s /\
      match f_pqr s fi with
      | None => f_pqr s' fi = Some (length (hv s)) /\ hv s' = hv s ++ [I; vopp I]
      | Some l => f_pqr s' fi = Some l /\
          hv s' = set_nth l (vadd (nth l (hv s ++ [I; vopp I]) vzero) I) (hv s ++ [I; vopp I])
      end.
  Proof.
    intros s o j e I [a b] Ep Ei Et Hk Hd. cbn [fst] in Hk.
    assert (Na : Nat.eqb a fi = false) by (apply Nat.eqb_neq; auto).
    assert (Hn : forall t : list (vec A), nth (length t) (t ++ [I; vopp I]) vzero = I).
    { intros t. rewrite app_nth2, Nat.sub_diag by lia. reflexivity. }
    assert (Hn1 : forall t : list (vec A), nth (length t) (t ++ [I]) vzero = I).
    { intros t. rewrite app_nth2, Nat.sub_diag by lia. reflexivity. }
    assert (Eq : forall x : list (vec A), (x ++ [I]) ++ [vopp I] = x ++ [I; vopp I]).
    { intros x. rewrite <- app_assoc. reflexivity. }
    unfold face_edge_step, edge_ccw, mbind, mget. rewrite Ep. unfold mlift, mbind. rewrite Ei. unfold alloc_v, mbind, mget, set_hv, mret, set_e_pqr, set_e_dpqr, set_twin_pqr. rewrite Et.
    unfold mbind, mget. cbn [e_pqr e_dpqr hv hm f_pqr f_dpqr f_dp1 f_sign f_omega f_domega].
    unfold upd at 1. unfold ekey_eqb at 1. cbn [fst snd]. rewrite !Nat.eqb_refl. cbn [andb].
    unfold alloc_v, mbind, mget, set_hv, mret, set_e_pqr, read_v. cbn [e_pqr e_dpqr hv hm f_pqr f_dpqr f_dp1 f_sign f_omega f_domega].
    unfold upd at 1. unfold ekey_eqb at 1. cbn [fst snd]. rewrite !Nat.eqb_refl. cbn [andb].
    unfold add_pqr, mbind, mget. cbn [e_pqr e_dpqr hv hm f_pqr f_dpqr f_dp1 f_sign f_omega f_domega].
    rewrite Hn1, Eq.
    assert (K : forall m k0 v, upd ekey_eqb (upd ekey_eqb m (fi, j) (Some (length (hv s)))) (a, b) v (fi, j) = Some (length (hv s)) /\
       (forall j', j' <> j -> upd ekey_eqb (upd ekey_eqb m (fi, j) (Some k0)) (a, b) v (fi, j') = m (fi, j'))).
    { intros m k0 v. unfold upd, ekey_eqb. cbn [fst snd]. rewrite Na, !Nat.eqb_refl. cbn [andb]. split; [reflexivity|].
      intros j' Hj. destruct (Nat.eqb_spec j j'); [subst; contradiction|reflexivity]. }
    assert (K2 : forall m : ekey -> option nat, upd ekey_eqb m (fi, j) None (fi, j) = None /\
       (forall j', j' <> j -> upd ekey_eqb m (fi, j) None (fi, j') = m (fi, j'))).
    { intros m. unfold upd, ekey_eqb. cbn [fst snd]. rewrite !Nat.eqb_refl. cbn [andb]. split; [reflexivity|].
      intros j' Hj. destruct (Nat.eqb_spec j j'); [subst; contradiction|reflexivity]. }
    rewrite (proj1 (K (e_pqr s) 0 _)).
    destruct (f_pqr s fi) as [l|] eqn:Ef.
    - unfold write_v, mbind, mget, set_hv, read_v, add_dpqr, mbind, mget, set_f_dpqr. cbn [e_pqr e_dpqr hv hm f_pqr f_dpqr f_dp1 f_sign f_omega f_domega].
      rewrite Hd, (proj1 (K2 (e_dpqr s))), Hn. cbv iota beta.
      eexists. split; [reflexivity|]. cbn [e_pqr e_dpqr hv hm f_pqr f_dpqr f_dp1 f_sign f_omega f_domega].
      split; [apply (K _ 0)|]. split; [apply K2|]. split; [intros j' Hj; split; [apply K; exact Hj|apply K2; exact Hj]|].
      split; [unfold fupd, upd; rewrite Nat.eqb_refl; reflexivity|]. repeat (split; [reflexivity|]). split; [exact Ef|reflexivity].
    - unfold set_f_pqr, add_dpqr, mbind, mget, set_f_dpqr. cbn [e_pqr e_dpqr hv hm f_pqr f_dpqr f_dp1 f_sign f_omega f_domega].
      rewrite Hd, (proj1 (K2 (e_dpqr s))). cbv iota beta.
      eexists. split; [reflexivity|]. cbn [e_pqr e_dpqr hv hm f_pqr f_dpqr f_dp1 f_sign f_omega f_domega].
      split; [apply (K _ 0)|]. split; [apply K2|]. split; [intros j' Hj; split; [apply K; exact Hj|apply K2; exact Hj]|].
      split; [unfold fupd, upd; rewrite Nat.eqb_refl; reflexivity|]. repeat (split; [reflexivity|]).
      split; [unfold fupd, upd; rewrite Nat.eqb_refl; reflexivity|reflexivity].
  Qed.

  (** one edge whose integral is cached: the observer is not looked at *)
  Lemma step_cached : forall (s : pstate A) o j e l l',
    e_pqr s (fi, j) = Some l' -> e_dpqr s (fi, j) = None ->
    f_pqr s fi = Some l -> f_dpqr s fi = None ->
    exists s', face_edge_step tw o false fi ((fi, j), e) s = (Ok tt, s') /\
      e_pqr s' = e_pqr s /\ e_dpqr s' = e_dpqr s /\ f_pqr s' = f_pqr s /\ f_dpqr s' fi = None /\
      f_dp1 s' = f_dp1 s /\ f_sign s' = f_sign s /\ f_omega s' = f_omega s /\ f_domega s' = f_domega s /\
      hv s' = set_nth l (vadd (nth l (hv s) vzero) (nth l' (hv s) vzero)) (hv s).
  Proof.
    intros s o j e l l' Ep Ed Ef Efd.
    unfold face_edge_step, edge_ccw, mbind, mget. rewrite Ep. unfold mret, add_pqr, mbind, mget. rewrite Ef, Ep.
    unfold write_v, mbind, mget, set_hv, read_v, add_dpqr, mbind, mget. cbn [e_pqr e_dpqr hv hm f_pqr f_dpqr f_dp1 f_sign f_omega f_domega].
    rewrite Efd, Ed. unfold set_f_dpqr. eexists. split; [reflexivity|].
    cbn [e_pqr e_dpqr hv hm f_pqr f_dpqr f_dp1 f_sign f_omega f_domega].
    repeat (split; [reflexivity|]). split; [unfold fupd, upd; rewrite Nat.eqb_refl; reflexivity|]. repeat (split; [reflexivity|]). reflexivity.
  Qed.

  (** the face has summed [j] edges with integrals [Is]; its total is now [P], kept
      in the array of edge 0 *)
  Definition filled (s : pstate A) (j : nat) (Is : list (vec A)) (P : vec A) : Prop :=
    (forall i, i < j -> e_pqr s (fi, i) = Some (2 * i) /\ e_dpqr s (fi, i) = None) /\
    (forall i, 1 <= i < j -> nth (2 * i) (hv s) vzero = nth i Is vzero) /\
    nth 0 (hv s) vzero = P /\ length (hv s) = 2 * j /\ f_pqr s fi = Some 0 /\ f_dpqr s fi = None.
  Definition same_omega (s s' : pstate A) : Prop :=
    f_dp1 s' = f_dp1 s /\ f_sign s' = f_sign s /\ f_omega s' = f_omega s /\ f_domega s' = f_domega s.

  Lemma first_loop : forall o Is es (Js : list (vec A)) j s P,
    1 <= j -> filled s j Is P -> (forall i, j <= i -> e_pqr s (fi, i) = None) ->
    Forall2 (fun e I => edge_integral e o false = Ok (I, None)) es Js ->
    (forall i, i < length Js -> nth i Js vzero = nth (j + i) Is vzero) ->
    (forall i, exists k, i < j + length es -> tw (fi, i) = Some k /\ fst k <> fi) ->
    exists s', miter (face_edge_step tw o false fi) (combine (map (fun i => (fi, i)) (seq j (length es))) es) s = (Ok tt, s') /\
      filled s' (j + length es) Is (fold_left vadd Js P) /\ same_omega s s'.
  Proof.
    intros o Is es. induction es as [|e es IH]; intros Js j s P Hj HF Hnew HI HJ Ht.
    - inversion HI; subst. cbn [length seq map combine miter fold_left]. exists s. rewrite Nat.add_0_r. split; [reflexivity|]. split; [exact HF|]. repeat split; reflexivity.
    - inversion HI as [|? I0 ? Js' Ee HI']; subst. cbn [length seq map combine miter fold_left].
      destruct (Ht j) as [k Hk]. destruct Hk as [Hk1 Hk2]; [cbn [length]; lia|].
      destruct HF as (F1 & F2 & F3 & F4 & F5 & F6).
      destruct (step_fresh s o j e I0 k (Hnew j ltac:(lia)) Ee Hk1 Hk2 F6) as (s1 & E1 & G1 & G2 & G3 & G4 & G5 & G6 & G7 & G8 & G9).
      rewrite F5 in G9. destruct G9 as [G9 G10].
      destruct (IH Js' (S j) s1 (vadd P I0)) as (s' & E' & HF' & HS').
      + lia.
      + repeat split.
        * destruct (Nat.eq_dec i j) as [->|Hne]; [rewrite G1, F4; reflexivity|]. rewrite (proj1 (G3 i Hne)). apply F1. lia.
        * destruct (Nat.eq_dec i j) as [->|Hne]; [exact G2|]. rewrite (proj2 (G3 i Hne)). apply F1. lia.
        * intros i Hi. rewrite G10, nth_set_nth_other by lia. destruct (Nat.eq_dec i j) as [->|Hne].
          { rewrite <- F4, app_nth2, Nat.sub_diag by lia. specialize (HJ 0 ltac:(cbn; lia)). rewrite Nat.add_0_r in HJ. exact HJ. }
          { rewrite app_nth1 by lia. apply F2. lia. }
        * rewrite G10, nth_set_nth_same by (rewrite app_length; cbn; lia). rewrite app_nth1 by lia. rewrite F3. reflexivity.
        * rewrite G10, set_nth_length, app_length. cbn. lia.
        * exact G9.
        * exact G4.
      + intros i Hi. rewrite (proj1 (G3 i ltac:(lia))). apply Hnew. lia.
      + exact HI'.
      + intros i Hi. specialize (HJ (S i) ltac:(cbn; lia)). cbn [nth] in HJ. rewrite HJ. f_equal. lia.
      + intros i. destruct (Ht i) as [k' Hk']. exists k'. intros. apply Hk'. cbn [length]. lia.
      + exists s'. unfold mbind at 1. rewrite E1, E'. split; [reflexivity|]. split; [replace (j + S (length es)) with (S j + length es) by lia; exact HF'|].
        destruct HS' as (S1 & S2 & S3 & S4). repeat split; congruence.
  Qed.

  Lemma again_loop : forall o n Is es j s P,
    1 <= j -> j + length es = n -> length Is = n -> filled s n Is P ->
    exists s', miter (face_edge_step tw o false fi) (combine (map (fun i => (fi, i)) (seq j (length es))) es) s = (Ok tt, s') /\
      filled s' n Is (fold_left vadd (skipn j Is) P) /\ same_omega s s'.
  Proof.
    intros o n Is es. induction es as [|e es IH]; intros j s P Hj Hn HIs HF.
    - cbn [length seq map combine miter] in *. exists s. rewrite skipn_all2 by lia. split; [reflexivity|]. split; [exact HF|]. repeat split; reflexivity.
    - cbn [length seq map combine miter] in *. destruct HF as (F1 & F2 & F3 & F4 & F5 & F6).
      destruct (F1 j ltac:(lia)) as [Hp Hd].
      destruct (step_cached s o j e 0 (2 * j) Hp Hd F5 F6) as (s1 & E1 & G1 & G2 & G3 & G4 & G5 & G6 & G7 & G8 & G9).
      destruct (IH (S j) s1 (vadd P (nth j Is vzero))) as (s' & E' & HF' & HS').
      + lia.
      + lia.
      + exact HIs.
      + repeat split.
        * rewrite G1. apply F1. assumption.
        * rewrite G2. apply F1. assumption.
        * intros i Hi. rewrite G9, nth_set_nth_other by lia. apply F2. exact Hi.
        * rewrite G9, nth_set_nth_same by lia. rewrite F3. f_equal. apply F2. lia.
        * rewrite G9, set_nth_length. exact F4.
        * rewrite G3. exact F5.
        * exact G4.
      + exists s'. unfold mbind at 1. rewrite E1, E'. split; [reflexivity|]. split.
        * assert (Hs : skipn j Is = nth j Is vzero :: skipn (S j) Is).
          { clear -Hn HIs. assert (j < length Is) by lia. clear Hn HIs. revert j H. induction Is as [|x l IHl]; intros [|j] H; cbn [length] in *; try lia; [reflexivity|].
            cbn [skipn nth]. rewrite (IHl j) by lia. destruct l; reflexivity. }
          rewrite Hs. exact HF'.
        * destruct HS' as (S1 & S2 & S3 & S4). repeat split; congruence.
  Qed.

  (** what precedes the line integrals in Face.get_gravity leaves the edges alone *)
  Lemma face_call : forall (s : pstate A) o d G f om n Is P,
    get_omega f o (dot_point1 f o) (nsign (dot_point1 f o)) false = Ok om ->
    (forall s1, hv s1 = hv s -> e_pqr s1 = e_pqr s -> e_dpqr s1 = e_dpqr s -> f_pqr s1 = f_pqr s -> f_dpqr s1 = f_dpqr s ->
       exists s2, face_ccw tw o false fi f s1 = (Ok tt, s2) /\ same_omega s1 s2 /\ filled s2 n Is P) ->
    fst (face_get_gravity tw o d G false fi f s) = Ok (face_g (f_un f) d G (dot_point1 f o) (fst om) P, mzero) /\
    filled (snd (face_get_gravity tw o d G false fi f s)) n Is P.
  Proof.
    intros s o d G f om n Is P Ho Hc. unfold face_get_gravity, set_f_dp1, mbind, mget. cbn [f_dp1].
    rewrite fupd_same. unfold set_f_sign. cbn [f_dp1 f_sign]. rewrite !fupd_same. unfold mbind, set_f_omega, mlift. rewrite Ho. cbn [f_omega f_domega].
    match goal with |- context [face_ccw tw o false fi f ?s1] => destruct (Hc s1) as (s2 & E & (S1 & S2 & S3 & S4) & HF); try reflexivity; rewrite E end.
    destruct HF as (F1 & F2 & F3 & F4 & F5 & F6).
    rewrite S1, S3, S4, F5. cbn [f_dp1 f_omega f_domega]. rewrite !fupd_same. unfold read_v. rewrite F3. unfold set_f_g, mbind, mret. cbn [fst snd].
    split; [reflexivity|]. exact (conj F1 (conj F2 (conj F3 (conj F4 (conj F5 F6))))).
  Qed.

  (** the first call on a new object *)
  Lemma first_call : forall o d G (f : face A) om I Is,
    Forall2 (fun e I => edge_integral e o false = Ok (I, None)) (f_edges f) (I :: Is) ->
    (forall i, i < length (f_edges f) -> exists k, tw (fi, i) = Some k /\ fst k <> fi) ->
    get_omega f o (dot_point1 f o) (nsign (dot_point1 f o)) false = Ok om ->
    fst (face_get_gravity tw o d G false fi f pstate0) = Ok (face_g (f_un f) d G (dot_point1 f o) (fst om) (fold_left vadd Is I), mzero) /\
    filled (snd (face_get_gravity tw o d G false fi f pstate0)) (length (f_edges f)) (I :: Is) (fold_left vadd Is I).
  Proof.
    intros o d G f om I Is HI Ht Ho. apply face_call; [exact Ho|]. cbn [hv e_pqr e_dpqr f_pqr f_dpqr pstate0].
    intros s1 H1 H2 H3 H4 H5. unfold face_ccw, keyed_edges_of. destruct (f_edges f) as [|e es]; [inversion HI|].
    inversion HI as [|? ? ? ? Ee HI']; subst. cbn [length seq map combine miter].
    destruct (Ht 0 ltac:(cbn; lia)) as (k & Hk1 & Hk2).
    destruct (step_fresh s1 o 0 e I k) as (s2 & E1 & G1 & G2 & G3 & G4 & G5 & G6 & G7 & G8 & G9); try (rewrite ?H2, ?H5; reflexivity || assumption).
    rewrite H4 in G9. destruct G9 as [G9 G10]. rewrite H1 in *. cbn [length app] in *.
    destruct (first_loop o (I :: Is) es Is 1 s2 I) as (s' & E' & HF & HS).
    - lia.
    - split; [|split; [|split; [|split; [|split]]]].
      + intros i Hi. replace i with 0 by lia. split; [exact G1|exact G2].
      + intros i Hi. lia.
      + rewrite G10. reflexivity.
      + rewrite G10. reflexivity.
      + exact G9.
      + exact G4.
    - intros i Hi. rewrite (proj1 (G3 i ltac:(lia))), H2. reflexivity.
    - exact HI'.
    - intros i Hi. reflexivity.
    - intros i. destruct (le_lt_dec (S (length es)) i) as [Hl|Hl]; [exists (0, 0); cbn; lia|].
      destruct (Ht i Hl) as [k' Hk']. exists k'. auto.
    - exists s'. unfold mbind at 1. rewrite E1, E'. split; [reflexivity|]. split; [|exact HF].
      destruct HS as (S1 & S2 & S3 & S4). repeat split; congruence.
  Qed.

  (** a further call, at any observer *)
  Lemma further_call : forall s o d G (f : face A) om I Is P,
    length (f_edges f) = S (length Is) -> filled s (length (f_edges f)) (I :: Is) P ->
    get_omega f o (dot_point1 f o) (nsign (dot_point1 f o)) false = Ok om ->
    let P' := fold_left vadd Is (vadd P P) in
    fst (face_get_gravity tw o d G false fi f s) = Ok (face_g (f_un f) d G (dot_point1 f o) (fst om) P', mzero) /\
    filled (snd (face_get_gravity tw o d G false fi f s)) (length (f_edges f)) (I :: Is) P'.
  Proof.
    intros s o d G f om I Is P Hl HF Ho P'. apply face_call; [exact Ho|].
    intros s1 H1 H2 H3 H4 H5. unfold face_ccw, keyed_edges_of. destruct (f_edges f) as [|e es] eqn:Ees; [discriminate|].
    cbn [length seq map combine miter] in *.
    assert (HF1 : filled s1 (S (length es)) (I :: Is) P).
    { unfold filled. rewrite H1, H2, H3, H4, H5. exact HF. }
    destruct HF1 as (F1 & F2 & F3 & F4 & F5 & F6). destruct (F1 0 ltac:(lia)) as [Hp Hd].
    destruct (step_cached s1 o 0 e 0 0 Hp Hd F5 F6) as (s2 & E1 & G1 & G2 & G3 & G4 & G5 & G6 & G7 & G8 & G9).
    rewrite F3 in G9.
    destruct (again_loop o (S (length es)) (I :: Is) es 1 s2 (vadd P P)) as (s' & E' & HF' & HS).
    - lia.
    - lia.
    - cbn [length]. lia.
    - split; [|split; [|split; [|split; [|split]]]].
      + intros i Hi. rewrite G1, G2. apply F1. exact Hi.
      + intros i Hi. rewrite G9, nth_set_nth_other by lia. apply F2. exact Hi.
      + rewrite G9, nth_set_nth_same by lia. reflexivity.
      + rewrite G9, set_nth_length. exact F4.
      + rewrite G3. exact F5.
      + exact G4.
    - exists s'. unfold mbind at 1. rewrite E1, E'. split; [reflexivity|]. split; [|exact HF'].
      destruct HS as (S1 & S2 & S3 & S4). repeat split; congruence.
  Qed.
End Repeat.

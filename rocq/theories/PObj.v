(** * Dataset objects: every conversion is the conversion of the value, and touches
      only the array and the CRS object of its dataset *)
From Coq Require Import List ZArith Bool Arith String Lia.
Import ListNotations.
From Verif Require Import Base MConfig MCrs MDataset MObj.

Section ObjProofs.
  Context {A : arith}.
  Variable lib : geolib A.
  Variable w : ellipsoid A.
  Hypothesis Hw : wgs84 lib = Ok w.

  Lemma put_same {V} (m : nat -> V) k v : put m k v k = v.
  Proof. unfold put. now rewrite Nat.eqb_refl. Qed.
  Lemma put_other {V} (m : nat -> V) k v k' : k' <> k -> put m k v k' = m k'.
  Proof. unfold put. intros H. now rewrite (proj2 (Nat.eqb_neq _ _) H). Qed.

  (** one call: its outcome, and what it leaves alone *)
  Record step_spec (v : conv A) (d : nat) (h : heap A) (r : res unit) (h' : heap A) : Prop := {
    sp_val : match convert lib v (read h d) with
             | Ok x => r = Ok tt /\ read h' d = x
             | Err e => r = Err e /\ h' = h
             end;
    sp_crs_ref : snd (dss h' d) = snd (dss h d);
    sp_arr_ref : fst (dss h' d) = fst (dss h d) \/ nexta h <= fst (dss h' d) < nexta h';
    sp_next : nexta h <= nexta h';
    sp_ds : forall d', d' <> d -> dss h' d' = dss h d';
    sp_crs : forall c, c <> snd (dss h d) -> crss h' c = crss h c;
    sp_arr : forall l, l < nexta h -> l <> fst (dss h d) -> arrs h' l = arrs h l
  }.

  Definition fspec (m : nat -> nat -> O (nat * nat)) (f : coords A -> crs A -> res (coords A * crs A)) : Prop :=
    forall l c (h : heap A), l < nexta h ->
    match f (arrs h l) (crss h c) with
    | Err e => m l c h = (Err e, h)
    | Ok pc => exists l' h', m l c h = (Ok (l', c), h') /\ arrs h' l' = fst pc /\ crss h' c = snd pc /\ dss h' = dss h /\
        (l' = l \/ nexta h <= l') /\ l' < nexta h' /\ nexta h <= nexta h' /\
        (forall c', c' <> c -> crss h' c' = crss h c') /\
        (forall x, x < nexta h -> x <> l -> arrs h' x = arrs h x)
    end.

  Ltac red_o := unfold obind, oret, oraise, olift, get_arr, set_arr, new_arr, get_c, upd_c, name_ecef, name_enu;
    cbn [arrs nexta crss dss fst snd].
  Ltac fin := do 2 eexists; split; [reflexivity|]; cbn [arrs nexta crss dss fst snd]; rewrite ?put_same; cbn;
    split; [reflexivity|]; split; [rewrite ?put_same; reflexivity|]; split; [reflexivity|]; split; [lia|]; split; [lia|]; split; [lia|];
    split; [intros; rewrite ?put_other by assumption; reflexivity|intros; rewrite ?put_other by lia; reflexivity].

  Lemma f_ret : fspec (fun l c => oret (l, c)) (fun p r => Ok (p, r)).
  Proof. intros l c h Hl. red_o. exists l, h. repeat split; auto; lia. Qed.
  Lemma f_lon : fspec (fun l c => obind (o_wrap180 l) (fun l' => oret (l', c))) (fun p r => Ok (wrap180 p, r)).
  Proof. intros l c h Hl. unfold o_wrap180. red_o. fin. Qed.
  Lemma f_height : fspec (o_ellipsoid_height lib) (ellipsoid_height lib).
  Proof.
    intros l c h Hl. unfold o_ellipsoid_height, ellipsoid_height. red_o.
    destruct (negb (forallb _ _)); [reflexivity|]. destruct (_ && _)%bool; [reflexivity|]. fin.
  Qed.
  Lemma f_ellps_ecef : fspec (o_ellps_to_ecef lib) (ellps_to_ecef lib).
  Proof.
    intros l c h Hl. unfold o_ellps_to_ecef, ellps_to_ecef. red_o.
    destruct (mapM _ _) as [rs|]; cbn [bind]; [|reflexivity]. fin.
  Qed.
  Lemma f_enu_ecef : fspec (o_enu_to_ecef lib) (enu_to_ecef lib).
  Proof.
    intros l c h Hl. unfold o_enu_to_ecef, enu_to_ecef. red_o.
    destruct (c_enu (crss h c)) as [e|]; [|reflexivity]. red_o. fin.
  Qed.
  Lemma f_ecef_wgs : fspec (o_ecef_to_wgs84 lib) (ecef_to_wgs84 lib).
  Proof. intros l c h Hl. unfold o_ecef_to_wgs84, ecef_to_wgs84. red_o. rewrite Hw. cbn [bind]. red_o. fin. Qed.
  Lemma f_then m1 f1 : fspec m1 f1 ->
    fspec (fun l c => obind (m1 l c) (fun lc => o_ecef_to_wgs84 lib (fst lc) (snd lc)))
          (fun p r => bind (f1 p r) (fun pc => ecef_to_wgs84 lib (fst pc) (snd pc))).
  Proof.
    intros H1 l c h Hl. specialize (H1 l c h Hl). unfold obind. destruct (f1 (arrs h l) (crss h c)) as [[p r]|e]; cbn [bind fst snd].
    2:{ rewrite H1. reflexivity. }
    destruct H1 as (l1 & h1 & E1 & A1 & C1 & D1 & L1 & L1' & N1 & O1 & P1). rewrite E1. cbn [fst snd] in *.
    pose proof (f_ecef_wgs l1 c h1 L1') as H2. rewrite A1, C1 in H2. unfold ecef_to_wgs84 in *. rewrite Hw in *. cbn [bind] in *.
    destruct H2 as (l2 & h2 & E2 & A2 & C2 & D2 & L2 & L2' & N2 & O2 & P2). exists l2, h2. cbn [fst snd] in *.
    split; [exact E2|]. split; [exact A2|]. split; [exact C2|]. split; [congruence|]. split; [lia|]. split; [lia|]. split; [lia|].
    split; [intros c' Hc; rewrite O2, O1 by assumption; reflexivity|]. intros x Hx Hn. rewrite P2 by lia. apply P1; assumption.
  Qed.
  Lemma f_ellps_wgs : fspec (o_ellps_to_wgs84 lib) (ellps_to_wgs84 lib).
  Proof.
    intros l c h Hl. pose proof (f_then _ _ f_ellps_ecef l c h Hl) as H. pose proof (f_ret l c h Hl) as H0.
    assert (E : o_ellps_to_wgs84 lib l c h =
      (if match c_enu (crss h c), c_ellps (crss h c) with None, Some e => ell_eqb e w | _, _ => false end
       then oret (l, c) else obind (o_ellps_to_ecef lib l c) (fun lc => o_ecef_to_wgs84 lib (fst lc) (snd lc))) h).
    { unfold o_ellps_to_wgs84. unfold obind at 1 2, get_c, olift. rewrite Hw. reflexivity. }
    rewrite E. unfold ellps_to_wgs84. rewrite Hw. cbn [bind].
    destruct (match c_enu (crss h c) with None => _ | Some _ => _ end); [exact H0|exact H].
  Qed.
  Lemma f_enu_wgs : fspec (o_enu_to_wgs84 lib) (enu_to_wgs84 lib).
  Proof. exact (f_then _ _ f_enu_ecef). Qed.
  Lemma f_ecef_enu lon0 lat0 alt0 : fspec (o_ecef_to_enu lib lon0 lat0 alt0) (fun p r => ecef_to_enu lib p r lon0 lat0 alt0).
  Proof. intros l c h Hl. unfold o_ecef_to_enu, ecef_to_enu. red_o. rewrite Hw. cbn [bind]. red_o. fin. Qed.
  Lemma f_wgs_enu lon0 lat0 alt0 : fspec (o_wgs84_to_enu lib lon0 lat0 alt0) (fun p r => wgs84_to_enu lib p r lon0 lat0 alt0).
  Proof.
    intros l c h Hl. unfold o_wgs84_to_enu, wgs84_to_enu. red_o. rewrite Hw. cbn [bind]. red_o.
    destruct (mapM _ _) as [rs|]; cbn [bind]; [|reflexivity]. fin.
  Qed.

  Lemma f_assign m f v d (h : heap A) : fspec m f -> fst (dss h d) < nexta h ->
    convert lib v (read h d) = pack (f (d_coords (read h d)) (d_crs (read h d))) ->
    step_spec v d h (fst (assign d (m (fst (dss h d)) (snd (dss h d))) h)) (snd (assign d (m (fst (dss h d)) (snd (dss h d))) h)).
  Proof.
    intros Hm Hl Ev. specialize (Hm (fst (dss h d)) (snd (dss h d)) h Hl). unfold read in Ev. cbn [d_coords d_crs] in Ev.
    unfold assign, obind. destruct (f (arrs h (fst (dss h d))) (crss h (snd (dss h d)))) as [[p r]|e]; cbn [pack bind fst snd] in *.
    - destruct Hm as (l' & h' & E & A1 & C1 & D1 & L1 & L1' & N1 & O1 & P1). rewrite E. unfold set_ds. cbn [fst snd].
      constructor; cbn [arrs nexta crss dss]; rewrite ?put_same; cbn [fst snd]; try assumption; try reflexivity.
      + unfold read at 1. rewrite Ev. split; [reflexivity|]. unfold read. cbn [arrs crss dss]. rewrite put_same. cbn [fst snd]. rewrite A1, C1. reflexivity.
      + lia.
      + intros d' Hd. rewrite put_other by assumption. now rewrite D1.
    - rewrite Hm. cbn [fst snd]. constructor; try reflexivity; try lia; auto. unfold read at 1. rewrite Ev. auto.
  Qed.

  Lemma o_convert_spec v d (h : heap A) : fst (dss h d) < nexta h ->
    step_spec v d h (fst (o_convert lib v d h)) (snd (o_convert lib v d h)).
  Proof.
    intros Hl.
    assert (K : forall m f, fspec m f -> convert lib v (read h d) = pack (f (d_coords (read h d)) (d_crs (read h d))) ->
       o_convert lib v d h = assign d (m (fst (dss h d)) (snd (dss h d))) h ->
       step_spec v d h (fst (o_convert lib v d h)) (snd (o_convert lib v d h))).
    { intros m f Hm Ev E. rewrite E. exact (f_assign m f v d h Hm Hl Ev). }
    assert (En' : d_crs (read h d) = crss h (snd (dss h d))) by reflexivity.
    assert (EQ : o_convert lib v d h = (let '(l, c) := dss h d in
      match v, c_name (crss h c) with
      | Lon180, (ENUref | ELLPS) => obind (o_wrap180 l) (fun l' => set_ds d (l', c))
      | Lon180, _ => set_ds d (l, c)
      | EllpsHeight, (ENUref | ELLPS) => assign d (o_ellipsoid_height lib l c)
      | EllpsHeight, _ => assign d (oret (l, c))
      | ToEcef, ENUref => assign d (o_enu_to_ecef lib l c)
      | ToEcef, ELLPS => assign d (o_ellps_to_ecef lib l c)
      | ToEcef, _ => assign d (oret (l, c))
      | ToWgs84, ENUref => assign d (o_enu_to_wgs84 lib l c)
      | ToWgs84, ELLPS => assign d (o_ellps_to_wgs84 lib l c)
      | ToWgs84, ECEF => assign d (o_ecef_to_wgs84 lib l c)
      | ToWgs84, CART => assign d (oret (l, c))
      | ToEnu lon0 lat0 alt0, ELLPS => assign d (o_wgs84_to_enu lib lon0 lat0 alt0 l c)
      | ToEnu lon0 lat0 alt0, ECEF => assign d (o_ecef_to_enu lib lon0 lat0 alt0 l c)
      | ToEnu _ _ _, _ => assign d (oret (l, c))
      end) h).
    { unfold o_convert. unfold obind at 1, get_ds. destruct (dss h d) as [l c]. unfold obind at 1, get_c. destruct v, (c_name (crss h c)); reflexivity. }
    destruct (dss h d) as [l c] eqn:Ed. cbn [fst snd] in *.
    unfold convert, to_lon180, to_ellipsoid_height, to_ecef, to_wgs84, to_enu in K. rewrite En' in K.
    destruct (c_name (crss h c)) eqn:En; destruct v as [| | | |lon0 lat0 alt0].
    all: first [ eapply K; [exact f_height|reflexivity|exact EQ] | eapply K; [exact f_ellps_ecef|reflexivity|exact EQ]
               | eapply K; [exact f_enu_ecef|reflexivity|exact EQ] | eapply K; [exact f_ecef_wgs|reflexivity|exact EQ]
               | eapply K; [exact f_ellps_wgs|reflexivity|exact EQ] | eapply K; [exact f_enu_wgs|reflexivity|exact EQ]
               | eapply K; [apply f_ecef_enu|reflexivity|exact EQ] | eapply K; [apply f_wgs_enu|reflexivity|exact EQ]
               | eapply K; [exact f_lon|reflexivity|exact EQ] | idtac ].
    all: eapply K; [exact f_ret|unfold pack; cbn [bind fst snd]; rewrite <- En'; destruct (read h d); reflexivity|exact EQ].
  Qed.

  (** ** Histories of calls on a family [D] of datasets *)
  Definition separate (D : nat -> Prop) (h : heap A) : Prop :=
    (forall d, D d -> fst (dss h d) < nexta h) /\
    (forall d d', D d -> D d' -> d <> d' -> fst (dss h d) <> fst (dss h d') /\ snd (dss h d) <> snd (dss h d')).

  Lemma convert_frame v d (h : heap A) D : separate D h -> D d ->
    let r := fst (o_convert lib v d h) in let h' := snd (o_convert lib v d h) in
    separate D h' /\ (forall d', D d' -> d' <> d -> read h' d' = read h d') /\
    match convert lib v (read h d) with
    | Ok x => r = Ok tt /\ read h' d = x
    | Err e => r = Err e /\ h' = h
    end.
  Proof.
    intros [H1 H2] Hd r h'. destruct (o_convert_spec v d h (H1 d Hd)) as [V R1 R2 N S1 S2 S3]. fold r h' in V, R1, R2, N, S1, S2, S3.
    split; [|split; [|exact V]].
    - split.
      + intros d' Hd'. destruct (Nat.eq_dec d' d) as [->|Hne]; [|rewrite S1 by assumption; specialize (H1 d' Hd'); lia].
        specialize (H1 d Hd). lia.
      + assert (K : forall d', D d' -> d' <> d -> fst (dss h' d) <> fst (dss h' d') /\ snd (dss h' d) <> snd (dss h' d')).
        { intros d' Hd' Hne. rewrite R1, (S1 d' Hne). destruct (H2 d d' Hd Hd' ltac:(auto)) as [K1 K2]. split; [|exact K2].
          specialize (H1 d' Hd'). destruct R2 as [->|]; [exact K1|lia]. }
        intros x y Hx Hy Hxy. destruct (Nat.eq_dec x d) as [->|Hxd]; [apply K; auto|].
        destruct (Nat.eq_dec y d) as [->|Hyd].
        * destruct (K x Hx Hxd). auto.
        * rewrite (S1 x Hxd), (S1 y Hyd). apply H2; assumption.
    - intros d' Hd' Hne. unfold read. rewrite (S1 d' Hne). destruct (H2 d d' Hd Hd' ltac:(auto)) as [K1 K2].
      rewrite S3, S2 by (auto; apply H1; auto). reflexivity.
  Qed.

  (** the calls are made one after the other; exceptions are caught by the user *)
  Definition history (cs : list (conv A * nat)) (h : heap A) : heap A :=
    fold_left (fun h c => snd (o_convert lib (fst c) (snd c) h)) cs h.
  (** the same calls on a value, those on other datasets left out *)
  Definition alone (x : dataset A) (v : conv A) : dataset A :=
    match convert lib v x with Ok y => y | Err _ => x end.
  Definition own (d : nat) (cs : list (conv A * nat)) : list (conv A) :=
    map fst (filter (fun c => Nat.eqb (snd c) d) cs).

  Lemma history_separate D cs : forall (h : heap A), separate D h -> (forall c, In c cs -> D (snd c)) ->
    separate D (history cs h) /\ forall d, D d -> read (history cs h) d = fold_left alone (own d cs) (read h d).
  Proof.
    induction cs as [|[v d0] cs IH]; intros h Hs Hc; [split; [exact Hs|reflexivity]|].
    cbn [history fold_left own filter fst snd map] in *.
    assert (Hd0 : D d0) by (apply (Hc (v, d0)); left; reflexivity).
    destruct (convert_frame v d0 h D Hs Hd0) as (Hs' & Hf & Hv).
    destruct (IH _ Hs' (fun c H => Hc c (or_intror H))) as [K1 K2]. split; [exact K1|].
    intros d Hd. etransitivity; [exact (K2 d Hd)|]. unfold own. cbn [filter snd]. destruct (Nat.eqb_spec d0 d) as [->|Hne].
    - cbn [map fst fold_left]. f_equal. unfold alone. destruct (convert lib v (read h d)); destruct Hv as [_ Hv]; [exact Hv|]. rewrite Hv. reflexivity.
    - f_equal. apply Hf; auto.
  Qed.

  (** ** Batches *)
  Lemma batch_spec D v ds : forall (h : heap A), separate D h -> (forall d, In d ds -> D d) -> NoDup ds ->
    let r := fst (o_batch lib v ds h) in let h' := snd (o_batch lib v ds h) in
    separate D h' /\ (forall d, D d -> ~ In d ds -> read h' d = read h d) /\
    exists done todo, ds = done ++ todo /\
      (forall d, In d done -> convert lib v (read h d) = Ok (read h' d)) /\
      (forall d, In d todo -> read h' d = read h d) /\
      match todo with
      | [] => r = Ok tt
      | d :: _ => exists e, convert lib v (read h d) = Err e /\ r = Err e
      end.
  Proof.
    induction ds as [|d0 ds IH]; intros h Hs Hc Hn; cbv zeta.
    - split; [exact Hs|]. split; [reflexivity|]. exists [], []. repeat split; intros; contradiction.
    - cbn [o_batch]. unfold obind. inversion Hn as [|? ? Hn0 Hn']; subst.
      destruct (convert_frame v d0 h D Hs (Hc d0 (or_introl eq_refl))) as (Hs' & Hf & Hv).
      destruct (o_convert lib v d0 h) as [r1 h1]. cbn [fst snd] in *.
      destruct (convert lib v (read h d0)) as [x|e] eqn:Ex.
      + destruct Hv as [-> Hv]. destruct (IH h1 Hs' (fun d H => Hc d (or_intror H)) Hn') as (K1 & K2 & dn & td & E & K3 & K4 & K5).
        cbv zeta in *. split; [exact K1|]. split.
        { intros d Hd Hnd. rewrite K2; [|exact Hd|intros Hi; apply Hnd; now right]. apply Hf; [exact Hd|]. intros E0. apply Hnd. left. auto. }
        exists (d0 :: dn), td. split; [rewrite E; reflexivity|]. split; [|split].
        * intros d [<-|Hd].
          { rewrite Ex. f_equal. rewrite K2; [auto| |exact Hn0]. apply Hc. now left. }
          { assert (Hin : In d ds) by (rewrite E; apply in_or_app; auto).
            rewrite <- (K3 d Hd). f_equal. symmetry. apply Hf; [apply Hc; now right|]. intros E0. apply Hn0. rewrite <- E0. exact Hin. }
        * intros d Hd. assert (Hin : In d ds) by (rewrite E; apply in_or_app; auto).
          rewrite (K4 d Hd). apply Hf; [apply Hc; now right|]. intros E0. apply Hn0. rewrite <- E0. exact Hin.
        * destruct td as [|d td]; [exact K5|]. destruct K5 as (e & E1 & E2). exists e. split; [|exact E2].
          assert (Hin : In d ds) by (rewrite E; apply in_or_app; right; now left).
          rewrite <- E1. f_equal. symmetry. apply Hf; [apply Hc; now right|]. intros E0. apply Hn0. rewrite <- E0. exact Hin.
      + destruct Hv as [-> ->]. cbn [fst snd]. split; [exact Hs|]. split; [reflexivity|].
        exists [], (d0 :: ds). split; [reflexivity|]. split; [intros d []|]. split; [reflexivity|]. exists e. auto.
  Qed.
End ObjProofs.

(** * Lemmas about configuration, reference systems and datasets *)
From Coq Require Import List ZArith Bool Arith String Ascii Lia.
Import ListNotations.
From Verif Require Import Base MUtils MConfig MCrs MDataset.
Local Open Scope string_scope.

(** ** Case-insensitive comparison, specified character by character *)

(** [d] is the capital of [c], or equal to it when [c] is not a small letter *)
Definition capital_of (c d : ascii) : Prop :=
  (97 <= nat_of_ascii c <= 122 /\ nat_of_ascii c = nat_of_ascii d + 32) \/
  (~ 97 <= nat_of_ascii c <= 122 /\ c = d).
Inductive capitals_of : string -> string -> Prop :=
| cap_nil : capitals_of "" ""
| cap_cons c d s t : capital_of c d -> capitals_of s t -> capitals_of (String c s) (String d t).

Lemma upper_ascii_spec c d : capital_of c d <-> upper_ascii c = d.
Proof.
  unfold capital_of, upper_ascii.
  destruct (Nat.leb_spec 97 (nat_of_ascii c)); destruct (Nat.leb_spec (nat_of_ascii c) 122); cbn [andb].
  - split.
    + intros [[_ H1]|[H1 _]]; [|lia]. replace (nat_of_ascii c - 32) with (nat_of_ascii d) by lia.
      apply ascii_nat_embedding.
    + intros <-. left. split; [lia|]. rewrite nat_ascii_embedding; lia.
  - split; [intros [[? _]|[_ ?]]; [lia|assumption]|intros ->; right; split; [lia|reflexivity]].
  - split; [intros [[? _]|[_ ?]]; [lia|assumption]|intros ->; right; split; [lia|reflexivity]].
  - split; [intros [[? _]|[_ ?]]; [lia|assumption]|intros ->; right; split; [lia|reflexivity]].
Qed.

Lemma upper_spec s t : capitals_of s t <-> upper s = t.
Proof.
  split.
  - induction 1 as [|c d s t Hc Hs IH]; simpl; [reflexivity|].
    apply upper_ascii_spec in Hc. now rewrite Hc, IH.
  - revert t; induction s as [|c s IH]; simpl; intros t <-; constructor; auto.
    now apply upper_ascii_spec.
Qed.

Lemma crs_member_spec s n : crs_member s = Some n <->
  (s = "CART" /\ n = CART) \/ (s = "ELLPS" /\ n = ELLPS) \/
  (s = "ENU" /\ n = ENUref) \/ (s = "ECEF" /\ n = ECEF).
Proof.
  unfold crs_member. split.
  - destruct (String.eqb_spec s "CART"); [intros [= <-]; auto|].
    destruct (String.eqb_spec s "ELLPS"); [intros [= <-]; auto|].
    destruct (String.eqb_spec s "ENU"); [intros [= <-]; auto|].
    destruct (String.eqb_spec s "ECEF"); [intros [= <-]; auto|]. discriminate.
  - intros [[-> ->]|[[-> ->]|[[-> ->]|[-> ->]]]]; reflexivity.
Qed.

Lemma vdatum_member_spec s n : vdatum_member s = Some n <->
  (s = "ELLPS" /\ n = VD_ELLPS) \/ (s = "EGM84" /\ n = VD_EGM84) \/
  (s = "EGM96" /\ n = VD_EGM96) \/ (s = "EGM08" /\ n = VD_EGM08).
Proof.
  unfold vdatum_member. split.
  - destruct (String.eqb_spec s "ELLPS"); [intros [= <-]; auto|].
    destruct (String.eqb_spec s "EGM84"); [intros [= <-]; auto|].
    destruct (String.eqb_spec s "EGM96"); [intros [= <-]; auto|].
    destruct (String.eqb_spec s "EGM08"); [intros [= <-]; auto 6|]. discriminate.
  - intros [[-> ->]|[[-> ->]|[[-> ->]|[-> ->]]]]; reflexivity.
Qed.

Section PCrs.
  Context {A : arith}.
  Local Open Scope num_scope.

  (** ** Layering *)
  Lemma first_skip l1 s l2 (v : view) y :
    (forall x, In x l1 -> descend x v = Missing) ->
    descend s v = Found y ->
    first (A:=A) (l1 ++ s :: l2)%list v = Ok y.
  Proof.
    induction l1 as [|x l1 IH]; intros H E; simpl.
    - now rewrite E.
    - rewrite (H x (or_introl eq_refl)). apply IH; auto. intros; apply H; simpl; auto.
  Qed.
  Lemma first_none l (v : view) :
    (forall x, In x l -> descend x v = Missing) -> first (A:=A) l v = Err ConfigNotFoundError.
  Proof.
    induction l as [|x l IH]; intros H; simpl; [reflexivity|].
    rewrite (H x (or_introl eq_refl)). apply IH. intros; apply H; simpl; auto.
  Qed.
  Lemma first_inv l (v : view) y :
    first (A:=A) l v = Ok y ->
    exists l1 s l2, l = (l1 ++ s :: l2)%list /\ descend s v = Found y /\
      forall x, In x l1 -> descend x v = Missing.
  Proof.
    induction l as [|x l IH]; simpl; [discriminate|].
    destruct (descend x v) as [z| |] eqn:E; [|intros H|discriminate].
    - intros [= ->]. exists [], x, l. simpl; tauto.
    - destruct (IH H) as [l1 [s [l2 [-> [H1 H2]]]]].
      exists (x :: l1), s, l2. split; [reflexivity|]. split; [exact H1|].
      intros x' [->|Hin]; auto.
  Qed.

  Variable lib : geolib A.

  (** ** read_ref, get_crs *)
  Lemma read_ref_str c v s :
    first c (v ++ [KS "ref"])%list = Ok (YStr s) ->
    (forall n, read_ref (A:=A) c v = Ok n <->
       (capitals_of s "CART" /\ n = CART) \/ (capitals_of s "ELLPS" /\ n = ELLPS) \/
       (capitals_of s "ENU" /\ n = ENUref) \/ (capitals_of s "ECEF" /\ n = ECEF)) /\
    (~ capitals_of s "CART" -> ~ capitals_of s "ELLPS" -> ~ capitals_of s "ENU" ->
     ~ capitals_of s "ECEF" -> read_ref c v = Err ConfigValueError).
  Proof.
    intros E. unfold read_ref, get_opt_str. rewrite E. cbn [bind].
    split.
    - intros n. rewrite !upper_spec, <- crs_member_spec.
      destruct (crs_member (upper s)); split; intros H; congruence.
    - rewrite !upper_spec. intros H1 H2 H3 H4. destruct (crs_member (upper s)) as [n|] eqn:Em; [|reflexivity].
      apply crs_member_spec in Em. exfalso. intuition.
  Qed.

  Lemma read_ref_default c v :
    first (A:=A) c (v ++ [KS "ref"])%list = Ok YNull \/
    first (A:=A) c (v ++ [KS "ref"])%list = Err ConfigNotFoundError ->
    read_ref (A:=A) c v = Ok ELLPS.
  Proof. intros [E|E]; unfold read_ref, get_opt_str; rewrite E; reflexivity. Qed.

  Lemma mk_crs_name n e en vd (r : crs A) : mk_crs n e en vd = Ok r -> c_name r = n.
  Proof.
    unfold mk_crs. destruct n; try (intros [= <-]; reflexivity).
    destruct en as [x|]; [|discriminate]. destruct e as [y|]; [|discriminate].
    destruct (ell_eqb _ _); [|discriminate]. intros [= <-]; reflexivity.
  Qed.

  Lemma get_crs_name c v n r :
    read_ref c v = Ok n -> get_crs lib c v = Ok r -> c_name r = n.
  Proof.
    intros E. unfold get_crs. rewrite E. cbn [bind]. destruct n.
    - intros H; exact (mk_crs_name _ _ _ _ _ H).
    - unfold create_ellipsoid_crs.
      destruct (read_ellipsoid_parameters lib c v) as [[[a b] d]|]; cbn [bind]; [|discriminate].
      destruct (read_vdatum c v); cbn [bind]; [|discriminate].
      destruct (mk_ellipsoid lib a b d); cbn [bind]; [|discriminate].
      intros H; exact (mk_crs_name _ _ _ _ _ H).
    - unfold create_local_enu_crs.
      destruct (read_ellipsoid_parameters lib c v) as [[[a b] d]|]; cbn [bind]; [|discriminate].
      destruct (read_enu_parameters c v) as [[[l1 l2] l3]|]; cbn [bind]; [|discriminate].
      destruct (read_vdatum c v); cbn [bind]; [|discriminate].
      destruct (mk_ellipsoid lib a b d); cbn [bind]; [|discriminate].
      intros H; exact (mk_crs_name _ _ _ _ _ H).
    - intros H; exact (mk_crs_name _ _ _ _ _ H).
  Qed.

  (** ** The invariant of reference systems *)
  Definition crs_wf (c : crs A) : Prop :=
    match c_name c with
    | CART => c_enu c = None
    | ECEF => c_enu c = None /\ c_ellps c = None
    | ELLPS => c_enu c = None /\ c_ellps c <> None
    | ENUref => c_enu c <> None
    end.

  Lemma get_crs_wf c v r : get_crs lib c v = Ok r -> crs_wf r.
  Proof.
    unfold get_crs. destruct (read_ref c v) as [n|]; cbn [bind]; [|discriminate].
    destruct n.
    - intros [= <-]. reflexivity.
    - unfold create_ellipsoid_crs.
      destruct (read_ellipsoid_parameters lib c v) as [[[a b] d]|]; cbn [bind]; [|discriminate].
      destruct (read_vdatum c v); cbn [bind]; [|discriminate].
      destruct (mk_ellipsoid lib a b d); cbn [bind]; [|discriminate].
      intros [= <-]. split; [reflexivity|discriminate].
    - unfold create_local_enu_crs.
      destruct (read_ellipsoid_parameters lib c v) as [[[a b] d]|]; cbn [bind]; [|discriminate].
      destruct (read_enu_parameters c v) as [[[l1 l2] l3]|]; cbn [bind]; [|discriminate].
      destruct (read_vdatum c v); cbn [bind]; [|discriminate].
      destruct (mk_ellipsoid lib a b d); cbn [bind]; [|discriminate].
      unfold mk_crs. destruct (ell_eqb _ _); [|discriminate]. intros [= <-]. discriminate.
    - intros [= <-]. split; reflexivity.
  Qed.

  (** one conversion method of a dataset *)
  Inductive conv : Type :=
  | CLon180 | CHeight | CEcef | CWgs84 | CEnu (lon0 lat0 alt0 : num A).
  Definition apply_conv (k : conv) (d : dataset A) : res (dataset A) :=
    match k with
    | CLon180 => Ok (to_lon180 d)
    | CHeight => to_ellipsoid_height lib d
    | CEcef => to_ecef lib d
    | CWgs84 => to_wgs84 lib d
    | CEnu lon0 lat0 alt0 => to_enu lib lon0 lat0 alt0 d
    end.
  Fixpoint apply_convs (ks : list conv) (d : dataset A) : res (dataset A) :=
    match ks with
    | [] => Ok d
    | k :: ks' => do d' <- apply_conv k d; apply_convs ks' d'
    end.

  Lemma wf_ecef d d' : crs_wf (d_crs d) -> to_ecef lib d = Ok d' -> crs_wf (d_crs d').
  Proof.
    unfold to_ecef, pack, enu_to_ecef, ellps_to_ecef. intros Hw.
    destruct (c_name (d_crs d)) eqn:En.
    - intros [= <-]; auto.
    - destruct (mapM _ _); cbn [bind]; [|discriminate]. intros [= <-]. split; reflexivity.
    - destruct (c_enu (d_crs d)); cbn [bind]; [|discriminate]. intros [= <-]. split; reflexivity.
    - intros [= <-]; auto.
  Qed.

  Lemma wf_conv k d d' : crs_wf (d_crs d) -> apply_conv k d = Ok d' -> crs_wf (d_crs d').
  Proof.
    intros Hw. destruct k; simpl.
    - intros [= <-]. unfold to_lon180. destruct (c_name (d_crs d)); exact Hw.
    - unfold to_ellipsoid_height, pack, ellipsoid_height.
      destruct (c_name (d_crs d)) eqn:En; try (intros [= <-]; exact Hw);
      (destruct (negb _); [discriminate|]; destruct (_ && _)%bool; [discriminate|];
       cbn [bind]; intros [= <-]; unfold crs_wf in *; simpl; rewrite En in *; exact Hw).
    - now apply wf_ecef.
    - unfold to_wgs84, pack, enu_to_wgs84, ellps_to_wgs84, ecef_to_wgs84, enu_to_ecef, ellps_to_ecef.
      destruct (c_name (d_crs d)) eqn:En.
      + intros [= <-]; exact Hw.
      + destruct (wgs84 lib) as [w|]; cbn [bind]; [|discriminate].
        destruct (match c_enu (d_crs d) with Some _ => _ | None => _ end).
        * cbn [bind]. intros [= <-]. exact Hw.
        * destruct (mapM _ _); cbn [bind]; [|discriminate]. intros [= <-]. split; [reflexivity|discriminate].
      + destruct (c_enu (d_crs d)); cbn [bind]; [|discriminate].
        destruct (wgs84 lib); cbn [bind]; [|discriminate]. intros [= <-]. split; [reflexivity|discriminate].
      + destruct (wgs84 lib); cbn [bind]; [|discriminate]. intros [= <-]. split; [reflexivity|discriminate].
    - unfold to_enu, pack, wgs84_to_enu, ecef_to_enu.
      destruct (c_name (d_crs d)) eqn:En.
      + intros [= <-]; exact Hw.
      + destruct (wgs84 lib); cbn [bind]; [|discriminate].
        destruct (mapM _ _); cbn [bind]; [|discriminate]. intros [= <-]. discriminate.
      + intros [= <-]; exact Hw.
      + destruct (wgs84 lib); cbn [bind]; [|discriminate]. intros [= <-]. discriminate.
  Qed.

  Lemma wf_convs ks : forall d d', crs_wf (d_crs d) -> apply_convs ks d = Ok d' -> crs_wf (d_crs d').
  Proof.
    induction ks as [|k ks IH]; simpl; intros d d' Hw.
    - now intros [= <-].
    - destruct (apply_conv k d) as [d1|] eqn:E; cbn [bind]; [|discriminate].
      apply IH. exact (wf_conv _ _ _ Hw E).
  Qed.

  (** a conversion of a well-formed dataset never fails with AttributeError *)
  Lemma wf_no_attribute_error k d :
    wgs84 lib <> Err AttributeError ->
    (forall o a b c, geodetic2ecef lib o a b c <> Err AttributeError) ->
    (forall a b c d e f, geodetic2enu lib a b c d e f <> Err AttributeError) ->
    crs_wf (d_crs d) -> apply_conv k d <> Err AttributeError.
  Proof.
    intros Hg1 Hg2 Hg3 Hw.
    assert (HM : forall {X Y} (f : X -> res Y) l, (forall x, f x <> Err AttributeError) -> mapM f l <> Err AttributeError).
    { intros X Y f l Hf. induction l as [|x l IH]; simpl; [discriminate|].
      destruct (f x) as [y|e] eqn:E; cbn [bind].
      - destruct (mapM f l); cbn [bind]; [discriminate|]. congruence.
      - intros [= ->]. now apply (Hf x). }
    destruct k; simpl.
    - discriminate.
    - unfold to_ellipsoid_height, pack, ellipsoid_height.
      destruct (c_name (d_crs d)); try discriminate;
      (destruct (negb _); [discriminate|]; destruct (_ && _)%bool; discriminate).
    - unfold to_ecef, pack, ellps_to_ecef, enu_to_ecef, crs_wf in *.
      destruct (c_name (d_crs d)); try discriminate.
      + destruct (mapM _ _) as [x|er] eqn:E; cbn [bind]; [discriminate|].
        intros [= ->]. revert E. apply HM. auto.
      + destruct (c_enu (d_crs d)); [discriminate|]. congruence.
    - unfold to_wgs84, pack, enu_to_wgs84, ellps_to_wgs84, ecef_to_wgs84, enu_to_ecef, ellps_to_ecef, crs_wf in *.
      destruct (c_name (d_crs d)); try discriminate.
      + destruct (wgs84 lib) as [w|er]; cbn [bind]; [|congruence].
        destruct (match c_enu (d_crs d) with Some _ => _ | None => _ end); [discriminate|].
        destruct (mapM _ _) as [x|er] eqn:E; cbn [bind]; [discriminate|].
        intros [= ->]. revert E. apply HM. auto.
      + destruct (c_enu (d_crs d)); [|congruence]. cbn [bind].
        destruct (wgs84 lib) as [w|er]; cbn [bind]; [discriminate|congruence].
      + destruct (wgs84 lib) as [w|er]; cbn [bind]; [discriminate|congruence].
    - unfold to_enu, pack, wgs84_to_enu, ecef_to_enu.
      destruct (c_name (d_crs d)); try discriminate.
      + destruct (wgs84 lib) as [w|er]; cbn [bind]; [|congruence].
        destruct (mapM _ _) as [x|er] eqn:E; cbn [bind]; [discriminate|].
        intros [= ->]. revert E. apply HM. auto.
      + destruct (wgs84 lib) as [w|er]; cbn [bind]; [discriminate|congruence].
  Qed.

  (** ** Physical positions *)

  (** Specification: the Cartesian position that a row of coordinates denotes in
      a reference system.  CART and ECEF rows are positions; an ELLPS row is
      (longitude, latitude, altitude) on the ellipsoid; an ENU row is relative
      to the local frame at the declared origin. *)
  Definition position (c : crs A) (r : vec A) : res (vec A) :=
    match c_name c with
    | CART | ECEF => Ok r
    | ELLPS => geodetic2ecef lib (c_ellps c) (vy r) (vx r) (vz r)
    | ENUref =>
        match c_enu c with
        | Some e => Ok (enu2ecef lib (c_ellps c) (vx r) (vy r) (vz r)
                                 (lat_org e) (lon_org e) (alt_org e))
        | None => Err AttributeError
        end
    end.
  Definition positions (d : dataset A) : res (list (vec A)) :=
    mapM (position (d_crs d)) (rows (d_coords d)).

  Lemma mapM_ok {X Y} (f : X -> Y) l : mapM (fun x => Ok (f x)) l = Ok (map f l).
  Proof. induction l as [|x l IH]; simpl; [reflexivity|]. rewrite IH. reflexivity. Qed.
  Lemma mapM_ext {X Y} (f g : X -> res Y) l : (forall x, In x l -> f x = g x) -> mapM f l = mapM g l.
  Proof.
    induction l as [|x l IH]; intros H; simpl; [reflexivity|].
    rewrite (H x (or_introl eq_refl)), IH; auto. intros; apply H; simpl; auto.
  Qed.
  Lemma mapM_map {X Y Z} (f : Y -> res Z) (g : X -> Y) l : mapM f (map g l) = mapM (fun x => f (g x)) l.
  Proof. induction l as [|x l IH]; simpl; [reflexivity|]. now rewrite IH. Qed.
  Lemma mapM_id {X} (l : list X) : mapM Ok l = Ok l.
  Proof. rewrite mapM_ok. now rewrite map_id. Qed.
  Lemma mapM_length {X Y} (f : X -> res Y) l ys : mapM f l = Ok ys -> List.length ys = List.length l.
  Proof.
    revert ys; induction l as [|x l IH]; simpl; intros ys.
    - now intros [= <-].
    - destruct (f x); cbn [bind]; [|discriminate]. destruct (mapM f l); cbn [bind]; [|discriminate].
      intros [= <-]. simpl. now rewrite (IH _ eq_refl).
  Qed.

  Lemma to_ecef_positions d d' :
    to_ecef lib d = Ok d' ->
    positions d = Ok (rows (d_coords d')) /\ positions d' = positions d /\
    c_name (d_crs d') = (match c_name (d_crs d) with CART => CART | _ => ECEF end) /\
    c_vdatum (d_crs d') = c_vdatum (d_crs d) /\
    to_ecef lib d' = Ok d'.
  Proof.
    unfold to_ecef, positions, position, pack, enu_to_ecef, ellps_to_ecef.
    destruct (c_name (d_crs d)) eqn:En.
    - intros [= <-]. rewrite En, mapM_id. auto.
    - destruct (mapM _ _) as [rs|] eqn:E; cbn [bind]; [|discriminate].
      intros [= <-]. simpl. rewrite mapM_id. auto.
    - destruct (c_enu (d_crs d)) as [e|]; cbn [bind]; [|discriminate].
      intros [= <-]. simpl. rewrite mapM_ok, mapM_id. auto.
    - intros [= <-]. rewrite En, mapM_id. auto.
  Qed.

  (** to_wgs84 *)
  Definition ecef2geodetic_inverts : Prop :=
    forall w x y z, wgs84 lib = Ok w ->
    let g := ecef2geodetic lib x y z in
    geodetic2ecef lib (Some w) (vx g) (vy g) (vz g) = Ok (V3 x y z).

  Lemma vec_eta {X} (v : vec3 X) : V3 (vx v) (vy v) (vz v) = v.
  Proof. now destruct v. Qed.

  Lemma ecef_to_wgs84_pos p c p' c' :
    ecef2geodetic_inverts ->
    ecef_to_wgs84 lib p c = Ok (p', c') ->
    c_name c' = ELLPS /\ c_enu c' = None /\ Ok c' = (do w <- wgs84 lib; Ok {| c_name := ELLPS; c_ellps := Some w; c_enu := None; c_vdatum := c_vdatum c |}) /\
    mapM (position c') (rows p') = Ok (rows p).
  Proof.
    intros Hinv. unfold ecef_to_wgs84. destruct (wgs84 lib) as [w|] eqn:Ew; cbn [bind]; [|discriminate].
    intros [= <- <-]. simpl. repeat split.
    rewrite mapM_map. transitivity (mapM (fun r : vec A => Ok r) (rows p)); [|apply mapM_id].
    apply mapM_ext. intros r _. unfold position. simpl.
    pose proof (Hinv w (vx r) (vy r) (vz r) Ew) as H. cbv zeta in H.
    destruct (ecef2geodetic lib (vx r) (vy r) (vz r)) as [la lo al]. simpl in *. rewrite H.
    f_equal. apply vec_eta.
  Qed.

  Definition is_wgs84 (c : crs A) : Prop :=
    c_name c = ELLPS /\ c_enu c = None /\
    exists e w, c_ellps c = Some e /\ wgs84 lib = Ok w /\ (e = w \/ ell_eqb e w = true).

  Lemma to_wgs84_positions d d' :
    ecef2geodetic_inverts ->
    c_name (d_crs d) <> CART ->
    to_wgs84 lib d = Ok d' ->
    (exists ps, positions d = Ok ps /\ positions d' = Ok ps) \/ d' = d.
  Proof.
    intros Hinv Hn. unfold to_wgs84, pack, positions.
    destruct (c_name (d_crs d)) eqn:En; [congruence| | |].
    - unfold ellps_to_wgs84. destruct (wgs84 lib) as [w|] eqn:Ew; cbn [bind]; [|discriminate].
      destruct (match c_enu (d_crs d) with Some _ => _ | None => _ end).
      + cbn [bind]. intros [= <-]. right. destruct d; reflexivity.
      + unfold ellps_to_ecef. destruct (mapM _ _) as [rs|] eqn:E; cbn [bind fst snd]; [|discriminate].
        destruct (ecef_to_wgs84 lib _ _) as [[p' c']|] eqn:E2; cbn [bind]; [|discriminate].
        intros [= <-]. left. exists rs. simpl.
        split.
        * rewrite <- E. apply mapM_ext. intros r _. unfold position. now rewrite En.
        * now destruct (ecef_to_wgs84_pos _ _ _ _ Hinv E2) as [_ [_ [_ H]]].
    - unfold enu_to_wgs84, enu_to_ecef. destruct (c_enu (d_crs d)) as [e|] eqn:Ee; cbn [bind fst snd]; [|discriminate].
      destruct (ecef_to_wgs84 lib _ _) as [[p' c']|] eqn:E2; cbn [bind]; [|discriminate].
      intros [= <-]. left. eexists.
      split; [|destruct (ecef_to_wgs84_pos _ _ _ _ Hinv E2) as [_ [_ [_ H]]]; exact H].
      simpl. rewrite <- mapM_ok. apply mapM_ext. intros r _. unfold position. now rewrite En, Ee.
    - destruct (ecef_to_wgs84 lib _ _) as [[p' c']|] eqn:E2; cbn [bind]; [|discriminate].
      intros [= <-]. left. exists (rows (d_coords d)). simpl.
      split; [|now destruct (ecef_to_wgs84_pos _ _ _ _ Hinv E2) as [_ [_ [_ H]]]].
      rewrite <- mapM_id. apply mapM_ext. intros r _. unfold position. now rewrite En.
  Qed.

  Lemma to_wgs84_same_positions d d' :
    ecef2geodetic_inverts ->
    to_wgs84 lib d = Ok d' -> positions d' = positions d.
  Proof.
    intros Hinv E. destruct (c_name (d_crs d)) eqn:En.
    - unfold to_wgs84 in E. rewrite En in E. now injection E as <-.
    - destruct (to_wgs84_positions d d' Hinv) as [[ps [-> ->]]| ->]; auto; congruence.
    - destruct (to_wgs84_positions d d' Hinv) as [[ps [-> ->]]| ->]; auto; congruence.
    - destruct (to_wgs84_positions d d' Hinv) as [[ps [-> ->]]| ->]; auto; congruence.
  Qed.

  Lemma to_wgs84_label d d' :
    to_wgs84 lib d = Ok d' ->
    (c_name (d_crs d) = CART /\ d' = d) \/ (c_name (d_crs d) <> CART /\ is_wgs84 (d_crs d')).
  Proof.
    unfold to_wgs84, pack, is_wgs84.
    destruct (c_name (d_crs d)) eqn:En.
    - intros [= <-]; auto.
    - unfold ellps_to_wgs84. destruct (wgs84 lib) as [w|] eqn:Ew; cbn [bind]; [|discriminate].
      destruct (c_enu (d_crs d)) as [u|] eqn:Eu; [|destruct (c_ellps (d_crs d)) as [e|] eqn:Ee;
        [destruct (ell_eqb e w) eqn:Eq|]].
      2:{ cbn [bind]. intros [= <-]. right. split; [discriminate|]. simpl. rewrite Eu, Ee.
          split; [exact En|]. split; [reflexivity|]. exists e, w. auto. }
      all: destruct (ellps_to_ecef lib _ _); cbn [bind]; [|discriminate]; unfold ecef_to_wgs84; rewrite Ew; cbn [bind];
        intros [= <-]; right; split; [discriminate|]; simpl; split; [reflexivity|]; split; [reflexivity|]; exists w, w; auto.
    - unfold enu_to_wgs84. destruct (enu_to_ecef lib _ _); cbn [bind]; [|discriminate].
      unfold ecef_to_wgs84. destruct (wgs84 lib) as [w|] eqn:Ew; cbn [bind]; [|discriminate].
      intros [= <-]; right; split; [discriminate|]; simpl; split; [reflexivity|]; split; [reflexivity|]; exists w, w; auto.
    - unfold ecef_to_wgs84. destruct (wgs84 lib) as [w|] eqn:Ew; cbn [bind]; [|discriminate].
      intros [= <-]; right; split; [discriminate|]; simpl; split; [reflexivity|]; split; [reflexivity|]; exists w, w; auto.
  Qed.

  (** to_enu *)
  Definition enu_contract : Prop :=
    forall w, wgs84 lib = Ok w ->
    (* ecef2enu is inverted by enu2ecef on WGS84 (given as such or by default) *)
    (forall o x y z lat0 lon0 h0, o = None \/ o = Some w ->
       let g := ecef2enu lib x y z lat0 lon0 h0 in
       enu2ecef lib o (vx g) (vy g) (vz g) lat0 lon0 h0 = V3 x y z) /\
    (* geodetic2enu goes through the position on WGS84 *)
    (forall lat lon alt lat0 lon0 h0,
       geodetic2enu lib lat lon alt lat0 lon0 h0 =
       (do p <- geodetic2ecef lib (Some w) lat lon alt;
        Ok (ecef2enu lib (vx p) (vy p) (vz p) lat0 lon0 h0))).

  Lemma to_enu_positions d d' lon0 lat0 alt0 w :
    enu_contract -> wgs84 lib = Ok w ->
    (c_name (d_crs d) = ECEF /\ c_ellps (d_crs d) = None) \/
    (c_name (d_crs d) = ELLPS /\ c_ellps (d_crs d) = Some w) ->
    to_enu lib lon0 lat0 alt0 d = Ok d' ->
    positions d' = positions d /\ c_name (d_crs d') = ENUref /\
    c_enu (d_crs d') = Some {| lon_org := lon0; lat_org := lat0; alt_org := alt0; enu_ellps := w |}.
  Proof.
    intros Hc Ew Hcase. destruct (Hc w Ew) as [H1 H2].
    unfold to_enu, positions, pack.
    destruct Hcase as [[En Ee]|[En Ee]]; rewrite En.
    - unfold ecef_to_enu. rewrite Ew. cbn [bind]. intros [= <-]. simpl.
      split; [|auto]. rewrite mapM_map. apply mapM_ext. intros r _. unfold position. rewrite En. simpl.
      rewrite Ee, (H1 None) by auto. f_equal. apply vec_eta.
    - unfold wgs84_to_enu. rewrite Ew. cbn [bind].
      destruct (mapM _ _) as [rs|] eqn:E; cbn [bind]; [|discriminate]. intros [= <-]. simpl.
      split; [|auto].
      revert rs E. induction (rows (d_coords d)) as [|r l IH]; simpl; intros rs E.
      + injection E as <-. reflexivity.
      + rewrite H2 in E. unfold position at 2. rewrite En, Ee.
        destruct (geodetic2ecef lib (Some w) (vy r) (vx r) (vz r)) as [q|]; cbn [bind] in *; [|discriminate].
        match type of E with bind (mapM ?f l) _ = _ => destruct (mapM f l) as [rs'|] end;
          cbn [bind] in *; [|discriminate].
        injection E as <-. cbn [mapM]. rewrite (IH _ eq_refl).
        unfold position at 1. simpl. rewrite Ee, (H1 (Some w)) by auto. now rewrite vec_eta.
  Qed.

  (** ** to_lon180 and to_ellipsoid_height *)
  Lemma lon180_rows (d : dataset A) :
    Forall2 (fun r r' => vy r' = vy r /\ vz r' = vz r /\
               (vx r' = vx r \/ vx r' = vx r - nofZ 360%Z))
      (rows (d_coords d)) (rows (d_coords (to_lon180 d))) /\
    d_crs (to_lon180 d) = d_crs d /\
    ((c_name (d_crs d) = ECEF \/ c_name (d_crs d) = CART) -> to_lon180 d = d).
  Proof.
    assert (Hid : forall l : list (vec A), Forall2 (fun r r' => vy r' = vy r /\ vz r' = vz r /\
               (vx r' = vx r \/ vx r' = vx r - nofZ 360%Z)) l l).
    { induction l; constructor; auto. }
    assert (Hw : forall p : coords A, Forall2 (fun r r' => vy r' = vy r /\ vz r' = vz r /\
               (vx r' = vx r \/ vx r' = vx r - nofZ 360%Z)) (rows p) (rows (wrap180 p))).
    { intros [i l]. simpl. induction l; simpl; constructor; auto. simpl. destruct (_ <? _); auto. }
    unfold to_lon180. destruct (c_name (d_crs d)); simpl; (split; [solve [apply Hw|apply Hid]|]);
      (split; [reflexivity|]); intros [H|H]; solve [discriminate|reflexivity].
  Qed.

  Lemma height_rows (d d' : dataset A) :
    c_name (d_crs d) = ELLPS \/ c_name (d_crs d) = ENUref ->
    to_ellipsoid_height lib d = Ok d' ->
    Forall2 (fun r r' => vx r' = vx r /\ vy r' = vy r /\
       vz r' = vz r + (match c_vdatum (d_crs d) with
                       | VD_ELLPS => n0
                       | vd => geoid lib vd (vy r) (vx r) end))
      (rows (d_coords d)) (rows (d_coords d')) /\
    c_name (d_crs d') = c_name (d_crs d) /\ c_ellps (d_crs d') = c_ellps (d_crs d) /\
    c_enu (d_crs d') = c_enu (d_crs d) /\ c_vdatum (d_crs d') = VD_ELLPS /\
    ((forall x : num A, x + n0 = x) -> to_ellipsoid_height lib d' = Ok d').
  Proof.
    intros Hn. unfold to_ellipsoid_height.
    assert ((match c_name (d_crs d) with
             | CART | ECEF => Ok d
             | _ => pack (ellipsoid_height lib (d_coords d) (d_crs d)) end)
            = pack (ellipsoid_height lib (d_coords d) (d_crs d))) as ->
      by (destruct Hn as [-> | ->]; reflexivity).
    unfold ellipsoid_height.
    destruct (forallb _ _) eqn:Ef; [|discriminate]. cbn [negb].
    destruct (is_int (d_coords d) && _)%bool; [discriminate|].
    unfold pack at 1; cbn [bind]. intros [= <-]. simpl.
    split; [|split; [reflexivity|split; [reflexivity|split; [reflexivity|split; [reflexivity|]]]]].
    - clear Ef. induction (rows (d_coords d)); simpl; constructor; auto.
      simpl. unfold geoid_height. destruct (c_vdatum (d_crs d)); auto.
    - intros H0.
      assert (Hl : forallb (fun r => latlon_ok lib (vy r) (vx r))
        (map (fun r => V3 (vx r) (vy r) (vz r + geoid_height lib (c_vdatum (d_crs d)) (vy r) (vx r)))
             (rows (d_coords d))) = true).
      { revert Ef. induction (rows (d_coords d)); simpl; auto. rewrite !andb_true_iff. tauto. }
      rewrite Hl. cbn [negb]. rewrite andb_false_r.
      destruct Hn as [-> | ->]; cbn [pack bind fst snd]; unfold pack; cbn [bind fst snd];
        do 3 f_equal; rewrite map_map; apply map_ext; intros r; simpl; now rewrite H0.
  Qed.

  Lemma enu_pipeline_ok (d : dataset A) :
    c_name (d_crs d) = ENUref -> c_vdatum (d_crs d) = VD_ELLPS ->
    (forall x : num A, x + n0 = x) ->
    (forall r, In r (rows (d_coords d)) ->
       (nofZ 180%Z <? vx r) = false /\ latlon_ok lib (vy r) (vx r) = true) ->
    to_ellipsoid_height lib (to_lon180 d) = Ok d.
  Proof.
    intros En Ev H0 Hr. unfold to_lon180. rewrite En.
    assert (Hw : wrap180 (d_coords d) = d_coords d).
    { unfold wrap180. destruct (d_coords d) as [i l]. simpl in *. f_equal.
      transitivity (map (fun r : vec A => r) l); [|apply map_id].
      apply map_ext_in. intros r Hin. destruct (Hr r Hin) as [-> _]. apply vec_eta. }
    rewrite Hw. unfold to_ellipsoid_height. cbn [d_crs d_coords]. rewrite En. unfold pack, ellipsoid_height.
    assert (forallb (fun r => latlon_ok lib (vy r) (vx r)) (rows (d_coords d)) = true) as ->.
    { apply forallb_forall. intros r Hin. now apply Hr. }
    rewrite Ev. cbn [negb is_vd_ellps]. rewrite andb_false_r. cbn [bind fst snd].
    destruct d as [[i l] [cn ce cu cv]]. simpl in *. subst. do 3 f_equal.
    transitivity (map (fun r : vec A => r) l); [|apply map_id].
    apply map_ext. intros r. rewrite H0. apply vec_eta.
  Qed.

  Lemma dataset_invariant read_csv c v (d d' : dataset A) ks :
    get_dataset lib read_csv c v = Ok d -> apply_convs ks d = Ok d' -> crs_wf (d_crs d').
  Proof.
    unfold get_dataset. destruct (read_coords read_csv c v); cbn [bind]; [|discriminate].
    destruct (get_crs lib c _) as [r|] eqn:E; cbn [bind]; [|discriminate].
    intros [= <-]. apply wf_convs. exact (get_crs_wf _ _ _ E).
  Qed.

  Lemma dataset_no_attribute_error read_csv c v (d d' : dataset A) ks k :
    wgs84 lib <> Err AttributeError ->
    (forall o a b c, geodetic2ecef lib o a b c <> Err AttributeError) ->
    (forall a b c d e f, geodetic2enu lib a b c d e f <> Err AttributeError) ->
    get_dataset lib read_csv c v = Ok d -> apply_convs ks d = Ok d' ->
    apply_conv k d' <> Err AttributeError.
  Proof.
    intros H1 H2 H3 E1 E2. apply wf_no_attribute_error; auto.
    exact (dataset_invariant _ _ _ _ _ _ E1 E2).
  Qed.

  Lemma enu_same_ellipsoid c v r :
    get_crs lib c v = Ok r -> c_name r = ENUref ->
    exists e u, c_ellps r = Some e /\ c_enu r = Some u /\ enu_ellps u = e.
  Proof.
    unfold get_crs. destruct (read_ref c v) as [n|]; cbn [bind]; [|discriminate].
    destruct n.
    - intros [= <-]. discriminate.
    - unfold create_ellipsoid_crs.
      destruct (read_ellipsoid_parameters lib c v) as [[[a b] d]|]; cbn [bind]; [|discriminate].
      destruct (read_vdatum c v); cbn [bind]; [|discriminate].
      destruct (mk_ellipsoid lib a b d); cbn [bind]; [|discriminate].
      intros [= <-]. discriminate.
    - unfold create_local_enu_crs.
      destruct (read_ellipsoid_parameters lib c v) as [[[a b] d]|]; cbn [bind]; [|discriminate].
      destruct (read_enu_parameters c v) as [[[l1 l2] l3]|]; cbn [bind]; [|discriminate].
      destruct (read_vdatum c v); cbn [bind]; [|discriminate].
      destruct (mk_ellipsoid lib a b d); cbn [bind]; [|discriminate].
      unfold mk_crs. destruct (ell_eqb _ _); [|discriminate]. intros [= <-] _.
      do 2 eexists. simpl. auto.
    - intros [= <-]. discriminate.
  Qed.

  Lemma observer_labels read_csv c (o o' : observer A) :
    get_observer lib read_csv c = Ok o -> observer_to_wgs84 lib o = Ok o' ->
    (c_name (d_crs (o_dataset o')) = CART /\
     o_names o' = ["x_mes"; "y_mes"; "z_mes"] /\ o_units o' = ["(m)"; "(m)"; "(m)"]) \/
    (is_wgs84 (d_crs (o_dataset o')) /\
     o_names o' = ["lon_mes"; "lat_mes"; "alt_mes"] /\
     o_units o' = ["(degree_east)"; "(degree_north)"; "(m)"]).
  Proof.
    unfold get_observer. destruct (get_dataset lib read_csv c _) as [d|]; cbn [bind]; [|discriminate].
    intros [= <-]. unfold observer_to_wgs84, mk_observer.
    destruct (obs_labels (c_name (d_crs d))) as [n u] eqn:El. cbn [o_dataset].
    destruct (to_wgs84 lib d) as [d'|] eqn:E; cbn [bind]; [|discriminate]. intros [= <-].
    cbn [o_dataset o_names o_units].
    destruct (to_wgs84_label _ _ E) as [[Hc ->]|[Hc Hw]].
    - left. rewrite Hc in El. injection El as <- <-. auto.
    - right. destruct (c_name (d_crs d)); [congruence|..]; injection El as <- <-; auto.
  Qed.

  Lemma setup_layering (default : yaml A) (user arg : option (yaml A)) (v : view) (y : yaml A) :
    (forall a, arg = Some a -> descend a v = Found y ->
       first (setup default user arg) v = Ok y) /\
    (forall u, user = Some u -> (forall a, arg = Some a -> descend a v = Missing) ->
       descend u v = Found y -> first (setup default user arg) v = Ok y) /\
    ((forall a, arg = Some a -> descend a v = Missing) ->
     (forall u, user = Some u -> descend u v = Missing) ->
     descend default v = Found y -> first (setup default user arg) v = Ok y) /\
    ((forall a, arg = Some a -> descend a v = Missing) ->
     (forall u, user = Some u -> descend u v = Missing) ->
     descend default v = Missing ->
     first (setup default user arg) v = Err ConfigNotFoundError).
  Proof.
    unfold setup. repeat apply conj.
    - intros a -> H. simpl. now rewrite H.
    - intros u -> Ha H. destruct arg as [a|]; simpl; [rewrite (Ha a eq_refl)|]; now rewrite H.
    - intros Ha Hu H. destruct arg as [a|]; simpl; [rewrite (Ha a eq_refl)|];
        (destruct user as [u|]; simpl; [rewrite (Hu u eq_refl)|]; now rewrite H).
    - intros Ha Hu H. destruct arg as [a|]; simpl; [rewrite (Ha a eq_refl)|];
        (destruct user as [u|]; simpl; [rewrite (Hu u eq_refl)|]; now rewrite H).
  Qed.
End PCrs.

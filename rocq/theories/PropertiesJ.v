(** * What the code does instead: exact forms of the claims refuted in C42, C43,
      C47, C52 and C56, for all inputs (every arithmetic) *)
From Coq Require Import String List ZArith Bool Arith Lia.
From Verif Require Import Base MUtils MConfig MCrs MDataset MEdge MFace MHull MPoly MCli PPoly PCrs PCli PRun Examples ExamplesIO PropertiesB PropertiesC.
Import ListNotations.
Local Open Scope string_scope.
Local Open Scope list_scope.

(** ** C42: to_enu reads geographic data on WGS84, whatever their ellipsoid *)
Definition on_ellps {A} (d : dataset A) (e : ellipsoid A) : dataset A :=
  {| d_coords := d_coords d;
     d_crs := {| c_name := c_name (d_crs d); c_ellps := Some e; c_enu := c_enu (d_crs d); c_vdatum := c_vdatum (d_crs d) |} |}.
Theorem C42_reads_wgs84 :
  forall (A : arith) (lib : geolib A) (d d' : dataset A) lon0 lat0 alt0 w,
  enu_contract lib -> wgs84 lib = Ok w -> c_name (d_crs d) = ELLPS ->
  to_enu lib lon0 lat0 alt0 d = Ok d' ->
  exists d2, to_enu lib lon0 lat0 alt0 (on_ellps d w) = Ok d2 /\ d_coords d2 = d_coords d' /\
    positions lib d2 = positions lib (on_ellps d w).
Proof.
  intros A lib d d' lon0 lat0 alt0 w Hc Hw Hn E.
  assert (K : exists d2, to_enu lib lon0 lat0 alt0 (on_ellps d w) = Ok d2 /\ d_coords d2 = d_coords d').
  { revert E. unfold to_enu, pack, wgs84_to_enu. cbn [on_ellps d_crs d_coords c_name]. rewrite Hn, Hw. cbn [bind].
    destruct (mapM _ _) as [rs|]; cbn [bind]; [|discriminate]. intros [= <-]. eexists. split; reflexivity. }
  destruct K as (d2 & E2 & Ec). exists d2. split; [exact E2|]. split; [exact Ec|].
  apply (to_enu_positions lib (on_ellps d w) d2 lon0 lat0 alt0 w Hc Hw); [|exact E2]. right. split; [exact Hn|reflexivity].
Qed.
Print Assumptions C42_reads_wgs84.
(** a geographic dataset on a sphere *)
Example C42_reads_case : exists d',
  let d := ds false [zv 200 20 30] (ellps_crs toy_sphere VD_ELLPS) in
  enu_contract toy2 /\ wgs84 toy2 = Ok toy_wgs84 /\ c_name (d_crs d) = ELLPS /\
  to_enu toy2 (1%Z : num ZA) 2%Z 3%Z d = Ok d' /\ rows (d_coords d') <> [].
Proof. eexists. cbv zeta. split; [exact toy2_enu_contract|]. split; [reflexivity|]. split; [reflexivity|]. split; [reflexivity|discriminate]. Qed.

(** ** C43: every easting above 180 m is moved, every northing that is not a
    latitude makes the run fail *)
Theorem C43_enu_exact :
  forall (A : arith) (lib : geolib A) (d : dataset A), c_name (d_crs d) = ENUref ->
  let wrapped x := if nltb (nofZ 180%Z) x then nsub x (nofZ 360%Z) else x in
  (forall r, In r (rows (d_coords d)) -> latlon_ok lib (vy r) (wrapped (vx r)) = false ->
     to_ellipsoid_height lib (to_lon180 d) = Err RangeError) /\
  (forall d', to_ellipsoid_height lib (to_lon180 d) = Ok d' ->
     Forall2 (fun r r' => vx r' = wrapped (vx r) /\ vy r' = vy r /\
        vz r' = nadd (vz r) (match c_vdatum (d_crs d) with
                             | VD_ELLPS => n0
                             | vd => geoid lib vd (vy r) (wrapped (vx r)) end))
       (rows (d_coords d)) (rows (d_coords d'))).
Proof.
  intros A lib d Hn wrapped. split.
  - intros r Hr Hl. unfold to_ellipsoid_height, to_lon180. rewrite Hn. cbn [d_crs d_coords]. rewrite Hn. unfold ellipsoid_height.
    destruct (forallb _ _) eqn:Ef; [|reflexivity]. exfalso. rewrite forallb_forall in Ef.
    specialize (Ef (V3 (wrapped (vx r)) (vy r) (vz r))). cbn [vx vy] in Ef. rewrite Ef in Hl; [discriminate|].
    cbn [wrap180 rows]. apply in_map_iff. exists r. auto.
  - intros d' E. assert (Hn' : c_name (d_crs (to_lon180 d)) = ENUref) by (unfold to_lon180; rewrite Hn; exact Hn).
    destruct (height_rows lib (to_lon180 d) d' (or_intror Hn') E) as [K _].
    assert (Ec : d_crs (to_lon180 d) = d_crs d) by (unfold to_lon180; rewrite Hn; reflexivity). rewrite Ec in K.
    assert (Er : rows (d_coords (to_lon180 d)) = map (fun r => V3 (wrapped (vx r)) (vy r) (vz r)) (rows (d_coords d)))
      by (unfold to_lon180; rewrite Hn; reflexivity).
    rewrite Er in K. clear Er. revert K. generalize (rows (d_coords d')). induction (rows (d_coords d)) as [|r l IH]; intros l' K; inversion K as [|? ? ? ? (K1 & K2 & K3) K4]; subst; constructor.
    + cbn [vx vy vz] in *. auto.
    + apply IH. assumption.
Qed.
Print Assumptions C43_enu_exact.
(** an easting of 200 m becomes -160 *)
Example C43_exact_case : exists d',
  to_ellipsoid_height toy (to_lon180 (ds false [zv 200 20 30; zv 5 6 7] enu_crs)) = Ok d' /\
  rows (d_coords d') = [zv (-160) 20 30; zv 5 6 7].
Proof. eexists. split; reflexivity. Qed.

(** ** C47: what a file omits in its i-th mass comes from the i-th mass below *)
Theorem C47_filled_from_below :
  forall (A : arith) (lib : geolib A) (read_csv : string -> option (res (coords A))) (top : yaml A) (rest : sources A) ms i m,
  get_masses lib read_csv (top :: rest) = Ok ms -> nth_error ms i = Some m ->
  (descend top [KS "masses"; KI i; KS "density"] = Missing ->
     get_float rest [KS "masses"; KI i; KS "density"] = Ok (m_density m)) /\
  (descend top [KS "masses"; KI i; KS "gravity_constant"] = Missing ->
     get_float rest [KS "masses"; KI i; KS "gravity_constant"] = Ok (m_Gc m)).
Proof.
  intros A lib rc top rest ms i m E Hi. unfold get_masses in E.
  destruct (iter_list (top :: rest) [KS "masses"]) as [vs|] eqn:Ev; cbn [bind] in E; [|discriminate].
  assert (Hv : exists v, nth_error vs i = Some v /\
    get_float (top :: rest) (v ++ [KS "density"])%list = Ok (m_density m) /\
    get_float (top :: rest) (v ++ [KS "gravity_constant"])%list = Ok (m_Gc m)).
  { clear Ev. revert ms i E Hi. induction vs as [|v vs IH]; cbn [mapM]; intros ms i E Hi.
    - injection E as <-. destruct i; discriminate.
    - destruct (get_dataset lib rc (top :: rest) v) as [ds|]; cbn [bind] in E; [|discriminate].
      destruct (get_float (top :: rest) (v ++ [KS "density"])) as [rho|] eqn:E1; cbn [bind] in E; [|discriminate].
      destruct (get_float (top :: rest) (v ++ [KS "gravity_constant"])) as [g|] eqn:E2; cbn [bind] in E; [|discriminate].
      destruct (mapM _ vs) as [ms'|] eqn:E3; cbn [bind] in E; [|discriminate]. injection E as <-.
      destruct i as [|i]; cbn [nth_error] in *.
      + injection Hi as <-. exists v. auto.
      + exact (IH ms' i eq_refl Hi). }
  destruct Hv as (v & Hv & H1 & H2).
  assert (v = [KS "masses"; KI i]) as ->.
  { unfold iter_list in Ev. destruct (resolve_all _ _) as [ys|]; cbn [bind] in Ev; [|discriminate].
    destruct (is_map_all ys); [destruct (existsb _ ys); [discriminate|]; injection Ev as <-; destruct i; discriminate|].
    destruct ys as [|[| | | | | l|] ys]; try discriminate. injection Ev as <-.
    rewrite nth_error_map in Hv. destruct (nth_error (seq 0 (List.length l)) i) as [j|] eqn:Ej; [|discriminate].
    assert (j = i) as ->.
    { assert (i < List.length (seq 0 (List.length l))) by (apply nth_error_Some; congruence). rewrite seq_length in H.
      rewrite (nth_error_nth' _ 0), seq_nth in Ej by (rewrite ?seq_length; assumption). injection Ej as <-. reflexivity. }
    injection Hv as <-. reflexivity. }
  cbn [app] in H1, H2. split; intros Hm; [rewrite <- H1|rewrite <- H2]; unfold get_float; cbn [first]; rewrite Hm; reflexivity.
Qed.
Print Assumptions C47_filled_from_below.
Example C47_filled_case :
  let top := yconfig [YMap [("gravity_constant", yint 1); ("points", YList tetra_ypoints);
                            ("crs", ycrs "cart" "ellps")]] YNull in
  let low := yconfig [ymass 2670 tetra_ypoints2] YNull in
  descend top [KS "masses"; KI 0; KS "density"] = Missing /\
  exists ms m, get_masses toy (fun _ => None) [top; low] = Ok ms /\ nth_error ms 0 = Some m /\ m_density m = 2670%Z.
Proof. cbv zeta. split; [reflexivity|]. do 2 eexists. split; [vm_compute; reflexivity|]. split; vm_compute; reflexivity. Qed.

(** ** C56: every key that show prints is mandatory *)
Theorem C56_every_key :
  forall (A : arith) (E : env A) (c : sources A) output gradient,
  (forall m v e, (exists ms, iter_list c [KS "masses"] = Ok ms /\ In m ms) -> In v show_mass_views ->
     first c (m ++ v)%list = Err e -> exists e', run E c output gradient = ([], Err e')) /\
  (forall v e, In v show_obs_views ->
     first c (KS "observers" :: v) = Err e -> exists e', run E c output gradient = ([], Err e')).
Proof.
  intros A E c out g.
  assert (MF : forall X Y (f : X -> res Y) l x e, In x l -> f x = Err e -> exists e', mapM f l = Err e').
  { intros X Y f l x e. induction l as [|y l IH]; intros [] Hx; cbn [mapM].
    - subst y. rewrite Hx. cbn [bind]. eauto.
    - destruct (f y); cbn [bind]; [|eauto]. destruct (IH H Hx) as [e' ->]. cbn [bind]. eauto. }
  assert (SH : forall e, show c = Err e -> exists e', run E c out g = ([], Err e')).
  { intros e He. unfold run, run_table. rewrite He. cbn [bind wlift wbind]. eauto. }
  split.
  - intros m v e (ms & Hms & Hm) Hv He.
    assert (S : exists e', show c = Err e').
    { unfold show. rewrite Hms. cbn [bind].
      destruct (MF _ _ (fun v => first c (m ++ v)%list) show_mass_views v e Hv He) as [e1 E1].
      destruct (MF _ _ (fun m => mapM (fun v => first c (m ++ v)%list) show_mass_views) ms m e1 Hm E1) as [e2 ->].
      cbn [bind]. eauto. }
    destruct S as [e' He']. exact (SH e' He').
  - intros v e Hv He.
    assert (S : exists e', show c = Err e').
    { unfold show. destruct (iter_list c [KS "masses"]) as [ms|]; cbn [bind]; [|eauto].
      match goal with |- context [bind (mapM ?f ms) _] => destruct (mapM f ms); cbn [bind]; [|eauto] end.
      destruct (MF _ _ (fun v => first c (KS "observers" :: v)) show_obs_views v e Hv He) as [e1 ->]. cbn [bind]. eauto. }
    destruct S as [e' He']. exact (SH e' He').
Qed.
Print Assumptions C56_every_key.
Example C56_every_case : exists m ms v e,
  iter_list no_vdatum [KS "masses"] = Ok ms /\ In m ms /\ In v show_mass_views /\ first no_vdatum (m ++ v)%list = Err e.
Proof.
  exists [KS "masses"; KI 0]. eexists. exists [KS "crs"; KS "vdatum"]. eexists.
  split; [vm_compute; reflexivity|]. split; [left; reflexivity|]. split; [cbn; tauto|vm_compute; reflexivity].
Qed.

(** ** C52: geographic observers enter the formulas as (longitude, latitude, height) *)
(** Each observer is at [pos] (ECEF) and has longitude, latitude and height [tr];
    the attraction is computed at the point whose Cartesian coordinates are the
    numbers [tr], not at [pos]. *)
Theorem C52_geodetic_exact :
  forall (A : arith) (E : env A) (c : sources A) gradient t o w,
  ecef2geodetic_inverts (en_lib E) -> wgs84 (en_lib E) = Ok w ->
  (forall e, ell_eqb e w = true -> e = w) ->
  run_table E c gradient = Ok t ->
  get_observer (en_lib E) (en_read_csv E) c = Ok o -> c_name (d_crs (o_dataset o)) <> CART ->
  exists ms m0 ps triples,
    prepared_masses E c = Ok ms /\ hd_error ms = Some m0 /\ bodies E ms = Ok ps /\
    positions (en_lib E) (o_dataset o) = mapM (fun tr => geodetic2ecef (en_lib E) (Some w) (vy tr) (vx tr) (vz tr)) triples /\
    Forall2 (fun tr row => exists G T,
        total (map (fun q => (q, (m_density m0, m_Gc m0))) ps) tr gradient = Ok (G, T) /\ row = row_of tr G T)
      triples (t_rows t).
Proof.
  intros A E c g t o w Hinv Hw Heq Ht Ho Hn.
  destruct (run_table_spec E c g t Ht) as (m0 & ms & ps & o' & Hm & Hb & Ho' & _ & _ & _ & Hr).
  exists (m0 :: ms), m0, ps, (rows (d_coords (o_dataset o'))). repeat (split; [solve [auto]|]).
  unfold prepared_observer in Ho'. rewrite Ho in Ho'. cbn [bind] in Ho'. unfold observer_to_wgs84 in Ho'.
  destruct (to_wgs84 (en_lib E) (o_dataset o)) as [d'|] eqn:Ed; cbn [bind] in Ho'; [|discriminate]. injection Ho' as <-. cbn [o_dataset] in *.
  split.
  - rewrite <- (to_wgs84_same_positions _ _ _ Hinv Ed).
    destruct (to_wgs84_label _ _ _ Ed) as [[Hx _]|[_ (K1 & K2 & e & w' & K3 & K4 & K5)]]; [contradiction|].
    rewrite Hw in K4. injection K4 as <-. assert (e = w) as -> by (destruct K5; auto).
    unfold positions. apply mapM_ext. intros r _. unfold position. rewrite K1, K3. reflexivity.
  - eapply Forall2_impl; [|exact Hr]. intros ob row [gts [Hg ->]].
    do 2 eexists. split; [|reflexivity]. unfold total. rewrite mapM_map. cbn [fst snd]. rewrite Hg. reflexivity.
Qed.
Print Assumptions C52_geodetic_exact.
Example C52_exact_case : exists t o,
  ecef2geodetic_inverts (en_lib toy_env) /\ wgs84 (en_lib toy_env) = Ok toy_wgs84 /\
  (forall e, ell_eqb e toy_wgs84 = true -> e = toy_wgs84) /\
  run_table toy_env (one_mass "ecef") false = Ok t /\
  get_observer (en_lib toy_env) (en_read_csv toy_env) (one_mass "ecef") = Ok o /\ c_name (d_crs (o_dataset o)) <> CART.
Proof.
  assert (H : match run_table toy_env (one_mass "ecef") false with Err _ => False | Ok t =>
              match get_observer (en_lib toy_env) (en_read_csv toy_env) (one_mass "ecef") with Err _ => False | Ok o =>
                c_name (d_crs (o_dataset o)) <> CART end end) by (vm_compute; discriminate).
  destruct (run_table toy_env (one_mass "ecef") false) as [t|]; [|destruct H].
  destruct (get_observer (en_lib toy_env) (en_read_csv toy_env) (one_mass "ecef")) as [o|]; [|destruct H].
  exists t, o. split; [exact toy_inverts|]. split; [reflexivity|]. split; [|auto].
  intros [n m a b] He. unfold ell_eqb in He. cbn [ell_name ell_model ell_a ell_b toy_wgs84] in He.
  apply andb_prop in He. destruct He as [He Hb]. apply andb_prop in He. destruct He as [He Ha]. apply andb_prop in He. destruct He as [Hn Hm].
  apply String.eqb_eq in Hn, Hm. apply Z.eqb_eq in Ha, Hb. subst. reflexivity.
Qed.


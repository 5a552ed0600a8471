(** * Properties C37 and C48: which values of the configuration count as given *)
From Coq Require Import List ZArith Bool Arith String Ascii.
Import ListNotations.
From Verif Require Import Base MUtils MConfig MCrs MDataset MCli PUtils PCrs PCli Examples ExamplesIO PropertiesB.
Local Open Scope string_scope.

(** the values that stand for "not given": null, false, zero, and the empty text, list
    and mapping *)
Inductive blank {A : arith} : yaml A -> Prop :=
| blank_null : blank YNull
| blank_false : blank (YBool false)
| blank_zero : blank (YInt 0)
| blank_float x : neqb x n0 = true -> blank (YFloat x)
| blank_text : blank (YStr "")
| blank_list : blank (YList [])
| blank_map : blank (YMap []).
(** the values that can serve as an axis, with the number they stand for *)
Inductive nonzero_number {A : arith} : yaml A -> num A -> Prop :=
| nz_int z : z <> 0%Z -> nonzero_number (YInt z) (nofZ z)
| nz_float x : neqb x n0 = false -> nonzero_number (YFloat x) x
| nz_true : nonzero_number (YBool true) (nofZ 1).

Lemma blank_truthy (A : arith) (y : yaml A) : blank y <-> truthy y = false.
Proof.
  split.
  - intros []; cbn [truthy]; try reflexivity. now rewrite H.
  - destruct y as [|b|z|x|s|l|m]; cbn [truthy].
    + constructor.
    + intros ->. constructor.
    + destruct (Z.eqb_spec z 0) as [->|]; [constructor|discriminate].
    + intros H. constructor. now destruct (neqb x n0).
    + destruct (String.eqb_spec s "") as [->|]; [constructor|discriminate].
    + destruct l; [constructor|discriminate].
    + destruct m; [constructor|discriminate].
Qed.
Lemma given_truthy (A : arith) (y : yaml A) : ~ blank y -> truthy y = true.
Proof. intros H. destruct (truthy y) eqn:E; [reflexivity|]. now apply blank_truthy in E. Qed.
Lemma number_given (A : arith) (y : yaml A) x : nonzero_number y x <-> ~ blank y /\ num_of_yaml y = Some x.
Proof.
  rewrite blank_truthy. split.
  - intros [z H|x' H|]; cbn [truthy num_of_yaml]; (split; [|reflexivity]).
    + destruct (Z.eqb_spec z 0); [contradiction|discriminate].
    + rewrite H. discriminate.
    + discriminate.
  - intros [H E]. destruct y as [|b|z|x'|s|l|m]; cbn [truthy num_of_yaml] in *; try discriminate.
    + destruct b; [|now destruct H]. injection E as <-. constructor.
    + injection E as <-. constructor. intros ->. now apply H.
    + injection E as <-. constructor. destruct (neqb x' n0); [now destruct H|reflexivity].
Qed.

(** every outcome of an ellipsoid given by a name and two axes *)
Theorem C37_given :
  forall (A : arith) (lib : geolib A) (c : sources A) (v : view) nm smaj smin vd,
  ref_ellps c v ->
  first c (v ++ [KS "name"])%list = Ok nm ->
  first c (v ++ [KS "semimajor_axis"])%list = Ok smaj ->
  first c (v ++ [KS "semiminor_axis"])%list = Ok smin ->
  vdatum_says c v vd ->
  let on e := {| c_name := ELLPS; c_ellps := Some e; c_enu := None; c_vdatum := vd |} in
  let flat a b := nonneg (ndiv (nsub a b) a) /\ nonneg (ndiv (nsub a b) (nadd a b)) in
  (* a name that is not a text, or not a known one *)
  (~ blank nm -> (forall s, nm = YStr s -> ~ In s (map fst (pm_models lib))) -> get_crs lib c v = Err ConfigValueError) /\
  (* no name: two non-zero numbers *)
  (forall a b, blank nm -> nonzero_number smaj a -> nonzero_number smin b ->
     (flat a b -> get_crs lib c v = Ok (on {| ell_name := ""; ell_model := ""; ell_a := a; ell_b := b |})) /\
     (~ flat a b -> get_crs lib c v = Err AssertionError)) /\
  (* both axes given, one of them no number *)
  (blank nm -> ~ blank smaj -> ~ blank smin ->
     (forall a, ~ nonzero_number smaj a) \/ (forall b, ~ nonzero_number smin b) -> get_crs lib c v = Err TypeError) /\
  (* an axis not given *)
  (blank nm -> blank smaj \/ blank smin -> forall w, wgs84 lib = Ok w -> get_crs lib c v = Ok (on w)).
Proof.
  intros A lib c v nm smaj smin vd Er En Ea Eb Ev on flat.
  destruct (C37_ellipsoid_selection A lib c v nm smaj smin vd Er En Ea Eb Ev) as (_ & K2 & K3 & K4).
  pose proof (ref_ellps_read _ _ Er) as Er'. pose proof (vdatum_says_read _ _ _ Ev) as Ev'.
  split; [|split; [|split]].
  - intros Hn Hs. apply given_truthy in Hn.
    assert (X : (exists s, nm = YStr s) \/ forall s, nm <> YStr s) by (destruct nm; eauto; right; discriminate).
    destruct X as [[s ->]|X].
    + apply (K2 s eq_refl); [|auto]. intros ->. discriminate Hn.
    + unfold get_crs. rewrite Er'. cbn [bind]. unfold create_ellipsoid_crs, read_ellipsoid_parameters, get_raw.
      rewrite En, Ea, Eb. cbn [bind]. rewrite Hn. destruct nm; try reflexivity. now destruct (X s).
  - intros a b Hn Ha Hb. apply number_given in Ha, Hb. destruct Ha as [Ha Na], Hb as [Hb Nb].
    apply K3; [now apply blank_truthy|now apply given_truthy|now apply given_truthy|assumption|assumption].
  - intros Hn Ha Hb Hx. apply blank_truthy in Hn.
    assert (X : num_of_yaml smaj = None \/ num_of_yaml smin = None).
    { destruct Hx as [Hx|Hx]; [left|right].
      - destruct (num_of_yaml smaj) as [x|] eqn:E; [|reflexivity]. destruct (Hx x). apply number_given. auto.
      - destruct (num_of_yaml smin) as [x|] eqn:E; [|reflexivity]. destruct (Hx x). apply number_given. auto. }
    apply given_truthy in Ha, Hb.
    unfold get_crs. rewrite Er'. cbn [bind]. unfold create_ellipsoid_crs, read_ellipsoid_parameters, get_raw.
    rewrite En, Ea, Eb, Ev'. cbn [bind]. rewrite Hn. cbn [bind]. unfold mk_ellipsoid. rewrite Ha, Hb. cbn [andb]. unfold axis_num.
    destruct X as [-> | ->]; [reflexivity|]. destruct (num_of_yaml smaj); reflexivity.
  - intros Hn Hx w Hw. apply (K4 w); [now apply blank_truthy| |exact Hw]. rewrite <- !blank_truthy. exact Hx.
Qed.
Print Assumptions C37_given.
(** an axis of 0 is an axis not given *)
Example C37_given_case :
  let ell a b : sources ZA := [YMap [("ref", YStr "ellps"); ("vdatum", YStr "ellps"); ("name", YNull); ("semimajor_axis", a); ("semiminor_axis", b)]] in
  (forall a b, ref_ellps (ell a b) [] /\ vdatum_says (ell a b) [] VD_ELLPS) /\
  blank (A := ZA) YNull /\ blank (A := ZA) (YInt 0) /\ nonzero_number (A := ZA) (YInt 9) (9 : num ZA)%Z /\
  get_crs toy (ell (YInt 0) (YInt 8)) [] = Ok {| c_name := ELLPS; c_ellps := Some toy_wgs84; c_enu := None; c_vdatum := VD_ELLPS |} /\
  get_crs toy (ell (YStr "9") (YInt 8)) [] = Err TypeError.
Proof.
  cbv zeta. split.
  - intros a b. split; [left; exists "ellps"; split; [reflexivity|apply upper_spec; reflexivity]|].
    left; exists "ellps"; split; [reflexivity|left; split; [apply upper_spec; reflexivity|reflexivity]].
  - split; [constructor|]. split; [constructor|]. split; [apply (nz_int (A := ZA) 9); discriminate|]. split; reflexivity.
Qed.

(** the source of the coordinates, all three keys being present: the first that is
    given, in this order, and only that one *)
Theorem C48_given :
  forall (A : arith) (read_csv : string -> option (res (coords A))) (c : sources A) (v : view) pts fp gr,
  first c (v ++ [KS "points"])%list = Ok pts ->
  first c (v ++ [KS "file_path"])%list = Ok fp ->
  first c (v ++ [KS "grid"])%list = Ok gr ->
  (~ blank pts -> read_coords read_csv c v = array_of_yaml pts) /\
  (blank pts -> ~ blank fp ->
     (forall s, fp = YStr s ->
        (forall r, read_csv s = Some r -> read_coords read_csv c v = r) /\
        (read_csv s = None -> read_coords read_csv c v = Err FileNotFoundError)) /\
     ((forall s, fp <> YStr s) -> read_coords read_csv c v = Err ConfigTypeError)) /\
  (blank pts -> blank fp -> ~ blank gr -> forall tx ty tz,
     get_triple c (v ++ [KS "grid"; KS "xstart_xend_xstep"])%list = Ok tx ->
     get_triple c (v ++ [KS "grid"; KS "ystart_yend_ystep"])%list = Ok ty ->
     get_triple c (v ++ [KS "grid"; KS "zstart_zend_zstep"])%list = Ok tz ->
     read_coords read_csv c v = mgrid_points tx ty tz) /\
  (blank pts -> blank fp -> blank gr -> read_coords read_csv c v = Err TypeError).
Proof.
  intros A csv c v pts fp gr Ep Ef Eg. unfold read_coords, view_bool, get_str. rewrite Ep, Ef, Eg. cbn [bind].
  split; [intros H; now rewrite (given_truthy _ _ H)|]. split; [|split].
  - intros Hp Hf. apply blank_truthy in Hp. rewrite Hp, (given_truthy _ _ Hf). split.
    + intros s ->. cbn [bind]. split; [intros r ->|intros ->]; reflexivity.
    + intros X. destruct fp; try reflexivity. now destruct (X s).
  - intros Hp Hf Hg tx ty tz Ex Ey Ez. apply blank_truthy in Hp, Hf. rewrite Hp, Hf, (given_truthy _ _ Hg), Ex, Ey, Ez. reflexivity.
  - intros Hp Hf Hg. apply blank_truthy in Hp, Hf, Hg. now rewrite Hp, Hf, Hg.
Qed.
Print Assumptions C48_given.
Example C48_given_case :
  let c : sources ZA := [YMap [("points", YList []); ("file_path", YInt 3); ("grid", YMap [("x", yint 1)])]] in
  blank (A := ZA) (YList []) /\ ~ blank (A := ZA) (YInt 3) /\ read_coords (fun _ => None) c [] = Err ConfigTypeError.
Proof. cbv zeta. split; [constructor|]. split; [intros H; inversion H|reflexivity]. Qed.

(** ** C48: the points as read *)
(** the number a value of the file stands for, and whether it is an integer *)
Inductive reads {A : arith} : yaml A -> num A -> bool -> Prop :=
| reads_int z : reads (YInt z) (nofZ z) true
| reads_float x : reads (YFloat x) x false
| reads_false : reads (YBool false) (nofZ 0) true
| reads_true : reads (YBool true) (nofZ 1) true.
(** a row of three numbers, in the order x, y, z *)
Definition reads_row {A : arith} (y : yaml A) (p : vec A) (int : bool) : Prop :=
  exists a b c ia ib ic, y = YList [a; b; c] /\ reads a (vx p) ia /\ reads b (vy p) ib /\ reads c (vz p) ic /\
    (int = true <-> ia = true /\ ib = true /\ ic = true).
Lemma reads_ok (A : arith) (y : yaml A) x i : reads y x i <-> num_of_yaml y = Some x /\ is_yint y = i.
Proof.
  split.
  - intros []; split; reflexivity.
  - intros [H <-]. destruct y as [|b|z|x'|s|l|m]; try discriminate; cbn [num_of_yaml is_yint] in *; injection H as <-; [destruct b|..]; constructor.
Qed.
Lemma reads_row_ok (A : arith) (y : yaml A) p i : reads_row y p i <-> row_of_yaml y = Ok p /\ row_is_int y = i.
Proof.
  split.
  - intros (a & b & c & ia & ib & ic & -> & Ha & Hb & Hc & Hi). apply reads_ok in Ha, Hb, Hc.
    destruct Ha as [Na Ia], Hb as [Nb Ib], Hc as [Nc Ic]. cbn [row_of_yaml row_is_int forallb]. rewrite Na, Nb, Nc, Ia, Ib, Ic.
    split; [now destruct p|]. rewrite andb_true_r. destruct i, ia, ib, ic; try reflexivity; cbn; exfalso; try (now destruct (proj1 Hi eq_refl) as (? & ? & ?)); discriminate (proj2 Hi (conj eq_refl (conj eq_refl eq_refl))).
  - intros [H <-]. destruct y as [| | | | |[|a [|b [|c [|d l]]]]|]; try discriminate. cbn [row_of_yaml row_is_int forallb] in *.
    destruct (num_of_yaml a) as [x|] eqn:Ea; [|discriminate]. destruct (num_of_yaml b) as [y|] eqn:Eb; [|discriminate].
    destruct (num_of_yaml c) as [z|] eqn:Ec; [|discriminate]. injection H as <-.
    exists a, b, c, (is_yint a), (is_yint b), (is_yint c). cbn [vx vy vz]. rewrite !reads_ok. split; [reflexivity|]. do 3 (split; [auto|]).
    rewrite andb_true_r, !andb_true_iff. reflexivity.
Qed.
(** given points are read in order, one row of three numbers each, and nothing else is
    accepted; the array holds integers when every number is one *)
Theorem C48_points :
  forall (A : arith) (read_csv : string -> option (res (coords A))) (c : sources A) (v : view) l co,
  first c (v ++ [KS "points"])%list = Ok (YList l) -> l <> [] ->
  read_coords read_csv c v = Ok co <->
  Forall2 (fun y p => exists int, reads_row y p int) l (rows co) /\
  (is_int co = true <-> forall y, In y l -> exists p, reads_row y p true).
Proof.
  intros A csv c v l co E Hl. assert (ER : read_coords csv c v = array_of_yaml (YList l)).
  { unfold read_coords, view_bool. rewrite E. cbn [bind]. destruct l; [contradiction|reflexivity]. }
  rewrite ER. cbn [array_of_yaml].
  assert (M : forall rs, mapM row_of_yaml l = Ok rs <-> Forall2 (fun y p => exists int, reads_row y p int) l rs).
  { clear E Hl ER. induction l as [|y l IH]; intros rs; cbn [mapM].
    - split; [intros [= <-]; constructor|]. intros H. inversion H. reflexivity.
    - split.
      + destruct (row_of_yaml y) as [p|] eqn:Ey; cbn [bind]; [|discriminate]. destruct (mapM row_of_yaml l) as [ps|] eqn:El; cbn [bind]; [|discriminate].
        intros [= <-]. constructor; [exists (row_is_int y); now apply reads_row_ok|]. now apply IH.
      + intros H. inversion H as [|y' p l' ps [i Hi] Hr]; subst. apply reads_row_ok in Hi. destruct Hi as [-> _]. cbn [bind].
        apply IH in Hr. rewrite Hr. reflexivity. }
  assert (I : forall rs, mapM row_of_yaml l = Ok rs -> (forallb row_is_int l = true <-> forall y, In y l -> exists p, reads_row y p true)).
  { intros rs Hr. rewrite forallb_forall. apply M in Hr. split.
    - intros H y Hy. destruct (in_split y l Hy) as (l1 & l2 & ->). apply Forall2_app_inv_l in Hr. destruct Hr as (r1 & r2 & _ & Hr & _).
      inversion Hr as [|y' p l' ps [i Hi] _]; subst. exists p. apply reads_row_ok in Hi. apply reads_row_ok. split; [apply Hi|apply H, Hy].
    - intros H y Hy. destruct (H y Hy) as [p Hp]. apply reads_row_ok in Hp. apply Hp. }
  split.
  - destruct (mapM row_of_yaml l) as [rs|] eqn:El; cbn [bind]; [|discriminate]. intros [= <-]. cbn [rows is_int]. split; [now apply M|]. now apply (I rs).
  - intros [H1 H2]. apply M in H1. rewrite H1. cbn [bind]. pose proof (I _ H1) as H3. destruct co as [i rs]. cbn [rows is_int] in *.
    do 2 f_equal. destruct i, (forallb row_is_int l); try reflexivity; exfalso.
    + discriminate (proj2 H3 (proj1 H2 eq_refl)).
    + discriminate (proj2 H2 (proj1 H3 eq_refl)).
Qed.
Print Assumptions C48_points.
Example C48_points_case :
  let c : sources ZA := [YMap [("points", YList [YList [YInt 1; YInt 2; YInt 3]; YList [YInt 4; YFloat (5 : num ZA)%Z; YBool true]])]] in
  read_coords (fun _ => None) c [] = Ok {| is_int := false; rows := [zv 1 2 3; zv 4 5 1] |}.
Proof. reflexivity. Qed.

(** ** C49: the element type of a grid, in every arithmetic *)
(** a grid given by nine numbers: when it can be enumerated, its array holds integers
    exactly when the nine numbers are integers (C39: such an array cannot take a geoid
    height) *)
Theorem C49_integers :
  forall (A : arith) (read_csv : string -> option (res (coords A))) (c : sources A) (v : view) pts fp gr xs ys zs co,
  first c (v ++ [KS "points"])%list = Ok pts -> blank pts ->
  first c (v ++ [KS "file_path"])%list = Ok fp -> blank fp ->
  first c (v ++ [KS "grid"])%list = Ok gr -> ~ blank gr ->
  first c (v ++ [KS "grid"; KS "xstart_xend_xstep"])%list = Ok xs ->
  first c (v ++ [KS "grid"; KS "ystart_yend_ystep"])%list = Ok ys ->
  first c (v ++ [KS "grid"; KS "zstart_zend_zstep"])%list = Ok zs ->
  read_coords read_csv c v = Ok co ->
  exists px py pz ix iy iz, reads_row xs px ix /\ reads_row ys py iy /\ reads_row zs pz iz /\
    (is_int co = true <-> ix = true /\ iy = true /\ iz = true).
Proof.
  intros A csv c v pts fp gr xs ys zs co Ep Bp Ef Bf Eg Bg Ex Ey Ez H.
  assert (G : forall w y t, first c w = Ok y -> get_triple c w = Ok t -> exists p, reads_row y p (fst (fst (fst t)))).
  { intros w y t Ew. unfold get_triple, get_list. rewrite Ew. cbn [bind].
    destruct y as [| | | | |l|]; cbn [bind]; try discriminate. destruct l as [|a [|b [|d [|? ?]]]]; cbn [bind]; try discriminate.
    destruct (num_of_yaml a) as [x1|] eqn:E1; [|discriminate]. destruct (num_of_yaml b) as [x2|] eqn:E2; [|discriminate].
    destruct (num_of_yaml d) as [x3|] eqn:E3; [|discriminate]. intros [= <-]. exists (V3 x1 x2 x3). apply reads_row_ok.
    cbn [row_of_yaml]. rewrite E1, E2, E3. split; reflexivity. }
  revert H. unfold read_coords, view_bool. rewrite Ep, Ef, Eg. cbn [bind].
  apply blank_truthy in Bp, Bf. rewrite Bp, Bf, (given_truthy _ _ Bg).
  destruct (get_triple c (v ++ [KS "grid"; KS "xstart_xend_xstep"])%list) as [tx|] eqn:Tx; cbn [bind]; [|discriminate].
  destruct (get_triple c (v ++ [KS "grid"; KS "ystart_yend_ystep"])%list) as [ty|] eqn:Ty; cbn [bind]; [|discriminate].
  destruct (get_triple c (v ++ [KS "grid"; KS "zstart_zend_zstep"])%list) as [tz|] eqn:Tz; cbn [bind]; [|discriminate].
  destruct (G _ _ _ Ex Tx) as [px Px], (G _ _ _ Ey Ty) as [py Py], (G _ _ _ Ez Tz) as [pz Pz].
  destruct tx as [[[ix x1] x2] x3], ty as [[[iy y1] y2] y3], tz as [[[iz z1] z2] z3]. cbn [fst] in Px, Py, Pz.
  unfold mgrid_points, axis_size.
  destruct (neqb x3 n0); cbn [bind]; [discriminate|]. destruct (neqb y3 n0); cbn [bind]; [discriminate|]. destruct (neqb z3 n0); cbn [bind]; [discriminate|].
  destruct (_ || _)%bool; [discriminate|]. intros [= <-]. exists px, py, pz, ix, iy, iz. cbn [is_int].
  do 3 (split; [assumption|]). rewrite !andb_true_iff. tauto.
Qed.
Print Assumptions C49_integers.
Example C49_integers_case :
  let ax := YList [YInt 0; YInt 4; YInt 2] in
  let c : sources ZA := [YMap [("points", YNull); ("file_path", YStr "");
    ("grid", YMap [("xstart_xend_xstep", ax); ("ystart_yend_ystep", ax); ("zstart_zend_zstep", YList [YInt 0; YInt 1; YFloat (1 : num ZA)%Z])])]] in
  exists co, read_coords (fun _ => None) c [] = Ok co /\ is_int co = false /\ Datatypes.length (rows co) = 4.
Proof. eexists. split; [vm_compute; reflexivity|]. split; reflexivity. Qed.

(** * C94: a configuration file is read as it is written *)
From Coq Require Import List ZArith Bool Arith String Lia.
Import ListNotations.
From Verif Require PGrid.
From Verif Require Import Base MUtils MConfig MCrs MDataset MCli PUtils PCrs PCli Examples ExamplesIO PropertiesB PropertiesAP.
Local Open Scope string_scope.
Local Open Scope list_scope.

(** ** What a file says, in terms of the file alone *)
(** the mapping [y] has the entry [k: z] *)
Definition entry {A : arith} (y : yaml A) (k : string) (z : yaml A) : Prop :=
  exists l1 l2, y = YMap (l1 ++ (k, z) :: l2) /\ ~ In k (map fst l1).
(** [x] is the number under the key [k] *)
Definition number_at {A : arith} (y : yaml A) (k : string) (x : num A) : Prop :=
  exists z int, entry y k z /\ reads z x int.
(** the text under [k] is [name] in any spelling *)
Definition says {A : arith} (y : yaml A) (k name : string) : Prop :=
  exists s, entry y k (YStr s) /\ capitals_of s name.

Section Written.
  Context {A : arith} (lib : geolib A) (read_csv : string -> option (res (coords A))).

  (** one axis of a grid: three numbers start, stop, step (the x, y and z of [p]) with a
      step that is not 0 and n = ceil ((stop - start) / step) nodes start, start + step, ... *)
  Definition axis_written (y : yaml A) (k : string) (p : vec A) (int : bool) (n : nat) : Prop :=
    exists z, entry y k z /\ reads_row z p int /\ neqb (vz p) (nofZ 0) = false /\
      nceil (ndiv (nsub (vy p) (vx p)) (vz p)) = Z.of_nat n.
  Definition node (p : vec A) (i : nat) : num A := nadd (nmul (nofZ (Z.of_nat i)) (vz p)) (vx p).
  (** the nodes of the grid, z running fastest *)
  Definition grid_written (y : yaml A) (co : coords A) : Prop :=
    exists px py pz ix iy iz nx ny nz,
      axis_written y "xstart_xend_xstep" px ix nx /\ axis_written y "ystart_yend_ystep" py iy ny /\
      axis_written y "zstart_zend_zstep" pz iz nz /\ (is_int co = true <-> ix = true /\ iy = true /\ iz = true) /\
      List.length (rows co) = nx * ny * nz /\
      forall i j k, i < nx -> j < ny -> k < nz ->
        nth_error (rows co) ((i * ny + j) * nz + k) = Some {| vx := node px i; vy := node py j; vz := node pz k |}.
  (** the coordinates: a list of rows, or the contents of the file that is named, or a grid *)
  Definition points_written (y : yaml A) (co : coords A) : Prop :=
    (exists l, entry y "points" (YList l) /\ l <> [] /\
       Forall2 (fun z p => exists int, reads_row z p int) l (rows co) /\
       (is_int co = true <-> forall z, In z l -> exists p, reads_row z p true)) \/
    (exists z s, entry y "points" z /\ blank z /\ entry y "file_path" (YStr s) /\ s <> "" /\ read_csv s = Some (Ok co)) \/
    (exists z f g, entry y "points" z /\ blank z /\ entry y "file_path" f /\ blank f /\ entry y "grid" g /\ grid_written g co).

  (** the ellipsoid: a known name, or two numbers, or neither; the flattenings are not negative *)
  Definition flattened (e : ellipsoid A) : Prop :=
    nonneg (ndiv (nsub (ell_a e) (ell_b e)) (ell_a e)) /\ nonneg (ndiv (nsub (ell_a e) (ell_b e)) (nadd (ell_a e) (ell_b e))).
  Definition listed (s : string) (e : ellipsoid A) : Prop :=
    ell_name e = s /\ find (fun p => String.eqb (fst p) s) (pm_models lib) = Some (s, (ell_model e, ell_a e, ell_b e)).
  Definition ellipsoid_written (y : yaml A) (e : ellipsoid A) : Prop :=
    flattened e /\ exists nm a b, entry y "name" nm /\ entry y "semimajor_axis" a /\ entry y "semiminor_axis" b /\
      ((exists s, nm = YStr s /\ s <> "" /\ listed s e) \/
       (blank nm /\ nonzero_number a (ell_a e) /\ nonzero_number b (ell_b e) /\ ell_name e = "" /\ ell_model e = "") \/
       (blank nm /\ (blank a \/ blank b) /\ listed "wgs84" e)).
  Definition datum_written (y : yaml A) (vd : vdatum) : Prop :=
    match vd with
    | VD_ELLPS => says y "vdatum" "ELLPS"
    | VD_EGM84 => says y "vdatum" "EGM84"
    | VD_EGM96 => says y "vdatum" "EGM96"
    | VD_EGM08 => says y "vdatum" "EGM08"
    end.
  (** the reference system *)
  Definition crs_written (y : yaml A) (r : crs A) : Prop :=
    match c_name r with
    | CART => says y "ref" "CART" /\ c_ellps r = None /\ c_enu r = None /\ c_vdatum r = VD_ELLPS
    | ECEF => says y "ref" "ECEF" /\ c_ellps r = None /\ c_enu r = None /\ c_vdatum r = VD_ELLPS
    | ELLPS => says y "ref" "ELLPS" /\ c_enu r = None /\ datum_written y (c_vdatum r) /\
        exists e, c_ellps r = Some e /\ ellipsoid_written y e
    | ENUref => says y "ref" "ENU" /\ datum_written y (c_vdatum r) /\
        exists e lon lat alt, c_ellps r = Some e /\ ellipsoid_written y e /\
          neqb (ell_a e) (ell_a e) = true /\ neqb (ell_b e) (ell_b e) = true /\
          number_at y "longitude_origin" lon /\ number_at y "latitude_origin" lat /\ number_at y "altitude_origin" alt /\
          c_enu r = Some {| lon_org := lon; lat_org := lat; alt_org := alt; enu_ellps := e |}
    end.
  Definition dataset_written (y : yaml A) (d : dataset A) : Prop :=
    points_written y (d_coords d) /\ exists z, entry y "crs" z /\ crs_written z (d_crs d).
  Definition mass_written (y : yaml A) (m : mass A) : Prop :=
    dataset_written y (m_dataset m) /\ number_at y "density" (m_density m) /\ number_at y "gravity_constant" (m_Gc m).

  (** ** Reading it *)
  Lemma entry_sub (y : yaml A) k z : entry y k z -> subscript y (KS k) = Found z.
  Proof.
    intros (l1 & l2 & -> & H). cbn [subscript]. replace (find _ (l1 ++ (k, z) :: l2)) with (Some (k, z)); [reflexivity|].
    induction l1 as [|[k' z'] l1 IH]; cbn [find app fst].
    - now rewrite String.eqb_refl.
    - destruct (String.eqb_spec k' k) as [->|]; [destruct H; now left|]. apply IH. intros Hin. apply H. now right.
  Qed.
  Lemma descend_app (y : yaml A) v w z : descend y v = Found z -> descend y (v ++ w) = descend z w.
  Proof.
    revert y. induction v as [|k v IH]; intros y; cbn [descend app]; [now intros [= ->]|].
    destruct (subscript y k); try discriminate. apply IH.
  Qed.
  Context (top : yaml A) (rest : sources A).
  Lemma at_path v y k z : descend top v = Found y -> entry y k z -> descend top (v ++ [KS k]) = Found z.
  Proof. intros H E. rewrite (descend_app _ _ _ _ H). cbn [descend]. now rewrite (entry_sub _ _ _ E). Qed.
  Lemma read_at v y k z : descend top v = Found y -> entry y k z -> first (top :: rest) (v ++ [KS k]) = Ok z.
  Proof. intros H E. cbn [first]. now rewrite (at_path v y k z H E). Qed.
  Lemma float_at v y k x : descend top v = Found y -> number_at y k x -> get_float (top :: rest) (v ++ [KS k]) = Ok x.
  Proof. intros H (z & i & E & R). unfold get_float. rewrite (read_at v y k z H E). cbn [bind]. apply reads_ok in R. now rewrite (proj1 R). Qed.

  Lemma triple_at v y k p i n : descend top v = Found y -> axis_written y k p i n ->
    get_triple (top :: rest) (v ++ [KS k]) = Ok (i, vx p, vy p, vz p) /\ axis_size (i, vx p, vy p, vz p) = Ok (Z.of_nat n).
  Proof.
    intros H (z & E & (a & b & c & ia & ib & ic & -> & Ra & Rb & Rc & Hi) & Hz & Hn). split.
    - unfold get_triple, get_list. rewrite (read_at v y k _ H E). cbn [bind]. apply reads_ok in Ra, Rb, Rc.
      destruct Ra as [-> Ia], Rb as [-> Ib], Rc as [-> Ic]. cbn [forallb]. rewrite Ia, Ib, Ic. do 4 f_equal.
      destruct ia, ib, ic, i; cbn [andb]; try reflexivity; exfalso; intuition discriminate.
    - unfold axis_size. now rewrite Hz, Hn.
  Qed.
  Lemma list_ext {X} (l : list X) : forall l', (forall j, nth_error l j = nth_error l' j) -> l = l'.
  Proof.
    induction l as [|a l IH]; intros [|b l'] H; [reflexivity|discriminate (H 0)|discriminate (H 0)|].
    pose proof (H 0) as H0. injection H0 as <-. f_equal. apply IH. intros j. exact (H (S j)).
  Qed.
  Lemma nodes_nth (p : vec A) i n k : k < n -> nth_error (axis_points (Z.of_nat n) (i, vx p, vy p, vz p)) k = Some (node p k).
  Proof.
    intros Hk. unfold axis_points. rewrite Nat2Z.id, nth_error_map, (nth_error_nth' _ 0) by (now rewrite seq_length).
    now rewrite seq_nth by exact Hk.
  Qed.
  Lemma nodes_len (t : bool * num A * num A * num A) n : List.length (axis_points (Z.of_nat n) t) = n.
  Proof. destruct t as [[[? ?] ?] ?]. unfold axis_points. now rewrite map_length, seq_length, Nat2Z.id. Qed.
  Lemma grid_at v y co : descend top v = Found y -> grid_written y co ->
    (do tx <- get_triple (top :: rest) (v ++ [KS "xstart_xend_xstep"]);
     do ty <- get_triple (top :: rest) (v ++ [KS "ystart_yend_ystep"]);
     do tz <- get_triple (top :: rest) (v ++ [KS "zstart_zend_zstep"]); mgrid_points tx ty tz) = Ok co.
  Proof.
    intros H (px & py & pz & ix & iy & iz & nx & ny & nz & Wx & Wy & Wz & Hi & HL & HN).
    destruct (triple_at v y _ _ _ _ H Wx) as [-> Sx], (triple_at v y _ _ _ _ H Wy) as [-> Sy], (triple_at v y _ _ _ _ H Wz) as [-> Sz].
    cbn [bind]. unfold mgrid_points. rewrite Sx, Sy, Sz. cbn [bind].
    replace (Z.of_nat nx <? 0)%Z with false by (symmetry; apply Z.ltb_ge; lia).
    replace (Z.of_nat ny <? 0)%Z with false by (symmetry; apply Z.ltb_ge; lia).
    replace (Z.of_nat nz <? 0)%Z with false by (symmetry; apply Z.ltb_ge; lia). cbn [orb].
    destruct co as [i rs]. cbn [is_int rows] in *. f_equal. f_equal.
    { destruct ix, iy, iz, i; cbn [andb]; try reflexivity; exfalso; intuition discriminate. }
    set (lz := axis_points (Z.of_nat nz) _). set (ly := axis_points (Z.of_nat ny) _). set (lx := axis_points (Z.of_nat nx) _).
    assert (Lz : forall x y, List.length (map (fun z => V3 x y z) lz) = nz) by (intros; rewrite map_length; apply nodes_len).
    assert (Ly : forall x, List.length (flat_map (fun y => map (fun z => V3 x y z) lz) ly) = ny * nz).
    { intros x. rewrite (PGrid.len_flat_map _ nz) by auto. unfold ly. now rewrite nodes_len. }
    apply list_ext. intros m. destruct (Nat.lt_ge_cases m (nx * ny * nz)) as [Hm|Hm].
    - destruct (PGrid.index3 nx ny nz m Hm) as (a & b & c & Ha & Hb & Hc & ->). etransitivity; [|symmetry; exact (HN a b c Ha Hb Hc)].
      replace ((a * ny + b) * nz + c) with (a * (ny * nz) + (b * nz + c)) by nia.
      rewrite (PGrid.nth_flat_map _ (ny * nz) _ (fun x _ => Ly x) a _ _ (nodes_nth px ix nx a Ha)) by nia.
      rewrite (PGrid.nth_flat_map _ nz _ (fun y _ => Lz _ y) b _ _ (nodes_nth py iy ny b Hb)) by exact Hc.
      exact (map_nth_error _ c _ (nodes_nth pz iz nz c Hc)).
    - transitivity (@None (vec A)); [|symmetry; apply nth_error_None; lia]. apply nth_error_None.
      rewrite (PGrid.len_flat_map _ (ny * nz)) by auto. unfold lx. rewrite nodes_len. nia.
  Qed.
  Lemma points_at v y co : descend top v = Found y -> points_written y co -> read_coords read_csv (top :: rest) v = Ok co.
  Proof.
    intros H [(l & E & Hl & P)|[(z & s & E & B & Ef & Hs & R)|(z & f & g & E & B & Ef & Bf & Eg & W)]].
    - apply (C48_points A read_csv (top :: rest) v l co); [now apply (read_at v y)|exact Hl|exact P].
    - unfold read_coords, view_bool, get_str. rewrite (read_at v y _ _ H E), (read_at v y _ _ H Ef). cbn [bind].
      apply blank_truthy in B. rewrite B. cbn [truthy]. destruct (String.eqb_spec s ""); [contradiction|]. cbn [negb]. now rewrite R.
    - unfold read_coords, view_bool. rewrite (read_at v y _ _ H E), (read_at v y _ _ H Ef), (read_at v y _ _ H Eg). cbn [bind].
      apply blank_truthy in B, Bf. rewrite B, Bf. pose proof (at_path v y _ _ H Eg) as Dg.
      rewrite (given_truthy _ g).
      2: { destruct W as (px & py & pz & ix & iy & iz & nx & ny & nz & (x & (l1 & l2 & -> & _) & _) & _). intros Bg. inversion Bg. now destruct l1. }
      change (v ++ [KS "grid"; KS "xstart_xend_xstep"]) with (v ++ [KS "grid"] ++ [KS "xstart_xend_xstep"]).
      change (v ++ [KS "grid"; KS "ystart_yend_ystep"]) with (v ++ [KS "grid"] ++ [KS "ystart_yend_ystep"]).
      change (v ++ [KS "grid"; KS "zstart_zend_zstep"]) with (v ++ [KS "grid"] ++ [KS "zstart_zend_zstep"]).
      rewrite !app_assoc. now apply (grid_at (v ++ [KS "grid"]) g).
  Qed.
  Lemma datum_at v y vd : descend top v = Found y -> datum_written y vd -> vdatum_says (top :: rest) v vd.
  Proof.
    intros H D. left. destruct vd; destruct D as (s & E & C); exists s; (split; [now apply (read_at v y)|]); auto 6.
  Qed.
  Lemma listed_ok s e : flattened e -> listed s e -> ell_of_name lib s = Ok e.
  Proof.
    intros F [N E]. unfold ell_of_name. rewrite E, (proj1 (pm_ellipsoid_spec _ _ _ _) F). now rewrite <- N; destruct e.
  Qed.
  Lemma ellipsoid_at v y e : descend top v = Found y -> ellipsoid_written y e ->
    exists n a b, read_ellipsoid_parameters lib (top :: rest) v = Ok (n, a, b) /\ mk_ellipsoid lib n a b = Ok e.
  Proof.
    intros H (F & nm & a & b & En & Ea & Eb & K). unfold read_ellipsoid_parameters, get_raw.
    rewrite (read_at v y _ _ H En), (read_at v y _ _ H Ea), (read_at v y _ _ H Eb). cbn [bind].
    destruct K as [(s & -> & Hs & L)|[(Bn & Na & Nb & N1 & N2)|(Bn & Bx & L)]].
    - exists (Some s), a, b. cbn [truthy]. destruct (String.eqb_spec s ""); [contradiction|]. cbn [negb].
      assert (existsb (fun p => String.eqb (fst p) s) (pm_models lib) = true) as ->.
      { apply existsb_exists. pose proof (find_some _ _ (proj2 L)) as [? ?]. eauto. }
      split; [reflexivity|]. now apply listed_ok.
    - apply blank_truthy in Bn. rewrite Bn. exists None, a, b. split; [reflexivity|]. unfold mk_ellipsoid, axis_num.
      apply number_given in Na, Nb. destruct Na as [Ga ->], Nb as [Gb ->]. rewrite (given_truthy _ _ Ga), (given_truthy _ _ Gb). cbn [andb bind].
      rewrite (proj1 (pm_ellipsoid_spec _ _ _ _) F), <- N1 at 1. rewrite <- N2 at 1. now destruct e.
    - apply blank_truthy in Bn. rewrite Bn. exists None, a, b. split; [reflexivity|]. unfold mk_ellipsoid.
      replace (truthy a && truthy b)%bool with false; [now apply listed_ok|].
      destruct Bx as [Bx|Bx]; apply blank_truthy in Bx; rewrite Bx; [reflexivity|now rewrite andb_false_r].
  Qed.
  Lemma crs_at v y r : descend top v = Found y -> crs_written y r -> get_crs lib (top :: rest) v = Ok r.
  Proof.
    intros H. destruct r as [n el en vd]. unfold crs_written. cbn [c_name c_ellps c_enu c_vdatum].
    assert (R : forall nm n, says y "ref" nm -> crs_member nm = Some n -> read_ref (top :: rest) v = Ok n).
    { intros nm n0 (s & E & C) M. unfold read_ref, get_opt_str. rewrite (read_at v y _ _ H E). cbn [bind].
      apply upper_spec in C. rewrite C, M. reflexivity. }
    unfold get_crs. destruct n.
    - intros (S & -> & -> & ->). rewrite (R _ CART S eq_refl). reflexivity.
    - intros (S & -> & D & e & -> & W). rewrite (R _ ELLPS S eq_refl). cbn [bind]. unfold create_ellipsoid_crs.
      destruct (ellipsoid_at v y e H W) as (n & a & b & -> & M). cbn [bind].
      rewrite (vdatum_says_read _ _ _ (datum_at v y vd H D)). cbn [bind]. now rewrite M.
    - intros (S & D & e & lon & lat & alt & -> & W & Na & Nb & Lo & La & Al & ->). rewrite (R _ ENUref S eq_refl). cbn [bind]. unfold create_local_enu_crs.
      destruct (ellipsoid_at v y e H W) as (n & a & b & -> & M). cbn [bind]. unfold read_enu_parameters.
      rewrite (float_at v y _ _ H Lo), (float_at v y _ _ H La), (float_at v y _ _ H Al). cbn [bind].
      rewrite (vdatum_says_read _ _ _ (datum_at v y vd H D)). cbn [bind]. rewrite M. cbn [bind mk_crs enu_ellps]. unfold ell_eqb.
      now rewrite !String.eqb_refl, Na, Nb.
    - intros (S & -> & -> & ->). rewrite (R _ ECEF S eq_refl). reflexivity.
  Qed.
  Lemma dataset_at v y d : descend top v = Found y -> dataset_written y d -> get_dataset lib read_csv (top :: rest) v = Ok d.
  Proof.
    intros H (P & z & E & C). unfold get_dataset. rewrite (points_at v y _ H P). cbn [bind].
    rewrite (crs_at (v ++ [KS "crs"]) z _ (at_path v y _ _ H E) C). cbn [bind]. now destruct d.
  Qed.
  Lemma mapM_from {X Y} (f : X -> res Y) (g : nat -> X) ys : forall k, (forall i y, nth_error ys i = Some y -> f (g (k + i)) = Ok y) ->
    mapM f (map g (seq k (List.length ys))) = Ok ys.
  Proof.
    induction ys as [|y ys IH]; intros k H; cbn [List.length seq map mapM]; [reflexivity|].
    pose proof (H 0 y eq_refl) as H0. rewrite Nat.add_0_r in H0. rewrite H0. cbn [bind]. rewrite IH; [reflexivity|].
    intros i z Hz. replace (S k + i) with (k + S i) by lia. now apply H.
  Qed.
End Written.

(** ** C94 *)
(** The masses of the file with the highest priority are the ones returned, in the order
    of the file, each with the density, constant, points and reference system written
    beneath it, whatever the files below hold. *)
Theorem C94_masses :
  forall (A : arith) (lib : geolib A) read_csv (file : yaml A) (below : sources A) l ms,
  entry file "masses" (YList l) -> Forall2 (mass_written lib read_csv) l ms ->
  (forall f, In f below -> exists kv, f = YMap kv) ->
  get_masses lib read_csv (file :: below) = Ok ms.
Proof.
  intros A lib csv top rest l ms E F Hr.
  assert (R : exists ys, resolve_all rest [KS "masses"] = Ok ys).
  { clear -Hr. induction rest as [|f rest IH]; cbn [resolve_all]; [eauto|]. destruct IH as [ys ->]; [intros g Hg; apply Hr; now right|].
    destruct (Hr f (or_introl eq_refl)) as [kv ->]. cbn [descend subscript]. destruct (find _ kv) as [p|]; cbn [bind]; eauto. }
  destruct R as [ys R]. assert (D : descend top [KS "masses"] = Found (YList l)) by (cbn [descend]; now rewrite (entry_sub _ _ _ E)).
  unfold get_masses. rewrite (iter_top top rest l ys D R). cbn [bind].
  assert (LE : List.length l = List.length ms) by (clear -F; induction F; cbn; auto). rewrite LE. apply mapM_from.
  intros i m Hi. cbn [plus].
  assert (X : exists y, nth_error l i = Some y /\ mass_written lib csv y m).
  { clear -F Hi. revert i Hi. induction F as [|y m' l ms H F IH]; intros [|i] Hi; try discriminate; cbn [nth_error] in *; [injection Hi as <-; eauto|auto]. }
  destruct X as (y & Hy & W1 & W2 & W3).
  assert (P : descend top [KS "masses"; KI i] = Found y).
  { change [KS "masses"; KI i] with ([KS "masses"] ++ [KI i]). rewrite (descend_app _ _ _ _ D). cbn [descend subscript]. now rewrite Hy. }
  rewrite (dataset_at lib csv top rest _ y _ P W1). cbn [bind].
  rewrite (float_at top rest _ y _ _ P W2), (float_at top rest _ y _ _ P W3). cbn [bind]. now destruct m.
Qed.
Print Assumptions C94_masses.
(** likewise the observers *)
Theorem C94_observers :
  forall (A : arith) (lib : geolib A) read_csv (file : yaml A) (below : sources A) y d,
  entry file "observers" y -> dataset_written lib read_csv y d ->
  exists o, get_observer lib read_csv (file :: below) = Ok o /\ o_dataset o = d.
Proof.
  intros A lib csv top rest y d E W. unfold get_observer.
  assert (D : descend top [KS "observers"] = Found y) by (cbn [descend]; now rewrite (entry_sub _ _ _ E)).
  rewrite (dataset_at lib csv top rest _ y _ D W). cbn [bind]. eexists. split; [reflexivity|].
  unfold mk_observer. now destruct (obs_labels _).
Qed.
Print Assumptions C94_observers.
Lemma entry_found (A : arith) (m : list (string * yaml A)) k z : subscript (YMap m) (KS k) = Found z -> entry (YMap m) k z.
Proof.
  cbn [subscript]. destruct (find _ m) as [p|] eqn:F; [|discriminate]. intros [= <-].
  assert (K : exists l1 l2, m = l1 ++ (k, snd p) :: l2 /\ ~ In k (map fst l1)).
  { induction m as [|[k' z'] m IH]; cbn [find fst] in F; [discriminate|]. destruct (String.eqb_spec k' k) as [->|Hk].
    - injection F as <-. exists [], m. split; [reflexivity|intros []].
    - destruct (IH F) as (l1 & l2 & -> & H). exists ((k', z') :: l1), l2. split; [reflexivity|]. intros [E|E]; [now apply Hk|now apply H]. }
  destruct K as (l1 & l2 & -> & H). exists l1, l2. auto.
Qed.
(** two masses and an observer in a local frame, keys in any order, over another file *)
Example C94_case :
  let row x y z : yaml ZA := YList [YInt x; YInt y; YInt z] in
  let body (rho : Z) pts : yaml ZA := YMap [("crs", YMap [("ref", YStr "Cart")]); ("gravity_constant", YInt 1); ("density", YInt rho); ("points", YList pts)] in
  let frame : yaml ZA := YMap [("vdatum", YStr "ellps"); ("ref", YStr "enu"); ("altitude_origin", YInt 3); ("latitude_origin", YInt 2); ("longitude_origin", YInt 1);
                     ("name", YNull); ("semimajor_axis", YInt 0); ("semiminor_axis", YInt 8)] in
  let file : yaml ZA := YMap [("observers", YMap [("points", YNull); ("file_path", YStr "a.csv"); ("crs", frame)]);
                    ("masses", YList [body 7%Z [row 1 2 3; row 4 5 6]%Z; body 9%Z [row 7 8 9]%Z])] in
  let csv s := if String.eqb s "a.csv" then Some (Ok {| is_int := true; rows := [zv 30 17 11] |}) else None in
  exists l ms y d, entry file "masses" (YList l) /\ Forall2 (mass_written toy csv) l ms /\
    map (fun m => (m_density m, rows (d_coords (m_dataset m)))) ms = [((7 : num ZA)%Z, [zv 1 2 3; zv 4 5 6]); ((9 : num ZA)%Z, [zv 7 8 9])] /\
    entry file "observers" y /\ dataset_written toy csv y d /\ rows (d_coords d) = [zv 30 17 11] /\ c_name (d_crs d) = ENUref.
Proof.
  cbv zeta.
  assert (RI : forall z, reads (A := ZA) (YInt z) z true) by (intros z; exact (reads_int (A := ZA) z)).
  assert (RR : forall x y z, reads_row (A := ZA) (YList [YInt x; YInt y; YInt z]) (zv x y z) true).
  { intros x y z. exists (YInt x), (YInt y), (YInt z), true, true, true. cbn [vx vy vz zv]. repeat split; auto. }
  assert (BW : forall csv rho pts rs, pts <> [] -> Forall2 (fun z p => reads_row (A := ZA) z p true) pts rs ->
    mass_written toy csv (YMap [("crs", YMap [("ref", YStr "Cart")]); ("gravity_constant", YInt 1); ("density", YInt rho); ("points", YList pts)])
      {| m_density := (rho : num ZA); m_Gc := (1%Z : num ZA); m_dataset := {| d_coords := {| is_int := true; rows := rs |};
         d_crs := {| c_name := CART; c_ellps := None; c_enu := None; c_vdatum := VD_ELLPS |} |} |}).
  { intros csv rho pts rs Hp F. split; [split|split].
    - left. exists pts. split; [apply entry_found; reflexivity|]. split; [exact Hp|]. cbn [rows is_int d_coords m_dataset]. split.
      + clear -F. induction F; constructor; eauto.
      + split; [|reflexivity]. intros _. clear -F. induction F as [|a b l l' H F IH]; [intros z []|]. intros z [<-|Hz]; eauto.
    - eexists. split; [apply entry_found; reflexivity|]. cbn. split; [|auto]. exists "Cart". split; [apply entry_found; reflexivity|apply upper_spec; reflexivity].
    - exists (YInt rho), true. split; [apply entry_found; reflexivity|apply RI].
    - exists (YInt 1), true. split; [apply entry_found; reflexivity|apply RI]. }
  exists [YMap [("crs", YMap [("ref", YStr "Cart")]); ("gravity_constant", YInt 1); ("density", YInt 7); ("points", YList [YList [YInt 1; YInt 2; YInt 3]; YList [YInt 4; YInt 5; YInt 6]])];
          YMap [("crs", YMap [("ref", YStr "Cart")]); ("gravity_constant", YInt 1); ("density", YInt 9); ("points", YList [YList [YInt 7; YInt 8; YInt 9]])]].
  eexists. eexists. exists {| d_coords := {| is_int := true; rows := [zv 30 17 11] |};
    d_crs := {| c_name := ENUref; c_ellps := Some toy_wgs84;
       c_enu := Some {| lon_org := (1 : num ZA)%Z; lat_org := (2 : num ZA)%Z; alt_org := (3 : num ZA)%Z; enu_ellps := toy_wgs84 |}; c_vdatum := VD_ELLPS |} |}.
  split; [apply entry_found; reflexivity|]. split.
  { constructor; [|constructor; [|constructor]]; apply BW; try discriminate; repeat constructor; apply RR. }
  split; [reflexivity|]. split; [apply entry_found; reflexivity|]. split; [|split; reflexivity]. split.
  - right. left. exists YNull, "a.csv". split; [apply entry_found; reflexivity|]. split; [constructor|]. split; [apply entry_found; reflexivity|]. split; [discriminate|reflexivity].
  - eexists. split; [apply entry_found; reflexivity|]. cbn [crs_written d_crs c_name c_vdatum c_ellps c_enu].
    split; [exists "enu"; split; [apply entry_found; reflexivity|apply upper_spec; reflexivity]|].
    split; [exists "ellps"; split; [apply entry_found; reflexivity|apply upper_spec; reflexivity]|].
    exists toy_wgs84, 1%Z, 2%Z, 3%Z. split; [reflexivity|]. split.
    + split; [split; vm_compute; auto|]. exists YNull, (YInt 0), (YInt 8). do 3 (split; [apply entry_found; reflexivity|]).
      right. right. split; [constructor|]. split; [left; constructor|]. split; reflexivity.
    + split; [reflexivity|]. split; [reflexivity|].
      split; [exists (YInt 1), true; split; [apply entry_found; reflexivity|apply RI]|].
      split; [exists (YInt 2), true; split; [apply entry_found; reflexivity|apply RI]|].
      split; [exists (YInt 3), true; split; [apply entry_found; reflexivity|apply RI]|reflexivity].
Qed.
(** observers on a grid of 2 by 1 by 3 nodes *)
Example C94_grid_case :
  let row x y z : yaml ZA := YList [YInt x; YInt y; YInt z] in
  let grid : yaml ZA := YMap [("zstart_zend_zstep", row 5 2 (-1)); ("xstart_xend_xstep", row 0 4 2); ("ystart_yend_ystep", row 1 2 1)]%Z in
  let obs : yaml ZA := YMap [("grid", grid); ("file_path", YStr ""); ("points", YList []); ("crs", YMap [("ref", YStr "cart")])] in
  exists d, dataset_written toy (fun _ => None) obs d /\
    rows (d_coords d) = [zv 0 1 5; zv 0 1 4; zv 0 1 3; zv 2 1 5; zv 2 1 4; zv 2 1 3].
Proof.
  cbv zeta. exists {| d_coords := {| is_int := true; rows := [zv 0 1 5; zv 0 1 4; zv 0 1 3; zv 2 1 5; zv 2 1 4; zv 2 1 3] |};
    d_crs := {| c_name := CART; c_ellps := None; c_enu := None; c_vdatum := VD_ELLPS |} |}.
  split; [|reflexivity]. split.
  - right. right. eexists _, _, _. split; [apply entry_found; reflexivity|]. split; [constructor|]. split; [apply entry_found; reflexivity|]. split; [constructor|].
    split; [apply entry_found; reflexivity|].
    assert (RR : forall x y z, reads_row (A := ZA) (YList [YInt x; YInt y; YInt z]) (zv x y z) true).
    { intros x y z. exists (YInt x), (YInt y), (YInt z), true, true, true. cbn [vx vy vz zv]. repeat split; auto; exact (reads_int (A := ZA) _). }
    exists (zv 0 4 2), (zv 1 2 1), (zv 5 2 (-1)), true, true, true, 2, 1, 3.
    split; [eexists; split; [apply entry_found; reflexivity|split; [apply RR|split; reflexivity]]|].
    split; [eexists; split; [apply entry_found; reflexivity|split; [apply RR|split; reflexivity]]|].
    split; [eexists; split; [apply entry_found; reflexivity|split; [apply RR|split; reflexivity]]|].
    split; [split; auto|]. split; [reflexivity|].
    intros i j k Hi Hj Hk. destruct i as [|[|i]]; [| |lia]; (destruct j as [|j]; [|lia]); (destruct k as [|[|[|k]]]; [| | |lia]); reflexivity.
  - eexists. split; [apply entry_found; reflexivity|]. cbn. split; [|auto]. exists "cart". split; [apply entry_found; reflexivity|apply upper_spec; reflexivity].
Qed.

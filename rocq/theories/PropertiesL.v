(** * Properties C74-C76: datasets as shared Python objects *)
From Coq Require Import String List ZArith Bool Arith Lia Reals Lra.
From Verif Require Import Base MUtils MConfig MCrs MDataset MObj RArith PCrs PObj Examples ExamplesIO PropertiesB.
Import ListNotations.
Local Open Scope string_scope.
Local Open Scope list_scope.
Local Open Scope nat_scope.

(** ** C74: a conversion acts on its own dataset only *)
(** Datasets of a family [D] that share neither array nor CRS object: after any
    history of conversions on them, with exceptions caught, each one holds what its
    own conversions make of it, and every further conversion of it returns or raises
    as on the value alone. *)
Theorem C74_separate :
  forall (A : arith) (lib : geolib A) w (D : nat -> Prop) (h : heap A) cs d v,
  wgs84 lib = Ok w -> separate D h -> (forall c, In c cs -> D (snd c)) -> D d ->
  read (history lib cs h) d = fold_left (alone lib) (own d cs) (read h d) /\
  fst (o_convert lib v d (history lib cs h)) =
    match convert lib v (fold_left (alone lib) (own d cs) (read h d)) with Ok _ => Ok tt | Err e => Err e end.
Proof.
  intros A lib w D h cs d v Hw Hs Hc Hd. destruct (history_separate lib w Hw D cs h Hs Hc) as [K1 K2].
  split; [exact (K2 d Hd)|]. rewrite <- (K2 d Hd).
  destruct (convert_frame lib w Hw v d _ D K1 Hd) as (_ & _ & Hv). cbv zeta in Hv.
  destruct (convert lib v (read (history lib cs h) d)); apply Hv.
Qed.
Print Assumptions C74_separate.

(** Objects built from values: array and CRS object number i for dataset number i,
    as get_masses does (geec/mass.py:43-53: every mass gets its own array and CRS). *)
Definition loaded {A} (d0 : dataset A) (xs : list (dataset A)) : heap A :=
  {| arrs := fun i => d_coords (nth i xs d0); nexta := List.length xs;
     crss := fun i => d_crs (nth i xs d0); dss := fun i => (i, i) |}.
Lemma loaded_separate {A} d0 (xs : list (dataset A)) : separate (fun d => d < List.length xs) (loaded d0 xs).
Proof. split; cbn; auto. Qed.
Lemma loaded_read {A} d0 (xs : list (dataset A)) i : read (loaded d0 xs) i = nth i xs d0.
Proof. unfold read. cbn. destruct (nth i xs d0); reflexivity. Qed.

(** The three conversions of the run command on the objects: same exception or same
    values as on the values. *)
Definition three {A} (lib : geolib A) (ds : list nat) : O unit :=
  obind (o_batch lib Lon180 ds) (fun _ => obind (o_batch lib EllpsHeight ds) (fun _ => o_batch lib ToEcef ds)).
Lemma batch_mapM {A} (lib : geolib A) w D v ds (h : heap A) : wgs84 lib = Ok w -> separate D h -> (forall d, In d ds -> D d) -> NoDup ds ->
  match mapM (fun d => convert lib v (read h d)) ds with
  | Ok ys => fst (o_batch lib v ds h) = Ok tt /\ map (read (snd (o_batch lib v ds h))) ds = ys
  | Err e => fst (o_batch lib v ds h) = Err e
  end.
Proof.
  intros Hw Hs Hc Hn. destruct (batch_spec lib w Hw D v ds h Hs Hc Hn) as (_ & _ & dn & td & E & K3 & _ & K5). cbv zeta in *.
  revert K3 K5. generalize (snd (o_batch lib v ds h)) as h'. generalize (fst (o_batch lib v ds h)) as r. subst ds. clear Hc Hn.
  induction dn as [|d dn IH]; intros r h' K3 K5; cbn [app mapM map].
  - destruct td as [|d td]; [cbn; auto|]. destruct K5 as (e & E1 & ->). cbn [mapM]. rewrite E1. reflexivity.
  - rewrite (K3 d (or_introl eq_refl)). cbn [bind]. specialize (IH r h' (fun x H => K3 x (or_intror H)) K5).
    destruct (mapM _ (dn ++ td)) as [ys|e]; cbn [bind]; [|exact IH]. destruct IH as [-> <-]. auto.
Qed.
Theorem C74_pipeline :
  forall (A : arith) (lib : geolib A) w (d0 : dataset A) (xs : list (dataset A)),
  wgs84 lib = Ok w ->
  let ds := seq 0 (List.length xs) in
  let r := three lib ds (loaded d0 xs) in
  match bind (mapM (to_ellipsoid_height lib) (map to_lon180 xs)) (mapM (to_ecef lib)) with
  | Ok ys => fst r = Ok tt /\ map (read (snd r)) ds = ys
  | Err e => fst r = Err e
  end.
Proof.
  intros A lib w d0 xs Hw. cbv zeta. set (ds := seq 0 (List.length xs)). set (h0 := loaded d0 xs).
  assert (Hn : NoDup ds) by apply seq_NoDup. set (D := fun d => d < List.length xs).
  assert (Hc : forall d, In d ds -> D d) by (intros d Hd; apply in_seq in Hd; unfold D; lia).
  assert (Hr0 : map (read h0) ds = xs).
  { unfold ds, h0. erewrite map_ext; [|intros; apply loaded_read]. clear. induction xs as [|x xs IH] using rev_ind; [reflexivity|].
    rewrite app_length, seq_app, map_app. cbn. rewrite app_nth2, Nat.sub_diag by lia. f_equal. rewrite <- IH at 2. apply map_ext_in.
    intros i Hi. apply in_seq in Hi. rewrite app_nth1 by lia. reflexivity. }
  assert (S0 : separate D h0) by apply loaded_separate.
  pose proof (batch_mapM lib w D Lon180 ds h0 Hw S0 Hc Hn) as B1. pose proof (proj1 (batch_spec lib w Hw D Lon180 ds h0 S0 Hc Hn)) as S1. cbv zeta in S1.
  assert (M1 : mapM (fun d => convert lib Lon180 (read h0 d)) ds = Ok (map to_lon180 xs)).
  { rewrite <- Hr0, map_map. cbn [convert]. apply mapM_ok. }
  rewrite M1 in B1. destruct B1 as [R1 V1]. unfold three, obind. destruct (o_batch lib Lon180 ds h0) as [r1 h1]. cbn [fst snd] in *. subst r1. rewrite <- V1.
  pose proof (batch_mapM lib w D EllpsHeight ds h1 Hw S1 Hc Hn) as B2. pose proof (proj1 (batch_spec lib w Hw D EllpsHeight ds h1 S1 Hc Hn)) as S2. cbv zeta in S2.
  rewrite mapM_map. cbn [convert] in B2. destruct (o_batch lib EllpsHeight ds h1) as [r2 h2]. cbn [fst snd] in *.
  destruct (mapM (fun d => to_ellipsoid_height lib (read h1 d)) ds) as [ys|e]; cbn [bind]; [|subst r2; reflexivity].
  destruct B2 as [-> <-]. pose proof (batch_mapM lib w D ToEcef ds h2 Hw S2 Hc Hn) as B3. rewrite mapM_map. cbn [convert] in B3. exact B3.
Qed.
Print Assumptions C74_pipeline.

(** Two datasets with the same CRS object: the first conversion relabels both, so
    that the second is never converted. *)
Theorem C74_shared_crs :
  forall (A : arith) (lib : geolib A) w (h : heap A) d1 d2 x,
  wgs84 lib = Ok w -> d1 <> d2 ->
  snd (dss h d1) = snd (dss h d2) -> fst (dss h d1) <> fst (dss h d2) ->
  fst (dss h d1) < nexta h -> fst (dss h d2) < nexta h ->
  c_name (d_crs (read h d1)) <> CART ->
  to_ecef lib (read h d1) = Ok x ->
  let h1 := snd (o_convert lib ToEcef d1 h) in
  let h2 := snd (o_convert lib ToEcef d2 h1) in
  fst (o_convert lib ToEcef d1 h) = Ok tt /\ read h1 d1 = x /\
  fst (o_convert lib ToEcef d2 h1) = Ok tt /\
  d_coords (read h2 d2) = d_coords (read h d2) /\ c_name (d_crs (read h2 d2)) = ECEF.
Proof.
  intros A lib w h d1 d2 x Hw Hne Hsc Hsa H1 H2 Hcart E. cbv zeta.
  destruct (o_convert_spec lib w Hw ToEcef d1 h H1) as [V R1 R2 N S1 S2 S3].
  cbn [convert] in V. rewrite E in V. destruct V as [-> V]. split; [reflexivity|]. split; [exact V|].
  set (h1 := snd (o_convert lib ToEcef d1 h)) in *.
  assert (L2 : fst (dss h1 d2) < nexta h1) by (rewrite S1 by auto; lia).
  destruct (o_convert_spec lib w Hw ToEcef d2 h1 L2) as [V' _ _ _ _ _ _].
  pose proof (to_ecef_positions lib _ _ E) as (_ & _ & Hn & _ & _).
  assert (Hcn : c_name (d_crs (read h1 d2)) = ECEF).
  { unfold read. rewrite (S1 d2) by auto. cbn [d_crs]. rewrite <- Hsc, <- R1. change (crss h1 (snd (dss h1 d1))) with (d_crs (read h1 d1)).
    rewrite V, Hn. destruct (c_name (d_crs (read h d1))); congruence. }
  cbn [convert] in V'. unfold to_ecef in V'. rewrite Hcn in V'. destruct V' as [-> V']. split; [reflexivity|]. rewrite V'. split; [|exact Hcn].
  unfold read. cbn [d_coords]. rewrite (S1 d2) by auto. apply S3; auto.
Qed.
Print Assumptions C74_shared_crs.

(** two points on the ellipsoid, one CRS object *)
Definition shared_heap : heap ZA :=
  {| arrs := fun i => {| is_int := false; rows := [if Nat.eqb i 0 then zv 10 20 30 else zv 5 6 7] |}; nexta := 2;
     crss := fun _ => ellps_crs toy_wgs84 VD_ELLPS; dss := fun i => (i, 0) |}.
Example C74_shared_case : 0 <> 1 /\ snd (dss shared_heap 0) = snd (dss shared_heap 1) /\ fst (dss shared_heap 0) <> fst (dss shared_heap 1) /\
  fst (dss shared_heap 0) < nexta shared_heap /\ fst (dss shared_heap 1) < nexta shared_heap /\
  c_name (d_crs (read shared_heap 0)) <> CART /\ exists x, to_ecef toy (read shared_heap 0) = Ok x.
Proof. cbn. repeat split; try lia; try discriminate. eexists. reflexivity. Qed.
Theorem C74_shared_refuted :
  exists (A : arith) (lib : geolib A) (h : heap A) d1 d2,
  d1 <> d2 /\ fst (dss h d1) <> fst (dss h d2) /\
  let h1 := snd (o_convert lib ToEcef d1 h) in
  positions lib (read h1 d2) <> positions lib (read h d2) /\
  read (snd (o_convert lib ToEcef d2 h1)) d2 <> read (snd (o_convert lib ToEcef d2 h)) d2.
Proof.
  exists ZA, toy, shared_heap, 0, 1. split; [discriminate|]. split; [cbn; discriminate|]. cbv zeta. split.
  - vm_compute. discriminate.
  - intros E. apply (f_equal (fun d => rows (d_coords d))) in E. vm_compute in E. discriminate.
Qed.
Print Assumptions C74_shared_refuted.
Example C74_case :
  let h := loaded (ds false [] enu_crs) [ds false [zv 200 20 30] enu_crs; ds false [zv 10 20 30] (ellps_crs toy_wgs84 VD_EGM96)] in
  wgs84 toy = Ok toy_wgs84 /\ separate (fun d => d < 2) h /\
  rows (d_coords (read (history toy [(ToWgs84, 1); (ToEcef, 0); (EllpsHeight, 1); (ToEcef, 1)] h) 1)) = [zv 6378147 20 47].
Proof. split; [reflexivity|]. split; [split; cbn; auto|vm_compute; reflexivity]. Qed.

(** ** C75: a batch that raises, and what a second attempt does *)
(** The functions on lists of masses stop at the first mass that raises: the ones
    before it are converted, it and the ones after it are as before. *)
Theorem C75_batch :
  forall (A : arith) (lib : geolib A) w (D : nat -> Prop) v ds (h : heap A),
  wgs84 lib = Ok w -> separate D h -> (forall d, In d ds -> D d) -> NoDup ds ->
  let r := fst (o_batch lib v ds h) in let h' := snd (o_batch lib v ds h) in
  (forall d, D d -> ~ In d ds -> read h' d = read h d) /\
  exists done todo, ds = done ++ todo /\
    (forall d, In d done -> convert lib v (read h d) = Ok (read h' d)) /\
    (forall d, In d todo -> read h' d = read h d) /\
    match todo with
    | [] => r = Ok tt
    | d :: _ => exists e, convert lib v (read h d) = Err e /\ r = Err e
    end.
Proof. intros A lib w D v ds h Hw Hs Hc Hn. exact (proj2 (batch_spec lib w Hw D v ds h Hs Hc Hn)). Qed.
Print Assumptions C75_batch.

(** Over the reals.  After a first call, whether it returned or raised, the user
    may repair the datasets of a set [F] in any way that keeps the family separate,
    then calls again.  If the second call returns, every dataset outside [F] is
    converted exactly once: what the first call had already done is not done twice.
    (to_lon180 never raises; longitudes above 540 degrees make it differ, see C38.) *)
Lemma forallb_map' {X Y} (f : Y -> bool) (g : X -> Y) l : forallb f (map g l) = forallb (fun x => f (g x)) l.
Proof. induction l as [|x l IH]; cbn; [reflexivity|]. now rewrite IH. Qed.
Lemma height_again (lib : geolib RA) p c p' c' : ellipsoid_height lib p c = Ok (p', c') ->
  c_name c' = c_name c /\ ellipsoid_height lib p' c' = Ok (p', c').
Proof.
  unfold ellipsoid_height. destruct (negb (forallb _ _)) eqn:Ef; [discriminate|].
  destruct (is_int p && _)%bool eqn:Ei; [discriminate|]. intros [= <- <-]. split; [reflexivity|].
  cbn [c_name c_vdatum is_vd_ellps rows is_int c_ellps c_enu].
  rewrite forallb_map'. cbn [vx vy]. change (num RA) with R in *. rewrite Ef; change (negb true) with false; rewrite andb_false_r, map_map. cbn [vx vy vz].
  f_equal. f_equal. f_equal. apply map_ext. intros r. f_equal. cbn [geoid_height]. change (num RA) with R. cbn. change (num RA) with R. ring.
Qed.
Lemma convert_again (lib : geolib RA) w v (x y : dataset RA) : wgs84 lib = Ok w -> v <> Lon180 ->
  convert lib v x = Ok y -> convert lib v y = Ok y.
Proof.
  intros Hw Hv E. destruct v as [| | | |lon0 lat0 alt0]; [congruence|..]; cbn [convert] in *.
  - assert (K : forall q, pack (ellipsoid_height lib (d_coords x) (d_crs x)) = Ok q ->
      c_name (d_crs q) = c_name (d_crs x) /\ pack (ellipsoid_height lib (d_coords q) (d_crs q)) = Ok q).
    { intros q. unfold pack. destruct (ellipsoid_height lib (d_coords x) (d_crs x)) as [[p' c']|] eqn:Eh; cbn [bind]; [|discriminate].
      intros [= <-]. cbn [d_crs d_coords fst snd]. destruct (height_again lib _ _ _ _ Eh) as [K1 K2]. rewrite K2. auto. }
    unfold to_ellipsoid_height in *. destruct (c_name (d_crs x)) eqn:En.
    1,4: injection E as <-; rewrite En; reflexivity.
    all: destruct (K y E) as [K1 K2]; rewrite K1; exact K2.
  - apply (to_ecef_positions lib x y E).
  - destruct (to_wgs84_label lib x y E) as [[Hn ->]|[_ (Hn & He & e & w' & Hee & Hw' & Heq)]].
    + unfold to_wgs84. rewrite Hn. reflexivity.
    + rewrite Hw in Hw'. injection Hw' as <-. unfold to_wgs84. rewrite Hn. unfold ellps_to_wgs84. rewrite Hw. cbn [bind]. rewrite He, Hee.
      assert (ell_eqb e w = true) as ->.
      { destruct Heq as [->|Heq]; [|exact Heq]. unfold ell_eqb. rewrite !String.eqb_refl. cbn [andb].
        apply andb_true_intro. split; apply Reqb_true; reflexivity. }
      destruct y. reflexivity.
  - assert (Hk : c_name (d_crs y) = ENUref \/ c_name (d_crs y) = CART).
    { revert E. unfold to_enu, pack, wgs84_to_enu, ecef_to_enu. rewrite Hw. cbn [bind]. destruct (c_name (d_crs x)) eqn:En.
      - intros [= <-]. auto.
      - destruct (mapM _ _); cbn [bind]; [|discriminate]. intros [= <-]. auto.
      - intros [= <-]. auto.
      - intros [= <-]. auto. }
    unfold to_enu. destruct Hk as [-> | ->]; reflexivity.
Qed.
Theorem C75_retry :
  forall (lib : geolib RA) w (D F : nat -> Prop) v ds (h h2 : heap RA),
  wgs84 lib = Ok w -> v <> Lon180 -> separate D h -> (forall d, In d ds -> D d) -> NoDup ds ->
  let h1 := snd (o_batch lib v ds h) in
  separate D h2 -> (forall d, In d ds -> ~ F d -> read h2 d = read h1 d) ->
  fst (o_batch lib v ds h2) = Ok tt ->
  forall d, In d ds -> ~ F d -> convert lib v (read h d) = Ok (read (snd (o_batch lib v ds h2)) d).
Proof.
  intros lib w D F v ds h h2 Hw Hv Hs Hc Hn h1 Hs2 Hr E d Hd HF.
  destruct (batch_spec lib w Hw D v ds h Hs Hc Hn) as (_ & _ & dn & td & E1 & K1 & K2 & _). cbv zeta in *. fold h1 in K1, K2.
  destruct (batch_spec lib w Hw D v ds h2 Hs2 Hc Hn) as (_ & _ & dn' & td' & E2 & K1' & _ & K3'). cbv zeta in *.
  destruct td' as [|d' td']; [|destruct K3' as (e & _ & K3'); rewrite E in K3'; discriminate]. rewrite app_nil_r in E2. subst dn'.
  specialize (K1' d Hd). rewrite (Hr d Hd HF) in K1'. rewrite E1 in Hd. apply in_app_or in Hd. destruct Hd as [Hd|Hd].
  - rewrite (K1 d Hd). f_equal. specialize (K1 d Hd). apply (convert_again lib w v _ _ Hw Hv) in K1. congruence.
  - rewrite (K2 d Hd) in K1'. exact K1'.
Qed.
Print Assumptions C75_retry.

(** A first call that raises at the second of three masses, and a second call after
    its repair. *)
Definition rgeo : geolib RA := {|
  pm_models := [("wgs84", ("WGS-84 (1984)", 6378137%R : num RA, 6356752%R : num RA))];
  geodetic2ecef := fun _ lat lon alt => Ok (V3 lon lat alt);
  enu2ecef := fun _ e n u _ _ _ => V3 e n u;
  ecef2geodetic := fun x y z => V3 y x z;
  ecef2enu := fun x y z _ _ _ => V3 x y z;
  geodetic2enu := fun lat lon alt _ _ _ => Ok (V3 lon lat alt);
  latlon_ok := fun lat _ => if Rle_dec (Rabs lat) 90 then true else false;
  geoid := fun _ _ _ => 17%R |}.
Definition rwgs84 : ellipsoid RA :=
  {| ell_name := "wgs84"; ell_model := "WGS-84 (1984)"; ell_a := 6378137%R : num RA; ell_b := 6356752%R : num RA |}.
Definition rpt (lat : R) : dataset RA :=
  {| d_coords := {| is_int := false; rows := [V3 (10%R : num RA) lat (30%R : num RA)] |};
     d_crs := {| c_name := ELLPS; c_ellps := Some rwgs84; c_enu := None; c_vdatum := VD_EGM96 |} |}.
Lemma rgeo_ok b lat : (Rabs lat <= 90)%R -> latlon_ok rgeo lat b = true.
Proof. intros H. cbn. destruct (Rle_dec _ _); [reflexivity|contradiction]. Qed.
Lemma rgeo_height lat : (Rabs lat <= 90)%R ->
  exists y, convert rgeo EllpsHeight (rpt lat) = Ok y /\ rows (d_coords y) = [V3 (10%R : num RA) lat (30 + 17)%R].
Proof.
  intros H. cbn [convert]. unfold to_ellipsoid_height, ellipsoid_height, pack. cbn [rpt d_crs d_coords c_name rows forallb vx vy is_int].
  rewrite rgeo_ok by exact H. cbn. eexists. split; reflexivity.
Qed.
Lemma rwgs84_ok : wgs84 rgeo = Ok rwgs84.
Proof.
  change (wgs84 rgeo) with (pm_ellipsoid "wgs84" "WGS-84 (1984)" (6378137%R : num RA) (6356752%R : num RA)).
  unfold pm_ellipsoid. cbn -[Rltb Reqb Rdiv]. change (num RA) with R. 
  rewrite !(proj2 (Rltb_true _ _)); [reflexivity|lra|lra].
Qed.
Lemma batch_ok {A} (lib : geolib A) w D v ds (h : heap A) : wgs84 lib = Ok w -> separate D h -> (forall d, In d ds -> D d) -> NoDup ds ->
  (forall d, In d ds -> exists y, convert lib v (read h d) = Ok y) -> fst (o_batch lib v ds h) = Ok tt.
Proof.
  intros Hw Hs Hc Hn Hy. destruct (batch_spec lib w Hw D v ds h Hs Hc Hn) as (_ & _ & dn & td & -> & _ & _ & K). cbv zeta in K.
  destruct td as [|d td]; [exact K|]. destruct K as (e & K & _). destruct (Hy d) as [y Ey]; [apply in_or_app; cbn; auto|congruence].
Qed.
Example C75_retry_case :
  let h := loaded (rpt 0) [rpt 20; rpt 100; rpt (-45)] in
  let h1 := snd (o_batch rgeo EllpsHeight [0; 1; 2] h) in
  let h2 := loaded (rpt 0) [read h1 0; rpt 50; read h1 2] in
  wgs84 rgeo = Ok rwgs84 /\ separate (fun d => d < 3) h /\ separate (fun d => d < 3) h2 /\
  fst (o_batch rgeo EllpsHeight [0; 1; 2] h) = Err RangeError /\
  convert rgeo EllpsHeight (read h 0) = Ok (read h1 0) /\ read h1 2 = read h 2 /\
  fst (o_batch rgeo EllpsHeight [0; 1; 2] h2) = Ok tt.
Proof.
  intros h h1 h2. pose proof rwgs84_ok as Hw.
  assert (Hs : separate (fun d => d < 3) h) by exact (loaded_separate (rpt 0) [rpt 20; rpt 100; rpt (-45)]).
  assert (Hs2 : separate (fun d => d < 3) h2) by exact (loaded_separate (rpt 0) [read h1 0; rpt 50; read h1 2]).
  split; [exact Hw|]. split; [exact Hs|]. split; [exact Hs2|].
  assert (Hn : NoDup [0; 1; 2]) by (repeat constructor; cbn; intuition discriminate).
  assert (Hc : forall d, In d [0; 1; 2] -> d < 3) by (cbn; intuition lia).
  assert (H1 : convert rgeo EllpsHeight (read h 1) = Err RangeError).
  { unfold h. rewrite loaded_read. cbn [nth convert]. unfold to_ellipsoid_height, ellipsoid_height, pack.
    cbn [rpt d_crs d_coords c_name rows forallb vx vy is_int latlon_ok rgeo].
    destruct (Rle_dec (Rabs 100) 90) as [K|K]; [|reflexivity]. rewrite Rabs_right in K; lra. }
  destruct (rgeo_height 20) as (y & H0 & _); [rewrite Rabs_right; lra|].
  destruct (rgeo_height 50) as (y1 & G1 & _); [rewrite Rabs_right; lra|].
  destruct (rgeo_height (-45)) as (y2 & G2 & _); [rewrite Rabs_left; lra|].
  assert (Q : fst (o_batch rgeo EllpsHeight [0; 1; 2] h) = Err RangeError /\
    convert rgeo EllpsHeight (read h 0) = Ok (read h1 0) /\ read h1 2 = read h 2).
  { destruct (C75_batch RA rgeo rwgs84 (fun d => d < 3) EllpsHeight [0; 1; 2] h Hw Hs Hc Hn) as (_ & dn & td & E & K1 & K2 & K3).
    cbv zeta in *. destruct dn as [|d0 [|d1 dn]].
    - cbn in E. subst td. destruct K3 as (e & K3 & _). change (read h 0) with (rpt 20) in K3. congruence.
    - cbn in E. injection E as <- <-. destruct K3 as (e & K3 & K4). rewrite H1 in K3. injection K3 as <-. split; [exact K4|].
      split; [apply K1; left; reflexivity|apply K2; right; left; reflexivity].
    - cbn in E. injection E as <- <- E. specialize (K1 1 (or_intror (or_introl eq_refl))). congruence. }
  destruct Q as (Q1 & Q2 & Q3). do 3 (split; [assumption|]).
  apply (batch_ok rgeo rwgs84 (fun d => d < 3)); auto. intros d Hd.
  assert (E : d = 0 \/ d = 1 \/ d = 2) by (cbn in Hd; intuition lia). clear Hd. unfold h2. rewrite loaded_read.
  destruct E as [->|[->| ->]]; cbn [nth].
  - exists (read h1 0). apply (convert_again _ _ _ _ _ Hw) in Q2; [exact Q2|discriminate].
  - exists y1. exact G1.
  - exists y2. rewrite Q3. exact G2.
Qed.

(** ** C76: the points of a dataset do not move *)
(** Any history of the three conversions between reference systems on separate
    datasets, with exceptions caught: every dataset still denotes the positions it
    denoted at the start.  Hypotheses: the geodesy library inverts itself; datasets
    labelled "ellps" are on WGS84, those labelled "ecef" carry no ellipsoid (for
    other ellipsoids the claim is false: C42). *)
Definition on_wgs84 {A} (w : ellipsoid A) (c : crs A) : Prop :=
  match c_name c with
  | ELLPS => c_ellps c = Some w
  | ECEF => c_ellps c = None
  | CART | ENUref => True
  end.
Definition between_frames {A} (v : MObj.conv A) : Prop :=
  match v with ToEcef | ToWgs84 | ToEnu _ _ _ => True | Lon180 | EllpsHeight => False end.
Lemma alone_positions {A} (lib : geolib A) w v (x : dataset A) :
  ecef2geodetic_inverts lib -> enu_contract lib -> wgs84 lib = Ok w -> between_frames v -> on_wgs84 w (d_crs x) ->
  positions lib (alone lib x v) = positions lib x /\ on_wgs84 w (d_crs (alone lib x v)).
Proof.
  intros Hi He Hw Hv Hx. unfold alone. destruct (convert lib v x) as [y|] eqn:E; [|auto].
  destruct v as [| | | |lon0 lat0 alt0]; try contradiction; cbn [convert] in E.
  - split; [apply (to_ecef_positions lib x y E)|]. revert E. unfold to_ecef, pack, ellps_to_ecef, enu_to_ecef.
    destruct (c_name (d_crs x)) eqn:En.
    + intros [= <-]. exact Hx.
    + destruct (mapM _ _); cbn [bind]; [|discriminate]. intros [= <-]. reflexivity.
    + destruct (c_enu _); cbn [bind]; [|discriminate]. intros [= <-]. reflexivity.
    + intros [= <-]. exact Hx.
  - split; [apply (to_wgs84_same_positions lib x y Hi E)|]. revert E.
    unfold to_wgs84, pack, enu_to_wgs84, ellps_to_wgs84, ecef_to_wgs84. rewrite Hw. cbn [bind]. destruct (c_name (d_crs x)) eqn:En.
    + intros [= <-]. exact Hx.
    + destruct (match c_enu (d_crs x) with Some _ => _ | None => _ end); [cbn [bind]; intros [= <-]; exact Hx|].
      destruct (ellps_to_ecef lib _ _); cbn [bind]; [|discriminate]. intros [= <-]. reflexivity.
    + destruct (enu_to_ecef lib _ _); cbn [bind]; [|discriminate]. intros [= <-]. reflexivity.
    + intros [= <-]. reflexivity.
  - assert (K : (c_name (d_crs x) = CART \/ c_name (d_crs x) = ENUref) \/
      ((c_name (d_crs x) = ECEF /\ c_ellps (d_crs x) = None) \/ (c_name (d_crs x) = ELLPS /\ c_ellps (d_crs x) = Some w))).
    { unfold on_wgs84 in Hx. destruct (c_name (d_crs x)); auto. }
    destruct K as [K|K].
    + unfold to_enu in E. assert (x = y) as <- by (destruct K as [K|K]; rewrite K in E; congruence). auto.
    + destruct (to_enu_positions lib x y lon0 lat0 alt0 w He Hw K E) as (K1 & K2 & _). split; [exact K1|]. unfold on_wgs84. now rewrite K2.
Qed.
Theorem C76_positions :
  forall (A : arith) (lib : geolib A) w (D : nat -> Prop) (h : heap A) cs d,
  ecef2geodetic_inverts lib -> enu_contract lib -> wgs84 lib = Ok w ->
  separate D h -> (forall c, In c cs -> D (snd c) /\ between_frames (fst c)) -> D d -> on_wgs84 w (d_crs (read h d)) ->
  positions lib (read (history lib cs h) d) = positions lib (read h d).
Proof.
  intros A lib w D h cs d Hi He Hw Hs Hc Hd Hx.
  destruct (history_separate lib w Hw D cs h Hs (fun c H => proj1 (Hc c H))) as [_ K]. rewrite (K d Hd). clear K.
  assert (Ho : forall v, In v (own d cs) -> between_frames v).
  { intros v Hv. apply in_map_iff in Hv. destruct Hv as (c & <- & Hc'). apply filter_In in Hc'. apply Hc, Hc'. }
  revert Hx Ho. generalize (read h d) as x. generalize (own d cs) as vs. induction vs as [|v vs IH]; intros x Hx Ho; cbn [fold_left]; [reflexivity|].
  destruct (alone_positions lib w v x Hi He Hw (Ho v (or_introl eq_refl)) Hx) as [K1 K2].
  rewrite (IH _ K2); [exact K1|]. intros; apply Ho; right; assumption.
Qed.
Print Assumptions C76_positions.
(** two datasets of local coordinates sent round *)
Example C76_case :
  let h := loaded (ds false [] enu_crs) [ds false [zv 200 20 30] enu_crs; ds false [zv 10 20 30] (ellps_crs toy_wgs84 VD_EGM96)] in
  let enu (x y z : Z) : MObj.conv ZA := ToEnu (x : num ZA) (y : num ZA) (z : num ZA) in
  let cs := [(enu 7%Z 8%Z 9%Z, 1); (ToWgs84, 0); (ToEcef, 1); (enu 1%Z 2%Z 3%Z, 0); (enu 0%Z 0%Z 4%Z, 1)] in
  ecef2geodetic_inverts toy /\ enu_contract toy /\ wgs84 toy = Ok toy_wgs84 /\ separate (fun d => d < 2) h /\
  (forall c, In c cs -> snd c < 2 /\ between_frames (A := ZA) (fst c)) /\
  (forall d, d < 2 -> on_wgs84 toy_wgs84 (d_crs (read h d))) /\
  rows (d_coords (read (history toy cs h) 0)) <> rows (d_coords (read h 0)) /\
  rows (d_coords (read (history toy cs h) 1)) <> rows (d_coords (read h 1)).
Proof.
  intros h enu cs. split; [exact toy_inverts|]. split; [exact toy_enu_contract|]. split; [reflexivity|].
  split; [split; cbn; auto|].
  split; [intros c H; cbn in H; repeat (destruct H as [<-|H]; [cbn; split; [lia|exact I]|]); destruct H|].
  split; [intros [|[|d]] H; [exact I|reflexivity|lia]|].
  split; vm_compute; discriminate.
Qed.

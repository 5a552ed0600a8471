(** * Property C49: grids of observers *)
From Coq Require Import String ZArith Bool Arith Reals Lra Lia List.
Import ListNotations.
From Verif Require Import Base MUtils MConfig MCrs MDataset RArith PUtils PGrid.
Local Open Scope string_scope.
Local Open Scope R_scope.
Local Open Scope list_scope.

(** The configuration selects a grid: no points, no file, and three readable
    (start, end, step) lists. *)
Definition grid_config (c : sources RA) (v : view) (x0 x1 dx y0 y1 dy z0 z1 dz : R) : Prop :=
  (exists pts, first c (v ++ [KS "points"]) = Ok pts /\ truthy pts = false) /\
  (exists fp, first c (v ++ [KS "file_path"]) = Ok fp /\ truthy fp = false) /\
  (exists gr, first c (v ++ [KS "grid"]) = Ok gr /\ truthy gr = true) /\
  (exists a b s, first c (v ++ [KS "grid"; KS "xstart_xend_xstep"]) = Ok (YList [a; b; s]) /\
     num_of_yaml a = Some x0 /\ num_of_yaml b = Some x1 /\ num_of_yaml s = Some dx) /\
  (exists a b s, first c (v ++ [KS "grid"; KS "ystart_yend_ystep"]) = Ok (YList [a; b; s]) /\
     num_of_yaml a = Some y0 /\ num_of_yaml b = Some y1 /\ num_of_yaml s = Some dy) /\
  (exists a b s, first c (v ++ [KS "grid"; KS "zstart_zend_zstep"]) = Ok (YList [a; b; s]) /\
     num_of_yaml a = Some z0 /\ num_of_yaml b = Some z1 /\ num_of_yaml s = Some dz).

Lemma triple_ok (c : sources RA) v a b s x y z : first c v = Ok (YList [a; b; s]) ->
  num_of_yaml a = Some x -> num_of_yaml b = Some y -> num_of_yaml s = Some z ->
  exists i, get_triple c v = Ok (i, x, y, z).
Proof.
  intros E Ha Hb Hs. unfold get_triple, get_list. rewrite E. cbn [bind]. rewrite Ha, Hb, Hs. eauto.
Qed.
Lemma grid_reads read_csv c v x0 x1 dx y0 y1 dy z0 z1 dz : grid_config c v x0 x1 dx y0 y1 dy z0 z1 dz ->
  exists ix iy iz, read_coords (A := RA) read_csv c v = mgrid_points (A := RA) (ix, x0, x1, dx) (iy, y0, y1, dy) (iz, z0, z1, dz).
Proof.
  intros ((pts & Ep & Tp) & (fp & Ef & Tf) & (gr & Eg & Tg) & (xa & xb & xs & Ex & X1 & X2 & X3) &
    (ya & yb & ys & Ey & Y1 & Y2 & Y3) & (za & zb & zs & Ez & Z1 & Z2 & Z3)).
  destruct (triple_ok _ _ _ _ _ _ _ _ Ex X1 X2 X3) as [ix Tx]. destruct (triple_ok _ _ _ _ _ _ _ _ Ey Y1 Y2 Y3) as [iy Ty].
  destruct (triple_ok _ _ _ _ _ _ _ _ Ez Z1 Z2 Z3) as [iz Tz].
  exists ix, iy, iz. unfold read_coords, view_bool. rewrite Ep. cbn [bind]. rewrite Tp, Ef. cbn [bind]. rewrite Tf, Eg. cbn [bind].
  rewrite Tg, Tx, Ty, Tz. reflexivity.
Qed.

(** ** C49: grid enumeration *)
(** nx is the number of terms of x0, x0 + dx, ... that come before x1, and so
    on; the rows are all the products, each once, z fastest. *)
Theorem C49_grid :
  forall read_csv c v x0 x1 dx y0 y1 dy z0 z1 dz, grid_config c v x0 x1 dx y0 y1 dy z0 z1 dz ->
  dx <> 0 -> dy <> 0 -> dz <> 0 ->
  -1 < (x1 - x0) / dx -> -1 < (y1 - y0) / dy -> -1 < (z1 - z0) / dz ->
  exists co nx ny nz, read_coords (A := RA) read_csv c v = Ok co /\
    (forall i, (i < nx)%nat <-> before x1 dx (x0 + INR i * dx)) /\
    (forall j, (j < ny)%nat <-> before y1 dy (y0 + INR j * dy)) /\
    (forall k, (k < nz)%nat <-> before z1 dz (z0 + INR k * dz)) /\
    length (rows co) = (nx * ny * nz)%nat /\
    (forall i j k, (i < nx)%nat -> (j < ny)%nat -> (k < nz)%nat ->
       nth_error (rows co) ((i * ny + j) * nz + k)%nat = Some (V3 (x0 + INR i * dx) (y0 + INR j * dy) (z0 + INR k * dz))) /\
    NoDup (rows co).
Proof.
  intros csv c v x0 x1 dx y0 y1 dy z0 z1 dz Hg Hx Hy Hz Gx Gy Gz.
  destruct (grid_reads csv c v _ _ _ _ _ _ _ _ _ Hg) as (ix & iy & iz & E).
  destruct (grid_ok ix iy iz x0 x1 dx y0 y1 dy z0 z1 dz Hx Hy Hz Gx Gy Gz) as (co & Eco & _ & HL & HN).
  exists co, (Z.to_nat (nceil (a := RA) ((x1 - x0) / dx))), (Z.to_nat (nceil (a := RA) ((y1 - y0) / dy))), (Z.to_nat (nceil (a := RA) ((z1 - z0) / dz))).
  split; [now rewrite E|]. split; [intros; now apply size_before|]. split; [intros; now apply size_before|].
  split; [intros; now apply size_before|]. split; [exact HL|]. split; [exact HN|].
  apply NoDup_nth_error. intros m m' Hm Em.
  assert (Hm2 : (m' < length (rows co))%nat).
  { apply nth_error_Some. rewrite <- Em. now apply nth_error_Some. }
  rewrite HL in Hm, Hm2. apply index3 in Hm, Hm2. destruct Hm as (i & j & k & Hi & Hj & Hk & ->).
  destruct Hm2 as (i' & j' & k' & Hi' & Hj' & Hk' & ->). rewrite !HN in Em by assumption. injection Em as A B C.
  assert (K : forall a d (s t : nat), d <> 0 -> a + INR s * d = a + INR t * d -> s = t).
  { intros a d s t Hd K. apply INR_eq. apply Rplus_eq_reg_l in K. now apply Rmult_eq_reg_r in K. }
  rewrite (K _ _ _ _ Hx A), (K _ _ _ _ Hy B), (K _ _ _ _ Hz C). reflexivity.
Qed.
Print Assumptions C49_grid.

(** A zero step, and an end at least one step behind the start, are errors. *)
Theorem C49_errors :
  forall read_csv c v x0 x1 dx y0 y1 dy z0 z1 dz, grid_config c v x0 x1 dx y0 y1 dy z0 z1 dz ->
  (dx = 0 \/ dy = 0 \/ dz = 0 -> read_coords (A := RA) read_csv c v = Err ZeroDivisionError) /\
  (dx <> 0 -> dy <> 0 -> dz <> 0 ->
   (x1 - x0) / dx <= -1 \/ (y1 - y0) / dy <= -1 \/ (z1 - z0) / dz <= -1 ->
   read_coords (A := RA) read_csv c v = Err ValueError).
Proof.
  intros csv c v x0 x1 dx y0 y1 dy z0 z1 dz Hg.
  destruct (grid_reads csv c v _ _ _ _ _ _ _ _ _ Hg) as (ix & iy & iz & ->).
  unfold mgrid_points. rewrite !axis_size_ok. split.
  - intros H. destruct (Req_EM_T dx 0); [reflexivity|]. destruct (Req_EM_T dy 0); [reflexivity|].
    destruct (Req_EM_T dz 0); [reflexivity|]. exfalso. destruct H as [H|[H|H]]; contradiction.
  - intros Hx Hy Hz H. destruct (Req_EM_T dx 0); [contradiction|]. destruct (Req_EM_T dy 0); [contradiction|].
    destruct (Req_EM_T dz 0); [contradiction|]. cbn [bind].
    destruct H as [H|[H|H]]; apply size_neg, Z.ltb_lt in H; rewrite H; cbn [orb]; rewrite ?orb_true_r; reflexivity.
Qed.
Print Assumptions C49_errors.
(** 0, 1, ... below 5 by 2 (three points), 3, 2 above 1 (two points), one point *)
Example C49_case : exists c : sources RA,
  grid_config c [] 0 5 2 3 1 (-1) 0 1 1 /\ -1 < (5 - 0) / 2 /\ -1 < (1 - 3) / -1 /\ -1 < (1 - 0) / 1 /\
  before 5 2 (0 + INR 2 * 2) /\ ~ before 5 2 (0 + INR 3 * 2).
Proof.
  exists [YMap [("points", YNull); ("file_path", YNull); ("grid", YMap [
    ("xstart_xend_xstep", YList [YInt 0; YInt 5; YInt 2]);
    ("ystart_yend_ystep", YList [YInt 3; YInt 1; YInt (-1)]);
    ("zstart_zend_zstep", YList [YInt 0; YInt 1; YInt 1])])]].
  split; [|cbn [INR]; unfold before; lra].
  repeat split; try (eexists; split; reflexivity); eexists _, _, _; repeat split; reflexivity.
Qed.

(** * Grids of observers (geec/dataset.py:133-141) over the reals *)
From Coq Require Import String ZArith Bool Arith Reals Lra Lia List.
Import ListNotations.
From Verif Require Import Base MConfig MCrs MDataset RArith.
Local Open Scope R_scope.
Local Open Scope list_scope.

(** ** Products of lists *)
Lemma nth_flat_map {X Y} (f : X -> list Y) (n : nat) l : (forall x, In x l -> length (f x) = n) ->
  forall i j x, nth_error l i = Some x -> (j < n)%nat ->
  nth_error (flat_map f l) (i * n + j)%nat = nth_error (f x) j.
Proof.
  induction l as [|y l IH]; intros H i j x Hi Hj; [destruct i; discriminate|].
  destruct i as [|i]; cbn [nth_error] in Hi; cbn [flat_map].
  - injection Hi as ->. rewrite nth_error_app1; [f_equal; lia|]. rewrite H by (left; auto). lia.
  - rewrite nth_error_app2; rewrite (H y (or_introl eq_refl)); [|nia].
    replace (S i * n + j - n)%nat with (i * n + j)%nat by nia. apply IH; auto. intros; apply H; right; auto.
Qed.
Lemma len_flat_map {X Y} (f : X -> list Y) (n : nat) l : (forall x, In x l -> length (f x) = n) ->
  length (flat_map f l) = (length l * n)%nat.
Proof.
  induction l as [|y l IH]; intros H; [reflexivity|]. cbn [flat_map length]. rewrite app_length, IH, H; simpl; auto.
  intros; apply H; right; auto.
Qed.

(** ** One axis *)
(** x comes before the end of an axis with that step *)
Definition before (stop step x : R) : Prop := (0 < step /\ x < stop) \/ (step < 0 /\ stop < x).

Lemma ceil_spec (q : R) : q <= IZR (nceil (a := RA) q) < q + 1.
Proof.
  cbn [nceil RA]. rewrite opp_IZR. destruct (base_Int_part (- q)). lra.
Qed.
Lemma before_quot start stop step i : step <> 0 ->
  (before stop step (start + INR i * step) <-> INR i < (stop - start) / step).
Proof.
  intros Hs. unfold before. set (q := (stop - start) / step).
  assert (E : q * step = stop - start) by (unfold q; field; exact Hs).
  split.
  - intros [[H1 H2]|[H1 H2]].
    + apply (Rmult_lt_reg_r step); lra.
    + apply (Rmult_lt_reg_r (- step)); lra.
  - intros H. destruct (Rlt_or_le 0 step) as [K|K]; [left|right]; (split; [lra|]).
    + apply (Rmult_lt_compat_r step) in H; lra.
    + apply (Rmult_lt_compat_r (- step)) in H; lra.
Qed.
Lemma size_before (start stop step : R) (i : nat) : step <> 0 ->
  ((i < Z.to_nat (nceil (a := RA) ((stop - start) / step)%R))%nat <-> before stop step (start + INR i * step)).
Proof.
  intros Hs. rewrite before_quot by exact Hs. set (q := (stop - start) / step).
  destruct (ceil_spec q) as [L U]. set (n := nceil (a := RA) q) in *. rewrite INR_IZR_INZ. split.
  - intros H. assert (Z.of_nat i + 1 <= n)%Z by lia. apply IZR_le in H0. rewrite plus_IZR in H0. lra.
  - intros H. assert (Z.of_nat i < n)%Z by (apply lt_IZR; lra). lia.
Qed.
Lemma size_neg q : (nceil (a := RA) q < 0)%Z <-> q <= -1.
Proof.
  destruct (ceil_spec q) as [L U]. split; intros H.
  - assert (nceil (a := RA) q <= -1)%Z by lia. apply IZR_le in H0. lra.
  - apply lt_IZR. lra.
Qed.
Lemma axis_nth n start stop step t k : (k < Z.to_nat n)%nat ->
  nth_error (axis_points (A := RA) n (t, start, stop, step)) k = Some (start + INR k * step).
Proof.
  intros Hk. unfold axis_points. rewrite nth_error_map.
  rewrite (nth_error_nth' _ 0%nat) by (now rewrite seq_length). rewrite seq_nth by exact Hk. cbn [option_map]. f_equal.
  cbn [num nofZ nadd nmul RA]. rewrite INR_IZR_INZ. cbn [Nat.add]. ring.
Qed.
Lemma axis_len n t : length (axis_points (A := RA) n t) = Z.to_nat n.
Proof. destruct t as [[[? ?] ?] ?]. unfold axis_points. now rewrite map_length, seq_length. Qed.

(** ** The grid *)
Section Grid.
  Variables (ix iy iz : bool) (x0 x1 dx y0 y1 dy z0 z1 dz : R).
  Let nx := nceil (a := RA) ((x1 - x0) / dx).
  Let ny := nceil (a := RA) ((y1 - y0) / dy).
  Let nz := nceil (a := RA) ((z1 - z0) / dz).
  Lemma axis_size_ok t a b s : axis_size (A := RA) (t, a, b, s) =
    if Req_EM_T s 0 then Err ZeroDivisionError else Ok (nceil (a := RA) ((b - a) / s)).
  Proof.
    unfold axis_size. cbn [num neqb nofZ RA ndiv nsub]. unfold Reqb. destruct (Req_EM_T s 0); reflexivity.
  Qed.

  Lemma grid_ok : dx <> 0 -> dy <> 0 -> dz <> 0 ->
    -1 < (x1 - x0) / dx -> -1 < (y1 - y0) / dy -> -1 < (z1 - z0) / dz ->
    exists co, mgrid_points (A := RA) (ix, x0, x1, dx) (iy, y0, y1, dy) (iz, z0, z1, dz) = Ok co /\
      is_int co = (ix && iy && iz)%bool /\
      length (rows co) = (Z.to_nat nx * Z.to_nat ny * Z.to_nat nz)%nat /\
      forall i j k, (i < Z.to_nat nx)%nat -> (j < Z.to_nat ny)%nat -> (k < Z.to_nat nz)%nat ->
        nth_error (rows co) ((i * Z.to_nat ny + j) * Z.to_nat nz + k)%nat =
        Some (V3 (x0 + INR i * dx) (y0 + INR j * dy) (z0 + INR k * dz)).
  Proof.
    intros Hx Hy Hz Gx Gy Gz. unfold mgrid_points. rewrite !axis_size_ok.
    destruct (Req_EM_T dx 0); [contradiction|]. destruct (Req_EM_T dy 0); [contradiction|]. destruct (Req_EM_T dz 0); [contradiction|].
    cbn [bind]. fold nx ny nz.
    assert (N : forall q, -1 < q -> (nceil (a := RA) q <? 0)%Z = false).
    { intros q Hq. apply Z.ltb_ge. destruct (Z_lt_ge_dec (nceil (a := RA) q) 0) as [K|K]; [|lia]. apply size_neg in K. lra. }
    unfold nx, ny, nz at 1. rewrite !N by assumption. fold nx ny nz. cbn [orb].
    eexists. split; [reflexivity|]. cbn [is_int rows]. split; [reflexivity|]. 
    assert (Lz : forall x y, length (map (fun z => V3 x y z) (axis_points (A := RA) nz (iz, z0, z1, dz))) = Z.to_nat nz)
      by (intros; rewrite map_length; apply axis_len).
    assert (Ly : forall x, length (flat_map (fun y => map (fun z => V3 x y z) (axis_points (A := RA) nz (iz, z0, z1, dz)))
        (axis_points (A := RA) ny (iy, y0, y1, dy))) = (Z.to_nat ny * Z.to_nat nz)%nat).
    { intros x. rewrite (len_flat_map _ (Z.to_nat nz)) by auto. now rewrite axis_len. }
    split.
    - rewrite (len_flat_map _ (Z.to_nat ny * Z.to_nat nz)%nat) by auto. rewrite axis_len. lia.
    - intros i j k Hi Hj Hk.
      replace ((i * Z.to_nat ny + j) * Z.to_nat nz + k)%nat with (i * (Z.to_nat ny * Z.to_nat nz) + (j * Z.to_nat nz + k))%nat by nia.
      rewrite (nth_flat_map _ (Z.to_nat ny * Z.to_nat nz)%nat _ (fun x _ => Ly x) i _ _ (axis_nth nx x0 x1 dx ix i Hi)) by nia.
      rewrite (nth_flat_map _ (Z.to_nat nz) _ (fun y _ => Lz _ y) j _ _ (axis_nth ny y0 y1 dy iy j Hj)) by exact Hk.
      exact (map_nth_error _ k _ (axis_nth nz z0 z1 dz iz k Hk)).
  Qed.
End Grid.

(** every position of an nx*ny*nz list *)
Lemma index3 nx ny nz m : (m < nx * ny * nz)%nat -> exists i j k, (i < nx)%nat /\ (j < ny)%nat /\ (k < nz)%nat /\ m = ((i * ny + j) * nz + k)%nat.
Proof.
  intros H. assert (ny <> 0 /\ nz <> 0)%nat as [Hy Hz] by (split; intros ->; lia).
  exists (m / nz / ny)%nat, ((m / nz) mod ny)%nat, (m mod nz)%nat.
  split; [apply Nat.div_lt_upper_bound; [lia|]; apply Nat.div_lt_upper_bound; [lia|]; nia|].
  split; [apply Nat.mod_upper_bound; lia|]. split; [apply Nat.mod_upper_bound; lia|].
  rewrite (Nat.mul_comm (m / nz / ny)), <- Nat.div_mod by lia. rewrite (Nat.mul_comm (m / nz)), <- Nat.div_mod by lia. reflexivity.
Qed.

(** * Lemmas about cross_product (shape part, every arithmetic) *)
From Coq Require Import List ZArith Bool Arith Lia.
Import ListNotations.
From Verif Require Import Base MUtils.

Section PUtils.
  Context {A : arith}.
  Local Open Scope num_scope.

  (** a 1-D array and a 2-D array *)
  Definition row (xs : list (num A)) : nd A := Arr (map Sc xs).
  Definition rows2 (xss : list (list (num A))) : nd A := Arr (map row xss).

  Lemma ndim_row xs : nd_ndim (row xs) = 1.
  Proof. destruct xs; reflexivity. Qed.
  Lemma ndim_rows2 xss : xss <> [] -> nd_ndim (rows2 xss) = 2.
  Proof. destruct xss as [|xs xss]; [congruence|]. intros _. destruct xs; reflexivity. Qed.
  Lemma size_row xs : nd_size (row xs) = length xs.
  Proof.
    unfold row; simpl. induction xs as [|x xs IH]; simpl; [reflexivity|]. now rewrite IH.
  Qed.

  Lemma cross_1d_rows xs ys :
    cross_1d (row xs) (row ys) =
    match xs, ys with
    | [a1; a2; a3], [b1; b2; b3] =>
        Ok (row [a2 * b3 - a3 * b2; a3 * b1 - a1 * b3; a1 * b2 - a2 * b1])
    | _, _ => Err TypeError
    end.
  Proof.
    unfold cross_1d. rewrite !size_row.
    destruct xs as [|a1 [|a2 [|a3 [|a4 xs]]]]; try reflexivity.
    destruct ys as [|b1 [|b2 [|b3 [|b4 ys]]]]; reflexivity.
  Qed.

  Lemma cross_v1_1d_rows xs ys : cross_v1_1d (row xs) (row ys) = cross_1d (row xs) (row ys).
  Proof. unfold cross_v1_1d. now rewrite ndim_row. Qed.

  Lemma cross_product_1d xs ys : cross_product (row xs) (row ys) = cross_1d (row xs) (row ys).
  Proof. unfold cross_product. rewrite ndim_row. apply cross_v1_1d_rows. Qed.

  Lemma mapM_rows (f : nd A -> res (nd A)) xss :
    mapM f (map row xss) = mapM (fun xs => f (row xs)) xss.
  Proof. induction xss as [|x l IH]; simpl; [reflexivity|]. now rewrite IH. Qed.

  Lemma mapM_ok_forall2 {X Y} (f : X -> res Y) l ys :
    mapM f l = Ok ys <-> Forall2 (fun x y => f x = Ok y) l ys.
  Proof.
    split.
    - revert ys; induction l as [|x l IH]; simpl; intros ys.
      + intros [= <-]; constructor.
      + destruct (f x) as [y|] eqn:E; cbn [bind]; [|discriminate].
        destruct (mapM f l); cbn [bind]; [|discriminate]. intros [= <-]. constructor; auto.
    - induction 1 as [|x y l ys H _ IH]; simpl; [reflexivity|]. now rewrite H, IH.
  Qed.

  Lemma mapM_all_err {X Y} (f : X -> res Y) e l :
    (forall x, In x l -> (exists y, f x = Ok y) \/ f x = Err e) ->
    (exists x, In x l /\ f x = Err e) -> mapM f l = Err e.
  Proof.
    induction l as [|x l IH]; simpl; intros H [z [Hz Ez]]; [contradiction|].
    destruct (H x (or_introl eq_refl)) as [[y E]|E]; rewrite E; cbn [bind]; [|reflexivity].
    rewrite IH; auto. destruct Hz as [->|Hz]; [congruence|]. eauto.
  Qed.

  Lemma cross_product_2d_1d xss ys : xss <> [] ->
    cross_product (rows2 xss) (row ys) =
    do rs <- mapM (fun xs => cross_product (row xs) (row ys)) xss; Ok (Arr rs).
  Proof.
    intros H. unfold cross_product at 1. rewrite (ndim_rows2 _ H). simpl Nat.eqb. cbv iota.
    cbn [nd_rows rows2]. rewrite mapM_rows.
    assert (forall l, mapM (fun xs => cross_v1_1d (row xs) (row ys)) l =
                      mapM (fun xs => cross_product (row xs) (row ys)) l) as ->; [|reflexivity].
    intros l. induction l as [|x l IH]; simpl; [reflexivity|].
    now rewrite IH, cross_product_1d, cross_v1_1d_rows.
  Qed.
  Lemma cross_product_1d_2d xs yss : yss <> [] ->
    cross_product (row xs) (rows2 yss) =
    do rs <- mapM (fun ys => cross_product (row xs) (row ys)) yss; Ok (Arr rs).
  Proof.
    intros H. unfold cross_product at 1. rewrite ndim_row. simpl Nat.eqb. cbv iota.
    unfold cross_v1_1d. rewrite (ndim_rows2 _ H). simpl Nat.eqb. cbv iota.
    cbn [nd_rows rows2]. rewrite mapM_rows.
    assert (forall l, mapM (fun ys => cross_1d (row xs) (row ys)) l =
                      mapM (fun ys => cross_product (row xs) (row ys)) l) as ->; [|reflexivity].
    intros l. induction l as [|x l IH]; simpl; [reflexivity|].
    now rewrite IH, cross_product_1d.
  Qed.
  Lemma cross_product_2d_2d xss yss : xss <> [] -> yss <> [] ->
    cross_product (rows2 xss) (rows2 yss) =
    do rs <- mapM (fun xs => cross_product (row xs) (rows2 yss)) xss; Ok (Arr rs).
  Proof.
    intros H H'. unfold cross_product at 1. rewrite (ndim_rows2 _ H). simpl Nat.eqb. cbv iota.
    cbn [nd_rows rows2]. rewrite mapM_rows.
    assert (forall l, mapM (fun xs => cross_v1_1d (row xs) (rows2 yss)) l =
                      mapM (fun xs => cross_product (row xs) (rows2 yss)) l) as ->; [|reflexivity].
    intros l. induction l as [|x l IH]; simpl; [reflexivity|].
    rewrite IH. unfold cross_product. now rewrite ndim_row.
  Qed.

  Lemma cross_row_ok_or_type xs ys :
    (exists r, cross_product (row xs) (row ys) = Ok r) \/
    cross_product (row xs) (row ys) = Err TypeError.
  Proof.
    rewrite cross_product_1d, cross_1d_rows.
    destruct xs as [|? [|? [|? [|]]]]; eauto. destruct ys as [|? [|? [|? [|]]]]; eauto.
  Qed.
  Lemma cross_row_type xs ys : length xs <> 3 \/ length ys <> 3 ->
    cross_product (row xs) (row ys) = Err TypeError.
  Proof.
    rewrite cross_product_1d, cross_1d_rows.
    destruct xs as [|? [|? [|? [|]]]]; auto. destruct ys as [|? [|? [|? [|]]]]; auto.
    simpl. intros [H|H]; congruence.
  Qed.

  Lemma cross_shape xss ys zss : xss <> [] ->
    cross_product (rows2 xss) (row ys) = Ok zss ->
    exists out, zss = Arr out /\
      Forall2 (fun xs o => cross_product (row xs) (row ys) = Ok o) xss out.
  Proof.
    intros H. rewrite (cross_product_2d_1d _ _ H).
    destruct (mapM _ _) as [rs|] eqn:E; cbn [bind]; [|discriminate].
    intros [= <-]. exists rs. split; [reflexivity|]. now apply mapM_ok_forall2.
  Qed.
  Lemma cross_shape' xs yss zss : yss <> [] ->
    cross_product (row xs) (rows2 yss) = Ok zss ->
    exists out, zss = Arr out /\
      Forall2 (fun ys o => cross_product (row xs) (row ys) = Ok o) yss out.
  Proof.
    intros H. rewrite (cross_product_1d_2d _ _ H).
    destruct (mapM _ _) as [rs|] eqn:E; cbn [bind]; [|discriminate].
    intros [= <-]. exists rs. split; [reflexivity|]. now apply mapM_ok_forall2.
  Qed.
  Lemma cross_shape2 xss yss zss : xss <> [] -> yss <> [] ->
    cross_product (rows2 xss) (rows2 yss) = Ok zss ->
    exists out, zss = Arr out /\
      Forall2 (fun xs o => exists os, o = Arr os /\
        Forall2 (fun ys o' => cross_product (row xs) (row ys) = Ok o') yss os) xss out.
  Proof.
    intros H H'. rewrite (cross_product_2d_2d _ _ H H').
    destruct (mapM _ _) as [rs|] eqn:E; cbn [bind]; [|discriminate].
    intros [= <-]. exists rs. split; [reflexivity|]. apply mapM_ok_forall2 in E.
    clear H. induction E as [|x o l os Ho _ IH]; constructor; auto.
    exact (cross_shape' _ _ _ H' Ho).
  Qed.
  Lemma cross_bad_row xss ys : xss <> [] ->
    length ys <> 3 \/ (exists xs, In xs xss /\ length xs <> 3) ->
    cross_product (rows2 xss) (row ys) = Err TypeError.
  Proof.
    intros H Hbad. rewrite (cross_product_2d_1d _ _ H).
    rewrite (mapM_all_err _ TypeError); [reflexivity| |].
    - intros xs _. apply cross_row_ok_or_type.
    - destruct Hbad as [Hy|[xs [Hin Hx]]].
      + destruct xss as [|xs xss]; [congruence|]. exists xs. split; [now left|].
        apply cross_row_type; auto.
      + exists xs. split; [assumption|]. apply cross_row_type; auto.
  Qed.
  Lemma cross_bad_row' xs yss : yss <> [] ->
    length xs <> 3 \/ (exists ys, In ys yss /\ length ys <> 3) ->
    cross_product (row xs) (rows2 yss) = Err TypeError.
  Proof.
    intros H Hbad. rewrite (cross_product_1d_2d _ _ H).
    rewrite (mapM_all_err _ TypeError); [reflexivity| |].
    - intros ys _. apply cross_row_ok_or_type.
    - destruct Hbad as [Hy|[ys [Hin Hx]]].
      + destruct yss as [|ys yss]; [congruence|]. exists ys. split; [now left|].
        apply cross_row_type; auto.
      + exists ys. split; [assumption|]. apply cross_row_type; auto.
  Qed.
  Lemma cross_ok_or_type' xs yss : yss <> [] ->
    (exists r, cross_product (row xs) (rows2 yss) = Ok r) \/
    cross_product (row xs) (rows2 yss) = Err TypeError.
  Proof.
    intros H. rewrite (cross_product_1d_2d _ _ H). clear H.
    assert (forall l, (exists r, mapM (fun ys => cross_product (row xs) (row ys)) l = Ok r) \/
              mapM (fun ys => cross_product (row xs) (row ys)) l = Err TypeError) as Hl.
    { induction l as [|y l IH]; simpl; [eauto|].
      destruct (cross_row_ok_or_type xs y) as [[r ->]| ->]; cbn [bind]; auto.
      destruct IH as [[r' ->]| ->]; cbn [bind]; eauto. }
    destruct (Hl yss) as [[r ->]| ->]; cbn [bind]; eauto.
  Qed.
  Lemma cross_bad_row2 xss yss : xss <> [] -> yss <> [] ->
    (exists xs, In xs xss /\ length xs <> 3) \/ (exists ys, In ys yss /\ length ys <> 3) ->
    cross_product (rows2 xss) (rows2 yss) = Err TypeError.
  Proof.
    intros H H' Hbad. rewrite (cross_product_2d_2d _ _ H H').
    rewrite (mapM_all_err _ TypeError); [reflexivity| |].
    - intros xs _. now apply cross_ok_or_type'.
    - destruct Hbad as [[xs [Hin Hx]]|Hy].
      + exists xs. split; [assumption|]. apply cross_bad_row'; auto.
      + destruct xss as [|xs xss]; [congruence|]. exists xs. split; [now left|].
        apply cross_bad_row'; auto.
  Qed.
End PUtils.

(** * Model of geec/utils.py *)
From Coq Require Import List ZArith Bool Arith.
Import ListNotations.
From Verif Require Import Base.

Section Utils.
  Context {A : arith}.
  Local Open Scope num_scope.

  (** geec/utils.py:32-38, the scalar branch of [cross_product] once both
      arguments have been unpacked into three numbers. *)
  Definition cross3 (V1 V2 : vec A) : vec A :=
    let '(V3 a1 a2 a3) := V1 in
    let '(V3 b1 b2 b3) := V2 in
    let x := a2 * b3 - a3 * b2 in
    let y := a3 * b1 - a1 * b3 in
    let z := a1 * b2 - a2 * b1 in
    V3 x y z.

  (** numpy arrays of dimension 0, 1 and above, as nested lists.
      Simplification: rectangularity (all rows of equal length) is not
      enforced by the type; [nd_ndim] looks at the first row, as numpy's
      ndim does for rectangular data. *)
  Inductive nd : Type :=
  | Sc (x : num A)
  | Arr (l : list nd).

  Fixpoint nd_ndim (a : nd) : nat :=
    match a with
    | Sc _ => 0
    | Arr [] => 1
    | Arr (b :: _) => S (nd_ndim b)
    end.

  Fixpoint nd_size (a : nd) : nat :=
    match a with
    | Sc _ => 1
    | Arr l => (fix go (l : list nd) : nat :=
                  match l with
                  | [] => 0
                  | b :: l' => (nd_size b + go l')%nat
                  end) l
    end.

  Definition nd_rows (a : nd) : list nd :=
    match a with Sc _ => [] | Arr l => l end.

  Definition nd_of_vec (v : vec A) : nd := Arr [Sc (vx v); Sc (vy v); Sc (vz v)].

  (** [a1, a2, a3 = V1] (geec/utils.py:32): unpacking of exactly three
      entries; ValueError when the first axis does not have length three (e.g.
      a 3-D array of shape (1,1,3), the only way to get here with size 3 and
      another first axis). *)
  Definition unpack3 (a : nd) : res (vec A) :=
    match a with
    | Arr [Sc x; Sc y; Sc z] => Ok (V3 x y z)
    | Sc _ => Err TypeError
    | _ => Err ValueError
    end.

  (** geec/utils.py:30-42: the two last branches (neither argument is 2-D). *)
  Definition cross_1d (V1 V2 : nd) : res nd :=
    if (Nat.eqb (nd_size V1) 3 && Nat.eqb (nd_size V2) 3)%bool then
      do v1 <- unpack3 V1; do v2 <- unpack3 V2;
      Ok (nd_of_vec (cross3 v1 v2))
    else Err TypeError.

  (** geec/utils.py:28-42: V1 is not 2-D. *)
  Definition cross_v1_1d (V1 V2 : nd) : res nd :=
    if Nat.eqb (nd_ndim V2) 2 then
      do rs <- mapM (fun V => cross_1d V1 V) (nd_rows V2); Ok (Arr rs)
    else cross_1d V1 V2.

  (** geec/utils.py:21-42 [cross_product].  The recursive calls of the Python
      code are on rows of a 2-D array, hence on 1-D arrays, so the recursion is
      unrolled into the two helpers above. *)
  Definition cross_product (V1 V2 : nd) : res nd :=
    if Nat.eqb (nd_ndim V1) 2 then
      do rs <- mapM (fun V => cross_v1_1d V V2) (nd_rows V1); Ok (Arr rs)
    else cross_v1_1d V1 V2.

  (** geec/utils.py:17 [minus_identity = np.diag(np.full(3, -1))] *)
  Definition minus_identity : mat A :=
    let m := nofZ (-1)%Z in
    V3 (V3 m n0 n0) (V3 n0 m n0) (V3 n0 n0 m).
End Utils.
Arguments nd A : clear implicits.

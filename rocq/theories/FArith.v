(** * The IEEE 754 double-precision instance of the arithmetic

    Numbers are the standard library's [spec_float] with 53 bits and maximal
    exponent 1024 (Coq.Floats.SpecFloat: signed zeros, infinities, one nan,
    correctly rounded + - * / sqrt).  These are ordinary Gallina functions: no
    primitive floats and no axioms.  The libm functions [log] and [acos] are
    parameters, because IEEE does not prescribe their rounding; theorems hold
    for all of them, or state what they need.  So is [np.dot] of three numbers,
    which numpy leaves to BLAS: [FDot.v] says what is assumed of it, and that
    the orders of summation with and without fused multiply-add meet it.
    Simplification: one function stands for all of np.dot on two vectors, on a
    matrix and a vector, and for the sum of squares in np.linalg.norm. *)
From Coq Require Import ZArith Bool Floats.SpecFloat.
From Verif Require Import Base.
Local Open Scope Z_scope.

Notation F := spec_float.
Definition fprec : Z := 53.
Definition femax : Z := 1024.
Definition fofZ (z : Z) : F := binary_normalize fprec femax z 0 false.
Definition fadd : F -> F -> F := SFadd fprec femax.
Definition fsub : F -> F -> F := SFsub fprec femax.
Definition fmul : F -> F -> F := SFmul fprec femax.
Definition fdiv : F -> F -> F := SFdiv fprec femax.
Definition fsqrt : F -> F := SFsqrt fprec femax.
(** np.sign: -1, 0 or 1, and nan for nan *)
Definition fsign (x : F) : F :=
  match x with
  | S754_nan => S754_nan
  | S754_zero _ => S754_zero false
  | S754_infinity s | S754_finite s _ _ => if s then fofZ (-1) else fofZ 1
  end.
(** ceiling of a finite number (np.ceil followed by int); 0 otherwise, where the
    code raises: only grids use it, and no theorem about doubles speaks of grids *)
Definition fceil (x : F) : Z :=
  match x with
  | S754_finite s m e =>
      let v := if s then Zneg m else Zpos m in
      match e with
      | Zneg k => - ((- v) / 2 ^ Zpos k)
      | _ => v * 2 ^ e
      end
  | _ => 0
  end.
(** np.pi = 0x1.921fb54442d18p+1 and np.finfo(float).eps = 2^-52 *)
Definition fpi : F := S754_finite false 7074237752028440 (-51).
Definition feps : F := S754_finite false 4503599627370496 (-104).

Definition FA (flog facos : F -> F) (fdot : vec3 F -> vec3 F -> F) : arith := {|
  num := F; nofZ := fofZ; nadd := fadd; nsub := fsub; nmul := fmul; ndiv := fdiv;
  nopp := SFopp; nabs := SFabs; nsqrt := fsqrt; nlog := flog; nacos := facos; nsign := fsign;
  nltb := SFltb; neqb := SFeqb; npi := fpi; neps := feps; nceil := fceil; ndot := fdot |}.

(** ((a*b)+c*d)+e*f, each operation rounded *)
Definition plain_dot (v w : vec3 F) : F := fadd (fadd (fmul (vx v) (vx w)) (fmul (vy v) (vy w))) (fmul (vz v) (vz w)).

(** not a number, or infinite *)
Definition is_nan (x : F) : bool := match x with S754_nan => true | _ => false end.
Definition is_fin (x : F) : bool := match x with S754_zero _ | S754_finite _ _ _ => true | _ => false end.

(** nan is absorbing *)
Lemma nan_add_l y : fadd S754_nan y = S754_nan. Proof. now destruct y. Qed.
Lemma nan_add_r x : fadd x S754_nan = S754_nan. Proof. now destruct x. Qed.
Lemma nan_sub_l y : fsub S754_nan y = S754_nan. Proof. now destruct y. Qed.
Lemma nan_sub_r x : fsub x S754_nan = S754_nan. Proof. now destruct x. Qed.
Lemma nan_mul_l y : fmul S754_nan y = S754_nan. Proof. now destruct y. Qed.
Lemma nan_mul_r x : fmul x S754_nan = S754_nan. Proof. now destruct x. Qed.
Lemma nan_div_l y : fdiv S754_nan y = S754_nan. Proof. now destruct y. Qed.
Lemma nan_div_r x : fdiv x S754_nan = S754_nan. Proof. now destruct x. Qed.
Lemma nan_ltb_l y : SFltb S754_nan y = false. Proof. now destruct y. Qed.
Lemma nan_ltb_r x : SFltb x S754_nan = false. Proof. now destruct x. Qed.
Lemma nan_eqb_l y : SFeqb S754_nan y = false. Proof. now destruct y. Qed.

(** a dot product that gives nan for a nan *)
Definition nan_dot (d : vec3 F -> vec3 F -> F) : Prop :=
  forall v w, vx v = S754_nan \/ vy v = S754_nan \/ vz v = S754_nan \/
    vx w = S754_nan \/ vy w = S754_nan \/ vz w = S754_nan -> d v w = S754_nan.
Lemma plain_nan : nan_dot plain_dot.
Proof.
  intros v w. unfold plain_dot. intros [E|[E|[E|[E|[E|E]]]]]; rewrite E;
    rewrite ?nan_mul_l, ?nan_mul_r, ?nan_add_l, ?nan_add_r, ?nan_add_l; reflexivity.
Qed.

Example one_plus_half_ulp : fadd (fofZ 1) (fdiv feps (fofZ 2)) = fofZ 1 /\ fadd (fofZ 1) feps <> fofZ 1.
Proof. vm_compute. split; [reflexivity|discriminate]. Qed.

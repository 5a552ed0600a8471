(** * Base: results with Python exceptions, abstract arithmetic, 3-vectors.

    The model is written once, over an abstract arithmetic [arith] (a record of
    operations, no laws).  Theorems about control flow, caching, aliasing,
    bookkeeping and I/O are proved for EVERY [arith], hence also for IEEE
    doubles (nan/inf included).  Theorems about numerical meaning are proved
    for the instance [RA] (file RArith.v), i.e. in exact real arithmetic. *)
From Coq Require Import List ZArith Bool Arith.
Import ListNotations.

(** Python exceptions that the modelled code can raise
    (ZeroDivisionError: numba scalar division; ValueError: math.acos/sqrt,
    strict zip, unpacking; the others as named in the code). *)
Inductive exn : Type :=
| ZeroDivisionError | ValueError | TypeError | KeyError | IndexError
| NameError | AttributeError | FileNotFoundError | NotImplementedError
| RuntimeError | AssertionError
| UFuncTypeError        (* numpy: in-place cast int64 <- float64 *)
| QhullError            (* scipy.spatial *)
| ConfigValueError | ConfigTypeError | ConfigNotFoundError (* confuse *)
| RangeError            (* pygeodesy: latitude out of range *)
| ParserError           (* pandas *)
| OSError.              (* file system *)

Inductive res (X : Type) : Type :=
| Ok (x : X)
| Err (e : exn).
Arguments Ok {X} x.
Arguments Err {X} e.

Definition bind {X Y} (r : res X) (f : X -> res Y) : res Y :=
  match r with Ok x => f x | Err e => Err e end.
Notation "'do' x <- r ; k" := (bind r (fun x => k))
  (at level 200, x pattern, r at level 100, k at level 200).

Fixpoint mapM {X Y} (f : X -> res Y) (l : list X) : res (list Y) :=
  match l with
  | [] => Ok []
  | x :: l' => do y <- f x; do ys <- mapM f l'; Ok (y :: ys)
  end.

Fixpoint foldM {X S} (f : S -> X -> res S) (l : list X) (s : S) : res S :=
  match l with
  | [] => Ok s
  | x :: l' => do s' <- f s x; foldM f l' s'
  end.

(** A 1-D numpy array of size 3, and a (3,3) array as three rows. *)
Record vec3 (X : Type) : Type := V3 { vx : X; vy : X; vz : X }.
Arguments V3 {X} _ _ _.
Arguments vx {X} _.
Arguments vy {X} _.
Arguments vz {X} _.

(** Abstract arithmetic: the scalar operations the code uses.
    [nltb x y] is Python's [x < y], [neqb x y] is [x == y].
    [ndot v w] is np.dot of two arrays of size 3: numpy hands it to BLAS, which
    may fuse multiplications and additions or add in another order.
    [neps] is geec/utils.py:18 [epsilon = np.finfo(float).eps]. *)
Record arith : Type := {
  num : Type;
  nofZ : Z -> num;
  nadd : num -> num -> num;
  nsub : num -> num -> num;
  nmul : num -> num -> num;
  ndiv : num -> num -> num;
  nopp : num -> num;
  nabs : num -> num;
  nsqrt : num -> num;
  nlog : num -> num;
  nacos : num -> num;
  nsign : num -> num;
  nltb : num -> num -> bool;
  neqb : num -> num -> bool;
  npi : num;
  neps : num;
  nceil : num -> Z;
  ndot : vec3 num -> vec3 num -> num
}.
Arguments nofZ {a} _.
Arguments nadd {a} _ _.
Arguments nsub {a} _ _.
Arguments nmul {a} _ _.
Arguments ndiv {a} _ _.
Arguments nopp {a} _.
Arguments nabs {a} _.
Arguments nsqrt {a} _.
Arguments nlog {a} _.
Arguments nacos {a} _.
Arguments nsign {a} _.
Arguments nltb {a} _ _.
Arguments neqb {a} _ _.
Arguments npi {a}.
Arguments neps {a}.
Arguments nceil {a} _.
Arguments ndot {a} _ _.

Declare Scope num_scope.
Delimit Scope num_scope with num.
Infix "+" := nadd : num_scope.
Infix "-" := nsub : num_scope.
Infix "*" := nmul : num_scope.
Infix "/" := ndiv : num_scope.
Notation "- x" := (nopp x) : num_scope.
Infix "<?" := nltb : num_scope.
Infix "=?" := neqb : num_scope.
Notation n0 := (nofZ 0%Z).
Notation n1 := (nofZ 1%Z).
Notation n2 := (nofZ 2%Z).

Definition vmap {X Y} (f : X -> Y) (v : vec3 X) : vec3 Y :=
  V3 (f (vx v)) (f (vy v)) (f (vz v)).
Definition vmap2 {X Y Z} (f : X -> Y -> Z) (v : vec3 X) (w : vec3 Y) : vec3 Z :=
  V3 (f (vx v) (vx w)) (f (vy v) (vy w)) (f (vz v) (vz w)).

(** coordinate access by index 0,1,2 (any other index reads the third) *)
Definition vnth {X} (i : nat) (v : vec3 X) : X :=
  match i with O => vx v | S O => vy v | _ => vz v end.

Section Vec.
  Context {A : arith}.
  Local Open Scope num_scope.
  Definition vec : Type := vec3 (num A).
  Definition mat : Type := vec3 vec.

  Definition vzero : vec := V3 n0 n0 n0.
  Definition mzero : mat := V3 vzero vzero vzero.
  Definition vadd (v w : vec) : vec := vmap2 nadd v w.
  Definition vsub (v w : vec) : vec := vmap2 nsub v w.
  Definition vopp (v : vec) : vec := vmap nopp v.
  (** [k * v] and [v * k] (elementwise products, commutative in IEEE and R;
      the operand order of the code is kept in the definitions below). *)
  Definition vscale (k : num A) (v : vec) : vec := vmap (fun x => k * x) v.
  Definition vmuls (v : vec) (k : num A) : vec := vmap (fun x => x * k) v.
  Definition vdivs (v : vec) (k : num A) : vec := vmap (fun x => x / k) v.
  Definition madd (m p : mat) : mat := vmap2 vadd m p.
  Definition mopp (m : mat) : mat := vmap vopp m.
  (** np.dot of two 3-vectors *)
  Definition dot (v w : vec) : num A := ndot v w.
  (** np.dot(matrix, vector): one dot product per row *)
  Definition mdot (m : mat) (w : vec) : vec := vmap (fun r => dot r w) m.
  (** np.linalg.norm of a 3-vector *)
  Definition norm (v : vec) : num A := nsqrt (dot v v).
  (** np.array_equal on two 3-vectors *)
  Definition veqb (v w : vec) : bool :=
    (vx v =? vx w) && (vy v =? vy w) && (vz v =? vz w).
End Vec.
Arguments vec : clear implicits.
Arguments mat : clear implicits.
Arguments vec A : assert.
Arguments mat A : assert.

(** What the functions of src/util.rs should compute: sums, polynomial
    evaluations and products, discrete Fourier transforms, sums of multiples of
    points, folding of vectors and the ladder that consumes a challenge. *)
From Coq Require Import ZArith List Bool Arith.
From Verif Require Import Model.FieldTrait Model.Curve Model.Threads Spec.CurveSpec.
Import ListNotations.
Open Scope nat_scope. Open Scope list_scope.

(** A machine on which the library runs: at least one processor, and a logarithm
    whose ceiling is between 1 and 57 for sizes from 32 to 2^32 - 1 (the true
    value is between 4 and 23). *)
Definition machine_ok (M : Machine) : Prop :=
  (1 <= cpus M)%nat /\
  (forall n, (32 <= n)%nat -> (Z.of_nat n < 2 ^ 32)%Z -> (1 <= ln_ceil M n <= 57)%nat).

Section Poly.
  Context {F : Field}.
  Fixpoint fpow (x : F) (n : nat) : F := match n with O => fone | S n => fmul x (fpow x n) end.
  (** f 0 + ... + f (n-1) *)
  Fixpoint fsum (f : nat -> F) (n : nat) : F := match n with O => fzero | S n => fadd (fsum f n) (f n) end.
  Definition coeff (a : list F) (i : nat) : F := nth i a fzero.

  Definition dot (a b : list F) : F := fsum (fun i => fmul (coeff a i) (coeff b i)) (length a).
  (** the polynomial with coefficients [a] (constant term first) at [x] *)
  Definition eval_at (a : list F) (x : F) : F := fsum (fun i => fmul (coeff a i) (fpow x i)) (length a).
  (** coefficient [i] of a product of polynomials *)
  Definition product_coeff (a b : list F) (i : nat) : F :=
    fsum (fun j => fmul (coeff a j) (coeff b (i - j))) (S i).
  (** [w] has order exactly [n] *)
  Definition primitive_root (w : F) (n : nat) : Prop :=
    fpow w n = fone /\ forall i, 0 < i < n -> fpow w i <> fone.
  (** the powers 1, x, ..., x^(n-1) *)
  Definition powers (x : F) (n : nat) : list F := map (fpow x) (seq 0 n).
End Poly.

(** Halving a vector: the i-th elements of the two halves are combined.  Repeated
    with the successive challenges, from the first to the last. *)
Definition halve {A} (op : A -> A -> A) (v : list A) : list A :=
  let l := (length v / 2)%nat in
  map (fun '(lo, hi) => op lo hi) (combine (firstn l v) (skipn l v)).
Definition fold_vector {A B} (op : B -> A -> A -> A) (cs : list B) (v : list A) : list A :=
  fold_left (fun v c => halve (op c) v) cs v.
(** lo * c^-1 + hi * c *)
Definition fold_scalar {F : Field} (c : F * F) (lo hi : F) : F :=
  fadd (fmul lo (snd c)) (fmul hi (fst c)).
Definition fold_point {C : Curve} (c : Scalar C * Scalar C) (lo hi : C) : C :=
  c_add (c_mul lo (snd c)) (c_mul hi (fst c)).

Section Points.
  Context {C : Curve}.
  (** [D] is the sum of the multiples s_i A_i *)
  Inductive sum_of_multiples : list (Scalar C) -> list (point (Base C)) -> point (Base C) -> Prop :=
  | som_nil : sum_of_multiples [] [] infinity
  | som_cons s ss A As B D E : multiple A (scalar_nat (C := C) s) B -> sum_of_multiples ss As D ->
      sum_of B D E -> sum_of_multiples (s :: ss) (A :: As) E.

  (** (x, y) |-> (beta x, y) *)
  Definition endo (A : point (Base C)) : point (Base C) :=
    match A with None => None | Some (x, y) => Some (fmul (BETA_BASE C) x, y) end.
  (** Double-and-add: each step doubles, adds A or its opposite, and then may
      apply the endomorphism. *)
  Inductive ladder (A : point (Base C)) : list (bool * bool) -> point (Base C) -> point (Base C) -> Prop :=
  | ladder_nil B : ladder A [] B B
  | ladder_cons (n e : bool) bits (B D E R : point (Base C)) : sum_of B B D -> sum_of D (if n then opposite A else A) E ->
      ladder A bits (if e then endo E else E) R -> ladder A ((n, e) :: bits) B R.
End Points.
(** The pairs of bits (2i, 2i+1) of a challenge, i = 1..63 *)
Definition challenge_pairs (challenge : Z) : list (bool * bool) :=
  map (fun i => (Z.testbit challenge (2 * Z.of_nat i), Z.testbit challenge (2 * Z.of_nat i + 1))) (seq 1 63).

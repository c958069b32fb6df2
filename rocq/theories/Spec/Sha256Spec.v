(** SHA-256 as in FIPS 180-4, on lists of bits. *)
From Coq Require Import String Ascii List Bool ZArith.
From Verif Require Import Spec.BoolSpec Spec.UIntSpec.
Import ListNotations.
Open Scope Z_scope. Open Scope list_scope.

(** 4.1.2 *)
Definition Sigma0 (x : Z) := Z.lxor (Z.lxor (ROTR 2 x) (ROTR 13 x)) (ROTR 22 x).
Definition Sigma1 (x : Z) := Z.lxor (Z.lxor (ROTR 6 x) (ROTR 11 x)) (ROTR 25 x).
Definition sigma0 (x : Z) := Z.lxor (Z.lxor (ROTR 7 x) (ROTR 18 x)) (SHR 3 x).
Definition sigma1 (x : Z) := Z.lxor (Z.lxor (ROTR 17 x) (ROTR 19 x)) (SHR 10 x).

(** 4.2.2 and 5.3.3: the first 32 bits of the fractional parts of the cube
    roots of the first 64 primes, and of the square roots of the first 8. *)
Definition prime_b (n : Z) : bool :=
  (2 <=? n) && forallb (fun d => negb (n mod (Z.of_nat d) =? 0)) (seq 2 (Z.to_nat (Z.sqrt n) - 1)).
Definition primes : list Z := filter prime_b (map Z.of_nat (seq 2 310)).
(** the integer part of the cube root of [x], found bit by bit *)
Fixpoint cbrt_bits (n : nat) (x r : Z) : Z :=
  match n with
  | O => r
  | S n => let r' := r + 2 ^ Z.of_nat n in cbrt_bits n x (if r' * r' * r' <=? x then r' else r)
  end.
Definition K : list Z := map (fun q => cbrt_bits 40 (q * 2 ^ 96) 0 mod 2 ^ 32) primes.
Definition H0 : list Z := map (fun q => Z.sqrt (q * 2 ^ 64) mod 2 ^ 32) (firstn 8 primes).

(** 5.1.1: the message, a 1, the fewest zeros that reach 448 modulo 512, and
    the length in 64 bits, most significant first. *)
Definition padding (l : nat) : list bool :=
  true :: repeat false ((512 + 447 - l mod 512) mod 512) ++ rev (bits_of 64 (Z.of_nat l)).
Definition padded_message (m : list bool) : list bool := m ++ padding (length m).

(** 5.2.1: blocks of 512 bits as sixteen words, most significant bit first. *)
Definition nth_chunk {A} (n i : nat) (l : list A) : list A := firstn n (skipn (n * i) l).
Definition block_words (b : list bool) : list Z := map (fun i => bits_val (rev (nth_chunk 32 i b))) (seq 0 16).
Definition blocks (m : list bool) : list (list bool) := map (fun i => nth_chunk 512 i m) (seq 0 (length m / 512)).

(** 6.2.2 *)
Definition schedule_step (W : list Z) (t : nat) : list Z :=
  W ++ [ADD [sigma1 (nth (t - 2) W 0); nth (t - 7) W 0; sigma0 (nth (t - 15) W 0); nth (t - 16) W 0]].
Definition schedule (block : list bool) : list Z := fold_left schedule_step (seq 16 48) (block_words block).
Definition working := (Z * Z * Z * Z * Z * Z * Z * Z)%type.
Definition round (W : list Z) (st : working) (t : nat) : working :=
  let '(a, b, c, d, e, f, g, h) := st in
  let T1 := ADD [h; Sigma1 e; CH e f g; nth t K 0; nth t W 0] in
  let T2 := ADD [Sigma0 a; MAJ a b c] in
  (ADD [T1; T2], a, b, c, ADD [d; T1], e, f, g).
Definition hash_block (H : list Z) (block : list bool) : list Z :=
  let '(a, b, c, d, e, f, g, h) :=
    fold_left (round (schedule block)) (seq 0 64)
      (nth 0 H 0, nth 1 H 0, nth 2 H 0, nth 3 H 0, nth 4 H 0, nth 5 H 0, nth 6 H 0, nth 7 H 0) in
  [ADD [a; nth 0 H 0]; ADD [b; nth 1 H 0]; ADD [c; nth 2 H 0]; ADD [d; nth 3 H 0];
   ADD [e; nth 4 H 0]; ADD [f; nth 5 H 0]; ADD [g; nth 6 H 0]; ADD [h; nth 7 H 0]].
Definition digest_bits (H : list Z) : list bool := flat_map (fun x => rev (bits_of 32 x)) H.
Definition SHA256 (m : list bool) : list bool :=
  digest_bits (fold_left hash_block (blocks (padded_message m)) H0).

(** The bits of an ASCII string, for test vectors. *)
Fixpoint string_bits (s : string) : list bool :=
  match s with
  | EmptyString => []
  | String c s => rev (bits_of 8 (Z.of_nat (nat_of_ascii c))) ++ string_bits s
  end.

(** src/util.rs: parallel multi-exponentiation, FFT, polynomial products, the
    folding formulas of the inner product argument and the scalar of a challenge.

    [None] is a panic.  Lengths, indices and shift counts are [nat]; where the
    code computes in a fixed-width type the comment says why nothing wraps. *)
From Coq Require Import ZArith List Bool Arith.
From Verif Require Import Model.FieldTrait Model.FieldLimbs Model.Curve Model.Threads.
Import ListNotations.
Open Scope Z_scope.

(** a [u64] as an exponent: [&[x, 0, 0, 0]] *)
Definition exp64 (n : nat) : limbs := L4 (Z.of_nat n) 0 0 0.

Definition all_some {A} (l : list (option A)) : option (list A) :=
  fold_right (fun x acc => match x, acc with Some x, Some acc => Some (x :: acc) | _, _ => None end) (Some []) l.

Section FieldUtil.
  Context {F : Field}.

  (** [compute_inner_product]: util.rs:32-41 *)
  Definition compute_inner_product (a b : list F) : option F :=
    if Nat.eqb (length a) (length b) then
      Some (fold_left (fun acc '(a, b) => fadd acc (fmul a b)) (combine a b) fzero)
    else None.

  (** [log2_floor]: util.rs:222-232 ([num] fuel is enough) *)
  Fixpoint log2_floor_loop (fuel num pow : nat) : nat :=
    match fuel with
    | O => pow
    | S fuel => if (2 ^ (pow + 1) <=? num)%nat then log2_floor_loop fuel num (pow + 1) else pow
    end.
  Definition log2_floor (num : nat) : nat := log2_floor_loop num num 0.

  (** [bitreverse]: util.rs:247-254 *)
  Definition bitreverse (n : Z) (l : nat) : Z :=
    fst (fold_left (fun '(r, n) (_ : nat) => (Z.lor (Z.shiftl r 1) (Z.land n 1), Z.shiftr n 1)) (seq 0 l) (0, n)).

  (** [slice.swap] *)
  Definition swap (a : list F) (i j : nat) : list F :=
    let x := nth i a fzero in
    let y := nth j a fzero in
    at_index j (fun _ => x) (at_index i (fun _ => y) a).

  (** The inner loop [for j in 0..m]: util.rs:275-281.  Indices stay below [n]. *)
  Definition butterfly (k m : nat) (w_m : F) (st : list F * F) (j : nat) : list F * F :=
    let '(a, w) := st in
    let t := fmul (nth (k + j + m) a fzero) w in
    let a := at_index (k + j + m) (fun _ => fsub (nth (k + j) a fzero) t) a in
    let a := at_index (k + j) (fun x => fadd x t) a in
    (a, fmul w w_m).
  (** [while k < n]: util.rs:272-284 ([n] fuel is enough: k grows by 2m > 0) *)
  Fixpoint fft_blocks (fuel n k m : nat) (w_m : F) (a : list F) : list F :=
    match fuel with
    | O => a
    | S fuel =>
        if (k <? n)%nat then
          fft_blocks fuel n (k + 2 * m) m w_m (fst (fold_left (butterfly k m w_m) (seq 0 m) (a, fone)))
        else a
    end.
  (** one pass of [for _ in 0..log_n]: util.rs:268-287; state (a, m) *)
  Definition fft_pass (omega : F) (n : nat) (st : list F * nat) (_ : nat) : list F * nat :=
    let '(a, m) := st in
    let w_m := pow F omega (exp64 (n / (2 * m))) in
    (fft_blocks n n 0 m w_m a, (m * 2)%nat).
  (** [serial_fft]: util.rs:246-288.  [n] is the length as a [u32]; [1 << log_n]
      overflows (a panic) for log_n >= 32; below, no [u32] computation exceeds n. *)
  Definition serial_fft (a : list F) (omega : F) (log_n : nat) : option (list F) :=
    let n := Z.of_nat (length a) mod 2 ^ 32 in
    if (log_n <? 32)%nat && (n =? 2 ^ Z.of_nat log_n) then
      let n := Z.to_nat n in
      let a := fold_left (fun a k =>
                 let rk := Z.to_nat (bitreverse (Z.of_nat k) log_n) in
                 if (k <? rk)%nat then swap a rk k else a) (seq 0 n) a in
      Some (fst (fold_left (fft_pass omega n) (seq 0 log_n) (a, 1%nat)))
    else None.

  (** [parallel_fft]: util.rs:290-330.  A thread's chunk is (tmp, elt); [elt] is
      its local variable.  [1 << log_new_n] etc. are [usize]. *)
  Definition fft_shuffle (a : list F) (log_n log_new_n ncpu i : nat) (omega_step omega_j : F)
      (st : list F * F) : list F * F :=
    let '(tmp, elt) :=
      fold_left (fun '(tmp, elt) s =>
        let idx := ((i + s * 2 ^ log_new_n) mod 2 ^ log_n)%nat in
        let t := fmul (nth idx a fzero) elt in
        (at_index i (fun x => fadd x t) tmp, fmul elt omega_step)) (seq 0 ncpu) st in
    (tmp, fmul elt omega_j).
  Definition fft_thread (a : list F) (omega new_omega : F) (log_n log_new_n ncpu j : nat)
      : thread (option (list F * F)) :=
    let omega_j := pow F omega (exp64 j) in
    let omega_step := pow F omega (exp64 (j * 2 ^ log_new_n)) in
    mkThread (Some (repeat fzero (2 ^ log_new_n), fone))
      (map (fun i st => option_map (fft_shuffle a log_n log_new_n ncpu i omega_step omega_j) st)
           (seq 0 (2 ^ log_new_n))
       ++ [fun st => match st with
                     | None => None
                     | Some (tmp, elt) => option_map (fun tmp => (tmp, elt)) (serial_fft tmp new_omega log_new_n)
                     end]).
  Definition parallel_fft (sched : list nat) (a : list F) (omega : F) (log_n log_cpus : nat) : option (list F) :=
    if (log_cpus <=? log_n)%nat then
      let ncpu := (2 ^ log_cpus)%nat in
      let log_new_n := (log_n - log_cpus)%nat in
      let new_omega := pow F omega (exp64 ncpu) in
      match all_some (scope sched (map (fft_thread a omega new_omega log_n log_new_n ncpu) (seq 0 ncpu))) with
      | None => None
      | Some tmp =>
          Some (map (fun idx => nth (idx / 2 ^ log_cpus) (fst (nth (idx mod 2 ^ log_cpus) tmp ([], fzero))) fzero)
                    (seq 0 (length a)))
      end
    else None.

  (** [best_fft]: util.rs:234-243 *)
  Definition best_fft (M : Machine) (site : nat) (a : list F) (omega : F) (log_n : nat) : option (list F) :=
    let log_cpus := log2_floor (cpus M) in
    if (log_n <=? log_cpus)%nat then serial_fft a omega log_n
    else parallel_fft (sched M site) a omega log_n log_cpus.

  (** The two parallel loops of [multiply_polynomials]: util.rs:176-195, 203-219.
      [op] is applied to the elements of [a] and of [b] pairwise. *)
  Definition zip_thread (op : F -> F -> F) (ab : list F * list F) : thread (list F) :=
    let '(a, b) := ab in
    mkThread a (map (fun '(i, y) (a : list F) => at_index i (fun x => op x y) a) (combine (seq 0 (length a)) b)).
  Definition zip_parallel (M : Machine) (site : nat) (op : F -> F -> F) (a b : list F) : option (list F) :=
    if (cpus M <? length a)%nat then
      let chunk := (length a / cpus M)%nat in
      if Nat.eqb chunk 0 then None
      else Some (unchunk chunk a (scope (sched M site) (map (zip_thread op) (combine (chunks chunk a) (chunks chunk b)))))
    else Some (map (fun '(a, b) => op a b) (combine a b) ++ skipn (length b) a).

  (** [while m < coeffs_of_result]: util.rs:146-157; returns (m, exp) *)
  Fixpoint domain_loop (fuel coeffs m exp : nat) : option (nat * nat) :=
    if (m <? coeffs)%nat then
      match fuel with
      | O => None
      | S fuel =>
          if (f_S F <=? exp + 1)%nat then None   (* panic!("polynomial too large") *)
          else domain_loop fuel coeffs (m * 2) (exp + 1)
      end
    else Some (m, exp).
  (** [Vec::resize] *)
  Definition resize (a : list F) (m : nat) : list F := firstn m a ++ repeat fzero (m - length a).
  (** [multiply_polynomials]: util.rs:141-220.  [a.len() - 1] of an empty vector
      is an overflow; [S] fuel is enough for the loop. *)
  Definition multiply_polynomials (M : Machine) (a b : list F) : option (list F) :=
    if Nat.eqb (length a) 0 || Nat.eqb (length b) 0 then None
    else
      let coeffs_of_result := ((length a - 1) + (length b - 1) + 1)%nat in
      match domain_loop (f_S F) coeffs_of_result 1 0 with
      | None => None
      | Some (m, exp) =>
          let alpha := fold_left (fun alpha (_ : nat) => fsquare alpha) (seq exp (f_S F - exp)) f_ALPHA in
          let a := resize a m in
          let b := resize b m in
          match best_fft M 0 a alpha exp, best_fft M 1 b alpha exp with
          | Some a, Some b =>
              match zip_parallel M 2 fmul a b, f_invert alpha with
              | Some a, Some alpha_inv =>
                  match best_fft M 3 a alpha_inv exp, f_invert (f_from_u64 (Z.of_nat m)) with
                  | Some a, Some minv =>
                      match zip_parallel M 4 (fun x _ => fmul x minv) a a with
                      | Some a => Some (firstn coeffs_of_result a)
                      | None => None
                      end
                  | _, _ => None
                  end
              | _, _ => None
              end
          | _, _ => None
          end
      end.

  (** [compute_b]: util.rs:377-390; on the reversed slices: the code recurses on
      the slices without their last elements. *)
  Fixpoint compute_b_rev (x : F) (cs cs_inv : list F) : F :=
    match cs, cs_inv with
    | [c], ci :: _ => fadd ci (fmul c x)
    | c :: cs, ci :: cs_inv => fmul (fadd ci (fmul c x)) (compute_b_rev (fsquare x) cs cs_inv)
    | _, _ => fone                                  (* not reached: lengths are equal and not 0 *)
    end.
  Definition compute_b (x : F) (challenges challenges_inv : list F) : option F :=
    if Nat.eqb (length challenges) 0 then None
    else if Nat.eqb (length challenges) (length challenges_inv)
    then Some (compute_b_rev x (rev challenges) (rev challenges_inv))
    else None.

  (** [compute_g_coeffs_for_inner_product]: util.rs:392-406.
      [32 - 1 - leading_zeros(i)] of a [u32] that is not 0 is its binary logarithm
      (n = 2^lg_n must fit a [u32]: there are at most 2^31 generators). *)
  Definition compute_g_coeffs_for_inner_product (challenges_sq : list F) (allinv : F) : list F :=
    let lg_n := length challenges_sq in
    fold_left (fun s i =>
      let lg_i := Nat.log2 i in
      let k := (2 ^ lg_i)%nat in
      s ++ [fmul (nth (i - k) s fzero) (nth ((lg_n - 1) - lg_i) challenges_sq fzero)])
      (seq 1 (2 ^ lg_n - 1)) [allinv].
End FieldUtil.

(** [get_challenge_scalar]: util.rs:351-375 ([challenge] is a [u128]) *)
Definition get_challenge_scalar {F1 F2 : Field} (challenge : F1) : F2 :=
  let challenge := f_get_lower_128 challenge in
  let acc := fone in
  let acc := fadd acc acc in
  let acc := fadd acc fone in
  fold_left (fun acc i =>
    let should_negate := Z.land (Z.shiftr challenge (Z.of_nat (i * 2))) 1 =? 1 in
    let should_endo := Z.land (Z.shiftr challenge (Z.of_nat (i * 2 + 1))) 1 =? 1 in
    let acc := fadd acc acc in
    let acc := if should_negate then fsub acc fone else fadd acc fone in
    if should_endo then fmul acc f_BETA else acc) (seq 1 63) acc.

Section CurveUtil.
  Context {C : Curve}.

  (** [get_at]: util.rs:73-90 ([u64]: at most 8 bytes are read) *)
  Definition get_at (segment c : nat) (bytes : list Z) : Z :=
    let skip_bits := (segment * c)%nat in
    let skip_bytes := (skip_bits / 8)%nat in
    if (32 <=? skip_bytes)%nat then 0
    else
      let v := firstn 8 (skipn skip_bytes bytes ++ repeat 0 8) in
      let tmp := read_le v in
      let tmp := Z.shiftr tmp (Z.of_nat (skip_bits - skip_bytes * 8)) in
      tmp mod 2 ^ Z.of_nat c.

  (** The body of [for current_segment in (0..segments).rev()]: util.rs:95-119 *)
  Definition multiexp_segment (c : nat) (coeffs : list (list Z)) (bases : list C) (segment : nat) (acc : C) : C :=
    let acc := Nat.iter c c_double acc in
    let buckets :=
      fold_left (fun buckets '(coeff, base) =>
        let coeff := get_at segment c coeff in
        if coeff =? 0 then buckets
        else at_index (Z.to_nat coeff - 1) (fun b => c_add b base) buckets)
        (combine coeffs bases) (repeat (c_zero : C) (2 ^ c - 1)) in
    snd (fold_left (fun '(running_sum, acc) exp =>
           let running_sum := c_add running_sum exp in
           (running_sum, c_add acc running_sum)) (rev buckets) (c_zero, acc)).
  (** One thread: util.rs:63-119; its chunk is [acc] *)
  Definition multiexp_thread (M : Machine) (cb : list (Scalar C) * list C) : thread C :=
    let '(coeffs, bases) := cb in
    let coeffs := map f_to_bytes coeffs in
    let c := if (length bases <? 32)%nat then 3%nat else ln_ceil M (length bases) in
    let segments := (256 / c + 1)%nat in
    mkThread c_zero (map (multiexp_segment c coeffs bases) (rev (seq 0 segments))).
  (** [multiexp]: util.rs:44-139 *)
  Definition multiexp (M : Machine) (coeffs : list (Scalar C)) (bases : list C) : option C :=
    if Nat.eqb (length coeffs) (length bases) then
      if (cpus M <? length coeffs)%nat then
        let chunk := (length coeffs / cpus M)%nat in
        let results := scope (sched M 0) (map (multiexp_thread M) (combine (chunks chunk coeffs) (chunks chunk bases))) in
        Some (fold_left c_add results c_zero)
      else
        Some (fold_left (fun acc '(coeff, base) => c_add acc (c_mul base coeff)) (combine coeffs bases) c_zero)
    else None.

  (** [parallel_generator_collapse]: util.rs:5-30.  [chunks_mut(0)] panics. *)
  Definition collapse_thread (challenge challenge_inv : Scalar C) (lh : list C * list C) : thread (list C) :=
    let '(lo, hi) := lh in
    mkThread lo (map (fun '(i, h) (lo : list C) =>
                        at_index i (fun l => c_add (c_mul l challenge_inv) (c_mul h challenge)) lo)
                     (combine (seq 0 (length lo)) hi)).
  Definition parallel_generator_collapse (M : Machine) (g : list C) (challenge challenge_inv : Scalar C)
      : option (list C) :=
    let l := (length g / 2)%nat in
    let g_lo := firstn l g in
    let g_hi := skipn l g in
    let chunk := (l / cpus M)%nat in
    let chunk := if (chunk <? cpus M)%nat then l else chunk in
    if Nat.eqb chunk 0 then None
    else
      let done := scope (sched M 0) (map (collapse_thread challenge challenge_inv)
                                        (combine (chunks chunk g_lo) (chunks chunk g_hi))) in
      Some (unchunk chunk g_lo done ++ g_hi).

  (** [compute_g_for_inner_product]: util.rs:408-416 *)
  Definition compute_g_for_inner_product (M : Machine) (generators : list C) (challenges_sq : list (Scalar C))
      (allinv : Scalar C) : option C :=
    multiexp M (compute_g_coeffs_for_inner_product challenges_sq allinv) generators.
End CurveUtil.
